(** C18, C19, C20, C21, C23, C25, C44, C45 without the condition [sound]: the values of
    numbers and strings are what the decoder makes of them ([actual], Actual.v), right or
    wrong, and the claims about members, fields, entries, elements and order hold all the
    same.  Instead of [sound] only the panic on an empty quoted number is excluded
    ([no_empty_number], Typed.v, C17).

    The definitions are those of PropsStruct.v, PropsSlice.v, PropsNested.v and Order.v
    with [actual] for [ideal]; a key selects the field or entry that it does in fact, each
    \u escape being translated on its own. *)
From Coq Require Import Permutation.
From Verif Require Import Base NumSpec StrSpec JsonNum Atoi AtoiProofs AtoiAny Types AppendType Token FloatLit Heap Machine Dt Dec Control Root Elab Value Dval Sep Refine Refine2 Refine3 Spec Typed SpecProofs Main Parse World Elaborate PropsRefuted PropsDecode PropsStruct PropsSlice PropsNested Encodes RoundTrip PropsRoundTrip Order PropsOrder PropsStrict Actual PropsExact OrderActual.
Open Scope Z_scope.

Lemma characterised C O E dis T d stk D s v a h g F :
  decoder_for C E dis T d stk D -> json_text s v -> ctl_root C O d v -> no_empty_number C O d v -> variable C d h a g F ->
  match actual C O s d v g with
  | VOk g' => exists D' h' F', Decode C O stk D s (TOk (flat 0 v)) (Some a) h = Ret (-1) None D' h' /\
      variable C d h' a g' F' /\ only h h' (Some a) (dsize (c_w64 C) d) F F'
  | VErr i e g' => exists D' h' F', Decode C O stk D s (TOk (flat 0 v)) (Some a) h = Ret (Z.of_nat i) (Some e) D' h' /\
      variable C d h' a g' F' /\ only h h' (Some a) (dsize (c_w64 C) d) F F'
  | VPan => False
  end.
Proof.
  intros Df J Ct Ne V. pose proof (C15_characterised_partial C O E dis T d stk D s v a h g F Df J Ct V) as Q.
  destruct (actual C O s d v g); try exact Q. destruct (C17_no_panic_partial C O E dis T d stk D s v a h g F Df J Ct Ne V) as (r & er & D' & h' & X). pose proof (eq_trans (eq_sym Q) X) as Y. discriminate Y.
Qed.

(** ** C18 *)
(** What is left of a document if unknown members and the formatting are removed
    (as [act_content], PropsStruct.v, but a key selects the field that it does in fact). *)
Definition act_known (C : cfg) (O : opts) (fs : list ((bytes * Z) * dt)) (x : (nat * bytes) * jv) : bool :=
  match act_field_for C O fs (snd (fst x)) with Some _ => true | None => false end.
Fixpoint act_content (C : cfg) (O : opts) (s : bytes) (d : dt) (v : jv) {struct d} : jv :=
  match d, v with
  | DJson _ _, v => JStr 0 (source s v)
  | DPtr t, JNull _ => JNull 0
  | DPtr t, v => act_content C O s t v
  | (DArr _ t | DSlice t), JArr _ _ l => JArr 0 0 (map (act_content C O s t) l)
  | DMap _ t, JObj _ _ l => JObj 0 0 (map (fun x => ((0%nat, snd (fst x)), act_content C O s t (snd x))) l)
  | DStruct _ fs, JObj _ _ l =>
      JObj 0 0 (map (fun x => ((0%nat, snd (fst x)),
                  match act_field_for C O fs (snd (fst x)) with
                  | Some j => match nth_error (map (fun x => act_content C O s (snd x)) fs) j with Some f => f (snd x) | None => JNull 0 end
                  | None => JNull 0
                  end)) (filter (act_known C O fs) l))
  | _, v => erase v
  end.


Lemma act_generic_erase : forall v v', erase v = erase v' -> act_generic v = act_generic v'.
Proof.
  induction v as [i|i b|i r|i r|i r|i j l IH|i j l IH] using jv_ind'; intros [i'|i' b'|i' r'|i' r'|i' r'|i' j' l'|i' j' l'] E; try discriminate; cbn [erase] in E.
  1: reflexivity. 1-4: injection E as <-; reflexivity.
  - injection E as E. cbn [act_generic]. f_equal. revert l' E. induction l as [|x l IHl]; intros [|x' l'] E; try discriminate; [reflexivity|].
    cbn in E. injection E as E1 E2. inversion IH as [|? ? P1 P2]; subst. rewrite (P1 x' E1). destruct (act_generic x'); [|reflexivity]. rewrite (IHl P2 l' E2). reflexivity.
  - injection E as E. cbn [act_generic]. f_equal. generalize (@nil (bytes * jany)). revert l' E. induction l as [|[[p k] x] l IHl]; intros [|[[p' k'] x'] l'] E acc; try discriminate; [reflexivity|].
    cbn in E. injection E as E1 E2 E3. subst k'. inversion IH as [|? ? P1 P2]; subst. cbn [fst snd] in *. rewrite (P1 x' E2). destruct (act_generic x'); [|reflexivity]. apply IHl; assumption.
Qed.
Lemma act_sc_erase C x v v' : erase v = erase v' -> act_sc C x v = act_sc C x v'.
Proof.
  intros E. pose proof (act_generic_erase v v' E) as G.
  destruct v as [i|i b|i r|i r|i r|i j l|i j l], v' as [i'|i' b'|i' r'|i' r'|i' r'|i' j' l'|i' j' l']; try discriminate E; cbn [erase] in E.
  1: reflexivity. 1-4: injection E as <-; reflexivity.
  1,2: destruct x; try reflexivity; cbn [act_sc]; rewrite G; reflexivity.
Qed.

Section Content.
Variables (C : cfg) (O : opts) (s s' : bytes).
Hypothesis Un : o_unknown O = false.

Definition act_same (d : dt) : Prop := forall v v' g, act_content C O s d v = act_content C O s' d v' -> outcome (actual C O s d v g) = outcome (actual C O s' d v' g).

Lemma act_elemsv_same t : act_same t -> forall l l' gs, map (act_content C O s t) l = map (act_content C O s' t) l' ->
  outcomes (elemsv (actual C O s t) l gs) = outcomes (elemsv (actual C O s' t) l' gs).
Proof.
  intros H l l' gs E. revert gs. pattern l, l'. revert E. apply map_eq_ind; [intros gs; destruct gs; reflexivity|]. intros x x' r r' E1 _ IH [|g gs]; [reflexivity|].
  cbn [elemsv]. specialize (H x x' g E1). specialize (IH gs). destruct (actual C O s t x g) as [a|i e a|], (actual C O s' t x' g) as [a'|i' e' a'|]; try discriminate H; cbn [outcome] in H; inversion H; subst; try reflexivity.
  destruct (elemsv (actual C O s t) r gs), (elemsv (actual C O s' t) r' gs); cbn [vmap outcomes] in *; congruence.
Qed.
Lemma act_slicev_same t z fast keep : act_same t -> forall l l' g, map (act_content C O s t) l = map (act_content C O s' t) l' ->
  outcome (slicev (actual C O s t) z fast keep l g) = outcome (slicev (actual C O s' t) z fast keep l' g).
Proof.
  intros H l l' g E. pose proof (len_same _ _ _ _ E) as Ln. unfold slicev. rewrite <- Ln. destruct l as [|x l], l' as [|x' l']; try discriminate Ln; [reflexivity|].
  destruct (contents g) as [vis hid]. destruct (_ <=? _)%nat.
  - pose proof (act_elemsv_same t H _ _ (vis ++ hid) E) as Q. destruct (elemsv (actual C O s t) (x :: l) _), (elemsv (actual C O s' t) (x' :: l') _); try discriminate Q; cbn [outcomes outcome] in *; congruence.
  - match goal with |- outcome (match elemsv _ _ ?gs with _ => _ end) = _ => pose proof (act_elemsv_same t H _ _ gs E) as Q end.
    destruct (elemsv (actual C O s t) (x :: l) _), (elemsv (actual C O s' t) (x' :: l') _); try discriminate Q; cbn [outcomes outcome] in *; try congruence. destruct fast; congruence.
Qed.
Lemma act_entries_same k t isstruct z : act_same t -> forall l l' m,
  map (fun x => ((0%nat, snd (fst x)), act_content C O s t (snd x))) l = map (fun x => ((0%nat, snd (fst x)), act_content C O s' t (snd x))) l' ->
  outcomes (act_entries C k (actual C O s t) isstruct z l m) = outcomes (act_entries C k (actual C O s' t) isstruct z l' m).
Proof.
  intros H l l' m E. revert m. pattern l, l'. revert E. apply map_eq_ind; [reflexivity|]. intros [[p key] x] [[p' key'] x'] r r' E1 _ IH m. cbn in E1. injection E1 as <- E1.
  cbn [act_entries]. destruct (act_key C k key) as [[gk|e]|]; [|reflexivity|reflexivity].
  match goal with |- context [actual C O s t x ?g] => specialize (H x x' g E1); destruct (actual C O s t x g), (actual C O s' t x' g) end;
    try discriminate H; cbn [outcome] in H; inversion H; subst; try reflexivity. apply IH.
Qed.
Lemma act_mss_same l l' : map (fun x => ((0%nat, snd (fst x)), erase (snd x))) l = map (fun x => ((0%nat, snd (fst x)), erase (snd x))) l' ->
  forall acc, match act_mss l acc, act_mss l' acc with inl a, inl b => a = b | inr (_, e), inr (_, e') => e = e' | _, _ => False end.
Proof.
  intros E. pattern l, l'. revert E. apply map_eq_ind; [reflexivity|]. intros [[p key] x] [[p' key'] x'] r r' E1 _ IH acc. cbn in E1. injection E1 as <- E1.
  destruct x, x'; try discriminate E1; cbn [act_mss]; try reflexivity; try apply IH. cbn in E1. injection E1 as <-. apply IH.
Qed.
Lemma act_members_known fs dec l : forall gs, ideal_members O (act_field_for C O fs) dec l gs = ideal_members O (act_field_for C O fs) dec (filter (act_known C O fs) l) gs.
Proof.
  induction l as [|[[p key] x] l IH]; intros gs; [reflexivity|]. cbn [ideal_members filter]. unfold act_known at 1. cbn [fst snd].
  destruct (act_field_for C O fs key) as [j|] eqn:E.
  - cbn [ideal_members]. rewrite E. destruct (nth_error dec j), (nth_error gs j); try reflexivity. destruct (v x g); try reflexivity. apply IH.
  - rewrite Un. apply IH.
Qed.
Lemma act_content_null d v : act_content C O s d v = JNull 0 -> match v with JNull _ => True | _ => False end.
Proof. revert v. induction d using dt_ind'; intros v; destruct v; cbn [act_content erase]; try discriminate; try (intros; exact I); intros H; apply IHd in H; exact H. Qed.
End Content.
Section Content2.
Variables (C : cfg) (O : opts) (s s' : bytes).
Hypothesis Un : o_unknown O = false.
Lemma act_content_same d : act_same C O s s' d.
Proof.
  induction d as [x|id z|id z| |n t IH| |t IH|k t IH| |t IH|z fs IH] using dt_ind'; intros v v' g E.
  - assert (E' : erase v = erase v') by (destruct v, v'; exact E). cbn [actual]. rewrite (act_sc_erase C x v v' E'). apply outcome_lput.
  - destruct v, v'; try discriminate E; try reflexivity. cbn in E. injection E as <-. cbn [actual]. unfold userv. destruct (c_ut _ _ _ _) as [new [c|]]; reflexivity.
  - assert (Es : source s v = source s' v') by (cbn in E; destruct v, v'; injection E as E; exact E). cbn [actual]. rewrite Es. unfold userv. destruct (c_uj _ _ _ _) as [new [c|]]; reflexivity.
  - destruct v, v'; try discriminate E; reflexivity.
  - destruct v, v'; try discriminate E; try reflexivity. cbn [act_content] in E. injection E as E. cbn [actual]. destruct g; try reflexivity.
    assert (En : map (act_content C O s t) (firstn n l) = map (act_content C O s' t) (firstn n l0)) by (rewrite <- !firstn_map, E; reflexivity).
    pose proof (act_elemsv_same C O s s' t IH _ _ l1 En) as Q.
    destruct (elemsv (actual C O s t) _ _), (elemsv (actual C O s' t) _ _); try discriminate Q; cbn [outcomes outcome vmap] in *; congruence.
  - destruct v, v'; try discriminate E; reflexivity.
  - destruct v, v'; try discriminate E; try reflexivity. cbn [act_content] in E. injection E as E. cbn [actual].
    destruct (match t with DEmpty => true | _ => false end) eqn:Et.
    + destruct t; try discriminate Et. rewrite (len_same _ _ _ _ E). reflexivity.
    + assert (Q := act_slicev_same C O s s' t (zero t) (match fast_et t with Some _ => true | None => false end) (carried t) IH _ _ g E).
      destruct t; try discriminate Et; exact Q.
  - destruct v, v'; try discriminate E; try reflexivity. cbn [act_content] in E. injection E as E. cbn [actual].
    pose proof (act_entries_same C O s s' k t (is_struct t) (zero t) IH _ _ (match g with VMap (Some m) => m | _ => [] end) E) as Q.
    destruct (act_entries _ _ _ _ _ l _), (act_entries _ _ _ _ _ l0 _); try discriminate Q; cbn [outcomes outcome vmap] in *; congruence.
  - destruct v, v'; try discriminate E; try reflexivity. cbn [act_content erase] in E. injection E as E. cbn [actual].
    pose proof (act_mss_same _ _ E []) as Q. destruct (act_mss l []) as [m|[p e]], (act_mss l0 []) as [m'|[p' e']]; try contradiction; subst; reflexivity.
  - assert (Q : match v, v' with JNull _, JNull _ => True | JNull _, _ | _, JNull _ => False | _, _ => act_content C O s t v = act_content C O s' t v' end).
    { destruct v, v'; try exact I; try (cbn [act_content] in E; apply (act_content_null C O s) in E; exact E);
        try (cbn [act_content] in E; symmetry in E; apply (act_content_null C O s') in E; exact E); exact E. }
    assert (G : act_content C O s t v = act_content C O s' t v' -> outcome (vmap (fun g => VPtr (Some g)) (actual C O s t v (zero t))) = outcome (vmap (fun g => VPtr (Some g)) (actual C O s' t v' (zero t)))).
    { intros E'. specialize (IH v v' (zero t) E'). destruct (actual C O s t v _), (actual C O s' t v' _); try discriminate IH; cbn [outcome vmap] in *; congruence. }
    destruct v, v'; try contradiction; try reflexivity; exact (G Q).
  - destruct v, v'; try discriminate E; try reflexivity. cbn [act_content] in E. injection E as E. cbn [actual]. destruct g; try reflexivity.
    rewrite (act_members_known C O Un fs _ l), (act_members_known C O Un fs _ l0).
    assert (Q : forall gs, outcomes (ideal_members O (act_field_for C O fs) (map (fun x => actual C O s (snd x)) fs) (filter (act_known C O fs) l) gs)
      = outcomes (ideal_members O (act_field_for C O fs) (map (fun x => actual C O s' (snd x)) fs) (filter (act_known C O fs) l0) gs)).
    { revert E. generalize (filter (act_known C O fs) l0). generalize (filter (act_known C O fs) l). intros m m' E. pattern m, m'. revert E. apply map_eq_ind; [reflexivity|]. intros [[p key] x] [[p' key'] x'] r r' E1 _ Q gs.
      cbn [fst snd] in E1. injection E1 as <- E1. cbn [ideal_members]. rewrite Un. destruct (act_field_for C O fs key) as [jj|]; [|apply Q].
      rewrite !nth_error_map in *. destruct (nth_error fs jj) as [f|] eqn:Ef; cbn [option_map] in *; [|reflexivity]. destruct (nth_error gs jj) as [g|]; [|reflexivity].
      pose proof (proj1 (Forall_forall _ _) IH f (nth_error_In _ _ Ef) x x' g E1) as H.
      destruct (actual C O s (snd f) x g), (actual C O s' (snd f) x' g); try discriminate H; cbn [outcome] in H; inversion H; subst; try reflexivity. apply Q. }
    match goal with |- context [ideal_members _ _ _ _ ?gs] => specialize (Q gs) end. destruct (ideal_members _ _ _ (filter _ l) _), (ideal_members _ _ _ (filter _ l0) _); try discriminate Q; cbn [outcomes outcome vmap] in *; congruence.
Qed.
End Content2.

(** The result (value, error or not, kind of error) of a call depends only on the act_content:
    unknown members, with whatever value, anywhere in the document, make no difference, nor
    does white space.  (Missing from C18: unknown members whose value contains an object,
    for which the claim is false: C18_refuted.) *)
Theorem C18_unknown_members_any_leaf_partial C O E dis T d stk D1 D2 s s' v v' a h g F :
  decoder_for C E dis T d stk D1 -> decoder_for C E dis T d stk D2 -> o_unknown O = false ->
  json_text s v -> json_text s' v' -> act_content C O s d v = act_content C O s' d v' ->
  ctl_root C O d v -> ctl_root C O d v' -> no_empty_number C O d v -> no_empty_number C O d v' -> variable C d h a g F ->
  exists g' er i1 i2 D1' D2' h1 h2 F1 F2,
    Decode C O stk D1 s (TOk (flat 0 v)) (Some a) h = Ret i1 er D1' h1 /\ variable C d h1 a g' F1 /\
    Decode C O stk D2 s' (TOk (flat 0 v')) (Some a) h = Ret i2 er D2' h2 /\ variable C d h2 a g' F2.
Proof.
  intros Df Df' Un J J' Ec Ct Ct' S S' V.
  pose proof (characterised C O E dis T d stk D1 s v a h g F Df J Ct S V) as Q.
  pose proof (characterised C O E dis T d stk D2 s' v' a h g F Df' J' Ct' S' V) as Q'.
  pose proof (act_content_same C O s s' Un d v v' g Ec) as H.
  destruct (actual C O s d v g) as [g1|i1 e1 g1|], (actual C O s' d v' g) as [g2|i2 e2 g2|]; try contradiction; cbn [outcome] in H; inversion H; subst;
    destruct Q as (D' & h' & F' & Q & V' & _); destruct Q' as (D2' & h2' & F2' & Q' & V2' & _); eexists _, _, _, _, D', D2', h', h2', F', F2'; (split; [exact Q|split; [exact V'|split; [exact Q'|exact V2']]]).
Qed.

(** ** C19 *)
(** Anywhere in a document: if the members before an unknown key decode, the object act_gives
    the error ErrUnknownField at the index of that key, with the effects of the members
    before it. *)
Theorem C19_first_unknown_anywhere_any_leaf C O s z fs i j l1 k key w l2 g g1 :
  o_unknown O = true -> act_field_for C O fs key = None ->
  actual C O s (DStruct z fs) (JObj i j l1) g = VOk g1 ->
  actual C O s (DStruct z fs) (JObj i j (l1 ++ ((k, key), w) :: l2)) g = VErr k EUnknownField g1.
Proof.
  intros Un Nk. cbn [actual]. destruct g as [| | | | | | |gs| | | |]; try discriminate. revert gs. induction l1 as [|[[p key1] x] l1 IH]; intros gs; cbn [app ideal_members].
  - rewrite Nk, Un. cbn. congruence.
  - destruct (act_field_for C O fs key1) as [q|]; [|rewrite Un; discriminate]. destruct (nth_error _ q), (nth_error gs q); try discriminate. destruct (v x g); try discriminate. apply IH.
Qed.
(** [k] is the index of an unknown key of an object that is decoded into a struct. *)
Fixpoint act_unknown_at (C : cfg) (O : opts) (d : dt) (v : jv) (k : nat) {struct d} : Prop :=
  match d, v with
  | DPtr t, v => act_unknown_at C O t v k
  | (DArr _ t | DSlice t), JArr _ _ l => Exists (fun x => act_unknown_at C O t x k) l
  | DMap _ t, JObj _ _ l => Exists (fun x => act_unknown_at C O t (snd x) k) l
  | DStruct _ fs, JObj _ _ l =>
      Exists (fun x => match act_field_for C O fs (snd (fst x)) with
        | None => fst (fst x) = k
        | Some j => match nth_error (map (fun f => act_unknown_at C O (snd f)) fs) j with Some P => P (snd x) k | None => False end
        end) l
  | _, _ => False
  end.
Lemma act_int_text_known C q r : act_int_text C q r <> Some (inr EUnknownField).
Proof.
  unfold act_int_text. destruct r as [|c r]; [discriminate|]. destruct (is_int _); [destruct (act_int C q (c :: r)) as [[]| | |]; discriminate|].
  destruct (starts_int _); [|discriminate]. destruct (_ && _); [discriminate|]. destruct (any_digits _ _); discriminate.
Qed.
Lemma act_lput_unknown C x v k g g' : lput k (act_sc C x v) g = VErr k EUnknownField g' -> False.
Proof.
  assert (I1 : forall k r, act_int C k r <> LErr EUnknownField) by (intros q r; unfold act_int; repeat destruct (_ : bool); discriminate).
  pose proof (act_int_text_known C) as I2.
  assert (I3 : forall b r, float_lit b r <> LErr EUnknownField) by (intros q r; unfold float_lit; destruct (round q r); discriminate).
  assert (I4 : forall b r, act_float b r <> LErr EUnknownField) by (intros q r; unfold act_float; destruct (bytes_eqb _ _); [discriminate|apply I3]).
  destruct (act_sc C x v) as [| |e|] eqn:E; cbn; try discriminate. intros Q. injection Q as -> _. revert E.
  destruct x, v; cbn [act_sc ideal_sc]; try discriminate; try apply I1; try apply I3; try apply I4;
    repeat match goal with |- context [match ?X with _ => _ end] => destruct X eqn:?; try discriminate; try apply I3; try (intros E; injection E as ->; eapply I2; eassumption) end.
Qed.
Lemma act_lput_at i k C x v g g' : lput i (act_sc C x v) g = VErr k EUnknownField g' -> False.
Proof. intros H. assert (i = k) as -> by (destruct (act_sc C x v); cbn in H; congruence). eapply act_lput_unknown, H. Qed.
(** Conversely: that error occurs only with the option, at the index of an unknown key. *)
Theorem C19_unknown_field_only_if_any_leaf C O s d : forall v g k g', actual C O s d v g = VErr k EUnknownField g' -> o_unknown O = true /\ act_unknown_at C O d v k.
Proof.
  assert (U : forall z i (r : bytes * option nat) k g', userv z i r = VErr k EUnknownField g' -> False) by (intros z i [new [c|]] k g'; unfold userv; cbn; discriminate).
  induction d as [x|id z|id z| |n t IH| |t IH|kk t IH| |t IH|z fs IH] using dt_ind'; intros v g k g' H.
  - destruct (act_lput_at _ _ _ _ _ _ _ H).
  - cbn [actual] in H. destruct v; try discriminate H. destruct (U _ _ _ _ _ H).
  - cbn [actual] in H. destruct (U _ _ _ _ _ H).
  - cbn [actual] in H. destruct v; discriminate H.
  - cbn [actual] in H. destruct v; try discriminate H. destruct g as [| | | | | |gs| | | | |]; try discriminate H. cbn [act_unknown_at]. apply Exists_and.
    destruct (elemsv _ _ _) as [?|ii ee ?|] eqn:E; try discriminate H. injection H as -> -> _.
    pose proof (elemsv_unknown _ (fun v k => o_unknown O = true /\ act_unknown_at C O t v k) k (fun v g g' => IH v g k g') _ _ _ E) as Q.
    apply Exists_exists in Q as (x & Hx & Q). apply Exists_exists. exists x. split; [|exact Q]. rewrite <- (firstn_skipn n l). apply in_or_app. left. exact Hx.
  - cbn [actual] in H. destruct v; discriminate H.
  - cbn [actual] in H. destruct v; try discriminate H; [exfalso; destruct t; discriminate H|]. cbn [act_unknown_at]. apply Exists_and.
    assert (G : forall fast keep g, slicev (actual C O s t) (zero t) fast keep l g = VErr k EUnknownField g' -> Exists (fun x => o_unknown O = true /\ act_unknown_at C O t x k) l).
    { clear H. intros fast keep g1 H. unfold slicev in H. destruct l as [|x l]; [discriminate|]. destruct (contents g1) as [vis hid]. destruct (_ <=? _)%nat.
      - destruct (elemsv _ _ _) as [?|ii ee ?|] eqn:E; try discriminate H. injection H as -> -> _.
        exact (elemsv_unknown _ (fun v k => o_unknown O = true /\ act_unknown_at C O t v k) k (fun v g g' => IH v g k g') _ _ _ E).
      - destruct (elemsv _ _ _) as [?|ii ee ?|] eqn:E; try discriminate H. injection H as -> -> _.
        exact (elemsv_unknown _ (fun v k => o_unknown O = true /\ act_unknown_at C O t v k) k (fun v g g' => IH v g k g') _ _ _ E). }
    destruct t; try (exact (G _ _ _ H)). discriminate H.
  - cbn [actual] in H. destruct v; try discriminate H. cbn [act_unknown_at]. apply Exists_and.
    match type of H with vmap _ (act_entries _ _ _ _ _ _ ?m) = _ => revert H; generalize m end. induction l as [|[[p key] x] l IHl]; intros m H; [discriminate|].
    cbn [act_entries] in H. destruct (act_key C kk key) as [[gk|e]|] eqn:Ek; [| |discriminate].
    + match type of H with context [actual C O s t x ?g0] => destruct (actual C O s t x g0) eqn:Ex end; try discriminate H.
      * right. eapply IHl, H.
      * injection H as -> -> _. left. cbn [snd]. eapply IH, Ex.
    + injection H as -> -> _. exfalso. destruct kk; cbn [act_key] in Ek.
      * discriminate.
      * exfalso. revert Ek. destruct (act_int_text C k0 key) as [[z|e]|] eqn:Ei; try discriminate. intros [= ->]. revert Ei. apply act_int_text_known.
      * destruct (c_ut _ _ _ _) as [new [c|]]; discriminate.
  - cbn [actual] in H. destruct v; try discriminate H. exfalso. assert (G : forall l acc, match act_mss l acc with inr (_, e) => e = EUnexpected | _ => True end).
    { clear. induction l as [|[[p key] x] l IHl]; intros acc; [exact I|]. destruct x; cbn [act_mss]; try reflexivity; apply IHl. }
    specialize (G l []). destruct (act_mss l []) as [|[p e]]; [discriminate|]. subst. discriminate.
  - assert (G : vmap (fun g => VPtr (Some g)) (actual C O s t v (zero t)) = VErr k EUnknownField g' -> o_unknown O = true /\ act_unknown_at C O t v k).
    { clear H. intros H. destruct (actual C O s t v (zero t)) eqn:E; try discriminate H. injection H as -> -> _. eapply IH, E. }
    destruct v; try discriminate H; exact (G H).
  - cbn [actual] in H. destruct v; try discriminate H. destruct g as [| | | | | | |gs| | | |]; try discriminate H. cbn [act_unknown_at]. apply Exists_and.
    revert gs H. induction l as [|[[p key] x] l IHl]; intros gs H; [discriminate|]. cbn [ideal_members] in H.
    destruct (act_field_for C O fs key) as [q|] eqn:Ek.
    + rewrite nth_error_map in H. destruct (nth_error fs q) as [f|] eqn:Ef; [|discriminate]. cbn [option_map] in H. destruct (nth_error gs q) as [g|] eqn:Eg; [|discriminate].
      destruct (actual C O s (snd f) x g) eqn:Ex; try discriminate H.
      * right. eapply IHl, H.
      * injection H as -> -> _. left. cbn [fst snd]. rewrite Ek, nth_error_map, Ef. cbn [option_map].
        eapply (proj1 (Forall_forall _ _) IH f (nth_error_In _ _ Ef)), Ex.
    + destruct (o_unknown O) eqn:Un.
      * injection H as -> _. left. cbn [fst snd]. rewrite Ek. auto.
      * right. eapply IHl, H.
Qed.
(** At the root. *)
Theorem C19_unknown_field_any_leaf_partial C O E dis T z fs stk D s i j l1 k key w l2 a h g g1 F :
  decoder_for C E dis T (DStruct z fs) stk D -> json_text s (JObj i j (l1 ++ ((k, key), w) :: l2)) -> o_unknown O = true -> act_field_for C O fs key = None ->
  actual C O s (DStruct z fs) (JObj i j l1) g = VOk g1 ->
  ctl_root C O (DStruct z fs) (JObj i j (l1 ++ ((k, key), w) :: l2)) ->
  variable C (DStruct z fs) h a g F ->
  exists D' h' F', Decode C O stk D s (TOk (flat 0 (JObj i j (l1 ++ ((k, key), w) :: l2)))) (Some a) h = Ret (Z.of_nat k) (Some EUnknownField) D' h' /\
    variable C (DStruct z fs) h' a g1 F'.
Proof.
  intros Df J Un Nk I1 Ct V. pose proof (C15_characterised_partial C O E dis T _ stk D s _ a h g F Df J Ct V) as Q.
  rewrite (C19_first_unknown_anywhere_any_leaf C O s z fs i j l1 k key w l2 g g1 Un Nk I1) in Q. destruct Q as (D' & h' & F' & Q & V' & _). eauto.
Qed.
Theorem C19_only_unknown_field_any_leaf_partial C O E dis T d stk D s v a h g F k D' h' :
  decoder_for C E dis T d stk D -> json_text s v -> ctl_root C O d v -> variable C d h a g F ->
  Decode C O stk D s (TOk (flat 0 v)) (Some a) h = Ret k (Some EUnknownField) D' h' ->
  o_unknown O = true /\ exists n, k = Z.of_nat n /\ act_unknown_at C O d v n.
Proof.
  intros Df J Ct V Ed. pose proof (C15_characterised_partial C O E dis T d stk D s v a h g F Df J Ct V) as Q.
  destruct (actual C O s d v g) as [g'|i e g'|] eqn:Ei; [| |pose proof (eq_trans (eq_sym Ed) Q) as X; discriminate X]; destruct Q as (D1 & h1 & F1 & Q & _); pose proof (eq_trans (eq_sym Ed) Q) as X; try discriminate X.
  injection X as -> <- _ _. apply C19_unknown_field_only_if_any_leaf in Ei as [U1 U2]. eauto.
Qed.

(** ** C20 *)
(** The values a document assigns to field [q], in order, and their decoding in turn. *)
Definition act_assigned (C : cfg) (O : opts) (fs : list ((bytes * Z) * dt)) (q : nat) (l : list ((nat * bytes) * jv)) : list jv :=
  map snd (filter (fun x => match act_field_for C O fs (snd (fst x)) with Some j => Nat.eqb j q | None => false end) l).
(** Anywhere in a document: on success every field holds the result of decoding the
    members for it in order, starting from its old value; a field without member is
    unchanged, also on failure. *)
Definition act_fields_post (C : cfg) (O : opts) (s : bytes) (fs : list ((bytes * Z) * dt)) (l : list ((nat * bytes) * jv)) (ok : bool) (gs gs' : list gval) : Prop :=
  length gs' = length gs /\
  (ok = true -> forall q nm t g, nth_error fs q = Some (nm, t) -> nth_error gs q = Some g ->
     exists g', nth_error gs' q = Some g' /\ in_turn (actual C O s t) (act_assigned C O fs q l) g = VOk g') /\
  (forall q, act_assigned C O fs q l = [] -> nth_error gs' q = nth_error gs q).
Theorem C20_fields_anywhere_any_leaf C O s z fs i j l gs :
  match actual C O s (DStruct z fs) (JObj i j l) (VStruct gs) with
  | VOk (VStruct gs') => act_fields_post C O s fs l true gs gs'
  | VErr _ _ (VStruct gs') => act_fields_post C O s fs l false gs gs'
  | VPan => True
  | _ => False
  end.
Proof.
  cbn [actual].
  assert (H : match ideal_members O (act_field_for C O fs) (map (fun x => actual C O s (snd x)) fs) l gs with
    | VOk gs' => act_fields_post C O s fs l true gs gs' | VErr _ _ gs' => act_fields_post C O s fs l false gs gs' | VPan => True end).
  { revert gs. induction l as [|[[p key] x] l IH]; intros gs; [split; [reflexivity|split; [|reflexivity]]; intros _ q nm t g _ E; exists g; auto|].
    cbn [ideal_members]. unfold act_fields_post, act_assigned in *. cbn [filter fst snd]. destruct (act_field_for C O fs key) as [r|] eqn:Ek.
    - rewrite nth_error_map. destruct (nth_error fs r) as [[nm0 t0]|] eqn:Ef; [|exact I]. cbn [option_map snd]. destruct (nth_error gs r) as [g0|] eqn:Eg; [|exact I].
      destruct (actual C O s t0 x g0) as [g1|i1 e1 g1|] eqn:Ex; [| |exact I].
      + specialize (IH (set_nth gs r g1)).
        assert (Un : forall gs', (forall q, map snd (filter (fun x => match act_field_for C O fs (snd (fst x)) with Some j => Nat.eqb j q | None => false end) l) = [] -> nth_error gs' q = nth_error (set_nth gs r g1) q) ->
          forall q, map snd (if Nat.eqb r q then ((p, key), x) :: filter (fun x => match act_field_for C O fs (snd (fst x)) with Some j => Nat.eqb j q | None => false end) l else filter (fun x => match act_field_for C O fs (snd (fst x)) with Some j => Nat.eqb j q | None => false end) l) = [] -> nth_error gs' q = nth_error gs q).
        { intros gs' H q Aq. destruct (Nat.eqb_spec r q) as [->|Nq]; [discriminate|]. rewrite (H q Aq). apply set_nth_other, Nq. }
        destruct (ideal_members _ _ _ l _) as [gs'|i2 e2 gs'|]; [| |exact I]; destruct IH as (Ln & IH & IH2); rewrite set_nth_length in Ln; (split; [exact Ln|split; [|exact (Un _ IH2)]]); [|discriminate].
        intros _ q nm t g Fq Gq. destruct (Nat.eqb_spec r q) as [->|Nq].
        -- rewrite Ef in Fq. injection Fq as <- <-. rewrite Eg in Gq. injection Gq as <-. cbn [map snd in_turn]. rewrite Ex. eapply IH; [reflexivity|exact Ef|]. eapply set_nth_same, Eg.
        -- eapply IH; [reflexivity|exact Fq|]. rewrite set_nth_other by exact Nq. exact Gq.
      + split; [apply set_nth_length|]. split; [discriminate|]. intros q Aq. destruct (Nat.eqb_spec r q) as [->|Nq]; [discriminate|]. apply set_nth_other, Nq.
    - destruct (o_unknown O); [split; [reflexivity|split; [discriminate|reflexivity]]|]. apply IH. }
  destruct (ideal_members _ _ _ _ _) as [gs'|? ? gs'|]; exact H.
Qed.
(** At the root.  (Missing: the documents excluded by [ctl_root], for some of
    which the claim is false: C20_refuted.) *)
Theorem C20_fields_any_leaf_partial C O E dis T z fs stk D s i j l a h gs F :
  decoder_for C E dis T (DStruct z fs) stk D -> json_text s (JObj i j l) -> ctl_root C O (DStruct z fs) (JObj i j l) -> no_empty_number C O (DStruct z fs) (JObj i j l) ->
  variable C (DStruct z fs) h a (VStruct gs) F ->
  exists gs' r er D' h' F', Decode C O stk D s (TOk (flat 0 (JObj i j l))) (Some a) h = Ret r er D' h' /\
    variable C (DStruct z fs) h' a (VStruct gs') F' /\
    act_fields_post C O s fs l (match er with None => true | _ => false end) gs gs'.
Proof.
  intros Df J Ct S V. pose proof (characterised C O E dis T _ stk D s _ a h _ F Df J Ct S V) as Q.
  pose proof (C20_fields_anywhere_any_leaf C O s z fs i j l gs) as G.
  destruct (actual _ _ _ _ _ _) as [g'|n e g'|]; [| |contradiction]; destruct g' as [| | | | | | |gs'| | | |]; try contradiction;
    destruct Q as (D' & h' & F' & Q & V' & _); eexists gs', _, _, D', h', F'; (split; [exact Q|split; [exact V'|exact G]]).
Qed.

(** ** C23 *)
(** The values a document act_gives for a map key, in order. *)
Definition act_gives (C : cfg) (k : dkey) (l : list ((nat * bytes) * jv)) (key : gkey) : list jv :=
  map snd (filter (fun x => match act_key C k (snd (fst x)) with Some (inl key') => gkey_eqb key' key | _ => false end) l).
Definition act_entries_post (C : cfg) (O : opts) (s : bytes) (k : dkey) (t : dt) (l : list ((nat * bytes) * jv)) (ok : bool) (m m' : list (gkey * gval)) : Prop :=
  (ok = true -> forall key, entry (actual C O s t) (is_struct t) (zero t) (act_gives C k l key) (getk m key) = VOk (getk m' key)) /\
  (forall key, act_gives C k l key = [] -> getk m' key = getk m key).
(** Anywhere in a document: on success the entry of every key is the result of decoding
    the values given for it; other entries are kept, also on failure. *)
Theorem C23_entries_anywhere_any_leaf C O s k t i j l g :
  match actual C O s (DMap k t) (JObj i j l) g with
  | VOk (VMap (Some m')) => act_entries_post C O s k t l true (entries_of g) m'
  | VErr _ _ (VMap (Some m')) => act_entries_post C O s k t l false (entries_of g) m'
  | VPan => True
  | _ => False
  end.
Proof.
  cbn [actual]. fold (entries_of g). generalize (entries_of g). intros m.
  assert (H : match act_entries C k (actual C O s t) (is_struct t) (zero t) l m with
    | VOk m' => act_entries_post C O s k t l true m m' | VErr _ _ m' => act_entries_post C O s k t l false m m' | VPan => True end).
  { revert m. induction l as [|[[p key] x] l IH]; intros m; [split; [reflexivity|reflexivity]|].
    cbn [act_entries]. unfold act_entries_post, act_gives in *. cbn [filter fst snd]. destruct (act_key C k key) as [[gk|e]|] eqn:Ek; [| |exact I].
    - match goal with |- context [actual C O s t x ?o] => destruct (actual C O s t x o) as [g1|i1 e1 g1|] eqn:Ex end; [| |exact I].
      + specialize (IH (putk m gk g1)). destruct (act_entries _ _ _ _ _ l _) as [m'|i2 e2 m'|]; [| |exact I]; destruct IH as (IH & IH2).
        * split.
          -- intros _ key0. destruct (gkey_eqb gk key0) eqn:Ek0.
             ++ apply gkey_eq in Ek0. subst key0. cbn [map snd entry]. rewrite Ex. specialize (IH eq_refl gk). rewrite Refine3.getk_put in IH. exact IH.
             ++ specialize (IH eq_refl key0). rewrite getk_put_other in IH; [exact IH|]. intros ->. rewrite Refine3.gkey_refl in Ek0. discriminate.
          -- intros key0. destruct (gkey_eqb gk key0) eqn:Ek0; [discriminate|]. intros Hg. rewrite (IH2 key0 Hg). apply getk_put_other. intros ->. rewrite Refine3.gkey_refl in Ek0. discriminate.
        * split; [discriminate|]. intros key0. destruct (gkey_eqb gk key0) eqn:Ek0; [discriminate|]. intros Hg. rewrite (IH2 key0 Hg). apply getk_put_other. intros ->. rewrite Refine3.gkey_refl in Ek0. discriminate.
      + split; [discriminate|]. intros key0. destruct (gkey_eqb gk key0) eqn:Ek0; [discriminate|]. intros Hg. apply getk_put_other. intros ->. rewrite Refine3.gkey_refl in Ek0. discriminate.
    - split; [discriminate|reflexivity]. }
  destruct (act_entries _ _ _ _ _ _ _) as [m'|? ? m'|]; exact H.
Qed.
Theorem C23_last_wins_any_leaf C O s t vs old g' : overwritten t = true -> vs <> [] ->
  entry (actual C O s t) (is_struct t) (zero t) vs old = VOk g' ->
  exists g1, g' = Some g1 /\ actual C O s t (last vs (JNull 0)) (zero t) = VOk g1.
Proof.
  intros Ov. assert (St : forall v o g1, actual C O s t v (match o with Some g => if is_struct t then zero t else g | None => zero t end) = VOk g1 -> actual C O s t v (zero t) = VOk g1).
  { intros v [g|] g1 H; [|exact H]. destruct t as [x| | | | | | | | | |]; try discriminate Ov; [|exact H]. cbn [is_struct actual] in *.
    destruct (act_sc C x v) eqn:E; cbn [lput] in *; try discriminate; try exact H. exfalso. clear H. destruct x; try discriminate Ov; destruct v; cbn [act_sc ideal_sc] in E; try discriminate E;
    unfold act_int, act_float, float_lit in E; repeat match type of E with context [match ?X with _ => _ end] => destruct X; try discriminate E end. }
  revert old. induction vs as [|v vs IH]; intros old Ne H; [congruence|]. cbn [entry] in H.
  destruct (actual C O s t v _) as [g1|i e g1|] eqn:Ex; try discriminate H. destruct vs as [|v' vs].
  - cbn in H. injection H as <-. exists g1. split; [reflexivity|]. cbn [last]. eapply St, Ex.
  - apply IH in H; [exact H|discriminate].
Qed.
(** At the root.  (Missing from C23: map[string]string and the excluded documents, for
    which the claim is false: C23_refuted.) *)
Theorem C23_entries_any_leaf_partial C O E dis T k t stk D s i j l a h g F :
  decoder_for C E dis T (DMap k t) stk D -> json_text s (JObj i j l) -> ctl_root C O (DMap k t) (JObj i j l) -> no_empty_number C O (DMap k t) (JObj i j l) ->
  variable C (DMap k t) h a g F ->
  exists m' r er D' h' F', Decode C O stk D s (TOk (flat 0 (JObj i j l))) (Some a) h = Ret r er D' h' /\
    variable C (DMap k t) h' a (VMap (Some m')) F' /\
    act_entries_post C O s k t l (match er with None => true | _ => false end) (entries_of g) m'.
Proof.
  intros Df J Ct S V. pose proof (characterised C O E dis T _ stk D s _ a h _ F Df J Ct S V) as Q.
  pose proof (C23_entries_anywhere_any_leaf C O s k t i j l g) as G.
  destruct (actual _ _ _ _ _ _) as [g'|n e g'|]; [| |contradiction]; destruct g' as [| | | | | | | | |[m'|]| |]; try contradiction;
    destruct Q as (D' & h' & F' & Q & V' & _); eexists m', _, _, D', h', F'; (split; [exact Q|split; [exact V'|exact G]]).
Qed.

(** ** C21 *)
(** Anywhere in a document: the new slice has as many elements as the array, each the
    decoding of the array's; the capacity is kept if it suffices. *)
Definition act_slice_post (C : cfg) (O : opts) (s : bytes) (t : dt) (l : list jv) (g : gval) (vis' hid' : list gval) : Prop :=
  length vis' = length l /\
  (length vis' + length hid' = if (length l =? 0)%nat then 0 else Nat.max (length l) (length (fst (contents g)) + length (snd (contents g))))%nat /\
  forall k x, nth_error l k = Some x -> exists g', nth_error vis' k = Some g' /\ actual C O s t x (prior t g (length l) k) = VOk g'.
Theorem C21_slice_anywhere_any_leaf C O s t i j l g g' : t <> DEmpty ->
  actual C O s (DSlice t) (JArr i j l) g = VOk g' ->
  exists vis' hid', g' = VSlice (Some (vis', hid')) /\ act_slice_post C O s t l g vis' hid'.
Proof.
  intros Nt H. assert (H' : slicev (actual C O s t) (zero t) (fast t) (carried t) l g = VOk g').
  { cbn [actual] in H. unfold fast. destruct (fast_et t) as [e|]; cbn [negb andb]; destruct t; try congruence; exact H. }
  clear H. unfold slicev in H'. unfold act_slice_post, prior. destruct l as [|x0 l0]; [injection H' as <-; exists [], []; split; [reflexivity|split; [reflexivity|split; [reflexivity|intros [|k]; discriminate]]]|].
  set (l := x0 :: l0) in *. assert (Hl : (0 < length l)%nat) by (cbn; lia). assert (Ell : length l = S (length l0)) by reflexivity. destruct (contents g) as [vis hid]. cbn [fst snd]. replace (length l =? 0)%nat with false by (symmetry; apply Nat.eqb_neq; lia).
  destruct (Nat.leb_spec (length l) (length vis + length hid)) as [Hle|Hgt].
  - destruct (elemsv _ l _) as [all| |] eqn:E; try discriminate. injection H' as <-. destruct (elemsv_nth _ (zero t) _ _ _ E) as (L1 & L2 & L3). rewrite app_length in L1.
    eexists _, _. split; [reflexivity|]. rewrite firstn_length, skipn_length. split; [lia|]. split; [lia|]. intros k x Hx. destruct (L3 k x Hx) as (g1 & H1 & H2). exists g1. split; [|exact H2].
    apply nth_split_firstn; [exact H1|]. rewrite <- Ell. apply nth_error_Some. congruence.
  - destruct (elemsv _ l _) as [all| |] eqn:E; try discriminate. injection H' as <-. destruct (elemsv_nth _ (zero t) _ _ _ E) as (L1 & L2 & L3).
    assert (L4 : length all = length l).
    { rewrite L1. destruct (carried t); [rewrite app_length|]; rewrite repeat_length; lia. }
    eexists _, _. split; [reflexivity|]. rewrite firstn_length, skipn_length. split; [lia|]. split; [lia|]. intros k x Hx. destruct (L3 k x Hx) as (g1 & H1 & H2). exists g1. split.
    + apply nth_split_firstn; [exact H1|]. rewrite <- Ell. apply nth_error_Some. congruence.
    + destruct (carried t).
      * destruct (Nat.lt_ge_cases k (length vis)); [rewrite app_nth1 in H2 by lia; exact H2|]. rewrite app_nth2, nth_repeat in H2 by lia. rewrite nth_overflow by lia. exact H2.
      * rewrite nth_repeat in H2. exact H2.
Qed.

(** At the root, with the slice header: the backing array is the old one if its capacity
    suffices and otherwise new; for the specialised slices ([]bool, []string, []int, ..)
    nothing is allocated in the first case. *)
Theorem C21_slice_any_leaf_partial C O E dis T t stk D s i j l a h g F data len cap D' h' :
  decoder_for C E dis T (DSlice t) stk D -> json_text s (JArr i j l) -> ctl_root C O (DSlice t) (JArr i j l) ->
  variable C (DSlice t) h a g F -> header h a data len cap -> t <> DEmpty ->
  Decode C O stk D s (TOk (flat 0 (JArr i j l))) (Some a) h = Ret (-1) None D' h' ->
  (exists vis' hid' F', variable C (DSlice t) h' a (VSlice (Some (vis', hid'))) F' /\ act_slice_post C O s t l g vis' hid') /\
  match l with
  | [] => exists b, header h' a (Some b) 0 0
  | _ => header_after (dsize (c_w64 C) t) h data cap (Z.of_nat (length l)) h' a /\
         (fast t = true -> Z.of_nat (length l) <= cap -> nxt h' = nxt h)
  end.
Proof.
  intros Df J Ct V Hd Nt Ed.
  pose proof (C15_characterised_partial C O E dis T (DSlice t) stk D s _ a h g F Df J Ct V) as Q.
  pose proof (decoder_describes _ _ _ _ _ _ _ Df) as Ds. pose proof (used_rested _ _ _ _ Ds (df_used _ _ _ _ _ _ _ Df)) as Rd.
  pose proof (json_text_lexed _ _ J) as L. pose proof (decode_dech C O stk s _ (DSlice t) D a h Ds Rd L Ct) as Q'.
  pose proof (df_layout _ _ _ _ _ _ _ Df) as Ly. cbn [layout] in Ly. split.
  - destruct (actual C O s (DSlice t) (JArr i j l) g) as [g'|n e g'|] eqn:Ei; [| |pose proof (eq_trans (eq_sym Ed) Q) as X; discriminate X]; destruct Q as (D1 & h1 & F1 & Q & V1 & _); pose proof (eq_trans (eq_sym Ed) Q) as X; [|destruct n; discriminate X].
    injection X as <- <-. destruct (C21_slice_anywhere_any_leaf C O s t i j l g g' Nt Ei) as (vis' & hid' & -> & P). eauto.
  - assert (Ed' : dech C O s (DSlice t) (JArr i j l) (Some a) h = HOk h').
    { destruct (dech C O s (DSlice t) (JArr i j l) (Some a) h) as [h2|i2 e2 h2| |].
      - destruct Q' as (D2 & Q' & _). pose proof (eq_trans (eq_sym Ed) Q') as X. injection X as _ ->. reflexivity.
      - destruct Q' as (D2 & Q' & _). pose proof (eq_trans (eq_sym Ed) Q') as X. discriminate X.
      - pose proof (eq_trans (eq_sym Ed) Q') as X. discriminate X.
      - pose proof (eq_trans (eq_sym Ed) Q') as X. discriminate X. }
    pose proof (wb_pos (c_w64 C)) as Wp.
    destruct V as [R Ow]. unfold fast. cbn [dech] in Ed'. destruct (fast_et t) as [e|] eqn:Fe.
    + assert (Fs : fast_h C s e l (Some a) h = HOk h' /\ fast_size C e = dsize (c_w64 C) t).
      { destruct t as [x| | | | | | | | | |]; try discriminate Fe; [|congruence]. split; [|apply Refine3.sc_size_fast, Fe].
        destruct x as [| | |k|b| | | |k|b]; cbn in Fe; try discriminate; injection Fe as <-; try exact Ed'; destruct k as [[] []]; exact Ed'. }
      destruct Fs as [Fs Sz]. destruct l as [|x l].
      * cbn [fast_h] in Fs. destruct (store h (Some a) _ _) as [h2| |] eqn:Es; cbn [hlift] in Fs; try discriminate. injection Fs as ->. apply store_reads in Es as [Es _]; [|lia].
        exists (0%nat, 0). unfold header. rewrite Es. auto.
      * destruct (fast_header C s e (x :: l) a h h' data len cap ltac:(discriminate) Hd Fs) as [H1 H2]. rewrite Sz in H1. split; [exact H1|]. intros _ Hc. apply H2. lia.
    + destruct l as [|x l].
      * cbn [slice_h] in Ed'. destruct (store h (Some a) _ _) as [h2| |] eqn:Es; cbn [hlift] in Ed'; try discriminate. injection Ed' as ->. apply store_reads in Es as [Es _]; [|lia].
        exists (0%nat, 0). unfold header. rewrite Es. auto.
      * split; [|discriminate]. eapply (general_header C O s t _ (x :: l)); try eassumption; [discriminate|].
        apply lexed_arr in L as (_ & _ & _ & L). exact L.
Qed.

(** ** C25 below the root *)
(** What decoding [w] into a *T sets the pointer to. *)
Definition act_pointer_to (C : cfg) (O : opts) (s : bytes) (t : dt) (w : jv) (g : gval) : Prop :=
  match w with
  | JNull _ => g = VPtr None
  | _ => exists g', g = VPtr (Some g') /\ actual C O s t w (zero t) = VOk g'
  end.
Lemma actual_pointer C O s t w g0 g : actual C O s (DPtr t) w g0 = VOk g -> act_pointer_to C O s t w g.
Proof.
  intros H. destruct w; cbn [actual act_pointer_to] in *; try (injection H as <-; reflexivity);
    (destruct (actual C O s t _ (zero t)) as [g'|? ? g'|]; cbn [vmap] in H; try discriminate H; injection H as <-; exists g'; auto).
Qed.
Lemma act_in_turn_pointer C O s t ws : forall g0 g, ws <> [] -> in_turn (actual C O s (DPtr t)) ws g0 = VOk g -> act_pointer_to C O s t (last ws (JNull 0)) g.
Proof.
  induction ws as [|w ws IH]; intros g0 g Nn H; [congruence|]. cbn [in_turn] in H.
  destruct (actual C O s (DPtr t) w g0) as [g1|? ? g1|] eqn:E; try discriminate H. destruct ws as [|w' ws].
  - cbn in H. injection H as <-. cbn [last]. eapply actual_pointer, E.
  - apply IH in H; [exact H|discriminate].
Qed.

(** Pointers in a struct.  After a successful call, for every field of type *T: without a
    member for it the pointer is unchanged; otherwise it is nil or points to the decoding
    of the last member for it. *)
Theorem C25_struct_pointers_any_leaf_partial C O E dis T z fs stk D s i j l a h gs F :
  decoder_for C E dis T (DStruct z fs) stk D -> json_text s (JObj i j l) -> ctl_root C O (DStruct z fs) (JObj i j l) -> no_empty_number C O (DStruct z fs) (JObj i j l) ->
  variable C (DStruct z fs) h a (VStruct gs) F ->
  exists gs' r er D' h' F', Decode C O stk D s (TOk (flat 0 (JObj i j l))) (Some a) h = Ret r er D' h' /\
    variable C (DStruct z fs) h' a (VStruct gs') F' /\
    (er = None -> forall q nm t g, nth_error fs q = Some (nm, DPtr t) -> nth_error gs q = Some g ->
       exists g', nth_error gs' q = Some g' /\
         match act_assigned C O fs q l with [] => g' = g | ws => act_pointer_to C O s t (last ws (JNull 0)) g' end).
Proof.
  intros Df J Ct Sd V. destruct (C20_fields_any_leaf_partial C O E dis T z fs stk D s i j l a h gs F Df J Ct Sd V) as (gs' & r & er & D' & h' & F' & Q & V' & P).
  exists gs', r, er, D', h', F'. split; [exact Q|]. split; [exact V'|]. intros -> q nm t g Hq Hg. destruct P as (_ & P & _).
  destruct (P eq_refl q nm (DPtr t) g Hq Hg) as (g' & Hg' & I). exists g'. split; [exact Hg'|].
  destruct (act_assigned C O fs q l) as [|w ws]; [cbn in I; congruence|]. eapply act_in_turn_pointer; [discriminate|exact I].
Qed.
(** In a slice: every element. *)
Theorem C25_slice_pointers_any_leaf_partial C O E dis T t stk D s i j l a h g F :
  decoder_for C E dis T (DSlice (DPtr t)) stk D -> json_text s (JArr i j l) -> ctl_root C O (DSlice (DPtr t)) (JArr i j l) -> no_empty_number C O (DSlice (DPtr t)) (JArr i j l) ->
  variable C (DSlice (DPtr t)) h a g F ->
  exists r er D' h' F' g', Decode C O stk D s (TOk (flat 0 (JArr i j l))) (Some a) h = Ret r er D' h' /\ variable C (DSlice (DPtr t)) h' a g' F' /\
    (er = None -> exists vis hid, g' = VSlice (Some (vis, hid)) /\ length vis = length l /\
       forall k w, nth_error l k = Some w -> exists g1, nth_error vis k = Some g1 /\ act_pointer_to C O s t w g1).
Proof.
  intros Df J Ct Sd V. pose proof (characterised C O E dis T _ stk D s _ a h _ F Df J Ct Sd V) as Q.
  destruct (actual C O s (DSlice (DPtr t)) (JArr i j l) g) as [g'|n e g'|] eqn:Ei; [| |contradiction];
    destruct Q as (D' & h' & F' & Q & V' & _); eexists _, _, D', h', F', g'; (split; [exact Q|split; [exact V'|]]); [|discriminate].
  intros _. destruct (C21_slice_anywhere_any_leaf C O s (DPtr t) i j l g g' ltac:(discriminate) Ei) as (vis & hid & -> & Ln & _ & P).
  exists vis, hid. split; [reflexivity|]. split; [exact Ln|]. intros k w Hk. destruct (P k w Hk) as (g1 & H1 & H2). exists g1. split; [exact H1|]. eapply actual_pointer, H2.
Qed.
(** In a map: the entry of every key that occurs. *)
Theorem C25_map_pointers_any_leaf_partial C O E dis T kt t stk D s i j l a h g F :
  decoder_for C E dis T (DMap kt (DPtr t)) stk D -> json_text s (JObj i j l) -> ctl_root C O (DMap kt (DPtr t)) (JObj i j l) -> no_empty_number C O (DMap kt (DPtr t)) (JObj i j l) ->
  variable C (DMap kt (DPtr t)) h a g F ->
  exists r er D' h' F' m', Decode C O stk D s (TOk (flat 0 (JObj i j l))) (Some a) h = Ret r er D' h' /\ variable C (DMap kt (DPtr t)) h' a (VMap (Some m')) F' /\
    (er = None -> forall key, match act_gives C kt l key with
       | [] => getk m' key = getk (entries_of g) key
       | ws => exists g1, getk m' key = Some g1 /\ act_pointer_to C O s t (last ws (JNull 0)) g1
       end).
Proof.
  intros Df J Ct Sd V. destruct (C23_entries_any_leaf_partial C O E dis T kt (DPtr t) stk D s i j l a h g F Df J Ct Sd V) as (m' & r & er & D' & h' & F' & Q & V' & P1 & P2).
  exists r, er, D', h', F', m'. split; [exact Q|]. split; [exact V'|]. intros -> key. specialize (P1 eq_refl key). specialize (P2 key).
  destruct (act_gives C kt l key) as [|w ws]; [auto|]. clear P2. revert P1. generalize (getk m' key) (getk (entries_of g) key). clear.
  revert w. induction ws as [|w' ws IH]; intros w new old H; cbn [entry is_struct] in H.
  - destruct (actual C O s (DPtr t) w _) as [g1|? ? g1|] eqn:E1; try discriminate H. injection H as <-. exists g1. split; [reflexivity|]. cbn [last]. eapply actual_pointer, E1.
  - destruct (actual C O s (DPtr t) w _) as [g1|? ? g1|] eqn:E1; try discriminate H. exact (IH w' new (Some g1) H).
Qed.


(** ** C44 *)
(** Both calls succeed, with the same value, or both return an error. *)
Theorem C44_member_order_any_leaf_partial C O E dis T d stk D1 D2 s1 s2 v1 v2 a1 a2 h1 h2 g F1 F2 :
  no_json d = true -> decoder_for C E dis T d stk D1 -> decoder_for C E dis T d stk D2 ->
  json_text s1 v1 -> json_text s2 v2 -> reordered v1 v2 -> act_unlike C O d v1 ->
  ctl_root C O d v1 -> ctl_root C O d v2 -> no_empty_number C O d v1 -> no_empty_number C O d v2 ->
  variable C d h1 a1 g F1 -> variable C d h2 a2 g F2 ->
  (exists D1' D2' h1' h2' g1 g2 F1' F2',
     Decode C O stk D1 s1 (TOk (flat 0 v1)) (Some a1) h1 = Ret (-1) None D1' h1' /\ variable C d h1' a1 g1 F1' /\
     Decode C O stk D2 s2 (TOk (flat 0 v2)) (Some a2) h2 = Ret (-1) None D2' h2' /\ variable C d h2' a2 g2 F2' /\
     same_value g1 g2) \/
  (exists D1' D2' h1' h2' i1 i2 e1 e2,
     Decode C O stk D1 s1 (TOk (flat 0 v1)) (Some a1) h1 = Ret i1 (Some e1) D1' h1' /\
     Decode C O stk D2 s2 (TOk (flat 0 v2)) (Some a2) h2 = Ret i2 (Some e2) D2' h2').
Proof.
  intros NJ Df1 Df2 J1 J2 R U C1 C2 S1 S2 V1 V2.
  pose proof (characterised C O E dis T d stk D1 s1 v1 a1 h1 g F1 Df1 J1 C1 S1 V1) as Q1.
  pose proof (characterised C O E dis T d stk D2 s2 v2 a2 h2 g F2 Df2 J2 C2 S2 V2) as Q2.
  destruct (actual C O s1 d v1 g) as [g1|i1 e1 g1|] eqn:E1; [| |contradiction].
  - destruct (actual_reordered C O s1 s2 d NJ v1 v2 g g1 R U E1) as (g2 & E2 & Sm). rewrite E2 in Q2.
    destruct Q1 as (D1' & h1' & F1' & Q1 & W1 & _), Q2 as (D2' & h2' & F2' & Q2 & W2 & _). left.
    exists D1', D2', h1', h2', g1, g2, F1', F2'. auto.
  - destruct (actual C O s2 d v2 g) as [g2|i2 e2 g2|] eqn:E2; [| |contradiction].
    + exfalso. destruct (actual_reordered C O s2 s1 d NJ v2 v1 g g2 (reordered_sym _ _ R) (act_unlike_reordered C O d v1 v2 R U) E2) as (g3 & E3 & _). congruence.
    + destruct Q1 as (D1' & h1' & F1' & Q1 & _), Q2 as (D2' & h2' & F2' & Q2 & _). right.
      exists D1', D2', h1', h2'. do 4 eexists. split; [exact Q1|exact Q2].
Qed.
(** For every document at all, for the types of [any_document] (PropsStrict.v) without
    numbers in strings. *)
Theorem C44_member_order_every_document_partial C O E dis T d stk D1 D2 s1 s2 v1 v2 a1 a2 h1 h2 g F1 F2 :
  no_json d = true -> decoder_for C E dis T d stk D1 -> decoder_for C E dis T d stk D2 ->
  any_document O d = true -> no_quoted_numbers d = true ->
  json_text s1 v1 -> json_text s2 v2 -> reordered v1 v2 -> act_unlike C O d v1 ->
  variable C d h1 a1 g F1 -> variable C d h2 a2 g F2 ->
  (exists D1' D2' h1' h2' g1 g2 F1' F2',
     Decode C O stk D1 s1 (TOk (flat 0 v1)) (Some a1) h1 = Ret (-1) None D1' h1' /\ variable C d h1' a1 g1 F1' /\
     Decode C O stk D2 s2 (TOk (flat 0 v2)) (Some a2) h2 = Ret (-1) None D2' h2' /\ variable C d h2' a2 g2 F2' /\
     same_value g1 g2) \/
  (exists D1' D2' h1' h2' i1 i2 e1 e2,
     Decode C O stk D1 s1 (TOk (flat 0 v1)) (Some a1) h1 = Ret i1 (Some e1) D1' h1' /\
     Decode C O stk D2 s2 (TOk (flat 0 v2)) (Some a2) h2 = Ret i2 (Some e2) D2' h2').
Proof.
  intros NJ Df1 Df2 A Nq J1 J2 R U V1 V2.
  exact (C44_member_order_any_leaf_partial C O E dis T d stk D1 D2 s1 s2 v1 v2 a1 a2 h1 h2 g F1 F2 NJ Df1 Df2 J1 J2 R U
    (any_ctl C O d A v1) (any_ctl C O d A v2) (no_quoted_nonempty C O d Nq v1) (no_quoted_nonempty C O d Nq v2) V1 V2).
Qed.

(** ** C45 *)
Theorem C45_decoding_again_any_leaf_partial C O E dis T d stk D s v a h g F D1 h1 :
  no_user d = true -> decoder_for C E dis T d stk D -> json_text s v -> act_unlike C O d v ->
  ctl_root C O d v -> variable C d h a g F ->
  Decode C O stk D s (TOk (flat 0 v)) (Some a) h = Ret (-1) None D1 h1 ->
  exists g1 F1 D2 h2 F2, variable C d h1 a g1 F1 /\
    Decode C O stk D1 s (TOk (flat 0 v)) (Some a) h1 = Ret (-1) None D2 h2 /\ variable C d h2 a g1 F2.
Proof.
  intros NU Df J U Ct V Q0.
  pose proof (C15_characterised_partial C O E dis T d stk D s v a h g F Df J Ct V) as Q.
  destruct (actual C O s d v g) as [g1|i e g1|] eqn:E1; [| |rewrite Q in Q0; discriminate]; destruct Q as (D' & h' & F' & Q & V' & _); rewrite Q in Q0; [|injection Q0; intros; discriminate].
  injection Q0 as <- <-.
  assert (Df' : decoder_for C E dis T d stk D').
  { destruct Df as [A1 A2 A3 A4 A5]. constructor; try assumption. eapply u_call; [exact A5|exact Q]. }
  pose proof (C15_characterised_partial C O E dis T d stk D' s v a h' g1 F' Df' J Ct V') as Q2.
  rewrite (actual_again C O s d NU v g g1 U E1) in Q2. destruct Q2 as (D2 & h2 & F2 & Q2 & V2 & _). exists g1, F', D2, h2, F2. auto.
Qed.
Theorem C45_decoding_again_every_document_partial C O E dis T d stk D s v a h g F D1 h1 :
  no_user d = true -> any_document O d = true -> decoder_for C E dis T d stk D -> json_text s v -> act_unlike C O d v -> variable C d h a g F ->
  Decode C O stk D s (TOk (flat 0 v)) (Some a) h = Ret (-1) None D1 h1 ->
  exists g1 F1 D2 h2 F2, variable C d h1 a g1 F1 /\
    Decode C O stk D1 s (TOk (flat 0 v)) (Some a) h1 = Ret (-1) None D2 h2 /\ variable C d h2 a g1 F2.
Proof. intros NU A Df J U V. exact (C45_decoding_again_any_leaf_partial C O E dis T d stk D s v a h g F D1 h1 NU Df J U (any_ctl C O d A v) V). Qed.

(** ** C19, C20, C21, C23 for every document *)
Theorem C20_fields_every_document_partial C O E dis T z fs stk D s i j l a h gs F :
  decoder_for C E dis T (DStruct z fs) stk D -> any_document O (DStruct z fs) = true -> no_quoted_numbers (DStruct z fs) = true ->
  json_text s (JObj i j l) -> variable C (DStruct z fs) h a (VStruct gs) F ->
  exists gs' r er D' h' F', Decode C O stk D s (TOk (flat 0 (JObj i j l))) (Some a) h = Ret r er D' h' /\
    variable C (DStruct z fs) h' a (VStruct gs') F' /\
    act_fields_post C O s fs l (match er with None => true | _ => false end) gs gs'.
Proof.
  intros Df A Nq J V. exact (C20_fields_any_leaf_partial C O E dis T z fs stk D s i j l a h gs F Df J (any_ctl C O _ A _) (no_quoted_nonempty C O _ Nq _) V).
Qed.
Theorem C23_entries_every_document_partial C O E dis T k t stk D s i j l a h g F :
  decoder_for C E dis T (DMap k t) stk D -> any_document O (DMap k t) = true -> no_quoted_numbers (DMap k t) = true ->
  json_text s (JObj i j l) -> variable C (DMap k t) h a g F ->
  exists m' r er D' h' F', Decode C O stk D s (TOk (flat 0 (JObj i j l))) (Some a) h = Ret r er D' h' /\
    variable C (DMap k t) h' a (VMap (Some m')) F' /\
    act_entries_post C O s k t l (match er with None => true | _ => false end) (entries_of g) m'.
Proof.
  intros Df A Nq J V. exact (C23_entries_any_leaf_partial C O E dis T k t stk D s i j l a h g F Df J (any_ctl C O _ A _) (no_quoted_nonempty C O _ Nq _) V).
Qed.
Theorem C21_slice_every_document_partial C O E dis T t stk D s i j l a h g F data len cap D' h' :
  decoder_for C E dis T (DSlice t) stk D -> any_document O (DSlice t) = true -> json_text s (JArr i j l) ->
  variable C (DSlice t) h a g F -> header h a data len cap -> t <> DEmpty ->
  Decode C O stk D s (TOk (flat 0 (JArr i j l))) (Some a) h = Ret (-1) None D' h' ->
  (exists vis' hid' F', variable C (DSlice t) h' a (VSlice (Some (vis', hid'))) F' /\ act_slice_post C O s t l g vis' hid') /\
  match l with
  | [] => exists b, header h' a (Some b) 0 0
  | _ => header_after (dsize (c_w64 C) t) h data cap (Z.of_nat (length l)) h' a /\
         (fast t = true -> Z.of_nat (length l) <= cap -> nxt h' = nxt h)
  end.
Proof.
  intros Df A J V. exact (C21_slice_any_leaf_partial C O E dis T t stk D s i j l a h g F data len cap D' h' Df J (any_ctl C O _ A _) V).
Qed.

(** Conversely to [C19_only_unknown_field_any_leaf_partial]: with the option, if a call
    succeeds there is no unknown key in any object that is decoded into a struct.
    (Elements of an array in the document beyond those of the Go array are skipped.) *)
Fixpoint act_unknown_decoded (C : cfg) (O : opts) (d : dt) (v : jv) {struct d} : Prop :=
  match d, v with
  | DPtr t, v => act_unknown_decoded C O t v
  | DArr n t, JArr _ _ l => Exists (act_unknown_decoded C O t) (firstn n l)
  | DSlice t, JArr _ _ l => Exists (act_unknown_decoded C O t) l
  | DMap _ t, JObj _ _ l => Exists (fun x => act_unknown_decoded C O t (snd x)) l
  | DStruct _ fs, JObj _ _ l =>
      Exists (fun x => match act_field_for C O fs (snd (fst x)) with
        | None => True
        | Some j => match nth_error (map (fun f => act_unknown_decoded C O (snd f)) fs) j with Some P => P (snd x) | None => False end
        end) l
  | _, _ => False
  end.
Lemma elemsv_ok (f : vdec) (P : jv -> Prop) : (forall v g g', f v g = VOk g' -> P v -> False) -> forall l gs gs', elemsv f l gs = VOk gs' -> Exists P l -> False.
Proof.
  intros H. induction l as [|x l IH]; intros gs gs' E X; [inversion X|]. destruct gs as [|g gs]; [discriminate|]. cbn [elemsv] in E.
  destruct (f x g) as [g1| |] eqn:Ex; try discriminate. destruct (elemsv f l gs) as [r| |] eqn:El; try discriminate. inversion X; subst; [eapply H; eassumption|eapply IH; eassumption].
Qed.
Theorem C19_success_all_known C O s d : o_unknown O = true -> forall v g g', actual C O s d v g = VOk g' -> act_unknown_decoded C O d v -> False.
Proof.
  intros Un. induction d as [x|id z|id z| |n t IH| |t IH|k t IH| |t IH|z fs IH] using dt_ind'; intros v g g' E U; cbn [act_unknown_decoded] in U; try contradiction.
  - destruct v; try contradiction. cbn [actual] in E. destruct g as [| | | | | |gs| | | | |]; try discriminate. destruct (elemsv _ _ _) as [r| |] eqn:El; try discriminate.
    eapply elemsv_ok; [|exact El|exact U]. exact IH.
  - destruct v; try contradiction. cbn [actual] in E.
    assert (G : forall fast keep g', slicev (actual C O s t) (zero t) fast keep l g = VOk g' -> False).
    { intros fast keep g1 H. unfold slicev in H. destruct l as [|x l]; [inversion U|]. destruct (contents g) as [vis hid]. destruct (_ <=? _)%nat.
      - destruct (elemsv _ _ _) as [r| |] eqn:El; try discriminate. eapply elemsv_ok; [exact IH|exact El|exact U].
      - destruct (elemsv _ _ _) as [r| |] eqn:El; try discriminate. eapply elemsv_ok; [exact IH|exact El|exact U]. }
    destruct t; try (exact (G _ _ _ E)). clear - U. induction U; auto.
  - destruct v; try contradiction. cbn [actual] in E. match type of E with vmap _ (act_entries _ _ _ _ _ _ ?m) = _ => revert E; generalize m end. clear g. revert g'.
    induction l as [|[[p key] x] l IHl]; intros g' m E; [inversion U|]. cbn [act_entries] in E. destruct (act_key C k key) as [[gk|e]|]; try discriminate.
    match type of E with context [actual C O s t x ?g0] => destruct (actual C O s t x g0) eqn:Ex end; try discriminate. inversion U; subst; [eapply IH; eassumption|eapply IHl; eassumption].
  - destruct v; cbn [actual] in E; try (destruct (actual C O s t _ (zero t)) eqn:Et; try discriminate; eapply IH; eassumption).
    exfalso. clear - U. induction t; cbn in U; try contradiction; auto.
  - destruct v; try contradiction. cbn [actual] in E. destruct g as [| | | | | | |gs| | | |]; try discriminate. revert gs g' E. 
    induction l as [|[[p key] x] l IHl]; intros gs g' E; [inversion U|]. cbn [ideal_members] in E. inversion U as [? ? U1|? ? U1]; subst; cbn [fst snd] in *.
    + destruct (act_field_for C O fs key) as [q|]; [|rewrite Un in E; discriminate]. unfold vdec in *. rewrite nth_error_map in U1, E. destruct (nth_error fs q) as [y|] eqn:Ey; [|contradiction]. cbn [option_map] in *.
      destruct (nth_error gs q) as [g1|]; [|discriminate]. destruct (actual C O s (snd y) x g1) eqn:Ex; try discriminate. rewrite Forall_forall in IH. exact (IH y (nth_error_In _ _ Ey) _ _ _ Ex U1).
    + destruct (act_field_for C O fs key) as [q|]; [|rewrite Un in E; discriminate]. destruct (nth_error _ q); [|discriminate]. destruct (nth_error gs q); [|discriminate].
      destruct (v x g); try discriminate. exact (IHl U1 _ _ E).
Qed.
Theorem C19_success_all_known_partial C O E dis T d stk D s v a h g F D' h' :
  decoder_for C E dis T d stk D -> json_text s v -> ctl_root C O d v -> variable C d h a g F -> o_unknown O = true ->
  Decode C O stk D s (TOk (flat 0 v)) (Some a) h = Ret (-1) None D' h' -> ~ act_unknown_decoded C O d v.
Proof.
  intros Df J Ct V Un Ed U. pose proof (C15_characterised_partial C O E dis T d stk D s v a h g F Df J Ct V) as Q.
  destruct (actual C O s d v g) as [g'|i e g'|] eqn:Ei.
  - exact (C19_success_all_known C O s d Un v g g' Ei U).
  - destruct Q as (D1 & h1 & F1 & Q & _). pose proof (eq_trans (eq_sym Ed) Q) as X. discriminate X.
  - pose proof (eq_trans (eq_sym Ed) Q) as X. discriminate X.
Qed.
(** For every document: with the option, pointers only at the root and no struct{}, a call
    succeeds only if all keys are known, and the error ErrUnknownField is only returned at
    the index of an unknown key. *)
Theorem C19_every_document_partial C O E dis T d stk D s v a h g F r er D' h' :
  decoder_for C E dis T d stk D -> root_shape d = true -> o_unknown O = true -> json_text s v -> variable C d h a g F ->
  Decode C O stk D s (TOk (flat 0 v)) (Some a) h = Ret r er D' h' ->
  (er = None -> ~ act_unknown_decoded C O d v) /\
  (er = Some EUnknownField -> exists n, r = Z.of_nat n /\ act_unknown_at C O d v n).
Proof.
  intros Df Rs Un J V Ed. assert (A : any_document O d = true) by (unfold any_document; rewrite Rs, Un; reflexivity). split.
  - intros ->. pose proof (C15_characterised_partial C O E dis T d stk D s v a h g F Df J (any_ctl C O d A v) V) as Q. intros U.
    destruct (actual C O s d v g) as [g'|i e g'|] eqn:Ei.
    + exact (C19_success_all_known C O s d Un v g g' Ei U).
    + destruct Q as (D1 & h1 & F1 & Q & _). pose proof (eq_trans (eq_sym Ed) Q) as X. discriminate X.
    + pose proof (eq_trans (eq_sym Ed) Q) as X. discriminate X.
  - intros ->. exact (proj2 (C19_only_unknown_field_any_leaf_partial C O E dis T d stk D s v a h g F r D' h' Df J (any_ctl C O d A v) V Ed)).
Qed.

(** ** Cases *)
(** The type and the document of C15_characterised_case (every leaf is one on which the
    decoder deviates from the ideal), and the same document with the members in another
    order and another formatting. *)
Ltac each := repeat match goal with |- Forall _ (_ :: _) => apply Forall_cons | |- Forall _ [] => apply Forall_nil end.
Definition odd_doc : jv := Eval vm_compute in tree_of odd_text.
Definition odd_text' : bytes := bs "{ ""D"":""65536"", ""C"":""\ud83d\ude00"", ""B"":[-0,1.5], ""A"":300}".
Definition odd_doc' : jv := Eval vm_compute in tree_of odd_text'.
Lemma odd_decoder : decoder_for wC plain_env false odd_ty odd_dt odd_stk (dyn0 odd_stk).
Proof. eapply new_decoder; [apply plain_env_sizes|vm_compute; reflexivity|vm_compute; reflexivity|vm_compute; reflexivity]. Qed.
Lemma odd_hyps : json_text odd_text odd_doc /\ json_text odd_text' odd_doc' /\ ctl_root wC default_opts odd_dt odd_doc /\ ctl_root wC default_opts odd_dt odd_doc' /\
  no_empty_number wC default_opts odd_dt odd_doc /\ no_empty_number wC default_opts odd_dt odd_doc'.
Proof.
  split; [apply parse_sound; vm_compute; reflexivity|]. split; [apply parse_sound; vm_compute; reflexivity|].
  split; [apply ctl_rootb_spec; vm_compute; reflexivity|]. split; [apply ctl_rootb_spec; vm_compute; reflexivity|].
  split; unfold no_empty_number, odd_dt, odd_doc, odd_doc'; cbn [leaves]; each; cbn beta; cbn [fst snd].
  all: match goal with |- match ?X with Some _ => _ | None => _ end => let x := eval vm_compute in X in change X with x end.
  all: cbn [map nth_error leaves fst snd firstn]; try exact I; try (each; exact I); cbn [nonempty_sc]; discriminate.
Qed.
Example odd_unsound : ~ sound wC default_opts odd_dt odd_doc.
Proof.
  intros S. assert (B : soundb wC default_opts odd_dt odd_doc = false) by (vm_compute; reflexivity).
  unfold odd_dt, odd_doc in S. cbn [sound] in S. inversion S as [|? ? [_ S1] _]; subst. cbn [fst snd] in S1.
  match type of S1 with match ?X with _ => _ end => let x := eval vm_compute in X in change X with x in S1 end. cbn [map nth_error fst snd sound sound_sc] in S1.
  apply S1; [reflexivity|]. apply (wrapsb_spec wC (NK true W8) 300). vm_compute. reflexivity.
Qed.
Lemma odd_reordered : reordered odd_doc odd_doc'.
Proof.
  unfold odd_doc, odd_doc'. eapply ro_obj; [apply Permutation_rev|cbn [rev app]]. repeat (apply Forall2_cons || apply Forall2_nil); (split; [reflexivity|cbn [snd]]); repeat constructor.
Qed.
Lemma odd_unlike : act_unlike wC default_opts odd_dt odd_doc.
Proof.
  unfold odd_dt, odd_doc. cbn [act_unlike]. split.
  - match goal with |- NoDup ?X => let x := eval vm_compute in X in change X with x end. nodup.
  - each; cbn [fst snd]; match goal with |- match ?X with _ => _ end => let x := eval vm_compute in X in change X with x end;
      cbn [map nth_error act_unlike fst snd firstn]; try exact I; each; exact I.
Qed.
Example C44_any_leaf_case : exists D1 D2 h1 h2 g1 g2 F1 F2,
  Decode wC default_opts odd_stk (dyn0 odd_stk) odd_text (TOk (flat 0 odd_doc)) dest (world 56) = Ret (-1) None D1 h1 /\ variable wC odd_dt h1 (1%nat, 0) g1 F1 /\
  Decode wC default_opts odd_stk (dyn0 odd_stk) odd_text' (TOk (flat 0 odd_doc')) dest (world 56) = Ret (-1) None D2 h2 /\ variable wC odd_dt h2 (1%nat, 0) g2 F2 /\ same_value g1 g2.
Proof.
  pose proof (world_rep odd_dt (df_layout _ _ _ _ _ _ _ odd_decoder)) as [R Ow]. destruct odd_hyps as (J1 & J2 & C1 & C2 & S1 & S2).
  destruct (C44_member_order_any_leaf_partial _ _ _ _ _ odd_dt _ _ _ _ _ _ _ (1%nat, 0) (1%nat, 0) _ _ _ [] [] eq_refl odd_decoder odd_decoder J1 J2 odd_reordered odd_unlike C1 C2 S1 S2 (conj R Ow) (conj R Ow)) as [H|H]; [exact H|].
  exfalso. destruct H as (D1' & D2' & h1' & h2' & i1 & i2 & e1 & e2 & H & _).
  assert (Ok : match Decode wC default_opts odd_stk (dyn0 odd_stk) odd_text (TOk (flat 0 odd_doc)) dest (world 56) with Ret _ e _ _ => e | _ => None end = None) by (vm_compute; reflexivity).
  change (world (dsize true odd_dt)) with (world 56) in H. change (Some ((1%nat, 0) : addr)) with dest in H. rewrite H in Ok. discriminate.
Qed.
Example C45_any_leaf_case : exists D1 h1 g1 F1 D2 h2 F2,
  Decode wC default_opts odd_stk (dyn0 odd_stk) odd_text (TOk (flat 0 odd_doc)) dest (world 56) = Ret (-1) None D1 h1 /\ variable wC odd_dt h1 (1%nat, 0) g1 F1 /\
  Decode wC default_opts odd_stk D1 odd_text (TOk (flat 0 odd_doc)) dest h1 = Ret (-1) None D2 h2 /\ variable wC odd_dt h2 (1%nat, 0) g1 F2.
Proof.
  pose proof (world_rep odd_dt (df_layout _ _ _ _ _ _ _ odd_decoder)) as [R Ow]. destruct odd_hyps as (J1 & _ & C1 & _ & S1 & _).
  destruct C44_any_leaf_case as (D1 & _ & h1 & _ & _ & _ & _ & _ & Q & _).
  destruct (C45_decoding_again_any_leaf_partial _ _ _ _ _ odd_dt _ _ _ _ (1%nat, 0) _ _ [] D1 h1 eq_refl odd_decoder J1 odd_unlike C1 (conj R Ow) Q) as (g1 & F1 & D2 & h2 & F2 & V1 & Q2 & V2).
  exists D1, h1, g1, F1, D2, h2, F2. auto.
Qed.
(** C19: the type of C15_case with the option. *)
Example C19_every_document_case : root_shape ex_dt = true /\ o_unknown strict = true /\ act_unknown_decoded wC strict ex_dt ex_doc /\
  exists r D' h', Decode wC strict ex_stk (dyn0 ex_stk) ex_text (TOk (flat 0 ex_doc)) dest (world 48) = Ret r (Some EUnknownField) D' h' /\ r = 9.
Proof.
  split; [reflexivity|]. split; [reflexivity|]. split.
  - unfold ex_dt, ex_doc. cbn [act_unknown_decoded]. apply Exists_cons_tl, Exists_cons_hd. cbn [fst snd].
    match goal with |- match ?X with _ => _ end => let x := eval vm_compute in X in change X with x end. exact I.
  - destruct (Decode wC strict ex_stk (dyn0 ex_stk) ex_text (TOk (flat 0 ex_doc)) dest (world 48)) as [r e D' h'| | |] eqn:Q.
    + assert (X : match Decode wC strict ex_stk (dyn0 ex_stk) ex_text (TOk (flat 0 ex_doc)) dest (world 48) with Ret r e _ _ => Some (r, e) | _ => None end = Some (9, Some EUnknownField)) by (vm_compute; reflexivity).
      rewrite Q in X. injection X as -> ->. exists 9, D', h'. auto.
    + exfalso. assert (X : match Decode wC strict ex_stk (dyn0 ex_stk) ex_text (TOk (flat 0 ex_doc)) dest (world 48) with Ret _ _ _ _ => true | _ => false end = true) by (vm_compute; reflexivity). rewrite Q in X. discriminate.
    + exfalso. assert (X : match Decode wC strict ex_stk (dyn0 ex_stk) ex_text (TOk (flat 0 ex_doc)) dest (world 48) with Ret _ _ _ _ => true | _ => false end = true) by (vm_compute; reflexivity). rewrite Q in X. discriminate.
    + exfalso. assert (X : match Decode wC strict ex_stk (dyn0 ex_stk) ex_text (TOk (flat 0 ex_doc)) dest (world 48) with Ret _ _ _ _ => true | _ => false end = true) by (vm_compute; reflexivity). rewrite Q in X. discriminate.
Qed.

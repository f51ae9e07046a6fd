(** Properties of Decode on structs, slices and maps: C18, C19, C20, C21, C23.

    As in PropsDecode.v the hypotheses [ctl_root] and [sound] exclude documents on which
    the code is proved to be defective. *)
From Verif Require Import Base NumSpec StrSpec JsonNum Types AppendType Token FloatLit Heap Machine Dt Dec Control Root Elab Value Dval Sep Refine Spec Typed SpecProofs Main Parse World Elaborate PropsDecode.
Open Scope Z_scope.

(** ** C18 *)
(** What is left of a document if unknown members and the formatting are removed: the
    positions of values are dropped, and so are the members of objects for structs whose
    key selects no field.  (A json.Unmarshaler sees the source text.) *)
Fixpoint erase (v : jv) : jv :=
  match v with
  | JNull _ => JNull 0 | JBool _ b => JBool 0 b | JInt _ r => JInt 0 r | JNum _ r => JNum 0 r | JStr _ r => JStr 0 r
  | JArr _ _ l => JArr 0 0 (map erase l)
  | JObj _ _ l => JObj 0 0 (map (fun x => ((0%nat, snd (fst x)), erase (snd x))) l)
  end.
Definition known (C : cfg) (O : opts) (fs : list ((bytes * Z) * dt)) (x : (nat * bytes) * jv) : bool :=
  match field_for C O fs (snd (fst x)) with Some _ => true | None => false end.
Fixpoint content (C : cfg) (O : opts) (s : bytes) (d : dt) (v : jv) {struct d} : jv :=
  match d, v with
  | DJson _ _, v => JStr 0 (source s v)
  | DPtr t, JNull _ => JNull 0
  | DPtr t, v => content C O s t v
  | (DArr _ t | DSlice t), JArr _ _ l => JArr 0 0 (map (content C O s t) l)
  | DMap _ t, JObj _ _ l => JObj 0 0 (map (fun x => ((0%nat, snd (fst x)), content C O s t (snd x))) l)
  | DStruct _ fs, JObj _ _ l =>
      JObj 0 0 (map (fun x => ((0%nat, snd (fst x)),
                  match field_for C O fs (snd (fst x)) with
                  | Some j => match nth_error (map (fun x => content C O s (snd x)) fs) j with Some f => f (snd x) | None => JNull 0 end
                  | None => JNull 0
                  end)) (filter (known C O fs) l))
  | _, v => erase v
  end.

(** Forget the position of an error. *)
Definition outcome (r : vres gval) : option (option err * gval) :=
  match r with VOk g => Some (None, g) | VErr _ e g => Some (Some e, g) | VPan => None end.
Definition outcomes {A} (r : vres A) : option (option err * A) :=
  match r with VOk g => Some (None, g) | VErr _ e g => Some (Some e, g) | VPan => None end.

Lemma erase_kind v : match v, erase v with
  | JNull _, JNull _ | JBool _ _, JBool _ _ | JInt _ _, JInt _ _ | JNum _ _, JNum _ _ | JStr _ _, JStr _ _ | JArr _ _ _, JArr _ _ _ | JObj _ _ _, JObj _ _ _ => True
  | _, _ => False end.
Proof. destruct v; exact I. Qed.
Lemma map_eq_ind {A B} (f f' : A -> B) (P : list A -> list A -> Prop) :
  P [] [] -> (forall x x' l l', f x = f' x' -> map f l = map f' l' -> P l l' -> P (x :: l) (x' :: l')) ->
  forall l l', map f l = map f' l' -> P l l'.
Proof.
  intros H0 H1. induction l as [|x l IH]; intros [|x' l']; cbn; intros E; try discriminate; [exact H0|].
  injection E as E1 E2. apply H1; auto.
Qed.
Lemma generic_erase : forall v v', erase v = erase v' -> generic v = generic v'.
Proof.
  induction v as [i|i b|i r|i r|i r|i j l IH|i j l IH] using jv_ind'; intros [i'|i' b'|i' r'|i' r'|i' r'|i' j' l'|i' j' l'] E; try discriminate; cbn [erase] in E.
  1: reflexivity. 1-4: injection E as <-; reflexivity.
  - injection E as E. cbn [generic]. f_equal. revert l' E. induction l as [|x l IHl]; intros [|x' l'] E; try discriminate; [reflexivity|].
    cbn in E. injection E as E1 E2. inversion IH as [|? ? P1 P2]; subst. rewrite (P1 x' E1). destruct (generic x'); [|reflexivity]. rewrite (IHl P2 l' E2). reflexivity.
  - injection E as E. cbn [generic]. f_equal. generalize (@nil (bytes * jany)). revert l' E. induction l as [|[[p k] x] l IHl]; intros [|[[p' k'] x'] l'] E acc; try discriminate; [reflexivity|].
    cbn in E. injection E as E1 E2 E3. subst k'. inversion IH as [|? ? P1 P2]; subst. cbn [fst snd] in *. rewrite (P1 x' E2). destruct (generic x'); [|reflexivity]. apply IHl; assumption.
Qed.
Lemma ideal_sc_erase C x v v' : erase v = erase v' -> ideal_sc C x v = ideal_sc C x v'.
Proof.
  intros E. pose proof (generic_erase v v' E) as G.
  destruct v as [i|i b|i r|i r|i r|i j l|i j l], v' as [i'|i' b'|i' r'|i' r'|i' r'|i' j' l'|i' j' l']; try discriminate E; cbn [erase] in E.
  1: reflexivity. 1-4: injection E as <-; reflexivity.
  1,2: destruct x; try reflexivity; cbn [ideal_sc]; rewrite G; reflexivity.
Qed.
Lemma outcome_lput i i' r g : outcome (lput i r g) = outcome (lput i' r g).
Proof. destruct r; reflexivity. Qed.

Section Content.
Variables (C : cfg) (O : opts) (s s' : bytes).
Hypothesis Un : o_unknown O = false.

Definition same (d : dt) : Prop := forall v v' g, content C O s d v = content C O s' d v' -> outcome (ideal C O s d v g) = outcome (ideal C O s' d v' g).

Lemma elemsv_same t : same t -> forall l l' gs, map (content C O s t) l = map (content C O s' t) l' ->
  outcomes (elemsv (ideal C O s t) l gs) = outcomes (elemsv (ideal C O s' t) l' gs).
Proof.
  intros H l l' gs E. revert gs. pattern l, l'. revert E. apply map_eq_ind; [intros gs; destruct gs; reflexivity|]. intros x x' r r' E1 _ IH [|g gs]; [reflexivity|].
  cbn [elemsv]. specialize (H x x' g E1). specialize (IH gs). destruct (ideal C O s t x g) as [a|i e a|], (ideal C O s' t x' g) as [a'|i' e' a'|]; try discriminate H; cbn [outcome] in H; inversion H; subst; try reflexivity.
  destruct (elemsv (ideal C O s t) r gs), (elemsv (ideal C O s' t) r' gs); cbn [vmap outcomes] in *; congruence.
Qed.
Lemma len_same {A B} (f f' : A -> B) l l' : map f l = map f' l' -> length l = length l'.
Proof. intros E. rewrite <- (map_length f l), E. apply map_length. Qed.
Lemma slicev_same t z fast keep : same t -> forall l l' g, map (content C O s t) l = map (content C O s' t) l' ->
  outcome (slicev (ideal C O s t) z fast keep l g) = outcome (slicev (ideal C O s' t) z fast keep l' g).
Proof.
  intros H l l' g E. pose proof (len_same _ _ _ _ E) as Ln. unfold slicev. rewrite <- Ln. destruct l as [|x l], l' as [|x' l']; try discriminate Ln; [reflexivity|].
  destruct (contents g) as [vis hid]. destruct (_ <=? _)%nat.
  - pose proof (elemsv_same t H _ _ (vis ++ hid) E) as Q. destruct (elemsv (ideal C O s t) (x :: l) _), (elemsv (ideal C O s' t) (x' :: l') _); try discriminate Q; cbn [outcomes outcome] in *; congruence.
  - match goal with |- outcome (match elemsv _ _ ?gs with _ => _ end) = _ => pose proof (elemsv_same t H _ _ gs E) as Q end.
    destruct (elemsv (ideal C O s t) (x :: l) _), (elemsv (ideal C O s' t) (x' :: l') _); try discriminate Q; cbn [outcomes outcome] in *; try congruence. destruct fast; congruence.
Qed.
Lemma entries_same k t isstruct z : same t -> forall l l' m,
  map (fun x => ((0%nat, snd (fst x)), content C O s t (snd x))) l = map (fun x => ((0%nat, snd (fst x)), content C O s' t (snd x))) l' ->
  outcomes (ideal_entries C k (ideal C O s t) isstruct z l m) = outcomes (ideal_entries C k (ideal C O s' t) isstruct z l' m).
Proof.
  intros H l l' m E. revert m. pattern l, l'. revert E. apply map_eq_ind; [reflexivity|]. intros [[p key] x] [[p' key'] x'] r r' E1 _ IH m. cbn in E1. injection E1 as <- E1.
  cbn [ideal_entries]. destruct (ideal_key C k key) as [gk|e]; [|reflexivity].
  match goal with |- context [ideal C O s t x ?g] => specialize (H x x' g E1); destruct (ideal C O s t x g), (ideal C O s' t x' g) end;
    try discriminate H; cbn [outcome] in H; inversion H; subst; try reflexivity. apply IH.
Qed.
Lemma mss_same l l' : map (fun x => ((0%nat, snd (fst x)), erase (snd x))) l = map (fun x => ((0%nat, snd (fst x)), erase (snd x))) l' ->
  forall acc, match ideal_mss l acc, ideal_mss l' acc with inl a, inl b => a = b | inr (_, e), inr (_, e') => e = e' | _, _ => False end.
Proof.
  intros E. pattern l, l'. revert E. apply map_eq_ind; [reflexivity|]. intros [[p key] x] [[p' key'] x'] r r' E1 _ IH acc. cbn in E1. injection E1 as <- E1.
  destruct x, x'; try discriminate E1; cbn [ideal_mss]; try reflexivity; try apply IH. cbn in E1. injection E1 as <-. apply IH.
Qed.
Lemma members_known fs dec l : forall gs, ideal_members O (field_for C O fs) dec l gs = ideal_members O (field_for C O fs) dec (filter (known C O fs) l) gs.
Proof.
  induction l as [|[[p key] x] l IH]; intros gs; [reflexivity|]. cbn [ideal_members filter]. unfold known at 1. cbn [fst snd].
  destruct (field_for C O fs key) as [j|] eqn:E.
  - cbn [ideal_members]. rewrite E. destruct (nth_error dec j), (nth_error gs j); try reflexivity. destruct (v x g); try reflexivity. apply IH.
  - rewrite Un. apply IH.
Qed.
Lemma content_null d v : content C O s d v = JNull 0 -> match v with JNull _ => True | _ => False end.
Proof. revert v. induction d using dt_ind'; intros v; destruct v; cbn [content erase]; try discriminate; try (intros; exact I); intros H; apply IHd in H; exact H. Qed.
End Content.
Section Content2.
Variables (C : cfg) (O : opts) (s s' : bytes).
Hypothesis Un : o_unknown O = false.
Lemma content_same d : same C O s s' d.
Proof.
  induction d as [x|id z|id z| |n t IH| |t IH|k t IH| |t IH|z fs IH] using dt_ind'; intros v v' g E.
  - assert (E' : erase v = erase v') by (destruct v, v'; exact E). cbn [ideal]. rewrite (ideal_sc_erase C x v v' E'). apply outcome_lput.
  - destruct v, v'; try discriminate E; try reflexivity. cbn in E. injection E as <-. cbn [ideal]. unfold userv. destruct (c_ut _ _ _ _) as [new [c|]]; reflexivity.
  - assert (Es : source s v = source s' v') by (cbn in E; destruct v, v'; injection E as E; exact E). cbn [ideal]. rewrite Es. unfold userv. destruct (c_uj _ _ _ _) as [new [c|]]; reflexivity.
  - destruct v, v'; try discriminate E; reflexivity.
  - destruct v, v'; try discriminate E; try reflexivity. cbn [content] in E. injection E as E. cbn [ideal]. destruct g; try reflexivity.
    assert (En : map (content C O s t) (firstn n l) = map (content C O s' t) (firstn n l0)) by (rewrite <- !firstn_map, E; reflexivity).
    pose proof (elemsv_same C O s s' t IH _ _ l1 En) as Q. rewrite (len_same _ _ _ _ E).
    destruct (elemsv (ideal C O s t) _ _), (elemsv (ideal C O s' t) _ _); try discriminate Q; cbn [outcomes outcome] in *; congruence.
  - destruct v, v'; try discriminate E; reflexivity.
  - destruct v, v'; try discriminate E; try reflexivity. cbn [content] in E. injection E as E. cbn [ideal].
    destruct (match t with DEmpty => true | _ => false end) eqn:Et.
    + destruct t; try discriminate Et.
      assert (Q : match find (fun x => negb (null_or_object x)) l, find (fun x => negb (null_or_object x)) l0 with None, None | Some _, Some _ => True | _, _ => False end).
      { clear -E. pattern l, l0. revert E. apply (map_eq_ind (content C O s DEmpty) (content C O s' DEmpty)); [exact I|]. intros x x' r r' E1 _ Q. cbn [find]. destruct x, x'; try discriminate E1; cbn [null_or_object negb]; try exact I; exact Q. }
      rewrite (len_same _ _ _ _ E). destruct (find _ l), (find _ l0); try contradiction; reflexivity.
    + assert (Q := slicev_same C O s s' t (zero t) (match fast_et t with Some _ => true | None => false end) (carried t) IH _ _ g E).
      destruct t; try discriminate Et; exact Q.
  - destruct v, v'; try discriminate E; try reflexivity. cbn [content] in E. injection E as E. cbn [ideal].
    pose proof (entries_same C O s s' k t (is_struct t) (zero t) IH _ _ (match g with VMap (Some m) => m | _ => [] end) E) as Q.
    destruct (ideal_entries _ _ _ _ _ l _), (ideal_entries _ _ _ _ _ l0 _); try discriminate Q; cbn [outcomes outcome vmap] in *; congruence.
  - destruct v, v'; try discriminate E; try reflexivity. cbn [content erase] in E. injection E as E. cbn [ideal].
    pose proof (mss_same _ _ E []) as Q. destruct (ideal_mss l []) as [m|[p e]], (ideal_mss l0 []) as [m'|[p' e']]; try contradiction; subst; reflexivity.
  - assert (Q : match v, v' with JNull _, JNull _ => True | JNull _, _ | _, JNull _ => False | _, _ => content C O s t v = content C O s' t v' end).
    { destruct v, v'; try exact I; try (cbn [content] in E; apply (content_null C O s) in E; exact E);
        try (cbn [content] in E; symmetry in E; apply (content_null C O s') in E; exact E); exact E. }
    assert (G : content C O s t v = content C O s' t v' -> outcome (vmap (fun g => VPtr (Some g)) (ideal C O s t v (zero t))) = outcome (vmap (fun g => VPtr (Some g)) (ideal C O s' t v' (zero t)))).
    { intros E'. specialize (IH v v' (zero t) E'). destruct (ideal C O s t v _), (ideal C O s' t v' _); try discriminate IH; cbn [outcome vmap] in *; congruence. }
    destruct v, v'; try contradiction; try reflexivity; exact (G Q).
  - destruct v, v'; try discriminate E; try reflexivity. cbn [content] in E. injection E as E. cbn [ideal]. destruct g; try reflexivity.
    rewrite (members_known C O Un fs _ l), (members_known C O Un fs _ l0).
    assert (Q : forall gs, outcomes (ideal_members O (field_for C O fs) (map (fun x => ideal C O s (snd x)) fs) (filter (known C O fs) l) gs)
      = outcomes (ideal_members O (field_for C O fs) (map (fun x => ideal C O s' (snd x)) fs) (filter (known C O fs) l0) gs)).
    { revert E. generalize (filter (known C O fs) l0). generalize (filter (known C O fs) l). intros m m' E. pattern m, m'. revert E. apply map_eq_ind; [reflexivity|]. intros [[p key] x] [[p' key'] x'] r r' E1 _ Q gs.
      cbn [fst snd] in E1. injection E1 as <- E1. cbn [ideal_members]. rewrite Un. destruct (field_for C O fs key) as [jj|]; [|apply Q].
      rewrite !nth_error_map in *. destruct (nth_error fs jj) as [f|] eqn:Ef; cbn [option_map] in *; [|reflexivity]. destruct (nth_error gs jj) as [g|]; [|reflexivity].
      pose proof (proj1 (Forall_forall _ _) IH f (nth_error_In _ _ Ef) x x' g E1) as H.
      destruct (ideal C O s (snd f) x g), (ideal C O s' (snd f) x' g); try discriminate H; cbn [outcome] in H; inversion H; subst; try reflexivity. apply Q. }
    match goal with |- context [ideal_members _ _ _ _ ?gs] => specialize (Q gs) end. destruct (ideal_members _ _ _ (filter _ l) _), (ideal_members _ _ _ (filter _ l0) _); try discriminate Q; cbn [outcomes outcome vmap] in *; congruence.
Qed.
End Content2.

(** The result (value, error or not, kind of error) of a call depends only on the content:
    unknown members, with whatever value, anywhere in the document, make no difference, nor
    does white space.  (Missing from C18: unknown members whose value contains an object,
    for which the claim is false: C18_refuted.) *)
Theorem C18_unknown_members_partial C O E dis T d stk D1 D2 s s' v v' a h g F :
  decoder_for C E dis T d stk D1 -> decoder_for C E dis T d stk D2 -> o_unknown O = false ->
  json_text s v -> json_text s' v' -> content C O s d v = content C O s' d v' ->
  ctl_root C O d v -> ctl_root C O d v' -> sound C O d v -> sound C O d v' -> variable C d h a g F ->
  exists g' er i1 i2 D1' D2' h1 h2 F1 F2,
    Decode C O stk D1 s (TOk (flat 0 v)) (Some a) h = Ret i1 er D1' h1 /\ variable C d h1 a g' F1 /\
    Decode C O stk D2 s' (TOk (flat 0 v')) (Some a) h = Ret i2 er D2' h2 /\ variable C d h2 a g' F2.
Proof.
  intros Df Df' Un J J' Ec Ct Ct' S S' V.
  pose proof (C15_decode_is_ideal_partial C O E dis T d stk D1 s v a h g F Df J Ct S V) as Q.
  pose proof (C15_decode_is_ideal_partial C O E dis T d stk D2 s' v' a h g F Df' J' Ct' S' V) as Q'.
  pose proof (content_same C O s s' Un d v v' g Ec) as H.
  destruct (ideal C O s d v g) as [g1|i1 e1 g1|], (ideal C O s' d v' g) as [g2|i2 e2 g2|]; try contradiction; cbn [outcome] in H; inversion H; subst;
    destruct Q as (D' & h' & F' & Q & V' & _); destruct Q' as (D2' & h2' & F2' & Q' & V2' & _); eexists _, _, _, _, D', D2', h', h2', F', F2'; (split; [exact Q|split; [exact V'|split; [exact Q'|exact V2']]]).
Qed.
(** Case: the document of C15, which has an unknown member, without it, with another one
    inside the map's struct, and reformatted. *)
Definition ex_text2 : bytes :=
  bs " {""a"" : -5,""B"":[""p"",null,""q\n""],""C"":{""k"":{""X"":[true, false], ""\u00e9"" : ""no"", ""Y"":{""z"":[1.5e3]}}},""D"":""-2.50""}".
Definition ex_doc2 : jv := Eval vm_compute in tree_of ex_text2.
Example C18_case : ex_doc <> ex_doc2 /\ json_text ex_text2 ex_doc2 /\
  content wC default_opts ex_text ex_dt ex_doc = content wC default_opts ex_text2 ex_dt ex_doc2 /\
  ctl_root wC default_opts ex_dt ex_doc2 /\ sound wC default_opts ex_dt ex_doc2 /\ o_unknown default_opts = false.
Proof.
  split; [discriminate|]. split; [apply parse_sound; vm_compute; reflexivity|]. split; [vm_compute; reflexivity|].
  split; [apply ctl_rootb_spec; vm_compute; reflexivity|]. split; [apply soundb_spec; vm_compute; reflexivity|reflexivity].
Qed.

(** ** C19 *)
(** Anywhere in a document: if the members before an unknown key decode, the object gives
    the error ErrUnknownField at the index of that key, with the effects of the members
    before it. *)
Theorem C19_first_unknown_anywhere C O s z fs i j l1 k key w l2 g g1 :
  o_unknown O = true -> field_for C O fs key = None ->
  ideal C O s (DStruct z fs) (JObj i j l1) g = VOk g1 ->
  ideal C O s (DStruct z fs) (JObj i j (l1 ++ ((k, key), w) :: l2)) g = VErr k EUnknownField g1.
Proof.
  intros Un Nk. cbn [ideal]. destruct g as [| | | | | | |gs| | | |]; try discriminate. revert gs. induction l1 as [|[[p key1] x] l1 IH]; intros gs; cbn [app ideal_members].
  - rewrite Nk, Un. cbn. congruence.
  - destruct (field_for C O fs key1) as [q|]; [|rewrite Un; discriminate]. destruct (nth_error _ q), (nth_error gs q); try discriminate. destruct (v x g); try discriminate. apply IH.
Qed.
(** [k] is the index of an unknown key of an object that is decoded into a struct. *)
Fixpoint unknown_at (C : cfg) (O : opts) (d : dt) (v : jv) (k : nat) {struct d} : Prop :=
  match d, v with
  | DPtr t, v => unknown_at C O t v k
  | (DArr _ t | DSlice t), JArr _ _ l => Exists (fun x => unknown_at C O t x k) l
  | DMap _ t, JObj _ _ l => Exists (fun x => unknown_at C O t (snd x) k) l
  | DStruct _ fs, JObj _ _ l =>
      Exists (fun x => match field_for C O fs (snd (fst x)) with
        | None => fst (fst x) = k
        | Some j => match nth_error (map (fun f => unknown_at C O (snd f)) fs) j with Some P => P (snd x) k | None => False end
        end) l
  | _, _ => False
  end.
Lemma elemsv_unknown f (P : jv -> nat -> Prop) k : (forall v g g', f v g = VErr k EUnknownField g' -> P v k) ->
  forall l gs gs', elemsv f l gs = VErr k EUnknownField gs' -> Exists (fun x => P x k) l.
Proof.
  intros H. induction l as [|x l IH]; intros [|g gs] gs' E; try discriminate. cbn [elemsv] in E. destruct (f x g) as [g1|i e g1|] eqn:Ex; [|injection E as -> -> _; left; eapply H, Ex|discriminate].
  right. destruct (elemsv f l gs) eqn:El; try discriminate. cbn in E. injection E as -> -> _. eapply IH, El.
Qed.
Lemma lput_unknown C x v k g g' : lput k (ideal_sc C x v) g = VErr k EUnknownField g' -> False.
Proof.
  assert (I1 : forall k r, int_lit C k r <> LErr EUnknownField) by (intros q r; unfold int_lit; repeat destruct (_ : bool); discriminate).
  assert (I2 : forall k r, int_text C k r <> inr EUnknownField) by (intros q r; unfold int_text; destruct (_ : bool); discriminate).
  assert (I3 : forall b r, float_lit b r <> LErr EUnknownField) by (intros q r; unfold float_lit; destruct (round q r); discriminate).
  destruct (ideal_sc C x v) as [| |e|] eqn:E; cbn; try discriminate. intros Q. injection Q as -> _. revert E.
  destruct x, v; cbn [ideal_sc]; try discriminate; try apply I1; try apply I3;
    repeat match goal with |- context [match ?X with _ => _ end] => destruct X eqn:?; try discriminate; try apply I3; try (intros E; injection E as ->; eapply I2; eassumption) end.
Qed.
Lemma lput_at i k C x v g g' : lput i (ideal_sc C x v) g = VErr k EUnknownField g' -> False.
Proof. intros H. assert (i = k) as -> by (destruct (ideal_sc C x v); cbn in H; congruence). eapply lput_unknown, H. Qed.
Lemma Exists_and {A} (P : Prop) (Q : A -> Prop) l : Exists (fun x => P /\ Q x) l -> P /\ Exists Q l.
Proof. induction 1 as [x l [H1 H2]|x l _ [H1 H2]]; auto. Qed.
(** Conversely: that error occurs only with the option, at the index of an unknown key. *)
Theorem C19_unknown_field_only_if C O s d : forall v g k g', ideal C O s d v g = VErr k EUnknownField g' -> o_unknown O = true /\ unknown_at C O d v k.
Proof.
  assert (U : forall z i (r : bytes * option nat) k g', userv z i r = VErr k EUnknownField g' -> False) by (intros z i [new [c|]] k g'; unfold userv; cbn; discriminate).
  induction d as [x|id z|id z| |n t IH| |t IH|kk t IH| |t IH|z fs IH] using dt_ind'; intros v g k g' H.
  - destruct (lput_at _ _ _ _ _ _ _ H).
  - cbn [ideal] in H. destruct v; try discriminate H. destruct (U _ _ _ _ _ H).
  - cbn [ideal] in H. destruct (U _ _ _ _ _ H).
  - cbn [ideal] in H. destruct v; discriminate H.
  - cbn [ideal] in H. destruct v; try discriminate H. destruct g as [| | | | | |gs| | | | |]; try discriminate H. cbn [unknown_at]. apply Exists_and.
    destruct (elemsv _ _ _) as [?|ii ee ?|] eqn:E; try discriminate H. injection H as -> -> _.
    pose proof (elemsv_unknown _ (fun v k => o_unknown O = true /\ unknown_at C O t v k) k (fun v g g' => IH v g k g') _ _ _ E) as Q.
    apply Exists_exists in Q as (x & Hx & Q). apply Exists_exists. exists x. split; [|exact Q]. rewrite <- (firstn_skipn n l). apply in_or_app. left. exact Hx.
  - cbn [ideal] in H. destruct v; discriminate H.
  - cbn [ideal] in H. destruct v; try discriminate H. cbn [unknown_at]. apply Exists_and.
    assert (G : forall fast keep g, slicev (ideal C O s t) (zero t) fast keep l g = VErr k EUnknownField g' -> Exists (fun x => o_unknown O = true /\ unknown_at C O t x k) l).
    { clear H. intros fast keep g1 H. unfold slicev in H. destruct l as [|x l]; [discriminate|]. destruct (contents g1) as [vis hid]. destruct (_ <=? _)%nat.
      - destruct (elemsv _ _ _) as [?|ii ee ?|] eqn:E; try discriminate H. injection H as -> -> _.
        exact (elemsv_unknown _ (fun v k => o_unknown O = true /\ unknown_at C O t v k) k (fun v g g' => IH v g k g') _ _ _ E).
      - destruct (elemsv _ _ _) as [?|ii ee ?|] eqn:E; try discriminate H. injection H as -> -> _.
        exact (elemsv_unknown _ (fun v k => o_unknown O = true /\ unknown_at C O t v k) k (fun v g g' => IH v g k g') _ _ _ E). }
    destruct t; try (exact (G _ _ _ H)). destruct (find _ l); discriminate H.
  - cbn [ideal] in H. destruct v; try discriminate H. cbn [unknown_at]. apply Exists_and.
    match type of H with vmap _ (ideal_entries _ _ _ _ _ _ ?m) = _ => revert H; generalize m end. induction l as [|[[p key] x] l IHl]; intros m H; [discriminate|].
    cbn [ideal_entries] in H. destruct (ideal_key C kk key) as [gk|e] eqn:Ek.
    + match type of H with context [ideal C O s t x ?g0] => destruct (ideal C O s t x g0) eqn:Ex end; try discriminate H.
      * right. eapply IHl, H.
      * injection H as -> -> _. left. cbn [snd]. eapply IH, Ex.
    + injection H as -> -> _. exfalso. destruct kk; cbn [ideal_key] in Ek.
      * discriminate.
      * unfold int_text in Ek. destruct (_ && _); discriminate.
      * destruct (c_ut _ _ _ _) as [new [c|]]; discriminate.
  - cbn [ideal] in H. destruct v; try discriminate H. exfalso. assert (G : forall l acc, match ideal_mss l acc with inr (_, e) => e = EUnexpected | _ => True end).
    { clear. induction l as [|[[p key] x] l IHl]; intros acc; [exact I|]. destruct x; cbn [ideal_mss]; try reflexivity; apply IHl. }
    specialize (G l []). destruct (ideal_mss l []) as [|[p e]]; [discriminate|]. subst. discriminate.
  - assert (G : vmap (fun g => VPtr (Some g)) (ideal C O s t v (zero t)) = VErr k EUnknownField g' -> o_unknown O = true /\ unknown_at C O t v k).
    { clear H. intros H. destruct (ideal C O s t v (zero t)) eqn:E; try discriminate H. injection H as -> -> _. eapply IH, E. }
    destruct v; try discriminate H; exact (G H).
  - cbn [ideal] in H. destruct v; try discriminate H. destruct g as [| | | | | | |gs| | | |]; try discriminate H. cbn [unknown_at]. apply Exists_and.
    revert gs H. induction l as [|[[p key] x] l IHl]; intros gs H; [discriminate|]. cbn [ideal_members] in H.
    destruct (field_for C O fs key) as [q|] eqn:Ek.
    + rewrite nth_error_map in H. destruct (nth_error fs q) as [f|] eqn:Ef; [|discriminate]. cbn [option_map] in H. destruct (nth_error gs q) as [g|] eqn:Eg; [|discriminate].
      destruct (ideal C O s (snd f) x g) eqn:Ex; try discriminate H.
      * right. eapply IHl, H.
      * injection H as -> -> _. left. cbn [fst snd]. rewrite Ek, nth_error_map, Ef. cbn [option_map].
        eapply (proj1 (Forall_forall _ _) IH f (nth_error_In _ _ Ef)), Ex.
    + destruct (o_unknown O) eqn:Un.
      * injection H as -> _. left. cbn [fst snd]. rewrite Ek. auto.
      * right. eapply IHl, H.
Qed.
(** At the root. *)
Theorem C19_unknown_field_partial C O E dis T z fs stk D s i j l1 k key w l2 a h g g1 F :
  decoder_for C E dis T (DStruct z fs) stk D -> json_text s (JObj i j (l1 ++ ((k, key), w) :: l2)) -> o_unknown O = true -> field_for C O fs key = None ->
  ideal C O s (DStruct z fs) (JObj i j l1) g = VOk g1 ->
  ctl_root C O (DStruct z fs) (JObj i j (l1 ++ ((k, key), w) :: l2)) -> sound C O (DStruct z fs) (JObj i j (l1 ++ ((k, key), w) :: l2)) ->
  variable C (DStruct z fs) h a g F ->
  exists D' h' F', Decode C O stk D s (TOk (flat 0 (JObj i j (l1 ++ ((k, key), w) :: l2)))) (Some a) h = Ret (Z.of_nat k) (Some EUnknownField) D' h' /\
    variable C (DStruct z fs) h' a g1 F'.
Proof.
  intros Df J Un Nk I1 Ct S V. pose proof (C15_decode_is_ideal_partial C O E dis T _ stk D s _ a h g F Df J Ct S V) as Q.
  rewrite (C19_first_unknown_anywhere C O s z fs i j l1 k key w l2 g g1 Un Nk I1) in Q. destruct Q as (D' & h' & F' & Q & V' & _). eauto.
Qed.
Theorem C19_only_unknown_field_partial C O E dis T d stk D s v a h g F k D' h' :
  decoder_for C E dis T d stk D -> json_text s v -> ctl_root C O d v -> sound C O d v -> variable C d h a g F ->
  Decode C O stk D s (TOk (flat 0 v)) (Some a) h = Ret k (Some EUnknownField) D' h' ->
  o_unknown O = true /\ exists n, k = Z.of_nat n /\ unknown_at C O d v n.
Proof.
  intros Df J Ct S V Ed. pose proof (C15_decode_is_ideal_partial C O E dis T d stk D s v a h g F Df J Ct S V) as Q.
  destruct (ideal C O s d v g) as [g'|i e g'|] eqn:Ei; [| |contradiction]; destruct Q as (D1 & h1 & F1 & Q & _); pose proof (eq_trans (eq_sym Ed) Q) as X; try discriminate X.
  injection X as -> <- _ _. apply C19_unknown_field_only_if in Ei as [U1 U2]. eauto.
Qed.
Definition strict_opts : opts := {| o_unknown := true; o_nofold := false; o_nounescape := false |}.
Example C19_case : exists l1 k key w l2 i j z fs, ex_dt = DStruct z fs /\
  ex_doc = JObj i j (l1 ++ ((k, key), w) :: l2) /\ field_for wC strict_opts fs key = None /\ k = 9%nat /\
  ctl_root wC strict_opts ex_dt ex_doc /\ sound wC strict_opts ex_dt ex_doc /\
  exists g1, ideal wC strict_opts ex_text ex_dt (JObj i j l1) (zero ex_dt) = VOk g1 /\ g1 <> zero ex_dt.
Proof.
  assert (Ct : ctl_root wC strict_opts ex_dt ex_doc) by (apply ctl_rootb_spec; vm_compute; reflexivity).
  assert (S : sound wC strict_opts ex_dt ex_doc) by (apply soundb_spec; vm_compute; reflexivity).
  unfold ex_dt, ex_doc in *. eexists [_], _, _, _, _, _, _, _, _. split; [reflexivity|]. split; [reflexivity|]. split; [vm_compute; reflexivity|]. split; [reflexivity|]. split; [exact Ct|]. split; [exact S|].
  eexists. split; [vm_compute; reflexivity|vm_compute; discriminate].
Qed.

(** ** C20 *)
(** The values a document assigns to field [q], in order, and their decoding in turn. *)
Definition assigned (C : cfg) (O : opts) (fs : list ((bytes * Z) * dt)) (q : nat) (l : list ((nat * bytes) * jv)) : list jv :=
  map snd (filter (fun x => match field_for C O fs (snd (fst x)) with Some j => Nat.eqb j q | None => false end) l).
Fixpoint in_turn (f : vdec) (vs : list jv) (g : gval) : vres gval :=
  match vs with
  | [] => VOk g
  | v :: r => match f v g with VOk g' => in_turn f r g' | x => x end
  end.
Lemma set_nth_same {A} (l : list A) j a x : nth_error l j = Some x -> nth_error (set_nth l j a) j = Some a.
Proof. revert j; induction l as [|y l IH]; intros [|j]; cbn; try discriminate; [reflexivity|apply IH]. Qed.
Lemma set_nth_other {A} (l : list A) j k a : j <> k -> nth_error (set_nth l j a) k = nth_error l k.
Proof. revert j k; induction l as [|y l IH]; intros [|j] [|k] H; cbn; try reflexivity; [congruence|]. apply IH. congruence. Qed.
Lemma set_nth_length {A} (l : list A) j a : length (set_nth l j a) = length l.
Proof. revert j; induction l as [|y l IH]; intros [|j]; cbn; try reflexivity. f_equal. apply IH. Qed.

(** Anywhere in a document: on success every field holds the result of decoding the
    members for it in order, starting from its old value; a field without member is
    unchanged, also on failure. *)
Definition fields_post (C : cfg) (O : opts) (s : bytes) (fs : list ((bytes * Z) * dt)) (l : list ((nat * bytes) * jv)) (ok : bool) (gs gs' : list gval) : Prop :=
  length gs' = length gs /\
  (ok = true -> forall q nm t g, nth_error fs q = Some (nm, t) -> nth_error gs q = Some g ->
     exists g', nth_error gs' q = Some g' /\ in_turn (ideal C O s t) (assigned C O fs q l) g = VOk g') /\
  (forall q, assigned C O fs q l = [] -> nth_error gs' q = nth_error gs q).
Theorem C20_fields_anywhere C O s z fs i j l gs :
  match ideal C O s (DStruct z fs) (JObj i j l) (VStruct gs) with
  | VOk (VStruct gs') => fields_post C O s fs l true gs gs'
  | VErr _ _ (VStruct gs') => fields_post C O s fs l false gs gs'
  | VPan => True
  | _ => False
  end.
Proof.
  cbn [ideal].
  assert (H : match ideal_members O (field_for C O fs) (map (fun x => ideal C O s (snd x)) fs) l gs with
    | VOk gs' => fields_post C O s fs l true gs gs' | VErr _ _ gs' => fields_post C O s fs l false gs gs' | VPan => True end).
  { revert gs. induction l as [|[[p key] x] l IH]; intros gs; [split; [reflexivity|split; [|reflexivity]]; intros _ q nm t g _ E; exists g; auto|].
    cbn [ideal_members]. unfold fields_post, assigned in *. cbn [filter fst snd]. destruct (field_for C O fs key) as [r|] eqn:Ek.
    - rewrite nth_error_map. destruct (nth_error fs r) as [[nm0 t0]|] eqn:Ef; [|exact I]. cbn [option_map snd]. destruct (nth_error gs r) as [g0|] eqn:Eg; [|exact I].
      destruct (ideal C O s t0 x g0) as [g1|i1 e1 g1|] eqn:Ex; [| |exact I].
      + specialize (IH (set_nth gs r g1)).
        assert (Un : forall gs', (forall q, map snd (filter (fun x => match field_for C O fs (snd (fst x)) with Some j => Nat.eqb j q | None => false end) l) = [] -> nth_error gs' q = nth_error (set_nth gs r g1) q) ->
          forall q, map snd (if Nat.eqb r q then ((p, key), x) :: filter (fun x => match field_for C O fs (snd (fst x)) with Some j => Nat.eqb j q | None => false end) l else filter (fun x => match field_for C O fs (snd (fst x)) with Some j => Nat.eqb j q | None => false end) l) = [] -> nth_error gs' q = nth_error gs q).
        { intros gs' H q Aq. destruct (Nat.eqb_spec r q) as [->|Nq]; [discriminate|]. rewrite (H q Aq). apply set_nth_other, Nq. }
        destruct (ideal_members _ _ _ l _) as [gs'|i2 e2 gs'|]; [| |exact I]; destruct IH as (Ln & IH & IH2); rewrite set_nth_length in Ln; (split; [exact Ln|split; [|exact (Un _ IH2)]]); [|discriminate].
        intros _ q nm t g Fq Gq. destruct (Nat.eqb_spec r q) as [->|Nq].
        -- rewrite Ef in Fq. injection Fq as <- <-. rewrite Eg in Gq. injection Gq as <-. cbn [map snd in_turn]. rewrite Ex. eapply IH; [reflexivity|exact Ef|]. eapply set_nth_same, Eg.
        -- eapply IH; [reflexivity|exact Fq|]. rewrite set_nth_other by exact Nq. exact Gq.
      + split; [apply set_nth_length|]. split; [discriminate|]. intros q Aq. destruct (Nat.eqb_spec r q) as [->|Nq]; [discriminate|]. apply set_nth_other, Nq.
    - destruct (o_unknown O); [split; [reflexivity|split; [discriminate|reflexivity]]|]. apply IH. }
  destruct (ideal_members _ _ _ _ _) as [gs'|? ? gs'|]; exact H.
Qed.
(** At the root.  (Missing: the documents excluded by [ctl_root] and [sound], for some of
    which the claim is false: C20_refuted.) *)
Theorem C20_fields_partial C O E dis T z fs stk D s i j l a h gs F :
  decoder_for C E dis T (DStruct z fs) stk D -> json_text s (JObj i j l) -> ctl_root C O (DStruct z fs) (JObj i j l) -> sound C O (DStruct z fs) (JObj i j l) ->
  variable C (DStruct z fs) h a (VStruct gs) F ->
  exists gs' r er D' h' F', Decode C O stk D s (TOk (flat 0 (JObj i j l))) (Some a) h = Ret r er D' h' /\
    variable C (DStruct z fs) h' a (VStruct gs') F' /\
    fields_post C O s fs l (match er with None => true | _ => false end) gs gs'.
Proof.
  intros Df J Ct S V. pose proof (C15_decode_is_ideal_partial C O E dis T _ stk D s _ a h _ F Df J Ct S V) as Q.
  pose proof (C20_fields_anywhere C O s z fs i j l gs) as G.
  destruct (ideal _ _ _ _ _ _) as [g'|n e g'|]; [| |contradiction]; destruct g' as [| | | | | | |gs'| | | |]; try contradiction;
    destruct Q as (D' & h' & F' & Q & V' & _); eexists gs', _, _, D', h', F'; (split; [exact Q|split; [exact V'|exact G]]).
Qed.
(** Case: the key "A" twice (once in lower case), "B" not at all. *)
Example C20_case :
  let s := bs "{""A"":1,""D"":""2"",""a"":-3}" in
  let v := tree_of s in
  json_text s v /\ ctl_root wC default_opts ex_dt v /\ sound wC default_opts ex_dt v /\
  match ex_dt, v with
  | DStruct z fs, JObj i j l => map (fun q => map jidx (assigned wC default_opts fs q l)) [0; 1; 2; 3]%nat = [[5; 19]; []; []; [11]]%nat
  | _, _ => False
  end.
Proof.
  cbn zeta. split; [apply parse_sound; vm_compute; reflexivity|]. split; [apply ctl_rootb_spec; vm_compute; reflexivity|]. split; [apply soundb_spec; vm_compute; reflexivity|vm_compute; reflexivity].
Qed.

(** ** C23 *)
(** The values a document gives for a map key, in order. *)
Definition gives (C : cfg) (k : dkey) (l : list ((nat * bytes) * jv)) (key : gkey) : list jv :=
  map snd (filter (fun x => match ideal_key C k (snd (fst x)) with inl key' => gkey_eqb key' key | inr _ => false end) l).
(** Decoding them in turn: into the present entry if there is one (a struct entry is
    cleared first), else into a zero value. *)
Fixpoint entry (f : vdec) (isstruct : bool) (z : gval) (vs : list jv) (old : option gval) : vres (option gval) :=
  match vs with
  | [] => VOk old
  | v :: r =>
      match f v (match old with Some g => if isstruct then z else g | None => z end) with
      | VOk g => entry f isstruct z r (Some g)
      | VErr i e g => VErr i e (Some g)
      | VPan => VPan
      end
  end.
Lemma gkey_eq a b : gkey_eqb a b = true <-> a = b.
Proof.
  destruct a, b; cbn; split; intros H; try discriminate; try (injection H as <-); try (apply Z.eqb_refl); try (apply bytes_eqb_eq; reflexivity); f_equal; try (apply Z.eqb_eq, H); apply bytes_eqb_eq, H.
Qed.
Lemma getk_put_other m k k' g : k <> k' -> getk (putk m k g) k' = getk m k'.
Proof.
  intros N. induction m as [|[a b] m IH]; cbn.
  - destruct (gkey_eqb k k') eqn:E; [|reflexivity]. apply gkey_eq in E. contradiction.
  - destruct (gkey_eqb a k) eqn:E; cbn; [|rewrite IH; reflexivity]. apply gkey_eq in E. subst a.
    destruct (gkey_eqb k k') eqn:E'; [|reflexivity]. apply gkey_eq in E'. contradiction.
Qed.
Definition entries_post (C : cfg) (O : opts) (s : bytes) (k : dkey) (t : dt) (l : list ((nat * bytes) * jv)) (ok : bool) (m m' : list (gkey * gval)) : Prop :=
  (ok = true -> forall key, entry (ideal C O s t) (is_struct t) (zero t) (gives C k l key) (getk m key) = VOk (getk m' key)) /\
  (forall key, gives C k l key = [] -> getk m' key = getk m key).
Definition entries_of (g : gval) : list (gkey * gval) := match g with VMap (Some m) => m | _ => [] end.
(** Anywhere in a document: on success the entry of every key is the result of decoding
    the values given for it; other entries are kept, also on failure. *)
Theorem C23_entries_anywhere C O s k t i j l g :
  match ideal C O s (DMap k t) (JObj i j l) g with
  | VOk (VMap (Some m')) => entries_post C O s k t l true (entries_of g) m'
  | VErr _ _ (VMap (Some m')) => entries_post C O s k t l false (entries_of g) m'
  | VPan => True
  | _ => False
  end.
Proof.
  cbn [ideal]. fold (entries_of g). generalize (entries_of g). intros m.
  assert (H : match ideal_entries C k (ideal C O s t) (is_struct t) (zero t) l m with
    | VOk m' => entries_post C O s k t l true m m' | VErr _ _ m' => entries_post C O s k t l false m m' | VPan => True end).
  { revert m. induction l as [|[[p key] x] l IH]; intros m; [split; [reflexivity|reflexivity]|].
    cbn [ideal_entries]. unfold entries_post, gives in *. cbn [filter fst snd]. destruct (ideal_key C k key) as [gk|e] eqn:Ek.
    - match goal with |- context [ideal C O s t x ?o] => destruct (ideal C O s t x o) as [g1|i1 e1 g1|] eqn:Ex end; [| |exact I].
      + specialize (IH (putk m gk g1)). destruct (ideal_entries _ _ _ _ _ l _) as [m'|i2 e2 m'|]; [| |exact I]; destruct IH as (IH & IH2).
        * split.
          -- intros _ key0. destruct (gkey_eqb gk key0) eqn:Ek0.
             ++ apply gkey_eq in Ek0. subst key0. cbn [map snd entry]. rewrite Ex. specialize (IH eq_refl gk). rewrite Refine3.getk_put in IH. exact IH.
             ++ specialize (IH eq_refl key0). rewrite getk_put_other in IH; [exact IH|]. intros ->. rewrite Refine3.gkey_refl in Ek0. discriminate.
          -- intros key0. destruct (gkey_eqb gk key0) eqn:Ek0; [discriminate|]. intros Hg. rewrite (IH2 key0 Hg). apply getk_put_other. intros ->. rewrite Refine3.gkey_refl in Ek0. discriminate.
        * split; [discriminate|]. intros key0. destruct (gkey_eqb gk key0) eqn:Ek0; [discriminate|]. intros Hg. rewrite (IH2 key0 Hg). apply getk_put_other. intros ->. rewrite Refine3.gkey_refl in Ek0. discriminate.
      + split; [discriminate|]. intros key0. destruct (gkey_eqb gk key0) eqn:Ek0; [discriminate|]. intros Hg. apply getk_put_other. intros ->. rewrite Refine3.gkey_refl in Ek0. discriminate.
    - split; [discriminate|reflexivity]. }
  destruct (ideal_entries _ _ _ _ _ _ _) as [m'|? ? m'|]; exact H.
Qed.
(** If decoding a [t] does not depend on what was there before, the last duplicate wins:
    every type of struct, and every scalar type that is not quoted. *)
Definition overwritten (d : dt) : bool :=
  match d with DStruct _ _ | DSc (SBool | SStr | SNumber | SInt _ | SFloat _ | SAny) => true | _ => false end.
Theorem C23_last_wins C O s t vs old g' : overwritten t = true -> vs <> [] ->
  entry (ideal C O s t) (is_struct t) (zero t) vs old = VOk g' ->
  exists g1, g' = Some g1 /\ ideal C O s t (last vs (JNull 0)) (zero t) = VOk g1.
Proof.
  intros Ov. assert (St : forall v o g1, ideal C O s t v (match o with Some g => if is_struct t then zero t else g | None => zero t end) = VOk g1 -> ideal C O s t v (zero t) = VOk g1).
  { intros v [g|] g1 H; [|exact H]. destruct t as [x| | | | | | | | | |]; try discriminate Ov; [|exact H]. cbn [is_struct ideal] in *.
    destruct (ideal_sc C x v) eqn:E; cbn [lput] in *; try discriminate; try exact H. exfalso. clear H. destruct x; try discriminate Ov; destruct v; cbn [ideal_sc] in E; try discriminate E;
    unfold int_lit, float_lit in E; repeat match type of E with context [match ?X with _ => _ end] => destruct X; try discriminate E end. }
  revert old. induction vs as [|v vs IH]; intros old Ne H; [congruence|]. cbn [entry] in H.
  destruct (ideal C O s t v _) as [g1|i e g1|] eqn:Ex; try discriminate H. destruct vs as [|v' vs].
  - cbn in H. injection H as <-. exists g1. split; [reflexivity|]. cbn [last]. eapply St, Ex.
  - apply IH in H; [exact H|discriminate].
Qed.
(** At the root.  (Missing from C23: map[string]string and the excluded documents, for
    which the claim is false: C23_refuted.) *)
Theorem C23_entries_partial C O E dis T k t stk D s i j l a h g F :
  decoder_for C E dis T (DMap k t) stk D -> json_text s (JObj i j l) -> ctl_root C O (DMap k t) (JObj i j l) -> sound C O (DMap k t) (JObj i j l) ->
  variable C (DMap k t) h a g F ->
  exists m' r er D' h' F', Decode C O stk D s (TOk (flat 0 (JObj i j l))) (Some a) h = Ret r er D' h' /\
    variable C (DMap k t) h' a (VMap (Some m')) F' /\
    entries_post C O s k t l (match er with None => true | _ => false end) (entries_of g) m'.
Proof.
  intros Df J Ct S V. pose proof (C15_decode_is_ideal_partial C O E dis T _ stk D s _ a h _ F Df J Ct S V) as Q.
  pose proof (C23_entries_anywhere C O s k t i j l g) as G.
  destruct (ideal _ _ _ _ _ _) as [g'|n e g'|]; [| |contradiction]; destruct g' as [| | | | | | | | |[m'|]| |]; try contradiction;
    destruct Q as (D' & h' & F' & Q & V' & _); eexists m', _, _, D', h', F'; (split; [exact Q|split; [exact V'|exact G]]).
Qed.
(** Case: map[int16]float32, with a duplicate key. *)
Definition mif_ty : ty := TMap (TInt (NK true W16)) (TFloat B32).
Definition mif_dt : dt := DMap (KeyInt (NK true W16)) (DSc (SFloat B32)).
Definition mif_stk : list frame := Eval vm_compute in stack_of plain_env mif_ty.
Example C23_case :
  let s := bs "{""-7"":1,""32767"":2.5,""-7"":3}" in
  let v := tree_of s in
  decoder_for wC plain_env false mif_ty mif_dt mif_stk (dyn0 mif_stk) /\
  json_text s v /\ ctl_root wC default_opts mif_dt v /\ sound wC default_opts mif_dt v /\
  ideal wC default_opts s mif_dt v (VMap (Some [(GInt 5, VFloat (FN 1 0 false))])) =
    VOk (VMap (Some [(GInt 5, VFloat (FN 1 0 false)); (GInt (-7), VFloat (FN 3 0 false)); (GInt 32767, VFloat (FN 25 (-1) false))])).
Proof.
  cbn zeta. split; [eapply new_decoder; [apply plain_env_sizes|vm_compute; reflexivity|vm_compute; reflexivity|vm_compute; reflexivity]|].
  split; [apply parse_sound; vm_compute; reflexivity|]. split; [apply ctl_rootb_spec; vm_compute; reflexivity|]. split; [apply soundb_spec; vm_compute; reflexivity|vm_compute; reflexivity].
Qed.

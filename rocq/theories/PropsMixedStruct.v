(** C18, C19, C20, C23 for recursive structs and the types that contain them ([wt], Mixed.v):
    unknown members, the fields of structs and the entries of maps.

    As in PropsAnyLeaf.v the values of numbers and strings are what the decoder makes of
    them ([wactual], MixedSpec.v), right or wrong; only the panic on an empty quoted number
    is excluded ([wno_empty_number], C17). *)
From Verif Require Import Base NumSpec StrSpec JsonNum Atoi AtoiProofs AtoiAny Types AppendType Token FloatLit Heap Machine Dt Dec Control Root Elab Rec Value Dval Sep Refine Refine2 Refine3 Spec Typed SpecProofs Main Parse World Elaborate RecSpec RecRefine RecElab PropsRefuted PropsDecode PropsStruct PropsSlice PropsNested PropsRec Encodes PropsStrict Actual PropsExact PropsAnyLeaf RecActual PropsRecAny Mixed MixedElab MixedSpec MixedRefine MixedTyped PropsMixed.
Open Scope Z_scope.

Lemma wcharacterised C O E dis T t stk D s v a h g F :
  wdecoder_for C E dis T t stk D -> json_text s v -> wlast C O true t v -> wno_empty_number C O t v -> wvariable C t h a g F ->
  match wactual C O s t v g with
  | VOk g' => exists D' h' F', Decode C O stk D s (TOk (flat 0 v)) (Some a) h = Ret (-1) None D' h' /\
      wvariable C t h' a g' F' /\ only h h' (Some a) (MixedSpec.tsize (c_w64 C) t) F F'
  | VErr i e g' => exists D' h' F', Decode C O stk D s (TOk (flat 0 v)) (Some a) h = Ret (Z.of_nat i) (Some e) D' h' /\
      wvariable C t h' a g' F' /\ only h h' (Some a) (MixedSpec.tsize (c_w64 C) t) F F'
  | VPan => False
  end.
Proof.
  intros Df J Ct Ne V. pose proof (C26_mixed_characterised_partial C O E dis T t stk D s v a h g F Df J Ct V) as Q.
  pose proof (wactual_typed C O s t v g (json_text_lexed _ _ J) Ne (wrep_typed C t _ _ _ _ (proj1 V))) as N.
  destruct (wactual C O s t v g); try exact Q. exact N.
Qed.

(** ** C18 *)
(** Specification: two documents (of the texts [s] and [s']) that differ only in the members
    that no field is known for, and in white space.  For a recursive struct the relation is
    unfolded to every depth. *)
Section Alike.
Variables (C : cfg) (O : opts) (s s' : bytes).
(** The members for known fields correspond one to one: same key, and values that are
    alike for the field. *)
Definition members_alike (sel : bytes -> option nat) (al : list (jv -> jv -> Prop)) (l l' : list ((nat * bytes) * jv)) : Prop :=
  let known := filter (fun x : (nat * bytes) * jv => match sel (snd (fst x)) with Some _ => true | None => false end) in
  Forall2 (fun x x' => snd (fst x) = snd (fst x') /\
    match sel (snd (fst x)) with
    | Some j => match nth_error al j with Some P => P (snd x) (snd x') | None => True end
    | None => False
    end) (known l) (known l').
Definition elements_alike (P : jv -> jv -> Prop) (v v' : jv) : Prop :=
  match v, v' with
  | JArr _ _ l, JArr _ _ l' => Forall2 P l l'
  | JArr _ _ _, _ | _, JArr _ _ _ => False
  | _, _ => erase v = erase v'
  end.
Definition entries_alike (P : jv -> jv -> Prop) (v v' : jv) : Prop :=
  match v, v' with
  | JObj _ _ l, JObj _ _ l' => Forall2 (fun x x' => snd (fst x) = snd (fst x') /\ P (snd x) (snd x')) l l'
  | JObj _ _ _, _ | _, JObj _ _ _ => False
  | _, _ => erase v = erase v'
  end.
Definition struct_alike (sel : bytes -> option nat) (al : list (jv -> jv -> Prop)) (v v' : jv) : Prop :=
  match v, v' with
  | JObj _ _ l, JObj _ _ l' => members_alike sel al l l'
  | JObj _ _ _, _ | _, JObj _ _ _ => False
  | _, _ => erase v = erase v'
  end.
Definition pointee_alike (P : jv -> jv -> Prop) (v v' : jv) : Prop :=
  match v, v' with
  | JNull _, JNull _ => True
  | JNull _, _ | _, JNull _ => False
  | _, _ => P v v'
  end.
Section Rec.
Variable fs : rfields.
Definition field_alike (P : jv -> jv -> Prop) (k : rk) : jv -> jv -> Prop :=
  match k with
  | RSelf => P
  | RSlice => elements_alike P
  | RMap _ => entries_alike P
  | RSub d => fun v v' => act_content C O s d v = act_content C O s' d v'
  end.
Fixpoint ralike_n (n : nat) : jv -> jv -> Prop :=
  match n with
  | 0%nat => fun _ _ => True
  | S n => struct_alike (act_field_for C O (shape fs)) (map (fun x => field_alike (ralike_n n) (snd x)) fs)
  end.
Definition ralike (v v' : jv) : Prop := forall n, ralike_n n v v'.
End Rec.
Fixpoint walike (t : wt) : jv -> jv -> Prop :=
  match t with
  | WSub d => fun v v' => act_content C O s d v = act_content C O s' d v'
  | WRec _ fs => ralike fs
  | WSlice t => elements_alike (walike t)
  | WMap _ t => entries_alike (walike t)
  | WPtr t => pointee_alike (walike t)
  | WStruct _ fs => struct_alike (act_field_for C O (wshape fs)) (map (fun x => walike (snd x)) fs)
  end.

(** ** Proofs *)
Definition sim (f f' : vdec) (x x' : jv) : Prop := forall g, outcome (f x g) = outcome (f' x' g).
Lemma elemsv_sim f f' l l' : Forall2 (sim f f') l l' -> forall gs, outcomes (elemsv f l gs) = outcomes (elemsv f' l' gs).
Proof.
  induction 1 as [|x x' r r' E1 _ IH]; intros gs; [destruct gs; reflexivity|]. destruct gs as [|g gs]; [reflexivity|].
  cbn [elemsv]. specialize (E1 g). specialize (IH gs). destruct (f x g) as [a|i e a|], (f' x' g) as [a'|i' e' a'|]; try discriminate E1; cbn [outcome] in E1; inversion E1; subst; try reflexivity.
  destruct (elemsv f r gs), (elemsv f' r' gs); cbn [vmap outcomes] in *; congruence.
Qed.
Lemma slicev_sim f f' z fast keep l l' g : Forall2 (sim f f') l l' -> outcome (slicev f z fast keep l g) = outcome (slicev f' z fast keep l' g).
Proof.
  intros E. assert (Ln : length l = length l') by (clear - E; induction E; cbn; congruence). unfold slicev. rewrite <- Ln. destruct l as [|x l], l' as [|x' l']; try discriminate Ln; [reflexivity|].
  destruct (contents g) as [vis hid]. destruct (_ <=? _)%nat.
  - pose proof (elemsv_sim _ _ _ _ E (vis ++ hid)) as Q. destruct (elemsv f (x :: l) _), (elemsv f' (x' :: l') _); try discriminate Q; cbn [outcomes outcome] in *; congruence.
  - match goal with |- outcome (match elemsv _ _ ?gs with _ => _ end) = _ => pose proof (elemsv_sim _ _ _ _ E gs) as Q end.
    destruct (elemsv f (x :: l) _), (elemsv f' (x' :: l') _); try discriminate Q; cbn [outcomes outcome] in *; try congruence. destruct fast; congruence.
Qed.
Lemma entries_sim f f' k b z l l' : Forall2 (fun x x' => snd (fst x) = snd (fst x') /\ sim f f' (snd x) (snd x')) l l' ->
  forall m, outcomes (act_entries C k f b z l m) = outcomes (act_entries C k f' b z l' m).
Proof.
  induction 1 as [|x x' r r' [Ek E1] _ IH]; intros m; [reflexivity|]. destruct x as [[p key] x], x' as [[p' key'] x']. cbn [fst snd] in *. subst key'.
  cbn [act_entries]. destruct (act_key C k key) as [[gk|e]|]; [|reflexivity|reflexivity].
  match goal with |- context [f x ?g] => specialize (E1 g); destruct (f x g), (f' x' g) end; try discriminate E1; cbn [outcome] in E1; inversion E1; subst; try reflexivity. apply IH.
Qed.
Hypothesis Un : o_unknown O = false.
Definition knows (sel : bytes -> option nat) (x : (nat * bytes) * jv) : bool := match sel (snd (fst x)) with Some _ => true | None => false end.
Lemma members_known sel dec l : forall gs, ideal_members O sel dec l gs = ideal_members O sel dec (filter (knows sel) l) gs.
Proof.
  induction l as [|[[p key] x] l IH]; intros gs; [reflexivity|]. cbn [ideal_members filter]. unfold knows at 1. cbn [fst snd].
  destruct (sel key) as [j|] eqn:E.
  - cbn [ideal_members]. rewrite E. destruct (nth_error dec j), (nth_error gs j); try reflexivity. destruct (v x g); try reflexivity. apply IH.
  - rewrite Un. apply IH.
Qed.
(** [al]: alike documents decode alike, field by field. *)
Lemma members_sim sel (al : list (jv -> jv -> Prop)) (dec dec' : list vdec) l l' :
  length dec = length al -> length dec' = length al ->
  (forall j P f f' x x', In x l -> In x' l' -> nth_error al j = Some P -> nth_error dec j = Some f -> nth_error dec' j = Some f' -> P (snd x) (snd x') -> sim f f' (snd x) (snd x')) ->
  members_alike sel al l l' -> forall gs, outcomes (ideal_members O sel dec l gs) = outcomes (ideal_members O sel dec' l' gs).
Proof.
  intros L1 L2 H M gs. rewrite (members_known sel dec l), (members_known sel dec' l'). unfold members_alike in M. cbv zeta in M. fold (knows sel) in M.
  change (fun x : nat * bytes * jv => match sel (snd (fst x)) with Some _ => true | None => false end) with (knows sel) in M.
  assert (I1 : forall x, In x (filter (knows sel) l) -> In x l) by (intros x Hx; apply filter_In in Hx; apply Hx).
  assert (I2 : forall x, In x (filter (knows sel) l') -> In x l') by (intros x Hx; apply filter_In in Hx; apply Hx).
  revert I1 I2 M. generalize (filter (knows sel) l') as m'. generalize (filter (knows sel) l) as m. intros m m' I1 I2 M. revert gs I1 I2.
  induction M as [|x x' r r' [Ek E1] _ IH]; intros gs I1 I2; [reflexivity|].
  pose proof (I1 x (or_introl eq_refl)) as Hx. pose proof (I2 x' (or_introl eq_refl)) as Hx'. destruct x as [[p key] x], x' as [[p' key'] x']. cbn [fst snd] in *. subst key'.
  cbn [ideal_members]. destruct (sel key) as [j|]; [|contradiction]. destruct (nth_error al j) as [P|] eqn:Ea.
  - assert (Hj : (j < length al)%nat) by (apply nth_error_Some; congruence).
    destruct (nth_error dec j) as [f|] eqn:Ef; [|apply nth_error_None in Ef; lia]. destruct (nth_error dec' j) as [f'|] eqn:Ef'; [|apply nth_error_None in Ef'; lia].
    destruct (nth_error gs j) as [g|]; [|reflexivity]. pose proof (H j P f f' _ _ Hx Hx' Ea Ef Ef' E1 g) as Q. cbn [snd] in Q.
    destruct (f x g), (f' x' g); try discriminate Q; cbn [outcome] in Q; inversion Q; subst; try reflexivity.
    apply IH; [intros y Hy; apply I1; right; exact Hy|intros y Hy; apply I2; right; exact Hy].
  - apply nth_error_None in Ea. destruct (nth_error dec j) as [f|] eqn:Ef; [assert (j < length dec)%nat by (apply nth_error_Some; congruence); lia|].
    destruct (nth_error dec' j) as [f|] eqn:Ef'; [assert (j < length dec')%nat by (apply nth_error_Some; congruence); lia|]. reflexivity.
Qed.
Lemma outcomes_map {A} (f : A -> gval) (r r' : vres A) : outcomes r = outcomes r' -> outcome (vmap f r) = outcome (vmap f r').
Proof. destruct r, r'; cbn; congruence. Qed.

Lemma rec_sim fs n : forall v v', ralike_n fs n v v' -> (height v <= n)%nat -> (height v' <= n)%nat -> sim (act_n C O s fs n) (act_n C O s' fs n) v v'.
Proof.
  induction n as [|n IH]; intros v v' A H1 H2 g; [destruct v; cbn in H1; lia|]. cbn [act_n ralike_n] in *. unfold struct_alike in A. unfold act_struct.
  destruct v as [i|i b|i r|i r|i r|i j l|i j l], v' as [i'|i' b'|i' r'|i' r'|i' r'|i' j' l'|i' j' l']; try contradiction; try discriminate A; try reflexivity.
  destruct g as [| | | | | | |gs| | | |]; try reflexivity. apply (outcomes_map VStruct). unfold act_fields.
  eapply members_sim; [| | |exact A]; [rewrite !map_length; reflexivity|rewrite !map_length; reflexivity|].
  intros q P f f' x x' Hx Hx' Ep Ef Ef' Pxx. rewrite nth_error_map in Ep, Ef, Ef'. destruct (nth_error fs q) as [y|]; [|discriminate]. cbn [option_map] in *. injection Ep as <-. injection Ef as <-. injection Ef' as <-.
  pose proof (height_obj i j l x Hx) as B1. pose proof (height_obj i' j' l' x' Hx') as B2. assert (B1' : (height (snd x) <= n)%nat) by lia. assert (B2' : (height (snd x') <= n)%nat) by lia.
  clear - IH Un Pxx B1' B2'. destruct x as [[? ?] x], x' as [[? ?] x']. cbn [snd] in *. intros g. destruct (snd y) as [| |kt|d]; cbn [field_alike act_field] in *.
  - assert (Q : forall v v' g, ralike_n fs n v v' -> (height v <= n)%nat -> (height v' <= n)%nat ->
      outcome (vmap (fun g => VPtr (Some g)) (act_n C O s fs n v g)) = outcome (vmap (fun g => VPtr (Some g)) (act_n C O s' fs n v' g))).
    { intros v v' g0 A B B'. specialize (IH v v' A B B' g0). destruct (act_n C O s fs n v g0), (act_n C O s' fs n v' g0); cbn in *; congruence. }
    destruct n as [|n']; [destruct x; cbn in B1'; lia|]. pose proof Pxx as Pxx'. cbn [ralike_n] in Pxx'. unfold struct_alike in Pxx'.
    destruct x, x'; try contradiction; try discriminate Pxx'; try reflexivity. apply Q; assumption.
  - unfold elements_alike in Pxx. destruct x as [p|p b|p r|p r|p r|p q1 w|p q1 w], x' as [p'|p' b'|p' r'|p' r'|p' r'|p' q1' w'|p' q1' w']; try contradiction; try discriminate Pxx; try reflexivity.
    apply slicev_sim. assert (G : forall a b, In a w -> In b w' -> ralike_n fs n a b -> sim (act_n C O s fs n) (act_n C O s' fs n) a b).
    { intros a b Ha Hb A. apply IH; [exact A| |]; [pose proof (height_arr p q1 w a Ha)|pose proof (height_arr p' q1' w' b Hb)]; lia. }
    clear - Pxx G. induction Pxx as [|a b m m' A _ IHp]; constructor; [apply G; [left; reflexivity|left; reflexivity|exact A]|]. apply IHp. intros; apply G; try right; assumption.
  - unfold entries_alike in Pxx. destruct x as [p|p b|p r|p r|p r|p q1 w|p q1 w], x' as [p'|p' b'|p' r'|p' r'|p' r'|p' q1' w'|p' q1' w']; try contradiction; try discriminate Pxx; try reflexivity.
    apply outcomes_map, entries_sim. assert (G : forall a b, In a w -> In b w' -> ralike_n fs n (snd a) (snd b) -> sim (act_n C O s fs n) (act_n C O s' fs n) (snd a) (snd b)).
    { intros a b Ha Hb A. apply IH; [exact A| |]; [pose proof (height_obj p q1 w a Ha)|pose proof (height_obj p' q1' w' b Hb)]; lia. }
    clear - Pxx G. induction Pxx as [|a b m m' [Ek A] _ IHp]; constructor; [split; [exact Ek|]; apply G; [left; reflexivity|left; reflexivity|exact A]|]. apply IHp. intros; apply G; try right; assumption.
  - apply (act_content_same C O s s' Un d), Pxx.
Qed.
Theorem walike_sim t : forall v v', walike t v v' -> sim (wactual C O s t) (wactual C O s' t) v v'.
Proof.
  unfold wactual. induction t as [d|z fs|t IH|k t IH|t IH|z fs IH] using wt_ind'; intros v v' A g; cbn [walk walike] in *.
  - apply (act_content_same C O s s' Un d), A.
  - unfold actual_rec. rewrite (act_n_enough C O s fs _ (Nat.max (height v) (height v'))) by lia. rewrite (act_n_enough C O s' fs _ (Nat.max (height v) (height v'))) by lia.
    apply rec_sim; [apply A|lia|lia].
  - unfold elements_alike in A. destruct v as [i|i b|i r|i r|i r|i j l|i j l], v' as [i'|i' b'|i' r'|i' r'|i' r'|i' j' l'|i' j' l']; try contradiction; try discriminate A; try reflexivity.
    apply slicev_sim. clear - IH A. induction A; constructor; auto.
  - unfold entries_alike in A. destruct v as [i|i b|i r|i r|i r|i j l|i j l], v' as [i'|i' b'|i' r'|i' r'|i' r'|i' j' l'|i' j' l']; try contradiction; try discriminate A; try reflexivity.
    apply outcomes_map, entries_sim. clear - IH A. induction A as [|x x' m m' [Ek A] _ IHl]; constructor; auto.
  - assert (Q : walike t v v' -> outcome (vmap (fun g => VPtr (Some g)) (walk O (actual C O s) (actual_rec C O s) (act_entries C) (act_field_for C O) t v (wzero t))) =
      outcome (vmap (fun g => VPtr (Some g)) (walk O (actual C O s') (actual_rec C O s') (act_entries C) (act_field_for C O) t v' (wzero t)))).
    { intros A'. specialize (IH v v' A' (wzero t)). destruct (walk _ _ _ _ _ t v _), (walk _ _ _ _ _ t v' _); cbn in *; congruence. }
    unfold pointee_alike in A. destruct v, v'; try contradiction; try reflexivity; exact (Q A).
  - unfold struct_alike in A. destruct v as [i|i b|i r|i r|i r|i j l|i j l], v' as [i'|i' b'|i' r'|i' r'|i' r'|i' j' l'|i' j' l']; try contradiction; try discriminate A; try reflexivity.
    destruct g as [| | | | | | |gs| | | |]; try reflexivity. apply (outcomes_map VStruct).
    eapply members_sim; [| | |exact A]; [rewrite !map_length; reflexivity|rewrite !map_length; reflexivity|].
    intros q P f f' x x' _ _ Ep Ef Ef' Pxx. rewrite nth_error_map in Ep, Ef, Ef'. destruct (nth_error fs q) as [y|] eqn:Ey; [|discriminate]. cbn [option_map] in *. injection Ep as <-. injection Ef as <-. injection Ef' as <-.
    rewrite Forall_forall in IH. exact (IH y (nth_error_In _ _ Ey) _ _ Pxx).
Qed.
End Alike.

(** Missing: the documents excluded by [wlast], among them those with unknown members that
    contain objects (C18_refuted). *)
Theorem C18_mixed_partial C O E dis T t stk D1 D2 s s' v v' a h g F :
  wdecoder_for C E dis T t stk D1 -> wdecoder_for C E dis T t stk D2 -> o_unknown O = false ->
  json_text s v -> json_text s' v' -> walike C O s s' t v v' ->
  wlast C O true t v -> wlast C O true t v' -> wno_empty_number C O t v -> wno_empty_number C O t v' -> wvariable C t h a g F ->
  exists g' er i1 i2 D1' D2' h1 h2 F1 F2,
    Decode C O stk D1 s (TOk (flat 0 v)) (Some a) h = Ret i1 er D1' h1 /\ wvariable C t h1 a g' F1 /\
    Decode C O stk D2 s' (TOk (flat 0 v')) (Some a) h = Ret i2 er D2' h2 /\ wvariable C t h2 a g' F2.
Proof.
  intros Df Df' Un J J' Al Ct Ct' S S' V.
  pose proof (wcharacterised C O E dis T t stk D1 s v a h g F Df J Ct S V) as Q.
  pose proof (wcharacterised C O E dis T t stk D2 s' v' a h g F Df' J' Ct' S' V) as Q'.
  pose proof (walike_sim C O s s' Un t v v' Al g) as Eq.
  destruct (wactual C O s t v g) as [g1|i1 e1 g1|], (wactual C O s' t v' g) as [g2|i2 e2 g2|]; cbn [outcome] in Eq; try discriminate Eq; try contradiction; inversion Eq; subst;
    destruct Q as (D' & h' & F' & Q & V' & _); destruct Q' as (D2' & h2' & F2' & Q' & V2' & _); eexists _, _, _, _, D', D2', h', h2', F', F2'; (split; [exact Q|split; [exact V'|split; [exact Q'|exact V2']]]).
Qed.

(** ** C19 *)
(** Specification: the document has a member that no field is known for, in an object that
    is decoded into a struct; [K]: at an accepted index; [Usub]: the same inside values of
    types without recursion. *)
Section Unknown.
Variables (C : cfg) (O : opts) (Usub : dt -> jv -> Prop) (K : nat -> Prop).
Definition element_with (P : jv -> Prop) (v : jv) : Prop := match v with JArr _ _ l => Exists P l | _ => False end.
Definition entry_with (P : jv -> Prop) (v : jv) : Prop := match v with JObj _ _ l => Exists (fun x => P (snd x)) l | _ => False end.
Definition member_with (sel : bytes -> option nat) (Ps : list (jv -> Prop)) (v : jv) : Prop :=
  match v with
  | JObj _ _ l => Exists (fun x => match sel (snd (fst x)) with
      | None => K (fst (fst x))
      | Some j => match nth_error Ps j with Some P => P (snd x) | None => False end
      end) l
  | _ => False
  end.
Definition field_with (P : jv -> Prop) (k : rk) : jv -> Prop :=
  match k with RSelf => P | RSlice => element_with P | RMap _ => entry_with P | RSub d => Usub d end.
Fixpoint runknown_n (fs : rfields) (n : nat) : jv -> Prop :=
  match n with
  | 0%nat => fun _ => False
  | S n => member_with (act_field_for C O (shape fs)) (map (fun x => field_with (runknown_n fs n) (snd x)) fs)
  end.
Fixpoint wunknown (t : wt) : jv -> Prop :=
  match t with
  | WSub d => Usub d
  | WRec _ fs => fun v => exists n, runknown_n fs n v
  | WSlice t => element_with (wunknown t)
  | WMap _ t => entry_with (wunknown t)
  | WPtr t => wunknown t
  | WStruct _ fs => member_with (act_field_for C O (wshape fs)) (map (fun x => wunknown (snd x)) fs)
  end.
End Unknown.
(** [k] is the index of an unknown key; there is an unknown key. *)
Definition wunknown_at (C : cfg) (O : opts) (t : wt) (v : jv) (k : nat) : Prop := wunknown C O (fun d v => act_unknown_at C O d v k) (eq k) t v.
Definition wunknown_decoded (C : cfg) (O : opts) : wt -> jv -> Prop := wunknown C O (act_unknown_decoded C O) (fun _ => True).

Lemma slicev_err (f : vdec) (P : jv -> Prop) k : (forall v g g', f v g = VErr k EUnknownField g' -> P v) ->
  forall z fast keep l g g', slicev f z fast keep l g = VErr k EUnknownField g' -> Exists P l.
Proof.
  intros H z fast keep l g g' Q. unfold slicev in Q. destruct l as [|x l]; [discriminate|]. destruct (contents g) as [vis hid]. destruct (_ <=? _)%nat.
  - destruct (elemsv _ _ _) as [?|ii ee ?|] eqn:E; try discriminate Q. injection Q as -> -> _. exact (elemsv_unknown _ (fun v _ => P v) k H _ _ _ E).
  - destruct (elemsv _ _ _) as [?|ii ee ?|] eqn:E; try discriminate Q. injection Q as -> -> _. exact (elemsv_unknown _ (fun v _ => P v) k H _ _ _ E).
Qed.
Lemma slicev_ok_no (f : vdec) (P : jv -> Prop) : (forall v g g', f v g = VOk g' -> P v -> False) ->
  forall z fast keep l g g', slicev f z fast keep l g = VOk g' -> Exists P l -> False.
Proof.
  intros H z fast keep l g g' Q U. unfold slicev in Q. destruct l as [|x l]; [inversion U|]. destruct (contents g) as [vis hid]. destruct (_ <=? _)%nat.
  - destruct (elemsv _ _ _) as [r| |] eqn:El; try discriminate. eapply elemsv_ok; [exact H|exact El|exact U].
  - destruct (elemsv _ _ _) as [r| |] eqn:El; try discriminate. eapply elemsv_ok; [exact H|exact El|exact U].
Qed.
Lemma act_key_unknown C k key : act_key C k key <> Some (inr EUnknownField).
Proof.
  destruct k; cbn [act_key]; [discriminate| |destruct (c_ut _ _ _ _) as [new [c|]]; discriminate].
  destruct (act_int_text C k key) as [[z|e]|] eqn:Ei; try discriminate. intros [= ->]. revert Ei. apply act_int_text_known.
Qed.
Lemma entries_err C k (f : vdec) (P : jv -> Prop) i : (forall v g g', f v g = VErr i EUnknownField g' -> P v) ->
  forall b z l m m', act_entries C k f b z l m = VErr i EUnknownField m' -> Exists (fun x => P (snd x)) l.
Proof.
  intros H b z l. induction l as [|[[p key] x] l IH]; intros m m' Q; [discriminate|]. cbn [act_entries] in Q.
  destruct (act_key C k key) as [[gk|e]|] eqn:Ek; [| |discriminate].
  - match type of Q with context [f x ?g0] => destruct (f x g0) eqn:Ex end; try discriminate Q; [right; eapply IH, Q|]. injection Q as -> -> _. left. eapply H, Ex.
  - injection Q as _ -> _. destruct (act_key_unknown C k key Ek).
Qed.
Lemma entries_ok_no C k (f : vdec) (P : jv -> Prop) : (forall v g g', f v g = VOk g' -> P v -> False) ->
  forall b z l m m', act_entries C k f b z l m = VOk m' -> Exists (fun x => P (snd x)) l -> False.
Proof.
  intros H b z l. induction l as [|[[p key] x] l IH]; intros m m' Q U; [inversion U|]. cbn [act_entries] in Q.
  destruct (act_key C k key) as [[gk|e]|] eqn:Ek; try discriminate.
  match type of Q with context [f x ?g0] => destruct (f x g0) eqn:Ex end; try discriminate Q. inversion U; subst; [eapply H; eassumption|eapply IH; eassumption].
Qed.
Lemma members_err O sel (dec : list vdec) (Ps : list (jv -> Prop)) k : length Ps = length dec ->
  (forall j f P, nth_error dec j = Some f -> nth_error Ps j = Some P -> forall v g g', f v g = VErr k EUnknownField g' -> P v) ->
  forall i j l gs gs', ideal_members O sel dec l gs = VErr k EUnknownField gs' -> member_with (eq k) sel Ps (JObj i j l).
Proof.
  intros Ln H i j l. cbn [member_with]. induction l as [|[[p key] x] l IH]; intros gs gs' Q; [discriminate|]. cbn [ideal_members] in Q.
  destruct (sel key) as [q|] eqn:Ek.
  - destruct (nth_error dec q) as [f|] eqn:Ef; [|discriminate]. destruct (nth_error gs q) as [g|] eqn:Eg; [|discriminate].
    destruct (f x g) eqn:Ex; try discriminate Q; [right; eapply IH, Q|]. injection Q as -> -> _. left. cbn [fst snd]. rewrite Ek.
    destruct (nth_error Ps q) as [P|] eqn:Ep; [eapply H; eassumption|]. apply nth_error_None in Ep. assert (q < length dec)%nat by (apply nth_error_Some; congruence). lia.
  - destruct (o_unknown O); [|right; eapply IH, Q]. injection Q as -> _. left. cbn [fst snd]. rewrite Ek. reflexivity.
Qed.
Lemma members_ok_no O sel (dec : list vdec) (Ps : list (jv -> Prop)) K : o_unknown O = true ->
  (forall j f P, nth_error dec j = Some f -> nth_error Ps j = Some P -> forall v g g', f v g = VOk g' -> P v -> False) ->
  forall i j l gs gs', ideal_members O sel dec l gs = VOk gs' -> member_with K sel Ps (JObj i j l) -> False.
Proof.
  intros Un H i j l. cbn [member_with]. induction l as [|[[p key] x] l IH]; intros gs gs' Q U; [inversion U|]. cbn [ideal_members] in Q.
  destruct (sel key) as [q|] eqn:Ek; [|rewrite Un in Q; discriminate].
  destruct (nth_error dec q) as [f|] eqn:Ef; [|discriminate]. destruct (nth_error gs q) as [g|] eqn:Eg; [|discriminate]. destruct (f x g) eqn:Ex; try discriminate Q.
  inversion U as [? ? U1|? ? U1]; subst; cbn [fst snd] in *; [|eapply IH; eassumption]. rewrite Ek in U1. destruct (nth_error Ps q) as [P|] eqn:Ep; [|contradiction]. eapply H; eassumption.
Qed.
Lemma members_needs O sel dec l k gs gs' : ideal_members O sel dec l gs = VErr k EUnknownField gs' ->
  (forall f v g g', In f dec -> f v g = VErr k EUnknownField g' -> o_unknown O = true) -> o_unknown O = true.
Proof.
  revert gs. induction l as [|[[p key] x] l IH]; intros gs Q H; [discriminate|]. cbn [ideal_members] in Q. destruct (sel key) as [q|].
  - destruct (nth_error dec q) as [f|] eqn:Ef; [|discriminate]. destruct (nth_error gs q) as [g|]; [|discriminate]. destruct (f x g) eqn:Ex; try discriminate Q; [eapply IH; eassumption|].
    injection Q as -> -> _. eapply H; [eapply nth_error_In, Ef|exact Ex].
  - destruct (o_unknown O); [reflexivity|]. eapply IH; eassumption.
Qed.

Section C19.
Variables (C : cfg) (O : opts) (s : bytes).
Lemma rec_err fs k n : forall v g g', act_n C O s fs n v g = VErr k EUnknownField g' -> runknown_n C O (fun d v => act_unknown_at C O d v k) (eq k) fs n v.
Proof.
  induction n as [|n IH]; intros v g g' Q; [discriminate|]. cbn [act_n runknown_n] in *. unfold act_struct in Q. destruct v as [i|i b|i r|i r|i r|i j l|i j l]; try discriminate.
  destruct g as [| | | | | | |gs| | | |]; try discriminate. unfold act_fields in Q. match type of Q with vmap _ ?X = _ => destruct X as [?|k' e' gs'|] eqn:Em; try discriminate end. injection Q as -> -> _.
  eapply members_err; [|  |exact Em]; [rewrite !map_length; reflexivity|].
  intros q f P Ef Ep. rewrite nth_error_map in Ef, Ep. destruct (nth_error fs q) as [y|]; [|discriminate]. cbn [option_map] in *. injection Ef as <-. injection Ep as <-. clear - IH.
  intros v g g' Q. destruct (snd y) as [| |kt|d]; cbn [act_field field_with] in *.
  - destruct v; try discriminate. match type of Q with vmap _ ?X = _ => destruct X as [?|k' e' gs'|] eqn:Em; try discriminate end. injection Q as -> -> _. eapply IH, Em.
  - destruct v; try discriminate. eapply slicev_err; [exact IH|exact Q].
  - destruct v; try discriminate. match type of Q with vmap _ ?X = _ => destruct X as [?|k' e' gs'|] eqn:Em; try discriminate end. injection Q as -> -> _. eapply entries_err; [exact IH|exact Em].
  - eapply C19_unknown_field_only_if_any_leaf, Q.
Qed.
Lemma rec_ok fs n : o_unknown O = true -> forall m v g g', act_n C O s fs n v g = VOk g' -> runknown_n C O (act_unknown_decoded C O) (fun _ => True) fs m v -> False.
Proof.
  intros Un. induction n as [|n IH]; intros m v g g' Q U; [discriminate|]. destruct m as [|m]; [exact U|]. cbn [act_n runknown_n] in *. unfold act_struct in Q.
  destruct v as [i|i b|i r|i r|i r|i j l|i j l]; try contradiction.
  destruct g as [| | | | | | |gs| | | |]; try discriminate. unfold act_fields in Q. match type of Q with vmap _ ?X = _ => destruct X as [gs'| |] eqn:Em; try discriminate end.
  eapply members_ok_no; [exact Un| |exact Em|exact U].
  intros q f P Ef Ep. rewrite nth_error_map in Ef, Ep. destruct (nth_error fs q) as [y|]; [|discriminate]. cbn [option_map] in *. injection Ef as <-. injection Ep as <-. clear - IH Un.
  intros v g g' Q U. destruct (snd y) as [| |kt|d]; cbn [act_field field_with] in *.
  - destruct v; try discriminate; [destruct m; exact U|]. match type of Q with vmap _ ?X = _ => destruct X as [gs'| |] eqn:Em; try discriminate end. eapply IH; eassumption.
  - destruct v; try discriminate; [exact U|]. eapply slicev_ok_no; [|exact Q|exact U]. apply IH.
  - destruct v; try discriminate; [exact U|]. match type of Q with vmap _ ?X = _ => destruct X as [gs'| |] eqn:Em; try discriminate end. eapply entries_ok_no; [|exact Em|exact U]. apply IH.
  - eapply C19_success_all_known; eassumption.
Qed.
(** The error ErrUnknownField occurs only at the index of an unknown key ... *)
Theorem C19_mixed_only_if t k : forall v g g', wactual C O s t v g = VErr k EUnknownField g' -> wunknown_at C O t v k.
Proof.
  unfold wactual, wunknown_at. induction t as [d|z fs|t IH|kk t IH|t IH|z fs IH] using wt_ind'; intros v g g' Q; cbn [walk wunknown] in *.
  - eapply C19_unknown_field_only_if_any_leaf, Q.
  - exists (height v). eapply rec_err, Q.
  - destruct v; try discriminate. eapply slicev_err; [exact IH|exact Q].
  - destruct v; try discriminate. match type of Q with vmap _ ?X = _ => destruct X as [?|k' e' gs'|] eqn:Em; try discriminate end. injection Q as -> -> _. eapply entries_err; [exact IH|exact Em].
  - destruct v; try discriminate; (match type of Q with vmap _ ?X = _ => destruct X as [?|k' e' gs'|] eqn:Em; try discriminate end); injection Q as -> -> _; eapply IH, Em.
  - destruct v as [i|i b|i r|i r|i r|i j l|i j l]; try discriminate. destruct g as [| | | | | | |gs| | | |]; try discriminate.
    match type of Q with vmap _ ?X = _ => destruct X as [?|k' e' gs'|] eqn:Em; try discriminate end. injection Q as -> -> _.
    eapply members_err; [| |exact Em]; [rewrite !map_length; reflexivity|].
    intros q f P Ef Ep. rewrite nth_error_map in Ef, Ep. destruct (nth_error fs q) as [y|] eqn:Ey; [|discriminate]. cbn [option_map] in *. injection Ef as <-. injection Ep as <-.
    rewrite Forall_forall in IH. exact (IH y (nth_error_In _ _ Ey)).
Qed.
(** ... and with the option success means that all keys are known. *)
Theorem C19_mixed_success t : o_unknown O = true -> forall v g g', wactual C O s t v g = VOk g' -> wunknown_decoded C O t v -> False.
Proof.
  intros Un. unfold wactual, wunknown_decoded. induction t as [d|z fs|t IH|kk t IH|t IH|z fs IH] using wt_ind'; intros v g g' Q U; cbn [walk wunknown] in *.
  - eapply C19_success_all_known; eassumption.
  - destruct U as [m U]. eapply rec_ok; [exact Un|exact Q|exact U].
  - destruct v; try discriminate; [exact U|]. eapply slicev_ok_no; [exact IH|exact Q|exact U].
  - destruct v; try discriminate; [exact U|]. match type of Q with vmap _ ?X = _ => destruct X as [gs'| |] eqn:Em; try discriminate end. eapply entries_ok_no; [exact IH|exact Em|exact U].
  - destruct v; try (match type of Q with vmap _ ?X = _ => destruct X as [gs'| |] eqn:Em; try discriminate end; eapply IH; eassumption).
    clear - U. induction t as [d|z fs|t IH|kk t IH|t IH|z fs IH] using wt_ind'; try exact U; [| |exact (IH U)].
    + cbn [wunknown] in U. induction d; cbn in U; try contradiction; auto.
    + destruct U as [[|m] U]; exact U.
  - destruct v as [i|i b|i r|i r|i r|i j l|i j l]; try contradiction. destruct g as [| | | | | | |gs| | | |]; try discriminate.
    match type of Q with vmap _ ?X = _ => destruct X as [gs'| |] eqn:Em; try discriminate end.
    eapply members_ok_no; [exact Un| |exact Em|exact U].
    intros q f P Ef Ep. rewrite nth_error_map in Ef, Ep. destruct (nth_error fs q) as [y|] eqn:Ey; [|discriminate]. cbn [option_map] in *. injection Ef as <-. injection Ep as <-.
    rewrite Forall_forall in IH. exact (IH y (nth_error_In _ _ Ey)).
Qed.
End C19.
Theorem C19_mixed_partial C O E dis T t stk D s v a h g F r er D' h' :
  wdecoder_for C E dis T t stk D -> json_text s v -> wlast C O true t v -> wvariable C t h a g F -> o_unknown O = true ->
  Decode C O stk D s (TOk (flat 0 v)) (Some a) h = Ret r er D' h' ->
  (er = None -> ~ wunknown_decoded C O t v) /\
  (er = Some EUnknownField -> exists n, r = Z.of_nat n /\ wunknown_at C O t v n).
Proof.
  intros Df J Ct V Un Ed. pose proof (C26_mixed_characterised_partial C O E dis T t stk D s v a h g F Df J Ct V) as Q.
  destruct (wactual C O s t v g) as [g'|i e g'|] eqn:Ei.
  - destruct Q as (D1 & h1 & F1 & Q & _). pose proof (eq_trans (eq_sym Ed) Q) as X. injection X as _ -> _ _. split; [|discriminate]. intros _ U. exact (C19_mixed_success C O s t Un v g g' Ei U).
  - destruct Q as (D1 & h1 & F1 & Q & _). pose proof (eq_trans (eq_sym Ed) Q) as X. injection X as -> -> _ _. split; [discriminate|]. intros [= ->]. exists i. split; [reflexivity|]. exact (C19_mixed_only_if C O s t i v g g' Ei).
  - pose proof (eq_trans (eq_sym Ed) Q) as X. discriminate X.
Qed.
Theorem C19_mixed_every_document_partial C O E dis T t stk D s v a h g F r er D' h' :
  wdecoder_for C E dis T t stk D -> wany C O t = true -> json_text s v -> wvariable C t h a g F -> o_unknown O = true ->
  Decode C O stk D s (TOk (flat 0 v)) (Some a) h = Ret r er D' h' ->
  (er = None -> ~ wunknown_decoded C O t v) /\
  (er = Some EUnknownField -> exists n, r = Z.of_nat n /\ wunknown_at C O t v n).
Proof. intros Df A J V Un Ed. exact (C19_mixed_partial C O E dis T t stk D s v a h g F r er D' h' Df J (wany_last C O t A v) V Un Ed). Qed.

(** ** C20 *)
(** Specification: the values that a document gives to field [q], in order; on success every
    field holds the result of decoding these in turn, starting with its old value; a field
    without member keeps its value, also on failure. *)
Definition given (sel : bytes -> option nat) (q : nat) (l : list ((nat * bytes) * jv)) : list jv :=
  map snd (filter (fun x => match sel (snd (fst x)) with Some j => Nat.eqb j q | None => false end) l).
Definition members_post (sel : bytes -> option nat) (dec : list vdec) (l : list ((nat * bytes) * jv)) (ok : bool) (gs gs' : list gval) : Prop :=
  length gs' = length gs /\
  (ok = true -> forall q f g, nth_error dec q = Some f -> nth_error gs q = Some g ->
     exists g', nth_error gs' q = Some g' /\ in_turn f (given sel q l) g = VOk g') /\
  (forall q, given sel q l = [] -> nth_error gs' q = nth_error gs q).
Lemma members_posted O sel dec l : forall gs,
  match ideal_members O sel dec l gs with
  | VOk gs' => members_post sel dec l true gs gs' | VErr _ _ gs' => members_post sel dec l false gs gs' | VPan => True end.
Proof.
  induction l as [|[[p key] x] l IH]; intros gs; [split; [reflexivity|split; [|reflexivity]]; intros _ q f g _ E; exists g; auto|].
  cbn [ideal_members]. unfold members_post, given in *. cbn [filter fst snd]. destruct (sel key) as [r|] eqn:Ek.
  - destruct (nth_error dec r) as [f0|] eqn:Ef; [|exact I]. destruct (nth_error gs r) as [g0|] eqn:Eg; [|exact I].
    destruct (f0 x g0) as [g1|i1 e1 g1|] eqn:Ex; [| |exact I].
    + specialize (IH (set_nth gs r g1)).
      assert (Un : forall gs', (forall q, map snd (filter (fun x => match sel (snd (fst x)) with Some j => Nat.eqb j q | None => false end) l) = [] -> nth_error gs' q = nth_error (set_nth gs r g1) q) ->
        forall q, map snd (if Nat.eqb r q then ((p, key), x) :: filter (fun x => match sel (snd (fst x)) with Some j => Nat.eqb j q | None => false end) l else filter (fun x => match sel (snd (fst x)) with Some j => Nat.eqb j q | None => false end) l) = [] -> nth_error gs' q = nth_error gs q).
      { intros gs' H q Aq. destruct (Nat.eqb_spec r q) as [->|Nq]; [discriminate|]. rewrite (H q Aq). apply set_nth_other, Nq. }
      destruct (ideal_members _ _ _ l _) as [gs'|i2 e2 gs'|]; [| |exact I]; destruct IH as (Ln & IH & IH2); rewrite set_nth_length in Ln; (split; [exact Ln|split; [|exact (Un _ IH2)]]); [|discriminate].
      intros _ q f g Fq Gq. destruct (Nat.eqb_spec r q) as [->|Nq].
      * rewrite Ef in Fq. injection Fq as <-. rewrite Eg in Gq. injection Gq as <-. cbn [map snd in_turn]. rewrite Ex. eapply IH; [reflexivity|exact Ef|]. eapply set_nth_same, Eg.
      * eapply IH; [reflexivity|exact Fq|]. rewrite set_nth_other by exact Nq. exact Gq.
    + split; [apply set_nth_length|]. split; [discriminate|]. intros q Aq. destruct (Nat.eqb_spec r q) as [->|Nq]; [discriminate|]. apply set_nth_other, Nq.
  - destruct (o_unknown O); [split; [reflexivity|split; [discriminate|reflexivity]]|]. apply IH.
Qed.
(** A struct with fields that contain recursive structs. *)
Theorem C20_mixed_partial C O E dis T z fs stk D s i j l a h gs F :
  wdecoder_for C E dis T (WStruct z fs) stk D -> json_text s (JObj i j l) -> wlast C O true (WStruct z fs) (JObj i j l) -> wno_empty_number C O (WStruct z fs) (JObj i j l) ->
  wvariable C (WStruct z fs) h a (VStruct gs) F ->
  exists gs' r er D' h' F', Decode C O stk D s (TOk (flat 0 (JObj i j l))) (Some a) h = Ret r er D' h' /\
    wvariable C (WStruct z fs) h' a (VStruct gs') F' /\
    members_post (act_field_for C O (wshape fs)) (map (fun x => wactual C O s (snd x)) fs) l (match er with None => true | _ => false end) gs gs'.
Proof.
  intros Df J Ct S V. pose proof (wcharacterised C O E dis T _ stk D s _ a h _ F Df J Ct S V) as Q.
  change (wactual C O s (WStruct z fs) (JObj i j l) (VStruct gs)) with (vmap VStruct (ideal_members O (act_field_for C O (wshape fs)) (map (fun x => wactual C O s (snd x)) fs) l gs)) in Q.
  pose proof (members_posted O (act_field_for C O (wshape fs)) (map (fun x => wactual C O s (snd x)) fs) l gs) as G.
  destruct (ideal_members O (act_field_for C O (wshape fs)) (map (fun x => wactual C O s (snd x)) fs) l gs) as [gs'|n e gs'|]; [| |contradiction]; cbn [vmap] in Q;
    destruct Q as (D' & h' & F' & Q & V' & _); eexists gs', _, _, D', h', F'; (split; [exact Q|split; [exact V'|exact G]]).
Qed.
(** A recursive struct. *)
Theorem C20_recursive_partial C O E dis T z fs stk D s i j l a h gs F :
  wdecoder_for C E dis T (WRec z fs) stk D -> json_text s (JObj i j l) -> wlast C O true (WRec z fs) (JObj i j l) -> wno_empty_number C O (WRec z fs) (JObj i j l) ->
  wvariable C (WRec z fs) h a (VStruct gs) F ->
  exists gs' r er D' h' F', Decode C O stk D s (TOk (flat 0 (JObj i j l))) (Some a) h = Ret r er D' h' /\
    wvariable C (WRec z fs) h' a (VStruct gs') F' /\
    members_post (act_field_for C O (shape fs)) (map (fun x => act_field C O s fs (actual_rec C O s fs) (snd x)) fs) l (match er with None => true | _ => false end) gs gs'.
Proof.
  intros Df J Ct S V. pose proof (wcharacterised C O E dis T _ stk D s _ a h _ F Df J Ct S V) as Q. unfold wactual in Q at 1. cbn [walk] in Q. rewrite actual_rec_eq in Q.
  change (act_struct C O s fs (actual_rec C O s fs) (JObj i j l) (VStruct gs)) with (vmap VStruct (ideal_members O (act_field_for C O (shape fs)) (map (fun x => act_field C O s fs (actual_rec C O s fs) (snd x)) fs) l gs)) in Q.
  pose proof (members_posted O (act_field_for C O (shape fs)) (map (fun x => act_field C O s fs (actual_rec C O s fs) (snd x)) fs) l gs) as G.
  destruct (ideal_members O (act_field_for C O (shape fs)) (map (fun x => act_field C O s fs (actual_rec C O s fs) (snd x)) fs) l gs) as [gs'|n e gs'|]; [| |contradiction]; cbn [vmap] in Q;
    destruct Q as (D' & h' & F' & Q & V' & _); eexists gs', _, _, D', h', F'; (split; [exact Q|split; [exact V'|exact G]]).
Qed.
Theorem C20_recursive_every_document_partial C O E dis T z fs stk D s i j l a h gs F :
  wdecoder_for C E dis T (WRec z fs) stk D -> wany C O (WRec z fs) = true -> wno_quoted_numbers (WRec z fs) = true ->
  json_text s (JObj i j l) -> wvariable C (WRec z fs) h a (VStruct gs) F ->
  exists gs' r er D' h' F', Decode C O stk D s (TOk (flat 0 (JObj i j l))) (Some a) h = Ret r er D' h' /\
    wvariable C (WRec z fs) h' a (VStruct gs') F' /\
    members_post (act_field_for C O (shape fs)) (map (fun x => act_field C O s fs (actual_rec C O s fs) (snd x)) fs) l (match er with None => true | _ => false end) gs gs'.
Proof. intros Df A N J V. exact (C20_recursive_partial C O E dis T z fs stk D s i j l a h gs F Df J (wany_last C O _ A _) (wno_quoted_nonempty C O _ N _) V). Qed.

(** ** C23 *)
Definition entries_post (C : cfg) (k : dkey) (f : vdec) (isstruct : bool) (z : gval) (l : list ((nat * bytes) * jv)) (ok : bool) (m m' : list (gkey * gval)) : Prop :=
  (ok = true -> forall key, entry f isstruct z (act_gives C k l key) (getk m key) = VOk (getk m' key)) /\
  (forall key, act_gives C k l key = [] -> getk m' key = getk m key).
Lemma entries_posted C k f b z l : forall m,
  match act_entries C k f b z l m with VOk m' => entries_post C k f b z l true m m' | VErr _ _ m' => entries_post C k f b z l false m m' | VPan => True end.
Proof.
  induction l as [|[[p key] x] l IH]; intros m; [split; [reflexivity|reflexivity]|].
  cbn [act_entries]. unfold entries_post, act_gives in *. cbn [filter fst snd]. destruct (act_key C k key) as [[gk|e]|] eqn:Ek; [| |exact I].
  - match goal with |- context [f x ?o] => destruct (f x o) as [g1|i1 e1 g1|] eqn:Ex end; [| |exact I].
    + specialize (IH (putk m gk g1)). destruct (act_entries _ _ _ _ _ l _) as [m'|i2 e2 m'|]; [| |exact I]; destruct IH as (IH & IH2).
      * split.
        -- intros _ key0. destruct (gkey_eqb gk key0) eqn:Ek0.
           ++ apply gkey_eq in Ek0. subst key0. cbn [map snd entry]. rewrite Ex. specialize (IH eq_refl gk). rewrite Refine3.getk_put in IH. exact IH.
           ++ specialize (IH eq_refl key0). rewrite getk_put_other in IH; [exact IH|]. intros ->. rewrite Refine3.gkey_refl in Ek0. discriminate.
        -- intros key0. destruct (gkey_eqb gk key0) eqn:Ek0; [discriminate|]. intros Hg. rewrite (IH2 key0 Hg). apply getk_put_other. intros ->. rewrite Refine3.gkey_refl in Ek0. discriminate.
      * split; [discriminate|]. intros key0. destruct (gkey_eqb gk key0) eqn:Ek0; [discriminate|]. intros Hg. rewrite (IH2 key0 Hg). apply getk_put_other. intros ->. rewrite Refine3.gkey_refl in Ek0. discriminate.
    + split; [discriminate|]. intros key0. destruct (gkey_eqb gk key0) eqn:Ek0; [discriminate|]. intros Hg. apply getk_put_other. intros ->. rewrite Refine3.gkey_refl in Ek0. discriminate.
  - split; [discriminate|reflexivity].
Qed.
(** A map whose elements contain recursive structs. *)
Theorem C23_mixed_partial C O E dis T k t stk D s i j l a h g F :
  wdecoder_for C E dis T (WMap k t) stk D -> json_text s (JObj i j l) -> wlast C O true (WMap k t) (JObj i j l) -> wno_empty_number C O (WMap k t) (JObj i j l) ->
  wvariable C (WMap k t) h a g F ->
  exists m' r er D' h' F', Decode C O stk D s (TOk (flat 0 (JObj i j l))) (Some a) h = Ret r er D' h' /\
    wvariable C (WMap k t) h' a (VMap (Some m')) F' /\
    entries_post C k (wactual C O s t) (is_struct (flatt t)) (wzero t) l (match er with None => true | _ => false end) (entries_of g) m'.
Proof.
  intros Df J Ct S V. pose proof (wcharacterised C O E dis T _ stk D s _ a h _ F Df J Ct S V) as Q.
  change (wactual C O s (WMap k t) (JObj i j l) g) with (vmap (fun m => VMap (Some m)) (act_entries C k (wactual C O s t) (is_struct (flatt t)) (wzero t) l (entries_of g))) in Q.
  pose proof (entries_posted C k (wactual C O s t) (is_struct (flatt t)) (wzero t) l (entries_of g)) as G.
  destruct (act_entries C k (wactual C O s t) (is_struct (flatt t)) (wzero t) l (entries_of g)) as [m'|n e m'|]; [| |contradiction]; cbn [vmap] in Q;
    destruct Q as (D' & h' & F' & Q & V' & _); eexists m', _, _, D', h', F'; (split; [exact Q|split; [exact V'|exact G]]).
Qed.
Theorem C23_mixed_every_document_partial C O E dis T k t stk D s i j l a h g F :
  wdecoder_for C E dis T (WMap k t) stk D -> wany C O (WMap k t) = true -> wno_quoted_numbers (WMap k t) = true ->
  json_text s (JObj i j l) -> wvariable C (WMap k t) h a g F ->
  exists m' r er D' h' F', Decode C O stk D s (TOk (flat 0 (JObj i j l))) (Some a) h = Ret r er D' h' /\
    wvariable C (WMap k t) h' a (VMap (Some m')) F' /\
    entries_post C k (wactual C O s t) (is_struct (flatt t)) (wzero t) l (match er with None => true | _ => false end) (entries_of g) m'.
Proof. intros Df A N J V. exact (C23_mixed_partial C O E dis T k t stk D s i j l a h g F Df J (wany_last C O _ A _) (wno_quoted_nonempty C O _ N _) V). Qed.

(** ** C16 *)
Theorem C16_mixed_partial C O E dis T t stk D s v a h g F :
  wdecoder_for C E dis T t stk D -> json_text s v -> wlast C O true t v -> wvariable C t h a g F ->
  match Decode C O stk D s (TOk (flat 0 v)) (Some a) h with
  | Ret _ _ _ h' => exists g' F', wvariable C t h' a g' F' /\ only h h' (Some a) (MixedSpec.tsize (c_w64 C) t) F F'
  | DPanics => True
  | _ => False
  end.
Proof.
  intros Df J Ct V. pose proof (C26_mixed_characterised_partial C O E dis T t stk D s v a h g F Df J Ct V) as Q.
  destruct (wactual C O s t v g) as [g'|i e g'|].
  - destruct Q as (D' & h' & F' & -> & V' & Y). eauto.
  - destruct Q as (D' & h' & F' & -> & V' & Y). eauto.
  - rewrite Q. exact I.
Qed.
Theorem C16_mixed_every_document_partial C O E dis T t stk D s v a h g F :
  wdecoder_for C E dis T t stk D -> json_text s v -> wany C O t = true -> wvariable C t h a g F ->
  match Decode C O stk D s (TOk (flat 0 v)) (Some a) h with
  | Ret _ _ _ h' => exists g' F', wvariable C t h' a g' F' /\ only h h' (Some a) (MixedSpec.tsize (c_w64 C) t) F F'
  | DPanics => True
  | _ => False
  end.
Proof. intros Df J A V. exact (C16_mixed_partial C O E dis T t stk D s v a h g F Df J (wany_last C O t A v) V). Qed.

(** ** C29: after a call that succeeds, or is refused, no frame of the decoder holds a
    pointer.  (Missing: calls that fail inside the document, C29_refuted.) *)
Definition frame_holds (stk : list frame) (D : dyn) : Prop :=
  exists j f, nth_error stk j = Some f /\ (d_dest (D j) <> None \/ exists r, In r (d_rs (D j)) /\ r_dest r <> None).
Lemma wrested_holds stk D : wrested stk D -> ~ frame_holds stk D.
Proof. intros [Cm Dn] (j & f & Hj & [H|(r & H & _)]); [exact (H (Dn j))|]. destruct (Cm j f Hj) as [R _]. rewrite R in H. exact H. Qed.
Theorem C29_mixed_partial C O E dis T t stk D s v a h i D' h' :
  wdecoder_for C E dis T t stk D -> json_text s v -> wlast C O true t v ->
  Decode C O stk D s (TOk (flat 0 v)) (Some a) h = Ret i None D' h' -> ~ frame_holds stk D'.
Proof.
  intros Df J Ct H. pose proof (wdecoder_describes _ _ _ _ _ _ _ Df) as Ds. apply wrested_holds, (wused_rested C t stk D' Ds).
  eapply wu_ok; [exact (wdf_used _ _ _ _ _ _ _ Df)|exact J|exact Ct|exact H].
Qed.
Theorem C29_mixed_refused C O E dis T t stk D s tk a h i e D' h' :
  wdecoder_for C E dis T t stk D -> (a = None \/ exists k c, tk = TErr k c) ->
  Decode C O stk D s tk a h = Ret i e D' h' -> ~ frame_holds stk D'.
Proof.
  intros Df Or H. pose proof (wdecoder_describes _ _ _ _ _ _ _ Df) as Ds. apply wrested_holds, (wused_rested C t stk D' Ds).
  destruct Or as [->|(k & c & ->)]; [eapply wu_nil|eapply wu_ill]; try exact H; exact (wdf_used _ _ _ _ _ _ _ Df).
Qed.

(** ** C35: null makes pointers, slices and maps nil and leaves structs unchanged. *)
Definition wnull_value (t : wt) (g : gval) : gval :=
  match t with
  | WSub d => null_value d g
  | WSlice _ => VSlice None | WMap _ _ => VMap None | WPtr _ => VPtr None
  | WRec _ _ | WStruct _ _ => g
  end.
Theorem C35_mixed C O E dis T t stk D s i a h g F :
  wdecoder_for C E dis T t stk D -> json_text s (JNull i) -> match t with WSub _ => False | _ => True end -> wvariable C t h a g F ->
  exists D' h' F', Decode C O stk D s (TOk (flat 0 (JNull i))) (Some a) h = Ret (-1) None D' h' /\ wvariable C t h' a (wnull_value t g) F'.
Proof.
  intros Df J Nt V.
  assert (Ct : wlast C O true t (JNull i)).
  { destruct t as [d|z fs|t|k t|t|z fs]; try contradiction; cbn [wlast wctl]; try exact I.
    - destruct t; exact I. }
  pose proof (C26_mixed_characterised_partial C O E dis T t stk D s _ a h g F Df J Ct V) as Q.
  assert (Ew : wactual C O s t (JNull i) g = VOk (wnull_value t g)) by (destruct t; try contradiction; reflexivity).
  rewrite Ew in Q. destruct Q as (D' & h' & F' & Q & V' & _). eauto.
Qed.

(** ** C51: two Go types of the same structure. *)
Theorem C51_mixed_partial C O E1 dis1 T1 stk1 D1 h1 a1 F1 E2 dis2 T2 stk2 D2 h2 a2 F2 t s v g :
  wdecoder_for C E1 dis1 T1 t stk1 D1 -> wvariable C t h1 a1 g F1 ->
  wdecoder_for C E2 dis2 T2 t stk2 D2 -> wvariable C t h2 a2 g F2 ->
  json_text s v -> wlast C O true t v ->
  match Decode C O stk1 D1 s (TOk (flat 0 v)) (Some a1) h1, Decode C O stk2 D2 s (TOk (flat 0 v)) (Some a2) h2 with
  | Ret i e _ h1', Ret i' e' _ h2' => i = i' /\ e = e' /\
      exists g' F1' F2', wvariable C t h1' a1 g' F1' /\ wvariable C t h2' a2 g' F2'
  | DPanics, DPanics => True
  | _, _ => False
  end.
Proof.
  intros Df1 V1 Df2 V2 J Ct.
  pose proof (C26_mixed_characterised_partial C O E1 dis1 T1 t stk1 D1 s v a1 h1 g F1 Df1 J Ct V1) as Q1.
  pose proof (C26_mixed_characterised_partial C O E2 dis2 T2 t stk2 D2 s v a2 h2 g F2 Df2 J Ct V2) as Q2.
  destruct (wactual C O s t v g) as [g'|i e g'|].
  - destruct Q1 as (D1' & h1' & F1' & -> & V1' & _). destruct Q2 as (D2' & h2' & F2' & -> & V2' & _). eauto 8.
  - destruct Q1 as (D1' & h1' & F1' & -> & V1' & _). destruct Q2 as (D2' & h2' & F2' & -> & V2' & _). eauto 8.
  - rewrite Q1, Q2. exact I.
Qed.

(** ** Cases *)
(** The type and the document of C26_mixed_case (one unknown member), and the document with
    other unknown members, also inside the tree, and other white space. *)
Definition doc_text2 : bytes :=
  bs "{""Title"":""t"" , ""Root"":{""left"":{""V"":3,""v v"":[],""R"":{}},""V"":1,""z"":""}""},""Files"":{""a"":{""Sub"":[{""N"":2},{""N"":4,""Sub"":[{}]}],""N"":5},""b"":{""N"":6}},""Tags"":[{""Of"":[{""Name"":""u""},{""Name"":""v"",""q"":[7]}],""Name"":""w""},{""w"":0,""Name"":""y""}]}".
Definition doc_doc2 : jv := Eval vm_compute in tree_of doc_text2.
Ltac alike_step :=
  first
  [ exact I | reflexivity | apply Forall2_nil | apply Forall2_cons
  | match goal with |- _ = _ /\ _ => split; [reflexivity|] end
  | match goal with |- context [match act_field_for ?C ?O ?fs ?k with _ => _ end] => let x := eval vm_compute in (act_field_for C O fs k) in change (act_field_for C O fs k) with x; cbn [nth_error map snd fst] end
  | match goal with |- members_alike ?sel ?al ?l ?l' => unfold members_alike; cbv zeta;
      match goal with |- Forall2 _ ?a ?b => let x := eval vm_compute in a in let y := eval vm_compute in b in change a with x; change b with y end end
  | progress (cbn [walike struct_alike elements_alike entries_alike pointee_alike field_alike snd fst nth_error map])
  | match goal with |- ralike _ _ _ _ _ _ _ => intros ? end
  | match goal with |- ralike_n _ _ _ _ _ ?n _ _ => destruct n; [exact I|cbn [ralike_n doc_node doc_dir doc_tag struct_alike field_alike snd fst nth_error map]] end ].
Lemma doc_alike : walike wC default_opts doc_text doc_text2 doc_wt doc_doc doc_doc2.
Proof. unfold doc_wt, doc_doc, doc_doc2. repeat alike_step. Qed.
Lemma doc_class2 : json_text doc_text2 doc_doc2 /\ wlast wC default_opts true doc_wt doc_doc2 /\ wno_empty_number wC default_opts doc_wt doc_doc /\ wno_empty_number wC default_opts doc_wt doc_doc2.
Proof.
  split; [apply parse_sound; vm_compute; reflexivity|]. split; [apply wlastb_spec; vm_compute; reflexivity|]. split; apply wno_quoted_nonempty; reflexivity.
Qed.
Lemma doc_variable : wvariable wC doc_wt (world 72) (1%nat, 0) (wzero doc_wt) [].
Proof. exact (wvariable_new _ _ _ _ _ _ _ (world 72) (1%nat, 0) doc_decoder (world_zero 72) (world_own 72)). Qed.
Example C18_mixed_case : exists g' er i1 i2 D1' D2' h1 h2 F1 F2,
  Decode wC default_opts doc_stk (dyn0 doc_stk) doc_text (TOk (flat 0 doc_doc)) dest (world 72) = Ret i1 er D1' h1 /\ wvariable wC doc_wt h1 (1%nat, 0) g' F1 /\
  Decode wC default_opts doc_stk (dyn0 doc_stk) doc_text2 (TOk (flat 0 doc_doc2)) dest (world 72) = Ret i2 er D2' h2 /\ wvariable wC doc_wt h2 (1%nat, 0) g' F2.
Proof.
  destruct doc_class2 as (J2 & C2 & N1 & N2). destruct doc_class as [C1 _].
  exact (C18_mixed_partial wC default_opts E_doc false (TNamed 3) doc_wt doc_stk _ _ doc_text doc_text2 doc_doc doc_doc2 (1%nat, 0) (world 72) _ [] doc_decoder doc_decoder eq_refl doc_json J2 doc_alike C1 C2 N1 N2 doc_variable).
Qed.
Example C20_mixed_case : exists i j l gs' r er D' h' F', doc_doc = JObj i j l /\
  Decode wC default_opts doc_stk (dyn0 doc_stk) doc_text (TOk (flat 0 doc_doc)) dest (world 72) = Ret r er D' h' /\
  wvariable wC doc_wt h' (1%nat, 0) (VStruct gs') F'.
Proof.
  destruct doc_class2 as (_ & _ & N1 & _). destruct doc_class as [C1 _]. unfold doc_doc in *. eexists _, _, _.
  destruct (C20_mixed_partial wC default_opts E_doc false (TNamed 3) _ _ doc_stk _ doc_text _ _ _ (1%nat, 0) (world 72) _ [] doc_decoder doc_json C1 N1 doc_variable) as (gs' & r & er & D' & h' & F' & Q & V & _).
  exists gs', r, er, D', h', F'. split; [reflexivity|]. split; [exact Q|exact V].
Qed.
(** map[string]Node, DisallowUnknownFields: the member "x" of the inner node is reported;
    without it the entries are as C23 says. *)
Definition mapn_wt : wt := WMap KeyStr (WRec 24 doc_node).
Definition mapn_ty : ty := TMap TStr (TNamed 0).
Definition mapn_stk : list frame := Eval vm_compute in stack_of E_doc mapn_ty.
Definition mapn_bad : bytes := bs "{""a"":{""left"":{""V"":300,""x"":{}},""V"":-1},""b"":{}}".
Definition mapn_bad_doc : jv := Eval vm_compute in tree_of mapn_bad.
Lemma node_rec : exists seen', wresolves true E_doc false [] (TNamed 0) (WRec 24 doc_node) seen'.
Proof.
  eexists. apply W_rec. exists 0%nat, 0%nat. eexists. split; [reflexivity|]. split; [split; reflexivity|]. split; [reflexivity|]. split; [lia|]. split; [cbn; intuition discriminate|]. split.
  - eapply RF_field; [apply known_plain|apply R_sc; [exact I|reflexivity]|].
    eapply RF_back with (q := false) (ks := []); [|discriminate|apply B_ptr; [split; reflexivity|reflexivity]|].
    { exists (bs "left"), []. split; [apply tag_name; vm_compute; intuition discriminate|]. split; [discriminate|]. split; [reflexivity|]. split; discriminate. }
    eapply RF_back with (q := false) (ks := []); [apply known_plain|discriminate|apply B_ptr; [split; reflexivity|reflexivity]|apply RF_nil].
  - exists ((bs "R", 16), RSelf). split; [cbn; auto|discriminate].
Qed.
Lemma mapn_decoder : wdecoder_for wC E_doc false mapn_ty mapn_wt mapn_stk (dyn0 mapn_stk).
Proof.
  split.
  - intros [|[|[|[|i]]]]; reflexivity.
  - destruct node_rec as [sn W]. exists sn. eapply W_map with (ks := []); [exact I|reflexivity|cbn; intuition discriminate|intros [_ [H|H]]; discriminate H|apply K_str; [exact I|reflexivity]|exact W].
  - split; [apply layoutb_spec; vm_compute; reflexivity|lia].
  - exists 50%nat. vm_compute. reflexivity.
  - constructor.
Qed.
Example C19_mixed_case : wany wC strict mapn_wt = true /\ wunknown_at wC strict mapn_wt mapn_bad_doc 22 /\
  match Decode wC strict mapn_stk (dyn0 mapn_stk) mapn_bad (TOk (flat 0 mapn_bad_doc)) dest (world 8) with Ret r e _ _ => Some (r, e) | _ => None end = Some (22, Some EUnknownField).
Proof.
  split; [reflexivity|]. split; [|vm_compute; reflexivity].
  unfold wunknown_at, mapn_wt, mapn_bad_doc. cbn [wunknown entry_with]. apply Exists_cons_hd. cbn [snd]. exists 2%nat. unfold doc_node. cbn [runknown_n map snd member_with]. apply Exists_cons_hd. cbn [fst snd].
  match goal with |- match ?X with _ => _ end => let x := eval vm_compute in X in change X with x end. cbn [nth_error field_with member_with]. apply Exists_cons_tl, Exists_cons_hd. cbn [fst snd].
  match goal with |- match ?X with _ => _ end => let x := eval vm_compute in X in change X with x end. reflexivity.
Qed.
Definition mapn_text : bytes := bs "{""a"":{""left"":{""V"":300},""V"":-1},""b"":{""V"":5},""a"":{""R"":{}}}".
Definition mapn_doc : jv := Eval vm_compute in tree_of mapn_text.
Example C23_mixed_case : exists i j l m' r er D' h' F', mapn_doc = JObj i j l /\
  Decode wC strict mapn_stk (dyn0 mapn_stk) mapn_text (TOk (flat 0 mapn_doc)) dest (world 8) = Ret r er D' h' /\
  wvariable wC mapn_wt h' (1%nat, 0) (VMap (Some m')) F' /\
  (er = None -> getk m' (GStr (bs "b")) = Some (dnode 5 None None)).
Proof.
  assert (J : json_text mapn_text mapn_doc) by (apply parse_sound; vm_compute; reflexivity). unfold mapn_doc in *. eexists _, _, _.
  pose proof (wvariable_new _ _ _ _ _ _ _ (world 8) (1%nat, 0) mapn_decoder (world_zero 8) (world_own 8)) as V.
  destruct (C23_mixed_every_document_partial wC strict E_doc false mapn_ty _ _ mapn_stk _ mapn_text _ _ _ (1%nat, 0) (world 8) _ [] mapn_decoder eq_refl eq_refl J V) as (m' & r & er & D' & h' & F' & Q & W & P & _).
  exists m', r, er, D', h', F'. split; [reflexivity|]. split; [exact Q|]. split; [exact W|]. intros ->. specialize (P eq_refl (GStr (bs "b"))).
  match type of P with ?X = _ => let x := eval vm_compute in X in replace X with x in P by (vm_compute; reflexivity) end. injection P as P. symmetry. exact P.
Qed.
Lemma node_decoder : wdecoder_for wC E_doc false (TNamed 0) (WRec 24 doc_node) (stack_of E_doc (TNamed 0)) (dyn0 (stack_of E_doc (TNamed 0))).
Proof.
  split.
  - intros [|[|[|[|i]]]]; reflexivity.
  - exact node_rec.
  - split; [apply layoutb_spec; vm_compute; reflexivity|lia].
  - exists 50%nat. vm_compute. reflexivity.
  - constructor.
Qed.
Definition node_text : bytes := bs "{""left"":{""V"":3},""R"":{""V"":300},""left"":null,""R"":{""R"":{}}}".
Definition node_doc : jv := Eval vm_compute in tree_of node_text.
(** Members for the same field one after the other: null removes the first, the second
    tree is decoded into the first. *)
Example C20_recursive_case : exists i j l gs' r er D' h' F', node_doc = JObj i j l /\
  Decode wC strict (stack_of E_doc (TNamed 0)) (dyn0 (stack_of E_doc (TNamed 0))) node_text (TOk (flat 0 node_doc)) dest (world 24) = Ret r er D' h' /\
  wvariable wC (WRec 24 doc_node) h' (1%nat, 0) (VStruct gs') F' /\
  (er = None -> gs' = [VInt 0; VPtr None; VPtr (Some (dnode 44 None (Some (dnode 0 None None))))]).
Proof.
  assert (J : json_text node_text node_doc) by (apply parse_sound; vm_compute; reflexivity). unfold node_doc in *. eexists _, _, _.
  pose proof (wvariable_new _ _ _ _ _ _ _ (world 24) (1%nat, 0) node_decoder (world_zero 24) (world_own 24)) as V.
  destruct (C20_recursive_every_document_partial wC strict E_doc false (TNamed 0) _ _ _ _ node_text _ _ _ (1%nat, 0) (world 24) _ [] node_decoder eq_refl eq_refl J V) as (gs' & r & er & D' & h' & F' & Q & W & Ln & P & _).
  exists gs', r, er, D', h', F'. split; [reflexivity|]. split; [exact Q|]. split; [exact W|]. intros ->. specialize (P eq_refl). clear - P Ln.
  destruct gs' as [|g0 [|g1 [|g2 [|? ?]]]]; try discriminate Ln.
  destruct (P 0%nat _ _ eq_refl eq_refl) as (x0 & [= <-] & E0). destruct (P 1%nat _ _ eq_refl eq_refl) as (x1 & [= <-] & E1). destruct (P 2%nat _ _ eq_refl eq_refl) as (x2 & [= <-] & E2). clear P.
  vm_compute in E0, E1, E2. injection E0 as <-. injection E1 as <-. injection E2 as <-. reflexivity.
Qed.

(** C16, C29: the document of C26_mixed_case. *)
Example C29_mixed_case : exists D' h', Decode wC default_opts doc_stk (dyn0 doc_stk) doc_text (TOk (flat 0 doc_doc)) dest (world 72) = Ret (-1) None D' h' /\ ~ frame_holds doc_stk D'.
Proof.
  destruct C26_mixed_case as (D' & h' & F' & Q & _). exists D', h'. split; [exact Q|].
  exact (C29_mixed_partial wC default_opts E_doc false (TNamed 3) doc_wt doc_stk (dyn0 doc_stk) doc_text doc_doc (1%nat, 0) (world 72) (-1) D' h' doc_decoder doc_json (proj1 doc_class) Q).
Qed.
(** C35: null for struct Doc and for map[string]Node. *)
Example C35_mixed_case : (exists D' h' F', Decode wC default_opts doc_stk (dyn0 doc_stk) (bs " null") (TOk (flat 0 (JNull 1))) dest (world 72) = Ret (-1) None D' h' /\ wvariable wC doc_wt h' (1%nat, 0) (wzero doc_wt) F') /\
  exists D' h' F', Decode wC default_opts mapn_stk (dyn0 mapn_stk) (bs " null") (TOk (flat 0 (JNull 1))) dest (world 8) = Ret (-1) None D' h' /\ wvariable wC mapn_wt h' (1%nat, 0) (VMap None) F'.
Proof.
  assert (J : json_text (bs " null") (JNull 1)) by (apply parse_sound; vm_compute; reflexivity). split.
  - exact (C35_mixed wC default_opts E_doc false (TNamed 3) doc_wt doc_stk _ _ 1 (1%nat, 0) (world 72) _ [] doc_decoder J I doc_variable).
  - exact (C35_mixed wC default_opts E_doc false mapn_ty mapn_wt mapn_stk _ _ 1 (1%nat, 0) (world 8) _ [] mapn_decoder J I (wvariable_new _ _ _ _ _ _ _ (world 8) (1%nat, 0) mapn_decoder (world_zero 8) (world_own 8))).
Qed.
(** C51: map[string]Node for the declared type and for another declaration of the same
    structure (type Other with a pointer type of another name). *)
Definition E_other : env := fun i =>
  match i with
  | 5%nat => Decl (TStruct 9 24 [(fld0 "V" 0, tInt8); (tagged "Q" "left" 8, TPtr (TNamed 5)); (tagged "S" "R" 16, TPtr (TNamed 5))]) 24 SNone SNone
  | 6%nat => Decl (TMap TStr (TNamed 5)) 8 SNone SNone
  | _ => Decl TOther 8 SNone SNone
  end.
Definition other_stk : list frame := Eval vm_compute in stack_of E_other (TNamed 6).
Lemma other_decoder : wdecoder_for wC E_other false (TNamed 6) mapn_wt other_stk (dyn0 other_stk).
Proof.
  split.
  - intros [|[|[|[|[|[|[|i]]]]]]]; reflexivity.
  - eexists. eapply W_map with (ks := []); [split; reflexivity|reflexivity|cbn; intuition discriminate|intros [_ [H|H]]; discriminate H|apply K_str; [exact I|reflexivity]|].
    apply W_rec. exists 5%nat, 9%nat. eexists. split; [reflexivity|]. split; [split; reflexivity|]. split; [reflexivity|]. split; [lia|]. split; [cbn; intuition discriminate|]. split.
    + eapply RF_field; [apply known_plain|apply R_sc; [exact I|reflexivity]|].
      eapply RF_back with (q := false) (ks := []); [|discriminate|apply B_ptr; [split; reflexivity|reflexivity]|].
      { exists (bs "left"), []. split; [apply tag_name; vm_compute; intuition discriminate|]. split; [discriminate|]. split; [reflexivity|]. split; discriminate. }
      eapply RF_back with (q := false) (ks := []); [|discriminate|apply B_ptr; [split; reflexivity|reflexivity]|apply RF_nil].
      { exists (bs "R"), []. split; [apply tag_name; vm_compute; intuition discriminate|]. split; [discriminate|]. split; [reflexivity|]. split; discriminate. }
    + exists ((bs "R", 16), RSelf). split; [cbn; auto|discriminate].
  - split; [apply layoutb_spec; vm_compute; reflexivity|lia].
  - exists 50%nat. vm_compute. reflexivity.
  - constructor.
Qed.
Example C51_mixed_case : wlast wC strict true mapn_wt mapn_doc /\ other_stk <> mapn_stk.
Proof. split; [apply wany_last; reflexivity|]. intros H. apply (f_equal (map f_rt)) in H. vm_compute in H. discriminate H. Qed.

(** C17, C26, C27, C28, C44, C45 for recursive struct types without the condition [rsound]:
    [actual_rec] (RecActual.v) is what Decode does, including the leaves on which it deviates
    from the ideal.  The only condition on documents is [rctl] (Rec.v); for types whose
    recursion goes through pointers only it holds for every document
    ([rany_document] below). *)
From Coq Require Import Permutation.
From Verif Require Import Base NumSpec StrSpec JsonNum JsonNumProofs AtoiAny Types AppendType Token FloatLit Heap Machine Dt Dec Control Root Elab Rec Value Dval Sep Refine Refine2 Refine3 Typed Spec SpecProofs Main Parse World Elaborate RecSpec RecRefine RecElab PropsRefuted PropsNested PropsRec Encodes RoundTrip PropsRoundTrip Order RecOrder PropsStrict Actual PropsExact OrderActual PropsAnyLeaf RecActual.
Open Scope Z_scope.

(** ** C26 *)
Theorem C26_characterised_partial C O E dis T z fs stk D s v a h g F :
  rdecoder_for C E dis T z fs stk D -> json_text s v -> rctl C O fs v -> rvariable C z fs h a g F ->
  match actual_rec C O s fs v g with
  | VOk g' => exists D' h' F', Decode C O stk D s (TOk (flat 0 v)) (Some a) h = Ret (-1) None D' h' /\
      rvariable C z fs h' a g' F' /\ only h h' (Some a) z F F'
  | VErr i e g' => exists D' h' F', Decode C O stk D s (TOk (flat 0 v)) (Some a) h = Ret (Z.of_nat i) (Some e) D' h' /\
      rvariable C z fs h' a g' F' /\ only h h' (Some a) z F F'
  | VPan => Decode C O stk D s (TOk (flat 0 v)) (Some a) h = DPanics
  end.
Proof.
  intros Df J Ct [R Ow]. pose proof (rdecoder_describes _ _ _ _ _ _ _ _ Df) as Ds.
  pose proof (rused_ready _ _ _ _ _ Ds (rdf_used _ _ _ _ _ _ _ _ Df)) as Rd. pose proof (json_text_lexed _ _ J) as L.
  pose proof (decode_rdec C O stk s z fs v D a h Ds Rd L Ct) as Q.
  pose proof (rdec_actual C O s fs z (rdf_layout _ _ _ _ _ _ _ _ Df) v h (Some a) g F L R Ow) as G.
  unfold gsim in G. destruct (actual_rec C O s fs v g) as [g'|i e g'|].
  - destruct G as (h' & E1 & F' & R' & O' & Y). rewrite E1 in Q. destruct Q as (D' & Q & _). exists D', h', F'. split; [exact Q|]. split; [split; assumption|exact Y].
  - destruct G as (h' & E1 & F' & R' & O' & Y). rewrite E1 in Q. destruct Q as (D' & Q). exists D', h', F'. split; [exact Q|]. split; [split; assumption|exact Y].
  - rewrite G in Q. exact Q.
Qed.

(** ** Documents on which Decode does not panic *)
Section Nonempty.
Variables (C : cfg) (O : opts) (fs : rfields).
Definition fnonempty (P : jv -> Prop) (k : rk) (v : jv) : Prop :=
  match k, v with
  | RSelf, JObj _ _ _ => P v
  | RSlice, JArr _ _ l => Forall P l
  | RMap kt, JObj _ _ l => Forall (fun x => nonempty_key kt (snd (fst x)) /\ P (snd x)) l
  | RSub d, _ => no_empty_number C O d v
  | _, _ => True
  end.
Definition snonempty (P : jv -> Prop) (v : jv) : Prop :=
  match v with
  | JObj _ _ l => Forall (fun x => match act_field_for C O (shape fs) (snd (fst x)) with
                       | Some j => match nth_error fs j with Some y => fnonempty P (snd y) (snd x) | None => True end
                       | None => True end) l
  | _ => True
  end.
Fixpoint nonempty_n (n : nat) : jv -> Prop := match n with 0%nat => fun _ => True | S n => snonempty (nonempty_n n) end.
(** At no depth the empty string for a Number, a quoted number or an integer map key. *)
Definition rno_empty_number (v : jv) : Prop := forall n, nonempty_n n v.
(** The types without such numbers. *)
Definition rno_quoted_numbers : bool :=
  forallb (fun x => match snd x with RSub d => no_quoted_numbers d | RMap (KeyInt _) => false | _ => true end) fs.
Lemma rno_quoted_nonempty : rno_quoted_numbers = true -> forall v, rno_empty_number v.
Proof.
  intros N v n. revert v. induction n as [|n IH]; intros v; [exact I|]. cbn [nonempty_n snonempty]. destruct v; try exact I.
  apply Forall_forall. intros x _. destruct (act_field_for C O (shape fs) (snd (fst x))) as [q|]; [|exact I]. destruct (nth_error fs q) as [y|] eqn:Ey; [|exact I].
  unfold rno_quoted_numbers in N. rewrite forallb_forall in N. specialize (N y (nth_error_In _ _ Ey)).
  destruct (snd y) as [| |kt|d]; cbn [fnonempty].
  - destruct (snd x); try exact I. apply IH.
  - destruct (snd x); try exact I. apply Forall_forall. intros w _. apply IH.
  - destruct (snd x); try exact I. apply Forall_forall. intros w _. split; [|apply IH]. destruct kt; try exact I. discriminate N.
  - apply no_quoted_nonempty, N.
Qed.

Variable s : bytes.
Notation fresh := (VStruct (rzeros fs)).
Lemma act_key_some kt key : nonempty_key kt key -> act_key C kt key <> None.
Proof.
  intros N. destruct kt as [|k|id sz]; cbn [act_key].
  - discriminate.
  - unfold act_int_text. cbn [nonempty_key] in N. destruct key as [|c key]; [congruence|]. destruct (is_int (c :: key)); [destruct (act_int C k (c :: key)) as [g0| | |]; try discriminate; destruct g0; discriminate|].
    destruct (starts_int (c :: key)); [|discriminate]. destruct (negb (nk_signed k) && neg (c :: key)); [discriminate|]. destruct (any_digits _ _); discriminate.
  - destruct (c_ut C id [] (units_text key)) as [? []]; discriminate.
Qed.
Lemma act_field_typed (T : gval -> Prop) (P : jv -> Prop) (fd : vdec) n k v g : T fresh -> (forall w g, lexed s w -> P w -> (height w <= n)%nat -> T g -> vgood T (fd w g)) ->
  lexed s v -> fnonempty P k v -> (height v <= n)%nat -> tfield T k g -> vgood (tfield T k) (act_field C O s fs fd k v g).
Proof.
  intros Tz Hf L S Hn Tg. destruct k as [| |kt|d]; cbn [act_field fnonempty] in *.
  - destruct v as [i|i b|i r|i r|i r|i j l|i j l]; try exact Tg; [exact I|].
    eapply vgood_map; [apply Hf; [exact L|exact S|exact Hn|]|intros a Ha; exact Ha]. destruct g as [| | | | | | | | | | |[g|]]; exact Tz || exact Tg.
  - destruct v as [i|i b|i r|i r|i r|i j l|i j l]; try exact Tg; [exact I|]. apply lexed_arr in L as (_ & _ & _ & L).
    apply slicev_of; [exact Tz|exact Tg|]. rewrite Forall_forall in *. intros w Hw g' Tg'. apply Hf; [apply L, Hw|apply S, Hw| |exact Tg']. pose proof (height_arr i j l w Hw). lia.
  - destruct v as [i|i b|i r|i r|i r|i j l|i j l]; try exact Tg; [exact I|]. apply lexed_obj in L as (_ & _ & _ & L).
    assert (Hh : Forall (fun x => (height (snd x) <= n)%nat) l) by (apply Forall_forall; intros x Hx; pose proof (height_obj i j l x Hx); lia).
    eapply vgood_map with (Q := fun m => Forall (fun x => T (snd x)) m); [|intros m Hm; exact Hm].
    set (m0 := match g with VMap (Some m) => m | _ => [] end).
    assert (T0 : Forall (fun x => T (snd x)) m0).
    { unfold m0. cbn [tfield] in Tg. destruct g as [| | | | | | | | |[m|]| |]; try contradiction; [exact Tg|constructor]. }
    clearbody m0. clear Hn. revert m0 T0. induction l as [|[[ki key] w] l IHl]; intros m T0; [exact T0|]. cbn [act_entries].
    apply Forall_cons_iff in L as [[_ L1] L2]. apply Forall_cons_iff in S as [[S0 S1] S2]. apply Forall_cons_iff in Hh as [H1 H2]. cbn [snd fst] in *.
    pose proof (act_key_some kt key S0) as Nk. destruct (act_key C kt key) as [[ky|]|]; [|exact T0|congruence].
    assert (To : T (match getk m ky with Some _ => fresh | None => fresh end)) by (destruct (getk m ky); exact Tz).
    pose proof (Hf w _ L1 S1 H1 To) as Q. destruct (fd w _) as [g'|i' e g'|]; cbn in Q; [| |contradiction].
    + apply IHl; [exact L2|exact S2|exact H2|]. apply putk_of; assumption.
    + cbn. apply putk_of; assumption.
  - cbn [tfield] in *. pose proof (dval_typed C O s d v g L S Tg) as N. rewrite (dval_actual C O s d v g L) in N. exact N.
Qed.
Lemma act_n_typed n : forall v g, lexed s v -> nonempty_n n v -> (height v <= n)%nat -> rtyped fs n g -> vgood (rtyped fs n) (act_n C O s fs n v g).
Proof.
  induction n as [|n IH]; intros v g L S Hn T; [destruct v; cbn in Hn; lia|]. cbn [act_n nonempty_n] in *. unfold act_struct.
  destruct v as [i|i b|i r|i r|i r|i j l|i j l]; try exact T. destruct T as (gs & -> & T).
  apply lexed_obj in L as (_ & _ & _ & L). cbn [snonempty] in S.
  assert (Hh : Forall (fun x => (height (snd x) <= n)%nat) l) by (apply Forall_forall; intros x Hx; pose proof (height_obj i j l x Hx); lia). clear Hn.
  eapply vgood_map with (Q := tfields (rtyped fs n) fs); [|intros m Hm; exists m; auto].
  revert gs T. unfold act_fields. induction l as [|[[ki key] w] l IHl]; intros gs T; [exact T|]. cbn [ideal_members].
  apply Forall_cons_iff in L as [[_ L1] L2]. apply Forall_cons_iff in S as [S1 S2]. apply Forall_cons_iff in Hh as [H1 H2]. cbn [fst snd] in *.
  destruct (act_field_for C O (shape fs) key) as [jf|] eqn:Pk; [|destruct (o_unknown O); [exact T|apply IHl; assumption]].
  assert (Hj : (jf < length fs)%nat).
  { unfold act_field_for in Pk. apply pick_lt in Pk. unfold shape in Pk. rewrite !map_length in Pk. exact Pk. }
  destruct (nth_error fs jf) as [y|] eqn:Ey; [|apply nth_error_None in Ey; lia]. rewrite nth_error_map, Ey. cbn [option_map].
  destruct (tfields_nth _ _ _ _ _ T Ey) as (g & Eg & Tg). rewrite Eg.
  pose proof (act_field_typed (rtyped fs n) (nonempty_n n) (act_n C O s fs n) n (snd y) w g (rtyped_zero fs n) IH L1 S1 H1 Tg) as Q.
  destruct (act_field C O s fs (act_n C O s fs n) (snd y) w g) as [g'|i' e g'|]; cbn in Q; [| |contradiction].
  - apply IHl; [assumption|assumption|assumption|]. eapply tfields_set; eassumption.
  - cbn. eapply tfields_set; eassumption.
Qed.
End Nonempty.
Lemma rcharacterised C O E dis T z fs stk D s v a h g F :
  rdecoder_for C E dis T z fs stk D -> json_text s v -> rctl C O fs v -> rno_empty_number C O fs v -> rvariable C z fs h a g F ->
  match actual_rec C O s fs v g with
  | VOk g' => exists D' h' F', Decode C O stk D s (TOk (flat 0 v)) (Some a) h = Ret (-1) None D' h' /\
      rvariable C z fs h' a g' F' /\ only h h' (Some a) z F F'
  | VErr i e g' => exists D' h' F', Decode C O stk D s (TOk (flat 0 v)) (Some a) h = Ret (Z.of_nat i) (Some e) D' h' /\
      rvariable C z fs h' a g' F' /\ only h h' (Some a) z F F'
  | VPan => False
  end.
Proof.
  intros Df J Ct Ne V. pose proof (C26_characterised_partial C O E dis T z fs stk D s v a h g F Df J Ct V) as Q.
  pose proof (act_n_typed C O fs s (height v) v g (json_text_lexed _ _ J) (Ne _) (Nat.le_refl _) (rrep_typed _ _ _ _ _ _ _ _ (proj1 V))) as N.
  unfold actual_rec in *. destruct (act_n C O s fs (height v) v g); [exact Q|exact Q|exact N].
Qed.
(** ** C17 *)
Theorem C17_recursive_no_panic_partial C O E dis T z fs stk D s v a h g F :
  rdecoder_for C E dis T z fs stk D -> json_text s v -> rctl C O fs v -> rno_empty_number C O fs v -> rvariable C z fs h a g F ->
  exists i e D' h' g' F', Decode C O stk D s (TOk (flat 0 v)) (Some a) h = Ret i e D' h' /\ rvariable C z fs h' a g' F' /\ only h h' (Some a) z F F'.
Proof.
  intros Df J Ct Ne V. pose proof (rcharacterised C O E dis T z fs stk D s v a h g F Df J Ct Ne V) as Q.
  destruct (actual_rec C O s fs v g) as [g'|i e g'|]; [| |contradiction]; destruct Q as (D' & h' & F' & Q & V' & Y); do 3 eexists; exists h', g', F'; eauto.
Qed.
(** ** C28 *)
Theorem C28_recursive_any_leaf_partial C O E dis T z fs stk D1 D2 s v a1 a2 h1 h2 g F1 F2 :
  rdecoder_for C E dis T z fs stk D1 -> rdecoder_for C E dis T z fs stk D2 -> json_text s v -> rctl C O fs v ->
  rvariable C z fs h1 a1 g F1 -> rvariable C z fs h2 a2 g F2 ->
  (exists i e D1' D2' h1' h2' g' F1' F2',
    Decode C O stk D1 s (TOk (flat 0 v)) (Some a1) h1 = Ret i e D1' h1' /\ rvariable C z fs h1' a1 g' F1' /\
    Decode C O stk D2 s (TOk (flat 0 v)) (Some a2) h2 = Ret i e D2' h2' /\ rvariable C z fs h2' a2 g' F2') \/
  (Decode C O stk D1 s (TOk (flat 0 v)) (Some a1) h1 = DPanics /\ Decode C O stk D2 s (TOk (flat 0 v)) (Some a2) h2 = DPanics).
Proof.
  intros Df1 Df2 J Ct V1 V2.
  pose proof (C26_characterised_partial C O E dis T z fs stk D1 s v a1 h1 g F1 Df1 J Ct V1) as Q1.
  pose proof (C26_characterised_partial C O E dis T z fs stk D2 s v a2 h2 g F2 Df2 J Ct V2) as Q2.
  destruct (actual_rec C O s fs v g) as [g'|i e g'|]; [left|left|right; auto];
    destruct Q1 as (D1' & h1' & F1' & Q1 & V1' & _); destruct Q2 as (D2' & h2' & F2' & Q2 & V2' & _); eexists _, _, D1', D2', h1', h2', g', F1', F2'; eauto.
Qed.

(** ** C44, C45: members in another order *)
Section Unlike.
Variables (C : cfg) (O : opts) (fs : rfields).
Definition act_kunlike (P : jv -> Prop) (k : rk) (v : jv) : Prop :=
  match k, v with
  | RSelf, JObj _ _ _ => P v
  | RSlice, JArr _ _ l => Forall P l
  | RMap kt, JObj _ _ l => NoDup (act_map_keys C kt l) /\ Forall (fun x => P (snd x)) l
  | RSub d, _ => act_unlike C O d v
  | _, _ => True
  end.
Definition act_sunlike (P : jv -> Prop) (v : jv) : Prop :=
  match v with
  | JObj _ _ l => NoDup (targets (act_field_for C O (shape fs)) l) /\
      Forall (fun x => match act_field_for C O (shape fs) (snd (fst x)) with
                       | Some j => match nth_error fs j with Some y => act_kunlike P (snd y) (snd x) | None => True end
                       | None => True end) l
  | _ => True
  end.
Fixpoint act_unlike_n (n : nat) : jv -> Prop := match n with 0%nat => fun _ => True | S n => act_sunlike (act_unlike_n n) end.
Definition act_runlike (v : jv) : Prop := forall n, act_unlike_n n v.
End Unlike.

Section Alike.
Variables (C : cfg) (O : opts) (fs : rfields).
Notation fresh := (VStruct (rzeros fs)).
Lemma act_kind_reordered s s' (P : jv -> Prop) (f f' : vdec) k v v' g g1 :
  (forall v v' g g1, reordered v v' -> P v -> f v g = VOk g1 -> exists g2, f' v' g = VOk g2 /\ same_value g1 g2) ->
  match k with RSub d => no_json d | _ => true end = true -> reordered v v' -> act_kunlike C O P k v ->
  act_field C O s fs f k v g = VOk g1 -> exists g2, act_field C O s' fs f' k v' g = VOk g2 /\ same_value g1 g2.
Proof.
  intros H NJ R U E. destruct k as [| |kt|d]; cbn [act_field act_kunlike] in *.
  - inversion R; subst; try discriminate; try (exists g1; split; [exact E|apply same_refl]).
    match type of E with vmap _ (f ?v ?g) = _ => destruct (f v g) as [a| |] eqn:Ea end; try discriminate. injection E as <-.
    destruct (H _ _ _ _ R U Ea) as (b & -> & S). eexists. split; [reflexivity|]. constructor. exact S.
  - inversion R; subst; try discriminate; try (exists g1; split; [exact E|apply same_refl]).
    eapply slicev_alike; [|exact E]. match goal with F : Forall2 reordered _ _ |- _ => eapply F2_with; [|exact U|exact F] end. cbn. intros x y Ux Rxy g0 g2. apply H; assumption.
  - inversion R; subst; try discriminate; try (exists g1; split; [exact E|apply same_refl]).
    match goal with H : Permutation l _, H' : Forall2 _ _ l' |- _ => rename H into Pm; rename H' into Q end. destruct U as [N U].
    set (m0 := match g with VMap (Some m) => m | _ => [] end) in *. destruct (act_entries C kt f true fresh l m0) as [m'| |] eqn:Em; try discriminate. injection E as <-.
    destruct (act_entries_perm C kt f true fresh l l1 Pm N m0 m' Em) as (m1 & E1 & P1 & _).
    destruct (act_entries_alike C kt f true fresh f' l1 l') with (m := m0) (m2 := m0) (m' := m1) as (m2 & E2 & S2).
    + eapply F2_with; [|eapply Permutation_Forall; [exact Pm|exact U]|exact Q]. cbn. intros x y Ux [Ek Rxy]. split; [exact Ek|]. intros g0 g2. apply H; assumption.
    + eapply Permutation_NoDup; [apply Permutation_flat_map, Pm|exact N].
    + apply Forall2_entries_refl.
    + reflexivity.
    + exact E1.
    + rewrite E2. eexists. split; [reflexivity|]. econstructor; eassumption.
  - eapply actual_reordered; eassumption.
Qed.
Lemma act_n_reordered s s' n : rno_json fs = true -> forall v v' g g1, reordered v v' -> act_unlike_n C O fs n v -> act_n C O s fs n v g = VOk g1 ->
  exists g2, act_n C O s' fs n v' g = VOk g2 /\ same_value g1 g2.
Proof.
  intros NJ. induction n as [|n IH]; intros v v' g g1 R U E; [discriminate|]. cbn [act_n act_unlike_n] in *. unfold act_struct in *.
  inversion R; subst; try discriminate; try (exists g1; split; [exact E|apply same_refl]).
  match goal with H : Permutation l _, H' : Forall2 _ _ l' |- _ => rename H into P; rename H' into Q end. cbn [act_sunlike] in U. destruct U as [N U].
  destruct g as [| | | | | | |gs| | | |]; try discriminate. unfold act_fields in *.
  destruct (ideal_members O (act_field_for C O (shape fs)) (map (fun x => act_field C O s fs (act_n C O s fs n) (snd x)) fs) l gs) as [gs'| |] eqn:Em; try discriminate. injection E as <-.
  pose proof (members_perm O (act_field_for C O (shape fs)) _ l l1 P N gs gs' Em) as E1.
  destruct (members_alike O (act_field_for C O (shape fs)) (map (fun x => act_field C O s fs (act_n C O s fs n) (snd x)) fs) (map (fun x => act_field C O s' fs (act_n C O s' fs n) (snd x)) fs) l1 l')
    with (gs := gs) (hs := gs) (gs' := gs') as (hs' & E2 & S2).
  + eapply F2_with; [|eapply Permutation_Forall; [exact P|exact U]|exact Q]. cbn. intros x y Ux [Ek Rxy]. split; [exact Ek|]. intros jj f g0 g2 Ej Ef Ev. rewrite Ej in Ux.
    rewrite nth_error_map in Ef. rewrite nth_error_map. destruct (nth_error fs jj) as [q|] eqn:Eq; [|discriminate]. cbn in *. injection Ef as <-.
    unfold rno_json in NJ. rewrite forallb_forall in NJ. specialize (NJ q (nth_error_In _ _ Eq)).
    destruct (act_kind_reordered s s' _ _ _ _ _ _ _ _ IH NJ Rxy Ux Ev) as (g3 & E3 & S3). eexists. exists g3. split; [reflexivity|]. split; [exact E3|exact S3].
  + eapply Permutation_NoDup; [apply Permutation_flat_map, P|exact N].
  + apply Forall2_same_refl.
  + reflexivity.
  + exact E1.
  + rewrite E2. eexists. split; [reflexivity|]. constructor. exact S2.
Qed.
Theorem actual_rec_reordered s s' v v' g g1 : rno_json fs = true -> reordered v v' -> act_runlike C O fs v -> actual_rec C O s fs v g = VOk g1 ->
  exists g2, actual_rec C O s' fs v' g = VOk g2 /\ same_value g1 g2.
Proof.
  intros NJ R U. unfold actual_rec. set (n := Nat.max (height v) (height v')).
  rewrite (act_n_enough C O s fs _ n v g) by lia. rewrite (act_n_enough C O s' fs _ n v' g) by lia. apply act_n_reordered; [exact NJ|exact R|apply U].
Qed.

Lemma act_kind_again s (P : jv -> Prop) (f : vdec) k v g g1 : (forall v g g1, P v -> f v g = VOk g1 -> f v g1 = VOk g1) ->
  match k with RSub d => no_user d | _ => true end = true -> act_kunlike C O P k v -> act_field C O s fs f k v g = VOk g1 -> act_field C O s fs f k v g1 = VOk g1.
Proof.
  intros H NU U E. destruct k as [| |kt|d]; cbn [act_field act_kunlike] in *.
  - destruct v as [i|i b|i r|i r|i r|i j l|i j l]; try discriminate; [exact E|].
    match type of E with vmap _ (f ?v ?g) = _ => destruct (f v g) as [a| |] eqn:Ea end; try discriminate. injection E as <-. rewrite (H _ _ _ U Ea). reflexivity.
  - destruct v as [i|i b|i r|i r|i r|i j l|i j l]; try discriminate; [exact E|]. eapply slicev_again; [|exact E]. rewrite Forall_forall in U. intros x Hx g0 g2. apply H, U, Hx.
  - destruct v as [i|i b|i r|i r|i r|i j l|i j l]; try discriminate; [exact E|]. destruct U as [N U].
    set (m0 := match g with VMap (Some m) => m | _ => [] end) in *. destruct (act_entries C kt f true fresh l m0) as [m'| |] eqn:Em; try discriminate. injection E as <-.
    rewrite (act_entries_again C kt f true fresh l) with (m := m0); [reflexivity| |exact N|exact Em]. rewrite Forall_forall in U. intros x Hx g0 g2. apply H, U, Hx.
  - eapply actual_again; eassumption.
Qed.
Lemma act_n_again s n : rno_user fs = true -> forall v g g1, act_unlike_n C O fs n v -> act_n C O s fs n v g = VOk g1 -> act_n C O s fs n v g1 = VOk g1.
Proof.
  intros NU. induction n as [|n IH]; intros v g g1 U E; [discriminate|]. cbn [act_n act_unlike_n] in *. unfold act_struct in *.
  destruct v as [i|i b|i r|i r|i r|i j l|i j l]; try discriminate; [reflexivity|]. cbn [act_sunlike] in U. destruct U as [N U].
  destruct g as [| | | | | | |gs| | | |]; try discriminate. unfold act_fields in *.
  destruct (ideal_members O (act_field_for C O (shape fs)) (map (fun x => act_field C O s fs (act_n C O s fs n) (snd x)) fs) l gs) as [gs'| |] eqn:Em; try discriminate. injection E as <-.
  rewrite (members_again O (act_field_for C O (shape fs)) (map (fun x => act_field C O s fs (act_n C O s fs n) (snd x)) fs) l) with (gs := gs); [reflexivity| |exact N|exact Em].
  rewrite Forall_forall in U. unfold rno_user in NU. rewrite forallb_forall in NU. intros x Hx jj f g0 g2 Ej Ef Ev. specialize (U x Hx). rewrite Ej in U. rewrite nth_error_map in Ef.
  destruct (nth_error fs jj) as [q|] eqn:Eq; [|discriminate]. cbn in *. injection Ef as <-. apply nth_error_In in Eq. eapply act_kind_again; [exact IH|exact (NU q Eq)|exact U|exact Ev].
Qed.
Theorem actual_rec_again s v g g1 : rno_user fs = true -> act_runlike C O fs v -> actual_rec C O s fs v g = VOk g1 -> actual_rec C O s fs v g1 = VOk g1.
Proof. intros NU U. apply act_n_again; [exact NU|apply U]. Qed.

(** Reordering keeps members unlike. *)
Lemma act_unlike_n_reordered n : forall v v', reordered v v' -> act_unlike_n C O fs n v -> act_unlike_n C O fs n v'.
Proof.
  induction n as [|n IH]; intros v v' R U; [exact I|]. cbn [act_unlike_n] in *. inversion R; subst; try exact I.
  match goal with H : Permutation l _, H' : Forall2 _ _ l' |- _ => rename H into P; rename H' into Q end. destruct U as [N U]. clear R. cbn [act_sunlike]. split.
  - unfold targets in *. rewrite <- (flat_keys (fun r => match act_field_for C O (shape fs) r with Some j => [j] | None => [] end) l1 l' Q).
    eapply Permutation_NoDup; [apply Permutation_flat_map, P|exact N].
  - apply (Permutation_Forall P) in U. clear - IH U Q. induction Q as [|x y l1 l' [Ek R] Q IHq]; constructor; inversion U as [|? ? Ux Ur]; subst; [|eauto].
    rewrite <- Ek. destruct (act_field_for C O (shape fs) (snd (fst x))) as [q|]; [|exact I]. destruct (nth_error fs q) as [p|] eqn:Ep; [|exact I].
    clear - IH Ux R. destruct (snd p) as [| |kt|d]; cbn [act_kunlike] in *.
    + inversion R; subst; try exact I. match goal with E : _ = snd x |- _ => rewrite <- E in Ux; rewrite <- E in R end. match goal with E : _ = snd y |- _ => rewrite <- E in R end. eapply IH; eassumption.
    + inversion R as [| | | | |i j l i' j' l' F E1 E2|]; subst; try exact I. rewrite <- E1 in Ux. clear - F IH Ux. induction F; constructor; inversion Ux; subst; eauto.
    + inversion R as [| | | | | |i j l l1 i' j' l' P Q E1 E2]; subst; try exact I. rewrite <- E1 in Ux. destruct Ux as [N U]. split.
      * unfold act_map_keys in *. rewrite <- (flat_keys (fun r => match act_key C kt r with Some (inl key) => [key] | _ => [] end) l1 l' Q).
        eapply Permutation_NoDup; [apply Permutation_flat_map, P|exact N].
      * apply (Permutation_Forall P) in U. clear - IH U Q. induction Q as [|a b l1 l' [Ek R] Q IHq]; constructor; inversion U; subst; eauto.
    + eapply act_unlike_reordered; eassumption.
Qed.
End Alike.


Theorem C44_recursive_any_leaf_partial C O E dis T z fs stk D1 D2 s1 s2 v1 v2 a1 a2 h1 h2 g F1 F2 :
  rno_json fs = true -> rdecoder_for C E dis T z fs stk D1 -> rdecoder_for C E dis T z fs stk D2 ->
  json_text s1 v1 -> json_text s2 v2 -> reordered v1 v2 -> act_runlike C O fs v1 ->
  rctl C O fs v1 -> rctl C O fs v2 -> rno_empty_number C O fs v1 -> rno_empty_number C O fs v2 ->
  rvariable C z fs h1 a1 g F1 -> rvariable C z fs h2 a2 g F2 ->
  (exists D1' D2' h1' h2' g1 g2 F1' F2',
     Decode C O stk D1 s1 (TOk (flat 0 v1)) (Some a1) h1 = Ret (-1) None D1' h1' /\ rvariable C z fs h1' a1 g1 F1' /\
     Decode C O stk D2 s2 (TOk (flat 0 v2)) (Some a2) h2 = Ret (-1) None D2' h2' /\ rvariable C z fs h2' a2 g2 F2' /\
     same_value g1 g2) \/
  (exists D1' D2' h1' h2' i1 i2 e1 e2,
     Decode C O stk D1 s1 (TOk (flat 0 v1)) (Some a1) h1 = Ret i1 (Some e1) D1' h1' /\
     Decode C O stk D2 s2 (TOk (flat 0 v2)) (Some a2) h2 = Ret i2 (Some e2) D2' h2').
Proof.
  intros NJ Df1 Df2 J1 J2 R U C1 C2 S1 S2 V1 V2.
  pose proof (rcharacterised C O E dis T z fs stk D1 s1 v1 a1 h1 g F1 Df1 J1 C1 S1 V1) as Q1.
  pose proof (rcharacterised C O E dis T z fs stk D2 s2 v2 a2 h2 g F2 Df2 J2 C2 S2 V2) as Q2.
  destruct (actual_rec C O s1 fs v1 g) as [g1|i1 e1 g1|] eqn:E1; [| |contradiction].
  - destruct (actual_rec_reordered C O fs s1 s2 v1 v2 g g1 NJ R U E1) as (g2 & E2 & Sm). rewrite E2 in Q2.
    destruct Q1 as (D1' & h1' & F1' & Q1 & W1 & _), Q2 as (D2' & h2' & F2' & Q2 & W2 & _). left.
    exists D1', D2', h1', h2', g1, g2, F1', F2'. auto.
  - destruct (actual_rec C O s2 fs v2 g) as [g2|i2 e2 g2|] eqn:E2; [| |contradiction].
    + exfalso. assert (U2 : act_runlike C O fs v2) by (intros n; eapply act_unlike_n_reordered; [exact R|apply U]).
      destruct (actual_rec_reordered C O fs s2 s1 v2 v1 g g2 NJ (reordered_sym _ _ R) U2 E2) as (g3 & E3 & _). congruence.
    + destruct Q1 as (D1' & h1' & F1' & Q1 & _), Q2 as (D2' & h2' & F2' & Q2 & _). right.
      exists D1', D2', h1', h2'. do 4 eexists. split; [exact Q1|exact Q2].
Qed.
Theorem C45_recursive_any_leaf_partial C O E dis T z fs stk D s v a h g F D1 h1 :
  rno_user fs = true -> rdecoder_for C E dis T z fs stk D -> json_text s v -> act_runlike C O fs v ->
  rctl C O fs v -> rvariable C z fs h a g F ->
  Decode C O stk D s (TOk (flat 0 v)) (Some a) h = Ret (-1) None D1 h1 ->
  exists g1 F1 D2 h2 F2, rvariable C z fs h1 a g1 F1 /\
    Decode C O stk D1 s (TOk (flat 0 v)) (Some a) h1 = Ret (-1) None D2 h2 /\ rvariable C z fs h2 a g1 F2.
Proof.
  intros NU Df J U Ct V Q0.
  pose proof (C26_characterised_partial C O E dis T z fs stk D s v a h g F Df J Ct V) as Q.
  destruct (actual_rec C O s fs v g) as [g1|i e g1|] eqn:E1; [| |rewrite Q in Q0; discriminate]; destruct Q as (D' & h' & F' & Q & V' & _); rewrite Q in Q0; [|injection Q0; intros; discriminate].
  injection Q0 as <- <-.
  assert (Df' : rdecoder_for C E dis T z fs stk D').
  { destruct Df as [A1 A2 A3 A4 A5]. constructor; try assumption. eapply ru_ok; [exact A5|exact J|exact Ct|exact Q]. }
  pose proof (C26_characterised_partial C O E dis T z fs stk D' s v a h' g1 F' Df' J Ct V') as Q2.
  rewrite (actual_rec_again C O fs s v g g1 NU U E1) in Q2. destruct Q2 as (D2 & h2 & F2 & Q2 & V2 & _). exists g1, F', D2, h2, F2. auto.
Qed.

(** ** Every document *)
(** Recursion through pointers to the struct only, no other pointers and no struct{}, and
    unknown members disallowed. *)
Definition rany_document (O : opts) (fs : rfields) : bool :=
  o_unknown O && forallb (fun x => match snd x with RSelf => true | RSub d => no_inner_ptr d | _ => false end) fs.
Lemma rany_ctl C O fs : rany_document O fs = true -> forall v, rctl C O fs v.
Proof.
  intros H v. apply andb_true_iff in H as [Un H]. rewrite forallb_forall in H. unfold rctl.
  enough (G : forall n v, (height v <= n)%nat -> rctln C O fs n true true v) by (apply G; lia).
  clear v. induction n as [|n IH]; intros v Hn; [destruct v; cbn in Hn; lia|]. cbn [rctln]. destruct v as [i|i b|i r|i r|i r|i j l|i j l]; try exact I.
  assert (Hh : Forall (fun x => (height (snd x) <= n)%nat) l) by (apply Forall_forall; intros x Hx; pose proof (height_obj i j l x Hx); lia). clear Hn.
  induction Hh as [|x l Hx _ IHl]; [exact I|]. cbn [mctl]. destruct (pick _ _ _ _) as [q|]; [|split; [left; exact Un|exact IHl]].
  destruct (nth_error fs q) as [y|] eqn:Ey; [|exact I]. specialize (H y (nth_error_In _ _ Ey)). split; [reflexivity|].
  destruct (snd y) as [| |kt|d]; try discriminate; cbn [restores fctl].
  - split; [destruct (snd x); try exact I; apply IH, Hx|]. destruct (snd x); exact IHl.
  - split; [apply ctl_on, inner_ctl; [exact H|rewrite Un; reflexivity]|exact IHl].
Qed.
Theorem C26_every_document_partial C O E dis T z fs stk D s v a h g F :
  rdecoder_for C E dis T z fs stk D -> rany_document O fs = true -> json_text s v -> rvariable C z fs h a g F ->
  match actual_rec C O s fs v g with
  | VOk g' => exists D' h' F', Decode C O stk D s (TOk (flat 0 v)) (Some a) h = Ret (-1) None D' h' /\
      rvariable C z fs h' a g' F' /\ only h h' (Some a) z F F'
  | VErr i e g' => exists D' h' F', Decode C O stk D s (TOk (flat 0 v)) (Some a) h = Ret (Z.of_nat i) (Some e) D' h' /\
      rvariable C z fs h' a g' F' /\ only h h' (Some a) z F F'
  | VPan => Decode C O stk D s (TOk (flat 0 v)) (Some a) h = DPanics
  end.
Proof. intros Df A J V. exact (C26_characterised_partial C O E dis T z fs stk D s v a h g F Df J (rany_ctl C O fs A v) V). Qed.
Theorem C17_recursive_every_document_partial C O E dis T z fs stk D s v a h g F :
  rdecoder_for C E dis T z fs stk D -> rany_document O fs = true -> rno_quoted_numbers fs = true -> json_text s v -> rvariable C z fs h a g F ->
  exists i e D' h' g' F', Decode C O stk D s (TOk (flat 0 v)) (Some a) h = Ret i e D' h' /\ rvariable C z fs h' a g' F' /\ only h h' (Some a) z F F'.
Proof. intros Df A N J V. exact (C17_recursive_no_panic_partial C O E dis T z fs stk D s v a h g F Df J (rany_ctl C O fs A v) (rno_quoted_nonempty C O fs N v) V). Qed.
Theorem C28_recursive_every_document_partial C O E dis T z fs stk D1 D2 s v a1 a2 h1 h2 g F1 F2 :
  rdecoder_for C E dis T z fs stk D1 -> rdecoder_for C E dis T z fs stk D2 -> rany_document O fs = true -> json_text s v ->
  rvariable C z fs h1 a1 g F1 -> rvariable C z fs h2 a2 g F2 ->
  (exists i e D1' D2' h1' h2' g' F1' F2',
    Decode C O stk D1 s (TOk (flat 0 v)) (Some a1) h1 = Ret i e D1' h1' /\ rvariable C z fs h1' a1 g' F1' /\
    Decode C O stk D2 s (TOk (flat 0 v)) (Some a2) h2 = Ret i e D2' h2' /\ rvariable C z fs h2' a2 g' F2') \/
  (Decode C O stk D1 s (TOk (flat 0 v)) (Some a1) h1 = DPanics /\ Decode C O stk D2 s (TOk (flat 0 v)) (Some a2) h2 = DPanics).
Proof. intros Df1 Df2 A J. exact (C28_recursive_any_leaf_partial C O E dis T z fs stk D1 D2 s v a1 a2 h1 h2 g F1 F2 Df1 Df2 J (rany_ctl C O fs A v)). Qed.
Theorem C44_recursive_every_document_partial C O E dis T z fs stk D1 D2 s1 s2 v1 v2 a1 a2 h1 h2 g F1 F2 :
  rno_json fs = true -> rdecoder_for C E dis T z fs stk D1 -> rdecoder_for C E dis T z fs stk D2 ->
  rany_document O fs = true -> rno_quoted_numbers fs = true ->
  json_text s1 v1 -> json_text s2 v2 -> reordered v1 v2 -> act_runlike C O fs v1 ->
  rvariable C z fs h1 a1 g F1 -> rvariable C z fs h2 a2 g F2 ->
  (exists D1' D2' h1' h2' g1 g2 F1' F2',
     Decode C O stk D1 s1 (TOk (flat 0 v1)) (Some a1) h1 = Ret (-1) None D1' h1' /\ rvariable C z fs h1' a1 g1 F1' /\
     Decode C O stk D2 s2 (TOk (flat 0 v2)) (Some a2) h2 = Ret (-1) None D2' h2' /\ rvariable C z fs h2' a2 g2 F2' /\
     same_value g1 g2) \/
  (exists D1' D2' h1' h2' i1 i2 e1 e2,
     Decode C O stk D1 s1 (TOk (flat 0 v1)) (Some a1) h1 = Ret i1 (Some e1) D1' h1' /\
     Decode C O stk D2 s2 (TOk (flat 0 v2)) (Some a2) h2 = Ret i2 (Some e2) D2' h2').
Proof.
  intros NJ Df1 Df2 A N J1 J2 R U V1 V2.
  exact (C44_recursive_any_leaf_partial C O E dis T z fs stk D1 D2 s1 s2 v1 v2 a1 a2 h1 h2 g F1 F2 NJ Df1 Df2 J1 J2 R U
    (rany_ctl C O fs A v1) (rany_ctl C O fs A v2) (rno_quoted_nonempty C O fs N v1) (rno_quoted_nonempty C O fs N v2) V1 V2).
Qed.
Theorem C45_recursive_every_document_partial C O E dis T z fs stk D s v a h g F D1 h1 :
  rno_user fs = true -> rany_document O fs = true -> rdecoder_for C E dis T z fs stk D -> json_text s v -> act_runlike C O fs v -> rvariable C z fs h a g F ->
  Decode C O stk D s (TOk (flat 0 v)) (Some a) h = Ret (-1) None D1 h1 ->
  exists g1 F1 D2 h2 F2, rvariable C z fs h1 a g1 F1 /\
    Decode C O stk D1 s (TOk (flat 0 v)) (Some a) h1 = Ret (-1) None D2 h2 /\ rvariable C z fs h2 a g1 F2.
Proof. intros NU A Df J U V. exact (C45_recursive_any_leaf_partial C O E dis T z fs stk D s v a h g F D1 h1 NU Df J U (rany_ctl C O fs A v) V). Qed.

(** ** Cases *)
(** The tree type of C26_case: V is an int8 that wraps, the strings have surrogate pairs;
    a document that is not [rsound].  DisallowUnknownFields, where all documents are covered. *)
Definition rodd_text : bytes := bs "{""R"":{""left"":{""V"":300},""T"":[""\ud83d\ude00""],""V"":-300},""V"":1}".
Definition rodd_text' : bytes := bs "{ ""V"":1, ""R"":{""V"":-300,""T"":[""\ud83d\ude00""],""left"":{""V"":300}}}".
Definition rodd_doc : jv := Eval vm_compute in tree_of rodd_text.
Definition rodd_doc' : jv := Eval vm_compute in tree_of rodd_text'.
Lemma rodd_hyps : json_text rodd_text rodd_doc /\ json_text rodd_text' rodd_doc' /\ rany_document strict node_fs = true /\ rno_quoted_numbers node_fs = true /\
  rno_json node_fs = true /\ rno_user node_fs = true.
Proof. split; [apply parse_sound; vm_compute; reflexivity|]. split; [apply parse_sound; vm_compute; reflexivity|]. repeat split. Qed.
Example C26_characterised_case :
  exists D' h' F', Decode wC strict node_stk (dyn0 node_stk) rodd_text (TOk (flat 0 rodd_doc)) dest (world 48) = Ret (-1) None D' h' /\
    rvariable wC 48 node_fs h' (1%nat, 0)
      (node 1 None [] (Some (node (-300 + 256) (Some (node (300 - 256) None [] None)) [[239; 191; 189; 239; 191; 189]] None))) F'.
Proof.
  destruct rodd_hyps as (J & _ & A & _).
  pose proof (C26_every_document_partial wC strict E_node false (TNamed 0) 48 node_fs node_stk (dyn0 node_stk) rodd_text rodd_doc (1%nat, 0) _ _ [] node_decoder A J ro_new) as Q.
  match type of Q with match ?X with _ => _ end =>
    let y := eval vm_compute in X in replace X with y in Q by (vm_compute; reflexivity) end.
  destruct Q as (D' & h' & F' & Q & W & _). exists D', h', F'. split; [exact Q|exact W].
Qed.
Example rodd_unsound : rsoundb wC strict node_fs (height rodd_doc) rodd_doc = false /\ ideal_rec wC strict rodd_text node_fs rodd_doc (VStruct (rzeros node_fs)) <> actual_rec wC strict rodd_text node_fs rodd_doc (VStruct (rzeros node_fs)).
Proof. split; [vm_compute; reflexivity|]. vm_compute. discriminate. Qed.
Lemma rodd_reordered : reordered rodd_doc rodd_doc'.
Proof.
  unfold rodd_doc, rodd_doc'.
  repeat match goal with
  | |- reordered (JObj _ _ _) _ => eapply ro_obj; [apply Permutation_rev|cbn [rev app]]
  | |- reordered _ _ => constructor
  | |- Forall2 _ _ _ => constructor
  | |- _ /\ _ => split; [reflexivity|cbn [snd]]
  end.
Qed.
Lemma rodd_unlike : act_runlike wC strict node_fs rodd_doc.
Proof.
  intros n. unfold rodd_doc.
  repeat match goal with
  | |- act_unlike_n _ _ _ ?n _ => is_var n; destruct n as [|n]; [exact I|cbn [act_unlike_n act_sunlike]]
  | |- _ /\ _ => split
  | |- NoDup (targets ?f ?l) => let x := eval vm_compute in (targets f l) in change (targets f l) with x; nodup
  | |- Forall _ _ => constructor
  | |- True => exact I
  | |- (fun _ => _) _ => cbn beta; cbn [snd fst]
  | |- match act_field_for ?c ?o ?fs ?k with Some _ => _ | None => _ end =>
      let x := eval vm_compute in (act_field_for c o fs k) in change (act_field_for c o fs k) with x; cbn [nth_error node_fs snd fst act_kunlike act_unlike]
  | |- match _ with _ => _ end => progress cbn [snd fst]
  end.
Qed.
Example C44_recursive_any_leaf_case : exists D1 D2 h1 h2 g1 g2 F1 F2,
  Decode wC strict node_stk (dyn0 node_stk) rodd_text (TOk (flat 0 rodd_doc)) dest (world 48) = Ret (-1) None D1 h1 /\ rvariable wC 48 node_fs h1 (1%nat, 0) g1 F1 /\
  Decode wC strict node_stk (dyn0 node_stk) rodd_text' (TOk (flat 0 rodd_doc')) dest (world 48) = Ret (-1) None D2 h2 /\ rvariable wC 48 node_fs h2 (1%nat, 0) g2 F2 /\ same_value g1 g2.
Proof.
  destruct rodd_hyps as (J1 & J2 & A & N & NJ & NU).
  destruct (C44_recursive_every_document_partial wC strict E_node false (TNamed 0) 48 node_fs node_stk (dyn0 node_stk) (dyn0 node_stk) rodd_text rodd_text' rodd_doc rodd_doc' (1%nat, 0) (1%nat, 0) (world 48) (world 48)
    (VStruct (rzeros node_fs)) [] [] NJ node_decoder node_decoder A N J1 J2 rodd_reordered rodd_unlike ro_new ro_new) as [H|H]; [exact H|].
  exfalso. destruct H as (D1' & D2' & h1' & h2' & i1 & i2 & e1 & e2 & H & _).
  destruct C26_characterised_case as (D' & h' & F' & Q & _). change (Some ((1%nat, 0) : addr)) with dest in H. pose proof (eq_trans (eq_sym H) Q) as X. discriminate X.
Qed.
Example C45_recursive_any_leaf_case : exists D1 h1 g1 F1 D2 h2 F2,
  Decode wC strict node_stk (dyn0 node_stk) rodd_text (TOk (flat 0 rodd_doc)) dest (world 48) = Ret (-1) None D1 h1 /\ rvariable wC 48 node_fs h1 (1%nat, 0) g1 F1 /\
  Decode wC strict node_stk D1 rodd_text (TOk (flat 0 rodd_doc)) dest h1 = Ret (-1) None D2 h2 /\ rvariable wC 48 node_fs h2 (1%nat, 0) g1 F2.
Proof.
  destruct rodd_hyps as (J1 & J2 & A & N & NJ & NU). destruct C26_characterised_case as (D1 & h1 & F' & Q & _).
  destruct (C45_recursive_every_document_partial wC strict E_node false (TNamed 0) 48 node_fs node_stk (dyn0 node_stk) rodd_text rodd_doc (1%nat, 0) (world 48) (VStruct (rzeros node_fs)) [] D1 h1
    NU A node_decoder J1 rodd_unlike ro_new Q) as (g1 & F1 & D2 & h2 & F2 & V1 & Q2 & V2).
  exists D1, h1, g1, F1, D2, h2, F2. auto.
Qed.

(** ** C27: a new variable, recursion through lists and maps *)
Theorem C27_builds_tree_any_leaf_partial C O E dis T z fs stk D s v a h :
  rdecoder_for C E dis T z fs stk D -> json_text s v -> rctl C O fs v -> rno_empty_number C O fs v ->
  (forall x, 0 <= x < z -> cellat h (Some a) x = Some CZero) -> own h (Some a) [] ->
  exists i e D' h' F' g', Decode C O stk D s (TOk (flat 0 v)) (Some a) h = Ret i e D' h' /\ rvariable C z fs h' a g' F' /\
    match actual_rec C O s fs v (VStruct (rzeros fs)) with
    | VOk g => i = -1 /\ e = None /\ g' = g
    | VErr i1 e1 g => i = Z.of_nat i1 /\ e = Some e1 /\ g' = g
    | VPan => False
    end.
Proof.
  intros Df J Ct S Z0 Ow.
  assert (V : rvariable C z fs h a (VStruct (rzeros fs)) []).
  { split; [|exact Ow]. apply rrep_zero with (z := z); [exact (rdf_layout _ _ _ _ _ _ _ _ Df)|exact Z0]. }
  pose proof (rcharacterised _ O _ _ _ _ _ _ _ _ _ _ _ _ _ Df J Ct S V) as Q.
  destruct (actual_rec C O s fs v (VStruct (rzeros fs))) as [g|i e g|]; [| |destruct Q]; destruct Q as (D' & h' & F' & Q & W & _).
  - exists (-1), None, D', h', F', g. split; [exact Q|]. split; [exact W|]. repeat split.
  - exists (Z.of_nat i), (Some e), D', h', F', g. split; [exact Q|]. split; [exact W|]. repeat split.
Qed.
(** Case: the type of C27_case; a key with a surrogate pair, and an int16 that wraps. *)
Definition dodd_text : bytes := bs "{""Sub"":[{""N"":70000},{""Name"":""\ud83d\ude00""}],""Idx"":{""\ud83d\ude00"":{""N"":-1}}}".
Definition dodd_doc : jv := Eval vm_compute in tree_of dodd_text.
Example C27_any_leaf_case :
  exists D' h' F', Decode wC default_opts dir_stk (dyn0 dir_stk) dodd_text (TOk (flat 0 dodd_doc)) dest (world 64) = Ret (-1) None D' h' /\
    rvariable wC 64 dir_fs h' (1%nat, 0)
      (dir [] [dir [] [] [] None (70000 - 65536); dir [239; 191; 189; 239; 191; 189] [] [] None 0] [(GStr [239; 191; 189; 239; 191; 189], dir [] [] [] None (-1))] None 0) F'.
Proof.
  assert (J : json_text dodd_text dodd_doc) by (apply parse_sound; vm_compute; reflexivity).
  assert (Ct : rctl wC default_opts dir_fs dodd_doc) by (apply rctlb_spec; vm_compute; reflexivity).
  assert (Ne : rno_empty_number wC default_opts dir_fs dodd_doc) by (apply rno_quoted_nonempty; reflexivity).
  destruct (C27_builds_tree_any_leaf_partial wC default_opts E_dir false (TNamed 0) 64 dir_fs dir_stk (dyn0 dir_stk) dodd_text dodd_doc (1%nat, 0) (world 64) dir_decoder J Ct Ne)
    as (i & e & D' & h' & F' & g' & Q & W & X).
  - intros x Hx. cbn. destruct (Z.leb_spec 0 x), (Z.ltb_spec x 64); try lia. reflexivity.
  - split; [cbn; lia|]. split; [constructor|]. split; [intros b []|]. intros b [= <-]. cbn. lia.
  - match type of X with match ?Y with _ => _ end => let y := eval vm_compute in Y in replace Y with y in X by (vm_compute; reflexivity) end.
    destruct X as (-> & -> & ->). exists D', h', F'. split; [exact Q|exact W].
Qed.

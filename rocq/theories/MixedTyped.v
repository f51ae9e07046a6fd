(** Decoding along a type with recursive structs yields values of that type: the exact
    description of the code does not panic where its leaves do not. *)
From Verif Require Import Base NumSpec StrSpec Types Token FloatLit Heap Machine Dt Dec Root Value Dval Refine Spec Typed SpecProofs Actual Rec RecSpec RecRefine RecActual Mixed MixedSpec MixedRefine PropsStrict PropsAnyLeaf PropsRecAny.
Open Scope Z_scope.

Section Walk.
Variables (C : cfg) (O : opts) (s : bytes).
Variables (sub : dt -> vdec) (rc : rfields -> vdec)
  (entries : dkey -> vdec -> bool -> gval -> list ((nat * bytes) * jv) -> list (gkey * gval) -> vres (list (gkey * gval)))
  (sel : list ((bytes * Z) * dt) -> bytes -> option nat)
  (Psub : dt -> jv -> Prop) (Prec : rfields -> jv -> Prop) (Pkey : dkey -> bytes -> Prop) (Pname : bytes -> Prop).
Hypothesis (Hsub : forall d v g, lexed s v -> Psub d v -> typed d g -> vgood (typed d) (sub d v g))
  (Hrec : forall fs v g, lexed s v -> Prec fs v -> (forall n, rtyped fs n g) -> vgood (fun g => forall n, rtyped fs n g) (rc fs v g))
  (Hent : forall (P : gval -> Prop) k f b g0 l m, P g0 ->
     Forall (fun x : (nat * bytes) * jv => Pkey k (snd (fst x)) /\ forall g, P g -> vgood P (f (snd x) g)) l ->
     Forall (fun x => P (snd x)) m -> vgood (fun m => Forall (fun x => P (snd x)) m) (entries k f b g0 l m))
  (Hsel : forall fs key j, sel fs key = Some j -> (j < length fs)%nat).
Notation walk := (walk O sub rc entries sel).
Notation leafy := (leafy sel Psub Prec Pkey Pname).
Theorem walk_typed t : forall v g, lexed s v -> leafy t v -> wtyped t g -> vgood (wtyped t) (walk t v g).
Proof.
  induction t as [d|z fs|t IH|k t IH|t IH|z fs IH] using wt_ind'; intros v g L S T; cbn [MixedSpec.walk MixedSpec.leafy] in *.
  - apply Hsub; assumption.
  - apply Hrec; assumption.
  - destruct v as [i|i b|i r|i r|i r|i j l|i j l]; try exact T; [exact I|]. apply lexed_arr in L as (_ & _ & _ & L).
    apply slicev_of; [apply wtyped_zero|exact T|]. rewrite Forall_forall in *. intros w Hw g' Tg'. apply IH; [apply L, Hw|apply S, Hw|exact Tg'].
  - destruct v as [i|i b|i r|i r|i r|i j l|i j l]; try exact T; [exact I|]. apply lexed_obj in L as (_ & _ & _ & L).
    eapply vgood_map with (Q := fun m => Forall (fun x => wtyped t (snd x)) m); [|intros m Hm; exact Hm].
    apply Hent; [apply wtyped_zero| |].
    + rewrite Forall_forall in *. intros x Hx. destruct (S x Hx) as [S0 S1]. split; [exact S0|]. intros g' Tg'. apply IH; [apply (L x Hx)|exact S1|exact Tg'].
    + cbn [wtyped] in T. destruct g as [| | | | | | | | |[m|]| |]; try contradiction; [exact T|constructor].
  - destruct v; try exact I; (eapply vgood_map; [apply IH; [exact L|exact S|apply wtyped_zero]|intros a Ha; exact Ha]).
  - destruct v as [i|i b|i r|i r|i r|i j l|i j l]; try exact T. destruct T as (gs & -> & T).
    apply lexed_obj in L as (_ & _ & _ & L). rewrite Forall_forall in IH.
    eapply vgood_map; [|intros m Hm; exists m; split; [reflexivity|exact Hm]].
    revert gs T. induction l as [|[[ki key] w] l IHl]; intros gs T; [exact T|]. cbn [ideal_members].
    apply Forall_cons_iff in L as [[_ L1] L2]. apply Forall_cons_iff in S as [[_ S1] S2]. cbn [fst snd] in *.
    destruct (sel (wshape fs) key) as [jf|] eqn:Pk; [|destruct (o_unknown O); [exact T|apply IHl; assumption]].
    assert (Hj : (jf < length fs)%nat).
    { apply Hsel in Pk. unfold wshape in Pk. rewrite map_length in Pk. exact Pk. }
    destruct (nth_error fs jf) as [y|] eqn:Ey; [|apply nth_error_None in Ey; lia]. rewrite nth_error_map, Ey in *. cbn [option_map] in *.
    assert (Ey' : nth_error (map (fun x => wtyped (snd x)) fs) jf = Some (wtyped (snd y))) by (rewrite nth_error_map, Ey; reflexivity).
    destruct (forall2_nth _ _ _ _ _ T Ey') as (g & Eg & Tg). rewrite Eg.
    pose proof (IH y (nth_error_In _ _ Ey) w g L1 S1 Tg) as Q.
    destruct (walk (snd y) w g) as [g'|i' e g'|]; cbn in Q; [| |contradiction].
    + apply IHl; [assumption|assumption|]. eapply forall2_set; eassumption.
    + cbn. eapply forall2_set; eassumption.
Qed.
End Walk.

Section Actual.
Variables (C : cfg) (O : opts) (s : bytes).
(** At no place the empty string for a Number, a quoted number or an integer map key. *)
Definition wno_empty_number : wt -> jv -> Prop :=
  leafy (act_field_for C O) (no_empty_number C O) (rno_empty_number C O) nonempty_key (fun _ => True).
Theorem wactual_typed t v g : lexed s v -> wno_empty_number t v -> wtyped t g -> vgood (wtyped t) (wactual C O s t v g).
Proof.
  apply walk_typed.
  - intros d w g' L S T. pose proof (dval_typed C O s d w g' L S T) as N. rewrite (dval_actual C O s d w g' L) in N. exact N.
  - intros fs w g' L S T.
    assert (Q : forall n, (height w <= n)%nat -> vgood (rtyped fs n) (actual_rec C O s fs w g')).
    { intros n Hn. unfold actual_rec. rewrite (act_n_enough C O s fs (height w) n w g' (Nat.le_refl _) Hn). apply act_n_typed; [exact L|apply S|exact Hn|apply T]. }
    pose proof (Q _ (Nat.le_refl _)) as Q0. destruct (actual_rec C O s fs w g') as [g''|i e g''|]; [| |exact Q0].
    + intros n. apply (rtyped_mono fs n (Nat.max n (height w))); [lia|]. apply (Q (Nat.max n (height w))). lia.
    + intros n. apply (rtyped_mono fs n (Nat.max n (height w))); [lia|]. apply (Q (Nat.max n (height w))). lia.
  - intros P k f b g0 l. induction l as [|[[ki key] w] l IHl]; intros m T0 Hl Hm; [exact Hm|]. cbn [act_entries].
    apply Forall_cons_iff in Hl as [[S0 S1] S2]. cbn [snd fst] in *.
    pose proof (act_key_some C k key S0) as Nk. destruct (act_key C k key) as [[ky|]|]; [|exact Hm|congruence].
    match goal with |- context [f w ?o] => assert (To : P o) end.
    { destruct (getk m ky) as [g1|] eqn:Eg; [|exact T0]. destruct b; [exact T0|].
      clear - Eg Hm. induction Hm as [|[k0 g2] m H _ IHm]; cbn in Eg; [discriminate|]. destruct (gkey_eqb k0 ky); [injection Eg as <-; exact H|apply IHm, Eg]. }
    pose proof (S1 _ To) as Q. destruct (f w _) as [g'|i' e g'|]; cbn in Q; [| |contradiction].
    + apply IHl; [exact T0|exact S2|]. apply putk_of; assumption.
    + cbn. apply putk_of; assumption.
  - intros fs key j Pk. unfold act_field_for in Pk. apply pick_lt in Pk. rewrite !map_length in Pk. exact Pk.
Qed.
(** The types without such numbers. *)
Fixpoint wno_quoted_numbers (t : wt) : bool :=
  match t with
  | WSub d => no_quoted_numbers d
  | WRec _ fs => rno_quoted_numbers fs
  | WSlice t | WPtr t => wno_quoted_numbers t
  | WMap k t => match k with KeyInt _ => false | _ => true end && wno_quoted_numbers t
  | WStruct _ fs => forallb (fun x => wno_quoted_numbers (snd x)) fs
  end.
Lemma wno_quoted_nonempty t : wno_quoted_numbers t = true -> forall v, wno_empty_number t v.
Proof.
  unfold wno_empty_number. induction t as [d|z fs|t IH|k t IH|t IH|z fs IH] using wt_ind'; intros N v; cbn [wno_quoted_numbers MixedSpec.leafy] in *.
  - apply no_quoted_nonempty, N.
  - apply rno_quoted_nonempty, N.
  - destruct v; try exact I. apply Forall_forall. intros w _. apply IH, N.
  - apply andb_prop in N as [N1 N2]. destruct v; try exact I. apply Forall_forall. intros w _. split; [destruct k; try exact I; discriminate N1|apply IH, N2].
  - destruct v; try exact I; apply IH, N.
  - destruct v; try exact I. apply Forall_forall. intros w _. split; [exact I|]. destruct (act_field_for C O _ _) as [q|]; [|exact I]. rewrite nth_error_map.
    destruct (nth_error fs q) as [y|] eqn:Ey; [|exact I]. cbn [option_map]. rewrite Forall_forall in IH. rewrite forallb_forall in N.
    apply IH; [exact (nth_error_In _ _ Ey)|apply N, (nth_error_In _ _ Ey)].
Qed.
End Actual.

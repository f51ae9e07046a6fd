(** Whether a document is accepted, for recursive structs and the types around them:
    [check] (Accept.v) along the type.  Specification part: the definitions. *)
From Verif Require Import Base NumSpec StrSpec Types Token FloatLit Heap Machine Dt Dec Root Value Dval Refine Spec Typed SpecProofs Actual Rec RecSpec RecRefine RecActual Mixed MixedSpec MixedRefine Accept.
Open Scope Z_scope.

Section Check.
Variables (C : cfg) (O : opts) (s : bytes).
Definition check_members (sel : bytes -> option nat) (fs : list (jv -> verdict)) (l : list ((nat * bytes) * jv)) : verdict :=
  first_bad (map (fun x =>
    match sel (snd (fst x)) with
    | None => if o_unknown O then Refused (fst (fst x)) EUnknownField else Accepted
    | Some j => match nth_error fs j with Some f => f (snd x) | None => Accepted end
    end) l).
Definition check_entries (k : dkey) (f : jv -> verdict) (l : list ((nat * bytes) * jv)) : verdict :=
  first_bad (map (fun x => first_bad [key_verdict C k (fst (fst x)) (snd (fst x)); f (snd x)]) l).

(** ** A recursive struct S with fields [fs]; [f]: for S. *)
Definition check_field (f : jv -> verdict) (k : rk) (v : jv) : verdict :=
  match k, v with
  | RSub d, _ => check C O s d v
  | _, JNull _ => Accepted
  | RSelf, JObj _ _ _ => f v
  | RSlice, JArr _ _ l => first_bad (map f l)
  | RMap kt, JObj _ _ l => check_entries kt f l
  | _, _ => Refused (jidx v) EUnexpected
  end.
Definition check_struct (fs : rfields) (f : jv -> verdict) (v : jv) : verdict :=
  match v with
  | JNull _ => Accepted
  | JObj _ _ l => check_members (act_field_for C O (shape fs)) (map (fun x => check_field f (snd x)) fs) l
  | _ => Refused (jidx v) EUnexpected
  end.
Fixpoint check_n (fs : rfields) (n : nat) : jv -> verdict := match n with 0%nat => fun _ => Panics | S n => check_struct fs (check_n fs n) end.
Definition check_rec (fs : rfields) (v : jv) : verdict := check_n fs (height v) v.

(** ** Types around recursive structs *)
Fixpoint wcheck (t : wt) (v : jv) {struct t} : verdict :=
  match t with
  | WSub d => check C O s d v
  | WRec _ fs => check_rec fs v
  | WSlice t => match v with JNull _ => Accepted | JArr _ _ l => first_bad (map (wcheck t) l) | _ => Refused (jidx v) EUnexpected end
  | WMap k t => match v with JNull _ => Accepted | JObj _ _ l => check_entries k (wcheck t) l | _ => Refused (jidx v) EUnexpected end
  | WPtr t => match v with JNull _ => Accepted | _ => wcheck t v end
  | WStruct _ fs =>
      match v with
      | JNull _ => Accepted
      | JObj _ _ l => check_members (act_field_for C O (wshape fs)) (map (fun x => wcheck (snd x)) fs) l
      | _ => Refused (jidx v) EUnexpected
      end
  end.

(** ** Proofs *)
Hypothesis St : steady C.
Lemma entries_ends (Q : gval -> Prop) k f b z c l : Q z -> Forall (fun x : (nat * bytes) * jv => forall g, Q g -> ends_as Q (f (snd x) g) (c (snd x))) l ->
  forall m, Forall (fun x => Q (snd x)) m -> ends_as (fun m => Forall (fun x => Q (snd x)) m) (act_entries C k f b z l m) (check_entries k c l).
Proof.
  intros Hz. induction 1 as [|[[ik rk] x] l Hx Hl IHl]; intros m Tm; [exact Tm|]. unfold check_entries. cbn [act_entries map fst snd] in *.
  unfold key_verdict at 1. destruct (act_key C k rk) as [[key|e]|]; [|cbn; auto|cbn; auto].
  assert (To : Q (match getk m key with Some g => if b then z else g | None => z end)).
  { pose proof (getk_of Q m key Tm) as G. destruct (getk m key); [destruct b|]; assumption. }
  pose proof (Hx _ To) as E. destruct (f x _) as [g'|i' e g'|], (c x) as [|i2 e2|]; cbn in E; try contradiction; cbn [first_bad]; try exact E.
  apply IHl. apply putk_of; assumption.
Qed.
Lemma field_ends (T : gval -> Prop) (fs : rfields) (fd : vdec) c n k v g : T (VStruct (rzeros fs)) ->
  (forall w g, (height w <= n)%nat -> T g -> ends_as T (fd w g) (c w)) ->
  (height v <= n)%nat -> tfield T k g -> ends_as (tfield T k) (act_field C O s fs fd k v g) (check_field c k v).
Proof.
  intros Tz Hf Hn Tg. destruct k as [| |kt|d]; cbn [act_field check_field] in *.
  - destruct v as [i|i b|i r|i r|i r|i j l|i j l]; try (split; reflexivity).
    eapply ends_map; [apply Hf; [exact Hn|]|intros a Ha; exact Ha]. destruct g as [| | | | | | | | | | |[g|]]; exact Tz || exact Tg.
  - destruct v as [i|i b|i r|i r|i r|i j l|i j l]; try (split; reflexivity).
    apply slicev_ends; [exact Tz|exact Tg|]. apply Forall_forall. intros w Hw g' Tg'. apply Hf; [|exact Tg']. pose proof (height_arr i j l w Hw). lia.
  - destruct v as [i|i b|i r|i r|i r|i j l|i j l]; try (split; reflexivity).
    eapply ends_map with (Q := fun m => Forall (fun x => T (snd x)) m); [|intros m Hm; exact Hm]. apply entries_ends; [exact Tz| |].
    + apply Forall_forall. intros x Hx g' Tg'. apply Hf; [|exact Tg']. pose proof (height_obj i j l x Hx). lia.
    + cbn [tfield] in Tg. destruct g as [| | | | | | | | |[m|]| |]; try contradiction; [exact Tg|constructor].
  - exact (actual_ends C O s St d v g Tg).
Qed.
Lemma n_ends fs n : forall v g, (height v <= n)%nat -> rtyped fs n g -> ends_as (rtyped fs n) (act_n C O s fs n v g) (check_n fs n v).
Proof.
  induction n as [|n IH]; intros v g Hn T; [destruct v; cbn in Hn; lia|]. cbn [act_n check_n]. unfold act_struct, check_struct.
  destruct v as [i|i b|i r|i r|i r|i j l|i j l]; try (split; reflexivity); [exact T|]. destruct T as (gs & -> & T).
  assert (Hh : Forall (fun x => (height (snd x) <= n)%nat) l) by (apply Forall_forall; intros x Hx; pose proof (height_obj i j l x Hx); lia). clear Hn.
  eapply ends_map with (Q := tfields (rtyped fs n) fs); [|intros m Hm; exists m; auto].
  revert gs T. unfold act_fields, check_members. induction l as [|[[ki key] w] l IHl]; intros gs T; [exact T|]. cbn [ideal_members map fst snd].
  apply Forall_cons_iff in Hh as [H1 H2]. cbn [fst snd] in *.
  destruct (act_field_for C O (shape fs) key) as [jf|] eqn:Pk; [|destruct (o_unknown O); [cbn; auto|apply IHl; assumption]].
  assert (Hj : (jf < length fs)%nat).
  { unfold act_field_for in Pk. apply pick_lt in Pk. unfold shape in Pk. rewrite !map_length in Pk. exact Pk. }
  destruct (nth_error fs jf) as [y|] eqn:Ey; [|apply nth_error_None in Ey; lia]. rewrite !nth_error_map, Ey. cbn [option_map].
  destruct (tfields_nth _ _ _ _ _ T Ey) as (g & Eg & Tg). rewrite Eg.
  pose proof (field_ends (rtyped fs n) fs (act_n C O s fs n) (check_n fs n) n (snd y) w g (rtyped_zero fs n) IH H1 Tg) as Q.
  destruct (act_field C O s fs (act_n C O s fs n) (snd y) w g) as [g'|i' e g'|], (check_field (check_n fs n) (snd y) w) as [|i2 e2|]; cbn in Q; try contradiction; cbn [first_bad]; try exact Q.
  apply IHl; [assumption|]. eapply tfields_set; eassumption.
Qed.
(** The depth does not matter. *)
Lemma first_bad_ext {A} (f f' : A -> verdict) l : (forall x, In x l -> f x = f' x) -> first_bad (map f l) = first_bad (map f' l).
Proof. intros H. rewrite (map_ext_in f f' l H). reflexivity. Qed.
Lemma check_n_enough fs n : forall m v, (height v <= n)%nat -> (height v <= m)%nat -> check_n fs n v = check_n fs m v.
Proof.
  induction n as [|n IH]; intros m v Hn Hm; [destruct v; cbn in Hn; lia|]. destruct m as [|m]; [destruct v; cbn in Hm; lia|].
  cbn [check_n]. unfold check_struct. destruct v as [i|i b|i r|i r|i r|i j l|i j l]; try reflexivity. unfold check_members. apply first_bad_ext. intros x Hx. pose proof (height_obj i j l x Hx).
  destruct (act_field_for C O (shape fs) (snd (fst x))) as [q|]; [|reflexivity]. rewrite !nth_error_map. destruct (nth_error fs q) as [y|]; [|reflexivity]. cbn [option_map].
  assert (I1 : forall w, (height w <= height (snd x))%nat -> check_n fs n w = check_n fs m w) by (intros w Hw; apply IH; lia).
  destruct (snd y) as [| |kt|d]; destruct (snd x) as [i'|i' b'|i' r'|i' r'|i' r'|i' j' l'|i' j' l']; cbn [check_field]; try reflexivity.
  - apply I1. lia.
  - apply first_bad_ext. intros w Hw. apply I1. pose proof (height_arr i' j' l' w Hw). lia.
  - apply first_bad_ext. intros w Hw. rewrite I1; [reflexivity|]. pose proof (height_obj i' j' l' w Hw). lia.
Qed.
Theorem actual_rec_ends fs v g : (forall n, rtyped fs n g) -> ends_as (fun g => forall n, rtyped fs n g) (actual_rec C O s fs v g) (check_rec fs v).
Proof.
  intros T.
  assert (Q : forall n, (height v <= n)%nat -> ends_as (rtyped fs n) (actual_rec C O s fs v g) (check_rec fs v)).
  { intros n Hn. unfold actual_rec, check_rec. rewrite (act_n_enough C O s fs (height v) n v g (Nat.le_refl _) Hn), (check_n_enough fs (height v) n v (Nat.le_refl _) Hn). apply n_ends; [exact Hn|apply T]. }
  pose proof (Q _ (Nat.le_refl _)) as Q0. destruct (actual_rec C O s fs v g) as [g'|i e g'|], (check_rec fs v) as [|i2 e2|]; try exact Q0.
  intros n. apply (rtyped_mono fs n (Nat.max n (height v))); [lia|]. apply (Q (Nat.max n (height v))). lia.
Qed.
Theorem wactual_ends t : forall v g, wtyped t g -> ends_as (wtyped t) (wactual C O s t v g) (wcheck t v).
Proof.
  unfold wactual. induction t as [d|z fs|t IH|k t IH|t IH|z fs IH] using wt_ind'; intros v g T; cbn [walk wcheck].
  - exact (actual_ends C O s St d v g T).
  - apply actual_rec_ends, T.
  - destruct v as [i|i b|i r|i r|i r|i j l|i j l]; try (split; reflexivity).
    apply slicev_ends; [apply wtyped_zero|exact T|]. apply Forall_forall. intros w Hw g' Tg'. apply IH, Tg'.
  - destruct v as [i|i b|i r|i r|i r|i j l|i j l]; try (split; reflexivity).
    eapply ends_map with (Q := fun m => Forall (fun x => wtyped t (snd x)) m); [|intros m Hm; exact Hm]. apply entries_ends; [apply wtyped_zero| |].
    + apply Forall_forall. intros x Hx g' Tg'. apply IH, Tg'.
    + cbn [wtyped] in T. destruct g as [| | | | | | | | |[m|]| |]; try contradiction; [exact T|constructor].
  - destruct v; try exact I; (eapply ends_map; [apply IH, wtyped_zero|intros a Ha; exact Ha]).
  - destruct v as [i|i b|i r|i r|i r|i j l|i j l]; try (split; reflexivity); [exact T|]. destruct T as (gs & -> & T). rewrite Forall_forall in IH.
    eapply ends_map; [|intros m Hm; exists m; split; [reflexivity|exact Hm]].
    revert gs T. unfold check_members. induction l as [|[[ki key] w] l IHl]; intros gs T; [exact T|]. cbn [ideal_members map fst snd].
    destruct (act_field_for C O (wshape fs) key) as [jf|] eqn:Pk; [|destruct (o_unknown O); [cbn; auto|apply IHl; assumption]].
    assert (Hj : (jf < length fs)%nat).
    { unfold act_field_for in Pk. apply pick_lt in Pk. unfold wshape in Pk. rewrite !map_length in Pk. exact Pk. }
    destruct (nth_error fs jf) as [y|] eqn:Ey; [|apply nth_error_None in Ey; lia]. rewrite !nth_error_map, Ey. cbn [option_map].
    assert (Ey' : nth_error (map (fun x => wtyped (snd x)) fs) jf = Some (wtyped (snd y))) by (rewrite nth_error_map, Ey; reflexivity).
    destruct (forall2_nth _ _ _ _ _ T Ey') as (g & Eg & Tg). rewrite Eg.
    pose proof (IH y (nth_error_In _ _ Ey) w g Tg) as Q.
    destruct (walk _ _ _ _ _ (snd y) w g) as [g'|i' e g'|], (wcheck (snd y) w) as [|i2 e2|]; cbn in Q; try contradiction; cbn [first_bad]; try exact Q.
    apply IHl. eapply forall2_set; eassumption.
Qed.
End Check.

(** ** Which documents fit: [conforms] (Accept.v) along the type *)
Section Conforms.
Variables (C : cfg) (O : opts) (s : bytes).
Definition fits_members (sel : bytes -> option nat) (fs : list (jv -> Prop)) (l : list ((nat * bytes) * jv)) : Prop :=
  Forall (fun x =>
    match sel (snd (fst x)) with
    | None => o_unknown O = false
    | Some j => match nth_error fs j with Some P => P (snd x) | None => False end
    end) l.
Definition fits_entries (k : dkey) (P : jv -> Prop) (l : list ((nat * bytes) * jv)) : Prop :=
  Forall (fun x => key_fits C k (snd (fst x)) /\ P (snd x)) l.
Definition fits_field (P : jv -> Prop) (k : rk) (v : jv) : Prop :=
  match k, v with
  | RSub d, _ => conforms C O s d v
  | _, JNull _ => True
  | RSelf, JObj _ _ _ => P v
  | RSlice, JArr _ _ l => Forall P l
  | RMap kt, JObj _ _ l => fits_entries kt P l
  | _, _ => False
  end.
Definition fits_struct (fs : rfields) (P : jv -> Prop) (v : jv) : Prop :=
  match v with
  | JNull _ => True
  | JObj _ _ l => fits_members (rfield_for C O fs) (map (fun x => fits_field P (snd x)) fs) l
  | _ => False
  end.
Fixpoint fits_n (fs : rfields) (n : nat) : jv -> Prop := match n with 0%nat => fun _ => False | S n => fits_struct fs (fits_n fs n) end.
Definition conforms_rec (fs : rfields) (v : jv) : Prop := fits_n fs (height v) v.
Fixpoint wconforms (t : wt) (v : jv) {struct t} : Prop :=
  match t with
  | WSub d => conforms C O s d v
  | WRec _ fs => conforms_rec fs v
  | WSlice t => match v with JNull _ => True | JArr _ _ l => Forall (wconforms t) l | _ => False end
  | WMap k t => match v with JNull _ => True | JObj _ _ l => fits_entries k (wconforms t) l | _ => False end
  | WPtr t => match v with JNull _ => True | _ => wconforms t v end
  | WStruct _ fs =>
      match v with
      | JNull _ => True
      | JObj _ _ l => fits_members (field_for C O (wshape fs)) (map (fun x => wconforms (snd x)) fs) l
      | _ => False
      end
  end.

Hypothesis St : steady C.
Lemma entries_answers (Q : gval -> Prop) k f b z P l : Q z -> Forall (fun x : (nat * bytes) * jv => forall g, Q g -> answers Q (f (snd x) g) (P (snd x))) l ->
  forall m, Forall (fun x => Q (snd x)) m -> answers (fun m => Forall (fun x => Q (snd x)) m) (ideal_entries C k f b z l m) (fits_entries k P l).
Proof.
  intros Hz. unfold fits_entries. induction 1 as [|[[ik rk] x] l Hx Hl IHl]; intros m Tm; [cbn; auto|]. cbn [ideal_entries fst snd] in *.
  pose proof (key_answers C k rk) as Ka. destruct (ideal_key C k rk) as [key|e]; [|cbn; intros F; inversion F; tauto].
  assert (To : Q (match getk m key with Some g => if b then z else g | None => z end)).
  { pose proof (getk_of Q m key Tm) as G. destruct (getk m key); [destruct b|]; assumption. }
  pose proof (Hx _ To) as E. destruct (f x _) as [g'|i' e g'|]; cbn [answers] in E; [|cbn; intros F; inversion F; tauto|contradiction].
  eapply answers_iff; [apply IHl, putk_of; tauto|]. split; intros F; [constructor; tauto|inversion F; assumption].
Qed.
Lemma field_answers (T : gval -> Prop) (fs : rfields) (fd : vdec) P n k v g : T (VStruct (rzeros fs)) ->
  (forall w g, (height w <= n)%nat -> T g -> answers T (fd w g) (P w)) ->
  (height v <= n)%nat -> tfield T k g -> answers (tfield T k) (ideal_field C O s fs fd k v g) (fits_field P k v).
Proof.
  intros Tz Hf Hn Tg. destruct k as [| |kt|d]; cbn [ideal_field fits_field] in *.
  - destruct v as [i|i b|i r|i r|i r|i j l|i j l]; try (intros F; exact F); [split; exact I|].
    eapply answers_map; [apply Hf; [exact Hn|]|intros a Ha; exact Ha|reflexivity]. destruct g as [| | | | | | | | | | |[g|]]; exact Tz || exact Tg.
  - destruct v as [i|i b|i r|i r|i r|i j l|i j l]; try (intros F; exact F); [split; exact I|].
    apply slicev_answers; [exact Tz|exact Tg|]. apply Forall_forall. intros w Hw g' Tg'. apply Hf; [|exact Tg']. pose proof (height_arr i j l w Hw). lia.
  - destruct v as [i|i b|i r|i r|i r|i j l|i j l]; try (intros F; exact F); [split; exact I|].
    eapply answers_map with (Q := fun m => Forall (fun x => T (snd x)) m); [|intros m Hm; exact Hm|reflexivity]. apply entries_answers; [exact Tz| |].
    + apply Forall_forall. intros x Hx g' Tg'. apply Hf; [|exact Tg']. pose proof (height_obj i j l x Hx). lia.
    + cbn [tfield] in Tg. destruct g as [| | | | | | | | |[m|]| |]; try contradiction; [exact Tg|constructor].
  - exact (ideal_answers C O s St d v g Tg).
Qed.
Lemma n_answers fs n : forall v g, (height v <= n)%nat -> rtyped fs n g -> answers (rtyped fs n) (ideal_n C O s fs n v g) (fits_n fs n v).
Proof.
  induction n as [|n IH]; intros v g Hn T; [destruct v; cbn in Hn; lia|]. cbn [ideal_n fits_n]. unfold ideal_struct, fits_struct.
  destruct v as [i|i b|i r|i r|i r|i j l|i j l]; try (intros F; exact F); [split; [exact T|exact I]|]. destruct T as (gs & -> & T).
  assert (Hh : Forall (fun x => (height (snd x) <= n)%nat) l) by (apply Forall_forall; intros x Hx; pose proof (height_obj i j l x Hx); lia). clear Hn.
  eapply answers_map with (Q := tfields (rtyped fs n) fs); [|intros m Hm; exists m; auto|reflexivity].
  revert gs T. unfold ideal_fields, fits_members. induction l as [|[[ki key] w] l IHl]; intros gs T; [cbn; auto|]. cbn [ideal_members].
  apply Forall_cons_iff in Hh as [H1 H2]. cbn [fst snd] in *.
  destruct (rfield_for C O fs key) as [jf|] eqn:Pk.
  2: { destruct (o_unknown O) eqn:Eu; cbn [answers].
       - intros F. inversion F as [|? ? F1 F2]. cbn [fst snd] in F1. rewrite Pk in F1. discriminate.
       - eapply answers_iff; [apply IHl; assumption|]. split; intros F; [constructor; [cbn [fst snd]; rewrite Pk; reflexivity|exact F]|inversion F; assumption]. }
  assert (Hj : (jf < length fs)%nat).
  { unfold rfield_for, field_for in Pk. apply pick_lt in Pk. unfold shape in Pk. rewrite !map_length in Pk. exact Pk. }
  destruct (nth_error fs jf) as [y|] eqn:Ey; [|apply nth_error_None in Ey; lia]. rewrite !nth_error_map, Ey. cbn [option_map].
  pose proof (map_nth_error (fun x => fits_field (fits_n fs n) (snd x)) jf fs Ey) as Ec. cbn beta in Ec.
  destruct (tfields_nth _ _ _ _ _ T Ey) as (g & Eg & Tg). rewrite Eg.
  pose proof (field_answers (rtyped fs n) fs (ideal_n C O s fs n) (fits_n fs n) n (snd y) w g (rtyped_zero fs n) IH H1 Tg) as Q.
  destruct (ideal_field C O s fs (ideal_n C O s fs n) (snd y) w g) as [g'|i' e g'|]; cbn [answers] in Q; [| |contradiction].
  - eapply answers_iff; [apply IHl; [assumption|]; eapply tfields_set; [exact T|exact Ey|apply Q]|]. split; intros F; [constructor; [cbn [fst snd]; rewrite Pk, Ec; apply Q|exact F]|inversion F; assumption].
  - cbn [answers]. intros F. inversion F as [|? ? F1 F2]. cbn [fst snd] in F1. rewrite Pk, Ec in F1. contradiction.
Qed.
Lemma Forall_in_iff {A} (P Q : A -> Prop) l : (forall x, In x l -> P x <-> Q x) -> Forall P l <-> Forall Q l.
Proof. intros H. rewrite !Forall_forall. split; intros F x Hx; apply (H x Hx), F, Hx. Qed.
Lemma fits_n_enough fs n : forall m v, (height v <= n)%nat -> (height v <= m)%nat -> fits_n fs n v <-> fits_n fs m v.
Proof.
  induction n as [|n IH]; intros m v Hn Hm; [destruct v; cbn in Hn; lia|]. destruct m as [|m]; [destruct v; cbn in Hm; lia|].
  cbn [fits_n]. unfold fits_struct. destruct v as [i|i b|i r|i r|i r|i j l|i j l]; try reflexivity. unfold fits_members. apply Forall_in_iff. intros x Hx. pose proof (height_obj i j l x Hx).
  destruct (rfield_for C O fs (snd (fst x))) as [q|]; [|reflexivity]. rewrite !nth_error_map. destruct (nth_error fs q) as [y|]; [|reflexivity]. cbn [option_map].
  assert (I1 : forall w, (height w <= height (snd x))%nat -> fits_n fs n w <-> fits_n fs m w) by (intros w Hw; apply IH; lia).
  destruct (snd y) as [| |kt|d]; destruct (snd x) as [i'|i' b'|i' r'|i' r'|i' r'|i' j' l'|i' j' l']; cbn [fits_field]; try reflexivity.
  - apply I1. lia.
  - apply Forall_in_iff. intros w Hw. apply I1. pose proof (height_arr i' j' l' w Hw). lia.
  - apply Forall_in_iff. intros w Hw. rewrite I1; [reflexivity|]. pose proof (height_obj i' j' l' w Hw). lia.
Qed.
Theorem ideal_rec_answers fs v g : (forall n, rtyped fs n g) -> answers (fun g => forall n, rtyped fs n g) (ideal_rec C O s fs v g) (conforms_rec fs v).
Proof.
  intros T.
  assert (Q : forall n, (height v <= n)%nat -> answers (rtyped fs n) (ideal_rec C O s fs v g) (conforms_rec fs v)).
  { intros n Hn. unfold ideal_rec, conforms_rec. rewrite (ideal_n_enough C O s fs (height v) n v g (Nat.le_refl _) Hn).
    eapply answers_iff; [|apply (fits_n_enough fs n (height v) v Hn (Nat.le_refl _))]. apply n_answers; [exact Hn|apply T]. }
  pose proof (Q _ (Nat.le_refl _)) as Q0. destruct (ideal_rec C O s fs v g) as [g'|i e g'|]; try exact Q0. destruct Q0 as [_ P]. split; [|exact P].
  intros n. apply (rtyped_mono fs n (Nat.max n (height v))); [lia|]. apply (Q (Nat.max n (height v))). lia.
Qed.
Theorem wideal_answers t : forall v g, wtyped t g -> answers (wtyped t) (wideal C O s t v g) (wconforms t v).
Proof.
  unfold wideal. induction t as [d|z fs|t IH|k t IH|t IH|z fs IH] using wt_ind'; intros v g T; cbn [walk wconforms].
  - exact (ideal_answers C O s St d v g T).
  - apply ideal_rec_answers, T.
  - destruct v as [i|i b|i r|i r|i r|i j l|i j l]; try (intros F; exact F); [split; exact I|].
    apply slicev_answers; [apply wtyped_zero|exact T|]. apply Forall_forall. intros w Hw g' Tg'. apply IH, Tg'.
  - destruct v as [i|i b|i r|i r|i r|i j l|i j l]; try (intros F; exact F); [split; exact I|].
    eapply answers_map with (Q := fun m => Forall (fun x => wtyped t (snd x)) m); [|intros m Hm; exact Hm|reflexivity]. apply entries_answers; [apply wtyped_zero| |].
    + apply Forall_forall. intros x Hx g' Tg'. apply IH, Tg'.
    + cbn [wtyped] in T. destruct g as [| | | | | | | | |[m|]| |]; try contradiction; [exact T|constructor].
  - destruct v; [split; exact I|..]; (eapply answers_map; [apply IH, wtyped_zero|intros a Ha; exact Ha|reflexivity]).
  - destruct v as [i|i b|i r|i r|i r|i j l|i j l]; try (intros F; exact F); [split; [exact T|exact I]|]. destruct T as (gs & -> & T). rewrite Forall_forall in IH.
    eapply answers_map; [|intros m Hm; exists m; split; [reflexivity|exact Hm]|reflexivity].
    revert gs T. unfold fits_members. induction l as [|[[ki key] w] l IHl]; intros gs T; [cbn; auto|]. cbn [ideal_members].
    destruct (field_for C O (wshape fs) key) as [jf|] eqn:Pk.
    2: { destruct (o_unknown O) eqn:Eu; cbn [answers].
         - intros F. inversion F as [|? ? F1 F2]. cbn [fst snd] in F1. rewrite Pk in F1. discriminate.
         - eapply answers_iff; [apply IHl; assumption|]. split; intros F; [constructor; [cbn [fst snd]; rewrite Pk; reflexivity|exact F]|inversion F; assumption]. }
    assert (Hj : (jf < length fs)%nat).
    { unfold field_for in Pk. apply pick_lt in Pk. unfold wshape in Pk. rewrite !map_length in Pk. exact Pk. }
    destruct (nth_error fs jf) as [y|] eqn:Ey; [|apply nth_error_None in Ey; lia]. rewrite !nth_error_map, Ey. cbn [option_map].
    pose proof (map_nth_error (fun x => wconforms (snd x)) jf fs Ey) as Ec. cbn beta in Ec.
    assert (Ey' : nth_error (map (fun x => wtyped (snd x)) fs) jf = Some (wtyped (snd y))) by (rewrite nth_error_map, Ey; reflexivity).
    destruct (forall2_nth _ _ _ _ _ T Ey') as (g & Eg & Tg). rewrite Eg.
    pose proof (IH y (nth_error_In _ _ Ey) w g Tg) as Q.
    destruct (walk _ _ _ _ _ (snd y) w g) as [g'|i' e g'|]; cbn [answers] in Q; [| |contradiction].
    + eapply answers_iff; [apply IHl; eapply forall2_set; [exact T|exact Ey'|apply Q]|]. split; intros F; [constructor; [cbn [fst snd]; rewrite Pk, Ec; apply Q|exact F]|inversion F; assumption].
    + cbn [answers]. intros F. inversion F as [|? ? F1 F2]. cbn [fst snd] in F1. rewrite Pk, Ec in F1. contradiction.
Qed.
End Conforms.

(** C44, C45 for recursive struct types: lemmas and theorems.

    [reordered], [same_value]: Order.v, Encodes.v.  [runlike C O fs v]: no object of the
    document has two members for the same struct field or map key, at any depth. *)
From Coq Require Import Permutation.
From Verif Require Import Base NumSpec StrSpec Types AppendType Token FloatLit Heap Machine Dt Dec Control Root Elab Rec Value Dval Sep Refine Spec SpecProofs Main Parse World Elaborate RecSpec RecRefine RecElab PropsRec Encodes RoundTrip PropsRoundTrip Order.
Open Scope Z_scope.

Section Unlike.
Variables (C : cfg) (O : opts) (fs : rfields).
Definition kunlike (P : jv -> Prop) (k : rk) (v : jv) : Prop :=
  match k, v with
  | RSelf, JObj _ _ _ => P v
  | RSlice, JArr _ _ l => Forall P l
  | RMap kt, JObj _ _ l => NoDup (map_keys C kt l) /\ Forall (fun x => P (snd x)) l
  | RSub d, _ => unlike C O d v
  | _, _ => True
  end.
Definition sunlike (P : jv -> Prop) (v : jv) : Prop :=
  match v with
  | JObj _ _ l => NoDup (targets (rfield_for C O fs) l) /\
      Forall (fun x => match rfield_for C O fs (snd (fst x)) with
                       | Some j => match nth_error fs j with Some y => kunlike P (snd y) (snd x) | None => True end
                       | None => True end) l
  | _ => True
  end.
Fixpoint unlike_n (n : nat) : jv -> Prop := match n with 0%nat => fun _ => True | S n => sunlike (unlike_n n) end.
Definition runlike (v : jv) : Prop := forall n, unlike_n n v.
Definition rno_json : bool := forallb (fun x => match snd x with RSub d => no_json d | _ => true end) fs.
(** No type with an Unmarshal method (as key or value). *)
Definition rno_user : bool := forallb (fun x => match snd x with RSub d => no_user d | _ => true end) fs.
End Unlike.

Section Alike.
Variables (C : cfg) (O : opts) (fs : rfields).
Notation fresh := (VStruct (rzeros fs)).
Lemma kind_reordered s s' (P : jv -> Prop) (f f' : vdec) k v v' g g1 :
  (forall v v' g g1, reordered v v' -> P v -> f v g = VOk g1 -> exists g2, f' v' g = VOk g2 /\ same_value g1 g2) ->
  match k with RSub d => no_json d | _ => true end = true -> reordered v v' -> kunlike C O P k v ->
  ideal_field C O s fs f k v g = VOk g1 -> exists g2, ideal_field C O s' fs f' k v' g = VOk g2 /\ same_value g1 g2.
Proof.
  intros H NJ R U E. destruct k as [| |kt|d]; cbn [ideal_field kunlike] in *.
  - inversion R; subst; try discriminate; try (exists g1; split; [exact E|apply same_refl]).
    match type of E with vmap _ (f ?v ?g) = _ => destruct (f v g) as [a| |] eqn:Ea end; try discriminate. injection E as <-.
    destruct (H _ _ _ _ R U Ea) as (b & -> & S). eexists. split; [reflexivity|]. constructor. exact S.
  - inversion R; subst; try discriminate; try (exists g1; split; [exact E|apply same_refl]).
    eapply slicev_alike; [|exact E]. match goal with F : Forall2 reordered _ _ |- _ => eapply F2_with; [|exact U|exact F] end. cbn. intros x y Ux Rxy g0 g2. apply H; assumption.
  - inversion R; subst; try discriminate; try (exists g1; split; [exact E|apply same_refl]).
    match goal with H : Permutation l _, H' : Forall2 _ _ l' |- _ => rename H into Pm; rename H' into Q end. destruct U as [N U].
    set (m0 := match g with VMap (Some m) => m | _ => [] end) in *. destruct (ideal_entries C kt f true fresh l m0) as [m'| |] eqn:Em; try discriminate. injection E as <-.
    destruct (entries_perm C kt f true fresh l l1 Pm N m0 m' Em) as (m1 & E1 & P1 & _).
    destruct (entries_alike C kt f true fresh f' l1 l') with (m := m0) (m2 := m0) (m' := m1) as (m2 & E2 & S2).
    + eapply F2_with; [|eapply Permutation_Forall; [exact Pm|exact U]|exact Q]. cbn. intros x y Ux [Ek Rxy]. split; [exact Ek|]. intros g0 g2. apply H; assumption.
    + eapply Permutation_NoDup; [apply Permutation_flat_map, Pm|exact N].
    + apply Forall2_entries_refl.
    + reflexivity.
    + exact E1.
    + rewrite E2. eexists. split; [reflexivity|]. econstructor; eassumption.
  - eapply ideal_reordered; eassumption.
Qed.
Lemma ideal_n_reordered s s' n : rno_json fs = true -> forall v v' g g1, reordered v v' -> unlike_n C O fs n v -> ideal_n C O s fs n v g = VOk g1 ->
  exists g2, ideal_n C O s' fs n v' g = VOk g2 /\ same_value g1 g2.
Proof.
  intros NJ. induction n as [|n IH]; intros v v' g g1 R U E; [discriminate|]. cbn [ideal_n unlike_n] in *. unfold ideal_struct in *.
  inversion R; subst; try discriminate; try (exists g1; split; [exact E|apply same_refl]).
  match goal with H : Permutation l _, H' : Forall2 _ _ l' |- _ => rename H into P; rename H' into Q end. cbn [sunlike] in U. destruct U as [N U].
  destruct g as [| | | | | | |gs| | | |]; try discriminate. unfold ideal_fields in *.
  destruct (ideal_members O (rfield_for C O fs) (map (fun x => ideal_field C O s fs (ideal_n C O s fs n) (snd x)) fs) l gs) as [gs'| |] eqn:Em; try discriminate. injection E as <-.
  pose proof (members_perm O (rfield_for C O fs) _ l l1 P N gs gs' Em) as E1.
  destruct (members_alike O (rfield_for C O fs) (map (fun x => ideal_field C O s fs (ideal_n C O s fs n) (snd x)) fs) (map (fun x => ideal_field C O s' fs (ideal_n C O s' fs n) (snd x)) fs) l1 l')
    with (gs := gs) (hs := gs) (gs' := gs') as (hs' & E2 & S2).
  + eapply F2_with; [|eapply Permutation_Forall; [exact P|exact U]|exact Q]. cbn. intros x y Ux [Ek Rxy]. split; [exact Ek|]. intros jj f g0 g2 Ej Ef Ev. rewrite Ej in Ux.
    rewrite nth_error_map in Ef. rewrite nth_error_map. destruct (nth_error fs jj) as [q|] eqn:Eq; [|discriminate]. cbn in *. injection Ef as <-.
    unfold rno_json in NJ. rewrite forallb_forall in NJ. specialize (NJ q (nth_error_In _ _ Eq)).
    destruct (kind_reordered s s' _ _ _ _ _ _ _ _ IH NJ Rxy Ux Ev) as (g3 & E3 & S3). eexists. exists g3. split; [reflexivity|]. split; [exact E3|exact S3].
  + eapply Permutation_NoDup; [apply Permutation_flat_map, P|exact N].
  + apply Forall2_same_refl.
  + reflexivity.
  + exact E1.
  + rewrite E2. eexists. split; [reflexivity|]. constructor. exact S2.
Qed.
Theorem ideal_rec_reordered s s' v v' g g1 : rno_json fs = true -> reordered v v' -> runlike C O fs v -> ideal_rec C O s fs v g = VOk g1 ->
  exists g2, ideal_rec C O s' fs v' g = VOk g2 /\ same_value g1 g2.
Proof.
  intros NJ R U. unfold ideal_rec. set (n := Nat.max (height v) (height v')).
  rewrite (ideal_n_enough C O s fs _ n v g) by lia. rewrite (ideal_n_enough C O s' fs _ n v' g) by lia. apply ideal_n_reordered; [exact NJ|exact R|apply U].
Qed.

Lemma kind_again s (P : jv -> Prop) (f : vdec) k v g g1 : (forall v g g1, P v -> f v g = VOk g1 -> f v g1 = VOk g1) ->
  match k with RSub d => no_user d | _ => true end = true -> kunlike C O P k v -> ideal_field C O s fs f k v g = VOk g1 -> ideal_field C O s fs f k v g1 = VOk g1.
Proof.
  intros H NU U E. destruct k as [| |kt|d]; cbn [ideal_field kunlike] in *.
  - destruct v as [i|i b|i r|i r|i r|i j l|i j l]; try discriminate; [exact E|].
    match type of E with vmap _ (f ?v ?g) = _ => destruct (f v g) as [a| |] eqn:Ea end; try discriminate. injection E as <-. rewrite (H _ _ _ U Ea). reflexivity.
  - destruct v as [i|i b|i r|i r|i r|i j l|i j l]; try discriminate; [exact E|]. eapply slicev_again; [|exact E]. rewrite Forall_forall in U. intros x Hx g0 g2. apply H, U, Hx.
  - destruct v as [i|i b|i r|i r|i r|i j l|i j l]; try discriminate; [exact E|]. destruct U as [N U].
    set (m0 := match g with VMap (Some m) => m | _ => [] end) in *. destruct (ideal_entries C kt f true fresh l m0) as [m'| |] eqn:Em; try discriminate. injection E as <-.
    rewrite (entries_again C kt f true fresh l) with (m := m0); [reflexivity| |exact N|exact Em]. rewrite Forall_forall in U. intros x Hx g0 g2. apply H, U, Hx.
  - eapply ideal_again; eassumption.
Qed.
Lemma ideal_n_again s n : rno_user fs = true -> forall v g g1, unlike_n C O fs n v -> ideal_n C O s fs n v g = VOk g1 -> ideal_n C O s fs n v g1 = VOk g1.
Proof.
  intros NU. induction n as [|n IH]; intros v g g1 U E; [discriminate|]. cbn [ideal_n unlike_n] in *. unfold ideal_struct in *.
  destruct v as [i|i b|i r|i r|i r|i j l|i j l]; try discriminate; [reflexivity|]. cbn [sunlike] in U. destruct U as [N U].
  destruct g as [| | | | | | |gs| | | |]; try discriminate. unfold ideal_fields in *.
  destruct (ideal_members O (rfield_for C O fs) (map (fun x => ideal_field C O s fs (ideal_n C O s fs n) (snd x)) fs) l gs) as [gs'| |] eqn:Em; try discriminate. injection E as <-.
  rewrite (members_again O (rfield_for C O fs) (map (fun x => ideal_field C O s fs (ideal_n C O s fs n) (snd x)) fs) l) with (gs := gs); [reflexivity| |exact N|exact Em].
  rewrite Forall_forall in U. unfold rno_user in NU. rewrite forallb_forall in NU. intros x Hx jj f g0 g2 Ej Ef Ev. specialize (U x Hx). rewrite Ej in U. rewrite nth_error_map in Ef.
  destruct (nth_error fs jj) as [q|] eqn:Eq; [|discriminate]. cbn in *. injection Ef as <-. apply nth_error_In in Eq. eapply kind_again; [exact IH|exact (NU q Eq)|exact U|exact Ev].
Qed.
Theorem ideal_rec_again s v g g1 : rno_user fs = true -> runlike C O fs v -> ideal_rec C O s fs v g = VOk g1 -> ideal_rec C O s fs v g1 = VOk g1.
Proof. intros NU U. apply ideal_n_again; [exact NU|apply U]. Qed.

(** Reordering keeps members unlike. *)
Lemma unlike_n_reordered n : forall v v', reordered v v' -> unlike_n C O fs n v -> unlike_n C O fs n v'.
Proof.
  induction n as [|n IH]; intros v v' R U; [exact I|]. cbn [unlike_n] in *. inversion R; subst; try exact I.
  match goal with H : Permutation l _, H' : Forall2 _ _ l' |- _ => rename H into P; rename H' into Q end. destruct U as [N U]. clear R. cbn [sunlike]. split.
  - unfold targets in *. rewrite <- (flat_keys (fun r => match rfield_for C O fs r with Some j => [j] | None => [] end) l1 l' Q).
    eapply Permutation_NoDup; [apply Permutation_flat_map, P|exact N].
  - apply (Permutation_Forall P) in U. clear - IH U Q. induction Q as [|x y l1 l' [Ek R] Q IHq]; constructor; inversion U as [|? ? Ux Ur]; subst; [|eauto].
    rewrite <- Ek. destruct (rfield_for C O fs (snd (fst x))) as [q|]; [|exact I]. destruct (nth_error fs q) as [p|] eqn:Ep; [|exact I].
    clear - IH Ux R. destruct (snd p) as [| |kt|d]; cbn [kunlike] in *.
    + inversion R; subst; try exact I. match goal with E : _ = snd x |- _ => rewrite <- E in Ux; rewrite <- E in R end. match goal with E : _ = snd y |- _ => rewrite <- E in R end. eapply IH; eassumption.
    + inversion R as [| | | | |i j l i' j' l' F E1 E2|]; subst; try exact I. rewrite <- E1 in Ux. clear - F IH Ux. induction F; constructor; inversion Ux; subst; eauto.
    + inversion R as [| | | | | |i j l l1 i' j' l' P Q E1 E2]; subst; try exact I. rewrite <- E1 in Ux. destruct Ux as [N U]. split.
      * unfold map_keys in *. rewrite <- (flat_keys (fun r => match ideal_key C kt r with inl key => [key] | inr _ => [] end) l1 l' Q).
        eapply Permutation_NoDup; [apply Permutation_flat_map, P|exact N].
      * apply (Permutation_Forall P) in U. clear - IH U Q. induction Q as [|a b l1 l' [Ek R] Q IHq]; constructor; inversion U; subst; eauto.
    + eapply unlike_reordered; eassumption.
Qed.
End Alike.

(** ** C44 for recursive struct types *)
(** Missing from the full claim: documents outside the classes [rctl] and [rsound], for
    which it is false (C27_refuted_member_order), and decoders that have failed before. *)
Theorem C44_recursive_partial C O E dis T z fs stk D1 D2 s1 s2 v1 v2 a1 a2 h1 h2 g F1 F2 :
  rno_json fs = true -> rdecoder_for C E dis T z fs stk D1 -> rdecoder_for C E dis T z fs stk D2 ->
  json_text s1 v1 -> json_text s2 v2 -> reordered v1 v2 -> runlike C O fs v1 ->
  rctl C O fs v1 -> rctl C O fs v2 -> rsound C O fs v1 -> rsound C O fs v2 ->
  rvariable C z fs h1 a1 g F1 -> rvariable C z fs h2 a2 g F2 ->
  (exists D1' D2' h1' h2' g1 g2 F1' F2',
     Decode C O stk D1 s1 (TOk (flat 0 v1)) (Some a1) h1 = Ret (-1) None D1' h1' /\ rvariable C z fs h1' a1 g1 F1' /\
     Decode C O stk D2 s2 (TOk (flat 0 v2)) (Some a2) h2 = Ret (-1) None D2' h2' /\ rvariable C z fs h2' a2 g2 F2' /\
     same_value g1 g2) \/
  (exists D1' D2' h1' h2' i1 i2 e1 e2,
     Decode C O stk D1 s1 (TOk (flat 0 v1)) (Some a1) h1 = Ret i1 (Some e1) D1' h1' /\
     Decode C O stk D2 s2 (TOk (flat 0 v2)) (Some a2) h2 = Ret i2 (Some e2) D2' h2').
Proof.
  intros NJ Df1 Df2 J1 J2 R U C1 C2 S1 S2 V1 V2.
  pose proof (C26_recursive_partial C O E dis T z fs stk D1 s1 v1 a1 h1 g F1 Df1 J1 C1 S1 V1) as Q1.
  pose proof (C26_recursive_partial C O E dis T z fs stk D2 s2 v2 a2 h2 g F2 Df2 J2 C2 S2 V2) as Q2.
  destruct (ideal_rec C O s1 fs v1 g) as [g1|i1 e1 g1|] eqn:E1; [| |contradiction].
  - destruct (ideal_rec_reordered C O fs s1 s2 v1 v2 g g1 NJ R U E1) as (g2 & E2 & Sm). rewrite E2 in Q2.
    destruct Q1 as (D1' & h1' & F1' & Q1 & W1 & _), Q2 as (D2' & h2' & F2' & Q2 & W2 & _). left.
    exists D1', D2', h1', h2', g1, g2, F1', F2'. auto.
  - destruct (ideal_rec C O s2 fs v2 g) as [g2|i2 e2 g2|] eqn:E2; [| |contradiction].
    + exfalso. assert (U2 : runlike C O fs v2) by (intros n; eapply unlike_n_reordered; [exact R|apply U]).
      destruct (ideal_rec_reordered C O fs s2 s1 v2 v1 g g2 NJ (reordered_sym _ _ R) U2 E2) as (g3 & E3 & _). congruence.
    + destruct Q1 as (D1' & h1' & F1' & Q1 & _), Q2 as (D2' & h2' & F2' & Q2 & _). right.
      exists D1', D2', h1', h2'. do 4 eexists. split; [exact Q1|exact Q2].
Qed.

(** ** C45 for recursive struct types *)
Theorem C45_recursive_partial C O E dis T z fs stk D s v a h g F D1 h1 :
  rno_user fs = true -> rdecoder_for C E dis T z fs stk D -> json_text s v -> runlike C O fs v ->
  rctl C O fs v -> rsound C O fs v -> rvariable C z fs h a g F ->
  Decode C O stk D s (TOk (flat 0 v)) (Some a) h = Ret (-1) None D1 h1 ->
  exists g1 F1 D2 h2 F2, rvariable C z fs h1 a g1 F1 /\
    Decode C O stk D1 s (TOk (flat 0 v)) (Some a) h1 = Ret (-1) None D2 h2 /\ rvariable C z fs h2 a g1 F2.
Proof.
  intros NU Df J U Ct Sd V Q0.
  pose proof (C26_recursive_partial C O E dis T z fs stk D s v a h g F Df J Ct Sd V) as Q.
  destruct (ideal_rec C O s fs v g) as [g1|i e g1|] eqn:E1; [| |contradiction]; destruct Q as (D' & h' & F' & Q & V' & _); rewrite Q in Q0; [|injection Q0; intros; discriminate].
  injection Q0 as <- <-.
  assert (Df' : rdecoder_for C E dis T z fs stk D').
  { destruct Df as [A1 A2 A3 A4 A5]. constructor; try assumption. eapply ru_ok; [exact A5|exact J|exact Ct|exact Q]. }
  pose proof (C26_recursive_partial C O E dis T z fs stk D' s v a h' g1 F' Df' J Ct Sd V') as Q2.
  rewrite (ideal_rec_again C O fs s v g g1 NU U E1) in Q2. destruct Q2 as (D2 & h2 & F2 & Q2 & V2 & _). exists g1, F', D2, h2, F2. auto.
Qed.

(** Case: type Node of C26_case. *)
Definition ro_text : bytes :=
  bs "{""R"":{""V"":2,""left"":{""R"":null,""T"":[""x""],""V"":-3},""T"":[]}, ""T"":null, ""V"":1}".
Definition ro_text' : bytes :=
  bs "{""V"":1,""T"":null,""R"":{ ""T"" : [],""left"":{""V"":-3,""T"":[""x""],""R"":null},""V"":2}}".
Definition ro_doc : jv := Eval vm_compute in tree_of ro_text.
Definition ro_doc' : jv := Eval vm_compute in tree_of ro_text'.
Lemma ro_reordered : reordered ro_doc ro_doc'.
Proof.
  unfold ro_doc, ro_doc'.
  repeat match goal with
  | |- reordered (JObj _ _ _) _ => eapply ro_obj; [apply Permutation_rev|cbn [rev app]]
  | |- reordered _ _ => constructor
  | |- Forall2 _ _ _ => constructor
  | |- _ /\ _ => split; [reflexivity|cbn [snd]]
  end.
Qed.
Lemma ro_unlike : runlike wC default_opts node_fs ro_doc.
Proof.
  intros n. unfold ro_doc.
  repeat match goal with
  | |- unlike_n _ _ _ ?n _ => is_var n; destruct n as [|n]; [exact I|cbn [unlike_n sunlike]]
  | |- _ /\ _ => split
  | |- NoDup (targets ?f ?l) => let x := eval vm_compute in (targets f l) in change (targets f l) with x; nodup
  | |- Forall _ _ => constructor
  | |- True => exact I
  | |- (fun _ => _) _ => cbn beta; cbn [snd fst]
  | |- match rfield_for ?c ?o ?fs ?k with Some _ => _ | None => _ end =>
      let x := eval vm_compute in (rfield_for c o fs k) in change (rfield_for c o fs k) with x; cbn [nth_error node_fs snd fst kunlike unlike]
  | |- match _ with _ => _ end => progress cbn [snd fst]
  end.
Qed.
Lemma ro_hyps : json_text ro_text ro_doc /\ json_text ro_text' ro_doc' /\ rctl wC default_opts node_fs ro_doc /\ rctl wC default_opts node_fs ro_doc' /\
  rsound wC default_opts node_fs ro_doc /\ rsound wC default_opts node_fs ro_doc'.
Proof.
  split; [apply parse_sound; vm_compute; reflexivity|]. split; [apply parse_sound; vm_compute; reflexivity|].
  split; [apply rctlb_spec; vm_compute; reflexivity|]. split; [apply rctlb_spec; vm_compute; reflexivity|].
  split; apply rsoundb_spec; vm_compute; reflexivity.
Qed.
Lemma ro_new : rvariable wC 48 node_fs (world 48) (1%nat, 0) (VStruct (rzeros node_fs)) [].
Proof.
  split.
  - apply rrep_zero with (z := 48); [exact (rdf_layout _ _ _ _ _ _ _ _ node_decoder)|].
    intros x Hx. cbn. destruct (Z.leb_spec 0 x), (Z.ltb_spec x 48); try lia. reflexivity.
  - split; [cbn; lia|]. split; [constructor|]. split; [intros b []|]. intros b [= <-]. cbn. lia.
Qed.
Example C44_recursive_case : exists D1 D2 h1 h2 g1 g2 F1 F2,
  Decode wC default_opts node_stk (dyn0 node_stk) ro_text (TOk (flat 0 ro_doc)) dest (world 48) = Ret (-1) None D1 h1 /\ rvariable wC 48 node_fs h1 (1%nat, 0) g1 F1 /\
  Decode wC default_opts node_stk (dyn0 node_stk) ro_text' (TOk (flat 0 ro_doc')) dest (world 48) = Ret (-1) None D2 h2 /\ rvariable wC 48 node_fs h2 (1%nat, 0) g2 F2 /\ same_value g1 g2.
Proof.
  destruct ro_hyps as (J1 & J2 & C1 & C2 & S1 & S2).
  destruct (C44_recursive_partial wC default_opts E_node false (TNamed 0) 48 node_fs node_stk (dyn0 node_stk) (dyn0 node_stk) ro_text ro_text' ro_doc ro_doc' (1%nat, 0) (1%nat, 0) (world 48) (world 48)
    (VStruct (rzeros node_fs)) [] [] eq_refl node_decoder node_decoder J1 J2 ro_reordered ro_unlike C1 C2 S1 S2 ro_new ro_new) as [H|H]; [exact H|].
  exfalso. destruct H as (D1' & D2' & h1' & h2' & i1 & i2 & e1 & e2 & H & _).
  assert (Ok : match Decode wC default_opts node_stk (dyn0 node_stk) ro_text (TOk (flat 0 ro_doc)) dest (world 48) with Ret _ e _ _ => e | _ => None end = None) by (vm_compute; reflexivity).
  change (Some ((1%nat, 0) : addr)) with dest in H. rewrite H in Ok. discriminate.
Qed.
Example C45_recursive_case : exists D1 h1 g1 F1 D2 h2 F2,
  Decode wC default_opts node_stk (dyn0 node_stk) ro_text (TOk (flat 0 ro_doc)) dest (world 48) = Ret (-1) None D1 h1 /\ rvariable wC 48 node_fs h1 (1%nat, 0) g1 F1 /\
  Decode wC default_opts node_stk D1 ro_text (TOk (flat 0 ro_doc)) dest h1 = Ret (-1) None D2 h2 /\ rvariable wC 48 node_fs h2 (1%nat, 0) g1 F2.
Proof.
  destruct ro_hyps as (J1 & _ & C1 & _ & S1 & _).
  destruct C44_recursive_case as (D1 & _ & h1 & _ & _ & _ & _ & _ & Q & _).
  destruct (C45_recursive_partial wC default_opts E_node false (TNamed 0) 48 node_fs node_stk (dyn0 node_stk) ro_text ro_doc (1%nat, 0) (world 48) (VStruct (rzeros node_fs)) [] D1 h1
    eq_refl node_decoder J1 ro_unlike C1 S1 ro_new Q) as (g1 & F1 & D2 & h2 & F2 & V1 & Q2 & V2).
  exists D1, h1, g1, F1, D2, h2, F2. auto.
Qed.

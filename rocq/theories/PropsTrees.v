(** C75: types around recursive structs: decoding inverts encoding, whatever the variable
    held before; the order of members and repeated decoding do not matter.

    Compare C71, C72 (PropsPlain.v).  Decoding into a variable that already holds a tree
    follows the pointers of that tree, so nothing may remain of it: this is proved for any
    previous value without map entries, and for types without maps for any previous value. *)
From Coq Require Import Permutation.
From Verif Require Import Base NumSpec StrSpec Unescape Types AppendType Token FloatLit Heap Machine Dt Dec Control Root Elab Rec Value Dval Sep Refine Refine2 Refine3 Typed Spec SpecProofs Main Parse World Elaborate PropsStruct RecSpec RecRefine RecElab PropsRec Encodes RoundTrip Render Writable PropsRoundTrip RecTrip PropsRecTrip Order RecOrder PropsStrict Actual PropsExact OrderActual PropsAnyLeaf RecActual PropsRecAny Mixed MixedElab MixedSpec MixedRefine MixedTyped PropsMixed MixedOrder MixedTrip.
Open Scope Z_scope.

(** ** Specification *)
(** No map in the value has entries; what pointers and slices refer to (also the hidden
    elements) included. *)
Fixpoint no_entries (g : gval) : bool :=
  match g with
  | VArr l | VStruct l => forallb no_entries l
  | VSlice (Some (vis, hid)) => forallb no_entries vis && forallb no_entries hid
  | VMap (Some (_ :: _)) => false
  | VPtr (Some g) => no_entries g
  | _ => true
  end.
(** Types in which no maps occur, except map[string]string. *)
Fixpoint no_maps (d : dt) : bool :=
  match d with
  | DMap _ _ => false
  | DArr _ t | DSlice t | DPtr t => no_maps t
  | DStruct _ fs => forallb (fun x => no_maps (snd x)) fs
  | _ => true
  end.
Fixpoint wno_maps (t : wt) : bool :=
  match t with
  | WSub d => no_maps d
  | WRec _ fs => forallb (fun x => match snd x with RMap _ => false | RSub d => no_maps d | _ => true end) fs
  | WSlice t | WPtr t => wno_maps t
  | WMap _ _ => false
  | WStruct _ fs => forallb (fun x => wno_maps (snd x)) fs
  end.

(** ** Proofs: values *)
Notation empty_value := (fun g => no_entries g = true).
Lemma all_empty l : forallb no_entries l = true <-> Forall empty_value l.
Proof. rewrite forallb_forall, Forall_forall. reflexivity. Qed.
Lemma no_entries_slice g : no_entries g = true -> Forall empty_value (fst (contents g)) /\ Forall empty_value (snd (contents g)).
Proof.
  intros H. destruct g as [| | | | | | | |[[vis hid]|]| | |]; cbn in *; try (split; constructor). apply andb_prop in H as [A B]. apply all_empty in A, B. auto.
Qed.
Lemma no_entries_maps d : forall g, no_entries g = true -> empty_maps d g.
Proof.
  induction d as [x|id z|id z| |n t IH| |t IH|k t IH| |t IH|z fs IH] using dt_ind'; intros g H; try exact I.
  - destruct g; try exact I. cbn in *. apply all_empty in H. eapply Forall_impl; [|exact H]. exact IH.
  - destruct g as [| | | | | | | |[[vis hid]|]| | |]; try exact I. cbn in *. apply andb_prop in H as [A B]. apply all_empty in A, B.
    split; (eapply Forall_impl; [exact IH|assumption]).
  - destruct g as [| | | | | | | | |[[|]|]| |]; try exact I. discriminate.
  - destruct g as [| | | | | | |gs| | | |]; try exact I. apply empty_struct. cbn in H. revert gs H. induction IH as [|x fs Hx IH IHl]; intros [|g gs] H; cbn in *; auto.
    apply andb_prop in H as [A B]. split; [apply Hx, A|apply IHl, B].
Qed.
Lemma zero_no_entries d : no_entries (zero d) = true.
Proof.
  induction d as [x|id z|id z| |n t IH| |t IH|k t IH| |t IH|z fs IH] using dt_ind'; try reflexivity.
  - destruct x; reflexivity.
  - cbn. apply all_empty, Forall_forall. intros g Hg. apply repeat_spec in Hg as ->. exact IH.
  - cbn [zero no_entries]. apply all_empty. induction IH as [|x fs Hx IH IHl]; cbn; constructor; auto.
Qed.
Lemma rzeros_no_entries fs : no_entries (VStruct (rzeros fs)) = true.
Proof. cbn. apply all_empty. unfold rzeros. induction fs as [|x fs IH]; cbn; constructor; [|exact IH]. destruct (snd x); try reflexivity. apply zero_no_entries. Qed.
Lemma wzero_no_entries t : no_entries (wzero t) = true.
Proof.
  induction t as [d|z fs|t IH|k t IH|t IH|z fs IH] using wt_ind'; try reflexivity.
  - apply zero_no_entries.
  - apply rzeros_no_entries.
  - cbn [wzero no_entries]. apply all_empty. induction IH as [|x fs Hx IH IHl]; cbn; constructor; auto.
Qed.

(** ** Proofs: the ideal decoder *)
Section General.
Variables (C : cfg) (z : gval) (Q : gval -> Prop) (R : gval -> jv -> Prop) (f : vdec).
Hypothesis Rf : forall x v g, R x v -> Q g -> exists g', f v g = VOk g' /\ same_value x g'.
Hypothesis Qz : Q z.
Lemma elems_over : forall xs l, Forall2 R xs l -> forall gs, (length l <= length gs)%nat -> Forall Q gs ->
  exists gs', elemsv f l gs = VOk (gs' ++ skipn (length l) gs) /\ Forall2 same_value xs gs'.
Proof.
  induction 1 as [|x v xs l Hx H IHl]; intros gs L Hq.
  - exists []. split; [destruct gs; reflexivity|constructor].
  - destruct gs as [|g gs]; [cbn in L; lia|]. inversion Hq as [|? ? Q1 Q2]; subst.
    destruct (Rf _ _ g Hx Q1) as (g' & E' & S'). destruct (IHl gs ltac:(cbn in L; lia) Q2) as (gs' & E2 & S2).
    exists (g' :: gs'). cbn [elemsv length skipn app]. rewrite E', E2. split; [reflexivity|constructor; assumption].
Qed.
Lemma slice_over xs l fast keep g : Forall2 R xs l -> Forall Q (fst (contents g)) -> Forall Q (snd (contents g)) ->
  exists gs' hid', slicev f z fast keep l g = VOk (VSlice (Some (gs', hid'))) /\ Forall2 same_value xs gs'.
Proof.
  intros H. unfold slicev. destruct l as [|v0 l0] eqn:El; [inversion H; subst; exists [], []; split; [reflexivity|constructor]|]. rewrite <- El in *. clear El v0 l0.
  destruct (contents g) as [vis hid]. cbn [fst snd]. intros Q1 Q2.
  assert (G : forall gs, (length l <= length gs)%nat -> Forall Q gs ->
    exists gs' hid', elemsv f l gs = VOk (gs' ++ hid') /\ split_at (length l) (gs' ++ hid') = VSlice (Some (gs', hid')) /\ Forall2 same_value xs gs').
  { intros gs L T. destruct (elems_over xs l H gs L T) as (gs' & E & S). exists gs', (skipn (length l) gs). split; [exact E|]. split; [|exact S].
    assert (Ln : length gs' = length l) by (apply Forall2_length in H; apply Forall2_length in S; congruence).
    unfold split_at. rewrite <- Ln, firstn_app, firstn_all, Nat.sub_diag, skipn_app, skipn_all, Nat.sub_diag. cbn [firstn skipn app]. rewrite app_nil_r. reflexivity. }
  assert (Qr : forall n, Forall Q (repeat z n)) by (intros n; apply Forall_forall; intros y Hy; apply repeat_spec in Hy as ->; exact Qz).
  destruct (length l <=? length vis + length hid)%nat eqn:Le.
  - apply Nat.leb_le in Le. destruct (G (vis ++ hid)) as (gs' & hid' & E & E2 & S); [rewrite app_length; lia|apply Forall_app; tauto|].
    rewrite E, E2. eauto.
  - apply Nat.leb_gt in Le. destruct (G (if keep then vis ++ repeat z (length l - length vis) else repeat z (length l))) as (gs' & hid' & E & E2 & S).
    + destruct keep; rewrite ?app_length, repeat_length; lia.
    + destruct keep; [apply Forall_app; auto|apply Qr].
    + rewrite E, E2. eauto.
Qed.
End General.

Section Over.
Variables (C : cfg) (O : opts) (s : bytes).
Section Rec.
Variable fs : rfields.
Notation fresh := (VStruct (rzeros fs)).
Section Step.
Variables (T : gval -> Prop) (R : gval -> jv -> Prop) (f : vdec).
Hypothesis Robj : forall x v, R x v -> exists i j l, v = JObj i j l.
Hypothesis Rf : forall x v g, R x v -> T g /\ no_entries g = true -> exists g', f v g = VOk g' /\ same_value x g'.
Hypothesis Tz : T fresh.
Lemma fresh_both : T fresh /\ no_entries fresh = true.
Proof. split; [exact Tz|apply rzeros_no_entries]. Qed.
Lemma both (l : list gval) : Forall T l -> Forall empty_value l -> Forall (fun g => T g /\ no_entries g = true) l.
Proof. intros H. induction H; intros E; inversion E; subst; constructor; auto. Qed.
Lemma field_over k x v g : encodes_kind C O s R k x v -> tfield T k g -> no_entries g = true -> exists g', ideal_field C O s fs f k v g = VOk g' /\ same_value x g'.
Proof.
  destruct k as [| |kt|d]; cbn [encodes_kind ideal_field tfield]; intros En Ty Em.
  - destruct x as [| | | | | | | | | | |[x|]]; try contradiction.
    + destruct En as [_ H]. destruct (Robj _ _ H) as (i & j & l & ->).
      destruct (Rf _ _ (match g with VPtr (Some old) => old | _ => fresh end) H) as (g' & E & S).
      { destruct g as [| | | | | | | | | | |[g|]]; try apply fresh_both. cbn in Em. auto. }
      rewrite E. eexists; split; [reflexivity|constructor; exact S].
    + destruct v; try discriminate. eexists; split; [reflexivity|constructor].
  - destruct x as [| | | | | | | |[[vis hid]|]| | |]; destruct v; try contradiction.
    + assert (Q : Forall T (fst (contents g)) /\ Forall T (snd (contents g))).
      { unfold slice_of in Ty. destruct g as [| | | | | | | |[[? ?]|]| | |]; cbn; try contradiction; try exact Ty. split; constructor. }
      apply no_entries_slice in Em.
      destruct (slice_over fresh _ R f Rf fresh_both vis l false true g En (both _ (proj1 Q) (proj1 Em)) (both _ (proj2 Q) (proj2 Em))) as (gs' & hid' & E & S).
      rewrite E. eexists; split; [reflexivity|constructor; exact S].
    + eexists; split; [reflexivity|constructor].
  - destruct x as [| | | | | | | | |[m|]| |]; destruct v; try contradiction.
    + destruct En as (N & m1 & P & F).
      assert (Em' : (match g with VMap (Some m) => m | _ => [] end) = []) by (destruct g as [| | | | | | | | |[[|]|]| |]; try reflexivity; discriminate).
      rewrite Em'. destruct (entries_fresh C fresh R f (fun a b H => Rf a b fresh H fresh_both) kt true m1 l F) with (acc := @nil (gkey * gval)) as (m' & Ee & S).
      * eapply Permutation_NoDup; [apply Permutation_map, P|exact N].
      * intros y [].
      * rewrite Ee. eexists; split; [reflexivity|]. econstructor; [exact P|exact S].
    + eexists; split; [reflexivity|constructor].
  - apply ideal_encodes; [exact En|exact Ty|apply no_entries_maps, Em].
Qed.
Lemma struct_over x v gs : encodes_struct C O s fs R x v -> tfields T fs gs -> Forall empty_value gs ->
  exists g', ideal_struct C O s fs f v (VStruct gs) = VOk g' /\ same_value x g'.
Proof.
  intros E Ty Em. destruct x as [| | | | | | |xs| | | |]; try contradiction. destruct v; try contradiction.
  apply rec_members in E as (N & Lx & js & Pj & Fj). cbn [ideal_struct]. unfold ideal_fields.
  assert (Lz : length gs = length fs) by (symmetry; exact (Forall2_length _ _ _ Ty)).
  destruct (members_round O (rfield_for C O fs) (map (fun x => ideal_field C O s fs f (snd x)) fs) xs l js) with (gs := gs) as (gs' & Em' & Lg' & H1 & H2).
  - eapply Permutation_NoDup; [exact Pj|apply seq_NoDup].
  - congruence.
  - clear - Fj N Robj Rf Tz Ty Em. induction Fj as [|y j l js (x & g & Hf & Hg & Hn & HR) Fj IHF]; constructor; [|exact IHF].
    split; [eapply rname_selects; eassumption|]. destruct (tfields_nth T fs gs j x Ty Hf) as (g0 & Hg0 & T0).
    rewrite Forall_forall in Em. destruct (field_over _ _ _ g0 HR T0 (Em _ (nth_error_In _ _ Hg0))) as (g' & E' & S').
    exists (ideal_field C O s fs f (snd x)), g0, g', g. rewrite nth_error_map, Hf. cbn. auto.
  - rewrite Em'. eexists; split; [reflexivity|]. constructor. apply Forall2_nth; [congruence|]. intros q Hq. destruct (H1 q) as (g' & y & A1 & A2 & A3).
    { eapply Permutation_in; [exact Pj|]. apply in_seq. lia. }
    exists y, g'. auto.
Qed.
End Step.
Theorem rec_over x v g : encodes_rec C O s fs x v -> (forall n, rtyped fs n g) -> no_entries g = true ->
  exists g', ideal_rec C O s fs v g = VOk g' /\ same_value x g'.
Proof.
  intros E Ty. specialize (Ty (height v)). apply encodes_height in E. unfold ideal_rec. revert x g E Ty. generalize (height v) as n. intros n. revert v.
  induction n as [|n IH]; intros v x g E Ty Em; [destruct E|]. cbn [ideal_n encodes_n rtyped] in *. destruct Ty as (gs & -> & Ty).
  eapply (struct_over (rtyped fs n)); [apply encodes_obj| |apply rtyped_zero|exact E|exact Ty|apply all_empty, Em].
  intros a b g H [Tg Eg]. eapply IH; eassumption.
Qed.
End Rec.
Theorem walk_over t : forall x v g, wencodes C O s t x v -> wtyped t g -> no_entries g = true ->
  exists g', wideal C O s t v g = VOk g' /\ same_value x g'.
Proof.
  unfold wideal. induction t as [d|z fs|t IH|k t IH|t IH|z fs IH] using wt_ind'; intros x v g E Ty Em; cbn [MixedTrip.wencodes walk wtyped] in *.
  - apply ideal_encodes; [exact E|exact Ty|apply no_entries_maps, Em].
  - apply rec_over; assumption.
  - destruct x as [| | | | | | | |[[vis hid]|]| | |]; destruct v; try contradiction.
    + assert (Q : Forall (wtyped t) (fst (contents g)) /\ Forall (wtyped t) (snd (contents g))).
      { unfold slice_of in Ty. destruct g as [| | | | | | | |[[? ?]|]| | |]; cbn; try contradiction; try exact Ty. split; constructor. }
      apply no_entries_slice in Em.
      destruct (slice_over (wzero t) (fun g => wtyped t g /\ no_entries g = true) (wencodes C O s t) _ (fun x v g H Hg => IH x v g H (proj1 Hg) (proj2 Hg))
                  (conj (wtyped_zero t) (wzero_no_entries t)) vis l false (carried (flatt t)) g E
                  (both _ _ (proj1 Q) (proj1 Em)) (both _ _ (proj2 Q) (proj2 Em))) as (gs' & hid' & E' & S').
      rewrite E'. eexists; split; [reflexivity|constructor; exact S'].
    + eexists; split; [reflexivity|constructor].
  - destruct x as [| | | | | | | | |[m|]| |]; destruct v; try contradiction.
    + destruct E as (N & m1 & P & F).
      assert (Em' : (match g with VMap (Some m) => m | _ => [] end) = []) by (destruct g as [| | | | | | | | |[[|]|]| |]; try reflexivity; discriminate).
      rewrite Em'. destruct (entries_fresh C (wzero t) (wencodes C O s t) _ (fun a b H => IH a b (wzero t) H (wtyped_zero t) (wzero_no_entries t)) k (is_struct (flatt t)) m1 l F) with (acc := @nil (gkey * gval)) as (m' & Ee & S').
      * eapply Permutation_NoDup; [apply Permutation_map, P|exact N].
      * intros y [].
      * rewrite Ee. eexists; split; [reflexivity|]. econstructor; [exact P|exact S'].
    + eexists; split; [reflexivity|constructor].
  - destruct x as [| | | | | | | | | | |[x|]]; try contradiction.
    + destruct E as [Nn E]. destruct (IH _ _ _ E (wtyped_zero t) (wzero_no_entries t)) as (g' & E' & S').
      destruct v; try discriminate; rewrite E'; (eexists; split; [reflexivity|constructor; exact S']).
    + destruct v; try discriminate. eexists; split; [reflexivity|constructor].
  - destruct x as [| | | | | | |xs| | | |]; try contradiction. destruct v; try contradiction.
    apply (wmembers C O s z _ _ 0 0) in E as (N & Lx & js & Pj & Fj).
    destruct Ty as (gs & -> & Ty). pose proof (Forall2_length _ _ _ Ty) as Lz. rewrite map_length in Lz. cbn in Em. apply all_empty in Em.
    match goal with |- context [ideal_members O ?sel ?ds l ?z0] =>
      destruct (members_round O sel ds xs l js) with (gs := z0) as (gs' & Em' & Lg' & H1 & H2) end.
    + eapply Permutation_NoDup; [exact Pj|apply seq_NoDup].
    + congruence.
    + clear - Fj N IH Ty Em. rewrite Forall_forall in IH, Em. induction Fj as [|y j l js (x & g & Hf & Hg & Hn & HR) Fj IHF]; constructor; [|exact IHF].
      split; [eapply wname_selects; eassumption|].
      assert (H0 : exists g0, nth_error gs j = Some g0 /\ wtyped (snd x) g0).
      { clear - Ty Hf. revert gs Ty j Hf. induction fs as [|y fs IH]; intros gs Ty [|j] Hf; try discriminate; cbn in Ty; inversion Ty as [|? g ? gs' A B]; subst; cbn in *; [injection Hf as <-; eauto|eauto]. }
      destruct H0 as (g0 & Hg0 & T0). destruct (IH x (nth_error_In _ _ Hf) _ _ g0 HR T0 (Em _ (nth_error_In _ _ Hg0))) as (g' & E' & S').
      eexists _, g0, g', g. rewrite !nth_error_map, Hf. cbn. eauto.
    + rewrite Em'. eexists; split; [reflexivity|]. constructor. apply Forall2_nth; [congruence|]. intros q Hq. destruct (H1 q) as (g' & y & A1 & A2 & A3).
      { eapply Permutation_in; [exact Pj|]. apply in_seq. lia. }
      exists y, g'. auto.
Qed.
End Over.

(** ** Proofs: types without maps *)
Lemma typed_no_maps d : forall g, no_maps d = true -> typed d g -> no_entries g = true.
Proof.
  induction d as [x|id z|id z| |n t IH| |t IH|k t IH| |t IH|z fs IH] using dt_ind'; intros g N Ty; cbn [no_maps] in N; try discriminate.
  - cbn in Ty. destruct x, g; try contradiction; reflexivity.
  - cbn in Ty. destruct g; try contradiction; reflexivity.
  - cbn in Ty. destruct g; try contradiction; reflexivity.
  - cbn in Ty. subst. reflexivity.
  - cbn in Ty. destruct g; try contradiction. cbn. apply all_empty. eapply Forall_impl; [|apply Ty]. intros a. apply IH, N.
  - cbn in Ty. subst. reflexivity.
  - cbn in Ty. destruct g as [| | | | | | | |[[vis hid]|]| | |]; try contradiction; [|reflexivity]. cbn. apply andb_true_intro.
    split; apply all_empty; (eapply Forall_impl; [|apply Ty]; intros a; apply IH, N).
  - cbn in Ty. destruct g; try contradiction. reflexivity.
  - cbn in Ty. destruct g as [| | | | | | | | | | |[g|]]; try contradiction; [|reflexivity]. cbn. apply IH; assumption.
  - apply typed_struct in Ty as (gs & -> & Ty). cbn [no_entries]. apply all_empty. revert gs Ty. induction IH as [|x fs Hx IH IHl]; intros [|g gs] Ty; cbn in *; try contradiction; constructor.
    + apply andb_prop in N as [N _]. apply Hx; [exact N|apply Ty].
    + apply andb_prop in N as [_ N]. apply IHl; [exact N|apply Ty].
Qed.
Lemma repn_no_maps w64 z fs n : forallb (fun x => match snd x with RMap _ => false | RSub d => no_maps d | _ => true end) fs = true ->
  forall h p g F, repn w64 z fs n h p g F -> no_entries g = true.
Proof.
  intros N. induction n as [|n IH]; intros h p g F R; [destruct R|]. cbn [repn] in R. destruct R as (gs & -> & R). cbn [no_entries]. apply all_empty.
  revert gs F N R. generalize (repn w64 z fs n) as rp, IH. clear IH. intros rp IH.
  enough (H : forall l gs F, forallb (fun x : bytes * Z * rk => match snd x with RMap _ => false | RSub d => no_maps d | _ => true end) l = true ->
     reps (map (fun x => (snd (fst x), rep_field w64 z fs rp (snd x))) l) h p gs F -> Forall empty_value gs) by exact (H fs).
  induction l as [|x l IHl]; intros [|g gs] F N R; cbn in R; try contradiction; constructor.
  - destruct R as (F1 & F2 & _ & R & _). cbn in N. apply andb_prop in N as [N _]. destruct (snd x) as [| |kt|d]; try discriminate; cbn [rep_field] in R.
    + destruct R as (c & _ & R). destruct c; try contradiction; [destruct R as [-> _]; reflexivity|]. destruct R as (v & F' & -> & R & _). cbn. eapply IH, R.
    + destruct R as (c & _ & R). destruct c; try contradiction; [destruct R as [-> _]; reflexivity|]. destruct R as (vis & hid & F' & -> & _ & _ & _ & R & _).
      apply reps_typed with (P := empty_value) in R as [_ R]; [|exact IH]. apply Forall_app in R as [A B]. cbn. apply andb_true_intro. split; apply all_empty; assumption.
    + eapply typed_no_maps; [exact N|]. eapply rep_typed, R.
  - destruct R as (F1 & F2 & _ & _ & R). cbn in N. apply andb_prop in N as [_ N]. eapply IHl; [exact N|exact R].
Qed.
Lemma wrep_no_maps w64 t : wno_maps t = true -> forall h p g F, wrep w64 t h p g F -> no_entries g = true.
Proof.
  induction t as [d|z fs|t IH|k t IH|t IH|z fs IH] using wt_ind'; intros N h p g F R; cbn [wno_maps wrep] in *; try discriminate.
  - eapply typed_no_maps; [exact N|eapply rep_typed, R].
  - destruct R as (n & R). eapply repn_no_maps; eassumption.
  - destruct R as (c & _ & R). destruct c; try contradiction; [destruct R as [-> _]; reflexivity|]. destruct R as (vis & hid & F' & -> & _ & _ & _ & R & _).
    apply reps_typed with (P := empty_value) in R as [_ R]; [|exact (IH N)]. apply Forall_app in R as [A B]. cbn. apply andb_true_intro. split; apply all_empty; assumption.
  - destruct R as (c & _ & R). destruct c; try contradiction; [destruct R as [-> _]; reflexivity|]. destruct R as (v & F' & -> & R & _). cbn. eapply IH; [exact N|exact R].
  - destruct R as (gs & -> & R). cbn [no_entries]. apply all_empty. revert gs F N R. induction IH as [|x fs Hx IH IHl]; intros [|g gs] F N R; cbn in R; try contradiction; constructor.
    + destruct R as (F1 & F2 & _ & R & _). cbn in N. apply andb_prop in N as [N _]. eapply Hx; [exact N|exact R].
    + destruct R as (F1 & F2 & _ & _ & R). cbn in N. apply andb_prop in N as [_ N]. eapply IHl; [exact N|exact R].
Qed.

(** ** Theorems *)
(** Any encoding in the class of Mixed.v, decoded into any variable without map entries. *)
Theorem C75_in_class C O E dis T t stk D s v x a h g F :
  wdecoder_for C E dis T t stk D -> json_text s v -> wlast C O true t v -> wencodes C O s t x v ->
  wvariable C t h a g F -> no_entries g = true ->
  exists D' h' g' F', Decode C O stk D s (TOk (flat 0 v)) (Some a) h = Ret (-1) None D' h' /\
    wvariable C t h' a g' F' /\ same_value x g' /\ only h h' (Some a) (wsize C t) F F'.
Proof.
  intros Df J Ct En V Em. pose proof (C26_mixed_partial C O E dis T t stk D s v a h g F Df J Ct (wencodes_sound C O s t x v En) V) as Q.
  destruct (walk_over C O s t x v g En (wrep_typed C t _ _ _ _ (proj1 V)) Em) as (g' & E' & S). rewrite E' in Q.
  destruct Q as (D' & h' & F' & Q & V' & Y). exists D', h', g', F'. auto.
Qed.
(** Trees with recursion through pointers, in maps, in structs, behind pointers ([wtree]). *)
Theorem C75_decode_inverts_encoding C O E dis T t stk D s v x a h g F :
  wdecoder_for C E dis T t stk D -> wtree C t = true -> json_text s v -> wencodes C O s t x v ->
  wvariable C t h a g F -> no_entries g = true ->
  exists D' h' g' F', Decode C O stk D s (TOk (flat 0 v)) (Some a) h = Ret (-1) None D' h' /\
    wvariable C t h' a g' F' /\ same_value x g' /\ only h h' (Some a) (wsize C t) F F'.
Proof. intros Df Tr J En V Em. exact (C75_in_class C O E dis T t stk D s v x a h g F Df J (wencodes_last C O s t Tr x v En) En V Em). Qed.
(** Without maps: into any variable, whatever tree it holds. *)
Theorem C75_overwrites C O E dis T t stk D s v x a h g F :
  wdecoder_for C E dis T t stk D -> wtree C t = true -> wno_maps t = true -> json_text s v -> wencodes C O s t x v ->
  wvariable C t h a g F ->
  exists D' h' g' F', Decode C O stk D s (TOk (flat 0 v)) (Some a) h = Ret (-1) None D' h' /\
    wvariable C t h' a g' F' /\ same_value x g' /\ only h h' (Some a) (wsize C t) F F'.
Proof.
  intros Df Tr N J En V. exact (C75_decode_inverts_encoding C O E dis T t stk D s v x a h g F Df Tr J En V (wrep_no_maps _ t N _ _ _ _ (proj1 V))).
Qed.
(** Every value of such a type that JSON can express has a text from which Decode makes it. *)
Theorem C75_every_value_has_a_text C O E dis T t stk D x a h g F :
  wdecoder_for C E dis T t stk D -> wtree C t = true -> wwritable C t x ->
  wvariable C t h a g F -> no_entries g = true ->
  exists s v, json_text s v /\
    exists D' h' g' F', Decode C O stk D s (TOk (flat 0 v)) (Some a) h = Ret (-1) None D' h' /\
      wvariable C t h' a g' F' /\ same_value x g'.
Proof.
  intros Df Tr W V Em. destruct (wprint C O t x W) as (v & Wf & _ & En). exists (render v), (place 0 v). split; [apply render_text, Wf|].
  destruct (C75_decode_inverts_encoding C O E dis T t stk D (render v) (place 0 v) x a h g F Df Tr (render_text v Wf) (En _ _) V Em) as (D' & h' & g' & F' & Q & V' & S & _).
  exists D', h', g', F'. auto.
Qed.
(** The order of members, and decoding again ([wany], [wunlike]: see C62, C44). *)
Theorem C75_member_order C O E dis T t stk D1 D2 s1 s2 v1 v2 a1 a2 h1 h2 g F1 F2 :
  wno_json t = true -> wdecoder_for C E dis T t stk D1 -> wdecoder_for C E dis T t stk D2 -> wany C O t = true -> wno_quoted_numbers t = true ->
  json_text s1 v1 -> json_text s2 v2 -> reordered v1 v2 -> wunlike C O t v1 ->
  wvariable C t h1 a1 g F1 -> wvariable C t h2 a2 g F2 ->
  (exists D1' D2' h1' h2' g1 g2 F1' F2',
     Decode C O stk D1 s1 (TOk (flat 0 v1)) (Some a1) h1 = Ret (-1) None D1' h1' /\ wvariable C t h1' a1 g1 F1' /\
     Decode C O stk D2 s2 (TOk (flat 0 v2)) (Some a2) h2 = Ret (-1) None D2' h2' /\ wvariable C t h2' a2 g2 F2' /\
     same_value g1 g2) \/
  (exists D1' D2' h1' h2' i1 i2 e1 e2,
     Decode C O stk D1 s1 (TOk (flat 0 v1)) (Some a1) h1 = Ret i1 (Some e1) D1' h1' /\
     Decode C O stk D2 s2 (TOk (flat 0 v2)) (Some a2) h2 = Ret i2 (Some e2) D2' h2').
Proof. exact (C44_mixed_every_document_partial C O E dis T t stk D1 D2 s1 s2 v1 v2 a1 a2 h1 h2 g F1 F2). Qed.
Theorem C75_decoding_again C O E dis T t stk D s v a h g F D1 h1 :
  wno_user t = true -> wany C O t = true -> wdecoder_for C E dis T t stk D -> json_text s v -> wunlike C O t v -> wvariable C t h a g F ->
  Decode C O stk D s (TOk (flat 0 v)) (Some a) h = Ret (-1) None D1 h1 ->
  exists g1 F1 D2 h2 F2, wvariable C t h1 a g1 F1 /\
    Decode C O stk D1 s (TOk (flat 0 v)) (Some a) h1 = Ret (-1) None D2 h2 /\ wvariable C t h2 a g1 F2.
Proof. exact (C45_mixed_every_document_partial C O E dis T t stk D s v a h g F D1 h1). Qed.

(** ** Cases *)
(** type Node struct { V int8; left, R *Node }: a tree is decoded into a new variable and
    then, with the same decoder, an encoding of another tree into the same variable: its
    nulls remove left and R.R of the first tree, R is reused. *)
Definition over_wt : wt := WRec 24 doc_node.
Definition over_stk : list frame := Eval vm_compute in stack_of E_doc (TNamed 0).
Definition over_old : bytes := bs "{""V"":1,""left"":{""V"":2,""left"":{""V"":3}},""R"":{""V"":4,""R"":{""V"":5},""left"":null}}".
Definition over_old_doc : jv := Eval vm_compute in tree_of over_old.
Definition over_new : bytes := bs "{""R"":{""left"":{""R"":null,""V"":-128,""left"":null},""R"":null,""V"":7}, ""\u0056"":0,""left"":null}".
Definition over_new_doc : jv := Eval vm_compute in tree_of over_new.
Definition over_value : gval := dnode 0 None (Some (dnode 7 (Some (dnode (-128) None None)) None)).
Lemma over_decoder : wdecoder_for wC E_doc false (TNamed 0) over_wt over_stk (dyn0 over_stk).
Proof.
  split.
  - intros [|[|[|[|i]]]]; reflexivity.
  - eexists. apply W_rec. exists 0%nat, 0%nat. eexists. split; [reflexivity|]. split; [split; reflexivity|]. split; [reflexivity|]. split; [lia|]. split; [cbn; intuition discriminate|]. split.
    + eapply RF_field; [apply known_plain|apply R_sc; [exact I|reflexivity]|].
      eapply RF_back with (q := false) (ks := []); [|discriminate|apply B_ptr; [split; reflexivity|reflexivity]|].
      { exists (bs "left"), []. split; [apply tag_name; vm_compute; intuition discriminate|]. split; [discriminate|]. split; [reflexivity|]. split; discriminate. }
      eapply RF_back with (q := false) (ks := []); [apply known_plain|discriminate|apply B_ptr; [split; reflexivity|reflexivity]|apply RF_nil].
    + exists ((bs "R", 16), RSelf). split; [cbn; auto|discriminate].
  - split; [apply layoutb_spec; vm_compute; reflexivity|lia].
  - exists 50%nat. vm_compute. reflexivity.
  - constructor.
Qed.
Lemma over_encodes : wencodes wC default_opts over_new over_wt over_value over_new_doc.
Proof.
  assert (Int : forall k r z, is_int r = true -> int_value r = z -> in_range (kind_of wC k) z -> nk_signed k = true -> is_integer wC k r z).
  { intros k r z J V I S. split; [apply is_int_spec, J|]. split; [exact V|]. split; [exact I|]. congruence. }
  assert (N : NoDup (rnames doc_node)) by (unfold doc_node, rnames; cbn [map fst snd]; nodup).
  assert (B : forall n i j l l1 v p q, Permutation l l1 ->
     encodes_fields default_opts (map (fun x => (fst (fst x), encodes_kind wC default_opts over_new (encodes_n wC default_opts over_new doc_node n) (snd x))) doc_node) [VInt v; VPtr p; VPtr q] l1 ->
     encodes_n wC default_opts over_new doc_node (S n) (dnode v p q) (JObj i j l)).
  { intros. cbn [encodes_n encodes_struct]. split; [exact N|]. exists l1. auto. }
  unfold over_value, over_new_doc, over_wt. cbn [wencodes].
  Ltac fields2 Int := unfold doc_node; cbn [map fst snd];
    repeat match goal with |- encodes_fields _ (_ :: _) _ _ => split; [split; [split; [str|discriminate]|]|] end; [| | |exact I]; cbn [encodes_kind snd];
    [cbn; apply Int; [reflexivity|reflexivity|vm_compute; split; discriminate|reflexivity]| |].
  exists 3%nat. eapply B; [eapply perm_trans; [apply perm_swap|apply perm_skip, perm_swap]|]. fields2 Int; [reflexivity|]. split; [reflexivity|].
  eapply B; [eapply perm_trans; [apply Permutation_rev|]; cbn [rev app]; apply perm_skip, perm_swap|]. fields2 Int; [|reflexivity]. split; [reflexivity|].
  eapply B; [eapply perm_trans; [apply perm_swap|apply perm_skip, perm_swap]|]. fields2 Int; reflexivity.
Qed.
Example C75_case :
  wtree wC over_wt = true /\ wno_maps over_wt = true /\ wno_json over_wt = true /\ wno_user over_wt = true /\
  json_text over_old over_old_doc /\ json_text over_new over_new_doc /\
  exists D1 h1 F1 D2 h2 g2 F2,
    Decode wC default_opts over_stk (dyn0 over_stk) over_old (TOk (flat 0 over_old_doc)) dest (world 24) = Ret (-1) None D1 h1 /\
    wvariable wC over_wt h1 (1%nat, 0)
      (dnode 1 (Some (dnode 2 (Some (dnode 3 None None)) None)) (Some (dnode 4 None (Some (dnode 5 None None))))) F1 /\
    Decode wC default_opts over_stk D1 over_new (TOk (flat 0 over_new_doc)) dest h1 = Ret (-1) None D2 h2 /\
    wvariable wC over_wt h2 (1%nat, 0) g2 F2 /\ same_value over_value g2.
Proof.
  assert (J1 : json_text over_old over_old_doc) by (apply parse_sound; vm_compute; reflexivity).
  assert (J2 : json_text over_new over_new_doc) by (apply parse_sound; vm_compute; reflexivity).
  do 4 (split; [reflexivity|]). split; [exact J1|]. split; [exact J2|].
  pose proof (wvariable_new _ _ _ _ _ _ _ (world 24) (1%nat, 0) over_decoder (world_zero 24) (world_own 24)) as V.
  assert (Ct' : wlast wC default_opts true over_wt over_old_doc) by (apply wlastb_spec; vm_compute; reflexivity).
  pose proof (C26_mixed_characterised_partial wC default_opts E_doc false (TNamed 0) over_wt over_stk (dyn0 over_stk) over_old over_old_doc (1%nat, 0) (world 24) (wzero over_wt) [] over_decoder J1 Ct' V) as Q.
  match type of Q with match ?X with _ => _ end =>
    let y := eval vm_compute in X in replace X with y in Q by (vm_compute; reflexivity) end.
  destruct Q as (D1 & h1 & F1 & Q & V1 & _).
  assert (Df1 : wdecoder_for wC E_doc false (TNamed 0) over_wt over_stk D1).
  { pose proof over_decoder as [A1 A2 A3 A4 A5]. constructor; try assumption. eapply wu_ok; [exact A5|exact J1|exact Ct'|exact Q]. }
  destruct (C75_overwrites wC default_opts E_doc false (TNamed 0) over_wt over_stk D1 over_new over_new_doc over_value (1%nat, 0) h1 _ F1 Df1 eq_refl eq_refl J2 over_encodes V1) as (D2 & h2 & g2 & F2 & Q2 & V2 & S & _).
  exists D1, h1, F1, D2, h2, g2, F2. auto.
Qed.
(** C75_decode_inverts_encoding, C75_every_value_has_a_text, C75_member_order and
    C75_decoding_again: a pointer to a map of nodes (MixedTrip.v, MixedOrder.v). *)
Example C75_case_map :
  wtree wC mapp_wt = true /\ json_text mtr_text mtr_doc /\ wencodes wC default_opts mtr_text mapp_wt mtr_value mtr_doc /\ wwritable wC mapp_wt mtr_value /\
  wvariable wC mapp_wt (world 8) (1%nat, 0) (wzero mapp_wt) [] /\ no_entries (wzero mapp_wt) = true /\
  wno_json mapp_wt = true /\ wno_user mapp_wt = true /\ wany wC strict mapp_wt = true /\ wno_quoted_numbers mapp_wt = true /\
  reordered mapp_doc mapp_doc' /\ wunlike wC strict mapp_wt mapp_doc.
Proof.
  split; [reflexivity|]. split; [apply parse_sound; vm_compute; reflexivity|]. split; [exact mtr_encodes|]. split; [apply C43_mixed_case|].
  split; [exact (wvariable_new _ _ _ _ _ _ _ (world 8) (1%nat, 0) mapp_decoder (world_zero 8) (world_own 8))|].
  repeat (split; [reflexivity|]). split; [exact mapp_reordered|exact mapp_unlike].
Qed.

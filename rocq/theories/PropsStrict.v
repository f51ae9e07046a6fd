(** C15, C16, C17 for every document whatsoever, on a class of types instead of a class of
    documents: no pointer and no struct{} below the root ([root_shape], Encodes.v), and no
    structs unless unknown members are disallowed (option DisallowUnknownFields).
    The exclusions are necessary: C16_refuted_out_of_bounds, C17_refuted_unknown_member
    (unknown members), C25_refuted_... (pointers), C20_refuted_empty_struct. *)
From Verif Require Import Base NumSpec StrSpec Types AppendType Token FloatLit Heap Machine Dt Dec Control Root Elab Value Dval Sep Refine Spec Typed SpecProofs Main Parse World Elaborate PropsDecode PropsNested Encodes.
Open Scope Z_scope.

Fixpoint structless (d : dt) : bool :=
  match d with
  | DStruct _ _ => false
  | DArr _ t | DSlice t | DMap _ t | DPtr t => structless t
  | _ => true
  end.
Definition any_document (O : opts) (d : dt) : bool := root_shape d && (o_unknown O || structless d).

Section Ctl.
Variables (C : cfg) (O : opts).
Lemma inner_ctl d : no_inner_ptr d = true -> o_unknown O || structless d = true -> forall v, ctl C O d v.
Proof.
  induction d as [x|id z|id z| |n t IH| |t IH|k t IH| |t IH|z fs IH] using dt_ind'; intros Np Us v; cbn [no_inner_ptr structless ctl] in *; try exact I; try discriminate.
  - destruct v; try exact I. apply Forall_forall. intros x _. apply IH; assumption.
  - destruct (fast_et t); [exact I|]. destruct v; try exact I. apply Forall_forall. intros x _. apply IH; assumption.
  - destruct v; try exact I. apply Forall_forall. intros x _. apply IH; assumption.
  - rewrite orb_false_r in Us. destruct v; try exact I. apply Forall_forall. intros x _. destruct (pick _ _ _ _) as [j'|]; [|left; exact Us].
    rewrite nth_error_map. destruct (nth_error fs j') as [q|] eqn:Eq; [|exact I]. cbn. apply nth_error_In in Eq. rewrite Forall_forall in IH. rewrite forallb_forall in Np.
    apply (IH q Eq (Np q Eq)). rewrite Us. reflexivity.
Qed.
Lemma any_ctl d : any_document O d = true -> forall v, ctl_root C O d v.
Proof.
  intros H v. apply andb_true_iff in H as [Rs Us]. apply ctl_root_top. revert Rs Us v.
  induction d as [x|id z|id z| |n t IH| |t IH|k t IH| |t IH|z fs IH] using dt_ind'; intros Rs Us v;
    try (cbn [ctl_top]; rewrite ctl_on by (apply inner_ctl; [exact Rs|exact Us]); discriminate).
  - cbn [ctl_top lag_of]. destruct v; discriminate.
  - cbn [ctl_top root_shape structless] in *. destruct v; try exact I; apply IH; assumption.
Qed.
End Ctl.

(** ** C15: on every document Decode computes the recursive decoder *)
Theorem C15_every_document_partial C O E dis T d stk D s v a h g F :
  decoder_for C E dis T d stk D -> any_document O d = true -> json_text s v -> variable C d h a g F ->
  match dval C O s d v g with
  | VOk g' => exists D' h' F', Decode C O stk D s (TOk (flat 0 v)) (Some a) h = Ret (-1) None D' h' /\
      variable C d h' a g' F' /\ only h h' (Some a) (dsize (c_w64 C) d) F F'
  | VErr i e g' => exists D' h' F', Decode C O stk D s (TOk (flat 0 v)) (Some a) h = Ret (Z.of_nat i) (Some e) D' h' /\
      variable C d h' a g' F' /\ only h h' (Some a) (dsize (c_w64 C) d) F F'
  | VPan => Decode C O stk D s (TOk (flat 0 v)) (Some a) h = DPanics
  end.
Proof. intros Df A J V. exact (C15_decode_is_recursive_partial C O E dis T d stk D s v a h g F Df J (any_ctl C O d A v) V). Qed.

(** ** C16: on every document only the destination is written *)
Theorem C16_every_document_partial C O E dis T d stk D s v a h g F :
  decoder_for C E dis T d stk D -> any_document O d = true -> json_text s v -> variable C d h a g F ->
  match Decode C O stk D s (TOk (flat 0 v)) (Some a) h with
  | Ret _ _ _ h' => exists g' F', variable C d h' a g' F' /\ only h h' (Some a) (dsize (c_w64 C) d) F F'
  | DPanics => True
  | _ => False
  end.
Proof. intros Df A J V. exact (C16_writes_only_destination_partial C O E dis T d stk D s v a h g F Df J (any_ctl C O d A v) V). Qed.

(** ** C17: no panic on any document, for types without numbers in strings *)
(** No Number, no `string` option on a number, no integer map keys. *)
Fixpoint no_quoted_numbers (d : dt) : bool :=
  match d with
  | DSc (SNumber | SIntQ _ | SFloatQ _) => false
  | DArr _ t | DSlice t | DPtr t => no_quoted_numbers t
  | DMap k t => match k with KeyInt _ => false | _ => no_quoted_numbers t end
  | DStruct _ fs => forallb (fun x => no_quoted_numbers (snd x)) fs
  | _ => true
  end.
Lemma no_quoted_nonempty C O d : no_quoted_numbers d = true -> forall v, no_empty_number C O d v.
Proof.
  unfold no_empty_number. induction d as [x|id z|id z| |n t IH| |t IH|k t IH| |t IH|z fs IH] using dt_ind'; intros N v; cbn [no_quoted_numbers leaves] in *; try exact I.
  - destruct x; try discriminate; exact I.
  - destruct v; try exact I. apply Forall_forall. intros x _. apply IH, N.
  - destruct v; try exact I. apply Forall_forall. intros x _. apply IH, N.
  - destruct v; try exact I. apply Forall_forall. intros x _. destruct k; try discriminate; (split; [exact I|apply IH, N]).
  - destruct v; try exact I; apply IH, N.
  - destruct v; try exact I. apply Forall_forall. intros x _. destruct (pick _ _ _ _) as [j'|]; [|exact I].
    rewrite nth_error_map. destruct (nth_error fs j') as [q|] eqn:Eq; [|exact I]. cbn. apply nth_error_In in Eq. rewrite Forall_forall in IH. rewrite forallb_forall in N.
    apply (IH q Eq (N q Eq)).
Qed.
Theorem C17_every_document_partial C O E dis T d stk D s v a h g F :
  decoder_for C E dis T d stk D -> any_document O d = true -> no_quoted_numbers d = true -> json_text s v -> variable C d h a g F ->
  exists i e D' h', Decode C O stk D s (TOk (flat 0 v)) (Some a) h = Ret i e D' h'.
Proof. intros Df A N J V. exact (C17_no_panic_partial C O E dis T d stk D s v a h g F Df J (any_ctl C O d A v) (no_quoted_nonempty C O d N v) V). Qed.

(** Case: the type of C15_case with DisallowUnknownFields, and map[string][][2]any with any
    options. *)
Definition strict : opts := Opts true false false.
Example any_document_case : any_document strict ex_dt = true /\ any_document default_opts ex_dt = false /\
  (let d := DMap KeyStr (DSlice (DArr 2 (DSc SAny))) in any_document default_opts d = true /\ no_quoted_numbers d = true).
Proof. repeat split; reflexivity. Qed.
Example C15_every_document_case (v : jv) (s : bytes) : json_text s v ->
  exists r, Decode wC strict ex_stk (dyn0 ex_stk) s (TOk (flat 0 v)) dest (world 48) = r /\ r <> DCorrupts /\ r <> DLoops.
Proof.
  intros J. pose proof (world_rep ex_dt (df_layout _ _ _ _ _ _ _ ex_decoder)) as [R Ow].
  pose proof (C16_every_document_partial _ strict _ _ _ _ _ _ s v (1%nat, 0) _ _ [] ex_decoder eq_refl J (conj R Ow)) as Q.
  eexists. split; [reflexivity|]. change (Some ((1%nat, 0) : addr)) with dest in Q. change (world (dsize true ex_dt)) with (world 48) in Q.
  destruct (Decode wC strict ex_stk (dyn0 ex_stk) s (TOk (flat 0 v)) dest (world 48)); try contradiction; split; discriminate.
Qed.

(** C60, C61: which documents Decode accepts. *)
From Verif Require Import Base NumSpec StrSpec Types AppendType Token FloatLit Heap Machine Dt Dec Control Root Elab Value Dval Sep Refine Spec Typed SpecProofs Main Parse World Elaborate PropsDecode PropsHistory PropsStrict Actual PropsExact Accept.
Open Scope Z_scope.

(** What the caller learns from a call without looking at the memory. *)
Inductive answer := Answer (i : Z) (e : option err) | APanic | ACorrupt | ALoop.
Definition answer_of (r : result) : answer :=
  match r with Ret i e _ _ => Answer i e | DPanics => APanic | DCorrupts => ACorrupt | DLoops => ALoop end.
Definition verdict_answer (c : verdict) : answer :=
  match c with Accepted => Answer (-1) None | Refused i e => Answer (Z.of_nat i) (Some e) | Panics => APanic end.

(** ** C60 *)
(** The answer is [check] of the type and the document: it depends neither on the memory,
    nor on the previous contents of the destination, nor on the history of the decoder.
    ([steady]: the errors of the user's UnmarshalJSON and UnmarshalText do not depend on the
    value they are called on.) *)
Theorem C60_verdict_partial C O E dis T d stk D s v a h g F :
  steady C -> decoder_for C E dis T d stk D -> json_text s v -> ctl_root C O d v -> variable C d h a g F ->
  answer_of (Decode C O stk D s (TOk (flat 0 v)) (Some a) h) = verdict_answer (check C O s d v).
Proof.
  intros St Df J Ct V. pose proof (C15_characterised_partial C O E dis T d stk D s v a h g F Df J Ct V) as Q.
  destruct V as [R _]. pose proof (actual_ends C O s St d v g (rep_typed _ _ _ _ _ _ R)) as A.
  destruct (actual C O s d v g) as [g'|i e g'|], (check C O s d v) as [|i' e'|]; cbn in A; try contradiction.
  - destruct Q as (D' & h' & F' & -> & _). reflexivity.
  - destruct A as [-> ->]. destruct Q as (D' & h' & F' & -> & _). reflexivity.
  - rewrite Q. reflexivity.
Qed.
(** For plain types this holds for every document. *)
Theorem C60_plain_types C O E dis T d stk D s v a h g F :
  steady C -> decoder_for C E dis T d stk D -> any_document O d = true -> json_text s v -> variable C d h a g F ->
  answer_of (Decode C O stk D s (TOk (flat 0 v)) (Some a) h) = verdict_answer (check C O s d v).
Proof. intros St Df A J V. exact (C60_verdict_partial C O E dis T d stk D s v a h g F St Df J (any_ctl C O d A v) V). Qed.
(** Two calls with the same document: different decoders for the type, different variables
    with different contents in different memories. *)
Theorem C60_contents_do_not_matter C O E dis T d stk D1 D2 s v a1 a2 h1 h2 g1 g2 F1 F2 :
  steady C -> decoder_for C E dis T d stk D1 -> decoder_for C E dis T d stk D2 -> any_document O d = true -> json_text s v ->
  variable C d h1 a1 g1 F1 -> variable C d h2 a2 g2 F2 ->
  answer_of (Decode C O stk D1 s (TOk (flat 0 v)) (Some a1) h1) = answer_of (Decode C O stk D2 s (TOk (flat 0 v)) (Some a2) h2).
Proof.
  intros St Df1 Df2 A J V1 V2.
  rewrite (C60_plain_types C O E dis T d stk D1 s v a1 h1 g1 F1 St Df1 A J V1), (C60_plain_types C O E dis T d stk D2 s v a2 h2 g2 F2 St Df2 A J V2). reflexivity.
Qed.
(** Case: the type and the documents of C53_case; the second is refused at the object in B. *)
Definition acc_ty : ty := TStruct 1 40 [(fld0 "A" 0, tInt8); (fld0 "B" 8, TArr 3 (TFloat B64)); (fld0 "C" 32, TMap TStr (TSlice TStr))].
Definition acc_dt : dt := Eval vm_compute in match elab true plain_env false 50 [] acc_ty with Some (d, _) => d | None => DEmpty end.
Definition acc_stk : list frame := Eval vm_compute in stack_of plain_env acc_ty.
Definition acc_text : bytes := bs "{""C"":{""k"":[""y""]},""B"":[1,2,{}],""X"":1}".
Lemma steady_w : steady wC.
Proof. split; reflexivity. Qed.
Example C60_case :
  steady wC /\ decoder_for wC plain_env false acc_ty acc_dt acc_stk (dyn0 acc_stk) /\ any_document strict acc_dt = true /\
  json_text acc_text (tree_of acc_text) /\ variable wC acc_dt (world 40) (1%nat, 0) (zero acc_dt) [] /\
  check wC strict acc_text acc_dt (tree_of acc_text) = Refused 26 EUnexpected /\
  check wC strict (bs "{""A"":1,""C"":null}") acc_dt (tree_of (bs "{""A"":1,""C"":null}")) = Accepted.
Proof.
  split; [exact steady_w|].
  assert (Df : decoder_for wC plain_env false acc_ty acc_dt acc_stk (dyn0 acc_stk)).
  { eapply new_decoder; [apply plain_env_sizes|vm_compute; reflexivity|vm_compute; reflexivity|vm_compute; reflexivity]. }
  split; [exact Df|]. split; [reflexivity|]. split; [apply parse_sound; vm_compute; reflexivity|].
  split; [exact (world_rep acc_dt (df_layout _ _ _ _ _ _ _ Df))|]. split; vm_compute; reflexivity.
Qed.
(** Without DisallowUnknownFields the previous contents matter: []struct{ B int } and a
    document with an unknown member that holds an object.  A new variable is overrun (the
    document has two elements, the decoder stores three); a variable that had four elements
    is not. *)
Definition acc_full : result :=
  Decode wC default_opts hs_stk (dyn0 hs_stk) (bs "[{},{},{},{}]") (TOk (flat 0 (tree_of (bs "[{},{},{},{}]")))) dest (world 24).
Theorem C60_refuted_unknown_members :
  let s := bs "[{""u"":{}},{""b"":2}]" in
  meaningful plain_env hs_ty s /\ meaningful plain_env hs_ty (bs "[{},{},{},{}]") /\
  answer_of acc_full = Answer (-1) None /\
  answer_of (Decode wC default_opts hs_stk (dyn0 hs_stk) s (TOk (flat 0 (tree_of s))) dest (world 24)) = ACorrupt /\
  answer_of (Decode wC default_opts hs_stk (dyn0 hs_stk) s (TOk (flat 0 (tree_of s))) dest (heap_after acc_full)) <> ACorrupt.
Proof.
  cbn zeta. split; [meaningful|]. split; [meaningful|]. split; [vm_compute; reflexivity|]. split; [vm_compute; reflexivity|]. vm_compute. discriminate.
Qed.

(** ** C61 *)
(** A document is accepted iff it fits the type ([conforms], Accept.v); missing: the documents
    outside [ctl_root] and the leaves outside [sound]. *)
Theorem C61_accepted_iff_conforms_partial C O E dis T d stk D s v a h g F :
  steady C -> decoder_for C E dis T d stk D -> json_text s v -> ctl_root C O d v -> sound C O d v -> variable C d h a g F ->
  (conforms C O s d v <-> exists D' h', Decode C O stk D s (TOk (flat 0 v)) (Some a) h = Ret (-1) None D' h') /\
  (~ conforms C O s d v <-> exists i e D' h', Decode C O stk D s (TOk (flat 0 v)) (Some a) h = Ret (Z.of_nat i) (Some e) D' h').
Proof.
  intros St Df J Ct S V. pose proof (C15_decode_is_ideal_partial C O E dis T d stk D s v a h g F Df J Ct S V) as Q.
  destruct V as [R _]. pose proof (ideal_answers C O s St d v g (rep_typed _ _ _ _ _ _ R)) as A.
  destruct (ideal C O s d v g) as [g'|i e g'|]; cbn in A; [| |contradiction]; destruct Q as (D' & h' & F' & Q & _); rewrite Q.
  - split; split; try tauto; [eauto|]. intros (? & ? & ? & ? & [=]).
  - split; split; try tauto; [intros (? & ? & [=])|]. intros _. eauto.
Qed.
(** Case: struct { A int8; B []string; C map[string]struct{ X [2]bool; Y any }; D float64 `,string` }, a
    document that fits and one that does not. *)
Definition misfit : bytes := bs "{""a"":5,""B"":[""p"",1]}".
Example C61_case :
  conforms wC default_opts ex_text ex_dt (tree_of ex_text) /\ ctl_root wC default_opts ex_dt (tree_of ex_text) /\ sound wC default_opts ex_dt (tree_of ex_text) /\
  ~ conforms wC default_opts misfit ex_dt (tree_of misfit) /\ ctl_root wC default_opts ex_dt (tree_of misfit) /\ sound wC default_opts ex_dt (tree_of misfit).
Proof.
  assert (S1 : sound wC default_opts ex_dt (tree_of ex_text)) by (apply soundb_spec; vm_compute; reflexivity).
  assert (C1 : ctl_root wC default_opts ex_dt (tree_of ex_text)) by (apply ctl_rootb_spec; vm_compute; reflexivity).
  assert (C2 : ctl_root wC default_opts ex_dt (tree_of misfit)) by (apply ctl_rootb_spec; vm_compute; reflexivity).
  split; [|split; [exact C1|split; [exact S1|split; [|split; [exact C2|]]]]].
  - pose proof (ideal_answers wC default_opts ex_text steady_w ex_dt (tree_of ex_text) (zero ex_dt) (zero_typed _)) as A.
    destruct (ideal wC default_opts ex_text ex_dt (tree_of ex_text) (zero ex_dt)) eqn:Ei; [apply A| |contradiction].
    exfalso. clear A. vm_compute in Ei. discriminate.
  - pose proof (ideal_answers wC default_opts misfit steady_w ex_dt (tree_of misfit) (zero ex_dt) (zero_typed _)) as A.
    destruct (ideal wC default_opts misfit ex_dt (tree_of misfit) (zero ex_dt)) eqn:Ei; [|exact A|contradiction].
    exfalso. clear A. vm_compute in Ei. discriminate.
  - apply soundb_spec. vm_compute. reflexivity.
Qed.
(** False in general: 300 does not fit int8, and is accepted (C03). *)
Theorem C61_refuted_overflow :
  let s := bs "300" in
  meaningful plain_env tInt8 s /\ ~ conforms wC default_opts s (DSc (SInt (NK true W8))) (tree_of s) /\
  answer_of (decode plain_env tInt8 s) = Answer (-1) None.
Proof.
  cbn zeta. split; [meaningful|]. split; [|vm_compute; reflexivity]. vm_compute. intros [_ [_ H]]. apply H. reflexivity.
Qed.

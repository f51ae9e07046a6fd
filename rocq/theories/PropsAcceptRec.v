(** C60, C61 for recursive structs and the types around them; C62: the types around linked
    structs on which Decode can be relied upon for every document. *)
From Verif Require Import Base NumSpec StrSpec Types AppendType Token FloatLit Heap Machine Dt Dec Control Root Elab Rec Value Dval Sep Refine Typed Spec SpecProofs Main Parse World Elaborate RecSpec RecRefine RecElab PropsRec PropsStrict Actual RecActual PropsRecAny Mixed MixedElab MixedSpec MixedRefine MixedTyped PropsMixed RecOrder PropsSafe Accept PropsAccept AcceptRec.
Open Scope Z_scope.

(** ** C60 *)
(** Recursive structs: documents of the class [rctl] of C26. *)
Theorem C60_recursive_verdict_partial C O E dis T z fs stk D s v a h g F :
  steady C -> rdecoder_for C E dis T z fs stk D -> json_text s v -> rctl C O fs v -> rvariable C z fs h a g F ->
  answer_of (Decode C O stk D s (TOk (flat 0 v)) (Some a) h) = verdict_answer (check_rec C O s fs v).
Proof.
  intros St Df J Ct V. pose proof (C26_characterised_partial C O E dis T z fs stk D s v a h g F Df J Ct V) as Q.
  destruct V as [R _]. pose proof (actual_rec_ends C O s St fs v g (fun n => rrep_typed C fs z n _ _ _ _ R)) as A.
  destruct (actual_rec C O s fs v g) as [g'|i e g'|], (check_rec C O s fs v) as [|i' e'|]; cbn in A; try contradiction.
  - destruct Q as (D' & h' & F' & -> & _). reflexivity.
  - destruct A as [-> ->]. destruct Q as (D' & h' & F' & -> & _). reflexivity.
  - rewrite Q. reflexivity.
Qed.
(** Linked structs: every document. *)
Theorem C60_linked_structs C O E dis T z fs stk D s v a h g F :
  steady C -> rdecoder_for C E dis T z fs stk D -> rany_document O fs = true -> json_text s v -> rvariable C z fs h a g F ->
  answer_of (Decode C O stk D s (TOk (flat 0 v)) (Some a) h) = verdict_answer (check_rec C O s fs v).
Proof. intros St Df A J V. exact (C60_recursive_verdict_partial C O E dis T z fs stk D s v a h g F St Df J (rany_ctl C O fs A v) V). Qed.
(** Types around recursive structs. *)
Theorem C60_mixed_verdict_partial C O E dis T t stk D s v a h g F :
  steady C -> wdecoder_for C E dis T t stk D -> json_text s v -> wlast C O true t v -> wvariable C t h a g F ->
  answer_of (Decode C O stk D s (TOk (flat 0 v)) (Some a) h) = verdict_answer (wcheck C O s t v).
Proof.
  intros St Df J Ct V. pose proof (C26_mixed_characterised_partial C O E dis T t stk D s v a h g F Df J Ct V) as Q.
  destruct V as [R _]. pose proof (wactual_ends C O s St t v g (wrep_typed C t _ _ _ _ R)) as A.
  destruct (wactual C O s t v g) as [g'|i e g'|], (wcheck C O s t v) as [|i' e'|]; cbn in A; try contradiction.
  - destruct Q as (D' & h' & F' & -> & _). reflexivity.
  - destruct A as [-> ->]. destruct Q as (D' & h' & F' & -> & _). reflexivity.
  - rewrite Q. reflexivity.
Qed.
Theorem C60_around_linked_structs C O E dis T t stk D s v a h g F :
  steady C -> wdecoder_for C E dis T t stk D -> wany C O t = true -> json_text s v -> wvariable C t h a g F ->
  answer_of (Decode C O stk D s (TOk (flat 0 v)) (Some a) h) = verdict_answer (wcheck C O s t v).
Proof. intros St Df A J V. exact (C60_mixed_verdict_partial C O E dis T t stk D s v a h g F St Df J (wany_last C O t A v) V). Qed.
(** Cases: the tree of C54_case; the map of trees of C26_mixed_every_document_case, and a
    document that is refused inside the second tree. *)
Definition mapp_bad : bytes := bs "{""a"":{""left"":{""V"":3}},""b"":{""R"":{""V"":7,""left"":[]},""V"":2}}".
Example C60_recursive_cases :
  check_rec wC strict rodd_text node_fs rodd_doc = Accepted /\
  rany_document strict node_fs = true /\ json_text rodd_text rodd_doc /\ rvariable wC 48 node_fs (world 48) (1%nat, 0) (VStruct (rzeros node_fs)) [] /\
  rdecoder_for wC E_node false (TNamed 0) 48 node_fs node_stk (dyn0 node_stk) /\
  wdecoder_for wC E_doc false mapp_ty mapp_wt mapp_stk (dyn0 mapp_stk) /\ wany wC strict mapp_wt = true /\
  json_text mapp_bad (tree_of mapp_bad) /\ wvariable wC mapp_wt (world 8) (1%nat, 0) (wzero mapp_wt) [] /\
  wcheck wC strict mapp_bad mapp_wt (tree_of mapp_bad) = Refused 45 EUnexpected.
Proof.
  destruct rodd_hyps as (J & _ & A & N & _).
  split; [vm_compute; reflexivity|]. split; [exact A|]. split; [exact J|]. split; [exact ro_new|]. split; [exact node_decoder|].
  split; [exact mapp_decoder|]. split; [reflexivity|]. split; [apply parse_sound; vm_compute; reflexivity|].
  split; [exact (wvariable_new _ _ _ _ _ _ _ (world 8) (1%nat, 0) mapp_decoder (world_zero 8) (world_own 8))|]. vm_compute. reflexivity.
Qed.

(** ** C61 for recursive structs and the types around them *)
Theorem C61_recursive_partial C O E dis T z fs stk D s v a h g F :
  steady C -> rdecoder_for C E dis T z fs stk D -> json_text s v -> rctl C O fs v -> rsound C O fs v -> rvariable C z fs h a g F ->
  (conforms_rec C O s fs v <-> exists D' h', Decode C O stk D s (TOk (flat 0 v)) (Some a) h = Ret (-1) None D' h') /\
  (~ conforms_rec C O s fs v <-> exists i e D' h', Decode C O stk D s (TOk (flat 0 v)) (Some a) h = Ret (Z.of_nat i) (Some e) D' h').
Proof.
  intros St Df J Ct S V. pose proof (C26_recursive_partial C O E dis T z fs stk D s v a h g F Df J Ct S V) as Q.
  destruct V as [R _]. pose proof (ideal_rec_answers C O s St fs v g (fun n => rrep_typed C fs z n _ _ _ _ R)) as A.
  destruct (ideal_rec C O s fs v g) as [g'|i e g'|]; cbn in A; [| |contradiction]; destruct Q as (D' & h' & F' & Q & _); rewrite Q.
  - split; split; try tauto; [eauto|]. intros (? & ? & ? & ? & [=]).
  - split; split; try tauto; [intros (? & ? & [=])|]. intros _. eauto.
Qed.
Theorem C61_mixed_partial C O E dis T t stk D s v a h g F :
  steady C -> wdecoder_for C E dis T t stk D -> json_text s v -> wlast C O true t v -> wsound C O t v -> wvariable C t h a g F ->
  (wconforms C O s t v <-> exists D' h', Decode C O stk D s (TOk (flat 0 v)) (Some a) h = Ret (-1) None D' h') /\
  (~ wconforms C O s t v <-> exists i e D' h', Decode C O stk D s (TOk (flat 0 v)) (Some a) h = Ret (Z.of_nat i) (Some e) D' h').
Proof.
  intros St Df J Ct S V. pose proof (C26_mixed_partial C O E dis T t stk D s v a h g F Df J Ct S V) as Q.
  destruct V as [R _]. pose proof (wideal_answers C O s St t v g (wrep_typed C t _ _ _ _ R)) as A.
  destruct (wideal C O s t v g) as [g'|i e g'|]; cbn in A; [| |contradiction]; destruct Q as (D' & h' & F' & Q & _); rewrite Q.
  - split; split; try tauto; [eauto|]. intros (? & ? & ? & ? & [=]).
  - split; split; try tauto; [intros (? & ? & [=])|]. intros _. eauto.
Qed.
(** Cases: the document of C26_mixed_case fits its type, [mapp_bad] does not. *)
Example C61_mixed_case :
  wconforms wC default_opts doc_text doc_wt doc_doc /\ wlast wC default_opts true doc_wt doc_doc /\ wsound wC default_opts doc_wt doc_doc /\
  ~ wconforms wC strict mapp_bad mapp_wt (tree_of mapp_bad) /\ wlast wC strict true mapp_wt (tree_of mapp_bad) /\ wsound wC strict mapp_wt (tree_of mapp_bad).
Proof.
  destruct doc_class as [Ct Sd].
  split; [|split; [exact Ct|split; [exact Sd|split; [|split; [apply wany_last; reflexivity|apply wsoundb_spec; vm_compute; reflexivity]]]]].
  - pose proof (wideal_answers wC default_opts doc_text steady_w doc_wt doc_doc (wzero doc_wt) (wtyped_zero doc_wt)) as A.
    destruct (wideal wC default_opts doc_text doc_wt doc_doc (wzero doc_wt)) eqn:Ei; [apply A| |contradiction].
    exfalso. clear A. vm_compute in Ei. discriminate.
  - pose proof (wideal_answers wC strict mapp_bad steady_w mapp_wt (tree_of mapp_bad) (wzero mapp_wt) (wtyped_zero mapp_wt)) as A.
    destruct (wideal wC strict mapp_bad mapp_wt (tree_of mapp_bad) (wzero mapp_wt)) eqn:Ei; [|exact A|contradiction].
    exfalso. clear A. vm_compute in Ei. discriminate.
Qed.

(** ** C62 *)
Theorem C62_types_around_linked_structs_are_safe C O E dis T t stk D s v a h g F :
  wdecoder_for C E dis T t stk D -> wany C O t = true -> wno_quoted_numbers t = true ->
  json_text s v -> wvariable C t h a g F ->
  exists r er D' h' g' F',
    Decode C O stk D s (TOk (flat 0 v)) (Some a) h = Ret r er D' h' /\
    wvariable C t h' a g' F' /\ only h h' (Some a) (MixedSpec.tsize (c_w64 C) t) F F' /\
    (er = None -> wdecoder_for C E dis T t stk D') /\
    match wactual C O s t v g with
    | VOk g1 => r = -1 /\ er = None /\ g' = g1
    | VErr i e g1 => r = Z.of_nat i /\ er = Some e /\ g' = g1
    | VPan => False
    end.
Proof.
  intros Df A N J V. pose proof (C26_mixed_every_document_partial C O E dis T t stk D s v a h g F Df A J V) as Q.
  pose proof (wactual_typed C O s t v g (json_text_lexed _ _ J) (wno_quoted_nonempty C O t N v) (wrep_typed C t _ _ _ _ (proj1 V))) as Np.
  destruct (wactual C O s t v g) as [g1|i e g1|]; [| |contradiction]; destruct Q as (D' & h' & F' & Q & V' & Y).
  - exists (-1), None, D', h', g1, F'. repeat (split; [eauto|]); [|auto]. intros _. destruct Df as [A1 A2 A3 A4 A5]. constructor; try assumption.
    eapply wu_ok; [exact A5|exact J|exact (wany_last C O t A v)|exact Q].
  - exists (Z.of_nat i), (Some e), D', h', g1, F'. repeat (split; [eauto|]); [|auto]. discriminate.
Qed.
(** On the leaves that the parsers handle correctly this is the ideal decoder. *)
Theorem C62_exact_is_ideal C O E dis T t stk D s v a h g F :
  wdecoder_for C E dis T t stk D -> json_text s v -> wany C O t = true -> wsound C O t v -> wvariable C t h a g F ->
  exists r er D' h' g' F', Decode C O stk D s (TOk (flat 0 v)) (Some a) h = Ret r er D' h' /\ wvariable C t h' a g' F' /\
    match wideal C O s t v g with
    | VOk g1 => r = -1 /\ er = None /\ g' = g1
    | VErr i e g1 => r = Z.of_nat i /\ er = Some e /\ g' = g1
    | VPan => False
    end.
Proof.
  intros Df J A S V. pose proof (C26_mixed_partial C O E dis T t stk D s v a h g F Df J (wany_last C O t A v) S V) as Q.
  destruct (wideal C O s t v g) as [g1|i e g1|]; [| |contradiction]; destruct Q as (D' & h' & F' & Q & V' & _).
  - exists (-1), None, D', h', g1, F'. repeat (split; [eauto|]). auto.
  - exists (Z.of_nat i), (Some e), D', h', g1, F'. repeat (split; [eauto|]). auto.
Qed.
Example C62_case :
  wdecoder_for wC E_doc false mapp_ty mapp_wt mapp_stk (dyn0 mapp_stk) /\ wany wC strict mapp_wt = true /\ wno_quoted_numbers mapp_wt = true /\
  json_text mapp_bad (tree_of mapp_bad) /\ wvariable wC mapp_wt (world 8) (1%nat, 0) (wzero mapp_wt) [] /\
  wactual wC strict mapp_bad mapp_wt (tree_of mapp_bad) (wzero mapp_wt) =
    VErr 45 EUnexpected (VPtr (Some (VMap (Some [(GStr (bs "a"), dnode 0 (Some (dnode 3 None None)) None); (GStr (bs "b"), dnode 0 None (Some (dnode 7 None None)))])))).
Proof.
  destruct C60_recursive_cases as (_ & _ & _ & _ & _ & Df & A & J & V & _).
  split; [exact Df|]. split; [exact A|]. split; [reflexivity|]. split; [exact J|]. split; [exact V|]. vm_compute. reflexivity.
Qed.

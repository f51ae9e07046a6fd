(** C53, C54: the types on which Decode can be relied upon for every document.

    Plain types ([any_document], PropsStrict.v): no pointer and no struct{} below the root; if
    there are structs, the call disallows unknown members.  Recursive types
    ([rany_document], PropsRecAny.v): a struct with fields of type pointer to itself.
    No numbers in strings ([no_quoted_numbers]): no Number, no option `string` on numbers,
    no integer map keys. *)
From Verif Require Import Base NumSpec StrSpec Types AppendType Token FloatLit Heap Machine Dt Dec Control Root Elab Rec Value Dval Sep Refine Typed Spec SpecProofs Main Parse World Elaborate RecSpec RecRefine RecElab PropsDecode PropsRec PropsStrict RecOrder Actual PropsExact PropsAnyLeaf RecActual PropsRecAny.
Open Scope Z_scope.

(** ** C53 *)
Theorem C53_plain_types_are_safe C O E dis T d stk D s v a h g F :
  decoder_for C E dis T d stk D -> any_document O d = true -> no_quoted_numbers d = true ->
  json_text s v -> variable C d h a g F ->
  exists r er D' h' g' F',
    (* the call returns *)
    Decode C O stk D s (TOk (flat 0 v)) (Some a) h = Ret r er D' h' /\
    (* the variable holds a value of its type, and no other memory is changed *)
    variable C d h' a g' F' /\ only h h' (Some a) (dsize (c_w64 C) d) F F' /\
    (* the decoder can be used again *)
    decoder_for C E dis T d stk D' /\
    (* index, error and value depend only on the document and the previous value *)
    match actual C O s d v g with
    | VOk g1 => r = -1 /\ er = None /\ g' = g1
    | VErr i e g1 => r = Z.of_nat i /\ er = Some e /\ g' = g1
    | VPan => False
    end.
Proof.
  intros Df A N J V. pose proof (characterised C O E dis T d stk D s v a h g F Df J (any_ctl C O d A v) (no_quoted_nonempty C O d N v) V) as Q.
  assert (Nx : forall r er D' h', Decode C O stk D s (TOk (flat 0 v)) (Some a) h = Ret r er D' h' -> decoder_for C E dis T d stk D').
  { intros r er D' h' Ed. destruct Df as [A1 A2 A3 A4 A5]. constructor; try assumption. eapply u_call; [exact A5|exact Ed]. }
  destruct (actual C O s d v g) as [g1|i e g1|]; [| |contradiction]; destruct Q as (D' & h' & F' & Q & V' & Y).
  - exists (-1), None, D', h', g1, F'. repeat (split; [eauto|]). auto.
  - exists (Z.of_nat i), (Some e), D', h', g1, F'. repeat (split; [eauto|]). auto.
Qed.
(** On the leaves that the parsers handle correctly this is the ideal decoder. *)
Theorem C53_exact_is_ideal C O E dis T d stk D s v a h g F :
  decoder_for C E dis T d stk D -> json_text s v -> sound C O d v -> variable C d h a g F -> actual C O s d v g = ideal C O s d v g.
Proof.
  intros Df J S [R _]. pose proof (json_text_lexed _ _ J) as L. rewrite <- (dval_actual C O s d v g L).
  exact (dval_ideal C O s d v g L S (rep_typed _ _ _ _ _ _ R)).
Qed.
(** Any number of calls in sequence, with any documents: each call is covered. *)
Fixpoint calls (C : cfg) (O : opts) (stk : list frame) (D : dyn) (a : addr) (h : heap) (l : list (bytes * jv)) : option (dyn * heap) :=
  match l with
  | [] => Some (D, h)
  | (s, v) :: r => match Decode C O stk D s (TOk (flat 0 v)) (Some a) h with Ret _ _ D' h' => calls C O stk D' a h' r | _ => None end
  end.
Definition value_after (r : vres gval) (old : gval) : gval := match r with VOk g => g | VErr _ _ g => g | VPan => old end.
Theorem C53_sequences_of_calls C O E dis T d stk D a h g F l :
  decoder_for C E dis T d stk D -> any_document O d = true -> no_quoted_numbers d = true ->
  Forall (fun x => json_text (fst x) (snd x)) l -> variable C d h a g F ->
  exists D' h' F', calls C O stk D a h l = Some (D', h') /\ only h h' (Some a) (dsize (c_w64 C) d) F F' /\
    variable C d h' a (fold_left (fun g x => value_after (actual C O (fst x) d (snd x) g) g) l g) F'.
Proof.
  intros Df A N Js. revert D h g F Df. induction Js as [|[s v] l J Js IH]; intros D h g F Df V; [exists D, h, F; split; [reflexivity|]; split; [apply only_refl|exact V]|].
  cbn [fst snd] in J. destruct (C53_plain_types_are_safe C O E dis T d stk D s v a h g F Df A N J V) as (r & er & D1 & h1 & g1 & F1 & Q & V1 & Y1 & Df1 & X).
  cbn [calls fold_left fst snd]. rewrite Q.
  assert (Eg : value_after (actual C O s d v g) g = g1) by (destruct (actual C O s d v g); [| |contradiction]; cbn; destruct X as (_ & _ & ->); reflexivity). rewrite Eg.
  destruct (IH D1 h1 g1 F1 Df1 V1) as (D' & h' & F' & Q' & Y' & V'). exists D', h', F'. split; [exact Q'|]. split; [eapply only_trans; eassumption|exact V'].
Qed.
(** Case: struct { A int8; B [3]float64; C string } with DisallowUnknownFields, three calls, the
    second of which fails. *)
Definition safe_ty : ty := TStruct 1 48 [(fld0 "A" 0, tInt8); (fld0 "B" 8, TArr 3 (TFloat B64)); (fld0 "C" 32, TStr)].
Definition safe_dt : dt := Eval vm_compute in match elab true plain_env false 50 [] safe_ty with Some (d, _) => d | None => DEmpty end.
Definition safe_stk : list frame := Eval vm_compute in stack_of plain_env safe_ty.
Definition safe_docs : list (bytes * jv) :=
  Eval vm_compute in map (fun s => (s, tree_of s)) [bs "{""A"":5,""C"":""x""}"; bs "{""C"":""y"",""B"":[1,2,{}]}"; bs "{""B"":[4],""A"":-1}"].
Example C53_case :
  decoder_for wC plain_env false safe_ty safe_dt safe_stk (dyn0 safe_stk) /\ any_document strict safe_dt = true /\ no_quoted_numbers safe_dt = true /\
  exists D' h' F', calls wC strict safe_stk (dyn0 safe_stk) (1%nat, 0) (world 48) safe_docs = Some (D', h') /\
    variable wC safe_dt h' (1%nat, 0) (VStruct [VInt (-1); VArr [VFloat (FN 4 0 false); VFloat (FN 2 0 false); VFloat (FN 0 0 false)]; VStr (bs "y")]) F'.
Proof.
  assert (Df : decoder_for wC plain_env false safe_ty safe_dt safe_stk (dyn0 safe_stk)).
  { eapply new_decoder; [apply plain_env_sizes|vm_compute; reflexivity|vm_compute; reflexivity|vm_compute; reflexivity]. }
  split; [exact Df|]. split; [reflexivity|]. split; [reflexivity|].
  assert (Js : Forall (fun x => json_text (fst x) (snd x)) safe_docs).
  { unfold safe_docs. repeat (apply Forall_cons || apply Forall_nil); cbn [fst snd]; apply parse_sound; vm_compute; reflexivity. }
  pose proof (world_rep safe_dt (df_layout _ _ _ _ _ _ _ Df)) as [R Ow].
  destruct (C53_sequences_of_calls wC strict _ _ _ safe_dt safe_stk _ (1%nat, 0) _ _ [] safe_docs Df eq_refl eq_refl Js (conj R Ow)) as (D' & h' & F' & Q & _ & V').
  exists D', h', F'. split; [exact Q|].
  match type of V' with variable _ _ _ _ ?X _ => let y := eval vm_compute in X in replace X with y in V' by (vm_compute; reflexivity) end.
  exact V'.
Qed.

(** ** C54 *)
Theorem C54_linked_structs_are_safe C O E dis T z fs stk D s v a h g F :
  rdecoder_for C E dis T z fs stk D -> rany_document O fs = true -> rno_quoted_numbers fs = true ->
  json_text s v -> rvariable C z fs h a g F ->
  exists r er D' h' g' F',
    Decode C O stk D s (TOk (flat 0 v)) (Some a) h = Ret r er D' h' /\
    rvariable C z fs h' a g' F' /\ only h h' (Some a) z F F' /\
    (er = None -> rdecoder_for C E dis T z fs stk D') /\
    match actual_rec C O s fs v g with
    | VOk g1 => r = -1 /\ er = None /\ g' = g1
    | VErr i e g1 => r = Z.of_nat i /\ er = Some e /\ g' = g1
    | VPan => False
    end.
Proof.
  intros Df A N J V. pose proof (rcharacterised C O E dis T z fs stk D s v a h g F Df J (rany_ctl C O fs A v) (rno_quoted_nonempty C O fs N v) V) as Q.
  destruct (actual_rec C O s fs v g) as [g1|i e g1|]; [| |contradiction]; destruct Q as (D' & h' & F' & Q & V' & Y).
  - exists (-1), None, D', h', g1, F'. repeat (split; [eauto|]); [|auto]. intros _. destruct Df as [A1 A2 A3 A4 A5]. constructor; try assumption.
    eapply ru_ok; [exact A5|exact J|exact (rany_ctl C O fs A v)|exact Q].
  - exists (Z.of_nat i), (Some e), D', h', g1, F'. repeat (split; [eauto|]); [|auto]. discriminate.
Qed.
(** Case: the tree type and the document of C26_characterised_case. *)
Example C54_case :
  rdecoder_for wC E_node false (TNamed 0) 48 node_fs node_stk (dyn0 node_stk) /\ rany_document strict node_fs = true /\ rno_quoted_numbers node_fs = true /\
  json_text rodd_text rodd_doc /\ rvariable wC 48 node_fs (world 48) (1%nat, 0) (VStruct (rzeros node_fs)) [].
Proof. destruct rodd_hyps as (J & _ & A & N & _). split; [exact node_decoder|]. split; [exact A|]. split; [exact N|]. split; [exact J|exact ro_new]. Qed.

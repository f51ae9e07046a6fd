(** C44: the order of the members of objects does not matter.  C45: decoding the same
    document into the same variable again changes nothing.

    [reordered v v'] (Order.v): the same document up to the order of members (at every
    depth) and white space.  [unlike C O d v]: no object has two members for the same
    struct field, map key or key of an any.  [same_value]: equal Go values (Encodes.v). *)
From Coq Require Import Permutation.
From Verif Require Import Base NumSpec StrSpec Types AppendType Token FloatLit Heap Machine Dt Dec Control Root Elab Value Dval Sep Refine Spec Typed SpecProofs Main Parse World Elaborate PropsRefuted PropsDecode PropsStruct PropsSlice PropsNested Encodes RoundTrip PropsRoundTrip Order.
Open Scope Z_scope.

(** ** C44 *)
(** Two calls, by decoders for the same type after whatever calls, into variables with the
    same value, wherever they are: both succeed, with the same value, or both fail.
    Missing from the full claim: documents outside the classes [ctl_root] and [sound], for
    which it is false ([C44_refuted]). *)
Theorem C44_member_order_partial C O E dis T d stk D1 D2 s1 s2 v1 v2 a1 a2 h1 h2 g F1 F2 :
  no_json d = true -> decoder_for C E dis T d stk D1 -> decoder_for C E dis T d stk D2 ->
  json_text s1 v1 -> json_text s2 v2 -> reordered v1 v2 -> unlike C O d v1 ->
  ctl_root C O d v1 -> ctl_root C O d v2 -> sound C O d v1 -> sound C O d v2 ->
  variable C d h1 a1 g F1 -> variable C d h2 a2 g F2 ->
  (exists D1' D2' h1' h2' g1 g2 F1' F2',
     Decode C O stk D1 s1 (TOk (flat 0 v1)) (Some a1) h1 = Ret (-1) None D1' h1' /\ variable C d h1' a1 g1 F1' /\
     Decode C O stk D2 s2 (TOk (flat 0 v2)) (Some a2) h2 = Ret (-1) None D2' h2' /\ variable C d h2' a2 g2 F2' /\
     same_value g1 g2) \/
  (exists D1' D2' h1' h2' i1 i2 e1 e2,
     Decode C O stk D1 s1 (TOk (flat 0 v1)) (Some a1) h1 = Ret i1 (Some e1) D1' h1' /\
     Decode C O stk D2 s2 (TOk (flat 0 v2)) (Some a2) h2 = Ret i2 (Some e2) D2' h2').
Proof.
  intros NJ Df1 Df2 J1 J2 R U C1 C2 S1 S2 V1 V2.
  pose proof (C15_decode_is_ideal_partial C O E dis T d stk D1 s1 v1 a1 h1 g F1 Df1 J1 C1 S1 V1) as Q1.
  pose proof (C15_decode_is_ideal_partial C O E dis T d stk D2 s2 v2 a2 h2 g F2 Df2 J2 C2 S2 V2) as Q2.
  destruct (ideal C O s1 d v1 g) as [g1|i1 e1 g1|] eqn:E1; [| |contradiction].
  - destruct (ideal_reordered C O s1 s2 d NJ v1 v2 g g1 R U E1) as (g2 & E2 & Sm). rewrite E2 in Q2.
    destruct Q1 as (D1' & h1' & F1' & Q1 & W1 & _), Q2 as (D2' & h2' & F2' & Q2 & W2 & _). left.
    exists D1', D2', h1', h2', g1, g2, F1', F2'. auto.
  - destruct (ideal C O s2 d v2 g) as [g2|i2 e2 g2|] eqn:E2; [| |contradiction].
    + exfalso. destruct (ideal_reordered C O s2 s1 d NJ v2 v1 g g2 (reordered_sym _ _ R) (unlike_reordered C O d v1 v2 R U) E2) as (g3 & E3 & _). congruence.
    + destruct Q1 as (D1' & h1' & F1' & Q1 & _), Q2 as (D2' & h2' & F2' & Q2 & _). right.
      exists D1', D2', h1', h2'. do 4 eexists. split; [exact Q1|exact Q2].
Qed.

(** ** C45 *)
(** After a successful call, the same call again, with the decoder and the memory that the
    first call left, succeeds and leaves the variable with the same value.  (User types
    may accumulate.) *)
Theorem C45_decoding_again_partial C O E dis T d stk D s v a h g F D1 h1 :
  no_user d = true -> decoder_for C E dis T d stk D -> json_text s v -> unlike C O d v ->
  ctl_root C O d v -> sound C O d v -> variable C d h a g F ->
  Decode C O stk D s (TOk (flat 0 v)) (Some a) h = Ret (-1) None D1 h1 ->
  exists g1 F1 D2 h2 F2, variable C d h1 a g1 F1 /\
    Decode C O stk D1 s (TOk (flat 0 v)) (Some a) h1 = Ret (-1) None D2 h2 /\ variable C d h2 a g1 F2.
Proof.
  intros NU Df J U Ct Sd V Q0.
  pose proof (C15_decode_is_ideal_partial C O E dis T d stk D s v a h g F Df J Ct Sd V) as Q.
  destruct (ideal C O s d v g) as [g1|i e g1|] eqn:E1; [| |contradiction]; destruct Q as (D' & h' & F' & Q & V' & _); rewrite Q in Q0; [|injection Q0; intros; discriminate].
  injection Q0 as <- <-.
  assert (Df' : decoder_for C E dis T d stk D').
  { destruct Df as [A1 A2 A3 A4 A5]. constructor; try assumption. eapply u_call; [exact A5|exact Q]. }
  pose proof (C15_decode_is_ideal_partial C O E dis T d stk D' s v a h' g1 F' Df' J Ct Sd V') as Q2.
  rewrite (ideal_again C O s d NU v g g1 U E1) in Q2. destruct Q2 as (D2 & h2 & F2 & Q2 & V2 & _). exists g1, F', D2, h2, F2. auto.
Qed.

(** Case: the type of C15_case. *)
Definition or_text : bytes := bs "{""A"":-5,""B"":[""p""],""C"":{""k"":{""X"":[true,false],""Y"":{""a"":1,""z"":null}},""l"":{""X"":[false,true],""Y"":2}},""D"":""1.5""}".
Definition or_text' : bytes := bs "{ ""D"":""1.5"", ""C"":{""l"":{""Y"":2,""X"":[false,true]},""k"":{""Y"":{""z"":null,""a"":1},""X"":[true,false]}}, ""B"":[""p""], ""A"":-5 }".
Definition or_doc : jv := Eval vm_compute in tree_of or_text.
Definition or_doc' : jv := Eval vm_compute in tree_of or_text'.
Lemma or_reordered : reordered or_doc or_doc'.
Proof.
  unfold or_doc, or_doc'.
  repeat match goal with
  | |- reordered (JObj _ _ _) _ => eapply ro_obj; [apply Permutation_rev|cbn [rev app]]
  | |- reordered _ _ => constructor
  | |- Forall2 _ _ _ => constructor
  | |- _ /\ _ => split; [reflexivity|cbn [snd]]
  end.
Qed.
Lemma or_unlike : unlike wC default_opts ex_dt or_doc.
Proof.
  unfold ex_dt, or_doc. cbn [unlike].
  repeat match goal with
  | |- _ /\ _ => split
  | |- NoDup (targets ?f ?l) => let x := eval vm_compute in (targets f l) in change (targets f l) with x; nodup
  | |- NoDup (map_keys ?c ?k ?l) => let x := eval vm_compute in (map_keys c k l) in change (map_keys c k l) with x; nodup
  | |- Forall _ _ => constructor
  | |- unlike_any _ => fail 1
  | |- True => exact I
  | |- (fun _ => _) _ => cbn beta; cbn [snd fst]
  | |- match field_for ?c ?o ?fs ?k with Some _ => _ | None => _ end =>
      let x := eval vm_compute in (field_for c o fs k) in change (field_for c o fs k) with x; cbn [nth_error map unlike snd fst firstn]
  | |- match _ with _ => _ end => progress cbn [snd fst]
  end; cbn [unlike_any snd].
  all: try exact I.
  all: split; [|repeat split; exact I]; nodup.
Qed.
Lemma or_hyps : json_text or_text or_doc /\ json_text or_text' or_doc' /\ ctl_root wC default_opts ex_dt or_doc /\ ctl_root wC default_opts ex_dt or_doc' /\
  sound wC default_opts ex_dt or_doc /\ sound wC default_opts ex_dt or_doc'.
Proof.
  split; [apply parse_sound; vm_compute; reflexivity|]. split; [apply parse_sound; vm_compute; reflexivity|].
  split; [apply ctl_rootb_spec; vm_compute; reflexivity|]. split; [apply ctl_rootb_spec; vm_compute; reflexivity|].
  split; apply soundb_spec; vm_compute; reflexivity.
Qed.
Example C44_case : exists D1 D2 h1 h2 g1 g2 F1 F2,
  Decode wC default_opts ex_stk (dyn0 ex_stk) or_text (TOk (flat 0 or_doc)) dest (world 48) = Ret (-1) None D1 h1 /\ variable wC ex_dt h1 (1%nat, 0) g1 F1 /\
  Decode wC default_opts ex_stk (dyn0 ex_stk) or_text' (TOk (flat 0 or_doc')) dest (world 48) = Ret (-1) None D2 h2 /\ variable wC ex_dt h2 (1%nat, 0) g2 F2 /\ same_value g1 g2.
Proof.
  pose proof (world_rep ex_dt (df_layout _ _ _ _ _ _ _ ex_decoder)) as [R Ow]. destruct or_hyps as (J1 & J2 & C1 & C2 & S1 & S2).
  destruct (C44_member_order_partial _ _ _ _ _ ex_dt _ _ _ _ _ _ _ (1%nat, 0) (1%nat, 0) _ _ _ [] [] eq_refl ex_decoder ex_decoder J1 J2 or_reordered or_unlike C1 C2 S1 S2 (conj R Ow) (conj R Ow)) as [H|H]; [exact H|].
  exfalso. destruct H as (D1' & D2' & h1' & h2' & i1 & i2 & e1 & e2 & H & _).
  assert (Ok : match Decode wC default_opts ex_stk (dyn0 ex_stk) or_text (TOk (flat 0 or_doc)) dest (world 48) with Ret _ e _ _ => e | _ => None end = None) by (vm_compute; reflexivity).
  change (world (dsize true ex_dt)) with (world 48) in H. change (Some ((1%nat, 0) : addr)) with dest in H. rewrite H in Ok. discriminate.
Qed.
Example C45_case : exists D1 h1 g1 F1 D2 h2 F2,
  Decode wC default_opts ex_stk (dyn0 ex_stk) or_text (TOk (flat 0 or_doc)) dest (world 48) = Ret (-1) None D1 h1 /\ variable wC ex_dt h1 (1%nat, 0) g1 F1 /\
  Decode wC default_opts ex_stk D1 or_text (TOk (flat 0 or_doc)) dest h1 = Ret (-1) None D2 h2 /\ variable wC ex_dt h2 (1%nat, 0) g1 F2.
Proof.
  pose proof (world_rep ex_dt (df_layout _ _ _ _ _ _ _ ex_decoder)) as [R Ow]. destruct or_hyps as (J1 & _ & C1 & _ & S1 & _).
  destruct C44_case as (D1 & _ & h1 & _ & _ & _ & _ & _ & Q & _).
  destruct (C45_decoding_again_partial _ _ _ _ _ ex_dt _ _ _ _ (1%nat, 0) _ _ [] D1 h1 eq_refl ex_decoder J1 or_unlike C1 S1 (conj R Ow) Q) as (g1 & F1 & D2 & h2 & F2 & V1 & Q2 & V2).
  exists D1, h1, g1, F1, D2, h2, F2. auto.
Qed.

(** The order of an unknown member and a known one matters (the defect of C20): the value 7
    goes to N.B or to the B of the outer struct. *)
Theorem C44_refuted :
  let s1 := bs "{""N"":{""B"":7,""u"":{}}}" in let s2 := bs "{""N"":{""u"":{},""B"":7}}" in
  meaningful noenv T_nested s1 /\ meaningful noenv T_nested s2 /\ reordered (tree_of s1) (tree_of s2) /\
  obs (decode noenv T_nested s1) [(1%nat, 0); (1%nat, 8)] = Some (-1, None, [Some CZero; Some (CInt 7)]) /\
  obs (decode noenv T_nested s2) [(1%nat, 0); (1%nat, 8)] = Some (-1, None, [Some (CInt 7); Some CZero]).
Proof.
  cbn zeta. split; [meaningful|]. split; [meaningful|]. split; [|split; run].
  match goal with |- reordered ?a ?b => let x := eval vm_compute in a in let y := eval vm_compute in b in change a with x; change b with y end.
  repeat match goal with
  | |- reordered (JObj _ _ _) _ => eapply ro_obj; [apply Permutation_rev|cbn [rev app]]
  | |- reordered _ _ => constructor
  | |- Forall2 _ _ _ => constructor
  | |- _ /\ _ => split; [reflexivity|cbn [snd]]
  end.
Qed.

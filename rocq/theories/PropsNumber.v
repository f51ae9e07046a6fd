(** C50: jscandec.Number keeps the literal, and its methods return the number.

    The methods are modelled here together with the contract of strconv.ParseInt. *)
From Verif Require Import Base NumSpec StrSpec JsonNum JsonNumProofs AtoiProofs Types Token FloatLit Heap Machine Dt Dec Control Root Elab Value Dval Spec Typed SpecProofs Main Parse World Elaborate PropsDecode.
Open Scope Z_scope.

Inductive ierr := ISyntax | IRange.
Definition all_digits (s : bytes) : bool := match s with [] => false | _ => forallb is_digitb s end.
(** strconv.ParseInt(s, 10, 64): an optional sign and one or more decimal digits. *)
Definition ParseInt (s : bytes) : Z + ierr :=
  let '(neg, ds) := match s with 45 :: r => (true, r) | 43 :: r => (false, r) | _ => (false, s) end in
  if all_digits ds then
    let v := if (neg : bool) then - dec ds else dec ds in
    if (- 2 ^ 63 <=? v) && (v <? 2 ^ 63) then inl v else inr IRange
  else inr ISyntax.

(** jscandec.go:35. *)
Definition Number_String (n : bytes) : bytes := n.
(** jscandec.go:38-40; [pf]: strconv.ParseFloat outside of its contract. *)
Definition Number_Float64 (pf : fbits -> bytes -> option fnum) (n : bytes) : option fnum := parse_float pf B64 n.
(** jscandec.go:43-45. *)
Definition Number_Int64 (n : bytes) : Z + ierr := ParseInt n.

(** ** The methods on JSON numbers *)
Lemma digits_all s : json_uint s -> all_digits s = true.
Proof.
  intros [F (c & r & -> & _)]. unfold all_digits. apply forallb_forall. intros x Hx. apply is_digitb_spec. rewrite Forall_forall in F. apply F, Hx.
Qed.
Lemma uint_head s : json_uint s -> exists c r, s = c :: r /\ c <> 45 /\ c <> 43.
Proof. intros [F (c & r & -> & _)]. exists c, r. inversion F as [|? ? H _]; subst. unfold is_digit in H. repeat split; lia. Qed.
Lemma split_sign (s : bytes) c r : s = c :: r -> c <> 45 -> c <> 43 ->
  match s with 45 :: r => (true, r) | 43 :: r => (false, r) | _ => (false, s) end = (false, s).
Proof.
  intros -> A B. destruct c as [|p|p]; try reflexivity. do 6 (destruct p as [p|p|]; try reflexivity; try congruence).
Qed.
(** Int64 on an integer literal: the value if it fits. *)
Theorem C50_Int64_integer r : json_int r ->
  Number_Int64 r = (if (- 2 ^ 63 <=? int_value r) && (int_value r <? 2 ^ 63) then inl (int_value r) else inr IRange).
Proof.
  intros [s U|s U]; unfold Number_Int64, ParseInt.
  - destruct (uint_head s U) as (c & t & E & A & B). rewrite (split_sign s c t E A B), (digits_all s U).
    replace (int_value s) with (dec s); [reflexivity|]. rewrite E. unfold int_value. destruct c as [|p|p]; try reflexivity. do 6 (destruct p as [p|p|]; try reflexivity; try congruence).
  - rewrite (digits_all s U). reflexivity.
Qed.
Lemma not_all_digits a b c : is_digitb c = false -> all_digits (a ++ c :: b) = false.
Proof. intros H. unfold all_digits. destruct a; cbn; rewrite ?H; [reflexivity|]. rewrite forallb_app. cbn. rewrite H. cbn. rewrite ?andb_false_r. reflexivity. Qed.
(** Int64 on any other number: a syntax error (also for 1e3 and 1.0). *)
Theorem C50_Int64_other r : json_nonint r -> Number_Int64 r = inr ISyntax.
Proof.
  intros H. assert (Q : exists i x y, r = i ++ x :: y /\ json_int i /\ is_digitb x = false).
  { destruct H as [i f Hi [ds _ _]|i e Hi [x sg ds [->| ->] _ _ _]|i f e Hi [ds _ _] _].
    - exists i, 46, ds. auto.
    - exists i, 101, (sg ++ ds). auto.
    - exists i, 69, (sg ++ ds). auto.
    - exists i, 46, (ds ++ e). auto. }
  destruct Q as (i & x & y & -> & [s U|s U] & Hx); unfold Number_Int64, ParseInt.
  - destruct (uint_head s U) as (c & t & E & A & B). rewrite (split_sign (s ++ x :: y) c (t ++ x :: y)); [|rewrite E; reflexivity|exact A|exact B].
    rewrite not_all_digits by exact Hx. reflexivity.
  - cbn [app]. rewrite not_all_digits by exact Hx. reflexivity.
Qed.
(** Float64: the correctly rounded value, or an error if it is out of range. *)
Theorem C50_Float64 pf r : json_number r -> Number_Float64 pf r = round B64 r.
Proof. apply parse_float_round. Qed.

(** ** Decode and the methods *)
Definition literal (v : jv) : option bytes := match v with JInt _ r | JNum _ r => Some r | _ => None end.
Lemma literal_number s v r : json_text s v -> literal v = Some r -> json_number r.
Proof. intros J H. apply json_text_lexed in J. destruct v; try discriminate; cbn in *; injection H as ->; [left|right]; apply J. Qed.
(** A number document into a Number: String returns the literal, byte by byte, and the
    other methods return its value. *)
Theorem C50_number C O E dis T stk D s v r a h g F pf :
  decoder_for C E dis T (DSc SNumber) stk D -> json_text s v -> literal v = Some r -> variable C (DSc SNumber) h a g F ->
  exists D' h' F' n, Decode C O stk D s (TOk (flat 0 v)) (Some a) h = Ret (-1) None D' h' /\
    variable C (DSc SNumber) h' a (VStr n) F' /\
    Number_String n = r /\ Number_Float64 pf n = round B64 r /\
    (Number_Int64 n = inl (int_value r) <-> json_int r /\ - 2 ^ 63 <= int_value r < 2 ^ 63).
Proof.
  intros Df J L V. assert (Sd : scalar_doc v = true) by (destruct v; try discriminate; reflexivity).
  pose proof (C14_scalars_partial C O E dis T SNumber stk D s v a h g F Df J Sd ltac:(destruct v; try discriminate; exact I) V) as Q.
  assert (Ei : ideal_sc C SNumber v = LSet (VStr r)) by (destruct v; try discriminate; injection L as ->; reflexivity). rewrite Ei in Q.
  destruct Q as (D' & h' & F' & Q & V' & _). exists D', h', F', r. split; [exact Q|]. split; [exact V'|]. split; [reflexivity|].
  pose proof (literal_number _ _ _ J L) as N. split; [apply C50_Float64, N|]. split.
  - intros H. destruct N as [N|N]; [|rewrite C50_Int64_other in H by exact N; discriminate]. split; [exact N|].
    rewrite C50_Int64_integer in H by exact N. destruct (_ && _) eqn:B; [lia|discriminate].
  - intros [N' R]. rewrite C50_Int64_integer by exact N'. destruct (_ && _) eqn:B; [reflexivity|lia].
Qed.
(** The methods agree with decoding the same text directly into an int64 or float64
    variable ([-0] and float64: see C34). *)
Theorem C50_agrees_with_int64 C O E dis T stk D s v r a h g F :
  decoder_for C E dis T (DSc (SInt (NK true W64))) stk D -> json_text s v -> literal v = Some r -> variable C (DSc (SInt (NK true W64))) h a g F ->
  match Number_Int64 r with
  | inl z => exists D' h' F', Decode C O stk D s (TOk (flat 0 v)) (Some a) h = Ret (-1) None D' h' /\ variable C (DSc (SInt (NK true W64))) h' a (VInt z) F'
  | inr IRange => exists D', Decode C O stk D s (TOk (flat 0 v)) (Some a) h = Ret (Z.of_nat (jidx v)) (Some EOverflow) D' h
  | inr ISyntax => exists D', Decode C O stk D s (TOk (flat 0 v)) (Some a) h = Ret (Z.of_nat (jidx v)) (Some EUnexpected) D' h
  end.
Proof.
  intros Df J L V. assert (Sd : scalar_doc v = true) by (destruct v; try discriminate; reflexivity).
  assert (So : sound_sc C (SInt (NK true W64)) v) by (destruct v; try discriminate; try exact I; intros H; discriminate H).
  pose proof (C14_scalars_partial C O E dis T _ stk D s v a h g F Df J Sd So V) as Q.
  apply json_text_lexed in J. destruct v; try discriminate; injection L as ->; cbn in J; destruct J as [_ J].
  - rewrite (C50_Int64_integer _ J). cbn [ideal_sc] in Q. unfold int_lit in Q. cbn [nk_signed negb andb] in Q.
    replace (in_rangeb _ _) with ((- 2 ^ 63 <=? int_value r) && (int_value r <? 2 ^ 63)) in Q.
    + destruct (_ && _); [destruct Q as (D' & h' & F' & Q & V' & _); eauto|exact Q].
    + unfold in_rangeb. change (imin (kind_of C (NK true W64))) with (- 2 ^ 63). change (imax (kind_of C (NK true W64))) with (2 ^ 63 - 1). lia.
  - rewrite (C50_Int64_other _ J). exact Q.
Qed.
Theorem C50_agrees_with_float64 C O E dis T stk D s v r a h g F pf :
  decoder_for C E dis T (DSc (SFloat B64)) stk D -> json_text s v -> literal v = Some r -> r <> [45; 48] -> variable C (DSc (SFloat B64)) h a g F ->
  match Number_Float64 pf r with
  | Some x => exists D' h' F', Decode C O stk D s (TOk (flat 0 v)) (Some a) h = Ret (-1) None D' h' /\ variable C (DSc (SFloat B64)) h' a (VFloat x) F'
  | None => exists D', Decode C O stk D s (TOk (flat 0 v)) (Some a) h = Ret (Z.of_nat (jidx v)) (Some EParse) D' h
  end.
Proof.
  intros Df J L Nz V. assert (Sd : scalar_doc v = true) by (destruct v; try discriminate; reflexivity).
  assert (So : sound_sc C (SFloat B64) v) by (destruct v; try discriminate; injection L as ->; try exact I; exact Nz).
  pose proof (C14_scalars_partial C O E dis T _ stk D s v a h g F Df J Sd So V) as Q.
  rewrite (C50_Float64 pf r (literal_number _ _ _ J L)).
  assert (Ei : ideal_sc C (SFloat B64) v = float_lit B64 r) by (destruct v; try discriminate; injection L as ->; reflexivity). rewrite Ei in Q.
  unfold float_lit in Q. destruct (round B64 r); [destruct Q as (D' & h' & F' & Q & V' & _); eauto|exact Q].
Qed.

Definition num_stk : list frame := Eval vm_compute in stack_of plain_env TNumber.
Example C50_case :
  decoder_for wC plain_env false TNumber (DSc SNumber) num_stk (dyn0 num_stk) /\
  json_text (bs " -9223372036854775808 ") (JInt 1 (bs "-9223372036854775808")) /\
  Number_Int64 (bs "-9223372036854775808") = inl (- 2 ^ 63) /\ Number_Int64 (bs "-9223372036854775809") = inr IRange /\
  Number_Int64 (bs "1e3") = inr ISyntax /\ Number_Float64 (fun _ _ => None) (bs "1e3") = Some (FN 1 3 false) /\
  exists F, variable wC (DSc SNumber) (world 16) (1%nat, 0) (VStr []) F.
Proof.
  split; [eapply new_decoder; [apply plain_env_sizes|vm_compute; reflexivity|vm_compute; reflexivity|vm_compute; reflexivity]|].
  split; [apply parse_sound; vm_compute; reflexivity|]. do 4 (split; [vm_compute; reflexivity|]).
  exists []. exact (world_rep (DSc SNumber) I).
Qed.

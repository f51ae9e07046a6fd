(** Common definitions: bytes, Go byte strings, slicing, machine integers. *)
From Coq Require Export List Arith ZArith Lia Bool.
From Coq Require Ascii String.
Export String.StringSyntax.
From Coq Require Export ZifyBool ZifyNat.
Export ListNotations.
Global Open Scope list_scope.

(** A byte is a [Z] (the source only uses bytes 0..255); a Go string or []byte is a
    list of bytes.  [is_byte] is the range predicate. *)
Notation byte := Z (only parsing).
Notation bytes := (list Z).
Definition is_byte (b : byte) : Prop := (0 <= b < 256)%Z.

(** Convenience for writing literals in examples. *)
Fixpoint bs (s : String.string) : bytes :=
  match s with
  | String.EmptyString => []
  | String.String c r => Z.of_nat (Ascii.nat_of_ascii c) :: bs r
  end.
Arguments bs s%string_scope.

(** Go slice expression [s[a:b]]; [None] models the bounds panic. *)
Definition slice {A} (s : list A) (a b : nat) : option (list A) :=
  if (Nat.leb a b && Nat.leb b (length s))%bool then Some (firstn (b - a) (skipn a s)) else None.

Fixpoint bytes_eqb (a b : bytes) : bool :=
  match a, b with
  | [], [] => true
  | x :: a', y :: b' => (x =? y)%Z && bytes_eqb a' b'
  | _, _ => false
  end.

Lemma bytes_eqb_eq a b : bytes_eqb a b = true <-> a = b.
Proof.
  revert b; induction a as [|x a IH]; intros [|y b]; cbn; split; intros H; try congruence; try easy.
  - apply andb_true_iff in H as [H1 H2]. apply Z.eqb_eq in H1. apply IH in H2. congruence.
  - injection H as -> ->. rewrite Z.eqb_refl. apply IH. reflexivity.
Qed.

Lemma bytes_eqb_refl a : bytes_eqb a a = true.
Proof. apply bytes_eqb_eq; reflexivity. Qed.

(** Go fixed-width integers.  [IKind sg w]: signedness and width in bits. *)
Record ikind := IKind { ik_signed : bool; ik_width : Z }.
Definition two_pow (k : ikind) : Z := (2 ^ ik_width k)%Z.
Definition imin (k : ikind) : Z := if ik_signed k then (- 2 ^ (ik_width k - 1))%Z else 0%Z.
Definition imax (k : ikind) : Z :=
  if ik_signed k then (2 ^ (ik_width k - 1) - 1)%Z else (2 ^ ik_width k - 1)%Z.
Definition in_range (k : ikind) (z : Z) : Prop := (imin k <= z <= imax k)%Z.
Definition in_rangeb (k : ikind) (z : Z) : bool := ((imin k <=? z) && (z <=? imax k))%Z.

(** Two's complement truncation (Go arithmetic and conversions wrap silently). *)
Definition wrap (k : ikind) (z : Z) : Z :=
  if ik_signed k
  then ((z + 2 ^ (ik_width k - 1)) mod 2 ^ ik_width k - 2 ^ (ik_width k - 1))%Z
  else (z mod 2 ^ ik_width k)%Z.

Definition U8k := IKind false 8. Definition I8k := IKind true 8.
Definition U16k := IKind false 16. Definition I16k := IKind true 16.
Definition U32k := IKind false 32. Definition I32k := IKind true 32.
Definition U64k := IKind false 64. Definition I64k := IKind true 64.

Lemma in_rangeb_spec k z : in_rangeb k z = true <-> in_range k z.
Proof. unfold in_rangeb, in_range. rewrite andb_true_iff, !Z.leb_le. tauto. Qed.

Lemma skipn_skipn {A} a b (l : list A) : skipn a (skipn b l) = skipn (a + b) l.
Proof.
  revert a l; induction b as [|b IH]; intros a l.
  - rewrite Nat.add_0_r. reflexivity.
  - destruct l as [|x l]; [rewrite !skipn_nil; reflexivity|].
    rewrite Nat.add_succ_r. cbn [skipn]. apply IH.
Qed.

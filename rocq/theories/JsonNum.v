(** Model of internal/jsonnum/jsonnum.go.

    The three unrolled 8-byte loops are transcribed test by test.  A string slice is a
    list of bytes; the labels FRACTION and EXPONENT_SIGN are functions.  [None] models
    the run-time panic of [s[0]] on an empty string. *)
From Verif Require Import Base.
Open Scope Z_scope.

(** jsonnum.go:3-9 [ReturnCode]. *)
Inductive rc := RErr | RInteger | RNumber.

(** [c < '0' || c > '9'] *)
Definition nd (c : byte) : bool := (c <? 48) || (c >? 57).
(** [c == 'e' || c == 'E'] *)
Definition isE (c : byte) : bool := (c =? 101) || (c =? 69).

(** Body of each test in the exponent loop: [s = s[i:]; return s, ReturnCodeNumber]. *)
Definition exp_term (c : byte) (here after : bytes) : bytes * rc := (here, RNumber).

(** jsonnum.go:316-324: the byte-wise loop after the last full chunk of the exponent. *)
Fixpoint exp_loop_tail (s : bytes) : bytes * rc :=
  match s with
  | [] => ([], RNumber)
  | c :: r => if nd c then exp_term c s r else exp_loop_tail r
  end.

(** jsonnum.go:274-315: exponent digits in chunks of 8. *)
Fixpoint exp_loop (s : bytes) : bytes * rc :=
  match s with
  | a0 :: a1 :: a2 :: a3 :: a4 :: a5 :: a6 :: a7 :: r =>
      if nd a0 then exp_term a0 (skipn 0 s) (skipn 1 s) else
      if nd a1 then exp_term a1 (skipn 1 s) (skipn 2 s) else
      if nd a2 then exp_term a2 (skipn 2 s) (skipn 3 s) else
      if nd a3 then exp_term a3 (skipn 3 s) (skipn 4 s) else
      if nd a4 then exp_term a4 (skipn 4 s) (skipn 5 s) else
      if nd a5 then exp_term a5 (skipn 5 s) (skipn 6 s) else
      if nd a6 then exp_term a6 (skipn 6 s) (skipn 7 s) else
      if nd a7 then exp_term a7 (skipn 7 s) (skipn 8 s) else
      exp_loop r
  | _ => exp_loop_tail s
  end.

(** jsonnum.go:260-324, label EXPONENT_SIGN. *)
Definition exponent_sign (s : bytes) : bytes * rc :=
  match s with
  | [] => (s, RErr)
  | c :: r =>
      let s := if (c =? 45) || (c =? 43) then r else s in
      match s with
      | [] => (s, RErr)
      | c :: r => if nd c then (s, RErr) else exp_loop r
      end
  end.

(** Body of each test in the fraction loop: exponent or end of number. *)
Definition frac_term (c : byte) (here after : bytes) : bytes * rc :=
  if isE c then exponent_sign after else (here, RNumber).

(** jsonnum.go:243-258: byte-wise rest of the fraction loop. *)
Fixpoint frac_loop_tail (s : bytes) : bytes * rc :=
  match s with
  | [] => ([], RNumber)
  | c :: r => if nd c then frac_term c s r else frac_loop_tail r
  end.

(** jsonnum.go:177-242: fraction digits in chunks of 8. *)
Fixpoint frac_loop (s : bytes) : bytes * rc :=
  match s with
  | a0 :: a1 :: a2 :: a3 :: a4 :: a5 :: a6 :: a7 :: r =>
      if nd a0 then frac_term a0 (skipn 0 s) (skipn 1 s) else
      if nd a1 then frac_term a1 (skipn 1 s) (skipn 2 s) else
      if nd a2 then frac_term a2 (skipn 2 s) (skipn 3 s) else
      if nd a3 then frac_term a3 (skipn 3 s) (skipn 4 s) else
      if nd a4 then frac_term a4 (skipn 4 s) (skipn 5 s) else
      if nd a5 then frac_term a5 (skipn 5 s) (skipn 6 s) else
      if nd a6 then frac_term a6 (skipn 6 s) (skipn 7 s) else
      if nd a7 then frac_term a7 (skipn 7 s) (skipn 8 s) else
      frac_loop r
  | _ => frac_loop_tail s
  end.

(** jsonnum.go:170-258, label FRACTION. *)
Definition fraction (s : bytes) : bytes * rc :=
  match s with
  | [] => (s, RErr)
  | c :: r => if nd c then (s, RErr) else frac_loop r
  end.

(** Body of each test in the integer loop: exponent, fraction or end of integer. *)
Definition int_term (c : byte) (here after : bytes) : bytes * rc :=
  if isE c then exponent_sign after
  else if c =? 46 then fraction after
  else (here, RInteger).

(** jsonnum.go:149-168: byte-wise rest of the integer loop. *)
Fixpoint int_loop_tail (s : bytes) : bytes * rc :=
  match s with
  | [] => ([], RInteger)
  | c :: r => if nd c then int_term c s r else int_loop_tail r
  end.

(** jsonnum.go:51-148: integer digits in chunks of 8. *)
Fixpoint int_loop (s : bytes) : bytes * rc :=
  match s with
  | a0 :: a1 :: a2 :: a3 :: a4 :: a5 :: a6 :: a7 :: r =>
      if nd a0 then int_term a0 (skipn 0 s) (skipn 1 s) else
      if nd a1 then int_term a1 (skipn 1 s) (skipn 2 s) else
      if nd a2 then int_term a2 (skipn 2 s) (skipn 3 s) else
      if nd a3 then int_term a3 (skipn 3 s) (skipn 4 s) else
      if nd a4 then int_term a4 (skipn 4 s) (skipn 5 s) else
      if nd a5 then int_term a5 (skipn 5 s) (skipn 6 s) else
      if nd a6 then int_term a6 (skipn 6 s) (skipn 7 s) else
      if nd a7 then int_term a7 (skipn 7 s) (skipn 8 s) else
      int_loop r
  | _ => int_loop_tail s
  end.

(** jsonnum.go:13-324 [ReadNumber]. *)
Definition ReadNumber (s : bytes) : option (bytes * rc) :=
  match s with
  | [] => None (* line 16: s[0] out of range *)
  | c :: r =>
      let s := if c =? 45 then r else s in
      match s with
      | [] => Some (s, RErr) (* lines 19-22 *)
      | c :: r =>
          Some
          (if c =? 48 then (* lines 25-43 *)
             match r with
             | [] => (r, RInteger)
             | c' :: r' =>
                 if c' =? 46 then fraction r'
                 else if (c' =? 101) || (c' =? 69) then exponent_sign r'
                 else (r, RInteger)
             end
           else if (c <? 49) || (c >? 57) then (s, RErr) (* lines 45-49 *)
           else int_loop r)
      end
  end.

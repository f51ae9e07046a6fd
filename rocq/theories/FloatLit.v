(** Decimal floating point literals and the contract of strconv.ParseFloat.

    A JSON number denotes the exact decimal [m * 10^e].  A stored float is represented
    by the decimal it is the correct rounding of, plus the sign of a zero: rounding to
    binary32/binary64 itself is a function of that decimal (and of the sign of a zero), so
    two stored floats with the same representation are the same float. *)
From Verif Require Import Base NumSpec JsonNum Types.
Open Scope Z_scope.

(** The float obtained by rounding [fm * 10^fe]; [fnz]: it is the zero with minus sign. *)
Record fnum := FN { fm : Z; fe : Z; fnz : bool }.

Fixpoint span_digits (s : bytes) : bytes * bytes :=
  match s with
  | c :: r => if is_digitb c then let '(a, b) := span_digits r in (c :: a, b) else ([], s)
  | [] => ([], [])
  end.

Definition exp_value (s : bytes) : Z :=
  match s with
  | 45 :: ds => - dec ds
  | 43 :: ds => dec ds
  | ds => dec ds
  end.

(** Value of the unsigned part: integer digits, optional fraction, optional exponent. *)
Definition unum_value (s : bytes) : Z * Z :=
  let '(ip, r) := span_digits s in
  let '(fp, r) := match r with 46 :: r' => span_digits r' | _ => ([], r) end in
  let ex := match r with _ :: r' => exp_value r' | [] => 0 end in
  (dec (ip ++ fp), ex - Z.of_nat (length fp)).

(** The decimal denoted by a JSON number literal. *)
Definition num_value (s : bytes) : Z * Z :=
  match s with
  | 45 :: r => let '(m, e) := unum_value r in (- m, e)
  | _ => unum_value s
  end.

(** Correct rounding of [m*10^e] overflows the format: the magnitude is at least half an
    ulp above the largest finite number. *)
Definition too_big (b : fbits) (me : Z * Z) : bool :=
  let thr := match b with B32 => 2 ^ 128 - 2 ^ 103 | B64 => 2 ^ 1024 - 2 ^ 970 end in
  let '(m, e) := me in
  if 0 <=? e then thr <=? Z.abs m * 10 ^ e else thr * 10 ^ (- e) <=? Z.abs m.

Definition minus_zero (s : bytes) (m : Z) : bool := match s with 45 :: _ => m =? 0 | _ => false end.

(** strconv.ParseFloat on a JSON number: correctly rounded, error if out of range.  On
    any other string the result is left open ([other]). *)
Definition parse_float (other : fbits -> bytes -> option fnum) (b : fbits) (s : bytes) : option fnum :=
  match ReadNumber s with
  | Some ([], RInteger) | Some ([], RNumber) =>
      let '(m, e) := num_value s in
      if too_big b (m, e) then None else Some (FN m e (minus_zero s m))
  | _ => other b s
  end.

(** float32(i32) / float64(i64): conversion of an integer. *)
Definition float_of_int (z : Z) : fnum := FN z 0 false.

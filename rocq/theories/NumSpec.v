(** Specification of JSON number literals (RFC 8259 section 6), independent of the code. *)
From Verif Require Import Base.
Open Scope Z_scope.

Definition is_digit (c : byte) : Prop := 48 <= c <= 57.
Definition is_digitb (c : byte) : bool := (48 <=? c) && (c <=? 57).

(** Value of a list of decimal digits, most significant first. *)
Fixpoint dec_from (acc : Z) (ds : bytes) : Z :=
  match ds with
  | [] => acc
  | c :: r => dec_from (acc * 10 + (c - 48)) r
  end.
Definition dec (ds : bytes) : Z := dec_from 0 ds.

(** int = zero / ( digit1-9 *DIGIT ) *)
Definition json_uint (s : bytes) : Prop :=
  Forall is_digit s /\ exists c r, s = c :: r /\ (c = 48 -> r = []).

(** [ minus ] int *)
Inductive json_int : bytes -> Prop :=
| ji_pos s : json_uint s -> json_int s
| ji_neg s : json_uint s -> json_int (45 :: s).

(** Mathematical value of an integer literal. *)
Definition int_value (s : bytes) : Z :=
  match s with
  | 45 :: r => - dec r
  | _ => dec s
  end.

(** frac = "." 1*DIGIT *)
Inductive json_frac : bytes -> Prop :=
| jf ds : ds <> [] -> Forall is_digit ds -> json_frac (46 :: ds).

(** exp = ( "e" / "E" ) [ "-" / "+" ] 1*DIGIT *)
Inductive json_exp : bytes -> Prop :=
| je e sg ds : e = 101 \/ e = 69 -> sg = [] \/ sg = [45] \/ sg = [43] ->
    ds <> [] -> Forall is_digit ds -> json_exp (e :: sg ++ ds).

(** A number that is not an integer: it has a fraction, an exponent, or both. *)
Inductive json_nonint : bytes -> Prop :=
| jn_f i f : json_int i -> json_frac f -> json_nonint (i ++ f)
| jn_e i e : json_int i -> json_exp e -> json_nonint (i ++ e)
| jn_fe i f e : json_int i -> json_frac f -> json_exp e -> json_nonint (i ++ f ++ e).

Definition json_number (s : bytes) : Prop := json_int s \/ json_nonint s.

Lemma is_digitb_spec c : is_digitb c = true <-> is_digit c.
Proof. unfold is_digitb, is_digit. lia. Qed.

(** Maximal munch.  A prefix is viable if it can be extended to a JSON number. *)
Definition viable (p : bytes) : Prop := exists x, json_number (p ++ x).

(** [p] is the longest viable prefix of [s] and [t] is the rest. *)
Definition longest_viable (s p t : bytes) : Prop :=
  s = p ++ t /\ viable p /\ forall p' t', s = p' ++ t' -> viable p' -> (length p' <= length p)%nat.

(** Specification of JSON string bodies (RFC 8259 section 7) and UTF-8 (RFC 3629),
    independent of the code. *)
From Verif Require Import Base.
Open Scope Z_scope.

(** UTF-8 encoding of a code point, by the RFC 3629 table (arithmetic, no bit tricks). *)
Definition utf8_encode (cp : Z) : bytes :=
  if cp <? 128 then [cp]
  else if cp <? 2048 then [192 + cp / 64; 128 + cp mod 64]
  else if cp <? 65536 then [224 + cp / 4096; 128 + (cp / 64) mod 64; 128 + cp mod 64]
  else [240 + cp / 262144; 128 + (cp / 4096) mod 64; 128 + (cp / 64) mod 64; 128 + cp mod 64].

(** Unicode scalar values: code points that are not surrogates. *)
Definition is_surrogate (cp : Z) : Prop := 55296 <= cp <= 57343.
Definition scalar (cp : Z) : Prop := 0 <= cp <= 1114111 /\ ~ is_surrogate cp.

Inductive valid_utf8 : bytes -> Prop :=
| vu_nil : valid_utf8 []
| vu_cons cp r : scalar cp -> valid_utf8 r -> valid_utf8 (utf8_encode cp ++ r).

Definition hexval (c : byte) : option Z :=
  if (48 <=? c) && (c <=? 57) then Some (c - 48)
  else if (65 <=? c) && (c <=? 70) then Some (c - 65 + 10)
  else if (97 <=? c) && (c <=? 102) then Some (c - 97 + 10)
  else None.

(** The eight two-character escapes: quotation mark, backslash, slash, b, f, n, r, t. *)
Definition simple_escape (c : byte) : option byte :=
  if c =? 34 then Some 34 else if c =? 92 then Some 92 else if c =? 47 then Some 47
  else if c =? 98 then Some 8 else if c =? 102 then Some 12 else if c =? 110 then Some 10
  else if c =? 114 then Some 13 else if c =? 116 then Some 9 else None.

(** Items of a string body: an unescaped byte, a simple escape, a \u escape. *)
Inductive sitem := ILit (c : byte) | IEsc (c v : byte) | IU (h1 h2 h3 h4 : byte) (v : Z).

Definition item_ok (i : sitem) : Prop :=
  match i with
  | ILit c => c <> 92 (* backslash *)
  | IEsc c v => simple_escape c = Some v
  | IU h1 h2 h3 h4 v => exists a b c d, hexval h1 = Some a /\ hexval h2 = Some b /\
      hexval h3 = Some c /\ hexval h4 = Some d /\ v = a * 4096 + b * 256 + c * 16 + d
  end.

(** The text of an item in the document. *)
Definition item_text (i : sitem) : bytes :=
  match i with
  | ILit c => [c]
  | IEsc c _ => [92; c]
  | IU h1 h2 h3 h4 _ => [92; 117; h1; h2; h3; h4]
  end.
Definition text (l : list sitem) : bytes := concat (map item_text l).

(** Meaning when every escape denotes one code unit by itself: surrogate code units
    become U+FFFD. *)
Definition item_unit (i : sitem) : bytes :=
  match i with
  | ILit c => [c]
  | IEsc _ v => [v]
  | IU _ _ _ _ v => if (55296 <=? v) && (v <=? 57343) then utf8_encode 65533 else utf8_encode v
  end.
Definition meaning_units (l : list sitem) : bytes := concat (map item_unit l).

(** Meaning according to RFC 8259: a high surrogate followed by a low surrogate denotes
    one supplementary code point. *)
Fixpoint meaning (l : list sitem) : bytes :=
  match l with
  | [] => []
  | IU a b c d hi :: (IU _ _ _ _ lo :: r') as r =>
      if (55296 <=? hi) && (hi <=? 56319) && (56320 <=? lo) && (lo <=? 57343)
      then utf8_encode (65536 + (hi - 55296) * 1024 + (lo - 56320)) ++ meaning r'
      else item_unit (IU a b c d hi) ++ meaning r
  | i :: r => item_unit i ++ meaning r
  end.

(** A body contains a surrogate pair. *)
Fixpoint pair_free (l : list sitem) : Prop :=
  match l with
  | [] => True
  | IU _ _ _ _ hi :: (IU _ _ _ _ lo :: _) as r =>
      ~ (55296 <= hi <= 56319 /\ 56320 <= lo <= 57343) /\ pair_free r
  | _ :: r => pair_free r
  end.

(** [s] is a valid string body with items [l]. *)
Definition body (s : bytes) (l : list sitem) : Prop := Forall item_ok l /\ s = text l.

(** JSON documents and the token stream delivered by the external jscan tokenizer.

    The tokenizer (github.com/romshark/jscan) is not part of the repository.  Its
    contract is stated here: on a valid JSON text it delivers the pre-order flattening
    [flat] of the document tree.  The trees carry byte positions and the raw text of
    their lexemes; [value] is the JSON grammar (RFC 8259 sections 2-7) relating a text
    and a tree. *)
From Verif Require Import Base NumSpec StrSpec.
Open Scope nat_scope.

(** A document tree.  [i] is the byte index of the first byte of the value, [j] that of
    a closing bracket; strings carry their body without quotes. *)
Inductive jv :=
| JNull (i : nat) | JBool (i : nat) (b : bool)
| JInt (i : nat) (raw : bytes) | JNum (i : nat) (raw : bytes) | JStr (i : nat) (raw : bytes)
| JArr (i j : nat) (l : list jv)
| JObj (i j : nat) (l : list ((nat * bytes) * jv)).

Section JvInd.
  Context (P : jv -> Prop).
  Hypothesis (H0 : forall i, P (JNull i)) (H1 : forall i b, P (JBool i b)) (H2 : forall i r, P (JInt i r))
    (H3 : forall i r, P (JNum i r)) (H4 : forall i r, P (JStr i r))
    (H5 : forall i j l, Forall P l -> P (JArr i j l))
    (H6 : forall i j l, Forall (fun m => P (snd m)) l -> P (JObj i j l)).
  Fixpoint jv_ind' (v : jv) : P v :=
    match v return P v with
    | JNull i => H0 i | JBool i b => H1 i b | JInt i r => H2 i r | JNum i r => H3 i r | JStr i r => H4 i r
    | JArr i j l => H5 i j l ((fix go l : Forall P l :=
        match l with [] => Forall_nil _ | x :: r => Forall_cons x (jv_ind' x) (go r) end) l)
    | JObj i j l => H6 i j l ((fix go l : Forall (fun m => P (snd m)) l :=
        match l with [] => Forall_nil _ | x :: r => Forall_cons x (jv_ind' (snd x)) (go r) end) l)
    end.
End JvInd.

(** jscan.Token: type, byte index, end, number of elements.  For scalars and keys [tk_end]
    is the byte index after the lexeme; for Array/Object it is the token index of the
    matching end token; for end tokens it is not read by the decoder. *)
Inductive tt := KNull | KFalse | KTrue | KInt | KNum | KStr | KArr | KArrEnd | KObj | KObjEnd | KKey.
Record token := Tok { tk_ty : tt; tk_idx : nat; tk_end : nat; tk_n : nat }.

Fixpoint ntok (v : jv) : nat :=
  match v with
  | JArr _ _ l => 2 + (fix go l := match l with [] => 0 | x :: r => ntok x + go r end) l
  | JObj _ _ l => 2 + (fix go l := match l with [] => 0 | x :: r => 1 + ntok (snd x) + go r end) l
  | _ => 1
  end.
Fixpoint ntoks (l : list jv) : nat := match l with [] => 0 | x :: r => ntok x + ntoks r end.
Fixpoint ntokm (l : list ((nat * bytes) * jv)) : nat :=
  match l with [] => 0 | x :: r => 1 + ntok (snd x) + ntokm r end.

(** Flattening; [k] is the index of the first token in the whole stream. *)
Fixpoint flat (k : nat) (v : jv) : list token :=
  match v with
  | JNull i => [Tok KNull i (i + 4) 0]
  | JBool i b => [Tok (if b then KTrue else KFalse) i (i + (if b then 4 else 5)) 0]
  | JInt i r => [Tok KInt i (i + length r) 0]
  | JNum i r => [Tok KNum i (i + length r) 0]
  | JStr i r => [Tok KStr i (i + length r + 2) 0]
  | JArr i j l =>
      Tok KArr i (k + ntok v - 1) (length l)
      :: (fix go k l := match l with [] => [] | x :: r => flat k x ++ go (k + ntok x) r end) (S k) l
      ++ [Tok KArrEnd j k 0]
  | JObj i j l =>
      Tok KObj i (k + ntok v - 1) (length l)
      :: (fix go k l := match l with
          | [] => []
          | x :: r => Tok KKey (fst (fst x)) (fst (fst x) + length (snd (fst x)) + 2) 0
                      :: flat (S k) (snd x) ++ go (S k + ntok (snd x)) r
          end) (S k) l
      ++ [Tok KObjEnd j k 0]
  end.
Fixpoint flats (k : nat) (l : list jv) : list token :=
  match l with [] => [] | x :: r => flat k x ++ flats (k + ntok x) r end.
Fixpoint flatm (k : nat) (l : list ((nat * bytes) * jv)) : list token :=
  match l with
  | [] => []
  | x :: r => Tok KKey (fst (fst x)) (fst (fst x) + length (snd (fst x)) + 2) 0
              :: flat (S k) (snd x) ++ flatm (S k + ntok (snd x)) r
  end.

Lemma ntok_arr i j l : ntok (JArr i j l) = 2 + ntoks l.
Proof. cbn [ntok]. apply (f_equal (Nat.add 2)). induction l as [|x l IH]; cbn [ntoks ntokm]; [reflexivity|rewrite IH; reflexivity]. Qed.
Lemma ntok_obj i j l : ntok (JObj i j l) = 2 + ntokm l.
Proof. cbn [ntok]. apply (f_equal (Nat.add 2)). induction l as [|x l IH]; cbn [ntoks ntokm]; [reflexivity|rewrite IH; reflexivity]. Qed.
Lemma flat_arr k i j l :
  flat k (JArr i j l) = Tok KArr i (S k + ntoks l) (length l) :: flats (S k) l ++ [Tok KArrEnd j k 0].
Proof.
  cbn [flat]. replace (k + ntok (JArr i j l) - 1) with (S k + ntoks l) by (rewrite ntok_arr; lia).
  reflexivity.
Qed.
Lemma flat_obj k i j l :
  flat k (JObj i j l) = Tok KObj i (S k + ntokm l) (length l) :: flatm (S k) l ++ [Tok KObjEnd j k 0].
Proof.
  cbn [flat]. replace (k + ntok (JObj i j l) - 1) with (S k + ntokm l) by (rewrite ntok_obj; lia).
  reflexivity.
Qed.
Lemma flat_length v : forall k, length (flat k v) = ntok v.
Proof.
  induction v using jv_ind'; intros k; try reflexivity.
  - rewrite flat_arr, ntok_arr. cbn [length]. rewrite app_length. cbn [length].
    assert (E : forall m, length (flats m l) = ntoks l).
    { induction H as [|x l Hx Hl IH]; intros m; cbn; [reflexivity|]. rewrite app_length, Hx, IH. reflexivity. }
    rewrite E. lia.
  - rewrite flat_obj, ntok_obj. cbn [length]. rewrite app_length. cbn [length].
    assert (E : forall m, length (flatm m l) = ntokm l).
    { induction H as [|x l Hx Hl IH]; intros m; cbn; [reflexivity|]. rewrite app_length, Hx, IH. lia. }
    rewrite E. lia.
Qed.
Lemma flats_length l k : length (flats k l) = ntoks l.
Proof. revert k; induction l; intros k; cbn; [reflexivity|]. rewrite app_length, flat_length, IHl. reflexivity. Qed.
Lemma flatm_length l k : length (flatm k l) = ntokm l.
Proof. revert k; induction l; intros k; cbn; [reflexivity|]. rewrite app_length, flat_length, IHl. lia. Qed.
Lemma ntok_pos v : 1 <= ntok v.
Proof. destruct v; cbn; lia. Qed.

(** ** The JSON grammar *)

(** [raw] occurs in [s] at byte [i]. *)
Definition occurs (s : bytes) (i : nat) (raw : bytes) : Prop := slice s i (i + length raw) = Some raw.

Definition is_ws (c : byte) : Prop := c = 32%Z \/ c = 9%Z \/ c = 10%Z \/ c = 13%Z.
Definition ws (s : bytes) (i j : nat) : Prop := exists w, occurs s i w /\ j = i + length w /\ Forall is_ws w.

(** Characters allowed unescaped in a string: no quotation mark, no control character
    (a backslash is excluded by [item_ok]). *)
Definition lit_ok (i : sitem) : Prop := match i with ILit c => (c <> 34 /\ 32 <= c)%Z | _ => True end.
Definition string_body (raw : bytes) : Prop := exists l, body raw l /\ Forall lit_ok l.

(** [value s i v j]: the bytes of [s] from [i] to [j] are a JSON value with tree [v]. *)
Inductive value (s : bytes) : nat -> jv -> nat -> Prop :=
| v_null i : occurs s i (bs "null") -> value s i (JNull i) (i + 4)
| v_true i : occurs s i (bs "true") -> value s i (JBool i true) (i + 4)
| v_false i : occurs s i (bs "false") -> value s i (JBool i false) (i + 5)
| v_int i r : occurs s i r -> json_int r -> value s i (JInt i r) (i + length r)
| v_num i r : occurs s i r -> json_nonint r -> value s i (JNum i r) (i + length r)
| v_str i r : occurs s i (34%Z :: r ++ [34%Z]) -> string_body r -> value s i (JStr i r) (i + length r + 2)
| v_arr0 i j : occurs s i [91%Z] -> ws s (S i) j -> occurs s j [93%Z] -> value s i (JArr i j []) (S j)
| v_arr i j l : occurs s i [91%Z] -> elements s (S i) l j -> occurs s j [93%Z] -> value s i (JArr i j l) (S j)
| v_obj0 i j : occurs s i [123%Z] -> ws s (S i) j -> occurs s j [125%Z] -> value s i (JObj i j []) (S j)
| v_obj i j l : occurs s i [123%Z] -> members s (S i) l j -> occurs s j [125%Z] -> value s i (JObj i j l) (S j)
with elements (s : bytes) : nat -> list jv -> nat -> Prop :=
| e_one i k v m j : ws s i k -> value s k v m -> ws s m j -> elements s i [v] j
| e_cons i k v m n l j : ws s i k -> value s k v m -> ws s m n -> occurs s n [44%Z] ->
    elements s (S n) l j -> elements s i (v :: l) j
with members (s : bytes) : nat -> list ((nat * bytes) * jv) -> nat -> Prop :=
| m_one i x j : member s i x j -> members s i [x] j
| m_cons i x n l j : member s i x n -> occurs s n [44%Z] -> members s (S n) l j -> members s i (x :: l) j
with member (s : bytes) : nat -> (nat * bytes) * jv -> nat -> Prop :=
| m_mem i k r c d v m j : ws s i k -> occurs s k (34%Z :: r ++ [34%Z]) -> string_body r ->
    ws s (k + length r + 2) c -> occurs s c [58%Z] -> ws s (S c) d -> value s d v m -> ws s m j ->
    member s i ((k, r), v) j.

(** [s] is a JSON text with tree [v]. *)
Definition json_text (s : bytes) (v : jv) : Prop :=
  exists i j, ws s 0 i /\ value s i v j /\ ws s j (length s).

(** What the decoder needs to know about a tree and its text: every lexeme is where the
    tree says. *)
Fixpoint lexed (s : bytes) (v : jv) : Prop :=
  match v with
  | JNull i => occurs s i (bs "null")
  | JBool i b => occurs s i (if b then bs "true" else bs "false")
  | JInt i r => occurs s i r /\ json_int r
  | JNum i r => occurs s i r /\ json_nonint r
  | JStr i r => occurs s i (34%Z :: r ++ [34%Z]) /\ string_body r
  | JArr i j l => occurs s i [91%Z] /\ occurs s j [93%Z] /\ i < j /\
      (fix go l := match l with [] => True | x :: r => lexed s x /\ go r end) l
  | JObj i j l => occurs s i [123%Z] /\ occurs s j [125%Z] /\ i < j /\
      (fix go l := match l with
       | [] => True
       | x :: r => (occurs s (fst (fst x)) (34%Z :: snd (fst x) ++ [34%Z]) /\ string_body (snd (fst x)))
                   /\ lexed s (snd x) /\ go r end) l
  end.
Definition key_lexed (s : bytes) (x : (nat * bytes) * jv) : Prop :=
  occurs s (fst (fst x)) (34%Z :: snd (fst x) ++ [34%Z]) /\ string_body (snd (fst x)).

Lemma lexed_arr s i j l :
  lexed s (JArr i j l) <-> occurs s i [91%Z] /\ occurs s j [93%Z] /\ i < j /\ Forall (lexed s) l.
Proof.
  cbn. assert (E : (fix go l := match l with [] => True | x :: r => lexed s x /\ go r end) l <-> Forall (lexed s) l).
  { induction l as [|x l IH]; [split; [constructor|tauto]|]. rewrite Forall_cons_iff. tauto. }
  tauto.
Qed.
Lemma lexed_obj s i j l :
  lexed s (JObj i j l) <-> occurs s i [123%Z] /\ occurs s j [125%Z] /\ i < j /\
    Forall (fun x => key_lexed s x /\ lexed s (snd x)) l.
Proof.
  cbn. assert (E : (fix go l := match l with
       | [] => True
       | x :: r => (occurs s (fst (fst x)) (34%Z :: snd (fst x) ++ [34%Z]) /\ string_body (snd (fst x)))
                   /\ lexed s (snd x) /\ go r end) l <-> Forall (fun x => key_lexed s x /\ lexed s (snd x)) l).
  { induction l as [|x l IH]; [split; [constructor|tauto]|]. rewrite Forall_cons_iff. unfold key_lexed in *. tauto. }
  tauto.
Qed.

Scheme value_ind3 := Induction for value Sort Prop
  with elements_ind3 := Induction for elements Sort Prop
  with members_ind3 := Induction for members Sort Prop
  with member_ind3 := Induction for member Sort Prop.
Combined Scheme json_mutind from value_ind3, elements_ind3, members_ind3, member_ind3.

Lemma ws_le s i j : ws s i j -> i <= j.
Proof. intros (w & _ & -> & _). lia. Qed.

Lemma value_lexed s :
  (forall i v j, value s i v j -> lexed s v /\ i < j) /\
  (forall i l j, elements s i l j -> Forall (lexed s) l /\ i <= j) /\
  (forall i l j, members s i l j -> Forall (fun x => key_lexed s x /\ lexed s (snd x)) l /\ i <= j) /\
  (forall i x j, member s i x j -> (key_lexed s x /\ lexed s (snd x)) /\ i <= j).
Proof.
  apply (json_mutind s
    (fun i v j _ => lexed s v /\ i < j)
    (fun i l j _ => Forall (lexed s) l /\ i <= j)
    (fun i l j _ => Forall (fun x => key_lexed s x /\ lexed s (snd x)) l /\ i <= j)
    (fun i x j _ => (key_lexed s x /\ lexed s (snd x)) /\ i <= j)); intros;
  repeat match goal with H : ws _ _ _ |- _ => apply ws_le in H end.
  - cbn [lexed]. split; [assumption|lia].
  - cbn [lexed]. split; [assumption|lia].
  - cbn [lexed]. split; [assumption|lia].
  - cbn [lexed]. split; [tauto|]. match goal with H : json_int ?r |- _ => assert (0 < length r); [inversion H as [? [_ (? & ? & -> & _)]|? [_ (? & ? & -> & _)]]; cbn; lia|lia] end.
  - cbn [lexed]. split; [tauto|].
    match goal with H : json_nonint ?r |- _ => assert (0 < length r) end; [|lia].
    match goal with H : json_nonint ?r |- _ => inversion H as [? ? Hi|? ? Hi|? ? ? Hi]; subst end;
      rewrite !app_length; inversion Hi as [? [_ (? & ? & -> & _)]|? [_ (? & ? & -> & _)]]; cbn; lia.
  - cbn [lexed]. split; [tauto|lia].
  - rewrite lexed_arr. repeat split; try assumption; try lia. constructor.
  - rewrite lexed_arr. repeat split; try assumption; try lia; tauto.
  - rewrite lexed_obj. repeat split; try assumption; try lia. constructor.
  - rewrite lexed_obj. repeat split; try assumption; try lia; tauto.
  - split; [constructor; [tauto|constructor]|lia].
  - split; [constructor; tauto|lia].
  - split; [constructor; [tauto|constructor]|lia].
  - split; [constructor; tauto|lia].
  - cbn [fst snd]. split; [|lia]. unfold key_lexed. cbn. tauto.
Qed.

Theorem json_text_lexed s v : json_text s v -> lexed s v.
Proof. intros (i & j & _ & H & _). apply (value_lexed s) in H. tauto. Qed.

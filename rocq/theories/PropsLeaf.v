(** Properties C01-C09: the leaf parsers, the string unescaper and the field lookup.
    Every theorem is followed by an example showing that a concrete case meets its
    hypotheses.  Theorems named [.._refuted] prove that the property as stated in
    properties.jsonl is false of the code and exhibit the input. *)
From Verif Require Import Base NumSpec Atoi AtoiProofs JsonNum JsonNumProofs StrSpec Unescape UnescapeProofs Lookup.
Open Scope Z_scope.

Ltac lit := repeat first [split | constructor | lia | (eexists; eexists)]; cbn; try lia; try congruence.

Lemma uint_by s : forallb is_digitb s = true -> s <> [] -> (hd 0 s = 48 -> tl s = []) -> json_uint s.
Proof.
  intros H N Hz. split.
  - apply Forall_forall. intros c Hc. apply is_digitb_spec. rewrite forallb_forall in H. apply H, Hc.
  - destruct s as [|c r]; [congruence|]. exists c, r. split; [reflexivity|exact Hz].
Qed.

(** ** C01 *)
(** A parser for kind [k] is exact on literal [s] denoting [v]. *)
Definition stores_or_overflows (k : ikind) (v : Z) (r : option (Z * bool)) : Prop :=
  (in_range k v /\ r = Some (v, false)) \/ (~ in_range k v /\ r = Some (0, true)).

Lemma exact_stores k v : stores_or_overflows k v (exact k v).
Proof.
  unfold stores_or_overflows. destruct (in_rangeb k v) eqn:E.
  - apply in_rangeb_spec in E. left. split; [exact E|]. apply exact_in, E.
  - right. assert (~ in_range k v) by (rewrite <- in_rangeb_spec; congruence).
    split; [assumption|]. apply exact_out; assumption.
Qed.

Theorem C01_unsigned_exact s : json_uint s ->
  stores_or_overflows U8k (dec s) (U8 s) /\ stores_or_overflows U16k (dec s) (U16 s) /\
  stores_or_overflows U32k (dec s) (U32 s) /\ stores_or_overflows U64k (dec s) (U64 s).
Proof.
  intros H. rewrite U8_exact, U16_exact, U32_exact, U64_exact by exact H.
  repeat split; apply exact_stores.
Qed.
Example C01_ex : json_uint (bs "18446744073709551616") /\ U64 (bs "18446744073709551616") = Some (0, true)
  /\ U64 (bs "18446744073709551615") = Some (18446744073709551615, false) /\ U8 (bs "300") = Some (0, true).
Proof. split; [apply uint_by; solve [vm_compute; congruence | intros X; vm_compute in X; discriminate X]|]. repeat split; reflexivity. Qed.

(** ** C02 *)
Theorem C02_int64_exact s : json_int s -> stores_or_overflows I64k (int_value s) (I64 s).
Proof. intros H. rewrite I64_exact by exact H. apply exact_stores. Qed.
Example C02_ex : json_int (bs "-9223372036854775808") /\
  I64 (bs "-9223372036854775808") = Some (-9223372036854775808, false) /\
  I64 (bs "-9223372036854775809") = Some (0, true).
Proof. split; [apply ji_neg, uint_by; solve [vm_compute; congruence | intros X; vm_compute in X; discriminate X]|]. split; reflexivity. Qed.

(** ** C03 *)
(** In range the three narrower signed parsers are exact, ... *)
Theorem C03_signed_in_range_partial s : json_int s ->
  (in_range I8k (int_value s) -> I8 s = Some (int_value s, false)) /\
  (in_range I16k (int_value s) -> I16 s = Some (int_value s, false)) /\
  (in_range I32k (int_value s) -> I32 s = Some (int_value s, false)).
Proof. intros H. repeat split; intros R; [apply I8_in_range|apply I16_in_range|apply I32_in_range]; assumption. Qed.
Example C03_ex : json_int (bs "-32768") /\ in_range I16k (int_value (bs "-32768")).
Proof. split; [apply ji_neg, uint_by; solve [vm_compute; congruence | intros X; vm_compute in X; discriminate X]|]. split; vm_compute; congruence. Qed.

(** ... and out of range they report overflow except exactly on the literals of at most
    3, 5, 10 digits whose two's complement truncation keeps the sign of the literal
    (or is zero): there they store the truncated value. *)
Theorem C03_signed_characterised s : json_int s ->
  (wraps_silently I8k 3 (int_value s) -> I8 s = Some (wrap I8k (int_value s), false)) /\
  (~ wraps_silently I8k 3 (int_value s) -> stores_or_overflows I8k (int_value s) (I8 s)) /\
  (wraps_silently I16k 5 (int_value s) -> I16 s = Some (wrap I16k (int_value s), false)) /\
  (~ wraps_silently I16k 5 (int_value s) -> stores_or_overflows I16k (int_value s) (I16 s)) /\
  (wraps_silently I32k 10 (int_value s) -> I32 s = Some (wrap I32k (int_value s), false)) /\
  (~ wraps_silently I32k 10 (int_value s) -> stores_or_overflows I32k (int_value s) (I32 s)).
Proof.
  intros H. rewrite I8_beh, I16_beh, I32_beh by exact H.
  pose proof (sgn_beh_char I8k 3 (int_value s) ltac:(auto with kinds) eq_refl ltac:(vm_compute; congruence) ltac:(vm_compute; congruence)) as [A1 A2].
  pose proof (sgn_beh_char I16k 5 (int_value s) ltac:(auto with kinds) eq_refl ltac:(vm_compute; congruence) ltac:(vm_compute; congruence)) as [B1 B2].
  pose proof (sgn_beh_char I32k 10 (int_value s) ltac:(auto with kinds) eq_refl ltac:(vm_compute; congruence) ltac:(vm_compute; congruence)) as [C1 C2].
  split; [exact A1|]. split; [intros W; rewrite A2 by exact W; apply exact_stores|].
  split; [exact B1|]. split; [intros W; rewrite B2 by exact W; apply exact_stores|].
  split; [exact C1|]. intros W; rewrite C2 by exact W; apply exact_stores.
Qed.
Example C03_char_ex : wraps_silently I8k 3 300 /\ ~ wraps_silently I8k 3 200.
Proof. split; [split; [vm_compute; intros [_ H]; apply H; reflexivity|vm_compute; repeat split; congruence]|].
  intros (_ & _ & H & _). specialize (H ltac:(lia)). vm_compute in H. apply H; reflexivity. Qed.

(** The property C03 is false of the code: "300" is stored as 44 in an int8, etc. *)
Theorem C03_refuted :
  ~ (forall s, json_int s -> stores_or_overflows I8k (int_value s) (I8 s)) /\
  ~ (forall s, json_int s -> stores_or_overflows I16k (int_value s) (I16 s)) /\
  ~ (forall s, json_int s -> stores_or_overflows I32k (int_value s) (I32 s)).
Proof.
  repeat split; intros H.
  - specialize (H (bs "300") ltac:(apply ji_pos, uint_by; solve [vm_compute; congruence | intros X; vm_compute in X; discriminate X])).
    destruct H as [[[_ H] _]|[_ H]]; [vm_compute in H; apply H; reflexivity|vm_compute in H; discriminate].
  - specialize (H (bs "65536") ltac:(apply ji_pos, uint_by; solve [vm_compute; congruence | intros X; vm_compute in X; discriminate X])).
    destruct H as [[[_ H] _]|[_ H]]; [vm_compute in H; apply H; reflexivity|vm_compute in H; discriminate].
  - specialize (H (bs "4294967297") ltac:(apply ji_pos, uint_by; solve [vm_compute; congruence | intros X; vm_compute in X; discriminate X])).
    destruct H as [[[_ H] _]|[_ H]]; [vm_compute in H; apply H; reflexivity|vm_compute in H; discriminate].
Qed.
Example C03_witnesses : I8 (bs "300") = Some (44, false) /\ I8 (bs "-300") = Some (-44, false) /\
  I8 (bs "256") = Some (0, false) /\ I16 (bs "65536") = Some (0, false) /\ I32 (bs "4294967297") = Some (1, false).
Proof. repeat split; reflexivity. Qed.

(** ** C04 *)
(** [s] is cut after its longest prefix that some continuation completes to a JSON
    number; the class is that of the prefix and it is an error iff the prefix is not
    itself a JSON number.  On success the remainder is exactly what follows it. *)
Theorem C04_scanner_maximal_munch s : s <> [] ->
  exists p t k t', longest_viable s p t /\ ReadNumber s = Some (t', k) /\
    (k = RInteger <-> json_int p) /\ (k = RNumber <-> json_nonint p) /\
    (k = RErr <-> ~ json_number p) /\ (k <> RErr -> t' = t).
Proof. exact (ReadNumber_spec s). Qed.

(** The whole string is consumed iff it is a number. *)
Theorem C04_scanner_whole s :
  (ReadNumber s = Some ([], RInteger) <-> json_int s) /\
  (ReadNumber s = Some ([], RNumber) <-> json_nonint s).
Proof. split; split; intros H; try (apply ReadNumber_int, H); apply ReadNumber_nonint, H. Qed.
Example C04_ex : ReadNumber (bs "-1234567890.5e+10,") = Some (bs ",", RNumber) /\
  ReadNumber (bs "12345678]") = Some (bs "]", RInteger) /\ ReadNumber (bs "1.x") = Some (bs "x", RErr).
Proof. repeat split; reflexivity. Qed.

(** Panics: only on the empty string, which the JSON tokenizer never passes but an
    empty quoted number does (see C05). *)
Theorem C04_scanner_panics_iff_empty s : ReadNumber s = None <-> s = [].
Proof. exact (ReadNumber_panic_iff s). Qed.

(** ** C06, C07 *)
Theorem C06_unescape_meaning s l : body s l -> Valid s = UOk (meaning_units l).
Proof. exact (Valid_units s l). Qed.
Definition C06_items : list sitem :=
  [ILit 97; IEsc 110 10; ILit 98; ILit 99; ILit 100; ILit 101; ILit 102; ILit 103; ILit 104; IU 48 48 101 57 233; ILit 122].
Example C06_ex : body (bs "a\nbcdefgh\u00e9z") C06_items /\
  meaning_units C06_items = [97; 10; 98; 99; 100; 101; 102; 103; 104; 195; 169; 122].
Proof.
  split; [|reflexivity]. split; [|reflexivity].
  repeat constructor; cbn; try congruence. exists 0, 0, 14, 9. repeat split.
Qed.
Theorem C06_no_escape_identity s : ~ In 92 s -> Valid s = UOk s.
Proof. exact (Valid_no_escape s). Qed.

Theorem C07_unescape_in_bounds s l : body s l ->
  exists b, Valid s = UOk b /\ (length b <= length s)%nat.
Proof. exact (Valid_fits s l). Qed.
Example C07_ex : body (text C06_items) C06_items.
Proof. exact (proj1 C06_ex). Qed.

(** ** C08 *)
Theorem C08_meaning_without_pairs_partial s l : body s l -> pair_free l -> Valid s = UOk (meaning l).
Proof. exact (Valid_meaning_pair_free s l). Qed.
Example C08_ex : body (text C06_items) C06_items /\ pair_free C06_items.
Proof. split; [exact (proj1 C06_ex)|]. cbn. exact I. Qed.

Theorem C08_output_valid_utf8 l : Forall item_ok l -> utf8_items l ->
  exists b, Valid (text l) = UOk b /\ valid_utf8 b.
Proof.
  intros H U. exists (meaning_units l). split; [apply Valid_units; split; [exact H|reflexivity]|apply units_utf8, U].
Qed.
Example C08_utf8_ex : let l := [IU 100 56 51 52 55348; ILit 97] in Forall item_ok l /\ utf8_items l.
Proof.
  cbn zeta. split.
  - repeat constructor; cbn; try lia. exists 13, 8, 3, 4; repeat split.
  - apply ui_u; [exists 13, 8, 3, 4; repeat split|]. apply (ui_lit 97 []); [|constructor].
    unfold scalar, is_surrogate; lia.
Qed.

(** A surrogate pair does not denote one code point: U+1D11E written as an escaped pair
    comes out as two replacement characters. *)
Theorem C08_refuted : exists s l, body s l /\ Valid s <> UOk (meaning l) /\
  Valid s = UOk [239; 191; 189; 239; 191; 189] /\ meaning l = utf8_encode 119070.
Proof.
  exists (bs "\ud834\udd1e"), [IU 100 56 51 52 55348; IU 100 100 49 101 56606].
  split; [split; [|reflexivity]; repeat constructor|].
  - exists 13, 8, 3, 4; repeat split.
  - exists 13, 13, 1, 14; repeat split.
  - split; [vm_compute; congruence|]. split; reflexivity.
Qed.

(** ** C09 *)
(** For every relation [fold] (strings.EqualFold): first exact match, else (unless
    disabled) first equal-length match under [fold]. *)
Theorem C09_lookup fold dis fields name :
  (exists i, first_such (fun a => fst a = name) fields (Some i) /\ lookup_field fold dis fields name = Some i) \/
  (first_such (fun a => fst a = name) fields None /\
   if dis then lookup_field fold dis fields name = None
   else first_such (fun a => length (fst a) = length name /\ fold (fst a) name = true) fields
          (lookup_field fold dis fields name)).
Proof. exact (lookup_spec fold dis fields name). Qed.
Example C09_ex : let F := [(bs "Ab", 1); (bs "aB", 2); (bs "x", 3); (bs "y", 4); (bs "ab", 5)]%nat in
  lookup_field (fun _ _ => true) false F (bs "ab") = Some 5%nat /\
  lookup_field (fun _ _ => true) false F (bs "AB") = Some 1%nat /\
  lookup_field (fun _ _ => true) true F (bs "AB") = None.
Proof. repeat split; reflexivity. Qed.

(** Proofs about unescape.Valid. *)
From Verif Require Import Base StrSpec Unescape.
Open Scope Z_scope.

(** ** Bit operations are arithmetic *)
Lemma tobyte_mod r : 0 <= r -> tobyte r = r mod 256.
Proof. intros H. unfold tobyte. change 255 with (Z.ones 8). rewrite Z.land_ones by lia. reflexivity. Qed.

Lemma land63 r : Z.land r 63 = r mod 64.
Proof. change 63 with (Z.ones 6). rewrite Z.land_ones by lia. reflexivity. Qed.

Lemma lor_shift a n b : 0 <= n -> 0 <= b < 2 ^ n -> Z.lor (a * 2 ^ n) b = a * 2 ^ n + b.
Proof.
  intros Hn Hb. assert (L : Z.land (a * 2 ^ n) b = 0).
  { apply Z.bits_inj'. intros i Hi. rewrite Z.land_spec, Z.bits_0.
    destruct (Z_lt_le_dec i n).
    - rewrite Z.mul_pow2_bits_low by lia. reflexivity.
    - destruct (Z.eq_dec b 0) as [->|Hb0]; [rewrite Z.bits_0, andb_false_r; reflexivity|].
      rewrite (Z.bits_above_log2 b i); [apply andb_false_r|lia|].
      apply Z.log2_lt_pow2; [lia|]. apply Z.lt_le_trans with (2 ^ n); [lia|]. apply Z.pow_le_mono_r; lia. }
  rewrite Z.add_nocarry_lxor by exact L. symmetry. apply Z.lxor_lor, L.
Qed.

Lemma u_bytes_spec v : 0 <= v < 65536 ->
  u_bytes v = if (55296 <=? v) && (v <=? 57343) then utf8_encode 65533 else utf8_encode v.
Proof.
  intros Hv. unfold u_bytes, utf8_encode.
  destruct (Z.leb_spec v 127).
  { replace ((55296 <=? v) && (v <=? 57343)) with false by lia. destruct (Z.ltb_spec v 128); [|lia].
    rewrite tobyte_mod, Z.mod_small by lia. reflexivity. }
  destruct (Z.leb_spec v 2047).
  { replace ((55296 <=? v) && (v <=? 57343)) with false by lia.
    destruct (Z.ltb_spec v 128); [lia|]. destruct (Z.ltb_spec v 2048); [|lia].
    rewrite Z.shiftr_div_pow2 by lia. change (2 ^ 6) with 64.
    rewrite (tobyte_mod (v / 64)) by (apply Z.div_pos; lia).
    rewrite (tobyte_mod v), land63 by lia.
    assert (v / 64 < 32) by (apply Z.div_lt_upper_bound; lia).
    assert (0 <= v / 64) by (apply Z.div_pos; lia).
    rewrite (Z.mod_small (v / 64)) by lia.
    replace ((v mod 256) mod 64) with (v mod 64).
    2:{ rewrite (Z.div_mod v 256) at 1 by lia. replace (256 * (v / 256) + v mod 256) with (v mod 256 + (4 * (v / 256)) * 64) by lia. apply Z.mod_add. lia. }
    pose proof (Z.mod_pos_bound v 64).
    change 192 with (3 * 2 ^ 6) at 1. change 128 with (2 * 2 ^ 6) at 1.
    rewrite !lor_shift by (change (2 ^ 6) with 64; lia). reflexivity. }
  replace (v >? 1114111) with false by lia. cbn [orb].
  destruct ((55296 <=? v) && (v <=? 57343)); [reflexivity|].
  destruct (Z.ltb_spec v 128); [lia|]. destruct (Z.ltb_spec v 2048); [lia|]. destruct (Z.ltb_spec v 65536); [|lia].
  rewrite !Z.shiftr_div_pow2 by lia. change (2 ^ 6) with 64. change (2 ^ 12) with 4096.
  assert (Hd : forall d, 0 < d -> 0 <= v / d) by (intros; apply Z.div_pos; lia).
  pose proof (Hd 64 ltac:(lia)). pose proof (Hd 4096 ltac:(lia)).
  rewrite !tobyte_mod by (assumption || lia). rewrite !land63.
  assert (v / 4096 < 16) by (apply Z.div_lt_upper_bound; lia).
  rewrite (Z.mod_small (v / 4096)) by lia.
  assert (M : forall x, 0 <= x -> (x mod 256) mod 64 = x mod 64).
  { intros x Hx. symmetry. rewrite (Z.div_mod x 256) at 1 by lia. replace (256 * (x / 256) + x mod 256) with (x mod 256 + (4 * (x / 256)) * 64) by lia. apply Z.mod_add. lia. }
  rewrite !M by (assumption || lia).
  pose proof (Z.mod_pos_bound v 64). pose proof (Z.mod_pos_bound (v / 64) 64).
  change 224 with (7 * 2 ^ 5) at 1. change 128 with (2 * 2 ^ 6) at 1 2.
  rewrite !lor_shift by (change (2 ^ 6) with 64; change (2 ^ 5) with 32; lia). reflexivity.
Qed.

Lemma lut_hex h a : hexval h = Some a -> lut h = a /\ 0 <= a < 16.
Proof.
  unfold hexval, lut. destruct ((48 <=? h) && (h <=? 57)) eqn:E1; [intros [= <-]; lia|].
  destruct ((65 <=? h) && (h <=? 70)) eqn:E2; [intros [= <-]; lia|].
  destruct ((97 <=? h) && (h <=? 102)) eqn:E3; [intros [= <-]; lia|]. discriminate.
Qed.

Lemma lutReplace_spec c v : simple_escape c = Some v -> lutReplace c = v /\ c <> 117.
Proof.
  unfold simple_escape, lutReplace. 
  repeat match goal with |- context [c =? ?k] => destruct (Z.eqb_spec c k); [subst; intros [= <-]; split; [reflexivity|lia]|] end.
  discriminate.
Qed.

(** ** The batch search finds the next backslash *)
Definition lit (s : bytes) : nat := scan_bs s.

Lemma index_scan s : match index_bs s with
                     | Some i => scan_bs s = i /\ (i < length s)%nat
                     | None => scan_bs s = length s
                     end.
Proof.
  induction s as [|c s IH]; cbn; [reflexivity|]. destruct (c =? 92); [split; [reflexivity|lia]|].
  destruct (index_bs s) as [i|]; [destruct IH; split; [congruence|lia]|congruence].
Qed.

Definition cont (f : nat) (buf s : bytes) : uout :=
  match s with [] => UOk buf | _ => esc f buf s end.

Lemma esc_step f buf s : esc (S f) buf s =
  match escape_one buf s with
  | None => UPanic
  | Some (buf, s) => cont f (buf ++ firstn (scan_bs s) s) (skipn (scan_bs s) s)
  end.
Proof.
  cbn [esc]. destruct (escape_one buf s) as [[buf' s']|]; [|reflexivity]. clear buf s. rename buf' into buf. rename s' into s.
  assert (R : forall i, match skipn i s with [] => UOk (buf ++ firstn i s) | _ => esc f (buf ++ firstn i s) (skipn i s) end
             = cont f (buf ++ firstn i s) (skipn i s)) by (intros i; unfold cont; destruct (skipn i s); reflexivity).
  destruct s as [|c0 [|c1 [|c2 [|c3 [|c4 [|c5 [|c6 [|c7 r]]]]]]]]; try (rewrite R; reflexivity).
  set (s := c0 :: c1 :: c2 :: c3 :: c4 :: c5 :: c6 :: c7 :: r) in *.
  destruct (c0 =? 92) eqn:E0.
  { assert (Hs : scan_bs s = 0%nat) by (unfold s; cbn; rewrite E0; reflexivity). rewrite Hs. cbn [firstn skipn].
    rewrite app_nil_r. reflexivity. }
  destruct (c1 =? 92) eqn:E1.
  { assert (Hs : scan_bs s = 1%nat) by (unfold s; cbn; rewrite E0, E1; reflexivity). rewrite R, Hs. reflexivity. }
  destruct (c2 =? 92) eqn:E2.
  { assert (Hs : scan_bs s = 2%nat) by (unfold s; cbn; rewrite E0, E1, E2; reflexivity). rewrite R, Hs. reflexivity. }
  destruct (c3 =? 92) eqn:E3.
  { assert (Hs : scan_bs s = 3%nat) by (unfold s; cbn; rewrite E0, E1, E2, E3; reflexivity). rewrite R, Hs. reflexivity. }
  destruct (c4 =? 92) eqn:E4.
  { assert (Hs : scan_bs s = 4%nat) by (unfold s; cbn; rewrite E0, E1, E2, E3, E4; reflexivity). rewrite R, Hs. reflexivity. }
  destruct (c5 =? 92) eqn:E5.
  { assert (Hs : scan_bs s = 5%nat) by (unfold s; cbn; rewrite E0, E1, E2, E3, E4, E5; reflexivity). rewrite R, Hs. reflexivity. }
  destruct (c6 =? 92) eqn:E6.
  { assert (Hs : scan_bs s = 6%nat) by (unfold s; cbn; rewrite E0, E1, E2, E3, E4, E5, E6; reflexivity). rewrite R, Hs. reflexivity. }
  destruct (c7 =? 92) eqn:E7.
  { assert (Hs : scan_bs s = 7%nat) by (unfold s; cbn; rewrite E0, E1, E2, E3, E4, E5, E6, E7; reflexivity). rewrite R, Hs. reflexivity. }
  assert (Hs : scan_bs s = (8 + scan_bs r)%nat).
  { unfold s; cbn; rewrite E0, E1, E2, E3, E4, E5, E6, E7; reflexivity. }
  pose proof (index_scan r) as I. destruct (index_bs r) as [i|].
  - destruct I as [I _]. rewrite R. replace (i + 8)%nat with (scan_bs s) by (rewrite Hs, I; lia). reflexivity.
  - rewrite I in Hs. replace (scan_bs s) with (length s) by (rewrite Hs; reflexivity).
    rewrite firstn_all, skipn_all. reflexivity.
Qed.

(** ** Correctness *)
(** Split a list of items into its leading literals and the rest. *)
Lemma scan_text l : Forall item_ok l -> exists l1 l2, l = l1 ++ l2 /\
  firstn (scan_bs (text l)) (text l) = meaning_units l1 /\ skipn (scan_bs (text l)) (text l) = text l2 /\
  (length l2 <= length l)%nat /\
  match l2 with [] => True | ILit _ :: _ => False | _ => True end.
Proof.
  induction 1 as [|i l Hi Hl IH].
  - exists [], []. repeat split. cbn; lia.
  - destruct i as [c|c v|h1 h2 h3 h4 v].
    + destruct IH as (l1 & l2 & -> & E1 & E2 & Hlen & H2). exists (ILit c :: l1), l2. split; [reflexivity|].
      change (text (ILit c :: l1 ++ l2)) with (c :: text (l1 ++ l2)).
      cbn [scan_bs]. cbn in Hi. destruct (Z.eqb_spec c 92); [contradiction|].
      cbn [firstn skipn]. rewrite E1, E2. repeat split; try assumption. cbn [length]. lia.
    + exists [], (IEsc c v :: l). repeat split; lia.
    + exists [], (IU h1 h2 h3 h4 v :: l). repeat split; lia.
Qed.

Lemma escape_one_ok buf i l : item_ok i -> (match i with ILit _ => False | _ => True end) ->
  escape_one buf (text (i :: l)) = Some (buf ++ item_unit i, text l).
Proof.
  intros Hi Hn. destruct i as [c|c v|h1 h2 h3 h4 v]; [contradiction| |].
  - change (text (IEsc c v :: l)) with (92 :: c :: text l). cbn [escape_one].
    destruct (lutReplace_spec c v Hi) as [E N]. destruct (Z.eqb_spec c 117); [contradiction|]. rewrite E. reflexivity.
  - change (text (IU h1 h2 h3 h4 v :: l)) with (92 :: 117 :: h1 :: h2 :: h3 :: h4 :: text l). cbn [escape_one].
    rewrite Z.eqb_refl. destruct Hi as (a & b & c & d & Ha & Hb & Hc & Hd & ->).
    destruct (lut_hex _ _ Ha) as [-> ?], (lut_hex _ _ Hb) as [-> ?], (lut_hex _ _ Hc) as [-> ?], (lut_hex _ _ Hd) as [-> ?].
    rewrite !Z.shiftl_mul_pow2 by lia. change (2 ^ 12) with 4096. change (2 ^ 8) with 256. change (2 ^ 4) with 16.
    cbv zeta. rewrite u_bytes_spec by lia. reflexivity.
Qed.

Lemma meaning_units_app a b : meaning_units (a ++ b) = meaning_units a ++ meaning_units b.
Proof. unfold meaning_units. rewrite map_app, concat_app. reflexivity. Qed.

Lemma cont_ok n : forall f buf l, length l = n -> Forall item_ok l ->
  (match l with ILit _ :: _ => False | _ => True end) -> (n <= f)%nat ->
  cont f buf (text l) = UOk (buf ++ meaning_units l).
Proof.
  induction n as [n IH] using lt_wf_ind. intros f buf l Hn Hl Hh Hf.
  destruct l as [|i l]; [cbn; rewrite app_nil_r; reflexivity|]. cbn [length] in Hn.
  destruct f as [|f]; [lia|].
  assert (C : cont (S f) buf (text (i :: l)) = esc (S f) buf (text (i :: l))).
  { unfold cont. destruct (text (i :: l)) eqn:E; [|reflexivity]. destruct i; discriminate. }
  rewrite C, esc_step. inversion_clear Hl as [|? ? Hi Hr].
  rewrite escape_one_ok; [|exact Hi|destruct i; [contradiction|exact I|exact I]].
  destruct (scan_text l Hr) as (l1 & l2 & E & E1 & E2 & Hlen & Hh2). rewrite E1, E2.
  assert (Hr2 : Forall item_ok l2) by (rewrite E in Hr; apply Forall_app in Hr; tauto).
  rewrite (IH (length l2)) by (try assumption; try lia; reflexivity).
  rewrite E. change (i :: l1 ++ l2) with ([i] ++ (l1 ++ l2)). rewrite !meaning_units_app.
  unfold meaning_units at 3. cbn [map concat]. rewrite app_nil_r, !app_assoc. reflexivity.
Qed.

Lemma text_length l : (length l <= length (text l))%nat.
Proof.
  induction l as [|i l IH]; [cbn; lia|]. change (text (i :: l)) with (item_text i ++ text l).
  rewrite app_length. destruct i; cbn; lia.
Qed.

Lemma scan_all l : Forall item_ok l -> scan_bs (text l) = length (text l) -> text l = meaning_units l.
Proof.
  intros Hl Hs. destruct (scan_text l Hl) as (l1 & l2 & E & E1 & E2 & _ & Hh).
  rewrite Hs, firstn_all in E1. rewrite Hs, skipn_all in E2.
  assert (l2 = []) as -> by (destruct l2 as [|[] ?]; [reflexivity|discriminate..]).
  rewrite app_nil_r in E. subst l1. exact E1.
Qed.

(** Valid computes the code-unit-wise meaning of every valid string body. *)
Theorem Valid_units s l : body s l -> Valid s = UOk (meaning_units l).
Proof.
  intros [Hl ->]. unfold Valid. pose proof (index_scan (text l)) as I.
  destruct (index_bs (text l)) as [i|].
  - destruct I as [I Ilt]. destruct (scan_text l Hl) as (l1 & l2 & E & E1 & E2 & Hlen & Hh).
    rewrite <- I, E1, E2.
    assert (Hr2 : Forall item_ok l2) by (rewrite E in Hl; apply Forall_app in Hl; tauto).
    assert (Hne : l2 <> []).
    { intros ->. apply (f_equal (@length Z)) in E2. rewrite skipn_length in E2. cbn in E2. lia. }
    pose proof (text_length l).
    replace (esc (S (length (text l))) (meaning_units l1) (text l2))
      with (cont (S (length (text l))) (meaning_units l1) (text l2)).
    + rewrite (cont_ok (length l2)) by (try assumption; try lia; reflexivity).
      rewrite E, meaning_units_app. reflexivity.
    + unfold cont. destruct (text l2) eqn:T; [|reflexivity]. destruct l2 as [|[] ?]; [congruence|discriminate..].
  - f_equal. apply scan_all; assumption.
Qed.

(** ** C07: length *)
Lemma utf8_length_bmp v : 0 <= v < 65536 -> (length (utf8_encode v) <= 3)%nat.
Proof. intros H. unfold utf8_encode. destruct (v <? 128); [cbn; lia|]. destruct (v <? 2048); [cbn; lia|].
  destruct (Z.ltb_spec v 65536); [cbn; lia|lia]. Qed.

Lemma item_unit_length i : item_ok i -> (length (item_unit i) <= length (item_text i))%nat.
Proof.
  destruct i as [c|c v|h1 h2 h3 h4 v]; cbn [item_unit item_text length]; [lia|lia|].
  intros (a & b & c & d & Ha & Hb & Hc & Hd & ->).
  apply lut_hex in Ha as [_ ?], Hb as [_ ?], Hc as [_ ?], Hd as [_ ?].
  destruct (_ && _); [cbn; lia|]. etransitivity; [apply utf8_length_bmp; lia|lia].
Qed.

Lemma units_length l : Forall item_ok l -> (length (meaning_units l) <= length (text l))%nat.
Proof.
  induction 1 as [|i l Hi Hl IH]; [cbn; lia|].
  change (text (i :: l)) with (item_text i ++ text l).
  change (meaning_units (i :: l)) with (item_unit i ++ meaning_units l).
  rewrite !app_length. pose proof (item_unit_length i Hi). lia.
Qed.

Theorem Valid_fits s l : body s l -> exists b, Valid s = UOk b /\ (length b <= length s)%nat.
Proof.
  intros H. exists (meaning_units l). split; [apply Valid_units, H|]. destruct H as [Hl ->]. apply units_length, Hl.
Qed.

(** Any escape-free body is returned as is. *)
Theorem Valid_no_escape s : ~ In 92 s -> Valid s = UOk s.
Proof.
  intros H. unfold Valid. assert (E : index_bs s = None); [|rewrite E; reflexivity].
  induction s as [|c s IH]; [reflexivity|]. cbn. destruct (Z.eqb_spec c 92); [subst; exfalso; apply H; left; reflexivity|].
  rewrite IH; [reflexivity|]. intros Hi; apply H; right; exact Hi.
Qed.

(** ** C08 *)
Lemma meaning_pair_free l : pair_free l -> meaning l = meaning_units l.
Proof.
  induction l as [|i l IH]; [reflexivity|]. intros H.
  change (meaning_units (i :: l)) with (item_unit i ++ meaning_units l).
  destruct i as [c|c v|h1 h2 h3 h4 v].
  - cbn [meaning]. rewrite IH by exact H. reflexivity.
  - cbn [meaning]. rewrite IH by exact H. reflexivity.
  - destruct l as [|[c|c w|g1 g2 g3 g4 w] l].
    + reflexivity.
    + cbn [meaning]. cbn [meaning] in IH. rewrite IH by exact H. reflexivity.
    + cbn [meaning]. cbn [meaning] in IH. rewrite IH by exact H. reflexivity.
    + destruct H as [Hp H]. specialize (IH H).
      assert (E : (55296 <=? v) && (v <=? 56319) && (56320 <=? w) && (w <=? 57343) = false) by lia.
      cbn [meaning]. rewrite E. cbn [meaning] in IH. rewrite IH. reflexivity.
Qed.

Theorem Valid_meaning_pair_free s l : body s l -> pair_free l -> Valid s = UOk (meaning l).
Proof. intros H Hp. rewrite meaning_pair_free by exact Hp. apply Valid_units, H. Qed.

(** Output is valid UTF-8 whenever the literal bytes are: literals grouped into characters. *)
Inductive utf8_items : list sitem -> Prop :=
| ui_nil : utf8_items []
| ui_lit cp l : scalar cp -> utf8_items l -> utf8_items (map ILit (utf8_encode cp) ++ l)
| ui_esc c v l : simple_escape c = Some v -> utf8_items l -> utf8_items (IEsc c v :: l)
| ui_u h1 h2 h3 h4 v l : item_ok (IU h1 h2 h3 h4 v) -> utf8_items l -> utf8_items (IU h1 h2 h3 h4 v :: l).

Lemma units_lits b : meaning_units (map ILit b) = b.
Proof. induction b as [|c b IH]; [reflexivity|]. cbn [map]. change (c :: meaning_units (map ILit b) = c :: b). f_equal. exact IH. Qed.

Lemma u_valid h1 h2 h3 h4 v r : item_ok (IU h1 h2 h3 h4 v) -> valid_utf8 r -> valid_utf8 (item_unit (IU h1 h2 h3 h4 v) ++ r).
Proof.
  intros (a & b & c & d & Ha & Hb & Hc & Hd & E) Hr.
  apply lut_hex in Ha as [_ ?], Hb as [_ ?], Hc as [_ ?], Hd as [_ ?].
  cbn [item_unit]. destruct (_ && _) eqn:S; constructor; try exact Hr; unfold scalar, is_surrogate; lia.
Qed.

Theorem units_utf8 l : utf8_items l -> valid_utf8 (meaning_units l).
Proof.
  induction 1 as [|cp l Hc Hl IH|c v l Hc Hl IH|h1 h2 h3 h4 v l Hi Hl IH].
  - constructor.
  - rewrite meaning_units_app, units_lits. constructor; assumption.
  - change (valid_utf8 ([v] ++ meaning_units l)).
    assert (E : utf8_encode v = [v] /\ 0 <= v < 128).
    { revert Hc. unfold simple_escape.
      repeat match goal with |- context [c =? ?k] => destruct (Z.eqb_spec c k); [subst; intros [= <-]; split; [reflexivity|lia]|] end. discriminate. }
    destruct E as [E ?]. rewrite <- E. constructor; [unfold scalar, is_surrogate; lia|exact IH].
  - apply u_valid; assumption.
Qed.

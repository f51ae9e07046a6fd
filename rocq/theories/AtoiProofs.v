(** Proofs about the integer parsers (internal/atoi). *)
From Verif Require Import Base NumSpec Atoi.
Open Scope Z_scope.

(** ** Wrapped arithmetic *)
Definition kind_ok (k : ikind) : Prop := 8 <= ik_width k.

Lemma two_pow_split w : 1 <= w -> 2 ^ w = 2 * 2 ^ (w - 1).
Proof. intros H. replace w with (Z.succ (w - 1)) at 1 by lia. rewrite Z.pow_succ_r by lia. lia. Qed.

Lemma wrap_cong k a b : a mod 2 ^ ik_width k = b mod 2 ^ ik_width k -> wrap k a = wrap k b.
Proof.
  intros H. unfold wrap. destruct (ik_signed k); [|exact H].
  rewrite Z.add_mod_idemp_l with (a := a) || idtac.
  f_equal. destruct (Z.eq_dec (2 ^ ik_width k) 0) as [E|E].
  - rewrite E in *. rewrite !Zmod_0_r in *. congruence.
  - rewrite <- (Z.add_mod_idemp_l a), <- (Z.add_mod_idemp_l b) by exact E. rewrite H. reflexivity.
Qed.

Lemma wrap_mod k a : kind_ok k -> wrap k a mod 2 ^ ik_width k = a mod 2 ^ ik_width k.
Proof.
  intros Hk. unfold wrap, kind_ok in *.
  assert (E : 2 ^ ik_width k <> 0) by (pose proof (Z.pow_pos_nonneg 2 (ik_width k)); lia).
  destruct (ik_signed k); [|rewrite Z.mod_mod by exact E; reflexivity].
  rewrite Zminus_mod_idemp_l. f_equal. lia.
Qed.

Lemma wrap_add k a b : kind_ok k -> wrap k (wrap k a + wrap k b) = wrap k (a + b).
Proof.
  intros Hk. apply wrap_cong.
  rewrite Zplus_mod, (wrap_mod k a Hk), (wrap_mod k b Hk), <- Zplus_mod. reflexivity.
Qed.

Lemma wrap_add_r k a b : kind_ok k -> wrap k (a + wrap k b) = wrap k (a + b).
Proof.
  intros Hk. apply wrap_cong.
  rewrite Zplus_mod, (wrap_mod k b Hk), <- Zplus_mod. reflexivity.
Qed.

Lemma wrap_opp k a : kind_ok k -> wrap k (- wrap k a) = wrap k (- a).
Proof.
  intros Hk. apply wrap_cong.
  replace (- wrap k a) with (0 - wrap k a) by lia. replace (- a) with (0 - a) by lia.
  rewrite Zminus_mod, (wrap_mod k a Hk), <- Zminus_mod. reflexivity.
Qed.

Lemma wrap_mul_l k a b : kind_ok k -> wrap k (wrap k a * b) = wrap k (a * b).
Proof.
  intros Hk. apply wrap_cong.
  rewrite Zmult_mod, (wrap_mod k a Hk), <- Zmult_mod. reflexivity.
Qed.

Lemma wrap_id k a : kind_ok k -> in_range k a -> wrap k a = a.
Proof.
  unfold kind_ok, in_range, imin, imax, wrap. intros Hk H.
  pose proof (two_pow_split (ik_width k) ltac:(lia)).
  destruct (ik_signed k); rewrite Z.mod_small; lia.
Qed.

(** ** Decimal values *)
Lemma dec_from_app acc a b : dec_from acc (a ++ b) = dec_from (dec_from acc a) b.
Proof. revert acc; induction a as [|c a IH]; intros acc; cbn [app dec_from]; [reflexivity|apply IH]. Qed.

Lemma dec_from_split acc ds : dec_from acc ds = acc * 10 ^ Z.of_nat (length ds) + dec ds.
Proof.
  unfold dec. revert acc; induction ds as [|c ds IH]; intros acc; cbn [dec_from length].
  - cbn. lia.
  - rewrite IH. rewrite (IH (0 * 10 + (c - 48))). rewrite Nat2Z.inj_succ, Z.pow_succ_r by lia. ring.
Qed.

Lemma dec_cons c ds : dec (c :: ds) = (c - 48) * 10 ^ Z.of_nat (length ds) + dec ds.
Proof. unfold dec at 1. cbn [dec_from]. rewrite dec_from_split. f_equal. Qed.

Lemma dec_bound ds : Forall is_digit ds -> 0 <= dec ds < 10 ^ Z.of_nat (length ds).
Proof.
  induction 1 as [|c ds Hc Hds IH]; [cbn; lia|].
  rewrite dec_cons. cbn [length]. rewrite Nat2Z.inj_succ, Z.pow_succ_r by lia.
  unfold is_digit in Hc. nia.
Qed.

Lemma dec_lower c ds : Forall is_digit (c :: ds) -> c <> 48 -> 10 ^ Z.of_nat (length ds) <= dec (c :: ds).
Proof.
  intros H Hc. inversion_clear H as [|? ? Hd Hds]. rewrite dec_cons.
  pose proof (dec_bound ds Hds). unfold is_digit in Hd. nia.
Qed.

(** ** The unrolled tables denote positional sums *)
Fixpoint sumt (s : bytes) (ts : list (nat * nat)) : Z :=
  match ts with
  | [] => 0
  | t :: r => (at_ s (fst t) - 48) * 10 ^ Z.of_nat (snd t) + sumt s r
  end.

Lemma d_digit k s i : kind_ok k -> is_digit (at_ s i) -> d k s i = wrap k (at_ s i - 48).
Proof. intros Hk Hd. unfold d, is_digit in *. rewrite Z.mod_small by lia. reflexivity. Qed.

Lemma term_digit k s t : kind_ok k -> is_digit (at_ s (fst t)) ->
  term k s t = wrap k ((at_ s (fst t) - 48) * 10 ^ Z.of_nat (snd t)).
Proof. intros Hk Hd. unfold term. rewrite d_digit by assumption. apply wrap_mul_l, Hk. Qed.

Lemma ev_sum_gen k s ts : kind_ok k -> Forall (fun t => is_digit (at_ s (fst t))) ts -> forall acc a,
  acc = wrap k a ->
  fold_left (fun acc t => wrap k (acc + term k s t)) ts acc = wrap k (a + sumt s ts).
Proof.
  intros Hk Hts. induction Hts as [|t ts Ht Hts IH]; intros acc a ->; cbn [fold_left sumt].
  - f_equal. lia.
  - rewrite (IH _ (a + (at_ s (fst t) - 48) * 10 ^ Z.of_nat (snd t))).
    + f_equal. lia.
    + rewrite term_digit by assumption. apply wrap_add, Hk.
Qed.

Lemma wrap_0 k : kind_ok k -> wrap k 0 = 0.
Proof.
  intros Hk. apply wrap_id; [exact Hk|]. unfold in_range, imin, imax, kind_ok in *.
  pose proof (Z.pow_pos_nonneg 2 (ik_width k - 1)). pose proof (Z.pow_pos_nonneg 2 (ik_width k)).
  destruct (ik_signed k); lia.
Qed.

Lemma ev_sum k s ts : kind_ok k -> Forall (fun t => is_digit (at_ s (fst t))) ts ->
  ev k s ts = wrap k (sumt s ts).
Proof.
  intros Hk H. unfold ev. rewrite (ev_sum_gen k s ts Hk H 0 0); [f_equal; lia|].
  symmetry; apply wrap_0, Hk.
Qed.

Fixpoint tab (i0 n : nat) : list (nat * nat) :=
  match n with
  | O => []
  | S n' => (i0, n') :: tab (S i0) n'
  end.

Lemma sumt_tab n : forall i0 s, length s = (i0 + n)%nat -> sumt s (tab i0 n) = dec (skipn i0 s).
Proof.
  induction n as [|n IH]; intros i0 s Hl; cbn [tab sumt fst snd].
  - rewrite skipn_all2 by lia. reflexivity.
  - rewrite IH by lia.
    destruct (skipn i0 s) as [|c r] eqn:E.
    + apply (f_equal (@length _)) in E. rewrite skipn_length in E. cbn in E. lia.
    + assert (Hc : at_ s i0 = c).
      { unfold at_. rewrite <- (firstn_skipn i0 s), app_nth2; rewrite firstn_length_le by lia; [|lia].
        rewrite Nat.sub_diag, E. reflexivity. }
      assert (Hr : skipn (S i0) s = r).
      { replace (S i0) with (1 + i0)%nat by lia. rewrite <- skipn_skipn, E. reflexivity. }
      rewrite Hr, dec_cons, Hc. f_equal. f_equal. f_equal.
      apply (f_equal (@length _)) in E. rewrite skipn_length in E. cbn in E. lia.
Qed.

Lemma tab_digits n : forall i0 s, length s = (i0 + n)%nat -> Forall is_digit (skipn i0 s) ->
  Forall (fun t => is_digit (at_ s (fst t))) (tab i0 n).
Proof.
  induction n as [|n IH]; intros i0 s Hl Hd; cbn [tab]; constructor.
  - cbn [fst]. destruct (skipn i0 s) as [|c r] eqn:E.
    + apply (f_equal (@length _)) in E. rewrite skipn_length in E. cbn in E. lia.
    + unfold at_. rewrite <- (firstn_skipn i0 s), app_nth2; rewrite firstn_length_le by lia; [|lia].
      rewrite Nat.sub_diag, E. inversion Hd; assumption.
  - apply IH; [lia|]. replace (S i0) with (1 + i0)%nat by lia. rewrite <- skipn_skipn.
    destruct (skipn i0 s); cbn; [constructor|inversion Hd; assumption].
Qed.

(** An unrolled table that is the positional table from [i0] evaluates to the
    wrapped decimal value of the digits from [i0]. *)
Lemma ev_tab k s i0 n ts : kind_ok k -> length s = (i0 + n)%nat -> ts = tab i0 n ->
  Forall is_digit (skipn i0 s) -> ev k s ts = wrap k (dec (skipn i0 s)).
Proof.
  intros Hk Hl -> Hd. rewrite ev_sum by (try apply tab_digits; assumption).
  rewrite sumt_tab by exact Hl. reflexivity.
Qed.

Lemma U8k_ok : kind_ok U8k. Proof. unfold kind_ok; cbn; lia. Qed.
Lemma U16k_ok : kind_ok U16k. Proof. unfold kind_ok; cbn; lia. Qed.
Lemma U32k_ok : kind_ok U32k. Proof. unfold kind_ok; cbn; lia. Qed.
Lemma U64k_ok : kind_ok U64k. Proof. unfold kind_ok; cbn; lia. Qed.
Lemma I8k_ok : kind_ok I8k. Proof. unfold kind_ok; cbn; lia. Qed.
Lemma I16k_ok : kind_ok I16k. Proof. unfold kind_ok; cbn; lia. Qed.
Lemma I32k_ok : kind_ok I32k. Proof. unfold kind_ok; cbn; lia. Qed.
Lemma I64k_ok : kind_ok I64k. Proof. unfold kind_ok; cbn; lia. Qed.
#[global] Hint Resolve U8k_ok U16k_ok U32k_ok U64k_ok I8k_ok I16k_ok I32k_ok I64k_ok : kinds.

(** The intended behaviour: value if representable, otherwise (0, overflow). *)
Definition exact (k : ikind) (v : Z) : option (Z * bool) :=
  if in_rangeb k v then Some (v, false) else Some (0, true).

Lemma exact_in k v : in_range k v -> exact k v = Some (v, false).
Proof. intros H. unfold exact. apply in_rangeb_spec in H. rewrite H. reflexivity. Qed.
Lemma exact_out k v : ~ in_range k v -> exact k v = Some (0, true).
Proof. intros H. unfold exact. destruct (in_rangeb k v) eqn:E; [|reflexivity]. apply in_rangeb_spec in E. tauto. Qed.

(** ** Unsigned parsers *)
Ltac rng := unfold in_range, imin, imax; cbn [ik_signed ik_width U8k U16k U32k U64k I8k I16k I32k I64k];
  repeat match goal with |- context [2 ^ ?e] => let v := eval vm_compute in (2 ^ e) in change (2 ^ e) with v end.

Ltac pows H := repeat match type of H with context [10 ^ ?e] =>
   let v := eval vm_compute in (10 ^ e) in change (10 ^ e) with v in H end.

Lemma json_uint_inv s : json_uint s -> Forall is_digit s /\ s <> [] /\
   ((2 <= length s)%nat -> 10 ^ (Z.of_nat (length s) - 1) <= dec s).
Proof.
  intros [Hd (c & r & -> & Hz)]. split; [exact Hd|]. split; [congruence|]. intros Hl.
  cbn [length] in *. replace (Z.of_nat (S (length r)) - 1) with (Z.of_nat (length r)) by lia.
  apply dec_lower; [exact Hd|]. intros ->. rewrite (Hz eq_refl) in Hl. cbn in Hl. lia.
Qed.

Lemma big_dec s n : json_uint s -> (n < length s)%nat -> (1 <= n)%nat -> 10 ^ Z.of_nat n <= dec s.
Proof.
  intros Hs Hl Hn. destruct (json_uint_inv s Hs) as (Hd & _ & Hlow).
  transitivity (10 ^ (Z.of_nat (length s) - 1)); [apply Z.pow_le_mono_r; lia|apply Hlow; lia].
Qed.

Lemma term0 k c r e : kind_ok k -> is_digit c -> term k (c :: r) (0%nat, e) = wrap k ((c - 48) * 10 ^ Z.of_nat e).
Proof. intros Hk Hd. apply (term_digit k (c :: r) (0%nat, e) Hk Hd). Qed.

(** The critical length of U8/U16/U32. *)
Lemma crit_case k s c r n p0 :
  kind_ok k -> ik_signed k = false -> s = c :: r -> Forall is_digit s -> c <> 48 ->
  length r = n -> 10 ^ Z.of_nat n <= imax k -> p0 = wrap k (dec r) ->
  (c - 48) * 10 ^ Z.of_nat n <= imax k ->
  (let n := wrap k (p0 + term k s (0, n)%nat) in if n <=? p0 then ovf else ok n) = exact k (dec s).
Proof.
  intros Hk Hu -> Hd Hc Hn Hp -> Hcm. inversion_clear Hd as [|? ? Hc' Hr].
  pose proof (dec_bound r Hr) as B. rewrite Hn in B.
  assert (Hr' : in_range k (dec r)) by (unfold in_range, imin; rewrite Hu; lia).
  rewrite (wrap_id k (dec r) Hk Hr'), term0 by assumption. cbv zeta.
  assert (Ec : wrap k ((c - 48) * 10 ^ Z.of_nat n) = (c - 48) * 10 ^ Z.of_nat n).
  { apply wrap_id; [exact Hk|]. unfold in_range, imin; rewrite Hu. unfold is_digit in Hc'. nia. }
  rewrite Ec. rewrite (dec_cons c r), Hn.
  unfold is_digit in Hc'.
  assert (Hpos : 10 ^ Z.of_nat n <= (c - 48) * 10 ^ Z.of_nat n) by nia.
  destruct (Z_le_gt_dec ((c - 48) * 10 ^ Z.of_nat n + dec r) (imax k)) as [Hle|Hgt].
  - rewrite wrap_id by (try exact Hk; unfold in_range, imin; rewrite Hu; lia).
    rewrite exact_in by (unfold in_range, imin; rewrite Hu; lia).
    destruct (Z.leb_spec (dec r + (c - 48) * 10 ^ Z.of_nat n) (dec r)); [lia|].
    unfold ok. do 2 f_equal. lia.
  - rewrite exact_out by (unfold in_range; lia).
    unfold wrap. rewrite Hu. unfold imax in *. rewrite Hu in *.
    replace ((dec r + (c - 48) * 10 ^ Z.of_nat n) mod 2 ^ ik_width k)
      with (dec r + (c - 48) * 10 ^ Z.of_nat n - 2 ^ ik_width k).
    2:{ apply Z.mod_unique with (q := 1); lia. }
    destruct (Z.leb_spec (dec r + (c - 48) * 10 ^ Z.of_nat n - 2 ^ ik_width k) (dec r)); [reflexivity|lia].
Qed.

(** Length case that cannot overflow. *)
Lemma easy_case k s n ts : kind_ok k -> Forall is_digit s -> length s = n -> ts = tab 0 n ->
  10 ^ Z.of_nat n - 1 <= imax k -> ok (ev k s ts) = exact k (dec s).
Proof.
  intros Hk Hd Hl Ht Hm. rewrite (ev_tab k s 0 n ts Hk Hl Ht Hd). cbn [skipn].
  pose proof (dec_bound s Hd) as B. rewrite Hl in B.
  assert (in_range k (dec s)).
  { unfold in_range, imin. split; [|lia]. pose proof (Z.pow_nonneg 2 (ik_width k - 1)). destruct (ik_signed k); lia. }
  rewrite wrap_id, exact_in by assumption. reflexivity.
Qed.

(** Too many digits. *)
Lemma long_case k s n : json_uint s -> (n < length s)%nat -> (1 <= n)%nat -> imax k < 10 ^ Z.of_nat n ->
  ovf = exact k (dec s).
Proof.
  intros Hs Hl Hn Hm. pose proof (big_dec s n Hs Hl Hn).
  rewrite exact_out; [reflexivity|]. unfold in_range. lia.
Qed.

Ltac ltb := rng; try (let v := eval vm_compute in (10 ^ 0) in idtac); vm_compute; congruence.

Lemma uint_cons s n : json_uint s -> length s = S (S n) -> exists c r, s = c :: r /\ c <> 48 /\ length r = S n /\ is_digit c /\ Forall is_digit r.
Proof.
  intros [Hd (c & r & -> & Hz)] Hl. cbn in Hl. inversion_clear Hd.
  exists c, r. repeat split; try assumption; try lia; try congruence.
  intros ->. rewrite (Hz eq_refl) in Hl. cbn in Hl. lia. all: unfold is_digit in *; lia.
Qed.

Lemma crit_full k s n m lim ts :
  kind_ok k -> ik_signed k = false -> json_uint s -> n = S m -> length s = S n -> ts = tab 1 n ->
  lim * 10 ^ Z.of_nat n <= imax k -> imax k < (lim + 1) * 10 ^ Z.of_nat n -> 1 <= lim < 9 ->
  (if (at_ s 0 - 48) mod 256 >? lim then ovf else
   let p := ev k s ts in
   let v := wrap k (p + term k s (0, n)%nat) in if v <=? p then ovf else ok v) = exact k (dec s).
Proof.
  intros Hk Hu Hs -> Hl Ht H1 H2 H3.
  destruct (uint_cons s m Hs Hl) as (c & r & -> & Hc & Hlr & Hdc & Hdr).
  change (at_ (c :: r) 0) with c. unfold is_digit in Hdc. rewrite Z.mod_small by lia.
  rewrite (ev_tab k (c :: r) 1 (S m) ts Hk ltac:(cbn; lia) Ht Hdr). cbn [skipn].
  pose proof (dec_bound r Hdr) as B. rewrite Hlr in B.
  destruct (Z.gtb_spec (c - 48) lim) as [Hg|Hg].
  - rewrite exact_out; [reflexivity|]. rewrite dec_cons, Hlr. unfold in_range. nia.
  - eapply (crit_case k (c :: r) c r (S m)); try eassumption; try reflexivity.
    + constructor; [unfold is_digit; lia|exact Hdr].
    + nia.
    + nia.
Qed.

Ltac solve_case k :=
  match goal with L : length ?s = S _ |- _ =>
    first [ apply (easy_case k s _ _ ltac:(auto with kinds) ltac:(assumption) L eq_refl); vm_compute; congruence ] end.

(** *** U8, U16, U32, U64: exact on every JSON unsigned integer literal *)
Theorem U8_exact s : json_uint s -> U8 s = exact U8k (dec s).
Proof.
  intros Hs. destruct (json_uint_inv s Hs) as (Hd & Hne & _). unfold U8.
  destruct (length s) as [|[|[|[|n]]]] eqn:L.
  - destruct s; [congruence|discriminate].
  - solve_case U8k.
  - solve_case U8k.
  - apply (crit_full U8k s 2 1 2); auto with kinds; vm_compute; congruence || (split; congruence).
  - apply (long_case U8k s 3); [exact Hs|lia|lia|vm_compute; congruence].
Qed.

Theorem U16_exact s : json_uint s -> U16 s = exact U16k (dec s).
Proof.
  intros Hs. destruct (json_uint_inv s Hs) as (Hd & Hne & _). unfold U16.
  destruct (length s) as [|[|[|[|[|[|n]]]]]] eqn:L; try solve [solve_case U16k].
  - destruct s; [congruence|discriminate].
  - apply (crit_full U16k s 4 3 6); auto with kinds; vm_compute; congruence || (split; congruence).
  - apply (long_case U16k s 5); [exact Hs|lia|lia|vm_compute; congruence].
Qed.

Theorem U32_exact s : json_uint s -> U32 s = exact U32k (dec s).
Proof.
  intros Hs. destruct (json_uint_inv s Hs) as (Hd & Hne & _). unfold U32.
  destruct (length s) as [|[|[|[|[|[|[|[|[|[|[|n]]]]]]]]]]] eqn:L; try solve [solve_case U32k].
  - destruct s; [congruence|discriminate].
  - apply (crit_full U32k s 9 8 4); auto with kinds; vm_compute; congruence || (split; congruence).
  - apply (long_case U32k s 10); [exact Hs|lia|lia|vm_compute; congruence].
Qed.

Theorem U64_exact s : json_uint s -> U64 s = exact U64k (dec s).
Proof.
  intros Hs. destruct (json_uint_inv s Hs) as (Hd & Hne & _). unfold U64.
  destruct (length s) as [|[|[|[|[|[|[|[|[|[|[|[|[|[|[|[|[|[|[|[|[|n]]]]]]]]]]]]]]]]]]]]] eqn:L;
    try solve [solve_case U64k].
  - destruct s; [congruence|discriminate].
  - destruct (uint_cons s 18 Hs L) as (c & r & -> & Hc & Hlr & Hdc & Hdr).
    change (at_ (c :: r) 0) with c. unfold is_digit in Hdc.
    match goal with |- context [ev U64k (c :: r) ?ts] =>
      rewrite (ev_tab U64k (c :: r) 1 19 ts U64k_ok ltac:(cbn; lia) eq_refl Hdr) end. cbn [skipn].
    pose proof (dec_bound r Hdr) as B. rewrite Hlr in B. rewrite dec_cons, Hlr.
    change (10 ^ Z.of_nat 19) with 10000000000000000000 in *.
    rewrite wrap_id by (auto with kinds; rng; lia). cbv zeta.
    destruct (Z.eqb_spec c 49) as [->|Hne1]; cbn [negb].
    + destruct (Z.gtb_spec (dec r) 8446744073709551615) as [Hg|Hg].
      * rewrite exact_out by (rng; lia). reflexivity.
      * rewrite wrap_id by (auto with kinds; rng; lia). rewrite exact_in by (rng; lia).
        unfold ok. do 2 f_equal.
    + rewrite exact_out by (rng; lia). reflexivity.
  - apply (long_case U64k s 20); [exact Hs|lia|lia|vm_compute; congruence].
Qed.

(** ** Signed parsers *)

(** Exact behaviour of the signed parsers at their longest length [n] (digits):
    the wrapped value is tested only for its sign. *)
Definition sgn_crit (k : ikind) (v : Z) : option (Z * bool) :=
  if v >=? 0 then (if wrap k v <? 0 then ovf else ok (wrap k v))
  else (if wrap k v >? 0 then ovf else ok (wrap k v)).

(** The behaviour of a signed parser whose longest accepted literal has [n] digits. *)
Definition sgn_beh (k : ikind) (n : nat) (v : Z) : option (Z * bool) :=
  if Z.abs v <? 10 ^ Z.of_nat (n - 1) then ok v
  else if Z.abs v <? 10 ^ Z.of_nat n then sgn_crit k v
  else ovf.

Lemma sgn_short_pos k s n m ts : kind_ok k -> ik_signed k = true -> Forall is_digit s -> length s = m -> (m < n)%nat ->
  10 ^ Z.of_nat (n - 1) - 1 <= imax k -> ts = tab 0 m -> ok (ev k s ts) = sgn_beh k n (dec s).
Proof.
  intros Hk Hsg Hd Hl Hm Hmax Ht. pose proof (dec_bound s Hd) as B. rewrite Hl in B.
  assert (10 ^ Z.of_nat m <= 10 ^ Z.of_nat (n - 1)) by (apply Z.pow_le_mono_r; lia).
  rewrite (ev_tab k s 0 m ts Hk Hl Ht Hd). cbn [skipn]. unfold sgn_beh.
  destruct (Z.ltb_spec (Z.abs (dec s)) (10 ^ Z.of_nat (n - 1))); [|lia].
  rewrite wrap_id; [reflexivity|exact Hk|]. unfold in_range, imin, imax in *. rewrite Hsg in *.
  pose proof (Z.pow_nonneg 2 (ik_width k - 1)). lia.
Qed.

Lemma sgn_short_neg k r n m ts : kind_ok k -> ik_signed k = true -> Forall is_digit r -> length (45 :: r) = S m -> (m < n)%nat ->
  10 ^ Z.of_nat (n - 1) - 1 <= imax k -> ts = tab 1 m -> ok (wrap k (- ev k (45 :: r) ts)) = sgn_beh k n (- dec r).
Proof.
  intros Hk Hsg Hd Hl Hm Hmax Ht. pose proof (dec_bound r Hd) as B.
  assert (Hl' : length r = m) by exact (f_equal pred Hl). clear Hl; rename Hl' into Hl. rewrite Hl in B.
  assert (10 ^ Z.of_nat m <= 10 ^ Z.of_nat (n - 1)) by (apply Z.pow_le_mono_r; lia).
  rewrite (ev_tab k (45 :: r) 1 m ts Hk (f_equal S Hl) Ht Hd). cbn [skipn]. unfold sgn_beh.
  destruct (Z.ltb_spec (Z.abs (- dec r)) (10 ^ Z.of_nat (n - 1))); [|lia].
  rewrite wrap_opp by exact Hk.
  rewrite wrap_id; [reflexivity|exact Hk|]. unfold in_range, imin, imax in *. rewrite Hsg in *.
  pose proof (Z.pow_nonneg 2 (ik_width k - 1)). lia.
Qed.

Lemma sgn_mid_pos k s n m ts : kind_ok k -> json_uint s -> n = S (S m) -> length s = n -> ts = tab 0 n ->
  (let v := ev k s ts in if v <? 0 then ovf else ok v) = sgn_beh k n (dec s).
Proof.
  intros Hk Hs Hn Hl Ht. destruct (json_uint_inv s Hs) as (Hd & Hne & Hlow).
  specialize (Hlow ltac:(lia)). rewrite Hl in Hlow.
  pose proof (dec_bound s Hd) as B. rewrite Hl in B. rewrite (ev_tab k s 0 n ts Hk Hl Ht Hd). cbn [skipn].
  replace (Z.of_nat n - 1) with (Z.of_nat (n - 1)) in Hlow by lia.
  unfold sgn_beh, sgn_crit. rewrite Z.abs_eq by lia.
  destruct (Z.ltb_spec (dec s) (10 ^ Z.of_nat (n - 1))); [lia|].
  destruct (Z.ltb_spec (dec s) (10 ^ Z.of_nat n)); [|lia].
  destruct (Z.geb_spec (dec s) 0); [reflexivity|lia].
Qed.

Lemma sgn_mid_neg k r n m ts : kind_ok k -> json_uint r -> n = S (S m) -> length (45 :: r) = S n -> ts = tab 1 n ->
  (let v := wrap k (- ev k (45 :: r) ts) in if v >? 0 then ovf else ok v) = sgn_beh k n (- dec r).
Proof.
  intros Hk Hs Hn Hl Ht.
  assert (Hl' : length r = n) by exact (f_equal pred Hl). clear Hl; rename Hl' into Hl. destruct (json_uint_inv r Hs) as (Hd & Hne & Hlow).
  specialize (Hlow ltac:(lia)). rewrite Hl in Hlow.
  pose proof (dec_bound r Hd) as B. rewrite Hl in B.
  rewrite (ev_tab k (45 :: r) 1 n ts Hk (f_equal S Hl) Ht Hd). cbn [skipn].
  replace (Z.of_nat n - 1) with (Z.of_nat (n - 1)) in Hlow by lia.
  rewrite wrap_opp by exact Hk. assert (0 < 10 ^ Z.of_nat (n - 1)) by (apply Z.pow_pos_nonneg; lia).
  unfold sgn_beh, sgn_crit. rewrite Z.abs_opp, Z.abs_eq by lia.
  destruct (Z.ltb_spec (dec r) (10 ^ Z.of_nat (n - 1))); [lia|].
  destruct (Z.ltb_spec (dec r) (10 ^ Z.of_nat n)); [|lia].
  destruct (Z.geb_spec (- dec r) 0); [lia|]. reflexivity.
Qed.

Lemma sgn_long k r n v : json_uint r -> (n < length r)%nat -> (1 <= n)%nat -> Z.abs v = dec r -> ovf = sgn_beh k n v.
Proof.
  intros Hs Hl Hn Hv. pose proof (big_dec r n Hs Hl Hn). unfold sgn_beh. rewrite Hv.
  assert (10 ^ Z.of_nat (n - 1) <= 10 ^ Z.of_nat n) by (apply Z.pow_le_mono_r; lia).
  destruct (Z.ltb_spec (dec r) (10 ^ Z.of_nat (n - 1))); [lia|].
  destruct (Z.ltb_spec (dec r) (10 ^ Z.of_nat n)); [lia|]. reflexivity.
Qed.

Ltac short_pos k n := match goal with L : length ?s = S _ |- _ => 
  apply (sgn_short_pos k s n _ _ ltac:(auto with kinds) eq_refl ltac:(assumption) L);
    [lia | vm_compute; congruence | reflexivity] end.
Ltac short_neg k n := match goal with L : length (45 :: ?s) = S _ |- _ => 
  apply (sgn_short_neg k s n _ _ ltac:(auto with kinds) eq_refl ltac:(assumption) L);
    [lia | vm_compute; congruence | reflexivity] end.

Lemma uint_head c r : json_uint (c :: r) -> (c =? 45) = false.
Proof. intros [H _]. inversion_clear H as [|? ? Hc _]. unfold is_digit in Hc. lia. Qed.
Lemma uint_int_value s : json_uint s -> int_value s = dec s.
Proof.
  intros Hs. destruct s as [|c r]; [reflexivity|]. pose proof (uint_head c r Hs) as Hc.
  unfold int_value. destruct c as [|c|c]; try reflexivity.
  do 6 (try (destruct c; try reflexivity)). discriminate Hc.
Qed.

Lemma I8_beh s : json_int s -> I8 s = sgn_beh I8k 3 (int_value s).
Proof.
  intros [u Hu|u Hu].
  - rewrite (uint_int_value u Hu). destruct (json_uint_inv u Hu) as (Hd & Hne & _).
    unfold I8. destruct u as [|c r]; [congruence|]. rewrite (uint_head c r Hu).
    destruct (length (c :: r)) as [|[|[|[|x]]]] eqn:L; [discriminate|..].
    all: try solve [short_pos I8k 3%nat].
    + apply (sgn_mid_pos I8k (c :: r) 3 1); auto with kinds.
    + apply (sgn_long I8k (c :: r) 3); [exact Hu|lia|lia|]. apply Z.abs_eq. apply dec_bound, Hd.
  - change (int_value (45 :: u)) with (- dec u). destruct (json_uint_inv u Hu) as (Hd & Hne & _).
    unfold I8. rewrite Z.eqb_refl.
    destruct (length (45 :: u)) as [|[|[|[|[|x]]]]] eqn:L; [discriminate|destruct u; [congruence|discriminate]|..].
    all: try solve [short_neg I8k 3%nat].
    + apply (sgn_mid_neg I8k u 3 1); auto with kinds.
    + apply (sgn_long I8k u 3); [exact Hu|apply (f_equal pred) in L; cbn [pred length] in L; lia|lia|]. rewrite Z.abs_opp. apply Z.abs_eq. apply dec_bound, Hd.
Qed.

Lemma I16_beh s : json_int s -> I16 s = sgn_beh I16k 5 (int_value s).
Proof.
  intros [u Hu|u Hu].
  - rewrite (uint_int_value u Hu). destruct (json_uint_inv u Hu) as (Hd & Hne & _).
    unfold I16. destruct u as [|c r]; [congruence|]. rewrite (uint_head c r Hu).
    destruct (length (c :: r)) as [|[|[|[|[|[|x]]]]]] eqn:L; [discriminate|..].
    all: try solve [short_pos I16k 5%nat].
    + apply (sgn_mid_pos I16k (c :: r) 5 3); auto with kinds.
    + apply (sgn_long I16k (c :: r) 5); [exact Hu|lia|lia|]. apply Z.abs_eq. apply dec_bound, Hd.
  - change (int_value (45 :: u)) with (- dec u). destruct (json_uint_inv u Hu) as (Hd & Hne & _).
    unfold I16. rewrite Z.eqb_refl.
    destruct (length (45 :: u)) as [|[|[|[|[|[|[|x]]]]]]] eqn:L; [discriminate|destruct u; [congruence|discriminate]|..].
    all: try solve [short_neg I16k 5%nat].
    + apply (sgn_mid_neg I16k u 5 3); auto with kinds.
    + apply (sgn_long I16k u 5); [exact Hu|apply (f_equal pred) in L; cbn [pred length] in L; lia|lia|]. rewrite Z.abs_opp. apply Z.abs_eq. apply dec_bound, Hd.
Qed.

Lemma I32_beh s : json_int s -> I32 s = sgn_beh I32k 10 (int_value s).
Proof.
  intros [u Hu|u Hu].
  - rewrite (uint_int_value u Hu). destruct (json_uint_inv u Hu) as (Hd & Hne & _).
    unfold I32. destruct u as [|c r]; [congruence|]. rewrite (uint_head c r Hu).
    destruct (length (c :: r)) as [|[|[|[|[|[|[|[|[|[|[|x]]]]]]]]]]] eqn:L; [discriminate|..].
    all: try solve [short_pos I32k 10%nat].
    + apply (sgn_mid_pos I32k (c :: r) 10 8); auto with kinds.
    + apply (sgn_long I32k (c :: r) 10); [exact Hu|lia|lia|]. apply Z.abs_eq. apply dec_bound, Hd.
  - change (int_value (45 :: u)) with (- dec u). destruct (json_uint_inv u Hu) as (Hd & Hne & _).
    unfold I32. rewrite Z.eqb_refl.
    destruct (length (45 :: u)) as [|[|[|[|[|[|[|[|[|[|[|[|x]]]]]]]]]]]] eqn:L; [discriminate|destruct u; [congruence|discriminate]|..].
    all: try solve [short_neg I32k 10%nat].
    + apply (sgn_mid_neg I32k u 10 8); auto with kinds.
    + apply (sgn_long I32k u 10); [exact Hu|apply (f_equal pred) in L; cbn [pred length] in L; lia|lia|]. rewrite Z.abs_opp. apply Z.abs_eq. apply dec_bound, Hd.
Qed.

Lemma I64_beh s : json_int s -> I64 s = sgn_beh I64k 19 (int_value s).
Proof.
  intros [u Hu|u Hu].
  - rewrite (uint_int_value u Hu). destruct (json_uint_inv u Hu) as (Hd & Hne & _).
    unfold I64. destruct u as [|c r]; [congruence|]. rewrite (uint_head c r Hu).
    destruct (length (c :: r)) as [|[|[|[|[|[|[|[|[|[|[|[|[|[|[|[|[|[|[|[|x]]]]]]]]]]]]]]]]]]]] eqn:L; [discriminate|..].
    all: try solve [short_pos I64k 19%nat].
    + apply (sgn_mid_pos I64k (c :: r) 19 17); auto with kinds.
    + apply (sgn_long I64k (c :: r) 19); [exact Hu|lia|lia|]. apply Z.abs_eq. apply dec_bound, Hd.
  - change (int_value (45 :: u)) with (- dec u). destruct (json_uint_inv u Hu) as (Hd & Hne & _).
    unfold I64. rewrite Z.eqb_refl.
    destruct (length (45 :: u)) as [|[|[|[|[|[|[|[|[|[|[|[|[|[|[|[|[|[|[|[|[|x]]]]]]]]]]]]]]]]]]]]] eqn:L; [discriminate|destruct u; [congruence|discriminate]|..].
    all: try solve [short_neg I64k 19%nat].
    + apply (sgn_mid_neg I64k u 19 17); auto with kinds.
    + apply (sgn_long I64k u 19); [exact Hu|apply (f_equal pred) in L; cbn [pred length] in L; lia|lia|]. rewrite Z.abs_opp. apply Z.abs_eq. apply dec_bound, Hd.
Qed.

(** In range: every signed parser is exact. *)
Lemma sgn_beh_in k n v : kind_ok k -> in_range k v -> (Z.abs v < 10 ^ Z.of_nat n) -> sgn_beh k n v = Some (v, false).
Proof.
  intros Hk Hv Hn. unfold sgn_beh, sgn_crit. rewrite wrap_id by assumption.
  destruct (_ <? _); [reflexivity|]. destruct (Z.ltb_spec (Z.abs v) (10 ^ Z.of_nat n)); [|lia].
  destruct (Z.geb_spec v 0).
  - destruct (Z.ltb_spec v 0); [lia|reflexivity].
  - destruct (Z.gtb_spec v 0); [lia|reflexivity].
Qed.

(** Accepted values are congruent to the literal's value modulo 2^width. *)
Lemma sgn_beh_mod k n v r : kind_ok k -> sgn_beh k n v = Some (r, false) -> r mod 2 ^ ik_width k = v mod 2 ^ ik_width k.
Proof.
  intros Hk. unfold sgn_beh, sgn_crit, ok, ovf.
  destruct (_ <? _); [intros [= ->]; reflexivity|]. destruct (_ <? _); [|discriminate].
  destruct (_ >=? _).
  - destruct (_ <? _); [discriminate|]. intros [= <-]. apply wrap_mod, Hk.
  - destruct (_ >? _); [discriminate|]. intros [= <-]. apply wrap_mod, Hk.
Qed.


Theorem I64_exact s : json_int s -> I64 s = exact I64k (int_value s).
Proof.
  intros Hs. rewrite I64_beh by exact Hs. set (v := int_value s). clearbody v.
  destruct (Z_le_gt_dec (Z.abs v) (10 ^ 19 - 1)) as [Hle|Hgt].
  2:{ unfold sgn_beh. change (Z.of_nat 19) with 19. change (Z.of_nat (19 - 1)) with 18.
      change (10 ^ 18) with 1000000000000000000. change (10 ^ 19) with 10000000000000000000 in *.
      destruct (Z.ltb_spec (Z.abs v) 1000000000000000000); [lia|].
      destruct (Z.ltb_spec (Z.abs v) 10000000000000000000); [lia|].
      rewrite exact_out; [reflexivity|]. rng. lia. }
  change (10 ^ 19) with 10000000000000000000 in *.
  destruct (in_rangeb I64k v) eqn:E.
  - apply in_rangeb_spec in E. rewrite exact_in by exact E. apply sgn_beh_in; auto with kinds.
    change (10 ^ Z.of_nat 19) with 10000000000000000000. lia.
  - assert (E' : ~ in_range I64k v) by (rewrite <- in_rangeb_spec; congruence). clear E.
    rewrite exact_out by exact E'. revert E'. rng. intros E'.
    unfold sgn_beh. change (Z.of_nat 19) with 19. change (Z.of_nat (19 - 1)) with 18.
    change (10 ^ 18) with 1000000000000000000. change (10 ^ 19) with 10000000000000000000 in *.
    destruct (Z.ltb_spec (Z.abs v) 1000000000000000000); [lia|].
    destruct (Z.ltb_spec (Z.abs v) 10000000000000000000); [|lia].
    unfold sgn_crit, wrap. cbn [ik_signed ik_width I64k]. change (2 ^ (64 - 1)) with 9223372036854775808.
    change (2 ^ 64) with 18446744073709551616.
    destruct (Z.geb_spec v 0).
    + replace ((v + 9223372036854775808) mod 18446744073709551616) with (v + 9223372036854775808 - 18446744073709551616).
      2:{ apply Z.mod_unique with (q := 1); lia. }
      destruct (Z.ltb_spec (v + 9223372036854775808 - 18446744073709551616 - 9223372036854775808) 0); [reflexivity|lia].
    + replace ((v + 9223372036854775808) mod 18446744073709551616) with (v + 9223372036854775808 + 18446744073709551616).
      2:{ apply Z.mod_unique with (q := -1); lia. }
      destruct (Z.gtb_spec (v + 9223372036854775808 + 18446744073709551616 - 9223372036854775808) 0); [reflexivity|lia].
Qed.

(** I8, I16, I32 are exact on in-range literals, ... *)
Theorem I8_in_range s : json_int s -> in_range I8k (int_value s) -> I8 s = Some (int_value s, false).
Proof.
  intros Hs Hr. rewrite I8_beh by exact Hs. apply sgn_beh_in; auto with kinds.
  revert Hr; rng. change (10 ^ Z.of_nat 3) with 1000. lia.
Qed.
Theorem I16_in_range s : json_int s -> in_range I16k (int_value s) -> I16 s = Some (int_value s, false).
Proof.
  intros Hs Hr. rewrite I16_beh by exact Hs. apply sgn_beh_in; auto with kinds.
  revert Hr; rng. change (10 ^ Z.of_nat 5) with 100000. lia.
Qed.
Theorem I32_in_range s : json_int s -> in_range I32k (int_value s) -> I32 s = Some (int_value s, false).
Proof.
  intros Hs Hr. rewrite I32_beh by exact Hs. apply sgn_beh_in; auto with kinds.
  revert Hr; rng. change (10 ^ Z.of_nat 10) with 10000000000. lia.
Qed.

(** ... and the exact set of literals on which they silently store a wrong number:
    the wrapped value has the sign of the literal. *)
Definition wraps_silently (k : ikind) (n : nat) (v : Z) : Prop :=
  ~ in_range k v /\ Z.abs v < 10 ^ Z.of_nat n /\ (0 <= v -> 0 <= wrap k v) /\ (v < 0 -> wrap k v <= 0).

Lemma sgn_beh_char k n v : kind_ok k -> ik_signed k = true ->
  10 ^ Z.of_nat (n - 1) - 1 <= imax k -> imax k < 10 ^ Z.of_nat n - 1 ->
  (wraps_silently k n v -> sgn_beh k n v = Some (wrap k v, false)) /\
  (~ wraps_silently k n v -> sgn_beh k n v = exact k v).
Proof.
  intros Hk Hsg Hm1 Hm2. split.
  - intros (Hr & Ha & Hp & Hn). unfold sgn_beh, sgn_crit.
    destruct (Z.ltb_spec (Z.abs v) (10 ^ Z.of_nat (n - 1))).
    + exfalso. apply Hr. unfold in_range, imin, imax in *. rewrite Hsg in *. lia.
    + destruct (Z.ltb_spec (Z.abs v) (10 ^ Z.of_nat n)); [|lia].
      destruct (Z.geb_spec v 0).
      * destruct (Z.ltb_spec (wrap k v) 0); [lia|reflexivity].
      * destruct (Z.gtb_spec (wrap k v) 0); [lia|reflexivity].
  - intros Hw. destruct (in_rangeb k v) eqn:E.
    + apply in_rangeb_spec in E. rewrite exact_in by exact E. apply sgn_beh_in; try assumption.
      unfold in_range, imin, imax in *. rewrite Hsg in *. lia.
    + assert (E' : ~ in_range k v) by (rewrite <- in_rangeb_spec; congruence).
      rewrite exact_out by exact E'. unfold sgn_beh, sgn_crit.
      destruct (Z.ltb_spec (Z.abs v) (10 ^ Z.of_nat (n - 1))).
      { exfalso. apply E'. unfold in_range, imin, imax in *. rewrite Hsg in *. lia. }
      destruct (Z.ltb_spec (Z.abs v) (10 ^ Z.of_nat n)); [|reflexivity].
      destruct (Z.geb_spec v 0).
      * destruct (Z.ltb_spec (wrap k v) 0); [reflexivity|]. exfalso. apply Hw. unfold wraps_silently. repeat split; try lia; assumption.
      * destruct (Z.gtb_spec (wrap k v) 0); [reflexivity|]. exfalso. apply Hw. unfold wraps_silently. repeat split; try lia; assumption.
Qed.

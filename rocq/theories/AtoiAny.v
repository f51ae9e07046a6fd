(** The integer parsers on arbitrary bytes.

    Decode runs them on the whole text of a string (a field with the `string` option, an
    integer map key) although it has only checked that the text starts with an integer, so
    what they make of other bytes is observable.

    Specification part: [digit_sum], [max_digits], [any_digits]. *)
From Verif Require Import Base NumSpec Atoi AtoiProofs.
Open Scope Z_scope.

(** Every byte counts as the digit (byte - '0') mod 256, at its decimal position. *)
Fixpoint digit_sum (r : bytes) : Z :=
  match r with [] => 0 | c :: t => ((c - 48) mod 256) * 10 ^ Z.of_nat (length t) + digit_sum t end.

(** The number of decimal digits of the largest value of the type. *)
Definition max_digits (k : ikind) : nat :=
  match ik_width k with 8 => 3%nat | 16 => 5%nat | 32 => 10%nat | _ => if ik_signed k then 19%nat else 20%nat end.

(** What is stored for the bytes [r]; None: refused.  At the full number of digits the
    signed parsers look at the sign of the wrapped sum only, and the unsigned ones at the
    first digit and at whether the wrapped sum exceeds that of the other digits. *)
Definition any_digits (k : ikind) (r : bytes) : option Z :=
  let sg := if match r with c :: _ => c =? 45 | [] => false end && ik_signed k then -1 else 1 in
  let ds := if sg =? -1 then tl r else r in
  let v := wrap k (sg * digit_sum ds) in
  if (length ds =? 0)%nat || (max_digits k <? length ds)%nat then None
  else if (length ds <? max_digits k)%nat then Some v
  else if ik_signed k then (if sg * v <? 0 then None else Some v)
  else if imax k / 10 ^ Z.of_nat (max_digits k - 1) <? digit_sum (firstn 1 ds) then None
  else if v <=? wrap k (digit_sum (tl ds)) then None else Some v.

(** ** Proofs *)
Definition res_of (o : option Z) : option (Z * bool) := match o with Some v => ok v | None => ovf end.

(** The bytes as digits. *)
Definition as_digit (c : byte) : byte := 48 + (c - 48) mod 256.
Lemma digit_sum_dec r : digit_sum r = dec (map as_digit r).
Proof.
  induction r as [|c r IH]; [reflexivity|]. cbn [digit_sum map]. rewrite dec_cons, map_length, IH.
  unfold as_digit. do 2 f_equal. lia.
Qed.
Lemma term_any k s t : kind_ok k -> (fst t < length s)%nat ->
  term k s t = wrap k ((at_ (map as_digit s) (fst t) - 48) * 10 ^ Z.of_nat (snd t)).
Proof.
  intros Hk Hl. unfold term, d. rewrite wrap_mul_l by exact Hk. do 2 f_equal.
  unfold at_. rewrite (nth_indep (map as_digit s) 0 (as_digit 0)) by (rewrite map_length; exact Hl). rewrite map_nth. unfold as_digit. lia.
Qed.
Lemma ev_sum_any k s ts : kind_ok k -> Forall (fun t => (fst t < length s)%nat) ts -> ev k s ts = wrap k (sumt (map as_digit s) ts).
Proof.
  intros Hk H. unfold ev.
  enough (G : forall acc a, acc = wrap k a -> fold_left (fun acc t => wrap k (acc + term k s t)) ts acc = wrap k (a + sumt (map as_digit s) ts)).
  { rewrite (G 0 0); [f_equal; lia|]. symmetry. apply wrap_0, Hk. }
  induction H as [|t ts Ht Hts IH]; intros acc a ->; cbn [fold_left sumt].
  - f_equal. lia.
  - rewrite (IH _ (a + (at_ (map as_digit s) (fst t) - 48) * 10 ^ Z.of_nat (snd t))).
    + f_equal. lia.
    + rewrite term_any by assumption. apply wrap_add, Hk.
Qed.
Lemma tab_lt n : forall i0 m, (i0 + n <= m)%nat -> Forall (fun t : nat * nat => (fst t < m)%nat) (tab i0 n).
Proof. induction n as [|n IH]; intros i0 m Hm; cbn [tab]; constructor; [cbn; lia|apply IH; lia]. Qed.
Lemma ev_any k s i0 n ts : kind_ok k -> length s = (i0 + n)%nat -> ts = tab i0 n -> ev k s ts = wrap k (digit_sum (skipn i0 s)).
Proof.
  intros Hk Hl ->. rewrite ev_sum_any by (try apply tab_lt; try assumption; lia).
  rewrite sumt_tab by (rewrite map_length; exact Hl). rewrite digit_sum_dec, skipn_map. reflexivity.
Qed.
Lemma ev_any0 k s n ts : kind_ok k -> length s = n -> ts = tab 0 n -> ev k s ts = wrap k (digit_sum s).
Proof. intros Hk Hl Ht. exact (ev_any k s 0 n ts Hk Hl Ht). Qed.
Lemma ev_any1 k c r n ts : kind_ok k -> length r = n -> ts = tab 1 n -> ev k (c :: r) ts = wrap k (digit_sum r).
Proof. intros Hk Hl Ht. exact (ev_any k (c :: r) 1 n ts Hk (f_equal S Hl) Ht). Qed.

Lemma any_unsigned k r : ik_signed k = false ->
  any_digits k r =
  (if (length r =? 0)%nat || (max_digits k <? length r)%nat then None
   else if (length r <? max_digits k)%nat then Some (wrap k (digit_sum r))
   else if imax k / 10 ^ Z.of_nat (max_digits k - 1) <? digit_sum (firstn 1 r) then None
   else if wrap k (digit_sum r) <=? wrap k (digit_sum (tl r)) then None else Some (wrap k (digit_sum r))).
Proof. intros Hu. unfold any_digits. rewrite Hu, andb_false_r. cbn [Z.eqb]. rewrite Z.mul_1_l. reflexivity. Qed.
Lemma any_plain k c r : ik_signed k = true -> (c =? 45) = false ->
  any_digits k (c :: r) =
  (if (max_digits k <? length (c :: r))%nat then None
   else if (length (c :: r) <? max_digits k)%nat then Some (wrap k (digit_sum (c :: r)))
   else if wrap k (digit_sum (c :: r)) <? 0 then None else Some (wrap k (digit_sum (c :: r)))).
Proof. intros Hu Hc. unfold any_digits. rewrite Hu, Hc. cbn [andb Z.eqb]. rewrite !Z.mul_1_l. reflexivity. Qed.
Lemma any_minus k r : ik_signed k = true ->
  any_digits k (45 :: r) =
  (if (length r =? 0)%nat || (max_digits k <? length r)%nat then None
   else if (length r <? max_digits k)%nat then Some (wrap k (- digit_sum r))
   else if wrap k (- digit_sum r) >? 0 then None else Some (wrap k (- digit_sum r))).
Proof.
  intros Hu. unfold any_digits. rewrite Hu. change (45 =? 45) with true. cbn [andb Z.eqb tl Pos.eqb].
  replace (-1 * digit_sum r) with (- digit_sum r) by lia.
  destruct (_ || _); [reflexivity|]. destruct (_ <? _)%nat; [reflexivity|].
  replace (-1 * wrap k (- digit_sum r) <? 0) with (wrap k (- digit_sum r) >? 0); [reflexivity|].
  rewrite Z.gtb_ltb. destruct (Z.ltb_spec 0 (wrap k (- digit_sum r))), (Z.ltb_spec (-1 * wrap k (- digit_sum r)) 0); lia || reflexivity.
Qed.

Ltac short0 k := match goal with L : length ?s = S _ |- context [ev k ?s ?ts] =>
  rewrite (ev_any0 k s _ ts ltac:(auto with kinds) L eq_refl); reflexivity end.
Ltac short1 k := match goal with L : length (45 :: ?s) = S _ |- context [ev k (45 :: ?s) ?ts] =>
  rewrite (ev_any1 k 45 s _ ts ltac:(auto with kinds) (f_equal pred L) eq_refl), wrap_opp by auto with kinds; reflexivity end.

(** The unsigned parsers at the full number of digits. *)
Lemma crit_any k s n lim ts : kind_ok k -> length s = S n -> ts = tab 1 n ->
  (if (at_ s 0 - 48) mod 256 >? lim then ovf else
   let p := ev k s ts in
   let v := wrap k (p + term k s (0, n)%nat) in if v <=? p then ovf else ok v) =
  res_of (if lim <? digit_sum (firstn 1 s) then None
          else if wrap k (digit_sum s) <=? wrap k (digit_sum (tl s)) then None else Some (wrap k (digit_sum s))).
Proof.
  intros Hk Hl Ht. destruct s as [|c r]; [discriminate|]. assert (Hr : length r = n) by exact (f_equal pred Hl).
  cbn [firstn tl]. change (at_ (c :: r) 0) with c. rewrite (ev_any1 k c r n ts Hk Hr Ht). cbv zeta.
  replace (digit_sum [c]) with ((c - 48) mod 256) by (cbn; lia). rewrite Z.gtb_ltb.
  destruct (lim <? (c - 48) mod 256); [reflexivity|].
  assert (E : wrap k (wrap k (digit_sum r) + term k (c :: r) (0%nat, n)) = wrap k (digit_sum (c :: r))).
  { unfold term, d. change (at_ (c :: r) (fst (0%nat, n))) with c. rewrite wrap_mul_l by exact Hk. rewrite wrap_add by exact Hk.
    cbn [digit_sum snd]. rewrite Hr. f_equal. lia. }
  rewrite E. destruct (_ <=? _); reflexivity.
Qed.

Theorem U8_any s : U8 s = res_of (any_digits U8k s).
Proof.
  rewrite any_unsigned by reflexivity. unfold U8. cbn [max_digits U8k ik_width].
  destruct (length s) as [|[|[|[|n]]]] eqn:L; [reflexivity|short0 U8k|short0 U8k|exact (crit_any U8k s 2 2 _ U8k_ok L eq_refl)|reflexivity].
Qed.
Theorem U16_any s : U16 s = res_of (any_digits U16k s).
Proof.
  rewrite any_unsigned by reflexivity. unfold U16. cbn [max_digits U16k ik_width].
  destruct (length s) as [|[|[|[|[|[|n]]]]]] eqn:L; try solve [short0 U16k]; [reflexivity|exact (crit_any U16k s 4 6 _ U16k_ok L eq_refl)|reflexivity].
Qed.
Theorem U32_any s : U32 s = res_of (any_digits U32k s).
Proof.
  rewrite any_unsigned by reflexivity. unfold U32. cbn [max_digits U32k ik_width].
  destruct (length s) as [|[|[|[|[|[|[|[|[|[|[|n]]]]]]]]]]] eqn:L; try solve [short0 U32k]; [reflexivity|exact (crit_any U32k s 9 4 _ U32k_ok L eq_refl)|reflexivity].
Qed.
(** U64 compares the first byte itself with '1', so it must be a digit here. *)
Theorem U64_any s : is_digit (at_ s 0) -> U64 s = res_of (any_digits U64k s).
Proof.
  intros Hd. rewrite any_unsigned by reflexivity. unfold U64. cbn [max_digits U64k ik_width ik_signed].
  destruct (length s) as [|[|[|[|[|[|[|[|[|[|[|[|[|[|[|[|[|[|[|[|[|n]]]]]]]]]]]]]]]]]]]]] eqn:L; try solve [short0 U64k]; [reflexivity| |reflexivity].
  destruct s as [|c r]; [discriminate|]. change (at_ (c :: r) 0) with c in *. assert (Hr : length r = 19%nat) by exact (f_equal pred L).
  match goal with |- context [ev U64k (c :: r) ?ts] => rewrite (ev_any1 U64k c r 19 ts U64k_ok Hr eq_refl) end.
  cbn [Nat.eqb orb Nat.ltb Nat.leb firstn tl]. cbv zeta.
  replace (digit_sum [c]) with ((c - 48) mod 256) by (cbn; lia).
  change (imax U64k / 10 ^ Z.of_nat (20 - 1)) with 1. unfold is_digit in Hd. rewrite Z.mod_small by lia.
  assert (Es : wrap U64k (digit_sum (c :: r)) = wrap U64k ((c - 48) * 10000000000000000000 + wrap U64k (digit_sum r))).
  { cbn [digit_sum]. rewrite Hr, Z.mod_small by lia. change (10 ^ Z.of_nat 19) with 10000000000000000000. rewrite wrap_add_r by auto with kinds. reflexivity. }
  rewrite Es. assert (B : 0 <= wrap U64k (digit_sum r) <= 18446744073709551615).
  { unfold wrap. cbn [ik_signed U64k ik_width]. pose proof (Z.mod_pos_bound (digit_sum r) (2 ^ 64) ltac:(lia)). lia. }
  set (t := wrap U64k (digit_sum r)) in *.
  destruct (Z.eqb_spec c 49) as [->|Ne]; cbn [negb].
  - change (1 <? 49 - 48) with false. cbn iota. change ((49 - 48) * 10000000000000000000) with 10000000000000000000.
    destruct (Z.gtb_spec t 8446744073709551615) as [Hg|Hg].
    + replace (wrap U64k (10000000000000000000 + t)) with (10000000000000000000 + t - 2 ^ 64)
        by (unfold wrap; cbn [ik_signed U64k ik_width]; apply (Z.mod_unique _ _ 1); lia).
      destruct (Z.leb_spec (10000000000000000000 + t - 2 ^ 64) t); [reflexivity|lia].
    + rewrite wrap_id by (auto with kinds; rng; lia). destruct (Z.leb_spec (10000000000000000000 + t) t); [lia|reflexivity].
  - destruct (Z.ltb_spec 1 (c - 48)); [reflexivity|]. assert (c = 48) as -> by lia.
    change ((48 - 48) * 10000000000000000000 + t) with t. rewrite (wrap_id U64k t) by (auto with kinds; rng; lia).
    rewrite Z.leb_refl. reflexivity.
Qed.

Ltac crit0 k := match goal with L : length ?s = S _ |- context [ev k ?s ?ts] =>
  rewrite (ev_any0 k s _ ts ltac:(auto with kinds) L eq_refl); destruct (_ <? 0); reflexivity end.
Ltac crit1 k := match goal with L : length (45 :: ?s) = S _ |- context [ev k (45 :: ?s) ?ts] =>
  rewrite (ev_any1 k 45 s _ ts ltac:(auto with kinds) (f_equal pred L) eq_refl), wrap_opp by auto with kinds; cbv zeta;
  destruct (_ >? 0); reflexivity end.
Lemma len_minus (r : bytes) n : length (45 :: r) = S n -> length r = n.
Proof. intros H. exact (f_equal pred H). Qed.

Theorem I8_any s : s <> [] -> I8 s = res_of (any_digits I8k s).
Proof.
  intros Ne. destruct s as [|c r]; [congruence|]. unfold I8. destruct (c =? 45) eqn:Ec.
  - apply Z.eqb_eq in Ec as ->. rewrite any_minus by reflexivity. cbn [max_digits I8k ik_width].
    destruct (length (45 :: r)) as [|[|[|[|[|x]]]]] eqn:L; [discriminate|..]; rewrite (len_minus _ _ L); try reflexivity; try solve [short1 I8k]; crit1 I8k.
  - rewrite any_plain by (try reflexivity; exact Ec). cbn [max_digits I8k ik_width].
    destruct (length (c :: r)) as [|[|[|[|x]]]] eqn:L; [discriminate|..]; try reflexivity; try solve [short0 I8k]; crit0 I8k.
Qed.
Theorem I16_any s : s <> [] -> I16 s = res_of (any_digits I16k s).
Proof.
  intros Ne. destruct s as [|c r]; [congruence|]. unfold I16. destruct (c =? 45) eqn:Ec.
  - apply Z.eqb_eq in Ec as ->. rewrite any_minus by reflexivity. cbn [max_digits I16k ik_width].
    destruct (length (45 :: r)) as [|[|[|[|[|[|[|x]]]]]]] eqn:L; [discriminate|..]; rewrite (len_minus _ _ L); try reflexivity; try solve [short1 I16k]; crit1 I16k.
  - rewrite any_plain by (try reflexivity; exact Ec). cbn [max_digits I16k ik_width].
    destruct (length (c :: r)) as [|[|[|[|[|[|x]]]]]] eqn:L; [discriminate|..]; try reflexivity; try solve [short0 I16k]; crit0 I16k.
Qed.
Theorem I32_any s : s <> [] -> I32 s = res_of (any_digits I32k s).
Proof.
  intros Ne. destruct s as [|c r]; [congruence|]. unfold I32. destruct (c =? 45) eqn:Ec.
  - apply Z.eqb_eq in Ec as ->. rewrite any_minus by reflexivity. cbn [max_digits I32k ik_width].
    destruct (length (45 :: r)) as [|[|[|[|[|[|[|[|[|[|[|[|x]]]]]]]]]]]] eqn:L; [discriminate|..]; rewrite (len_minus _ _ L); try reflexivity; try solve [short1 I32k]; crit1 I32k.
  - rewrite any_plain by (try reflexivity; exact Ec). cbn [max_digits I32k ik_width].
    destruct (length (c :: r)) as [|[|[|[|[|[|[|[|[|[|[|x]]]]]]]]]]] eqn:L; [discriminate|..]; try reflexivity; try solve [short0 I32k]; crit0 I32k.
Qed.
Theorem I64_any s : s <> [] -> I64 s = res_of (any_digits I64k s).
Proof.
  intros Ne. destruct s as [|c r]; [congruence|]. unfold I64. destruct (c =? 45) eqn:Ec.
  - apply Z.eqb_eq in Ec as ->. rewrite any_minus by reflexivity. cbn [max_digits I64k ik_width ik_signed].
    destruct (length (45 :: r)) as [|[|[|[|[|[|[|[|[|[|[|[|[|[|[|[|[|[|[|[|[|x]]]]]]]]]]]]]]]]]]]]] eqn:L; [discriminate|..]; rewrite (len_minus _ _ L); try reflexivity; try solve [short1 I64k]; crit1 I64k.
  - rewrite any_plain by (try reflexivity; exact Ec). cbn [max_digits I64k ik_width ik_signed].
    destruct (length (c :: r)) as [|[|[|[|[|[|[|[|[|[|[|[|[|[|[|[|[|[|[|[|x]]]]]]]]]]]]]]]]]]]] eqn:L; [discriminate|..]; try reflexivity; try solve [short0 I64k]; crit0 I64k.
Qed.

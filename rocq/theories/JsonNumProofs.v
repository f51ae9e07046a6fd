(** Proofs about ReadNumber (internal/jsonnum). *)
From Verif Require Import Base NumSpec JsonNum.
Open Scope Z_scope.

(** ** The unrolled loops equal the byte-wise loops *)
Ltac by_len s := let n := fresh "n" in
  remember (length s) as n eqn:Hn; revert s Hn; induction n as [n IH] using lt_wf_ind; intros s Hn.

Lemma exp_unroll s : exp_loop s = exp_loop_tail s.
Proof.
  by_len s. destruct s as [|a0 [|a1 [|a2 [|a3 [|a4 [|a5 [|a6 [|a7 r]]]]]]]]; try reflexivity.
  cbn [exp_loop exp_loop_tail skipn].
  repeat (match goal with |- context [nd ?a] => destruct (nd a); [reflexivity|] end).
  apply (IH (length r)); [subst n; cbn; lia|reflexivity].
Qed.

Lemma frac_unroll s : frac_loop s = frac_loop_tail s.
Proof.
  by_len s. destruct s as [|a0 [|a1 [|a2 [|a3 [|a4 [|a5 [|a6 [|a7 r]]]]]]]]; try reflexivity.
  cbn [frac_loop frac_loop_tail skipn].
  repeat (match goal with |- context [nd ?a] => destruct (nd a); [reflexivity|] end).
  apply (IH (length r)); [subst n; cbn; lia|reflexivity].
Qed.

Lemma int_unroll s : int_loop s = int_loop_tail s.
Proof.
  by_len s. destruct s as [|a0 [|a1 [|a2 [|a3 [|a4 [|a5 [|a6 [|a7 r]]]]]]]]; try reflexivity.
  cbn [int_loop int_loop_tail skipn].
  repeat (match goal with |- context [nd ?a] => destruct (nd a); [reflexivity|] end).
  apply (IH (length r)); [subst n; cbn; lia|reflexivity].
Qed.

(** ** A recogniser for the grammar *)
Inductive nst := Start | Minus | Zero | IntD | Dot | FracD | EE | ESgn | ExpD.

Definition delta (q : nst) (c : byte) : option nst :=
  match q with
  | Start => if c =? 45 then Some Minus else if c =? 48 then Some Zero else if nd c then None else Some IntD
  | Minus => if c =? 48 then Some Zero else if nd c then None else Some IntD
  | Zero => if c =? 46 then Some Dot else if isE c then Some EE else None
  | IntD => if nd c then if c =? 46 then Some Dot else if isE c then Some EE else None else Some IntD
  | Dot => if nd c then None else Some FracD
  | FracD => if nd c then if isE c then Some EE else None else Some FracD
  | EE => if (c =? 45) || (c =? 43) then Some ESgn else if nd c then None else Some ExpD
  | ESgn => if nd c then None else Some ExpD
  | ExpD => if nd c then None else Some ExpD
  end.

Fixpoint run (q : nst) (s : bytes) : option nst :=
  match s with
  | [] => Some q
  | c :: r => match delta q c with Some q' => run q' r | None => None end
  end.

(** Classification of states: None = not a number yet. *)
Definition cls (q : nst) : option rc :=
  match q with
  | Zero | IntD => Some RInteger
  | FracD | ExpD => Some RNumber
  | _ => None
  end.

Lemma run_app q a b : run q (a ++ b) = match run q a with Some q' => run q' b | None => None end.
Proof. revert q; induction a as [|c a IH]; intros q; cbn; [reflexivity|]. destruct (delta q c); [apply IH|reflexivity]. Qed.

Lemma nd_spec c : nd c = false <-> is_digit c.
Proof. unfold nd, is_digit. lia. Qed.

(** Language from each state. *)
Definition digits (s : bytes) : Prop := Forall is_digit s.
Definition opt_frac_exp (s : bytes) (k : rc) : Prop :=
  (s = [] /\ k = RInteger) \/ (k = RNumber /\ (json_frac s \/ json_exp s \/ exists f e, s = f ++ e /\ json_frac f /\ json_exp e)).
Definition lang (q : nst) (s : bytes) (k : rc) : Prop :=
  match q with
  | Start => exists i f, s = i ++ f /\ json_int i /\ opt_frac_exp f k
  | Minus => exists i f, s = i ++ f /\ json_uint i /\ opt_frac_exp f k
  | Zero => opt_frac_exp s k
  | IntD => exists i f, s = i ++ f /\ digits i /\ opt_frac_exp f k
  | Dot => k = RNumber /\ exists i f, s = i ++ f /\ digits i /\ i <> [] /\ (f = [] \/ json_exp f)
  | FracD => k = RNumber /\ exists i f, s = i ++ f /\ digits i /\ (f = [] \/ json_exp f)
  | EE => k = RNumber /\ exists sg ds, s = sg ++ ds /\ (sg = [] \/ sg = [45] \/ sg = [43]) /\ ds <> [] /\ digits ds
  | ESgn => k = RNumber /\ s <> [] /\ digits s
  | ExpD => k = RNumber /\ digits s
  end.

Lemma run_lang s : forall q q' k, run q s = Some q' -> cls q' = Some k -> lang q s k.
Proof.
  induction s as [|c s IH]; intros q q' k H Hk.
  - cbn in H. injection H as <-. destruct q; cbn in Hk; try discriminate; injection Hk as <-; cbn.
    + left; auto.
    + exists [], []. split; [reflexivity|]. split; [constructor|]. left; auto.
    + split; [reflexivity|]. exists [], []. repeat split; auto. constructor.
    + split; [reflexivity|constructor].
  - cbn in H. destruct (delta q c) as [q1|] eqn:D; [|discriminate].
    specialize (IH q1 q' k H Hk). clear H Hk.
    destruct q; cbn [delta] in D.
    + destruct (Z.eqb_spec c 45) as [->|].
      { injection D as <-. destruct IH as (i & f & -> & Hi & Hf). exists (45 :: i), f. repeat split; [now constructor|exact Hf]. }
      destruct (Z.eqb_spec c 48) as [->|].
      { injection D as <-. exists [48], s. repeat split; [|exact IH]. constructor. split; [constructor; [unfold is_digit; lia|constructor]|]. exists 48, []. auto. }
      destruct (nd c) eqn:E; [discriminate|]. injection D as <-. apply nd_spec in E.
      destruct IH as (i & f & -> & Hi & Hf). exists (c :: i), f. repeat split; [|exact Hf]. constructor. split; [constructor; assumption|]. exists c, i. split; [reflexivity|lia].
    + destruct (Z.eqb_spec c 48) as [->|].
      { injection D as <-. exists [48], s. repeat split; [|exists 48, []; auto|exact IH]. constructor; [unfold is_digit; lia|constructor]. }
      destruct (nd c) eqn:E; [discriminate|]. injection D as <-. apply nd_spec in E.
      destruct IH as (i & f & -> & Hi & Hf). exists (c :: i), f. repeat split; [| |exact Hf]. constructor; assumption. exists c, i. split; [reflexivity|lia].
    + cbn. destruct (Z.eqb_spec c 46) as [->|].
      { injection D as <-. destruct IH as (-> & i & f & -> & Hi & Hne & [->|He]).
        - right. split; [reflexivity|]. left. rewrite app_nil_r. constructor; assumption.
        - right. split; [reflexivity|]. right. right. exists (46 :: i), f. split; [reflexivity|]. split; [constructor; assumption|exact He]. }
      destruct (isE c) eqn:E; [|discriminate]. injection D as <-. destruct IH as (-> & sg & ds & -> & Hsg & Hne & Hds).
      right. split; [reflexivity|]. right. left. constructor; try assumption. unfold isE in E. lia.
    + destruct (nd c) eqn:N.
      2:{ injection D as <-. apply nd_spec in N. destruct IH as (i & f & -> & Hi & Hf). exists (c :: i), f. repeat split; [constructor; assumption|exact Hf]. }
      exists [], (c :: s). split; [reflexivity|]. split; [constructor|].
      destruct (Z.eqb_spec c 46) as [->|].
      { injection D as <-. destruct IH as (-> & i & f & -> & Hi & Hne & [->|He]).
        - right. split; [reflexivity|]. left. rewrite app_nil_r. constructor; assumption.
        - right. split; [reflexivity|]. right. right. exists (46 :: i), f. split; [reflexivity|]. split; [constructor; assumption|exact He]. }
      destruct (isE c) eqn:E; [|discriminate]. injection D as <-. destruct IH as (-> & sg & ds & -> & Hsg & Hne & Hds).
      right. split; [reflexivity|]. right. left. constructor; try assumption. unfold isE in E. lia.
    + destruct (nd c) eqn:N; [discriminate|]. injection D as <-. apply nd_spec in N.
      destruct IH as (-> & i & f & -> & Hi & Hf). split; [reflexivity|]. exists (c :: i), f. repeat split; [constructor; assumption|congruence|exact Hf].
    + destruct (nd c) eqn:N.
      2:{ injection D as <-. apply nd_spec in N. destruct IH as (-> & i & f & -> & Hi & Hf). split; [reflexivity|]. exists (c :: i), f. repeat split; [constructor; assumption|exact Hf]. }
      destruct (isE c) eqn:E; [|discriminate]. injection D as <-. destruct IH as (-> & sg & ds & -> & Hsg & Hne & Hds).
      split; [reflexivity|]. exists [], (c :: sg ++ ds). repeat split; [constructor|]. right. constructor; try assumption. unfold isE in E. lia.
    + destruct ((c =? 45) || (c =? 43)) eqn:E.
      { injection D as <-. destruct IH as (-> & Hne & Hs). split; [reflexivity|]. exists [c], s. repeat split; try assumption.
        right. assert (c = 45 \/ c = 43) as [->| ->] by lia; auto. }
      destruct (nd c) eqn:N; [discriminate|]. injection D as <-. apply nd_spec in N. destruct IH as (-> & Hs).
      split; [reflexivity|]. exists [], (c :: s). repeat split; [auto|congruence|constructor; assumption].
    + destruct (nd c) eqn:N; [discriminate|]. injection D as <-. apply nd_spec in N. destruct IH as (-> & Hs).
      split; [reflexivity|]. split; [congruence|]. constructor; assumption.
    + destruct (nd c) eqn:N; [discriminate|]. injection D as <-. apply nd_spec in N. destruct IH as (-> & Hs).
      split; [reflexivity|]. constructor; assumption.
Qed.

Lemma digit_cases c : is_digit c -> nd c = false /\ (c =? 45) = false /\ (c =? 43) = false /\ (c =? 46) = false /\ isE c = false.
Proof. unfold is_digit, nd, isE. lia. Qed.

Lemma run_digits q ds : (q = IntD \/ q = FracD \/ q = ExpD) -> digits ds -> run q ds = Some q.
Proof.
  intros Hq Hd. induction Hd as [|c ds Hc Hd IH]; [reflexivity|]. cbn.
  destruct (digit_cases c Hc) as (N & _). destruct Hq as [->|[->| ->]]; cbn [delta]; rewrite N; apply IH; auto.
Qed.

Lemma run_uint q i : (q = Start \/ q = Minus) -> json_uint i -> exists q', run q i = Some q' /\ (q' = Zero \/ q' = IntD).
Proof.
  intros Hq [Hd (c & r & -> & Hz)]. inversion_clear Hd as [|? ? Hc Hr].
  destruct (digit_cases c Hc) as (N & N1 & _).
  destruct (Z.eqb_spec c 48) as [->|Hc0].
  - rewrite (Hz eq_refl). exists Zero. split; [|auto]. destruct Hq as [->| ->]; reflexivity.
  - exists IntD. split; [|auto]. cbn. destruct Hq as [->| ->]; cbn [delta]; rewrite ?N1;
    destruct (Z.eqb_spec c 48); try lia; rewrite N; apply run_digits; auto.
Qed.

Lemma run_int i : json_int i -> exists q', run Start i = Some q' /\ (q' = Zero \/ q' = IntD).
Proof.
  intros [s Hs|s Hs]; [apply run_uint; auto|]. cbn. apply run_uint; auto.
Qed.

Lemma run_frac q f : (q = Zero \/ q = IntD) -> json_frac f -> run q f = Some FracD.
Proof.
  intros Hq [ds Hne Hd]. destruct ds as [|c ds]; [congruence|]. inversion_clear Hd as [|? ? Hc Hr].
  destruct (digit_cases c Hc) as (N & _).
  assert (run Dot (c :: ds) = Some FracD) by (cbn; rewrite N; apply run_digits; auto).
  destruct Hq as [->| ->]; exact H.
Qed.

Lemma run_exp q e : (q = Zero \/ q = IntD \/ q = FracD) -> json_exp e -> run q e = Some ExpD.
Proof.
  intros Hq [c sg ds Hc Hsg Hne Hd].
  assert (E : run EE (sg ++ ds) = Some ExpD).
  { destruct ds as [|d ds]; [congruence|]. inversion_clear Hd as [|? ? Hd' Hr].
    destruct (digit_cases d Hd') as (N & N1 & N2 & _).
    destruct Hsg as [->|[->| ->]]; cbn; rewrite ?N1, ?N2; cbn; rewrite ?N; apply run_digits; auto. }
  assert (Hnd : nd c = true) by (unfold nd; lia). assert (He : isE c = true) by (unfold isE; lia).
  assert (H46 : (c =? 46) = false) by lia.
  cbn. destruct Hq as [->|[->| ->]]; cbn [delta]; rewrite ?Hnd, ?H46, ?He; exact E.
Qed.

Lemma json_int_iff s : json_int s <-> exists q, run Start s = Some q /\ cls q = Some RInteger.
Proof.
  split.
  - intros H. destruct (run_int s H) as (q & E & Hq). exists q. split; [exact E|]. destruct Hq as [->| ->]; reflexivity.
  - intros (q & E & Hc). destruct (run_lang s Start q RInteger E Hc) as (i & f & -> & Hi & [[-> _]|[? _]]); [|discriminate].
    rewrite app_nil_r. exact Hi.
Qed.

Lemma json_nonint_iff s : json_nonint s <-> exists q, run Start s = Some q /\ cls q = Some RNumber.
Proof.
  split.
  - intros [i f Hi Hf|i e Hi He|i f e Hi Hf He]; destruct (run_int i Hi) as (q & E & Hq).
    + exists FracD. split; [|reflexivity]. rewrite run_app, E. apply run_frac; assumption.
    + exists ExpD. split; [|reflexivity]. rewrite run_app, E. apply run_exp; [tauto|assumption].
    + exists ExpD. split; [|reflexivity]. rewrite run_app, E, run_app, (run_frac q f Hq Hf). apply run_exp; [tauto|assumption].
  - intros (q & E & Hc). destruct (run_lang s Start q RNumber E Hc) as (i & f & -> & Hi & [[_ ?]|[_ [Hf|[He|(g & e & -> & Hg & He)]]]]); [discriminate|..].
    + now constructor. + now constructor. + now apply jn_fe.
Qed.

(** Every state can be completed. *)
Lemma completable q : exists x q', run q x = Some q' /\ cls q' <> None.
Proof.
  destruct q.
  - exists [48], Zero. split; [reflexivity|discriminate].
  - exists [48], Zero. split; [reflexivity|discriminate].
  - exists [], Zero. split; [reflexivity|discriminate].
  - exists [], IntD. split; [reflexivity|discriminate].
  - exists [48], FracD. split; [reflexivity|discriminate].
  - exists [], FracD. split; [reflexivity|discriminate].
  - exists [48], ExpD. split; [reflexivity|discriminate].
  - exists [48], ExpD. split; [reflexivity|discriminate].
  - exists [], ExpD. split; [reflexivity|discriminate].
Qed.

Lemma viable_iff p : viable p <-> run Start p <> None.
Proof.
  split.
  - intros [x Hx] N. assert (exists q, run Start (p ++ x) = Some q) as [q Hq].
    { destruct Hx as [Hx|Hx]; [apply json_int_iff in Hx|apply json_nonint_iff in Hx]; destruct Hx as (q & ? & _); eauto. }
    rewrite run_app, N in Hq. discriminate.
  - intros H. destruct (run Start p) as [q|] eqn:E; [|congruence].
    destruct (completable q) as (x & q' & Hx & Hc). exists x.
    assert (R : run Start (p ++ x) = Some q') by (rewrite run_app, E; exact Hx).
    destruct (cls q') as [[]|] eqn:C; [| | |congruence].
    + destruct q'; discriminate.
    + left. apply json_int_iff. eauto.
    + right. apply json_nonint_iff. eauto.
Qed.

(** ** ReadNumber is maximal munch for the recogniser *)
(** [munch q s]: state reached after the longest run and the remaining input. *)
Fixpoint munch (q : nst) (s : bytes) : nst * bytes :=
  match s with
  | [] => (q, [])
  | c :: r => match delta q c with Some q' => munch q' r | None => (q, s) end
  end.

Definition res (m : nst * bytes) : bytes * rc :=
  (snd m, match cls (fst m) with Some k => k | None => RErr end).
(** On errors only the code is relevant. *)
Definition same (a b : bytes * rc) : Prop := snd a = snd b /\ (snd a <> RErr -> fst a = fst b).

Lemma same_refl a : same a a. Proof. split; auto. Qed.
Lemma same_err t t' : same (t, RErr) (t', RErr). Proof. split; cbn; congruence. Qed.

Lemma exp_munch s : exp_loop_tail s = res (munch ExpD s).
Proof.
  induction s as [|c s IH]; [reflexivity|]. cbn [exp_loop_tail munch delta].
  destruct (nd c); [reflexivity|exact IH].
Qed.

Lemma exponent_munch s : same (exponent_sign s) (res (munch EE s)).
Proof.
  destruct s as [|c s]; [apply same_refl|]. cbn [exponent_sign munch delta].
  destruct ((c =? 45) || (c =? 43)) eqn:E.
  - destruct s as [|c' s]; [apply same_refl|]. cbn [munch delta].
    destruct (nd c'); [apply same_refl|]. rewrite exp_unroll, exp_munch. apply same_refl.
  - destruct (nd c); [apply same_refl|]. rewrite exp_unroll, exp_munch. apply same_refl.
Qed.

Lemma isE_nd c : isE c = true -> nd c = true /\ (c =? 46) = false.
Proof. unfold isE, nd. lia. Qed.

Lemma frac_munch s : same (frac_loop_tail s) (res (munch FracD s)).
Proof.
  induction s as [|c s IH]; [apply same_refl|]. cbn [frac_loop_tail munch delta].
  destruct (nd c); [|exact IH]. unfold frac_term. destruct (isE c); [apply exponent_munch|apply same_refl].
Qed.

Lemma fraction_munch s : same (fraction s) (res (munch Dot s)).
Proof.
  destruct s as [|c s]; [apply same_refl|]. cbn [fraction munch delta].
  destruct (nd c); [apply same_refl|]. rewrite frac_unroll. apply frac_munch.
Qed.

Lemma int_munch s : same (int_loop_tail s) (res (munch IntD s)).
Proof.
  induction s as [|c s IH]; [apply same_refl|]. cbn [int_loop_tail munch delta].
  destruct (nd c); [|exact IH]. unfold int_term. destruct (isE c) eqn:E.
  - destruct (isE_nd c E) as [_ ->]. apply exponent_munch.
  - destruct (c =? 46); [apply fraction_munch|apply same_refl].
Qed.

Lemma uint_munch c r :
  same (if c =? 48 then
             match r with
             | [] => (r, RInteger)
             | c' :: r' =>
                 if c' =? 46 then fraction r'
                 else if (c' =? 101) || (c' =? 69) then exponent_sign r'
                 else (r, RInteger)
             end
           else if (c <? 49) || (c >? 57) then (c :: r, RErr)
           else int_loop r) (res (munch Minus (c :: r))).
Proof.
  cbn [munch delta]. destruct (Z.eqb_spec c 48) as [->|Hc].
  - destruct r as [|c' r]; [apply same_refl|]. cbn [munch delta].
    destruct (c' =? 46); [apply fraction_munch|]. change ((c' =? 101) || (c' =? 69)) with (isE c').
    destruct (isE c'); [apply exponent_munch|apply same_refl].
  - assert (E : (c <? 49) || (c >? 57) = nd c) by (unfold nd; lia). rewrite E.
    destruct (nd c); [apply same_refl|]. rewrite int_unroll. apply int_munch.
Qed.

Lemma ReadNumber_munch s : s <> [] ->
  exists t k, ReadNumber s = Some (t, k) /\ same (t, k) (res (munch Start s)).
Proof.
  destruct s as [|c r]; [congruence|intros _]. cbn [ReadNumber].
  destruct (Z.eqb_spec c 45) as [->|Hc].
  - change (munch Start (45 :: r)) with (munch Minus r). destruct r as [|c' r].
    + eexists _, _. split; [reflexivity|apply same_refl].
    + match goal with |- exists t k, Some ?x = _ /\ _ => exists (fst x), (snd x); rewrite <- surjective_pairing end.
      split; [reflexivity|]. apply uint_munch.
  - match goal with |- exists t k, Some ?x = _ /\ _ => exists (fst x), (snd x); rewrite <- surjective_pairing end.
    split; [reflexivity|].
    assert (E : res (munch Start (c :: r)) = res (munch Minus (c :: r)) \/ (res (munch Start (c :: r)) = (c :: r, RErr) /\ res (munch Minus (c :: r)) = (c :: r, RErr))).
    { cbn [munch delta]. destruct (Z.eqb_spec c 45); [lia|]. destruct (c =? 48); [auto|]. destruct (nd c); auto. }
    destruct E as [E|[E1 E2]]; [rewrite E; apply uint_munch|]. pose proof (uint_munch c r) as U. rewrite E2 in U. rewrite E1. exact U.
Qed.

Lemma munch_spec s : forall q q' t, munch q s = (q', t) ->
  exists p, s = p ++ t /\ run q p = Some q' /\ match t with [] => True | c :: _ => delta q' c = None end.
Proof.
  induction s as [|c s IH]; intros q q' t H; cbn in H.
  - injection H as <- <-. exists []. repeat split.
  - destruct (delta q c) as [q1|] eqn:D.
    + destruct (IH _ _ _ H) as (p & -> & R & T). exists (c :: p). repeat split; [|exact T]. cbn. rewrite D. exact R.
    + injection H as <- <-. exists []. repeat split. exact D.
Qed.

Lemma munch_longest s q t : munch Start s = (q, t) -> exists p, longest_viable s p t /\ run Start p = Some q.
Proof.
  intros H. destruct (munch_spec s Start q t H) as (p & E & R & T). exists p. split; [|exact R].
  split; [exact E|]. split; [apply viable_iff; congruence|].
  intros p' t' E' V. apply viable_iff in V.
  destruct (le_lt_dec (length p') (length p)) as [?|Hl]; [assumption|exfalso].
  assert (exists c u, p' = p ++ c :: u /\ exists t1, t = c :: t1) as (c & u & -> & t1 & ->).
  { rewrite E in E'. clear - E' Hl. revert p' E' Hl. induction p as [|x p IH]; intros p' E' Hl.
    - destruct p' as [|c u]; [cbn in Hl; lia|]. cbn in E'. subst t. exists c, u. split; [reflexivity|]. eexists. reflexivity.
    - destruct p' as [|y p']; [cbn in Hl; lia|]. cbn in E', Hl. injection E' as <- E'.
      destruct (IH p' E' ltac:(lia)) as (c & u & -> & t1 & ->). exists c, u. split; [reflexivity|]. eexists; reflexivity. }
  apply V. rewrite run_app, R. cbn. rewrite T. reflexivity.
Qed.

(** *** Main statements *)
Theorem ReadNumber_spec s : s <> [] ->
  exists p t k t', longest_viable s p t /\ ReadNumber s = Some (t', k) /\
    (k = RInteger <-> json_int p) /\ (k = RNumber <-> json_nonint p) /\
    (k = RErr <-> ~ json_number p) /\ (k <> RErr -> t' = t).
Proof.
  intros Hs. destruct (ReadNumber_munch s Hs) as (t' & k & E & [S1 S2]).
  destruct (munch Start s) as [q t] eqn:M. destruct (munch_longest s q t M) as (p & Hp & R).
  exists p, t, k, t'. split; [exact Hp|]. split; [exact E|]. cbn [res fst snd] in *.
  rewrite json_int_iff, json_nonint_iff. unfold json_number. rewrite json_int_iff, json_nonint_iff.
  assert (Hx : forall K, (exists q0, run Start p = Some q0 /\ cls q0 = Some K) <-> cls q = Some K).
  { intros K. split; [intros (q0 & Hq0 & Hc); congruence|eauto]. }
  rewrite !Hx. subst k. destruct (cls q) as [[]|] eqn:C.
  - destruct q; discriminate.
  - repeat split; try congruence; try tauto.
  - repeat split; try congruence; try tauto.
  - repeat split; try congruence. intros _ [?|?]; congruence.
Qed.

(** A complete number is accepted as a whole. *)
Lemma munch_run s : forall q q', run q s = Some q' -> munch q s = (q', []).
Proof.
  induction s as [|c s IH]; intros q q' H; cbn in *; [congruence|].
  destruct (delta q c) as [q1|]; [|discriminate]. apply IH, H.
Qed.

Theorem ReadNumber_int s : json_int s <-> ReadNumber s = Some ([], RInteger).
Proof.
  rewrite json_int_iff. split.
  - intros (q & R & C). destruct s as [|c r]; [cbn in R; injection R as <-; discriminate|].
    destruct (ReadNumber_munch (c :: r) ltac:(congruence)) as (t' & k & E & [S1 S2]).
    rewrite (munch_run _ _ _ R) in *. cbn [res fst snd] in *. rewrite C in *. subst k. rewrite E.
    rewrite S2 by congruence. reflexivity.
  - intros E. destruct s as [|c r]; [discriminate|].
    destruct (ReadNumber_munch (c :: r) ltac:(congruence)) as (t' & k & E' & [S1 S2]).
    rewrite E in E'. injection E' as <- <-. destruct (munch Start (c :: r)) as [q t] eqn:M.
    cbn [res fst snd] in *. specialize (S2 ltac:(congruence)). subst t.
    destruct (munch_spec _ _ _ _ M) as (p & Ep & R & _). rewrite app_nil_r in Ep. subst p. exists q. split; [exact R|].
    destruct (cls q); congruence.
Qed.

Theorem ReadNumber_nonint s : json_nonint s <-> ReadNumber s = Some ([], RNumber).
Proof.
  rewrite json_nonint_iff. split.
  - intros (q & R & C). destruct s as [|c r]; [cbn in R; injection R as <-; discriminate|].
    destruct (ReadNumber_munch (c :: r) ltac:(congruence)) as (t' & k & E & [S1 S2]).
    rewrite (munch_run _ _ _ R) in *. cbn [res fst snd] in *. rewrite C in *. subst k. rewrite E.
    rewrite S2 by congruence. reflexivity.
  - intros E. destruct s as [|c r]; [discriminate|].
    destruct (ReadNumber_munch (c :: r) ltac:(congruence)) as (t' & k & E' & [S1 S2]).
    rewrite E in E'. injection E' as <- <-. destruct (munch Start (c :: r)) as [q t] eqn:M.
    cbn [res fst snd] in *. specialize (S2 ltac:(congruence)). subst t.
    destruct (munch_spec _ _ _ _ M) as (p & Ep & R & _). rewrite app_nil_r in Ep. subst p. exists q. split; [exact R|].
    destruct (cls q); congruence.
Qed.

(** The only panic is on the empty string. *)
Theorem ReadNumber_panic_iff s : ReadNumber s = None <-> s = [].
Proof.
  split; [|intros ->; reflexivity]. intros E. destruct s as [|c r]; [reflexivity|].
  destruct (ReadNumber_munch (c :: r) ltac:(congruence)) as (? & ? & E' & _). congruence.
Qed.

(** Decoding two documents that begin alike: the loop does the same on both until it
    leaves the common part.  Used by PropsPrefix.v. *)
From Verif Require Import Base NumSpec StrSpec Lookup Types Token FloatLit Heap Machine General Control.
Open Scope nat_scope.

Lemma skipn_cons {A} k (l : list A) t : nth_error l k = Some t -> skipn k l = t :: skipn (S k) l.
Proof. revert l; induction k; intros [|x l]; cbn; intros H; try discriminate; [congruence|]. rewrite (IHk _ H). reflexivity. Qed.
Lemma nth_some {A} k (l : list A) : k < length l -> exists t, nth_error l k = Some t.
Proof. intros H. destruct (nth_error l k) eqn:E; [eauto|]. apply nth_error_None in E. lia. Qed.

Section Two.
Variables (C : cfg) (O : opts) (stk : list frame) (s1 s2 : bytes) (toks1 toks2 : list token).
(** [n] tokens are shared; error positions of interest are [i0]. *)
Variables (n m i0 : nat).

Definition opens (t : token) : Prop := tk_ty t = KArr \/ tk_ty t = KObj.

(** Corresponding tokens at position [k]. *)
Definition alike (k : nat) (t1 t2 : token) : Prop :=
  tk_ty t1 = tk_ty t2 /\ tk_idx t1 = tk_idx t2 /\
  (opens t1 -> tk_n t1 = tk_n t2 /\ tk_end t1 = tk_end t2 /\ tk_end t1 < n \/
               n <= tk_end t1 /\ n <= tk_end t2 /\
               (tk_ty t1 = KArr -> tk_n t1 = tk_n t2) /\
               (tk_ty t1 = KObj -> S k < n -> tk_n t1 <> 0 /\ tk_n t2 <> 0)) /\
  (~ opens t1 -> end_tok t1 = false -> raw_of s1 t1 = raw_of s2 t2 /\ body_of s1 t1 = body_of s2 t2).

Hypothesis Hal : forall k t1, k < n -> nth_error toks1 k = Some t1 -> exists t2, nth_error toks2 k = Some t2 /\ alike k t1 t2.
Hypothesis Hlen1 : n <= length toks1.
Hypothesis Hge : forall k t, nth_error toks1 k = Some t -> n <= k -> m <= tk_idx t.
Hypothesis Hi0 : i0 < m.
Hypothesis Hcl : forall k t, nth_error toks1 k = Some t -> opens t -> tk_idx t = i0 -> tk_end t < n.
(** Containers into any: [a] is what the generic decoder makes of them. *)
Hypothesis Hany : forall k t1 t2, k < n -> nth_error toks1 k = Some t1 -> nth_error toks2 k = Some t2 -> opens t1 ->
  exists a rest1,
    decodeAny C s1 (2 * length toks1 + 1) (skipn k toks1) = match a with Some v => DOk v rest1 | None => DErr end /\
    length toks1 - length rest1 = S (tk_end t1) /\
    (tk_end t1 < n -> exists rest2,
      decodeAny C s2 (2 * length toks2 + 1) (skipn k toks2) = match a with Some v => DOk v rest2 | None => DErr end /\
      length toks2 - length rest2 = S (tk_end t1)).
(** The text of a container that ends in the common part. *)
Hypothesis Hjson : forall k t1 t2, k < n -> nth_error toks1 k = Some t1 -> nth_error toks2 k = Some t2 -> opens t1 -> tk_end t1 < n ->
  exists e1 e2, nth_error toks1 (tk_end t1) = Some e1 /\ nth_error toks2 (tk_end t1) = Some e2 /\
    sub s1 (tk_idx t1) (tk_idx e1 + 1) = sub s2 (tk_idx t2) (tk_idx e2 + 1).
Hypothesis ends1 : ends_ok 0 toks1.
Hypothesis Hobj : forall k t, nth_error toks1 k = Some t -> tk_ty t = KObj ->
  exists l, firstn (tk_end t - S k) (skipn (S k) toks1) = flatm (S k) l.

Lemma Hlen2 : n <= length toks2.
Proof.
  destruct n as [|n'] eqn:E; [lia|]. destruct (nth_some n' toks1) as (t & Ht); [lia|].
  destruct (Hal n' t) as (t2 & H2 & _); [lia|exact Ht|]. enough (n' < length toks2) by lia.
  apply nth_error_Some. congruence.
Qed.
Lemma Hget k : k < n -> exists t1 t2, nth_error toks1 k = Some t1 /\ nth_error toks2 k = Some t2 /\ alike k t1 t2.
Proof. intros L. destruct (nth_some k toks1) as (t & Ht); [lia|]. destruct (Hal k t L Ht) as (t2 & H2 & A). eauto. Qed.

(** The second outcome is the same if the first stays in the common part, or fails at
    [i0]. *)
Definition rel (o1 o2 : out) : Prop :=
  match o1 with
  | Next x => ti x < n -> o2 = Next x
  | Fail i e x => i = i0 -> o2 = Fail i e x
  | _ => True
  end.
Lemma rel_refl o : rel o o.
Proof. destruct o; cbn; auto. Qed.
Lemma rel_lift {A} (r : res A) k1 k2 : (forall a, r = Ok a -> rel (k1 a) (k2 a)) -> rel (lift r k1) (lift r k2).
Proof. destruct r; cbn; auto. Qed.

Lemma rel_far {A} (r : res A) k o : (forall a, r = Ok a -> rel (k a) o) -> rel (lift r k) o.
Proof. destruct r; cbn; auto. Qed.

Lemma skip_extra_at c : forall k l, k + c < n -> skip_extra l (skipn k toks1) = Some c -> skip_extra l (skipn k toks2) = Some c.
Proof.
  induction c as [|c IH]; intros k l Hk H; destruct (Hget k) as (t1 & t2 & E1 & E2 & A); try lia;
    rewrite (skipn_cons _ _ _ E1) in H; rewrite (skipn_cons _ _ _ E2); cbn [skip_extra] in *;
    destruct A as (<- & _); destruct (tk_ty t1);
    try exact H; try discriminate;
    try (destruct (skip_extra _ (skipn (S k) toks1)) as [c'|] eqn:Q; cbn [option_map] in H; [|discriminate]; try discriminate;
         injection H as ->; rewrite (IH (S k) _ ltac:(lia) Q); reflexivity);
    destruct l as [|[|l']]; try exact H; try discriminate;
    (destruct (skip_extra _ (skipn (S k) toks1)) as [c'|] eqn:Q; cbn [option_map] in H; [|discriminate]; try discriminate;
         injection H as ->; rewrite (IH (S k) _ ltac:(lia) Q); reflexivity).
Qed.
Lemma skip_unknown_at c : forall k l, k + c < n -> skip_unknown l (skipn k toks1) = Some c -> skip_unknown l (skipn k toks2) = Some c.
Proof.
  induction c as [|c IH]; intros k l Hk H; destruct (Hget k) as (t1 & t2 & E1 & E2 & A); try lia;
    rewrite (skipn_cons _ _ _ E1) in H; rewrite (skipn_cons _ _ _ E2); cbn [skip_unknown] in *;
    destruct A as (<- & _); destruct (tk_ty t1);
    repeat match type of H with (if ?b then _ else _) = _ => destruct b end;
    try exact H; try discriminate;
    (destruct (skip_unknown _ (skipn (S k) toks1)) as [c'|] eqn:Q; cbn [option_map] in H; [|discriminate]; try discriminate;
         injection H as ->; rewrite (IH (S k) _ ltac:(lia) Q); reflexivity).
Qed.

(** ** Labels *)
Lemma ove_rel x : rel (on_val_end stk toks1 x) (on_val_end stk toks2 x).
Proof.
  unfold on_val_end. destruct (fr stk (si x)) as [f|]; [|exact I]. destruct (f_parent f) as [c|]; [|apply rel_refl].
  destruct (fr stk c) as [fc|]; [|exact I]. destruct (f_ty fc); try apply rel_refl.
  cbv zeta. destruct (f_cap f <=? _)%Z; [|apply rel_refl].
  destruct (skip_extra 1 (skipn (ti x) toks1)) as [k|] eqn:E; [|exact I]. cbn [rel ti]. intros L.
  rewrite (skip_extra_at _ _ _ L E). reflexivity.
Qed.
Lemma ove_far x o : n <= ti x -> rel (on_val_end stk toks1 x) o.
Proof.
  intros L. destruct (on_val_end stk toks1 x) as [x'| | |] eqn:E; try exact I.
  - cbn. intros L'. pose proof (on_val_end_fwd C O stk s1 toks1 x x' E). lia.
  - exfalso. eapply on_val_end_nofail; eauto.
Qed.
Lemma roe_rel x : rel (on_recur_obj_end stk toks1 x) (on_recur_obj_end stk toks2 x).
Proof.
  unfold on_recur_obj_end. destruct (fr stk (si x)) as [f|]; [|exact I]. destruct (d_rs _); [apply ove_rel|].
  destruct (fr stk _) as [fc|]; [|exact I]. destruct (f_ty fc); apply rel_refl.
Qed.
Lemma roe_far x o : n <= ti x -> rel (on_recur_obj_end stk toks1 x) o.
Proof.
  intros L. destruct (on_recur_obj_end stk toks1 x) as [x'| | |] eqn:E; try exact I.
  - cbn. intros L'. pose proof (on_recur_fwd C O stk s1 toks1 x x' E). lia.
  - exfalso. eapply on_recur_nofail; eauto.
Qed.

Lemma alike_ty k t1 t2 : alike k t1 t2 -> tk_ty t1 = tk_ty t2. Proof. intros (A & _). exact A. Qed.
Lemma alike_idx k t1 t2 : alike k t1 t2 -> tk_idx t1 = tk_idx t2. Proof. intros (_ & A & _). exact A. Qed.

Lemma scalar_same f k t1 t2 p h : alike k t1 t2 -> ~ opens t1 -> end_tok t1 = false -> scalar_tok C s1 f t1 p h = scalar_tok C s2 f t2 p h.
Proof.
  intros (Ty & Ix & _ & L) N N'. destruct (L N N') as (R & B). unfold scalar_tok. rewrite <- Ty, <- Ix, R, B. reflexivity.
Qed.

Lemma on_json_rel f k t1 t2 x : k < n -> ti x = k -> nth_error toks1 k = Some t1 -> nth_error toks2 k = Some t2 -> alike k t1 t2 -> end_tok t1 = false ->
  rel (on_json C stk s1 toks1 f t1 x) (on_json C stk s2 toks2 f t2 x).
Proof.
  intros L Hx E1 E2 A Ne. pose proof A as (Ty & Ix & Op & Le). unfold on_json.
  assert (D : opens t1 \/ ~ opens t1) by (unfold opens; destruct (tk_ty t1); (left; tauto) || (right; intros [|]; discriminate)).
  destruct D as [Ho|Hn].
  - destruct (Op Ho) as [(_ & Ee & Hc)|(F1 & F2 & _)].
    + destruct (Hjson k t1 t2 L E1 E2 Ho Hc) as (e1 & e2 & G1 & G2 & Sb). rewrite <- Ty, <- Ee, <- Ix in *. rewrite G1, G2.
      destruct Ho as [-> | ->]; rewrite Sb; apply rel_lift; intros [raw ti'] _; apply rel_lift; intros id _; cbv zeta;
        apply rel_lift; intros old _; destruct (c_uj C id old raw) as [new er]; apply rel_lift; intros h _;
        (destruct er; [apply rel_refl|apply ove_rel]).
    + assert (NI : tk_idx t1 <> i0) by (intros Q; pose proof (Hcl _ _ E1 Ho Q); lia).
      destruct (lift _ _) as [x'|i e x'| |] eqn:Q; try exact I; cbn [rel].
      * intros Lt. exfalso. apply lift_next in Q as ([raw ti'] & Hr & Q).
        assert (ti' = tk_end t1 + 1).
        { destruct Ho as [Ho|Ho]; rewrite Ho in Hr; destruct (nth_error toks1 (tk_end t1)); try discriminate;
            destruct (sub s1 _ _); cbn in Hr; try discriminate; congruence. }
        apply lift_next in Q as (id & _ & Q). cbv zeta in Q. apply lift_next in Q as (old & _ & Q).
        destruct (c_uj C id old raw) as [new er]. apply lift_next in Q as (h & _ & Q). destruct er; [discriminate|].
        apply (on_val_end_fwd C O stk s1 toks1) in Q. cbn in Q. lia.
      * intros ->. exfalso. apply lift_fail in Q as ([raw ti'] & Hr & Q).
        apply lift_fail in Q as (id & _ & Q). cbv zeta in Q. apply lift_fail in Q as (old & _ & Q).
        destruct (c_uj C id old raw) as [new er]. apply lift_fail in Q as (h & _ & Q). destruct er; [|eapply on_val_end_nofail; eauto].
        injection Q as Q _ _. congruence.
  - destruct (Le Hn Ne) as (R & _). rewrite <- Ty, <- Ix, <- R.
    assert (M : forall (A : Type) (a b : A), match tk_ty t1 with KObj | KArr => a | _ => b end = b).
    { intros. unfold opens in Hn. destruct (tk_ty t1); try reflexivity; exfalso; apply Hn; tauto. }
    rewrite !M. apply rel_lift; intros [raw ti'] _; apply rel_lift; intros id _; cbv zeta;
        apply rel_lift; intros old _; destruct (c_uj C id old raw) as [new er]; apply rel_lift; intros h _;
        (destruct er; [apply rel_refl|apply ove_rel]).
Qed.

Lemma any_rel k t1 t2 x : k < n -> ti x = k -> nth_error toks1 k = Some t1 -> nth_error toks2 k = Some t2 -> alike k t1 t2 -> opens t1 ->
  rel (any_tok C stk s1 toks1 t1 x) (any_tok C stk s2 toks2 t2 x).
Proof.
  intros L Hx E1 E2 A Ho. pose proof A as (Ty & Ix & Op & _). unfold any_tok. rewrite Hx.
  destruct (Hany k t1 t2 L E1 E2 Ho) as (a & r1 & D1 & L1 & Hc). rewrite D1.
  destruct (Nat.lt_ge_cases (tk_end t1) n) as [Lt|Ge].
  - destruct (Hc Lt) as (r2 & D2 & L2). rewrite D2. destruct a; [|cbn; rewrite Ix; auto].
    apply rel_lift. intros h _. rewrite L1, L2. apply ove_rel.
  - destruct a; [|cbn; intros Q; pose proof (Hcl _ _ E1 Ho Q); lia].
    apply rel_far. intros h _. apply ove_far. cbn. lia.
Qed.

(** ** Specialised slices and maps *)
Lemma fast_elem_same e k t1 t2 : alike k t1 t2 -> fast_elem C s1 e t1 = fast_elem C s2 e t2.
Proof.
  intros (Ty & Ix & _ & Le). unfold fast_elem. rewrite <- Ty, <- Ix.
  destruct e; try reflexivity; destruct (tk_ty t1) eqn:Et; try reflexivity;
    (destruct Le as (R & B); [unfold opens; rewrite Et; intros [|]; discriminate|unfold end_tok; rewrite Et; reflexivity|]); rewrite ?R, ?B; reflexivity.
Qed.
Lemma firstn_skipn_cons {A} e k (l : list A) t : nth_error l k = Some t -> k < e ->
  firstn (e - k) (skipn k l) = t :: firstn (e - S k) (skipn (S k) l).
Proof. intros H L. rewrite (skipn_cons _ _ _ H). replace (e - k) with (S (e - S k)) by lia. reflexivity. Qed.

Lemma fast_err_in e a len ts : forall i h h' j er,
  fast_loop C s1 e a len i ts h = Ok (h', Some (j, er)) -> exists t, In t ts /\ tk_idx t = j.
Proof.
  induction ts as [|t ts IH]; intros i h h' j er H; [discriminate|]. cbn in H.
  destruct (fast_elem C s1 e t) as [[[v sz]|er']| |]; cbn in H; try discriminate.
  - destruct (len <=? i)%Z; [discriminate|]. destruct (store _ _ _ _); cbn in H; try discriminate.
    destruct (IH _ _ _ _ _ H) as (t' & I & E). exists t'. split; [right; exact I|exact E].
  - injection H as <- <- <-. exists t. split; [left; reflexivity|reflexivity].
Qed.
Lemma in_firstn_skipn {A} a k (l : list A) t : In t (firstn a (skipn k l)) -> exists q, k <= q /\ nth_error l q = Some t.
Proof.
  intros H. assert (I : In t (skipn k l)).
  { rewrite <- (firstn_skipn a (skipn k l)). apply in_or_app. tauto. }
  apply In_nth_error in I as (q & Q). exists (k + q). split; [lia|].
  revert k H Q. induction l as [|y l IH]; intros k H Q; [destruct k, q; discriminate|].
  destruct k; [exact Q|]. cbn in *. apply IH; assumption.
Qed.

Lemma fast_err_same el a len e1 e2 : (e1 = e2 \/ n <= e1 /\ n <= e2) -> forall d k i h h' er, d = n - k ->
  fast_loop C s1 el a len i (firstn (e1 - k) (skipn k toks1)) h = Ok (h', Some (i0, er)) ->
  fast_loop C s2 el a len i (firstn (e2 - k) (skipn k toks2)) h = Ok (h', Some (i0, er)).
Proof.
  intros He. induction d as [|d IH]; intros k i h h' er Hd H.
  - exfalso. apply fast_err_in in H as (t & I & E). apply in_firstn_skipn in I as (q & Lq & Q).
    pose proof (Hge q t Q ltac:(lia)). lia.
  - destruct (Hget k) as (t1 & t2 & E1 & E2 & A); [lia|].
    destruct (Nat.lt_ge_cases k e1) as [L|L].
    + rewrite (firstn_skipn_cons _ _ _ _ E1 L) in H. rewrite (firstn_skipn_cons _ _ _ _ E2) by lia.
      cbn [fast_loop] in *. rewrite <- (fast_elem_same el k t1 t2 A).
      destruct (fast_elem C s1 el t1) as [[[v sz]|er']| |]; cbn [rbind] in *; try discriminate.
      * destruct (len <=? i)%Z; [discriminate|]. destruct (store _ _ _ _); cbn [rbind] in *; try discriminate.
        apply IH; [lia|exact H].
      * rewrite <- (alike_idx _ _ _ A). exact H.
    + replace (e1 - k) with 0 in H by lia. discriminate.
Qed.
Lemma fast_all_same el a len e : e <= n -> forall d k i h, d = e - k ->
  fast_loop C s1 el a len i (firstn (e - k) (skipn k toks1)) h =
  fast_loop C s2 el a len i (firstn (e - k) (skipn k toks2)) h.
Proof.
  intros He. induction d as [|d IH]; intros k i h Hd.
  - replace (e - k) with 0 by lia. reflexivity.
  - destruct (Hget k) as (t1 & t2 & E1 & E2 & A); [lia|].
    rewrite (firstn_skipn_cons _ _ _ _ E1), (firstn_skipn_cons _ _ _ _ E2) by lia.
    cbn [fast_loop]. rewrite <- (fast_elem_same el k t1 t2 A).
    destruct (fast_elem C s1 el t1) as [[[v sz]|er']| |]; cbn [rbind]; try reflexivity.
    + destruct (len <=? i)%Z; [reflexivity|]. destruct (store _ _ _ _); cbn [rbind]; try reflexivity.
      apply IH. lia.
    + rewrite <- (alike_idx _ _ _ A). reflexivity.
Qed.

Lemma mss_err_in ts : forall acc j er, mss_loop C s1 ts acc = Ok (inr (j, er)) -> exists t, In t (tl ts) /\ tk_idx t = j.
Proof.
  remember (length ts) as len eqn:Q. assert (B : length ts <= len) by lia. clear Q. revert ts B.
  induction len as [|len IH]; intros ts B acc j er H; [destruct ts; [discriminate|cbn in B; lia]|].
  destruct ts as [|k [|v r]]; try discriminate. cbn [mss_loop tl] in *.
  assert (G : forall acc, mss_loop C s1 r acc = Ok (inr (j, er)) -> exists t, In t (v :: r) /\ tk_idx t = j).
  { intros acc' H'. apply IH in H'; [|cbn in B; lia]. destruct H' as (t & I & E). exists t. split; [|exact E].
    right. destruct r; [exact I|right; exact I]. }
  destruct (tk_ty v) eqn:Ty; try (injection H as <- <-; exists v; split; [left; reflexivity|reflexivity]);
    repeat match type of H with rbind ?r _ = _ => destruct r; cbn [rbind] in H; try discriminate end; eauto.
Qed.
Lemma tl_skipn_firstn {A} a k (l : list A) t : In t (tl (firstn a (skipn k l))) -> exists q, S k <= q /\ nth_error l q = Some t.
Proof.
  intros H. destruct a as [|a]; [easy|]. destruct (skipn k l) as [|y r] eqn:E; [easy|]. cbn [firstn tl] in H.
  assert (r = skipn (S k) l) as -> by (rewrite skipn_S, E; reflexivity).
  apply in_firstn_skipn in H. exact H.
Qed.
Lemma leaf_same k t1 t2 : alike k t1 t2 -> ~ opens t1 -> end_tok t1 = false -> raw_of s1 t1 = raw_of s2 t2 /\ body_of s1 t1 = body_of s2 t2.
Proof. intros (_ & _ & _ & A). exact A. Qed.

Lemma mss_err_same e1 e2 : (e1 = e2 \/ n <= e1 /\ n <= e2) -> forall l k acc er,
  firstn (e1 - k) (skipn k toks1) = flatm k l ->
  mss_loop C s1 (firstn (e1 - k) (skipn k toks1)) acc = Ok (inr (i0, er)) ->
  mss_loop C s2 (firstn (e2 - k) (skipn k toks2)) acc = Ok (inr (i0, er)).
Proof.
  intros He. induction l as [|[[ki kr] v] l IH]; intros k acc er F H; [rewrite F in H; discriminate|].
  assert (L : S k < n).
  { destruct (Nat.lt_ge_cases (S k) n) as [L|L]; [exact L|]. exfalso.
    apply mss_err_in in H as (t & I & E). apply tl_skipn_firstn in I as (q & Lq & Q).
    pose proof (Hge q t Q ltac:(lia)). lia. }
  destruct (Hget k) as (t1 & t2 & E1 & E2 & A); [lia|].
  destruct (Hget (S k)) as (u1 & u2 & G1 & G2 & B); [lia|].
  assert (k < e1). { destruct (Nat.lt_ge_cases k e1); [assumption|]. replace (e1 - k) with 0 in F by lia. discriminate. }
  rewrite (firstn_skipn_cons _ _ _ _ E1) in F by lia. cbn [flatm fst snd] in F. injection F as Ft F.
  assert (S k < e1). { destruct (Nat.lt_ge_cases (S k) e1); [assumption|]. replace (e1 - S k) with 0 in F by lia. cbn in F.
    symmetry in F. apply app_eq_nil in F as (F & _). apply (f_equal (@length token)) in F. rewrite flat_length in F. pose proof (ntok_pos v). cbn in F. lia. }
  rewrite (firstn_skipn_cons _ _ _ _ E1), (firstn_skipn_cons _ _ _ _ G1) in H by lia.
  rewrite (firstn_skipn_cons _ _ _ _ E2), (firstn_skipn_cons _ _ _ _ G2) by lia.
  rewrite (firstn_skipn_cons _ _ _ _ G1) in F by lia.
  destruct (leaf_same _ _ _ A) as (_ & Bk); [rewrite Ft; intros [|]; discriminate|rewrite Ft; reflexivity|].
  cbn [mss_loop] in *. rewrite <- (alike_ty _ _ _ B), <- (alike_idx _ _ _ B), <- (alike_idx _ _ _ A), <- Bk.
  destruct (tk_ty u1) eqn:Ty; try exact H.
  - assert (Fv : firstn (e1 - S (S k)) (skipn (S (S k)) toks1) = flatm (S (S k)) l).
    { destruct v; cbn [flat app] in F; injection F as Fu F; rewrite Fu in Ty; try destruct b; try discriminate.
      cbn [ntok] in F. rewrite Nat.add_1_r in F. exact F. }
    destruct (body_of s1 t1); cbn [rbind] in *; try discriminate. destruct (unesc_str _ _ _); cbn [rbind] in *; try discriminate.
    apply IH; assumption.
  - destruct (leaf_same _ _ _ B) as (_ & Bv); [unfold opens; rewrite Ty; intros [|]; discriminate|unfold end_tok; rewrite Ty; reflexivity|]. rewrite <- Bv.
    assert (Fv : firstn (e1 - S (S k)) (skipn (S (S k)) toks1) = flatm (S (S k)) l).
    { destruct v; cbn [flat app] in F; injection F as Fu F; rewrite Fu in Ty; try destruct b; try discriminate.
      cbn [ntok] in F. rewrite Nat.add_1_r in F. exact F. }
    destruct (body_of s1 t1); cbn [rbind] in *; try discriminate. destruct (unesc_str _ _ _); cbn [rbind] in *; try discriminate.
    destruct (body_of s1 u1); cbn [rbind] in *; try discriminate. destruct (unesc_str _ _ _); cbn [rbind] in *; try discriminate.
    apply IH; assumption.
Qed.
Lemma mss_all_same e : e <= n -> forall l k acc, firstn (e - k) (skipn k toks1) = flatm k l ->
  mss_loop C s1 (firstn (e - k) (skipn k toks1)) acc = mss_loop C s2 (firstn (e - k) (skipn k toks2)) acc.
Proof.
  intros He. induction l as [|[[ki kr] v] l IH]; intros k acc F.
  { assert (Z : e - k = 0).
    { destruct (Nat.lt_ge_cases k e); [|lia]. destruct (Hget k) as (t1 & t2 & E1 & E2 & A); [lia|].
      rewrite (firstn_skipn_cons _ _ _ _ E1) in F by lia. discriminate. }
    rewrite Z. reflexivity. }
  assert (k < e). { destruct (Nat.lt_ge_cases k e); [assumption|]. replace (e - k) with 0 in F by lia. discriminate. }
  destruct (Hget k) as (t1 & t2 & E1 & E2 & A); [lia|].
  rewrite (firstn_skipn_cons _ _ _ _ E1) in F by lia. cbn [flatm fst snd] in F. injection F as Ft F.
  assert (S k < e). { destruct (Nat.lt_ge_cases (S k) e); [assumption|]. replace (e - S k) with 0 in F by lia. cbn in F.
    symmetry in F. apply app_eq_nil in F as (F & _). apply (f_equal (@length token)) in F. rewrite flat_length in F. pose proof (ntok_pos v). cbn in F. lia. }
  destruct (Hget (S k)) as (u1 & u2 & G1 & G2 & B); [lia|].
  rewrite (firstn_skipn_cons _ _ _ _ G1) in F by lia.
  rewrite (firstn_skipn_cons _ _ _ _ E1), (firstn_skipn_cons _ _ _ _ G1) by lia.
  rewrite (firstn_skipn_cons _ _ _ _ E2), (firstn_skipn_cons _ _ _ _ G2) by lia.
  destruct (leaf_same _ _ _ A) as (_ & Bk); [rewrite Ft; intros [|]; discriminate|rewrite Ft; reflexivity|].
  cbn [mss_loop] in *. rewrite <- (alike_ty _ _ _ B), <- (alike_idx _ _ _ B), <- (alike_idx _ _ _ A), <- Bk.
  destruct (tk_ty u1) eqn:Ty; try reflexivity.
  - assert (Fv : firstn (e - S (S k)) (skipn (S (S k)) toks1) = flatm (S (S k)) l).
    { destruct v; cbn [flat app] in F; injection F as Fu F; rewrite Fu in Ty; try destruct b; try discriminate.
      cbn [ntok] in F. rewrite Nat.add_1_r in F. exact F. }
    destruct (body_of s1 t1); cbn [rbind]; try reflexivity. destruct (unesc_str _ _ _); cbn [rbind]; try reflexivity.
    apply IH; assumption.
  - destruct (leaf_same _ _ _ B) as (_ & Bv); [unfold opens; rewrite Ty; intros [|]; discriminate|unfold end_tok; rewrite Ty; reflexivity|]. rewrite <- Bv.
    assert (Fv : firstn (e - S (S k)) (skipn (S (S k)) toks1) = flatm (S (S k)) l).
    { destruct v; cbn [flat app] in F; injection F as Fu F; rewrite Fu in Ty; try destruct b; try discriminate.
      cbn [ntok] in F. rewrite Nat.add_1_r in F. exact F. }
    destruct (body_of s1 t1); cbn [rbind]; try reflexivity. destruct (unesc_str _ _ _); cbn [rbind]; try reflexivity.
    destruct (body_of s1 u1); cbn [rbind]; try reflexivity. destruct (unesc_str _ _ _); cbn [rbind]; try reflexivity.
    apply IH; assumption.
Qed.

(** ** One iteration *)
Lemma fast_rel e k t1 t2 x : k < n -> ti x = k -> nth_error toks1 k = Some t1 -> nth_error toks2 k = Some t2 -> alike k t1 t2 -> tk_ty t1 = KArr ->
  rel (fast_slice C stk s1 toks1 e t1 x) (fast_slice C stk s2 toks2 e t2 x).
Proof.
  intros L Hx E1 E2 A Ty. pose proof A as (_ & Ix & Op & _). destruct (Op (or_introl Ty)) as [(Hn & He & Hc)|(F1 & F2 & Hn & _)].
  - unfold fast_slice. rewrite <- Hn, <- He. cbv zeta.
    destruct (Z.of_nat (tk_n t1) <? 1)%Z; [apply rel_lift; intros h _; apply ove_rel|].
    apply rel_lift. intros [[data len] cap] _. destruct (if negb _ then _ else _) as [[a|] h]; [|exact I].
    rewrite !firstn_length, !skipn_length.
    rewrite (fast_all_same e a (Z.of_nat (tk_n t1)) (tk_end t1) ltac:(lia) _ (S (ti x)) 0%Z h eq_refl).
    apply rel_lift. intros [h' [[i er]|]] _; [apply rel_refl|]. apply rel_lift. intros h'' _.
    pose proof Hlen2. replace (Nat.min (tk_end t1 - S (ti x)) (length toks2 - S (ti x))) with (Nat.min (tk_end t1 - S (ti x)) (length toks1 - S (ti x))) by lia.
    apply ove_rel.
  - specialize (Hn Ty). unfold fast_slice. rewrite <- Hn. cbv zeta.
    destruct (Z.of_nat (tk_n t1) <? 1)%Z; [apply rel_lift; intros h _; apply ove_rel|].
    apply rel_lift. intros [[data len] cap] _. destruct (if negb _ then _ else _) as [[a|] h]; [|exact I].
    destruct (fast_loop C s1 e a _ 0 _ h) as [[h' [[i er]|]]| |] eqn:Q; cbn [lift]; try exact I.
    + cbn [rel]. intros ->. rewrite (fast_err_same e a _ (tk_end t1) (tk_end t2) ltac:(lia) _ _ _ _ _ _ eq_refl Q). reflexivity.
    + apply rel_far. intros h'' _. apply ove_far. cbn [ti]. rewrite firstn_length, skipn_length. lia.
Qed.

Lemma arr_rel f k t1 t2 x : k < n -> ti x = k -> nth_error toks1 k = Some t1 -> nth_error toks2 k = Some t2 -> alike k t1 t2 -> tk_ty t1 = KArr ->
  rel (arr_tok C stk s1 toks1 f t1 x) (arr_tok C stk s2 toks2 f t2 x).
Proof.
  intros L Hx E1 E2 A Ty. pose proof A as (_ & Ix & Op & _). specialize (Op (or_introl Ty)).
  assert (Hn : tk_n t1 = tk_n t2) by (destruct Op as [(? & _)|(_ & _ & ? & _)]; auto).
  unfold arr_tok. rewrite <- Ix, <- Hn. cbv zeta.
  destruct (f_ty f);
    try (apply rel_refl);
    try (eapply fast_rel; eauto; fail); try (eapply on_json_rel; eauto; unfold end_tok; rewrite Ty; reflexivity);
    try (eapply any_rel; eauto; left; exact Ty).
  - (* EArray *) destruct (_ <? 1); [apply ove_rel|apply rel_refl].
  - (* EArray0 *) destruct Op as [(_ & <- & _)|(F1 & _)]; [apply ove_rel|apply ove_far; cbn; lia].
  - (* ESlice *) destruct (fr stk _); [|exact I]. destruct (Nat.eqb _ 0); [|apply rel_refl].
    apply rel_lift. intros h _. apply ove_rel.
  - (* ESliceRecur *) destruct (fr stk _); [|exact I]. destruct (Nat.eqb _ 0); [|apply rel_refl].
    apply rel_lift. intros h _. destruct (d_rs _); [apply ove_rel|apply rel_refl].
  - (* ESliceEmpty *) destruct Op as [(_ & <- & _)|(F1 & _)]; [apply rel_lift; intros h _; apply ove_rel|apply rel_far; intros h _; apply ove_far; cbn; lia].
Qed.

Lemma obj_rel f k t1 t2 x : k < n -> ti x = k -> nth_error toks1 k = Some t1 -> nth_error toks2 k = Some t2 -> alike k t1 t2 -> tk_ty t1 = KObj ->
  rel (obj_tok C stk s1 toks1 f t1 x) (obj_tok C stk s2 toks2 f t2 x).
Proof.
  intros L Hx E1 E2 A Ty. pose proof A as (_ & Ix & Op & _). specialize (Op (or_intror Ty)).
  assert (Hn : Nat.eqb (tk_n t1) 0 = Nat.eqb (tk_n t2) 0 \/ n <= S (ti x)).
  { destruct Op as [(-> & _)|(_ & _ & _ & H)]; [auto|]. destruct (Nat.lt_ge_cases (S k) n) as [Lk|Lk]; [|right; lia].
    destruct (H Ty Lk) as (N1 & N2). apply Nat.eqb_neq in N1, N2. left. congruence. }
  unfold obj_tok. rewrite <- Ix. cbv zeta.
  assert (Far : forall x' : st, n <= ti x' -> forall o, rel (Next x') o) by (intros x' Q o Q'; cbn in *; lia).
  destruct (f_ty f);
    try (apply rel_refl);
    try (eapply on_json_rel; eauto; unfold end_tok; rewrite Ty; reflexivity);
    try (eapply any_rel; eauto; right; exact Ty).
  all: try (destruct Hn as [<-|Hn];
    [destruct (Nat.eqb (tk_n t1) 0); [apply ove_rel || apply roe_rel|apply rel_refl]
    |destruct (Nat.eqb (tk_n t1) 0); [(apply ove_far || apply roe_far); cbn; lia|apply Far; cbn; lia]]).
  all: try (apply rel_lift; intros h _; destruct Hn as [<-|Hn];
    [destruct (Nat.eqb (tk_n t1) 0); [apply ove_rel|apply rel_refl]
    |destruct (Nat.eqb (tk_n t1) 0); [apply ove_far; cbn; lia|apply Far; cbn; lia]]).
  - (* EPtrRecur *) destruct (fr stk _); [|exact I]. apply rel_lift; intros c _. apply rel_lift; intros old _.
    apply rel_lift. intros [a h] _. destruct Hn as [<-|Hn];
    [destruct (Nat.eqb (tk_n t1) 0); [apply roe_rel|apply rel_refl]
    |destruct (Nat.eqb (tk_n t1) 0); [apply roe_far; cbn; lia|apply Far; cbn; lia]].
  - (* EMapSS *)
    destruct (Hobj k t1 E1 Ty) as (l & Hl). rewrite <- Hx in Hl.
    assert (Closed : tk_n t1 = tk_n t2 -> tk_end t1 = tk_end t2 -> tk_end t1 < n ->
      rel (if tk_n t1 =? 0
        then lift (store (hp x) (dst (dy x) (si x)) (wb (c_w64 C)) (CMSS [])) (fun h => on_val_end stk toks1 (St (si x) (ti x + 2) (dy x) h))
        else lift (mss_loop C s1 (firstn (tk_end t1 - S (ti x)) (skipn (S (ti x)) toks1)) []) (fun r => match r with
          | inr (i, e) => Fail i e x
          | inl m => lift (store (hp x) (dst (dy x) (si x)) (wb (c_w64 C)) (CMSS m)) (fun h => on_val_end stk toks1 (St (si x) (S (tk_end t1)) (dy x) h)) end))
       (if tk_n t2 =? 0
        then lift (store (hp x) (dst (dy x) (si x)) (wb (c_w64 C)) (CMSS [])) (fun h => on_val_end stk toks2 (St (si x) (ti x + 2) (dy x) h))
        else lift (mss_loop C s2 (firstn (tk_end t2 - S (ti x)) (skipn (S (ti x)) toks2)) []) (fun r => match r with
          | inr (i, e) => Fail i e x
          | inl m => lift (store (hp x) (dst (dy x) (si x)) (wb (c_w64 C)) (CMSS m)) (fun h => on_val_end stk toks2 (St (si x) (S (tk_end t2)) (dy x) h)) end))).
    { intros Q1 Q2 Q3. rewrite <- Q1, <- Q2. destruct (Nat.eqb (tk_n t1) 0); [apply rel_lift; intros h _; apply ove_rel|].
      rewrite (mss_all_same (tk_end t1) ltac:(lia) l _ [] Hl). apply rel_lift. intros [m'|[i e]] _; [|apply rel_refl].
      apply rel_lift. intros h _. apply ove_rel. }
    destruct Op as [(Q1 & Q2 & Q3)|(F1 & F2 & _ & _)]; [apply Closed; assumption|]. clear Closed.
    destruct (Nat.eqb (tk_n t1) 0) eqn:Z1.
    + destruct Hn as [<-|Hn]; [apply rel_lift; intros h _; apply ove_rel|apply rel_far; intros h _; apply ove_far; cbn; lia].
    + destruct (mss_loop C s1 _ []) as [[m'|[i e]]| |] eqn:Q; cbn [lift]; try exact I.
      * apply rel_far. intros h _. apply ove_far. cbn. lia.
      * cbn [rel]. intros ->. destruct Hn as [<-|Hn].
        -- rewrite (mss_err_same (tk_end t1) (tk_end t2) ltac:(lia) l _ [] e Hl Q). reflexivity.
        -- exfalso. apply mss_err_in in Q as (t & I & E). apply tl_skipn_firstn in I as (q & Lq & Q).
           pose proof (Hge q t Q ltac:(lia)). lia.
  - (* EEmptyStruct *) destruct Op as [(_ & <- & _)|(F1 & _)]; [apply ove_rel|apply ove_far; cbn; lia].
Qed.

Lemma key_rel f k t1 t2 x : k < n -> ti x = k -> nth_error toks1 k = Some t1 -> nth_error toks2 k = Some t2 -> alike k t1 t2 -> tk_ty t1 = KKey ->
  rel (key_tok C O stk s1 toks1 f t1 x) (key_tok C O stk s2 toks2 f t2 x).
Proof.
  intros L Hx E1 E2 A Ty. destruct (leaf_same _ _ _ A) as (_ & Bk); [unfold opens; rewrite Ty; intros [|]; discriminate|unfold end_tok; rewrite Ty; reflexivity|].
  unfold key_tok. rewrite <- (alike_idx _ _ _ A), <- Bk.
  assert (SU : forall u1 u2, u1 = skip_unknown 0 (skipn (S (ti x)) toks1) -> u2 = skip_unknown 0 (skipn (S (ti x)) toks2) ->
    rel (match u1 with None => Panic | Some n => Next (goto_ti (S (ti x) + n) x) end)
        (match u2 with None => Panic | Some n => Next (goto_ti (S (ti x) + n) x) end)).
  { intros u1 u2 -> ->. destruct (skip_unknown 0 (skipn (S (ti x)) toks1)) as [c|] eqn:Q; [|exact I].
    intros Lt. rewrite (skip_unknown_at c (S (ti x)) 0 Lt Q). reflexivity. }
  destruct (f_ty f); try apply rel_refl.
  all: apply rel_lift; intros kb _; apply rel_lift; intros key _;
    destruct (lookup_field _ _ _ _); [apply rel_refl|]; destruct (o_unknown O); [apply rel_refl|]; apply SU; reflexivity.
Qed.

Lemma step_rel x : ti x < n -> rel (step C O stk s1 toks1 x) (step C O stk s2 toks2 x).
Proof.
  intros L. destruct (Hget (ti x) L) as (t1 & t2 & E1 & E2 & A). unfold step. rewrite E1, E2.
  destruct (fr stk (si x)) as [f|]; [|exact I]. rewrite <- (alike_ty _ _ _ A).
  assert (Scal : ~ opens t1 -> end_tok t1 = false -> rel (match f_ty f, tk_ty t1 with
          | EJSON, _ => on_json C stk s1 toks1 f t1 x
          | EPtr, KNull => lift (null_tok C EPtr (dst (dy x) (si x)) (hp x)) (fun h =>
                             on_val_end stk toks1 (St (si x) (S (ti x)) (dy x) h))
          | EPtr, _ => on_ptr C stk x
          | _, _ =>
              lift (scalar_tok C s1 f t1 (dst (dy x) (si x)) (hp x)) (fun '(h, r) =>
              match r with
              | Some e => Fail (tk_idx t1) e (with_hp h x)
              | None => on_val_end stk toks1 (St (si x) (S (ti x)) (dy x) h)
              end)
          end) (match f_ty f, tk_ty t1 with
          | EJSON, _ => on_json C stk s2 toks2 f t2 x
          | EPtr, KNull => lift (null_tok C EPtr (dst (dy x) (si x)) (hp x)) (fun h =>
                             on_val_end stk toks2 (St (si x) (S (ti x)) (dy x) h))
          | EPtr, _ => on_ptr C stk x
          | _, _ =>
              lift (scalar_tok C s2 f t2 (dst (dy x) (si x)) (hp x)) (fun '(h, r) =>
              match r with
              | Some e => Fail (tk_idx t2) e (with_hp h x)
              | None => on_val_end stk toks2 (St (si x) (S (ti x)) (dy x) h)
              end)
          end)).
  { intros No Ne. rewrite (scalar_same f _ t1 t2 _ _ A No Ne), <- (alike_idx _ _ _ A).
    assert (S0 : rel (lift (scalar_tok C s2 f t2 (dst (dy x) (si x)) (hp x)) (fun '(h, r) =>
              match r with
              | Some e => Fail (tk_idx t1) e (with_hp h x)
              | None => on_val_end stk toks1 (St (si x) (S (ti x)) (dy x) h)
              end)) (lift (scalar_tok C s2 f t2 (dst (dy x) (si x)) (hp x)) (fun '(h, r) =>
              match r with
              | Some e => Fail (tk_idx t1) e (with_hp h x)
              | None => on_val_end stk toks2 (St (si x) (S (ti x)) (dy x) h)
              end))).
    { apply rel_lift. intros [h [e|]] _; [apply rel_refl|apply ove_rel]. }
    destruct (f_ty f); try exact S0; [eapply on_json_rel; eauto|].
    destruct (tk_ty t1); try apply rel_refl. apply rel_lift. intros h _. apply ove_rel. }
  unfold opens, end_tok in Scal.
  destruct (tk_ty t1) eqn:Ty; try (apply Scal; [intros [|]; discriminate|reflexivity]).
  - eapply arr_rel; eauto.
  - unfold arr_end_tok. cbv zeta. destruct (f_ty f);
      try (cbn [si goto_ti]; destruct (si x); [exact I|apply ove_rel]).
    destruct (d_rs _); [apply ove_rel|]. destruct (fr stk _); [apply rel_refl|exact I].
  - eapply obj_rel; eauto.
  - unfold obj_end_tok. cbv zeta. destruct (f_ty f); try apply roe_rel; [|apply ove_rel].
    destruct (fr stk _); [|exact I]. destruct (d_rs _); [apply ove_rel|apply rel_refl].
  - eapply key_rel; eauto.
Qed.

(** An iteration that starts at token [ti x] fails at that token or a later one. *)
Ltac inv_fail :=
  repeat match goal with
  | H : Next _ = Fail _ _ _ |- _ => discriminate
  | H : Fail _ _ _ = Fail _ _ _ |- _ => injection H as ? ? ?; subst
  | H : lift _ _ = Fail _ _ _ |- _ => apply lift_fail in H as (? & ? & ?)
  | H : (let '(_, _) := ?p in _) = Fail _ _ _ |- _ => destruct p eqn:?
  | H : match ?d with _ => _ end = Fail _ _ _ |- _ => destruct d eqn:?; try discriminate
  end.
Lemma on_json_err1 f t x i e y : on_json C stk s1 toks1 f t x = Fail i e y -> i = tk_idx t.
Proof.
  intros H. unfold on_json in H. cbv zeta in H. apply lift_fail in H as ([raw ti'] & _ & H).
  inv_fail; try reflexivity. exfalso; eapply on_val_end_nofail; eauto.
Qed.
Lemma any_tok_err1 t x i e y : any_tok C stk s1 toks1 t x = Fail i e y -> i = tk_idx t.
Proof.
  intros H. unfold any_tok in H. inv_fail; try reflexivity. exfalso; eapply on_val_end_nofail; eauto.
Qed.
Lemma step_err_at x i e y : step C O stk s1 toks1 x = Fail i e y ->
  exists k t, ti x <= k /\ nth_error toks1 k = Some t /\ tk_idx t = i.
Proof.
  intros H. unfold step in H.
  destruct (nth_error toks1 (ti x)) as [t|] eqn:Et; [|discriminate].
  destruct (fr stk (si x)) as [f|] eqn:Ef; [|discriminate].
  assert (Here : i = tk_idx t -> exists k t, ti x <= k /\ nth_error toks1 k = Some t /\ tk_idx t = i) by (intros ->; eauto).
  assert (N1 := on_val_end_nofail stk toks1). assert (N2 := on_recur_nofail stk toks1). assert (N3 := on_ptr_nofail C stk).
  assert (J := on_json_err1 f t x). assert (A := any_tok_err1 t x).
  assert (Scal : match f_ty f, tk_ty t with
          | EJSON, _ => on_json C stk s1 toks1 f t x
          | EPtr, KNull => lift (null_tok C EPtr (dst (dy x) (si x)) (hp x)) (fun h =>
                             on_val_end stk toks1 (St (si x) (S (ti x)) (dy x) h))
          | EPtr, _ => on_ptr C stk x
          | _, _ =>
              lift (scalar_tok C s1 f t (dst (dy x) (si x)) (hp x)) (fun '(h, r) =>
              match r with
              | Some e => Fail (tk_idx t) e (with_hp h x)
              | None => on_val_end stk toks1 (St (si x) (S (ti x)) (dy x) h)
              end)
          end = Fail i e y -> i = tk_idx t).
  { clear H. intros H. destruct (f_ty f);
    try (apply lift_fail in H as ([h r] & _ & H); destruct r; [injection H as <- <- <-; reflexivity|exfalso; eapply N1; eauto]).
    - eapply J; eauto.
    - destruct (tk_ty t); try (exfalso; eapply N3; eauto; fail). inv_fail. exfalso; eapply N1; eauto. }
  destruct (tk_ty t) eqn:Ety; try (apply Here, Scal, H; fail).
  - unfold arr_tok in H. cbv zeta in H.
    destruct (f_ty f); try (exfalso; eapply N3; eauto; fail);
    try (apply Here, (A _ _ _ H); fail); try (apply Here, (J _ _ _ H); fail);
    try (injection H as <- <- <-; apply Here; reflexivity);
    try (inv_fail; exfalso; eapply N1; eauto; fail);
    (unfold fast_slice in H; cbv zeta in H;
     inv_fail; try (exfalso; eapply N1; eauto; fail); subst;
     match goal with Q : fast_loop _ _ _ _ _ _ _ _ = _ |- _ => apply fast_err_in in Q as (t' & I & E) end;
     apply in_firstn_skipn in I as (q & Lq & Q); exists q, t'; repeat split; try assumption; lia).
  - exfalso. unfold arr_end_tok in H. cbv zeta in H. inv_fail; eapply N1; eauto.
  - unfold obj_tok in H. cbv zeta in H.
    destruct (f_ty f); try (exfalso; eapply N3; eauto; fail);
    try (apply Here, (A _ _ _ H); fail); try (apply Here, (J _ _ _ H); fail);
    try (injection H as <- <- <-; apply Here; reflexivity);
    try (inv_fail; exfalso; (eapply N1; eauto; fail) || (eapply N2; eauto; fail));
    (inv_fail; try (exfalso; eapply N1; eauto; fail); subst;
     match goal with Q : mss_loop _ _ _ _ = _ |- _ => apply mss_err_in in Q as (t' & I & E) end;
     apply tl_skipn_firstn in I as (q & Lq & Q); exists q, t'; repeat split; try assumption; lia).
  - exfalso. unfold obj_end_tok in H. cbv zeta in H. inv_fail; try (eapply N1; eauto; fail); eapply N2; eauto.
  - unfold key_tok in H. cbv zeta in H. inv_fail; apply Here; reflexivity.
Qed.

(** ** The loop *)
Lemma run_far fuel : forall x i e y, n <= ti x -> run C O stk s1 toks1 fuel x = RFail i e y -> i <> i0.
Proof.
  induction fuel as [|fuel IH]; intros x i e y L H; cbn [run] in H; destruct (ti x <? length toks1) eqn:Lt; try discriminate.
  apply Nat.ltb_lt in Lt.
  destruct (step C O stk s1 toks1 x) as [x'| | |] eqn:E; try discriminate.
  - apply (IH x' i e y); [|exact H]. pose proof (step_progress C O stk s1 toks1 ends1 _ _ E Lt). lia.
  - injection H as <- <- <-. apply step_err_at in E as (k & t & Lk & Q & <-). pose proof (Hge k t Q ltac:(lia)). lia.
Qed.
Theorem run_same fuel : forall x e y, run C O stk s1 toks1 fuel x = RFail i0 e y -> run C O stk s2 toks2 fuel x = RFail i0 e y.
Proof.
  induction fuel as [|fuel IH]; intros x e y H.
  { cbn [run] in *. destruct (ti x <? length toks1); discriminate. }
  destruct (Nat.lt_ge_cases (ti x) n) as [L|L]; [|exfalso; eapply (run_far (S fuel)); eauto].
  cbn [run] in *. pose proof Hlen2. rewrite (proj2 (Nat.ltb_lt _ _)) in H by lia. rewrite (proj2 (Nat.ltb_lt _ _)) by lia.
  pose proof (step_rel x L) as R. destruct (step C O stk s1 toks1 x) as [x'|i e' x'| |]; try discriminate; cbn [rel] in R.
  - destruct (Nat.lt_ge_cases (ti x') n) as [L'|L']; [|exfalso; eapply (run_far fuel); eauto].
    rewrite (R L'). apply IH, H.
  - injection H as -> -> ->. rewrite (R eq_refl). reflexivity.
Qed.
End Two.

(** C68: an error depends only on what precedes it.  For every decoder (every destination
    type), options, decoder state, memory and pair of documents. *)
From Coq Require Import Sorting.Sorted.
From Verif Require Import Base NumSpec StrSpec Lookup Types AppendType Token FloatLit Heap Machine General Provenance Dt Dec Control Parse Unique Spec SpecProofs World Sim PropsInput PropsErrors Prefix.
Open Scope nat_scope.

(** ** Specification *)

(** What the first [m] bytes of a text tell about its document [v], together with the
    number of elements of its arrays: values that start later are blanked out, members
    that start later are dropped, and where a container ends is only known if it ends
    before byte [m]. *)
Fixpoint cut (m : nat) (v : jv) : jv :=
  let seen i (u : jv) := if i <? m then u else JNull m in
  match v with
  | JNull i | JBool i _ | JInt i _ | JNum i _ | JStr i _ => seen i v
  | JArr i j l => seen i (JArr i (Nat.min j m) (map (cut m) l))
  | JObj i j l => seen i (JObj i (Nat.min j m)
      ((fix go l := match l with
        | [] => []
        | x :: r => if fst (fst x) <? m then (fst x, cut m (snd x)) :: go r else go r
        end) l))
  end.
Fixpoint cutm (m : nat) (l : list ((nat * bytes) * jv)) : list ((nat * bytes) * jv) :=
  match l with
  | [] => []
  | x :: r => if fst (fst x) <? m then (fst x, cut m (snd x)) :: cutm m r else cutm m r
  end.

(** [s1] with document [v1] and [s2] with document [v2] begin alike, up to byte [m]. *)
Definition begin_alike (m : nat) (s1 : bytes) (v1 : jv) (s2 : bytes) (v2 : jv) : Prop :=
  firstn m s1 = firstn m s2 /\ cut m v1 = cut m v2.

(** ** Proof *)
Lemma cut_arr m i j l : cut m (JArr i j l) = if i <? m then JArr i (Nat.min j m) (map (cut m) l) else JNull m.
Proof. reflexivity. Qed.
Lemma cut_obj m i j l : cut m (JObj i j l) = if i <? m then JObj i (Nat.min j m) (cutm m l) else JNull m.
Proof.
  cbn [cut]. destruct (i <? m); [|reflexivity]. f_equal. induction l as [|x r IH]; cbn [cutm]; [reflexivity|].
  rewrite IH. reflexivity.
Qed.

Definition asc (ts : list token) : Prop := StronglySorted (fun a b => tk_idx a < tk_idx b) ts.
Definition within (i j : nat) (ts : list token) : Prop := Forall (fun t => i <= tk_idx t < j) ts.
Lemma asc_app a b : asc (a ++ b) <-> asc a /\ asc b /\ (forall x y, In x a -> In y b -> tk_idx x < tk_idx y).
Proof.
  induction a as [|x a IH]; cbn.
  - split; [intros H; repeat split; [constructor|exact H|easy]|tauto].
  - split.
    + intros H. apply StronglySorted_inv in H as (H & F). apply IH in H as (Ha & Hb & Hc). rewrite Forall_app in F.
      repeat split; [constructor; tauto|exact Hb|]. intros y z [<-|Hy] Hz; [|auto]. destruct F as (_ & F). rewrite Forall_forall in F. auto.
    + intros (Ha & Hb & Hc). apply StronglySorted_inv in Ha as (Ha & F). constructor.
      * apply IH. repeat split; auto.
      * apply Forall_app. split; [exact F|]. apply Forall_forall. auto.
Qed.
Lemma asc_join i k j a b : asc a -> within i k a -> asc b -> within k j b -> asc (a ++ b).
Proof.
  intros A Wa B Wb. apply asc_app. repeat split; try assumption. intros x y Hx Hy. unfold within in *. rewrite Forall_forall in *.
  specialize (Wa _ Hx). specialize (Wb _ Hy). lia.
Qed.
Lemma asc_one t : asc [t]. Proof. repeat constructor. Qed.
Lemma within_wide i j i' j' ts : within i j ts -> i' <= i -> j <= j' -> within i' j' ts.
Proof. unfold within. intros H. intros. eapply Forall_impl; [|exact H]. cbn. lia. Qed.
Lemma within_app i j a b : within i j (a ++ b) <-> within i j a /\ within i j b.
Proof. apply Forall_app. Qed.

Lemma occurs_len s i r : occurs s i r -> i + length r <= length s.
Proof. unfold occurs, slice. destruct (_ && _) eqn:E; [lia|discriminate]. Qed.

Lemma value_sorted s :
  (forall i v j, value s i v j -> forall k, asc (flat k v) /\ within i j (flat k v)) /\
  (forall i l j, elements s i l j -> forall k, asc (flats k l) /\ within i j (flats k l)) /\
  (forall i l j, members s i l j -> forall k, asc (flatm k l) /\ within i j (flatm k l)) /\
  (forall i x j, member s i x j -> forall k, asc (flatm k [x]) /\ within i j (flatm k [x])).
Proof.
  pose proof (value_lexed s) as (PV & PE & PM & Pm).
  apply (json_mutind s
    (fun i v j _ => forall k, asc (flat k v) /\ within i j (flat k v))
    (fun i l j _ => forall k, asc (flats k l) /\ within i j (flats k l))
    (fun i l j _ => forall k, asc (flatm k l) /\ within i j (flatm k l))
    (fun i x j _ => forall k, asc (flatm k [x]) /\ within i j (flatm k [x]))); intros;
  repeat match goal with H : ws _ _ _ |- _ => apply ws_le in H end;
  repeat match goal with
  | H : value s ?i ?v ?j |- _ => lazymatch goal with _ : i < j |- _ => fail | _ => pose proof (proj2 (PV _ _ _ H)) end
  | H : elements s ?i ?v ?j |- _ => lazymatch goal with _ : i <= j |- _ => fail | _ => pose proof (proj2 (PE _ _ _ H)) end
  | H : members s ?i ?v ?j |- _ => lazymatch goal with _ : i <= j |- _ => fail | _ => pose proof (proj2 (PM _ _ _ H)) end
  | H : member s ?i ?v ?j |- _ => lazymatch goal with _ : i <= j |- _ => fail | _ => pose proof (proj2 (Pm _ _ _ H)) end
  end.
  - split; [apply asc_one|]. repeat constructor; cbn; lia.
  - split; [apply asc_one|]. repeat constructor; cbn; lia.
  - split; [apply asc_one|]. repeat constructor; cbn; lia.
  - assert (i < i + length r) by (apply (PV i (JInt i r)); constructor; assumption).
    split; [apply asc_one|]. repeat constructor; cbn; lia.
  - assert (i < i + length r) by (apply (PV i (JNum i r)); constructor; assumption).
    split; [apply asc_one|]. repeat constructor; cbn; lia.
  - split; [apply asc_one|]. repeat constructor; cbn; lia.
  - rewrite flat_arr. cbn. split; [|repeat constructor; cbn; lia]. repeat constructor; cbn; lia.
  - rewrite flat_arr. destruct (H (S k)) as (A & Wi). split.
    + change (?t :: ?a ++ ?b) with ([t] ++ (a ++ b)). apply (asc_join i (S i) (S j)); [apply asc_one|repeat constructor; cbn; lia| |].
      * apply (asc_join (S i) j (S j)); [exact A|exact Wi|apply asc_one|repeat constructor; cbn; lia].
      * apply within_app. split; [eapply within_wide; [exact Wi|lia|lia]|repeat constructor; cbn; lia].
    + constructor; [cbn; lia|]. apply within_app. split; [eapply within_wide; [exact Wi|lia|lia]|repeat constructor; cbn; lia].
  - rewrite flat_obj. cbn. split; [|repeat constructor; cbn; lia]. repeat constructor; cbn; lia.
  - rewrite flat_obj. destruct (H (S k)) as (A & Wi). split.
    + change (?t :: ?a ++ ?b) with ([t] ++ (a ++ b)). apply (asc_join i (S i) (S j)); [apply asc_one|repeat constructor; cbn; lia| |].
      * apply (asc_join (S i) j (S j)); [exact A|exact Wi|apply asc_one|repeat constructor; cbn; lia].
      * apply within_app. split; [eapply within_wide; [exact Wi|lia|lia]|repeat constructor; cbn; lia].
    + constructor; [cbn; lia|]. apply within_app. split; [eapply within_wide; [exact Wi|lia|lia]|repeat constructor; cbn; lia].
  - cbn [flats]. rewrite app_nil_r. destruct (H k0) as (A & Wi). split; [exact A|eapply within_wide; [exact Wi|lia|lia]].
  - cbn [flats]. destruct (H k0) as (A & Wi). destruct (H0 (k0 + ntok v)) as (A' & Wi'). split.
    + apply (asc_join k (S n) j); [exact A|eapply within_wide; [exact Wi|lia|lia]|exact A'|exact Wi'].
    + apply within_app. split; (eapply within_wide; [eassumption|lia|lia]).
  - auto.
  - destruct (H k) as (A & Wi). destruct (H0 (S k + ntok (snd x))) as (A' & Wi').
    cbn [flatm app] in *. rewrite app_nil_r in A, Wi.
    change (?t :: ?a ++ ?b) with ((t :: a) ++ b). split.
    + apply (asc_join i (S n) j); [exact A|eapply within_wide; [exact Wi|lia|lia]|exact A'|exact Wi'].
    + apply within_app. split; (eapply within_wide; [eassumption|lia|lia]).
  - cbn [flatm fst snd app]. rewrite app_nil_r. destruct (H (S k0)) as (A & Wi). split.
    + constructor; [exact A|]. unfold within in Wi. rewrite Forall_forall in *. intros t Ht. specialize (Wi t Ht). cbn. lia.
    + constructor; [cbn; lia|]. eapply within_wide; [exact Wi|lia|lia].
Qed.

(** A common beginning of two token streams that start at position [k]. *)
Section Split.
Variables (s1 s2 : bytes) (m : nat).

Definition common (k c : nat) (ts1 ts2 : list token) : Prop :=
  c <= length ts1 /\ c <= length ts2 /\
  (forall a t1, a < c -> nth_error ts1 a = Some t1 -> exists t2, nth_error ts2 a = Some t2 /\ alike s1 s2 (k + c) (k + a) t1 t2) /\
  (forall a t1, a < c -> nth_error ts1 a = Some t1 -> tk_idx t1 < m) /\
  (forall a t1, c <= a -> nth_error ts1 a = Some t1 -> m <= tk_idx t1).

Lemma slice_inner {A} (x y : list A) a b a' b' r : slice x a b = Some r -> slice y a b = Some r -> a <= a' -> b' <= b ->
  slice x a' b' = slice y a' b'.
Proof.
  unfold slice. destruct (Nat.leb a b && Nat.leb b (length x)) eqn:E1; [|discriminate].
  destruct (Nat.leb a b && Nat.leb b (length y)) eqn:E2; [|discriminate]. intros [= <-] [= H] La Lb.
  destruct (Nat.leb a' b') eqn:E3; [|reflexivity]. apply Nat.leb_le in E3.
  replace (Nat.leb b' (length x)) with true by (symmetry; apply Nat.leb_le; lia).
  replace (Nat.leb b' (length y)) with true by (symmetry; apply Nat.leb_le; lia). cbn [andb]. f_equal.
  assert (G : forall z : list A, firstn (b' - a') (skipn a' z) = firstn (b' - a') (skipn (a' - a) (firstn (b - a) (skipn a z)))).
  { intros z. rewrite skipn_firstn_comm, firstn_firstn, skipn_skipn. f_equal; [lia|]. f_equal. lia. }
  rewrite (G x), (G y), H. reflexivity.
Qed.
Lemma raw_same t r : slice s1 (tk_idx t) (tk_end t) = Some r -> slice s2 (tk_idx t) (tk_end t) = Some r ->
  raw_of s1 t = raw_of s2 t /\ body_of s1 t = body_of s2 t.
Proof.
  intros H1 H2. unfold raw_of, body_of, sub. rewrite H1, H2. split; [reflexivity|].
  rewrite (slice_inner s1 s2 _ _ (tk_idx t + 1) (tk_end t - 1) r H1 H2) by lia. reflexivity.
Qed.
Lemma raw_occ k i r e : occurs s1 i r -> occurs s2 i r -> e = i + length r ->
  raw_of s1 (Tok k i e 0) = raw_of s2 (Tok k i e 0) /\ body_of s1 (Tok k i e 0) = body_of s2 (Tok k i e 0).
Proof. intros H1 H2 ->. apply (raw_same _ r); assumption. Qed.

Definition whole (N : nat) (t : token) : Prop :=
  (opens t -> tk_end t < N) /\
  (~ opens t -> end_tok t = false -> raw_of s1 t = raw_of s2 t /\ body_of s1 t = body_of s2 t).
Lemma whole_alike N k t : whole N t -> alike s1 s2 N k t t.
Proof. intros (A & B). split; [reflexivity|]. split; [reflexivity|]. split; [|exact B]. intros Ho. left. auto. Qed.
Lemma whole_leaf N t : ~ opens t -> raw_of s1 t = raw_of s2 t /\ body_of s1 t = body_of s2 t -> whole N t.
Proof. intros H R. split; [tauto|auto]. Qed.
Lemma whole_end N t : end_tok t = true -> whole N t.
Proof. intros H. split; [|congruence]. unfold opens, end_tok in *. destruct (tk_ty t); try discriminate; intros [|]; discriminate. Qed.
Lemma key_len i (r : bytes) : i + length r + 2 = i + length (34%Z :: r ++ [34%Z]).
Proof. cbn. rewrite app_length. cbn. lia. Qed.

Lemma whole_flat v : lexed s1 v -> lexed s2 v -> forall k N, k + ntok v <= N -> Forall (whole N) (flat k v).
Proof.
  induction v using jv_ind'; intros L1 L2 k N B.
  - constructor; [|constructor]. apply whole_leaf; [intros [|]; discriminate|]. apply (raw_occ _ _ (bs "null")); [exact L1|exact L2|reflexivity].
  - constructor; [|constructor]. apply whole_leaf; [destruct b; intros [|]; discriminate|].
    apply (raw_occ _ _ (if b then bs "true" else bs "false")); [exact L1|exact L2|destruct b; reflexivity].
  - constructor; [|constructor]. apply whole_leaf; [intros [|]; discriminate|]. apply (raw_occ _ _ r); [apply L1|apply L2|reflexivity].
  - constructor; [|constructor]. apply whole_leaf; [intros [|]; discriminate|]. apply (raw_occ _ _ r); [apply L1|apply L2|reflexivity].
  - constructor; [|constructor]. apply whole_leaf; [intros [|]; discriminate|]. apply (raw_occ _ _ (34%Z :: r ++ [34%Z])); [apply L1|apply L2|apply key_len].
  - rewrite flat_arr. rewrite ntok_arr in B. apply lexed_arr in L1 as (_ & _ & _ & L1). apply lexed_arr in L2 as (_ & _ & _ & L2).
    constructor; [split; [cbn; lia|intros Q; exfalso; apply Q; left; reflexivity]|].
    apply Forall_app. split; [|constructor; [apply whole_end; reflexivity|constructor]].
    assert (B' : S k + ntoks l <= N) by lia. clear B. revert B'. generalize (S k).
    induction H as [|x l Hx Hl IH]; intros k' B; cbn [flats ntoks] in *; [constructor|].
    inversion L1; inversion L2; subst. apply Forall_app. split; [apply Hx; try assumption; lia|apply IH; try assumption; lia].
  - rewrite flat_obj. rewrite ntok_obj in B. apply lexed_obj in L1 as (_ & _ & _ & L1). apply lexed_obj in L2 as (_ & _ & _ & L2).
    constructor; [split; [cbn; lia|intros Q; exfalso; apply Q; right; reflexivity]|].
    apply Forall_app. split; [|constructor; [apply whole_end; reflexivity|constructor]].
    assert (B' : S k + ntokm l <= N) by lia. clear B. revert B'. generalize (S k).
    induction H as [|x l Hx Hl IH]; intros k' B; cbn [flatm ntokm] in *; [constructor|].
    inversion L1 as [|? ? [[K1 _] V1] T1]; inversion L2 as [|? ? [[K2 _] V2] T2]; subst. constructor.
    + apply whole_leaf; [intros [|]; discriminate|]. apply (raw_occ _ _ _ _ K1 K2). apply key_len.
    + apply Forall_app. split; [apply Hx; try assumption; lia|apply IH; try assumption; lia].
Qed.

(** How two values with the same [cut] compare. *)
Definition split3 (k : nat) (v1 v2 : jv) : Prop :=
  (Forall (fun t => m <= tk_idx t) (flat k v1)) \/
  (v1 = v2 /\ Forall (fun t => tk_idx t < m) (flat k v1)) \/
  (exists c, 0 < c < ntok v1 /\ c < ntok v2 /\ common k c (flat k v1) (flat k v2)).

Lemma common_zero k ts1 ts2 : Forall (fun t => m <= tk_idx t) ts1 -> common k 0 ts1 ts2.
Proof.
  intros F. rewrite Forall_forall in F. repeat split; try lia. intros a t _ Ha. apply F. eapply nth_error_In; eauto.
Qed.
Lemma common_whole k c p ts1 ts2 : Forall (whole (k + length p + c)) p -> Forall (fun t => tk_idx t < m) p -> common (k + length p) c ts1 ts2 ->
  common k (length p + c) (p ++ ts1) (p ++ ts2).
Proof.
  intros W Sm (L1 & L2 & A & B & G). repeat split; rewrite ?app_length; try lia.
  - intros a t1 La Ha. destruct (Nat.lt_ge_cases a (length p)) as [L|L].
    + rewrite nth_error_app1 in Ha by lia. exists t1. rewrite nth_error_app1 by lia. split; [exact Ha|].
      rewrite Nat.add_assoc. apply whole_alike. rewrite Forall_forall in W. apply W. eapply nth_error_In; eauto.
    + rewrite nth_error_app2 in Ha by lia. rewrite nth_error_app2 by lia.
      destruct (A (a - length p) t1 ltac:(lia) Ha) as (t2 & H2 & Al). exists t2. split; [exact H2|].
      rewrite Nat.add_assoc. replace (k + a) with (k + length p + (a - length p)) by lia. exact Al.
  - intros a t1 La Ha. destruct (Nat.lt_ge_cases a (length p)) as [L|L].
    + rewrite nth_error_app1 in Ha by lia. rewrite Forall_forall in Sm. apply Sm. eapply nth_error_In; eauto.
    + rewrite nth_error_app2 in Ha by lia. apply (B (a - length p)); [lia|exact Ha].
  - intros a t1 La Ha. rewrite nth_error_app2 in Ha by lia. apply (G (a - length p)); [lia|exact Ha].
Qed.
Lemma common_app k c p1 p2 q1 q2 : common k c p1 p2 -> Forall (fun t => m <= tk_idx t) q1 -> common k c (p1 ++ q1) (p2 ++ q2).
Proof.
  intros (L1 & L2 & A & B & G) F. repeat split; rewrite ?app_length; try lia.
  - intros a t1 La Ha. rewrite nth_error_app1 in Ha by lia. rewrite nth_error_app1 by lia. auto.
  - intros a t1 La Ha. rewrite nth_error_app1 in Ha by lia. eauto.
  - intros a t1 La Ha. destruct (Nat.lt_ge_cases a (length p1)) as [L|L].
    + rewrite nth_error_app1 in Ha by lia. eauto.
    + rewrite nth_error_app2 in Ha by lia. rewrite Forall_forall in F. apply F. eapply nth_error_In; eauto.
Qed.
(** If a token of [p] is beyond [m], so is everything after [p]. *)
Lemma later p q t : asc (p ++ q) -> In t p -> m <= tk_idx t -> Forall (fun t => m <= tk_idx t) q.
Proof. intros H Ht Hm. apply asc_app in H as (_ & _ & H). apply Forall_forall. intros y Hy. specialize (H _ _ Ht Hy). lia. Qed.
Lemma later_common k c p1 p2 q : asc (p1 ++ q) -> common k c p1 p2 -> c < length p1 -> Forall (fun t => m <= tk_idx t) q.
Proof.
  intros H (_ & _ & _ & _ & G) L. destruct (nth_some c p1 L) as (t & Ht). apply (later p1 q t H); [eapply nth_error_In; eauto|eauto].
Qed.
Lemma first_later t q : asc (t :: q) -> m <= tk_idx t -> Forall (fun t => m <= tk_idx t) (t :: q).
Proof. intros H Hm. constructor; [exact Hm|]. apply (later [t] q t); [exact H|left; reflexivity|exact Hm]. Qed.
Lemma common_cons k c t1 t2 ts1 ts2 : alike s1 s2 (k + S c) k t1 t2 -> tk_idx t1 < m -> common (S k) c ts1 ts2 -> common k (S c) (t1 :: ts1) (t2 :: ts2).
Proof.
  intros A0 I0 (L1 & L2 & A & B & G). cbn [common length]. split; [cbn; lia|]. split; [cbn; lia|]. split; [|split].
  - intros [|a] t La Ha; cbn [nth_error] in *.
    + injection Ha as <-. exists t2. rewrite Nat.add_0_r. auto.
    + destruct (A a t ltac:(lia) Ha) as (u & Hu & Au). exists u. split; [exact Hu|].
      replace (k + S c) with (S k + c) by lia. replace (k + S a) with (S k + a) by lia. exact Au.
  - intros [|a] t La Ha; cbn in Ha; [injection Ha as <-; exact I0|]. apply (B a); [lia|exact Ha].
  - intros [|a] t La Ha; [lia|]. cbn in Ha. apply (G a); [lia|exact Ha].
Qed.
Lemma asc_last p e : asc (p ++ [e]) -> tk_idx e < m -> Forall (fun t => tk_idx t < m) (p ++ [e]).
Proof.
  intros A L. apply Forall_app. split; [|constructor; [exact L|constructor]]. apply asc_app in A as (_ & _ & A).
  apply Forall_forall. intros x Hx. specialize (A x e Hx (or_introl eq_refl)). lia.
Qed.

Definition splits (v1 : jv) : Prop := forall v2 k, lexed s1 v1 -> lexed s2 v2 -> asc (flat k v1) -> asc (flat k v2) ->
  cut m v1 = cut m v2 -> split3 k v1 v2.

Lemma flat_later k v q : asc (flat k v ++ q) -> Forall (fun t => m <= tk_idx t) (flat k v) -> Forall (fun t => m <= tk_idx t) (flat k v ++ q).
Proof.
  intros H F. apply Forall_app. split; [exact F|]. destruct (flat k v) as [|t r] eqn:E.
  { apply (f_equal (@length token)) in E. rewrite flat_length in E. pose proof (ntok_pos v). cbn in E. lia. }
  apply (later (t :: r) q t H); [left; reflexivity|]. inversion F; assumption.
Qed.

Lemma split_list l : Forall splits l -> forall l2 k e1 e2, Forall (lexed s1) l -> Forall (lexed s2) l2 ->
  asc (flats k l ++ [e1]) -> asc (flats k l2 ++ [e2]) -> map (cut m) l = map (cut m) l2 ->
  Nat.min (tk_idx e1) m = Nat.min (tk_idx e2) m ->
  (l = l2 /\ tk_idx e1 = tk_idx e2 /\ tk_idx e1 < m) \/
  (exists c, c <= ntoks l /\ c <= ntoks l2 /\ common k c (flats k l ++ [e1]) (flats k l2 ++ [e2])).
Proof.
  induction 1 as [|x l Hx Hl IH]; intros [|y l2] k e1 e2 L1 L2 A1 A2 Hc He; try discriminate.
  - destruct (Nat.lt_ge_cases (tk_idx e1) m); [left; split; [reflexivity|lia]|].
    right. exists 0. cbn. repeat split; try lia. intros [|[|a]] t _ Ht; cbn in Ht; try discriminate. injection Ht as <-. assumption.
  - cbn [map] in Hc. injection Hc as Hc Hcl. inversion L1 as [|? ? Lx Ll]; inversion L2 as [|? ? Ly Ll2]; subst.
    cbn [flats ntoks] in *. rewrite <- !app_assoc in *.
    pose proof (proj1 (proj1 (asc_app _ _) A1)) as Ax. pose proof (proj1 (proj1 (asc_app _ _) A2)) as Ay.
    pose proof (proj1 (proj2 (proj1 (asc_app _ _) A1))) as Ar. pose proof (proj1 (proj2 (proj1 (asc_app _ _) A2))) as Ar2.
    destruct (Hx y k Lx Ly Ax Ay Hc) as [F|[(<- & Sm)|(c & Bc & Bc2 & Cm)]].
    + right. exists 0. split; [lia|]. split; [lia|]. apply common_zero. apply flat_later; assumption.
    + destruct (IH l2 (k + ntok x) e1 e2 Ll Ll2 Ar Ar2 Hcl He) as [(<- & E)|(c & B1 & B2 & Cm)]; [left; auto|].
      right. exists (ntok x + c). split; [lia|]. split; [lia|]. rewrite <- (flat_length x k).
      apply common_whole; rewrite ?flat_length; [|exact Sm|exact Cm]. apply whole_flat; try assumption. lia.
    + right. exists c. split; [lia|]. split; [lia|]. apply common_app; [exact Cm|]. eapply later_common; [exact A1|exact Cm|rewrite flat_length; lia].
Qed.

Lemma cutm_later l : forall k, Forall (fun t => m <= tk_idx t) (flatm k l) -> cutm m l = [].
Proof.
  induction l as [|x l IH]; intros k F; [reflexivity|]. cbn [flatm cutm] in *. inversion F as [|? ? F0 F1]; subst. cbn in F0.
  apply Forall_app in F1 as (_ & F1). destruct (Nat.ltb_spec (fst (fst x)) m); [lia|]. eauto.
Qed.
Lemma split_members l : Forall (fun x => splits (snd x)) l -> forall l2 k e1 e2,
  Forall (fun x => key_lexed s1 x /\ lexed s1 (snd x)) l -> Forall (fun x => key_lexed s2 x /\ lexed s2 (snd x)) l2 ->
  asc (flatm k l ++ [e1]) -> asc (flatm k l2 ++ [e2]) -> cutm m l = cutm m l2 ->
  Nat.min (tk_idx e1) m = Nat.min (tk_idx e2) m ->
  (l = l2 /\ tk_idx e1 = tk_idx e2 /\ tk_idx e1 < m) \/
  (exists c, c <= ntokm l /\ c <= ntokm l2 /\ common k c (flatm k l ++ [e1]) (flatm k l2 ++ [e2])).
Proof.
  assert (Z : forall l2 k, asc (flatm k l2) -> (exists x r, l2 = x :: r /\ m <= fst (fst x)) -> cutm m l2 = []).
  { intros l2 k A (x & r & -> & Hm). apply (cutm_later _ k). cbn [flatm] in *. apply first_later; [exact A|exact Hm]. }
  induction 1 as [|x l Hx Hl IH]; intros l2 k e1 e2 L1 L2 A1 A2 Hc He.
  - destruct (Nat.lt_ge_cases (tk_idx e1) m) as [Lt|Ge].
    + left. destruct l2 as [|y l2]; [split; [reflexivity|lia]|]. exfalso.
      cbn [cutm] in Hc. destruct (Nat.ltb_spec (fst (fst y)) m); [discriminate|].
      cbn [flatm] in A2. apply asc_app in A2 as (_ & _ & A2).
      specialize (A2 _ e2 (or_introl eq_refl) (or_introl eq_refl)). cbn in A2. lia.
    + right. exists 0. cbn. repeat split; try lia. intros [|[|a]] t _ Ht; cbn in Ht; try discriminate. injection Ht as <-. assumption.
  - pose proof (proj1 (proj1 (asc_app _ _) A1)) as A1'. pose proof (proj1 (proj1 (asc_app _ _) A2)) as A2'.
    destruct (Nat.ltb_spec (fst (fst x)) m) as [Lx|Gx].
    2: { right. exists 0. split; [lia|]. split; [lia|]. apply common_zero. cbn [flatm app] in *. apply first_later; [exact A1|exact Gx]. }
    destruct l2 as [|y l2]; [cbn [cutm] in Hc; rewrite (proj2 (Nat.ltb_lt _ _) Lx) in Hc; discriminate|].
    destruct (Nat.ltb_spec (fst (fst y)) m) as [Ly|Gy].
    2: { rewrite (Z (y :: l2) k A2') in Hc by eauto. cbn [cutm] in Hc. rewrite (proj2 (Nat.ltb_lt _ _) Lx) in Hc. discriminate. }
    cbn [cutm] in Hc. rewrite (proj2 (Nat.ltb_lt _ _) Lx), (proj2 (Nat.ltb_lt _ _) Ly) in Hc.
    injection Hc as Hk Hv Hc. destruct x as [kx x], y as [ky y]. cbn [fst snd] in *. subst ky.
    inversion L1 as [|? ? [[K1 _] V1] T1]; inversion L2 as [|? ? [[K2 _] V2] T2]; subst. cbn [fst snd] in *.
    cbn [flatm ntokm fst snd app] in *. rewrite <- !app_assoc in *.
    apply StronglySorted_inv in A1 as (A1 & _). apply StronglySorted_inv in A2 as (A2 & _).
    pose proof (proj1 (proj1 (asc_app _ _) A1)) as Ax. pose proof (proj1 (proj1 (asc_app _ _) A2)) as Ay.
    pose proof (proj1 (proj2 (proj1 (asc_app _ _) A1))) as Ar. pose proof (proj1 (proj2 (proj1 (asc_app _ _) A2))) as Ar2.
    assert (Key : forall N q, alike s1 s2 N q (Tok KKey (fst kx) (fst kx + length (snd kx) + 2) 0) (Tok KKey (fst kx) (fst kx + length (snd kx) + 2) 0)).
    { intros N q. apply whole_alike, whole_leaf; [intros [|]; discriminate|]. apply (raw_occ _ _ _ _ K1 K2). apply key_len. }
    destruct (Hx y (S k) V1 V2 Ax Ay Hv) as [F|[(<- & Sm)|(c & Bc & Bc2 & Cm)]].
    + right. exists 1. split; [lia|]. split; [lia|]. apply common_cons; [apply Key|exact Lx|]. apply common_zero. apply flat_later; assumption.
    + destruct (IH l2 (S k + ntok x) e1 e2 T1 T2 Ar Ar2 Hc He) as [(<- & E)|(c & B1 & B2 & Cm)]; [left; auto|].
      right. exists (S (ntok x + c)). split; [lia|]. split; [lia|]. apply common_cons; [apply Key|exact Lx|]. rewrite <- (flat_length x (S k)).
      apply common_whole; rewrite ?flat_length; [|exact Sm|exact Cm]. apply whole_flat; try assumption. lia.
    + right. exists (S c). split; [lia|]. split; [lia|]. apply common_cons; [apply Key|exact Lx|].
      apply common_app; [exact Cm|]. eapply later_common; [exact A1|exact Cm|rewrite flat_length; lia].
Qed.

Lemma split_leaf v : ntok v = 1 -> (forall i j l, v <> JArr i j l) -> (forall i j l, v <> JObj i j l) -> splits v.
Proof.
  intros _ NA NO v2 k _ _ _ _ Hc.
  assert (S : forall i, cut m v = (if i <? m then v else JNull m) -> (Forall (fun t => m <= tk_idx t) (flat k v) <-> m <= i) -> split3 k v v2).
  { intros i E Fl. rewrite E in Hc. destruct (Nat.ltb_spec i m) as [L|L]; [|left; apply Fl; exact L].
    right. left. split; [|assert (Nl : ~ m <= i) by lia; clear - Nl Fl NA NO; destruct v; try (exfalso; first [eapply NA; reflexivity|eapply NO; reflexivity]); cbn [flat] in *; rewrite Forall_cons_iff in Fl; cbn [tk_idx] in Fl; (constructor; [cbn [tk_idx]; destruct (Nat.lt_ge_cases i0 m); [assumption|exfalso; apply Nl, Fl; split; [assumption|constructor]]|constructor])]. destruct v2; rewrite ?cut_arr, ?cut_obj in Hc; cbn [cut] in Hc;
      match type of Hc with _ = (if ?b then _ else _) => destruct b end; try assumption;
      try (subst v; exfalso; first [eapply NA; reflexivity|eapply NO; reflexivity]);
      (subst v; cbn [cut flat] in *; destruct (Nat.ltb_spec m m); [lia|];
       exfalso; apply (Nat.lt_irrefl m), (Nat.le_lt_trans _ i); [|exact L]; apply (proj1 Fl), Forall_cons; [apply le_n|apply Forall_nil]). }
  destruct v as [i|i b|i r|i r|i r|i j l|i j l]; try (exfalso; first [eapply NA; reflexivity|eapply NO; reflexivity]);
    (apply (S i); [reflexivity|]; cbn [flat]; rewrite Forall_cons_iff; cbn [tk_idx]; intuition constructor).
Qed.

Lemma split_value v : splits v.
Proof.
  induction v using jv_ind'; try (apply split_leaf; [reflexivity|discriminate|discriminate]).
  - intros v2 k L1 L2 A1 A2 Hc. destruct (Nat.ltb_spec i m) as [Li|Gi].
    2: { left. rewrite flat_arr in *. apply first_later; [exact A1|exact Gi]. }
    rewrite cut_arr, (proj2 (Nat.ltb_lt _ _) Li) in Hc.
    destruct v2 as [i'|i' b|i' r|i' r|i' r|i' j' l'|i' j' l']; rewrite ?cut_obj in Hc; cbn [cut] in Hc; destruct (i' <? m) eqn:Li'; try discriminate.
    injection Hc as <- Hj Hl. rewrite flat_arr in *. apply lexed_arr in L1 as (_ & _ & _ & L1). apply lexed_arr in L2 as (_ & _ & _ & L2).
    pose proof A1 as A0. apply StronglySorted_inv in A1 as (A1 & _). apply StronglySorted_inv in A2 as (A2 & _).
    destruct (split_list l H l' (S k) _ _ L1 L2 A1 A2 Hl Hj) as [(<- & E)|(c & B1 & B2 & Cm)].
    + right. left. cbn in E. destruct E as (E & El). split; [congruence|]. rewrite flat_arr. apply (asc_last (_ :: _) _ A0). exact El.
    + right. right. exists (S c). rewrite !ntok_arr. split; [lia|]. split; [lia|]. rewrite !flat_arr. apply common_cons; [|exact Li|exact Cm].
      split; [reflexivity|]. split; [reflexivity|]. split; [|intros Q; exfalso; apply Q; left; reflexivity].
      intros _. right. cbn [tk_end tk_ty tk_n]. split; [lia|]. split; [lia|]. split; [|discriminate].
      intros _. rewrite <- (map_length (cut m) l), Hl, map_length. reflexivity.
  - intros v2 k L1 L2 A1 A2 Hc. destruct (Nat.ltb_spec i m) as [Li|Gi].
    2: { left. rewrite flat_obj in *. apply first_later; [exact A1|exact Gi]. }
    rewrite cut_obj, (proj2 (Nat.ltb_lt _ _) Li) in Hc.
    destruct v2 as [i'|i' b|i' r|i' r|i' r|i' j' l'|i' j' l']; rewrite ?cut_obj in Hc; cbn [cut] in Hc; destruct (i' <? m) eqn:Li'; try discriminate.
    injection Hc as <- Hj Hl. rewrite flat_obj in *. apply lexed_obj in L1 as (_ & _ & _ & L1). apply lexed_obj in L2 as (_ & _ & _ & L2).
    pose proof A1 as A0. apply StronglySorted_inv in A1 as (A1 & _). apply StronglySorted_inv in A2 as (A2 & _).
    destruct (split_members l H l' (S k) _ _ L1 L2 A1 A2 Hl Hj) as [(<- & E)|(c & B1 & B2 & Cm)].
    + right. left. cbn in E. destruct E as (E & El). split; [congruence|]. rewrite flat_obj. apply (asc_last (_ :: _) _ A0). exact El.
    + right. right. exists (S c). rewrite !ntok_obj. split; [lia|]. split; [lia|]. rewrite !flat_obj. apply common_cons; [|exact Li|exact Cm].
      split; [reflexivity|]. split; [reflexivity|]. split; [|intros Q; exfalso; apply Q; right; reflexivity].
      intros _. right. cbn [tk_end tk_ty tk_n]. split; [lia|]. split; [lia|]. split; [discriminate|].
      intros _ Lc. destruct l; [cbn in B1; lia|]. destruct l'; [cbn in B2; lia|]. cbn. lia.
Qed.
End Split.

(** ** A container of a text is determined by where it starts *)
Lemma arr_unique s i j l j2 l2 : value s i (JArr i j l) (S j) -> value s i (JArr i j2 l2) (S j2) -> j = j2 /\ l = l2.
Proof.
  intros V1 V2.
  assert (S0 : forall k, occurs s k [93%Z] -> solid (skipn k s)) by (intros k Ok; rewrite (occurs1 _ _ _ Ok); reflexivity).
  assert (Mix : forall k l' k', ws s (S i) k -> occurs s k [93%Z] -> elements s (S i) l' k' -> False).
  { intros k l' k' W Ok E. apply (proj1 (proj2 (parse_complete_aux s))) in E as (_ & q & Wq & Hq).
    pose proof (skip_ws_to s (S i) k W (S0 k Ok)) as E1. pose proof (skip_ws_to s (S i) q Wq (heads_solid _ Hq)) as E2.
    rewrite E1 in E2. injection E2 as Q _. subst q. rewrite (occurs1 _ _ _ Ok) in Hq. destruct Hq as (_ & Hq & _). congruence. }
  inversion V1; inversion V2; subst.
  - match goal with W1 : ws s _ j, W2 : ws s _ j2 |- _ =>
      pose proof (skip_ws_to s (S i) j W1 (S0 j ltac:(assumption))) as E1;
      pose proof (skip_ws_to s (S i) j2 W2 (S0 j2 ltac:(assumption))) as E2 end.
    rewrite E1 in E2. injection E2 as Q _. auto.
  - exfalso; eauto.
  - exfalso; eauto.
  - match goal with E1 : elements s _ l j, E2 : elements s _ l2 j2 |- _ =>
      destruct (proj1 (proj2 (parse_complete_aux s)) _ _ _ E1) as (P1 & _);
      destruct (proj1 (proj2 (parse_complete_aux s)) _ _ _ E2) as (P2 & _) end.
    specialize (P1 ltac:(assumption) (2 * (j - S i) + 1 + (2 * (j2 - S i) + 1)) ltac:(lia)).
    specialize (P2 ltac:(assumption) (2 * (j - S i) + 1 + (2 * (j2 - S i) + 1)) ltac:(lia)).
    rewrite P1 in P2. injection P2 as Q1 Q2 _. auto.
Qed.
Lemma obj_unique s i j l j2 l2 : value s i (JObj i j l) (S j) -> value s i (JObj i j2 l2) (S j2) -> j = j2 /\ l = l2.
Proof.
  intros V1 V2.
  assert (S0 : forall k c, occurs s k [c] -> is_wsb c = false -> solid (skipn k s)) by (intros k c Ok Hc; rewrite (occurs1 _ _ _ Ok); exact Hc).
  assert (Mix : forall k l' k', ws s (S i) k -> occurs s k [125%Z] -> members s (S i) l' k' -> False).
  { intros k l' k' W Ok E. apply (proj1 (proj2 (proj2 (parse_complete_aux s)))) in E as (_ & q & Wq & Hq).
    pose proof (skip_ws_to s (S i) k W (S0 k _ Ok eq_refl)) as E1. pose proof (skip_ws_to s (S i) q Wq (S0 q _ Hq eq_refl)) as E2.
    rewrite E1 in E2. injection E2 as Q _. subst q. apply occurs1 in Ok, Hq. congruence. }
  inversion V1; inversion V2; subst.
  - match goal with W1 : ws s _ j, W2 : ws s _ j2 |- _ =>
      pose proof (skip_ws_to s (S i) j W1 (S0 j 125%Z ltac:(assumption) eq_refl)) as E1;
      pose proof (skip_ws_to s (S i) j2 W2 (S0 j2 125%Z ltac:(assumption) eq_refl)) as E2 end.
    rewrite E1 in E2. injection E2 as Q _. auto.
  - exfalso; eauto.
  - exfalso; eauto.
  - match goal with E1 : members s _ l j, E2 : members s _ l2 j2 |- _ =>
      destruct (proj1 (proj2 (proj2 (parse_complete_aux s))) _ _ _ E1) as (P1 & _);
      destruct (proj1 (proj2 (proj2 (parse_complete_aux s))) _ _ _ E2) as (P2 & _) end.
    specialize (P1 ltac:(assumption) (2 * (j - S i) + 1 + (2 * (j2 - S i) + 1)) ltac:(lia)).
    specialize (P2 ltac:(assumption) (2 * (j - S i) + 1 + (2 * (j2 - S i) + 1)) ltac:(lia)).
    rewrite P1 in P2. injection P2 as Q1 Q2 _. auto.
Qed.

(** ** Values in the common part of two texts *)
Lemma slice_pre (s1 s2 : bytes) m a b r : firstn m s1 = firstn m s2 -> b <= m -> slice s1 a b = Some r -> slice s2 a b = Some r.
Proof.
  intros F L. unfold slice. destruct (Nat.leb a b && Nat.leb b (length s1)) eqn:E; [|discriminate]. intros [= <-].
  assert (Ln : b <= length s2).
  { apply (f_equal (@length Z)) in F. rewrite !firstn_length in F. lia. }
  replace (Nat.leb a b && Nat.leb b (length s2)) with true by lia. f_equal.
  assert (G : forall z : bytes, firstn (b - a) (skipn a z) = firstn (b - a) (skipn a (firstn m z))).
  { intros z. rewrite skipn_firstn_comm, firstn_firstn. f_equal. lia. }
  rewrite (G s1), (G s2), F. reflexivity.
Qed.
Lemma sub_pre (s1 s2 : bytes) m a b : firstn m s1 = firstn m s2 -> b <= m -> sub s1 a b = sub s2 a b.
Proof.
  intros F L. unfold sub. destruct (slice s1 a b) as [r|] eqn:E.
  - rewrite (slice_pre _ _ _ _ _ _ F L E). reflexivity.
  - destruct (slice s2 a b) as [r|] eqn:E2; [|reflexivity]. rewrite (slice_pre s2 s1 m a b r (eq_sym F) L E2) in E. discriminate.
Qed.
Lemma occurs_pre s1 s2 m i r : firstn m s1 = firstn m s2 -> i + length r <= m -> occurs s1 i r -> occurs s2 i r.
Proof. intros F L. unfold occurs. apply (slice_pre s1 s2 m); assumption. Qed.
Lemma ws_pre s1 s2 m i j : firstn m s1 = firstn m s2 -> j <= m -> ws s1 i j -> ws s2 i j.
Proof. intros F L (w & Ow & -> & Hw). exists w. repeat split; try assumption. eapply occurs_pre; eauto. Qed.
Lemma value_pre s1 s2 m : firstn m s1 = firstn m s2 ->
  (forall i v j, value s1 i v j -> j <= m -> value s2 i v j) /\
  (forall i l j, elements s1 i l j -> j <= m -> elements s2 i l j) /\
  (forall i l j, members s1 i l j -> j <= m -> members s2 i l j) /\
  (forall i x j, member s1 i x j -> j <= m -> member s2 i x j).
Proof.
  intros F. pose proof (value_lexed s1) as (PV & PE & PM & Pm).
  assert (Oc : forall i r, occurs s1 i r -> i + length r <= m -> occurs s2 i r) by (intros; eapply occurs_pre; eauto).
  assert (Wc : forall i j, ws s1 i j -> j <= m -> ws s2 i j) by (intros; eapply ws_pre; eauto).
  assert (O1 : forall i c, occurs s1 i [c] -> i < m -> occurs s2 i [c]) by (intros i c H L; apply Oc; [exact H|cbn; lia]).
  apply (json_mutind s1
    (fun i v j _ => j <= m -> value s2 i v j) (fun i l j _ => j <= m -> elements s2 i l j)
    (fun i l j _ => j <= m -> members s2 i l j) (fun i x j _ => j <= m -> member s2 i x j)); intros;
  repeat match goal with H : ws _ ?i ?j |- _ => lazymatch goal with _ : i <= j |- _ => fail | _ => pose proof (ws_le _ _ _ H) end end;
  repeat match goal with
  | H : value s1 ?i ?v ?j |- _ => lazymatch goal with _ : i < j |- _ => fail | _ => pose proof (proj2 (PV _ _ _ H)) end
  | H : elements s1 ?i ?v ?j |- _ => lazymatch goal with _ : i <= j |- _ => fail | _ => pose proof (proj2 (PE _ _ _ H)) end
  | H : members s1 ?i ?v ?j |- _ => lazymatch goal with _ : i <= j |- _ => fail | _ => pose proof (proj2 (PM _ _ _ H)) end
  | H : member s1 ?i ?v ?j |- _ => lazymatch goal with _ : i <= j |- _ => fail | _ => pose proof (proj2 (Pm _ _ _ H)) end
  end.
  - apply v_null, Oc; [assumption|cbn; lia].
  - apply v_true, Oc; [assumption|cbn; lia].
  - apply v_false, Oc; [assumption|cbn; lia].
  - apply v_int; [apply Oc; [assumption|lia]|assumption].
  - apply v_num; [apply Oc; [assumption|lia]|assumption].
  - apply v_str; [apply Oc; [assumption|rewrite <- key_len; lia]|assumption].
  - apply v_arr0; [apply O1|apply Wc|apply O1]; try assumption; lia.
  - apply v_arr; [apply O1; [assumption|lia]| |apply O1; [assumption|lia]]. apply H; lia.
  - apply v_obj0; [apply O1|apply Wc|apply O1]; try assumption; lia.
  - apply v_obj; [apply O1; [assumption|lia]| |apply O1; [assumption|lia]]. apply H; lia.
  - eapply e_one; [apply Wc; [eassumption|lia]|apply H; lia|apply Wc; [assumption|lia]].
  - eapply e_cons; [apply Wc; [eassumption|lia]|apply H; lia|apply Wc; [eassumption|lia]|apply O1; [assumption|lia]|apply H0; lia].
  - apply m_one. apply H; lia.
  - eapply m_cons; [apply H; lia|apply O1; [assumption|lia]|apply H0; lia].
  - eapply m_mem; [apply Wc; [eassumption|lia]|apply Oc; [eassumption|rewrite <- key_len; lia]|assumption|
      apply Wc; [eassumption|lia]|apply O1; [eassumption|lia]|apply Wc; [eassumption|lia]|apply H; lia|apply Wc; [assumption|lia]].
Qed.

(** ** The theorem *)
Section Error.
Variables (C : cfg) (O : opts) (stk : list frame) (s1 s2 : bytes) (v1 v2 : jv) (m i0 : nat).
Hypotheses (J1 : json_text s1 v1) (J2 : json_text s2 v2) (F : firstn m s1 = firstn m s2) (Hc : cut m v1 = cut m v2) (Hi : i0 < m)
  (Hin : forall u j, In u (parts v1) -> value s1 i0 u j -> j <= m).
Let toks1 := flat 0 v1.
Let toks2 := flat 0 v2.

Lemma valued1 : valued s1 v1. Proof. destruct J1 as (i & j & _ & V & _). exists i, j. exact V. Qed.
Lemma valued2 : valued s2 v2. Proof. destruct J2 as (i & j & _ & V & _). exists i, j. exact V. Qed.

Lemma open_starts t : opens t -> starts t = true.
Proof. unfold opens, starts. intros [-> | ->]; reflexivity. Qed.
Lemma nth_past {A} k q : forall l : list A, nth_error l (k + q) = nth_error (skipn k l) q.
Proof. induction k as [|k IH]; intros l; [reflexivity|]. destruct l as [|y l]; [destruct q; reflexivity|]. apply IH. Qed.
(** The container an opening token belongs to. *)
Lemma container s v k t : valued s v -> nth_error (flat 0 v) k = Some t -> opens t ->
  exists u rest e, skipn k (flat 0 v) = flat k u ++ rest /\ In u (parts v) /\ value s (tk_idx t) u (S (tk_idx e)) /\
    nth_error (flat 0 v) (tk_end t) = Some e /\ tk_end t = k + ntok u - 1 /\
    (tk_ty t = KArr -> exists l, u = JArr (tk_idx t) (tk_idx e) l) /\ (tk_ty t = KObj -> exists l, u = JObj (tk_idx t) (tk_idx e) l).
Proof.
  intros V Hk Ho. destruct (tok_part s v k t V Hk (open_starts t Ho)) as (u & rest & j & E & I & H & Ix & Vu).
  assert (Nth : forall q, nth_error (flat 0 v) (k + q) = nth_error (flat k u ++ rest) q).
  { intros q. rewrite <- E. apply nth_past. }
  assert (Last : forall te r, flat k u = r ++ [te] -> nth_error (flat 0 v) (k + ntok u - 1) = Some te).
  { intros te r Q. assert (L : ntok u = length r + 1) by (rewrite <- (flat_length u k), Q, app_length; reflexivity).
    replace (k + ntok u - 1) with (k + length r) by lia. rewrite Nth, Q, <- app_assoc, nth_error_app2, Nat.sub_diag by lia. reflexivity. }
  destruct u as [i|i b|i r|i r|i r|i j' l|i j' l]; cbn in H; injection H as H; subst t; try (destruct Ho as [Ho|Ho]; try destruct b; discriminate).
  - exists (JArr i j' l), rest, (Tok KArrEnd j' k 0). cbn [jidx] in *. split; [exact E|]. split; [exact I|].
    split. { inversion Vu; subst; cbn [tk_idx]; constructor; assumption. }
    split. { cbn [tk_end]. apply (Last _ (Tok KArr i (S k + ntoks l) (length l) :: flats (S k) l)). rewrite flat_arr. reflexivity. }
    split; [reflexivity|]. split; [intros _; eexists; reflexivity|discriminate].
  - exists (JObj i j' l), rest, (Tok KObjEnd j' k 0). cbn [jidx] in *. split; [exact E|]. split; [exact I|].
    split. { inversion Vu; subst; cbn [tk_idx]; constructor; assumption. }
    split. { cbn [tk_end]. apply (Last _ (Tok KObj i (S k + ntokm l) (length l) :: flatm (S k) l)). rewrite flat_obj. reflexivity. }
    split; [reflexivity|]. split; [discriminate|intros _; eexists; reflexivity].
Qed.

(** The shared tokens. *)
Lemma shared : exists n, n <= length toks1 /\
  (forall k t1, k < n -> nth_error toks1 k = Some t1 -> exists t2, nth_error toks2 k = Some t2 /\ alike s1 s2 n k t1 t2) /\
  (forall k t, k < n -> nth_error toks1 k = Some t -> tk_idx t < m) /\
  (forall k t, nth_error toks1 k = Some t -> n <= k -> m <= tk_idx t).
Proof.
  destruct J1 as (a1 & b1 & _ & V1 & _). destruct J2 as (a2 & b2 & _ & V2 & _).
  pose proof (proj1 (proj1 (value_sorted s1) _ _ _ V1 0)) as A1. pose proof (proj1 (proj1 (value_sorted s2) _ _ _ V2 0)) as A2.
  destruct (split_value s1 s2 m v1 v2 0 (json_text_lexed _ _ J1) (json_text_lexed _ _ J2) A1 A2 Hc) as [Ge|[(E & Lt)|(c & B1 & B2 & Cm)]].
  - exists 0. split; [lia|]. split; [intros; lia|]. split; [intros; lia|]. intros k t Hk _. rewrite Forall_forall in Ge.
    apply Ge. eapply nth_error_In; eauto.
  - exists (length toks1). split; [lia|]. rewrite Forall_forall in Lt.
    split; [|split].
    + intros k t1 Lk Hk. exists t1. unfold toks2. rewrite <- E. split; [exact Hk|]. apply whole_alike.
      assert (W : Forall (whole s1 s2 (length toks1)) (flat 0 v1)).
      { apply whole_flat; [apply json_text_lexed, J1|rewrite E; apply json_text_lexed, J2|]. unfold toks1. rewrite flat_length. lia. }
      rewrite Forall_forall in W. apply W. eapply nth_error_In; eauto.
    + intros k t _ Hk. apply Lt. eapply nth_error_In; eauto.
    + intros k t Hk Ge. exfalso. assert (k < length toks1) by (apply nth_error_Some; congruence). lia.
  - destruct Cm as (L1 & L2 & Al & Sm & Ge). exists c. split; [exact L1|]. split; [exact Al|]. split; [exact (fun k t => Sm k t)|].
    intros k t Hk Lk. eapply Ge; eauto.
Qed.

Theorem run_prefix fuel x e y : run C O stk s1 toks1 fuel x = RFail i0 e y -> run C O stk s2 toks2 fuel x = RFail i0 e y.
Proof.
  destruct shared as (n & Ln & Hal & Sm & Hge).
  apply (run_same C O stk s1 s2 toks1 toks2 n m i0 Hal Ln Hge Hi).
  - (* the value at [i0] is in the common part *)
    intros k t Hk Ho Ix. destruct (container s1 v1 k t valued1 Hk Ho) as (u & rest & e' & _ & I & V & He & _ & _).
    rewrite Ix in V. specialize (Hin u _ I V). destruct (Nat.lt_ge_cases (tk_end t) n) as [L|L]; [exact L|].
    specialize (Hge _ _ He L). lia.
  - (* any *)
    intros k t1 t2 Lk E1 E2 Ho.
    destruct (container s1 v1 k t1 valued1 E1 Ho) as (u & rest & e1 & S1 & I & V & He & Te & Ka & Ko).
    exists (anyv C u), rest. change toks1 with (flat 0 v1). rewrite S1.
    assert (Len : length (flat 0 v1) = k + ntok u + length rest).
    { apply (f_equal (@length token)) in S1. rewrite skipn_length, app_length, (flat_length u) in S1.
      assert (k < length (flat 0 v1)) by (apply nth_error_Some; change (flat 0 v1) with toks1; congruence). lia. }
    pose proof (ntok_pos u) as Np.
    split; [apply decodeAny_flat; [apply (value_lexed s1) in V; apply V|lia]|]. split; [lia|].
    intros Lt. destruct (Hal k t1 Lk E1) as (t2' & E2' & Al). rewrite E2 in E2'. injection E2' as <-.
    pose proof Al as (Ty & Ix & Op & _).
    assert (Ho2 : opens t2) by (unfold opens in *; rewrite <- Ty; exact Ho).
    destruct (container s2 v2 k t2 valued2 E2 Ho2) as (u2 & rest2 & e2 & S2 & I2 & V2 & He2 & Te2 & Ka2 & Ko2).
    assert (Vm : value s2 (tk_idx t1) u (S (tk_idx e1))).
    { apply (proj1 (value_pre s1 s2 m F)); [exact V|]. specialize (Sm _ _ Lt He). lia. }
    assert (u = u2) as <-.
    { rewrite <- Ix in V2, Ka2, Ko2. destruct Ho as [Ho|Ho].
      - destruct (Ka Ho) as (l & ->). rewrite Ty in Ho. destruct (Ka2 Ho) as (l2 & ->).
        destruct (arr_unique _ _ _ _ _ _ Vm V2) as (-> & ->). reflexivity.
      - destruct (Ko Ho) as (l & ->). rewrite Ty in Ho. destruct (Ko2 Ho) as (l2 & ->).
        destruct (obj_unique _ _ _ _ _ _ Vm V2) as (-> & ->). reflexivity. }
    exists rest2. change toks2 with (flat 0 v2). rewrite S2.
    assert (Len2 : length (flat 0 v2) = k + ntok u + length rest2).
    { apply (f_equal (@length token)) in S2. rewrite skipn_length, app_length, (flat_length u) in S2.
      assert (k < length (flat 0 v2)) by (apply nth_error_Some; change (flat 0 v2) with toks2; congruence). lia. }
    split; [apply decodeAny_flat; [apply (value_lexed s2) in Vm; apply Vm|lia]|]. lia.
  - (* the text of a container *)
    intros k t1 t2 Lk E1 E2 Ho Lt. destruct (Hal k t1 Lk E1) as (t2' & E2' & Al). rewrite E2 in E2'. injection E2' as <-.
    destruct (nth_some (tk_end t1) toks1) as (e1 & He1); [lia|]. destruct (Hal _ _ Lt He1) as (e2 & He2 & Ae).
    exists e1, e2. split; [exact He1|]. split; [exact He2|]. destruct Al as (_ & <- & _). destruct Ae as (_ & <- & _).
    apply (sub_pre s1 s2 m); [exact F|]. specialize (Sm _ _ Lt He1). lia.
  - apply flat_ends.
  - intros k t Hk Ht. destruct (obj_inner v1 k t Hk Ht) as (_ & _ & l & E & _). eauto.
Qed.
End Error.

(** ** C68 *)

(** Two documents that begin alike up to byte [m]: if decoding the first fails at a place
    [i] before [m] (and the value there, if it is a value, ends before [m]), then decoding
    the second returns the same index and the same error and leaves the decoder and the
    memory in the same state. *)
Theorem C68_error_is_local C O stk D s1 s2 v1 v2 m t h i e D' h' :
  json_text s1 v1 -> json_text s2 v2 -> begin_alike m s1 v1 s2 v2 ->
  i < m -> (forall u j, In u (parts v1) -> value s1 i u j -> j <= m) ->
  Decode C O stk D s1 (TOk (flat 0 v1)) t h = Ret (Z.of_nat i) (Some e) D' h' ->
  Decode C O stk D s2 (TOk (flat 0 v2)) t h = Ret (Z.of_nat i) (Some e) D' h'.
Proof.
  intros J1 J2 (F & Hc) Hi Hin. unfold Decode. destruct t as [a|]; [|auto]. cbv zeta.
  destruct (run C O stk s1 (flat 0 v1) (run_fuel stk (flat 0 v1)) _) as [x|i' e' x| | |] eqn:R; try discriminate.
  - destruct (d_dest (dy x 0)) as [a'|]; [|discriminate]. destruct (_ && _)%bool; [intros [= Q]; lia|].
    destruct (copy _ _ _ _); [intros [= Q]; lia|discriminate|discriminate].
  - intros [= Q <- <- <-]. apply Nat2Z.inj in Q. subst i'.
    pose proof (run_prefix C O stk s1 s2 v1 v2 m i J1 J2 F Hc Hi Hin _ _ _ _ R) as R2.
    rewrite (run_fuel_enough C O stk s2 (flat 0 v2) (flat_ends v2 0) _ _ _ R2); [reflexivity|discriminate|reflexivity|reflexivity].
Qed.

(** A case: `[]int`; the documents differ after the second element. *)
Definition c68_a := bs "[1,""x"",3]".
Definition c68_b := bs "[1,""x"", {""k"":[true]} ]".
Example C68_case :
  json_text c68_a (tree_of c68_a) /\ json_text c68_b (tree_of c68_b) /\
  begin_alike 7 c68_a (tree_of c68_a) c68_b (tree_of c68_b) /\
  (forall u j, In u (parts (tree_of c68_a)) -> value c68_a 3 u j -> j <= 7) /\
  err_run default_opts (TSlice tInt) c68_a = Some (3%Z, Some EUnexpected, []) /\
  err_run default_opts (TSlice tInt) c68_b = Some (3%Z, Some EUnexpected, []).
Proof.
  split; [apply parse_sound; vm_compute; reflexivity|]. split; [apply parse_sound; vm_compute; reflexivity|].
  split; [split; vm_compute; reflexivity|]. split; [|split; vm_compute; reflexivity].
  intros u j I V. assert (Q : tree_of c68_a = JArr 0 8 [JInt 1 (bs "1"); JStr 3 (bs "x"); JInt 7 (bs "3")]) by (vm_compute; reflexivity).
  rewrite Q in I. cbn in I. destruct I as [<-|[<-|[<-|[<-|[]]]]]; inversion V; subst; cbn; lia.
Qed.

(** Two runs of the decoder on the same document, one on a text that is a Go string and
    one on a []byte, or on two texts of the document that differ in their whitespace, go
    through the same states up to the ownership of strings and byte positions.  This
    holds for every frame list, decoder state and memory. *)
From Verif Require Import Base NumSpec StrSpec JsonNum Unescape Lookup Types Token FloatLit Heap Machine General Dt Dec Control.
Open Scope Z_scope.

(** ** Specification: memories with the same contents *)

(** A value with the ownership of its strings forgotten. *)
Definition content_str (g : gstr) : gstr := SOwn (chars g).
Fixpoint content_any (a : gany) : gany :=
  match a with
  | AStr g => AStr (content_str g)
  | AArr l => AArr (map content_any l)
  | AObj l => AObj (map (fun x => (content_str (fst x), content_any (snd x))) l)
  | _ => a
  end.
Definition content_cv (v : cv) : cv :=
  match v with
  | CStr g => CStr (content_str g)
  | CAny a => CAny (content_any a)
  | CMSS l => CMSS (map (fun x => (content_str (fst x), content_str (snd x))) l)
  | _ => v
  end.
Definition content_key (k : mkey) : mkey := match k with MStr g => MStr (content_str g) | _ => k end.
Definition same_block (b1 b2 : block) : Prop :=
  match b1, b2 with
  | BFree, BFree => True
  | BMem n1 c1, BMem n2 c2 => n1 = n2 /\ forall o, content_cv (c1 o) = content_cv (c2 o)
  | BMap l1, BMap l2 => map (fun x => (content_key (fst x), snd x)) l1 = map (fun x => (content_key (fst x), snd x)) l2
  | _, _ => False
  end.
(** Equal memories, except that a string of one may share the bytes of the input where
    the string of the other owns a copy. *)
Definition same_mem (h1 h2 : heap) : Prop := nxt h1 = nxt h2 /\ forall b, same_block (blk h1 b) (blk h2 b).

(** The same document: equal trees except for byte positions. *)
Fixpoint same_doc (a b : jv) : Prop :=
  match a, b with
  | JNull _, JNull _ => True
  | JBool _ x, JBool _ y => x = y
  | JInt _ x, JInt _ y => x = y
  | JNum _ x, JNum _ y => x = y
  | JStr _ x, JStr _ y => x = y
  | JArr _ _ l, JArr _ _ m =>
      (fix go l m := match l, m with
        | [], [] => True
        | x :: l, y :: m => same_doc x y /\ go l m
        | _, _ => False end) l m
  | JObj _ _ l, JObj _ _ m =>
      (fix go l m := match l, m with
        | [], [] => True
        | x :: l, y :: m => (snd (fst x) = snd (fst y) /\ same_doc (snd x) (snd y)) /\ go l m
        | _, _ => False end) l m
  | _, _ => False
  end.

(** ** Relations on results *)

Definition res_rel {A B} (R : A -> B -> Prop) (r1 : res A) (r2 : res B) : Prop :=
  match r1, r2 with
  | Ok a, Ok b => R a b
  | Pan, Pan => True
  | Cor, Cor => True
  | _, _ => False
  end.
Lemma rbind_rel {A B A' B'} (R : A -> B -> Prop) (S : A' -> B' -> Prop) r1 r2 f g :
  res_rel R r1 r2 -> (forall a b, R a b -> res_rel S (f a) (g b)) -> res_rel S (rbind r1 f) (rbind r2 g).
Proof. destruct r1, r2; cbn; try tauto. auto. Qed.
Lemma res_eq {A} (r : res A) : res_rel eq r r.
Proof. destruct r; cbn; auto. Qed.

(** ** Memory operations *)

Lemma poison_content c : is_poison (content_cv c) = is_poison c.
Proof. destruct c; reflexivity. Qed.
Lemma same_poison c d : content_cv c = content_cv d -> is_poison c = is_poison d.
Proof. intros H. rewrite <- (poison_content c), H. apply poison_content. Qed.

Lemma same_mem_refl h : same_mem h h.
Proof. split; [reflexivity|]. intros b. destruct (blk h b); cbn; auto. Qed.
Lemma same_set h1 h2 b k1 k2 : same_mem h1 h2 -> same_block k1 k2 -> same_mem (set_blk h1 b k1) (set_blk h2 b k2).
Proof. intros [Hn Hb] Hk. split; [exact Hn|]. intros x. cbn. destruct (Nat.eqb x b); auto. Qed.
Lemma same_alloc h1 h2 k1 k2 : same_mem h1 h2 -> same_block k1 k2 ->
  fst (alloc_blk h1 k1) = fst (alloc_blk h2 k2) /\ same_mem (snd (alloc_blk h1 k1)) (snd (alloc_blk h2 k2)).
Proof.
  intros [Hn Hb] Hk. cbn. split; [exact Hn|]. split; [cbn; congruence|]. intros x. cbn. rewrite Hn.
  destruct (Nat.eqb x (nxt h2)); auto.
Qed.

Lemma store_rel h1 h2 p sz v1 v2 : same_mem h1 h2 -> content_cv v1 = content_cv v2 ->
  res_rel same_mem (store h1 p sz v1) (store h2 p sz v2).
Proof.
  intros Hh Hv. unfold store. destruct p as [[b o]|]; [|exact I].
  pose proof (proj2 Hh b) as Hb. destruct (blk h1 b), (blk h2 b); cbn in Hb; try tauto; try exact I.
  destruct Hb as [<- Hc]. rewrite (same_poison _ _ (Hc o)). destruct (_ && _); [|exact I].
  apply same_set; [exact Hh|]. split; [reflexivity|]. intros x. unfold put_cell.
  destruct (x =? o); [exact Hv|]. destruct (_ && _); auto.
Qed.
Definition same_cv (c d : cv) : Prop := content_cv c = content_cv d.
Lemma load_rel h1 h2 p sz : same_mem h1 h2 -> res_rel same_cv (load h1 p sz) (load h2 p sz).
Proof.
  intros Hh. unfold load. destruct p as [[b o]|]; [|exact I].
  pose proof (proj2 Hh b) as Hb. destruct (blk h1 b), (blk h2 b); cbn in Hb; try tauto; try exact I.
  destruct Hb as [<- Hc]. rewrite (same_poison _ _ (Hc o)). destruct (_ && _); [apply Hc|exact I].
Qed.
Lemma malloc_rel h1 h2 n : same_mem h1 h2 ->
  fst (malloc h1 n) = fst (malloc h2 n) /\ same_mem (snd (malloc h1 n)) (snd (malloc h2 n)).
Proof.
  intros Hh. unfold malloc. destruct (n <=? 0); [auto|].
  destruct (same_alloc h1 h2 (BMem n (fun _ => CZero)) (BMem n (fun _ => CZero)) Hh) as [E H]; [cbn; auto|].
  cbn in *. split; [congruence|exact H].
Qed.
Lemma makemap_rel h1 h2 : same_mem h1 h2 ->
  fst (makemap h1) = fst (makemap h2) /\ same_mem (snd (makemap h1)) (snd (makemap h2)).
Proof. intros Hh. apply same_alloc; [exact Hh|reflexivity]. Qed.
Lemma clear_rel h1 h2 p n : same_mem h1 h2 -> res_rel same_mem (clear h1 p n) (clear h2 p n).
Proof.
  intros Hh. unfold clear. destruct (n <=? 0); [exact Hh|]. destruct p as [[b o]|]; [|exact I].
  pose proof (proj2 Hh b) as Hb. destruct (blk h1 b), (blk h2 b); cbn in Hb; try tauto; try exact I.
  destruct Hb as [<- Hc]. destruct (_ && _); [|exact I]. apply same_set; [exact Hh|]. split; [reflexivity|].
  intros x. destruct (_ && _); auto.
Qed.
Lemma copy_rel h1 h2 p q n : same_mem h1 h2 -> res_rel same_mem (copy h1 p q n) (copy h2 p q n).
Proof.
  intros Hh. unfold copy. destruct (n <=? 0); [exact Hh|]. destruct p as [[b o]|]; [|exact I].
  destruct q as [[b' o']|]; [|exact I].
  pose proof (proj2 Hh b) as Hb. pose proof (proj2 Hh b') as Hb'.
  destruct (blk h1 b), (blk h2 b); cbn in Hb; try tauto; try exact I.
  destruct (blk h1 b'), (blk h2 b'); cbn in Hb'; try tauto; try exact I.
  destruct Hb as [<- Hc]. destruct Hb' as [<- Hc']. destruct (_ && _); [|exact I]. apply same_set; [exact Hh|]. split; [reflexivity|].
  intros x. destruct (_ && _); auto.
Qed.
Lemma key_content k k' : mkey_eqb (content_key k) (content_key k') = mkey_eqb k k'.
Proof. destruct k, k'; reflexivity. Qed.
Lemma find_key_rel l1 : forall l2 k1 k2, content_key k1 = content_key k2 ->
  map (fun x => (content_key (fst x), snd x)) l1 = map (fun x => (content_key (fst x), snd x)) l2 ->
  find_key l1 k1 = find_key l2 k2.
Proof.
  induction l1 as [|[k b] l1 IH]; intros [|[k' b'] l2] k1 k2 Hk Hl; cbn in *; try discriminate; [reflexivity|].
  injection Hl as H1 H2 H3. rewrite <- (key_content k k1), <- (key_content k' k2), H1, Hk, H2.
  destruct (mkey_eqb _ _); auto.
Qed.
Definition pair_rel {A B} (R : A -> A -> Prop) (S : B -> B -> Prop) (x y : A * B) : Prop := R (fst x) (fst y) /\ S (snd x) (snd y).
Lemma mapassign_rel h1 h2 m k1 k2 n : same_mem h1 h2 -> content_key k1 = content_key k2 ->
  res_rel (pair_rel eq same_mem) (mapassign h1 m k1 n) (mapassign h2 m k2 n).
Proof.
  intros Hh Hk. unfold mapassign. destruct m as [b|]; [|exact I].
  pose proof (proj2 Hh b) as Hb. destruct (blk h1 b) as [| |l1], (blk h2 b) as [| |l2]; cbn in Hb; try tauto; try exact I.
  rewrite (find_key_rel _ _ _ _ Hk Hb). destruct (find_key l2 k2); [split; [reflexivity|exact Hh]|].
  destruct (same_alloc h1 h2 (BMem n (fun _ => CZero)) (BMem n (fun _ => CZero)) Hh) as [E H]; [cbn; auto|].
  destruct (alloc_blk h1 _) as [a1 h1'], (alloc_blk h2 _) as [a2 h2']. cbn in E, H. subst.
  split; [reflexivity|]. cbn. apply same_set; [exact H|]. cbn. rewrite !map_app, Hb. cbn. rewrite Hk. reflexivity.
Qed.
Ltac as_tac := match goal with H : same_cv ?c ?d |- _ => destruct c, d; cbn in H; try discriminate; cbn; try exact I; try (injection H; intros; subst; reflexivity); try reflexivity end.
Lemma as_slice_rel c d : same_cv c d -> as_slice c = as_slice d.
Proof. unfold same_cv. destruct c, d; cbn; intros H; try discriminate; try reflexivity; injection H; intros; subst; reflexivity. Qed.
Lemma as_ptr_rel c d : same_cv c d -> as_ptr c = as_ptr d.
Proof. unfold same_cv. destruct c, d; cbn; intros H; try discriminate; try reflexivity; injection H; intros; subst; reflexivity. Qed.
Lemma as_map_rel c d : same_cv c d -> as_map c = as_map d.
Proof. unfold same_cv. destruct c, d; cbn; intros H; try discriminate; try reflexivity; injection H; intros; subst; reflexivity. Qed.
Lemma as_user_rel c d : same_cv c d -> as_user c = as_user d.
Proof. unfold same_cv. destruct c, d; cbn; intros H; try discriminate; try reflexivity; injection H; intros; subst; reflexivity. Qed.

(** Values of type any and association lists. *)
Lemma content_assoc_put {V} (f : V -> V) l1 : forall l2 k1 k2 v1 v2, chars k1 = chars k2 -> f v1 = f v2 ->
  map (fun x => (content_str (fst x), f (snd x))) l1 = map (fun x => (content_str (fst x), f (snd x))) l2 ->
  map (fun x => (content_str (fst x), f (snd x))) (assoc_put l1 k1 v1) =
  map (fun x => (content_str (fst x), f (snd x))) (assoc_put l2 k2 v2).
Proof.
  induction l1 as [|[k b] l1 IH]; intros [|[k' b'] l2] k1 k2 v1 v2 Hk Hv Hl; cbn in *; try discriminate.
  - unfold content_str. rewrite Hk, Hv. reflexivity.
  - injection Hl as H1 H2 H3. rewrite H1, Hk. destruct (bytes_eqb _ _); cbn.
    + rewrite Hv, H3. unfold content_str. rewrite H1. reflexivity.
    + f_equal; [unfold content_str; rewrite H1, H2; reflexivity|]. apply IH; assumption.
Qed.

(** ** Documents *)

Lemma same_doc_arr i j l i' j' m : same_doc (JArr i j l) (JArr i' j' m) <-> Forall2 same_doc l m.
Proof.
  cbn. revert m. induction l as [|x l IH]; intros [|y m]; cbn.
  - split; [constructor|trivial].
  - split; [tauto|]. intros H; inversion H.
  - split; [tauto|]. intros H; inversion H.
  - rewrite IH. split; [intros [A B]; constructor; assumption|]. intros H; inversion H; tauto.
Qed.
Definition same_member (x y : (nat * bytes) * jv) : Prop := snd (fst x) = snd (fst y) /\ same_doc (snd x) (snd y).
Lemma same_doc_obj i j l i' j' m : same_doc (JObj i j l) (JObj i' j' m) <-> Forall2 same_member l m.
Proof.
  cbn. revert m. induction l as [|x l IH]; intros [|y m]; cbn.
  - split; [constructor|trivial].
  - split; [tauto|]. intros H; inversion H.
  - split; [tauto|]. intros H; inversion H.
  - rewrite IH. unfold same_member. split; [intros [A B]; constructor; assumption|]. intros H; inversion H; tauto.
Qed.
Lemma same_doc_refl v : same_doc v v.
Proof.
  induction v using jv_ind'; cbn [same_doc]; auto.
  - apply (same_doc_arr i j l i j l). induction H; constructor; auto.
  - apply (same_doc_obj i j l i j l). induction H; constructor; auto. split; auto.
Qed.
Lemma same_doc_sym v : forall u, same_doc v u -> same_doc u v.
Proof.
  induction v using jv_ind'; intros [] S; cbn [same_doc] in S; try tauto; subst; cbn [same_doc]; auto.
  - apply (proj1 (same_doc_arr 0 0 _ 0 0 _)) in S. apply (proj2 (same_doc_arr i0 j0 l0 i j l)).
    induction S; constructor; inversion H; subst; auto.
  - apply (proj1 (same_doc_obj 0 0 _ 0 0 _)) in S. apply (proj2 (same_doc_obj i0 j0 l0 i j l)).
    induction S as [|x y l l0 [Sk Sx] Sl IH]; constructor; inversion H; subst; auto. split; auto.
Qed.
Lemma same_doc_trans v : forall u t, same_doc v u -> same_doc u t -> same_doc v t.
Proof.
  induction v using jv_ind'; intros [] [] S T; cbn [same_doc] in S, T; try tauto; subst; cbn [same_doc]; auto.
  - apply (proj1 (same_doc_arr 0 0 _ 0 0 _)) in S. apply (proj1 (same_doc_arr 0 0 _ 0 0 _)) in T. apply (proj2 (same_doc_arr i j l i1 j1 l1)).
    revert l1 T. induction S; intros l1 T; inversion T; subst; constructor; inversion H; subst; eauto.
  - apply (proj1 (same_doc_obj 0 0 _ 0 0 _)) in S. apply (proj1 (same_doc_obj 0 0 _ 0 0 _)) in T. apply (proj2 (same_doc_obj i j l i1 j1 l1)).
    revert l1 T. induction S as [|x y l l0 [Sk Sx] Sl IH]; intros l1 T; inversion T as [|? ? ? ? [Tk Tx] Tl]; subst; constructor; inversion H; subst; eauto.
    split; [congruence|eauto].
Qed.
Lemma same_doc_ntok v : forall u, same_doc v u -> ntok v = ntok u.
Proof.
  induction v using jv_ind'; intros [] S; cbn [same_doc] in S; try tauto; try reflexivity.
  - apply (proj1 (same_doc_arr 0 0 _ 0 0 _)) in S. rewrite !ntok_arr. apply (f_equal (Nat.add 2)). induction S; [reflexivity|]. inversion H; subst.
    cbn [ntoks]. rewrite IHS by assumption. apply (f_equal (fun n => (n + _)%nat)). auto.
  - apply (proj1 (same_doc_obj 0 0 _ 0 0 _)) in S. rewrite !ntok_obj. apply (f_equal (Nat.add 2)). induction S; [reflexivity|]. inversion H; subst.
    cbn [ntokm]. rewrite IHS by assumption. destruct H0. apply (f_equal (fun n => (1 + n + _)%nat)). auto.
Qed.
Lemma same_ntoks l m : Forall2 same_doc l m -> ntoks l = ntoks m.
Proof. induction 1; cbn; [reflexivity|]. rewrite IHForall2. f_equal. apply same_doc_ntok. assumption. Qed.
Lemma same_ntokm l m : Forall2 same_member l m -> ntokm l = ntokm m.
Proof. induction 1; cbn; [reflexivity|]. rewrite IHForall2. destruct H. rewrite (same_doc_ntok _ _ H1). reflexivity. Qed.

(** Corresponding tokens of two texts of one document. *)
Definition same_text (s1 s2 : bytes) (t1 t2 : token) : Prop :=
  raw_of s1 t1 = raw_of s2 t2 /\
  (tk_ty t1 = KStr \/ tk_ty t1 = KKey -> body_of s1 t1 = body_of s2 t2).
Definition same_tok (s1 s2 : bytes) (t1 t2 : token) : Prop :=
  tk_ty t1 = tk_ty t2 /\ tk_n t1 = tk_n t2 /\
  match tk_ty t1 with
  | KArr | KObj => tk_end t1 = tk_end t2
  | KArrEnd | KObjEnd => True
  | _ => same_text s1 s2 t1 t2
  end.


Lemma Forall2_nth {A B} (R : A -> B -> Prop) l m : Forall2 R l m -> forall n,
  match nth_error l n, nth_error m n with Some a, Some b => R a b | None, None => True | _, _ => False end.
Proof. induction 1; intros [|n]; cbn; try exact I; [assumption|apply IHForall2]. Qed.
Lemma Forall2_skipn {A B} (R : A -> B -> Prop) l m : Forall2 R l m -> forall n, Forall2 R (skipn n l) (skipn n m).
Proof. induction 1; intros [|n]; cbn; auto. Qed.
Lemma Forall2_firstn {A B} (R : A -> B -> Prop) l m : Forall2 R l m -> forall n, Forall2 R (firstn n l) (firstn n m).
Proof. induction 1; intros [|n]; cbn; auto. Qed.
Lemma Forall2_app' {A B} (R : A -> B -> Prop) l m l' m' : Forall2 R l m -> Forall2 R l' m' -> Forall2 R (l ++ l') (m ++ m').
Proof. induction 1; cbn; auto. Qed.

Lemma Forall2_len {A B} (R : A -> B -> Prop) l m : Forall2 R l m -> length l = length m.
Proof. induction 1; cbn; congruence. Qed.

Lemma occurs_quoted_raw s k i r n : occurs s i (34 :: r ++ [34]) -> raw_of s (Tok k i (i + length r + 2) n) = Ok (34 :: r ++ [34]).
Proof.
  unfold occurs, raw_of, sub. cbn [tk_idx tk_end length]. rewrite app_length. cbn [length].
  replace (i + S (length r + 1))%nat with (i + length r + 2)%nat by lia. intros ->. reflexivity.
Qed.

Section Tokens.
Variables (C : cfg) (s1 s2 : bytes).

Lemma str_toks_same ty i j r : occurs s1 i (34 :: r ++ [34]) -> occurs s2 j (34 :: r ++ [34]) ->
  same_text s1 s2 (Tok ty i (i + length r + 2) 0) (Tok ty j (j + length r + 2) 0).
Proof.
  intros A B. split; [rewrite !occurs_quoted_raw by assumption; reflexivity|]. intros _.
  rewrite !(body_ok C) by assumption. reflexivity.
Qed.

Lemma flat_same v1 : forall v2 k, same_doc v1 v2 -> lexed s1 v1 -> lexed s2 v2 ->
  Forall2 (same_tok s1 s2) (flat k v1) (flat k v2).
Proof.
  induction v1 using jv_ind'; intros [] k S L1 L2; cbn [same_doc] in S; try tauto; subst.
  - constructor; [|constructor]. repeat split; cbn; [|intros [|]; discriminate].
    rewrite (raw_ok s1 KNull i (bs "null")), (raw_ok s2 KNull i0 (bs "null")) by (try exact L1; try exact L2; reflexivity). reflexivity.
  - constructor; [|constructor]. cbn [lexed] in *. unfold same_tok. cbn [tk_ty tk_n]. repeat split; auto.
    destruct b0; (split; [|intros [|]; discriminate]).
    + rewrite (raw_ok s1 KTrue i (bs "true")), (raw_ok s2 KTrue i0 (bs "true")) by (try exact L1; try exact L2; reflexivity). reflexivity.
    + rewrite (raw_ok s1 KFalse i (bs "false")), (raw_ok s2 KFalse i0 (bs "false")) by (try exact L1; try exact L2; reflexivity). reflexivity.
  - cbn in L1, L2. constructor; [|constructor]. repeat split; cbn; [|intros [|]; discriminate].
    rewrite (raw_ok s1 KInt i raw), (raw_ok s2 KInt i0 raw) by tauto. reflexivity.
  - cbn in L1, L2. constructor; [|constructor]. repeat split; cbn; [|intros [|]; discriminate].
    rewrite (raw_ok s1 KNum i raw), (raw_ok s2 KNum i0 raw) by tauto. reflexivity.
  - cbn in L1, L2. constructor; [|constructor]. split; [reflexivity|]. split; [reflexivity|]. apply str_toks_same; tauto.
  - apply (proj1 (same_doc_arr 0 0 _ 0 0 _)) in S. apply lexed_arr in L1, L2. rewrite !flat_arr. rewrite (same_ntoks _ _ S).
    constructor; [repeat split; cbn; eapply Forall2_len; eauto|].
    apply Forall2_app'; [|constructor; [repeat split|constructor]].
    destruct L1 as (_ & _ & _ & L1), L2 as (_ & _ & _ & L2). generalize (Datatypes.S k).
    induction S as [|x y l m Sx Sl IH]; intros q; cbn [flats]; [constructor|].
    inversion H; inversion L1; inversion L2; subst. rewrite (same_doc_ntok _ _ Sx). apply Forall2_app'; auto.
  - apply (proj1 (same_doc_obj 0 0 _ 0 0 _)) in S. apply lexed_obj in L1, L2. rewrite !flat_obj. rewrite (same_ntokm _ _ S).
    constructor; [repeat split; cbn; eapply Forall2_len; eauto|].
    apply Forall2_app'; [|constructor; [repeat split|constructor]].
    destruct L1 as (_ & _ & _ & L1), L2 as (_ & _ & _ & L2). generalize (Datatypes.S k).
    induction S as [|x y l m Sx Sl IH]; intros q; cbn [flatm]; [constructor|].
    inversion H; inversion L1 as [|? ? [[K1 _] V1]]; inversion L2 as [|? ? [[K2 _] V2]]; subst. destruct Sx as [Sk Sx].
    constructor.
    { split; [reflexivity|]. split; [reflexivity|]. cbn [tk_ty]. rewrite Sk in *. apply str_toks_same; assumption. }
    rewrite (same_doc_ntok _ _ Sx). apply Forall2_app'; auto.
Qed.

End Tokens.

Lemma skip_over v q m r : (ntok v <= m)%nat -> skipn m (flat q v ++ r) = skipn (m - ntok v) r.
Proof. intros H. rewrite skipn_app, flat_length, skipn_all2 by (rewrite flat_length; lia). reflexivity. Qed.
Lemma skip_in v q m r u r' : (m < ntok v)%nat -> skipn m (flat q v) = flat (q + m) u ++ r' ->
  skipn m (flat q v ++ r) = flat (q + m) u ++ r' ++ r.
Proof. intros H E. rewrite skipn_app, flat_length, E, <- app_assoc. replace (m - ntok v)%nat with 0%nat by lia. reflexivity. Qed.

(** A property of trees that holds for the subtrees. *)
Definition hereditary (P : jv -> Prop) : Prop :=
  (forall i j l, P (JArr i j l) -> Forall P l) /\ (forall i j l, P (JObj i j l) -> Forall (fun x => P (snd x)) l).
Lemma lexed_her s : hereditary (lexed s).
Proof.
  split; intros i j l H.
  - apply lexed_arr in H. apply H.
  - apply lexed_obj in H as (_ & _ & _ & H). revert H. apply Forall_impl. tauto.
Qed.

Section Subtrees.
Variables (P1 P2 : jv -> Prop).
Hypothesis her1 : hereditary P1.
Hypothesis her2 : hereditary P2.
Let hA1 := proj1 her1. Let hA2 := proj1 her2. Let hO1 := proj2 her1. Let hO2 := proj2 her2.
(** Corresponding opening tokens start corresponding subtrees. *)
Lemma flat_sub2 v1 : forall v2 k m t, same_doc v1 v2 -> P1 v1 -> P2 v2 ->
  nth_error (flat k v1) m = Some t -> tk_ty t = KArr \/ tk_ty t = KObj ->
  exists u1 u2 r1 r2, skipn m (flat k v1) = flat (k + m) u1 ++ r1 /\ skipn m (flat k v2) = flat (k + m) u2 ++ r2 /\
    same_doc u1 u2 /\ P1 u1 /\ P2 u2.
Proof.
  induction v1 using jv_ind'; intros [] k m t S L1 L2 Hm Ht; cbn [same_doc] in S; try tauto; subst;
    try (destruct m as [|[|]]; cbn in Hm; try discriminate; injection Hm as <-;
         destruct Ht as [Ht|Ht]; try destruct b0; discriminate).
  - destruct m as [|m].
    { exists (JArr i j l), (JArr i0 j0 l0), [], []. rewrite Nat.add_0_r, !app_nil_r. auto. }
    apply (proj1 (same_doc_arr 0 0 _ 0 0 _)) in S. apply hA1 in L1. apply hA2 in L2.
    rewrite !flat_arr in *. cbn [nth_error skipn] in *.
    replace (k + Datatypes.S m)%nat with (Datatypes.S k + m)%nat by lia.
    revert Hm. generalize (Tok KArrEnd j k 0) (Tok KArrEnd j0 k 0) (eq_refl : tk_ty (Tok KArrEnd j k 0) = KArrEnd).
    generalize (Datatypes.S k). intros q te1 te2 Hte. revert q m.
    induction S as [|x y l l' Sx Sl IH]; intros q m Hm; cbn [flats app] in *.
    + destruct m as [|[|]]; cbn in Hm; try discriminate. injection Hm as <-. rewrite Hte in Ht. destruct Ht; discriminate.
    + inversion H; inversion L1; inversion L2; subst. rewrite <- !app_assoc in *.
      rewrite <- (same_doc_ntok _ _ Sx).
      destruct (Nat.lt_ge_cases m (ntok x)) as [L|L].
      * rewrite nth_error_app1 in Hm by (rewrite flat_length; lia).
        destruct (H2 y q m t Sx ltac:(assumption) ltac:(assumption) Hm Ht) as (u1 & u2 & r1 & r2 & E1 & E2 & Q).
        exists u1, u2, (r1 ++ flats (q + ntok x) l ++ [te1]), (r2 ++ flats (q + ntok x) l' ++ [te2]).
        split; [apply skip_in; assumption|]. split; [apply skip_in; [rewrite <- (same_doc_ntok _ _ Sx)|]; assumption|]. exact Q.
      * rewrite nth_error_app2 in Hm by (rewrite flat_length; lia). rewrite flat_length in Hm.
        destruct (IH ltac:(assumption) ltac:(assumption) ltac:(assumption) _ _ Hm) as (u1 & u2 & r1 & r2 & E1 & E2 & Q).
        replace (q + ntok x + (m - ntok x))%nat with (q + m)%nat in * by lia.
        exists u1, u2, r1, r2. rewrite !skip_over by (try rewrite <- (same_doc_ntok _ _ Sx); lia).
        rewrite <- (same_doc_ntok _ _ Sx). auto.
  - destruct m as [|m].
    { exists (JObj i j l), (JObj i0 j0 l0), [], []. rewrite Nat.add_0_r, !app_nil_r. auto. }
    apply (proj1 (same_doc_obj 0 0 _ 0 0 _)) in S. apply hO1 in L1. apply hO2 in L2.
    rewrite !flat_obj in *. cbn [nth_error skipn] in *.
    replace (k + Datatypes.S m)%nat with (Datatypes.S k + m)%nat by lia.
    revert Hm. generalize (Tok KObjEnd j k 0) (Tok KObjEnd j0 k 0) (eq_refl : tk_ty (Tok KObjEnd j k 0) = KObjEnd).
    generalize (Datatypes.S k). intros q te1 te2 Hte. revert q m.
    induction S as [|x y l l' [Sk Sx] Sl IH]; intros q m Hm; cbn [flatm app] in *.
    + destruct m as [|[|]]; cbn in Hm; try discriminate. injection Hm as <-. rewrite Hte in Ht. destruct Ht; discriminate.
    + inversion H as [|? ? H2 H3]; inversion L1 as [|? ? V1 L1']; inversion L2 as [|? ? V2 L2']; subst. rewrite <- !app_assoc in *.
      rewrite <- (same_doc_ntok _ _ Sx).
      destruct m as [|m]; cbn [nth_error skipn] in *; [injection Hm as <-; destruct Ht; discriminate|].
      replace (q + Datatypes.S m)%nat with (Datatypes.S q + m)%nat by lia.
      destruct (Nat.lt_ge_cases m (ntok (snd x))) as [L|L].
      * rewrite nth_error_app1 in Hm by (rewrite flat_length; lia).
        destruct (H2 (snd y) (Datatypes.S q) m t Sx ltac:(assumption) ltac:(assumption) Hm Ht) as (u1 & u2 & r1 & r2 & E1 & E2 & Q).
        exists u1, u2, (r1 ++ flatm (Datatypes.S q + ntok (snd x)) l ++ [te1]), (r2 ++ flatm (Datatypes.S q + ntok (snd x)) l' ++ [te2]).
        split; [apply skip_in; assumption|]. split; [apply skip_in; [rewrite <- (same_doc_ntok _ _ Sx)|]; assumption|]. exact Q.
      * rewrite nth_error_app2 in Hm by (rewrite flat_length; lia). rewrite flat_length in Hm.
        destruct (IH ltac:(assumption) ltac:(assumption) ltac:(assumption) _ _ Hm) as (u1 & u2 & r1 & r2 & E1 & E2 & Q).
        replace (Datatypes.S q + ntok (snd x) + (m - ntok (snd x)))%nat with (Datatypes.S q + m)%nat in * by lia.
        exists u1, u2, r1, r2. rewrite !skip_over by (try rewrite <- (same_doc_ntok _ _ Sx); lia).
        rewrite <- (same_doc_ntok _ _ Sx). auto.
Qed.
End Subtrees.

(** ** The simulation *)

Lemma sub_ok s i j c d : occurs s i [c] -> occurs s j [d] -> (i < j)%nat -> exists r, sub s i (j + 1) = Ok r.
Proof.
  unfold occurs, sub, slice. cbn [length]. intros A B H.
  destruct (Nat.leb j (j + 1) && Nat.leb (j + 1) (length s))%bool eqn:E; [|discriminate].
  replace (Nat.leb i (j + 1) && Nat.leb (j + 1) (length s))%bool with true by lia. eauto.
Qed.

Section Sim.
Variables (w b1 b2 : bool) (uj ut : nat -> bytes -> bytes -> bytes * option nat)
  (pf : fbits -> bytes -> option fnum) (fold : bytes -> bytes -> bool).
Let C1 := Cfg w b1 uj ut pf fold.
Let C2 := Cfg w b2 uj ut pf fold.
Variables (O : opts) (stk : list frame) (s1 s2 : bytes) (v1 v2 : jv).
Hypothesis doc : same_doc v1 v2.
Hypothesis lex1 : lexed s1 v1.
Hypothesis lex2 : lexed s2 v2.
Let toks1 := flat 0 v1.
Let toks2 := flat 0 v2.
(** Unmarshalers do not distinguish the texts of corresponding values. *)
Hypothesis json_same : (exists f, In f stk /\ f_ty f = EJSON) -> forall m t1 t2 e1 e2 r1 r2 id old,
  nth_error toks1 m = Some t1 -> nth_error toks2 m = Some t2 -> tk_ty t1 = KArr \/ tk_ty t1 = KObj ->
  nth_error toks1 (tk_end t1) = Some e1 -> nth_error toks2 (tk_end t2) = Some e2 ->
  sub s1 (tk_idx t1) (tk_idx e1 + 1) = Ok r1 -> sub s2 (tk_idx t2) (tk_idx e2 + 1) = Ok r2 ->
  uj id old r1 = uj id old r2.

Lemma toks_same : Forall2 (same_tok s1 s2) toks1 toks2.
Proof. apply (flat_same C1); assumption. Qed.
Lemma toks_len : length toks1 = length toks2.
Proof. eapply Forall2_len, toks_same. Qed.

(** Byte positions of the same token. *)
Definition same_pos (i1 i2 : nat) : Prop :=
  exists m t1 t2, nth_error toks1 m = Some t1 /\ nth_error toks2 m = Some t2 /\ i1 = tk_idx t1 /\ i2 = tk_idx t2.
Definition tr (t1 t2 : token) : Prop := same_tok s1 s2 t1 t2 /\ same_pos (tk_idx t1) (tk_idx t2).

Lemma toks_tr : Forall2 tr toks1 toks2.
Proof.
  pose proof toks_same as H. unfold tr, same_pos.
  assert (G : forall a b, Forall2 (same_tok s1 s2) a b -> forall p q, length p = length q ->
    Forall2 (fun t1 t2 => same_tok s1 s2 t1 t2 /\ exists m u1 u2, nth_error (p ++ a) m = Some u1 /\ nth_error (q ++ b) m = Some u2 /\
      tk_idx t1 = tk_idx u1 /\ tk_idx t2 = tk_idx u2) a b).
  { induction 1 as [|x y a b Hx Hl IH]; intros p q E; constructor.
    - split; [exact Hx|]. exists (length p), x, y. rewrite nth_error_app2, Nat.sub_diag by lia.
      rewrite E. rewrite nth_error_app2, Nat.sub_diag by lia. auto.
    - specialize (IH (p ++ [x]) (q ++ [y])). rewrite <- !app_assoc in IH. apply IH. rewrite !app_length. cbn. lia. }
  apply (G _ _ H [] []). reflexivity.
Qed.

Definition same_st (x y : st) : Prop := si x = si y /\ ti x = ti y /\ dy x = dy y /\ same_mem (hp x) (hp y).
Definition same_out (o1 o2 : out) : Prop :=
  match o1, o2 with
  | Next x, Next y => same_st x y
  | Fail i e x, Fail j e' y => same_pos i j /\ e = e' /\ same_st x y
  | Panic, Panic => True
  | Corrupt, Corrupt => True
  | _, _ => False
  end.
Lemma lift_rel {A B} (R : A -> B -> Prop) r1 r2 f g :
  res_rel R r1 r2 -> (forall a b, R a b -> same_out (f a) (g b)) -> same_out (lift r1 f) (lift r2 g).
Proof. destruct r1, r2; cbn; try tauto. auto. Qed.

Definition same_str (g1 g2 : gstr) : Prop := chars g1 = chars g2.
Lemma mkstr_rel i j b : same_str (mkstr C1 i b) (mkstr C2 j b).
Proof. unfold mkstr, same_str. cbn. destruct b1, b2; reflexivity. Qed.
Lemma unesc_rel i j b : res_rel same_str (unesc_str C1 i b) (unesc_str C2 j b).
Proof.
  unfold unesc_str. destruct (Valid b); try exact I. destruct (index_bs b); [reflexivity|]. apply mkstr_rel.
Qed.
Lemma same_CStr g1 g2 : same_str g1 g2 -> content_cv (CStr g1) = content_cv (CStr g2).
Proof. unfold same_str. cbn. unfold content_str. intros ->. reflexivity. Qed.
Lemma same_AStr g1 g2 : same_str g1 g2 -> content_any (AStr g1) = content_any (AStr g2).
Proof. unfold same_str. cbn. unfold content_str. intros ->. reflexivity. Qed.

Definition same_sres : sres -> sres -> Prop := res_rel (pair_rel same_mem eq).
Lemma sok_rel r1 r2 : res_rel same_mem r1 r2 -> same_sres (sok r1) (sok r2).
Proof. intros H. unfold sok. eapply rbind_rel; [exact H|]. intros a b E. split; [exact E|reflexivity]. Qed.
Lemma serr_rel h1 h2 e : same_mem h1 h2 -> same_sres (serr h1 e) (serr h2 e).
Proof. intros H. split; [exact H|reflexivity]. Qed.

Ltac st_tac := apply sok_rel; apply store_rel; [assumption|try reflexivity].

Lemma bool_rel e v p h1 h2 : same_mem h1 h2 -> same_sres (bool_tok C1 e v p h1) (bool_tok C2 e v p h2).
Proof. intros H. unfold bool_tok. destruct e; try (apply serr_rel, H); st_tac. Qed.
Lemma int_rel e raw i j p h1 h2 : same_mem h1 h2 -> same_sres (int_tok C1 e raw i p h1) (int_tok C2 e raw j p h2).
Proof.
  intros H. unfold int_tok. destruct e; try (apply serr_rel, H).
  - cbn. destruct (parse_float _ _ _); [st_tac|apply serr_rel, H].
  - st_tac. apply same_CStr, mkstr_rel.
  - change (float_of_int_tok C1) with (float_of_int_tok C2).
    destruct (float_of_int_tok _ _ _); [st_tac|apply serr_rel, H].
  - change (int_of_tok C1) with (int_of_tok C2). eapply rbind_rel; [apply res_eq|]. intros a ? <-.
    destruct a; [st_tac|apply serr_rel, H].
Qed.
Lemma num_rel e raw i j p h1 h2 : same_mem h1 h2 -> same_sres (num_tok C1 e raw i p h1) (num_tok C2 e raw j p h2).
Proof.
  intros H. unfold num_tok. destruct e; try (apply serr_rel, H).
  - cbn. destruct (parse_float _ _ _); [st_tac|apply serr_rel, H].
  - st_tac. apply same_CStr, mkstr_rel.
  - cbn. destruct (parse_float _ _ _); [st_tac|apply serr_rel, H].
Qed.
Lemma load_user_rel h1 h2 p sz : same_mem h1 h2 -> res_rel eq (load_user h1 p sz) (load_user h2 p sz).
Proof.
  intros H. unfold load_user. destruct (sz <=? 0); [reflexivity|]. eapply rbind_rel; [apply load_rel, H|].
  intros a b E. rewrite (as_user_rel _ _ E). apply res_eq.
Qed.
Lemma store_user_rel h1 h2 p sz b : same_mem h1 h2 -> res_rel same_mem (store_user h1 p sz b) (store_user h2 p sz b).
Proof. intros H. unfold store_user. destruct (sz <=? 0); [exact H|]. apply store_rel; [exact H|reflexivity]. Qed.
Lemma str_rel f tv i j p h1 h2 : same_mem h1 h2 -> same_sres (str_tok C1 f tv i p h1) (str_tok C2 f tv j p h2).
Proof.
  intros H. unfold str_tok. destruct (f_ty f); try (apply serr_rel, H).
  - eapply rbind_rel; [apply unesc_rel|]. intros g1 g2 E. st_tac. cbn [content_cv]. f_equal. apply same_AStr, E.
  - destruct (ReadNumber tv) as [[? []]|]; try exact I; try (apply serr_rel, H); st_tac; apply same_CStr, mkstr_rel.
  - eapply rbind_rel; [apply res_eq|]. intros id ? <-. eapply rbind_rel; [apply res_eq|]. intros tb ? <-.
    eapply rbind_rel; [apply load_user_rel, H|]. intros old ? <-. cbn [c_ut C1 C2].
    destruct (ut id old tb) as [new er]. eapply rbind_rel; [apply store_user_rel, H|]. intros a b E. split; [exact E|reflexivity].
  - eapply rbind_rel; [apply unesc_rel|]. intros g1 g2 E. st_tac. apply same_CStr, E.
  - destruct (bytes_eqb _ _); [st_tac|]. destruct (bytes_eqb _ _); [st_tac|apply serr_rel, H].
  - destruct (quoted_inner tv); [|apply serr_rel, H]. st_tac; apply same_CStr, mkstr_rel.
  - cbn. destruct (ReadNumber tv) as [[? []]|]; try exact I; try (apply serr_rel, H); (destruct (parse_float _ _ _); [st_tac|apply serr_rel, H]).
  - change (int_of_str C1) with (int_of_str C2). eapply rbind_rel; [apply res_eq|]. intros a ? <-.
    destruct a; [st_tac|apply serr_rel, H].
Qed.
Lemma null_rel e p h1 h2 : same_mem h1 h2 -> res_rel same_mem (null_tok C1 e p h1) (null_tok C2 e p h2).
Proof. intros H. unfold null_tok. destruct e; try exact H; apply store_rel; try exact H; reflexivity. Qed.

Definition is_val (t : token) : bool :=
  match tk_ty t with KArr | KObj | KArrEnd | KObjEnd => false | _ => true end.
Lemma tr_raw t1 t2 : tr t1 t2 -> is_val t1 = true -> raw_of s1 t1 = raw_of s2 t2.
Proof. intros [(_ & _ & H) _] E. unfold is_val in E. destruct (tk_ty t1); try discriminate; apply H. Qed.
Lemma tr_body t1 t2 : tr t1 t2 -> tk_ty t1 = KStr \/ tk_ty t1 = KKey -> body_of s1 t1 = body_of s2 t2.
Proof. intros [(_ & _ & H) _] [E|E]; rewrite E in H; apply H; rewrite E; auto. Qed.
Lemma tr_ty t1 t2 : tr t1 t2 -> tk_ty t1 = tk_ty t2. Proof. intros [[H _] _]. exact H. Qed.
Lemma tr_n t1 t2 : tr t1 t2 -> tk_n t1 = tk_n t2. Proof. intros [(_ & H & _) _]. exact H. Qed.
Lemma tr_end t1 t2 : tr t1 t2 -> tk_ty t1 = KArr \/ tk_ty t1 = KObj -> tk_end t1 = tk_end t2.
Proof. intros [(_ & _ & H) _] [E|E]; rewrite E in H; exact H. Qed.
Lemma tr_pos t1 t2 : tr t1 t2 -> same_pos (tk_idx t1) (tk_idx t2). Proof. intros [_ H]. exact H. Qed.

Lemma scalar_rel f t1 t2 p h1 h2 : tr t1 t2 -> is_val t1 = true -> same_mem h1 h2 ->
  same_sres (scalar_tok C1 s1 f t1 p h1) (scalar_tok C2 s2 f t2 p h2).
Proof.
  intros T V H. unfold scalar_tok. rewrite <- (tr_ty _ _ T). pose proof (tr_raw _ _ T V) as R. unfold is_val in V.
  destruct (tk_ty t1) eqn:E; try discriminate.
  - apply sok_rel, null_rel, H.
  - apply bool_rel, H.
  - apply bool_rel, H.
  - rewrite R. eapply rbind_rel; [apply res_eq|]. intros a ? <-. apply int_rel, H.
  - rewrite R. eapply rbind_rel; [apply res_eq|]. intros a ? <-. apply num_rel, H.
  - rewrite (tr_body _ _ T) by auto. eapply rbind_rel; [apply res_eq|]. intros a ? <-. apply str_rel, H.
  - apply sok_rel, null_rel, H.
Qed.

(** *** Control *)
Lemma skip_extra_rel a b : Forall2 tr a b -> forall l, skip_extra l a = skip_extra l b.
Proof.
  induction 1 as [|x y a b T _ IH]; intros l; cbn; [reflexivity|]. rewrite <- (tr_ty _ _ T).
  destruct (tk_ty x); rewrite ?IH; try reflexivity. destruct l as [|[|]]; rewrite ?IH; reflexivity.
Qed.
Lemma skip_unknown_rel a b : Forall2 tr a b -> forall l, skip_unknown l a = skip_unknown l b.
Proof.
  induction 1 as [|x y a b T _ IH]; intros l; cbn; [reflexivity|]. rewrite <- (tr_ty _ _ T).
  destruct (tk_ty x); rewrite ?IH; try reflexivity; destruct (_ <? _); reflexivity.
Qed.

Lemma same_out_eq_dy i k D h1 h2 : same_mem h1 h2 -> same_out (Next (St i k D h1)) (Next (St i k D h2)).
Proof. intros H. repeat split; try exact H; apply H. Qed.

Lemma val_end_rel i k D h1 h2 : same_mem h1 h2 ->
  same_out (on_val_end stk toks1 (St i k D h1)) (on_val_end stk toks2 (St i k D h2)).
Proof.
  intros H. unfold on_val_end. cbv zeta. cbn [si ti dy hp].
  rewrite (skip_extra_rel _ _ (Forall2_skipn _ _ _ toks_tr k)).
  destruct (fr stk i) as [f|]; [|exact I]. destruct (f_parent f) as [c|]; [|apply same_out_eq_dy, H].
  destruct (fr stk c) as [fc|]; [|exact I].
  destruct (f_ty fc); try (apply same_out_eq_dy, H).
  - destruct i; [exact I|apply same_out_eq_dy, H].
  - destruct (_ <=? _); [|apply same_out_eq_dy, H]. destruct (skip_extra _ _); [apply same_out_eq_dy, H|exact I].
Qed.
Lemma recur_rel i k D h1 h2 : same_mem h1 h2 ->
  same_out (on_recur_obj_end stk toks1 (St i k D h1)) (on_recur_obj_end stk toks2 (St i k D h2)).
Proof.
  intros H. unfold on_recur_obj_end. cbn [si ti dy hp].
  destruct (fr stk i) as [f|]; [|exact I]. destruct (d_rs (D i)) as [|top rest]; [apply val_end_rel, H|].
  destruct (fr stk (r_con top)) as [fc|]; [|exact I].
  destruct (f_ty fc); apply same_out_eq_dy, H.
Qed.
Lemma ptr_rel i k D h1 h2 : same_mem h1 h2 ->
  same_out (on_ptr C1 stk (St i k D h1)) (on_ptr C2 stk (St i k D h2)).
Proof.
  intros H. unfold on_ptr. cbn [si ti dy hp]. destruct (fr stk (S i)) as [f|]; [|exact I].
  destruct (f_size f =? 0).
  - eapply lift_rel; [apply store_rel; [exact H|reflexivity]|]. intros a b E. apply same_out_eq_dy, E.
  - destruct (malloc_rel h1 h2 (f_size f) H) as [Ea Em]. destruct (malloc h1 (f_size f)), (malloc h2 (f_size f)).
    cbn in Ea, Em. subst. eapply lift_rel; [apply store_rel; [exact Em|reflexivity]|]. intros a b E. apply same_out_eq_dy, E.
Qed.

Lemma composite_range m t1 t2 : nth_error toks1 m = Some t1 -> nth_error toks2 m = Some t2 -> tk_ty t1 = KArr \/ tk_ty t1 = KObj ->
  exists e1 e2 r1 r2, nth_error toks1 (tk_end t1) = Some e1 /\ nth_error toks2 (tk_end t2) = Some e2 /\
    sub s1 (tk_idx t1) (tk_idx e1 + 1) = Ok r1 /\ sub s2 (tk_idx t2) (tk_idx e2 + 1) = Ok r2.
Proof.
  intros H1 H2 Ht.
  destruct (flat_sub2 _ _ (lexed_her s1) (lexed_her s2) v1 v2 0 m t1 doc lex1 lex2 H1 Ht) as (u1 & u2 & r1 & r2 & E1 & E2 & Sd & L1 & L2).
  cbn [Nat.add] in E1, E2.
  assert (G : forall s toks u r t, skipn m toks = flat m u ++ r -> lexed s u -> nth_error toks m = Some t ->
    tk_ty t = KArr \/ tk_ty t = KObj -> exists e r', nth_error toks (tk_end t) = Some e /\ sub s (tk_idx t) (tk_idx e + 1) = Ok r').
  { clear. intros s toks u r t E L Ht K.
    pose proof (nth_skipn0 toks m) as Z. rewrite E, Ht in Z.
    destruct K as [K|K].
    - destruct (flat_head_arr _ _ _ _ Z K) as (i & j & l & ->). rewrite flat_arr in E, Z. cbn in Z. injection Z as <-.
      cbn [app] in E. rewrite <- app_assoc in E. apply at_next in E as (_ & _ & E). apply at_skip in E. rewrite flats_length in E.
      apply at_next in E as (En & _ & _). cbn [tk_end tk_idx] in *. apply lexed_arr in L as (A & B & Lt & _).
      eexists. destruct (sub_ok _ _ _ _ _ A B Lt) as [r' R]. exists r'. split; [exact En|exact R].
    - destruct (flat_head_obj _ _ _ _ Z K) as (i & j & l & ->). rewrite flat_obj in E, Z. cbn in Z. injection Z as <-.
      cbn [app] in E. rewrite <- app_assoc in E. apply at_next in E as (_ & _ & E). apply at_skip in E. rewrite flatm_length in E.
      apply at_next in E as (En & _ & _). cbn [tk_end tk_idx] in *. apply lexed_obj in L as (A & B & Lt & _).
      eexists. destruct (sub_ok _ _ _ _ _ A B Lt) as [r' R]. exists r'. split; [exact En|exact R]. }
  pose proof (Forall2_nth _ _ _ toks_tr m) as T. rewrite H1, H2 in T.
  destruct (G s1 toks1 u1 r1 t1 E1 L1 H1 Ht) as (e1 & q1 & A1 & B1).
  rewrite (tr_ty _ _ T) in Ht. destruct (G s2 toks2 u2 r2 t2 E2 L2 H2 Ht) as (e2 & q2 & A2 & B2).
  exists e1, e2, q1, q2. auto.
Qed.

Lemma json_rel f t1 t2 i k D h1 h2 : same_mem h1 h2 -> In f stk -> f_ty f = EJSON ->
  nth_error toks1 k = Some t1 -> nth_error toks2 k = Some t2 -> tk_ty t1 <> KArrEnd -> tk_ty t1 <> KObjEnd ->
  same_out (on_json C1 stk s1 toks1 f t1 (St i k D h1)) (on_json C2 stk s2 toks2 f t2 (St i k D h2)).
Proof.
  intros H Hf Hj N1 N2 Na No. unfold on_json. cbv zeta. cbn [si ti dy hp].
  pose proof (Forall2_nth _ _ _ toks_tr k) as T. rewrite N1, N2 in T.
  set (rg1 := match tk_ty t1 with KArr | KObj => _ | _ => _ end).
  set (rg2 := match tk_ty t2 with KArr | KObj => _ | _ => _ end).
  assert (R : res_rel (fun a b => snd a = snd b /\ forall id old, uj id old (fst a) = uj id old (fst b)) rg1 rg2).
  { subst rg1 rg2. rewrite <- (tr_ty _ _ T).
    assert (Val : is_val t1 = true -> res_rel (fun a b : bytes * nat => snd a = snd b /\ forall id old, uj id old (fst a) = uj id old (fst b))
       (let* r := raw_of s1 t1 in Ok (r, S k)) (let* r := raw_of s2 t2 in Ok (r, S k))).
    { intros V. rewrite (tr_raw _ _ T V). eapply rbind_rel; [apply res_eq|]. intros a ? <-. cbn. auto. }
    assert (Com : tk_ty t1 = KArr \/ tk_ty t1 = KObj -> res_rel (fun a b : bytes * nat => snd a = snd b /\ forall id old, uj id old (fst a) = uj id old (fst b))
       match nth_error toks1 (tk_end t1) with None => Pan | Some te => let* r := sub s1 (tk_idx t1) (tk_idx te + 1) in Ok (r, (tk_end t1 + 1)%nat) end
       match nth_error toks2 (tk_end t2) with None => Pan | Some te => let* r := sub s2 (tk_idx t2) (tk_idx te + 1) in Ok (r, (tk_end t2 + 1)%nat) end).
    { intros K. destruct (composite_range k t1 t2 N1 N2 K) as (e1 & e2 & q1 & q2 & A1 & A2 & B1 & B2).
      rewrite A1, A2, B1, B2. cbn. rewrite (tr_end _ _ T K). split; [reflexivity|]. intros id old.
      exact (json_same (ex_intro _ f (conj Hf Hj)) k t1 t2 e1 e2 q1 q2 id old N1 N2 K A1 A2 B1 B2). }
    unfold is_val in Val. destruct (tk_ty t1); auto; contradiction. }
  eapply lift_rel; [exact R|]. intros [raw1 k1] [raw2 k2] [Ek Er]. cbn in Ek, Er. subst k2.
  eapply lift_rel; [apply res_eq|]. intros id ? <-.
  eapply lift_rel; [apply load_user_rel, H|]. intros old ? <-. cbn [c_uj C1 C2]. rewrite Er.
  destruct (uj id old raw2) as [new er]. eapply lift_rel; [apply store_user_rel, H|]. intros a b E.
  destruct er; [|apply val_end_rel, E]. split; [apply tr_pos, T|]. split; [reflexivity|]. repeat split; apply E.
Qed.

(** *** any *)
Definition opt_rel {A} (R : A -> A -> Prop) (x y : option A) : Prop :=
  match x, y with Some a, Some b => R a b | None, None => True | _, _ => False end.
Lemma str_of_rel i j raw : same_str (str_of C1 i raw) (str_of C2 j raw).
Proof.
  unfold str_of. pose proof (unesc_rel (i + 1) (j + 1) raw) as H. destruct (unesc_str C1 _ raw), (unesc_str C2 _ raw); cbn in H; try tauto; try reflexivity.
Qed.
Lemma anyv_rel u1 : forall u2, same_doc u1 u2 -> opt_rel (fun a b => content_any a = content_any b) (anyv C1 u1) (anyv C2 u2).
Proof.
  induction u1 using jv_ind'; intros [] S; cbn [same_doc] in S; try tauto; subst; cbn [anyv].
  - reflexivity.
  - reflexivity.
  - cbn. destruct (parse_float _ _ _); cbn; auto.
  - cbn. destruct (parse_float _ _ _); cbn; auto.
  - cbn [opt_rel]. apply same_AStr, str_of_rel.
  - apply (proj1 (same_doc_arr 0 0 _ 0 0 _)) in S.
    assert (G : forall acc1 acc2, map content_any acc1 = map content_any acc2 ->
      opt_rel (fun a b => content_any a = content_any b) (anyl C1 acc1 l) (anyl C2 acc2 l0)).
    { induction S as [|x y l l0 Sx Sl IH]; intros acc1 acc2 E; cbn [anyl opt_rel content_any]; [f_equal; exact E|].
      inversion H; subst. specialize (H2 y Sx). destruct (anyv C1 x), (anyv C2 y); cbn in H2; try tauto.
      apply IH; [assumption|]. rewrite !map_app, E. cbn. rewrite H2. reflexivity. }
    exact (G [] [] eq_refl).
  - apply (proj1 (same_doc_obj 0 0 _ 0 0 _)) in S.
    assert (G : forall acc1 acc2,
      map (fun x => (content_str (fst x), content_any (snd x))) acc1 = map (fun x => (content_str (fst x), content_any (snd x))) acc2 ->
      opt_rel (fun a b => content_any a = content_any b) (anym C1 acc1 l) (anym C2 acc2 l0)).
    { induction S as [|x y l l0 [Sk Sx] Sl IH]; intros acc1 acc2 E; cbn [anym opt_rel content_any]; [f_equal; exact E|].
      inversion H; subst. specialize (H2 (snd y) Sx). destruct (anyv C1 (snd x)), (anyv C2 (snd y)); cbn in H2; try tauto.
      apply IH; [assumption|]. apply content_assoc_put; [rewrite Sk; apply str_of_rel|exact H2|exact E]. }
    exact (G [] [] eq_refl).
Qed.

Lemma any_rel t1 t2 i k D h1 h2 : same_mem h1 h2 -> nth_error toks1 k = Some t1 -> nth_error toks2 k = Some t2 ->
  tk_ty t1 = KArr \/ tk_ty t1 = KObj ->
  same_out (any_tok C1 stk s1 toks1 t1 (St i k D h1)) (any_tok C2 stk s2 toks2 t2 (St i k D h2)).
Proof.
  intros H N1 N2 K.
  destruct (flat_sub2 _ _ (lexed_her s1) (lexed_her s2) v1 v2 0 k t1 doc lex1 lex2 N1 K) as (u1 & u2 & r1 & r2 & E1 & E2 & Sd & L1 & L2).
  cbn [Nat.add] in E1, E2. fold toks1 in E1. fold toks2 in E2. unfold any_tok. cbn [ti si dy hp].
  pose proof (Forall2_nth _ _ _ toks_tr k) as T. rewrite N1, N2 in T.
  assert (F1 : (ntok u1 <= length toks1)%nat).
  { apply (f_equal (@length token)) in E1. rewrite skipn_length, app_length, flat_length in E1. lia. }
  assert (F2 : (ntok u2 <= length toks2)%nat).
  { apply (f_equal (@length token)) in E2. rewrite skipn_length, app_length, flat_length in E2. lia. }
  rewrite E1, E2, !decodeAny_flat by (try assumption; lia).
  pose proof (anyv_rel u1 u2 Sd) as A. destruct (anyv C1 u1), (anyv C2 u2); cbn in A; try tauto.
  - eapply lift_rel; [apply store_rel; [exact H|cbn; f_equal; exact A]|]. intros a b E.
    replace (length toks2 - length r2)%nat with (length toks1 - length r1)%nat; [apply val_end_rel, E|].
    apply (f_equal (@length token)) in E1, E2. rewrite skipn_length, app_length, flat_length in E1, E2.
    rewrite (same_doc_ntok _ _ Sd) in E1. pose proof toks_len. lia.
  - split; [apply tr_pos, T|]. split; [reflexivity|]. repeat split; apply H.
Qed.

(** *** Slices and maps *)
Lemma grow_rel h1 h2 p e n k : same_mem h1 h2 -> res_rel (pair_rel eq same_mem) (grow_slice C1 h1 p e n k) (grow_slice C2 h2 p e n k).
Proof.
  intros H. unfold grow_slice. eapply rbind_rel; [apply load_rel, H|]. intros c d E. rewrite (as_slice_rel _ _ E).
  eapply rbind_rel; [apply res_eq|]. intros [[data len] cap] ? <-. destruct (cap <? n).
  - destruct (malloc_rel h1 h2 (e * n) H) as [Ea Em]. destruct (malloc h1 _), (malloc h2 _). cbn in Ea, Em. subst.
    eapply rbind_rel with (R := same_mem); [destruct (_ && _); [apply copy_rel, Em|exact Em]|]. intros x y Exy.
    eapply rbind_rel; [apply store_rel; [exact Exy|reflexivity]|]. intros x' y' E'. split; [reflexivity|exact E'].
  - destruct data; [|exact I]. eapply rbind_rel; [apply store_rel; [exact H|reflexivity]|]. intros x' y' E'. split; [reflexivity|exact E'].
Qed.
Lemma init_map_rel h1 h2 p : same_mem h1 h2 -> res_rel same_mem (init_map C1 h1 p) (init_map C2 h2 p).
Proof.
  intros H. unfold init_map. eapply rbind_rel; [apply load_rel, H|]. intros c d E. rewrite (as_map_rel _ _ E).
  eapply rbind_rel; [apply res_eq|]. intros m ? <-. destruct m; [exact H|].
  destruct (makemap_rel h1 h2 H) as [Ea Em]. destruct (makemap h1), (makemap h2). cbn in Ea, Em. subst.
  apply store_rel; [exact Em|reflexivity].
Qed.
Definition same_elem (x y : (cv * Z) + err) : Prop :=
  match x, y with inl (c, n), inl (d, m) => same_cv c d /\ n = m | inr e, inr e' => e = e' | _, _ => False end.
Lemma fast_elem_rel e t1 t2 : tr t1 t2 -> res_rel same_elem (fast_elem C1 s1 e t1) (fast_elem C2 s2 e t2).
Proof.
  intros T. unfold fast_elem. rewrite <- (tr_ty _ _ T). pose proof (tr_raw _ _ T) as R. pose proof (tr_body _ _ T) as B.
  unfold is_val in R.
  destruct e; try exact I; destruct (tk_ty t1); try reflexivity; try (split; reflexivity).
  - rewrite B by auto. eapply rbind_rel; [apply res_eq|]. intros a ? <-. eapply rbind_rel; [apply unesc_rel|].
    intros g1 g2 E. split; [apply same_CStr, E|reflexivity].
  - rewrite R by auto. eapply rbind_rel; [apply res_eq|]. intros a ? <-.
    change (int_of_tok C1) with (int_of_tok C2). eapply rbind_rel; [apply res_eq|]. intros x ? <-.
    destruct x; cbn; split; reflexivity.
  - rewrite R by auto. eapply rbind_rel; [apply res_eq|]. intros a ? <-.
    change (float_of_int_tok C1) with (float_of_int_tok C2). destruct (float_of_int_tok _ _ _); cbn; try split; reflexivity.
  - rewrite R by auto. eapply rbind_rel; [apply res_eq|]. intros a ? <-. cbn.
    destruct (parse_float _ _ _); cbn; try split; reflexivity.
Qed.
Definition same_fail (x y : option (nat * err)) : Prop :=
  match x, y with Some (i, e), Some (j, e') => same_pos i j /\ e = e' | None, None => True | _, _ => False end.
Lemma fast_loop_rel e a n ts1 ts2 : Forall2 tr ts1 ts2 -> forall i h1 h2, same_mem h1 h2 ->
  res_rel (pair_rel same_mem same_fail) (fast_loop C1 s1 e a n i ts1 h1) (fast_loop C2 s2 e a n i ts2 h2).
Proof.
  induction 1 as [|t1 t2 ts1 ts2 T _ IH]; intros i h1 h2 H; cbn [fast_loop]; [split; [exact H|exact I]|].
  eapply rbind_rel; [apply fast_elem_rel, T|]. intros [[v sz]|er] [[v' sz']|er'] E; cbn in E; try tauto.
  - destruct E as [E <-]. destruct (n <=? i); [exact I|]. eapply rbind_rel; [apply store_rel; [exact H|exact E]|].
    intros x y Exy. apply IH, Exy.
  - subst. split; [exact H|]. split; [apply tr_pos, T|reflexivity].
Qed.
Lemma mss_rel u1 u2 : Forall2 same_member u1 u2 ->
  Forall (fun x => key_lexed s1 x /\ lexed s1 (snd x)) u1 -> Forall (fun x => key_lexed s2 x /\ lexed s2 (snd x)) u2 ->
  forall k acc1 acc2, Forall2 tr (flatm k u1) (flatm k u2) ->
  map (fun x => (content_str (fst x), content_str (snd x))) acc1 = map (fun x => (content_str (fst x), content_str (snd x))) acc2 ->
  res_rel (fun x y => match x, y with
     | inl l, inl m => map (fun x => (content_str (fst x), content_str (snd x))) l = map (fun x => (content_str (fst x), content_str (snd x))) m
     | inr (i, e), inr (j, e') => same_pos i j /\ e = e' | _, _ => False end)
    (mss_loop C1 s1 (flatm k u1) acc1) (mss_loop C2 s2 (flatm k u2) acc2).
Proof.
  intros S. induction S as [|x y u1 u2 [Sk Sx] Sl IH]; intros L1 L2 k acc1 acc2 F E; [exact E|].
  inversion L1 as [|? ? [[K1 _] V1] L1']; inversion L2 as [|? ? [[K2 _] V2] L2']; subst. cbn [flatm] in *.
  inversion F as [|? ? ? ? Tk F' ]; subst. clear F.
  pose proof (tr_body _ _ Tk (or_intror eq_refl)) as Bk.
  assert (R : forall a b, a ++ flatm (S k + ntok (snd x)) u1 = b -> True) by auto. clear R.
  pose proof (same_doc_ntok _ _ Sx) as Nt. rewrite <- Nt in *.
  destruct (snd x), (snd y); cbn [same_doc] in Sx; try tauto; subst;
    cbn [flat app] in F' |- *; inversion F' as [|? ? ? ? Tv F'']; subst; cbn [mss_loop tk_ty].
  1: { rewrite Bk. eapply rbind_rel; [apply res_eq|]. intros kb ? <-. eapply rbind_rel; [apply unesc_rel|]. intros g1 g2 Eg.
       apply IH; try assumption. apply content_assoc_put; [exact Eg|reflexivity|exact E]. }
  4: { rewrite Bk. eapply rbind_rel; [apply res_eq|]. intros kb ? <-. eapply rbind_rel; [apply unesc_rel|]. intros g1 g2 Eg.
       rewrite (tr_body _ _ Tv (or_introl eq_refl)). eapply rbind_rel; [apply res_eq|]. intros vb ? <-. eapply rbind_rel; [apply unesc_rel|]. intros q1 q2 Eq.
       apply IH; try assumption. apply content_assoc_put; [exact Eg|unfold content_str; f_equal; exact Eq|exact E]. }
  all: try destruct b0.
  all: split; [apply (tr_pos _ _ Tv)|reflexivity].
Qed.
Lemma map_key_rel fk kb i j : res_rel (fun x y => match x, y with
    | inl (Some k), inl (Some k') => content_key k = content_key k' | inl None, inl None => True
    | inr e, inr e' => e = e' | _, _ => False end) (map_key C1 fk kb i) (map_key C2 fk kb j).
Proof.
  unfold map_key. destruct (f_ty fk); try exact I.
  - eapply rbind_rel; [apply res_eq|]. intros id ? <-. eapply rbind_rel; [apply res_eq|]. intros tb ? <-.
    cbn [c_ut C1 C2]. destruct (ut id [] tb) as [new [c|]]; reflexivity.
  - eapply rbind_rel; [apply unesc_rel|]. intros g1 g2 E. cbn. unfold content_str. rewrite E. reflexivity.
  - change (int_of_str C1) with (int_of_str C2). eapply rbind_rel; [apply res_eq|]. intros x ? <-.
    destruct x; reflexivity.
Qed.

Lemma fast_slice_rel e t1 t2 i k D h1 h2 : same_mem h1 h2 -> tr t1 t2 -> tk_ty t1 = KArr ->
  same_out (fast_slice C1 stk s1 toks1 e t1 (St i k D h1)) (fast_slice C2 stk s2 toks2 e t2 (St i k D h2)).
Proof.
  intros H T K. unfold fast_slice. cbn [si ti dy hp]. rewrite <- (tr_n _ _ T), <- (tr_end _ _ T) by auto. cbv zeta.
  destruct (_ <? 1).
  - eapply lift_rel; [apply store_rel; [exact H|reflexivity]|]. intros a b E. apply val_end_rel, E.
  - eapply lift_rel with (R := eq).
    { eapply rbind_rel; [apply load_rel, H|]. intros c d E. rewrite (as_slice_rel _ _ E). apply res_eq. }
    intros [[data len] cap] ? <-.
    assert (F : Forall2 tr (firstn (tk_end t1 - S k) (skipn (S k) toks1)) (firstn (tk_end t1 - S k) (skipn (S k) toks2))).
    { apply Forall2_firstn, Forall2_skipn, toks_tr. }
    assert (G : forall a g1 g2, same_mem g1 g2 -> same_out
      (lift (fast_loop C1 s1 e a (Z.of_nat (tk_n t1)) 0 (firstn (tk_end t1 - S k) (skipn (S k) toks1)) g1) (fun '(h, er) =>
        match er with
        | Some (i', e') => Fail i' e' (with_hp h (St i k D h1))
        | None => lift (store h (dst D i) (3 * wb (c_w64 C1)) (CSlice a (Z.of_nat (tk_n t1)) (if negb (cap <? Z.of_nat (tk_n t1)) then cap else Z.of_nat (tk_n t1)))) (fun h =>
             on_val_end stk toks1 (St i (k + length (firstn (tk_end t1 - S k) (skipn (S k) toks1)) + 2) D h))
        end))
      (lift (fast_loop C2 s2 e a (Z.of_nat (tk_n t1)) 0 (firstn (tk_end t1 - S k) (skipn (S k) toks2)) g2) (fun '(h, er) =>
        match er with
        | Some (i', e') => Fail i' e' (with_hp h (St i k D h2))
        | None => lift (store h (dst D i) (3 * wb (c_w64 C2)) (CSlice a (Z.of_nat (tk_n t1)) (if negb (cap <? Z.of_nat (tk_n t1)) then cap else Z.of_nat (tk_n t1)))) (fun h =>
             on_val_end stk toks2 (St i (k + length (firstn (tk_end t1 - S k) (skipn (S k) toks2)) + 2) D h))
        end))).
    { intros a g1 g2 Hg. eapply lift_rel; [apply (fast_loop_rel _ _ _ _ _ F), Hg|].
      intros [x er] [y er'] [Exy Eer]. cbn in Exy, Eer. destruct er as [[ii ee]|], er' as [[jj ee']|]; cbn in Eer; try tauto.
      - destruct Eer as [P <-]. split; [exact P|]. split; [reflexivity|]. repeat split; apply Exy.
      - rewrite (Forall2_len _ _ _ F). eapply lift_rel; [apply store_rel; [exact Exy|reflexivity]|]. intros a' b' E'. apply val_end_rel, E'. }
    destruct (cap <? Z.of_nat (tk_n t1)); cbn [negb] in *.
    + change (fast_size C1) with (fast_size C2).
      destruct (malloc_rel h1 h2 (fast_size C2 e * Z.of_nat (tk_n t1)) H) as [Ea Em].
      destruct (malloc h1 _), (malloc h2 _). cbn in Ea, Em. subst. apply G, Em.
    + destruct data; [apply G, H|exact I].
Qed.

Ltac nx := first [apply same_out_eq_dy; assumption | apply val_end_rel; assumption | apply recur_rel; assumption].
Lemma fail_rel t1 t2 e i k D h1 h2 : tr t1 t2 -> same_mem h1 h2 ->
  same_out (Fail (tk_idx t1) e (St i k D h1)) (Fail (tk_idx t2) e (St i k D h2)).
Proof. intros T H. split; [apply tr_pos, T|]. split; [reflexivity|]. repeat split; apply H. Qed.

Lemma arr_rel f t1 t2 i k D h1 h2 : same_mem h1 h2 -> In f stk ->
  nth_error toks1 k = Some t1 -> nth_error toks2 k = Some t2 -> tk_ty t1 = KArr ->
  same_out (arr_tok C1 stk s1 toks1 f t1 (St i k D h1)) (arr_tok C2 stk s2 toks2 f t2 (St i k D h2)).
Proof.
  intros H Hf N1 N2 K. pose proof (Forall2_nth _ _ _ toks_tr k) as T. rewrite N1, N2 in T.
  unfold arr_tok. cbv zeta. destruct (f_ty f) eqn:Ef; try (apply fail_rel; assumption); cbn [si ti dy hp];
    rewrite <- ?(tr_n _ _ T), <- ?(tr_end _ _ T) by auto.
  all: try (apply fast_slice_rel; assumption).
  all: try (apply ptr_rel; assumption).
  all: try (apply any_rel; auto; fail).
  all: try (apply json_rel; auto; rewrite K; discriminate).
  - destruct (_ <? _)%nat; [apply val_end_rel, H|]. destruct (fr stk (S i)); [nx|exact I].
  - apply val_end_rel, H.
  - destruct (fr stk (S i)) as [fe|]; [|exact I]. destruct (Nat.eqb _ _).
    + eapply lift_rel; [apply store_rel; [exact H|reflexivity]|]. intros a b E. nx.
    + eapply lift_rel; [apply grow_rel, H|]. intros [a x] [b y] [Ea Exy]. cbn in Ea, Exy. subst. nx.
  - destruct (fr stk (f_recur f)) as [fe|]; [|exact I]. destruct (Nat.eqb _ _).
    + eapply lift_rel; [apply store_rel; [exact H|reflexivity]|]. intros a b E. destruct (d_rs _); nx.
    + eapply lift_rel; [apply grow_rel, H|]. intros [a x] [b y] [Ea Exy]. cbn in Ea, Exy. subst. nx.
  - eapply lift_rel; [apply store_rel; [exact H|reflexivity]|]. intros a b E. nx.
Qed.

Lemma obj_rel f t1 t2 i k D h1 h2 : same_mem h1 h2 -> In f stk ->
  nth_error toks1 k = Some t1 -> nth_error toks2 k = Some t2 -> tk_ty t1 = KObj ->
  same_out (obj_tok C1 stk s1 toks1 f t1 (St i k D h1)) (obj_tok C2 stk s2 toks2 f t2 (St i k D h2)).
Proof.
  intros H Hf N1 N2 K. pose proof (Forall2_nth _ _ _ toks_tr k) as T. rewrite N1, N2 in T.
  unfold obj_tok. cbv zeta. destruct (f_ty f) eqn:Ef; try (apply fail_rel; assumption); cbn [si ti dy hp];
    rewrite <- ?(tr_n _ _ T), <- ?(tr_end _ _ T) by auto.
  all: try (apply ptr_rel; assumption).
  all: try (apply any_rel; auto; fail).
  all: try (apply json_rel; auto; rewrite K; discriminate).
  all: try (destruct (Nat.eqb _ _); nx).
  all: try (eapply lift_rel; [apply init_map_rel, H|]; intros a b E; destruct (Nat.eqb _ _); nx).
  all: try nx.
  - destruct (fr stk (f_recur f)) as [fe|]; [|exact I].
    eapply lift_rel; [apply load_rel, H|]. intros c d E. rewrite (as_ptr_rel _ _ E).
    eapply lift_rel; [apply res_eq|]. intros old ? <-.
    eapply lift_rel with (R := pair_rel eq same_mem).
    { destruct old; [split; [reflexivity|exact H]|].
      destruct (malloc_rel h1 h2 (f_size fe) H) as [Ea Em]. destruct (malloc h1 _), (malloc h2 _). cbn in Ea, Em. subst.
      eapply rbind_rel; [apply store_rel; [exact Em|reflexivity]|]. intros x y Exy. split; [reflexivity|exact Exy]. }
    intros [a x] [b y] [Ea Exy]. cbn in Ea, Exy. subst. destruct (Nat.eqb _ _); nx.
  - destruct (Nat.eqb _ _).
    + eapply lift_rel; [apply store_rel; [exact H|reflexivity]|]. intros a b E. nx.
    + destruct (flat_sub2 _ _ (lexed_her s1) (lexed_her s2) v1 v2 0 k t1 doc lex1 lex2 N1 (or_intror K)) as (u1 & u2 & r1 & r2 & E1 & E2 & Sd & L1 & L2).
      cbn [Nat.add] in E1, E2. fold toks1 in E1. fold toks2 in E2.
      pose proof (nth_skipn0 toks1 k) as Z1. rewrite E1, N1 in Z1. pose proof (nth_skipn0 toks2 k) as Z2. rewrite E2, N2 in Z2.
      destruct (flat_head_obj _ _ _ _ Z1 K) as (i1 & j1 & l1 & ->).
      rewrite (tr_ty _ _ T) in K. destruct (flat_head_obj _ _ _ _ Z2 K) as (i2 & j2 & l2 & ->).
      apply (proj1 (same_doc_obj 0 0 _ 0 0 _)) in Sd. apply lexed_obj in L1, L2. destruct L1 as (_ & _ & _ & L1), L2 as (_ & _ & _ & L2).
      rewrite flat_obj in E1, E2, Z1, Z2. cbn in Z1, Z2. injection Z1 as <-. injection Z2 as <-.
      cbn [app] in E1, E2. rewrite <- app_assoc in E1, E2. apply at_next in E1 as (_ & _ & E1). apply at_next in E2 as (_ & _ & E2).
      cbn [tk_end]. pose proof (Forall2_firstn _ _ _ (Forall2_skipn _ _ _ toks_tr (S k)) (S (k + ntokm l1) - S k)) as F.
      rewrite E1, E2 in F |- *. rewrite firstn_app_l in F |- * by (rewrite flatm_length; lia).
      rewrite (firstn_app_l _ (flatm (S k) l2)) in F |- * by (rewrite flatm_length, (same_ntokm _ _ Sd); lia).
      eapply lift_rel; [apply (mss_rel _ _ Sd L1 L2 _ [] [] F eq_refl)|].
      intros [m1|[x1 y1]] [m2|[x2 y2]] E; try tauto.
      * eapply lift_rel; [apply store_rel; [exact H|cbn [content_cv]; f_equal; exact E]|]. intros a b Eab. nx.
      * destruct E as [P <-]. split; [exact P|]. split; [reflexivity|]. repeat split; apply H.
Qed.

Lemma key_rel f t1 t2 i k D h1 h2 : same_mem h1 h2 ->
  nth_error toks1 k = Some t1 -> nth_error toks2 k = Some t2 -> tk_ty t1 = KKey ->
  same_out (key_tok C1 O stk s1 toks1 f t1 (St i k D h1)) (key_tok C2 O stk s2 toks2 f t2 (St i k D h2)).
Proof.
  intros H N1 N2 K. pose proof (Forall2_nth _ _ _ toks_tr k) as T. rewrite N1, N2 in T.
  unfold key_tok. cbn [si ti dy hp].
  rewrite (tr_body _ _ T) by auto. rewrite (skip_unknown_rel _ _ (Forall2_skipn _ _ _ toks_tr (S k))).
  assert (St_ : same_out
    (lift (body_of s2 t2) (fun kb => lift (if o_nounescape O then Ok kb else unesc kb) (fun key =>
      match lookup_field (c_fold C1) (o_nofold O) (f_fields f) key with
      | Some i => Next (St i (S k) D h1)
      | None => if o_unknown O then Fail (tk_idx t1) EUnknownField (St i k D h1)
          else match skip_unknown 0 (skipn (S k) toks2) with None => Panic | Some n => Next (goto_ti (S k + n) (St i k D h1)) end end)))
    (lift (body_of s2 t2) (fun kb => lift (if o_nounescape O then Ok kb else unesc kb) (fun key =>
      match lookup_field (c_fold C2) (o_nofold O) (f_fields f) key with
      | Some i => Next (St i (S k) D h2)
      | None => if o_unknown O then Fail (tk_idx t2) EUnknownField (St i k D h2)
          else match skip_unknown 0 (skipn (S k) toks2) with None => Panic | Some n => Next (goto_ti (S k + n) (St i k D h2)) end end)))).
  { eapply lift_rel; [apply res_eq|]. intros kb ? <-. eapply lift_rel; [apply res_eq|]. intros key ? <-. cbn [c_fold C1 C2].
    destruct (lookup_field _ _ _ _); [nx|]. destruct (o_unknown O); [apply fail_rel; assumption|].
    destruct (skip_unknown _ _); [nx|exact I]. }
  assert (Mp : forall ex, same_out
    (lift (body_of s2 t2) (fun kb => lift (let* c := load h1 (dst D i) (wb (c_w64 C1)) in as_map c) (fun m =>
      match fr stk (S i) with None => Panic | Some fk =>
          lift (map_key C1 fk kb (tk_idx t1)) (fun k0 => match k0 with inr e => Fail (tk_idx t1) e (St i k D h1) | inl k0 =>
              lift (match k0 with Some k0 => let* (a, h) := mapassign h1 m k0 (f_vsize f) in Ok (Some a, h) | None => Ok (None, h1) end) (fun '(p, h) =>
              match fr stk ex with None => Panic | Some fv =>
                  lift (match f_ty fv with EStruct | EStructRecur => clear h p (f_vsize f) | _ => Ok h end) (fun h =>
                  Next (St ex (S k) (upd_d D ex (set_dest p)) h)) end) end) end)))
    (lift (body_of s2 t2) (fun kb => lift (let* c := load h2 (dst D i) (wb (c_w64 C2)) in as_map c) (fun m =>
      match fr stk (S i) with None => Panic | Some fk =>
          lift (map_key C2 fk kb (tk_idx t2)) (fun k0 => match k0 with inr e => Fail (tk_idx t2) e (St i k D h2) | inl k0 =>
              lift (match k0 with Some k0 => let* (a, h) := mapassign h2 m k0 (f_vsize f) in Ok (Some a, h) | None => Ok (None, h2) end) (fun '(p, h) =>
              match fr stk ex with None => Panic | Some fv =>
                  lift (match f_ty fv with EStruct | EStructRecur => clear h p (f_vsize f) | _ => Ok h end) (fun h =>
                  Next (St ex (S k) (upd_d D ex (set_dest p)) h)) end) end) end)))).
  { intros ex. eapply lift_rel; [apply res_eq|]. intros kb ? <-.
    eapply lift_rel with (R := eq).
    { eapply rbind_rel; [apply load_rel, H|]. intros c d E. rewrite (as_map_rel _ _ E). apply res_eq. }
    intros m ? <-. destruct (fr stk (S i)) as [fk|]; [|exact I].
    eapply lift_rel; [apply map_key_rel|]. intros [k1|e1] [k2|e2] E; try (destruct k1; tauto); try tauto; [|subst; apply fail_rel; assumption].
    eapply lift_rel with (R := pair_rel eq same_mem).
    { destruct k1 as [k1|], k2 as [k2|]; try tauto; [|split; [reflexivity|exact H]].
      eapply rbind_rel; [apply mapassign_rel; [exact H|exact E]|]. intros [a x] [b y] [Ea Exy]. cbn in Ea, Exy. subst. split; [reflexivity|exact Exy]. }
    intros [p x] [q y] [Ep Exy]. cbn in Ep, Exy. subst q. destruct (fr stk ex) as [fv|]; [|exact I].
    eapply lift_rel with (R := same_mem); [destruct (f_ty fv); try exact Exy; apply clear_rel, Exy|]. intros a b E'. nx. }
  destruct (f_ty f); try (apply fail_rel; assumption); try exact St_; apply Mp.
Qed.

Lemma step_rel i k D h1 h2 : same_mem h1 h2 ->
  same_out (step C1 O stk s1 toks1 (St i k D h1)) (step C2 O stk s2 toks2 (St i k D h2)).
Proof.
  intros H. unfold step. cbn [si ti]. pose proof (Forall2_nth _ _ _ toks_tr k) as T.
  destruct (nth_error toks1 k) as [t1|] eqn:N1, (nth_error toks2 k) as [t2|] eqn:N2; try tauto; try exact I.
  destruct (fr stk i) as [f|] eqn:Ef; [|exact I]. assert (Hf : In f stk) by (eapply nth_error_In; exact Ef).
  rewrite <- (tr_ty _ _ T).
  assert (Scal : is_val t1 = true -> same_out
    (match f_ty f, tk_ty t1 with
          | EJSON, _ => on_json C1 stk s1 toks1 f t1 (St i k D h1)
          | EPtr, KNull => lift (null_tok C1 EPtr (dst D i) h1) (fun h => on_val_end stk toks1 (St i (S k) D h))
          | EPtr, _ => on_ptr C1 stk (St i k D h1)
          | _, _ =>
              lift (scalar_tok C1 s1 f t1 (dst D i) h1) (fun '(h, r) =>
              match r with
              | Some e => Fail (tk_idx t1) e (with_hp h (St i k D h1))
              | None => on_val_end stk toks1 (St i (S k) D h)
              end)
          end)
    (match f_ty f, tk_ty t1 with
          | EJSON, _ => on_json C2 stk s2 toks2 f t2 (St i k D h2)
          | EPtr, KNull => lift (null_tok C2 EPtr (dst D i) h2) (fun h => on_val_end stk toks2 (St i (S k) D h))
          | EPtr, _ => on_ptr C2 stk (St i k D h2)
          | _, _ =>
              lift (scalar_tok C2 s2 f t2 (dst D i) h2) (fun '(h, r) =>
              match r with
              | Some e => Fail (tk_idx t2) e (with_hp h (St i k D h2))
              | None => on_val_end stk toks2 (St i (S k) D h)
              end)
          end)).
  { intros V.
    assert (Sc : same_out
       (lift (scalar_tok C1 s1 f t1 (dst D i) h1) (fun '(h, r) =>
              match r with
              | Some e => Fail (tk_idx t1) e (with_hp h (St i k D h1))
              | None => on_val_end stk toks1 (St i (S k) D h)
              end))
       (lift (scalar_tok C2 s2 f t2 (dst D i) h2) (fun '(h, r) =>
              match r with
              | Some e => Fail (tk_idx t2) e (with_hp h (St i k D h2))
              | None => on_val_end stk toks2 (St i (S k) D h)
              end))).
    { eapply lift_rel; [apply (scalar_rel f t1 t2 (dst D i) h1 h2 T V H)|]. intros [x r] [y r'] [Exy Er]. cbn in Exy, Er. subst r'.
      destruct r; [apply fail_rel; assumption|nx]. }
    destruct (f_ty f) eqn:Ety; try exact Sc.
    - apply json_rel; auto; unfold is_val in V; intros Q; rewrite Q in V; discriminate.
    - destruct (tk_ty t1); try (apply ptr_rel; exact H).
      eapply lift_rel; [apply null_rel, H|]. intros a b E. nx. }
  unfold is_val in Scal. destruct (tk_ty t1) eqn:K; try (apply Scal; reflexivity); clear Scal.
  - apply arr_rel; assumption.
  - unfold arr_end_tok. cbn [goto_ti goto_si si ti dy hp].
    destruct (f_ty f); try (destruct i; [exact I|nx]).
    destruct (d_rs _) as [|top rest]; [nx|]. destruct (fr stk (r_con top)); [nx|exact I].
  - apply obj_rel; assumption.
  - unfold obj_end_tok. cbn [goto_ti goto_si si ti dy hp].
    destruct (f_ty f); try nx. destruct (fr stk (f_recur f)); [|exact I]. destruct (d_rs _) as [|top rest]; nx.
  - apply key_rel; assumption.
Qed.

Definition same_rout (r1 r2 : rout) : Prop :=
  match r1, r2 with
  | RDone x, RDone y => same_st x y
  | RFail i e x, RFail j e' y => same_pos i j /\ e = e' /\ same_st x y
  | RPanic, RPanic => True
  | RCorrupt, RCorrupt => True
  | RFuel, RFuel => True
  | _, _ => False
  end.
Lemma run_rel fuel : forall i k D h1 h2, same_mem h1 h2 ->
  same_rout (run C1 O stk s1 toks1 fuel (St i k D h1)) (run C2 O stk s2 toks2 fuel (St i k D h2)).
Proof.
  induction fuel as [|fuel IH]; intros i k D h1 h2 H; cbn [run ti]; rewrite <- toks_len;
    (destruct (k <? length toks1)%nat; [|repeat split; apply H]); [exact I|].
  pose proof (step_rel i k D h1 h2 H) as S.
  destruct (step C1 O stk s1 toks1 (St i k D h1)) as [[]| | |], (step C2 O stk s2 toks2 (St i k D h2)) as [[]| | |]; cbn in S; try tauto; try exact I.
  - destruct S as (E1 & E2 & E3 & E4). cbn in *. subst. apply IH, E4.
  - exact S.
Qed.
End Sim.

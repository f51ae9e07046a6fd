(** Two runs of the decoder on the same input in two memories that look the same from the
    destination: the same program text on memories whose blocks correspond one to one.
    The runs stay in correspondence, and neither touches a block outside it.  This holds
    for every frame list, decoder state, token list and memory. *)
From Verif Require Import Base NumSpec JsonNum Unescape Lookup Types Token FloatLit Heap Machine.
Open Scope Z_scope.

(** ** Specification: memories that correspond *)

(** Which block of the first memory corresponds to which block of the second. *)
Definition ren := nat -> nat -> Prop.

Definition addr_rel (R : ren) (a b : addr) : Prop := R (fst a) (fst b) /\ snd a = snd b.
Definition ptr_rel (R : ren) (p q : ptr) : Prop :=
  match p, q with None, None => True | Some a, Some b => addr_rel R a b | _, _ => False end.
(** Equal contents, except that pointers point to corresponding blocks. *)
Definition cv_rel (R : ren) (c d : cv) : Prop :=
  match c, d with
  | CSlice a n k, CSlice b m l => addr_rel R a b /\ n = m /\ k = l
  | CPtr a, CPtr b => addr_rel R a b
  | CMap x, CMap y => R x y
  | CSlice _ _ _, _ | CPtr _, _ | CMap _, _ => False
  | _, _ => c = d
  end.
Definition blk_rel (R : ren) (k l : block) : Prop :=
  match k, l with
  | BFree, BFree => True
  | BMem n f, BMem m g => n = m /\ forall o, 0 <= o < n -> cv_rel R (f o) (g o)
  | BMap a, BMap b => Forall2 (fun x y => fst x = fst y /\ R (snd x) (snd y)) a b
  | _, _ => False
  end.
(** The correspondence is one to one, relates allocated blocks with corresponding
    contents, and relates the block of zero-sized objects to itself. *)
Record corr (R : ren) (h1 h2 : heap) : Prop := {
  cr_fun : forall b c c', R b c -> R b c' -> c = c';
  cr_inj : forall b b' c, R b c -> R b' c -> b = b';
  cr_zero : R 0%nat 0%nat;
  cr_lt : forall b c, R b c -> (b < nxt h1)%nat /\ (c < nxt h2)%nat;
  cr_blk : forall b c, R b c -> blk_rel R (blk h1 b) (blk h2 c);
  cr_base : exists f, blk h2 0%nat = BMem 0 f }.

(** What a run may do to the second memory: use the blocks of [R] and new ones. *)
Record ext (R : ren) (h : heap) (R' : ren) (h' : heap) : Prop := {
  ex_le : forall b c, R b c -> R' b c;
  ex_nxt : (nxt h <= nxt h')%nat;
  ex_new : forall b c, R' b c -> R b c \/ (nxt h <= c)%nat;
  ex_frame : forall c, (c < nxt h)%nat -> (forall b, ~ R b c) -> blk h' c = blk h c;
  ex_base : blk h' 0%nat = blk h 0%nat }.

Lemma ext_refl R h : ext R h R h.
Proof. split; auto. Qed.
Lemma ext_trans R h R' h' R'' h'' : ext R h R' h' -> ext R' h' R'' h'' -> ext R h R'' h''.
Proof.
  intros [A1 A2 A3 A4 A5] [B1 B2 B3 B4 B5]. split.
  - auto.
  - lia.
  - intros b c H. apply B3 in H as [H|H]; [apply A3 in H; tauto|]. right. lia.
  - intros c Hc N. rewrite B4; [apply A4; assumption|lia|]. intros b H. apply A3 in H as [H|H]; [exact (N _ H)|lia].
  - congruence.
Qed.

(** ** Monotonicity *)
Section Mono.
Variables (R R' : ren).
Hypothesis le : forall b c, R b c -> R' b c.
Lemma addr_mono a b : addr_rel R a b -> addr_rel R' a b.
Proof. intros [A B]. split; auto. Qed.
Lemma ptr_mono p q : ptr_rel R p q -> ptr_rel R' p q.
Proof. destruct p, q; cbn; auto. apply addr_mono. Qed.
Lemma cv_mono c d : cv_rel R c d -> cv_rel R' c d.
Proof. destruct c, d; cbn; auto; try apply addr_mono. intros (A & B & D). repeat split; try apply A; auto. destruct A; auto. Qed.
Lemma blk_mono k l : blk_rel R k l -> blk_rel R' k l.
Proof.
  destruct k, l; cbn; auto.
  - intros [A B]. split; [exact A|]. intros o Ho. apply cv_mono, B, Ho.
  - intros H. induction H as [|x y a b [A B] _ IH]; constructor; auto.
Qed.
End Mono.

(** ** Decoder states *)
Definition rs_rel (R : ren) (a b : rsframe) : Prop := ptr_rel R (r_dest a) (r_dest b) /\ r_off a = r_off b /\ r_con a = r_con b.
Definition df_rel (R : ren) (d e : dframe) : Prop :=
  ptr_rel R (d_dest d) (d_dest e) /\ d_off d = d_off e /\ d_len d = d_len e /\ Forall2 (rs_rel R) (d_rs d) (d_rs e).
Definition dyn_rel (R : ren) (D E : dyn) : Prop := forall i, df_rel R (D i) (E i).
Lemma df_mono (R R' : ren) : (forall b c, R b c -> R' b c) -> forall d e, df_rel R d e -> df_rel R' d e.
Proof.
  intros le d e (A & B & C & F). repeat split; auto; [eapply ptr_mono; eauto|].
  induction F as [|x y a b [P Q] _ IH]; constructor; auto. split; [eapply ptr_mono; eauto|exact Q].
Qed.
Lemma dyn_mono (R R' : ren) D E : (forall b c, R b c -> R' b c) -> dyn_rel R D E -> dyn_rel R' D E.
Proof. intros le H i. eapply df_mono; eauto. Qed.

Lemma upd_rel R D E i f g : dyn_rel R D E -> (forall d e, df_rel R d e -> df_rel R (f d) (g e)) ->
  dyn_rel R (upd_d D i f) (upd_d E i g).
Proof. intros H F j. unfold upd_d. destruct (Nat.eqb j i); [apply F, H|apply H]. Qed.
Lemma set_dest_rel R p q d e : ptr_rel R p q -> df_rel R d e -> df_rel R (set_dest p d) (set_dest q e).
Proof. intros P (_ & B & C & F). repeat split; auto. Qed.
Lemma set_doff_rel R o d e : df_rel R d e -> df_rel R (set_doff (d_off d + o) d) (set_doff (d_off e + o) e).
Proof. intros (A & B & C & F). repeat split; cbn; auto. congruence. Qed.
Lemma set_dlen_rel R n d e : df_rel R d e -> df_rel R (set_dlen n d) (set_dlen n e).
Proof. intros (A & B & C & F). repeat split; auto. Qed.
Lemma set_dests_rel R fs p q : ptr_rel R p q -> forall D E, dyn_rel R D E -> dyn_rel R (set_dests D fs p) (set_dests E fs q).
Proof.
  intros P. unfold set_dests. induction fs as [|f fs IH]; intros D E H; cbn; [exact H|].
  apply IH, upd_rel; [exact H|]. intros d e. apply set_dest_rel, P.
Qed.
Lemma padd_rel R p q o : ptr_rel R p q -> ptr_rel R (padd p o) (padd q o).
Proof. destruct p as [[]|], q as [[]|]; cbn; auto. intros [A B]. cbn in *. split; cbn; [exact A|congruence]. Qed.
Lemma dst_rel R D E i : dyn_rel R D E -> ptr_rel R (dst D i) (dst E i).
Proof. intros H. unfold dst. destruct (H i) as (A & -> & _). apply padd_rel, A. Qed.
Lemma pop_rel R D E i f a b ra rb : dyn_rel R D E -> rs_rel R a b -> Forall2 (rs_rel R) ra rb ->
  dyn_rel R (pop_rs D i f a ra) (pop_rs E i f b rb).
Proof.
  intros H (P & Q & _) F. unfold pop_rs. apply set_dests_rel; [exact P|]. apply upd_rel; [exact H|].
  intros d e (_ & _ & L & _). repeat split; cbn; auto.
Qed.

(** ** Results *)
Definition res_rel {A B} (P : A -> B -> Prop) (r1 : res A) (r2 : res B) : Prop :=
  match r1, r2 with Ok a, Ok b => P a b | Pan, Pan => True | Cor, Cor => True | _, _ => False end.
Lemma res_eq {A} (r : res A) : res_rel eq r r.
Proof. destruct r; cbn; auto. Qed.
Lemma rbind_pure {A B A' B'} (P : A -> B -> Prop) (Q : A' -> B' -> Prop) r1 r2 f g :
  res_rel P r1 r2 -> (forall a b, P a b -> res_rel Q (f a) (g b)) -> res_rel Q (rbind r1 f) (rbind r2 g).
Proof. destruct r1, r2; cbn; try tauto. auto. Qed.

(** A result with a memory, in a run that started with correspondence [R] and second
    memory [h]. *)
Definition worlds {A B} (R : ren) (h : heap) (mem1 : A -> heap) (mem2 : B -> heap) (Q : ren -> A -> B -> Prop) (a : A) (b : B) : Prop :=
  exists R', ext R h R' (mem2 b) /\ corr R' (mem1 a) (mem2 b) /\ Q R' a b.
Definition mres {A B} R h mem1 mem2 (Q : ren -> A -> B -> Prop) (r1 : res A) (r2 : res B) : Prop :=
  res_rel (worlds R h mem1 mem2 Q) r1 r2.
Definition heaps R h (r1 r2 : res heap) : Prop := mres R h (fun x => x) (fun x => x) (fun _ _ _ => True) r1 r2.

Definition st_rel (R : ren) (x y : st) : Prop :=
  si x = si y /\ ti x = ti y /\ dyn_rel R (dy x) (dy y) /\ corr R (hp x) (hp y).
Definition out_rel (R : ren) (h : heap) (o1 o2 : out) : Prop :=
  match o1, o2 with
  | Next x, Next y => exists R', ext R h R' (hp y) /\ st_rel R' x y
  | Fail i e x, Fail j e' y => i = j /\ e = e' /\ exists R', ext R h R' (hp y) /\ st_rel R' x y
  | Panic, Panic => True
  | Corrupt, Corrupt => True
  | _, _ => False
  end.
Lemma out_trans R h R' h' o1 o2 : ext R h R' h' -> out_rel R' h' o1 o2 -> out_rel R h o1 o2.
Proof.
  intros E. destruct o1, o2; cbn; auto.
  - intros (R'' & A & B). exists R''. split; [eapply ext_trans; eauto|exact B].
  - intros (-> & -> & R'' & A & B). repeat split. exists R''. split; [eapply ext_trans; eauto|exact B].
Qed.
Lemma mres_trans {A B} R h R' h' m1 m2 (Q : ren -> A -> B -> Prop) r1 r2 : ext R h R' h' -> mres R' h' m1 m2 Q r1 r2 -> mres R h m1 m2 Q r1 r2.
Proof.
  intros E. destruct r1, r2; cbn; auto. intros (R'' & F & C & q). exists R''. split; [eapply ext_trans; eauto|auto].
Qed.
Lemma rbind_mres {A B A' B'} R h m1 m2 (Q : ren -> A -> B -> Prop) n1 n2 (P : ren -> A' -> B' -> Prop) r1 r2 f g :
  mres R h m1 m2 Q r1 r2 ->
  (forall R' a b, ext R h R' (m2 b) -> corr R' (m1 a) (m2 b) -> Q R' a b -> mres R' (m2 b) n1 n2 P (f a) (g b)) ->
  mres R h n1 n2 P (rbind r1 f) (rbind r2 g).
Proof.
  destruct r1 as [a| |], r2 as [b| |]; cbn; try tauto. intros (R' & E & C & q) H.
  eapply mres_trans; [exact E|]. apply H; assumption.
Qed.
Lemma rbind_pm {A B A' B'} (Q : A -> B -> Prop) R h n1 n2 (P : ren -> A' -> B' -> Prop) r1 r2 f g :
  res_rel Q r1 r2 -> (forall a b, Q a b -> mres R h n1 n2 P (f a) (g b)) ->
  mres R h n1 n2 P (rbind r1 f) (rbind r2 g).
Proof. destruct r1, r2; cbn; try tauto. auto. Qed.
Lemma lift_mres {A B} R h m1 m2 (Q : ren -> A -> B -> Prop) r1 r2 f g :
  mres R h m1 m2 Q r1 r2 ->
  (forall R' a b, ext R h R' (m2 b) -> corr R' (m1 a) (m2 b) -> Q R' a b -> out_rel R' (m2 b) (f a) (g b)) ->
  out_rel R h (lift r1 f) (lift r2 g).
Proof.
  destruct r1 as [a| |], r2 as [b| |]; cbn; try tauto. intros (R' & E & C & q) H.
  eapply out_trans; [exact E|]. apply H; assumption.
Qed.
Lemma lift_pure {A B} (Q : A -> B -> Prop) R h r1 r2 f g :
  res_rel Q r1 r2 -> (forall a b, Q a b -> out_rel R h (f a) (g b)) -> out_rel R h (lift r1 f) (lift r2 g).
Proof. destruct r1, r2; cbn; try tauto. auto. Qed.
Lemma mres_here {A B} R h1 h2 m1 m2 (Q : ren -> A -> B -> Prop) a b :
  corr R h1 h2 -> m1 a = h1 -> m2 b = h2 -> Q R a b -> mres R h2 m1 m2 Q (Ok a) (Ok b).
Proof. intros C E1 E2 q. exists R. rewrite E1, E2. split; [apply ext_refl|]. split; [exact C|exact q]. Qed.

(** ** Memory operations *)
Lemma poison_rel R c d : cv_rel R c d -> is_poison c = is_poison d.
Proof. destruct c, d; cbn; intros H; try discriminate H; try contradiction; reflexivity. Qed.

(** Blocks with contents are not the block of zero-sized objects. *)
Definition live (k : block) : Prop := match k with BMem n _ => 0 < n | BMap _ => True | BFree => False end.
Lemma corr_set R h1 h2 b c k l : corr R h1 h2 -> R b c -> live (blk h2 c) -> blk_rel R k l ->
  corr R (set_blk h1 b k) (set_blk h2 c l) /\ ext R h2 R (set_blk h2 c l).
Proof.
  intros [F I Z L B [z Ez]] Hr Lv K.
  assert (Nz : c <> 0%nat). { intros ->. rewrite Ez in Lv. cbn in Lv. lia. }
  split; split; cbn; auto.
  - intros b' c' H. destruct (Nat.eqb_spec b' b) as [->|n].
    + rewrite (F _ _ _ Hr H), Nat.eqb_refl. exact K.
    + destruct (Nat.eqb_spec c' c) as [->|]; [destruct n; eapply I; eauto|]. apply B, H.
  - destruct c; [lia|]. cbn. eauto.
  - intros c' _ N. destruct (Nat.eqb_spec c' c) as [->|]; [destruct (N _ Hr)|reflexivity].
  - destruct c; [lia|]. reflexivity.
Qed.
Definition add (R : ren) (b c : nat) : ren := fun x y => R x y \/ (x = b /\ y = c).
Lemma corr_alloc R h1 h2 k l : corr R h1 h2 -> blk_rel (add R (nxt h1) (nxt h2)) k l ->
  let R' := add R (nxt h1) (nxt h2) in
  corr R' (snd (alloc_blk h1 k)) (snd (alloc_blk h2 l)) /\ ext R h2 R' (snd (alloc_blk h2 l)).
Proof.
  intros [F I Z L B [z Ez]] K R'. pose proof (L _ _ Z) as [Z1 Z2].
  split; split; cbn -[Nat.eqb].
  - intros b c c' [H|[Ea Eb]] [H'|[Ea' Eb']]; subst; auto; [eapply F; eauto| |]; [apply L in H; lia|apply L in H'; lia].
  - intros b b' c [H|[Ea Eb]] [H'|[Ea' Eb']]; subst; auto; [eapply I; eauto| |]; [apply L in H; lia|apply L in H'; lia].
  - left; exact Z.
  - intros b c [H|[-> ->]]; [apply L in H|]; lia.
  - intros b c [H|[-> ->]].
    + destruct (L _ _ H). destruct (Nat.eqb_spec b (nxt h1)); [lia|]. destruct (Nat.eqb_spec c (nxt h2)); [lia|].
      eapply blk_mono; [|apply B, H]. intros; left; assumption.
    + rewrite !Nat.eqb_refl. exact K.
  - destruct (Nat.eqb_spec 0 (nxt h2)); [lia|]. eauto.
  - left; assumption.
  - lia.
  - intros b c [H|[-> ->]]; [left; exact H|right; lia].
  - intros c Hc _. destruct (Nat.eqb_spec c (nxt h2)); [lia|reflexivity].
  - destruct (Nat.eqb_spec 0 (nxt h2)); [lia|reflexivity].
Qed.

Ltac ifd := match goal with |- context [if ?b then _ else _] => destruct b eqn:?Ex end.
Lemma store_inj R h1 h2 p q sz v w : corr R h1 h2 -> 0 < sz -> ptr_rel R p q -> cv_rel R v w ->
  mres R h2 (fun x => x) (fun x => x) (fun R' _ _ => R' = R) (store h1 p sz v) (store h2 q sz w).
Proof.
  intros C S P V. unfold store. destruct p as [[b o]|], q as [[c o']|]; cbn in P; try contradiction; [|exact I].
  destruct P as [P Eo]. cbn [fst snd] in P, Eo. subst o. pose proof (cr_blk _ _ _ C _ _ P) as B.
  destruct (blk h1 b) as [|n f|], (blk h2 c) as [|m g|] eqn:E; cbn in B; try contradiction; try exact I.
  destruct B as [-> B]. cbn [fst snd] in *.
  destruct ((0 <=? o') && (o' + sz <=? m)) eqn:G; [|exact I].
  rewrite (poison_rel R _ _ (B o' ltac:(lia))). cbn [andb]. destruct (negb _); [|exact I].
  assert (Lv : live (blk h2 c)) by (rewrite E; cbn; lia).
  destruct (corr_set R h1 h2 b c (BMem m (put_cell f o' sz v)) (BMem m (put_cell g o' sz w)) C P Lv) as [Q X].
  { split; [reflexivity|]. intros x Hx. unfold put_cell. destruct (x =? o'); [exact V|]. ifd; [exact eq_refl|]. apply B, Hx. }
  exists R. auto.
Qed.
Lemma load_inj R h1 h2 p q sz : corr R h1 h2 -> 0 < sz -> ptr_rel R p q -> res_rel (cv_rel R) (load h1 p sz) (load h2 q sz).
Proof.
  intros C S P. unfold load. destruct p as [[b o]|], q as [[c o']|]; cbn in P; try contradiction; [|exact I].
  destruct P as [P Eo]. cbn [fst snd] in P, Eo. subst o. pose proof (cr_blk _ _ _ C _ _ P) as B.
  destruct (blk h1 b) as [|n f|], (blk h2 c) as [|m g|]; cbn in B; try contradiction; try exact I.
  destruct B as [-> B]. cbn [fst snd] in *.
  destruct ((0 <=? o') && (o' + sz <=? m)) eqn:G; [|exact I]. cbn [andb].
  rewrite (poison_rel R _ _ (B o' ltac:(lia))). destruct (negb _); [|exact I]. apply B. lia.
Qed.
Lemma malloc_inj R h1 h2 n : corr R h1 h2 ->
  worlds R h2 snd snd (fun R' a b => addr_rel R' (fst a) (fst b)) (malloc h1 n) (malloc h2 n).
Proof.
  intros C. unfold malloc. destruct (n <=? 0).
  - exists R. split; [apply ext_refl|]. split; [exact C|]. split; [exact (cr_zero _ _ _ C)|reflexivity].
  - destruct (corr_alloc R h1 h2 (BMem n (fun _ => CZero)) (BMem n (fun _ => CZero)) C) as [A X].
    { split; [reflexivity|]. intros; exact eq_refl. }
    eexists. split; [exact X|]. split; [exact A|]. cbn. split; [right; auto|reflexivity].
Qed.
Lemma makemap_inj R h1 h2 : corr R h1 h2 ->
  worlds R h2 snd snd (fun R' a b => R' (fst a) (fst b)) (makemap h1) (makemap h2).
Proof.
  intros C. destruct (corr_alloc R h1 h2 (BMap []) (BMap []) C) as [A X]; [constructor|].
  eexists. split; [exact X|]. split; [exact A|]. right; auto.
Qed.
Lemma clear_inj R h1 h2 p q n : corr R h1 h2 -> ptr_rel R p q -> heaps R h2 (clear h1 p n) (clear h2 q n).
Proof.
  intros C P. unfold clear. destruct (Z.leb_spec n 0) as [|N]; [eapply mres_here; eauto|].
  destruct p as [[b o]|], q as [[c o']|]; cbn in P; try contradiction; [|exact I].
  destruct P as [P Eo]. cbn [fst snd] in P, Eo. subst o. pose proof (cr_blk _ _ _ C _ _ P) as B.
  destruct (blk h1 b) as [|k f|], (blk h2 c) as [|m g|] eqn:E; cbn in B; try contradiction; try exact I.
  destruct B as [-> B]. cbn [fst snd] in *. destruct ((0 <=? o') && (o' + n <=? m)) eqn:G; [|exact I].
  assert (Lv : live (blk h2 c)) by (rewrite E; cbn; lia).
  destruct (corr_set R h1 h2 b c (BMem m (fun x => if (o' <=? x) && (x <? o' + n) then CZero else f x))
              (BMem m (fun x => if (o' <=? x) && (x <? o' + n) then CZero else g x)) C P Lv) as [Q X].
  { split; [reflexivity|]. intros x Hx. ifd; [exact eq_refl|]. apply B, Hx. }
  exists R. auto.
Qed.
Lemma copy_inj R h1 h2 p q p' q' n : corr R h1 h2 -> ptr_rel R p q -> ptr_rel R p' q' ->
  mres R h2 (fun x => x) (fun x => x) (fun R' _ _ => R' = R) (copy h1 p p' n) (copy h2 q q' n).
Proof.
  intros C P P'. unfold copy. destruct (Z.leb_spec n 0) as [|N]; [eapply mres_here; eauto|].
  destruct p as [[b o]|], q as [[c o']|]; cbn in P; try contradiction; [|exact I].
  destruct p' as [[b1 o1]|], q' as [[c1 o1']|]; cbn in P'; try contradiction; [|exact I].
  destruct P as [P Eo], P' as [P' Eo1]. cbn [fst snd] in P, Eo, P', Eo1. subst o o1. pose proof (cr_blk _ _ _ C _ _ P) as B. pose proof (cr_blk _ _ _ C _ _ P') as B'.
  destruct (blk h1 b) as [|k f|], (blk h2 c) as [|m g|] eqn:E; cbn in B; try contradiction; try exact I.
  destruct (blk h1 b1) as [|k1 f1|], (blk h2 c1) as [|m1 g1|]; cbn in B'; try contradiction; try exact I.
  destruct B as [-> B], B' as [-> B']. cbn [fst snd] in *.
  destruct ((0 <=? o') && (o' + n <=? m) && (0 <=? o1') && (o1' + n <=? m1)) eqn:G; [|exact I].
  assert (Lv : live (blk h2 c)) by (rewrite E; cbn; lia).
  destruct (corr_set R h1 h2 b c (BMem m (fun x => if (o' <=? x) && (x <? o' + n) then f1 (x - o' + o1') else f x))
              (BMem m (fun x => if (o' <=? x) && (x <? o' + n) then g1 (x - o' + o1') else g x)) C P Lv) as [Q X].
  { split; [reflexivity|]. intros x Hx. ifd; [apply B'; lia|]. apply B, Hx. }
  exists R. auto.
Qed.
Lemma find_key_inj (R : ren) k : forall l m, Forall2 (fun x y : mkey * nat => fst x = fst y /\ R (snd x) (snd y)) l m ->
  match find_key l k, find_key m k with Some b, Some c => R b c | None, None => True | _, _ => False end.
Proof.
  induction 1 as [|[k1 b] [k2 c] l m [E B] _ IH]; cbn in *; [exact I|]. subst k2. destruct (mkey_eqb k1 k); [exact B|exact IH].
Qed.
Definition mp_rel (R : ren) (m m' : option nat) : Prop := match m, m' with None, None => True | Some b, Some c => R b c | _, _ => False end.
Lemma mapassign_inj R h1 h2 m m' k n : corr R h1 h2 -> mp_rel R m m' ->
  mres R h2 snd snd (fun R' a b => addr_rel R' (fst a) (fst b)) (mapassign h1 m k n) (mapassign h2 m' k n).
Proof.
  intros C M. unfold mapassign. destruct m as [b|], m' as [c|]; cbn in M; try contradiction; [|exact I].
  pose proof (cr_blk _ _ _ C _ _ M) as B.
  destruct (blk h1 b) as [| |l], (blk h2 c) as [| |l'] eqn:E; cbn in B; try contradiction; try exact I.
  pose proof (find_key_inj R k _ _ B) as Fk. destruct (find_key l k) as [vb|], (find_key l' k) as [vc|]; try tauto.
  - eapply mres_here; eauto. cbn. split; [exact Fk|reflexivity].
  - destruct (corr_alloc R h1 h2 (BMem n (fun _ => CZero)) (BMem n (fun _ => CZero)) C) as [A X].
    { split; [reflexivity|]. intros; exact eq_refl. }
    set (R' := add R (nxt h1) (nxt h2)) in *. destruct (alloc_blk h1 _) as [vb g1] eqn:E1, (alloc_blk h2 _) as [vc g2] eqn:E2.
    unfold alloc_blk in E1, E2. injection E1 as <- <-. injection E2 as <- <-. cbn [snd] in A, X.
    match goal with |- mres _ _ _ _ _ (Ok (_, set_blk ?x _ _)) (Ok (_, set_blk ?y _ _)) => set (g1 := x) in *; set (g2 := y) in * end.
    assert (M' : R' b c) by (left; exact M).
    assert (Lv : live (blk g2 c)). { cbn. destruct (Nat.eqb_spec c (nxt h2)) as [->|]; [destruct (cr_lt _ _ _ C _ _ M); lia|]. rewrite E. exact I. }
    destruct (corr_set R' g1 g2 b c (BMap (l ++ [(k, nxt h1)])) (BMap (l' ++ [(k, nxt h2)])) A M' Lv) as [Q Y].
    { apply Forall2_app; [|constructor; [|constructor]; split; [reflexivity|right; auto]].
      eapply (blk_mono R R' (fun b c H => or_introl H) (BMap l) (BMap l') B). }
    exists R'. split; [eapply ext_trans; eauto|]. split; [exact Q|]. cbn. split; [right; auto|reflexivity].
Qed.

(** Reading a cell at a type. *)
Lemma as_slice_inj R c d : cv_rel R c d ->
  res_rel (fun x y => ptr_rel R (fst (fst x)) (fst (fst y)) /\ snd (fst x) = snd (fst y) /\ snd x = snd y) (as_slice c) (as_slice d).
Proof. destruct c, d; cbn; intros H; try discriminate H; try contradiction; try exact I; auto. Qed.
Lemma as_ptr_inj R c d : cv_rel R c d -> res_rel (ptr_rel R) (as_ptr c) (as_ptr d).
Proof. destruct c, d; cbn; intros H; try discriminate H; try contradiction; try exact I; auto. Qed.
Lemma as_map_inj R c d : cv_rel R c d -> res_rel (mp_rel R) (as_map c) (as_map d).
Proof. destruct c, d; cbn; intros H; try discriminate H; try contradiction; try exact I; auto. Qed.
Lemma as_user_inj R c d : cv_rel R c d -> as_user c = as_user d.
Proof. destruct c, d; cbn; intros H; try discriminate H; try contradiction; try reflexivity. injection H as <-. reflexivity. Qed.

(** ** The decoder *)
Section Run.
Variables (C : cfg) (O : opts) (stk : list frame) (s : bytes) (toks : list token).
Notation W := (wb (c_w64 C)).

Lemma W_pos : 0 < W. Proof. destruct (c_w64 C); reflexivity. Qed.
Lemma wsize_pos w k : 0 < wsize w k. Proof. destruct w, k; reflexivity. Qed.
Lemma fsize_pos b : 0 < fsize b. Proof. destruct b; reflexivity. Qed.
Ltac pos := first [apply W_pos | apply wsize_pos | apply fsize_pos | pose proof W_pos; lia].

(** A result of storing a scalar. *)
Definition sres_rel R h (r1 r2 : sres) : Prop := mres R h fst fst (fun _ a b => snd a = snd b) r1 r2.
Lemma heaps_of R h r1 r2 : mres R h (fun x => x) (fun x => x) (fun R' _ _ => R' = R) r1 r2 -> heaps R h r1 r2.
Proof. destruct r1, r2; cbn; auto. intros (R' & A & B & _). exists R'. auto. Qed.
Lemma sok_inj R h r1 r2 : heaps R h r1 r2 -> sres_rel R h (sok r1) (sok r2).
Proof.
  intros H. unfold sok. eapply rbind_mres; [exact H|]. intros R' a b E Co _. eapply mres_here; eauto.
Qed.
Lemma serr_inj R h1 h2 e : corr R h1 h2 -> sres_rel R h2 (serr h1 e) (serr h2 e).
Proof. intros H. eapply mres_here; eauto. Qed.
Lemma st_inj R h1 h2 p q sz v : corr R h1 h2 -> ptr_rel R p q -> 0 < sz -> cv_rel R v v -> sres_rel R h2 (sok (store h1 p sz v)) (sok (store h2 q sz v)).
Proof. intros. apply sok_inj, heaps_of, store_inj; assumption. Qed.
Ltac stt := apply st_inj; [assumption|assumption|pos|exact eq_refl].
Ltac bi := eapply rbind_pm; [apply res_eq|intros ? ? <-].

Lemma bool_inj R h1 h2 e v p q : corr R h1 h2 -> ptr_rel R p q -> sres_rel R h2 (bool_tok C e v p h1) (bool_tok C e v q h2).
Proof. intros H P. unfold bool_tok. destruct e; try (apply serr_inj, H); stt. Qed.
Lemma int_inj R h1 h2 e raw i p q : corr R h1 h2 -> ptr_rel R p q -> sres_rel R h2 (int_tok C e raw i p h1) (int_tok C e raw i q h2).
Proof.
  intros H P. unfold int_tok. destruct e; try (apply serr_inj, H); try stt.
  - destruct (parse_float _ _ _); [stt|apply serr_inj, H].
  - destruct (float_of_int_tok _ _ _); [stt|apply serr_inj, H].
  - bi. destruct a; [stt|apply serr_inj, H].
Qed.
Lemma num_inj R h1 h2 e raw i p q : corr R h1 h2 -> ptr_rel R p q -> sres_rel R h2 (num_tok C e raw i p h1) (num_tok C e raw i q h2).
Proof.
  intros H P. unfold num_tok. destruct e; try (apply serr_inj, H); try stt; (destruct (parse_float _ _ _); [stt|apply serr_inj, H]).
Qed.
Lemma load_user_inj R h1 h2 p q sz : corr R h1 h2 -> ptr_rel R p q -> res_rel eq (load_user h1 p sz) (load_user h2 q sz).
Proof.
  intros H P. unfold load_user. destruct (Z.leb_spec sz 0); [reflexivity|]. eapply rbind_pure; [apply load_inj; eassumption|].
  intros a b E. rewrite (as_user_inj _ _ _ E). apply res_eq.
Qed.
Lemma store_user_inj R h1 h2 p q sz b : corr R h1 h2 -> ptr_rel R p q -> heaps R h2 (store_user h1 p sz b) (store_user h2 q sz b).
Proof.
  intros H P. unfold store_user. destruct (Z.leb_spec sz 0); [eapply mres_here; eauto|]. apply heaps_of, store_inj; auto. exact eq_refl.
Qed.
Lemma str_inj R h1 h2 f tv i p q : corr R h1 h2 -> ptr_rel R p q -> sres_rel R h2 (str_tok C f tv i p h1) (str_tok C f tv i q h2).
Proof.
  intros H P. unfold str_tok. destruct (f_ty f); try (apply serr_inj, H).
  - bi. stt.
  - destruct (ReadNumber tv) as [[? []]|]; try exact I; try (apply serr_inj, H); stt.
  - bi. bi. eapply rbind_pm; [eapply load_user_inj; eassumption|]. intros old ? <-.
    destruct (c_ut C a old a0) as [new er]. eapply rbind_mres; [apply store_user_inj; eassumption|]. intros R' x y E Co _. eapply mres_here; eauto.
  - bi. stt.
  - destruct (bytes_eqb _ _); [stt|]. destruct (bytes_eqb _ _); [stt|apply serr_inj, H].
  - destruct (quoted_inner tv); [|apply serr_inj, H]. stt.
  - destruct (ReadNumber tv) as [[? []]|]; try exact I; try (apply serr_inj, H); (destruct (parse_float _ _ _); [stt|apply serr_inj, H]).
  - bi. destruct a; [stt|apply serr_inj, H].
Qed.
Lemma null_inj R h1 h2 e p q : corr R h1 h2 -> ptr_rel R p q -> heaps R h2 (null_tok C e p h1) (null_tok C e q h2).
Proof.
  intros H P. unfold null_tok. destruct e; try (eapply mres_here; now eauto);
    apply heaps_of, store_inj; try assumption; try pos; try exact eq_refl.
Qed.
Lemma scalar_inj R h1 h2 f t p q : corr R h1 h2 -> ptr_rel R p q -> sres_rel R h2 (scalar_tok C s f t p h1) (scalar_tok C s f t q h2).
Proof.
  intros H P. unfold scalar_tok. destruct (tk_ty t); try (apply sok_inj, null_inj; assumption); try (apply bool_inj; assumption).
  - bi. apply int_inj; assumption.
  - bi. apply num_inj; assumption.
  - bi. apply str_inj; assumption.
Qed.

(** *** Control *)
Lemma next_inj R h2 i k D E h1 h2' R' : ext R h2 R' h2' -> dyn_rel R' D E -> corr R' h1 h2' ->
  out_rel R h2 (Next (St i k D h1)) (Next (St i k E h2')).
Proof. intros X Hd Hc. exists R'. split; [exact X|]. exact (conj eq_refl (conj eq_refl (conj Hd Hc))). Qed.
Lemma here_inj R i k D E h1 h2 : dyn_rel R D E -> corr R h1 h2 -> out_rel R h2 (Next (St i k D h1)) (Next (St i k E h2)).
Proof. intros. eapply next_inj; eauto. apply ext_refl. Qed.
Lemma fail_inj R i e a k D E h1 h2 : dyn_rel R D E -> corr R h1 h2 ->
  out_rel R h2 (Fail i e (St a k D h1)) (Fail i e (St a k E h2)).
Proof. intros Hd Hc. split; [reflexivity|]. split; [reflexivity|]. exists R. split; [apply ext_refl|]. exact (conj eq_refl (conj eq_refl (conj Hd Hc))). Qed.

Lemma val_end_inj R i k D E h1 h2 : dyn_rel R D E -> corr R h1 h2 ->
  out_rel R h2 (on_val_end stk toks (St i k D h1)) (on_val_end stk toks (St i k E h2)).
Proof.
  intros Hd Hc. unfold on_val_end. cbv zeta. cbn [si ti dy hp].
  destruct (fr stk i) as [f|]; [|exact I]. destruct (f_parent f) as [c|]; [|apply here_inj; assumption].
  destruct (fr stk c) as [fc|]; [|exact I].
  destruct (f_ty fc); try (apply here_inj; assumption).
  - destruct i; [exact I|apply here_inj; assumption].
  - destruct (Hd i) as (_ & _ & <- & _).
    assert (Hu : dyn_rel R (upd_d D i (set_dlen (d_len (D i) + 1))) (upd_d E i (set_dlen (d_len (D i) + 1)))).
    { apply upd_rel; [exact Hd|]. intros d e. apply set_dlen_rel. }
    destruct (_ <=? _).
    + destruct (skip_extra _ _); [apply here_inj; assumption|exact I].
    + apply here_inj; [|assumption]. apply upd_rel; [exact Hu|]. intros d e. apply set_doff_rel.
  - apply here_inj; [|assumption]. apply upd_rel; [exact Hd|]. intros d e. apply set_doff_rel.
Qed.
Lemma recur_inj R i k D E h1 h2 : dyn_rel R D E -> corr R h1 h2 ->
  out_rel R h2 (on_recur_obj_end stk toks (St i k D h1)) (on_recur_obj_end stk toks (St i k E h2)).
Proof.
  intros Hd Hc. unfold on_recur_obj_end. cbn [si ti dy hp].
  destruct (fr stk i) as [f|]; [|exact I]. destruct (Hd i) as (_ & _ & _ & Rs).
  destruct Rs as [|a b ra rb Ha Hr]; [apply val_end_inj; assumption|].
  destruct Ha as (P & Of & Cn). rewrite <- Cn. destruct (fr stk (r_con a)) as [fc|]; [|exact I].
  destruct (f_ty fc); try (apply here_inj; assumption).
  all: apply here_inj; [|assumption].
  all: first [apply pop_rel; [exact Hd|repeat split; auto|exact Hr]
    |apply upd_rel; [exact Hd|]; intros d e; first [apply set_doff_rel|apply set_dest_rel, P]].
Qed.
Lemma on_ptr_inj R i k D E h1 h2 : dyn_rel R D E -> corr R h1 h2 ->
  out_rel R h2 (on_ptr C stk (St i k D h1)) (on_ptr C stk (St i k E h2)).
Proof.
  intros Hd Hc. unfold on_ptr. cbn [si ti dy hp]. destruct (fr stk (S i)) as [f|]; [|exact I].
  pose proof (dst_rel R D E i Hd) as P.
  destruct (f_size f =? 0).
  - eapply lift_mres; [apply store_inj; [eassumption|pos|exact P|]|].
    + split; [exact (cr_zero _ _ _ Hc)|reflexivity].
    + intros R' a b X Co ->. apply here_inj; assumption.
  - destruct (malloc_inj R h1 h2 (f_size f) Hc) as (R' & X & Co & A).
    destruct (malloc h1 (f_size f)) as [a g1], (malloc h2 (f_size f)) as [b g2]. cbn [fst snd] in *.
    eapply out_trans; [exact X|]. eapply lift_mres; [apply store_inj; [eassumption|pos|eapply ptr_mono; [apply X|exact P]|exact A]|].
    intros R'' u v X' Co' ->. apply here_inj; [|assumption]. apply upd_rel; [eapply dyn_mono; [apply X|exact Hd]|].
    intros d e. apply set_dest_rel. exact A.
Qed.
Lemma json_inj R f t i k D E h1 h2 : dyn_rel R D E -> corr R h1 h2 ->
  out_rel R h2 (on_json C stk s toks f t (St i k D h1)) (on_json C stk s toks f t (St i k E h2)).
Proof.
  intros Hd Hc. unfold on_json. cbv zeta. cbn [si ti dy hp]. pose proof (dst_rel R D E i Hd) as P.
  eapply lift_pure; [apply res_eq|]. intros [raw ti'] ? <-. eapply lift_pure; [apply res_eq|]. intros id ? <-.
  eapply lift_pure; [eapply load_user_inj; eassumption|]. intros old ? <-. destruct (c_uj C id old raw) as [new er].
  eapply lift_mres; [apply store_user_inj; eassumption|]. intros R' a b X Co _.
  assert (Hd' : dyn_rel R' D E) by (eapply dyn_mono; [apply X|exact Hd]).
  destruct er; [apply fail_inj; assumption|apply val_end_inj; assumption].
Qed.
Lemma any_inj R t i k D E h1 h2 : dyn_rel R D E -> corr R h1 h2 ->
  out_rel R h2 (any_tok C stk s toks t (St i k D h1)) (any_tok C stk s toks t (St i k E h2)).
Proof.
  intros Hd Hc. unfold any_tok. cbn [si ti dy hp]. destruct (decodeAny _ _ _ _); try exact I; [|apply fail_inj; assumption].
  eapply lift_mres; [apply store_inj; [eassumption|pos|apply dst_rel, Hd|exact eq_refl]|].
  intros R' x y X Co ->. apply val_end_inj; assumption.
Qed.
Lemma grow_inj R h1 h2 p q esz n keep : corr R h1 h2 -> ptr_rel R p q ->
  mres R h2 snd snd (fun R' a b => addr_rel R' (fst a) (fst b)) (grow_slice C h1 p esz n keep) (grow_slice C h2 q esz n keep).
Proof.
  intros Hc P. unfold grow_slice. eapply rbind_pm; [apply load_inj; [eassumption|pos|exact P]|]. intros c d Ecd.
  eapply rbind_pm; [apply as_slice_inj; exact Ecd|]. intros [[data len] cap] [[data' len'] cap'] (Pd & El & Ecap). cbn [fst snd] in *. subst len' cap'.
  destruct (cap <? n).
  - destruct (malloc_inj R h1 h2 (esz * n) Hc) as (R' & X & Co & A).
    destruct (malloc h1 (esz * n)) as [a g1], (malloc h2 (esz * n)) as [b g2]. cbn [fst snd] in *.
    eapply mres_trans; [exact X|].
    eapply rbind_mres with (Q := fun R'' (_ _ : heap) => R'' = R') (m1 := fun x => x) (m2 := fun x => x).
    + destruct (_ && _ && _); [apply copy_inj; [exact Co|exact A|eapply ptr_mono; [apply X|exact Pd]]|eapply mres_here; eauto].
    + intros R'' u v X' Co' ->. eapply rbind_mres; [apply store_inj; [exact Co'|pos|eapply ptr_mono; [apply X|exact P]|cbn; auto]|].
      intros R'' y z X'' Co'' ->. eapply mres_here; eauto.
  - destruct data as [a|], data' as [b|]; cbn in Pd; try contradiction; [|exact I].
    eapply rbind_mres; [apply store_inj; [exact Hc|pos|exact P|cbn; auto]|].
    intros R'' y z X'' Co'' ->. eapply mres_here; eauto.
Qed.
Lemma fast_elem_val e t v sz : fast_elem C s e t = Ok (inl (v, sz)) -> 0 < sz /\ forall R, cv_rel R v v.
Proof.
  assert (Fin : forall c z, 0 < z -> (forall R, cv_rel R c c) -> Ok (inl (c, z)) = Ok (inl (B := err) (v, sz)) -> 0 < sz /\ forall R, cv_rel R v v).
  { intros c z Hz Hv [= <- <-]. auto. }
  unfold fast_elem. destruct e; try discriminate; destruct (tk_ty t); try discriminate.
  all: try (apply Fin; [pos|intros ?; exact eq_refl]).
  all: match goal with |- context [body_of ?x ?y] => destruct (body_of x y) as [b0| |] | |- context [raw_of ?x ?y] => destruct (raw_of x y) as [b0| |] end; cbn [rbind]; try discriminate.
  all: try (destruct (unesc_str _ _ _); cbn [rbind]; try discriminate).
  all: try (destruct (int_of_tok _ _ _) as [[]| |]; cbn [rbind]; try discriminate).
  all: try (destruct (parse_float _ _ _); try discriminate).
  all: try (destruct (float_of_int_tok _ _ _); try discriminate).
  all: apply Fin; [pos|intros ?; exact eq_refl].
Qed.
Lemma fast_loop_inj R e a b n ts : addr_rel R a b -> forall i h1 h2, corr R h1 h2 ->
  mres R h2 fst fst (fun R' x y => R' = R /\ snd x = snd y) (fast_loop C s e a n i ts h1) (fast_loop C s e b n i ts h2).
Proof.
  intros A. induction ts as [|t ts IH]; intros i h1 h2 Hc; cbn [fast_loop]; [eapply mres_here; eauto|].
  destruct (fast_elem C s e t) as [[[v sz]|er]| |] eqn:Ev; cbn [rbind]; try exact I; [|eapply mres_here; eauto].
  apply fast_elem_val in Ev as [Sz V]. destruct (n <=? i); [exact I|].
  eapply rbind_mres; [apply store_inj; [exact Hc|exact Sz|apply padd_rel; exact A|apply V]|].
  intros R' x y X Co ->. apply IH, Co.
Qed.
Lemma fast_inj R e t i k D E h1 h2 : dyn_rel R D E -> corr R h1 h2 ->
  out_rel R h2 (fast_slice C stk s toks e t (St i k D h1)) (fast_slice C stk s toks e t (St i k E h2)).
Proof.
  intros Hd Hc. unfold fast_slice. cbv zeta. cbn [si ti dy hp]. pose proof (dst_rel R D E i Hd) as P.
  destruct (_ <? 1).
  - eapply lift_mres; [apply store_inj; [exact Hc|pos|exact P|]|].
    + cbn. repeat split; auto. exact (cr_zero _ _ _ Hc).
    + intros R' x y X Co ->. apply val_end_inj; assumption.
  - eapply lift_pure with (Q := fun x y => ptr_rel R (fst (fst x)) (fst (fst y)) /\ snd (fst x) = snd (fst y) /\ snd x = snd y).
    { eapply rbind_pure; [apply load_inj; [exact Hc|pos|exact P]|]. intros c d. apply as_slice_inj. }
    intros [[data len] cap] [[data' len'] cap'] (Pd & El & Ec). cbn [fst snd] in *. subst len' cap'.
    set (nn := Z.of_nat (tk_n t)). set (ts := firstn _ _).
    assert (G : forall R' a b g1 g2, ext R h2 R' g2 -> corr R' g1 g2 -> ptr_rel R' a b -> forall cc, out_rel R' g2
      (match a with None => Corrupt | Some a => lift (fast_loop C s e a nn 0 ts g1) (fun '(h, er) =>
        match er with Some (j, e0) => Fail j e0 (with_hp h (St i k D h1)) | None =>
          lift (store h (dst D i) (3 * W) (CSlice a nn cc)) (fun h => on_val_end stk toks (St i (k + length ts + 2) D h)) end) end)
      (match b with None => Corrupt | Some a => lift (fast_loop C s e a nn 0 ts g2) (fun '(h, er) =>
        match er with Some (j, e0) => Fail j e0 (with_hp h (St i k E h2)) | None =>
          lift (store h (dst E i) (3 * W) (CSlice a nn cc)) (fun h => on_val_end stk toks (St i (k + length ts + 2) E h)) end) end)).
    { intros R' a b g1 g2 X Co Pab cc. destruct a as [a|], b as [b|]; cbn in Pab; try contradiction; [|exact I].
      eapply lift_mres; [apply fast_loop_inj; [exact Pab|exact Co]|]. intros R'' [x er] [y er'] X' Co' [-> Er]. cbn [fst snd] in *. subst er'.
      assert (Hd' : dyn_rel R' D E) by (eapply dyn_mono; [apply X|exact Hd]).
      destruct er as [[j e0]|]; [apply fail_inj; assumption|].
      eapply lift_mres; [apply store_inj; [exact Co'|pos|eapply ptr_mono; [apply X|exact P]|cbn; auto]|].
      intros R'' u v X'' Co'' ->. apply val_end_inj; assumption. }
    destruct (negb (cap <? nn)) eqn:Re.
    + apply (G R data data' h1 h2 (ext_refl _ _) Hc Pd).
    + destruct (malloc_inj R h1 h2 (fast_size C e * nn) Hc) as (R' & X & Co & A).
      destruct (malloc h1 (fast_size C e * nn)) as [a g1], (malloc h2 (fast_size C e * nn)) as [b g2]. cbn [fst snd] in *.
      eapply out_trans; [exact X|]. apply (G R' (Some a) (Some b) g1 g2 X Co A).
Qed.
Lemma push_rel R D E rf i : dyn_rel R D E -> rs_rel R (RS (d_dest (D rf)) (d_off (D rf)) i) (RS (d_dest (E rf)) (d_off (E rf)) i).
Proof. intros H. destruct (H rf) as (A & B & _). repeat split; cbn; auto. Qed.
Lemma rs_mono (R R' : ren) a b : (forall b c, R b c -> R' b c) -> rs_rel R a b -> rs_rel R' a b.
Proof. intros L [A B]. split; [eapply ptr_mono; eauto|exact B]. Qed.
Lemma zslice R h1 h2 n m : corr R h1 h2 -> cv_rel R (CSlice (0%nat, 0) n m) (CSlice (0%nat, 0) n m).
Proof. intros Hc. cbn. repeat split; auto. exact (cr_zero _ _ _ Hc). Qed.
Lemma arr_inj R f t i k D E h1 h2 : dyn_rel R D E -> corr R h1 h2 ->
  out_rel R h2 (arr_tok C stk s toks f t (St i k D h1)) (arr_tok C stk s toks f t (St i k E h2)).
Proof.
  intros Hd Hc. unfold arr_tok. cbv zeta. cbn [si ti dy hp goto_ti]. pose proof (dst_rel R D E i Hd) as P.
  destruct (f_ty f); try (apply fail_inj; assumption); try (apply fast_inj; assumption).
  - apply any_inj; assumption.
  - apply json_inj; assumption.
  - apply on_ptr_inj; assumption.
  - (* array *) destruct (_ <? 1)%nat; [apply val_end_inj; assumption|]. destruct (fr stk (S i)); [|exact I].
    apply here_inj; [|assumption]. apply upd_rel; [exact Hd|]. intros d e (_ & _ & _ & F). repeat split; cbn; auto.
  - apply val_end_inj; assumption.
  - (* slice *) destruct (fr stk (S i)) as [fe|]; [|exact I]. destruct (Nat.eqb _ _).
    + eapply lift_mres; [apply store_inj; [exact Hc|pos|exact P|eapply zslice; exact Hc]|]. intros R' x y X Co ->. apply val_end_inj; assumption.
    + eapply lift_mres; [apply grow_inj; [exact Hc|exact P]|]. intros R' [a x] [b y] X Co A. cbn [fst snd] in *.
      apply here_inj; [|assumption]. apply upd_rel; [eapply dyn_mono; [apply X|exact Hd]|]. intros d e (_ & _ & L & F). repeat split; cbn; auto; apply A.
  - (* recursive slice *) destruct (fr stk (f_recur f)) as [fe|]; [|exact I]. destruct (Nat.eqb _ _).
    + eapply lift_mres; [apply store_inj; [exact Hc|pos|exact P|eapply zslice; exact Hc]|]. intros R' x y X Co ->.
      destruct (Hd (f_recur f)) as (_ & _ & _ & Rs). destruct Rs; [apply val_end_inj; assumption|apply here_inj; assumption].
    + eapply lift_mres; [apply grow_inj; [exact Hc|exact P]|]. intros R' [a x] [b y] X Co A. cbn [fst snd] in *.
      apply here_inj; [|assumption]. apply upd_rel; [eapply dyn_mono; [apply X|exact Hd]|]. intros d e (_ & _ & L & F). repeat split; cbn; auto; try apply A.
      constructor; [|exact F]. eapply rs_mono; [apply X|]. apply push_rel, Hd.
  - (* [] struct *) eapply lift_mres; [apply store_inj; [exact Hc|pos|exact P|eapply zslice; exact Hc]|]. intros R' x y X Co ->. apply val_end_inj; assumption.
Qed.
Lemma init_map_inj R h1 h2 p q : corr R h1 h2 -> ptr_rel R p q -> heaps R h2 (init_map C h1 p) (init_map C h2 q).
Proof.
  intros Hc P. unfold init_map. eapply rbind_pm; [apply load_inj; [exact Hc|pos|exact P]|]. intros c d Ecd.
  eapply rbind_pm; [apply as_map_inj; exact Ecd|]. intros m m' M. destruct m as [b|], m' as [b'|]; cbn in M; try contradiction; [eapply mres_here; eauto|].
  destruct (makemap_inj R h1 h2 Hc) as (R' & X & Co & A).
  destruct (makemap h1) as [a g1], (makemap h2) as [b g2]. cbn [fst snd] in *.
  eapply mres_trans; [exact X|]. apply heaps_of, store_inj; [exact Co|pos|eapply ptr_mono; [apply X|exact P]|exact A].
Qed.
Lemma obj_inj R f t i k D E h1 h2 : dyn_rel R D E -> corr R h1 h2 ->
  out_rel R h2 (obj_tok C stk s toks f t (St i k D h1)) (obj_tok C stk s toks f t (St i k E h2)).
Proof.
  intros Hd Hc. unfold obj_tok. cbv zeta. cbn [si ti dy hp goto_ti with_dy]. pose proof (dst_rel R D E i Hd) as P.
  destruct (f_ty f); try (apply fail_inj; assumption).
  all: try (apply val_end_inj; assumption).
  all: try (destruct (Nat.eqb _ _); [first [apply val_end_inj; assumption|apply recur_inj; assumption]|];
    apply here_inj; [|assumption]; apply set_dests_rel; assumption).
  - apply any_inj; assumption.
  - apply json_inj; assumption.
  - apply on_ptr_inj; assumption.
  - (* recursive pointer *) destruct (fr stk (f_recur f)) as [fe|]; [|exact I].
    eapply lift_pure; [apply load_inj; [exact Hc|pos|exact P]|]. intros c d Ecd.
    eapply lift_pure; [apply as_ptr_inj; exact Ecd|]. intros o o' Oo.
    eapply lift_mres with (m1 := snd) (m2 := snd) (Q := fun R' a b => addr_rel R' (fst a) (fst b)).
    { destruct o as [a|], o' as [b|]; cbn in Oo; try contradiction; [eapply mres_here; eauto|].
      destruct (malloc_inj R h1 h2 (f_size fe) Hc) as (R' & X & Co & A).
      destruct (malloc h1 (f_size fe)) as [a g1], (malloc h2 (f_size fe)) as [b g2]. cbn [fst snd] in *.
      eapply mres_trans; [exact X|]. eapply rbind_mres; [apply store_inj; [exact Co|pos|eapply ptr_mono; [apply X|exact P]|exact A]|].
      intros R'' u v X' Co' ->. eapply mres_here; eauto. }
    intros R' [a x] [b y] X Co A. cbn [fst snd] in *.
    assert (Hu : dyn_rel R' (upd_d D (f_recur f) (fun d0 => DF (Some a) (d_off d0) (d_len d0) (RS (d_dest (D (f_recur f))) (d_off (D (f_recur f))) i :: d_rs d0)))
       (upd_d E (f_recur f) (fun d0 => DF (Some b) (d_off d0) (d_len d0) (RS (d_dest (E (f_recur f))) (d_off (E (f_recur f))) i :: d_rs d0)))).
    { apply upd_rel; [eapply dyn_mono; [apply X|exact Hd]|]. intros d0 e0 (_ & Of & L & F). repeat split; cbn; auto; try apply A.
      constructor; [|exact F]. eapply rs_mono; [apply X|]. apply push_rel, Hd. }
    destruct (Nat.eqb _ _); [apply recur_inj; assumption|]. apply here_inj; [|assumption]. apply set_dests_rel; [exact A|exact Hu].
  - (* map *) eapply lift_mres; [apply init_map_inj; eassumption|]. intros R' x y X Co _.
    assert (Hd' : dyn_rel R' D E) by (eapply dyn_mono; [apply X|exact Hd]).
    destruct (Nat.eqb _ _); [apply val_end_inj; assumption|apply here_inj; assumption].
  - (* map[string]string *) destruct (Nat.eqb _ _).
    + eapply lift_mres; [apply store_inj; [exact Hc|pos|exact P|exact eq_refl]|]. intros R' x y X Co ->. apply val_end_inj; assumption.
    + eapply lift_pure; [apply res_eq|]. intros [m|[j e]] ? <-; [|apply fail_inj; assumption].
      eapply lift_mres; [apply store_inj; [exact Hc|pos|exact P|exact eq_refl]|]. intros R' x y X Co ->. apply val_end_inj; assumption.
  - (* recursive map *) eapply lift_mres; [apply init_map_inj; eassumption|]. intros R' x y X Co _.
    match goal with |- context [St i (k + 2) ?a x] => set (Da := a) end.
    match goal with |- context [St i (k + 2) ?a y] => set (Db := a) end.
    assert (Hu : dyn_rel R' Da Db).
    { apply upd_rel; [eapply dyn_mono; [apply X|exact Hd]|]. intros d0 e0 (Pd & Of & L & F). repeat split; cbn; auto.
      constructor; [|exact F]. eapply rs_mono; [apply X|]. apply push_rel, Hd. }
    destruct (Nat.eqb _ _); [apply val_end_inj; assumption|apply here_inj; assumption].
Qed.
Lemma key_inj R f t i k D E h1 h2 : dyn_rel R D E -> corr R h1 h2 ->
  out_rel R h2 (key_tok C O stk s toks f t (St i k D h1)) (key_tok C O stk s toks f t (St i k E h2)).
Proof.
  intros Hd Hc. unfold key_tok. cbn [si ti dy hp goto_ti]. pose proof (dst_rel R D E i Hd) as P.
  destruct (f_ty f) eqn:Ety; try (apply fail_inj; assumption).
  all: try (eapply lift_pure; [apply res_eq|]; intros kb ? <-; eapply lift_pure; [apply res_eq|]; intros key ? <-;
    destruct (lookup_field _ _ _ _); [apply here_inj; assumption|]; destruct (o_unknown O); [apply fail_inj; assumption|];
    destruct (skip_unknown _ _); [apply here_inj; assumption|exact I]).
  all: eapply lift_pure; [apply res_eq|]; intros kb ? <-.
  all: eapply lift_pure with (Q := mp_rel R); [eapply rbind_pure; [apply load_inj; [exact Hc|pos|exact P]|]; intros c d; apply as_map_inj|].
  all: intros m m' M; destruct (fr stk (S i)) as [fk|]; [|exact I].
  all: eapply lift_pure; [apply res_eq|]; intros [k0|e0] ? <-; [|apply fail_inj; assumption].
  all: eapply lift_mres with (m1 := snd) (m2 := snd) (Q := fun R' a b => ptr_rel R' (fst a) (fst b)).
  all: try (destruct k0 as [k0|]; [eapply rbind_mres; [apply mapassign_inj; [exact Hc|exact M]|]; intros R' [a x] [b y] X Co A; eapply mres_here; eauto|eapply mres_here; eauto; exact I]).
  all: intros R' [p x] [q y] X Co Pq; cbn [fst snd] in *; match goal with |- context [fr stk ?ex] => destruct (fr stk ex) as [fv|]; [|exact I] end.
  all: assert (Hd' : dyn_rel R' D E) by (eapply dyn_mono; [apply X|exact Hd]).
  all: eapply lift_mres with (m1 := fun x => x) (m2 := fun x => x) (Q := fun _ _ _ => True);
    [destruct (f_ty fv); try (eapply mres_here; now eauto); apply clear_inj; assumption|].
  all: intros R'' u v X' Co' _; apply here_inj; [|assumption]; apply upd_rel; [eapply dyn_mono; [apply X'|exact Hd']|];
    intros d e; apply set_dest_rel; eapply ptr_mono; [apply X'|exact Pq].
Qed.

Lemma step_inj R x y : st_rel R x y -> out_rel R (hp y) (step C O stk s toks x) (step C O stk s toks y).
Proof.
  destruct x as [i k D h1], y as [i' k' E h2]. intros (Ei & Ek & Hd & Hc). cbn [si ti dy hp] in *. subst i' k'.
  unfold step. cbn [si ti dy hp]. pose proof (dst_rel R D E i Hd) as P.
  destruct (nth_error toks k) as [t|]; [|exact I]. destruct (fr stk i) as [f|]; [|exact I].
  assert (Sc : out_rel R h2
    (lift (scalar_tok C s f t (dst D i) h1) (fun '(h, r) => match r with Some e => Fail (tk_idx t) e (with_hp h (St i k D h1)) | None => on_val_end stk toks (St i (S k) D h) end))
    (lift (scalar_tok C s f t (dst E i) h2) (fun '(h, r) => match r with Some e => Fail (tk_idx t) e (with_hp h (St i k E h2)) | None => on_val_end stk toks (St i (S k) E h) end))).
  { eapply lift_mres; [apply scalar_inj; eassumption|]. intros R' [a r] [b r'] X Co Er. cbn [fst snd] in *. subst r'.
    assert (Hd' : dyn_rel R' D E) by (eapply dyn_mono; [apply X|exact Hd]).
    destruct r; [apply fail_inj; assumption|apply val_end_inj; assumption]. }
  assert (Nl : out_rel R h2 (lift (null_tok C EPtr (dst D i) h1) (fun h => on_val_end stk toks (St i (S k) D h)))
                  (lift (null_tok C EPtr (dst E i) h2) (fun h => on_val_end stk toks (St i (S k) E h)))).
  { eapply lift_mres; [apply null_inj; eassumption|]. intros R' a b X Co _. apply val_end_inj; [eapply dyn_mono; [apply X|exact Hd]|assumption]. }
  destruct (tk_ty t).
  all: try (apply arr_inj; assumption).
  all: try (apply obj_inj; assumption).
  all: try (apply key_inj; assumption).
  all: try (destruct (f_ty f); first [exact Sc | apply json_inj; assumption | apply on_ptr_inj; assumption | exact Nl]).
  - unfold arr_end_tok. cbn [goto_ti goto_si si ti dy hp]. destruct (f_ty f); try (destruct i; [exact I|apply val_end_inj; assumption]).
    destruct (Hd i) as (_ & _ & _ & Rs). destruct Rs as [|a b ra rb Ha Hr]; [apply val_end_inj; assumption|].
    assert (Ec : r_con a = r_con b) by apply Ha. rewrite <- Ec. destruct (fr stk (r_con a)); [|exact I].
    apply here_inj; [|assumption]. apply pop_rel; auto.
  - unfold obj_end_tok. cbn [goto_ti goto_si si ti dy hp]. destruct (f_ty f); try (apply val_end_inj; assumption); try (apply recur_inj; assumption).
    destruct (fr stk (f_recur f)); [|exact I]. destruct (Hd (f_recur f)) as (_ & _ & _ & Rs). destruct Rs as [|a b ra rb Ha Hr]; [apply val_end_inj; assumption|].
    apply here_inj; [|assumption]. apply pop_rel; auto.
Qed.
End Run.

(** Continuation of Refine.v: slices, maps, pointers, and the refinement theorem. *)
From Verif Require Import Base NumSpec StrSpec Atoi JsonNum Unescape Lookup Types Token FloatLit Heap Machine Dt Dec Value Dval Sep Refine.
Open Scope Z_scope.

(** A change inside memory owned by a value, seen from the value. *)
Definition qblk (q : ptr) : list nat := match q with Some a => [fst a] | None => [] end.
Lemma own_inner h p q X F0 Y : own h p (X ++ qblk q ++ F0 ++ Y) -> own h q F0.
Proof.
  intros (A & B & D & E). rewrite !nodup_app in B. destruct B as (_ & (_ & (B & _) & B') & _). split; [exact A|]. split; [exact B|].
  assert (Q : forall b, pblk q = Some b -> In b (qblk q)) by (intros b Hb; destruct q as [[c o]|]; [injection Hb as <-; left; reflexivity|discriminate]).
  split.
  - intros b Hb. destruct (D b) as [D1 D2]; [rewrite !in_app_iff; tauto|]. split; [exact D1|]. intros Hq. apply (B' b (Q b Hq)), in_or_app. left. exact Hb.
  - intros b Hb. destruct (D b) as [D1 D2]; [rewrite !in_app_iff; apply Q in Hb; tauto|lia].
Qed.
Lemma box h h' p q X F0 F1 Y nb m : own h p (X ++ qblk q ++ F0 ++ Y) -> own h' q F1 -> only h h' q nb F0 F1 ->
  own h' p (X ++ qblk q ++ F1 ++ Y) /\ only h h' p m (X ++ qblk q ++ F0 ++ Y) (X ++ qblk q ++ F1 ++ Y) /\
  (forall b, pblk p = Some b \/ In b (X ++ Y) -> blk h' b = blk h b) /\ (forall x, cellat h' p x = cellat h p x).
Proof.
  intros Ow Ow1 On. pose proof (own_inner _ _ _ _ _ _ Ow) as Owq. destruct Ow as (A & B & D & E). destruct Ow1 as (A1 & B1 & D1 & E1).
  destruct On as (N & Bk & Cl & En & G). rewrite !nodup_app in B. destruct B as (BX & (BQ & (BF & BY & BFY) & BQ') & BX').
  assert (Pq : forall b, pblk q = Some b -> In b (qblk q)) by (intros b Hb; destruct q as [[c o]|]; [injection Hb as <-; left; reflexivity|discriminate]).
  assert (Qp : forall b, In b (qblk q) -> pblk q = Some b) by (intros b Hb; destruct q as [[c o]|]; [destruct Hb as [<-|[]]; reflexivity|destruct Hb]).
  assert (BkP : forall b, pblk p = Some b -> blk h' b = blk h b).
  { intros b Hb. apply Bk; [apply E, Hb| |].
    - intros Hf. destruct (D b) as [_ Np]; [rewrite !in_app_iff; tauto|contradiction].
    - intros Hf. destruct (D b) as [_ Np]; [rewrite !in_app_iff; apply Pq in Hf; tauto|contradiction]. }
  assert (BkXY : forall b, In b (X ++ Y) -> blk h' b = blk h b).
  { intros b Hb. apply in_app_or in Hb. destruct (D b) as [Db _]; [rewrite !in_app_iff; tauto|]. apply Bk; [lia| |].
    - intros Hf. destruct Hb as [Hb|Hb]; [apply (BX' b Hb); rewrite !in_app_iff; tauto|apply (BFY b Hf Hb)].
    - intros Hf. apply Pq in Hf. destruct Hb as [Hb|Hb]; [apply (BX' b Hb); rewrite !in_app_iff; tauto|apply (BQ' b Hf); rewrite in_app_iff; tauto]. }
  assert (CP : forall x, cellat h' p x = cellat h p x).
  { intros x. destruct p as [[b o]|]; [|reflexivity]. unfold cellat. rewrite (BkP b eq_refl). reflexivity. }
  assert (F1n : forall b, In b F1 -> ~ In b X /\ ~ In b Y /\ ~ In b (qblk q) /\ pblk p <> Some b).
  { intros b Hb. destruct (D1 b Hb) as [D1a D1b]. assert (Nq : ~ In b (qblk q)) by (intros Hq; apply Qp in Hq; contradiction).
    destruct (G b Hb) as [Hf|Hf].
    - destruct (D b) as [_ Np]; [rewrite !in_app_iff; tauto|]. repeat split; try assumption.
      + intros Hx. apply (BX' b Hx). rewrite !in_app_iff. tauto.
      + intros Hy. apply (BFY b Hf Hy).
    - repeat split; try assumption.
      + intros Hx. destruct (D b) as [Db _]; [rewrite !in_app_iff; tauto|]. lia.
      + intros Hy. destruct (D b) as [Db _]; [rewrite !in_app_iff; tauto|]. lia.
      + intros Hp. apply E in Hp. lia. }
  split; [|split; [|split; [|exact CP]]].
  - split; [exact A1|]. split; [|split].
    + rewrite !nodup_app. repeat split; try assumption.
      * intros b Hb. apply (F1n b Hb).
      * intros b Hb Hc. apply in_app_or in Hc as [Hc|Hc]; [destruct (F1n b Hc) as (? & ? & ? & ?); contradiction|apply (BQ' b Hb), in_or_app; right; exact Hc].
      * intros b Hb Hc. rewrite !in_app_iff in Hc. destruct Hc as [Hc|[Hc|Hc]]; [|destruct (F1n b Hc) as (? & ? & ? & ?); contradiction|]; apply (BX' b Hb); rewrite !in_app_iff; tauto.
    + intros b Hb. rewrite !in_app_iff in Hb.
      assert (Hb' : In b F1 \/ In b (X ++ qblk q ++ F0 ++ Y)) by (rewrite !in_app_iff; tauto). destruct Hb' as [Hb'|Hb'].
      * split; [apply D1, Hb'|apply (F1n b Hb')].
      * destruct (D b Hb'). split; [lia|assumption].
    + intros b Hb. apply E in Hb. lia.
  - split; [exact N|]. split; [|split; [|split]].
    + intros b Lt Nb Pb. rewrite !in_app_iff in Nb. apply Bk; [exact Lt|tauto|]. intros Hq. apply Pq in Hq. tauto.
    + intros x _. apply CP.
    + intros x. rewrite CP. tauto.
    + intros b Hb. rewrite !in_app_iff in *. destruct Hb as [Hb|[Hb|[Hb|Hb]]]; try tauto. destruct (G b Hb); tauto.
  - intros b [Hb|Hb]; [apply BkP, Hb|apply BkXY, Hb].
Qed.

Lemma only_sub h h' p n F F' F'' : only h h' p n F F' -> incl F'' F' -> only h h' p n F F''.
Proof. intros (A & B & D & E & G) I. repeat split; try assumption; try apply E. intros b Hb. apply G, I, Hb. Qed.
Lemma own_sub h p F F' : own h p F -> NoDup F' -> incl F' F -> own h p F'.
Proof. intros (A & B & D & E) N I. repeat split; try assumption; apply D, I; assumption. Qed.
Lemma own_eq h h' p F : own h p F -> nxt h' = nxt h -> own h' p F.
Proof. unfold own. intros H ->. exact H. Qed.

(** Allocation. *)
Lemma malloc_spec h sz p F : 0 < sz -> own h p F ->
  exists h', malloc h sz = ((nxt h, 0), h') /\ nxt h' = S (nxt h) /\ (forall b, b <> nxt h -> blk h' b = blk h b) /\
  blk h' (nxt h) = BMem sz (fun _ => CZero) /\ own h' p (nxt h :: F) /\ (forall m, only h h' p m F (nxt h :: F)) /\
  (forall x, cellat h' p x = cellat h p x).
Proof.
  intros Hs (A & B & D & E). unfold malloc. destruct (Z.leb_spec sz 0); [lia|]. cbn [alloc_blk]. eexists. split; [reflexivity|]. cbn [nxt blk].
  split; [reflexivity|]. split; [intros b Hb; apply Nat.eqb_neq in Hb; rewrite Hb; reflexivity|]. split; [rewrite Nat.eqb_refl; reflexivity|].
  assert (CP : forall x, cellat (Heap (S (nxt h)) (fun x => if (x =? nxt h)%nat then BMem sz (fun _ => CZero) else blk h x)) p x = cellat h p x).
  { intros x. destruct p as [[b o]|]; [|reflexivity]. unfold cellat. cbn [blk]. specialize (E b eq_refl). replace (b =? nxt h)%nat with false by (symmetry; apply Nat.eqb_neq; lia). reflexivity. }
  split; [|split; [|exact CP]].
  - split; [cbn; lia|]. split; [|split].
    + constructor; [|exact B]. intros Hb. apply D in Hb. lia.
    + intros b [<-|Hb]; cbn [nxt].
      * split; [lia|]. intros Hp. apply E in Hp. lia.
      * destruct (D b Hb). split; [lia|assumption].
    + intros b Hb. apply E in Hb. cbn. lia.
  - intros m. split; [cbn; lia|]. split; [|split; [|split]].
    + intros b Lt _ _. cbn. replace (b =? nxt h)%nat with false by (symmetry; apply Nat.eqb_neq; lia). reflexivity.
    + intros x _. apply CP.
    + intros x. rewrite CP. tauto.
    + intros b [<-|Hb]; [right; lia|left; exact Hb].
Qed.

Section Refine.
Variables (C : cfg) (O : opts) (s : bytes).
Notation w64 := (c_w64 C).
Notation W := (wb (c_w64 C)).
Notation dsize := (dsize (c_w64 C)).
Notation rep := (rep (c_w64 C)).
Notation layout := (layout (c_w64 C)).
Notation dech := (dech C O s).
Notation dval := (dval C O s).
Notation post := (post C).
Notation good := (good C s).
Notation rep_slice := (rep_slice (c_w64 C)).
Notation mslice := (mslice (c_w64 C)).

(** ** Destinations without bytes *)
Lemma elems_none f sz l : (forall v p h, f v p h = f v None h) -> forall m p h, elems_h f sz m l p h = elems_h f sz m l None h.
Proof.
  intros E. induction l as [|x l IH]; intros m p h; cbn [elems_h]; [reflexivity|]. rewrite (E x (padd p _)). cbn [padd].
  destruct (f x None h); cbn; try reflexivity. apply IH.
Qed.
Lemma dech_size0 d : layout d -> dsize d = 0 -> forall v p h, dech d v p h = dech d v None h.
Proof.
  pose proof (wb_pos w64) as Wp.
  induction d as [x|id z|id z| |n t IH| |t IH|k t IH| |t IH|z fs IH] using dt_ind'; intros L S v p h; cbn [Dt.dsize] in S; try lia.
  - pose proof (sc_size_pos w64 x). lia.
  - subst z. destruct v; reflexivity.
  - subst z. reflexivity.
  - destruct v; reflexivity.
  - destruct v; try reflexivity. cbn [Dec.dech]. assert (S' : n = 0%nat \/ dsize t = 0) by nia. destruct S' as [->|S'].
    + rewrite firstn_O. reflexivity.
    + apply elems_none. apply IH; assumption.
  - destruct v; reflexivity.
  - subst z. apply layout_struct in L as (Li & _ & _ & La). destruct v as [| | | | | |i j l]; try reflexivity. cbn [Dec.dech].
    assert (G : Forall (fun y => forall v p h, snd y v p h = snd y v None h) (map (fun x : (bytes * Z) * dt => (snd (fst x), dech (snd x))) fs)).
    { clear l. induction IH as [|x fs Hx IH IHl]; cbn; [constructor|]. destruct La as [Lx La]. inversion Li as [|? ? Li1 Li2]; subst.
      constructor; [|apply IHl; assumption]. cbn [snd]. apply Hx; [exact Lx|]. pose proof (dsize_nonneg w64 _ Lx). lia. }
    generalize (map (fun x : bytes * Z * dt => fst (fst x)) fs) as names. revert G.
    generalize (map (fun x : bytes * Z * dt => (snd (fst x), dech (snd x))) fs) as ks. intros ks G names.
    revert p h. induction l as [|x l IHl]; intros p h; cbn [members_h]; [reflexivity|].
    destruct (if o_nounescape O then _ else _); cbn [hlift]; try reflexivity. destruct (pick _ _ _ _) as [j'|].
    + match goal with |- context [@nth_error ?A ks j'] => destruct (@nth_error A ks j') as [[off f]|] eqn:Ej; [|reflexivity] end. rewrite Forall_forall in G.
      pose proof (G _ (nth_error_In _ _ Ej)) as E. cbn in E. rewrite (E (snd x) (padd p off)). cbn [padd].
      destruct (f (snd x) None h); cbn; try reflexivity. apply IHl.
    + destruct (o_unknown O); [reflexivity|apply IHl].
Qed.

Lemma reps_size0 t : nice t -> m_size t = 0 -> forall n k h p gs F, reps (slots (m_size t) (m_rep t) k n) h p gs F ->
  F = [] /\ gs = repeat (m_zero t) n /\ forall h' p', reps (slots (m_size t) (m_rep t) k n) h' p' gs F.
Proof.
  intros L S. induction n as [|n IH]; intros k h p [|g gs] F H; cbn in H; try contradiction.
  - subst F. repeat split.
  - destruct H as (F1 & F2 & -> & H1 & H2). destruct (nice_size0 t L S _ _ _ _ H1) as (-> & -> & T1). destruct (IH _ _ _ _ _ H2) as (-> & -> & T2).
    repeat split. intros h' p'. cbn. exists [], []. repeat split; [apply T1|apply T2].
Qed.

(** ** Elements of a backing array at [a], owned by a header at [p] *)
Definition abl (t : mty) (a : addr) (N : nat) : list nat := if (0 <? m_size t) && (0 <? Z.of_nat N) then [fst a] else [].
Definition bpost (t : mty) (a : addr) (N : nat) (X : list nat) (h : heap) (p : ptr) (m : Z) (F : list nat) (h' : heap) (gs : list gval) : Prop :=
  exists F', reps (slots (m_size t) (m_rep t) 0 N) h' (Some a) gs F' /\ room h' (Some a) (Z.of_nat N * m_size t) /\
    own h' p (X ++ abl t a N ++ F') /\ only h h' p m (X ++ abl t a N ++ F) (X ++ abl t a N ++ F') /\ (forall x, cellat h' p x = cellat h p x) /\
    (forall b, In b X -> blk h' b = blk h b).
Lemma backing (Q : jv -> Prop) t k f : nice t -> goodm Q t k f -> (m_size t = 0 -> forall v p h, k v p h = k v None h) ->
  forall l N h p a gs X F m, Forall Q l -> reps (slots (m_size t) (m_rep t) 0 N) h (Some a) gs F ->
  room h (Some a) (Z.of_nat N * m_size t) -> own h p (X ++ abl t a N ++ F) -> (length l <= N)%nat -> (0 < N)%nat ->
  gsim (bpost t a N X h p m F) (elems_h k (m_size t) 0 l (Some a) h) (elemsv f l gs).
Proof.
  intros L Gd K0 l N h p a gs X F m Lx R Rm Ow Hl HN. pose proof (nice_size t L) as Hs. unfold abl in *.
  destruct (Z.eq_dec (m_size t) 0) as [S|S].
  - rewrite (elems_none k (m_size t) l (K0 S)). destruct (reps_size0 t L S N 0 _ _ _ _ R) as (-> & -> & Any).
    replace ((0 <? m_size t) && (0 <? Z.of_nat N)) with false in * by (rewrite S; reflexivity). cbn [app] in *.
    assert (Ow0 : own h p (X ++ qblk None ++ [] ++ [])) by (cbn; exact Ow).
    eapply gsim_imp; [apply (elems_good Q t k f L Gd l N h None _ [] Lx (Any h None)); [eapply own_inner; exact Ow0|exact Hl]|].
    intros h' gs' (F' & R' & Ow' & On'). destruct (reps_size0 t L S N 0 _ _ _ _ R') as (-> & -> & Any').
    destruct (box h h' p None X [] [] [] _ m Ow0 Ow' On') as (Ow2 & On2 & Bk2 & Cl2). cbn [qblk app] in *.
    exists []. unfold abl. replace ((0 <? m_size t) && (0 <? Z.of_nat N)) with false by (rewrite S; reflexivity). cbn [app]. split; [apply Any'|]. split; [intros x Hx; rewrite S in Hx; lia|].
    split; [exact Ow2|]. split; [exact On2|]. split; [exact Cl2|]. intros b Hb. apply Bk2. right. rewrite app_nil_r. exact Hb.
  - replace ((0 <? m_size t) && (0 <? Z.of_nat N)) with true in * by (symmetry; apply andb_true_iff; lia).
    assert (Ow0 : own h p (X ++ qblk (Some a) ++ F ++ [])) by (rewrite app_nil_r; exact Ow).
    eapply gsim_imp; [apply (elems_good Q t k f L Gd l N h (Some a) gs F Lx R); [eapply own_inner; exact Ow0|exact Hl]|].
    intros h' gs' (F' & R' & Ow' & On').
    destruct (box h h' p (Some a) X F F' [] _ m Ow0 Ow' On') as (Ow2 & On2 & Bk2 & Cl2). rewrite !app_nil_r in *.
    exists F'. unfold abl. replace ((0 <? m_size t) && (0 <? Z.of_nat N)) with true by (symmetry; apply andb_true_iff; lia).
    split; [exact R'|]. split.
    { destruct On' as (_ & _ & _ & En & _). intros x Hx. rewrite En. apply Rm, Hx. }
    split; [exact Ow2|]. split; [exact On2|]. split; [exact Cl2|]. intros b Hb. apply Bk2. right. exact Hb.
Qed.

(** ** Slices *)
Lemma slots_app sz R n m k : slots sz R k (n + m) = slots sz R k n ++ slots sz R (k + n) m.
Proof. revert k. induction n as [|n IH]; intros k; cbn; [rewrite Nat.add_0_r; reflexivity|]. rewrite IH. replace (S k + n)%nat with (k + S n)%nat by lia. reflexivity. Qed.
Lemma reps_app rs1 rs2 h p : forall g1 g2 F, length g1 = length rs1 ->
  reps (rs1 ++ rs2) h p (g1 ++ g2) F <-> exists F1 F2, F = F1 ++ F2 /\ reps rs1 h p g1 F1 /\ reps rs2 h p g2 F2.
Proof.
  induction rs1 as [|r rs1 IH]; intros [|g g1] g2 F Hl; try discriminate; cbn [app reps].
  - split; [intros H; exists [], F; auto|intros (F1 & F2 & -> & -> & H); exact H].
  - cbn in Hl. split.
    + intros (Fa & Fb & -> & Ha & Hb). apply IH in Hb; [|lia]. destruct Hb as (F1 & F2 & -> & H1 & H2). exists (Fa ++ F1), F2. split; [apply app_assoc|]. split; [|exact H2]. exists Fa, F1. auto.
    + intros (F1 & F2 & -> & (Fa & Fb & -> & Ha & Hb) & H2). exists Fa, (Fb ++ F2). split; [symmetry; apply app_assoc|]. split; [exact Ha|].
      apply IH; [lia|]. exists Fb, F2. auto.
Qed.
Lemma reps_slots_agree t n : nice t -> forall h p h' p' gs F, reps (slots (m_size t) (m_rep t) 0 n) h p gs F ->
  agree h p h' p' (Z.of_nat n * m_size t) F -> reps (slots (m_size t) (m_rep t) 0 n) h' p' gs F.
Proof. intros L h p h' p' gs F R A. eapply reps_agree; [apply slots_stable; [apply nice_size, L|apply nice_stable, L]|exact R|exact A]. Qed.
Lemma backing_stable t N a h h' gs F : nice t -> reps (slots (m_size t) (m_rep t) 0 N) h (Some a) gs F -> room h (Some a) (Z.of_nat N * m_size t) ->
  (forall b, In b (abl t a N ++ F) -> blk h' b = blk h b) ->
  reps (slots (m_size t) (m_rep t) 0 N) h' (Some a) gs F /\ room h' (Some a) (Z.of_nat N * m_size t).
Proof.
  intros L R Rm Bk. pose proof (nice_size t L) as Hs.
  assert (Ca : forall x, 0 <= x < Z.of_nat N * m_size t -> cellat h' (Some a) x = cellat h (Some a) x).
  { intros x Hx. unfold cellat. destruct a as [b o]. rewrite (Bk b); [reflexivity|]. apply in_or_app. left. unfold abl.
    replace ((0 <? m_size t) && (0 <? Z.of_nat N)) with true; [left; reflexivity|]. symmetry. apply andb_true_iff. split; nia. }
  split.
  - eapply reps_slots_agree; [exact L|exact R|]. split; [exact Ca|]. intros b Hb. apply Bk, in_or_app. right. exact Hb.
  - intros x Hx. rewrite Ca by exact Hx. apply Rm, Hx.
Qed.

Lemma slice_view t h p g F : rep_slice t h p g F -> exists c data a vis hid F',
  holds h p (3 * W) c /\ is_poison c = false /\ contents g = (vis, hid) /\
  as_slice c = Ok (data, Z.of_nat (length vis), Z.of_nat (length vis + length hid)) /\
  (data = Some a \/ data = None /\ (length vis + length hid)%nat = 0%nat) /\
  reps (slots (m_size t) (m_rep t) 0 (length vis + length hid)) h (Some a) (vis ++ hid) F' /\
  room h (Some a) (Z.of_nat (length vis + length hid) * m_size t) /\ F = abl t a (length vis + length hid) ++ F'.
Proof.
  cbn [Value.rep]. intros (c & Hc & H). destruct c; try contradiction.
  - destruct H as [-> ->]. exists CZero, None, (0%nat, 0), [], [], []. repeat split; try assumption; try reflexivity; try apply Hc; [right; auto|intros x Hx; cbn in Hx; lia|].
    unfold abl. cbn. rewrite andb_false_r. reflexivity.
  - destruct H as (vis & hid & F' & -> & -> & -> & Rm & R & ->). exists (CSlice p0 (Z.of_nat (length vis)) (Z.of_nat (length vis + length hid))), (Some p0), p0, vis, hid, F'.
    repeat split; try assumption; try apply Hc. left. reflexivity.
Qed.
Lemma mk_slice t h p a n N gs F : holds h p (3 * W) (CSlice a (Z.of_nat n) (Z.of_nat N)) -> (n <= N)%nat ->
  reps (slots (m_size t) (m_rep t) 0 N) h (Some a) gs F -> room h (Some a) (Z.of_nat N * m_size t) ->
  rep_slice t h p (split_at n gs) (abl t a N ++ F).
Proof.
  intros Hc Hn R Rm. assert (Lg : length gs = N) by (rewrite (reps_length _ _ _ _ _ R), slots_length; reflexivity).
  cbn [Value.rep]. exists (CSlice a (Z.of_nat n) (Z.of_nat N)). split; [exact Hc|]. exists (firstn n gs), (skipn n gs), F.
  assert (L1 : length (firstn n gs) = n) by (apply firstn_length_le; lia).
  assert (L2 : (n + length (skipn n gs) = N)%nat) by (rewrite skipn_length; lia).
  rewrite L1, L2, firstn_skipn. repeat split; try assumption.
Qed.

(** A new zeroed backing array. *)
Lemma fresh_array t n h p F : nice t -> (0 < n)%nat -> own h p F -> exists a h1,
  malloc h (m_size t * Z.of_nat n) = (a, h1) /\ own h1 p (abl t a n ++ F) /\ (forall m, only h h1 p m F (abl t a n ++ F)) /\
  (forall x, cellat h1 p x = cellat h p x) /\ (forall b, (b < nxt h)%nat -> blk h1 b = blk h b) /\ (nxt h <= nxt h1)%nat /\
  reps (slots (m_size t) (m_rep t) 0 n) h1 (Some a) (repeat (m_zero t) n) [] /\
  (forall x, 0 <= x < Z.of_nat n * m_size t -> cellat h1 (Some a) x = Some CZero).
Proof.
  intros L Hn Ow. pose proof (nice_size t L) as Hs.
  assert (Rz : forall h a, (forall x, 0 <= x < Z.of_nat n * m_size t -> cellat h (Some a) x = Some CZero) ->
    reps (slots (m_size t) (m_rep t) 0 n) h (Some a) (repeat (m_zero t) n) []).
  { intros h0 a Hz. apply reps_zero; [rewrite slots_length, repeat_length; reflexivity|].
    intros i r z Hr Hzz. rewrite nth_error_slots in Hr. rewrite nth_error_repeat in Hzz. destruct (Nat.ltb_spec i n); [|discriminate].
    injection Hr as <-. injection Hzz as <-. cbn [fst snd Nat.add]. apply (nice_zero t L). intros x Hx. rewrite cellat_padd. apply Hz.
    destruct (mul_range i n (m_size t)); lia. }
  unfold abl. destruct (Z.eq_dec (m_size t) 0) as [S|S].
  - exists (0%nat, 0), h. unfold malloc. rewrite S. cbn [Z.leb Z.mul Z.ltb Z.compare andb app].
    assert (Z0 : forall x, 0 <= x < Z.of_nat n * 0 -> cellat h (Some (0%nat, 0)) x = Some CZero) by (intros; lia).
    split; [reflexivity|]. split; [exact Ow|]. split; [intros; apply only_refl|]. repeat split; try tauto; try lia. rewrite <- S. apply Rz. rewrite S. exact Z0.
  - assert (Ps : 0 < m_size t * Z.of_nat n) by nia.
    destruct (malloc_spec h (m_size t * Z.of_nat n) p F Ps Ow) as (h1 & E & Nx & Bk & Bn & Ow1 & On1 & Cl1).
    exists (nxt h, 0), h1. replace ((0 <? m_size t) && (0 <? Z.of_nat n)) with true by (symmetry; apply andb_true_iff; lia). cbn [fst app].
    split; [exact E|]. split; [exact Ow1|]. split; [exact On1|]. split; [exact Cl1|]. split; [intros b Hb; apply Bk; lia|]. split; [lia|].
    assert (Z0 : forall x, 0 <= x < Z.of_nat n * m_size t -> cellat h1 (Some (nxt h, 0)) x = Some CZero).
    { intros x Hx. unfold cellat. rewrite Bn. replace ((0 <=? 0 + x) && (0 + x <? m_size t * Z.of_nat n)) with true by lia. reflexivity. }
    split; [apply Rz, Z0|exact Z0].
Qed.

Lemma room_mem h b o n : 0 < n -> room h (Some (b, o)) n -> exists size cells, blk h b = BMem size cells /\ 0 <= o /\ o + n <= size.
Proof.
  intros Hn R. pose proof (R 0 ltac:(lia)) as R0. pose proof (R (n - 1) ltac:(lia)) as R1. unfold cellat in *.
  destruct (blk h b) as [|size cells|]; try congruence. exists size, cells. split; [reflexivity|].
  destruct ((0 <=? o + 0) && (o + 0 <? size)) eqn:E0; [|congruence]. destruct ((0 <=? o + (n - 1)) && (o + (n - 1) <? size)) eqn:E1; [|congruence]. lia.
Qed.
Lemma copy_spec h a a0 n m : 0 < n <= m -> room h (Some a) m -> room h (Some a0) n ->
  exists h', copy h (Some a) (Some a0) n = Ok h' /\ nxt h' = nxt h /\ (forall b, b <> fst a -> blk h' b = blk h b) /\
  (forall x, 0 <= x < n -> cellat h' (Some a) x = cellat h (Some a0) x) /\ (forall x, ~ (0 <= x < n) -> cellat h' (Some a) x = cellat h (Some a) x) .
Proof.
  intros Hn Ra Ra0. destruct a as [b o], a0 as [b0 o0]. destruct (room_mem h b o m) as (size & cells & E & H1 & H2); [lia|exact Ra|].
  destruct (room_mem h b0 o0 n) as (size0 & cells0 & E0 & H3 & H4); [lia|exact Ra0|].
  unfold copy. destruct (Z.leb_spec n 0); [lia|]. rewrite E, E0. replace ((0 <=? o) && (o + n <=? size) && (0 <=? o0) && (o0 + n <=? size0)) with true by lia.
  eexists. split; [reflexivity|]. split; [reflexivity|]. split.
  { intros c Hc. cbn in *. apply Nat.eqb_neq in Hc. rewrite Hc. reflexivity. }
  assert (Eb : forall k, blk (set_blk h b k) b = k) by (intros k; cbn; rewrite Nat.eqb_refl; reflexivity).
  split; intros x Hx; unfold cellat; rewrite Eb.
  - rewrite E0. replace ((0 <=? o + x) && (o + x <? size)) with true by lia. replace ((0 <=? o0 + x) && (o0 + x <? size0)) with true by lia.
    replace ((o <=? o + x) && (o + x <? o + n)) with true by lia. f_equal. f_equal. lia.
  - rewrite E. replace ((o <=? o + x) && (o + x <? o + n)) with false by lia. reflexivity.
Qed.

Definition grown (t : mty) (keep : bool) (n : nat) (g : gval) : list gval :=
  let '(vis, hid) := contents g in
  if (n <=? length vis + length hid)%nat then vis ++ hid
  else if keep then vis ++ repeat (m_zero t) (n - length vis) else repeat (m_zero t) n.

Lemma grow_spec t keep n h p g F : nice t -> (0 < n)%nat -> rep_slice t h p g F -> own h p F ->
  exists a h1 F0 N, grow_slice C h p (m_size t) (Z.of_nat n) keep = Ok (a, h1) /\
    holds h1 p (3 * W) (CSlice a (Z.of_nat n) (Z.of_nat N)) /\ (n <= N)%nat /\
    reps (slots (m_size t) (m_rep t) 0 N) h1 (Some a) (grown t keep n g) F0 /\ room h1 (Some a) (Z.of_nat N * m_size t) /\
    own h1 p (abl t a N ++ F0) /\ only h h1 p (3 * W) F (abl t a N ++ F0).
Proof.
  intros L Hn R Ow. pose proof (nice_size t L) as Hs. pose proof (wb_pos w64) as Wp.
  destruct (slice_view t h p g F R) as (c & data & a & vis & hid & F' & Hc & Np & Cg & As & Da & Re & Rm & ->).
  unfold grow_slice, grown. rewrite Cg, (load_holds h p (3 * W) c) by (assumption || lia). cbn [rbind]. rewrite As. cbn [rbind].
  destruct (Nat.leb_spec n (length vis + length hid)) as [Hle|Hgt].
  - replace (Z.of_nat (length vis + length hid) <? Z.of_nat n) with false by lia. destruct Da as [-> |[_ Z0]]; [|lia].
    destruct (store_cell h p (3 * W) c (CSlice a (Z.of_nat n) (Z.of_nat (length vis + length hid)))) as (h1 & E & Hh & Nx & Bk & Ow1 & On1); [lia|exact Hc|exact Np|].
    rewrite E. cbn [rbind]. exists a, h1, F', (length vis + length hid)%nat. split; [reflexivity|]. split; [exact Hh|]. split; [exact Hle|].
    destruct (backing_stable t _ a h h1 _ _ L Re Rm) as [Re1 Rm1].
    { intros b Hb. apply Bk. destruct Ow as (_ & _ & D & _). apply (D b Hb). }
    split; [exact Re1|]. split; [exact Rm1|]. split; [apply Ow1, Ow|apply On1, incl_refl].
  - replace (Z.of_nat (length vis + length hid) <? Z.of_nat n) with true by lia.
    destruct (fresh_array t n h p _ L Hn Ow) as (a1 & h1 & Em & Ow1 & On1 & Cl1 & Bk1 & Nx1 & Rz & Zc). rewrite Em.
    assert (Hc1 : holds h1 p (3 * W) c).
    { destruct Hc as [Hc Hc']. split; [intros x Hx; rewrite Cl1; apply Hc, Hx|rewrite Cl1; exact Hc']. }
    assert (Rm0 : room h1 (Some a1) (Z.of_nat n * m_size t)) by (intros x Hx; rewrite Zc by exact Hx; discriminate).
    (* after an optional copy: h2 *)
    assert (Cp : exists h2 gs F0, (let* h := (if (0 <? m_size t) && negb (Z.of_nat (length vis) =? 0) && keep then copy h1 (Some a1) data (m_size t * Z.of_nat (length vis)) else Ok h1) in Ok h) = Ok h2 /\
      gs = (if keep then vis ++ repeat (m_zero t) (n - length vis) else repeat (m_zero t) n) /\ NoDup F0 /\ incl F0 F' /\ nxt h2 = nxt h1 /\
      (forall b, ~ In b (abl t a1 n) -> blk h2 b = blk h1 b) /\ (forall x, cellat h2 (Some a1) x = None <-> cellat h1 (Some a1) x = None) /\
      reps (slots (m_size t) (m_rep t) 0 n) h2 (Some a1) gs F0).
    { destruct ((0 <? m_size t) && negb (Z.of_nat (length vis) =? 0) && keep) eqn:Ec.
      - apply andb_true_iff in Ec as [Ec ->]. apply andb_true_iff in Ec as [Es El]. apply Z.ltb_lt in Es.
        assert (Hv : (0 < length vis)%nat) by (destruct (length vis); [discriminate|lia]).
        destruct Da as [-> |[_ Z0]]; [|lia].
        assert (Hab : abl t a1 n = [fst a1]) by (unfold abl; replace ((0 <? m_size t) && (0 <? Z.of_nat n)) with true by lia; reflexivity).
        assert (Haa : abl t a (length vis + length hid) = [fst a]) by (unfold abl; replace ((0 <? m_size t) && (0 <? Z.of_nat (length vis + length hid))) with true by lia; reflexivity).
        rewrite Hab, Haa in *.
        assert (Lta : (fst a < nxt h)%nat) by (destruct Ow as (_ & _ & D & _); destruct (D (fst a)); [left; reflexivity|lia]).
        assert (Ba : blk h1 (fst a) = blk h (fst a)) by (apply Bk1, Lta).
        assert (Na : fst a <> fst a1).
        { intros Q. destruct Ow1 as (_ & B & _). cbn in B. inversion B as [|? ? B1 B2]; subst. apply B1. left. exact Q. }
        assert (Ca : forall x, cellat h1 (Some a) x = cellat h (Some a) x) by (intros x; unfold cellat; destruct a as [b o]; cbn in Ba; rewrite Ba; reflexivity).
        destruct (copy_spec h1 a1 a (m_size t * Z.of_nat (length vis)) (Z.of_nat n * m_size t)) as (h2 & E2 & Nx2 & Bk2 & C2 & C2').
        { nia. }
        { exact Rm0. }
        { intros x Hx. rewrite Ca. apply Rm. nia. }
        rewrite E2. cbn [rbind]. rewrite slots_app in Re. apply reps_app in Re; [|rewrite slots_length; reflexivity].
        destruct Re as (Fv & Fh & -> & Rv & Rh). exists h2, (vis ++ repeat (m_zero t) (n - length vis)), Fv.
        split; [reflexivity|]. split; [reflexivity|]. destruct Ow as (O1 & O2 & O3 & O4). cbn [app] in O2. rewrite NoDup_cons_iff, nodup_app in O2.
        split; [tauto|]. split; [apply incl_appl, incl_refl|]. split; [exact Nx2|]. split; [intros b Hb; apply Bk2; intros ->; apply Hb; left; reflexivity|].
        split.
        { intros x. destruct (Z_lt_dec x 0); [rewrite C2' by lia; tauto|]. destruct (Z_lt_dec x (m_size t * Z.of_nat (length vis))); [|rewrite C2' by lia; tauto].
          rewrite C2 by lia. rewrite Ca. split; intros Q; exfalso; [apply (Rm x); [nia|exact Q]|apply (Rm0 x); [nia|exact Q]]. }
        replace n with (length vis + (n - length vis))%nat at 1 by lia. rewrite slots_app. apply reps_app; [rewrite slots_length; reflexivity|].
        exists Fv, []. rewrite app_nil_r. split; [reflexivity|]. split.
        + eapply reps_slots_agree; [exact L|exact Rv|]. split.
          * intros x Hx. rewrite C2 by lia. apply Ca.
          * intros b Hb. destruct (O3 b) as [O3a O3b]; [rewrite !in_app_iff; tauto|]. rewrite Bk2; [apply Bk1; lia|].
            intros ->. destruct Ow1 as (_ & B & _). cbn [app] in B. inversion B as [|? ? B1 B2]; subst. apply B1. cbn. rewrite !in_app_iff. tauto.
        + apply reps_zero; [rewrite slots_length, repeat_length; reflexivity|].
          intros i r z Hr Hzz. rewrite nth_error_slots in Hr. rewrite nth_error_repeat in Hzz. destruct (Nat.ltb_spec i (n - length vis)); [|discriminate].
          injection Hr as <-. injection Hzz as <-. cbn [fst snd Nat.add]. apply (nice_zero t L). intros x Hx. rewrite cellat_padd.
          destruct (mul_range (length vis + i) n (m_size t)); [lia|lia|]. rewrite C2' by nia. apply Zc. nia.
      - exists h1, (repeat (m_zero t) n), []. split; [reflexivity|]. split.
        + destruct keep; [|reflexivity]. destruct vis as [|v0 vis0]; [cbn; rewrite Nat.sub_0_r; reflexivity|].
          rewrite andb_true_r in Ec. cbn [length Z.of_nat Z.eqb negb] in Ec. rewrite andb_true_r in Ec.
          assert (S : m_size t = 0) by lia. destruct (reps_size0 t L S _ _ _ _ _ _ Re) as (_ & Ev & _).
          rewrite <- (firstn_skipn (length (v0 :: vis0)) ((v0 :: vis0) ++ hid)) in Ev.
          assert (Ev' : v0 :: vis0 = repeat (m_zero t) (length (v0 :: vis0))).
          { rewrite firstn_skipn in Ev. rewrite repeat_app in Ev. apply (f_equal (firstn (length (v0 :: vis0)))) in Ev.
            rewrite !firstn_app, !firstn_all, Nat.sub_diag, !firstn_O, app_nil_r in Ev.
            rewrite repeat_length, Nat.sub_diag, firstn_O, app_nil_r in Ev. rewrite firstn_all2 in Ev; [exact Ev|rewrite repeat_length; lia]. }
          rewrite Ev' at 1. rewrite <- repeat_app. f_equal. lia.
        + split; [constructor|]. split; [intros b []|]. split; [reflexivity|]. split; [reflexivity|]. split; [tauto|exact Rz]. }
    destruct Cp as (h2 & gs & F0 & E2 & -> & Nd & In0 & Nx2 & Bk2 & Rm2 & Rg).
    assert (E2' : (if (0 <? m_size t) && negb (Z.of_nat (length vis) =? 0) && keep then copy h1 (Some a1) data (m_size t * Z.of_nat (length vis)) else Ok h1) = Ok h2).
    { destruct (if (0 <? m_size t) && negb (Z.of_nat (length vis) =? 0) && keep then _ else _); [cbn in E2; congruence|discriminate|discriminate]. }
    rewrite E2'. cbn [rbind].
    assert (Pb : forall b, pblk p = Some b -> blk h2 b = blk h1 b).
    { intros b Hb. apply Bk2. intros Hi. destruct Ow1 as (_ & _ & D & _). destruct (D b); [apply in_or_app; left; exact Hi|contradiction]. }
    assert (Cl2 : forall x, cellat h2 p x = cellat h1 p x) by (intros x; unfold cellat; destruct p as [[b o]|]; [rewrite (Pb b eq_refl)|]; reflexivity).
    assert (Hc2 : holds h2 p (3 * W) c).
    { destruct Hc1 as [Hc1 Hc1']. split; [intros x Hx; rewrite Cl2; apply Hc1, Hx|rewrite Cl2; exact Hc1']. }
    destruct (store_cell h2 p (3 * W) c (CSlice a1 (Z.of_nat n) (Z.of_nat n))) as (h3 & E3 & Hh & Nx3 & Bk3 & Ow3 & On3); [lia|exact Hc2|exact Np|].
    rewrite E3. cbn [rbind]. exists a1, h3, F0, n. split; [reflexivity|]. split; [exact Hh|]. split; [lia|].
    assert (Ow2 : own h2 p (abl t a1 n ++ F0)).
    { eapply own_eq; [|exact Nx2]. eapply own_sub; [exact Ow1| |].
      - destruct Ow1 as (_ & B & _). rewrite !nodup_app in *. destruct B as (B1 & (B2 & B3 & B4) & B5). repeat split; try assumption.
        intros x Hx Hy. apply (B5 x Hx), in_or_app. right. apply In0, Hy.
      - intros b Hb. rewrite !in_app_iff in *. destruct Hb as [Hb|Hb]; [tauto|]. right. right. apply In0, Hb. }
    assert (Rm2' : room h2 (Some a1) (Z.of_nat n * m_size t)) by (intros x Hx; rewrite Rm2; apply Rm0, Hx).
    destruct (backing_stable t n a1 h2 h3 _ _ L Rg Rm2') as [Re3 Rm3].
    { intros b Hb. apply Bk3. destruct Ow2 as (_ & _ & D & _). apply (D b Hb). }
    split; [exact Re3|]. split; [exact Rm3|]. split; [apply Ow3, Ow2|].
    eapply only_trans; [apply (On1 (3 * W))|]. eapply only_trans; [|apply On3, incl_refl].
    split; [lia|]. split; [|split; [|split]].
    + intros b _ Hb _. apply Bk2. intros Hi. apply Hb, in_or_app. left. exact Hi.
    + intros x _. apply Cl2.
    + intros x. rewrite Cl2. tauto.
    + intros b Hb. left. rewrite !in_app_iff in *. destruct Hb as [Hb|Hb]; [tauto|]. right. right. apply In0, Hb.
Qed.

Lemma slice_h_good (Q : jv -> Prop) t k f keep : nice t -> goodm Q t k f -> (m_size t = 0 -> forall v p h, k v p h = k v None h) ->
  forall l h p g F, Forall Q l -> rep_slice t h p g F -> own h p F ->
  gsim (postm (mslice t) h p F) (slice_h C k (m_size t) keep l p h) (slicev f (m_zero t) false keep l g).
Proof.
  intros L Gd K0 l h p g F Lx R Ow. pose proof (wb_pos w64) as Wp. unfold slice_h, slicev. destruct l as [|x0 l0].
  - destruct (slice_view t h p g F R) as (c & data & a & vis & hid & F' & Hc & Np & _).
    destruct (store_cell h p (3 * W) c (CSlice (0%nat, 0) 0 0)) as (h1 & E & Hh & Nx & Bk & Ow1 & On1); [lia|exact Hc|exact Np|].
    rewrite E. cbn [hlift gsim]. exists h1. split; [reflexivity|]. exists (abl t (0%nat, 0) 0 ++ []). split.
    + apply (mk_slice t h1 p (0%nat, 0) 0 0 [] []); [exact Hh|lia|reflexivity|intros x Hx; cbn in Hx; lia].
    + unfold abl. cbn [Z.of_nat Z.ltb Z.compare]. rewrite andb_false_r. cbn [app]. split; [apply Ow1; eapply own_nil, Ow|apply On1; intros b []].
  - set (l := x0 :: l0) in *. destruct (grow_spec t keep (length l) h p g F L ltac:(cbn; lia) R Ow) as (a & h1 & F0 & N & E & Hh & HN & Re & Rm & Ow1 & On1).
    rewrite E. cbn [hlift].
    pose proof (backing Q t k f L Gd K0 l N h1 p a _ [] F0 (3 * W) Lx Re Rm Ow1 HN ltac:(cbn in HN; lia)) as Qx.
    unfold grown in Qx. destruct (contents g) as [vis hid].
    assert (Fin : forall h' gs', bpost t a N [] h1 p (3 * W) F0 h' gs' -> postm (mslice t) h p F h' (split_at (length l) gs')).
    { intros h' gs' (F1 & R1 & Rm1 & Ow2 & On2 & Cl & _). cbn [app] in *. exists (abl t a N ++ F1). split; [|split; [exact Ow2|eapply only_trans; eassumption]].
      apply mk_slice; try assumption. destruct Hh as [Hh1 Hh2]. split; [intros x Hx; rewrite Cl; apply Hh1, Hx|rewrite Cl; exact Hh2]. }
    destruct (Nat.leb_spec (length l) (length vis + length hid)).
    + destruct (elemsv f l (vis ++ hid)); cbn [gsim] in *; [destruct Qx as (h' & -> & Qx); eauto|destruct Qx as (h' & -> & Qx); eauto|exact Qx].
    + destruct (elemsv f l _); cbn [gsim] in *; [destruct Qx as (h' & -> & Qx); eauto|destruct Qx as (h' & -> & Qx); eauto|exact Qx].
Qed.
End Refine.

(** Memory lemmas: footprints, moving values, focusing on a part of a value. *)
From Verif Require Import Base Types FloatLit Heap Dt Value Dval.
Open Scope Z_scope.

Lemma cellat_padd h p o x : cellat h (padd p o) x = cellat h p (o + x).
Proof. destruct p as [[b a]|]; [|reflexivity]. cbn. rewrite Z.add_assoc. reflexivity. Qed.
Lemma pblk_padd p o : pblk (padd p o) = pblk p.
Proof. destruct p as [[b a]|]; reflexivity. Qed.
Lemma padd_0 p : padd p 0 = p.
Proof. destruct p as [[b a]|]; [|reflexivity]. cbn. rewrite Z.add_0_r. reflexivity. Qed.
Lemma padd_padd p a b : padd (padd p a) b = padd p (a + b).
Proof. destruct p as [[c d]|]; [|reflexivity]. cbn. rewrite Z.add_assoc. reflexivity. Qed.
Lemma room_padd h p o n m : room h p m -> 0 <= o -> o + n <= m -> room h (padd p o) n.
Proof. intros R H1 H2 x Hx. rewrite cellat_padd. apply R. lia. Qed.

(** ** Loads and stores *)
Lemma holds_mem h p n c : 0 < n -> holds h p n c -> exists b o size cells,
  p = Some (b, o) /\ blk h b = BMem size cells /\ 0 <= o /\ o + n <= size /\ cells o = c.
Proof.
  intros Hn [R H]. destruct p as [[b o]|]; [|discriminate]. pose proof (R (n - 1)) as R1. cbn in *.
  destruct (blk h b) as [|size cells|l] eqn:E; try discriminate.
  destruct ((0 <=? o + 0) && (o + 0 <? size)) eqn:E0; [|discriminate].
  destruct ((0 <=? o + (n - 1)) && (o + (n - 1) <? size)) eqn:E1; [|exfalso; apply R1; [lia|reflexivity]].
  rewrite Z.add_0_r in *. exists b, o, size, cells. repeat split; try assumption; try lia. congruence.
Qed.

Lemma load_holds h p n c : 0 < n -> holds h p n c -> is_poison c = false -> load h p n = Ok c.
Proof.
  intros Hn H N. apply holds_mem in H as (b & o & size & cells & -> & E & H1 & H2 & <-); [|exact Hn].
  unfold load. rewrite E, N. replace ((0 <=? o) && (o + n <=? size)) with true by lia. reflexivity.
Qed.

Lemma store_holds h p n c v : 0 < n -> holds h p n c -> is_poison c = false ->
  exists h', store h p n v = Ok h' /\ nxt h' = nxt h /\ (forall b, pblk p <> Some b -> blk h' b = blk h b) /\
    holds h' p n v /\ (forall x, ~ (0 <= x < n) -> cellat h' p x = cellat h p x) /\
    (forall x, cellat h' p x = None <-> cellat h p x = None) /\
    (forall b, pblk p = Some b -> exists size cells cells', blk h b = BMem size cells /\ blk h' b = BMem size cells').
Proof.
  intros Hn H N. assert (H' := H). apply holds_mem in H' as (b & o & size & cells & -> & E & H1 & H2 & Hc); [|exact Hn].
  subst c. unfold store. rewrite E, N. replace ((0 <=? o) && (o + n <=? size)) with true by lia. cbn [andb negb].
  eexists. split; [reflexivity|]. cbn [nxt set_blk]. split; [reflexivity|]. split.
  { intros c Hc. cbn in *. destruct (Nat.eqb_spec c b); [congruence|reflexivity]. }
  assert (Eb : blk (set_blk h b (BMem size (put_cell cells o n v))) b = BMem size (put_cell cells o n v)) by (cbn; rewrite Nat.eqb_refl; reflexivity).
  assert (Nn : forall x, cellat (set_blk h b (BMem size (put_cell cells o n v))) (Some (b, o)) x = None <-> cellat h (Some (b, o)) x = None).
  { intros x. unfold cellat. rewrite Eb, E. destruct (_ && _); split; congruence. }
  split; [|split; [|split]].
  - split.
    + intros x Hx. rewrite Nn. apply H, Hx.
    + unfold cellat. rewrite Eb. replace ((0 <=? o + 0) && (o + 0 <? size)) with true by lia.
      unfold put_cell. replace (o + 0 =? o) with true by lia. reflexivity.
  - intros x Hx. unfold cellat. rewrite Eb, E. destruct (_ && _) eqn:B; [|reflexivity]. f_equal. unfold put_cell.
    destruct (Z.eqb_spec (o + x) o); [lia|]. destruct ((o <? o + x) && (o + x <? o + n)) eqn:B2; [lia|reflexivity].
  - exact Nn.
  - intros b0 [= <-]. rewrite Eb, E. eauto.
Qed.

(** ** Agreement *)
Definition agree (h : heap) (p : ptr) (h' : heap) (p' : ptr) (n : Z) (F : list nat) : Prop :=
  (forall x, 0 <= x < n -> cellat h' p' x = cellat h p x) /\ (forall b, In b F -> blk h' b = blk h b).
Definition stable (R : rept) (n : Z) : Prop := forall h p h' p' g F, R h p g F -> agree h p h' p' n F -> R h' p' g F.

Lemma holds_agree h p h' p' n m F c : 0 < n <= m -> agree h p h' p' m F -> holds h p n c -> holds h' p' n c.
Proof.
  intros Hn [A _] [R H]. split.
  - intros x Hx. rewrite A by lia. apply R, Hx.
  - rewrite A by lia. exact H.
Qed.

Lemma reps_agree n rs : Forall (fun r => exists sz, 0 <= fst r /\ fst r + sz <= n /\ stable (snd r) sz) rs ->
  forall h p h' p' gs F, reps rs h p gs F -> agree h p h' p' n F -> reps rs h' p' gs F.
Proof.
  induction 1 as [|r rs (sz & H1 & H2 & St) _ IH]; intros h p h' p' gs F R A.
  - destruct gs; [exact R|destruct R].
  - destruct gs as [|g gs]; [destruct R|]. cbn [reps] in *. destruct R as (F1 & F2 & -> & Rr & Rs). exists F1, F2.
    destruct A as [A B]. split; [reflexivity|]. split.
    + eapply St; [exact Rr|]. split.
      * intros x Hx. rewrite !cellat_padd. apply A. lia.
      * intros b Hb. apply B, in_or_app. left. exact Hb.
    + eapply IH; [exact Rs|]. split; [exact A|]. intros b Hb. apply B, in_or_app. right. exact Hb.
Qed.

Lemma slots_in sz R k n r : In r (slots sz R k n) -> snd r = R /\ exists i, (k <= i < k + n)%nat /\ fst r = Z.of_nat i * sz.
Proof.
  revert k. induction n as [|n IH]; intros k H; [destruct H|]. cbn [slots] in H. destruct H as [<-|H].
  - split; [reflexivity|]. exists k. split; [lia|reflexivity].
  - destruct (IH _ H) as (E & i & Hi & Hr). split; [exact E|]. exists i. split; [lia|exact Hr].
Qed.

Section Rep.
Variable w64 : bool.
Notation dsize := (dsize w64).
Notation rep := (rep w64).
Notation layout := (layout w64).
Lemma wb_pos : 0 < wb w64.
Proof. destruct w64; cbn; lia. Qed.
Lemma sc_size_pos x : 0 < sc_size w64 x.
Proof. pose proof wb_pos. destruct x as [| | |[sg w]|b| | | |[sg w]|b]; cbn [sc_size nk_w]; try lia; try (destruct w; cbn [wsize]; lia); destruct b; cbn; lia. Qed.

Fixpoint all_layout (fs : list ((bytes * Z) * dt)) : Prop := match fs with [] => True | x :: r => layout (snd x) /\ all_layout r end.
Lemma layout_struct z fs : layout (DStruct z fs) <->
  Forall (fun x => 0 <= snd (fst x) /\ snd (fst x) + dsize (snd x) <= z) fs /\
  disjoint_slots (map (fun x => (snd (fst x), dsize (snd x))) fs) /\ 0 <= z /\ all_layout fs.
Proof.
  cbn [Value.layout]. assert (E : forall fs, (fix all (fs : list ((bytes * Z) * dt)) : Prop := match fs with [] => True | x :: r => layout (snd x) /\ all r end) fs <-> all_layout fs).
  { induction fs0 as [|x r IH]; [tauto|]. rewrite IH. reflexivity. }
  rewrite E. tauto.
Qed.
Lemma all_layout_in fs x : all_layout fs -> In x fs -> layout (snd x).
Proof. induction fs as [|y fs IH]; intros H I; [destruct I|]. destruct H as [H1 H2]. destruct I as [->|I]; auto. Qed.

Lemma dsize_nonneg d : layout d -> 0 <= dsize d.
Proof.
  pose proof wb_pos. induction d as [x|id z|id z| |n t IH| |t IH|k t IH| |t IH|z fs IH] using dt_ind'; intros L; cbn [Dt.dsize].
  all: lazymatch goal with
       | |- 0 <= sc_size _ _ => pose proof (sc_size_pos x); lia
       | |- 0 <= Z.of_nat _ * _ => specialize (IH L); apply Z.mul_nonneg_nonneg; [lia|exact IH]
       | |- _ => idtac end.
  all: try lia; try exact L.
  apply layout_struct in L as (_ & _ & Hz & _). exact Hz.
Qed.

Lemma mul_range i n s : (i < n)%nat -> 0 <= s -> 0 <= Z.of_nat i * s /\ Z.of_nat i * s + s <= Z.of_nat n * s.
Proof. intros. nia. Qed.

Lemma slots_stable R sz n : 0 <= sz -> stable R sz ->
  Forall (fun r => exists sz', 0 <= fst r /\ fst r + sz' <= Z.of_nat n * sz /\ stable (snd r) sz') (slots sz R 0 n).
Proof.
  intros L St. apply Forall_forall. intros r Hr. apply slots_in in Hr as (-> & i & Hi & ->). exists sz.
  destruct (mul_range i n sz); try lia. repeat split; try lia; assumption.
Qed.

Lemma entries_agree R sz h h' l : stable R sz -> forall m F, rep_entries R sz h l m F ->
  (forall b, In b F -> blk h' b = blk h b) -> rep_entries R sz h' l m F.
Proof.
  intros St. induction l as [|[k b] l IH]; intros [|[k' g] m] F H A; cbn [rep_entries] in *; try exact H; try contradiction.
  destruct H as (F1 & F2 & -> & -> & Rm & Hr & He). exists F1, F2. split; [reflexivity|]. split; [reflexivity|].
  assert (Ab : blk h' b = blk h b) by (apply A; left; reflexivity). split; [|split].
  - intros x Hx. unfold cellat. rewrite Ab. exact (Rm x Hx).
  - eapply St; [exact Hr|]. split.
    + intros x _. unfold cellat. rewrite Ab. reflexivity.
    + intros c Hc. apply A. right. apply in_or_app. left. exact Hc.
  - apply IH; [exact He|]. intros c Hc. apply A. right. apply in_or_app. right. exact Hc.
Qed.

Theorem rep_agree d : layout d -> stable (rep d) (dsize d).
Proof.
  pose proof wb_pos as Wp.
  induction d as [x|id z|id z| |n t IH| |t IH|k t IH| |t IH|z fs IH] using dt_ind'; intros L h p h' p' g F H A.
  - cbn [Value.rep Dt.dsize] in *. destruct H as (-> & c & Hc & Hr). split; [reflexivity|]. exists c. split; [|exact Hr].
    eapply holds_agree; [|exact A|exact Hc]. pose proof (sc_size_pos x). lia.
  - cbn [Value.rep Dt.dsize] in *. destruct H as (-> & H). split; [reflexivity|]. destruct (Z.leb_spec z 0); [exact H|].
    destruct H as (c & Hc & Hr). exists c. split; [|exact Hr]. eapply holds_agree; [|exact A|exact Hc]. lia.
  - cbn [Value.rep Dt.dsize] in *. destruct H as (-> & H). split; [reflexivity|]. destruct (Z.leb_spec z 0); [exact H|].
    destruct H as (c & Hc & Hr). exists c. split; [|exact Hr]. eapply holds_agree; [|exact A|exact Hc]. lia.
  - exact H.
  - cbn [Value.rep Dt.dsize] in *. destruct H as (gs & -> & H). exists gs. split; [reflexivity|].
    eapply reps_agree; [|exact H|exact A]. apply slots_stable; [apply dsize_nonneg, L|apply IH, L].
  - exact H.
  - cbn [Value.rep Dt.dsize] in *. destruct H as (c & Hc & H). exists c. split; [eapply holds_agree; [|exact A|exact Hc]; lia|].
    destruct c; try exact H. destruct H as (vis & hid & F' & -> & Hl & Hcap & Rm & Hr & ->). exists vis, hid, F'.
    destruct A as [_ A]. pose proof (dsize_nonneg t L).
    assert (Ac : forall x, 0 <= x < cap * dsize t -> cellat h' (Some p0) x = cellat h (Some p0) x); [|subst len].
    { intros x Hx. assert (blk h' (fst p0) = blk h (fst p0)) as Ab.
      { apply A. apply in_or_app. left. replace ((0 <? dsize t) && (0 <? cap)) with true; [left; reflexivity|]. symmetry.
        apply andb_true_iff. split; nia. }
      unfold cellat. destruct p0 as [b o]. cbn [fst] in Ab. rewrite Ab. reflexivity. }
    split; [reflexivity|]. split; [reflexivity|]. split; [exact Hcap|]. split; [|split; [|reflexivity]].
    + intros x Hx. rewrite Ac by exact Hx. apply Rm, Hx.
    + eapply reps_agree; [apply slots_stable; [apply dsize_nonneg, L|apply IH, L]|exact Hr|]. split; [intros x Hx; apply Ac; rewrite Hcap; exact Hx|].
      intros b Hb. apply A, in_or_app. right. exact Hb.
  - cbn [Value.rep Dt.dsize] in *. destruct H as (c & Hc & H). exists c. split; [eapply holds_agree; [|exact A|exact Hc]; lia|].
    destruct c; try exact H. destruct H as (l & m & F' & Eb & -> & Hr & Hd & ->). exists l, m, F'. destruct A as [_ A].
    split; [rewrite A by (left; reflexivity); exact Eb|]. repeat split; try assumption.
    eapply entries_agree; [apply IH, L|exact Hr|]. intros x Hx. apply A. right. exact Hx.
  - cbn [Value.rep Dt.dsize] in *. destruct H as (-> & c & Hc & H). split; [reflexivity|]. exists c. split; [|exact H].
    eapply holds_agree; [|exact A|exact Hc]. lia.
  - cbn [Value.rep Dt.dsize] in *. destruct H as (c & Hc & H). exists c. split; [eapply holds_agree; [|exact A|exact Hc]; lia|].
    destruct c; try exact H. destruct H as (v & F' & -> & Hr & ->). exists v, F'. split; [reflexivity|]. split; [|reflexivity].
    destruct A as [_ A]. eapply (IH L); [exact Hr|]. split.
    + intros x Hx. assert (Ab : blk h' (fst p0) = blk h (fst p0)).
      { apply A, in_or_app. left. replace (0 <? dsize t) with true by lia. left. reflexivity. }
      unfold cellat. destruct p0 as [b o]. cbn [fst] in Ab. rewrite Ab. reflexivity.
    + intros b Hb. apply A, in_or_app. right. exact Hb.
  - cbn [Value.rep Dt.dsize] in *. destruct H as (gs & -> & H). exists gs. split; [reflexivity|].
    apply layout_struct in L as (Li & _ & _ & La).
    eapply reps_agree; [|exact H|exact A]. apply Forall_forall. intros r Hr. apply in_map_iff in Hr as (x & <- & Hx).
    rewrite Forall_forall in Li, IH. destruct (Li x Hx). exists (dsize (snd x)). cbn [fst snd]. repeat split; try lia.
    apply (IH x Hx), (all_layout_in fs); assumption.
Qed.

(** A zero-sized value is the zero value and occupies no memory. *)
Lemma reps_nil_zero rs h p : forall gs F, reps rs h p gs F ->
  Forall (fun r : Z * rept => forall h p g F, snd r h p g F -> F = []) rs -> F = [].
Proof.
  induction rs as [|r rs IH]; intros [|g gs] F H A; cbn in H; try contradiction; [exact H|].
  destruct H as (F1 & F2 & -> & H1 & H2). inversion A as [|? ? A1 A2]; subst. rewrite (A1 _ _ _ _ H1), (IH _ _ H2 A2). reflexivity.
Qed.
Lemma rep_size0 d : layout d -> dsize d = 0 -> forall h p g F, rep d h p g F -> F = [] /\ g = zero d /\ forall h' p', rep d h' p' g F.
Proof.
  pose proof wb_pos as Wp.
  induction d as [x|id z|id z| |n t IH| |t IH|k t IH| |t IH|z fs IH] using dt_ind'; intros L S h p g F H; cbn [Dt.dsize] in S; try lia.
  - pose proof (sc_size_pos x). lia.
  - subst z. cbn in *. destruct H as [-> ->]. auto.
  - subst z. cbn in *. destruct H as [-> ->]. auto.
  - cbn in *. destruct H as [-> ->]. auto.
  - cbn [Value.rep zero] in *. destruct H as (gs & -> & H).
    assert (S' : n = 0%nat \/ dsize t = 0) by nia. destruct S' as [->|S'].
    { destruct gs; cbn in H; [|contradiction]. subst F. repeat split. intros. exists []. split; reflexivity. }
    specialize (IH L S').
    assert (G : forall k n gs F, reps (slots (dsize t) (rep t) k n) h p gs F -> F = [] /\ gs = repeat (zero t) n /\
      forall h' p', reps (slots (dsize t) (rep t) k n) h' p' gs F).
    { clear - IH. intros k n. revert k. induction n as [|n IHn]; intros k [|g gs] F H; cbn in H; try contradiction.
      - subst F. repeat split.
      - destruct H as (F1 & F2 & -> & H1 & H2). destruct (IH _ _ _ _ H1) as (-> & -> & T1). destruct (IHn _ _ _ H2) as (-> & -> & T2).
        repeat split. intros h' p'. cbn. exists [], []. repeat split; [apply T1|apply T2]. }
    destruct (G _ _ _ _ H) as (-> & -> & T). repeat split. intros h' p'. eexists. split; [reflexivity|apply T].
  - cbn in *. destruct H as [-> ->]. auto.
  - subst z. cbn [Value.rep zero] in *. destruct H as (gs & -> & H). apply layout_struct in L as (Li & _ & _ & La).
    assert (G : forall gs F, reps (map (fun x => (snd (fst x), rep (snd x))) fs) h p gs F -> F = [] /\ gs = map (fun x => zero (snd x)) fs /\
      forall h' p', reps (map (fun x => (snd (fst x), rep (snd x))) fs) h' p' gs F).
    { clear H. induction IH as [|x fs Hx IH IHl]; intros [|g0 gs0] F0 H0; cbn in H0; try contradiction.
      - subst F0. repeat split.
      - destruct H0 as (F1 & F2 & -> & H1 & H2). destruct La as [Lx La]. inversion Li as [|? ? Lx' Li']; subst.
        assert (Sx : dsize (snd x) = 0) by (pose proof (dsize_nonneg _ Lx); lia).
        destruct (Hx Lx Sx _ _ _ _ H1) as (-> & -> & T1). destruct (IHl Li' La _ _ H2) as (-> & -> & T2).
        repeat split. intros h' p'. cbn. exists [], []. repeat split; [apply T1|apply T2]. }
    destruct (G _ _ H) as (-> & -> & T). repeat split. intros h' p'. eexists. split; [reflexivity|apply T].
Qed.

(** Zeroed memory holds the zero value. *)
Lemma reps_zero (rs : list (Z * rept)) (zs : list gval) h p : length rs = length zs ->
  (forall i r z, nth_error rs i = Some r -> nth_error zs i = Some z -> snd r h (padd p (fst r)) z []) -> reps rs h p zs [].
Proof.
  revert zs. induction rs as [|r rs IH]; intros [|z zs] Ln H; try discriminate; [reflexivity|]. cbn. exists [], [].
  split; [reflexivity|]. split; [apply (H 0%nat); reflexivity|]. apply IH; [cbn in Ln; lia|]. intros i. apply (H (S i)).
Qed.
Lemma nth_error_slots sz R n : forall k i, nth_error (slots sz R k n) i = if (i <? n)%nat then Some (Z.of_nat (k + i) * sz, R) else None.
Proof.
  induction n as [|n IH]; intros k i; [destruct i; reflexivity|]. destruct i as [|i]; cbn [slots nth_error].
  - rewrite Nat.add_0_r. reflexivity.
  - rewrite IH. replace (S k + i)%nat with (k + S i)%nat by lia. destruct (Nat.ltb_spec i n), (Nat.ltb_spec (S i) (S n)); try lia; reflexivity.
Qed.
Lemma slots_length sz R k n : length (slots sz R k n) = n.
Proof. revert k. induction n as [|n IH]; intros k; cbn; [reflexivity|]. rewrite IH. reflexivity. Qed.
Lemma nth_error_repeat {A} (a : A) n i : nth_error (repeat a n) i = if (i <? n)%nat then Some a else None.
Proof. revert i. induction n as [|n IH]; intros [|i]; try reflexivity. cbn. rewrite IH. reflexivity. Qed.

Lemma rep_zero d : layout d -> forall h p, (forall x, 0 <= x < dsize d -> cellat h p x = Some CZero) -> rep d h p (zero d) [].
Proof.
  pose proof wb_pos as Wp.
  assert (Hold : forall n h p, 0 < n -> (forall x, 0 <= x < n -> cellat h p x = Some CZero) -> holds h p n CZero).
  { intros n h p Hn Hz. split; [intros x Hx; rewrite Hz by exact Hx; discriminate|apply Hz; lia]. }
  induction d as [x|id z|id z| |n t IH| |t IH|k t IH| |t IH|z fs IH] using dt_ind'; intros L h p Hz; cbn [Value.rep Dt.dsize zero] in *.
  - split; [reflexivity|]. exists CZero. split; [apply Hold; [apply sc_size_pos|exact Hz]|reflexivity].
  - split; [reflexivity|]. destruct (Z.leb_spec z 0); [reflexivity|]. exists CZero. split; [apply Hold; [lia|exact Hz]|reflexivity].
  - split; [reflexivity|]. destruct (Z.leb_spec z 0); [reflexivity|]. exists CZero. split; [apply Hold; [lia|exact Hz]|reflexivity].
  - split; reflexivity.
  - eexists. split; [reflexivity|]. apply reps_zero; [rewrite slots_length, repeat_length; reflexivity|].
    intros i r z Hr Hzz. rewrite nth_error_slots in Hr. rewrite nth_error_repeat in Hzz. destruct (Nat.ltb_spec i n); [|discriminate].
    injection Hr as <-. injection Hzz as <-. cbn [fst snd]. apply IH; [exact L|]. intros x Hx. rewrite cellat_padd. apply Hz.
    destruct (mul_range i n (dsize t)); try lia.
  - split; reflexivity.
  - exists CZero. split; [apply Hold; [lia|exact Hz]|split; reflexivity].
  - exists CZero. split; [apply Hold; [lia|exact Hz]|split; reflexivity].
  - split; [reflexivity|]. exists CZero. split; [apply Hold; [lia|exact Hz]|reflexivity].
  - exists CZero. split; [apply Hold; [lia|exact Hz]|split; reflexivity].
  - eexists. split; [reflexivity|]. apply layout_struct in L as (Li & _ & _ & La). apply reps_zero; [rewrite !map_length; reflexivity|].
    intros i r z0 Hr Hzz. rewrite nth_error_map in Hr, Hzz. destruct (nth_error fs i) as [x|] eqn:Ex; [|discriminate].
    injection Hr as <-. injection Hzz as <-. cbn [fst snd]. apply nth_error_In in Ex as Hx. rewrite Forall_forall in Li, IH.
    destruct (Li x Hx). apply (IH x Hx); [eapply all_layout_in; eassumption|]. intros y Hy. rewrite cellat_padd. apply Hz. lia.
Qed.

(** ** Focusing on one part *)
Lemma set_nth_length {A} (l : list A) i a : length (set_nth l i a) = length l.
Proof. revert i. induction l; intros [|i]; cbn; congruence. Qed.
Lemma reps_focus rs : forall j off R h p gs F, reps rs h p gs F -> nth_error rs j = Some (off, R) ->
  exists g F1 Fj F2, nth_error gs j = Some g /\ F = F1 ++ Fj ++ F2 /\ R h (padd p off) g Fj /\
  forall h' g' Fj', R h' (padd p off) g' Fj' ->
    (forall b, In b (F1 ++ F2) -> blk h' b = blk h b) ->
    (forall i r, i <> j -> nth_error rs i = Some r -> exists sz, stable (snd r) sz /\
       forall x, fst r <= x < fst r + sz -> cellat h' p x = cellat h p x) ->
    reps rs h' p (set_nth gs j g') (F1 ++ Fj' ++ F2).
Proof.
  induction rs as [|r rs IH]; intros j off R h p gs F H Hj; [destruct j; discriminate|].
  destruct gs as [|g gs]; [destruct H|]. cbn [reps] in H. destruct H as (Fa & Fb & -> & Ha & Hb). destruct j as [|j].
  - cbn in Hj. injection Hj as ->. cbn [fst snd] in Ha. exists g, [], Fa, Fb. split; [reflexivity|]. split; [reflexivity|]. split; [exact Ha|].
    intros h' g' Fj' Hr Bk Cl. cbn [set_nth reps app fst snd]. exists Fj', Fb. split; [reflexivity|]. split; [exact Hr|].
    clear - Hb Bk Cl. cbn [app] in Bk.
    assert (Cl' : forall i r, nth_error rs i = Some r -> exists sz, stable (snd r) sz /\ forall x, fst r <= x < fst r + sz -> cellat h' p x = cellat h p x).
    { intros i r Hi. apply (Cl (S i) r); [lia|exact Hi]. }
    clear Cl. revert gs Fb Hb Bk. induction rs as [|r rs IH]; intros [|g gs] Fb Hb Bk; cbn [reps] in *; try exact Hb; try contradiction.
    destruct Hb as (F1 & F2 & -> & H1 & H2). exists F1, F2. split; [reflexivity|]. destruct (Cl' 0%nat r eq_refl) as (sz & St & Cx). split.
    + eapply St; [exact H1|]. split; [intros x Hx; rewrite !cellat_padd; apply Cx; lia|].
      intros b Hb. apply Bk, in_or_app. left. exact Hb.
    + apply IH; [intros i r' Hi; apply (Cl' (S i) r' Hi)|exact H2|]. intros b Hb. apply Bk, in_or_app. right. exact Hb.
  - cbn in Hj. destruct (IH j off R h p gs Fb Hb Hj) as (g0 & F1 & Fj & F2 & Hg & -> & Hr & Upd).
    exists g0, (Fa ++ F1), Fj, F2. split; [exact Hg|]. split; [rewrite app_assoc; reflexivity|]. split; [exact Hr|].
    intros h' g' Fj' Hr' Bk Cl. cbn [set_nth reps]. exists Fa, (F1 ++ Fj' ++ F2). split; [rewrite <- !app_assoc; reflexivity|]. split.
    + destruct (Cl 0%nat r ltac:(lia) eq_refl) as (sz & St & Cx). eapply St; [exact Ha|]. split; [intros x Hx; rewrite !cellat_padd; apply Cx; lia|].
      intros b Hb'. apply Bk. rewrite <- app_assoc. apply in_or_app. left. exact Hb'.
    + apply Upd; [exact Hr'| |].
      * intros b Hb'. apply Bk. rewrite <- app_assoc. apply in_or_app. right. exact Hb'.
      * intros i r' Ni Hi. apply (Cl (S i) r'); [lia|exact Hi].
Qed.

(** ** Ownership and footprints *)
Lemma only_refl h p n F : only h h p n F F.
Proof. unfold only. repeat split; auto; tauto. Qed.
Lemma only_trans h h1 h2 p n F F1 F2 : only h h1 p n F F1 -> only h1 h2 p n F1 F2 -> only h h2 p n F F2.
Proof.
  intros (N1 & B1 & C1 & E1 & G1) (N2 & B2 & C2 & E2 & G2). split; [lia|]. split; [|split; [|split]].
  - intros b Hb Nb Pb. rewrite B2; [apply B1; assumption|lia| |exact Pb]. intros Hb'. destruct (G1 _ Hb'); [contradiction|lia].
  - intros x Hx. rewrite C2, C1 by exact Hx. reflexivity.
  - intros x. rewrite E2. apply E1.
  - intros b Hb. destruct (G2 _ Hb) as [Hb'|]; [destruct (G1 _ Hb'); [left; assumption|right; lia]|right; lia].
Qed.
Lemma nodup_app {A} (a b : list A) : NoDup (a ++ b) <-> NoDup a /\ NoDup b /\ (forall x, In x a -> ~ In x b).
Proof.
  induction a as [|c a IH]; cbn.
  - split; [intros H; repeat split; [constructor|exact H|tauto]|tauto].
  - rewrite !NoDup_cons_iff, IH, in_app_iff. split.
    + intros (H1 & H2 & H3 & H4). repeat split; try tauto. intros x [->|Hx]; [tauto|apply H4, Hx].
    + intros ((H1 & H2) & H3 & H4). repeat split; try assumption; [|auto]. intros [H|H]; [tauto|]. apply (H4 c); auto.
Qed.
(** A change of a part is a change of the whole. *)
Lemma only_part h h' p off sz n F1 Fj Fj' F2 : 0 <= off -> off + sz <= n ->
  own h p (F1 ++ Fj ++ F2) -> own h' (padd p off) Fj' -> only h h' (padd p off) sz Fj Fj' ->
  own h' p (F1 ++ Fj' ++ F2) /\ only h h' p n (F1 ++ Fj ++ F2) (F1 ++ Fj' ++ F2) /\
  (forall b, In b (F1 ++ F2) -> blk h' b = blk h b) /\
  (forall x, ~ (off <= x < off + sz) -> cellat h' p x = cellat h p x).
Proof.
  intros H0 H1 (Nz & Nd & Ob & Op) (Nz' & Nd' & Ob' & Op') (Nx & B & Cl & En & G). rewrite pblk_padd in *.
  assert (Hf : forall b, In b (F1 ++ F2) -> In b (F1 ++ Fj ++ F2)).
  { intros b Hb. apply in_app_or in Hb as [Hb|Hb]; apply in_or_app; [left; exact Hb|right; apply in_or_app; right; exact Hb]. }
  rewrite !nodup_app in Nd. destruct Nd as (Nd1 & (Nd2 & Nd3 & Nd4) & Nd5).
  assert (Nj : forall b, In b (F1 ++ F2) -> ~ In b Fj).
  { intros b Hb Hj. apply in_app_or in Hb as [Hb|Hb]; [apply (Nd5 b Hb), in_or_app; left; exact Hj|apply (Nd4 b Hj Hb)]. }
  assert (In' : forall b, In b (F1 ++ Fj' ++ F2) -> In b (F1 ++ F2) \/ In b Fj').
  { intros b Hb. apply in_app_or in Hb as [Hb|Hb]; [left; apply in_or_app; left; exact Hb|].
    apply in_app_or in Hb as [Hb|Hb]; [right; exact Hb|left; apply in_or_app; right; exact Hb]. }
  assert (Bk : forall b, In b (F1 ++ F2) -> blk h' b = blk h b).
  { intros b Hb. destruct (Ob b (Hf b Hb)) as [Lt Np]. apply B; [lia|apply Nj, Hb|exact Np]. }
  assert (Ca : forall x, ~ (off <= x < off + sz) -> cellat h' p x = cellat h p x).
  { intros x Hx. specialize (Cl (x - off)). rewrite !cellat_padd in Cl. replace (off + (x - off)) with x in Cl by lia. apply Cl. lia. }
  split; [|split; [|split; assumption]].
  - split; [exact Nz'|]. split; [|split].
    + assert (Dj : forall b, In b Fj' -> ~ In b (F1 ++ F2)).
      { intros b Hb Hc. destruct (G b Hb) as [Hb'|Hb']; [apply (Nj b Hc Hb')|]. destruct (Ob b (Hf b Hc)). lia. }
      rewrite !nodup_app. repeat split; try assumption.
      * intros x Hx Hy. apply (Dj x Hx), in_or_app. right. exact Hy.
      * intros x Hx Hy. apply in_app_or in Hy as [Hy|Hy]; [apply (Dj x Hy), in_or_app; left; exact Hx|].
        apply (Nd5 x Hx), in_or_app. right. exact Hy.
    + intros b Hb. destruct (In' b Hb) as [Hb'|Hb']; [|apply Ob', Hb'].
      destruct (Ob b (Hf b Hb')). split; [lia|assumption].
    + intros b Hb. specialize (Op b Hb). lia.
  - split; [exact Nx|]. split; [|split; [|split]].
    + intros b Lt Nb Pb. apply B; [exact Lt| |exact Pb]. intros Hb. apply Nb, in_or_app. right. apply in_or_app. left. exact Hb.
    + intros x Hx. apply Ca. lia.
    + intros x. specialize (En (x - off)). rewrite !cellat_padd in En. replace (off + (x - off)) with x in En by lia. exact En.
    + intros b Hb. destruct (In' b Hb) as [Hb'|Hb']; [left; apply Hf, Hb'|]. destruct (G b Hb'); [left|right; assumption].
      apply in_or_app. right. apply in_or_app. left. assumption.
Qed.
End Rep.

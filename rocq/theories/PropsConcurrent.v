(** C46: Decode depends on, and changes, only the memory of its destination.
    C47: goroutines with separate decoders and destinations do not disturb each other.

    Both hold for every frame list (also for recursive types and for frame lists
    NewDecoder never makes), every input, valid or not, every token list, all options and
    every state of the destination. *)
From Verif Require Import Base NumSpec StrSpec Types AppendType Token FloatLit Heap Machine PropsGeneral Dt Dec Control Root Elab Value Dval Sep Refine Spec Typed SpecProofs Main Parse World Elaborate PropsDecode Inject Local.
Open Scope Z_scope.

Lemma run_inj C O stk s toks fuel : forall R x y, st_rel R x y ->
  match run C O stk s toks fuel x, run C O stk s toks fuel y with
  | RDone x', RDone y' => exists R', ext R (hp y) R' (hp y') /\ st_rel R' x' y'
  | RFail i e x', RFail j e' y' => i = j /\ e = e' /\ exists R', ext R (hp y) R' (hp y') /\ st_rel R' x' y'
  | RPanic, RPanic | RCorrupt, RCorrupt | RFuel, RFuel => True
  | _, _ => False
  end.
Proof.
  induction fuel as [|fuel IH]; intros R x y H; cbn [run]; assert (Et : ti x = ti y) by apply H; rewrite <- Et;
    (destruct (ti x <? length toks)%nat; [|exists R; split; [apply ext_refl|exact H]]); [exact I|].
  pose proof (step_inj C O stk s toks R x y H) as S.
  destruct (step C O stk s toks x) as [x'|i e x'| |], (step C O stk s toks y) as [y'|j e' y'| |]; cbn in S; try contradiction; try exact I; [|exact S].
  destruct S as (R' & X & H'). specialize (IH R' x' y' H').
  destruct (run C O stk s toks fuel x') as [u|i e u| | |], (run C O stk s toks fuel y') as [v|j e' v| | |]; try contradiction; try exact I.
  - destruct IH as (R'' & X' & H''). exists R''. split; [eapply ext_trans; eauto|exact H''].
  - destruct IH as (A & B & R'' & X' & H''). split; [exact A|]. split; [exact B|]. exists R''. split; [eapply ext_trans; eauto|exact H''].
Qed.
Lemma Decode_inj C O stk D s tk a b R h1 h2 : ~ holds_pointer D -> corr R h1 h2 -> addr_rel R a b ->
  match Decode C O stk D s tk (Some a) h1, Decode C O stk D s tk (Some b) h2 with
  | Ret i e D1 g1, Ret j e' D2 g2 => i = j /\ e = e' /\ exists R', ext R h2 R' g2 /\ corr R' g1 g2
  | DPanics, DPanics | DCorrupts, DCorrupts | DLoops, DLoops => True
  | _, _ => False
  end.
Proof.
  intros N Hc Ha. unfold Decode. destruct tk as [toks|i c].
  2:{ repeat split; auto. exists R. split; [apply ext_refl|exact Hc]. }
  assert (Hd : dyn_rel R (upd_d D 0 (set_dest (Some a))) (upd_d D 0 (set_dest (Some b)))).
  { apply upd_rel; [apply free_rel, N|]. intros d e. apply set_dest_rel, Ha. }
  pose proof (run_inj C O stk s toks (run_fuel stk toks) R (St 0 0 (upd_d D 0 (set_dest (Some a))) h1) (St 0 0 (upd_d D 0 (set_dest (Some b))) h2)
    (conj eq_refl (conj eq_refl (conj Hd Hc)))) as Q. cbn [hp] in Q.
  destruct (run C O stk s toks (run_fuel stk toks) (St 0 0 (upd_d D 0 (set_dest (Some a))) h1)) as [x|i e x| | |],
           (run C O stk s toks (run_fuel stk toks) (St 0 0 (upd_d D 0 (set_dest (Some b))) h2)) as [y|j e' y| | |]; try contradiction; try exact I.
  - destruct Q as (R' & X & _ & _ & Dd & Cc). destruct (Dd 0%nat) as (P & _).
    destruct (d_dest (dy x 0%nat)) as [a'|], (d_dest (dy y 0%nat)) as [b'|]; cbn in P; try contradiction; [|exact I].
    assert (Ha' : addr_rel R' a b) by (eapply addr_mono; [apply X|exact Ha]).
    rewrite (same_addr R' _ _ _ _ _ _ Cc Ha' P). destruct (_ && _).
    + repeat split; auto. exists R'. split; [exact X|exact Cc].
    + pose proof (copy_inj R' (hp x) (hp y) (Some a) (Some b) (Some a') (Some b') (match nth_error stk 0 with Some f => f_size f | None => 0 end) Cc Ha' P) as Q.
      destruct (copy (hp x) _ _ _), (copy (hp y) _ _ _); cbn in Q; try contradiction; try exact I. destruct Q as (R'' & X' & Cc' & ->).
      repeat split; auto. exists R'. split; [eapply ext_trans; eauto|exact Cc'].
  - destruct Q as (-> & -> & R' & X & _ & _ & _ & Cc). repeat split; auto. exists R'. split; [exact X|exact Cc].
Qed.

(** ** C46 *)
(** Where the destination lies and what else is in memory does not matter: from memories
    that look the same from the two destinations the call returns the same index and
    error, or fails to return in the same way, and the memories look the same
    afterwards. *)
Theorem C46_same_outcome C O stk D s tk h1 a1 h2 a2 :
  ~ holds_pointer D -> alike h1 a1 h2 a2 ->
  match Decode C O stk D s tk (Some a1) h1, Decode C O stk D s tk (Some a2) h2 with
  | Ret i1 e1 _ h1', Ret i2 e2 _ h2' => i1 = i2 /\ e1 = e2 /\ alike h1' a1 h2' a2
  | DPanics, DPanics | DCorrupts, DCorrupts | DLoops, DLoops => True
  | _, _ => False
  end.
Proof.
  intros N (R & Hc & Ha). pose proof (Decode_inj C O stk D s tk a1 a2 R h1 h2 N Hc Ha) as Q.
  destruct (Decode C O stk D s tk (Some a1) h1), (Decode C O stk D s tk (Some a2) h2); try contradiction; try exact I.
  destruct Q as (-> & -> & R' & X & Cc). repeat split; auto. exists R'. split; [exact Cc|]. eapply addr_mono; [apply X|exact Ha].
Qed.
(** In particular: memories that agree on what is reachable from the destination. *)
Theorem C46_unreachable_memory_not_read C O stk D s tk h h2 (a : addr) :
  ~ holds_pointer D -> no_dangling h (fst a) -> no_dangling h2 (fst a) ->
  (forall c, reach h (fst a) c -> blk h2 c = blk h c) ->
  match Decode C O stk D s tk (Some a) h, Decode C O stk D s tk (Some a) h2 with
  | Ret i1 e1 _ h1', Ret i2 e2 _ h2' => i1 = i2 /\ e1 = e2 /\ alike h1' a h2' a
  | DPanics, DPanics | DCorrupts, DCorrupts | DLoops, DLoops => True
  | _, _ => False
  end.
Proof.
  intros N Nd Nd' Ag. apply C46_same_outcome; [exact N|]. exists (here h (fst a)). split; [apply corr_here; assumption|].
  split; [split; [reflexivity|right; constructor]|reflexivity].
Qed.
(** A block that exists before the call and is not reachable from the destination is as
    before after the call; and the destination does not get hold of such a block. *)
Theorem C46_unreachable_memory_not_written C O stk D s tk h (a : addr) i e D' h' :
  ~ holds_pointer D -> no_dangling h (fst a) -> Decode C O stk D s tk (Some a) h = Ret i e D' h' ->
  forall c, (0 < c < nxt h)%nat -> ~ reach h (fst a) c -> blk h' c = blk h c /\ ~ reach h' (fst a) c.
Proof.
  intros N Nd E c Hc Nr. pose proof (corr_here h h (fst a) Nd Nd (fun _ _ => eq_refl)) as Cr.
  assert (Ha : addr_rel (here h (fst a)) a a) by (split; [split; [reflexivity|right; constructor]|reflexivity]).
  pose proof (Decode_inj C O stk D s tk a a _ h h N Cr Ha) as Q. rewrite E in Q. destruct Q as (_ & _ & R' & X & Cc). split.
  - apply (ex_frame _ _ _ _ X); [lia|]. intros b [-> [->|H]]; [lia|contradiction].
  - intros H. assert (Hb : R' (fst a) (fst a)) by (apply (ex_le _ _ _ _ X); apply Ha).
    destruct (reach_corr R' h' h' _ _ Cc Hb c H) as (d & _ & Rd). apply (ex_new _ _ _ _ X) in Rd as [[-> [->|Rd]]|Rd]; [lia|contradiction|lia].
Qed.
(** Memories that look the same hold the same Go values. *)
Theorem C46_same_value C d h1 a1 h2 a2 g F :
  alike h1 a1 h2 a2 -> variable C d h1 a1 g F -> exists F', variable C d h2 a2 g F'.
Proof.
  intros (R & Hc & Ha) [Rp Ow]. destruct (rep_corr (c_w64 C) R h1 h2 Hc d (Some a1) (Some a2) g F Ha Rp) as (F' & Rp' & X).
  exists F'. split; [exact Rp'|]. eapply own_corr; eauto. exact Ha.
Qed.

(** ** C47 *)
Section Threads.
Variables (n : nat) (jobs : nat -> job) (h0 : heap).
Let from i := reach h0 (fst (j_dest (jobs i))).
Hypothesis free : forall i, (i < n)%nat -> ~ holds_pointer (j_dyn (jobs i)).
Hypothesis mem : forall i, (i < n)%nat -> no_dangling h0 (fst (j_dest (jobs i))).
Hypothesis sep : forall i k c, (i < n)%nat -> (k < n)%nat -> i <> k -> from i c -> from k c -> c = 0%nat.
Hypothesis ret : forall i, (i < n)%nat -> exists z e D h, alone (jobs i) h0 = Ret z e D h.

Lemma solo_runs i m : (i < n)%nat -> iter (jobs i) m (start (jobs i)) h0 <> None.
Proof.
  intros Hi. destruct (ret i Hi) as (z & e & D & h & E). apply alone_iter in E as (m' & E).
  destruct (Nat.le_gt_cases m m') as [L|L].
  - replace m' with (m + (m' - m))%nat in E by lia. rewrite iter_add in E. destruct (iter _ m _ _); [discriminate|discriminate E].
  - replace m with (m' + (m - m'))%nat by lia. rewrite iter_add, E, iter_back. discriminate.
Qed.
(** Goroutine [i] corresponds to itself running alone for [m i] steps. *)
Record inv (m : nat -> nat) (ths : nat -> thread) (h : heap) (Rs : nat -> ren) : Prop := {
  iv_solo : forall i, (i < n)%nat -> exists t g, iter (jobs i) (m i) (start (jobs i)) h0 = Some (t, g) /\
    corr (Rs i) g h /\ thread_rel (Rs i) t (ths i) /\ addr_rel (Rs i) (j_dest (jobs i)) (j_dest (jobs i));
  iv_sep : forall i k b b' c, (i < n)%nat -> (k < n)%nat -> i <> k -> Rs i b c -> Rs k b' c -> c = 0%nat;
  iv_nxt : (nxt h0 <= nxt h)%nat;
  iv_range : forall i b c, (i < n)%nat -> Rs i b c -> c = 0%nat \/ from i c \/ (nxt h0 <= c)%nat;
  iv_frame : forall c, (c < nxt h0)%nat -> (forall i, (i < n)%nat -> ~ from i c) -> blk h c = blk h0 c }.

Lemma inv_start : inv (fun _ => 0%nat) (fun i => start (jobs i)) h0 (fun i => here h0 (fst (j_dest (jobs i)))).
Proof.
  split.
  - intros i Hi. exists (start (jobs i)), h0. split; [reflexivity|]. split; [apply corr_here; auto|].
    assert (A : addr_rel (here h0 (fst (j_dest (jobs i)))) (j_dest (jobs i)) (j_dest (jobs i))) by (split; [split; [reflexivity|right; constructor]|reflexivity]).
    split; [|exact A]. pose proof (start_rel _ (jobs i) _ (free i Hi) A) as Q. unfold with_dest in Q. destruct (jobs i). exact Q.
  - intros i k b b' c Hi Hk Ne [<- [E|A]] [<- [E'|B]]; auto. exact (sep i k _ Hi Hk Ne A B).
  - lia.
  - intros i b c Hi [<- [E|A]]; [left; exact E|right; left; exact A].
  - reflexivity.
Qed.

Lemma inv_step m ths h Rs i : (i < n)%nat -> inv m ths h Rs ->
  exists t g, thread_step (jobs i) (ths i) h = Some (t, g) /\
  exists Rs', inv (fun k => if Nat.eqb k i then S (m k) else m k) (set_thread ths i t) g Rs'.
Proof.
  intros Hi [So Se Nx Rg Fr]. destruct (So i Hi) as (t1 & g1 & E1 & Cc & Tr & Ad).
  pose proof (thread_step_inj (Rs i) (jobs i) (j_dest (jobs i)) t1 (ths i) g1 h Cc Tr Ad) as Q.
  assert (Ej : with_dest (jobs i) (j_dest (jobs i)) = jobs i) by (unfold with_dest; destruct (jobs i); reflexivity). rewrite Ej in Q.
  pose proof (solo_runs i (S (m i)) Hi) as Sr. replace (S (m i)) with (m i + 1)%nat in Sr by lia. rewrite iter_add, E1 in Sr. cbn [iter] in Sr.
  destruct (thread_step (jobs i) t1 g1) as [[t1' g1']|] eqn:Es1; [|congruence].
  destruct (thread_step (jobs i) (ths i) h) as [[t g]|] eqn:Es; [|contradiction]. destruct Q as (R' & X & Cc' & Tr').
  exists t, g. split; [reflexivity|]. exists (fun k => if Nat.eqb k i then R' else Rs k). split.
  - intros k Hk. cbv beta. unfold set_thread. destruct (Nat.eqb_spec k i) as [->|Ne].
    + exists t1', g1'. split; [replace (S (m i)) with (m i + 1)%nat by lia; rewrite iter_add, E1; cbn [iter]; rewrite Es1; reflexivity|].
      split; [exact Cc'|]. split; [exact Tr'|]. eapply addr_mono; [apply X|exact Ad].
    + destruct (So k Hk) as (t2 & g2 & E2 & C2 & T2 & A2). exists t2, g2. split; [exact E2|]. split; [|split; [exact T2|exact A2]].
      destruct C2 as [F2 I2 Z2 L2 B2 [z Ez]]. split; auto.
      * intros b c H. destruct (L2 _ _ H). pose proof (ex_nxt _ _ _ _ X). lia.
      * intros b c H. assert (Eb : blk g c = blk h c).
        { destruct (L2 _ _ H) as [_ Lc]. destruct c as [|c]; [exact (ex_base _ _ _ _ X)|]. apply (ex_frame _ _ _ _ X); [exact Lc|].
          intros b' Hb. pose proof (Se i k b' b (S c) Hi Hk (not_eq_sym Ne) Hb H). discriminate. }
        rewrite Eb. apply B2, H.
      * exists z. rewrite (ex_base _ _ _ _ X). exact Ez.
  - intros k l b b' c Hk Hl Ne. cbv beta. destruct (Nat.eqb_spec k i) as [->|Nk], (Nat.eqb_spec l i) as [->|Nl]; try congruence.
    + intros A B. apply (ex_new _ _ _ _ X) in A as [A|A]; [exact (Se i l _ _ _ Hi Hl Ne A B)|]. destruct (So l Hl) as (? & ? & _ & Cl & _). apply (cr_lt _ _ _ Cl) in B. lia.
    + intros B A. apply (ex_new _ _ _ _ X) in A as [A|A]; [exact (Se k i _ _ _ Hk Hi Ne B A)|]. destruct (So k Hk) as (? & ? & _ & Cl & _). apply (cr_lt _ _ _ Cl) in B. lia.
    + eapply Se; eauto.
  - pose proof (ex_nxt _ _ _ _ X). lia.
  - intros k b c Hk. cbv beta. destruct (Nat.eqb_spec k i) as [->|Nk]; [|apply Rg, Hk]. intros A. apply (ex_new _ _ _ _ X) in A as [A|A]; [eapply Rg; eauto|]. right; right. lia.
  - intros c Lc No. rewrite <- (Fr c Lc No). destruct c as [|c]; [exact (ex_base _ _ _ _ X)|]. apply (ex_frame _ _ _ _ X); [lia|].
    intros b Hb. destruct (Rg i b (S c) Hi Hb) as [E|[E|E]]; [discriminate|exact (No i Hi E)|lia].
Qed.
Lemma inv_run w : forall m ths h Rs, Forall (fun i => (i < n)%nat) w -> inv m ths h Rs ->
  exists ths' h' Rs', interleave jobs w ths h = Some (ths', h') /\ inv (fun i => (m i + count_occ Nat.eq_dec w i)%nat) ths' h' Rs'.
Proof.
  induction w as [|i w IH]; intros m ths h Rs Fw Iv; cbn [interleave].
  - exists ths, h, Rs. split; [reflexivity|]. destruct Iv as [So Se Nx Rg Fr]. split; auto. intros i Hi. cbn. rewrite Nat.add_0_r. apply So, Hi.
  - inversion Fw as [|? ? Hi Fw']; subst. destruct (inv_step m ths h Rs i Hi Iv) as (t & g & E & Rs' & Iv'). rewrite E.
    destruct (IH _ _ _ _ Fw' Iv') as (ths' & h' & Rs'' & E' & Iv''). exists ths', h', Rs''. split; [exact E'|].
    destruct Iv'' as [So Se Nx Rg Fr]. split; auto. intros k Hk. destruct (So k Hk) as (t2 & g2 & E2 & Q). exists t2, g2. split; [|exact Q].
    rewrite <- E2. f_equal. cbv beta. cbn [count_occ]. destruct (Nat.eq_dec i k) as [->|Ne]; [rewrite Nat.eqb_refl; lia|].
    destruct (Nat.eqb_spec k i); [congruence|reflexivity].
Qed.
End Threads.

(** [n] goroutines call Decode with their own decoders, on destinations from which no
    common memory is reachable, and each call alone would return.  Then under every
    schedule: the program does not crash and corrupts no memory; a goroutine that is
    back has the index and error of the call alone, and its destination looks like it
    does after the call alone; every goroutine is back after a number of its own steps
    that does not depend on the schedule; and the memory of nobody is as before. *)
Theorem C47_schedules (n : nat) (jobs : nat -> job) (h0 : heap) :
  (forall i, (i < n)%nat -> ~ holds_pointer (j_dyn (jobs i))) ->
  (forall i, (i < n)%nat -> no_dangling h0 (fst (j_dest (jobs i)))) ->
  (forall i k c, (i < n)%nat -> (k < n)%nat -> i <> k ->
     reach h0 (fst (j_dest (jobs i))) c -> reach h0 (fst (j_dest (jobs k))) c -> c = 0%nat) ->
  (forall i, (i < n)%nat -> exists z e D h, alone (jobs i) h0 = Ret z e D h) ->
  exists steps : nat -> nat, forall w, Forall (fun i => (i < n)%nat) w ->
  exists ths h', interleave jobs w (fun i => start (jobs i)) h0 = Some (ths, h') /\
  (forall i, (i < n)%nat -> match alone (jobs i) h0 with
     | Ret z e _ hs =>
         (forall z' e' D', ths i = Returned z' e' D' -> z' = z /\ e' = e /\ alike hs (j_dest (jobs i)) h' (j_dest (jobs i))) /\
         ((steps i <= count_occ Nat.eq_dec w i)%nat -> exists D', ths i = Returned z e D')
     | _ => False
     end) /\
  (forall c, (c < nxt h0)%nat -> (forall i, (i < n)%nat -> ~ reach h0 (fst (j_dest (jobs i))) c) -> blk h' c = blk h0 c).
Proof.
  intros Free Mem Sep Ret'.
  assert (St : exists steps : nat -> nat, forall i, (i < n)%nat -> forall z e D h, alone (jobs i) h0 = Ret z e D h ->
    iter (jobs i) (steps i) (start (jobs i)) h0 = Some (Returned z e D, h)).
  { clear Free Mem Sep. induction n as [|m IH]; [exists (fun _ => 0%nat); intros; lia|].
    destruct IH as [f Hf]; [intros; apply Ret'; lia|]. destruct (Ret' m ltac:(lia)) as (z & e & D & h & E). pose proof (alone_iter _ _ _ _ _ _ E) as (k & Ek).
    exists (fun i => if Nat.eqb i m then k else f i). intros i Hi z1 e1 D1 h1 E1. destruct (Nat.eqb_spec i m) as [->|Ne].
    - rewrite E in E1. injection E1 as <- <- <- <-. exact Ek.
    - apply Hf; [lia|exact E1]. }
  destruct St as [steps Hs]. exists steps. intros w Fw.
  pose proof (inv_start n jobs h0 Free Mem Sep Ret') as I0.
  destruct (inv_run n jobs h0 Free Mem Sep Ret' w _ _ _ _ Fw I0) as (ths & h' & Rs & E & Iv).
  exists ths, h'. split; [exact E|]. split; [|apply (iv_frame _ _ _ _ _ _ _ Iv)].
  intros i Hi. destruct (Ret' i Hi) as (z & e & D & hs & Ea). rewrite Ea. pose proof (Hs i Hi _ _ _ _ Ea) as Hn.
  destruct (iv_solo _ _ _ _ _ _ _ Iv i Hi) as (t & g & Et & Cc & Tr & Ad). cbn [Nat.add] in Et.
  assert (Fin : forall z' e' D', t = Returned z' e' D' -> z' = z /\ e' = e /\ g = hs).
  { intros z' e' D' ->. set (m := count_occ Nat.eq_dec w i) in *.
    pose proof (iter_add (jobs i) m (steps i) (start (jobs i)) h0) as A1. rewrite Et, iter_back in A1.
    pose proof (iter_add (jobs i) (steps i) m (start (jobs i)) h0) as A2. rewrite Hn, iter_back in A2.
    rewrite Nat.add_comm, A1 in A2. injection A2 as -> -> _ ->. auto. }
  split.
  - intros z' e' D' Eb. rewrite Eb in Tr. destruct t as [| z1 e1 D1]; cbn in Tr; [contradiction|]. destruct Tr as (<- & <- & _).
    destruct (Fin _ _ _ eq_refl) as (-> & -> & ->). repeat split; auto. exists (Rs i). split; [exact Cc|exact Ad].
  - intros Le. set (m := count_occ Nat.eq_dec w i) in *. replace m with (steps i + (m - steps i))%nat in Et by lia. rewrite iter_add, Hn, iter_back in Et.
    injection Et as <- <-. destruct (ths i) as [|z1 e1 D1]; cbn in Tr; [contradiction|]. destruct Tr as (<- & <- & _). exists D1. reflexivity.
Qed.

(** Together with C15: when all goroutines are back, each destination holds the value of
    the ideal decoder, whatever the schedule was.  Limits as for C15 ([ctl_root],
    [sound]), hence partial. *)
Theorem C47_values_partial (n : nat) (jobs : nat -> job) (h0 : heap)
    (E : nat -> env) (dis : nat -> bool) (T : nat -> ty) (d : nat -> dt) (v : nat -> jv) (g : nat -> gval) (F : nat -> list nat) :
  (forall i, (i < n)%nat -> let j := jobs i in
     decoder_for (j_cfg j) (E i) (dis i) (T i) (d i) (j_stk j) (j_dyn j) /\
     json_text (j_text j) (v i) /\ j_toks j = TOk (flat 0 (v i)) /\
     ctl_root (j_cfg j) (j_opts j) (d i) (v i) /\ sound (j_cfg j) (j_opts j) (d i) (v i) /\
     variable (j_cfg j) (d i) h0 (j_dest j) (g i) (F i) /\ no_dangling h0 (fst (j_dest j))) ->
  (forall i k c, (i < n)%nat -> (k < n)%nat -> i <> k ->
     reach h0 (fst (j_dest (jobs i))) c -> reach h0 (fst (j_dest (jobs k))) c -> c = 0%nat) ->
  exists steps : nat -> nat, forall w, Forall (fun i => (i < n)%nat) w ->
  (forall i, (i < n)%nat -> (steps i <= count_occ Nat.eq_dec w i)%nat) ->
  exists ths h', interleave jobs w (fun i => start (jobs i)) h0 = Some (ths, h') /\
  forall i, (i < n)%nat -> let j := jobs i in
    match ideal (j_cfg j) (j_opts j) (j_text j) (d i) (v i) (g i) with
    | VOk g' => (exists D', ths i = Returned (-1) None D') /\ exists F', variable (j_cfg j) (d i) h' (j_dest j) g' F'
    | VErr k e g' => (exists D', ths i = Returned (Z.of_nat k) (Some e) D') /\ exists F', variable (j_cfg j) (d i) h' (j_dest j) g' F'
    | VPan => False
    end.
Proof.
  intros H Sep.
  assert (Al : forall i, (i < n)%nat -> let j := jobs i in
    match ideal (j_cfg j) (j_opts j) (j_text j) (d i) (v i) (g i) with
    | VOk g' => exists D' h', alone j h0 = Ret (-1) None D' h' /\ exists F', variable (j_cfg j) (d i) h' (j_dest j) g' F'
    | VErr k e g' => exists D' h', alone j h0 = Ret (Z.of_nat k) (Some e) D' h' /\ exists F', variable (j_cfg j) (d i) h' (j_dest j) g' F'
    | VPan => False
    end).
  { intros i Hi j. destruct (H i Hi) as (Df & J & Et & Ct & So & V & _). fold j in Df, J, Et, Ct, So, V. unfold alone. rewrite Et.
    pose proof (C15_decode_is_ideal_partial _ _ _ _ _ _ _ _ _ _ _ _ _ _ Df J Ct So V) as Q.
    destruct (ideal (j_cfg j) (j_opts j) (j_text j) (d i) (v i) (g i)) as [g'|k e g'|]; [| |exact Q];
      destruct Q as (D' & h' & F' & Q & V' & _); exists D', h'; (split; [exact Q|exists F'; exact V']). }
  destruct (C47_schedules n jobs h0) as [steps Hs].
  - intros i Hi. destruct (H i Hi) as (Df & _). pose proof (decoder_describes _ _ _ _ _ _ _ Df) as Ds.
    destruct (used_rested _ _ _ _ Ds (df_used _ _ _ _ _ _ _ Df)) as [[Rn _] Dn]. intros (k & [A|(r & A & _)]); [apply A, Dn|]. rewrite Rn in A. destruct A.
  - intros i Hi. apply (H i Hi).
  - exact Sep.
  - intros i Hi. specialize (Al i Hi). cbv zeta in Al. destruct (ideal _ _ _ _ _ _); [| |destruct Al]; destruct Al as (D' & h' & A & _); eauto.
  - exists steps. intros w Fw Cw. destruct (Hs w Fw) as (ths & h' & Er & Th & _). exists ths, h'. split; [exact Er|]. intros i Hi j.
    specialize (Th i Hi). specialize (Al i Hi). cbv zeta in Al. fold j in Al, Th.
    destruct (ideal _ _ _ _ _ _) as [g'|k e g'|]; [| |destruct Al]; destruct Al as (D' & hs & A & F' & V); rewrite A in Th; destruct Th as [T1 T2];
      destruct (T2 (Cw i Hi)) as [D'' Eb]; destruct (T1 _ _ _ Eb) as (_ & _ & Lk); (split; [exists D''; exact Eb|]);
      eapply C46_same_value; eauto.
Qed.

(** ** Cases *)
(** Memory with zeroed destinations of [x] and [y] bytes in blocks 1 and 2. *)
Definition two (x y : Z) : heap :=
  Heap 3 (fun b => match b with 0%nat => BMem 0 (fun _ => CZero) | 1%nat => BMem x (fun _ => CZero) | 2%nat => BMem y (fun _ => CZero) | _ => BFree end).
Lemma reach_two x y b c : (b = 1 \/ b = 2)%nat -> reach (two x y) b c -> c = b.
Proof.
  intros Hb H. induction H as [|c n f o d H IH E Ho Hp|c l k d H IH E Hi]; [reflexivity| |]; subst c.
  - exfalso. destruct Hb as [-> | ->]; cbn in E; injection E as <- <-; exact Hp.
  - exfalso. destruct Hb as [-> | ->]; discriminate E.
Qed.
Lemma two_sound x y b : (b = 1 \/ b = 2)%nat -> no_dangling (two x y) b.
Proof.
  intros Hb. split; [exists (fun _ => CZero); reflexivity|]. split; [cbn; lia|]. intros c H. apply reach_two in H; [|exact Hb]. subst c. cbn. destruct Hb; lia.
Qed.
Lemma fresh_free stk : ~ holds_pointer (dyn0 stk).
Proof. intros (j & [H|(r & H & _)]); [apply H; reflexivity|exact H]. Qed.

(** Two goroutines decode different texts, one of them with an error inside, into two
    variables of the type of C15_case. *)
Definition bad_text : bytes := bs "{""B"":[""p"",""q""], ""C"":{""k"":{""X"":[true,7]}}}".
Definition ex_jobs (i : nat) : job :=
  match i with
  | 0%nat => Job wC default_opts ex_stk (dyn0 ex_stk) ex_text (TOk (flat 0 ex_doc)) (1%nat, 0)
  | _ => Job wC default_opts ex_stk (dyn0 ex_stk) bad_text (TOk (flat 0 (tree_of bad_text))) (2%nat, 0)
  end.
Definition outcome (r : result) : option (Z * option err) := match r with Ret z e _ _ => Some (z, e) | _ => None end.
Corollary C47_outcomes n jobs h0 (o : nat -> Z * option err) :
  (forall i, (i < n)%nat -> ~ holds_pointer (j_dyn (jobs i))) ->
  (forall i, (i < n)%nat -> no_dangling h0 (fst (j_dest (jobs i)))) ->
  (forall i k c, (i < n)%nat -> (k < n)%nat -> i <> k ->
     reach h0 (fst (j_dest (jobs i))) c -> reach h0 (fst (j_dest (jobs k))) c -> c = 0%nat) ->
  (forall i, (i < n)%nat -> outcome (alone (jobs i) h0) = Some (o i)) ->
  exists steps : nat -> nat, forall w, Forall (fun i => (i < n)%nat) w ->
  (forall i, (i < n)%nat -> (steps i <= count_occ Nat.eq_dec w i)%nat) ->
  exists ths h', interleave jobs w (fun i => start (jobs i)) h0 = Some (ths, h') /\
  forall i, (i < n)%nat -> exists D', ths i = Returned (fst (o i)) (snd (o i)) D'.
Proof.
  intros A B Cc Ho. destruct (C47_schedules n jobs h0 A B Cc) as [steps Hs].
  - intros i Hi. specialize (Ho i Hi). destruct (alone (jobs i) h0); try discriminate. eauto.
  - exists steps. intros w Fw Cw. destruct (Hs w Fw) as (ths & h' & E & Th & _). exists ths, h'. split; [exact E|]. intros i Hi.
    specialize (Th i Hi). specialize (Ho i Hi). destruct (alone (jobs i) h0) as [z e D hs| | |]; try contradiction. cbn in Ho. injection Ho as <-.
    apply Th, Cw, Hi.
Qed.
Definition ex_out (i : nat) : Z * option err := match i with 0%nat => (-1, None) | _ => (36, Some EUnexpected) end.
Lemma ex_out0 : outcome (alone (ex_jobs 0) (two 48 48)) = Some (-1, None).
Proof. vm_compute. reflexivity. Qed.
Lemma ex_out1 : outcome (alone (ex_jobs 1) (two 48 48)) = Some (36, Some EUnexpected).
Proof. vm_compute. reflexivity. Qed.
Example C47_case : exists steps : nat -> nat, forall w, Forall (fun i => (i < 2)%nat) w ->
  (forall i, (i < 2)%nat -> (steps i <= count_occ Nat.eq_dec w i)%nat) ->
  exists ths h', interleave ex_jobs w (fun i => start (ex_jobs i)) (two 48 48) = Some (ths, h') /\
  forall i, (i < 2)%nat -> exists D', ths i = Returned (fst (ex_out i)) (snd (ex_out i)) D'.
Proof.
  apply C47_outcomes.
  - intros i _. destruct i; apply fresh_free.
  - intros i _. destruct i; apply two_sound; auto.
  - intros i k c Hi Hk Ne A B. destruct i as [|[|]], k as [|[|]]; try lia; apply reach_two in A; apply reach_two in B; auto; cbn in A, B; congruence.
  - intros i Hi. destruct i as [|[|]]; [exact ex_out0|exact ex_out1|lia].
Qed.
(** C46: a destination in block 1 of one memory and in block 2 of another. *)
Example C46_case : alike (world 48) (1%nat, 0) (two 7 48) (2%nat, 0).
Proof.
  exists (fun b c => (b = 0 /\ c = 0)%nat \/ (b = 1 /\ c = 2)%nat). split; [|split; [right; auto|reflexivity]]. split.
  - lia.
  - lia.
  - lia.
  - intros b c [[-> ->]|[-> ->]]; cbn; lia.
  - intros b c [[-> ->]|[-> ->]]; cbn; (split; [reflexivity|]); intros; exact eq_refl.
  - exists (fun _ => CZero). reflexivity.
Qed.

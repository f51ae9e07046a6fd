(** Memory reachable from a variable; Decode and the goroutine semantics under a
    correspondence of memories (Inject.v). *)
From Verif Require Import Base NumSpec Types Token FloatLit Heap Machine PropsGeneral Dt Value Inject.
Open Scope Z_scope.

(** ** Specification *)

(** A cell holds a pointer into block [b]. *)
Definition points (c : cv) (b : nat) : Prop :=
  match c with CSlice a _ _ => fst a = b | CPtr a => fst a = b | CMap x => x = b | _ => False end.
(** Blocks reachable from block [b]. *)
Inductive reach (h : heap) (b : nat) : nat -> Prop :=
| rc_self : reach h b b
| rc_cell c n f o d : reach h b c -> blk h c = BMem n f -> 0 <= o < n -> points (f o) d -> reach h b d
| rc_entry c l k d : reach h b c -> blk h c = BMap l -> In (k, d) l -> reach h b d.
(** No dangling pointer is reachable from block [b]; block 0 is the block of zero-sized
    objects (Heap.v). *)
Definition no_dangling (h : heap) (b : nat) : Prop :=
  (exists f, blk h 0%nat = BMem 0 f) /\ (0 < nxt h)%nat /\ forall c, reach h b c -> (c < nxt h)%nat.
(** Memory looks the same from [a1] in [h1] as from [a2] in [h2]: there is a one-to-one
    correspondence of blocks under which [a1] corresponds to [a2] and contents
    correspond. *)
Definition alike (h1 : heap) (a1 : addr) (h2 : heap) (a2 : addr) : Prop := exists R, corr R h1 h2 /\ addr_rel R a1 a2.

(** ** Goroutines *)

(** One call of Decode: decoder, options, input, result of the tokenizer, destination. *)
Record job := Job { j_cfg : cfg; j_opts : opts; j_stk : list frame; j_dyn : dyn; j_text : bytes; j_toks : tokres; j_dest : addr }.
Definition alone (j : job) (h : heap) : result :=
  Decode (j_cfg j) (j_opts j) (j_stk j) (j_dyn j) (j_text j) (j_toks j) (Some (j_dest j)) h.

(** A goroutine inside a call: in the loop of jscandec.go:732, or back from the call. *)
Inductive thread := Loop (i k : nat) (D : dyn) | Returned (idx : Z) (e : option err) (D : dyn).
(** jscandec.go:714-731, entry of the call. *)
Definition start (j : job) : thread :=
  let D := upd_d (j_dyn j) 0 (set_dest (Some (j_dest j))) in
  match j_toks j with TErr i c => Returned (Z.of_nat i) (Some (ETok c)) (clear_dests D) | TOk _ => Loop 0 0 D end.
(** One atomic step: one iteration of the loop, or its exit (jscandec.go:2716-2733).
    [None]: the program crashes (panic) or memory is corrupted.
    Simplification: an iteration is atomic.  Since the memory used by the goroutines of
    the theorems below is disjoint, there is no order of smaller steps to observe. *)
Definition thread_step (j : job) (t : thread) (h : heap) : option (thread * heap) :=
  match t with
  | Returned _ _ _ => Some (t, h)
  | Loop i k D =>
      match j_toks j with
      | TErr _ _ => None
      | TOk toks =>
          if (k <? length toks)%nat then
            match step (j_cfg j) (j_opts j) (j_stk j) (j_text j) toks (St i k D h) with
            | Next x => Some (Loop (si x) (ti x) (dy x), hp x)
            | Fail n e x => Some (Returned (Z.of_nat n) (Some e) (clear_dests (dy x)), hp x)
            | Panic | Corrupt => None
            end
          else
            let size := match nth_error (j_stk j) 0 with Some f => f_size f | None => 0 end in
            match d_dest (D 0%nat) with
            | Some a' =>
                if (Nat.eqb (fst a') (fst (j_dest j))) && (snd a' =? snd (j_dest j)) then Some (Returned (-1) None (clear_dests D), h)
                else match copy h (Some (j_dest j)) (Some a') size with
                     | Ok h => Some (Returned (-1) None (clear_dests D), h)
                     | _ => None
                     end
            | None => None
            end
      end
  end.

(** Goroutines [0 .. n-1] share one memory.  A schedule is the list of who takes the
    next step. *)
Definition set_thread (ths : nat -> thread) (i : nat) (t : thread) : nat -> thread := fun k => if Nat.eqb k i then t else ths k.
Fixpoint interleave (jobs : nat -> job) (w : list nat) (ths : nat -> thread) (h : heap) : option ((nat -> thread) * heap) :=
  match w with
  | [] => Some (ths, h)
  | i :: w =>
      match thread_step (jobs i) (ths i) h with
      | Some (t, h) => interleave jobs w (set_thread ths i t) h
      | None => None
      end
  end.

(** ** A goroutine that runs alone performs the call *)
Fixpoint iter (j : job) (m : nat) (t : thread) (h : heap) : option (thread * heap) :=
  match m with
  | O => Some (t, h)
  | S m => match thread_step j t h with Some (t, h) => iter j m t h | None => None end
  end.
Lemma iter_back j m i e D h : iter j m (Returned i e D) h = Some (Returned i e D, h).
Proof. induction m as [|m IH]; [reflexivity|exact IH]. Qed.
Lemma iter_add j m : forall m' t h, iter j (m + m') t h = match iter j m t h with Some (t, h) => iter j m' t h | None => None end.
Proof. induction m as [|m IH]; intros m' t h; cbn; [reflexivity|]. destruct (thread_step j t h) as [[]|]; [apply IH|reflexivity]. Qed.
Lemma alone_iter j h i e D h' : alone j h = Ret i e D h' -> exists m, iter j m (start j) h = Some (Returned i e D, h').
Proof.
  unfold alone, Decode, start. destruct (j_toks j) as [toks|ix c] eqn:Et.
  2:{ intros [= <- <- <- <-]. exists O. reflexivity. }
  set (D0 := upd_d _ _ _). generalize (run_fuel (j_stk j) toks) as fuel. change (St 0 0 D0 h) with (St (fst (0, 0)%nat) (snd (0, 0)%nat) D0 h).
  change (Loop 0 0 D0) with (Loop (fst (0, 0)%nat) (snd (0, 0)%nat) D0). generalize (0, 0)%nat as q. intros [q0 q1] fuel. cbn [fst snd].
  generalize D0 as E. intros E H. clear D0. revert q0 q1 E h H.
  induction fuel as [|fuel IH]; intros i0 k E h H; cbn [run ti] in H; destruct (k <? length toks)%nat eqn:Lt; try discriminate.
  - exists 1%nat. cbn [iter thread_step]. rewrite Et, Lt. destruct (d_dest (dy (St i0 k E h) 0%nat)) as [a'|] eqn:Ed; [|discriminate].
    cbn [dy hp] in *. rewrite Ed. destruct (_ && _); [injection H as <- <- <- <-; reflexivity|].
    destruct (copy _ _ _ _); try discriminate. injection H as <- <- <- <-. reflexivity.
  - destruct (step (j_cfg j) (j_opts j) (j_stk j) (j_text j) toks (St i0 k E h)) as [x|n er x| |] eqn:Es; try discriminate.
    + destruct x as [i1 k1 E1 h1]. apply IH in H as [m Hm]. exists (S m). cbn [iter thread_step]. rewrite Et, Lt, Es. exact Hm.
    + exists 1%nat. cbn [iter thread_step]. rewrite Et, Lt, Es. injection H as <- <- <- <-. reflexivity.
  - exists 1%nat. cbn [iter thread_step]. rewrite Et, Lt. destruct (d_dest (dy (St i0 k E h) 0%nat)) as [a'|] eqn:Ed; [|discriminate].
    cbn [dy hp] in *. rewrite Ed. destruct (_ && _); [injection H as <- <- <- <-; reflexivity|].
    destruct (copy _ _ _ _); try discriminate. injection H as <- <- <- <-. reflexivity.
Qed.

(** ** Under a correspondence *)
Definition thread_rel (R : ren) (t u : thread) : Prop :=
  match t, u with
  | Loop i k D, Loop i' k' E => i = i' /\ k = k' /\ dyn_rel R D E
  | Returned i e D, Returned i' e' E => i = i' /\ e = e' /\ dyn_rel R D E
  | _, _ => False
  end.
Lemma thread_mono (R R' : ren) t u : (forall b c, R b c -> R' b c) -> thread_rel R t u -> thread_rel R' t u.
Proof. intros L. destruct t, u; cbn; try tauto; intros (A & B & D'); repeat split; auto; eapply dyn_mono; eauto. Qed.
Lemma clear_dests_rel R D E : dyn_rel R D E -> dyn_rel R (clear_dests D) (clear_dests E).
Proof. intros H i. unfold clear_dests. apply set_dest_rel; [exact I|apply H]. Qed.
Lemma same_addr R h1 h2 a b a' b' : corr R h1 h2 -> addr_rel R a b -> addr_rel R a' b' ->
  (Nat.eqb (fst a') (fst a)) && (snd a' =? snd a) = (Nat.eqb (fst b') (fst b)) && (snd b' =? snd b).
Proof.
  intros Hc [A1 A2] [B1 B2]. rewrite A2, B2. f_equal. destruct (Nat.eqb_spec (fst a') (fst a)) as [E|N], (Nat.eqb_spec (fst b') (fst b)) as [E'|N']; try reflexivity.
  - destruct N'. rewrite E in B1. eapply cr_fun; eauto.
  - destruct N. rewrite E' in B1. eapply cr_inj; eauto.
Qed.
(** The same call with destination [b] instead of its own. *)
Definition with_dest (j : job) (b : addr) : job := Job (j_cfg j) (j_opts j) (j_stk j) (j_dyn j) (j_text j) (j_toks j) b.
Lemma thread_step_inj R j b t u h1 h2 : corr R h1 h2 -> thread_rel R t u -> addr_rel R (j_dest j) b ->
  match thread_step j t h1, thread_step (with_dest j b) u h2 with
  | Some (t', h1'), Some (u', h2') => exists R', ext R h2 R' h2' /\ corr R' h1' h2' /\ thread_rel R' t' u'
  | None, None => True
  | _, _ => False
  end.
Proof.
  intros Hc Ht Ha. destruct t as [i k D|i e D], u as [i' k' E|i' e' E]; cbn in Ht; try contradiction; destruct Ht as (<- & <- & Hd); cbn [thread_step with_dest j_toks j_cfg j_opts j_stk j_text j_dest].
  2:{ exists R. split; [apply ext_refl|]. split; [exact Hc|]. exact (conj eq_refl (conj eq_refl Hd)). }
  destruct (j_toks j) as [toks|]; [|exact I]. destruct (k <? length toks)%nat.
  - pose proof (step_inj (j_cfg j) (j_opts j) (j_stk j) (j_text j) toks R (St i k D h1) (St i k E h2) (conj eq_refl (conj eq_refl (conj Hd Hc)))) as S.
    cbn [hp] in S. destruct (step _ _ _ _ _ (St i k D h1)) as [x|n er x| |], (step _ _ _ _ _ (St i k E h2)) as [y|n' er' y| |]; cbn in S; try contradiction; try exact I.
    + destruct S as (R' & X & A & B & Dd & Cc). exists R'. exact (conj X (conj Cc (conj A (conj B Dd)))).
    + destruct S as (<- & <- & R' & X & A & B & Dd & Cc). exists R'. split; [exact X|]. split; [exact Cc|]. exact (conj eq_refl (conj eq_refl (clear_dests_rel _ _ _ Dd))).
  - destruct (Hd 0%nat) as (P & _). destruct (d_dest (D 0%nat)) as [a'|], (d_dest (E 0%nat)) as [b'|]; cbn in P; try contradiction; [|exact I].
    rewrite (same_addr R h1 h2 _ _ _ _ Hc Ha P). destruct (_ && _).
    + exists R. split; [apply ext_refl|]. split; [exact Hc|]. exact (conj eq_refl (conj eq_refl (clear_dests_rel _ _ _ Hd))).
    + pose proof (copy_inj R h1 h2 (Some (j_dest j)) (Some b) (Some a') (Some b') (match nth_error (j_stk j) 0 with Some f => f_size f | None => 0 end) Hc Ha P) as Q.
      destruct (copy h1 _ _ _), (copy h2 _ _ _); cbn in Q; try contradiction; try exact I. destruct Q as (R' & X & Cc & ->).
      exists R. split; [exact X|]. split; [exact Cc|]. exact (conj eq_refl (conj eq_refl (clear_dests_rel _ _ _ Hd))).
Qed.

Lemma free_rel R D : ~ holds_pointer D -> dyn_rel R D D.
Proof.
  intros N i. unfold df_rel. repeat split.
  - destruct (d_dest (D i)) eqn:E; [|exact I]. destruct N. exists i. left. congruence.
  - assert (F : Forall (fun r => r_dest r = None) (d_rs (D i))).
    { apply Forall_forall. intros r Hr. destruct (r_dest r) eqn:E; [|reflexivity]. destruct N. exists i. right. exists r. split; [exact Hr|congruence]. }
    clear N. induction F as [|r l E _ IH]; constructor; auto. repeat split. rewrite E. exact I.
Qed.
Lemma start_rel R j b : ~ holds_pointer (j_dyn j) -> addr_rel R (j_dest j) b -> thread_rel R (start j) (start (with_dest j b)).
Proof.
  intros N A. unfold start. cbn [with_dest j_toks j_dyn j_dest].
  assert (Hd : dyn_rel R (upd_d (j_dyn j) 0 (set_dest (Some (j_dest j)))) (upd_d (j_dyn j) 0 (set_dest (Some b)))).
  { apply upd_rel; [apply free_rel, N|]. intros d e. apply set_dest_rel, A. }
  destruct (j_toks j); [|exact (conj eq_refl (conj eq_refl (clear_dests_rel _ _ _ Hd)))]. exact (conj eq_refl (conj eq_refl Hd)).
Qed.

Lemma Forall2_self {A} (P : A -> A -> Prop) l : (forall x, In x l -> P x x) -> Forall2 P l l.
Proof. induction l as [|x l IH]; intros H; constructor; [apply H; left; reflexivity|]. apply IH. intros y Hy. apply H. right; exact Hy. Qed.

(** The identity on what is reachable from [b]. *)
Definition here (h : heap) (b : nat) : ren := fun x y => x = y /\ (x = 0%nat \/ reach h b x).
Lemma cv_here (R : ren) c : (forall d, points c d -> R d d) -> cv_rel R c c.
Proof. destruct c; cbn; intros H; auto; repeat split; auto. Qed.
Lemma corr_here h h' b : no_dangling h b -> no_dangling h' b -> (forall c, reach h b c -> blk h' c = blk h c) -> corr (here h b) h h'.
Proof.
  intros ([z Ez] & L0 & L) ([z' Ez'] & L0' & L') Ag.
  assert (Rr : forall c, reach h b c -> reach h' b c).
  { intros c H. induction H as [|c n f o d H IH E Ho Hp|c l k d H IH E Hi]; [constructor| |].
    - eapply rc_cell; eauto. rewrite Ag; eauto.
    - eapply rc_entry; eauto. rewrite Ag; eauto. }
  split.
  - intros x y y' [-> _] [-> _]. reflexivity.
  - intros x x' y [-> _] [-> _]. reflexivity.
  - split; auto.
  - intros x y [<- [->|H]]; auto.
  - intros x y [<- [->|H]].
    + rewrite Ez, Ez'. split; [reflexivity|]. intros o Ho. lia.
    + rewrite (Ag _ H). destruct (blk h x) as [|n f|l] eqn:E; cbn; auto.
      * split; [reflexivity|]. intros o Ho. apply cv_here. intros d Hd. split; [reflexivity|]. right. eapply rc_cell; eauto.
      * apply Forall2_self. intros [k d] Hi. split; [reflexivity|]. split; [reflexivity|]. right. eapply rc_entry; eauto.
  - exists z'. exact Ez'.
Qed.

(** What is reachable corresponds. *)
Lemma reach_corr R h1 h2 b c : corr R h1 h2 -> R b c -> forall d, reach h2 c d -> exists e, reach h1 b e /\ R e d.
Proof.
  intros Hc Hb d H. induction H as [|x n f o d H IH E Ho Hp|x l k d H IH E Hi].
  - exists b. split; [constructor|exact Hb].
  - destruct IH as (e & He & Re). pose proof (cr_blk _ _ _ Hc _ _ Re) as B. rewrite E in B.
    destruct (blk h1 e) as [|m g|] eqn:E1; cbn in B; try contradiction. destruct B as [-> B]. specialize (B o Ho).
    destruct (g o) eqn:Eg, (f o); cbn in B, Hp; try contradiction; try discriminate B.
    + destruct B as ((B & _) & _). subst d. eexists. split; [eapply rc_cell; eauto; rewrite Eg; reflexivity|exact B].
    + destruct B as (B & _). subst d. eexists. split; [eapply rc_cell; eauto; rewrite Eg; reflexivity|exact B].
    + subst d. eexists. split; [eapply rc_cell; eauto; rewrite Eg; reflexivity|exact B].
  - destruct IH as (e & He & Re). pose proof (cr_blk _ _ _ Hc _ _ Re) as B. rewrite E in B.
    destruct (blk h1 e) as [| |m] eqn:E1; cbn in B; try contradiction.
    assert (G : exists d', In (k, d') m /\ R d' d).
    { clear - B Hi. induction B as [|[k1 d1] [k2 d2] m l [A B] _ IH]; [destruct Hi|]. cbn in A, B. subst k2.
      destruct Hi as [Hi|Hi]; [injection Hi as <- <-; exists d1; split; [left; reflexivity|exact B]|].
      destruct (IH Hi) as (d' & P & Q). exists d'. split; [right; exact P|exact Q]. }
    destruct G as (d' & P & Q). exists d'. split; [eapply rc_entry; eauto|exact Q].
Qed.

(** ** Values *)
Section Values.
Variable w64 : bool.
Variables (R : ren) (h1 h2 : heap).
Hypothesis Hc : corr R h1 h2.
Definition mono_rep (r : rept) : Prop := forall p q g F, ptr_rel R p q -> r h1 p g F -> exists F', r h2 q g F' /\ Forall2 R F F'.

Lemma cellat_rel p q x c : ptr_rel R p q -> cellat h1 p x = Some c -> exists d, cellat h2 q x = Some d /\ cv_rel R c d.
Proof.
  intros P. unfold cellat. destruct p as [[b o]|], q as [[b' o']|]; cbn in P; try contradiction; [|discriminate].
  destruct P as [P Eo]. cbn [fst snd] in P, Eo. subst o'. pose proof (cr_blk _ _ _ Hc _ _ P) as B.
  destruct (blk h1 b) as [|n f|], (blk h2 b') as [|m g|]; cbn in B; try contradiction; try discriminate.
  destruct B as [-> B]. destruct (_ && _) eqn:Lt; [|discriminate]. intros [= <-]. exists (g (o + x)). split; [reflexivity|]. apply B. lia.
Qed.
Lemma room_rel p q n : ptr_rel R p q -> room h1 p n -> room h2 q n.
Proof.
  intros P H x Hx. specialize (H x Hx). destruct (cellat h1 p x) as [c|] eqn:E; [|congruence].
  destruct (cellat_rel _ _ _ _ P E) as (d & Ed & _). congruence.
Qed.
Lemma holds_rel p q n c : ptr_rel R p q -> holds h1 p n c -> exists d, holds h2 q n d /\ cv_rel R c d.
Proof.
  intros P [A B]. destruct (cellat_rel _ _ _ _ P B) as (d & Ed & V). exists d. split; [|exact V]. split; [eapply room_rel; eauto|exact Ed].
Qed.
Lemma reps_rel rs : Forall (fun r => mono_rep (snd r)) rs -> forall p q gs F, ptr_rel R p q -> reps rs h1 p gs F ->
  exists F', reps rs h2 q gs F' /\ Forall2 R F F'.
Proof.
  induction 1 as [|r rs Hr _ IH]; intros p q gs F P H; destruct gs as [|g gs]; cbn in H; try contradiction.
  - subst F. exists []. split; [reflexivity|constructor].
  - destruct H as (F1 & F2 & -> & A & B). destruct (Hr _ (padd q (fst r)) _ _ (padd_rel R p q (fst r) P) A) as (F1' & A' & X1).
    destruct (IH _ _ _ _ P B) as (F2' & B' & X2). exists (F1' ++ F2'). split; [exists F1', F2'; auto|apply Forall2_app; assumption].
Qed.
Lemma slots_mono sz r : mono_rep r -> forall n k, Forall (fun x => mono_rep (snd x)) (slots sz r k n).
Proof. intros H n. induction n as [|n IH]; intros k; constructor; auto. Qed.
Lemma entries_rel r sz : mono_rep r -> forall l l', Forall2 (fun x y : mkey * nat => fst x = fst y /\ R (snd x) (snd y)) l l' ->
  forall m F, rep_entries r sz h1 l m F -> exists F', rep_entries r sz h2 l' m F' /\ Forall2 R F F'.
Proof.
  intros Hr l l' H. induction H as [|[k b] [k' b'] l l' [Ek Hb] _ IH]; intros m F Q; destruct m as [|[k1 g] m]; cbn in Q; try contradiction.
  - subst F. exists []. split; [reflexivity|constructor].
  - cbn in Ek, Hb. subst k'. destruct Q as (F1 & F2 & -> & -> & Rm & A & B).
    assert (P : ptr_rel R (Some (b, 0)) (Some (b', 0))) by (split; [exact Hb|reflexivity]).
    destruct (Hr _ _ _ _ P A) as (F1' & A' & X1). destruct (IH _ _ B) as (F2' & B' & X2).
    exists (b' :: F1' ++ F2'). split; [|constructor; [exact Hb|apply Forall2_app; assumption]].
    exists F1', F2'. repeat split; auto. eapply room_rel; eauto.
Qed.
Lemma rep_corr d : mono_rep (rep w64 d).
Proof.
  unfold mono_rep. induction d as [x|id z|id z| |n t IH| |t IH|k t IH| |t IH|z fs IH] using dt_ind'; intros p q g F P H.
  - destruct H as (-> & c & Hh & Hr). destruct (holds_rel _ _ _ _ P Hh) as (d & Hd & V). exists []. split; [|constructor]. split; [reflexivity|].
    exists d. split; [exact Hd|]. destruct c, d; cbn in V, Hr; try contradiction; try discriminate V; try (injection V as <-); exact Hr.
  - destruct H as (-> & H). exists []. split; [|constructor]. split; [reflexivity|]. destruct (z <=? 0); [exact H|]. destruct H as (c & Hh & Hr).
    destruct (holds_rel _ _ _ _ P Hh) as (d & Hd & V). exists d. split; [exact Hd|]. destruct c, d; cbn in V, Hr; try contradiction; try discriminate V; try (injection V as <-); exact Hr.
  - destruct H as (-> & H). exists []. split; [|constructor]. split; [reflexivity|]. destruct (z <=? 0); [exact H|]. destruct H as (c & Hh & Hr).
    destruct (holds_rel _ _ _ _ P Hh) as (d & Hd & V). exists d. split; [exact Hd|]. destruct c, d; cbn in V, Hr; try contradiction; try discriminate V; try (injection V as <-); exact Hr.
  - destruct H as (-> & ->). exists []. split; [split; reflexivity|constructor].
  - destruct H as (gs & -> & H). destruct (reps_rel _ (slots_mono _ _ IH n 0) _ _ _ _ P H) as (F' & A & B). exists F'. split; [exists gs; auto|exact B].
  - destruct H as (-> & ->). exists []. split; [split; reflexivity|constructor].
  - destruct H as (c & Hh & H). destruct (holds_rel _ _ _ _ P Hh) as (d & Hd & V). destruct c, d; cbn in V, H; try contradiction; try discriminate V.
    + destruct H as (-> & ->). exists []. split; [exists CZero; auto|constructor].
    + destruct H as (vis & hid & F' & -> & El & Ec & Rm & Rp & ->). destruct V as (A & <- & <-).
      assert (Pa : ptr_rel R (Some p0) (Some p1)) by exact A.
      destruct (reps_rel _ (slots_mono _ _ IH _ _) _ _ _ _ Pa Rp) as (F'' & Q & X).
      exists ((if (0 <? dsize w64 t) && (0 <? cap) then [fst p1] else []) ++ F''). split.
      * eexists. split; [exact Hd|]. exists vis, hid, F''. repeat split; auto. eapply room_rel; eauto.
      * apply Forall2_app; [|exact X]. destruct (_ && _); constructor; [apply A|constructor].
  - destruct H as (c & Hh & H). destruct (holds_rel _ _ _ _ P Hh) as (d & Hd & V). destruct c, d; cbn in V, H; try contradiction; try discriminate V.
    + destruct H as (-> & ->). exists []. split; [exists CZero; auto|constructor].
    + destruct H as (l & m & F' & Eb & -> & Re & Dm & ->). pose proof (cr_blk _ _ _ Hc _ _ V) as B. rewrite Eb in B.
      destruct (blk h2 b0) as [| |l'] eqn:E2; cbn in B; try contradiction. destruct (entries_rel _ _ IH _ _ B _ _ Re) as (F'' & Q & X).
      exists (b0 :: F''). split; [|constructor; [exact V|exact X]]. eexists. split; [exact Hd|]. exists l', m, F''. auto.
  - destruct H as (-> & c & Hh & Hr). destruct (holds_rel _ _ _ _ P Hh) as (d & Hd & V). exists []. split; [|constructor]. split; [reflexivity|].
    exists d. split; [exact Hd|]. destruct c, d; cbn in V, Hr; try contradiction; try discriminate V; try (injection V as <-); exact Hr.
  - destruct H as (c & Hh & H). destruct (holds_rel _ _ _ _ P Hh) as (d & Hd & V). destruct c, d; cbn in V, H; try contradiction; try discriminate V.
    + destruct H as (-> & ->). exists []. split; [exists CZero; auto|constructor].
    + destruct H as (v & F' & -> & Rp & ->). assert (Pa : ptr_rel R (Some p0) (Some p1)) by exact V.
      destruct (IH _ _ _ _ Pa Rp) as (F'' & Q & X). exists ((if 0 <? dsize w64 t then [fst p1] else []) ++ F''). split.
      * eexists. split; [exact Hd|]. exists v, F''. auto.
      * apply Forall2_app; [|exact X]. destruct (_ <? _); constructor; [apply V|constructor].
  - destruct H as (gs & -> & H). assert (Fm : Forall (fun r => mono_rep (snd r)) (map (fun x : (bytes * Z) * dt => (snd (fst x), rep w64 (snd x))) fs)).
    { apply Forall_map. exact IH. }
    destruct (reps_rel _ Fm _ _ _ _ P H) as (F' & A & B). exists F'. split; [exists gs; auto|exact B].
Qed.
Lemma own_corr p q F F' : ptr_rel R p q -> Forall2 R F F' -> own h1 p F -> own h2 q F'.
Proof.
  intros P X (N0 & Nd & In1 & Pb). destruct (cr_lt _ _ _ Hc _ _ (cr_zero _ _ _ Hc)) as [_ Z2].
  assert (Inv : forall c, In c F' -> exists b, In b F /\ R b c).
  { clear - X. induction X as [|b c F F' H _ IH]; [intros c []|]. intros x [<-|Hx]; [exists b; split; [left; reflexivity|exact H]|].
    destruct (IH _ Hx) as (y & A & B). exists y. split; [right; exact A|exact B]. }
  split; [exact Z2|]. split; [|split].
  - clear In1 Pb. induction X as [|b c F F' H X IH]; constructor; inversion Nd; subst.
    + intros Hi. destruct (Inv c (or_intror Hi)) as (b' & Hb & Hr).
      assert (Inv' : exists b', In b' F /\ R b' c).
      { clear - X Hi. induction X as [|b c' F F' H _ IH]; [destruct Hi|]. destruct Hi as [->|Hi]; [exists b; split; [left; reflexivity|exact H]|].
        destruct (IH Hi) as (y & A & B). exists y. split; [right; exact A|exact B]. }
      destruct Inv' as (b1 & Hb1 & Hr1). rewrite (cr_inj _ _ _ Hc _ _ _ Hr1 H) in Hb1. contradiction.
    + apply IH; [assumption|]. intros x Hx. clear - X Hx. induction X as [|b c' F F' H _ IH]; [destruct Hx|]. destruct Hx as [->|Hi]; [exists b; split; [left; reflexivity|exact H]|].
      destruct (IH Hi) as (y & A & B). exists y. split; [right; exact A|exact B].
  - intros c Hi. destruct (Inv _ Hi) as (b & Hb & Hr). destruct (In1 _ Hb) as [Lt Np]. destruct (cr_lt _ _ _ Hc _ _ Hr) as [_ L2]. split.
    + split; [|exact L2]. destruct c; [|lia]. rewrite (cr_inj _ _ _ Hc _ _ _ Hr (cr_zero _ _ _ Hc)) in Lt. lia.
    + destruct p as [[pb po]|], q as [[qb qo]|]; cbn in P; try contradiction; cbn; [|discriminate]. intros [= ->]. destruct P as [P _]. cbn in P.
      rewrite (cr_inj _ _ _ Hc _ _ _ P Hr) in Np. apply Np. reflexivity.
  - intros c Hq. destruct p as [[pb po]|], q as [[qb qo]|]; cbn in P; try contradiction; cbn in Hq; [|discriminate]. injection Hq as <-.
    destruct P as [P _]. apply (cr_lt _ _ _ Hc _ _ P).
Qed.
End Values.

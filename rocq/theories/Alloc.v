(** How much memory a call of Decode allocates: at most one block per iteration, for
    every frame list and document. *)
From Verif Require Import Base NumSpec Unescape Lookup Types Token FloatLit Heap Machine General.
Open Scope Z_scope.

(** ** Specification *)
(** Bytes of a block of plain memory.  Maps are counted by their value blocks. *)
Definition bsize (k : block) : Z := match k with BMem n _ => Z.max 0 n | _ => 0 end.
Definition total (l : list Z) : Z := fold_right Z.add 0 l.
(** Blocks and bytes allocated between the memories [h] and [h']. *)
Definition new_blocks (h h' : heap) : nat := nxt h' - nxt h.
Definition new_bytes (h h' : heap) : Z := total (map (fun b => bsize (blk h' b)) (seq (nxt h) (new_blocks h h'))).

(** ** Growth *)
Record grows (h h' : heap) (k : nat) (z : Z) : Prop := {
  gr_nxt : (nxt h <= nxt h' <= nxt h + k)%nat;
  gr_old : forall b, (b < nxt h)%nat -> bsize (blk h' b) = bsize (blk h b);
  gr_new : new_bytes h h' <= z }.

Lemma total_app a b : total (a ++ b) = total a + total b.
Proof. induction a as [|x a IH]; cbn; [reflexivity|]. unfold total in *. lia. Qed.
Lemma grows_refl h : grows h h 0 0.
Proof. split; [lia|reflexivity|]. unfold new_bytes, new_blocks. rewrite Nat.sub_diag. cbn. lia. Qed.
Lemma grows_trans h g h' k z k' z' : grows h g k z -> grows g h' k' z' -> grows h h' (k + k') (z + z').
Proof.
  intros [A1 A2 A3] [B1 B2 B3]. split; [lia|intros b Hb; rewrite B2, A2; [reflexivity|exact Hb|lia]|].
  unfold new_bytes, new_blocks in *. replace (nxt h' - nxt h)%nat with ((nxt g - nxt h) + (nxt h' - nxt g))%nat by lia.
  rewrite seq_app, map_app, total_app. replace (nxt h + (nxt g - nxt h))%nat with (nxt g) by lia.
  rewrite (map_ext_in _ (fun b => bsize (blk g b))); [lia|]. intros b Hb. apply in_seq in Hb. apply B2. lia.
Qed.
Lemma grows_weak h h' k z k' z' : grows h h' k z -> (k <= k')%nat -> z <= z' -> grows h h' k' z'.
Proof. intros [A1 A2 A3] Hk Hz. split; [lia|exact A2|lia]. Qed.
Lemma grows_same h h' : nxt h' = nxt h -> (forall b, bsize (blk h' b) = bsize (blk h b)) -> grows h h' 0 0.
Proof. intros E H. split; [lia|auto|]. unfold new_bytes, new_blocks. rewrite E, Nat.sub_diag. cbn. lia. Qed.

Lemma set_grows h b k : bsize k = bsize (blk h b) -> grows h (set_blk h b k) 0 0.
Proof. intros E. apply grows_same; [reflexivity|]. intros x. cbn. destruct (Nat.eqb_spec x b) as [->|]; [exact E|reflexivity]. Qed.
Lemma store_grows h p sz v h' : store h p sz v = Ok h' -> grows h h' 0 0.
Proof.
  unfold store. destruct p as [[b o]|]; [|discriminate]. destruct (blk h b) eqn:Eb; try discriminate.
  destruct (_ && _ && _); [|discriminate]. intros [= <-]. apply set_grows. rewrite Eb. reflexivity.
Qed.
Lemma clear_grows h p n h' : clear h p n = Ok h' -> grows h h' 0 0.
Proof.
  unfold clear. destruct (n <=? 0); [intros [= <-]; apply grows_refl|]. destruct p as [[b o]|]; [|discriminate]. destruct (blk h b) eqn:Eb; try discriminate.
  destruct (_ && _); [|discriminate]. intros [= <-]. apply set_grows. rewrite Eb. reflexivity.
Qed.
Lemma copy_grows h p q n h' : copy h p q n = Ok h' -> grows h h' 0 0.
Proof.
  unfold copy. destruct (n <=? 0); [intros [= <-]; apply grows_refl|]. destruct p as [[b o]|]; [|discriminate]. destruct q as [[b' o']|]; [|discriminate].
  destruct (blk h b) eqn:Eb; try discriminate. destruct (blk h b') eqn:Eb'; try discriminate.
  destruct (_ && _ && _ && _); [|discriminate]. intros [= <-]. apply set_grows. rewrite Eb. reflexivity.
Qed.
Lemma alloc_grows h k b h' : alloc_blk h k = (b, h') -> grows h h' 1 (bsize k).
Proof.
  unfold alloc_blk. intros [= <- <-]. split; [cbn; lia| |].
  - intros x Hx. cbn. destruct (Nat.eqb_spec x (nxt h)); [lia|reflexivity].
  - unfold new_bytes, new_blocks. cbn [nxt]. replace (S (nxt h) - nxt h)%nat with 1%nat by lia. cbn. rewrite Nat.eqb_refl. lia.
Qed.
Lemma malloc_grows h n a h' : malloc h n = (a, h') -> grows h h' 1 (Z.max 0 n).
Proof.
  unfold malloc. destruct (n <=? 0) eqn:En.
  - intros [= <- <-]. eapply grows_weak; [apply grows_refl| |]; lia.
  - destruct (alloc_blk h _) as [b g] eqn:E. intros [= <- <-]. apply alloc_grows in E. exact E.
Qed.
Lemma makemap_grows h b h' : makemap h = (b, h') -> grows h h' 1 0.
Proof. intros E. apply alloc_grows in E. exact E. Qed.
Lemma mapassign_grows h m k n a h' : mapassign h m k n = Ok (a, h') -> grows h h' 1 (Z.max 0 n).
Proof.
  unfold mapassign. destruct m as [b|]; [|discriminate]. destruct (blk h b) as [| |l] eqn:Eb; try discriminate.
  destruct (find_key l k); [intros [= <- <-]; eapply grows_weak; [apply grows_refl| |]; lia|].
  intros [= <- <-]. split; [cbn; lia| |].
  - intros x Hx. cbn. destruct (Nat.eqb_spec x b) as [->|]; [rewrite Eb; reflexivity|]. destruct (Nat.eqb_spec x (nxt h)); [lia|reflexivity].
  - unfold new_bytes, new_blocks. cbn [nxt set_blk]. replace (S (nxt h) - nxt h)%nat with 1%nat by lia. cbn [seq map total fold_right blk set_blk].
    destruct (Nat.eqb (nxt h) b); [cbn; lia|]. rewrite Nat.eqb_refl. cbn. lia.
Qed.

(** Two operations in sequence, of which one does not allocate. *)
Lemma then_same h g h' k z : grows h g k z -> grows g h' 0 0 -> grows h h' k z.
Proof. intros A B. pose proof (grows_trans _ _ _ _ _ _ _ A B) as Q. eapply grows_weak; [exact Q| |]; lia. Qed.
Lemma same_then h g h' k z : grows h g 0 0 -> grows g h' k z -> grows h h' k z.
Proof. intros A B. pose proof (grows_trans _ _ _ _ _ _ _ A B) as Q. eapply grows_weak; [exact Q| |]; lia. Qed.

Section Alloc.
Variables (C : cfg) (O : opts) (stk : list frame) (s : bytes) (toks : list token).
(** [M]: bound of the sizes of the frames; at least the size of a string. *)
Variable M : Z.
Hypothesis big : 16 <= M.
Hypothesis sizes : forall i f, nth_error stk i = Some f -> f_size f <= M /\ f_vsize f <= M.

Definition gout (h : heap) (k : nat) (z : Z) (o : out) : Prop :=
  match o with Next y => grows h (hp y) k z | Fail _ _ y => grows h (hp y) k z | _ => True end.
Lemma gout_lift {A} h k z (r : res A) f : (forall a, r = Ok a -> gout h k z (f a)) -> gout h k z (lift r f).
Proof. destruct r; cbn; auto. Qed.
Lemma gout_weak h k z k' z' o : gout h k z o -> (k <= k')%nat -> z <= z' -> gout h k' z' o.
Proof. destruct o; cbn; auto; intros; eapply grows_weak; eauto. Qed.

Ltac inv_ok :=
  repeat match goal with
  | H : Ok _ = Ok _ |- _ => injection H as ?; subst
  | H : inl _ = inl _ |- _ => injection H as ?; subst
  | H : (_, _) = (_, _) |- _ => injection H as ? ?; subst
  | H : inr _ = inl _ |- _ => discriminate
  | H : serr _ _ = Ok _ |- _ => unfold serr in H
  | H : sok _ = Ok _ |- _ => unfold sok in H
  | H : rbind ?r _ = Ok _ |- _ => destruct r eqn:?; cbn [rbind] in H; try discriminate
  | H : (let '(_, _) := ?p in _) = Ok _ |- _ => destruct p eqn:?
  | H : match ?d with _ => _ end = Ok _ |- _ => destruct d eqn:?; try discriminate
  | H : match ?d with _ => _ end = inl _ |- _ => destruct d eqn:?; try discriminate
  end.
Ltac gr :=
  try match goal with
  | H : store ?h _ _ _ = Ok ?h' |- grows ?h ?h' _ _ => eapply grows_weak; [exact (store_grows _ _ _ _ _ H)| |]
  | H : malloc ?h _ = (_, ?h') |- grows ?h ?h' _ _ => eapply grows_weak; [exact (malloc_grows _ _ _ _ H)| |]
  | H : makemap ?h = (_, ?h') |- grows ?h ?h' _ _ => eapply grows_weak; [exact (makemap_grows _ _ _ H)| |]
  | H : clear ?h _ _ = Ok ?h' |- grows ?h ?h' _ _ => eapply grows_weak; [exact (clear_grows _ _ _ _ H)| |]
  | H : copy ?h _ _ _ = Ok ?h' |- grows ?h ?h' _ _ => eapply grows_weak; [exact (copy_grows _ _ _ _ _ H)| |]
  | H : mapassign ?h _ _ _ = Ok (_, ?h') |- grows ?h ?h' _ _ => eapply grows_weak; [exact (mapassign_grows _ _ _ _ _ _ H)| |]
  | |- grows ?h ?h _ _ => eapply grows_weak; [apply grows_refl| |]
  end.
Ltac gr2 :=
  match goal with
  | H : store ?g _ _ _ = Ok ?h' |- grows _ ?h' _ _ => eapply then_same; [|exact (store_grows _ _ _ _ _ H)]
  | H : copy ?g _ _ _ = Ok ?h' |- grows _ ?h' _ _ => eapply then_same; [|exact (copy_grows _ _ _ _ _ H)]
  | H : clear ?g _ _ = Ok ?h' |- grows _ ?h' _ _ => eapply then_same; [|exact (clear_grows _ _ _ _ H)]
  end.

Lemma scalar_grows f t p h h' e : scalar_tok C s f t p h = Ok (h', e) -> grows h h' 0 0.
Proof.
  intros H. unfold scalar_tok in H.
  destruct (tk_ty t);
    unfold bool_tok, int_tok, num_tok, str_tok, null_tok, int_of_str, int_of_tok, store_user in H;
    inv_ok; gr; try lia.
Qed.
Lemma on_val_end_g h k z x : grows h (hp x) k z -> gout h k z (on_val_end stk toks x).
Proof.
  intros H. unfold on_val_end. cbv zeta.
  repeat match goal with |- gout _ _ _ (match ?d with _ => _ end) => destruct d end; cbn; auto.
Qed.
Lemma on_recur_g h k z x : grows h (hp x) k z -> gout h k z (on_recur_obj_end stk toks x).
Proof.
  intros H. unfold on_recur_obj_end.
  repeat match goal with |- gout _ _ _ (match ?d with _ => _ end) => destruct d end; cbn; auto.
  apply on_val_end_g, H.
Qed.
Ltac go :=
  repeat match goal with
  | |- gout _ _ _ (lift _ _) => apply gout_lift; intros
  | |- gout _ _ _ (on_val_end _ _ _) => apply on_val_end_g; cbn [hp goto_si goto_ti with_dy with_hp]
  | |- gout _ _ _ (on_recur_obj_end _ _ _) => apply on_recur_g; cbn [hp goto_si goto_ti with_dy with_hp]
  | |- gout _ _ _ (let '(_, _) := ?d in _) => destruct d eqn:?
  | |- gout _ _ _ (match ?d with _ => _ end) => destruct d eqn:?
  | |- gout _ _ _ _ => cbn [gout hp goto_si goto_ti with_dy with_hp]
  end.
Ltac fin := repeat gr2; gr; try lia; try exact I.

Lemma M_pos : 0 <= M. Proof. lia. Qed.
Lemma size_le i f : fr stk i = Some f -> Z.max 0 (f_size f) <= M.
Proof. intros H. apply sizes in H. pose proof M_pos. lia. Qed.
Lemma vsize_le i f : fr stk i = Some f -> Z.max 0 (f_vsize f) <= M.
Proof. intros H. apply sizes in H. pose proof M_pos. lia. Qed.

Lemma on_ptr_g x : gout (hp x) 1 M (on_ptr C stk x).
Proof.
  unfold on_ptr. cbv zeta. pose proof M_pos. destruct (fr stk (S (si x))) as [f|] eqn:E; [|exact I]. apply size_le in E.
  go; fin.
Qed.
Lemma on_json_g f t x : gout (hp x) 0 0 (on_json C stk s toks f t x).
Proof. unfold on_json. cbv zeta. apply gout_lift. intros [raw ti'] _. go; unfold store_user in *; inv_ok; fin. Qed.
Lemma any_tok_g t x : gout (hp x) 0 0 (any_tok C stk s toks t x).
Proof. unfold any_tok. destruct (decodeAny _ _ _ _) eqn:E; go; fin. Qed.
Lemma grow_g h p e n k a h' : grow_slice C h p e n k = Ok (a, h') -> grows h h' 1 (Z.max 0 (e * n)).
Proof. intros H. unfold grow_slice in H. inv_ok; fin. Qed.
Lemma init_map_g h p h' : init_map C h p = Ok h' -> grows h h' 1 0.
Proof. intros H. unfold init_map in H. inv_ok; fin. Qed.
Lemma fast_loop_g e a n : forall ts i h h' r, fast_loop C s e a n i ts h = Ok (h', r) -> grows h h' 0 0.
Proof.
  induction ts as [|t ts IH]; intros i h h' r H; cbn in H; [injection H as <- <-; apply grows_refl|].
  destruct (fast_elem C s e t) as [[[v sz]|er]| |] eqn:E; cbn in H; try discriminate.
  - destruct (n <=? i); [discriminate|]. destruct (store _ _ _ _) eqn:Es; cbn in H; try discriminate.
    eapply same_then; [exact (store_grows _ _ _ _ _ Es)|eapply IH; exact H].
  - injection H as <- <-. apply grows_refl.
Qed.
Lemma fast_size_le e : fast_size C e <= M.
Proof. unfold fast_size. destruct e; try lia; try (destruct k as [sg []]; cbn); try (destruct b; cbn); destruct (c_w64 C); cbn; lia. Qed.

(** Elements of the array a step may allocate for. *)
Definition elems (t : token) : Z := match tk_ty t with KArr => Z.of_nat (tk_n t) | _ => 0 end.
Lemma elems_pos t : 0 <= elems t. Proof. unfold elems. destruct (tk_ty t); lia. Qed.

Lemma step_gout x t : nth_error toks (ti x) = Some t -> gout (hp x) 1 (M + M * elems t) (step C O stk s toks x).
Proof.
  intros Et. unfold step. rewrite Et. destruct (fr stk (si x)) as [f|] eqn:Ef; [|exact I].
  pose proof M_pos as Mp. pose proof (elems_pos t) as Np. assert (Pp : 0 <= M * elems t) by nia.
  pose proof (vsize_le _ _ Ef) as Vs.
  assert (J : gout (hp x) 1 (M + M * elems t) (on_json C stk s toks f t x)) by (eapply gout_weak; [apply on_json_g| |]; lia).
  assert (P : gout (hp x) 1 (M + M * elems t) (on_ptr C stk x)) by (eapply gout_weak; [apply on_ptr_g| |]; lia).
  assert (A : gout (hp x) 1 (M + M * elems t) (any_tok C stk s toks t x)) by (eapply gout_weak; [apply any_tok_g| |]; lia).
  assert (Scal : gout (hp x) 1 (M + M * elems t) (match f_ty f, tk_ty t with
          | EJSON, _ => on_json C stk s toks f t x
          | EPtr, KNull => lift (null_tok C EPtr (dst (dy x) (si x)) (hp x)) (fun h =>
                             on_val_end stk toks (St (si x) (S (ti x)) (dy x) h))
          | EPtr, _ => on_ptr C stk x
          | _, _ =>
              lift (scalar_tok C s f t (dst (dy x) (si x)) (hp x)) (fun '(h, r) =>
              match r with
              | Some e => Fail (tk_idx t) e (with_hp h x)
              | None => on_val_end stk toks (St (si x) (S (ti x)) (dy x) h)
              end)
          end)).
  { destruct (f_ty f);
    try (apply gout_lift; intros [h r] Hr; apply scalar_grows in Hr;
         assert (grows (hp x) h 1 (M + M * elems t)) by (eapply grows_weak; [exact Hr| |]; lia);
         destruct r; [cbn; assumption|apply on_val_end_g; cbn; assumption]).
    - exact J.
    - destruct (tk_ty t); try exact P. apply gout_lift. intros h Hr. unfold null_tok in Hr. go; fin. }
  destruct (tk_ty t) eqn:Ty; try exact Scal; clear Scal.
  - unfold arr_tok. cbv zeta.
    assert (Gs : forall i fe p kp a h, fr stk i = Some fe -> grow_slice C (hp x) p (f_size fe) (Z.of_nat (tk_n t)) kp = Ok (a, h) ->
              grows (hp x) h 1 (M + M * elems t)).
    { intros i fe p kp a h Hf Hg. apply size_le in Hf. apply grow_g in Hg. eapply grows_weak; [exact Hg|lia|]. unfold elems in *. rewrite Ty in *. nia. }
    destruct (f_ty f); try exact A; try exact P; try exact J; try (cbn; fin; fail);
      try (unfold fast_slice; cbv zeta);
      try (go; fin; try (eapply Gs; eassumption); fail);
      go; subst;
      repeat match goal with
      | H : (if ?b then _ else _) = (_, _) |- _ => destruct b
      | H : (let '(_, _) := ?p in _) = (_, _) |- _ => destruct p eqn:?
      | H : (_, _) = (_, _) |- _ => injection H as ? ?; subst
      end; repeat gr2; fin;
      try (eapply then_same; [|eapply fast_loop_g; eassumption]; fin).
    all: try match goal with |- Z.max 0 (fast_size C ?e * _) <= _ => pose proof (fast_size_le e); unfold elems in *; rewrite Ty in *; nia end.
  - unfold arr_end_tok. cbv zeta. go; fin.
  - unfold obj_tok. cbv zeta. destruct (f_ty f); try exact A; try exact P; try exact J; try (cbn; fin; fail);
      go; subst; inv_ok; fin;
      try (match goal with H : init_map _ _ _ = Ok _ |- _ => eapply grows_weak; [exact (init_map_g _ _ _ H)| |]; lia end);
      match goal with H : fr stk _ = Some _ |- _ => idtac | _ => idtac end;
      try (match goal with H : fr stk (f_recur f) = Some _ |- _ => apply size_le in H end; lia).
  - unfold obj_end_tok. cbv zeta. go; fin.
  - unfold key_tok. cbv zeta. go; subst; inv_ok; fin;
    try (eapply then_same; [|eapply clear_grows; eassumption]); fin.
Qed.
Lemma step_ptr_gout x f : nth_error stk (si x) = Some f -> f_ty f = EPtr -> gout (hp x) 1 M (step C O stk s toks x).
Proof.
  intros Ef Fp. unfold step. destruct (nth_error toks (ti x)) as [t|]; [|exact I]. pose proof M_pos as Mp. pose proof (on_ptr_g x) as P.
  change (fr stk (si x)) with (nth_error stk (si x)). rewrite Ef.
  unfold arr_tok, obj_tok, key_tok, arr_end_tok, obj_end_tok. cbv zeta. rewrite Fp.
  destruct (tk_ty t); try exact P; try (cbn; fin; fail); go; unfold null_tok in *; fin.
Qed.

Definition pot (k : nat) : Z := total (map elems (skipn k toks)).
Lemma pot_pos k : 0 <= pot k.
Proof. unfold pot. induction (skipn k toks) as [|t l IH]; cbn; [lia|]. pose proof (elems_pos t). unfold total in IH. lia. Qed.
Lemma pot_step k t : nth_error toks k = Some t -> pot k = elems t + pot (S k).
Proof.
  unfold pot. intros H. assert (E : skipn k toks = t :: skipn (S k) toks).
  { revert k H. induction toks as [|u l IH]; intros [|k] H; try discriminate; [injection H as ->; reflexivity|]. apply IH in H. exact H. }
  rewrite E. reflexivity.
Qed.
Lemma pot_mono k m : (k <= m)%nat -> pot m <= pot k.
Proof.
  induction 1 as [|m Hm IH]; [lia|]. destruct (nth_error toks m) as [t|] eqn:E.
  - rewrite (pot_step _ _ E) in IH. pose proof (elems_pos t). lia.
  - apply nth_error_None in E. unfold pot at 1. rewrite skipn_all2 by lia. cbn. apply pot_pos.
Qed.

Hypothesis toks_ok : ends_ok 0 toks.
Notation meas := (measure stk toks).
Lemma run_g fuel : forall x,
  match run C O stk s toks fuel x with
  | RDone y | RFail _ _ y => grows (hp x) (hp y) (meas x) (M * Z.of_nat (meas x) + M * pot (ti x))
  | _ => True
  end.
Proof.
  pose proof M_pos as Mp.
  assert (Z0 : forall x, grows (hp x) (hp x) (meas x) (M * Z.of_nat (meas x) + M * pot (ti x))).
  { intros x. pose proof (pot_pos (ti x)). eapply grows_weak; [apply grows_refl|lia|nia]. }
  induction fuel as [|fuel IH]; intros x; cbn [run]; destruct (ti x <? length toks)%nat eqn:Lt; try exact I; try apply Z0.
  apply Nat.ltb_lt in Lt. destruct (nth_error toks (ti x)) as [t|] eqn:Et; [|apply nth_error_None in Et; lia].
  pose proof (step_gout x t Et) as G. pose proof (pot_step _ _ Et) as Ep. pose proof (pot_pos (S (ti x))) as Pn. pose proof (elems_pos t) as En.
  pose proof (pot_mono (S (ti x))) as Pm.
  destruct (step C O stk s toks x) as [y|k e y| |] eqn:Es; try exact I; cbn [gout] in G.
  - assert (Q : exists z, grows (hp x) (hp y) 1 (M + M * z) /\ z + pot (ti y) <= pot (ti x) /\ (S (meas y) <= meas x)%nat).
    { destruct (step_progress C O stk s toks toks_ok x y Es Lt) as [Hlt|(E1 & E2 & E3 & f & Ef & Fp)].
      - exists (elems t). split; [exact G|]. split; [rewrite Ep; specialize (Pm (ti y) Hlt); lia|].
        unfold measure. assert (length toks - ti x >= S (length toks - ti y))%nat by lia. nia.
      - exists 0. pose proof (step_ptr_gout x f Ef Fp) as G'. rewrite Es in G'. cbn [gout] in G'. split; [eapply grows_weak; [exact G'|lia|lia]|].
        split; [rewrite E1; lia|]. unfold measure. rewrite E1, E2. nia. }
    destruct Q as (z & Gz & Hz & Hm). specialize (IH y).
    assert (K : forall u, grows (hp y) (hp u) (meas y) (M * Z.of_nat (meas y) + M * pot (ti y)) ->
                grows (hp x) (hp u) (meas x) (M * Z.of_nat (meas x) + M * pot (ti x))).
    { intros u Gu. eapply grows_weak; [eapply grows_trans; [exact Gz|exact Gu]|lia|].
      assert (M * (z + pot (ti y)) <= M * pot (ti x)) by nia. assert (M * (Z.of_nat (meas y) + 1) <= M * Z.of_nat (meas x)) by nia. nia. }
    destruct (run C O stk s toks fuel y); try exact I; apply K, IH.
  - eapply grows_weak; [exact G| |].
    + unfold measure. nia.
    + assert (1 <= meas x)%nat by (unfold measure; nia). rewrite Ep. nia.
Qed.
End Alloc.

(** ** Tokens and bytes *)
Lemma ws_le s i j : ws s i j -> (i <= j)%nat.
Proof. intros (w & _ & -> & _). lia. Qed.
Lemma int_ne r : json_int r -> (1 <= length r)%nat.
Proof. intros H. destruct r; [|cbn; lia]. inversion H as [? (_ & ? & ? & E & _)|]; discriminate. Qed.
Lemma nonint_ne r : json_nonint r -> (1 <= length r)%nat.
Proof. intros H. inversion H; subst; rewrite ?app_length; match goal with H : json_int _ |- _ => apply int_ne in H end; lia. Qed.
Lemma ntok_le s : (forall i v j, value s i v j -> (i + ntok v <= j)%nat) /\ (forall i l j, elements s i l j -> (i + ntoks l <= j)%nat) /\
  (forall i l j, members s i l j -> (i + ntokm l <= j)%nat) /\ (forall i m j, member s i m j -> (i + 1 + ntok (snd m) <= j)%nat).
Proof.
  apply json_mutind;
    intros; repeat match goal with H : ws _ _ _ |- _ => apply ws_le in H end;
    repeat match goal with H : json_int _ |- _ => apply int_ne in H | H : json_nonint _ |- _ => apply nonint_ne in H end;
    rewrite ?ntok_arr, ?ntok_obj; cbn [ntok ntoks ntokm snd fst] in *; try lia.
Qed.
Lemma ntok_length s v : json_text s v -> (ntok v <= length s)%nat.
Proof. intros (i & j & A & B & D). apply ws_le in A, D. apply ntok_le in B. lia. Qed.
Lemma elems_flat v : forall k, total (map elems (flat k v)) < Z.of_nat (ntok v).
Proof.
  induction v using jv_ind'; intros k; try (cbn; try destruct b; cbn; lia).
  - rewrite flat_arr, ntok_arr. cbn [map total fold_right]. rewrite map_app. fold (total (map elems (flats (S k) l) ++ map elems [Tok KArrEnd j k 0])).
    rewrite total_app. cbn [elems tk_ty tk_n map total fold_right].
    assert (Q : forall m, total (map elems (flats m l)) + Z.of_nat (length l) <= Z.of_nat (ntoks l)).
    { clear k. induction H as [|v l Hv Hl IH]; intros m; cbn; [lia|]. rewrite map_app, total_app. specialize (IH (m + ntok v)%nat). specialize (Hv m). lia. }
    specialize (Q (S k)). lia.
  - rewrite flat_obj, ntok_obj. cbn [map total fold_right]. rewrite map_app. fold (total (map elems (flatm (S k) l) ++ map elems [Tok KObjEnd j k 0])).
    rewrite total_app. cbn [elems tk_ty tk_n map total fold_right].
    assert (Q : forall m, total (map elems (flatm m l)) <= Z.of_nat (ntokm l)).
    { clear k. induction H as [|v l Hv Hl IH]; intros m; [cbn; lia|]. cbn [flatm map total fold_right ntokm]. rewrite map_app.
      fold (total (map elems (flat (S m) (snd v)) ++ map elems (flatm (S m + ntok (snd v)) l))). rewrite total_app. cbn [elems tk_ty]. specialize (IH (S m + ntok (snd v))%nat). specialize (Hv (S m)). lia. }
    specialize (Q (S k)). lia.
Qed.

(** ** C49 *)
(** Size of the largest type of the frames (at least 16, the size of a string). *)
Definition largest (stk : list frame) : Z := fold_right (fun f m => Z.max (Z.max (f_size f) (f_vsize f)) m) 16 stk.
Lemma largest_16 stk : 16 <= largest stk.
Proof. unfold largest. induction stk as [|f l IH]; cbn; lia. Qed.
Lemma largest_le stk i f : nth_error stk i = Some f -> f_size f <= largest stk /\ f_vsize f <= largest stk.
Proof.
  revert i. induction stk as [|g l IH]; intros [|i] H; try discriminate; cbn.
  - injection H as ->. lia.
  - apply IH in H. unfold largest in *. lia.
Qed.
(** A call allocates at most one block per iteration of the loop; for a decoder with [F]
    frames these are at most [|s| * (F + 1) + F] blocks, and their sizes add up to at most
    the size of the largest frame type for each of these and for each byte of the input:
    for a given type, memory linear in the length of the input, whatever the input is.
    (Strings and `any` trees are values of the model, not blocks: see C48.) *)
Theorem C49_allocation_linear C O stk D s v t h i e D' h' :
  json_text s v ->
  Decode C O stk D s (TOk (flat 0 v)) t h = Ret i e D' h' ->
  let n := (length s * S (length stk) + length stk)%nat in
  (new_blocks h h' <= n)%nat /\ new_bytes h h' <= largest stk * Z.of_nat (n + length s).
Proof.
  intros J H n. pose proof (ntok_length s v J) as Ln. pose proof (largest_16 stk) as L16. unfold Decode in H. destruct t as [a|].
  2:{ injection H as <- <- <- <-. unfold new_blocks, new_bytes, new_blocks. rewrite Nat.sub_diag. cbn. split; [lia|nia]. }
  set (x0 := St 0 0 (upd_d D 0 (set_dest (Some a))) h) in *.
  pose proof (run_g C O stk s (flat 0 v) (largest stk) L16 (largest_le stk) (flat_ends v 0) (run_fuel stk (flat 0 v)) x0) as G.
  assert (K : forall g, grows (hp x0) g (measure stk (flat 0 v) x0) (largest stk * Z.of_nat (measure stk (flat 0 v) x0) + largest stk * pot (flat 0 v) (ti x0)) ->
    (new_blocks h g <= n)%nat /\ new_bytes h g <= largest stk * Z.of_nat (n + length s)).
  { intros g [G1 G2 G3]. change (hp x0) with h in *. unfold measure in *. cbn [ti si x0] in *. rewrite flat_length in *.
    pose proof (elems_flat v 0) as Ef. unfold pot in G3. cbn [skipn] in G3. unfold new_blocks at 1. split; [nia|]. unfold n.
    set (q := ((ntok v - 0) * S (length stk) + (length stk - 0))%nat) in *. assert (q <= n)%nat by (unfold q, n; nia).
    assert (largest stk * Z.of_nat q <= largest stk * Z.of_nat n) by nia.
    assert (largest stk * total (map elems (flat 0 v)) <= largest stk * Z.of_nat (length s)) by nia. fold n. nia. }
  destruct (run _ _ _ _ _ _ _) as [y|k er y| | |]; try discriminate.
  - destruct (d_dest (dy y 0%nat)); try discriminate. destruct (_ && _).
    + injection H as <- <- <- <-. apply K, G.
    + destruct (copy _ _ _ _) eqn:E; try discriminate. injection H as <- <- <- <-. apply K. eapply then_same; [exact G|eapply copy_grows, E].
  - injection H as <- <- <- <-. apply K, G.
Qed.

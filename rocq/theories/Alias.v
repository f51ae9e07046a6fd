(** Where the strings in memory come from: an invariant of every step, for every frame
    list, document and memory.  [good] is any predicate on strings that holds for what
    Decode makes of parts of the input. *)
From Verif Require Import Base NumSpec Unescape Lookup Types Token FloatLit Heap Machine General.
Open Scope Z_scope.

Section Strings.
Variable good : gstr -> Prop.
Fixpoint all_any (a : gany) : Prop :=
  match a with
  | AStr g => good g
  | AArr l => (fix go l := match l with [] => True | x :: r => all_any x /\ go r end) l
  | AObj l => (fix go l := match l with [] => True | x :: r => (good (fst x) /\ all_any (snd x)) /\ go r end) l
  | _ => True
  end.
Definition all_cv (v : cv) : Prop :=
  match v with
  | CStr g => good g
  | CAny a => all_any a
  | CMSS l => Forall (fun x => good (fst x) /\ good (snd x)) l
  | _ => True
  end.
Definition all_key (k : mkey) : Prop := match k with MStr g => good g | _ => True end.
Definition all_blk (b : block) : Prop :=
  match b with
  | BFree => True
  | BMem _ cells => forall o, all_cv (cells o)
  | BMap l => Forall (fun x => all_key (fst x)) l
  end.
(** Every string in memory, every string inside an `any` or a map[string]string, and
    every map key that is a string, is [good]. *)
Definition all_heap (h : heap) : Prop := forall b, all_blk (blk h b).

Lemma all_arr l : all_any (AArr l) <-> Forall all_any l.
Proof. cbn. induction l as [|x l IH]; [split; [constructor|trivial]|]. rewrite Forall_cons_iff. tauto. Qed.
Lemma all_obj l : all_any (AObj l) <-> Forall (fun x => good (fst x) /\ all_any (snd x)) l.
Proof. cbn. induction l as [|x l IH]; [split; [constructor|trivial]|]. rewrite Forall_cons_iff. tauto. Qed.

Lemma own_set h b k : all_heap h -> all_blk k -> all_heap (set_blk h b k).
Proof. intros H Hk x. cbn. destruct (Nat.eqb x b); [exact Hk|apply H]. Qed.
Lemma own_store h p sz v h' : store h p sz v = Ok h' -> all_heap h -> all_cv v -> all_heap h'.
Proof.
  unfold store. destruct p as [[b o]|]; [|discriminate]. intros H Hh Hv.
  specialize (Hh b) as Hb. destruct (blk h b); try discriminate.
  destruct (_ && _ && _); [|discriminate]. injection H as <-. apply own_set; [exact Hh|].
  intros x. unfold put_cell. cbn in Hb. destruct (x =? o); [exact Hv|]. destruct (_ && _); [exact I|apply Hb].
Qed.
Lemma own_alloc h k b h' : alloc_blk h k = (b, h') -> all_heap h -> all_blk k -> all_heap h'.
Proof. unfold alloc_blk. intros [= <- <-] Hh Hk x. cbn. destruct (Nat.eqb x (nxt h)); [exact Hk|apply Hh]. Qed.
Lemma own_malloc h n a h' : malloc h n = (a, h') -> all_heap h -> all_heap h'.
Proof.
  unfold malloc. destruct (n <=? 0); [intros [= <- <-]; trivial|].
  destruct (alloc_blk h _) as [b h1] eqn:E. intros [= <- <-] H. eapply own_alloc; eauto. intros o. exact I.
Qed.
Lemma own_makemap h b h' : makemap h = (b, h') -> all_heap h -> all_heap h'.
Proof. unfold makemap. intros H Hh. eapply own_alloc; eauto. constructor. Qed.
Lemma own_clear h p n h' : clear h p n = Ok h' -> all_heap h -> all_heap h'.
Proof.
  unfold clear. destruct (n <=? 0); [intros [= <-]; trivial|]. destruct p as [[b o]|]; [|discriminate].
  intros H Hh. specialize (Hh b) as Hb. destruct (blk h b); try discriminate.
  destruct (_ && _); [|discriminate]. injection H as <-. apply own_set; [exact Hh|].
  intros x. destruct (_ && _); [exact I|apply Hb].
Qed.
Lemma own_copy h p q n h' : copy h p q n = Ok h' -> all_heap h -> all_heap h'.
Proof.
  unfold copy. destruct (n <=? 0); [intros [= <-]; trivial|]. destruct p as [[b o]|]; [|discriminate].
  destruct q as [[b' o']|]; [|discriminate].
  intros H Hh. specialize (Hh b) as Hb. specialize (Hh b') as Hb'. destruct (blk h b), (blk h b'); try discriminate.
  destruct (_ && _ && _ && _); [|discriminate]. injection H as <-. apply own_set; [exact Hh|].
  intros x. destruct (_ && _); [apply Hb'|apply Hb].
Qed.
Lemma own_mapassign h m k n a h' : mapassign h m k n = Ok (a, h') -> all_heap h -> all_key k -> all_heap h'.
Proof.
  unfold mapassign. destruct m as [b|]; [|discriminate]. intros H Hh Hk. specialize (Hh b) as Hb.
  destruct (blk h b) as [| |l]; try discriminate. destruct (find_key l k); [injection H as <- <-; exact Hh|].
  destruct (alloc_blk h _) as [vb h1] eqn:E. injection H as <- <-.
  apply own_set; [eapply own_alloc; eauto; intros o; exact I|].
  cbn in *. apply Forall_app. split; [exact Hb|]. constructor; [exact Hk|constructor].
Qed.
Lemma own_assoc_put {V} (P : V -> Prop) l k v : good k -> P v ->
  Forall (fun x => good (fst x) /\ P (snd x)) l -> Forall (fun x => good (fst x) /\ P (snd x)) (assoc_put l k v).
Proof.
  intros Hk Hv. induction l as [|[k' v'] l IH]; cbn; intros H; [constructor; auto|].
  inversion H as [|? ? [H1 H2] H3]; subst. destruct (bytes_eqb _ _); constructor; cbn in *; auto.
Qed.

Variables (C : cfg) (O : opts) (stk : list frame) (s : bytes) (toks : list token).
(** [b] is the part of the input that starts at byte [i]. *)
Definition part (i : nat) (b : bytes) : Prop := slice s i (i + length b) = Some b.
Hypothesis good_nil : good (SOwn []).
Hypothesis good_part : forall i b, part i b -> good (mkstr C i b).
Hypothesis good_unesc : forall i b k r, part i b -> index_bs b = Some k -> Unescape.Valid b = UOk r -> good (SOwn r).

Lemma slice_part a z b : slice s a z = Some b -> part a b.
Proof.
  unfold part, slice. destruct (_ && _)%bool eqn:E; [|discriminate]. apply andb_true_iff in E as [E1 E2]. apply Nat.leb_le in E1, E2.
  intros [= <-]. assert (L : length (firstn (z - a) (skipn a s)) = (z - a)%nat) by (rewrite firstn_length, skipn_length; lia).
  rewrite L. replace (a + (z - a))%nat with z by lia. destruct (Nat.leb_spec a z); [|lia]. destruct (Nat.leb_spec z (length s)); [reflexivity|lia].
Qed.
Lemma raw_part t b : raw_of s t = Ok b -> part (tk_idx t) b.
Proof. unfold raw_of, sub. destruct (slice s _ _) eqn:E; [|discriminate]. intros [= <-]. eapply slice_part, E. Qed.
Lemma body_part t b : body_of s t = Ok b -> part (tk_idx t + 1) b.
Proof. unfold body_of, sub. destruct (slice s _ _) eqn:E; [|discriminate]. intros [= <-]. eapply slice_part, E. Qed.
Lemma inner_part i tv v : part (i + 1) tv -> quoted_inner tv = Some v -> part (i + 3) v.
Proof.
  unfold quoted_inner. destruct (length tv <? 4)%nat eqn:L4; cbn [orb]; [discriminate|]. destruct (_ || _); [discriminate|]. apply Nat.ltb_ge in L4.
  destruct (index_bs _); [discriminate|]. intros P Ev. assert (Ev' : v = firstn (length tv - 4) (skipn 2 tv)) by congruence. clear Ev. subst v. unfold part, slice in P |- *.
  destruct (_ && _)%bool eqn:E; [|discriminate]. apply andb_true_iff in E as [E1 E2]. apply Nat.leb_le in E1, E2. injection P as P.
  assert (L : length (firstn (length tv - 4) (skipn 2 tv)) = (length tv - 4)%nat) by (rewrite firstn_length, skipn_length; lia).
  rewrite L. destruct (Nat.leb_spec (i + 3) (i + 3 + (length tv - 4))); [|lia]. destruct (Nat.leb_spec (i + 3 + (length tv - 4)) (length s)); [cbn [andb]|lia].
  f_equal. rewrite <- P at 3. replace (i + 1 + length tv - (i + 1))%nat with (length tv) by lia.
  rewrite skipn_firstn_comm, firstn_firstn, skipn_skipn. replace (2 + (i + 1))%nat with (i + 3)%nat by lia. f_equal. lia.
Qed.
Lemma own_unesc i b g : part i b -> unesc_str C i b = Ok g -> good g.
Proof.
  intros P. unfold unesc_str. destruct (Unescape.Valid b) eqn:V; try discriminate. destruct (index_bs b) eqn:E; intros [= <-]; [|apply good_part, P].
  eapply good_unesc; eauto.
Qed.

Definition own_sres (r : sres) : Prop := forall h e, r = Ok (h, e) -> all_heap h.

Ltac inv_ok :=
  repeat match goal with
  | H : Ok _ = Ok _ |- _ => injection H as ?; subst
  | H : inl _ = inl _ |- _ => injection H as ?; subst
  | H : (_, _) = (_, _) |- _ => injection H as ? ?; subst
  | H : inr _ = inl _ |- _ => discriminate
  | H : serr _ _ = Ok _ |- _ => unfold serr in H
  | H : sok _ = Ok _ |- _ => unfold sok in H
  | H : rbind ?r _ = Ok _ |- _ => destruct r eqn:?; cbn [rbind] in H; try discriminate
  | H : (let '(_, _) := ?p in _) = Ok _ |- _ => destruct p eqn:?
  | H : match ?d with _ => _ end = Ok _ |- _ => destruct d eqn:?; try discriminate
  | H : match ?d with _ => _ end = inl _ |- _ => destruct d eqn:?; try discriminate
  end.
Ltac own :=
  repeat match goal with
  | H : store _ _ _ _ = Ok ?h |- all_heap ?h => eapply own_store; [exact H| |]
  | H : malloc _ _ = (_, ?h) |- all_heap ?h => eapply own_malloc; [exact H|]
  | H : makemap _ = (_, ?h) |- all_heap ?h => eapply own_makemap; [exact H|]
  | H : clear _ _ _ = Ok ?h |- all_heap ?h => eapply own_clear; [exact H|]
  | H : copy _ _ _ _ = Ok ?h |- all_heap ?h => eapply own_copy; [exact H|]
  | H : unesc_str _ _ _ = Ok ?g |- good ?g => eapply own_unesc; [|exact H]
  | H : raw_of _ ?t = Ok ?b |- part (tk_idx ?t) ?b => exact (raw_part _ _ H)
  | H : body_of _ ?t = Ok ?b |- part (tk_idx ?t + 1) ?b => exact (body_part _ _ H)
  | H : quoted_inner _ = Some ?v |- part (_ + 3) ?v => eapply inner_part; [|exact H]
  | |- all_cv _ => cbn [all_cv all_any]
  | |- good (mkstr _ _ _) => apply good_part
  | |- good (SOwn []) => exact good_nil
  end; try assumption; try exact I.

Lemma scalar_own f t p h : all_heap h -> own_sres (scalar_tok C s f t p h).
Proof.
  intros Hh h' e H. unfold scalar_tok in H.
  destruct (tk_ty t);
    unfold bool_tok, int_tok, num_tok, str_tok, null_tok, int_of_str, int_of_tok, store_user in H;
    inv_ok; own.
Qed.

Lemma any_own fuel :
  (forall ts v r, decodeAny C s fuel ts = DOk v r -> all_any v) /\
  (forall acc ts v r, Forall all_any acc -> anyArr C s fuel acc ts = DOk v r -> all_any v) /\
  (forall acc ts v r, Forall (fun x => good (fst x) /\ all_any (snd x)) acc -> anyObj C s fuel acc ts = DOk v r -> all_any v).
Proof.
  induction fuel as [|fuel (IH1 & IH2 & IH3)]; [repeat split; intros; discriminate|].
  repeat split; intros.
  - rewrite decodeAny_S in H. destruct ts as [|t ts]; [discriminate|].
    destruct (tk_ty t); try discriminate; try (injection H as <- <-; exact I);
      try (destruct (raw_of s t); try discriminate; destruct (parse_float _ _ _); try discriminate; injection H as <- <-; exact I).
    + destruct (body_of s t) eqn:Eb; try discriminate. destruct (unesc_str _ _ _) eqn:E; try discriminate.
      injection H as <- <-. cbn. eapply own_unesc; [eapply body_part, Eb|exact E].
    + eapply IH2; [|exact H]. constructor.
    + destruct (Nat.eqb _ _); [destruct ts; try discriminate; injection H as <- <-; exact I|].
      eapply IH3; [|exact H]. constructor.
  - rewrite anyArr_S in H0. destruct ts as [|t ts]; [discriminate|].
    assert (G : match decodeAny C s fuel (t :: ts) with DOk v rest => anyArr C s fuel (acc ++ [v]) rest | e => e end = DOk v r -> all_any v).
    { clear H0. intros H0. destruct (decodeAny C s fuel (t :: ts)) eqn:E; try discriminate.
      eapply IH2; [|exact H0]. apply Forall_app. split; [exact H|]. constructor; [eauto|constructor]. }
    destruct (tk_ty t); auto. injection H0 as <- <-. apply all_arr, H.
  - rewrite anyObj_S in H0. destruct ts as [|t ts]; [discriminate|].
    assert (G : match body_of s t with Ok kb => match decodeAny C s fuel ts with
        DOk v rest => match unesc_str C (tk_idx t + 1) kb with Ok g => anyObj C s fuel (assoc_put acc g v) rest | _ => DPanic end | e => e end | _ => DPanic end = DOk v r -> all_any v).
    { clear H0. intros H0. destruct (body_of s t) eqn:Eb; try discriminate.
      destruct (decodeAny C s fuel ts) eqn:E; try discriminate.
      destruct (unesc_str C _ _) eqn:Eu; try discriminate.
      eapply IH3; [|exact H0]. apply own_assoc_put; [eapply own_unesc; [eapply body_part, Eb|exact Eu]|eauto|exact H]. }
    destruct (tk_ty t); auto. injection H0 as <- <-. apply all_obj, H.
Qed.

Definition own_out (o : out) : Prop :=
  match o with Next x => all_heap (hp x) | Fail _ _ x => all_heap (hp x) | _ => True end.

Lemma own_lift {A} (r : res A) k : (forall a, r = Ok a -> own_out (k a)) -> own_out (lift r k).
Proof. destruct r; cbn; auto. Qed.

Lemma on_val_end_own x : all_heap (hp x) -> own_out (on_val_end stk toks x).
Proof.
  intros H. unfold on_val_end. cbv zeta.
  repeat match goal with |- own_out (match ?d with _ => _ end) => destruct d end; cbn; auto.
Qed.
Lemma on_recur_own x : all_heap (hp x) -> own_out (on_recur_obj_end stk toks x).
Proof.
  intros H. unfold on_recur_obj_end.
  repeat match goal with |- own_out (match ?d with _ => _ end) => destruct d end; cbn; auto.
  apply on_val_end_own, H.
Qed.
Ltac go :=
  repeat match goal with
  | |- own_out (lift _ _) => apply own_lift; intros
  | |- own_out (on_val_end _ _ _) => apply on_val_end_own; cbn [hp]
  | |- own_out (on_recur_obj_end _ _ _) => apply on_recur_own; cbn [hp]
  | |- own_out (let '(_, _) := ?d in _) => destruct d eqn:?
  | |- own_out (match ?d with _ => _ end) => destruct d eqn:?
  | |- own_out _ => cbn [own_out hp goto_si goto_ti with_dy with_hp]
  end.

Lemma on_ptr_own x : all_heap (hp x) -> own_out (on_ptr C stk x).
Proof. intros H. unfold on_ptr. cbv zeta. go; own. Qed.
Lemma on_json_own f t x : all_heap (hp x) -> own_out (on_json C stk s toks f t x).
Proof.
  intros H. unfold on_json. cbv zeta. apply own_lift. intros [raw ti'] _. go; unfold store_user in *; inv_ok; own.
Qed.
Lemma any_tok_own t x : all_heap (hp x) -> own_out (any_tok C stk s toks t x).
Proof.
  intros H. unfold any_tok. destruct (decodeAny _ _ _ _) eqn:E; go; own. eapply (proj1 (any_own _)); eauto.
Qed.
Lemma grow_own h p e n k a h' : grow_slice C h p e n k = Ok (a, h') -> all_heap h -> all_heap h'.
Proof. intros H Hh. unfold grow_slice in H. inv_ok; own. Qed.
Lemma init_map_own h p h' : init_map C h p = Ok h' -> all_heap h -> all_heap h'.
Proof. intros H Hh. unfold init_map in H. inv_ok; own. Qed.
Lemma fast_loop_own e a n : forall ts i h h' r, fast_loop C s e a n i ts h = Ok (h', r) -> all_heap h -> all_heap h'.
Proof.
  induction ts as [|t ts IH]; intros i h h' r H Hh; cbn in H; [injection H as <- <-; exact Hh|].
  destruct (fast_elem C s e t) as [[[v sz]|er]| |] eqn:E; cbn in H; try discriminate.
  - destruct (n <=? i); [discriminate|]. destruct (store _ _ _ _) eqn:Es; cbn in H; try discriminate.
    eapply IH; [exact H|]. eapply own_store; [exact Es|exact Hh|].
    unfold fast_elem, int_of_tok in E. destruct e; try discriminate; destruct (tk_ty t); try discriminate; inv_ok; own.
  - injection H as <- <-. exact Hh.
Qed.
Lemma mss_own n : forall ts acc m, (length ts <= n)%nat -> mss_loop C s ts acc = Ok (inl m) ->
  Forall (fun x => good (fst x) /\ good (snd x)) acc -> Forall (fun x => good (fst x) /\ good (snd x)) m.
Proof.
  induction n as [|n IH]; intros ts acc m Hn H Ha; destruct ts as [|k [|v ts]]; cbn in *; try lia;
    try (injection H as <-; exact Ha).
  destruct (tk_ty v); try discriminate;
    repeat match type of H with rbind ?r _ = _ => destruct r eqn:?; cbn in H; try discriminate end;
    (eapply IH; [|exact H|]; [lia|]; apply own_assoc_put; own).
Qed.
Lemma map_key_own f kb i k : part (i + 1) kb -> map_key C f kb i = Ok (inl (Some k)) -> all_key k.
Proof.
  intros P H. unfold map_key in H. inv_ok; repeat match goal with
  | H : match ?d with _ => _ end = inl _ |- _ => destruct d; try discriminate end; inv_ok; cbn; try exact I;
  repeat match goal with H : Some _ = Some _ |- _ => injection H as ?; subst end; cbn; try exact I.
  eapply own_unesc; eauto.
Qed.

Lemma step_own x : all_heap (hp x) -> own_out (step C O stk s toks x).
Proof.
  intros H. unfold step. destruct (nth_error toks (ti x)) as [t|]; [|exact I].
  destruct (fr stk (si x)) as [f|]; [|exact I].
  assert (Scal : own_out (match f_ty f, tk_ty t with
          | EJSON, _ => on_json C stk s toks f t x
          | EPtr, KNull => lift (null_tok C EPtr (dst (dy x) (si x)) (hp x)) (fun h =>
                             on_val_end stk toks (St (si x) (S (ti x)) (dy x) h))
          | EPtr, _ => on_ptr C stk x
          | _, _ =>
              lift (scalar_tok C s f t (dst (dy x) (si x)) (hp x)) (fun '(h, r) =>
              match r with
              | Some e => Fail (tk_idx t) e (with_hp h x)
              | None => on_val_end stk toks (St (si x) (S (ti x)) (dy x) h)
              end)
          end)).
  { destruct (f_ty f);
    try (apply own_lift; intros [h r] Hr; assert (all_heap h) by (eapply scalar_own; eauto);
         destruct r; [cbn; assumption|apply on_val_end_own; cbn; assumption]).
    - apply on_json_own, H.
    - destruct (tk_ty t); try (apply on_ptr_own, H). apply own_lift. intros h Hr. unfold null_tok in Hr. go; own. }
  destruct (tk_ty t); try exact Scal; clear Scal.
  - unfold arr_tok. cbv zeta. destruct (f_ty f); try (cbn; exact H);
      try (apply any_tok_own, H); try (apply on_ptr_own, H); try (apply on_json_own, H);
      try (unfold fast_slice; cbv zeta);
      try (go; own; try (eapply grow_own; eauto); fail);
      go; subst;
      repeat match goal with
      | H : (if ?b then _ else _) = (_, _) |- _ => destruct b
      | H : (let '(_, _) := ?p in _) = (_, _) |- _ => destruct p eqn:?
      | H : (_, _) = (_, _) |- _ => injection H as ? ?; subst
      end; own;
      try (eapply fast_loop_own; [eassumption|]; own).
  - unfold arr_end_tok. cbv zeta. go; auto.
  - unfold obj_tok. cbv zeta. destruct (f_ty f); try (cbn; exact H);
      try (apply any_tok_own, H); try (apply on_ptr_own, H); try (apply on_json_own, H);
      go; subst; inv_ok; own; try (eapply init_map_own; eauto; fail); auto.
    eapply (mss_own _ _ [] _ (Nat.le_refl _)); [eassumption|constructor].
  - unfold obj_end_tok. cbv zeta. go; auto.
  - unfold key_tok. cbv zeta. go; auto; subst; inv_ok; try (eapply own_clear; [eassumption|]); try assumption;
      try (eapply own_mapassign; [eassumption|assumption|]; eapply map_key_own; [eapply body_part|]; eassumption).
Qed.

Lemma run_own fuel : forall x, all_heap (hp x) ->
  match run C O stk s toks fuel x with RDone y | RFail _ _ y => all_heap (hp y) | _ => True end.
Proof.
  induction fuel as [|fuel IH]; intros x H; cbn [run]; destruct (ti x <? length toks)%nat; try exact I; try exact H.
  pose proof (step_own x H) as S. destruct (step C O stk s toks x); cbn in S; try exact I; [apply IH, S|exact S].
Qed.
End Strings.

(** A weaker predicate. *)
Lemma all_any_mono (p q : gstr -> Prop) : (forall g, p g -> q g) -> forall a, all_any p a -> all_any q a.
Proof.
  intros M. fix IH 1. intros [| | |g|l|l]; cbn; try (exact (fun x => x)).
  - apply M.
  - induction l as [|x l IL]; [exact (fun x => x)|]. intros [A B]. split; [apply IH, A|apply IL, B].
  - induction l as [|[k x] l IL]; [exact (fun x => x)|]. intros [[A A'] B]. cbn in *. split; [split; [apply M, A|apply IH, A']|apply IL, B].
Qed.
Lemma all_heap_mono (p q : gstr -> Prop) h : (forall g, p g -> q g) -> all_heap p h -> all_heap q h.
Proof.
  intros M H b. specialize (H b). unfold all_blk in *. destruct (blk h b); [exact I| |].
  - intros o. specialize (H o). destruct (cells o); cbn in *; auto; [eapply all_any_mono; eauto|].
    eapply Forall_impl; [|exact H]. intros x [A B]; split; auto.
  - eapply Forall_impl; [|exact H]. intros [k x] A. destruct k; cbn in *; auto.
Qed.

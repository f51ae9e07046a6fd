(** Properties of [Decode] that hold for every frame list (every destination type,
    recursive or not), every decoder state, every memory and every document:
    termination and the position of errors. *)
From Verif Require Import Base NumSpec Lookup Types Token FloatLit Heap Machine.
Open Scope nat_scope.

(** ** Facts about the token stream of a document *)

(** The end index stored in an opening token lies behind it. *)
Definition ends_ok (k : nat) (ts : list token) : Prop :=
  forall m t, nth_error ts m = Some t -> tk_ty t = KArr \/ tk_ty t = KObj -> k + m < tk_end t.

Lemma ends_ok_app k a b : ends_ok k a -> ends_ok (k + length a) b -> ends_ok k (a ++ b).
Proof.
  intros Ha Hb m t Hm Ht. destruct (Nat.lt_ge_cases m (length a)).
  - rewrite nth_error_app1 in Hm by lia. eauto.
  - rewrite nth_error_app2 in Hm by lia. specialize (Hb _ _ Hm Ht). lia.
Qed.
Lemma ends_ok_one k t : (tk_ty t = KArr \/ tk_ty t = KObj -> k < tk_end t) -> ends_ok k [t].
Proof. intros H [|m] u; cbn; [intros [= <-]; rewrite Nat.add_0_r; exact H|destruct m; discriminate]. Qed.
Lemma ends_ok_cons k t l : (tk_ty t = KArr \/ tk_ty t = KObj -> k < tk_end t) -> ends_ok (S k) l -> ends_ok k (t :: l).
Proof.
  intros H Hl. apply (ends_ok_app k [t] l); [apply ends_ok_one, H|]. cbn. rewrite Nat.add_1_r. exact Hl.
Qed.

Lemma flat_ends v : forall k, ends_ok k (flat k v).
Proof.
  induction v using jv_ind'; intros k; try (apply ends_ok_one; cbn; intros [|]; try destruct b; discriminate).
  - rewrite flat_arr. apply ends_ok_cons; [cbn; lia|]. apply ends_ok_app.
    + generalize (S k). induction H as [|x l Hx Hl IH]; intros m; cbn [flats].
      * intros [|?]; discriminate.
      * apply ends_ok_app; [apply Hx|]. rewrite flat_length. apply IH.
    + apply ends_ok_one. intros [|]; discriminate.
  - rewrite flat_obj. apply ends_ok_cons; [cbn; lia|]. apply ends_ok_app.
    + generalize (S k). induction H as [|x l Hx Hl IH]; intros m; cbn [flatm].
      * intros [|?]; discriminate.
      * apply ends_ok_cons; [intros [|]; discriminate|].
        apply ends_ok_app; [apply Hx|]. rewrite flat_length. apply IH.
    + apply ends_ok_one. intros [|]; discriminate.
Qed.

(** Byte positions of the values and keys of a document. *)
Fixpoint positions (v : jv) : list nat :=
  match v with
  | JNull i | JBool i _ | JInt i _ | JNum i _ | JStr i _ => [i]
  | JArr i _ l => i :: flat_map positions l
  | JObj i _ l => i :: flat_map (fun m => fst (fst m) :: positions (snd m)) l
  end.

Definition end_tok (t : token) : bool := match tk_ty t with KArrEnd | KObjEnd => true | _ => false end.

Lemma flat_positions v : forall k t, In t (flat k v) -> end_tok t = false -> In (tk_idx t) (positions v).
Proof.
  induction v using jv_ind'; intros k t Hin Ht;
    try (destruct Hin as [<-|[]]; left; reflexivity).
  - rewrite flat_arr in Hin. destruct Hin as [<-|Hin]; [left; reflexivity|].
    apply in_app_or in Hin as [Hin|[<-|[]]]; [|discriminate]. right. cbn.
    revert Hin. generalize (S k). induction H as [|x l Hx Hl IH]; intros m; cbn; [easy|].
    intros Hin. apply in_or_app. apply in_app_or in Hin as [Hin|Hin]; [left; eapply Hx; eauto|right; eauto].
  - rewrite flat_obj in Hin. destruct Hin as [<-|Hin]; [left; reflexivity|].
    apply in_app_or in Hin as [Hin|[<-|[]]]; [|discriminate]. right. cbn.
    revert Hin. generalize (S k). induction H as [|x l Hx Hl IH]; intros m; cbn [flatm flat_map]; [easy|].
    intros [<-|Hin]; [left; reflexivity|]. right. apply in_or_app.
    apply in_app_or in Hin as [Hin|Hin]; [left; eapply Hx; eauto|right; eauto].
Qed.

(** Every opening token is the start of the stream of a subtree. *)
Lemma flat_sub v : forall k m t, nth_error (flat k v) m = Some t -> tk_ty t = KArr \/ tk_ty t = KObj ->
  exists u rest, skipn m (flat k v) = flat (k + m) u ++ rest /\ incl (positions u) (positions v).
Proof.
  induction v using jv_ind'; intros k m t Hm Ht;
    try (destruct m as [|[|]]; cbn in Hm; try discriminate; injection Hm as <-;
         destruct Ht as [Ht|Ht]; try destruct b; discriminate).
  - destruct m as [|m].
    { exists (JArr i j l), []. rewrite Nat.add_0_r, app_nil_r. split; [reflexivity|apply incl_refl]. }
    rewrite flat_arr in *. cbn [nth_error skipn] in *. cbn [positions].
    assert (G : forall k m, nth_error (flats k l ++ [Tok KArrEnd j (Nat.pred k) 0]) m = Some t ->
      exists u rest, skipn m (flats k l ++ [Tok KArrEnd j (Nat.pred k) 0]) = flat (k + m) u ++ rest
                     /\ incl (positions u) (flat_map positions l)).
    { clear Hm m k. intros k. remember (Tok KArrEnd j (Nat.pred k) 0) as te eqn:Q. assert (Hte : tk_ty te = KArrEnd) by (subst; reflexivity). clear Q.
      revert k te Hte. induction H as [|x l Hx Hl IH]; intros k te Hte m Hm; cbn [flats flat_map app] in *.
      - destruct m as [|[|]]; cbn in Hm; try discriminate. injection Hm as Hm. rewrite <- Hm in Ht. rewrite Hte in Ht. cbn in Ht. destruct Ht; discriminate.
      - rewrite <- app_assoc in *. destruct (Nat.lt_ge_cases m (ntok x)) as [L|L].
        + rewrite nth_error_app1 in Hm by (rewrite flat_length; lia).
          destruct (Hx _ _ _ Hm Ht) as (u & rest & E & I). exists u, (rest ++ flats (k + ntok x) l ++ [te]).
          rewrite skipn_app, E, flat_length. replace (m - ntok x) with 0 by lia. cbn [skipn].
          rewrite <- app_assoc. split; [reflexivity|]. apply incl_appl, I.
        + rewrite nth_error_app2 in Hm by (rewrite flat_length; lia). rewrite flat_length in Hm.
          destruct (IH (k + ntok x) te Hte _ Hm) as (u & rest & E & I). exists u, rest.
          rewrite skipn_app, flat_length, skipn_all2 by (rewrite flat_length; lia). cbn [app]. rewrite E.
          replace (k + ntok x + (m - ntok x)) with (k + m) by lia. split; [reflexivity|]. apply incl_appr, I. }
    destruct (G _ _ Hm) as (u & rest & E & I). cbn [Nat.pred] in E. exists u, rest.
    replace (k + S m) with (S k + m) by lia. split; [exact E|]. apply incl_tl, I.
  - destruct m as [|m].
    { exists (JObj i j l), []. rewrite Nat.add_0_r, app_nil_r. split; [reflexivity|apply incl_refl]. }
    rewrite flat_obj in *. cbn [nth_error skipn] in *. cbn [positions].
    assert (G : forall k m, nth_error (flatm k l ++ [Tok KObjEnd j (Nat.pred k) 0]) m = Some t ->
      exists u rest, skipn m (flatm k l ++ [Tok KObjEnd j (Nat.pred k) 0]) = flat (k + m) u ++ rest
                     /\ incl (positions u) (flat_map (fun m => fst (fst m) :: positions (snd m)) l)).
    { clear Hm m k. intros k. remember (Tok KObjEnd j (Nat.pred k) 0) as te eqn:Q. assert (Hte : tk_ty te = KObjEnd) by (subst; reflexivity). clear Q.
      revert k te Hte. induction H as [|x l Hx Hl IH]; intros k te Hte m Hm; cbn [flatm flat_map app] in *.
      - destruct m as [|[|]]; cbn in Hm; try discriminate. injection Hm as Hm. rewrite <- Hm in Ht. rewrite Hte in Ht. cbn in Ht. destruct Ht; discriminate.
      - rewrite <- app_assoc in *. destruct m as [|m]; cbn [nth_error skipn] in *.
        { injection Hm as <-. destruct Ht; discriminate. }
        destruct (Nat.lt_ge_cases m (ntok (snd x))) as [L|L].
        + rewrite nth_error_app1 in Hm by (rewrite flat_length; lia).
          destruct (Hx _ _ _ Hm Ht) as (u & rest & E & I). exists u, (rest ++ flatm (S k + ntok (snd x)) l ++ [te]).
          rewrite skipn_app, E, flat_length. replace (m - ntok (snd x)) with 0 by lia. cbn [skipn].
          rewrite <- app_assoc. replace (k + S m) with (S k + m) by lia. split; [reflexivity|].
          apply incl_tl, incl_appl, I.
        + rewrite nth_error_app2 in Hm by (rewrite flat_length; lia). rewrite flat_length in Hm.
          destruct (IH (S k + ntok (snd x)) te Hte _ Hm) as (u & rest & E & I). exists u, rest.
          rewrite skipn_app, flat_length, skipn_all2 by (rewrite flat_length; lia). cbn [app]. rewrite E.
          replace (S k + ntok (snd x) + (m - ntok (snd x))) with (k + S m) by lia. split; [reflexivity|].
          apply incl_tl, incl_appr, I. }
    destruct (G _ _ Hm) as (u & rest & E & I). cbn [Nat.pred] in E. exists u, rest.
    replace (k + S m) with (S k + m) by lia. split; [exact E|]. apply incl_tl, I.
Qed.

(** The tokens between an opening token and its end. *)
Lemma flat_head_arr k u rest t : nth_error (flat k u ++ rest) 0 = Some t -> tk_ty t = KArr ->
  exists i j l, u = JArr i j l.
Proof. destruct u; cbn; intros [= <-]; try destruct b; cbn; intros; try discriminate; eauto. Qed.
Lemma flat_head_obj k u rest t : nth_error (flat k u ++ rest) 0 = Some t -> tk_ty t = KObj ->
  exists i j l, u = JObj i j l.
Proof. destruct u; cbn; intros [= <-]; try destruct b; cbn; intros; try discriminate; eauto. Qed.
Lemma nth_skipn0 {A} (l : list A) m : nth_error (skipn m l) 0 = nth_error l m.
Proof. revert l; induction m; intros [|x l]; try reflexivity. apply IHm. Qed.
Lemma skipn_S {A} m (l : list A) : skipn (S m) l = tl (skipn m l).
Proof. revert l; induction m as [|m IH]; intros l; [destruct l; reflexivity|]. destruct l as [|x l]; [reflexivity|].
  change (skipn (S (S m)) (x :: l)) with (skipn (S m) l). change (skipn (S m) (x :: l)) with (skipn m l). apply IH. Qed.
Lemma firstn_app_l {A} n (a b : list A) : n = length a -> firstn n (a ++ b) = a.
Proof. intros ->. rewrite firstn_app, firstn_all, Nat.sub_diag. cbn. apply app_nil_r. Qed.

Lemma arr_inner v m t : nth_error (flat 0 v) m = Some t -> tk_ty t = KArr ->
  exists i j l, firstn (tk_end t - S m) (skipn (S m) (flat 0 v)) = flats (S m) l /\
    incl (positions (JArr i j l)) (positions v).
Proof.
  intros Hm Ht. destruct (flat_sub v 0 m t Hm) as (u & rest & E & I); [tauto|]. cbn [Nat.add] in E.
  pose proof (nth_skipn0 (flat 0 v) m) as Z. rewrite E, Hm in Z.
  destruct (flat_head_arr _ _ _ _ Z Ht) as (i & j & l & ->).
  exists i, j, l. split; [|exact I]. rewrite skipn_S, E, flat_arr. rewrite flat_arr in Z.
  cbn in Z. injection Z as <-. cbn [tl tk_end app]. rewrite <- app_assoc. apply firstn_app_l.
  rewrite flats_length. lia.
Qed.
Lemma obj_inner v m t : nth_error (flat 0 v) m = Some t -> tk_ty t = KObj ->
  exists i j l, firstn (tk_end t - S m) (skipn (S m) (flat 0 v)) = flatm (S m) l /\
    incl (positions (JObj i j l)) (positions v).
Proof.
  intros Hm Ht. destruct (flat_sub v 0 m t Hm) as (u & rest & E & I); [tauto|]. cbn [Nat.add] in E.
  pose proof (nth_skipn0 (flat 0 v) m) as Z. rewrite E, Hm in Z.
  destruct (flat_head_obj _ _ _ _ Z Ht) as (i & j & l & ->).
  exists i, j, l. split; [|exact I]. rewrite skipn_S, E, flat_obj. rewrite flat_obj in Z.
  cbn in Z. injection Z as <-. cbn [tl tk_end app]. rewrite <- app_assoc. apply firstn_app_l.
  rewrite flatm_length. lia.
Qed.

Section Gen.
Variables (C : cfg) (O : opts) (stk : list frame) (s : bytes) (toks : list token).
Hypothesis toks_ok : ends_ok 0 toks.

Let step := step C O stk s toks.
Let run := run C O stk s toks.

(** ** Termination *)

Definition fwd (x : st) (o : out) : Prop := forall x', o = Next x' -> ti x <= ti x'.
Definition adv (x : st) (o : out) : Prop := forall x', o = Next x' -> ti x < ti x'.

Lemma lift_next {A} (r : res A) k x : lift r k = Next x -> exists a, r = Ok a /\ k a = Next x.
Proof. destruct r; cbn; intros H; try discriminate. eauto. Qed.
Lemma lift_fail {A} (r : res A) k i e x : lift r k = Fail i e x -> exists a, r = Ok a /\ k a = Fail i e x.
Proof. destruct r; cbn; intros H; try discriminate. eauto. Qed.

Ltac inv_next :=
  repeat match goal with
  | H : Fail _ _ _ = Next _ |- _ => discriminate
  | H : Next _ = Next _ |- _ => injection H as H; subst
  | H : lift _ _ = Next _ |- _ => apply lift_next in H as (? & ? & ?)
  | H : (let '(_, _) := ?p in _) = Next _ |- _ => destruct p eqn:?
  | H : match ?d with _ => _ end = Next _ |- _ => destruct d eqn:?; try discriminate
  end.

Lemma on_val_end_fwd x : fwd x (on_val_end stk toks x).
Proof. intros x' H. unfold on_val_end in H. cbv zeta in H. inv_next; cbn; lia. Qed.
Lemma on_recur_fwd x : fwd x (on_recur_obj_end stk toks x).
Proof.
  intros x' H. unfold on_recur_obj_end in H. inv_next; cbn; try lia. apply on_val_end_fwd in H. exact H.
Qed.
Lemma on_ptr_si x x' : on_ptr C stk x = Next x' -> ti x' = ti x /\ si x' = S (si x) /\ S (si x) < length stk.
Proof.
  unfold on_ptr. intros H. destruct (fr stk (S (si x))) eqn:E; [|discriminate].
  assert (S (si x) < length stk) by (apply nth_error_Some; unfold fr in E; rewrite E; discriminate).
  inv_next; cbn; auto.
Qed.

Lemma sub_len a b r : sub s a b = Ok r -> True. Proof. trivial. Qed.

(** Unfolding equations. *)
Lemma decodeAny_S fuel ts : decodeAny C s (S fuel) ts =
  match ts with
  | [] => DPanic
  | t :: r =>
      match tk_ty t with
      | KNull => DOk ANil r
      | KNum | KInt =>
          match raw_of s t with
          | Ok raw => match parse_float (c_pf C) B64 raw with Some f => DOk (AFloat f) r | None => DErr end
          | _ => DPanic
          end
      | KTrue => DOk (ABool true) r
      | KFalse => DOk (ABool false) r
      | KStr =>
          match body_of s t with
          | Ok b => match unesc_str C (tk_idx t + 1) b with Ok g => DOk (AStr g) r | _ => DPanic end
          | _ => DPanic
          end
      | KArr => anyArr C s fuel [] r
      | KObj => if Nat.eqb (tk_n t) 0 then match r with _ :: r' => DOk (AObj []) r' | [] => DPanic end
                else anyObj C s fuel [] r
      | _ => DPanic
      end
  end.
Proof. reflexivity. Qed.
Lemma anyArr_S fuel acc ts : anyArr C s (S fuel) acc ts =
  match ts with
  | [] => DPanic
  | t :: r =>
      match tk_ty t with
      | KArrEnd => DOk (AArr acc) r
      | _ => match decodeAny C s fuel ts with
             | DOk v rest => anyArr C s fuel (acc ++ [v]) rest
             | e => e
             end
      end
  end.
Proof. reflexivity. Qed.
Lemma anyObj_S fuel acc ts : anyObj C s (S fuel) acc ts =
  match ts with
  | [] => DPanic
  | t :: r =>
      match tk_ty t with
      | KObjEnd => DOk (AObj acc) r
      | _ => match body_of s t with
             | Ok kb =>
                 match decodeAny C s fuel r with
                 | DOk v rest =>
                     match unesc_str C (tk_idx t + 1) kb with
                     | Ok g => anyObj C s fuel (assoc_put acc g v) rest
                     | _ => DPanic
                     end
                 | e => e
                 end
             | _ => DPanic
             end
      end
  end.
Proof. reflexivity. Qed.

(** Every token consumed by the generic decoder shortens the rest. *)
Lemma decodeAny_shorter fuel :
  (forall ts v r, decodeAny C s fuel ts = DOk v r -> length r < length ts) /\
  (forall acc ts v r, anyArr C s fuel acc ts = DOk v r -> length r < length ts) /\
  (forall acc ts v r, anyObj C s fuel acc ts = DOk v r -> length r < length ts).
Proof.
  induction fuel as [|fuel (IH1 & IH2 & IH3)]; [repeat split; intros; discriminate|].
  repeat split; intros.
  - rewrite decodeAny_S in H. destruct ts as [|t ts]; [discriminate|]. cbn [length].
    destruct (tk_ty t); try discriminate;
      repeat match type of H with
      | DOk _ _ = DOk _ _ => injection H as <- <-; cbn; lia
      | match ?d with _ => _ end = _ => destruct d eqn:?; try discriminate
      end.
    + apply IH2 in H. lia.
    + apply IH3 in H. lia.
  - rewrite anyArr_S in H. destruct ts as [|t ts]; [discriminate|].
    destruct (tk_ty t);
      try (injection H as <- <-; cbn; lia);
      (destruct (decodeAny C s fuel (t :: ts)) as [v' r'| | |] eqn:E; try discriminate;
       apply IH1 in E; apply IH2 in H; lia).
  - rewrite anyObj_S in H. destruct ts as [|t ts]; [discriminate|].
    destruct (tk_ty t);
      try (injection H as <- <-; cbn; lia);
      (destruct (body_of s t); try discriminate;
       destruct (decodeAny C s fuel ts) as [v' r'| | |] eqn:E; try discriminate;
       apply IH1 in E; destruct (unesc_str _ _ _); try discriminate; apply IH3 in H; cbn; lia).
Qed.

Lemma any_tok_adv t x : adv x (any_tok C stk s toks t x).
Proof.
  intros x' H. unfold any_tok in H. destruct (decodeAny C s _ _) as [v r| | |] eqn:E; try discriminate.
  apply (proj1 (decodeAny_shorter _)) in E. rewrite skipn_length in E.
  inv_next. apply on_val_end_fwd in H0. cbn in H0. lia.
Qed.

Ltac fwds :=
  repeat match goal with
  | H : on_val_end stk toks _ = Next _ |- _ => apply on_val_end_fwd in H; cbn in H
  | H : on_recur_obj_end stk toks _ = Next _ |- _ => apply on_recur_fwd in H; cbn in H
  | H : any_tok C stk s toks _ _ = Next _ |- _ => apply any_tok_adv in H; cbn in H
  end; cbn; try lia.

Lemma on_json_adv f t x : (tk_ty t = KArr \/ tk_ty t = KObj -> ti x < tk_end t) -> adv x (on_json C stk s toks f t x).
Proof.
  intros Ht x' H. unfold on_json in H. apply lift_next in H as ([raw ti'] & Hr & H).
  assert (ti x < ti').
  { destruct (tk_ty t);
    try (destruct (raw_of s t); cbn in Hr; try discriminate; injection Hr as <- <-; lia);
    (destruct (nth_error toks (tk_end t)); try discriminate; destruct (sub _ _ _); cbn in Hr; try discriminate;
     injection Hr as <- <-; assert (ti x < tk_end t) by auto; lia). }
  inv_next. fwds.
Qed.

(** Each iteration consumes a token, or moves from the frame of a pointer to the next
    frame. *)
Lemma step_progress x x' : step x = Next x' -> ti x < length toks ->
  ti x < ti x' \/ (ti x' = ti x /\ si x' = S (si x) /\ S (si x) < length stk /\ exists f, nth_error stk (si x) = Some f /\ f_ty f = EPtr).
Proof.
  unfold step, Machine.step. intros H Hlt.
  destruct (nth_error toks (ti x)) as [t|] eqn:Et; [|discriminate].
  destruct (fr stk (si x)) as [f|] eqn:Ef; [|discriminate].
  assert (Hend : tk_ty t = KArr \/ tk_ty t = KObj -> ti x < tk_end t).
  { intros Ht. apply (toks_ok _ _ Et Ht). }
  assert (Scal : forall x', match f_ty f, tk_ty t with
          | EJSON, _ => on_json C stk s toks f t x
          | EPtr, KNull => lift (null_tok C EPtr (dst (dy x) (si x)) (hp x)) (fun h =>
                             on_val_end stk toks (St (si x) (S (ti x)) (dy x) h))
          | EPtr, _ => on_ptr C stk x
          | _, _ =>
              lift (scalar_tok C s f t (dst (dy x) (si x)) (hp x)) (fun '(h, r) =>
              match r with
              | Some e => Fail (tk_idx t) e (with_hp h x)
              | None => on_val_end stk toks (St (si x) (S (ti x)) (dy x) h)
              end)
          end = Next x' -> ti x < ti x' \/ (ti x' = ti x /\ si x' = S (si x) /\ S (si x) < length stk /\ exists f, nth_error stk (si x) = Some f /\ f_ty f = EPtr)).
  { clear H x'. intros x' H.
    destruct (f_ty f) eqn:Fty;
    try (left; apply lift_next in H as ([h r] & _ & H); destruct r; [discriminate|]; fwds; fail).
    - left. apply on_json_adv in H; assumption.
    - destruct (tk_ty t); try (right; apply on_ptr_si in H as (? & ? & ?); assert (nth_error stk (si x) = Some f) by exact Ef; eauto 8).
      left. inv_next. fwds. }
  destruct (tk_ty t) eqn:Ety; try (apply Scal; exact H).
  - (* array *)
    assert (Ht : ti x < tk_end t) by (apply Hend; auto).
    unfold arr_tok in H. destruct (f_ty f) eqn:Fty; try discriminate;
      try (right; apply on_ptr_si in H as (? & ? & ?); assert (nth_error stk (si x) = Some f) by exact Ef; eauto 8); left;
      try (unfold fast_slice in H; cbv zeta in H);
      try (apply on_json_adv in H; [exact H|tauto]);
      inv_next; fwds.
  - left. unfold arr_end_tok in H. cbv zeta in H. inv_next; fwds.
  - assert (Ht : ti x < tk_end t) by (apply Hend; auto).
    unfold obj_tok in H. cbv zeta in H. destruct (f_ty f) eqn:Fty; try discriminate;
      try (right; apply on_ptr_si in H as (? & ? & ?); assert (nth_error stk (si x) = Some f) by exact Ef; eauto 8); left;
      try (apply on_json_adv in H; [exact H|tauto]);
      inv_next; fwds.
  - left. unfold obj_end_tok in H. cbv zeta in H. inv_next; fwds.
  - left. unfold key_tok in H. cbv zeta in H. inv_next; fwds.
Qed.

Definition measure (x : st) : nat := (length toks - ti x) * S (length stk) + (length stk - si x).

Lemma run_terminates fuel : forall x, measure x < fuel -> run fuel x <> RFuel.
Proof.
  induction fuel as [|fuel IH]; intros x Hm; [lia|]. unfold run. cbn [Machine.run].
  destruct (ti x <? length toks) eqn:E; [|discriminate]. apply Nat.ltb_lt in E.
  change (Machine.step C O stk s toks x) with (step x).
  destruct (step x) as [x'| | |] eqn:Es; try discriminate.
  apply IH. unfold measure in *.
  destruct (step_progress _ _ Es E) as [H|(H1 & H2 & H3 & _)].
  - assert (length toks - ti x >= S (length toks - ti x')) by lia. nia.
  - rewrite H1, H2. nia.
Qed.

Lemma run_more fuel : forall x r, run fuel x = r -> r <> RFuel -> forall k, run (fuel + k) x = r.
Proof.
  induction fuel as [|fuel IH]; intros x r H Hr k; unfold run in *; cbn [Machine.run Nat.add] in *.
  - destruct (ti x <? length toks) eqn:E; [congruence|]. destruct k; cbn [Machine.run]; rewrite E; exact H.
  - destruct (ti x <? length toks); [|exact H].
    destruct (Machine.step C O stk s toks x); try exact H. eauto.
Qed.
(** The result does not depend on the fuel once it is sufficient. *)
Lemma run_fuel_enough x r n : run n x = r -> r <> RFuel -> ti x = 0 -> si x = 0 -> run (run_fuel stk toks) x = r.
Proof.
  intros H Hr Hti Hsi.
  assert (T : run (run_fuel stk toks) x <> RFuel).
  { apply run_terminates. unfold measure, run_fuel. rewrite Hti, Hsi. nia. }
  destruct (Nat.le_ge_cases n (run_fuel stk toks)) as [L|L].
  - pose proof (run_more _ _ _ H Hr (run_fuel stk toks - n)) as M.
    replace (n + (run_fuel stk toks - n)) with (run_fuel stk toks) in M by lia. exact M.
  - pose proof (run_more _ _ _ eq_refl T (n - run_fuel stk toks)) as M.
    replace (run_fuel stk toks + (n - run_fuel stk toks)) with n in M by lia. congruence.
Qed.

(** ** Error positions *)

Ltac inv_fail :=
  repeat match goal with
  | H : Next _ = Fail _ _ _ |- _ => discriminate
  | H : Fail _ _ _ = Fail _ _ _ |- _ => injection H as ? ? ?; subst
  | H : lift _ _ = Fail _ _ _ |- _ => apply lift_fail in H as (? & ? & ?)
  | H : (let '(_, _) := ?p in _) = Fail _ _ _ |- _ => destruct p eqn:?
  | H : match ?d with _ => _ end = Fail _ _ _ |- _ => destruct d eqn:?; try discriminate
  end.

Lemma on_val_end_nofail x i e y : on_val_end stk toks x <> Fail i e y.
Proof. intros H. unfold on_val_end in H. cbv zeta in H. inv_fail. Qed.
Lemma on_recur_nofail x i e y : on_recur_obj_end stk toks x <> Fail i e y.
Proof. intros H. unfold on_recur_obj_end in H. cbv zeta in H. inv_fail. eapply on_val_end_nofail; eauto. Qed.
Lemma on_ptr_nofail x i e y : on_ptr C stk x <> Fail i e y.
Proof. intros H. unfold on_ptr in H. cbv zeta in H. inv_fail. Qed.


Definition opener (k : tt) : bool := match k with KArr | KObj => true | _ => false end.
Lemma fast_elem_open e t v : opener (tk_ty t) = true -> fast_elem C s e t <> Ok (inl v).
Proof. destruct t as [[] i j n]; cbn; try discriminate; intros _; destruct e; cbn; discriminate. Qed.

Lemma fast_loop_pos e a n l : forall k i h h' j er,
  fast_loop C s e a n i (flats k l) h = Ok (h', Some (j, er)) -> In j (flat_map positions l).
Proof.
  assert (G : forall v k rest i h h' j er,
    fast_loop C s e a n i (flat k v ++ rest) h = Ok (h', Some (j, er)) ->
    In j (positions v) \/ (exists i h, fast_loop C s e a n i rest h = Ok (h', Some (j, er)))).
  { intros v k rest i h h' j er H.
    assert (exists t r, flat k v ++ rest = t :: r /\ In (tk_idx t) (positions v) /\ (opener (tk_ty t) = true \/ r = rest)) as (t & r & E & Hp & Hr).
    { destruct v; cbn; eauto 10; try (destruct b; eauto 10); eexists _, _; (split; [reflexivity|]); cbn; eauto. }
    rewrite E in H. cbn in H. destruct (fast_elem C s e t) as [[[w sz]|er']| |] eqn:Ef; cbn in H; try discriminate.
    - destruct Hr as [Hr| ->]; [exfalso; eapply fast_elem_open; eauto|].
      destruct (n <=? i)%Z; [discriminate|]. destruct (store _ _ _ _); cbn in H; try discriminate. eauto.
    - injection H as <- <- <-. auto. }
  induction l as [|v l IH]; intros k i h h' j er H; cbn in *; [discriminate|].
  apply G in H as [H|(i' & h0 & H)]; apply in_or_app; eauto.
Qed.

Lemma mss_loop_pos l : forall k acc j er, mss_loop C s (flatm k l) acc = Ok (inr (j, er)) ->
  In j (flat_map (fun m => fst (fst m) :: positions (snd m)) l).
Proof.
  induction l as [|[[ki kr] v] l IH]; intros k acc j er H; cbn [flatm flat_map fst snd] in *; [discriminate|].
  right. apply in_or_app.
  destruct v; cbn in H; try (injection H as <- <-; left; left; reflexivity);
    try (destruct b; injection H as <- <-; left; left; reflexivity);
    repeat match type of H with rbind ?r _ = _ => destruct r; cbn in H; try discriminate end; eauto.
Qed.
End Gen.

Section Errors.
Variables (C : cfg) (O : opts) (stk : list frame) (s : bytes) (v : jv).
Let toks := flat 0 v.

Ltac inv_fail :=
  repeat match goal with
  | H : Next _ = Fail _ _ _ |- _ => discriminate
  | H : Fail _ _ _ = Fail _ _ _ |- _ => injection H as ? ? ?; subst
  | H : lift _ _ = Fail _ _ _ |- _ => apply lift_fail in H as (? & ? & ?)
  | H : (let '(_, _) := ?p in _) = Fail _ _ _ |- _ => destruct p eqn:?
  | H : match ?d with _ => _ end = Fail _ _ _ |- _ => destruct d eqn:?; try discriminate
  end.

Lemma on_json_err f t x i e y : on_json C stk s toks f t x = Fail i e y -> i = tk_idx t.
Proof.
  intros H. unfold on_json in H. cbv zeta in H. apply lift_fail in H as ([raw ti'] & _ & H).
  inv_fail; try reflexivity. exfalso; eapply on_val_end_nofail; eauto.
Qed.
Lemma any_tok_err t x i e y : any_tok C stk s toks t x = Fail i e y -> i = tk_idx t.
Proof.
  intros H. unfold any_tok in H. inv_fail; try reflexivity. exfalso; eapply on_val_end_nofail; eauto.
Qed.

Lemma step_err_pos x i e y : step C O stk s toks x = Fail i e y -> In i (positions v).
Proof.
  intros H. unfold step in H.
  destruct (nth_error toks (ti x)) as [t|] eqn:Et; [|discriminate].
  destruct (fr stk (si x)) as [f|] eqn:Ef; [|discriminate].
  assert (Hin : end_tok t = false -> In (tk_idx t) (positions v)).
  { apply (flat_positions v 0). eapply nth_error_In; eauto. }
  assert (N1 := on_val_end_nofail stk toks). assert (N2 := on_recur_nofail stk toks). assert (N3 := on_ptr_nofail C stk).
  assert (J := on_json_err f t x). assert (A := any_tok_err t x).
  assert (Scal : match f_ty f, tk_ty t with
          | EJSON, _ => on_json C stk s toks f t x
          | EPtr, KNull => lift (null_tok C EPtr (dst (dy x) (si x)) (hp x)) (fun h =>
                             on_val_end stk toks (St (si x) (S (ti x)) (dy x) h))
          | EPtr, _ => on_ptr C stk x
          | _, _ =>
              lift (scalar_tok C s f t (dst (dy x) (si x)) (hp x)) (fun '(h, r) =>
              match r with
              | Some e => Fail (tk_idx t) e (with_hp h x)
              | None => on_val_end stk toks (St (si x) (S (ti x)) (dy x) h)
              end)
          end = Fail i e y -> i = tk_idx t).
  { clear H. intros H. destruct (f_ty f);
    try (apply lift_fail in H as ([h r] & _ & H); destruct r; [injection H as <- <- <-; reflexivity|exfalso; eapply N1; eauto]).
    - eapply J; eauto.
    - destruct (tk_ty t); try (exfalso; eapply N3; eauto; fail). inv_fail. exfalso; eapply N1; eauto. }
  unfold end_tok in Hin.
  destruct (tk_ty t) eqn:Ety; try (rewrite (Scal H); auto; fail).
  - destruct (arr_inner v (ti x) t Et Ety) as (i0 & j0 & l & El & Il).
    unfold arr_tok in H. cbv zeta in H.
    destruct (f_ty f); try (exfalso; eapply N3; eauto; fail);
    try (rewrite (A _ _ _ H); auto; fail); try (rewrite (J _ _ _ H); auto; fail);
    try (injection H as <- <- <-; auto; fail);
    try (inv_fail; exfalso; eapply N1; eauto; fail);
    (unfold fast_slice in H; cbv zeta in H; unfold toks in H; rewrite El in H; fold toks in H;
     inv_fail; try (exfalso; eapply N1; eauto; fail); subst;
     match goal with L : fast_loop _ _ _ _ _ _ _ _ = _ |- _ => apply fast_loop_pos in L end;
     apply Il; right; assumption).
  - exfalso. unfold arr_end_tok in H. cbv zeta in H. inv_fail; eapply N1; eauto.
  - destruct (obj_inner v (ti x) t Et Ety) as (i0 & j0 & l & El & Il).
    unfold obj_tok in H. cbv zeta in H.
    destruct (f_ty f); try (exfalso; eapply N3; eauto; fail);
    try (rewrite (A _ _ _ H); auto; fail); try (rewrite (J _ _ _ H); auto; fail);
    try (injection H as <- <- <-; auto; fail);
    try (inv_fail; exfalso; (eapply N1; eauto; fail) || (eapply N2; eauto; fail));
    (unfold toks in H; rewrite El in H; fold toks in H;
     inv_fail; try (exfalso; eapply N1; eauto; fail); subst;
     match goal with L : mss_loop _ _ _ _ = _ |- _ => apply mss_loop_pos in L end;
     apply Il; right; assumption).
  - exfalso. unfold obj_end_tok in H. cbv zeta in H. inv_fail; try (eapply N1; eauto; fail); eapply N2; eauto.
  - unfold key_tok in H. cbv zeta in H. inv_fail; auto.
Qed.

Lemma run_err_pos fuel : forall x i e y, run C O stk s toks fuel x = RFail i e y -> In i (positions v).
Proof.
  induction fuel as [|fuel IH]; intros x i e y H; cbn [run] in H;
    destruct (ti x <? length toks); try discriminate.
  destruct (step C O stk s toks x) eqn:Es; try discriminate; [eauto|].
  injection H as <- <- <-. eapply step_err_pos; eauto.
Qed.
End Errors.

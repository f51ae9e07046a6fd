(** Decode's token loop runs the recursive decoder [dech].

    [reach x o]: from state [x] the loop makes one or more iterations, the last of which
    has outcome [o].  The main lemma [value_reach] says that from the state in which
    frame [i] describes type [d] and the next tokens are those of the value [v], the loop
    reaches the end of the value with the memory computed by [dech d v]. *)
From Verif Require Import Base NumSpec StrSpec Atoi JsonNum Unescape UnescapeProofs Lookup Types Token FloatLit Heap Machine General Dt Dec.
Open Scope nat_scope.

Fixpoint obj_free (v : jv) : bool :=
  match v with
  | JObj _ _ _ => false
  | JArr _ _ l => forallb obj_free l
  | _ => true
  end.

(** ** Lookup: the position picked is the frame found *)
Lemma first_pos_map (P : bytes -> bool) (fs : list field) (g : field -> bool) :
  (forall a, g a = P (fst a)) ->
  (fix go (l : list field) := match l with [] => None | a :: r => if g a then Some (snd a) else go r end) fs
  = match first_pos P (map fst fs) with Some j => option_map snd (nth_error fs j) | None => None end.
Proof.
  intros H. induction fs as [|a fs IH]; cbn; [reflexivity|]. rewrite H. destruct (P (fst a)); [reflexivity|].
  rewrite IH. destruct (first_pos P (map fst fs)); reflexivity.
Qed.
Lemma first_pos_lt P names j : first_pos P names = Some j -> j < length names.
Proof.
  revert j; induction names as [|a r IH]; cbn; intros j H; [discriminate|].
  destruct (P a); [injection H as <-; lia|]. destruct (first_pos P r); [|discriminate]. injection H as <-.
  specialize (IH _ eq_refl). lia.
Qed.
Lemma pick_lt fold nf names key j : pick fold nf names key = Some j -> j < length names.
Proof.
  unfold pick. destruct (first_pos _ names) eqn:E; [intros H; injection H as <-; eapply first_pos_lt; eauto|].
  destruct nf; [discriminate|]. apply first_pos_lt.
Qed.
Lemma lookup_pick fold nf (fs : list field) key :
  lookup_field fold nf fs key =
  match pick fold nf (map fst fs) key with Some j => option_map snd (nth_error fs j) | None => None end.
Proof.
  assert (E1 : exact_loop fs key = match first_pos (fun a => bytes_eqb a key) (map fst fs) with
    Some j => option_map snd (nth_error fs j) | None => None end).
  { rewrite (exact_loop_tail fold key (length fs)) by lia.
    rewrite <- (first_pos_map (fun a => bytes_eqb a key) fs (fun a => bytes_eqb (fst a) key)) by reflexivity.
    induction fs as [|a r IH]; cbn; [reflexivity|]. rewrite IH. reflexivity. }
  assert (E2 : ci_loop fold fs key = match first_pos (fun a => Nat.eqb (length a) (length key) && fold a key) (map fst fs) with
    Some j => option_map snd (nth_error fs j) | None => None end).
  { rewrite (ci_loop_tail fold key (length fs)) by lia.
    rewrite <- (first_pos_map _ fs (fun a => ci fold a key)) by reflexivity.
    clear E1. induction fs as [|a r IH]; cbn; [reflexivity|]. rewrite IH. reflexivity. }
  unfold lookup_field, pick, fieldFrameIndexByName. rewrite E1, E2.
  destruct (first_pos (fun a => bytes_eqb a key) (map fst fs)) as [j|] eqn:F.
  - apply first_pos_lt in F. rewrite map_length in F.
    destruct (nth_error fs j) eqn:N; [|apply nth_error_None in N; unfold field in *; lia]. destruct nf; reflexivity.
  - destruct nf; reflexivity.
Qed.

Section Control.
Variables (C : cfg) (O : opts) (stk : list frame) (s : bytes) (toks : list token).
Let w64 := c_w64 C.
Let W := wb w64.
Notation step := (Machine.step C O stk s toks).
Notation run := (Machine.run C O stk s toks).
Notation on_val_end := (Machine.on_val_end stk toks).
Notation dech := (Dec.dech C O s).
Notation dsize := (Dt.dsize w64).
Notation fits := (Dt.fits w64 stk).

(** ** Iterations *)
Definition cont (fuel : nat) (o : out) : rout :=
  match o with
  | Next x => run fuel x
  | Fail i e x => RFail i e x
  | Panic => RPanic
  | Corrupt => RCorrupt
  end.
Inductive reach : st -> out -> Prop :=
| reach_one x o : ti x < length toks -> step x = o -> reach x o
| reach_more x x' o : ti x < length toks -> step x = Next x' -> reach x' o -> reach x o.
Lemma reach_run x o : reach x o -> exists n, forall fuel, run (S n + fuel) x = cont fuel o.
Proof.
  induction 1 as [x o L E|x x' o L E R (n & IH)].
  - exists 0. intros fuel. cbn [Nat.add Machine.run]. rewrite (proj2 (Nat.ltb_lt _ _) L), E. destruct o; reflexivity.
  - exists (S n). intros fuel. cbn [Nat.add Machine.run]. rewrite (proj2 (Nat.ltb_lt _ _) L), E. apply IH.
Qed.
Lemma reach_then x x' o : reach x (Next x') -> reach x' o -> reach x o.
Proof.
  intros H R. remember (Next x') as y eqn:Ey. revert x' Ey R.
  induction H as [x y L E|x z y L E H IH]; intros x' -> R.
  - eapply reach_more; eauto.
  - eapply reach_more; eauto.
Qed.

(** ** Well-formed decoder state *)
(** Element frames of arrays and slices: their offset and length are reset when the array
    starts. *)
Definition elem_frame (f : frame) : Prop :=
  exists p fp, f_parent f = Some p /\ nth_error stk p = Some fp /\ (f_ty fp = EArray \/ f_ty fp = ESlice).
Definition dyn_ok (D : dyn) : Prop :=
  forall j f, nth_error stk j = Some f ->
    f_ty f <> EStructRecur -> d_rs (D j) = [] /\ (~ elem_frame f -> d_off (D j) = f_off f).

Lemma dyn_ok_dest D i p : dyn_ok D -> dyn_ok (upd_d D i (set_dest p)).
Proof. intros H j f Hj. unfold upd_d. destruct (Nat.eqb j i); cbn; apply H, Hj. Qed.
Lemma dyn_ok_dests fs p : forall D, dyn_ok D -> dyn_ok (set_dests D fs p).
Proof. unfold set_dests. induction fs as [|f fs IH]; intros D H; cbn; [exact H|]. apply IH, dyn_ok_dest, H. Qed.
Lemma dyn_ok_elem D i f g : dyn_ok D -> nth_error stk i = Some f -> elem_frame f ->
  (forall d, d_rs d = [] -> d_rs (g d) = []) -> (f_ty f <> EStructRecur) -> dyn_ok (upd_d D i g).
Proof.
  intros H Hi He Hg Ht j f' Hj. unfold upd_d. destruct (Nat.eqb_spec j i) as [->|]; [|apply H, Hj].
  rewrite Hi in Hj. injection Hj as <-. intros T. split; [|tauto]. apply Hg, (H i f Hi), T.
Qed.

Lemma set_dests_spec fs p : forall D j, set_dests D fs p j = if existsb (fun f => Nat.eqb (snd f) j) fs then set_dest p (D j) else D j.
Proof.
  unfold set_dests. induction fs as [|f fs IH]; intros D j; cbn [fold_left existsb]; [reflexivity|].
  rewrite IH. unfold upd_d. rewrite (Nat.eqb_sym (snd f) j). destruct (Nat.eqb j (snd f)); cbn [orb]; [|reflexivity].
  match goal with |- context [existsb ?g fs] => destruct (existsb g fs); reflexivity end.
Qed.

(** ** The documents on which the loop keeps in step with the recursion.
    Excluded (each is a defect shown in PropsRefuted.v): a non-null value for a nested
    pointer, an object for a nested struct{}, an unknown member whose value contains an
    object. *)
Definition key_of (raw : bytes) : bytes :=
  if o_nounescape O then raw else match unesc raw with Ok k => k | _ => [] end.
Fixpoint ctl (d : dt) (v : jv) {struct d} : Prop :=
  match d with
  | DPtr t => match v with JNull _ => True | _ => False end
  | DEmpty => match v with JObj _ _ _ => False | _ => True end
  | DArr n t => match v with JArr _ _ l => Forall (ctl t) (firstn n l) | _ => True end
  | DSlice t =>
      match fast_et t, v with
      | None, JArr _ _ l => Forall (ctl t) l
      | _, _ => True
      end
  | DMap _ t => match v with JObj _ _ l => Forall (fun x => ctl t (snd x)) l | _ => True end
  | DStruct _ fs =>
      match v with
      | JObj _ _ l => Forall (fun x =>
          match pick (c_fold C) (o_nofold O) (map (fun x => fst (fst x)) fs) (key_of (snd (fst x))) with
          | Some j => match nth_error (map (fun x => ctl (snd x)) fs) j with Some P => P (snd x) | None => True end
          | None => o_unknown O = true \/ obj_free (snd x) = true
          end) l
      | _ => True
      end
  | _ => True
  end.

(** ** When the loop reaches the end of a value.
    ON_VAL_END (2636-2671) leaves the frame of a value.  For the value of a nested pointer
    it only goes back to the frame of the pointer, which is then left by the next closing
    token: the end of the value is noticed [Late].  An object for a nested struct{}, and
    an unknown member whose value is an object, leave their closing brace to the enclosing
    object: the end of that object is noticed [Early].  If the value in question is the
    last one of the enclosing object, the object itself is late or early; the end of an
    array puts things right again; and so does a pointer to something early. *)
Inductive lag := On | Late | Early.
(** The values of an array or object, each with its lag: only the last one may be late or
    early ([top]: in the object that is the whole document, early ones do no harm). *)
Fixpoint lags (top : bool) (l : list (option lag)) : option lag :=
  match l with
  | [] => Some On
  | [x] => x
  | Some On :: r => lags top r
  | Some Early :: r => if top then lags top r else None
  | _ => None
  end.
Definition resync (o : option lag) : option lag := match o with Some _ => Some On | None => None end.
(** A member of a struct with the given field names; [ls]: what its fields do. *)
Definition member_lag (names : list bytes) (ls : list (jv -> option lag)) (x : (nat * bytes) * jv) : option lag :=
  match pick (c_fold C) (o_nofold O) names (key_of (snd (fst x))) with
  | Some j => match nth_error ls j with Some f => f (snd x) | None => Some On end
  | None => if o_unknown O || obj_free (snd x) then Some On else
            match snd x with JObj _ _ _ => Some Early | _ => None end
  end.
(** [None]: the loop does something else (all of PropsRefuted.v). *)
Fixpoint lag_of (d : dt) (v : jv) {struct d} : option lag :=
  match d with
  | DPtr t =>
      match v with
      | JNull _ => Some On
      | _ => if (dsize t =? 0)%Z then None else
             match lag_of t v with Some On => Some Late | Some Early => Some On | _ => None end
      end
  | DEmpty => match v with JObj _ _ _ => Some Early | _ => Some On end
  | DArr n t =>
      match v with
      | JArr _ _ l => resync (lags false (map (lag_of t) (firstn n l) ++ map (fun _ => Some On) (skipn n l)))
      | _ => Some On
      end
  | DSlice t =>
      match fast_et t, v with
      | None, JArr _ _ l => resync (lags false (map (lag_of t) l))
      | _, _ => Some On
      end
  | DMap _ t => match v with JObj _ _ l => lags false (map (fun x => lag_of t (snd x)) l) | _ => Some On end
  | DStruct _ fs =>
      match v with
      | JObj _ _ l => lags false (map (member_lag (map (fun x => fst (fst x)) fs) (map (fun x => lag_of (snd x)) fs)) l)
      | _ => Some On
      end
  | _ => Some On
  end.

Lemma lags_cons top x y r q : lags top (x :: y :: r) = Some q ->
  (x = Some On \/ x = Some Early /\ top = true) /\ lags top (y :: r) = Some q.
Proof. cbn [lags]. destruct x as [[| |]|]; try discriminate; [auto|]. destruct top; [auto|discriminate]. Qed.
Lemma lags_one top x : lags top [x] = x.
Proof. destruct x as [[| |]|]; reflexivity. Qed.
Lemma lags_on top l : Forall (fun x => x = Some On) l -> lags top l = Some On.
Proof. induction 1 as [|x r -> H IH]; [reflexivity|]. destruct r; [reflexivity|]. exact IH. Qed.
Lemma lags_early top l : lags top l = Some Early -> l <> [].
Proof. intros H ->. discriminate. Qed.
Lemma early_obj d v : lag_of d v = Some Early -> exists i j l, v = JObj i j l.
Proof.
  destruct d as [x|id z|id z| |n t| |t|k t| |t|z fs]; cbn [lag_of]; try discriminate.
  - destruct v; try discriminate. destruct (lags _ _); discriminate.
  - destruct v; try discriminate; eauto.
  - destruct (fast_et t), v; try discriminate. destruct (lags _ _); discriminate.
  - destruct v; try discriminate; eauto.
  - destruct v; try discriminate; destruct (dsize t =? 0)%Z; try discriminate; destruct (lag_of t _) as [[| |]|]; discriminate.
  - destruct v; try discriminate; eauto.
Qed.
(** The documents of [ctl] are left on time. *)
Lemma ctl_on d : forall v, ctl d v -> lag_of d v = Some On.
Proof.
  induction d as [x|id z|id z| |n t IH| |t IH|k t IH| |t IH|z fs IH] using dt_ind'; cbn [ctl lag_of]; intros v H; try reflexivity.
  - destruct v; try reflexivity. rewrite lags_on; [reflexivity|]. apply Forall_app. split; apply Forall_map; [|apply Forall_forall; reflexivity].
    eapply Forall_impl; [|exact H]. exact IH.
  - destruct v; try reflexivity. destruct H.
  - destruct (fast_et t); [reflexivity|]. destruct v; try reflexivity. rewrite lags_on; [reflexivity|]. apply Forall_map.
    eapply Forall_impl; [|exact H]. exact IH.
  - destruct v; try reflexivity. apply lags_on, Forall_map. eapply Forall_impl; [|exact H]. intros a. apply IH.
  - destruct v; try reflexivity; destruct H.
  - destruct v; try reflexivity. apply lags_on, Forall_map. eapply Forall_impl; [|exact H]. clear H. intros a. unfold member_lag.
    destruct (pick _ _ _ _) as [q|]; intros H.
    + rewrite nth_error_map in *. destruct (nth_error fs q) as [y|] eqn:Ny; [|reflexivity]. cbn [option_map] in *.
      rewrite Forall_forall in IH. exact (IH y (nth_error_In _ _ Ny) _ H).
    + destruct H as [-> | ->]; [reflexivity|]. rewrite orb_true_r. reflexivity.
Qed.

(** ** Tokens at a position *)
Definition at_tok (k : nat) (ts : list token) : Prop := exists rest, skipn k toks = ts ++ rest.
Lemma at_nth k t ts rest : skipn k toks = t :: ts ++ rest -> nth_error toks k = Some t /\ k < length toks.
Proof.
  intros E. pose proof (nth_skipn0 toks k) as H. rewrite E in H. cbn in H. split; [congruence|].
  apply nth_error_Some. congruence.
Qed.
Lemma at_next k t r : skipn k toks = t :: r -> nth_error toks k = Some t /\ k < length toks /\ skipn (S k) toks = r.
Proof.
  intros E. pose proof (nth_skipn0 toks k) as H. rewrite E in H. cbn in H. split; [congruence|].
  split; [apply nth_error_Some; congruence|]. rewrite skipn_S, E. reflexivity.
Qed.
Lemma at_skip k a r : skipn k toks = a ++ r -> skipn (k + length a) toks = r.
Proof.
  intros E. rewrite Nat.add_comm, <- skipn_skipn, E. rewrite skipn_app, skipn_all, Nat.sub_diag. reflexivity.
Qed.

(** ** Lexemes *)
Lemma occurs_slice i r : occurs s i r -> slice s i (i + length r) = Some r.
Proof. exact (fun H => H). Qed.
Lemma raw_ok k i r e : occurs s i r -> e = i + length r -> raw_of s (Tok k i e 0) = Ok r.
Proof. intros H ->. unfold raw_of, sub. cbn. rewrite H. reflexivity. Qed.
Lemma occurs_inner i r : occurs s i (34%Z :: r ++ [34%Z]) -> slice s (i + 1) (i + length r + 2 - 1) = Some r.
Proof.
  unfold occurs, slice. cbn [length]. rewrite app_length. cbn [length].
  destruct (_ && _) eqn:E; [|discriminate]. intros H.
  destruct (Nat.leb (i + 1) (i + length r + 2 - 1) && Nat.leb (i + length r + 2 - 1) (length s)) eqn:E'; [|lia].
  injection H as H. f_equal.
  replace (i + length r + 2 - 1 - (i + 1)) with (length r) by lia.
  replace (i + S (length r + 1) - i) with (S (length r + 1)) in H by lia.
  replace (i + 1) with (1 + i) by lia. rewrite <- skipn_skipn.
  destruct (skipn i s) as [|c q]; [discriminate|]. cbn [firstn skipn] in *. injection H as _ H.
  transitivity (firstn (length r) (firstn (length r + 1) q)).
  - rewrite firstn_firstn. f_equal. lia.
  - rewrite H. rewrite firstn_app, firstn_all, Nat.sub_diag. cbn. apply app_nil_r.
Qed.
Lemma body_ok k i r n : occurs s i (34%Z :: r ++ [34%Z]) -> body_of s (Tok k i (i + length r + 2) n) = Ok r.
Proof. intros H. unfold body_of, sub. cbn [tk_idx tk_end]. rewrite (occurs_inner _ _ H). reflexivity. Qed.
Lemma unesc_body r : string_body r -> exists b, Valid r = UOk b.
Proof. intros (l & B & _). exists (meaning_units l). apply Valid_units, B. Qed.
Lemma unesc_str_ok i r : string_body r -> unesc_str C (i + 1) r = Ok (str_of C i r).
Proof. intros B. apply unesc_body in B as (b & B). unfold str_of, unesc_str. rewrite B. reflexivity. Qed.
Lemma unesc_ok r : string_body r -> (if o_nounescape O then Ok r else unesc r) = Ok (key_of r).
Proof. intros B. unfold key_of, unesc. apply unesc_body in B as (b & ->). destruct (o_nounescape O); reflexivity. Qed.

(** ** Skipping *)
Lemma skip_extra_flat v : forall k l rest,
  skip_extra (S l) (flat k v ++ rest) = option_map (Nat.add (ntok v)) (skip_extra (S l) rest).
Proof.
  assert (M1 : forall (o : option nat), option_map S o = option_map (Nat.add 1) o) by reflexivity.
  induction v using jv_ind'; intros k m rest; try (destruct b); try (cbn; destruct (skip_extra (S m) rest); reflexivity).
  - rewrite flat_arr, ntok_arr. cbn [app skip_extra tk_ty].
    rewrite <- app_assoc.
    assert (E : forall k m rest, skip_extra (S m) (flats k l ++ rest) = option_map (Nat.add (ntoks l)) (skip_extra (S m) rest)).
    { induction H as [|x r Hx Hr IH]; intros k' m' rest'; cbn [flats ntoks].
      - destruct (skip_extra (S m') ([] ++ rest')) eqn:Q; cbn in Q; cbn; rewrite Q; reflexivity.
      - rewrite <- app_assoc, Hx, IH. destruct (skip_extra (S m') rest'); cbn; [f_equal; lia|reflexivity]. }
    rewrite E. cbn [app skip_extra tk_ty]. destruct (skip_extra (S m) rest); cbn; [f_equal; lia|reflexivity].
  - rewrite flat_obj, ntok_obj. cbn [app skip_extra tk_ty].
    rewrite <- app_assoc.
    assert (E : forall k m rest, skip_extra (S m) (flatm k l ++ rest) = option_map (Nat.add (ntokm l)) (skip_extra (S m) rest)).
    { induction H as [|x r Hx Hr IH]; intros k' m' rest'; cbn [flatm ntokm].
      - destruct (skip_extra (S m') ([] ++ rest')) eqn:Q; cbn in Q; cbn; rewrite Q; reflexivity.
      - cbn [app skip_extra tk_ty]. rewrite <- app_assoc, Hx, IH. destruct (skip_extra (S m') rest'); cbn; [f_equal; lia|reflexivity]. }
    rewrite E. cbn [app skip_extra tk_ty]. destruct (skip_extra (S m) rest); cbn; [f_equal; lia|reflexivity].
Qed.
Lemma skip_extra_flats l : forall k j e rest,
  skip_extra 1 (flats k l ++ Tok KArrEnd j e 0 :: rest) = Some (ntoks l).
Proof.
  induction l as [|x r IH]; intros k j e rest; cbn [flats ntoks]; [reflexivity|].
  rewrite <- app_assoc, skip_extra_flat, IH. reflexivity.
Qed.

Lemma skip_unknown_flat v : obj_free v = true -> forall k rest,
  skip_unknown 0 (flat k v ++ rest) = option_map (Nat.add (ntok v)) (skip_unknown 0 rest).
Proof.
  induction v using jv_ind'; intros F k rest; try (destruct b); try (cbn; destruct (skip_unknown 0 rest); reflexivity); [|discriminate].
  rewrite flat_arr, ntok_arr. cbn [app skip_unknown tk_ty]. rewrite <- app_assoc. cbn [obj_free] in F.
  assert (E : forall k rest, skip_unknown 0 (flats k l ++ rest) = option_map (Nat.add (ntoks l)) (skip_unknown 0 rest)).
  { induction H as [|x r Hx Hr IH]; intros k' rest'; cbn [flats ntoks].
    - destruct (skip_unknown 0 ([] ++ rest')) eqn:Q; cbn in Q; cbn; rewrite Q; reflexivity.
    - cbn in F. apply andb_true_iff in F as [F1 F2].
      rewrite <- app_assoc, Hx, IH by assumption. destruct (skip_unknown 0 rest'); cbn; [f_equal; lia|reflexivity]. }
  rewrite E. cbn [app skip_unknown tk_ty]. destruct (skip_unknown 0 rest); cbn; [f_equal; lia|reflexivity].
Qed.

(** Inside an object nothing stops the search. *)
Lemma skip_unknown_in v : forall k m rest, (1 <= m)%Z ->
  skip_unknown m (flat k v ++ rest) = option_map (Nat.add (ntok v)) (skip_unknown m rest).
Proof.
  induction v using jv_ind'; intros k m rest Hm; try (destruct b); try (cbn; destruct (skip_unknown m rest); reflexivity).
  - rewrite flat_arr, ntok_arr. cbn [app skip_unknown tk_ty]. rewrite <- app_assoc.
    assert (E : forall k rest, skip_unknown m (flats k l ++ rest) = option_map (Nat.add (ntoks l)) (skip_unknown m rest)).
    { induction H as [|x r Hx Hr IH]; intros k' rest'; cbn [flats ntoks].
      - destruct (skip_unknown m ([] ++ rest')) eqn:Q; cbn in Q; cbn; rewrite Q; reflexivity.
      - rewrite <- app_assoc, Hx, IH by exact Hm. destruct (skip_unknown m rest'); cbn; [f_equal; lia|reflexivity]. }
    rewrite E. cbn [app skip_unknown tk_ty]. destruct (skip_unknown m rest); cbn; [f_equal; lia|reflexivity].
  - rewrite flat_obj, ntok_obj. cbn [app skip_unknown tk_ty]. rewrite <- app_assoc.
    assert (E : forall k rest, skip_unknown (m + 1) (flatm k l ++ rest) = option_map (Nat.add (ntokm l)) (skip_unknown (m + 1) rest)).
    { induction H as [|x r Hx Hr IH]; intros k' rest'; cbn [flatm ntokm].
      - destruct (skip_unknown (m + 1) ([] ++ rest')) eqn:Q; cbn in Q; cbn; rewrite Q; reflexivity.
      - cbn [app skip_unknown tk_ty]. destruct (Z.ltb_spec (m + 1) 1); [lia|]. rewrite <- app_assoc, Hx, IH by lia.
        destruct (skip_unknown (m + 1) rest'); cbn; [f_equal; lia|reflexivity]. }
    rewrite E. cbn [app skip_unknown tk_ty]. destruct (Z.ltb_spec (m + 1 - 1) 1); [lia|].
    replace (m + 1 - 1)%Z with m by lia. destruct (skip_unknown m rest); cbn; [f_equal; lia|reflexivity].
Qed.
Lemma skip_unknown_obj i j l k rest : skip_unknown 0 (flat k (JObj i j l) ++ rest) = Some (1 + ntokm l).
Proof.
  rewrite flat_obj. cbn [app skip_unknown tk_ty]. rewrite <- app_assoc.
  assert (E : forall l k rest, skip_unknown (0 + 1) (flatm k l ++ rest) = option_map (Nat.add (ntokm l)) (skip_unknown (0 + 1) rest)).
  { clear rest l k. induction l as [|x r IH]; intros k' rest'; cbn [flatm ntokm].
    - destruct (skip_unknown (0 + 1) ([] ++ rest')) eqn:Q; cbn in Q; cbn; rewrite Q; reflexivity.
    - cbn [app skip_unknown tk_ty]. cbn [Z.add Z.ltb Z.compare]. rewrite <- app_assoc, skip_unknown_in by lia.
      change 1%Z with (0 + 1)%Z. rewrite IH. destruct (skip_unknown (0 + 1) rest'); cbn; [f_equal; lia|reflexivity]. }
  rewrite E. cbn [app skip_unknown tk_ty]. cbn. f_equal. lia.
Qed.

(** ** decodeAny *)
Lemma decodeAny_flat v : lexed s v -> forall fuel k rest, 2 * ntok v <= fuel ->
  decodeAny C s fuel (flat k v ++ rest) = match anyv C v with Some a => DOk a rest | None => DErr end.
Proof.
  induction v using jv_ind'; intros L fuel k rest Hf; (destruct fuel as [|fuel]; [cbn in Hf; lia|]);
    rewrite decodeAny_S; cbn [lexed] in L.
  - reflexivity.
  - destruct b; reflexivity.
  - cbn [flat app tk_ty]. rewrite (raw_ok _ _ r) by (tauto || reflexivity). cbn [anyv].
    destruct (parse_float _ _ r); reflexivity.
  - cbn [flat app tk_ty]. rewrite (raw_ok _ _ r) by (tauto || reflexivity). cbn [anyv].
    destruct (parse_float _ _ r); reflexivity.
  - cbn [flat app tk_ty]. rewrite body_ok by tauto. cbn [tk_idx]. rewrite unesc_str_ok by tauto. reflexivity.
  - apply lexed_arr in L as (_ & _ & _ & L).
    rewrite flat_arr. cbn [app tk_ty]. rewrite ntok_arr in Hf. rewrite anyv_arr, <- app_assoc.
    cut (forall k e acc fuel, 1 + 2 * ntoks l <= fuel ->
      anyArr C s fuel acc (flats k l ++ Tok KArrEnd j e 0 :: rest) =
      match anyl C acc l with Some a => DOk a rest | None => DErr end).
    { intros E. apply E. lia. }
    clear Hf. induction H as [|x r Hx Hr IH]; intros k' e acc f' Hf'; (destruct f' as [|f']; [lia|]); rewrite anyArr_S.
    + reflexivity.
    + inversion L as [|? ? L1 L2]; subst. cbn [flats ntoks anyl] in *. rewrite <- app_assoc.
      pose proof (ntok_pos x).
      rewrite (Hx L1) by lia.
      transitivity (match match anyv C x with Some a => DOk a (flats (k' + ntok x) r ++ Tok KArrEnd j e 0 :: rest) | None => DErr end with
                    | DOk v rest => anyArr C s f' (acc ++ [v]) rest | e => e end).
      { destruct x; try destruct b; try rewrite flat_arr; try rewrite flat_obj; reflexivity. }
      destruct (anyv C x); [|reflexivity]. apply IH; [exact L2|lia].
  - apply lexed_obj in L as (_ & _ & _ & L).
    rewrite flat_obj. cbn [app tk_ty tk_n]. rewrite ntok_obj in Hf. rewrite anyv_obj, <- app_assoc.
    destruct (Nat.eqb_spec (length l) 0) as [Z|_].
    { destruct l; [|discriminate]. reflexivity. }
    cut (forall k e acc fuel, 1 + 2 * ntokm l <= fuel ->
      anyObj C s fuel acc (flatm k l ++ Tok KObjEnd j e 0 :: rest) =
      match anym C acc l with Some a => DOk a rest | None => DErr end).
    { intros E. apply E. lia. }
    clear Hf. induction H as [|x r Hx Hr IH]; intros k' e acc f' Hf'; (destruct f' as [|f']; [lia|]); rewrite anyObj_S.
    + reflexivity.
    + inversion L as [|? ? [[K1 K2] L1] L2]; subst. cbn [flatm ntokm anym app tk_ty] in *. rewrite <- app_assoc.
      pose proof (ntok_pos (snd x)). rewrite body_ok by exact K1.
      rewrite (Hx L1) by lia. cbn [tk_idx].
      destruct (anyv C (snd x)); [|reflexivity]. rewrite unesc_str_ok by exact K2. apply IH; [exact L2|lia].
Qed.

(** ** Ends of values *)
(** What happens at the end of a value at frame [i], the next token being [k]. *)
Definition fin (q : lag) (i k : nat) (D : dyn) (h : heap) : out :=
  match q with
  | On => on_val_end (St i k D h)
  | Late => Next (St i k D h)
  | Early => on_val_end (St i (pred k) D h)
  end.
(** From [x] the loop arrives at the end of a value at frame [i] (of [n] frames), the
    next token being [k], with the result [r] of the recursive decoder.  Only the state
    of the frames below frame [i] has changed. *)
Definition ends (q : lag) (x : st) (i n k : nat) (D : dyn) (r : hres) : Prop :=
  match r with
  | HOk h => exists D', reach x (fin q i k D' h) /\ dyn_ok D' /\
      forall j, ~ (i < j < i + n) -> D' j = D j
  | HErr idx e h => exists y, reach x (Fail idx e y) /\ hp y = h
  | HPan => reach x Panic
  | HCor => reach x Corrupt
  end.

Lemma ends_step q x i n k D r x' : ti x < length toks -> step x = Next x' -> ends q x' i n k D r -> ends q x i n k D r.
Proof.
  intros L E H. destruct r; cbn [ends] in *.
  - destruct H as (D' & R & H). exists D'. split; [eapply reach_more; eauto|exact H].
  - destruct H as (y & R & H). exists y. split; [eapply reach_more; eauto|exact H].
  - eapply reach_more; eauto.
  - eapply reach_more; eauto.
Qed.
Lemma ends_reach q x i n k D r x' : reach x (Next x') -> ends q x' i n k D r -> ends q x i n k D r.
Proof.
  intros E H. destruct r; cbn [ends] in *.
  - destruct H as (D' & R & H). exists D'. split; [eapply reach_then; eauto|exact H].
  - destruct H as (y & R & H). exists y. split; [eapply reach_then; eauto|exact H].
  - eapply reach_then; eauto.
  - eapply reach_then; eauto.
Qed.
(** A value handled by one iteration. *)
Definition one (r : hres) (i k : nat) (D : dyn) (x : st) (o : out) : Prop :=
  match r with
  | HOk h => o = on_val_end (St i k D h)
  | HErr idx e h => o = Fail idx e (with_hp h x)
  | HPan => o = Panic
  | HCor => o = Corrupt
  end.
Lemma ends_one x i n k D r : ti x < length toks -> dyn_ok D -> one r i k D x (step x) -> ends On x i n k D r.
Proof.
  intros L H E. destruct r; cbn in *.
  - exists D. split; [apply reach_one; assumption|]. split; [exact H|reflexivity].
  - eexists. split; [apply reach_one; eassumption|reflexivity].
  - apply reach_one; assumption.
  - apply reach_one; assumption.
Qed.

(** *** Scalars *)
Definition scalar_jv (v : jv) : bool := match v with JArr _ _ _ | JObj _ _ _ => false | _ => true end.

Lemma one_sres j (r : sres) i k D x o :
  o = lift r (fun '(h, e) => match e with Some e => Fail j e (with_hp h x) | None => on_val_end (St i k D h) end) ->
  one (sres_h j r) i k D x o.
Proof. intros ->. unfold sres_h. destruct r as [[h [e|]]| |]; cbn; reflexivity. Qed.

Lemma str_tok_leaf f f' tv i p h : f_ty f = f_ty f' -> (f_ty f = EText -> f_size f = f_size f' /\ f_rt f = f_rt f') ->
  str_tok C f tv i p h = str_tok C f' tv i p h.
Proof.
  intros T H. unfold str_tok. rewrite <- T. destruct (f_ty f); try reflexivity.
  destruct (H eq_refl) as [H1 H2]. unfold user_id. rewrite H1, H2. reflexivity.
Qed.
Lemma scalar_h_leaf f f' v p h : f_ty f = f_ty f' -> (f_ty f = EText -> f_size f = f_size f' /\ f_rt f = f_rt f') ->
  scalar_h C f v p h = scalar_h C f' v p h.
Proof. intros T H. unfold scalar_h. destruct v; rewrite <- ?T; try reflexivity. rewrite (str_tok_leaf f f'); auto. Qed.

Lemma step_scalar i k D h f v rest :
  nth_error stk i = Some f -> f_ty f <> EJSON -> f_ty f <> EPtr -> scalar_jv v = true -> lexed s v ->
  skipn k toks = flat k v ++ rest ->
  one (scalar_h C f v (dst D i) h) i (S k) D (St i k D h) (step (St i k D h)).
Proof.
  intros Hf N1 N2 S L E.
  assert (G : forall t, nth_error toks k = Some t -> 
    match tk_ty t with KArr | KObj | KKey | KObjEnd | KArrEnd => False | _ => True end ->
    step (St i k D h) = lift (scalar_tok C s f t (dst D i) h) (fun '(h', r) =>
              match r with
              | Some e => Fail (tk_idx t) e (with_hp h' (St i k D h))
              | None => on_val_end (St i (Datatypes.S k) D h')
              end)).
  { intros t Ht K. unfold Machine.step. cbn [ti si]. rewrite Ht. unfold fr. rewrite Hf.
    destruct (tk_ty t); try contradiction; destruct (f_ty f); try congruence; reflexivity. }
  destruct v; try discriminate; cbn [flat app] in E; apply at_next in E as (Et & _ & _);
    specialize (G _ Et); cbn [tk_ty tk_idx] in G.
  - rewrite (G I). unfold scalar_tok. cbn [tk_ty scalar_h].
    destruct (null_tok C (f_ty f) (dst D i) h); cbn; reflexivity.
  - destruct b; rewrite (G I); unfold scalar_tok; cbn [tk_ty scalar_h]; apply one_sres; reflexivity.
  - rewrite (G I). unfold scalar_tok. cbn [tk_ty tk_idx scalar_h]. cbn in L. rewrite (raw_ok _ _ raw) by (tauto || reflexivity).
    cbn [rbind]. apply one_sres; reflexivity.
  - rewrite (G I). unfold scalar_tok. cbn [tk_ty tk_idx scalar_h]. cbn in L. rewrite (raw_ok _ _ raw) by (tauto || reflexivity).
    cbn [rbind]. apply one_sres; reflexivity.
  - rewrite (G I). unfold scalar_tok. cbn [tk_ty tk_idx scalar_h]. cbn in L. rewrite body_ok by tauto.
    cbn [rbind]. apply one_sres; reflexivity.
Qed.

(** *** any *)
Lemma one_lift {A} (r : res A) (g : A -> heap) i k D x o :
  o = lift r (fun a => on_val_end (St i k D (g a))) -> one (hlift r (fun a => HOk (g a))) i k D x o.
Proof. intros ->. destruct r; cbn; reflexivity. Qed.

Lemma step_any i k D h f v rest t :
  nth_error stk i = Some f -> lexed s v -> skipn k toks = flat k v ++ rest ->
  tk_idx t = jidx v ->
  one (any_h C v (dst D i) h) i (k + ntok v) D (St i k D h) (any_tok C stk s toks t (St i k D h)).
Proof.
  intros Hf L E Ht. unfold any_tok. cbn [ti si dy hp]. rewrite E.
  assert (Len : length toks = k + (ntok v + length rest) \/ length toks <= k).
  { destruct (Nat.le_gt_cases (length toks) k); [right; assumption|left].
    apply (f_equal (@length token)) in E. rewrite skipn_length, app_length, flat_length in E. lia. }
  assert (length toks = k + (ntok v + length rest)) as Len'.
  { destruct Len as [Len|Len]; [exact Len|]. rewrite skipn_all2 in E by exact Len.
    apply (f_equal (@length token)) in E. rewrite app_length, flat_length in E. pose proof (ntok_pos v). cbn in E. lia. }
  rewrite decodeAny_flat by (try exact L; lia). unfold any_h. destruct (anyv C v); [|cbn; rewrite Ht; reflexivity].
  apply one_lift. replace (length toks - length rest) with (k + ntok v) by lia. reflexivity.
Qed.

(** *** json.Unmarshaler *)
Lemma step_json i k D h f v rest id size t :
  nth_error stk i = Some f -> f_rt f = Some (RNamed id) -> f_size f = size ->
  lexed s v -> skipn k toks = flat k v ++ rest -> nth_error toks k = Some t ->
  one (json_h C s id size v (dst D i) h) i (k + ntok v) D (St i k D h) (on_json C stk s toks f t (St i k D h)).
Proof.
  intros Hf Hr Hs L E Ht. unfold on_json, json_h. cbv zeta. cbn [ti].
  assert (tk_idx t = jidx v /\
    match tk_ty t with
    | KObj | KArr =>
        match nth_error toks (tk_end t) with
        | None => Pan
        | Some te => let* r := sub s (tk_idx t) (tk_idx te + 1) in Ok (r, (tk_end t + 1)%nat)
        end
    | _ => let* r := raw_of s t in Ok (r, S k)
    end = (let* r := jraw s v in Ok (r, k + ntok v))) as [Hi ->].
  { destruct v.
    1,3,4,5: cbn [flat app] in E; apply at_next in E as (Et & _ & _); rewrite Ht in Et; injection Et as ->; cbn [tk_ty tk_idx jidx ntok];
      rewrite Nat.add_1_r; split; [reflexivity|]; unfold raw_of, jraw; cbn [tk_idx tk_end]; reflexivity.
    - cbn [flat app] in E; apply at_next in E as (Et & _ & _); rewrite Ht in Et; injection Et as ->; cbn [tk_ty tk_idx jidx ntok];
      replace (k + 1) with (S k) by lia; split; [reflexivity|]; unfold raw_of, jraw; cbn [tk_idx tk_end]; destruct b; reflexivity.
    - rewrite flat_arr in E. cbn [app] in E. rewrite <- app_assoc in E. pose proof E as E'.
      apply at_next in E as (Et & _ & E). rewrite Ht in Et. injection Et as ->. cbn [tk_ty tk_idx tk_end jidx].
      split; [reflexivity|]. apply at_skip in E. rewrite flats_length in E. apply at_next in E as (En & _ & _).
      cbn [Nat.add] in En |- *. rewrite En. cbn [tk_idx jraw]. rewrite ntok_arr. replace (k + (2 + ntoks l)) with (S (k + ntoks l + 1)) by lia. reflexivity.
    - rewrite flat_obj in E. cbn [app] in E. rewrite <- app_assoc in E. pose proof E as E'.
      apply at_next in E as (Et & _ & E). rewrite Ht in Et. injection Et as ->. cbn [tk_ty tk_idx tk_end jidx].
      split; [reflexivity|]. apply at_skip in E. rewrite flatm_length in E. apply at_next in E as (En & _ & _).
      cbn [Nat.add] in En |- *. rewrite En. cbn [tk_idx jraw]. rewrite ntok_obj. replace (k + (2 + ntokm l)) with (S (k + ntokm l + 1)) by lia. reflexivity. }
  destruct (jraw s v) as [raw| |]; cbn [rbind lift hlift]; try reflexivity.
  unfold user_id. rewrite Hr. cbn [lift]. cbn [hp dy si]. rewrite Hs.
  destruct (load_user h (dst D i) size) as [old| |]; cbn [lift hlift]; try reflexivity.
  destruct (c_uj C id old raw) as [new er]. destruct (store_user h (dst D i) size new) as [h'| |]; cbn [lift hlift]; try reflexivity.
  destruct er; cbn; [rewrite Hi|]; reflexivity.
Qed.

(** *** Specialised slices *)
Definition fast_kind (e : et) : bool :=
  match e with ESliceBool | ESliceStr | ESliceInt _ | ESliceF _ => true | _ => false end.
Lemma fast_loop_flats e a n l : fast_kind e = true -> forall k i h, (n = i + Z.of_nat (length l))%Z ->
  fast_loop C s e a n i (flats k l) h = fast_elems C s e a i l h.
Proof.
  intros F. induction l as [|x l IH]; intros k i h Hn; [reflexivity|]. cbn [flats fast_elems length] in *.
  assert (G : forall t rest, flat k x ++ rest = t :: rest -> fast_elem C s e t = fastv C s e x -> tk_idx t = jidx x ->
     rest = flats (k + ntok x) l ->
     fast_loop C s e a n i (t :: rest) h =
     (let* y := fastv C s e x in match y with inr er => Ok (h, Some (jidx x, er))
      | inl (v, sz) => let* h := store h (padd (Some a) (i * sz)) sz v in fast_elems C s e a (i + 1) l h end)).
  { intros t rest _ Ht Hi Hr. cbn [fast_loop]. rewrite Ht. destruct (fastv C s e x) as [[[v sz]|er]| |]; cbn [rbind]; try reflexivity.
    - destruct (Z.leb_spec n i); [lia|]. destruct (store _ _ _ _); cbn [rbind]; try reflexivity.
      rewrite Hr. apply IH. lia.
    - rewrite Hi. reflexivity. }
  destruct x; try (cbn [flat app]; rewrite (G _ _ eq_refl); reflexivity).
  - rewrite flat_arr. cbn [app fast_loop]. destruct e; try discriminate; reflexivity.
  - rewrite flat_obj. cbn [app fast_loop]. destruct e; try discriminate; reflexivity.
Qed.

Lemma step_fast e i j k D h l ia rest :
  fast_kind e = true -> skipn k toks = flat k (JArr ia j l) ++ rest ->
  one (fast_h C s e l (dst D i) h) i (k + ntok (JArr ia j l)) D (St i k D h)
    (fast_slice C stk s toks e (Tok KArr ia (S k + ntoks l) (length l)) (St i k D h)).
Proof.
  intros F E. rewrite ntok_arr, flat_arr in *. cbn [app] in E. rewrite <- app_assoc in E.
  apply at_next in E as (_ & _ & E).
  unfold fast_slice, fast_h. cbv zeta. cbn [tk_n tk_end si dy hp ti]. fold w64 W.
  destruct l as [|v0 l0] eqn:El.
  - cbn [length ntoks]. cbn [Z.of_nat Z.ltb Z.compare]. apply one_lift. reflexivity.
  - rewrite <- El in *. destruct (Z.ltb_spec (Z.of_nat (length l)) 1) as [Q|Q]; [subst l; cbn in Q; lia|]. clear El v0 l0.
    destruct (let* c := load h (dst D i) (3 * W) in as_slice c) as [[[data len] cap]| |]; cbn [lift hlift]; try reflexivity.
    set (reuse := negb (cap <? Z.of_nat (length l))%Z).
    set (ah := if reuse then (data, h) else let '(a, h0) := malloc h (fast_size C e * Z.of_nat (length l))%Z in (Some a, h0)).
    destruct ah as [[a|] h1]; [|reflexivity]. 
    replace (firstn (S k + ntoks l - S k) (skipn (S k) toks)) with (flats (S k) l)
      by (rewrite E; symmetry; apply firstn_app_l; rewrite flats_length; lia).
    rewrite (fast_loop_flats e a _ l F) by lia. rewrite flats_length.
    destruct (fast_elems C s e a 0 l h1) as [[h2 [[ei ee]|]]| |]; cbn [lift hlift]; try reflexivity.
    apply one_lift. replace (k + ntoks l + 2) with (k + (2 + ntoks l)) by lia. reflexivity.
Qed.

(** *** map[string]string *)
Lemma mss_loop_flatm l : Forall (fun x => key_lexed s x /\ lexed s (snd x)) l -> forall k acc,
  mss_loop C s (flatm k l) acc = Ok (mss_h C l acc).
Proof.
  induction 1 as [|x l [[K1 K2] L] _ IH]; intros k acc; [reflexivity|]. cbn [flatm mss_h].
  destruct (snd x); try (cbn [flat app mss_loop tk_ty tk_idx jidx]).
  - rewrite body_ok by exact K1. cbn [rbind tk_idx]. rewrite unesc_str_ok by exact K2. cbn [rbind]. apply IH.
  - destruct b; reflexivity.
  - reflexivity.
  - reflexivity.
  - cbn in L. rewrite body_ok by exact K1. cbn [rbind]. rewrite unesc_str_ok by exact K2. cbn [rbind].
    rewrite body_ok by tauto. cbn [rbind]. rewrite unesc_str_ok by tauto. cbn [rbind]. apply IH.
  - reflexivity.
  - reflexivity.
Qed.

(** *** Frames *)
Lemma fits_head i d : fits i d -> exists fields, head_is w64 stk i d fields.
Proof.
  destruct d; cbn [Dt.fits]; try (intros H; eauto; fail); try (intros (H & _); eauto).
  destruct (fast_et d); [eauto|]. intros (H & _); eauto.
Qed.

(** The induction hypothesis: decoding at type [t] runs [dech t]. *)
Definition value_ok (t : dt) : Prop := forall i k v q D h rest,
  fits i t -> dyn_ok D -> lexed s v -> lag_of t v = Some q -> skipn k toks = flat k v ++ rest ->
  ends q (St i k D h) i (dlen t) (k + ntok v) D (dech t v (dst D i) h).

Lemma head_not_recur t : dt_et t <> EStructRecur.
Proof. destruct t as [x| | | | | |t| | | |]; try destruct x; cbn; try discriminate. destruct t as [x| | | | | | | | | |]; try destruct x; cbn; discriminate. Qed.

(** The end of an array: back from the element frame to the array frame. *)
Lemma step_arr_end i k D h f j e n rest :
  nth_error stk (S i) = Some f -> f_ty f <> EStructRecur -> skipn k toks = Tok KArrEnd j e n :: rest ->
  step (St (S i) k D h) = on_val_end (St i (S k) D h).
Proof.
  intros Hf N E. apply at_next in E as (Et & _ & _). unfold Machine.step. cbn [ti si]. rewrite Et. unfold fr. rewrite Hf.
  cbn [tk_ty]. unfold arr_end_tok. cbn [goto_ti si ti dy hp goto_si]. destruct (f_ty f); congruence || reflexivity.
Qed.

Lemma ends_hbind q x i n k D r g :
  match r with
  | HOk h => exists x', reach x (Next x') /\ ends q x' i n k D (g h)
  | HErr idx e h => exists y, reach x (Fail idx e y) /\ hp y = h
  | HPan => reach x Panic | HCor => reach x Corrupt
  end -> ends q x i n k D (hbind r g).
Proof.
  destruct r; cbn [hbind]; try (intros H; exact H). intros (x' & R & H). eapply ends_reach; eauto.
Qed.
Lemma hbind_ok r : hbind r HOk = r.
Proof. destruct r; reflexivity. Qed.
Lemma reach_fin x (q : lag) i k D h o : (forall y, reach y (fin q i k D h) -> reach y o) -> reach x (fin q i k D h) -> reach x o.
Proof. intros H. apply H. Qed.
Lemma dt_et_nonrec d : dt_et d <> EMapRecur.
Proof. destruct d as [x| | | | | |t| | | |]; try destruct x; cbn; try discriminate. destruct t as [x| | | | | | | | | |]; try destruct x; cbn; discriminate. Qed.

(** A closing brace leaves the current frame, whatever it is. *)
Lemma step_obj_end i k D h f d j e n rest :
  nth_error stk i = Some f -> f_ty f = dt_et d -> dyn_ok D -> skipn k toks = Tok KObjEnd j e n :: rest ->
  step (St i k D h) = on_val_end (St i (S k) D h) /\ k < length toks.
Proof.
  intros Hf T Dk E. apply at_next in E as (Et & Lt & _). split; [|exact Lt]. unfold Machine.step. cbn [ti si]. rewrite Et. unfold fr. rewrite Hf.
  cbn [tk_ty]. unfold obj_end_tok, on_recur_obj_end. cbn [goto_ti si ti dy hp]. unfold fr. rewrite Hf.
  destruct (Dk i f Hf) as [Rn _]; [rewrite T; apply head_not_recur|]. rewrite Rn.
  pose proof (head_not_recur d). pose proof (dt_et_nonrec d). rewrite <- T in *. destruct (f_ty f); congruence || reflexivity.
Qed.
(** The last token of an object. *)
Lemma obj_last k i j l rest : skipn k toks = flat k (JObj i j l) ++ rest ->
  skipn (pred (k + ntok (JObj i j l))) toks = Tok KObjEnd j k 0 :: rest /\ S (pred (k + ntok (JObj i j l))) = k + ntok (JObj i j l).
Proof.
  rewrite flat_obj, ntok_obj. cbn [app]. rewrite <- app_assoc. intros E. apply at_next in E as (_ & _ & E). apply at_skip in E. rewrite flatm_length in E.
  split; [|lia]. replace (pred (k + (2 + ntokm l))) with (S k + ntokm l) by lia. exact E.
Qed.
Lemma early_last k v d rest : lag_of d v = Some Early -> skipn k toks = flat k v ++ rest ->
  exists j, skipn (pred (k + ntok v)) toks = Tok KObjEnd j k 0 :: rest /\ S (pred (k + ntok v)) = k + ntok v.
Proof. intros L E. apply early_obj in L as (i & j & l & ->). exists j. exact (obj_last _ _ _ _ _ E). Qed.

(** The end of the element of an array or slice, when nothing or the closing brace of an
    early element is left before the end of the array. *)
Lemma elem_end i fa fe k D h j e n rest :
  nth_error stk i = Some fa -> f_ty fa = EArray \/ f_ty fa = ESlice ->
  nth_error stk (S i) = Some fe -> f_parent fe = Some i -> f_ty fe <> EStructRecur -> dyn_ok D ->
  skipn k toks = Tok KArrEnd j e n :: rest ->
  exists D', on_val_end (St (S i) k D h) = Next (St (S i) k D' h) /\ dyn_ok D' /\ forall j, j <> S i -> D' j = D j.
Proof.
  intros Ha Ta He Pe NR Dk E. assert (EF : elem_frame fe) by (exists i, fa; auto).
  assert (Up : forall D g, dyn_ok D -> (forall d, d_rs d = [] -> d_rs (g d) = []) -> dyn_ok (upd_d D (S i) g)) by (intros; eapply dyn_ok_elem; eauto).
  assert (Fr : forall D g j, j <> S i -> upd_d D (S i) g j = D j) by (intros ? ? j0 Hj; unfold upd_d; destruct (Nat.eqb_spec j0 (S i)); [contradiction|reflexivity]).
  unfold Machine.on_val_end. cbn [si]. unfold fr. rewrite He, Pe, Ha. cbn [dy ti hp]. rewrite E. cbn [skip_extra tk_ty]. rewrite Nat.add_0_r.
  destruct Ta as [-> | ->]; [destruct (_ <=? _)%Z|]; eexists; (split; [reflexivity|split]).
  - apply Up; [exact Dk|auto].
  - intros j0 Hj. apply Fr, Hj.
  - apply Up; [apply Up; [exact Dk|auto]|auto].
  - intros j0 Hj. rewrite !Fr by exact Hj. reflexivity.
  - apply Up; [exact Dk|auto].
  - intros j0 Hj. apply Fr, Hj.
Qed.
Lemma elem_end_early t i fa fe k D h j1 e1 n1 j e n rest :
  nth_error stk i = Some fa -> f_ty fa = EArray \/ f_ty fa = ESlice ->
  nth_error stk (S i) = Some fe -> f_parent fe = Some i -> f_ty fe = dt_et t -> dyn_ok D ->
  skipn k toks = Tok KObjEnd j1 e1 n1 :: Tok KArrEnd j e n :: rest ->
  exists D', (forall x, reach x (on_val_end (St (S i) k D h)) -> reach x (Next (St (S i) (S k) D' h))) /\ dyn_ok D' /\ forall j, j <> S i -> D' j = D j.
Proof.
  intros Ha Ta He Pe Te Dk E. assert (EF : elem_frame fe) by (exists i, fa; auto).
  assert (NR : f_ty fe <> EStructRecur) by (rewrite Te; apply head_not_recur).
  assert (Up : forall D g, dyn_ok D -> (forall d, d_rs d = [] -> d_rs (g d) = []) -> dyn_ok (upd_d D (S i) g)) by (intros; eapply dyn_ok_elem; eauto).
  assert (Fr : forall D g j, j <> S i -> upd_d D (S i) g j = D j) by (intros ? ? j0 Hj; unfold upd_d; destruct (Nat.eqb_spec j0 (S i)); [contradiction|reflexivity]).
  assert (Again : forall D1, dyn_ok D1 -> (forall j, j <> S i -> D1 j = D j) ->
    exists D', (forall x, reach x (Next (St (S i) k D1 h)) -> reach x (Next (St (S i) (S k) D' h))) /\ dyn_ok D' /\ forall j, j <> S i -> D' j = D j).
  { intros D1 Dk1 F1. destruct (step_obj_end (S i) k D1 h fe t j1 e1 n1 _ He Te Dk1 E) as [ST Lt].
    apply at_next in E as (_ & _ & E).
    destruct (elem_end i fa fe (S k) D1 h j e n rest Ha Ta He Pe NR Dk1 E) as (D' & Ev & Dk' & F'). rewrite Ev in ST.
    exists D'. split; [|split; [exact Dk'|intros j0 Hj; rewrite F', F1 by exact Hj; reflexivity]].
    intros x R. eapply reach_then; [exact R|]. apply reach_one; [exact Lt|exact ST]. }
  unfold Machine.on_val_end at 1. cbn [si]. unfold fr. rewrite He, Pe, Ha. cbn [dy ti hp].
  destruct Ta as [-> | ->]; [destruct (_ <=? _)%Z|].
  - rewrite E. cbn [skip_extra tk_ty option_map]. exists (upd_d D (S i) (set_dlen (d_len (D (S i)) + 1))).
    replace (k + 1) with (S k) by lia. split; [auto|]. split; [apply Up; [exact Dk|auto]|]. intros j0 Hj. apply Fr, Hj.
  - apply Again.
    + apply Up; [apply Up; [exact Dk|auto]|auto].
    + intros j0 Hj. rewrite !Fr by exact Hj. reflexivity.
  - apply Again; [apply Up; [exact Dk|auto]|]. intros j0 Hj. apply Fr, Hj.
Qed.

(** The last element of an array or slice: whatever its lag, the end of the array is
    reached on time. *)
Lemma last_elem t i fa fe q v k D D0 h j e n rest r :
  nth_error stk i = Some fa -> f_ty fa = EArray \/ f_ty fa = ESlice ->
  nth_error stk (S i) = Some fe -> f_parent fe = Some i -> f_ty fe = dt_et t ->
  lag_of t v = Some q -> skipn k toks = flat k v ++ Tok KArrEnd j e n :: rest ->
  (forall j, ~ (i < j < i + S (dlen t)) -> D j = D0 j) ->
  ends q (St (S i) k D h) (S i) (dlen t) (k + ntok v) D r ->
  ends On (St (S i) k D h) i (S (dlen t)) (k + ntok v + 1) D0 r.
Proof.
  intros Ha Ta He Pe Te Q E D0k V. destruct r as [h1|ei ee h1| |]; try exact V.
  destruct V as (D1 & R & Dk1 & A1).
  assert (NR : f_ty fe <> EStructRecur) by (rewrite Te; apply head_not_recur).
  pose proof E as E1. apply at_skip in E1. rewrite flat_length in E1.
  assert (Fin : exists D', reach (St (S i) k D h) (Next (St (S i) (k + ntok v) D' h1)) /\ dyn_ok D' /\ forall j, j <> S i -> D' j = D1 j).
  { destruct q; cbn [fin] in R.
    - destruct (elem_end i fa fe _ D1 h1 j e n rest Ha Ta He Pe NR Dk1 E1) as (D' & Ev & Dk' & F'). rewrite Ev in R. exists D'. auto.
    - exists D1. auto.
    - destruct (early_last k v t _ Q E) as (j1 & E2 & Sk).
      destruct (elem_end_early t i fa fe _ D1 h1 _ _ _ _ _ _ _ Ha Ta He Pe Te Dk1 E2) as (D' & Ev & Dk' & F').
      apply Ev in R. rewrite Sk in R. exists D'. auto. }
  destruct Fin as (D' & R' & Dk' & F').
  exists D'. split; [|split; [exact Dk'|]].
  - eapply reach_then; [exact R'|]. apply reach_one; [apply at_next in E1; apply E1|]. cbn [fin].
    rewrite (step_arr_end i _ D' h1 fe j e n rest) by assumption. f_equal. f_equal. lia.
  - intros j0 Hj. pose proof (dlen_pos t). rewrite F' by lia. rewrite A1 by lia. apply D0k, Hj.
Qed.
(** The last value of an object: the object has the same lag. *)
Lemma last_member d i f idx fy dy0 q v k D D0 N h j e n rest r :
  nth_error stk i = Some f -> f_ty f = dt_et d -> f_ty f = EStruct \/ f_ty f = EMap ->
  nth_error stk idx = Some fy -> f_parent fy = Some i -> f_ty fy = dt_et dy0 ->
  i < idx -> idx + dlen dy0 <= i + N ->
  lag_of dy0 v = Some q -> skipn k toks = flat k v ++ Tok KObjEnd j e n :: rest ->
  (forall j, ~ (i < j < i + N) -> D j = D0 j) ->
  ends q (St idx k D h) idx (dlen dy0) (k + ntok v) D r ->
  ends q (St idx k D h) i N (k + ntok v + 1) D0 r.
Proof.
  intros Hf Tf Ty Hy Py Te G1 G2 Q E D0k V. destruct r as [h1|ei ee h1| |]; try exact V.
  destruct V as (D1 & R & Dk1 & A1). exists D1. split; [|split; [exact Dk1|intros j0 Hj; rewrite A1 by lia; apply D0k, Hj]].
  assert (Up : forall k, on_val_end (St idx k D1 h1) = Next (St i k D1 h1)).
  { intros k'. unfold Machine.on_val_end. cbn [si]. unfold fr. rewrite Hy, Py, Hf. destruct Ty as [-> | ->]; reflexivity. }
  pose proof E as E1. apply at_skip in E1. rewrite flat_length in E1.
  destruct q; cbn [fin] in *.
  - rewrite Up in R. destruct (step_obj_end i (k + ntok v) D1 h1 f d j e n rest Hf Tf Dk1 E1) as [ST Lt].
    eapply reach_then; [exact R|]. apply reach_one; [exact Lt|]. rewrite ST. repeat f_equal. lia.
  - destruct (step_obj_end idx (k + ntok v) D1 h1 fy dy0 j e n rest Hy Te Dk1 E1) as [ST Lt].
    eapply reach_then; [exact R|]. apply reach_one; [exact Lt|]. rewrite ST, Up. repeat f_equal. lia.
  - rewrite Up in R. destruct (early_last k v dy0 _ Q E) as (j1 & E2 & Sk).
    destruct (step_obj_end i _ D1 h1 f d _ _ _ _ Hf Tf Dk1 E2) as [ST Lt].
    eapply reach_then; [exact R|]. apply reach_one; [exact Lt|]. rewrite ST. rewrite Sk. repeat f_equal. lia.
Qed.

(** Elements of [n]T from element [m] < n on. *)
Lemma array_loop n t i fa fe : value_ok t ->
  nth_error stk i = Some fa -> f_ty fa = EArray ->
  nth_error stk (S i) = Some fe -> f_ty fe = dt_et t -> f_size fe = dsize t -> f_parent fe = Some i -> f_cap fe = Z.of_nat n ->
  fits (S i) t ->
  forall l m k p D D0 h j e rest, m < n -> l <> [] ->
  dyn_ok D -> D (S i) = DF p (Z.of_nat m * dsize t) (Z.of_nat m) [] ->
  (forall j, ~ (i < j < i + S (dlen t)) -> D j = D0 j) ->
  Forall (lexed s) l ->
  lags false (map (lag_of t) (firstn (n - m) l) ++ map (fun _ => Some On) (skipn (n - m) l)) <> None ->
  skipn k toks = flats k l ++ Tok KArrEnd j e 0 :: rest ->
  ends On (St (S i) k D h) i (S (dlen t)) (k + ntoks l + 1) D0
    (elems_h (dech t) (dsize t) (Z.of_nat m) (firstn (n - m) l) p h).
Proof.
  intros IH Ha Ta He Te Se Pe Ce Ft.
  assert (NR : f_ty fe <> EStructRecur) by (rewrite Te; apply head_not_recur).
  assert (EF : elem_frame fe) by (exists i, fa; auto).
  induction l as [|v l IHl]; intros m k p D D0 h j e rest Hm Nl Dk De D0k L Cl E; [congruence|clear Nl].
  destruct (n - m) as [|q] eqn:Q; [lia|]. cbn [firstn skipn map app elems_h flats ntoks] in *. rewrite <- app_assoc in E.
  inversion L as [|? ? Lv Ll]; subst.
  destruct l as [|w l0].
  - rewrite firstn_nil, skipn_nil in Cl. cbn [map app lags] in Cl. destruct (lag_of t v) as [qv|] eqn:Qv; [|congruence].
    cbn [flats app] in E. rewrite firstn_nil. cbn [elems_h ntoks].
    pose proof (IH (S i) k v qv D h _ Ft Dk Lv Qv E) as V. unfold dst in V. rewrite De in V. cbn [d_dest d_off] in V.
    replace (k + (ntok v + 0) + 1) with (k + ntok v + 1) by lia.
    match goal with |- ends _ _ _ _ _ _ (hbind ?r _) => change (ends On (St (S i) k D h) i (S (dlen t)) (k + ntok v + 1) D0 (hbind r HOk)) end.
    rewrite hbind_ok. eapply last_elem; [exact Ha|auto|exact He|exact Pe|exact Te|exact Qv|exact E|assumption|exact V].
  - set (l := w :: l0) in *.
    assert (Nl : l <> []) by discriminate.
    assert (Sp : exists a b, map (lag_of t) (firstn q l) ++ map (fun _ => Some On) (skipn q l) = a :: b).
    { destruct q; cbn [firstn skipn map app l]; eauto. }
    destruct Sp as (a & b & Sp). rewrite Sp in Cl.
    destruct (lags false (lag_of t v :: a :: b)) as [qq|] eqn:Lg; [|congruence]. apply lags_cons in Lg as [[Cv|[_ X]] Cr]; [|discriminate].
    rewrite <- Sp in Cr. clear Cl a b Sp.
    pose proof (IH (S i) k v On D h _ Ft Dk Lv Cv E) as V.
    apply at_skip in E. rewrite flat_length in E.
    unfold dst in V. rewrite De in V. cbn [d_dest d_off] in V.
    apply ends_hbind. destruct (dech t v (padd p (Z.of_nat m * dsize t)) h) as [h1|ei ee h1| |]; try exact V.
    destruct V as (D1 & R & Dk1 & A1). cbn [fin] in R.
    assert (De1 : D1 (S i) = D (S i)) by (apply A1; lia).
    assert (OV : on_val_end (St (S i) (k + ntok v) D1 h1) =
       let D2 := upd_d D1 (S i) (set_dlen (Z.of_nat m + 1)) in
       if (Z.of_nat n <=? Z.of_nat m + 1)%Z then Next (St (S i) (k + ntok v + ntoks l) D2 h1)
       else Next (St (S i) (k + ntok v) (upd_d D2 (S i) (fun d => set_doff (d_off d + dsize t) d)) h1)).
    { unfold Machine.on_val_end. cbn [si]. unfold fr. rewrite He, Pe, Ha, Ta. cbn [dy ti hp]. rewrite De1, De, Ce, Se. cbn [d_len].
      rewrite E, skip_extra_flats. reflexivity. }
    rewrite OV in R. clear OV. cbv zeta in R.
    assert (A2 : forall j, ~ (i < j < i + S (dlen t)) -> D1 j = D0 j).
    { intros j0 Hj. rewrite A1; [apply D0k, Hj|]. pose proof (dlen_pos t). lia. }
    destruct (Z.leb_spec (Z.of_nat n) (Z.of_nat m + 1)) as [G|G].
    + eexists. split; [exact R|]. assert (q = 0) by lia. subst q. cbn [firstn elems_h].
      eexists. split; [|split].
      * apply at_skip in E. rewrite flats_length in E. apply reach_one; [apply at_next in E; apply E|].
        rewrite (step_arr_end i _ _ h1 fe j e 0 rest) by assumption. cbn [fin]. f_equal. f_equal. lia.
      * eapply dyn_ok_elem; eauto.
      * intros j0 Hj. unfold upd_d. destruct (Nat.eqb_spec j0 (S i)); [pose proof (dlen_pos t); lia|]. apply A2, Hj.
    + eexists. split; [exact R|].
      replace (k + (ntok v + ntoks l) + 1) with (k + ntok v + ntoks l + 1) by lia.
      replace q with (n - S m) in * by lia.
      replace (Z.of_nat m + 1)%Z with (Z.of_nat (S m)) by lia.
      apply (IHl (S m)) with (j := j) (e := e) (rest := rest); try assumption; try lia.
      * eapply dyn_ok_elem; eauto. eapply dyn_ok_elem; eauto.
      * unfold upd_d. rewrite Nat.eqb_refl. rewrite De1, De. unfold set_doff, set_dlen. cbn [d_dest d_off d_len d_rs]. rewrite Nat2Z.inj_succ. unfold Z.succ. f_equal; ring.
      * intros j0 Hj. unfold upd_d. destruct (Nat.eqb_spec j0 (S i)); [pose proof (dlen_pos t); lia|]. apply A2, Hj.
      * congruence.
Qed.

(** Elements of a slice. *)
Lemma slice_loop t i fa fe : value_ok t ->
  nth_error stk i = Some fa -> f_ty fa = ESlice ->
  nth_error stk (S i) = Some fe -> f_ty fe = dt_et t -> f_size fe = dsize t -> f_parent fe = Some i ->
  fits (S i) t ->
  forall l m k p D D0 h j e rest, l <> [] ->
  dyn_ok D -> d_dest (D (S i)) = p -> d_off (D (S i)) = (m * dsize t)%Z ->
  (forall j, ~ (i < j < i + S (dlen t)) -> D j = D0 j) ->
  Forall (lexed s) l -> lags false (map (lag_of t) l) <> None ->
  skipn k toks = flats k l ++ Tok KArrEnd j e 0 :: rest ->
  ends On (St (S i) k D h) i (S (dlen t)) (k + ntoks l + 1) D0 (elems_h (dech t) (dsize t) m l p h).
Proof.
  intros IH Ha Ta He Te Se Pe Ft.
  assert (NR : f_ty fe <> EStructRecur) by (rewrite Te; apply head_not_recur).
  assert (EF : elem_frame fe) by (exists i, fa; auto).
  induction l as [|v l IHl]; intros m k p D D0 h j e rest Nl Dk De Do D0k L Cl E; [congruence|clear Nl].
  cbn [elems_h flats ntoks map] in *. rewrite <- app_assoc in E.
  inversion L as [|? ? Lv Ll]; subst.
  destruct l as [|w l0].
  - cbn [map lags] in Cl. destruct (lag_of t v) as [qv|] eqn:Qv; [|congruence]. cbn [flats app] in E. cbn [elems_h ntoks].
    pose proof (IH (S i) k v qv D h _ Ft Dk Lv Qv E) as V. unfold dst in V. rewrite Do in V.
    replace (k + (ntok v + 0) + 1) with (k + ntok v + 1) by lia.
    match goal with |- ends _ _ _ _ _ _ (hbind ?r _) => change (ends On (St (S i) k D h) i (S (dlen t)) (k + ntok v + 1) D0 (hbind r HOk)) end.
    rewrite hbind_ok. eapply last_elem; [exact Ha|auto|exact He|exact Pe|exact Te|exact Qv|exact E|assumption|exact V].
  - set (l := w :: l0) in *.
    assert (Nl : l <> []) by discriminate. change (map (lag_of t) l) with (lag_of t w :: map (lag_of t) l0) in Cl.
    destruct (lags false (lag_of t v :: lag_of t w :: map (lag_of t) l0)) as [qq|] eqn:Lg; [|congruence]. apply lags_cons in Lg as [[Cv|[_ X]] Cr]; [|discriminate].
    change (lag_of t w :: map (lag_of t) l0) with (map (lag_of t) l) in Cr.
    pose proof (IH (S i) k v On D h _ Ft Dk Lv Cv E) as V.
    apply at_skip in E. rewrite flat_length in E.
    unfold dst in V. rewrite Do in V.
    apply ends_hbind. destruct (dech t v (padd (d_dest (D (S i))) (m * dsize t)) h) as [h1|ei ee h1| |]; try exact V.
    destruct V as (D1 & R & Dk1 & A1). cbn [fin] in R.
    assert (De1 : D1 (S i) = D (S i)) by (apply A1; lia).
    assert (OV : on_val_end (St (S i) (k + ntok v) D1 h1) =
       Next (St (S i) (k + ntok v) (upd_d D1 (S i) (fun d => set_doff (d_off d + dsize t) d)) h1)).
    { unfold Machine.on_val_end. cbn [si]. unfold fr. rewrite He, Pe, Ha, Ta. cbn [dy ti hp]. rewrite Se. reflexivity. }
    rewrite OV in R. clear OV.
    assert (A2 : forall j, ~ (i < j < i + S (dlen t)) -> D1 j = D0 j).
    { intros j0 Hj. rewrite A1; [apply D0k, Hj|]. pose proof (dlen_pos t). lia. }
    eexists. split; [exact R|].
    replace (k + (ntok v + ntoks l) + 1) with (k + ntok v + ntoks l + 1) by lia.
    apply IHl with (j := j) (e := e) (rest := rest); try assumption.
    + eapply dyn_ok_elem; eauto.
    + unfold upd_d. rewrite Nat.eqb_refl, De1. reflexivity.
    + unfold upd_d. rewrite Nat.eqb_refl, De1. cbn [set_doff d_off]. rewrite Do. ring.
    + intros j0 Hj. unfold upd_d. destruct (Nat.eqb_spec j0 (S i)); [pose proof (dlen_pos t); lia|]. apply A2, Hj.
    + congruence.
Qed.

(** *** Structs *)
Lemma field_names k fs : map fst (field_idx k fs) = map (fun x : (bytes * Z) * dt => fst (fst x)) fs.
Proof. revert k; induction fs as [|x r IH]; intros k; cbn; [reflexivity|]. rewrite IH. reflexivity. Qed.
Lemma field_nth i fs : forall k j x, fits_fields w64 stk i k fs -> nth_error fs j = Some x ->
  exists idx, nth_error (field_idx k fs) j = Some (fst (fst x), idx) /\ fits idx (snd x) /\
    linked stk idx (Some i) (snd (fst x)) 0 /\ k <= idx /\ idx + dlen (snd x) <= k + dlens fs.
Proof.
  induction fs as [|y r IH]; intros k j x H Hj; [destruct j; discriminate|]. cbn [field_idx fits_fields dlens] in *.
  destruct H as (H1 & H2 & H3). destruct j as [|j]; cbn in Hj.
  - injection Hj as ->. exists k. cbn. repeat split; auto; lia.
  - destruct (IH _ _ _ H3 Hj) as (idx & A & B & Cc & F & G). exists idx. cbn [nth_error]. repeat split; auto; lia.
Qed.
Lemma field_idx_ge k fs a : In a (field_idx k fs) -> k <= snd a.
Proof.
  revert k; induction fs as [|x r IH]; intros k H; [destruct H|]. cbn in H. destruct H as [<-|H]; [cbn; lia|].
  apply IH in H. lia.
Qed.
Lemma field_idx_lt k fs a : In a (field_idx k fs) -> snd a < k + dlens fs.
Proof.
  revert k; induction fs as [|x r IH]; intros k H; [destruct H|]. cbn [field_idx dlens] in *. pose proof (dlen_pos (snd x)).
  destruct H as [<-|H]; [cbn; lia|]. apply IH in H. lia.
Qed.
(** The frames of different fields do not overlap. *)
Lemma field_disjoint fs : forall k j x a idx, nth_error fs j = Some x ->
  nth_error (field_idx k fs) j = Some (fst (fst x), idx) -> In a (field_idx k fs) ->
  ~ (idx < snd a < idx + dlen (snd x)).
Proof.
  induction fs as [|y r IH]; intros k j x a idx Hj Hi Ha; [destruct j; discriminate|].
  cbn [field_idx] in *. destruct j as [|j]; cbn in Hj, Hi.
  - injection Hj as ->. injection Hi as <-. destruct Ha as [<-|Ha]; [cbn; lia|]. apply field_idx_ge in Ha. lia.
  - destruct Ha as [<-|Ha]; [|eapply IH; eauto]. cbn [snd].
    apply nth_error_In, field_idx_ge in Hi. cbn in Hi. lia.
Qed.
Lemma linked_nth i par off cap : linked stk i par off cap ->
  exists f, nth_error stk i = Some f /\ f_parent f = par /\ f_off f = off /\ f_cap f = cap.
Proof. exact (fun H => H). Qed.

(** The object that is the whole document: closing braces at its frame do nothing. *)
Lemma top_end i f k D h : nth_error stk i = Some f -> f_parent f = None -> on_val_end (St i k D h) = Next (St i k D h).
Proof. intros Hf P. unfold Machine.on_val_end. cbn [si]. unfold fr. rewrite Hf, P. reflexivity. Qed.
(** A member that is not the last one, as long as it ends on time, or is early in the
    object that is the whole document. *)
Lemma mid_member top d i f idx fy dy0 v k D h rest h1 :
  nth_error stk i = Some f -> f_ty f = dt_et d -> f_ty f = EStruct \/ f_ty f = EMap -> (top = true -> f_parent f = None) ->
  nth_error stk idx = Some fy -> f_parent fy = Some i ->
  forall q, q = On \/ q = Early /\ top = true ->
  lag_of dy0 v = Some q -> skipn k toks = flat k v ++ rest ->
  ends q (St idx k D h) idx (dlen dy0) (k + ntok v) D (HOk h1) ->
  exists D1, reach (St idx k D h) (Next (St i (k + ntok v) D1 h1)) /\ dyn_ok D1 /\ forall j, ~ (idx < j < idx + dlen dy0) -> D1 j = D j.
Proof.
  intros Hf Tf Ty Tp Hy Py q Hq Q E (D1 & R & Dk1 & A1). exists D1. split; [|auto].
  assert (Up : forall k, on_val_end (St idx k D1 h1) = Next (St i k D1 h1)).
  { intros k'. unfold Machine.on_val_end. cbn [si]. unfold fr. rewrite Hy, Py, Hf. destruct Ty as [-> | ->]; reflexivity. }
  destruct Hq as [-> |[-> T]]; cbn [fin] in R; rewrite Up in R; [exact R|].
  destruct (early_last k v dy0 _ Q E) as (j1 & E2 & Sk).
  destruct (step_obj_end i _ D1 h1 f d _ _ _ _ Hf Tf Dk1 E2) as [ST Lt].
  eapply reach_then; [exact R|]. apply reach_one; [exact Lt|]. rewrite ST, Sk. eapply top_end; eauto.
Qed.

Notation mlag fs := (member_lag (map (fun x : bytes * Z * dt => fst (fst x)) fs) (map (fun x : bytes * Z * dt => lag_of (snd x)) fs)).
Lemma struct_loop top (z : Z) fs i f :
  Forall (fun x => value_ok (snd x)) fs ->
  nth_error stk i = Some f -> f_ty f = EStruct -> f_fields f = field_idx (S i) fs -> fits_fields w64 stk i (S i) fs ->
  (top = true -> f_parent f = None) ->
  forall l k p q D D0 h j e rest, l <> [] ->
  dyn_ok D -> (forall a, In a (field_idx (S i) fs) -> d_dest (D (snd a)) = p) ->
  (forall j, ~ (i < j < i + S (dlens fs)) -> D j = D0 j) ->
  Forall (fun x => key_lexed s x /\ lexed s (snd x)) l ->
  lags top (map (mlag fs) l) = Some q ->
  skipn k toks = flatm k l ++ Tok KObjEnd j e 0 :: rest ->
  ends q (St i k D h) i (S (dlens fs)) (k + ntokm l + 1) D0
    (members_h C O (map (fun x => fst (fst x)) fs) (map (fun x => (snd (fst x), dech (snd x))) fs) l p h).
Proof.
  intros IH Hf Tf Ff Fits Tp. induction l as [|x l IHl]; intros k p q D D0 h j e rest Nl Dk Dd D0k L Cl E; [congruence|clear Nl].
  cbn [members_h flatm ntokm app map] in *. rewrite <- app_assoc in E.
  inversion L as [|? ? [[K1 K2] Lx] Ll]; subst.
  assert (Tf' : f_ty f = dt_et (DStruct z fs)) by exact Tf.
  assert (Cx : exists qx, mlag fs x = Some qx /\ (l = [] /\ q = qx \/ l <> [] /\ (qx = On \/ qx = Early /\ top = true) /\ lags top (map (mlag fs) l) = Some q)).
  { destruct l as [|y l0]; [cbn [map] in Cl; rewrite lags_one in Cl; exists q; auto|]. cbn [map] in Cl. apply lags_cons in Cl as [Hx Cr].
    destruct Hx as [Hx|[Hx T]]; eexists; (split; [exact Hx|]); right; (split; [discriminate|]); auto. }
  clear Cl. destruct Cx as (qx & Cx & Cr).
  apply at_next in E as (Et & Lt & E).
  assert (ST : step (St i k D h) =
    match pick (c_fold C) (o_nofold O) (map (fun x => fst (fst x)) fs) (key_of (snd (fst x))) with
    | Some q => match nth_error (field_idx (S i) fs) q with
                | Some a => Next (St (snd a) (S k) D h)
                | None => Panic
                end
    | None => if o_unknown O then Fail (fst (fst x)) EUnknownField (St i k D h)
              else match skip_unknown 0 (skipn (S k) toks) with
                   | None => Panic
                   | Some n => Next (St i (S k + n) D h)
                   end
    end).
  { unfold Machine.step. cbn [ti si]. rewrite Et. unfold fr. rewrite Hf. cbn [tk_ty]. unfold key_tok. rewrite Tf.
    rewrite body_ok by exact K1. cbn [lift]. rewrite unesc_ok by exact K2. cbn [lift]. rewrite Ff, lookup_pick, field_names.
    destruct (pick _ _ _ _) as [qq|] eqn:Pq; [|reflexivity].
    destruct (nth_error (field_idx (S i) fs) qq) as [a|] eqn:Nq; [reflexivity|].
    apply pick_lt in Pq. apply nth_error_None in Nq. 
    rewrite <- (field_names (S i)), map_length in Pq. exfalso. exact (Nat.lt_irrefl _ (Nat.lt_le_trans _ _ _ Pq Nq)). }
  rewrite unesc_ok by exact K2. cbn [hlift]. unfold member_lag in Cx.
  destruct (pick _ _ _ _) as [qf|] eqn:Pq.
  - pose proof (pick_lt _ _ _ _ _ Pq) as Lq. rewrite map_length in Lq.
    destruct (nth_error fs qf) as [y|] eqn:Ny; [|apply nth_error_None in Ny; lia].
    rewrite nth_error_map, Ny. cbn [option_map].
    rewrite nth_error_map, Ny in Cx. cbn [option_map] in Cx.
    destruct (field_nth i fs (S i) qf y Fits Ny) as (idx & Nf & Fy & Ly & G1 & G2).
    rewrite Nf in ST. cbn [snd] in ST.
    destruct (linked_nth _ _ _ _ Ly) as (fy & Hy & Py & Oy & _).
    assert (Ty : f_ty fy = dt_et (snd y)).
    { destruct (fits_head _ _ Fy) as (? & fy' & Hy' & Ty & _). rewrite Hy in Hy'. injection Hy' as <-. exact Ty. }
    assert (Vy : value_ok (snd y)).
    { rewrite Forall_forall in IH. apply IH. eapply nth_error_In; eauto. }
    pose proof (Vy idx (S k) (snd x) qx D h _ Fy Dk Lx Cx E) as V.
    assert (Dst : dst D idx = padd p (snd (fst y))).
    { unfold dst. pose proof (Dd _ (nth_error_In _ _ Nf)) as Dn. cbn [snd] in Dn. rewrite Dn.
      destruct (Dk idx fy Hy) as [_ Do].
      { rewrite Ty. apply head_not_recur. }
      rewrite Do, Oy; [reflexivity|].
      intros (pp & fp & Q1 & Q2 & Q3). rewrite Py in Q1. injection Q1 as <-. rewrite Hf in Q2. injection Q2 as <-.
      rewrite Tf in Q3. destruct Q3; discriminate. }
    rewrite Dst in V. eapply ends_step; [exact Lt|exact ST|].
    destruct Cr as [(-> & ->)|(Nl & Hq & Cr)].
    + cbn [members_h flatm app ntokm] in *.
      match goal with |- ends _ _ _ _ _ _ (hbind ?r _) => change (ends qx (St idx (S k) D h) i (S (dlens fs)) (k + (1 + ntok (snd x) + 0) + 1) D0 (hbind r HOk)) end.
      rewrite hbind_ok. replace (k + (1 + ntok (snd x) + 0) + 1) with (S k + ntok (snd x) + 1) by lia.
      eapply last_member with (d := DStruct z fs) (dy0 := snd y); eauto; lia.
    + apply ends_hbind. destruct (dech (snd y) (snd x) (padd p (snd (fst y))) h) as [h1|ei ee h1| |]; try exact V.
      destruct (mid_member top (DStruct z fs) i f idx fy (snd y) (snd x) (S k) D h _ h1 Hf Tf' (or_introl Tf) Tp Hy Py qx Hq Cx E V) as (D1 & R & Dk1 & A1).
      eexists. split; [exact R|].
      apply at_skip in E. rewrite flat_length in E.
      replace (k + (1 + ntok (snd x) + ntokm l) + 1) with (S k + ntok (snd x) + ntokm l + 1) by lia.
      apply IHl with (j := j) (e := e) (rest := rest); try assumption.
      * intros a Ha. rewrite A1; [apply Dd, Ha|]. eapply field_disjoint; eauto.
      * intros j0 Hj. rewrite A1; [apply D0k, Hj|]. lia.
  - destruct (o_unknown O) eqn:U.
    { eexists. split; [apply reach_one; [exact Lt|exact ST]|reflexivity]. }
    cbn [orb] in Cx. destruct (obj_free (snd x)) eqn:Of.
    + injection Cx as <-.
      rewrite E, skip_unknown_flat in ST by exact Of.
      assert (Sk : skip_unknown 0 (flatm (S k + ntok (snd x)) l ++ Tok KObjEnd j e 0 :: rest) = Some 0).
      { destruct l; reflexivity. }
      rewrite Sk in ST. cbn [option_map] in ST. rewrite Nat.add_0_r in ST.
      eapply ends_step; [exact Lt|exact ST|].
      apply at_skip in E. rewrite flat_length in E.
      replace (k + (1 + ntok (snd x) + ntokm l) + 1) with (S k + ntok (snd x) + ntokm l + 1) by lia.
      destruct Cr as [(-> & ->)|(Nl & Hq & Cr)].
      * cbn [members_h flatm app ntokm] in *. destruct (step_obj_end i _ D h f (DStruct z fs) _ _ _ _ Hf Tf' Dk E) as [ST' Lt'].
        exists D. split; [apply reach_one; [exact Lt'|rewrite ST'; cbn [fin]; repeat f_equal; lia]|auto].
      * apply IHl with (j := j) (e := e) (rest := rest); assumption.
    + destruct (snd x) as [| | | | | |io jo lo] eqn:Ex; try discriminate. injection Cx as <-.
      pose proof (obj_last _ _ _ _ _ E) as [E2 Sk]. rewrite E, skip_unknown_obj in ST.
      replace (S k + (1 + ntokm lo)) with (pred (S k + ntok (JObj io jo lo))) in ST by (rewrite ntok_obj; lia).
      destruct (step_obj_end i _ D h f (DStruct z fs) _ _ _ _ Hf Tf' Dk E2) as [ST' Lt'].
      apply at_skip in E. rewrite flat_length in E.
      eapply ends_step; [exact Lt|exact ST|].
      destruct Cr as [(-> & ->)|(Nl & [X|[_ T]] & Cr)]; [|discriminate|].
      * cbn [members_h ntokm] in *. exists D. split; [|auto]. apply reach_one; [exact Lt'|]. rewrite ST', Sk. cbn [fin]. repeat f_equal. lia.
      * rewrite Sk in ST'. rewrite (top_end i f _ _ _ Hf (Tp T)) in ST'.
        eapply ends_step; [exact Lt'|exact ST'|].
        replace (k + (1 + ntok (JObj io jo lo) + ntokm l) + 1) with (S k + ntok (JObj io jo lo) + ntokm l + 1) by lia.
        apply IHl with (j := j) (e := e) (rest := rest); assumption.
Qed.

(** *** Maps *)
Lemma key_h_frame k fk raw i : f_ty fk = dkey_et k ->
  match k with KeyText id _ => f_rt fk = Some (RNamed id) | _ => True end ->
  map_key C fk raw i = key_h C k i raw.
Proof.
  intros T R. unfold key_h, map_key. rewrite T. destruct k; cbn; try reflexivity. unfold user_id. rewrite R. reflexivity.
Qed.
Lemma key_h_some k i raw : key_h C k i raw <> Ok (inl None).
Proof.
  unfold key_h, map_key. destruct k; cbn.
  - destruct (unesc_str C (i + 1) raw); cbn; discriminate.
  - destruct (int_of_str C k raw) as [[|]| |]; cbn; discriminate.
  - destruct (unesc raw); cbn; try discriminate. destruct (c_ut C id [] a) as [n [|]]; discriminate.
Qed.
Lemma is_struct_et t : fast_et t = fast_et t -> is_struct t = match dt_et t with EStruct | EStructRecur => true | _ => false end.
Proof. intros _. destruct t as [x| | | | | |t| | | |]; try destruct x; try reflexivity. destruct t as [x| | | | | | | | | |]; try destruct x; reflexivity. Qed.

Lemma map_loop top kt t i f fk fv : value_ok t ->
  nth_error stk i = Some f -> f_ty f = EMap -> f_vsize f = dsize t ->
  nth_error stk (S i) = Some fk -> f_ty fk = dkey_et kt ->
  match kt with KeyText id _ => f_rt fk = Some (RNamed id) | _ => True end ->
  nth_error stk (S (S i)) = Some fv -> f_ty fv = dt_et t -> f_parent fv = Some i -> f_off fv = 0%Z ->
  fits (S (S i)) t -> (top = true -> f_parent f = None) ->
  forall l k p q D D0 h j e rest, l <> [] ->
  dyn_ok D -> dst D i = p ->
  (forall j, ~ (i < j < i + S (S (dlen t))) -> D j = D0 j) ->
  Forall (fun x => key_lexed s x /\ lexed s (snd x)) l ->
  lags top (map (fun x => lag_of t (snd x)) l) = Some q ->
  skipn k toks = flatm k l ++ Tok KObjEnd j e 0 :: rest ->
  ends q (St i k D h) i (S (S (dlen t))) (k + ntokm l + 1) D0
    (entries_h C kt (dech t) (is_struct t) (dsize t) l p h).
Proof.
  intros IH Hf Tf Vf Hk Tk Rk Hv Tv Pv Ov Ft Tp. induction l as [|x l IHl]; intros k p q D D0 h j e rest Nl Dk Dp D0k L Cl E; [congruence|clear Nl].
    cbn [entries_h flatm ntokm app map] in *. rewrite <- app_assoc in E.
    inversion L as [|? ? [[K1 K2] Lx] Ll]; subst.
    assert (Tf' : f_ty f = dt_et (DMap kt t)) by exact Tf.
    assert (Cx : exists qx, lag_of t (snd x) = Some qx /\ (l = [] /\ q = qx \/ l <> [] /\ (qx = On \/ qx = Early /\ top = true) /\ lags top (map (fun x => lag_of t (snd x)) l) = Some q)).
    { destruct l as [|y l0]; [cbn [map] in Cl; rewrite lags_one in Cl; exists q; auto|]. cbn [map] in Cl. apply lags_cons in Cl as [Hx Cr].
      destruct Hx as [Hx|[Hx T]]; eexists; (split; [exact Hx|]); right; (split; [discriminate|]); auto. }
    clear Cl. destruct Cx as (qx & Cx & Cr).
    apply at_next in E as (Et & Lt & E).
    assert (ST : step (St i k D h) =
      lift (let* c := load h (dst D i) W in as_map c) (fun m =>
      lift (key_h C kt (fst (fst x)) (snd (fst x))) (fun key =>
      match key with
      | inr e => Fail (fst (fst x)) e (St i k D h)
      | inl None => Panic
      | inl (Some key) =>
          lift (mapassign h m key (dsize t)) (fun '(a, h1) =>
          lift (if is_struct t then clear h1 (Some a) (dsize t) else Ok h1) (fun h2 =>
          Next (St (S (S i)) (S k) (upd_d D (S (S i)) (set_dest (Some a))) h2)))
      end))).
    { unfold Machine.step. cbn [ti si]. rewrite Et. unfold fr. rewrite Hf. cbn [tk_ty]. unfold key_tok. rewrite Tf.
      rewrite body_ok by exact K1. cbn [lift]. cbn [hp dy si ti]. fold w64 W.
      destruct (let* c := load h (dst D i) W in as_map c) as [m| |]; cbn [lift]; try reflexivity.
      unfold fr. rewrite Hk. cbn [tk_idx]. rewrite (key_h_frame kt) by assumption.
      pose proof (key_h_some kt (fst (fst x)) (snd (fst x))) as KS.
      destruct (key_h C kt (fst (fst x)) (snd (fst x))) as [[[key|]|er]| |]; cbn [lift]; try reflexivity; [|congruence].
      rewrite Vf. destruct (mapassign h m key (dsize t)) as [[a h1]| |]; cbn [rbind lift]; try reflexivity.
      rewrite Hv, (is_struct_et t eq_refl), <- Tv. 
      destruct (f_ty fv); try reflexivity; destruct (clear h1 (Some a) (dsize t)); reflexivity. }
    change (wb (c_w64 C)) with W.
    destruct (let* c := load h (dst D i) W in as_map c) as [m| |]; cbn [lift hlift] in *;
      try (apply reach_one; [exact Lt|exact ST]).
    destruct (key_h C kt (fst (fst x)) (snd (fst x))) as [[[key|]|er]| |]; cbn [lift hlift] in *;
      try (apply reach_one; [exact Lt|exact ST]); 
      try (eexists; split; [apply reach_one; [exact Lt|exact ST]|reflexivity]).
    destruct (mapassign h m key (dsize t)) as [[a h1]| |]; cbn [lift hlift] in *;
      try (apply reach_one; [exact Lt|exact ST]).
    destruct (if is_struct t then clear h1 (Some a) (dsize t) else Ok h1) as [h2| |]; cbn [lift hlift] in *;
      try (apply reach_one; [exact Lt|exact ST]).
    eapply ends_step; [exact Lt|exact ST|].
    set (D' := upd_d D (S (S i)) (set_dest (Some a))) in *.
    assert (Dk' : dyn_ok D') by (apply dyn_ok_dest, Dk).
    pose proof (IH (S (S i)) (S k) (snd x) qx D' h2 _ Ft Dk' Lx Cx E) as V.
    assert (Dst : dst D' (S (S i)) = Some a).
    { unfold dst. destruct (Dk' (S (S i)) fv Hv) as [_ Do]; [rewrite Tv; apply head_not_recur|]. rewrite Do, Ov.
      - unfold D', upd_d. rewrite Nat.eqb_refl. cbn. destruct a. cbn. rewrite Z.add_0_r. reflexivity.
      - intros (pp & fp & Q1 & Q2 & Q3). rewrite Pv in Q1. injection Q1 as <-. rewrite Hf in Q2. injection Q2 as <-.
        rewrite Tf in Q3. destruct Q3; discriminate. }
    rewrite Dst in V.
    assert (DD : forall j, ~ (i < j < i + S (S (dlen t))) -> D' j = D0 j).
    { intros j0 Hj. pose proof (dlen_pos t). unfold D', upd_d. destruct (Nat.eqb_spec j0 (S (S i))); [lia|]. apply D0k, Hj. }
    destruct Cr as [(-> & ->)|(Nl & Hq & Cr)].
    { cbn [flatm app ntokm] in *.
      match goal with |- ends _ _ _ _ _ _ (hbind ?r _) => change (ends qx (St (S (S i)) (S k) D' h2) i (S (S (dlen t))) (k + (1 + ntok (snd x) + 0) + 1) D0 (hbind r HOk)) end.
      rewrite hbind_ok. replace (k + (1 + ntok (snd x) + 0) + 1) with (S k + ntok (snd x) + 1) by lia.
      eapply last_member with (d := DMap kt t) (dy0 := t); eauto; lia. }
    apply ends_hbind.
    destruct (dech t (snd x) (Some a) h2) as [h3|ei ee h3| |]; try exact V.
    destruct (mid_member top (DMap kt t) i f (S (S i)) fv t (snd x) (S k) D' h2 _ h3 Hf Tf' (or_intror Tf) Tp Hv Pv qx Hq Cx E V) as (D1 & R & Dk1 & A1).
    eexists. split; [exact R|].
    apply at_skip in E. rewrite flat_length in E.
    replace (k + (1 + ntok (snd x) + ntokm l) + 1) with (S k + ntok (snd x) + ntokm l + 1) by lia.
    assert (Di : D1 i = D i).
    { rewrite A1 by lia. unfold D', upd_d. destruct (Nat.eqb_spec i (S (S i))); [lia|reflexivity]. }
    apply IHl with (j := j) (e := e) (rest := rest); try assumption.
    + unfold dst. rewrite Di. reflexivity.
    + intros j0 Hj. pose proof (dlen_pos t). rewrite A1 by lia. apply DD, Hj.
Qed.

(** *** All values *)
Lemma one_err i k D x idx : one (HErr idx EUnexpected (hp x)) i k D x (Fail idx EUnexpected x).
Proof. destruct x; reflexivity. Qed.

Lemma head_leaf i d fields f : head_is w64 stk i d fields -> nth_error stk i = Some f ->
  f_ty f = dt_et d /\ (f_ty f = EText -> f_size f = f_size (leaf C d) /\ f_rt f = f_rt (leaf C d)).
Proof.
  intros (f' & Hf & T & Sz & Fl & R) H. rewrite H in Hf. injection Hf as <-. split; [exact T|].
  intros T'. rewrite T in T'. destruct d; try discriminate; cbn in *.
  - destruct x; discriminate.
  - auto.
  - destruct (fast_et d) eqn:Fe; [|discriminate]. destruct d as [x| | | | | | | | | |]; try destruct x; cbn in Fe; try discriminate; injection Fe as <-; discriminate.
Qed.

Definition no_ptr (d : dt) : bool := match d with DJson _ _ | DPtr _ => false | _ => true end.
Lemma no_ptr_et d : no_ptr d = true -> dt_et d <> EJSON /\ dt_et d <> EPtr.
Proof.
  destruct d as [x| | | | | |t| | | |]; cbn; try discriminate; try (split; discriminate).
  - destruct x; split; discriminate.
  - destruct t as [x| | | | | | | | | |]; try destruct x; split; discriminate.
Qed.
Lemma step_arr i k D h f ia j l rest : nth_error stk i = Some f -> skipn k toks = flat k (JArr ia j l) ++ rest ->
  step (St i k D h) = arr_tok C stk s toks f (Tok KArr ia (S k + ntoks l) (length l)) (St i k D h).
Proof.
  intros Hf E. rewrite flat_arr in E. cbn [app] in E. apply at_next in E as (Et & _). unfold Machine.step. cbn [ti si].
  rewrite Et. unfold fr. rewrite Hf. reflexivity.
Qed.
Lemma step_obj i k D h f ia j l rest : nth_error stk i = Some f -> skipn k toks = flat k (JObj ia j l) ++ rest ->
  step (St i k D h) = obj_tok C stk s toks f (Tok KObj ia (S k + ntokm l) (length l)) (St i k D h).
Proof.
  intros Hf E. rewrite flat_obj in E. cbn [app] in E. apply at_next in E as (Et & _). unfold Machine.step. cbn [ti si].
  rewrite Et. unfold fr. rewrite Hf. reflexivity.
Qed.
Lemma at_lt k v rest : skipn k toks = flat k v ++ rest -> k < length toks.
Proof.
  intros E. pose proof (ntok_pos v). apply (f_equal (@length token)) in E.
  rewrite skipn_length, app_length, flat_length in E. lia.
Qed.
Lemma scalar_case i k v D h rest d n : no_ptr d = true -> fits i d -> dyn_ok D -> lexed s v -> scalar_jv v = true ->
  skipn k toks = flat k v ++ rest ->
  ends On (St i k D h) i n (k + ntok v) D (dech d v (dst D i) h).
Proof.
  intros Np Ft Dk L Sv E. pose proof (fits_head _ _ Ft) as (fields & Hd).
  pose proof Hd as (f & Hf & _). destruct (head_leaf _ _ _ _ Hd Hf) as [T Lf].
  destruct (no_ptr_et d Np) as [N1 N2].
  replace (dech d v (dst D i) h) with (scalar_h C f v (dst D i) h).
  2:{ rewrite (scalar_h_leaf f (leaf C d)); [|rewrite T; destruct d; reflexivity|exact Lf]. destruct d; try discriminate; destruct v; try discriminate; reflexivity. }
  apply ends_one; [eapply at_lt; exact E|exact Dk|].
  replace (k + ntok v) with (S k) by (destruct v; try discriminate; cbn; lia).
  eapply step_scalar; eauto; congruence.
Qed.

Lemma arr_err i k D h f ia j l n t : nth_error stk i = Some f -> f_ty f = t ->
  match t with EBool | EStr | ENumber | EInt _ | EF _ | EBoolS | EStrS | EIntS _ | EFS _ | EText | EEmptyStruct | EMap | EMapSS | EStruct => True | _ => False end ->
  dyn_ok D -> forall rest, skipn k toks = flat k (JArr ia j l) ++ rest ->
  ends On (St i k D h) i n (k + ntok (JArr ia j l)) D (HErr ia EUnexpected h).
Proof.
  intros Hf T K Dk rest E. apply ends_one; [eapply at_lt; exact E|exact Dk|].
  rewrite (step_arr i k D h f ia j l rest Hf E). unfold arr_tok. rewrite T. destruct t; try contradiction; reflexivity.
Qed.
Lemma obj_err i k D h f ia j l n t : nth_error stk i = Some f -> f_ty f = t ->
  match t with EBool | EStr | ENumber | EInt _ | EF _ | EBoolS | EStrS | EIntS _ | EFS _ | EText | EArray | EArray0
  | ESlice | ESliceBool | ESliceStr | ESliceInt _ | ESliceF _ | ESliceEmpty => True | _ => False end ->
  dyn_ok D -> forall rest, skipn k toks = flat k (JObj ia j l) ++ rest ->
  ends On (St i k D h) i n (k + ntok (JObj ia j l)) D (HErr ia EUnexpected h).
Proof.
  intros Hf T K Dk rest E. apply ends_one; [eapply at_lt; exact E|exact Dk|].
  rewrite (step_obj i k D h f ia j l rest Hf E). unfold obj_tok. rewrite T. destruct t; try contradiction; reflexivity.
Qed.

Theorem value_reach d : value_ok d.
Proof.
  induction d using dt_ind'; intros i0 k0 v q D h rest Ft Dk L Cv E;
  pose proof (fits_head _ _ Ft) as (fields & Hd);
  pose proof Hd as (f & Hf & T & Sz & Ff & R);
  pose proof (at_lt _ _ _ E) as Lt.
  - (* scalar types *)
    injection Cv as <-.
    destruct (scalar_jv v) eqn:Sv; [eapply scalar_case; eauto; reflexivity|].
    destruct v as [| | | | |ia ja l|ia ja l]; try discriminate.
    + destruct x; try (eapply arr_err; [exact Hf|exact T|exact I|exact Dk|exact E]).
      apply ends_one; [exact Lt|exact Dk|]. rewrite (step_arr _ _ _ _ _ _ _ _ _ Hf E). unfold arr_tok. rewrite T.
      eapply step_any; eauto.
    + destruct x; try (eapply obj_err; [exact Hf|exact T|exact I|exact Dk|exact E]).
      apply ends_one; [exact Lt|exact Dk|]. rewrite (step_obj _ _ _ _ _ _ _ _ _ Hf E). unfold obj_tok. rewrite T.
      eapply step_any; eauto.
  - (* text unmarshalers *)
    injection Cv as <-.
    destruct (scalar_jv v) eqn:Sv; [eapply scalar_case; eauto; reflexivity|].
    destruct v as [| | | | |ia ja l|ia ja l]; try discriminate.
    + eapply arr_err; [exact Hf|exact T|exact I|exact Dk|exact E].
    + eapply obj_err; [exact Hf|exact T|exact I|exact Dk|exact E].
  - (* json unmarshalers *)
    injection Cv as <-.
    apply ends_one; [exact Lt|exact Dk|]. cbn [Dec.dech].
    destruct (nth_error toks k0) as [t|] eqn:Et; [|apply nth_error_None in Et; lia].
    assert (Q : step (St i0 k0 D h) = on_json C stk s toks f t (St i0 k0 D h)).
    { pose proof (nth_skipn0 toks k0) as Z0. rewrite E, Et in Z0.
      unfold Machine.step. cbn [ti si]. rewrite Et. unfold fr. rewrite Hf.
      unfold arr_tok, obj_tok. rewrite T. cbn [dt_et].
      destruct v; try rewrite flat_arr in Z0; try rewrite flat_obj in Z0; cbn in Z0; injection Z0 as <-; cbn [tk_ty]; try reflexivity.
      destruct b; reflexivity. }
    rewrite Q. eapply step_json; eauto.
  - (* [0]T *)
    injection Cv as <-.
    destruct (scalar_jv v) eqn:Sv; [eapply scalar_case; eauto; reflexivity|].
    destruct v as [| | | | |ia ja l|ia ja l]; try discriminate.
    + apply ends_one; [exact Lt|exact Dk|]. rewrite (step_arr _ _ _ _ _ _ _ _ _ Hf E). unfold arr_tok. rewrite T.
      cbn [dt_et Dec.dech one tk_end goto_ti si ti dy hp]. rewrite ntok_arr.
      replace (k0 + (2 + ntoks l)) with (S (S k0 + ntoks l)) by lia. reflexivity.
    + eapply obj_err; [exact Hf|exact T|exact I|exact Dk|exact E].
  - (* [n]T *)
    destruct (scalar_jv v) eqn:Sv; [assert (q = On) as -> by (cbn [lag_of] in Cv; destruct v; try discriminate; injection Cv as <-; reflexivity); eapply scalar_case; eauto; reflexivity|].
    destruct v as [| | | | |ia ja l|ia ja l]; try discriminate.
    2:{ eapply obj_err; [exact Hf|exact T|exact I|exact Dk|exact E]. }
    cbn [Dt.fits] in Ft. destruct Ft as (_ & N0 & Fe & fe & He & Pe & Oe & Ce).
    pose proof (fits_head _ _ Fe) as (? & fe' & He' & Te & Se & _). rewrite He in He'. injection He' as <-.
    pose proof (step_arr _ _ D h _ _ _ _ _ Hf E) as ST. unfold arr_tok in ST. rewrite T in ST. cbn [dt_et tk_n] in ST.
    cbn [Dec.dech]. cbn [lag_of] in Cv. destruct (lags _ _) as [q0|] eqn:Lg; [|discriminate]. injection Cv as <-.
    apply lexed_arr in L as (_ & _ & _ & L).
    destruct l as [|v0 l0].
    + rewrite firstn_nil. cbn [elems_h]. apply ends_one; [exact Lt|exact Dk|]. rewrite ST. reflexivity.
    + set (l := v0 :: l0) in *. cbn [length Nat.ltb Nat.leb l] in ST. unfold fr in ST. cbn [si ti dy hp] in ST. rewrite He in ST.
      eapply ends_step; [exact Lt|exact ST|].
      rewrite flat_arr in E. cbn [app] in E. rewrite <- app_assoc in E. apply at_next in E as (_ & _ & E).
      rewrite ntok_arr. replace (k0 + (2 + ntoks l)) with (S k0 + ntoks l + 1) by lia.
      change 0%Z with (Z.of_nat 0). replace n with (n - 0) by lia.
      apply (array_loop n d i0 f fe IHd Hf T He Te Se Pe Ce Fe l 0) with (j := ja) (e := k0) (rest := rest); try assumption; try discriminate.
      * eapply dyn_ok_elem; eauto. exists i0, f; auto. rewrite Te; apply head_not_recur.
      * unfold upd_d. rewrite Nat.eqb_refl. destruct (Dk _ _ He) as [Rn _]; [rewrite Te; apply head_not_recur|]. rewrite Rn. reflexivity.
      * intros j Hj. unfold upd_d. destruct (Nat.eqb_spec j (S i0)); [pose proof (dlen_pos d); lia|reflexivity].
      * rewrite Nat.sub_0_r, Lg. discriminate.
  - (* struct{} *)
    destruct (scalar_jv v) eqn:Sv; [assert (q = On) as -> by (cbn [lag_of] in Cv; destruct v; try discriminate; injection Cv as <-; reflexivity); eapply scalar_case; eauto; reflexivity|].
    destruct v as [| | | | |ia ja l|ia ja l]; try discriminate; injection Cv as <-.
    { eapply arr_err; [exact Hf|exact T|exact I|exact Dk|exact E]. }
    pose proof (step_obj _ _ D h _ _ _ _ _ Hf E) as ST. unfold obj_tok in ST. rewrite T in ST. cbn [dt_et tk_end goto_ti si ti dy hp] in ST.
    cbn [Dec.dech]. exists D. split; [|auto]. apply reach_one; [exact Lt|]. rewrite ST. cbn [fin]. rewrite ntok_obj.
    replace (pred (k0 + (2 + ntokm l))) with (S k0 + ntokm l) by lia. reflexivity.
  - (* slices *)
    destruct (scalar_jv v) eqn:Sv; [assert (q = On) as -> by (cbn [lag_of] in Cv; destruct (fast_et d); destruct v; try discriminate; injection Cv as <-; reflexivity); eapply scalar_case; eauto; reflexivity|].
    destruct v as [| | | | |ia ja l|ia ja l]; try discriminate.
    2:{ assert (q = On) as -> by (cbn [lag_of] in Cv; destruct (fast_et d); injection Cv as <-; reflexivity).
        eapply obj_err; [exact Hf|exact T| |exact Dk|exact E].
        destruct d as [x| | | | | | | | | |]; try destruct x; exact I. }
    destruct (fast_et d) as [e|] eqn:Fe.
    + cbn [lag_of] in Cv. rewrite Fe in Cv. injection Cv as <-.
      apply ends_one; [exact Lt|exact Dk|]. rewrite (step_arr _ _ _ _ _ _ _ _ _ Hf E). unfold arr_tok. rewrite T.
      cbn [dt_et Dec.dech]. rewrite Fe.
      destruct d as [x| | | | | | | | | |]; try destruct x; cbn in Fe; try discriminate; injection Fe as <-;
        try (apply step_fast with (rest := rest); [reflexivity|exact E]).
      cbn [tk_n tk_end hp dy si ti goto_ti]. apply one_lift. rewrite ntok_arr.
      replace (k0 + (2 + ntoks l)) with (S (S k0 + ntoks l)) by lia. reflexivity.
    + cbn [Dt.fits] in Ft. rewrite Fe in Ft. destruct Ft as (_ & Fd & fe & He & Pe & Oe & Ce).
      pose proof (fits_head _ _ Fd) as (? & fe' & He' & Te & Se & _). rewrite He in He'. injection He' as <-.
      pose proof (step_arr _ _ D h _ _ _ _ _ Hf E) as ST. unfold arr_tok in ST. rewrite T in ST. cbn [dt_et tk_n] in ST.
      rewrite Fe in ST. unfold fr in ST. cbn [si ti dy hp] in ST. rewrite He in ST.
      cbn [Dec.dech]. rewrite Fe. cbn [lag_of] in Cv. rewrite Fe in Cv.
      destruct (lags _ _) as [q0|] eqn:Lg; [|discriminate]. injection Cv as <-. apply lexed_arr in L as (_ & _ & _ & L).
      unfold slice_h. destruct l as [|v0 l0].
      * apply ends_one; [exact Lt|exact Dk|]. rewrite ST. apply one_lift. reflexivity.
      * set (l := v0 :: l0) in *. change (Nat.eqb (length l) 0) with false in ST. cbv iota in ST.
        rewrite Te, Se in ST. fold w64.
        destruct (grow_slice C h (dst D i0) (dsize d) (Z.of_nat (length l)) (isElemComposite (dt_et d))) as [[a h1]| |];
          cbn [lift hlift] in *; try (apply reach_one; [exact Lt|exact ST]).
        eapply ends_step; [exact Lt|exact ST|].
        rewrite flat_arr in E. cbn [app] in E. rewrite <- app_assoc in E. apply at_next in E as (_ & _ & E).
        rewrite ntok_arr. replace (k0 + (2 + ntoks l)) with (S k0 + ntoks l + 1) by lia.
        cbn [dt_et] in T. rewrite Fe in T. cbn [dlen]. rewrite Fe.
        eapply (slice_loop d i0 f fe IHd Hf T He Te Se Pe Fd) with (j := ja) (e := k0) (rest := rest); try assumption; try discriminate.
        -- eapply dyn_ok_elem; eauto. exists i0, f; auto. rewrite Te; apply head_not_recur.
        -- unfold upd_d. rewrite Nat.eqb_refl. reflexivity.
        -- unfold upd_d. rewrite Nat.eqb_refl. reflexivity.
        -- intros j Hj. unfold upd_d. destruct (Nat.eqb_spec j (S i0)); [pose proof (dlen_pos d); lia|reflexivity].
        -- rewrite Lg. discriminate.
  - (* maps *)
    destruct (scalar_jv v) eqn:Sv; [assert (q = On) as -> by (cbn [lag_of] in Cv; destruct v; try discriminate; injection Cv as <-; reflexivity); eapply scalar_case; eauto; reflexivity|].
    destruct v as [| | | | |ia ja l|ia ja l]; try discriminate.
    { injection Cv as <-. eapply arr_err; [exact Hf|exact T|exact I|exact Dk|exact E]. }
    cbn [Dt.fits] in Ft. destruct Ft as (_ & (fk & Hk & Tk & Rk) & Fd & fv & Hv & Pv & Ov & Cv').
    pose proof (fits_head _ _ Fd) as (? & fv' & Hv' & Tv & Sv' & _). rewrite Hv in Hv'. injection Hv' as <-.
    pose proof (step_obj _ _ D h _ _ _ _ _ Hf E) as ST. unfold obj_tok in ST. rewrite T in ST. cbn [dt_et tk_n hp dy si ti] in ST.
    cbn [Dec.dech]. cbn [lag_of] in Cv. apply lexed_obj in L as (_ & _ & _ & L). fold w64.
    destruct (init_map C h (dst D i0)) as [h1| |]; cbn [lift hlift] in *; try (apply reach_one; [exact Lt|exact ST]).
    destruct l as [|x0 l0].
    + injection Cv as <-. cbn [entries_h]. cbn [length Nat.eqb] in ST. apply ends_one; [exact Lt|exact Dk|]. exact ST.
    + set (l := x0 :: l0) in *. change (Nat.eqb (length l) 0) with false in ST. cbv iota in ST.
      eapply ends_step; [exact Lt|exact ST|].
      rewrite flat_obj in E. cbn [app] in E. rewrite <- app_assoc in E. apply at_next in E as (_ & _ & E).
      rewrite ntok_obj. replace (k0 + (2 + ntokm l)) with (S k0 + ntokm l + 1) by lia.
      eapply (map_loop false k d i0 f fk fv IHd Hf T R Hk Tk Rk Hv Tv Pv Ov Fd) with (j := ja) (e := k0) (rest := rest); try assumption; try discriminate; reflexivity.
  - (* map[string]string *)
    injection Cv as <-.
    destruct (scalar_jv v) eqn:Sv; [eapply scalar_case; eauto; reflexivity|].
    destruct v as [| | | | |ia ja l|ia ja l]; try discriminate.
    { eapply arr_err; [exact Hf|exact T|exact I|exact Dk|exact E]. }
    pose proof (step_obj _ _ D h _ _ _ _ _ Hf E) as ST. unfold obj_tok in ST. rewrite T in ST. cbn [dt_et tk_n tk_end hp dy si ti] in ST.
    apply lexed_obj in L as (_ & _ & _ & L).
    apply ends_one; [exact Lt|exact Dk|]. rewrite ST. cbn [Dec.dech].
    destruct l as [|x0 l0].
    + cbn [mss_h length Nat.eqb]. apply one_lift. reflexivity.
    + set (l := x0 :: l0) in *. change (Nat.eqb (length l) 0) with false. cbv iota.
      rewrite flat_obj in E. cbn [app] in E. rewrite <- app_assoc in E. apply at_next in E as (_ & _ & E).
      replace (firstn (S k0 + ntokm l - S k0) (skipn (S k0) toks)) with (flatm (S k0) l)
        by (rewrite E; symmetry; apply firstn_app_l; rewrite flatm_length; lia).
      rewrite mss_loop_flatm by exact L. cbn [lift].
      destruct (mss_h C l []) as [m|[ei ee]]; [|reflexivity].
      apply one_lift. rewrite ntok_obj. replace (k0 + (2 + ntokm l)) with (S (S k0 + ntokm l)) by lia. reflexivity.
  - (* pointers *)
    destruct (match v with JNull _ => true | _ => false end) eqn:Nu.
    { destruct v; try discriminate. injection Cv as <-. cbn [Dec.dech]. apply ends_one; [exact Lt|exact Dk|].
      cbn [flat app] in E. apply at_next in E as (Et & _ & _).
      unfold Machine.step. cbn [ti si]. rewrite Et. unfold fr. rewrite Hf, T. cbn [tk_ty dt_et].
      apply one_lift. cbn [ntok]. rewrite Nat.add_1_r. reflexivity. }
    cbn [Dt.fits] in Ft. destruct Ft as (_ & Fd & fe & He & Pe & Oe & _).
    pose proof (fits_head _ _ Fd) as (? & fe' & He' & Te & Se & _). rewrite He in He'. injection He' as <-.
    assert (Cq : (dsize d =? 0)%Z = false /\ exists q0, lag_of d v = Some q0 /\ (q0 = On /\ q = Late \/ q0 = Early /\ q = On)).
    { cbn [lag_of] in Cv. destruct v; try discriminate; destruct (dsize d =? 0)%Z; try discriminate; (split; [reflexivity|]);
        destruct (lag_of d _) as [[| |]|]; try discriminate; injection Cv as <-; eexists; (split; [reflexivity|]); auto. }
    destruct Cq as (Z0 & q0 & C0 & Hq).
    assert (ST : step (St i0 k0 D h) = on_ptr C stk (St i0 k0 D h)).
    { pose proof (nth_skipn0 toks k0) as N0. rewrite E in N0. unfold Machine.step. cbn [ti si]. rewrite <- N0. unfold fr. rewrite Hf.
      clear - Nu T. destruct v as [| | | | |ia ja l|ia ja l]; try discriminate; try rewrite flat_arr; try rewrite flat_obj;
        cbn [flat app nth_error tk_ty]; try destruct b; unfold arr_tok, obj_tok; rewrite T; reflexivity. }
    unfold on_ptr in ST. unfold fr in ST. cbn [si hp dy ti] in ST. rewrite He, Se, Z0 in ST.
    assert (Ed : dech (DPtr d) v (dst D i0) h = let '(a, h) := malloc h (dsize d) in hlift (store h (dst D i0) W (CPtr a)) (fun h => dech d v (Some a) h)).
    { cbn [Dec.dech]. fold w64. rewrite Z0. clear - Nu. destruct v; try discriminate; reflexivity. }
    rewrite Ed. clear Ed. destruct (malloc h (dsize d)) as [a h0]. change (wb (c_w64 C)) with W in ST.
    destruct (store h0 (dst D i0) W (CPtr a)) as [h1| |]; cbn [lift hlift] in *; try (apply reach_one; [exact Lt|exact ST]).
    eapply ends_step; [exact Lt|exact ST|]. set (D' := upd_d D (S i0) (set_dest (Some a))) in *.
    assert (Dk' : dyn_ok D') by (apply dyn_ok_dest, Dk).
    pose proof (IHd (S i0) k0 v q0 D' h1 rest Fd Dk' L C0 E) as V.
    assert (Dst : dst D' (S i0) = Some a).
    { unfold dst. destruct (Dk' _ _ He) as [_ Do]; [rewrite Te; apply head_not_recur|]. rewrite Do, Oe.
      - unfold D', upd_d. rewrite Nat.eqb_refl. cbn. destruct a. cbn. rewrite Z.add_0_r. reflexivity.
      - intros (pp & fp & Q1 & Q2 & Q3). rewrite Pe in Q1. injection Q1 as <-. rewrite Hf in Q2. injection Q2 as <-.
        rewrite T in Q3. destruct Q3; discriminate. }
    rewrite Dst in V. destruct (dech d v (Some a) h1) as [h2|ei ee h2| |]; try exact V.
    destruct V as (D1 & R1 & Dk1 & A1). exists D1. split; [|split; [exact Dk1|]].
    2:{ intros j Hj. cbn [dlen] in Hj. rewrite A1 by lia. unfold D', upd_d. destruct (Nat.eqb_spec j (S i0)); [pose proof (dlen_pos d); lia|reflexivity]. }
    assert (Up : forall k, on_val_end (St (S i0) k D1 h2) = Next (St i0 k D1 h2)).
    { intros k'. unfold Machine.on_val_end. cbn [si]. unfold fr. rewrite He, Pe, Hf, T. reflexivity. }
    destruct Hq as [[-> ->]|[-> ->]]; cbn [fin] in *; rewrite Up in R1; [exact R1|].
    destruct (early_last k0 v d _ C0 E) as (j1 & E2 & Sk).
    destruct (step_obj_end i0 _ D1 h2 f (DPtr d) _ _ _ _ Hf T Dk1 E2) as [ST' Lt'].
    eapply reach_then; [exact R1|]. apply reach_one; [exact Lt'|]. rewrite ST', Sk. reflexivity.
  - (* structs *)
    destruct (scalar_jv v) eqn:Sv; [assert (q = On) as -> by (cbn [lag_of] in Cv; destruct v; try discriminate; injection Cv as <-; reflexivity); eapply scalar_case; eauto; reflexivity|].
    destruct v as [| | | | |ia ja l|ia ja l]; try discriminate.
    { injection Cv as <-. eapply arr_err; [exact Hf|exact T|exact I|exact Dk|exact E]. }
    apply fits_struct in Ft as [Hd' Ft]. destruct Hd' as (f' & Hf' & _ & _ & Ff' & _). rewrite Hf in Hf'. injection Hf' as <-.
    pose proof (step_obj _ _ D h _ _ _ _ _ Hf E) as ST. unfold obj_tok in ST. rewrite T in ST. cbn [dt_et tk_n hp dy si ti] in ST.
    cbn [Dec.dech]. apply lexed_obj in L as (_ & _ & _ & L).
    destruct l as [|x0 l0].
    + injection Cv as <-. cbn [members_h]. cbn [length Nat.eqb] in ST. apply ends_one; [exact Lt|exact Dk|]. exact ST.
    + set (l := x0 :: l0) in *. change (Nat.eqb (length l) 0) with false in ST. cbv iota in ST.
      eapply ends_step; [exact Lt|exact ST|]. cbn [goto_ti with_dy si ti dy hp].
      rewrite flat_obj in E. cbn [app] in E. rewrite <- app_assoc in E. apply at_next in E as (_ & _ & E).
      rewrite ntok_obj. replace (k0 + (2 + ntokm l)) with (S k0 + ntokm l + 1) by lia. rewrite dlen_struct.
      eapply (struct_loop false z fs i0 f H Hf T Ff' Ft) with (j := ja) (e := k0) (rest := rest); try assumption; try discriminate.
      * apply dyn_ok_dests, Dk.
      * intros a Ha. cbn [with_dy dy]. rewrite set_dests_spec, Ff'.
        match goal with |- context [existsb ?g ?l] => replace (existsb g l) with true; [reflexivity|] end.
        symmetry. apply existsb_exists. exists a. split; [exact Ha|apply Nat.eqb_refl].
      * intros j Hj. cbn [with_dy dy]. rewrite set_dests_spec, Ff'. destruct (existsb _ _) eqn:Ex; [|reflexivity].
        apply existsb_exists in Ex as (a & Ha & Ea). apply Nat.eqb_eq in Ea. subst j.
        apply field_idx_lt in Ha as Hl. apply field_idx_ge in Ha. lia.
Unshelve. exact 0.
Qed.
End Control.

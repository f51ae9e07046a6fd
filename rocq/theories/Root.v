(** Decode as a whole: for a decoder whose frames describe a type, Decode is the recursive
    decoder [dech] applied to the document, whatever documents were decoded before. *)
From Verif Require Import Base NumSpec Lookup Types Token FloatLit Heap Machine General PropsGeneral Dt Dec Control.
Open Scope nat_scope.

(** The frames describe the type [d]: they are the frames of [d] from index 0 on, and the
    first one has no parent. *)
Definition describes (w64 : bool) (stk : list frame) (d : dt) : Prop :=
  length stk = dlen d /\ fits w64 stk 0 d /\ linked stk 0 None 0 0.

(** No recursive frames; the frame after an array or slice frame is its element. *)
Definition recur_et (e : et) : bool :=
  match e with EStructRecur | EPtrRecur | ESliceRecur | EMapRecur => true | _ => false end.
Definition frame_ok (stk : list frame) (i : nat) : Prop :=
  forall f, nth_error stk i = Some f ->
  recur_et (f_ty f) = false /\
  (f_ty f = EArray \/ f_ty f = ESlice -> forall f', nth_error stk (S i) = Some f' -> f_parent f' = Some i).

Lemma dt_et_plain d : recur_et (dt_et d) = false.
Proof.
  destruct d as [x| | | | | |t| | | |]; try destruct x; cbn; try reflexivity.
  destruct t as [x| | | | | | | | | |]; try destruct x; reflexivity.
Qed.
Lemma linked_parent stk i p o c f : linked stk i p o c -> nth_error stk i = Some f -> f_parent f = p.
Proof. intros (f' & E & P & _) H. rewrite H in E. injection E as <-. exact P. Qed.

Lemma head_frame_ok w64 stk i d fields :
  head_is w64 stk i d fields ->
  (dt_et d = EArray \/ dt_et d = ESlice -> exists o c, linked stk (S i) (Some i) o c) -> frame_ok stk i.
Proof.
  intros (f & E & T & _) L g Hg. rewrite E in Hg. injection Hg as <-. rewrite T. split; [apply dt_et_plain|].
  intros K f' Hf'. destruct (L K) as (o & c & Lk). eapply linked_parent; eauto.
Qed.
Lemma key_frame_ok stk i k : key_is stk i k -> frame_ok stk i.
Proof.
  intros (f & E & T & _) g Hg. rewrite E in Hg. injection Hg as <-. rewrite T.
  destruct k; cbn; split; try reflexivity; intros [K|K]; discriminate.
Qed.

Lemma fits_frames w64 stk d : forall i, fits w64 stk i d -> forall j, i <= j < i + dlen d -> frame_ok stk j.
Proof.
  induction d as [x|id z|id z| |n t IH| |t IH|k t IH| |t IH|z fs IH] using dt_ind'; intros i F j Hj.
  all: try (cbn [dlen] in Hj; cbn [fits] in F; assert (j = i) as -> by lia; eapply head_frame_ok; [exact F|];
            try (destruct x); cbn; intros [K|K]; discriminate).
  - cbn [fits dlen] in *. destruct F as (Hd & _ & Ft & Lk).
    destruct (Nat.eq_dec j i) as [->|]; [eapply head_frame_ok; [exact Hd|]; eauto|]. eapply IH; [exact Ft|lia].
  - cbn [fits dlen] in *. destruct (fast_et t) as [e|] eqn:Fe.
    + assert (j = i) as -> by lia. eapply head_frame_ok; [exact F|]. cbn. rewrite Fe.
      destruct t as [x| | | | | | | | | |]; cbn in Fe; try discriminate; try destruct x; try discriminate; injection Fe as <-; intros [K|K]; discriminate.
    + destruct F as (Hd & Ft & Lk). destruct (Nat.eq_dec j i) as [->|]; [eapply head_frame_ok; [exact Hd|]; eauto|].
      eapply IH; [exact Ft|lia].
  - cbn [fits dlen] in *. destruct F as (Hd & Kf & Ft & Lk).
    destruct (Nat.eq_dec j i) as [->|]; [eapply head_frame_ok; [exact Hd|cbn; intros [K|K]; discriminate]|].
    destruct (Nat.eq_dec j (S i)) as [->|]; [eapply key_frame_ok; exact Kf|]. eapply IH; [exact Ft|lia].
  - cbn [fits dlen] in *. destruct F as (Hd & Ft & Lk).
    destruct (Nat.eq_dec j i) as [->|]; [eapply head_frame_ok; [exact Hd|cbn; intros [K|K]; discriminate]|].
    eapply IH; [exact Ft|lia].
  - apply fits_struct in F as [Hd F]. rewrite dlen_struct in Hj.
    destruct (Nat.eq_dec j i) as [->|]; [eapply head_frame_ok; [exact Hd|cbn; intros [K|K]; discriminate]|].
    assert (Hj' : S i <= j < S i + dlens fs) by lia. clear Hd Hj n. revert F Hj'. generalize (S i) as k.
    induction IH as [|x fs Hx IH IHl]; intros k F Hj; cbn [fits_fields dlens] in *; [lia|].
    destruct F as (Fx & _ & Fr). destruct (Nat.lt_ge_cases j (k + dlen (snd x))); [eapply Hx; [exact Fx|lia]|].
    eapply IHl; [exact Fr|lia].
Qed.

(** ** The state of a decoder between calls *)
Section Inv.
Variables (C : cfg) (O : opts) (stk : list frame) (s : bytes) (toks : list token).
Hypothesis frames : forall i, frame_ok stk i.

Definition inv (D : dyn) : Prop := rs_nil D /\
  forall j f, nth_error stk j = Some f -> ~ elem_frame stk f -> d_off (D j) = f_off f.
Definition inv_out (o : out) : Prop := match o with Next x => inv (dy x) | Fail _ _ x => inv (dy x) | _ => True end.

Lemma inv_upd D i g : inv D -> (forall d, d_rs (g d) = d_rs d) ->
  (forall d, d_off (g d) = d_off d) \/ (forall f, nth_error stk i = Some f -> elem_frame stk f) -> inv (upd_d D i g).
Proof.
  intros [R Of] Hr Ho. split.
  - intros j. unfold upd_d. destruct (Nat.eqb j i); [rewrite Hr|]; apply R.
  - intros j f Hj N. unfold upd_d. destruct (Nat.eqb_spec j i) as [->|]; [|apply Of; assumption].
    destruct Ho as [Ho|Ho]; [rewrite Ho; apply Of; assumption|]. exfalso. apply N, (Ho _ Hj).
Qed.
Lemma inv_dest D i p : inv D -> inv (upd_d D i (set_dest p)).
Proof. intros H. apply inv_upd; [exact H|reflexivity|left; reflexivity]. Qed.
Lemma inv_dests fs p : forall D, inv D -> inv (set_dests D fs p).
Proof. unfold set_dests. induction fs as [|f fs IH]; intros D H; cbn; [exact H|]. apply IH, inv_dest, H. Qed.
Lemma inv_lift {A} (r : res A) k : (forall a, inv_out (k a)) -> inv_out (lift r k).
Proof. destruct r; cbn; auto. Qed.
Ltac go :=
  repeat match goal with
  | |- inv_out (lift _ _) => apply inv_lift; intros
  | |- inv_out (let '(_, _) := ?d in _) => destruct d eqn:?
  | |- inv_out (match ?d with _ => _ end) => destruct d eqn:?
  | |- inv_out _ => cbn [inv_out dy goto_si goto_ti with_dy with_hp]
  | |- inv (upd_d _ _ (set_dest _)) => apply inv_dest
  | |- inv (set_dests _ _ _) => apply inv_dests
  end; auto.

Lemma inv_val_end x : inv (dy x) -> inv_out (on_val_end stk toks x).
Proof.
  intros H. unfold on_val_end. unfold fr. destruct (nth_error stk (si x)) as [f|] eqn:Ef; [|exact I].
  destruct (f_parent f) as [c|] eqn:Pf; [|exact H].
  destruct (nth_error stk c) as [fc|] eqn:Ec; [|exact I].
  assert (El : f_ty fc = EArray \/ f_ty fc = ESlice -> forall g, nth_error stk (si x) = Some g -> elem_frame stk g).
  { intros K g Hg. rewrite Ef in Hg. injection Hg as <-. exists c, fc. auto. }
  cbv zeta. destruct (f_ty fc); try exact H;
    try (destruct (si x); [exact I|exact H]); specialize (El ltac:(auto)).
  - destruct (_ <=? _)%Z.
    + destruct (skip_extra _ _); [|exact I]. cbn. apply inv_upd; [exact H|reflexivity|left; reflexivity].
    + cbn. apply inv_upd; [|reflexivity|right; exact El]. apply inv_upd; [exact H|reflexivity|left; reflexivity].
  - cbn. apply inv_upd; [exact H|reflexivity|right; exact El].
Qed.
Lemma inv_recur x : inv (dy x) -> inv_out (on_recur_obj_end stk toks x).
Proof.
  intros H. unfold on_recur_obj_end. rewrite (proj1 H). destruct (fr _ _); [apply inv_val_end, H|exact I].
Qed.
Lemma inv_ptr x : inv (dy x) -> inv_out (on_ptr C stk x).
Proof. intros H. unfold on_ptr. cbv zeta. go. Qed.
Lemma inv_json f t x : inv (dy x) -> inv_out (on_json C stk s toks f t x).
Proof. intros H. unfold on_json. cbv zeta. apply inv_lift. intros [raw ti']. go. apply inv_val_end, H. Qed.
Lemma inv_any t x : inv (dy x) -> inv_out (any_tok C stk s toks t x).
Proof. intros H. unfold any_tok. go. apply inv_val_end, H. Qed.

Lemma inv_step x : inv (dy x) -> inv_out (step C O stk s toks x).
Proof.
  intros H. unfold step. destruct (nth_error toks (ti x)) as [t|]; [|exact I].
  destruct (fr stk (si x)) as [f|] eqn:Ef; [|exact I].
  destruct (frames (si x) f Ef) as [Pf Kid].
  assert (El : f_ty f = EArray \/ f_ty f = ESlice -> forall g, nth_error stk (S (si x)) = Some g -> elem_frame stk g).
  { intros K g Hg. exists (si x), f. rewrite (Kid K g Hg). auto. }
  assert (Scal : inv_out (match f_ty f, tk_ty t with
          | EJSON, _ => on_json C stk s toks f t x
          | EPtr, KNull => lift (null_tok C EPtr (dst (dy x) (si x)) (hp x)) (fun h =>
                             on_val_end stk toks (St (si x) (S (ti x)) (dy x) h))
          | EPtr, _ => on_ptr C stk x
          | _, _ =>
              lift (scalar_tok C s f t (dst (dy x) (si x)) (hp x)) (fun '(h, r) =>
              match r with
              | Some e => Fail (tk_idx t) e (with_hp h x)
              | None => on_val_end stk toks (St (si x) (S (ti x)) (dy x) h)
              end)
          end)).
  { destruct (f_ty f);
    try (apply inv_lift; intros [h r]; destruct r; [cbn; assumption|apply inv_val_end; cbn; assumption]).
    - apply inv_json, H.
    - destruct (tk_ty t); try (apply inv_ptr, H). apply inv_lift. intros h. apply inv_val_end, H. }
  destruct (tk_ty t); try exact Scal; clear Scal.
  - unfold arr_tok. cbv zeta. destruct (f_ty f); try discriminate; try (cbn; exact H);
      try (apply inv_any, H); try (apply inv_ptr, H); try (apply inv_json, H);
      try (apply inv_val_end, H); try (unfold fast_slice; cbv zeta);
      try (specialize (El ltac:(auto))); go;
      try (apply inv_val_end; exact H); (apply inv_upd; [exact H|reflexivity|right; exact El]).
  - unfold arr_end_tok. cbv zeta. cbn [dy si goto_ti]. rewrite !(proj1 H). go; apply inv_val_end; exact H.
  - unfold obj_tok. cbv zeta. destruct (f_ty f); try discriminate; try (cbn; exact H);
      try (apply inv_any, H); try (apply inv_ptr, H); try (apply inv_json, H);
      try (apply inv_val_end, H); go; try (apply inv_val_end; exact H); apply inv_recur; exact H.
  - unfold obj_end_tok. cbv zeta. destruct (f_ty f); try discriminate; try (apply inv_val_end; exact H); apply inv_recur; exact H.
  - unfold key_tok. cbv zeta. destruct (f_ty f); try discriminate; go.
Qed.
Lemma inv_run fuel : forall x, inv (dy x) ->
  match run C O stk s toks fuel x with RDone y | RFail _ _ y => inv (dy y) | _ => True end.
Proof.
  induction fuel as [|fuel IH]; intros x H; cbn [run]; destruct (ti x <? length toks); try exact I; try exact H.
  pose proof (inv_step x H) as S. destruct (step C O stk s toks x); cbn in S; try exact I; [apply IH, S|exact S].
Qed.
End Inv.

Lemma inv_dyn_ok stk D : inv stk D -> dyn_ok stk D.
Proof. intros [R Of] j f Hj _. split; [apply R|intros N; apply Of; assumption]. Qed.

(** The state a decoder is in after any number of calls. *)
Definition rested (stk : list frame) (D : dyn) : Prop := inv stk D /\ forall j, d_dest (D j) = None.

Lemma rested_fresh stk : rested stk (dyn0 stk).
Proof. repeat split. intros j f Hj _. unfold dyn0. cbn. rewrite Hj. reflexivity. Qed.

Lemma describes_frames w64 stk d : describes w64 stk d -> forall i, frame_ok stk i.
Proof.
  intros (L & F & _) i f Hf. pose proof (fits_frames _ _ _ _ F i) as K. apply K; [|exact Hf].
  assert (i < length stk) by (apply nth_error_Some; congruence). lia.
Qed.

Lemma rested_decode C O w64 stk d D s tk t h i e D' h' : describes w64 stk d ->
  rested stk D -> Decode C O stk D s tk t h = Ret i e D' h' -> rested stk D'.
Proof.
  intros Fr [V N] H. pose proof (describes_frames _ _ _ Fr) as Fk.
  assert (cl : forall D, inv stk D -> rested stk (clear_dests D)).
  { intros E [R Of]. split; [split; [intros j; apply R|intros j f; cbn; apply Of]|reflexivity]. }
  unfold Decode in H. destruct t as [a|]; [|injection H as <- <- <- <-; apply cl, V].
  assert (V' : inv stk (upd_d D 0 (set_dest (Some a)))) by (apply inv_dest, V).
  destruct tk as [ts|k c]; [|injection H as <- <- <- <-; apply cl, V'].
  pose proof (inv_run C O stk s ts Fk (run_fuel stk ts) (St 0 0 (upd_d D 0 (set_dest (Some a))) h) V') as Q.
  destruct (run _ _ _ _ _ _ _) as [x|k er x| | |]; try discriminate.
  - destruct (d_dest _); try discriminate. destruct (_ && _).
    + injection H as <- <- <- <-. apply cl, Q.
    + destruct (copy _ _ _ _); try discriminate. injection H as <- <- <- <-. apply cl, Q.
  - injection H as <- <- <- <-. apply cl, Q.
Qed.

(** ** The whole call *)
Section Root.
Variables (C : cfg) (O : opts) (stk : list frame) (s : bytes).
Let w64 := c_w64 C.

Lemma dech_ptr t v p h : match v with JNull _ => true | _ => false end = false ->
  dech C O s (DPtr t) v p h =
  (if (dsize w64 t =? 0)%Z then hlift (store h p (wb w64) (CPtr (0, 0%Z))) (fun h => dech C O s t v None h)
   else let '(a, h) := malloc h (dsize w64 t) in
        hlift (store h p (wb w64) (CPtr a)) (fun h => dech C O s t v (Some a) h)).
Proof. destruct v; try discriminate; reflexivity. Qed.

(** The documents on which the loop is faithful.  By the end of the input it does not
    matter whether the loop is late or early, and in an object that is the whole document
    members that are early do no harm. *)
Fixpoint ctl_top (d : dt) (v : jv) : Prop :=
  match d with
  | DPtr t => match v with JNull _ => True | _ => ctl_top t v end
  | _ => lag_of C O d v <> None
  end.
Definition ctl_root (d : dt) (v : jv) : Prop :=
  match d, v with
  | DStruct _ fs, JObj _ _ l =>
      lags true (map (member_lag C O (map (fun x => fst (fst x)) fs) (map (fun x => lag_of C O (snd x)) fs)) l) <> None
  | DMap _ t, JObj _ _ l => lags true (map (fun x => lag_of C O t (snd x)) l) <> None
  | _, _ => ctl_top d v
  end.
Lemma lags_top l q : lags false l = Some q -> lags true l = Some q.
Proof.
  induction l as [|x r IH]; [auto|]. destruct r as [|y r0]; [rewrite !lags_one; auto|]. intros H.
  apply lags_cons in H as [[-> |[_ X]] H]; [|discriminate]. exact (IH H).
Qed.
Lemma ctl_root_top d v : ctl_top d v -> ctl_root d v.
Proof.
  destruct d; try exact (fun H => H); destruct v; try exact (fun H => H); cbn [ctl_top ctl_root lag_of]; intros H;
    (destruct (lags false _) as [q|] eqn:E; [|congruence]); rewrite (lags_top _ _ E); discriminate.
Qed.
Lemma ctl_root_plain d v : ctl C O d v -> ctl_root d v.
Proof.
  intros H. apply ctl_root_top. revert v H. induction d as [x|id z|id z| |n t IH| |t IH|k t IH| |t IH|z fs IH] using dt_ind'; intros v H;
    try (cbn [ctl_top]; rewrite (ctl_on _ _ _ _ H); discriminate).
  cbn [ctl_top ctl] in *. destruct v; try exact I; destruct H.
Qed.

Section Doc.
Variable v : jv.
Let toks := flat 0 v.
Notation step := (Machine.step C O stk s toks).
Notation reach := (Control.reach C O stk s toks).

(** All frames before [i] are pointers: going back through them ends the call. *)
Definition chain (i : nat) : Prop := forall j f, j <= i -> nth_error stk j = Some f ->
  match j with
  | 0 => f_parent f = None
  | S k => f_parent f = Some k /\ exists g, nth_error stk k = Some g /\ f_ty g = EPtr
  end.

Lemma chain_val_end i x : chain i -> i < length stk -> si x = i ->
  exists i', on_val_end stk toks x = Next (St i' (ti x) (dy x) (hp x)) /\ i' <= i.
Proof.
  intros Ch Hl <-. unfold on_val_end, fr. destruct (nth_error stk (si x)) as [f|] eqn:E; [|apply nth_error_None in E; lia].
  specialize (Ch _ f (le_n _) E). destruct (si x) as [|k] eqn:Ex.
  - rewrite Ch. exists 0. split; [|lia]. destruct x; cbn in *. subst; reflexivity.
  - destruct Ch as (P & g & Hg & T). rewrite P, Hg, T. exists k. split; [reflexivity|lia].
Qed.

(** What remains to be done at frame [i] yields [r] and the end of the call. *)
Definition finishes (x : st) (r : hres) : Prop :=
  match r with
  | HOk h => exists y, (ti y = length toks /\ hp y = h /\ dy y 0 = dy x 0) /\ reach x (Next y)
  | HErr idx e h => exists y, reach x (Fail idx e y) /\ hp y = h
  | HPan => reach x Panic
  | HCor => reach x Corrupt
  end.

Lemma finishes_step x x' r : ti x < length toks -> step x = Next x' -> dy x' 0 = dy x 0 -> finishes x' r -> finishes x r.
Proof.
  intros L E D0 F. destruct r; cbn in *.
  - destruct F as (y & (A & B & G) & R). exists y. rewrite <- D0. split; [auto|]. eapply reach_more; eauto.
  - destruct F as (y & R & B). exists y. split; [|exact B]. eapply reach_more; eauto.
  - eapply reach_more; eauto.
  - eapply reach_more; eauto.
Qed.

Lemma ends_finishes q i n d D h r : fits w64 stk i d -> chain i ->
  (q = Early -> exists io jo lo, v = JObj io jo lo) ->
  ends C O stk s toks q (St i 0 D h) i n (length toks) D r -> finishes (St i 0 D h) r.
Proof.
  intros F Ch Ob E. destruct r; cbn in *; try exact E.
  assert (Hd : exists f, nth_error stk i = Some f /\ f_ty f = dt_et d).
  { apply fits_head in F as (? & f & Hf & T & _). eauto. }
  destruct Hd as (f & Hf & T).
  assert (Hl : i < length stk) by (apply nth_error_Some; congruence).
  destruct E as (D' & R & Dk & Fr). destruct q; cbn [fin] in R.
  - edestruct (chain_val_end i (St i (length toks) D' h0) Ch Hl eq_refl) as (i' & Ev & Hi).
    rewrite Ev in R. eexists. split; [|exact R]. cbn. repeat split. apply Fr. lia.
  - eexists. split; [|exact R]. cbn. repeat split. apply Fr. lia.
  - destruct (Ob eq_refl) as (io & jo & lo & Ev).
    assert (At : skipn 0 toks = flat 0 (JObj io jo lo) ++ []) by (rewrite app_nil_r, <- Ev; reflexivity).
    assert (Ln : length toks = 0 + ntok (JObj io jo lo)) by (unfold toks; rewrite flat_length, Ev; reflexivity).
    destruct (obj_last C toks _ _ _ _ _ At) as [E2 Sk]. rewrite <- Ln in E2, Sk.
    edestruct (chain_val_end i (St i (pred (length toks)) D' h0) Ch Hl eq_refl) as (i' & Ee & Hi).
    rewrite Ee in R. cbn [ti dy hp] in R.
    assert (Hl' : i' < length stk) by lia.
    destruct (nth_error stk i') as [f'|] eqn:Ef'; [|apply nth_error_None in Ef'; lia].
    assert (Te : exists d', f_ty f' = dt_et d').
    { destruct (Nat.eq_dec i' i) as [->|N].
      - rewrite Hf in Ef'. injection Ef' as <-. eauto.
      - exists (DPtr DEmpty). destruct (nth_error stk (S i')) as [g|] eqn:Eg.
        + destruct (Ch (S i') g ltac:(lia) Eg) as (_ & g' & Hg' & Tg). cbn. congruence.
        + apply nth_error_None in Eg. lia. }
    destruct Te as (d' & Te).
    assert (Ch' : chain i') by (intros j g Hj; apply Ch; lia).
    destruct (step_obj_end C O stk s toks i' _ D' h0 f' d' _ _ _ _ Ef' Te Dk E2) as [ST Lt].
    edestruct (chain_val_end i' (St i' (S (pred (length toks))) D' h0) Ch' Hl' eq_refl) as (i2 & E3 & Hi2).
    rewrite E3 in ST. eexists. split; [|eapply reach_then; [exact R|apply reach_one; [exact Lt|exact ST]]].
    cbn [ti hp dy]. rewrite Sk. repeat split. apply Fr. lia.
Qed.

Lemma root_reach_top : forall d i D h, fits w64 stk i d -> chain i ->
  dyn_ok stk D -> (forall j, i < j -> d_dest (D j) = None) -> lexed s v -> ctl_top d v ->
  finishes (St i 0 D h) (dech C O s d v (dst D i) h).
Proof.
  assert (At : skipn 0 toks = flat 0 v ++ []) by (rewrite app_nil_r; reflexivity).
  assert (Lt : 0 < length toks) by (unfold toks; rewrite flat_length; pose proof (ntok_pos v); lia).
  assert (Len : length toks = 0 + ntok v) by (unfold toks; rewrite flat_length; reflexivity).
  assert (Plain : forall d i D h, fits w64 stk i d -> chain i -> dyn_ok stk D -> lexed s v -> lag_of C O d v <> None ->
    finishes (St i 0 D h) (dech C O s d v (dst D i) h)).
  { intros d i D h F Ch Dk L Ct. destruct (lag_of C O d v) as [q|] eqn:Q; [|congruence].
    eapply ends_finishes; [exact F|exact Ch| |rewrite Len; eapply value_reach; eauto].
    intros ->. exact (early_obj _ _ _ _ Q). }
  induction d as [x|id z|id z| |n t IH| |t IH|k t IH| |t IH|z fs IH] using dt_ind'; intros i D h F Ch Dk Dn L Ct;
    try (apply Plain; assumption).
  - (* pointers *)
    destruct (match v with JNull _ => true | _ => false end) eqn:Nu.
    { apply Plain; try assumption. cbn [lag_of]. clear - Nu. destruct v; discriminate. }
    cbn [Dt.fits] in F. destruct F as (Hd & Ft & Lk).
    destruct Hd as (f & Hf & T & _).
    pose proof (fits_head C stk (S i) t Ft) as (? & fc & Hc & Tc & Sc & _).
    pose proof (linked_parent _ _ _ _ _ _ Lk Hc) as Pc.
    assert (Oc : f_off fc = 0%Z) by (destruct Lk as (g & Hg & _ & O0 & _); rewrite Hc in Hg; injection Hg as <-; exact O0).
    assert (ST : step (St i 0 D h) = on_ptr C stk (St i 0 D h)).
    { unfold Machine.step. cbn [ti si]. unfold fr. rewrite Hf. clear - Nu T. revert Nu. unfold toks. generalize v at 1 2. intros u Nu.
      destruct u as [| | | | |ia ja l|ia ja l]; try discriminate; cbn [flat nth_error tk_ty]; try rewrite flat_arr; try rewrite flat_obj;
        cbn [nth_error tk_ty]; try destruct b; unfold arr_tok, obj_tok; rewrite T; reflexivity. }
    unfold on_ptr in ST. unfold fr in ST. cbn [si hp dy ti] in ST. rewrite Hc, Sc in ST. fold w64 in ST.
    assert (Ch' : chain (S i)).
    { intros j g Hj Hg. destruct (Nat.eq_dec j (S i)) as [->|]; [|apply Ch; [lia|exact Hg]].
      rewrite Hc in Hg. injection Hg as <-. split; [exact Pc|]. exists f. split; [exact Hf|exact T]. }
    assert (Nel : ~ elem_frame stk fc).
    { intros (p & fp & Pp & Hp & K). rewrite Pc in Pp. injection Pp as <-. rewrite Hf in Hp. injection Hp as <-. rewrite T in K. destruct K; discriminate. }
    assert (Goal : finishes (St i 0 D h)
      (if (dsize w64 t =? 0)%Z then hlift (store h (dst D i) (wb w64) (CPtr (0, 0%Z))) (fun h => dech C O s t v None h)
       else let '(a, h) := malloc h (dsize w64 t) in
            hlift (store h (dst D i) (wb w64) (CPtr a)) (fun h => dech C O s t v (Some a) h))).
    { destruct (dsize w64 t =? 0)%Z.
      - destruct (store h (dst D i) (wb w64) (CPtr (0, 0%Z))) as [h1| |]; cbn [lift hlift] in *; try (apply reach_one; [exact Lt|exact ST]).
        eapply finishes_step; [exact Lt|exact ST|reflexivity|]. cbn [goto_si with_hp ti dy hp].
        assert (Hn : dst D (S i) = None) by (unfold dst; rewrite Dn by lia; reflexivity).
        rewrite <- Hn. apply IH; try assumption; [intros j Hj; apply Dn; lia|].
        cbn [ctl_top] in Ct. clear - Ct Nu. destruct v; try exact Ct. discriminate.
      - destruct (malloc h (dsize w64 t)) as [a h0].
        destruct (store h0 (dst D i) (wb w64) (CPtr a)) as [h1| |]; cbn [lift hlift] in *; try (apply reach_one; [exact Lt|exact ST]).
        eapply finishes_step; [exact Lt|exact ST|reflexivity|].
        assert (Hn : dst (upd_d D (S i) (set_dest (Some a))) (S i) = Some a).
        { unfold dst, upd_d. rewrite Nat.eqb_refl. cbn [set_dest d_dest d_off]. rewrite (proj2 (Dk _ _ Hc ltac:(rewrite Tc; apply head_not_recur)) Nel), Oc.
          destruct a. cbn. rewrite Z.add_0_r. reflexivity. }
        pose proof (IH (S i) (upd_d D (S i) (set_dest (Some a))) h1 Ft Ch') as IH'. rewrite Hn in IH'. apply IH'; try assumption.
        + apply dyn_ok_dest, Dk.
        + intros j Hj. unfold upd_d. destruct (Nat.eqb_spec j (S i)); [lia|]. apply Dn. lia.
        + cbn [ctl_top] in Ct. clear - Ct Nu. destruct v; try exact Ct. discriminate. }
    rewrite dech_ptr by exact Nu. exact Goal.
Qed.

Lemma root_reach d D h : fits w64 stk 0 d -> chain 0 ->
  dyn_ok stk D -> (forall j, 0 < j -> d_dest (D j) = None) -> lexed s v -> ctl_root d v ->
  finishes (St 0 0 D h) (dech C O s d v (dst D 0) h).
Proof.
  intros F Ch Dk Dn L Ct.
  assert (At : skipn 0 toks = flat 0 v ++ []) by (rewrite app_nil_r; reflexivity).
  assert (Lt : 0 < length toks) by (unfold toks; rewrite flat_length; pose proof (ntok_pos v); lia).
  assert (Len : length toks = 0 + ntok v) by (unfold toks; rewrite flat_length; reflexivity).
  destruct d as [x|id z|id z| |n t| |t|kt t| |t|z fs]; try (apply root_reach_top; assumption).
  - (* maps *)
    destruct (match v with JObj _ _ _ => true | _ => false end) eqn:Ob.
    2:{ apply root_reach_top; try assumption. clear - Ct Ob. destruct v; try exact Ct. discriminate. }
    assert (Ev : exists ia ja l, v = JObj ia ja l) by (clear - Ob; destruct v; try discriminate; eauto).
    pose proof Ev as Ev'. destruct Ev as (ia & ja & l & Ev).
    assert (Ct' : lags true (map (fun x => lag_of C O t (snd x)) l) <> None) by (clear - Ct Ev; rewrite Ev in Ct; exact Ct).
    destruct (lags true _) as [q|] eqn:Lg; [|congruence]. clear Ct Ct' Ob.
    apply (ends_finishes q 0 (dlen (DMap kt t)) (DMap kt t)); [exact F|exact Ch|intros _; exact Ev'|].
    rewrite Ev in At. assert (L' : lexed s (JObj ia ja l)) by (rewrite <- Ev; exact L). rewrite Len, Ev.
    clear Ev Ev'. cbn [Dt.fits] in F. destruct F as (Hd & (fk & Hk & Tk & Rk) & Fd & fv & Hv & Pv & Ov & Cv').
    destruct Hd as (f & Hf & T & Sz & Ff & R).
    pose proof (fits_head C stk _ _ Fd) as (? & fv' & Hv' & Tv & Sv' & _). rewrite Hv in Hv'. injection Hv' as <-.
    pose proof (step_obj C O stk s toks _ _ D h _ _ _ _ _ Hf At) as ST. unfold obj_tok in ST. rewrite T in ST. cbn [dt_et tk_n hp dy si ti] in ST.
    cbn [Dec.dech]. apply lexed_obj in L' as (_ & _ & _ & L'). fold w64.
    destruct (init_map C h (dst D 0)) as [h1| |]; cbn [lift hlift] in *; try (apply reach_one; [exact Lt|exact ST]).
    destruct l as [|x0 l0].
    + injection Lg as <-. cbn [entries_h]. cbn [length Nat.eqb] in ST. apply ends_one; [exact Lt|exact Dk|]. exact ST.
    + set (l := x0 :: l0) in *. change (Nat.eqb (length l) 0) with false in ST. cbv iota in ST.
      eapply ends_step; [exact Lt|exact ST|].
      rewrite flat_obj in At. cbn [app] in At. rewrite <- app_assoc in At. apply at_next in At as (_ & _ & At).
      rewrite ntok_obj. replace (0 + (2 + ntokm l)) with (1 + ntokm l + 1) by lia.
      eapply (map_loop C O stk s toks true kt t 0 f fk fv (value_reach C O stk s toks t) Hf T R Hk Tk Rk Hv Tv Pv Ov Fd) with (j := ja) (e := 0) (rest := []);
        try assumption; try discriminate; try reflexivity.
      intros _. exact (Ch 0 f (le_n _) Hf).
  - (* structs *)
    destruct (match v with JObj _ _ _ => true | _ => false end) eqn:Ob.
    2:{ apply root_reach_top; try assumption. clear - Ct Ob. destruct v; try exact Ct. discriminate. }
    assert (Ev : exists ia ja l, v = JObj ia ja l) by (clear - Ob; destruct v; try discriminate; eauto).
    pose proof Ev as Ev'. destruct Ev as (ia & ja & l & Ev).
    assert (Ct' : lags true (map (member_lag C O (map (fun x => fst (fst x)) fs) (map (fun x => lag_of C O (snd x)) fs)) l) <> None)
      by (clear - Ct Ev; rewrite Ev in Ct; exact Ct).
    destruct (lags true _) as [q|] eqn:Lg; [|congruence]. clear Ct Ct' Ob.
    apply (ends_finishes q 0 (dlen (DStruct z fs)) (DStruct z fs)); [exact F|exact Ch|intros _; exact Ev'|].
    rewrite Ev in At. assert (L' : lexed s (JObj ia ja l)) by (rewrite <- Ev; exact L). rewrite Len, Ev.
    clear Ev Ev'. apply fits_struct in F as [Hd F]. destruct Hd as (f & Hf & T & Sz & Ff & R).
    pose proof (step_obj C O stk s toks _ _ D h _ _ _ _ _ Hf At) as ST. unfold obj_tok in ST. rewrite T in ST. cbn [dt_et tk_n hp dy si ti] in ST.
    cbn [Dec.dech]. apply lexed_obj in L' as (_ & _ & _ & L').
    destruct l as [|x0 l0].
    + injection Lg as <-. cbn [members_h]. cbn [length Nat.eqb] in ST. apply ends_one; [exact Lt|exact Dk|]. exact ST.
    + set (l := x0 :: l0) in *. change (Nat.eqb (length l) 0) with false in ST. cbv iota in ST.
      eapply ends_step; [exact Lt|exact ST|]. cbn [goto_ti with_dy si ti dy hp].
      rewrite flat_obj in At. cbn [app] in At. rewrite <- app_assoc in At. apply at_next in At as (_ & _ & At).
      rewrite ntok_obj. replace (0 + (2 + ntokm l)) with (1 + ntokm l + 1) by lia. rewrite dlen_struct.
      assert (V : Forall (fun x => value_ok C O stk s toks (snd x)) fs) by (apply Forall_forall; intros; apply value_reach).
      eapply (struct_loop C O stk s toks true z fs 0 f V Hf T Ff F) with (j := ja) (e := 0) (rest := []); try assumption; try discriminate.
      * intros _. exact (Ch 0 f (le_n _) Hf).
      * apply dyn_ok_dests, Dk.
      * intros a Ha. cbn [with_dy dy]. rewrite set_dests_spec, Ff.
        match goal with |- context [existsb ?g ?l] => replace (existsb g l) with true; [reflexivity|] end.
        symmetry. apply existsb_exists. exists a. split; [exact Ha|apply Nat.eqb_refl].
      * intros j Hj. cbn [with_dy dy]. rewrite set_dests_spec, Ff. destruct (existsb _ _) eqn:Ex; [|reflexivity].
        apply existsb_exists in Ex as (a & Ha & Ea). apply Nat.eqb_eq in Ea. subst j.
        apply field_idx_lt in Ha as Hl. apply field_idx_ge in Ha. lia.
Unshelve. all: exact C.
Qed.

(** Decode is [dech]. *)
Theorem decode_dech d D a h :
  describes w64 stk d -> rested stk D -> lexed s v -> ctl_root d v ->
  match dech C O s d v (Some a) h with
  | HOk h' => exists D', Decode C O stk D s (TOk toks) (Some a) h = Ret (-1) None D' h' /\ rested stk D'
  | HErr i e h' => exists D', Decode C O stk D s (TOk toks) (Some a) h = Ret (Z.of_nat i) (Some e) D' h' /\ rested stk D'
  | HPan => Decode C O stk D s (TOk toks) (Some a) h = DPanics
  | HCor => Decode C O stk D s (TOk toks) (Some a) h = DCorrupts
  end.
Proof.
  intros Ds Rd L Ct. pose proof (rested_decode C O w64 stk d D s (TOk toks) (Some a) h) as Keep.
  destruct Ds as (Ln & F & Lk). destruct Rd as [V N].
  assert (V' : inv stk (upd_d D 0 (set_dest (Some a)))) by (apply inv_dest, V).
  pose proof (fits_head C stk 0 d F) as (? & f & Hf & _).
  pose proof (linked_parent _ _ _ _ _ _ Lk Hf) as P0.
  assert (O0 : f_off f = 0%Z) by (destruct Lk as (g & Hg & _ & O0 & _); rewrite Hf in Hg; injection Hg as <-; exact O0).
  assert (Ch : chain 0).
  { intros j g Hj Hg. assert (j = 0) as -> by lia. rewrite Hf in Hg. injection Hg as <-. exact P0. }
  assert (Hd : dst (upd_d D 0 (set_dest (Some a))) 0 = Some a).
  { unfold dst, upd_d. cbn [Nat.eqb set_dest d_dest d_off]. destruct V as [_ Of]. rewrite (Of 0 f Hf), O0.
    - destruct a. cbn. rewrite Z.add_0_r. reflexivity.
    - intros (p & fp & Pp & _). congruence. }
  assert (Nn : forall j, 0 < j -> d_dest (upd_d D 0 (set_dest (Some a)) j) = None).
  { intros j Hj. unfold upd_d. destruct (Nat.eqb_spec j 0); [lia|]. apply N. }
  pose proof (root_reach d _ h F Ch (inv_dyn_ok _ _ V') Nn L Ct) as R. rewrite Hd in R.
  unfold Decode. unfold Decode in Keep.
  set (x0 := St 0 0 (upd_d D 0 (set_dest (Some a))) h) in *.
  destruct (dech C O s d v (Some a) h) as [h'|i e h'| |]; cbn [finishes] in R.
  - destruct R as (y & (Ty & Hy & Dy) & R). apply reach_run in R as (n & R). specialize (R 0).
    cbn [cont] in R. assert (Ry : run C O stk s toks 0 y = RDone y).
    { cbn [run]. replace (ti y <? length toks) with false by (symmetry; apply Nat.ltb_ge; lia). reflexivity. }
    rewrite Ry in R. apply run_fuel_enough in R; try discriminate; try reflexivity; [|apply flat_ends].
    rewrite R in *. replace (d_dest (dy y 0)) with (Some a) in * by (rewrite Dy; reflexivity).
    rewrite Nat.eqb_refl, Z.eqb_refl in *. cbn [andb] in *. rewrite Hy in *. eexists. split; [reflexivity|].
    eapply Keep; [split; [exact Ln|split; [exact F|exact Lk]]|split; assumption|reflexivity].
  - destruct R as (y & R & Hy). apply reach_run in R as (n & R). specialize (R 0). cbn [cont] in R.
    apply run_fuel_enough in R; try discriminate; try reflexivity; [|apply flat_ends].
    rewrite R, Hy in *. eexists. split; [reflexivity|].
    eapply Keep; [split; [exact Ln|split; [exact F|exact Lk]]|split; assumption|reflexivity].
  - apply reach_run in R as (n & R). specialize (R 0). cbn [cont] in R.
    apply run_fuel_enough in R; try discriminate; try reflexivity; [|apply flat_ends]. rewrite R. reflexivity.
  - apply reach_run in R as (n & R). specialize (R 0). cbn [cont] in R.
    apply run_fuel_enough in R; try discriminate; try reflexivity; [|apply flat_ends]. rewrite R. reflexivity.
Qed.
End Doc.
End Root.

(** C28: independence of the decoder's history. *)
From Verif Require Import Base NumSpec Types AppendType Token FloatLit Heap Machine Dt Dec Control Root Elab Value Dval Sep Refine Spec Typed SpecProofs Main Parse World Elaborate PropsDecode.
Open Scope Z_scope.

(** What the caller of Decode can see of a call: the returned index and error and the
    memory, or the way it went wrong; everything but the state of the decoder. *)
Inductive outcome := Returned (i : Z) (e : option err) (h : heap) | Panicked | Corrupted | Looped.
Definition outcome_of (r : result) : outcome :=
  match r with Ret i e _ h => Returned i e h | DPanics => Panicked | DCorrupts => Corrupted | DLoops => Looped end.

(** Two decoders made for the same type, whatever calls each of them performed before,
    cannot be told apart by a call with a document in [ctl_root]: same index, error and
    memory, address by address, even on memory in which the destination does not hold a
    value of its type. *)
Theorem C28_history_partial C O E dis T d stk D1 D2 s v a h :
  decoder_for C E dis T d stk D1 -> decoder_for C E dis T d stk D2 -> json_text s v -> ctl_root C O d v ->
  outcome_of (Decode C O stk D1 s (TOk (flat 0 v)) (Some a) h) = outcome_of (Decode C O stk D2 s (TOk (flat 0 v)) (Some a) h).
Proof.
  intros Df1 Df2 J Ct. pose proof (decoder_describes _ _ _ _ _ _ _ Df1) as Ds.
  pose proof (used_rested _ _ _ _ Ds (df_used _ _ _ _ _ _ _ Df1)) as R1. pose proof (used_rested _ _ _ _ Ds (df_used _ _ _ _ _ _ _ Df2)) as R2.
  pose proof (json_text_lexed _ _ J) as L.
  pose proof (decode_dech C O stk s v d D1 a h Ds R1 L Ct) as Q1. pose proof (decode_dech C O stk s v d D2 a h Ds R2 L Ct) as Q2.
  destruct (dech C O s d v (Some a) h) as [h'|i e h'| |].
  - destruct Q1 as (? & -> & _), Q2 as (? & -> & _). reflexivity.
  - destruct Q1 as (? & -> & _), Q2 as (? & -> & _). reflexivity.
  - rewrite Q1, Q2. reflexivity.
  - rewrite Q1, Q2. reflexivity.
Qed.
(** Calls that do not reach the state machine, for every frame list and decoder state. *)
Theorem C28_history_trivial_calls_partial C O stk D1 D2 s tk t h :
  t = None \/ (exists i c, tk = TErr i c) ->
  outcome_of (Decode C O stk D1 s tk t h) = outcome_of (Decode C O stk D2 s tk t h).
Proof. intros [-> | (i & c & ->)]; [reflexivity|]. destruct t as [a|]; reflexivity. Qed.


(** ** Types without arrays: every document *)
(** The type contains no [n]T with n > 0. *)
Fixpoint arrays (d : dt) : bool :=
  match d with
  | DArr _ _ => true
  | DSlice t | DMap _ t | DPtr t => arrays t
  | DStruct _ fs => (fix go (fs : list ((bytes * Z) * dt)) := match fs with [] => false | x :: r => arrays (snd x) || go r end) fs
  | _ => false
  end.

Section Same.
Variables (C : cfg) (O : opts) (stk : list frame) (s : bytes) (toks : list token).
(** Frame [j] exists and is not the element of an array or slice. *)
Definition non_elem (j : nat) : Prop := exists f, nth_error stk j = Some f /\ ~ elem_frame stk f.
Definition kids_ok (i : nat) : Prop :=
  forall f, nth_error stk i = Some f ->
  f_ty f <> EArray /\
  (f_ty f = EStruct -> forall x, In x (f_fields f) -> non_elem (snd x)) /\
  (f_ty f = EMap -> non_elem (S (S i))) /\
  (f_ty f = EPtr -> non_elem (S i)).
Hypothesis frames : forall i, frame_ok stk i.
Hypothesis kids : forall i, kids_ok i.

Definition same_dyn (D1 D2 : dyn) : Prop :=
  forall j, d_dest (D1 j) = d_dest (D2 j) /\ (d_dest (D1 j) = None \/ d_off (D1 j) = d_off (D2 j)).
Definition same (x1 x2 : st) : Prop :=
  si x1 = si x2 /\ ti x1 = ti x2 /\ hp x1 = hp x2 /\ inv stk (dy x1) /\ inv stk (dy x2) /\ same_dyn (dy x1) (dy x2).
Definition same_out (o1 o2 : out) : Prop :=
  match o1, o2 with
  | Next x1, Next x2 => same x1 x2
  | Fail i1 e1 x1, Fail i2 e2 x2 => i1 = i2 /\ e1 = e2 /\ same x1 x2
  | Panic, Panic | Corrupt, Corrupt => True
  | _, _ => False
  end.
Lemma same_dst D1 D2 i : same_dyn D1 D2 -> dst D1 i = dst D2 i.
Proof. intros H. unfold dst. destruct (H i) as [E [N|E2]]; rewrite <- E; [rewrite N|rewrite E2]; reflexivity. Qed.
Lemma same_lift {A} (r : res A) k1 k2 : (forall a, same_out (k1 a) (k2 a)) -> same_out (lift r k1) (lift r k2).
Proof. destruct r; cbn; auto. Qed.

(** Relation of the dynamic parts only, with the invariants. *)
Definition sim (D1 D2 : dyn) : Prop := inv stk D1 /\ inv stk D2 /\ same_dyn D1 D2.
Lemma sim_dest D1 D2 i p : sim D1 D2 -> non_elem i -> sim (upd_d D1 i (set_dest p)) (upd_d D2 i (set_dest p)).
Proof.
  intros (V1 & V2 & S) (f & Ef & N). split; [apply inv_dest, V1|]. split; [apply inv_dest, V2|].
  intros j. unfold upd_d. destruct (Nat.eqb_spec j i) as [->|]; [|apply S]. cbn. split; [reflexivity|right].
  rewrite (proj2 V1 i f Ef N), (proj2 V2 i f Ef N). reflexivity.
Qed.
Lemma sim_dests fs p : (forall x, In x fs -> non_elem (snd x)) -> forall D1 D2, sim D1 D2 -> sim (set_dests D1 fs p) (set_dests D2 fs p).
Proof.
  unfold set_dests. induction fs as [|x fs IH]; intros N D1 D2 H; [exact H|]. cbn [fold_left]. apply IH; [intros y Hy; apply N; right; exact Hy|].
  apply sim_dest; [exact H|apply N; left; reflexivity].
Qed.
(** Both set the offset (relative or absolute) of an element frame. *)
Lemma sim_elem D1 D2 i g : sim D1 D2 -> (forall f, nth_error stk i = Some f -> elem_frame stk f) -> (forall d, d_rs (g d) = d_rs d) ->
  (forall d1 d2, d_dest d1 = d_dest d2 /\ (d_dest d1 = None \/ d_off d1 = d_off d2) ->
     d_dest (g d1) = d_dest (g d2) /\ (d_dest (g d1) = None \/ d_off (g d1) = d_off (g d2))) ->
  sim (upd_d D1 i g) (upd_d D2 i g).
Proof.
  intros (V1 & V2 & S) El Rs G. split; [apply inv_upd; auto|]. split; [apply inv_upd; auto|].
  intros j. unfold upd_d. destruct (Nat.eqb_spec j i) as [->|]; [|apply S]. apply G, S.
Qed.
Lemma same_mk i t D1 D2 h : sim D1 D2 -> same (St i t D1 h) (St i t D2 h).
Proof. intros (V1 & V2 & S). repeat split; cbn; try reflexivity; try apply V1; try apply V2; apply S. Qed.
Lemma same_intro x1 x2 : same x1 x2 -> exists i t D1 D2 h, x1 = St i t D1 h /\ x2 = St i t D2 h /\ sim D1 D2.
Proof.
  destruct x1 as [i1 t1 D1 h1], x2 as [i2 t2 D2 h2]. intros (E1 & E2 & E3 & V1 & V2 & S). cbn in *. subst.
  exists i2, t2, D1, D2, h2. repeat split; try reflexivity; try apply V1; try apply V2; apply S.
Qed.

Ltac go2 :=
  repeat match goal with
  | |- same_out (lift _ _) (lift _ _) => apply same_lift; intros
  | |- same_out (let '(_, _) := ?d in _) (let '(_, _) := ?d in _) => destruct d eqn:?
  | |- same_out (match ?d with _ => _ end) (match ?d with _ => _ end) => destruct d eqn:?
  | |- same_out (Next _) (Next _) => cbn [same_out]
  | |- same_out (Fail _ _ _) (Fail _ _ _) => cbn [same_out]; split; [reflexivity|split; [reflexivity|]]
  | |- same_out Panic Panic => exact I
  | |- same_out Corrupt Corrupt => exact I
  | |- same (St _ _ _ _) (St _ _ _ _) => apply same_mk
  end; auto.

Lemma same_val_end i t D1 D2 h : sim D1 D2 ->
  same_out (on_val_end stk toks (St i t D1 h)) (on_val_end stk toks (St i t D2 h)).
Proof.
  intros S. unfold on_val_end, fr. cbn [si ti dy hp]. destruct (nth_error stk i) as [f|] eqn:Ef; [|exact I].
  destruct (f_parent f) as [c|] eqn:Pf; [|cbn; apply same_mk, S].
  destruct (nth_error stk c) as [fc|] eqn:Ec; [|exact I].
  destruct (kids c fc Ec) as (NA & _).
  destruct (f_ty fc) eqn:Tc; try (cbn; apply same_mk, S); try congruence.
  - destruct i; [exact I|]. cbn. apply same_mk, S.
  - unfold with_dy. cbn [si ti hp same_out]. apply same_mk, sim_elem; [exact S| |reflexivity|].
    + intros g Hg. rewrite Ef in Hg. injection Hg as <-. exists c, fc. auto.
    + intros d1 d2 [E1 E2]. cbn. split; [exact E1|]. destruct E2 as [E2|E2]; [left; exact E2|right; rewrite E2; reflexivity].
Qed.
Lemma same_recur i t D1 D2 h : sim D1 D2 ->
  same_out (on_recur_obj_end stk toks (St i t D1 h)) (on_recur_obj_end stk toks (St i t D2 h)).
Proof.
  intros S. pose proof S as (V1 & V2 & _). unfold on_recur_obj_end. cbn [si dy]. rewrite (proj1 V1), (proj1 V2).
  destruct (fr _ _); [apply same_val_end, S|exact I].
Qed.
Lemma same_ptr i t D1 D2 h : sim D1 D2 -> non_elem (S i) ->
  same_out (on_ptr C stk (St i t D1 h)) (on_ptr C stk (St i t D2 h)).
Proof.
  intros S N. pose proof S as (V1 & V2 & Sd). unfold on_ptr. cbn [si ti dy hp]. rewrite (same_dst _ _ i Sd).
  destruct (fr stk (Datatypes.S i)) as [f|]; [|exact I]. cbv zeta. unfold goto_si, with_hp. cbn [si ti dy hp]. go2. apply sim_dest; assumption.
Qed.
Lemma same_json f tk i t D1 D2 h : sim D1 D2 ->
  same_out (on_json C stk s toks f tk (St i t D1 h)) (on_json C stk s toks f tk (St i t D2 h)).
Proof.
  intros S. pose proof S as (V1 & V2 & Sd). unfold on_json. cbn [si ti dy hp]. cbv zeta. rewrite (same_dst _ _ i Sd).
  apply same_lift. intros [raw ti']. unfold with_hp. cbn [si ti dy hp]. go2. apply same_val_end, S.
Qed.
Lemma same_any tk i t D1 D2 h : sim D1 D2 ->
  same_out (any_tok C stk s toks tk (St i t D1 h)) (any_tok C stk s toks tk (St i t D2 h)).
Proof.
  intros S. pose proof S as (V1 & V2 & Sd). unfold any_tok. cbn [si ti dy hp]. rewrite (same_dst _ _ i Sd). go2. apply same_val_end, S.
Qed.

Lemma same_step x1 x2 : same x1 x2 -> same_out (step C O stk s toks x1) (step C O stk s toks x2).
Proof.
  intros H. destruct (same_intro x1 x2 H) as (i & t & D1 & D2 & h & -> & -> & S). clear H. pose proof S as (V1 & V2 & Sd).
  unfold step. cbn [si ti dy hp]. destruct (nth_error toks t) as [tk|]; [|exact I].
  destruct (fr stk i) as [f|] eqn:Ef; [|exact I].
  destruct (frames i f Ef) as [Pf Kid]. destruct (kids i f Ef) as (NA & KS & KM & KP).
  assert (El : f_ty f = ESlice -> forall g, nth_error stk (Datatypes.S i) = Some g -> elem_frame stk g).
  { intros K g Hg. exists i, f. rewrite (Kid (or_intror K) g Hg). auto. }
  rewrite (same_dst _ _ i Sd).
  destruct (tk_ty tk).
  all: try (destruct (f_ty f) eqn:Tf; try discriminate;
    try (apply same_lift; intros [h' r]; destruct r; [cbn; split; [reflexivity|split; [reflexivity|apply same_mk, S]]|apply same_val_end, S]);
    try (apply same_json, S); try (apply same_ptr; [exact S|apply KP; reflexivity]);
    try (apply same_lift; intros h'; apply same_val_end, S); fail).
  - unfold arr_tok. cbn [si ti dy hp]. rewrite (same_dst _ _ i Sd). cbv zeta.
    destruct (f_ty f) eqn:Tf; try discriminate; try congruence; try (cbn; split; [reflexivity|split; [reflexivity|apply same_mk, S]]);
      try (apply same_any, S); try (apply same_ptr; [exact S|apply KP; reflexivity]); try (apply same_json, S); try (apply same_val_end, S);
      try (unfold fast_slice; cbn [si ti dy hp]; rewrite (same_dst _ _ i Sd); cbv zeta); unfold with_hp; cbn [si ti dy hp]; go2; try (apply same_val_end, S).
    apply sim_elem; [exact S|apply El; reflexivity|reflexivity|]. intros d1 d2 _. cbn. auto.
  - unfold arr_end_tok. cbn [si ti dy hp goto_ti]. cbv zeta. destruct (f_ty f); try discriminate; unfold goto_si, goto_ti; cbn [si ti dy hp];
      (destruct i; [exact I|apply same_val_end, S]).
  - unfold obj_tok. cbn [si ti dy hp]. rewrite (same_dst _ _ i Sd). cbv zeta.
    destruct (f_ty f) eqn:Tf; try discriminate; try (cbn; split; [reflexivity|split; [reflexivity|apply same_mk, S]]);
      try (apply same_any, S); try (apply same_ptr; [exact S|apply KP; reflexivity]); try (apply same_json, S); try (apply same_val_end, S);
      unfold with_dy, goto_ti; cbn [si ti dy hp]; go2; try (apply same_val_end, S).
    apply sim_dests; [apply KS; reflexivity|exact S].
  - unfold obj_end_tok. unfold goto_ti. cbn [si ti dy hp]. cbv zeta. destruct (f_ty f); try discriminate; try (apply same_val_end, S); apply same_recur, S.
  - unfold key_tok. cbn [si ti dy hp]. rewrite (same_dst _ _ i Sd). unfold goto_ti. cbn [si ti dy hp].
    destruct (f_ty f) eqn:Tf; try discriminate; try (cbn; split; [reflexivity|split; [reflexivity|apply same_mk, S]]); cbv zeta; go2.
    all: try (apply sim_dest; [exact S|apply KM; reflexivity]).
Qed.
End Same.

Lemma linked_non_elem stk j i o c fi : linked stk j (Some i) o c -> nth_error stk i = Some fi ->
  f_ty fi <> EArray -> f_ty fi <> ESlice -> non_elem stk j.
Proof.
  intros (f & Ef & P & _) Ei N1 N2. exists f. split; [exact Ef|]. intros (c' & fc & Hp & Hc & T). rewrite P in Hp. injection Hp as <-.
  rewrite Ei in Hc. injection Hc as <-. destruct T; contradiction.
Qed.
Lemma fits_kids w64 stk d : forall i, fits w64 stk i d -> arrays d = false -> forall j, (i <= j < i + dlen d)%nat -> kids_ok stk j.
Proof.
  assert (Leaf : forall i d fields, head_is w64 stk i d fields -> dt_et d <> EArray -> dt_et d <> EStruct -> dt_et d <> EMap -> dt_et d <> EPtr -> kids_ok stk i).
  { intros i d0 fields (f & E & T & _) N1 N2 N3 N4 g Hg. rewrite E in Hg. injection Hg as <-. rewrite T. repeat split; try assumption; congruence. }
  assert (Fast : forall t e, fast_et t = Some e -> dt_et (DSlice t) = e /\ e <> EArray /\ e <> EStruct /\ e <> EMap /\ e <> EPtr).
  { intros t e Fe. cbn. rewrite Fe. split; [reflexivity|]. destruct t as [x| | | | | | | | | |]; cbn in Fe; try discriminate; try destruct x; try discriminate; injection Fe as <-; repeat split; discriminate. }
  induction d as [x|id z|id z| |n t IH| |t IH|k t IH| |t IH|z fs IH] using dt_ind'; intros i F A j Hj.
  all: try (cbn [dlen] in Hj; cbn [fits] in F; assert (j = i) as -> by lia; eapply Leaf; [exact F| | | |]; try (destruct x); cbn; discriminate).
  - discriminate A.
  - cbn [fits dlen arrays] in *. destruct (fast_et t) as [e|] eqn:Fe.
    + assert (j = i) as -> by lia. destruct (Fast t e Fe) as (E & N1 & N2 & N3 & N4). eapply Leaf; [exact F| | | |]; rewrite E; assumption.
    + destruct F as (Hd & Ft & Lk). destruct (Nat.eq_dec j i) as [->|].
      * eapply Leaf; [exact Hd| | | |]; cbn; rewrite Fe; discriminate.
      * eapply IH; [exact Ft|exact A|lia].
  - cbn [fits dlen arrays] in *. destruct F as (Hd & Kf & Ft & Lk).
    destruct (Nat.eq_dec j i) as [->|].
    + intros f Hf. destruct Hd as (f' & E & T & _). rewrite Hf in E. injection E as <-. cbn in T.
      repeat split; try congruence. intros _. eapply linked_non_elem; [exact Lk|exact Hf| |]; congruence.
    + destruct (Nat.eq_dec j (S i)) as [->|]; [|eapply IH; [exact Ft|exact A|lia]].
      destruct Kf as (f & E & T & _). intros g Hg. rewrite E in Hg. injection Hg as <-. rewrite T. destruct k; cbn; repeat split; discriminate.
  - cbn [fits dlen arrays] in *. destruct F as (Hd & Ft & Lk).
    destruct (Nat.eq_dec j i) as [->|]; [|eapply IH; [exact Ft|exact A|lia]].
    intros f Hf. destruct Hd as (f' & E & T & _). rewrite Hf in E. injection E as <-. cbn in T.
    repeat split; try congruence. intros _. eapply linked_non_elem; [exact Lk|exact Hf| |]; congruence.
  - apply fits_struct in F as [Hd F]. rewrite dlen_struct in Hj. cbn [arrays] in A.
    destruct (Nat.eq_dec j i) as [->|].
    + intros f Hf. destruct Hd as (f' & E & T & _ & Fs & _). rewrite Hf in E. injection E as <-. cbn in T.
      repeat split; try congruence. intros _. rewrite Fs. clear - F Hf T.
      revert F. generalize (S i) as k. induction fs as [|y fs IHf]; intros k F x Hx; [destruct Hx|].
      cbn [fits_fields field_idx] in *. destruct F as (Fy & Lk & Fr). destruct Hx as [<-|Hx].
      * cbn. eapply linked_non_elem; [exact Lk|exact Hf| |]; congruence.
      * eapply IHf; [exact Fr|exact Hx].
    + assert (Hj' : (S i <= j < S i + dlens fs)%nat) by lia. clear Hd Hj n. revert F Hj' A. generalize (S i) as k.
      induction IH as [|x fs Hx IH IHl]; intros k F Hj A; cbn [fits_fields dlens] in *; [lia|].
      destruct F as (Fx & _ & Fr). apply orb_false_iff in A as [A1 A2].
      destruct (Nat.lt_ge_cases j (k + dlen (snd x))); [eapply Hx; [exact Fx|exact A1|lia]|].
      eapply IHl; [exact Fr|lia|exact A2].
Qed.

Section SameRun.
Variables (C : cfg) (O : opts) (stk : list frame) (s : bytes) (toks : list token).
Hypothesis frames : forall i, frame_ok stk i.
Hypothesis kids : forall i, kids_ok stk i.
Lemma same_run fuel : forall x1 x2, same stk x1 x2 ->
  match run C O stk s toks fuel x1, run C O stk s toks fuel x2 with
  | RDone y1, RDone y2 => same stk y1 y2
  | RFail i1 e1 y1, RFail i2 e2 y2 => i1 = i2 /\ e1 = e2 /\ same stk y1 y2
  | RPanic, RPanic | RCorrupt, RCorrupt | RFuel, RFuel => True
  | _, _ => False
  end.
Proof.
  induction fuel as [|fuel IH]; intros x1 x2 H; pose proof H as (_ & Et & _); cbn [run]; rewrite <- Et;
    destruct (ti x1 <? length toks)%nat; try exact I; try exact H.
  pose proof (same_step C O stk s toks frames kids x1 x2 H) as S.
  destruct (step C O stk s toks x1), (step C O stk s toks x2); cbn in S; try contradiction; try exact I; [apply IH, S|exact S].
Qed.
End SameRun.

(** For types without arrays the history never matters: every input, also documents on
    which the control flow of the decoder goes wrong (and arbitrary token sequences). *)
Theorem C28_history_without_arrays C O E dis T d stk D1 D2 s tk t h :
  decoder_for C E dis T d stk D1 -> decoder_for C E dis T d stk D2 -> arrays d = false ->
  outcome_of (Decode C O stk D1 s tk t h) = outcome_of (Decode C O stk D2 s tk t h).
Proof.
  intros Df1 Df2 A. pose proof (decoder_describes _ _ _ _ _ _ _ Df1) as Ds.
  pose proof (used_rested _ _ _ _ Ds (df_used _ _ _ _ _ _ _ Df1)) as [V1 N1]. pose proof (used_rested _ _ _ _ Ds (df_used _ _ _ _ _ _ _ Df2)) as [V2 N2].
  pose proof (describes_frames _ _ _ Ds) as Fr.
  assert (Ks : forall i, kids_ok stk i).
  { intros i f Hf. destruct Ds as (Ln & Fi & _). refine (fits_kids _ _ _ 0%nat Fi A i _ f Hf).
    assert (i < length stk)%nat by (apply nth_error_Some; congruence). lia. }
  unfold Decode. destruct t as [a|]; [|reflexivity]. destruct tk as [toks|i c]; [|reflexivity].
  assert (S : same stk (St 0 0 (upd_d D1 0 (set_dest (Some a))) h) (St 0 0 (upd_d D2 0 (set_dest (Some a))) h)).
  { apply same_mk, sim_dest.
    - split; [exact V1|]. split; [exact V2|]. intros j. rewrite N1, N2. auto.
    - destruct Ds as (Ln & _ & f & Ef & P & _). exists f. split; [exact Ef|]. intros (c & fc & Hp & _). congruence. }
  pose proof (same_run C O stk s toks Fr Ks (run_fuel stk toks) _ _ S) as Q.
  destruct (run C O stk s toks (run_fuel stk toks) (St 0 0 (upd_d D1 0 (set_dest (Some a))) h)) as [y1|i1 e1 y1| | |],
    (run C O stk s toks (run_fuel stk toks) (St 0 0 (upd_d D2 0 (set_dest (Some a))) h)) as [y2|i2 e2 y2| | |]; try contradiction; try reflexivity.
  - destruct Q as (_ & _ & Hh & _ & _ & Sd). rewrite <- (proj1 (Sd 0%nat)), Hh. destruct (d_dest (dy y1 0%nat)) as [a'|]; [|reflexivity].
    destruct (_ && _); [reflexivity|]. destruct (copy _ _ _ _); reflexivity.
  - destruct Q as (-> & -> & _ & _ & Hh & _). rewrite Hh. reflexivity.
Qed.

(** Case: []struct{ B int } and the document on which the decoder writes out of bounds:
    a decoder that already failed once behaves like a new one. *)
Definition hs_ty : ty := TSlice (TStruct 2 8 [(fld0 "B" 0, tInt)]).
Definition hs_dt : dt := Eval vm_compute in match elab true plain_env false 50 [] hs_ty with Some (d, _) => d | None => DEmpty end.
Definition hs_stk : list frame := Eval vm_compute in stack_of plain_env hs_ty.
Definition hs_first : result :=
  Decode wC default_opts hs_stk (dyn0 hs_stk) (bs "[{},{""B"":""x""}]") (TOk (flat 0 (tree_of (bs "[{},{""B"":""x""}]")))) dest (world 24).
Lemma hs_decoder : decoder_for wC plain_env false hs_ty hs_dt hs_stk (dyn0 hs_stk).
Proof. eapply new_decoder; [apply plain_env_sizes|vm_compute; reflexivity|vm_compute; reflexivity|vm_compute; reflexivity]. Qed.
Lemma hs_decoder' : decoder_for wC plain_env false hs_ty hs_dt hs_stk (dyn_after hs_first).
Proof.
  pose proof hs_decoder as [A B C D U]. split; try assumption.
  assert (X : exists i e D' h', hs_first = Ret i e D' h').
  { enough (Y : match hs_first with Ret _ _ _ _ => true | _ => false end = true) by (destruct hs_first; try discriminate; eauto). vm_compute. reflexivity. }
  destruct X as (i & e & D' & h' & X). rewrite X. cbn [dyn_after]. eapply u_call; [exact U|exact X].
Qed.
Example C28_case :
  let s := bs "[{""u"":{}},{""b"":2}]" in
  arrays hs_dt = false /\ d_off (dyn_after hs_first 1%nat) <> d_off (dyn0 hs_stk 1%nat) /\
  outcome_of (Decode wC default_opts hs_stk (dyn0 hs_stk) s (TOk (flat 0 (tree_of s))) dest (world 24)) = Corrupted /\
  outcome_of (Decode wC default_opts hs_stk (dyn_after hs_first) s (TOk (flat 0 (tree_of s))) dest (world 24)) = Corrupted.
Proof.
  cbn zeta. split; [reflexivity|]. split; [vm_compute; discriminate|].
  assert (R : outcome_of (Decode wC default_opts hs_stk (dyn0 hs_stk) (bs "[{""u"":{}},{""b"":2}]") (TOk (flat 0 (tree_of (bs "[{""u"":{}},{""b"":2}]")))) dest (world 24)) = Corrupted) by (vm_compute; reflexivity).
  split; [exact R|]. rewrite <- R. apply (C28_history_without_arrays _ _ _ _ _ _ _ _ _ _ _ _ _ hs_decoder' hs_decoder). reflexivity.
Qed.

(** With arrays it does: struct{ A [10]int; B map[string]struct{ X int } }. *)
Definition ha_ty : ty := TStruct 1 88 [(fld0 "A" 0, TArr 10 tInt); (fld0 "B" 80, TMap TStr (TStruct 2 8 [(fld0 "X" 0, tInt)]))].
Definition ha_stk : list frame := Eval vm_compute in stack_of plain_env ha_ty.
Definition ha_s1 : bytes := bs "{""A"":[1,2,3,4,5,6,7,8,9,10]}".
Definition ha_s2 : bytes := bs "{""B"":{""k"":{""u"":[{""x"":1}]}}}".
Definition ha_call (D : dyn) (s : bytes) : result := Decode wC default_opts ha_stk D s (TOk (flat 0 (tree_of s))) dest (world 88).
(** The second document succeeds on a new decoder and panics on a decoder that has
    successfully decoded the first one. *)
Theorem C28_refuted_nonrecursive :
  meaningful plain_env ha_ty ha_s1 /\ meaningful plain_env ha_ty ha_s2 /\ stack_of plain_env ha_ty = ha_stk /\
  (exists h, outcome_of (ha_call (dyn0 ha_stk) ha_s1) = Returned (-1) None h) /\
  (exists h, outcome_of (ha_call (dyn0 ha_stk) ha_s2) = Returned (-1) None h) /\
  outcome_of (ha_call (dyn_after (ha_call (dyn0 ha_stk) ha_s1)) ha_s2) = Panicked.
Proof.
  assert (R : forall r, match r with Ret (-1) None _ _ => true | _ => false end = true -> exists h, outcome_of r = Returned (-1) None h).
  { intros [i e D h| | |] H; try discriminate. destruct i; try discriminate. destruct p; try discriminate. destruct e; [discriminate|]. eexists. reflexivity. }
  split; [meaningful|]. split; [meaningful|]. split; [vm_compute; reflexivity|]. split; [apply R; vm_compute; reflexivity|].
  split; [apply R; vm_compute; reflexivity|vm_compute; reflexivity].
Qed.

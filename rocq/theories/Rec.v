(** Recursive struct types: a struct S some of whose fields have type *S, []S or map[K]S.

    [rk] is the type of a field: one of these three, or a type without recursion.
    [rdec] is the recursive decoder on memory for such a struct, and [members_reach],
    [field_reach] say that Decode's token loop, which uses the stack of suspended
    destinations of the struct frame instead of recursion, runs it on the documents of
    the class [rctl]. *)
From Verif Require Import Base NumSpec StrSpec Atoi JsonNum Unescape UnescapeProofs Lookup Types Token FloatLit Heap Machine General PropsGeneral Dt Dec Control Root.
Open Scope nat_scope.

Inductive rk := RSelf | RSlice | RMap (k : dkey) | RSub (d : dt).
Definition rfields := list ((bytes * Z) * rk).
(** A type of the same size and number of frames. *)
Definition erase (k : rk) : dt :=
  match k with RSelf => DMSS | RSlice => DSlice DEmpty | RMap _ => DPtr DMSS | RSub d => d end.
Definition shape (fs : rfields) : list ((bytes * Z) * dt) := map (fun x => (fst x, erase (snd x))) fs.
Definition rnames (fs : rfields) : list bytes := map (fun x => fst (fst x)) fs.

Lemma shape_names fs : map (fun x : (bytes * Z) * dt => fst (fst x)) (shape fs) = rnames fs.
Proof. unfold shape, rnames. rewrite map_map. reflexivity. Qed.

(** Nesting depth of a document. *)
Fixpoint height (v : jv) : nat :=
  match v with
  | JArr _ _ l => S ((fix go l := match l with [] => 0 | x :: r => Nat.max (height x) (go r) end) l)
  | JObj _ _ l => S ((fix go (l : list ((nat * bytes) * jv)) := match l with [] => 0 | x :: r => Nat.max (height (snd x)) (go r) end) l)
  | _ => 1
  end.
Lemma height_arr i j l x : In x l -> height x < height (JArr i j l).
Proof.
  intros H. cbn [height]. induction l as [|y l IH]; [destruct H|]. destruct H as [->|H]; [|specialize (IH H)]; cbn [In] in *; lia.
Qed.
Lemma height_obj i j l x : In x l -> height (snd x) < height (JObj i j l).
Proof.
  intros H. cbn [height]. induction l as [|y l IH]; [destruct H|]. destruct H as [->|H]; [|specialize (IH H)]; cbn [In] in *; lia.
Qed.

Section Dec.
Variables (C : cfg) (O : opts) (s : bytes) (z : Z) (fs : rfields).
Let W := wb (c_w64 C).

(** jscandec.go:2118-2157 (object), 1282-1284 (null): the value of a field of type *S.
    An existing struct is reused. *)
Definition self_target (p : ptr) (h : heap) : res (addr * heap) :=
  let* c := load h p W in
  let* old := as_ptr c in
  match old with
  | Some a => Ok (a, h)
  | None => let '(a, h) := malloc h z in let* h := store h p W (CPtr a) in Ok (a, h)
  end.
(** The value of a field, [f] being the decoder for S.  []S: 1396-1460; map[K]S:
    2154-2175, 2346-2533. *)
Definition fieldh (f : hdec) (k : rk) : hdec := fun v p h =>
  match k with
  | RSelf =>
      match v with
      | JNull _ => hlift (store h p W CZero) HOk
      | JObj _ _ _ => hlift (self_target p h) (fun '(a, h) => f v (Some a) h)
      | _ => HErr (jidx v) EUnexpected h
      end
  | RSlice =>
      match v with
      | JNull _ => hlift (store h p (3 * W) CZero) HOk
      | JArr _ _ l => slice_h C f z true l p h
      | _ => HErr (jidx v) EUnexpected h
      end
  | RMap kt =>
      match v with
      | JNull _ => hlift (store h p W CZero) HOk
      | JObj _ _ l => hlift (init_map C h p) (entries_h C kt f true z l p)
      | _ => HErr (jidx v) EUnexpected h
      end
  | RSub d => dech C O s d v p h
  end.
Definition rmembers (f : hdec) : list ((nat * bytes) * jv) -> ptr -> heap -> hres :=
  members_h C O (rnames fs) (map (fun x => (snd (fst x), fieldh f (snd x))) fs).
(** A value into a struct S; [n] bounds the depth of the recursion. *)
Fixpoint rdecn (n : nat) (v : jv) (p : ptr) (h : heap) : hres :=
  match n with
  | 0 => HPan
  | S n =>
      match v with
      | JNull _ => HOk h
      | JObj _ _ l => rmembers (rdecn n) l p h
      | _ => HErr (jidx v) EUnexpected h
      end
  end.
Definition rdec (v : jv) : ptr -> heap -> hres := rdecn (height v) v.

(** ** The documents on which the loop keeps in step.
    The state of the loop is the destination and offset of the struct frame and the
    destinations of the field frames.  After a member that goes through the struct frame
    (a tree, a non-empty list or map of trees) the destinations of the fields are set to
    the destination of the struct frame, without its offset.  For the elements of a list
    after the first the offset is not 0, so that the members after such a member go to a
    wrong address (C27_refuted_member_order); and map values are decoded at the address
    of the value plus the offset.  [st]: destination of the struct frame = address of the
    struct; [zr]: its offset is 0; [live]: the field frames have the right destination.
    Further excluded: null as an element or map value (no restore), the empty object for
    a map (the suspended destination stays on the stack), and what [ctl] excludes. *)
Definition nonnull (v : jv) : Prop := match v with JNull _ => False | _ => True end.
Definition restores (k : rk) (v : jv) : bool :=
  match k, v with
  | RSelf, JObj _ _ _ | RSlice, JArr _ _ (_ :: _) | RMap _, JObj _ _ (_ :: _) => true
  | _, _ => false
  end.
Definition fctl (R : bool -> bool -> jv -> Prop) (zr : bool) (k : rk) (v : jv) : Prop :=
  match k, v with
  | RSelf, JObj _ _ _ => R true zr v
  | RSlice, JArr _ _ (x :: r) => (nonnull x /\ R true true x) /\ Forall (fun x => nonnull x /\ R false false x) r
  | RMap _, JObj _ _ l => zr = true /\ l <> [] /\ Forall (fun x => nonnull (snd x) /\ R true true (snd x)) l
  | RSub d, _ => lag_of C O d v = Some On
  | _, _ => True
  end.
Fixpoint mctl (R : bool -> bool -> jv -> Prop) (st zr live : bool) (l : list ((nat * bytes) * jv)) : Prop :=
  match l with
  | [] => True
  | x :: r =>
      match pick (c_fold C) (o_nofold O) (rnames fs) (key_of O (snd (fst x))) with
      | Some j =>
          match nth_error fs j with
          | Some y => live = true /\ fctl R zr (snd y) (snd x) /\
              mctl R st zr (if restores (snd y) (snd x) then st else live) r
          | None => True
          end
      | None => (o_unknown O = true \/ obj_free (snd x) = true) /\ mctl R st zr live r
      end
  end.
Fixpoint rctln (n : nat) (st zr : bool) (v : jv) : Prop :=
  match n with
  | 0 => False
  | S n => match v with JObj _ _ l => mctl (rctln n) st zr true l | _ => True end
  end.
Definition rctl (v : jv) : Prop := rctln (height v) true true v.
End Dec.

Section Frames.
Variables (w64 : bool) (stk : list frame) (i : nat) (z : Z).
(** A frame that refers back to the struct frame [i]. *)
Definition back_frame (e : et) (k : nat) (off : Z) (f : frame) : Prop :=
  nth_error stk k = Some f /\ f_ty f = e /\ f_recur f = i /\ f_parent f = Some i /\ f_off f = off.
Definition rfit (k : nat) (off : Z) (t : rk) : Prop :=
  match t with
  | RSelf => exists f, back_frame EPtrRecur k off f
  | RSlice => exists f, back_frame ESliceRecur k off f
  | RMap kt => (exists f, back_frame EMapRecur k off f /\ f_vsize f = z) /\ key_is stk (S k) kt
  | RSub d => fits w64 stk k d /\ linked stk k (Some i) off 0
  end.
(** The frames of the fields of the struct at frame [i], the first one at frame [k]. *)
Fixpoint rfits_fields (k : nat) (fs : rfields) : Prop :=
  match fs with
  | [] => True
  | x :: r => rfit k (snd (fst x)) (snd x) /\ rfits_fields (k + dlen (erase (snd x))) r
  end.
(** The frame of the struct itself. *)
Definition rec_frame (fs : rfields) (f : frame) : Prop :=
  nth_error stk i = Some f /\ f_ty f = EStructRecur /\ f_size f = z /\
  f_fields f = field_idx (S i) (shape fs).

Lemma rfield_nth fs : forall k j x, rfits_fields k fs -> nth_error fs j = Some x ->
  exists idx, nth_error (field_idx k (shape fs)) j = Some (fst (fst x), idx) /\
    rfit idx (snd (fst x)) (snd x) /\ k <= idx /\ idx + dlen (erase (snd x)) <= k + dlens (shape fs).
Proof.
  induction fs as [|y r IH]; intros k j x H Hj; [destruct j; discriminate|]. cbn [shape map field_idx rfits_fields dlens fst snd] in *.
  destruct H as [H1 H2]. destruct j as [|j]; cbn in Hj.
  - injection Hj as ->. exists k. cbn [nth_error]. repeat split; auto; lia.
  - destruct (IH _ _ _ H2 Hj) as (idx & A & B & F & G). exists idx. cbn [nth_error].
    unfold shape in A, G. repeat split; auto; lia.
Qed.
(** Every field frame is a child of the struct frame, not the struct frame's type, and at
    the offset of the field. *)
Lemma rfit_head k off t : rfit k off t ->
  exists f, nth_error stk k = Some f /\ f_parent f = Some i /\ f_off f = off /\ f_ty f <> EStructRecur.
Proof.
  intros H. destruct t as [| |kt|d]; cbn [rfit] in H.
  - destruct H as (f & A & B & _ & P & Q). exists f. repeat split; auto. congruence.
  - destruct H as (f & A & B & _ & P & Q). exists f. repeat split; auto. congruence.
  - destruct H as ((f & (A & B & _ & P & Q) & _) & _). exists f. repeat split; auto. congruence.
  - destruct H as [F (f & A & P & Q & _)]. exists f. repeat split; auto.
    assert (Hh : exists fields, head_is w64 stk k d fields).
    { clear - F. destruct d; cbn [fits] in F; try (eauto; fail); try (destruct F as (F & _); eauto; fail).
      destruct (fast_et d); [eauto|]. destruct F as (F & _). eauto. }
    destruct Hh as (fl & g & Hg & Tg & _). rewrite A in Hg. injection Hg as <-. rewrite Tg.
    apply (head_not_recur).
Qed.
End Frames.

Section Loop.
Variables (C : cfg) (O : opts) (stk : list frame) (s : bytes) (toks : list token).
Variables (i : nat) (z : Z) (fs : rfields) (f : frame).
Let w64 := c_w64 C.
Let W := wb w64.
Notation step := (Machine.step C O stk s toks).
Notation reach := (Control.reach C O stk s toks).
Notation rdecn := (rdecn C O s z fs).
Notation fieldh := (fieldh C O s z).
Notation rmembers := (rmembers C O s z fs).
Notation rctln := (rctln C O fs).
Notation on_recur_obj_end := (on_recur_obj_end stk toks).
Hypothesis Rf : rec_frame stk i z fs f.
Hypothesis Ff : rfits_fields w64 stk i z (S i) fs.
Let n := S (dlens (shape fs)).

(** All field frames point to the struct at [p]. *)
Definition aimed (D : dyn) (p : ptr) : Prop := forall a, In a (field_idx (S i) (shape fs)) -> d_dest (D (snd a)) = p.
Definition outside (D' D : dyn) : Prop := forall j, ~ (i < j < i + n) -> D' j = D j.
(** What the flags of [rctl] mean for the struct at [p]. *)
Definition flags (st zr : bool) (D : dyn) (p : ptr) : Prop :=
  (st = true -> d_dest (D i) = p) /\ (zr = true -> st = true /\ d_off (D i) = 0%Z).

(** The loop arrives, from [x], at [o D h] with the memory [h] of [r]. *)
Definition arrives (x : st) (D : dyn) (Q : dyn -> Prop) (o : dyn -> heap -> out) (r : hres) : Prop :=
  match r with
  | HOk h => exists D', reach x (o D' h) /\ dyn_ok stk D' /\ outside D' D /\ Q D'
  | HErr idx e h => exists y, reach x (Fail idx e y) /\ hp y = h
  | HPan => reach x Panic
  | HCor => reach x Corrupt
  end.
Lemma arrives_step x D Q o r x' : ti x < length toks -> step x = Next x' -> arrives x' D Q o r -> arrives x D Q o r.
Proof.
  intros L E H. destruct r; cbn in *.
  - destruct H as (D' & R & H). exists D'. split; [eapply reach_more; eauto|exact H].
  - destruct H as (y & R & H). exists y. split; [eapply reach_more; eauto|exact H].
  - eapply reach_more; eauto.
  - eapply reach_more; eauto.
Qed.
Lemma arrives_reach x D Q o r x' : reach x (Next x') -> arrives x' D Q o r -> arrives x D Q o r.
Proof.
  intros E H. destruct r; cbn in *.
  - destruct H as (D' & R & H). exists D'. split; [eapply reach_then; eauto|exact H].
  - destruct H as (y & R & H). exists y. split; [eapply reach_then; eauto|exact H].
  - eapply reach_then; eauto.
  - eapply reach_then; eauto.
Qed.
Lemma arrives_hbind x D Q o r g :
  match r with
  | HOk h => exists x', reach x (Next x') /\ arrives x' D Q o (g h)
  | HErr idx e h => exists y, reach x (Fail idx e y) /\ hp y = h
  | HPan => reach x Panic | HCor => reach x Corrupt
  end -> arrives x D Q o (hbind r g).
Proof. destruct r; cbn; try tauto. intros (x' & R & H). eapply arrives_reach; eauto. Qed.
Lemma arrives_frame x D D1 Q o r : outside D1 D -> arrives x D1 Q o r -> arrives x D Q o r.
Proof.
  intros Out H. destruct r; cbn in *; try exact H. destruct H as (D' & R & K & A & B). exists D'.
  split; [exact R|]. split; [exact K|]. split; [|exact B]. intros j Hj. rewrite A by exact Hj. apply Out, Hj.
Qed.
Lemma outside_i D' D : outside D' D -> D' i = D i.
Proof. intros H. apply H. lia. Qed.
Lemma flags_outside st zr D D' p : outside D' D -> flags st zr D p -> flags st zr D' p.
Proof. intros H. unfold flags. rewrite (outside_i _ _ H). auto. Qed.
Lemma outside_refl D : outside D D.
Proof. intros ? _. reflexivity. Qed.
Lemma outside_trans D1 D2 D3 : outside D1 D2 -> outside D2 D3 -> outside D1 D3.
Proof. intros A B j Hj. rewrite A by exact Hj. apply B, Hj. Qed.

Lemma aimed_outside_field D D1 idx q x p : nth_error fs q = Some x ->
  nth_error (field_idx (S i) (shape fs)) q = Some (fst (fst x), idx) ->
  aimed D p -> (forall j, ~ (idx < j < idx + dlen (erase (snd x))) -> D1 j = D j) -> aimed D1 p.
Proof.
  intros Hq Hi A E a Ha. rewrite E; [apply A, Ha|].
  assert (Hq' : nth_error (shape fs) q = Some (fst x, erase (snd x))) by (unfold shape; rewrite nth_error_map, Hq; reflexivity).
  exact (field_disjoint C (shape fs) (S i) q (fst x, erase (snd x)) a idx Hq' Hi Ha).
Qed.
Lemma aimed_dests D p : aimed (set_dests D (f_fields f) p) p.
Proof.
  destruct Rf as (_ & _ & _ & Ffl). intros a Ha. rewrite set_dests_spec, Ffl.
  match goal with |- context [existsb ?g ?l] => replace (existsb g l) with true; [reflexivity|] end.
  symmetry. apply existsb_exists. exists a. split; [exact Ha|apply Nat.eqb_refl].
Qed.
Lemma outside_dests D p : outside (set_dests D (f_fields f) p) D.
Proof.
  destruct Rf as (_ & _ & _ & Ffl). intros j Hj. rewrite set_dests_spec, Ffl. destruct (existsb _ _) eqn:Ex; [|reflexivity].
  apply existsb_exists in Ex as (a & Ha & Ea). apply Nat.eqb_eq in Ea. subst j.
  pose proof (field_idx_lt C _ _ _ Ha). pose proof (field_idx_ge C _ _ _ Ha). unfold n in Hj. exfalso. apply Hj. lia.
Qed.
(** The struct frame itself is not constrained. *)
Lemma dyn_ok_struct D D' : dyn_ok stk D -> (forall j, j <> i -> D' j = D j) -> dyn_ok stk D'.
Proof.
  destruct Rf as (Hf & Tf & _). intros Dk E j g Hj T. destruct (Nat.eq_dec j i) as [->|N]; [congruence|]. rewrite E by exact N. apply (Dk j g Hj T).
Qed.
Lemma dst_field D p idx q x : nth_error fs q = Some x -> nth_error (field_idx (S i) (shape fs)) q = Some (fst (fst x), idx) ->
  rfit w64 stk i z idx (snd (fst x)) (snd x) -> dyn_ok stk D -> aimed D p -> dst D idx = padd p (snd (fst x)).
Proof.
  intros Hq Hi Fy Dk Aim. destruct Rf as (Hf & Tf & _). destruct (rfit_head _ _ _ _ _ _ _ Fy) as (fy & Hy & Py & Oy & Ty).
  unfold dst. pose proof (Aim _ (nth_error_In _ _ Hi)) as Dn. cbn [snd] in Dn. rewrite Dn.
  destruct (Dk idx fy Hy Ty) as [_ Do]. rewrite Do, Oy; [reflexivity|].
  intros (pp & fp & Q1 & Q2 & Q3). rewrite Py in Q1. injection Q1 as <-. rewrite Hf in Q2. injection Q2 as <-.
  rewrite Tf in Q3. destruct Q3; discriminate.
Qed.
(** Resuming the suspended destination [d], [o]. *)
Lemma pop_ok D0 D2 d o len rs : dyn_ok stk D2 -> (forall j, ~ (i <= j < i + n) -> D2 j = D0 j) ->
  D0 i = DF d o len rs -> d_len (D2 i) = len -> forall con,
  let D3 := pop_rs D2 i f (RS d o con) rs in dyn_ok stk D3 /\ outside D3 D0 /\ aimed D3 d.
Proof.
  intros Dk O2 E0 E2 con. unfold pop_rs. cbn [r_dest r_off]. cbv zeta. split; [|split].
  - apply dyn_ok_dests. eapply dyn_ok_struct; [exact Dk|]. intros j Hj. unfold upd_d. destruct (Nat.eqb_spec j i); [contradiction|reflexivity].
  - intros j Hj. rewrite (outside_dests _ _ j Hj). unfold upd_d. destruct (Nat.eqb_spec j i) as [->|Nj].
    + rewrite E0, E2. reflexivity.
    + apply O2. lia.
  - apply aimed_dests.
Qed.

(** ** The members of the struct at [p] *)
(** What a field does; [F] is the decoder for S and [R] the class of its documents. *)
Definition field_ok (F : hdec) (R : bool -> bool -> jv -> Prop) : Prop := forall q y idx v st zr p k D h rest,
  nth_error fs q = Some y -> nth_error (field_idx (S i) (shape fs)) q = Some (fst (fst y), idx) ->
  rfit w64 stk i z idx (snd (fst y)) (snd y) -> S i <= idx -> idx + dlen (erase (snd y)) <= i + n ->
  dyn_ok stk D -> aimed D p -> flags st zr D p -> lexed s v -> fctl C O R zr (snd y) v ->
  skipn k toks = flat k v ++ rest ->
  arrives (St idx k D h) D (fun D' => aimed D' (if restores (snd y) v then d_dest (D i) else p))
    (fun D' h' => Next (St i (k + ntok v) D' h')) (fieldh F (snd y) v (padd p (snd (fst y))) h).

Lemma members_reach F R : field_ok F R -> forall l st zr live p k D h j e rest,
  dyn_ok stk D -> (live = true -> aimed D p) -> flags st zr D p ->
  Forall (fun x => key_lexed s x /\ lexed s (snd x)) l -> mctl C O fs R st zr live l ->
  skipn k toks = flatm k l ++ Tok KObjEnd j e 0 :: rest ->
  arrives (St i k D h) D (fun _ => True) (fun D' h' => on_recur_obj_end (St i (k + ntokm l + 1) D' h'))
    (rmembers F l p h).
Proof.
  intros FO. destruct Rf as (Hf & Tf & _ & Ffl).
  induction l as [|x l IHl]; intros st zr live p k D h j e rest Dk Aim Fg L Cl E.
  - unfold Rec.rmembers. cbn [members_h flatm app ntokm] in *. exists D.
    apply at_next in E as (Et & Lt & _). split; [|split; [exact Dk|split; [apply outside_refl|exact I]]].
    apply reach_one; [exact Lt|].
    unfold Machine.step. cbn [ti si]. rewrite Et. unfold fr. rewrite Hf. cbn [tk_ty]. unfold obj_end_tok. rewrite Tf.
    replace (k + 0 + 1) with (S k) by lia. reflexivity.
  - unfold Rec.rmembers in *. cbn [members_h flatm ntokm app mctl] in *. rewrite <- app_assoc in E.
    inversion L as [|? ? [[K1 K2] Lx] Ll]; subst.
    apply at_next in E as (Et & Lt & E).
    assert (ST : step (St i k D h) =
      match pick (c_fold C) (o_nofold O) (rnames fs) (key_of O (snd (fst x))) with
      | Some q => match nth_error (field_idx (S i) (shape fs)) q with
                  | Some a => Next (St (snd a) (S k) D h)
                  | None => Panic
                  end
      | None => if o_unknown O then Fail (fst (fst x)) EUnknownField (St i k D h)
                else match skip_unknown 0 (skipn (S k) toks) with
                     | None => Panic
                     | Some n => Next (St i (S k + n) D h)
                     end
      end).
    { unfold Machine.step. cbn [ti si]. rewrite Et. unfold fr. rewrite Hf. cbn [tk_ty]. unfold key_tok. rewrite Tf.
      rewrite (body_ok C) by exact K1. cbn [lift]. rewrite unesc_ok by exact K2. cbn [lift]. rewrite Ffl, lookup_pick, field_names, shape_names.
      destruct (pick _ _ _ _) as [q|] eqn:Pq; [|reflexivity].
      destruct (nth_error (field_idx (S i) (shape fs)) q) as [a|] eqn:Nq; [reflexivity|].
      apply pick_lt in Pq. apply nth_error_None in Nq.
      rewrite <- shape_names, <- (field_names (S i)), map_length in Pq. exfalso. exact (Nat.lt_irrefl _ (Nat.lt_le_trans _ _ _ Pq Nq)). }
    rewrite unesc_ok by exact K2. cbn [hlift].
    assert (E' := E). apply at_skip in E'. rewrite flat_length in E'.
    replace (k + (1 + ntok (snd x) + ntokm l) + 1) with (S k + ntok (snd x) + ntokm l + 1) by lia.
    destruct (pick _ _ _ _) as [q|] eqn:Pq.
    + pose proof (pick_lt _ _ _ _ _ Pq) as Lq. unfold rnames in Lq. rewrite map_length in Lq.
      destruct (nth_error fs q) as [y|] eqn:Ny; [|apply nth_error_None in Ny; lia].
      rewrite nth_error_map, Ny. cbn [option_map]. destruct Cl as (-> & Cx & Cl).
      destruct (rfield_nth w64 stk i z fs (S i) q y Ff Ny) as (idx & Nf & Fy & G1 & G2).
      rewrite Nf in ST. cbn [snd] in ST.
      eapply arrives_step; [exact Lt|exact ST|]. apply arrives_hbind.
      pose proof (FO q y idx (snd x) st zr p (S k) D h _ Ny Nf Fy G1 ltac:(unfold n; lia) Dk (Aim eq_refl) Fg Lx Cx E) as V.
      destruct (fieldh F (snd y) (snd x) (padd p (snd (fst y))) h) as [h1|ei ee h1| |]; try exact V.
      destruct V as (D1 & R1 & Dk1 & O1 & A1). eexists. split; [exact R1|]. eapply arrives_frame; [exact O1|].
      eapply IHl; [exact Dk1| |eapply flags_outside; [exact O1|exact Fg]|exact Ll|exact Cl|exact E'].
      destruct (restores (snd y) (snd x)); intros Q; [|exact A1]. rewrite (proj1 Fg Q) in A1. exact A1.
    + destruct Cl as [Cx Cl]. destruct (o_unknown O) eqn:U.
      * eexists. split; [apply reach_one; [exact Lt|exact ST]|reflexivity].
      * destruct Cx as [Cx|Cx]; [congruence|].
        rewrite E, (skip_unknown_flat C) in ST by exact Cx.
        assert (Sk0 : skip_unknown 0 (flatm (S k + ntok (snd x)) l ++ Tok KObjEnd j e 0 :: rest) = Some 0).
        { destruct l; reflexivity. }
        rewrite Sk0 in ST. cbn [option_map] in ST. rewrite Nat.add_0_r in ST.
        eapply arrives_step; [exact Lt|exact ST|]. eapply IHl; eassumption.
Qed.

(** ** Values of S *)
(** Inside an object: the fields point to the struct at [p]. *)
Definition body_ok (F : hdec) (R : bool -> bool -> jv -> Prop) : Prop := forall i0 j0 l st zr p k D h rest,
  dyn_ok stk D -> flags st zr D p -> lexed s (JObj i0 j0 l) -> R st zr (JObj i0 j0 l) ->
  skipn k toks = flat k (JObj i0 j0 l) ++ rest ->
  if Nat.eqb (length l) 0 then F (JObj i0 j0 l) p h = HOk h
  else arrives (St i (S k) (set_dests D (f_fields f) p) h) D (fun _ => True)
    (fun D' h' => on_recur_obj_end (St i (k + ntok (JObj i0 j0 l)) D' h')) (F (JObj i0 j0 l) p h).

Lemma body_next m : field_ok (rdecn m) (rctln m) -> body_ok (rdecn (S m)) (rctln (S m)).
Proof.
  intros FO i0 j0 l st zr p k D h rest Dk Fg L R E. cbn [Rec.rctln Rec.rdecn] in *. apply lexed_obj in L as (_ & _ & _ & L).
  rewrite flat_obj in E. cbn [app] in E. rewrite <- app_assoc in E. apply at_next in E as (_ & _ & E).
  destruct l as [|x l]; [reflexivity|]. cbn [length Nat.eqb].
  rewrite ntok_obj. replace (k + (2 + ntokm (x :: l))) with (S k + ntokm (x :: l) + 1) by lia.
  eapply arrives_frame; [apply outside_dests|].
  eapply (members_reach (rdecn m) (rctln m) FO); [apply dyn_ok_dests, Dk|intros _; apply aimed_dests| |exact L|exact R|exact E].
  eapply flags_outside; [apply outside_dests|exact Fg].
Qed.
Lemma body_zero : body_ok (rdecn 0) (rctln 0).
Proof. intros i0 j0 l st zr p k D h rest _ _ _ []. Qed.

(** A value that is not null, at the struct frame itself: elements and map values. *)
Lemma scalar_err v p h : scalar_jv v = true -> nonnull v -> scalar_h C f v p h = HErr (jidx v) EUnexpected h.
Proof.
  destruct Rf as (_ & Tf & _). intros Sv N. destruct v; try discriminate; try contradiction; cbn [scalar_h jidx]; try destruct b; unfold str_tok; rewrite Tf; reflexivity.
Qed.
Lemma elem_reach m st zr v p k D h rest : body_ok (rdecn m) (rctln m) ->
  dyn_ok stk D -> dst D i = p -> flags st zr D p -> nonnull v -> lexed s v -> rctln m st zr v ->
  skipn k toks = flat k v ++ rest ->
  arrives (St i k D h) D (fun _ => True) (fun D' h' => on_recur_obj_end (St i (k + ntok v) D' h')) (rdecn m v p h).
Proof.
  destruct Rf as (Hf & Tf & Sf & Ffl). intros B Dk Hd Fg Nn L R E. pose proof (at_lt C _ _ _ _ E) as Lt.
  destruct m as [|m]; [destruct R|].
  destruct (scalar_jv v) eqn:Sv.
  { pose proof (step_scalar C O stk s toks i k D h f v rest Hf) as S1. rewrite Tf in S1.
    specialize (S1 ltac:(discriminate) ltac:(discriminate) Sv L E). rewrite (scalar_err v _ _ Sv Nn) in S1. cbn [one] in S1.
    assert (Er : rdecn (S m) v p h = HErr (jidx v) EUnexpected h) by (destruct v; try discriminate; try contradiction; reflexivity).
    rewrite Er. eexists. split; [apply reach_one; [exact Lt|exact S1]|reflexivity]. }
  destruct v as [| | | | |ia ja l|ia ja l]; try discriminate.
  - cbn [Rec.rdecn jidx]. exists (St i k D h). split; [|reflexivity]. apply reach_one; [exact Lt|].
    rewrite (step_arr C O stk s toks _ _ _ _ _ _ _ _ _ Hf E). unfold arr_tok. rewrite Tf. reflexivity.
  - pose proof (step_obj C O stk s toks _ _ D h _ _ _ _ _ Hf E) as ST. unfold obj_tok in ST. rewrite Tf in ST.
    cbn [tk_n hp dy si ti with_dy goto_ti] in ST. rewrite Hd in ST.
    pose proof (B ia ja l st zr p k D h rest Dk Fg L R E) as Q. rewrite ntok_obj in *.
    destruct (Nat.eqb (length l) 0) eqn:El.
    + rewrite Q. destruct l; [|discriminate]. exists D. split; [apply reach_one; [exact Lt|exact ST]|].
      split; [exact Dk|]. split; [apply outside_refl|exact I].
    + eapply arrives_step; [exact Lt|exact ST|exact Q].
Qed.

(** ** Lists of trees *)
Definition beyond (D' D : dyn) : Prop := forall j, ~ (i <= j < i + n) -> D' j = D j.
Lemma flags_none D p : flags false false D p.
Proof. split; intros H; discriminate. Qed.

Lemma elem_one m st zr v idx fx a off len d o rs k D h rest : body_ok (rdecn m) (rctln m) ->
  nth_error stk idx = Some fx -> f_ty fx = ESliceRecur ->
  dyn_ok stk D -> D i = DF (Some a) off len (RS d o idx :: rs) -> flags st zr D (padd (Some a) off) ->
  nonnull v -> lexed s v -> rctln m st zr v -> skipn k toks = flat k v ++ rest ->
  match rdecn m v (padd (Some a) off) h with
  | HOk h' => exists D', reach (St i k D h) (Next (St i (k + ntok v) D' h')) /\ dyn_ok stk D' /\ beyond D' D /\
      D' i = DF (Some a) (off + z) len (RS d o idx :: rs)
  | HErr idx e h' => exists y, reach (St i k D h) (Fail idx e y) /\ hp y = h'
  | HPan => reach (St i k D h) Panic
  | HCor => reach (St i k D h) Corrupt
  end.
Proof.
  intros B Hx Tx Dk Di Fg Nn L R E. destruct Rf as (Hf & Tf & Sf & _).
  pose proof (elem_reach m st zr v (padd (Some a) off) k D h rest B Dk ltac:(unfold dst; rewrite Di; reflexivity) Fg Nn L R E) as Q.
  destruct (rdecn m v (padd (Some a) off) h) as [h'|ei ee h'| |]; try exact Q.
  destruct Q as (D1 & R1 & Dk1 & O1 & _). pose proof (outside_i _ _ O1) as E1. rewrite Di in E1.
  assert (OE : on_recur_obj_end (St i (k + ntok v) D1 h') = Next (St i (k + ntok v) (upd_d D1 i (fun d => set_doff (d_off d + z) d)) h')).
  { unfold Machine.on_recur_obj_end, fr. cbn [si dy]. rewrite Hf, E1. cbn [d_rs r_con]. rewrite Hx, Tx, Sf. reflexivity. }
  rewrite OE in R1. eexists. split; [exact R1|]. split; [|split].
  - eapply dyn_ok_struct; [exact Dk1|]. intros j Hj. unfold upd_d. destruct (Nat.eqb_spec j i); [contradiction|reflexivity].
  - intros j Hj. unfold upd_d. destruct (Nat.eqb_spec j i); [lia|]. apply O1. lia.
  - unfold upd_d. rewrite Nat.eqb_refl, E1. reflexivity.
Qed.

Lemma elems_reach m idx fx off0 a len d o rs D0 : body_ok (rdecn m) (rctln m) ->
  back_frame stk i ESliceRecur idx off0 fx -> D0 i = DF d o len rs ->
  forall l mz k D h j e rest, dyn_ok stk D -> beyond D D0 -> D i = DF (Some a) (mz * z) len (RS d o idx :: rs) ->
  Forall (lexed s) l -> Forall (fun x => nonnull x /\ rctln m false false x) l ->
  skipn k toks = flats k l ++ Tok KArrEnd j e 0 :: rest ->
  arrives (St i k D h) D0 (fun D' => aimed D' d) (fun D' h' => Next (St i (k + ntoks l + 1) D' h'))
    (elems_h (rdecn m) z mz l (Some a) h).
Proof.
  intros B (Hx & Tx & Rx & Px & Ox) E0. destruct Rf as (Hf & Tf & _).
  induction l as [|v l IHl]; intros mz k D h j e rest Dk By Di L Cl E.
  - cbn [elems_h flats app ntoks] in *. apply at_next in E as (Et & Lt & _).
    destruct (pop_ok D0 D d o len rs Dk By E0 ltac:(rewrite Di; reflexivity) idx) as (Dk3 & O3 & A3).
    eexists. split; [|split; [exact Dk3|split; [exact O3|exact A3]]]. apply reach_one; [exact Lt|].
    unfold Machine.step. cbn [ti si]. rewrite Et. unfold fr. rewrite Hf. cbn [tk_ty]. unfold arr_end_tok. rewrite Tf.
    cbn [goto_ti si ti dy hp]. rewrite Di. cbn [d_rs r_con]. unfold fr. rewrite Hx. unfold parent_si. rewrite Px.
    replace (k + 0 + 1) with (S k) by lia. reflexivity.
  - cbn [elems_h flats ntoks] in *. rewrite <- app_assoc in E. inversion L as [|? ? Lv Ll]; inversion Cl as [|? ? [Nv Cv] Cr]; subst.
    pose proof (elem_one m false false v idx fx a (mz * z) len d o rs k D h _ B Hx Tx Dk Di (flags_none _ _) Nv Lv Cv E) as V.
    apply at_skip in E. rewrite flat_length in E. apply arrives_hbind.
    destruct (rdecn m v (padd (Some a) (mz * z)) h) as [h1|ei ee h1| |]; try exact V.
    destruct V as (D1 & R1 & Dk1 & B1 & E1). eexists. split; [exact R1|].
    replace (k + (ntok v + ntoks l) + 1) with (k + ntok v + ntoks l + 1) by lia.
    eapply IHl; [exact Dk1| |rewrite E1; f_equal; ring|exact Ll|exact Cr|exact E].
    intros j0 Hj. rewrite B1 by exact Hj. apply By, Hj.
Qed.

(** ** Maps of trees *)
Lemma entries_reach m idx fx off0 kt p len rs D0 : body_ok (rdecn m) (rctln m) ->
  back_frame stk i EMapRecur idx off0 fx -> f_vsize fx = z -> key_is stk (S idx) kt -> i < idx < i + n ->
  D0 i = DF p 0 len rs ->
  forall l k D h j e rest, dyn_ok stk D -> beyond D D0 -> d_dest (D idx) = p -> 
  d_off (D i) = 0%Z -> d_len (D i) = len -> d_rs (D i) = RS p 0 idx :: rs ->
  Forall (fun x => key_lexed s x /\ lexed s (snd x)) l ->
  Forall (fun x => nonnull (snd x) /\ rctln m true true (snd x)) l ->
  skipn k toks = flatm k l ++ Tok KObjEnd j e 0 :: rest ->
  arrives (St idx k D h) D0 (fun D' => aimed D' p) (fun D' h' => Next (St i (k + ntokm l + 1) D' h'))
    (entries_h C kt (rdecn m) true z l (padd p off0) h).
Proof.
  intros B (Hx & Tx & Rx & Px & Ox) Vx (fk & Hk & Tk & Rk) Hi E0. pose proof Rf as (Hf & Tf & Sf & _).
  induction l as [|x l IHl]; intros k D h j e rest Dk By De Do Dl Dr L Cl E.
  - cbn [entries_h flatm app ntokm] in *. apply at_next in E as (Et & Lt & _).
    destruct (pop_ok D0 D p 0%Z len rs Dk By E0 Dl idx) as (Dk3 & O3 & A3).
    eexists. split; [|split; [exact Dk3|split; [exact O3|exact A3]]]. apply reach_one; [exact Lt|].
    unfold Machine.step. cbn [ti si]. rewrite Et. unfold fr. rewrite Hx. cbn [tk_ty]. unfold obj_end_tok. rewrite Tx, Rx.
    cbn [goto_ti si ti dy hp]. unfold fr. rewrite Hf, Dr. unfold parent_si. rewrite Px. 
    replace (k + 0 + 1) with (S k) by lia. reflexivity.
  - cbn [entries_h flatm ntokm app] in *. rewrite <- app_assoc in E.
    apply Forall_cons_iff in L as [[[K1 K2] Lx] Ll]. apply Forall_cons_iff in Cl as [[Nx Cx] Cr]. subst p off0 len.
    apply at_next in E as (Et & Lt & E).
    assert (Dst : dst D idx = padd (d_dest (D idx)) (f_off fx)).
    { unfold dst. destruct (Dk idx fx Hx ltac:(rewrite Tx; discriminate)) as [_ Q]. rewrite Q; [reflexivity|].
      intros (pp & fp & Q1 & Q2 & Q3). rewrite Px in Q1. injection Q1 as <-. rewrite Hf in Q2. injection Q2 as <-. rewrite Tf in Q3. destruct Q3; discriminate. }
    assert (ST : step (St idx k D h) =
      lift (let* c := load h (dst D idx) W in as_map c) (fun mp =>
      lift (key_h C kt (fst (fst x)) (snd (fst x))) (fun key =>
      match key with
      | inr e => Fail (fst (fst x)) e (St idx k D h)
      | inl None => Panic
      | inl (Some key) =>
          lift (mapassign h mp key (f_vsize fx)) (fun '(a, h1) =>
          lift (clear h1 (Some a) (f_vsize fx)) (fun h2 =>
          Next (St i (S k) (upd_d D i (set_dest (Some a))) h2)))
      end))).
    { unfold Machine.step. cbn [ti si]. rewrite Et. unfold fr. rewrite Hx. cbn [tk_ty]. unfold key_tok. rewrite Tx.
      rewrite (Control.body_ok C) by exact K1. cbn [lift]. cbn [hp dy si ti]. fold w64 W.
      destruct (let* c := load h (dst D idx) W in as_map c) as [mp| |]; cbn [lift]; try reflexivity.
      unfold fr. rewrite Hk. cbn [tk_idx]. rewrite (key_h_frame C kt) by assumption.
      pose proof (key_h_some C kt (fst (fst x)) (snd (fst x))) as KS.
      destruct (key_h C kt (fst (fst x)) (snd (fst x))) as [[[key|]|er]| |]; cbn [lift]; try reflexivity; [|congruence].
      destruct (mapassign h mp key (f_vsize fx)) as [[a h1]| |]; cbn [rbind lift]; try reflexivity.
      rewrite Rx, Hf, Tf. reflexivity. }
    rewrite Dst, Vx in ST.
    change (wb (c_w64 C)) with W.
    destruct (let* c := load h (padd (d_dest (D idx)) (f_off fx)) W in as_map c) as [mp| |]; cbn [lift hlift] in *;
      try (apply reach_one; [exact Lt|exact ST]).
    destruct (key_h C kt (fst (fst x)) (snd (fst x))) as [[[key|]|er]| |]; cbn [lift hlift] in *;
      try (apply reach_one; [exact Lt|exact ST]); 
      try (eexists; split; [apply reach_one; [exact Lt|exact ST]|reflexivity]).
    destruct (mapassign h mp key z) as [[a h1]| |]; cbn [lift hlift] in *;
      try (apply reach_one; [exact Lt|exact ST]).
    destruct (clear h1 (Some a) z) as [h2| |]; cbn [lift hlift] in *;
      try (apply reach_one; [exact Lt|exact ST]).
    eapply arrives_step; [exact Lt|exact ST|].
    set (D' := upd_d D i (set_dest (Some a))) in *.
    assert (Di' : D' i = DF (Some a) 0 (d_len (D i)) (RS (d_dest (D idx)) 0 idx :: rs)).
    { unfold D', upd_d, set_dest. rewrite Nat.eqb_refl, Do, Dr. reflexivity. }
    assert (Dk' : dyn_ok stk D') by (apply dyn_ok_dest, Dk).
    assert (Hd' : dst D' i = Some a) by (unfold dst; rewrite Di'; destruct a; cbn; rewrite Z.add_0_r; reflexivity).
    assert (Fg' : flags true true D' (Some a)) by (split; [intros _; rewrite Di'; reflexivity|intros _; split; [reflexivity|rewrite Di'; reflexivity]]).
    pose proof (elem_reach m true true (snd x) (Some a) (S k) D' h2 _ B Dk' Hd' Fg' Nx Lx Cx E) as V.
    apply at_skip in E. rewrite flat_length in E. apply arrives_hbind.
    destruct (rdecn m (snd x) (Some a) h2) as [h3|ei ee h3| |]; try exact V.
    destruct V as (D1 & R1 & Dk1 & O1 & _). pose proof (outside_i _ _ O1) as E1. rewrite Di' in E1.
    assert (OE : on_recur_obj_end (St i (S k + ntok (snd x)) D1 h3) =
      Next (St idx (S k + ntok (snd x)) (upd_d D1 idx (set_dest (d_dest (D idx)))) h3)).
    { unfold Machine.on_recur_obj_end, fr. cbn [si dy]. rewrite Hf, E1. cbn [d_rs r_con]. rewrite Hx, Tx. reflexivity. }
    rewrite OE in R1. eexists. split; [exact R1|].
    replace (k + (1 + ntok (snd x) + ntokm l) + 1) with (S k + ntok (snd x) + ntokm l + 1) by lia.
    assert (Ei : upd_d D1 idx (set_dest (d_dest (D idx))) i = DF (Some a) 0 (d_len (D i)) (RS (d_dest (D idx)) 0 idx :: rs)).
    { unfold upd_d. destruct (Nat.eqb_spec i idx); [lia|]. exact E1. }
    eapply IHl; [apply dyn_ok_dest, Dk1| | | | | |exact Ll|exact Cr|exact E].
    + intros j0 Hj. unfold upd_d. destruct (Nat.eqb_spec j0 idx); [lia|]. rewrite O1 by lia.
      unfold D', upd_d. destruct (Nat.eqb_spec j0 i); [lia|]. apply By, Hj.
    + unfold upd_d. rewrite Nat.eqb_refl. reflexivity.
    + rewrite Ei. reflexivity.
    + rewrite Ei. reflexivity.
    + rewrite Ei. reflexivity.
Qed.

(** ** Fields *)
Lemma field_next m : body_ok (rdecn m) (rctln m) -> field_ok (rdecn m) (rctln m).
Proof.
  intros B q y idx v st zr p k D h rest Ny Nf Fy G1 G2 Dk Aim Fg L Cv E.
  pose proof Rf as (Hf & Tf & Sf & Ffl). pose proof (at_lt C _ _ _ _ E) as Lt.
  pose proof (dst_field D p idx q y Ny Nf Fy Dk Aim) as Dst.
  destruct (rfit_head _ _ _ _ _ _ _ Fy) as (fx & Hx & Px & Ox & Nx).
  assert (OV : forall k D1 h1, on_val_end stk toks (St idx k D1 h1) = Next (St i k D1 h1))
    by (intros; unfold Machine.on_val_end; cbn [si]; unfold fr; rewrite Hx, Px, Hf, Tf; reflexivity).
  (* a value that one iteration handles without going through the struct frame *)
  assert (One : forall r k1, restores (snd y) v = false -> one stk toks r idx k1 D (St idx k D h) (step (St idx k D h)) -> k1 = k + ntok v ->
    arrives (St idx k D h) D (fun D' => aimed D' (if restores (snd y) v then d_dest (D i) else p))
      (fun D' h' => Next (St i (k + ntok v) D' h')) r).
  { intros r k1 -> H ->. destruct r as [h1|ei ee h1| |]; cbn [one arrives] in *.
    - rewrite OV in H. exists D. split; [apply reach_one; [exact Lt|exact H]|]. split; [exact Dk|]. split; [apply outside_refl|exact Aim].
    - eexists. split; [apply reach_one; [exact Lt|exact H]|reflexivity].
    - apply reach_one; assumption.
    - apply reach_one; assumption. }
  assert (Scal : scalar_jv v = true -> f_ty fx = EPtrRecur \/ f_ty fx = ESliceRecur \/ f_ty fx = EMapRecur ->
    scalar_h C fx v (padd p (snd (fst y))) h = fieldh (rdecn m) (snd y) v (padd p (snd (fst y))) h ->
    arrives (St idx k D h) D (fun D' => aimed D' (if restores (snd y) v then d_dest (D i) else p))
      (fun D' h' => Next (St i (k + ntok v) D' h')) (fieldh (rdecn m) (snd y) v (padd p (snd (fst y))) h)).
  { intros Sv Tx <-. eapply One with (k1 := S k).
    - destruct v; try discriminate; destruct (snd y); reflexivity.
    - rewrite <- Dst. eapply step_scalar; try eassumption; destruct Tx as [-> | [-> | ->]]; discriminate.
    - destruct v; try discriminate; cbn [ntok]; lia. }
  destruct (snd y) as [| |kt|d] eqn:Ey; cbn [rfit erase] in *.
  - (* *S *)
    destruct Fy as (fx' & Hx' & Tx & Rx & _). rewrite Hx in Hx'. injection Hx' as <-.
    destruct (scalar_jv v) eqn:Sv.
    { apply Scal; [reflexivity|auto|]. destruct v; try discriminate; cbn [scalar_h Rec.fieldh jidx]; try destruct b; unfold str_tok; rewrite Tx; reflexivity. }
    destruct v as [| | | | |ia ja l|ia ja l]; try discriminate.
    + cbn [Rec.fieldh jidx]. exists (St idx k D h). split; [|reflexivity]. apply reach_one; [exact Lt|].
      rewrite (step_arr C O stk s toks _ _ _ _ _ _ _ _ _ Hx E). unfold arr_tok. rewrite Tx. reflexivity.
    + cbn [Rec.fieldh restores fctl] in *.
      pose proof (step_obj C O stk s toks _ _ D h _ _ _ _ _ Hx E) as ST. unfold obj_tok in ST. rewrite Tx in ST.
      cbn [tk_n hp dy si ti] in ST. unfold fr in ST. rewrite Rx, Hf, Sf, Dst in ST. fold w64 W in ST.
      assert (ST' : step (St idx k D h) = lift (self_target C z (padd p (snd (fst y))) h) (fun '(a, h1) =>
         let D1 := upd_d D i (fun d => DF (Some a) (d_off d) (d_len d) (RS (d_dest (D i)) (d_off (D i)) idx :: d_rs d)) in
         if Nat.eqb (length l) 0 then on_recur_obj_end (St i (k + 2) D1 h1)
         else Next (St i (S k) (set_dests D1 (f_fields f) (Some a)) h1))).
      { rewrite ST. unfold self_target. fold w64 W. destruct (load h (padd p (snd (fst y))) W) as [c| |]; cbn [lift rbind]; try reflexivity.
        destruct (as_ptr c) as [[a|]| |]; cbn [lift rbind]; reflexivity. }
      clear ST. destruct (self_target C z (padd p (snd (fst y))) h) as [[a h1]| |]; cbn [lift hlift] in *; try (apply reach_one; [exact Lt|exact ST']).
      cbv zeta in ST'. set (D1 := upd_d D i _) in ST'.
      assert (D1i : D1 i = DF (Some a) (d_off (D i)) (d_len (D i)) (RS (d_dest (D i)) (d_off (D i)) idx :: d_rs (D i))).
      { unfold D1, upd_d. rewrite Nat.eqb_refl. reflexivity. }
      assert (D1o : forall j, j <> i -> D1 j = D j).
      { intros j Hj. unfold D1, upd_d. destruct (Nat.eqb_spec j i); [contradiction|reflexivity]. }
      assert (Dk1 : dyn_ok stk D1) by (eapply dyn_ok_struct; [exact Dk|exact D1o]).
      assert (Fg1 : flags true zr D1 (Some a)).
      { split; [intros _; rewrite D1i; reflexivity|]. intros Q. split; [reflexivity|]. rewrite D1i. apply Fg, Q. }
      (* the end of the object: the destination of the enclosing struct is restored *)
      assert (Pop : forall k2 D2 h2, dyn_ok stk D2 -> outside D2 D1 ->
        exists D3, on_recur_obj_end (St i k2 D2 h2) = Next (St i k2 D3 h2) /\ dyn_ok stk D3 /\ outside D3 D /\ aimed D3 (d_dest (D i))).
      { intros k2 D2 h2 Dk2 O2. assert (E2 : D2 i = D1 i) by apply (outside_i _ _ O2).
        eexists. unfold Machine.on_recur_obj_end, fr. cbn [si dy]. rewrite Hf, E2, D1i. cbn [d_rs r_con]. rewrite Hx, Tx. unfold parent_si. rewrite Px.
        split; [reflexivity|]. apply (pop_ok D D2 (d_dest (D i)) (d_off (D i)) (d_len (D i)) (d_rs (D i)) Dk2).
        - intros j Hj. rewrite O2 by lia. apply D1o. lia.
        - destruct (D i); reflexivity.
        - rewrite E2, D1i. reflexivity. }
      pose proof (B ia ja l true zr (Some a) k D1 h1 rest Dk1 Fg1 L Cv E) as Q. rewrite ntok_obj in *.
      destruct (Nat.eqb (length l) 0) eqn:El.
      * rewrite Q. destruct l; [|discriminate]. destruct (Pop (k + 2) D1 h1 Dk1 (outside_refl _)) as (D3 & E3 & K3). rewrite E3 in ST'.
        exists D3. split; [apply reach_one; [exact Lt|exact ST']|exact K3].
      * eapply arrives_step; [exact Lt|exact ST'|]. destruct (rdecn m (JObj ia ja l) (Some a) h1) as [h2|ei ee h2| |]; try exact Q.
        destruct Q as (D2 & R2 & Dk2 & O2 & _). destruct (Pop (k + (2 + ntokm l)) D2 h2 Dk2 O2) as (D3 & E3 & K3).
        rewrite E3 in R2. exists D3. split; [exact R2|exact K3].
  - (* []S *)
    destruct Fy as (fx' & Bk). pose proof Bk as (Hx' & Tx & Rx & _). rewrite Hx in Hx'. injection Hx' as <-.
    destruct (scalar_jv v) eqn:Sv.
    { apply Scal; [reflexivity|auto|]. destruct v; try discriminate; cbn [scalar_h Rec.fieldh jidx]; try destruct b; unfold str_tok; rewrite Tx; reflexivity. }
    destruct v as [| | | | |ia ja l|ia ja l]; try discriminate.
    2:{ cbn [Rec.fieldh jidx]. exists (St idx k D h). split; [|reflexivity]. apply reach_one; [exact Lt|].
        rewrite (step_obj C O stk s toks _ _ _ _ _ _ _ _ _ Hx E). unfold obj_tok. rewrite Tx. reflexivity. }
    cbn [Rec.fieldh fctl] in *. unfold slice_h. fold w64 W.
    pose proof (step_arr C O stk s toks _ _ D h _ _ _ _ _ Hx E) as ST. unfold arr_tok in ST. rewrite Tx in ST.
    cbn [tk_n hp dy si ti] in ST. unfold fr in ST. rewrite Rx, Hf, Sf, Dst in ST. fold w64 W in ST.
    apply lexed_arr in L as (_ & _ & _ & L). rewrite flat_arr in E. cbn [app] in E. rewrite <- app_assoc in E. apply at_next in E as (_ & _ & E).
    rewrite ntok_arr. destruct l as [|x0 l].
    + cbn [length Nat.eqb] in ST. apply (One _ (k + 2)); [reflexivity| |rewrite ntok_arr; reflexivity].
      rewrite ST. destruct (store h (padd p (snd (fst y))) (3 * W) (CSlice (0, 0%Z) 0 0)) as [h1| |]; cbn [lift hlift one]; try reflexivity.
      rewrite OV. destruct (d_rs (D i)); reflexivity.
    + change (Nat.eqb (length (x0 :: l)) 0) with false in ST. cbv iota in ST. cbn [restores].
      destruct (grow_slice C h (padd p (snd (fst y))) z (Z.of_nat (length (x0 :: l))) true) as [[a h1]| |]; cbn [lift hlift] in *;
        try (apply reach_one; [exact Lt|exact ST]).
      eapply arrives_step; [exact Lt|exact ST|]. set (D1 := upd_d D i _).
      assert (D1i : D1 i = DF (Some a) 0 (d_len (D i)) (RS (d_dest (D i)) (d_off (D i)) idx :: d_rs (D i))).
      { unfold D1, upd_d. rewrite Nat.eqb_refl. reflexivity. }
      assert (D1o : forall j, j <> i -> D1 j = D j).
      { intros j Hj. unfold D1, upd_d. destruct (Nat.eqb_spec j i); [contradiction|reflexivity]. }
      assert (Dk1 : dyn_ok stk D1) by (eapply dyn_ok_struct; [exact Dk|exact D1o]).
      destruct Cv as [[N0 C0] Cl]. apply Forall_cons_iff in L as [L0 Ll].
      cbn [flats] in E. rewrite <- app_assoc in E. cbn [elems_h].
      assert (Fg1 : flags true true D1 (padd (Some a) 0)).
      { split; [intros _|intros _; split; [reflexivity|]]; rewrite D1i; [|reflexivity]. destruct a. cbn. rewrite Z.add_0_r. reflexivity. }
      pose proof (elem_one m true true x0 idx fx a 0 (d_len (D i)) (d_dest (D i)) (d_off (D i)) (d_rs (D i)) (S k) D1 h1 _ B Hx Tx Dk1 D1i Fg1 N0 L0 C0 E) as V.
      apply at_skip in E. rewrite flat_length in E. change (0 * z)%Z with 0%Z. apply arrives_hbind.
      destruct (rdecn m x0 (padd (Some a) 0) h1) as [h2|ei ee h2| |]; try exact V.
      destruct V as (D2 & R2 & Dk2 & B2 & E2). eexists. split; [exact R2|].
      cbn [ntoks]. replace (k + (2 + (ntok x0 + ntoks l))) with (S k + ntok x0 + ntoks l + 1) by lia.
      eapply (elems_reach m idx fx _ a (d_len (D i)) (d_dest (D i)) (d_off (D i)) (d_rs (D i)) D B Bk ltac:(destruct (D i); reflexivity));
        [exact Dk2| |rewrite E2; f_equal; ring|exact Ll|exact Cl|exact E].
      intros j Hj. rewrite B2 by exact Hj. apply D1o. lia.
  - (* map[K]S *)
    destruct Fy as ((fx' & Bk & Vx) & Kk). pose proof Bk as (Hx' & Tx & Rx & _). rewrite Hx in Hx'. injection Hx' as <-.
    destruct (scalar_jv v) eqn:Sv.
    { apply Scal; [reflexivity|auto|]. destruct v; try discriminate; cbn [scalar_h Rec.fieldh jidx]; try destruct b; unfold str_tok; rewrite Tx; reflexivity. }
    destruct v as [| | | | |ia ja l|ia ja l]; try discriminate.
    { cbn [Rec.fieldh jidx]. exists (St idx k D h). split; [|reflexivity]. apply reach_one; [exact Lt|].
      rewrite (step_arr C O stk s toks _ _ _ _ _ _ _ _ _ Hx E). unfold arr_tok. rewrite Tx. reflexivity. }
    cbn [Rec.fieldh fctl] in *. destruct Cv as (-> & Nl & Cl). destruct Fg as [Fs Fz]. destruct (Fz eq_refl) as [-> Do]. specialize (Fs eq_refl).
    pose proof (step_obj C O stk s toks _ _ D h _ _ _ _ _ Hx E) as ST. unfold obj_tok in ST. rewrite Tx in ST.
    cbn [tk_n hp dy si ti] in ST. rewrite Rx, Dst in ST.
    destruct l as [|x0 l0]; [congruence|]. set (l := x0 :: l0) in *. change (Nat.eqb (length l) 0) with false in ST. cbv iota in ST.
    destruct (init_map C h (padd p (snd (fst y)))) as [h1| |]; cbn [lift hlift] in *; try (apply reach_one; [exact Lt|exact ST]).
    eapply arrives_step; [exact Lt|exact ST|]. set (D1 := upd_d D i _).
    assert (D1i : D1 i = DF (d_dest (D i)) (d_off (D i)) (d_len (D i)) (RS (d_dest (D i)) (d_off (D i)) idx :: d_rs (D i))).
    { unfold D1, upd_d. rewrite Nat.eqb_refl. reflexivity. }
    assert (D1o : forall j, j <> i -> D1 j = D j).
    { intros j Hj. unfold D1, upd_d. destruct (Nat.eqb_spec j i); [contradiction|reflexivity]. }
    assert (Dk1 : dyn_ok stk D1) by (eapply dyn_ok_struct; [exact Dk|exact D1o]).
    apply lexed_obj in L as (_ & _ & _ & L). rewrite flat_obj in E. cbn [app] in E. rewrite <- app_assoc in E. apply at_next in E as (_ & _ & E).
    rewrite ntok_obj. replace (k + (2 + ntokm l)) with (S k + ntokm l + 1) by lia. cbn [restores l]. fold l. rewrite Fs.
    rewrite Fs, Do in D1i.
    eapply (entries_reach m idx fx _ kt p (d_len (D i)) (d_rs (D i)) D B Bk Vx Kk ltac:(cbn in G2; lia));
      [destruct (D i); cbn in *; subst; reflexivity|exact Dk1| | |rewrite D1i; reflexivity|rewrite D1i; reflexivity|rewrite D1i; reflexivity|exact L|exact Cl|exact E].
    + intros j Hj. apply D1o. lia.
    + rewrite D1o by lia. exact (Aim _ (nth_error_In _ _ Nf)).
  - (* other types *)
    destruct Fy as [Fy Lk]. cbn [fctl Rec.fieldh] in *. rewrite <- Dst.
    pose proof (value_reach C O stk s toks d idx k v On D h rest Fy Dk L Cv E) as V.
    destruct (dech C O s d v (dst D idx) h) as [h1|ei ee h1| |]; try exact V.
    destruct V as (D1 & R1 & Dk1 & A1). cbn [fin] in R1. rewrite OV in R1. exists D1. split; [exact R1|]. split; [exact Dk1|]. split.
    + intros j Hj. apply A1. lia.
    + cbn [restores]. eapply aimed_outside_field; [exact Ny|exact Nf|exact Aim|]. rewrite Ey. exact A1.
Qed.

Lemma body_all m : body_ok (rdecn m) (rctln m).
Proof. induction m as [|m IH]; [apply body_zero|]. apply body_next, field_next, IH. Qed.
End Loop.

(** ** The whole call *)
(** The frames describe the recursive struct. *)
Definition rdescribes (w64 : bool) (stk : list frame) (z : Z) (fs : rfields) : Prop :=
  length stk = S (dlens (shape fs)) /\ rfits_fields w64 stk 0 z 1 fs /\
  exists f, rec_frame stk 0 z fs f /\ f_parent f = None /\ f_off f = 0%Z.
(** The state of a decoder that is not inside a document. *)
Definition ready (stk : list frame) (D : dyn) : Prop :=
  dyn_ok stk D /\ d_rs (D 0) = [] /\ d_off (D 0) = 0%Z /\ forall j, d_dest (D j) = None.
Lemma ready_fresh w64 stk z fs : rdescribes w64 stk z fs -> ready stk (dyn0 stk).
Proof.
  intros (_ & _ & f & (Hf & _) & _ & Of). repeat split; unfold dyn0; cbn.
  - intros _. rewrite H. reflexivity.
  - cbn in Hf. rewrite Hf. exact Of.
Qed.
Lemma dyn_ok_clear stk D : dyn_ok stk D -> dyn_ok stk (clear_dests D).
Proof. intros H j f Hj. cbn. apply H, Hj. Qed.

Section Root.
Variables (C : cfg) (O : opts) (stk : list frame) (s : bytes) (z : Z) (fs : rfields) (v : jv).
Let toks := flat 0 v.
Notation step := (Machine.step C O stk s toks).
Notation reach := (Control.reach C O stk s toks).

Theorem decode_rdec D a h : rdescribes (c_w64 C) stk z fs -> ready stk D -> lexed s v -> rctl C O fs v ->
  match rdec C O s z fs v (Some a) h with
  | HOk h' => exists D', Decode C O stk D s (TOk toks) (Some a) h = Ret (-1) None D' h' /\ ready stk D'
  | HErr i e h' => exists D', Decode C O stk D s (TOk toks) (Some a) h = Ret (Z.of_nat i) (Some e) D' h'
  | HPan => Decode C O stk D s (TOk toks) (Some a) h = DPanics
  | HCor => Decode C O stk D s (TOk toks) (Some a) h = DCorrupts
  end.
Proof.
  intros (Len & Ff & f & Rf & Pf & Of) (Dk & Rs & Of0 & Dn) L Cv.
  pose proof Rf as (Hf & Tf & Sf & Ffl).
  set (D0 := upd_d D 0 (set_dest (Some a))).
  assert (D00 : D0 0 = DF (Some a) 0 (d_len (D 0)) []).
  { unfold D0, upd_d. cbn [Nat.eqb]. unfold set_dest. rewrite Rs, Of0. reflexivity. }
  assert (Dk0 : dyn_ok stk D0) by (apply dyn_ok_dest, Dk).
  assert (Hd : dst D0 0 = Some a) by (unfold dst; rewrite D00; destruct a; cbn; rewrite Z.add_0_r; reflexivity).
  assert (At : skipn 0 toks = flat 0 v ++ []) by (rewrite app_nil_r; reflexivity).
  assert (Lt : 0 < length toks) by (unfold toks; rewrite flat_length; pose proof (ntok_pos v); lia).
  assert (Len' : length toks = ntok v) by (unfold toks; rewrite flat_length; reflexivity).
  assert (OV : forall k D' h', on_val_end stk toks (St 0 k D' h') = Next (St 0 k D' h')).
  { intros. unfold on_val_end, fr. cbn [si]. rewrite Hf, Pf. reflexivity. }
  assert (OE : forall k D' h', d_rs (D' 0) = [] -> on_recur_obj_end stk toks (St 0 k D' h') = Next (St 0 k D' h')).
  { intros k D' h' E. unfold on_recur_obj_end, fr. cbn [si dy]. rewrite Hf, E. apply OV. }
  (* what the loop does *)
  assert (R : match rdec C O s z fs v (Some a) h with
    | HOk h' => exists y, (ti y = length toks /\ hp y = h' /\ dyn_ok stk (dy y) /\ dy y 0 = D0 0) /\ reach (St 0 0 D0 h) (Next y)
    | HErr idx e h' => exists y, reach (St 0 0 D0 h) (Fail idx e y) /\ hp y = h'
    | HPan => reach (St 0 0 D0 h) Panic
    | HCor => reach (St 0 0 D0 h) Corrupt end).
  { assert (Nu : nonnull v \/ exists i, v = JNull i) by (destruct v; cbn; eauto). destruct Nu as [Nn|(i & Ev)].
    - assert (Fg : flags 0 true true D0 (Some a)) by (split; [intros _|intros _; split; [reflexivity|]]; rewrite D00; reflexivity).
      pose proof (elem_reach C O stk s toks 0 z fs f Rf (height v) true true v (Some a) 0 D0 h []
        (body_all C O stk s toks 0 z fs f Rf Ff (height v)) Dk0 Hd Fg Nn L Cv At) as Q.
      unfold rdec. destruct (rdecn C O s z fs (height v) v (Some a) h) as [h'|ei ee h'| |]; try exact Q.
      destruct Q as (D2 & R & Dk2 & O2 & _). assert (E2 : D2 0 = D0 0) by (apply O2; lia).
      rewrite OE in R by (rewrite E2, D00; reflexivity). eexists. split; [|exact R]. split; [cbn [ti]; lia|]. split; [reflexivity|]. split; [exact Dk2|exact E2].
    - subst v. cbn [rdec rdecn height].
      pose proof (step_scalar C O stk s toks 0 0 D0 h f (JNull i) [] Hf) as S1. rewrite Tf in S1.
      specialize (S1 ltac:(discriminate) ltac:(discriminate) eq_refl L At).
      assert (Sc : scalar_h C f (JNull i) (dst D0 0) h = HOk h) by (cbn [scalar_h]; rewrite Tf; reflexivity).
      rewrite Sc in S1. cbn [one] in S1. rewrite OV in S1.
      exists (St 0 1 D0 h). split; [split; [reflexivity|split; [reflexivity|split; [exact Dk0|reflexivity]]]|]. apply reach_one; assumption. }
  unfold Decode. fold D0.
  destruct (rdec C O s z fs v (Some a) h) as [h'|idx e h'| |].
  - destruct R as (y & (Ty & Hy & Dky & Dy) & R). apply reach_run in R as (n & R). specialize (R 0). cbn [cont] in R.
    assert (Ry : run C O stk s toks 0 y = RDone y).
    { cbn [run]. replace (ti y <? length toks) with false by (symmetry; apply Nat.ltb_ge; lia). reflexivity. }
    rewrite Ry in R. apply run_fuel_enough in R; try discriminate; try reflexivity; [|apply flat_ends].
    rewrite R. rewrite Dy, D00. cbn [d_dest]. rewrite Nat.eqb_refl, Z.eqb_refl. cbn [andb]. rewrite Hy.
    eexists. split; [reflexivity|]. split; [apply dyn_ok_clear, Dky|].
    unfold clear_dests. cbn [set_dest d_rs d_off d_dest]. rewrite Dy, D00. repeat split.
  - destruct R as (y & R & Hy). apply reach_run in R as (n & R). specialize (R 0). cbn [cont] in R.
    apply run_fuel_enough in R; try discriminate; try reflexivity; [|apply flat_ends]. rewrite R, Hy. eauto.
  - apply reach_run in R as (n & R). specialize (R 0). cbn [cont] in R.
    apply run_fuel_enough in R; try discriminate; try reflexivity; [|apply flat_ends]. rewrite R. reflexivity.
  - apply reach_run in R as (n & R). specialize (R 0). cbn [cont] in R.
    apply run_fuel_enough in R; try discriminate; try reflexivity; [|apply flat_ends]. rewrite R. reflexivity.
Qed.
End Root.

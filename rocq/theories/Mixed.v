(** Types that contain recursive structs: maps, slices and structs around a recursive
    struct ([WRec], as in Rec.v) and types without recursion ([WSub]).

    [wdech] is the recursive decoder on memory, and [mixed_reach] says that Decode's token
    loop runs it on the documents of the class [wctl].
    Models: jscandec.go:714-2749 through Machine.v; [wt], [wfits], [wctl] are
    specification. *)
From Verif Require Import Base NumSpec StrSpec Atoi JsonNum Unescape UnescapeProofs Lookup Types Token FloatLit Heap Machine General PropsGeneral Dt Dec Control Root Rec.
Open Scope nat_scope.

Inductive wt :=
| WSub (d : dt)
| WRec (z : Z) (fs : rfields)
| WSlice (t : wt)
| WMap (k : dkey) (t : wt)
| WPtr (t : wt)
| WStruct (z : Z) (fs : list ((bytes * Z) * wt)).
Definition wfields := list ((bytes * Z) * wt).

Section WtInd.
  Context (P : wt -> Prop).
  Hypothesis (H1 : forall d, P (WSub d)) (H2 : forall z fs, P (WRec z fs)) (H3 : forall t, P t -> P (WSlice t))
    (H4 : forall k t, P t -> P (WMap k t)) (H6 : forall t, P t -> P (WPtr t)) (H5 : forall z fs, Forall (fun x => P (snd x)) fs -> P (WStruct z fs)).
  Fixpoint wt_ind' (t : wt) : P t :=
    match t return P t with
    | WSub d => H1 d | WRec z fs => H2 z fs | WSlice t => H3 t (wt_ind' t) | WMap k t => H4 k t (wt_ind' t) | WPtr t => H6 t (wt_ind' t)
    | WStruct z fs => H5 z fs ((fix go fs : Forall (fun x => P (snd x)) fs :=
        match fs with [] => Forall_nil _ | x :: r => Forall_cons x (wt_ind' (snd x)) (go r) end) fs)
    end.
End WtInd.

(** A type without recursion of the same size and number of frames. *)
Fixpoint flatt (t : wt) : dt :=
  match t with
  | WSub d => d
  | WRec z fs => DStruct z (shape fs)
  | WSlice t => DSlice (flatt t)
  | WMap k t => DMap k (flatt t)
  | WPtr t => DPtr (flatt t)
  | WStruct z fs => DStruct z (map (fun x => (fst x, flatt (snd x))) fs)
  end.
Definition wshape (fs : wfields) : list ((bytes * Z) * dt) := map (fun x => (fst x, flatt (snd x))) fs.
Definition wnames (fs : wfields) : list bytes := map (fun x => fst (fst x)) fs.
Lemma wshape_names fs : map (fun x : (bytes * Z) * dt => fst (fst x)) (wshape fs) = wnames fs.
Proof. unfold wshape, wnames. rewrite map_map. reflexivity. Qed.
(** The type of the first frame. *)
Definition wet (t : wt) : et := match t with WRec _ _ => EStructRecur | _ => dt_et (flatt t) end.
Definition not_rec (t : wt) : Prop := match t with WRec _ _ => False | _ => True end.
Lemma wet_not_rec t : not_rec t -> wet t = dt_et (flatt t) /\ wet t <> EStructRecur.
Proof. destruct t; try contradiction; intros _; split; try reflexivity; cbn [wet]; apply head_not_recur. Qed.

Lemma wet_not_map t : wet t <> EMapRecur.
Proof.
  destruct t; try discriminate; cbn [wet]; intros H; pose proof (dt_et_plain (flatt (WSub d))) as Q || pose proof (dt_et_plain (flatt (WSlice t))) as Q; cbn [flatt] in *; rewrite H in Q; discriminate.
Qed.

Section Dec.
Variables (C : cfg) (O : opts) (s : bytes).
Let w64 := c_w64 C.
Let W := wb w64.
(** A value into a type; slices: jscandec.go:1350-1395, maps: 2176-2210, 2346-2533,
    pointers: 2673-2687, structs: 2100-2117, 2270-2345. *)
Fixpoint wdech (t : wt) (v : jv) (p : ptr) (h : heap) {struct t} : hres :=
  match t with
  | WSub d => dech C O s d v p h
  | WRec z fs => rdec C O s z fs v p h
  | WSlice t =>
      match v with
      | JNull _ => hlift (store h p (3 * W) CZero) HOk
      | JArr _ _ l => slice_h C (wdech t) (dsize w64 (flatt t)) (isElemComposite (dt_et (flatt t))) l p h
      | _ => HErr (jidx v) EUnexpected h
      end
  | WMap k t =>
      match v with
      | JNull _ => hlift (store h p W CZero) HOk
      | JObj _ _ l => hlift (init_map C h p) (entries_h C k (wdech t) (is_struct (flatt t)) (dsize w64 (flatt t)) l p)
      | _ => HErr (jidx v) EUnexpected h
      end
  | WPtr t =>
      match v with
      | JNull _ => hlift (store h p W CZero) HOk
      | _ =>
          if (dsize w64 (flatt t) =? 0)%Z then hlift (store h p W (CPtr (0, 0%Z))) (fun h => wdech t v None h)
          else let '(a, h) := malloc h (dsize w64 (flatt t)) in hlift (store h p W (CPtr a)) (fun h => wdech t v (Some a) h)
      end
  | WStruct _ fs =>
      match v with
      | JNull _ => HOk h
      | JObj _ _ l => members_h C O (wnames fs) (map (fun x => (snd (fst x), wdech (snd x))) fs) l p h
      | _ => HErr (jidx v) EUnexpected h
      end
  end.

(** The documents on which the loop keeps in step.  [b]: the value is at the beginning of
    the memory block that was announced to its frame (map values, the document itself, the
    first field of a struct).  Elsewhere a member after a nested tree goes to a wrong
    address (C26_refuted_nested). *)
Fixpoint wctl (b : bool) (t : wt) (v : jv) {struct t} : Prop :=
  match t with
  | WSub d => lag_of C O d v = Some On
  | WRec _ fs => rctln C O fs (height v) b b v
  | WSlice t => match v with JArr _ _ l => l = [] \/ not_rec t /\ Forall (wctl false t) l | _ => True end
  | WMap _ t => match v with JObj _ _ l => Forall (fun x => wctl true t (snd x)) l | _ => True end
  | WPtr _ => match v with JNull _ => True | _ => False end
  | WStruct _ fs =>
      match v with
      | JObj _ _ l => Forall (fun x : (nat * bytes) * jv =>
          match pick (c_fold C) (o_nofold O) (wnames fs) (key_of O (snd (fst x))) with
          | Some j =>
              match nth_error (map (fun y => wctl (snd (fst y) =? 0)%Z (snd y)) fs) j with
              | Some c => c (snd x)
              | None => True
              end
          | None => o_unknown O = true \/ obj_free (snd x) = true
          end) l
      | _ => True
      end
  end.
End Dec.

Section Frames.
Variables (w64 : bool) (stk : list frame).
Fixpoint wfits (i : nat) (t : wt) {struct t} : Prop :=
  match t with
  | WSub d => fits w64 stk i d
  | WRec z fs => rfits_fields w64 stk i z (S i) fs /\ exists f, rec_frame stk i z fs f
  | WSlice t0 => fast_et (flatt t0) = None /\ head_is w64 stk i (flatt t) [] /\ wfits (S i) t0 /\ linked stk (S i) (Some i) 0 0
  | WMap k t0 => head_is w64 stk i (flatt t) [] /\ key_is stk (S i) k /\ wfits (S (S i)) t0 /\ linked stk (S (S i)) (Some i) 0 0
  | WPtr t0 => head_is w64 stk i (flatt t) [] /\ wfits (S i) t0 /\ linked stk (S i) (Some i) 0 0
  | WStruct z fs =>
      head_is w64 stk i (flatt t) (field_idx (S i) (wshape fs)) /\
      (fix go (k : nat) (fs : wfields) : Prop :=
         match fs with
         | [] => True
         | x :: r => wfits k (snd x) /\ linked stk k (Some i) (snd (fst x)) 0 /\ go (k + dlen (flatt (snd x)))%nat r
         end) (S i) fs
  end.
Fixpoint wfits_fields (i k : nat) (fs : wfields) : Prop :=
  match fs with
  | [] => True
  | x :: r => wfits k (snd x) /\ linked stk k (Some i) (snd (fst x)) 0 /\ wfits_fields i (k + dlen (flatt (snd x))) r
  end.
Lemma wfits_struct i z fs : wfits i (WStruct z fs) <->
  head_is w64 stk i (flatt (WStruct z fs)) (field_idx (S i) (wshape fs)) /\ wfits_fields i (S i) fs.
Proof.
  cbn [wfits]. assert (G : forall k, (fix go (k : nat) (fs : wfields) : Prop :=
         match fs with
         | [] => True
         | x :: r => wfits k (snd x) /\ linked stk k (Some i) (snd (fst x)) 0 /\ go (k + dlen (flatt (snd x)))%nat r
         end) k fs <-> wfits_fields i k fs).
  { generalize fs. intros l. induction l as [|x r IH]; intros k; cbn [wfits_fields]; [tauto|]. rewrite IH. tauto. }
  rewrite G. tauto.
Qed.
Lemma wfits_head i t : wfits i t -> exists f, nth_error stk i = Some f /\ f_ty f = wet t /\ f_size f = dsize w64 (flatt t).
Proof.
  destruct t as [d|z fs|t|k t|t|z fs]; intros F.
  - cbn [wfits] in F. assert (Q : exists fields, head_is w64 stk i d fields).
    { destruct d; cbn [fits] in F; try destruct (fast_et _); try (eexists; exact F); destruct F as [F _]; eexists; exact F. }
    destruct Q as (fl & f & Hf & T & S & _). eauto.
  - destruct F as (_ & f & Hf & T & S & _). eauto.
  - destruct F as (_ & (f & Hf & T & S & _) & _). eauto.
  - destruct F as ((f & Hf & T & S & _) & _). eauto.
  - destruct F as ((f & Hf & T & S & _) & _). eauto.
  - apply wfits_struct in F as ((f & Hf & T & S & _) & _). eauto.
Qed.
Lemma wfield_nth i fs : forall k j x, wfits_fields i k fs -> nth_error fs j = Some x ->
  exists idx, nth_error (field_idx k (wshape fs)) j = Some (fst (fst x), idx) /\ wfits idx (snd x) /\
    linked stk idx (Some i) (snd (fst x)) 0 /\ k <= idx /\ idx + dlen (flatt (snd x)) <= k + dlens (wshape fs).
Proof.
  induction fs as [|y r IH]; intros k j x H Hj; [destruct j; discriminate|]. cbn [wshape map field_idx wfits_fields dlens fst snd] in *.
  destruct H as (H1 & H2 & H3). destruct j as [|j]; cbn in Hj.
  - injection Hj as ->. exists k. cbn [nth_error]. repeat split; auto; lia.
  - destruct (IH _ _ _ H3 Hj) as (idx & A & B & F & G & G'). exists idx. cbn [nth_error]. unfold wshape in A, G'. repeat split; auto; lia.
Qed.
End Frames.

Section Loop.
Variables (C : cfg) (O : opts) (stk : list frame) (s : bytes) (toks : list token).
Let w64 := c_w64 C.
Let W := wb w64.
Notation step := (Machine.step C O stk s toks).
Notation reach := (Control.reach C O stk s toks).
Notation on_val_end := (Machine.on_val_end stk toks).
Notation wdech := (wdech C O s).
Notation wctl := (wctl C O).
Notation dsize := (Dt.dsize w64).
Notation wfits := (wfits w64 stk).
Notation elem_frame := (Control.elem_frame stk).

(** No tree is being decoded. *)
Definition calm (D : dyn) : Prop :=
  forall j f, nth_error stk j = Some f -> d_rs (D j) = [] /\ (~ elem_frame f -> d_off (D j) = f_off f).
Lemma calm_ok D : calm D -> dyn_ok stk D.
Proof. intros H j f Hj _. apply H, Hj. Qed.
Lemma calm_keep D D' : calm D -> dyn_ok stk D' -> (forall j f, nth_error stk j = Some f -> f_ty f = EStructRecur -> D' j = D j) -> calm D'.
Proof.
  intros H K S j f Hj. assert (T : f_ty f = EStructRecur \/ f_ty f <> EStructRecur) by (destruct (f_ty f); auto; right; discriminate).
  destruct T as [T|T]; [rewrite (S j f Hj T); apply H, Hj|apply (K j f Hj T)].
Qed.
Lemma calm_dest D i p : calm D -> calm (upd_d D i (set_dest p)).
Proof. intros H j f Hj. unfold upd_d. destruct (Nat.eqb j i); cbn; apply H, Hj. Qed.
Lemma calm_dests fs p : forall D, calm D -> calm (set_dests D fs p).
Proof. unfold set_dests. induction fs as [|f fs IH]; intros D H; cbn; [exact H|]. apply IH, calm_dest, H. Qed.
Lemma calm_elem D i f g : calm D -> nth_error stk i = Some f -> elem_frame f -> (forall d, d_rs d = [] -> d_rs (g d) = []) -> calm (upd_d D i g).
Proof.
  intros H Hi He Hg j f' Hj. unfold upd_d. destruct (Nat.eqb_spec j i) as [->|]; [|apply H, Hj].
  rewrite Hi in Hj. injection Hj as <-. split; [|tauto]. apply Hg, (H i f Hi).
Qed.

(** The loop arrives at the end of a value at frame [i] (of [n] frames). *)
Definition wends (x : st) (i n k : nat) (D : dyn) (r : hres) : Prop :=
  match r with
  | HOk h => exists D', reach x (on_val_end (St i k D' h)) /\ calm D' /\ forall j, ~ (i < j < i + n) -> D' j = D j
  | HErr idx e h => exists y, reach x (Fail idx e y) /\ hp y = h
  | HPan => reach x Panic
  | HCor => reach x Corrupt
  end.
Lemma wends_step x i n k D r x' : ti x < length toks -> step x = Next x' -> wends x' i n k D r -> wends x i n k D r.
Proof.
  intros L E H. destruct r; cbn [wends] in *.
  - destruct H as (D' & R & H). exists D'. split; [eapply reach_more; eauto|exact H].
  - destruct H as (y & R & H). exists y. split; [eapply reach_more; eauto|exact H].
  - eapply reach_more; eauto.
  - eapply reach_more; eauto.
Qed.
Lemma wends_hbind x i n k D r g :
  match r with
  | HOk h => exists x', reach x (Next x') /\ wends x' i n k D (g h)
  | HErr idx e h => exists y, reach x (Fail idx e y) /\ hp y = h
  | HPan => reach x Panic | HCor => reach x Corrupt
  end -> wends x i n k D (hbind r g).
Proof.
  destruct r; cbn [hbind]; try (intros H; exact H). intros (x' & R & H). destruct (g h); cbn [wends] in *.
  - destruct H as (D' & R' & H). exists D'. split; [eapply reach_then; eauto|exact H].
  - destruct H as (y & R' & H). exists y. split; [eapply reach_then; eauto|exact H].
  - eapply reach_then; eauto.
  - eapply reach_then; eauto.
Qed.
Lemma wends_one x i n k D r : ti x < length toks -> calm D -> one stk toks r i k D x (step x) -> wends x i n k D r.
Proof.
  intros L H E. destruct r; cbn in *.
  - exists D. split; [apply reach_one; assumption|]. split; [exact H|reflexivity].
  - eexists. split; [apply reach_one; eassumption|reflexivity].
  - apply reach_one; assumption.
  - apply reach_one; assumption.
Qed.
Lemma ends_wends x i n k D r : calm D -> (forall j f, i < j < i + n -> nth_error stk j = Some f -> f_ty f <> EStructRecur) ->
  ends C O stk s toks On x i n k D r -> wends x i n k D r.
Proof.
  intros Cm N H. destruct r; try exact H. destruct H as (D' & R & Dk & A). exists D'. split; [exact R|]. split; [|exact A].
  eapply calm_keep; [exact Cm|exact Dk|]. intros j f Hj T. apply A. intros Q. exact (N j f Q Hj T).
Qed.

(** The induction hypothesis. *)
Definition wvalue_ok (t : wt) : Prop := forall b i k v D h rest,
  wfits i t -> calm D -> (b = true -> d_off (D i) = 0%Z) -> lexed s v -> wctl b t v -> skipn k toks = flat k v ++ rest ->
  wends (St i k D h) i (dlen (flatt t)) (k + ntok v) D (wdech t v (dst D i) h).

Lemma sub_frames i d : fits w64 stk i d -> forall j f, i < j < i + dlen d -> nth_error stk j = Some f -> f_ty f <> EStructRecur.
Proof.
  intros F j f Hj Hf T. destruct (fits_frames w64 stk d i F j ltac:(lia) f Hf) as [Q _]. rewrite T in Q. discriminate.
Qed.
Lemma rec_frames i z fs : forall k, rfits_fields w64 stk i z k fs -> forall j f, k <= j < k + dlens (shape fs) -> nth_error stk j = Some f -> f_ty f <> EStructRecur.
Proof.
  induction fs as [|x r IH]; intros k F j f Hj Hf; [cbn in Hj; lia|]. cbn [rfits_fields shape map dlens fst snd] in *. destruct F as [Fx Fr]. fold (shape r) in Hj.
  destruct (Nat.lt_ge_cases j (k + dlen (erase (snd x)))) as [L|L]; [|apply (IH _ Fr j f); [lia|exact Hf]].
  destruct (rfit_head w64 stk i z _ _ _ Fx) as (g & Hg & _ & _ & Tg).
  destruct (Nat.eq_dec j k) as [->|N]; [congruence|].
  destruct (snd x) as [| |kt|d]; cbn [erase dlen fast_et] in L; try lia.
  - cbn [rfit] in Fx. destruct Fx as (_ & fk & Hk & Tk & _). assert (j = S k) as -> by lia. rewrite Hk in Hf. injection Hf as <-. rewrite Tk. destruct kt; discriminate.
  - cbn [rfit erase] in *. destruct Fx as [Fx _]. apply (sub_frames k d Fx j f); [lia|exact Hf].
Qed.

Lemma rec_value z fs : wvalue_ok (WRec z fs).
Proof.
  intros b i k v D h rest [Ff (f & Rf)] Cm Zb L Cv E. cbn [Mixed.wctl Mixed.wdech flatt] in *.
  pose proof Rf as (Hf & Tf & Sf & Ffl). pose proof (calm_ok D Cm) as Dk. destruct (Cm i f Hf) as [Rs _].
  assert (P0 : forall p, padd p 0 = p) by (intros [[? ?]|]; cbn; [rewrite Z.add_0_r|]; reflexivity).
  assert (Fg : flags i b b D (dst D i)).
  { split; intros Q; [|split; [exact Q|apply Zb, Q]]. unfold dst. rewrite (Zb Q), P0. reflexivity. }
  assert (Nu : nonnull v \/ exists q, v = JNull q) by (destruct v; cbn; eauto). destruct Nu as [Nn|(q & Ev)].
  - pose proof (elem_reach C O stk s toks i z fs f Rf (height v) b b v (dst D i) k D h rest
      (body_all C O stk s toks i z fs f Rf Ff (height v)) Dk eq_refl Fg Nn L Cv E) as Q.
    unfold rdec. destruct (rdecn C O s z fs (height v) v (dst D i) h) as [h'|ei ee h'| |]; try exact Q.
    destruct Q as (D' & R & Dk' & O' & _). exists D'. rewrite dlen_struct.
    assert (Ei : D' i = D i) by (apply O'; lia).
    replace (on_recur_obj_end stk toks (St i (k + ntok v) D' h')) with (on_val_end (St i (k + ntok v) D' h')) in R.
    2:{ unfold on_recur_obj_end, fr. cbn [si dy]. rewrite Hf, Ei, Rs. reflexivity. }
    split; [exact R|]. split; [|exact O'].
    eapply calm_keep; [exact Cm|exact Dk'|]. intros j g Hg T. apply O'. intros Q. apply (rec_frames i z fs (S i) Ff j g); [lia|exact Hg|exact T].
  - subst v. cbn [rdec rdecn height]. apply wends_one; [eapply at_lt; eauto|exact Cm|].
    pose proof (step_scalar C O stk s toks i k D h f (JNull q) rest Hf) as S1. rewrite Tf in S1.
    specialize (S1 ltac:(discriminate) ltac:(discriminate) eq_refl L E).
    assert (Sc : scalar_h C f (JNull q) (dst D i) h = HOk h) by (cbn [scalar_h]; rewrite Tf; reflexivity).
    rewrite Sc in S1. cbn [ntok]. replace (k + 1) with (S k) by lia. exact S1.
Qed.

(** Scalars and the other container into a slice, map or struct. *)
Lemma outer_scalar i k v D h rest t f : (match t with WSub _ | WRec _ _ | WPtr _ => False | _ => True end) ->
  match t with WSlice t0 => fast_et (flatt t0) = None | _ => True end ->
  nth_error stk i = Some f -> f_ty f = wet t -> calm D -> lexed s v -> scalar_jv v = true -> skipn k toks = flat k v ++ rest ->
  wends (St i k D h) i (dlen (flatt t)) (k + ntok v) D (wdech t v (dst D i) h).
Proof.
  intros Ty Fe Hf T Cm L Sv E. apply wends_one; [eapply at_lt; eauto|exact Cm|].
  assert (T' : f_ty f = match t with WSlice _ => ESlice | WMap _ _ => EMap | _ => EStruct end).
  { rewrite T. destruct t; try contradiction; cbn [wet flatt dt_et]; try rewrite Fe; reflexivity. }
  replace (wdech t v (dst D i) h) with (scalar_h C f v (dst D i) h).
  2:{ destruct t; try contradiction; destruct v; try discriminate; cbn [Mixed.wdech scalar_h jidx]; try destruct b; unfold str_tok; rewrite T'; reflexivity. }
  replace (k + ntok v) with (S k) by (destruct v; try discriminate; cbn; lia).
  eapply step_scalar; eauto; rewrite T'; destruct t; try contradiction; discriminate.
Qed.

Lemma slice_value t : wvalue_ok t -> wvalue_ok (WSlice t).
Proof.
  intros IH b i k v D h rest (Fe & Hd & Fd & fe & He & Pe & Oe & Ce) Cm _ L Cv E.
  pose proof Hd as (f & Hf & T & Sz & _). cbn [flatt dt_et] in T. rewrite Fe in T.
  destruct (wfits_head _ _ _ _ Fd) as (fe' & He' & Te & Se). rewrite He in He'. injection He' as <-.
  assert (Cp : isElemComposite (f_ty fe) = isElemComposite (dt_et (flatt t))) by (rewrite Te; destruct t; reflexivity).
  assert (EF : elem_frame fe) by (exists i, f; auto).
  destruct (scalar_jv v) eqn:Sv; [apply (outer_scalar i k v D h rest (WSlice t) f I Fe Hf ltac:(cbn [wet flatt dt_et]; rewrite Fe; exact T) Cm L Sv E)|].
  pose proof (at_lt C _ _ _ _ E) as Lt.
  destruct v as [| | | | |ia ja l|ia ja l]; try discriminate.
  2:{ apply wends_one; [exact Lt|exact Cm|]. rewrite (step_obj C O stk s toks _ _ _ _ _ _ _ _ _ Hf E). unfold obj_tok. rewrite T. reflexivity. }
  cbn [Mixed.wctl Mixed.wdech flatt] in *. cbn [dlen]. rewrite Fe.
  pose proof (step_arr C O stk s toks _ _ D h _ _ _ _ _ Hf E) as ST. unfold arr_tok in ST. rewrite T in ST. cbn [tk_n] in ST.
  unfold fr in ST. cbn [si ti dy hp] in ST. rewrite He in ST.
  apply lexed_arr in L as (_ & _ & _ & L). unfold slice_h. 
  destruct l as [|v0 l0].
  { apply wends_one; [exact Lt|exact Cm|]. rewrite ST. apply one_lift. reflexivity. }
  set (l := v0 :: l0) in *. change (Nat.eqb (length l) 0) with false in ST. cbv iota in ST.
  destruct Cv as [Cv|[Nr Cv]]; [discriminate|].
  destruct (wet_not_rec t Nr) as [We Wn]. rewrite We in Te. assert (NR : f_ty fe <> EStructRecur) by (rewrite Te, <- We; exact Wn).
  rewrite Te, Se in ST. fold w64.
  destruct (grow_slice C h (dst D i) (dsize (flatt t)) (Z.of_nat (length l)) (isElemComposite (dt_et (flatt t)))) as [[a h1]| |];
    cbn [lift hlift] in *; try (apply reach_one; [exact Lt|exact ST]).
  eapply wends_step; [exact Lt|exact ST|].
  rewrite flat_arr in E. cbn [app] in E. rewrite <- app_assoc in E. apply at_next in E as (_ & _ & E).
  rewrite ntok_arr. replace (k + (2 + ntoks l)) with (S k + ntoks l + 1) by lia.
  assert (Loop : forall l m k D1 h e, calm D1 -> d_dest (D1 (S i)) = Some a -> d_off (D1 (S i)) = (m * dsize (flatt t))%Z ->
    (forall j, ~ (i < j < i + S (dlen (flatt t))) -> D1 j = D j) -> Forall (lexed s) l -> Forall (wctl false t) l ->
    skipn k toks = flats k l ++ Tok KArrEnd ja e 0 :: rest ->
    wends (St (S i) k D1 h) i (S (dlen (flatt t))) (k + ntoks l + 1) D (elems_h (wdech t) (dsize (flatt t)) m l (Some a) h)).
  { clear - IH Hf T He Te Se Pe Fd NR EF. induction l as [|v l IHl]; intros m k D1 h e Cm De Do Out L Cl E.
    - cbn [elems_h flats ntoks app] in *. exists D1. split; [|split; [exact Cm|exact Out]]. apply reach_one; [apply at_next in E; apply E|].
      rewrite (step_arr_end C O stk s toks i k D1 h fe ja e 0 rest) by assumption. repeat f_equal. lia.
    - cbn [elems_h flats ntoks] in *. rewrite <- app_assoc in E. apply Forall_cons_iff in L as [Lv Ll]. apply Forall_cons_iff in Cl as [Cv Cl].
      pose proof (IH false (S i) k v D1 h _ Fd Cm ltac:(discriminate) Lv Cv E) as V. unfold dst in V. rewrite De, Do in V.
      apply at_skip in E. rewrite flat_length in E. apply wends_hbind.
      destruct (wdech t v (padd (Some a) (m * dsize (flatt t))) h) as [h1|ei ee h1| |]; try exact V.
      destruct V as (D2 & R & Cm2 & A2). assert (De2 : D2 (S i) = D1 (S i)) by (apply A2; lia).
      assert (OV : on_val_end (St (S i) (k + ntok v) D2 h1) =
         Next (St (S i) (k + ntok v) (upd_d D2 (S i) (fun d => set_doff (d_off d + dsize (flatt t)) d)) h1)).
      { unfold Machine.on_val_end. cbn [si]. unfold fr. rewrite He, Pe, Hf, T. cbn [dy ti hp]. rewrite Se. reflexivity. }
      rewrite OV in R. eexists. split; [exact R|]. replace (k + (ntok v + ntoks l) + 1) with (k + ntok v + ntoks l + 1) by lia.
      apply IHl with (e := e); try assumption.
      + eapply calm_elem; eauto.
      + unfold upd_d. rewrite Nat.eqb_refl, De2. exact De.
      + unfold upd_d. rewrite Nat.eqb_refl, De2. cbn [set_doff d_off]. rewrite Do. ring.
      + intros j Hj. pose proof (dlen_pos (flatt t)). unfold upd_d. destruct (Nat.eqb_spec j (S i)); [lia|]. rewrite A2 by lia. apply Out, Hj. }
  apply Loop with (e := k); try assumption.
  - eapply calm_elem; eauto.
  - unfold upd_d. rewrite Nat.eqb_refl. reflexivity.
  - unfold upd_d. rewrite Nat.eqb_refl. reflexivity.
  - intros j Hj. unfold upd_d. destruct (Nat.eqb_spec j (S i)); [pose proof (dlen_pos (flatt t)); lia|reflexivity].
Qed.

Lemma is_struct_wet t : is_struct (flatt t) = match wet t with EStruct | EStructRecur => true | _ => false end.
Proof. destruct t as [d|z fs|t|k t|t|z fs]; try reflexivity; cbn [wet flatt]; apply (is_struct_et _ eq_refl). Qed.
Lemma padd0 a : padd (Some a) 0 = Some a.
Proof. destruct a. cbn. rewrite Z.add_0_r. reflexivity. Qed.

(** An entry of a map: the step at its key. *)
Definition map_ctx (i : nat) (kt : dkey) (t : wt) (D : dyn) : Prop :=
  wfits i (WMap kt t) /\ calm D.
Lemma entry_key i kt t k D h x tl : map_ctx i kt t D -> key_lexed s x -> skipn k toks = Tok KKey (fst (fst x)) (fst (fst x) + length (snd (fst x)) + 2) 0 :: tl ->
  step (St i k D h) =
    lift (let* c := load h (dst D i) W in as_map c) (fun m =>
    lift (key_h C kt (fst (fst x)) (snd (fst x))) (fun key =>
    match key with
    | inr e => Fail (fst (fst x)) e (St i k D h)
    | inl None => Panic
    | inl (Some key) =>
        lift (mapassign h m key (dsize (flatt t))) (fun '(a, h1) =>
        lift (if is_struct (flatt t) then clear h1 (Some a) (dsize (flatt t)) else Ok h1) (fun h2 =>
        Next (St (S (S i)) (S k) (upd_d D (S (S i)) (set_dest (Some a))) h2)))
    end)).
Proof.
  intros (((f & Hf & T & Sz & _ & Vf) & (fk & Hk & Tk & Rk) & Fd & fv & Hv & Pv & Ov & _) & Cm) [K1 K2] E.
  cbn [flatt dt_et] in T, Vf. destruct (wfits_head _ _ _ _ Fd) as (fv' & Hv' & Tv & Sv'). rewrite Hv in Hv'. injection Hv' as <-.
  apply at_next in E as (Et & _ & _).
  unfold Machine.step. cbn [ti si]. rewrite Et. unfold fr. rewrite Hf. cbn [tk_ty]. unfold key_tok. rewrite T.
  rewrite (Control.body_ok C) by exact K1. cbn [lift]. cbn [hp dy si ti]. fold w64 W.
  destruct (let* c := load h (dst D i) W in as_map c) as [m| |]; cbn [lift]; try reflexivity.
  unfold fr. rewrite Hk. cbn [tk_idx]. rewrite (key_h_frame C kt) by assumption.
  pose proof (key_h_some C kt (fst (fst x)) (snd (fst x))) as KS.
  destruct (key_h C kt (fst (fst x)) (snd (fst x))) as [[[key|]|er]| |]; cbn [lift]; try reflexivity; [|congruence].
  rewrite Vf. fold w64. destruct (mapassign h m key (dsize (flatt t))) as [[a h1]| |]; cbn [rbind lift]; try reflexivity.
  rewrite Hv, is_struct_wet, <- Tv.
  destruct (f_ty fv); try reflexivity; destruct (clear h1 (Some a) (dsize (flatt t))); reflexivity.
Qed.
(** Where the value goes. *)
Lemma entry_at i kt t D a : map_ctx i kt t D -> let D' := upd_d D (S (S i)) (set_dest (Some a)) in
  calm D' /\ d_off (D' (S (S i))) = 0%Z /\ dst D' (S (S i)) = Some a.
Proof.
  intros (((f & Hf & T & Sz & _ & Vf) & _ & Fd & fv & Hv & Pv & Ov & _) & Cm) D'. cbn [flatt dt_et] in T.
  assert (Cm' : calm D') by (apply calm_dest, Cm). split; [exact Cm'|].
  assert (Off : d_off (D' (S (S i))) = 0%Z).
  { destruct (Cm' _ fv Hv) as [_ Q]. rewrite Q, Ov; [reflexivity|].
    intros (pp & fp & Q1 & Q2 & Q3). rewrite Pv in Q1. injection Q1 as <-. rewrite Hf in Q2. injection Q2 as <-. rewrite T in Q3. destruct Q3; discriminate. }
  split; [exact Off|]. unfold dst. rewrite Off. unfold D', upd_d. rewrite Nat.eqb_refl. cbn [set_dest d_dest]. apply padd0.
Qed.
Lemma entry_up i kt t D k h : map_ctx i kt t D -> on_val_end (St (S (S i)) k D h) = Next (St i k D h).
Proof.
  intros (((f & Hf & T & _) & _ & _ & fv & Hv & Pv & _) & _). cbn [flatt dt_et] in T.
  unfold Machine.on_val_end. cbn [si]. unfold fr. rewrite Hv, Pv, Hf, T. reflexivity.
Qed.

Lemma map_value kt t : wvalue_ok t -> wvalue_ok (WMap kt t).
Proof.
  intros IH b i k v D h rest Ft Cm _ L Cv E. pose proof Ft as (Hd & _ & Fd & _).
  pose proof Hd as (f & Hf & T & Sz & _ & Vf). cbn [flatt dt_et] in T, Vf.
  destruct (scalar_jv v) eqn:Sv; [apply (outer_scalar i k v D h rest (WMap kt t) f I I Hf T Cm L Sv E)|].
  pose proof (at_lt C _ _ _ _ E) as Lt.
  destruct v as [| | | | |ia ja l|ia ja l]; try discriminate.
  { apply wends_one; [exact Lt|exact Cm|]. rewrite (step_arr C O stk s toks _ _ _ _ _ _ _ _ _ Hf E). unfold arr_tok. rewrite T. reflexivity. }
  cbn [Mixed.wctl Mixed.wdech flatt] in *. cbn [dlen].
  pose proof (step_obj C O stk s toks _ _ D h _ _ _ _ _ Hf E) as ST. unfold obj_tok in ST. rewrite T in ST. cbn [tk_n hp dy si ti] in ST.
  apply lexed_obj in L as (_ & _ & _ & L). fold w64.
  destruct (init_map C h (dst D i)) as [h0| |]; cbn [lift hlift] in *; try (apply reach_one; [exact Lt|exact ST]).
  destruct l as [|x0 l0].
  { cbn [entries_h]. cbn [length Nat.eqb] in ST. apply wends_one; [exact Lt|exact Cm|]. exact ST. }
  set (l := x0 :: l0) in *. change (Nat.eqb (length l) 0) with false in ST. cbv iota in ST.
  eapply wends_step; [exact Lt|exact ST|].
  rewrite flat_obj in E. cbn [app] in E. rewrite <- app_assoc in E. apply at_next in E as (_ & _ & E).
  rewrite ntok_obj. replace (k + (2 + ntokm l)) with (S k + ntokm l + 1) by lia.
  set (N := S (S (dlen (flatt t)))).
  assert (Loop : forall l k D1 h e, calm D1 -> dst D1 i = dst D i -> (forall j, ~ (i < j < i + N) -> D1 j = D j) ->
    Forall (fun x => key_lexed s x /\ lexed s (snd x)) l -> Forall (fun x => wctl true t (snd x)) l ->
    skipn k toks = flatm k l ++ Tok KObjEnd ja e 0 :: rest ->
    wends (St i k D1 h) i N (k + ntokm l + 1) D (entries_h C kt (wdech t) (is_struct (flatt t)) (dsize (flatt t)) l (dst D i) h)).
  { clear - IH Hf T Ft Fd W. induction l as [|x l IHl]; intros k D1 h e Cm Ds Out L Cl E.
    - cbn [entries_h flatm ntokm app] in *. exists D1. split; [|split; [exact Cm|exact Out]].
      destruct (step_obj_end C O stk s toks i k D1 h f (DMap kt (flatt t)) ja e 0 rest Hf T (calm_ok _ Cm) E) as [ST Lt].
      apply reach_one; [exact Lt|]. rewrite ST. repeat f_equal. lia.
    - cbn [entries_h flatm ntokm app] in *. rewrite <- app_assoc in E. apply Forall_cons_iff in L as [[Kx Lx] Ll]. apply Forall_cons_iff in Cl as [Cx Cl].
      assert (Cc : map_ctx i kt t D1) by (split; assumption).
      pose proof (entry_key i kt t k D1 h x _ Cc Kx E) as ST. rewrite Ds in ST.
      apply at_next in E as (Et & Lt & E).
      change (wb (c_w64 C)) with W. destruct (let* c := load h (dst D i) W in as_map c) as [m| |]; cbn [lift hlift] in *;
        try (apply reach_one; [exact Lt|exact ST]).
      destruct (key_h C kt (fst (fst x)) (snd (fst x))) as [[[key|]|er]| |]; cbn [lift hlift] in *;
        try (apply reach_one; [exact Lt|exact ST]);
        try (eexists; split; [apply reach_one; [exact Lt|exact ST]|reflexivity]).
      destruct (mapassign h m key (dsize (flatt t))) as [[a h1]| |]; cbn [lift hlift] in *;
        try (apply reach_one; [exact Lt|exact ST]).
      destruct (if is_struct (flatt t) then clear h1 (Some a) (dsize (flatt t)) else Ok h1) as [h2| |]; cbn [lift hlift] in *;
        try (apply reach_one; [exact Lt|exact ST]).
      eapply wends_step; [exact Lt|exact ST|].
      destruct (entry_at i kt t D1 a Cc) as (Cm' & Off & Dst). set (D' := upd_d D1 (S (S i)) (set_dest (Some a))) in *.
      pose proof (IH true (S (S i)) (S k) (snd x) D' h2 _ Fd Cm' (fun _ => Off) Lx Cx E) as V. rewrite Dst in V.
      apply at_skip in E. rewrite flat_length in E. apply wends_hbind.
      destruct (wdech t (snd x) (Some a) h2) as [h3|ei ee h3| |]; try exact V.
      destruct V as (D2 & R & Cm2 & A2). rewrite (entry_up i kt t D2 _ _ (conj Ft Cm2)) in R. eexists. split; [exact R|].
      replace (k + (1 + ntok (snd x) + ntokm l) + 1) with (S k + ntok (snd x) + ntokm l + 1) by lia.
      assert (DD : forall j, ~ (i < j < i + N) -> D2 j = D1 j).
      { intros j Hj. pose proof (dlen_pos (flatt t)). unfold N in Hj. rewrite A2 by lia. unfold D', upd_d. destruct (Nat.eqb_spec j (S (S i))); [lia|reflexivity]. }
      apply IHl with (e := e); try assumption.
      + unfold dst in *. rewrite DD by lia. exact Ds.
      + intros j Hj. rewrite DD by exact Hj. apply Out, Hj. }
  apply Loop with (e := k); try assumption; reflexivity.
Qed.

(** A member of a struct at [p]: the step at its key. *)
Definition struct_ctx (i : nat) (z : Z) (fs : wfields) (p : ptr) (D : dyn) : Prop :=
  wfits i (WStruct z fs) /\ calm D /\ forall a, In a (field_idx (S i) (wshape fs)) -> d_dest (D (snd a)) = p.
Lemma member_key i z fs p k D h x tl : struct_ctx i z fs p D -> key_lexed s x -> skipn k toks = Tok KKey (fst (fst x)) (fst (fst x) + length (snd (fst x)) + 2) 0 :: tl ->
  step (St i k D h) =
    match pick (c_fold C) (o_nofold O) (wnames fs) (key_of O (snd (fst x))) with
    | Some q => match nth_error (field_idx (S i) (wshape fs)) q with
                | Some a => Next (St (snd a) (S k) D h)
                | None => Panic
                end
    | None => if o_unknown O then Fail (fst (fst x)) EUnknownField (St i k D h)
              else match skip_unknown 0 (skipn (S k) toks) with
                   | None => Panic
                   | Some n => Next (St i (S k + n) D h)
                   end
    end.
Proof.
  intros (Ft & Cm & _) [K1 K2] E. apply wfits_struct in Ft as [(f & Hf & T & Sz & Ff & _) _]. cbn [flatt dt_et] in T.
  apply at_next in E as (Et & _ & _).
  unfold Machine.step. cbn [ti si]. rewrite Et. unfold fr. rewrite Hf. cbn [tk_ty]. unfold key_tok. rewrite T.
  rewrite (Control.body_ok C) by exact K1. cbn [lift]. rewrite unesc_ok by exact K2. cbn [lift]. rewrite Ff, lookup_pick, field_names, wshape_names.
  destruct (pick _ _ _ _) as [qq|] eqn:Pq; [|reflexivity].
  destruct (nth_error (field_idx (S i) (wshape fs)) qq) as [a|] eqn:Nq; [reflexivity|].
  apply pick_lt in Pq. apply nth_error_None in Nq.
  rewrite <- wshape_names, <- (field_names (S i)), map_length in Pq. exfalso. exact (Nat.lt_irrefl _ (Nat.lt_le_trans _ _ _ Pq Nq)).
Qed.
(** Where the value goes. *)
Lemma member_at i z fs p D q y : struct_ctx i z fs p D -> nth_error fs q = Some y ->
  exists idx fy, nth_error (field_idx (S i) (wshape fs)) q = Some (fst (fst y), idx) /\ wfits idx (snd y) /\
    nth_error stk idx = Some fy /\ f_parent fy = Some i /\
    d_off (D idx) = snd (fst y) /\ dst D idx = padd p (snd (fst y)) /\
    S i <= idx /\ idx + dlen (flatt (snd y)) <= S i + dlens (wshape fs) /\
    (forall D', (forall j, ~ (idx < j < idx + dlen (flatt (snd y))) -> D' j = D j) ->
       forall a, In a (field_idx (S i) (wshape fs)) -> D' (snd a) = D (snd a)).
Proof.
  intros (Ft & Cm & Aim) Ny. apply wfits_struct in Ft as [(f & Hf & T & Sz & Ff & _) Fits]. cbn [flatt dt_et] in T.
  destruct (wfield_nth w64 stk i fs (S i) q y Fits Ny) as (idx & Nf & Fy & (fy & Hy & Py & Oy & _) & G1 & G2).
  exists idx, fy.
  assert (Off : d_off (D idx) = snd (fst y)).
  { destruct (Cm idx fy Hy) as [_ Do]. rewrite Do, Oy; [reflexivity|].
    intros (pp & fp & Q1 & Q2 & Q3). rewrite Py in Q1. injection Q1 as <-. rewrite Hf in Q2. injection Q2 as <-. rewrite T in Q3. destruct Q3; discriminate. }
  split; [exact Nf|]. split; [exact Fy|]. split; [exact Hy|]. split; [exact Py|]. split; [exact Off|]. split; [|split; [exact G1|split; [exact G2|]]].
  - unfold dst. pose proof (Aim _ (nth_error_In _ _ Nf)) as Dn. cbn [snd] in Dn. rewrite Dn, Off. reflexivity.
  - intros D' A2 a Ha. apply A2.
    assert (Hq : nth_error (wshape fs) q = Some (fst y, flatt (snd y))) by (unfold wshape; rewrite nth_error_map, Ny; reflexivity).
    exact (field_disjoint C (wshape fs) (S i) q (fst y, flatt (snd y)) a idx Hq Nf Ha).
Qed.
Lemma member_up i z fs p D idx fy k h : struct_ctx i z fs p D -> nth_error stk idx = Some fy -> f_parent fy = Some i ->
  on_val_end (St idx k D h) = Next (St i k D h).
Proof.
  intros (Ft & _) Hy Py. apply wfits_struct in Ft as [(f & Hf & T & _) _]. cbn [flatt dt_et] in T.
  unfold Machine.on_val_end. cbn [si]. unfold fr. rewrite Hy, Py, Hf, T. reflexivity.
Qed.
(** After the opening bracket. *)
Lemma struct_start i z fs D : wfits i (WStruct z fs) -> calm D -> exists f, nth_error stk i = Some f /\ f_ty f = EStruct /\
  let D' := set_dests D (f_fields f) (dst D i) in
  struct_ctx i z fs (dst D i) D' /\ forall j, ~ (i < j < i + S (dlens (wshape fs))) -> D' j = D j.
Proof.
  intros Ft Cm. pose proof Ft as Ft'. apply wfits_struct in Ft' as [(f & Hf & T & Sz & Ff & _) Fits]. exists f. split; [exact Hf|]. split; [exact T|].
  intros D'. split; [split; [exact Ft|]; split; [apply calm_dests, Cm|]|].
  - intros a Ha. unfold D'. rewrite set_dests_spec, Ff.
    match goal with |- context [existsb ?g ?l] => replace (existsb g l) with true; [reflexivity|] end.
    symmetry. apply existsb_exists. exists a. split; [exact Ha|apply Nat.eqb_refl].
  - intros j Hj. unfold D'. rewrite set_dests_spec, Ff. destruct (existsb _ _) eqn:Ex; [|reflexivity].
    apply existsb_exists in Ex as (a & Ha & Ea). apply Nat.eqb_eq in Ea. subst j.
    pose proof (field_idx_lt C _ _ _ Ha). pose proof (field_idx_ge C _ _ _ Ha). lia.
Qed.
(** One member that keeps in step. *)
Definition mfine (fs : wfields) (x : (nat * bytes) * jv) : Prop :=
  match pick (c_fold C) (o_nofold O) (wnames fs) (key_of O (snd (fst x))) with
  | Some j =>
      match nth_error (map (fun y => wctl (snd (fst y) =? 0)%Z (snd y)) fs) j with
      | Some c => c (snd x)
      | None => True
      end
  | None => o_unknown O = true \/ obj_free (snd x) = true
  end.
(** The decoder of one member. *)
Definition memberh (fs : wfields) (x : (nat * bytes) * jv) (p : ptr) (h : heap) : hres :=
  match pick (c_fold C) (o_nofold O) (wnames fs) (key_of O (snd (fst x))) with
  | Some j => match nth_error fs j with Some y => wdech (snd y) (snd x) (padd p (snd (fst y))) h | None => HPan end
  | None => if o_unknown O then HErr (fst (fst x)) EUnknownField h else HOk h
  end.
Lemma members_cons fs x l p h : key_lexed s x ->
  members_h C O (wnames fs) (map (fun x => (snd (fst x), wdech (snd x))) fs) (x :: l) p h =
  hbind (memberh fs x p h) (members_h C O (wnames fs) (map (fun x => (snd (fst x), wdech (snd x))) fs) l p).
Proof.
  intros [_ K2]. cbn [members_h]. rewrite unesc_ok by exact K2. cbn [hlift]. unfold memberh. destruct (pick _ _ _ _) as [j|].
  - rewrite nth_error_map. destruct (nth_error fs j) as [y|]; reflexivity.
  - destruct (o_unknown O); reflexivity.
Qed.
Lemma member_one i z fs p k D h x tl : Forall (fun x => wvalue_ok (snd x)) fs -> struct_ctx i z fs p D -> key_lexed s x -> lexed s (snd x) -> mfine fs x ->
  skipn k toks = Tok KKey (fst (fst x)) (fst (fst x) + length (snd (fst x)) + 2) 0 :: flat (S k) (snd x) ++ tl ->
  match tl with [] => False | t :: _ => tk_ty t = KKey \/ tk_ty t = KObjEnd end ->
  match memberh fs x p h with
  | HOk h' => exists D', reach (St i k D h) (Next (St i (S k + ntok (snd x)) D' h')) /\ struct_ctx i z fs p D' /\
      forall j, ~ (i < j < i + S (dlens (wshape fs))) -> D' j = D j
  | HErr idx e h' => exists y, reach (St i k D h) (Fail idx e y) /\ hp y = h'
  | HPan => reach (St i k D h) Panic
  | HCor => reach (St i k D h) Corrupt
  end.
Proof.
  intros IH Cc Kx Lx Cx E Tl. pose proof (member_key i z fs p k D h x _ Cc Kx E) as ST. unfold mfine, memberh in *.
  apply at_next in E as (_ & Lt & E).
  destruct (pick _ _ _ _) as [q|] eqn:Pq.
  - pose proof (pick_lt _ _ _ _ _ Pq) as Lq. unfold wnames in Lq. rewrite map_length in Lq.
    destruct (nth_error fs q) as [y|] eqn:Ny; [|apply nth_error_None in Ny; lia].
    rewrite nth_error_map, Ny in Cx. cbn [option_map] in Cx.
    destruct (member_at i z fs p D q y Cc Ny) as (idx & fy & Nf & Fy & Hy & Py & Off & Dst & G1 & G2 & Aim').
    rewrite Nf in ST. cbn [snd] in ST.
    assert (Vy : wvalue_ok (snd y)) by (rewrite Forall_forall in IH; apply IH; eapply nth_error_In; eauto).
    pose proof (Vy (snd (fst y) =? 0)%Z idx (S k) (snd x) D h _ Fy (proj1 (proj2 Cc)) (fun Q => eq_trans Off (proj1 (Z.eqb_eq _ _) Q)) Lx Cx E) as V.
    rewrite Dst in V.
    destruct (wdech (snd y) (snd x) (padd p (snd (fst y))) h) as [h1|ei ee h1| |].
    + destruct V as (D2 & R & Cm2 & A2).
      assert (Cc2 : struct_ctx i z fs p D2).
      { split; [apply Cc|]. split; [exact Cm2|]. intros a Ha. rewrite (Aim' D2 A2 a Ha). apply Cc, Ha. }
      rewrite (member_up i z fs p D2 idx fy _ _ Cc2 Hy Py) in R. exists D2. split; [eapply reach_more; eauto|]. split; [exact Cc2|].
      intros j Hj. apply A2. lia.
    + destruct V as (yy & R & V). exists yy. split; [eapply reach_more; eauto|exact V].
    + eapply reach_more; eauto.
    + eapply reach_more; eauto.
  - destruct (o_unknown O) eqn:U.
    { eexists. split; [apply reach_one; [exact Lt|exact ST]|reflexivity]. }
    destruct Cx as [Cx|Cx]; [discriminate|].
    rewrite E, (skip_unknown_flat C) in ST by exact Cx.
    assert (Sk : skip_unknown 0 tl = Some 0).
    { destruct tl as [|t tl]; [destruct Tl|]. cbn [skip_unknown]. destruct Tl as [-> | ->]; reflexivity. }
    rewrite Sk in ST. cbn [option_map] in ST. rewrite Nat.add_0_r in ST.
    exists D. split; [apply reach_one; [exact Lt|exact ST]|]. split; [exact Cc|reflexivity].
Qed.

Lemma struct_value z fs : Forall (fun x => wvalue_ok (snd x)) fs -> wvalue_ok (WStruct z fs).
Proof.
  intros IH b i k v D h rest Ft Cm _ L Cv E. destruct (struct_start i z fs D Ft Cm) as (f & Hf & T & Cc & Out).
  destruct (scalar_jv v) eqn:Sv; [apply (outer_scalar i k v D h rest (WStruct z fs) f I I Hf T Cm L Sv E)|].
  pose proof (at_lt C _ _ _ _ E) as Lt.
  destruct v as [| | | | |ia ja l|ia ja l]; try discriminate.
  { apply wends_one; [exact Lt|exact Cm|]. rewrite (step_arr C O stk s toks _ _ _ _ _ _ _ _ _ Hf E). unfold arr_tok. rewrite T. reflexivity. }
  cbn [Mixed.wctl Mixed.wdech flatt] in *. fold (wshape fs). rewrite dlen_struct.
  pose proof (step_obj C O stk s toks _ _ D h _ _ _ _ _ Hf E) as ST. unfold obj_tok in ST. rewrite T in ST. cbn [tk_n hp dy si ti] in ST.
  apply lexed_obj in L as (_ & _ & _ & L).
  destruct l as [|x0 l0].
  { cbn [members_h]. cbn [length Nat.eqb] in ST. apply wends_one; [exact Lt|exact Cm|]. exact ST. }
  set (l := x0 :: l0) in *. change (Nat.eqb (length l) 0) with false in ST. cbv iota in ST.
  eapply wends_step; [exact Lt|exact ST|]. cbn [goto_ti with_dy si ti dy hp].
  rewrite flat_obj in E. cbn [app] in E. rewrite <- app_assoc in E. apply at_next in E as (_ & _ & E).
  rewrite ntok_obj. replace (k + (2 + ntokm l)) with (S k + ntokm l + 1) by lia.
  set (N := S (dlens (wshape fs))) in *. set (p := dst D i) in *.
  assert (Loop : forall l k D1 h e, struct_ctx i z fs p D1 ->
    (forall j, ~ (i < j < i + N) -> D1 j = D j) ->
    Forall (fun x => key_lexed s x /\ lexed s (snd x)) l -> Forall (mfine fs) l ->
    skipn k toks = flatm k l ++ Tok KObjEnd ja e 0 :: rest ->
    wends (St i k D1 h) i N (k + ntokm l + 1) D (members_h C O (wnames fs) (map (fun x => (snd (fst x), wdech (snd x))) fs) l p h)).
  { clear - IH Hf T W. induction l as [|x l IHl]; intros k D1 h e Cc Out L Cl E.
    - cbn [members_h flatm ntokm app] in *. exists D1. split; [|split; [apply Cc|exact Out]].
      destruct (step_obj_end C O stk s toks i k D1 h f (DStruct 0 (wshape fs)) ja e 0 rest Hf T (calm_ok _ (proj1 (proj2 Cc))) E) as [ST Lt].
      apply reach_one; [exact Lt|]. rewrite ST. repeat f_equal. lia.
    - apply Forall_cons_iff in L as [[Kx Lx] Ll]. apply Forall_cons_iff in Cl as [Cx Cl]. rewrite members_cons by exact Kx.
      cbn [flatm ntokm app] in *. rewrite <- app_assoc in E.
      pose proof (member_one i z fs p k D1 h x _ IH Cc Kx Lx Cx E ltac:(destruct l; cbn [flatm app tk_ty]; auto)) as M.
      apply at_next in E as (_ & _ & E). apply at_skip in E. rewrite flat_length in E. apply wends_hbind.
      destruct (memberh fs x p h) as [h1|ei ee h1| |]; try exact M. destruct M as (D2 & R & Cc2 & A2).
      eexists. split; [exact R|]. replace (k + (1 + ntok (snd x) + ntokm l) + 1) with (S k + ntok (snd x) + ntokm l + 1) by lia.
      apply IHl with (e := e); try assumption. intros j Hj. rewrite A2 by exact Hj. apply Out, Hj. }
  apply Loop with (e := k); assumption.
Qed.

(** Going through a pointer. *)
Lemma ptr_step i k v D h rest t f fe : nth_error stk i = Some f -> f_ty f = EPtr -> nth_error stk (S i) = Some fe -> f_size fe = dsize (flatt t) ->
  match v with JNull _ => False | _ => True end -> skipn k toks = flat k v ++ rest ->
  step (St i k D h) = on_ptr C stk (St i k D h).
Proof.
  intros Hf T He Se Nu E. pose proof (nth_skipn0 toks k) as N0. rewrite E in N0. unfold Machine.step. cbn [ti si]. rewrite <- N0. unfold fr. rewrite Hf.
  destruct v as [| | | | |ia ja l|ia ja l]; try contradiction; try rewrite flat_arr; try rewrite flat_obj;
    cbn [flat app nth_error tk_ty]; try destruct b; unfold arr_tok, obj_tok; rewrite T; reflexivity.
Qed.
Lemma ptr_null t i k q D h rest : wfits i (WPtr t) -> calm D -> skipn k toks = flat k (JNull q) ++ rest ->
  wends (St i k D h) i (dlen (flatt (WPtr t))) (k + 1) D (wdech (WPtr t) (JNull q) (dst D i) h).
Proof.
  intros ((f & Hf & T & _) & _) Cm E. cbn [flatt dt_et] in T. apply wends_one; [eapply at_lt; eauto|exact Cm|].
  cbn [flat app] in E. apply at_next in E as (Et & _ & _). unfold Machine.step. cbn [ti si]. rewrite Et. unfold fr. rewrite Hf, T. cbn [tk_ty].
  cbn [Mixed.wdech]. apply one_lift. rewrite Nat.add_1_r. reflexivity.
Qed.

Theorem mixed_reach t : wvalue_ok t.
Proof.
  induction t using wt_ind'.
  - intros b i k v D h rest F Cm _ L Cv E. apply ends_wends; [exact Cm|apply sub_frames; exact F|].
    exact (value_reach C O stk s toks d i k v On D h rest F (calm_ok _ Cm) L Cv E).
  - apply rec_value.
  - apply slice_value. assumption.
  - apply map_value. assumption.
  - intros b i k v D h rest F Cm _ L Cv E. destruct v; try contradiction. eapply ptr_null; eassumption.
  - apply struct_value. assumption.
Qed.
End Loop.


(** ** The whole call *)
Fixpoint lastly {A} (P Q : A -> Prop) (l : list A) : Prop :=
  match l with [] => True | [x] => Q x | x :: r => P x /\ lastly P Q r end.

Section Top.
Variables (C : cfg) (O : opts).
Notation wctl := (wctl C O).
(** The documents at the root.  Where only closing brackets of objects follow, the loop
    need not be in step any more: the last member of a struct or map may be a pointer
    that is not null, or a list of trees. *)
Fixpoint wlast (b : bool) (t : wt) (v : jv) {struct t} : Prop :=
  match t with
  | WSub d => lag_of C O d v <> None
  | WRec _ fs => rctln C O fs (height v) b b v
  | WPtr t => match v with JNull _ => True | _ => (Dt.dsize (c_w64 C) (flatt t) =? 0)%Z = false /\ wlast true t v end
  | WSlice (WRec z fs) =>
      match v with
      | JArr _ _ (v0 :: l) => rctln C O fs (height v0) true true v0 /\ Forall (fun v => rctln C O fs (height v) false false v) l
      | _ => True
      end
  | WSlice _ => wctl b t v
  | WMap _ t => match v with JObj _ _ l => lastly (fun x => wctl true t (snd x)) (fun x => wlast true t (snd x)) l | _ => True end
  | WStruct _ fs =>
      match v with
      | JObj _ _ l => lastly (mfine C O fs) (fun x : (nat * bytes) * jv =>
          match pick (c_fold C) (o_nofold O) (wnames fs) (key_of O (snd (fst x))) with
          | Some j =>
              match nth_error (map (fun y => wlast (snd (fst y) =? 0)%Z (snd y)) fs) j with
              | Some c => c (snd x)
              | None => True
              end
          | None => o_unknown O = true \/ obj_free (snd x) = true
          end) l
      | _ => True
      end
  end.
End Top.

(** The frames describe the type; no document is being decoded. *)
Definition wdescribes (w64 : bool) (stk : list frame) (t : wt) : Prop :=
  length stk = dlen (flatt t) /\ wfits w64 stk 0 t /\ linked stk 0 None 0 0.
Definition wrested (stk : list frame) (D : dyn) : Prop := calm stk D /\ forall j, d_dest (D j) = None.
Lemma wrested_fresh stk : wrested stk (dyn0 stk).
Proof. split; [|reflexivity]. intros j f Hf. unfold dyn0. cbn [d_rs d_off]. rewrite Hf. split; reflexivity. Qed.

Section Root.
Variables (C : cfg) (O : opts) (stk : list frame) (s : bytes) (toks : list token).
Let w64 := c_w64 C.
Let W := wb w64.
Notation step := (Machine.step C O stk s toks).
Notation reach := (Control.reach C O stk s toks).
Notation on_val_end := (Machine.on_val_end stk toks).
Notation calm := (calm stk).
Notation wdech := (wdech C O s).
Notation dsize := (Dt.dsize w64).
Notation wfits := (wfits w64 stk).
Notation wlast := (wlast C O).

(** Frames at which a closing bracket of an object does no harm. *)
Inductive safe : nat -> Prop :=
| safe_root j f : nth_error stk j = Some f -> f_ty f <> EMapRecur -> f_parent f = None -> safe j
| safe_in j f c g : nth_error stk j = Some f -> f_ty f <> EMapRecur -> f_parent f = Some c -> nth_error stk c = Some g -> c < j ->
    (f_ty g = EPtr /\ j = S c \/ f_ty g = EMap \/ f_ty g = EStruct \/ f_ty g = ESlice) -> safe c -> safe j.
Lemma safe_up j k D h : safe j -> calm D ->
  exists j' D', on_val_end (St j k D h) = Next (St j' k D' h) /\ safe j' /\ calm D' /\ D' 0 = D 0.
Proof.
  intros S Cm. pose proof S as S'. unfold Machine.on_val_end. cbn [si]. unfold fr. destruct S as [j f Hf Tf Pf|j f c g Hf Tf Pf Hg Lc Tg S]; rewrite Hf, Pf.
  - exists j, D. auto.
  - rewrite Hg. destruct Tg as [[Tg ->]|[Tg|[Tg|Tg]]]; rewrite Tg.
    + exists c, D. auto.
    + exists c, D. auto.
    + exists c, D. auto.
    + eexists j, _. split; [reflexivity|]. split; [exact S'|]. cbn [dy]. split.
      * eapply calm_elem; [exact Cm|exact Hf|exists c, g; auto|auto].
      * unfold upd_d. destruct (Nat.eqb_spec 0 j); [lia|reflexivity].
Qed.

Definition wfinishes (x : st) (r : hres) : Prop :=
  match r with
  | HOk h => exists y, (ti y = length toks /\ hp y = h /\ dy y 0 = dy x 0 /\ calm (dy y)) /\ reach x (Next y)
  | HErr idx e h => exists y, reach x (Fail idx e y) /\ hp y = h
  | HPan => reach x Panic
  | HCor => reach x Corrupt
  end.
Lemma wfinishes_reach x x' r : reach x (Next x') -> dy x' 0 = dy x 0 -> wfinishes x' r -> wfinishes x r.
Proof.
  intros E D0 F. destruct r; cbn in *.
  - destruct F as (y & (A & B & G & H) & R). exists y. rewrite <- D0. split; [auto|]. eapply reach_then; eauto.
  - destruct F as (y & R & B). exists y. split; [|exact B]. eapply reach_then; eauto.
  - eapply reach_then; eauto.
  - eapply reach_then; eauto.
Qed.
Lemma wfinishes_step x x' r : ti x < length toks -> step x = Next x' -> dy x' 0 = dy x 0 -> wfinishes x' r -> wfinishes x r.
Proof. intros L E. apply wfinishes_reach. apply reach_one; assumption. Qed.

Definition closing (l : list token) : Prop := Forall (fun t => tk_ty t = KObjEnd) l.
Lemma absorb rest : forall j k D h, skipn k toks = rest -> closing rest -> k <= length toks -> safe j -> calm D ->
  exists y, (ti y = length toks /\ hp y = h /\ dy y 0 = D 0 /\ calm (dy y)) /\ (y = St j k D h \/ reach (St j k D h) (Next y)).
Proof.
  induction rest as [|t rest IH]; intros j k D h E Cl Hk Sj Cm.
  - exists (St j k D h). split; [|left; reflexivity]. apply (f_equal (@length token)) in E. rewrite skipn_length in E. cbn in *. split; [lia|auto].
  - apply Forall_cons_iff in Cl as [Ct Cl]. apply at_next in E as (Et & Lt & E).
    destruct (safe_up j (S k) D h Sj Cm) as (j' & D' & Up & S' & Cm' & D0).
    assert (ST : step (St j k D h) = Next (St j' (S k) D' h)).
    { rewrite <- Up. assert (Hf : exists f, nth_error stk j = Some f /\ f_ty f <> EMapRecur) by (destruct Sj; eauto). destruct Hf as (f & Hf & Tf).
      unfold Machine.step. cbn [ti si]. rewrite Et. unfold fr. rewrite Hf, Ct. unfold obj_end_tok, on_recur_obj_end. cbn [goto_ti si ti dy hp]. unfold fr.
      rewrite Hf, (proj1 (Cm j f Hf)). destruct (f_ty f); congruence || reflexivity. }
    destruct (IH j' (S k) D' h E Cl Lt S' Cm') as (y & (A & B & G & H) & R). exists y. rewrite G, D0. split; [auto|]. right.
    destruct R as [-> |R]; [apply reach_one; assumption|eapply reach_more; eauto].
Qed.
Lemma settle x j k D h rest : reach x (Next (St j k D h)) -> D 0 = dy x 0 -> skipn k toks = rest -> closing rest -> k <= length toks -> safe j -> calm D ->
  wfinishes x (HOk h).
Proof.
  intros R D0 E Cl Hk Sj Cm. destruct (absorb rest j k D h E Cl Hk Sj Cm) as (y & (A & B & G & H) & Q). exists y. rewrite <- D0.
  split; [auto|]. destruct Q as [-> |Q]; [exact R|eapply reach_then; eauto].
Qed.
Lemma flat_le k v rest : skipn k toks = flat k v ++ rest -> k + ntok v <= length toks.
Proof.
  intros E. pose proof (ntok_pos v). apply (f_equal (@length token)) in E. rewrite skipn_length, app_length, flat_length in E. lia.
Qed.
Lemma wends_finishes i n D k v h r rest : safe i -> skipn k toks = flat k v ++ rest -> closing rest ->
  wends C O stk s toks (St i k D h) i n (k + ntok v) D r -> wfinishes (St i k D h) r.
Proof.
  intros Si E Cl H. destruct r; try exact H. destruct H as (D' & R & Cm & A).
  destruct (safe_up i (k + ntok v) D' h0 Si Cm) as (j & D2 & Up & Sj & Cm2 & D0). rewrite Up in R.
  pose proof (flat_le _ _ _ E) as Le. apply at_skip in E. rewrite flat_length in E.
  assert (Z : D' 0 = D 0) by (apply A; lia).
  eapply settle; [exact R|cbn [dy]; congruence|exact E|exact Cl|exact Le|exact Sj|exact Cm2].
Qed.
Lemma ends_finishes q i d D k v h rest r : safe i -> calm D -> fits w64 stk i d -> lag_of C O d v = Some q -> skipn k toks = flat k v ++ rest -> closing rest ->
  ends C O stk s toks q (St i k D h) i (dlen d) (k + ntok v) D r -> wfinishes (St i k D h) r.
Proof.
  intros Si Cm F Lg E Cl H. destruct r; try exact H. destruct H as (D' & R & Dk & A).
  assert (Cm' : calm D').
  { eapply calm_keep; [exact Cm|exact Dk|]. intros j f Hj T. apply A. intros Q. exact (sub_frames C stk i d F j f Q Hj T). }
  assert (Z : D' 0 = D 0) by (apply A; lia).
  pose proof (flat_le _ _ _ E) as Le. pose proof E as E'. apply at_skip in E'. rewrite flat_length in E'.
  destruct q; cbn [fin] in R.
  - destruct (safe_up i (k + ntok v) D' h0 Si Cm') as (j & D2 & Up & Sj & Cm2 & D0). rewrite Up in R.
    eapply settle; [exact R|cbn [dy]; congruence|exact E'|exact Cl|exact Le|exact Sj|exact Cm2].
  - eapply settle; [exact R|cbn [dy]; congruence|exact E'|exact Cl|exact Le|exact Si|exact Cm'].
  - destruct (safe_up i (pred (k + ntok v)) D' h0 Si Cm') as (j & D2 & Up & Sj & Cm2 & D0). rewrite Up in R.
    destruct (early_last C O toks k v d _ Lg E) as (j1 & E2 & Sk).
    eapply settle; [exact R|cbn [dy]; congruence|exact E2| |lia|exact Sj|exact Cm2]. constructor; [reflexivity|exact Cl].
Qed.

Definition wlast_ok (t : wt) : Prop := forall b i k v D h rest,
  wfits i t -> safe i -> calm D -> (b = true -> d_off (D i) = 0%Z) -> lexed s v -> wlast b t v -> skipn k toks = flat k v ++ rest -> closing rest ->
  wfinishes (St i k D h) (wdech t v (dst D i) h).
Lemma plain_last t : (forall b v, wlast b t v -> wctl C O b t v) -> wlast_ok t.
Proof.
  intros H b i k v D h rest Ft Si Cm Z L Cv E Cl. eapply wends_finishes; [exact Si|exact E|exact Cl|].
  exact (mixed_reach C O stk s toks t b i k v D h rest Ft Cm Z L (H b v Cv) E).
Qed.

Lemma list_last z fs : wlast_ok (WSlice (WRec z fs)).
Proof.
  intros b i k v D h rest Ft Si Cm Z L Cv E Cl.
  assert (Plain : wctl C O b (WSlice (WRec z fs)) v -> wfinishes (St i k D h) (wdech (WSlice (WRec z fs)) v (dst D i) h)).
  { intros Cv'. eapply wends_finishes; [exact Si|exact E|exact Cl|]. exact (mixed_reach C O stk s toks _ b i k v D h rest Ft Cm Z L Cv' E). }
  destruct v as [| | | | |ia ja l|ia ja l]; try (apply Plain; exact I).
  destruct l as [|v0 l0]; [apply Plain; left; reflexivity|]. clear Plain. cbn [Mixed.wlast] in Cv.
  pose proof Ft as (Fe & (f & Hf & T & Sz & _) & (Ff & fe & Rf) & fe' & He' & Pe & Oe & Ce).
  pose proof Rf as (He & Te & Se & Ffl). rewrite He in He'. injection He' as <-. cbn [flatt dt_et] in T, Fe. rewrite Fe in T.
  assert (EF : Control.elem_frame stk fe) by (exists i, f; auto).
  pose proof (flat_le _ _ _ E) as Le. pose proof (at_lt C _ _ _ _ E) as Lt.
  change (wdech (WSlice (WRec z fs)) (JArr ia ja (v0 :: l0)) (dst D i) h) with
    (slice_h C (wdech (WRec z fs)) (Dt.dsize (c_w64 C) (flatt (WRec z fs))) (isElemComposite (dt_et (flatt (WRec z fs)))) (v0 :: l0) (dst D i) h).
  pose proof (step_arr C O stk s toks _ _ D h _ _ _ _ _ Hf E) as ST. unfold arr_tok in ST. rewrite T in ST. cbn [tk_n] in ST.
  unfold fr in ST. cbn [si ti dy hp] in ST. rewrite He in ST.
  apply lexed_arr in L as (_ & _ & _ & L). unfold slice_h.
  change (Nat.eqb (length (v0 :: l0)) 0) with false in ST. cbv iota in ST. cbv iota.
  rewrite Te, Se in ST. change (isElemComposite EStructRecur) with true in ST. change (isElemComposite (dt_et (flatt (WRec z fs)))) with true.
  change (Dt.dsize (c_w64 C) (flatt (WRec z fs))) with z.
  destruct (grow_slice C h (dst D i) z (Z.of_nat (length (v0 :: l0))) true) as [[a h1]| |];
    cbn [lift hlift] in *; try (apply reach_one; [exact Lt|exact ST]).
  eapply wfinishes_step; [exact Lt|exact ST| |].
  { cbn [dy]. unfold upd_d. destruct (Nat.eqb_spec 0 (S i)); [lia|reflexivity]. }
  rewrite flat_arr in E. cbn [app] in E. rewrite <- app_assoc in E. apply at_next in E as (_ & _ & E).
  assert (Sj : safe (S i)) by (apply (safe_in (S i) fe i f); try assumption; try lia; [congruence|auto]).
  assert (One : forall bb w m k D1 h rest, calm D1 -> d_dest (D1 (S i)) = Some a -> d_off (D1 (S i)) = (m * z)%Z -> (bb = true -> m = 0%Z) ->
    lexed s w -> rctln C O fs (height w) bb bb w -> skipn k toks = flat k w ++ rest ->
    match wdech (WRec z fs) w (padd (Some a) (m * z)) h with
    | HOk h' => exists D', reach (St (S i) k D1 h) (Next (St (S i) (k + ntok w) D' h')) /\ calm D' /\ d_dest (D' (S i)) = Some a /\
        d_off (D' (S i)) = ((m + 1) * z)%Z /\ D' 0 = D1 0
    | HErr idx e h' => exists y, reach (St (S i) k D1 h) (Fail idx e y) /\ hp y = h'
    | HPan => reach (St (S i) k D1 h) Panic
    | HCor => reach (St (S i) k D1 h) Corrupt
    end).
  { intros bb w m k1 D1 h' rest1 Cm1 De Do Z0 Lw Cw E1.
    pose proof (mixed_reach C O stk s toks (WRec z fs) bb (S i) k1 w D1 h' rest1 (conj Ff (ex_intro _ fe Rf)) Cm1) as V.
    specialize (V ltac:(intros Q; rewrite Do, (Z0 Q); reflexivity) Lw Cw E1). unfold dst in V. rewrite De, Do in V.
    destruct (wdech (WRec z fs) w (padd (Some a) (m * z)) h') as [h2|ei ee h2| |]; try exact V.
    destruct V as (D2 & R & Cm2 & A2). assert (De2 : D2 (S i) = D1 (S i)) by (apply A2; lia).
    assert (OV : on_val_end (St (S i) (k1 + ntok w) D2 h2) =
         Next (St (S i) (k1 + ntok w) (upd_d D2 (S i) (fun d => set_doff (d_off d + z) d)) h2)).
    { unfold Machine.on_val_end. cbn [si]. unfold fr. rewrite He, Pe, Hf, T. cbn [dy ti hp]. rewrite Se. reflexivity. }
    rewrite OV in R. eexists. split; [exact R|]. split; [eapply calm_elem; eauto|]. unfold upd_d. rewrite Nat.eqb_refl, De2. cbn [set_doff d_dest d_off].
    split; [exact De|]. split; [rewrite Do; ring|]. destruct (Nat.eqb_spec 0 (S i)); [lia|]. apply A2. lia. }
  assert (Loop : forall l m k D1 h e, calm D1 -> d_dest (D1 (S i)) = Some a -> d_off (D1 (S i)) = (m * z)%Z ->
    Forall (lexed s) l -> Forall (fun v => rctln C O fs (height v) false false v) l ->
    skipn k toks = flats k l ++ Tok KArrEnd ja e 0 :: rest -> k + ntoks l + 1 <= length toks ->
    wfinishes (St (S i) k D1 h) (elems_h (wdech (WRec z fs)) z m l (Some a) h)).
  { clear - One Sj He Te Cl Hf T Pe EF Se W. induction l as [|w l IHl]; intros m k D1 h e Cm De Do L Cl' E Le.
    - cbn [elems_h flats app] in *. apply at_next in E as (Et & Lt & E).
      destruct (safe_up (S i) (S k) D1 h Sj Cm) as (j & D2 & Up & Sj2 & Cm2 & D0).
      assert (ST : step (St (S i) k D1 h) = Next (St j (S k) D2 h)).
      { rewrite <- Up. unfold Machine.step. cbn [ti si]. rewrite Et. unfold fr. rewrite He. cbn [tk_ty]. unfold arr_end_tok. cbn [goto_ti si ti dy hp].
        rewrite Te, (proj1 (Cm _ fe He)). reflexivity. }
      eapply settle; [apply reach_one; [exact Lt|exact ST]|cbn [dy]; exact D0|exact E|exact Cl|exact Lt|exact Sj2|exact Cm2].
    - cbn [elems_h flats ntoks] in *. rewrite <- app_assoc in E. apply Forall_cons_iff in L as [Lw Ll]. apply Forall_cons_iff in Cl' as [Cw Cl'].
      pose proof (One false w m k D1 h _ Cm De Do ltac:(discriminate) Lw Cw E) as V. apply at_skip in E. rewrite flat_length in E.
      destruct (wdech (WRec z fs) w (padd (Some a) (m * z)) h) as [h1|ei ee h1| |]; try exact V.
      destruct V as (D2 & R & Cm2 & De2 & Do2 & D0). cbn [hbind]. eapply wfinishes_reach; [exact R|exact D0|].
      apply IHl with (e := e); try assumption. lia. }
  cbn [elems_h flats ntoks] in *. rewrite <- app_assoc in E. apply Forall_cons_iff in L as [Lw Ll]. destruct Cv as [Cw Cv].
  rewrite ntok_arr in Le. cbn [ntoks] in Le.
  match goal with |- wfinishes {| si := _; ti := _; dy := ?X; hp := _ |} _ => set (D1 := X) in * end.
  pose proof (fun r => One true v0 0%Z (S k) D1 h1 r) as V.
  assert (Cm1 : calm D1) by (eapply calm_elem; eauto).
  specialize (V _ Cm1 ltac:(unfold D1, upd_d; rewrite Nat.eqb_refl; reflexivity) ltac:(unfold D1, upd_d; rewrite Nat.eqb_refl; reflexivity) (fun _ => eq_refl) Lw Cw E).
  apply at_skip in E. rewrite flat_length in E.
  destruct (wdech (WRec z fs) v0 (padd (Some a) (0 * z)) h1) as [h2|ei ee h2| |]; try exact V.
  destruct V as (D2 & R & Cm2 & De2 & Do2 & D0). cbn [hbind]. eapply wfinishes_reach; [exact R|exact D0|].
  apply Loop with (e := k); try assumption. lia.
Qed.

Lemma ptr_last t : wlast_ok t -> wlast_ok (WPtr t).
Proof.
  intros IH b i k v D h rest Ft Si Cm Z L Cv E Cl. pose proof (at_lt C _ _ _ _ E) as Lt.
  assert (Nu : match v with JNull _ => False | _ => True end \/ exists q, v = JNull q) by (destruct v; eauto).
  destruct Nu as [Nu|(q & ->)].
  2:{ eapply wends_finishes; [exact Si|exact E|exact Cl|]. exact (ptr_null C O stk s toks t i k q D h rest Ft Cm E). }
  assert (Cv' : (Dt.dsize (c_w64 C) (flatt t) =? 0)%Z = false /\ wlast true t v) by (destruct v; try contradiction; exact Cv). clear Cv.
  destruct Cv' as [Z0 Cv].
  destruct Ft as ((f & Hf & T & _) & Fd & fe & He & Pe & Oe & _). cbn [flatt dt_et] in T.
  destruct (wfits_head _ _ _ _ Fd) as (fe' & He' & Te & Se). rewrite He in He'. injection He' as <-.
  pose proof (ptr_step C O stk s toks i k v D h rest t f fe Hf T He Se Nu E) as ST.
  unfold on_ptr in ST. unfold fr in ST. cbn [si hp dy ti] in ST. rewrite He, Se in ST. fold w64 in Z0, ST. rewrite Z0 in ST.
  assert (Ed : wdech (WPtr t) v (dst D i) h = let '(a, h) := malloc h (dsize (flatt t)) in hlift (store h (dst D i) W (CPtr a)) (fun h => wdech t v (Some a) h)).
  { cbn [Mixed.wdech]. fold w64. rewrite Z0. clear - Nu. destruct v; try contradiction; reflexivity. }
  rewrite Ed. clear Ed. destruct (malloc h (dsize (flatt t))) as [a h0]. change (wb w64) with W in ST.
  destruct (store h0 (dst D i) W (CPtr a)) as [h1| |]; cbn [lift hlift] in *; try (apply reach_one; [exact Lt|exact ST]).
  eapply wfinishes_step; [exact Lt|exact ST| |].
  { cbn [dy]. unfold upd_d. destruct (Nat.eqb_spec 0 (S i)); [lia|reflexivity]. }
  set (D' := upd_d D (S i) (set_dest (Some a))) in *.
  assert (Cm' : calm D') by (apply calm_dest, Cm).
  assert (Off : d_off (D' (S i)) = 0%Z).
  { destruct (Cm' _ fe He) as [_ Q]. rewrite Q, Oe; [reflexivity|].
    intros (pp & fp & Q1 & Q2 & Q3). rewrite Pe in Q1. injection Q1 as <-. rewrite Hf in Q2. injection Q2 as <-. rewrite T in Q3. destruct Q3; discriminate. }
  assert (Dst : dst D' (S i) = Some a).
  { unfold dst. rewrite Off. unfold D', upd_d. rewrite Nat.eqb_refl. cbn [set_dest d_dest]. apply padd0. }
  assert (Sj : safe (S i)).
  { apply (safe_in (S i) fe i f); try assumption; try lia; [|auto]. rewrite Te. apply wet_not_map. }
  pose proof (IH true (S i) k v D' h1 rest Fd Sj Cm' (fun _ => Off) L Cv E Cl) as Q. rewrite Dst in Q. exact Q.
Qed.

Lemma map_last kt t : wlast_ok t -> wlast_ok (WMap kt t).
Proof.
  intros IH b i k v D h rest Ft Si Cm Z L Cv E Cl. pose proof (at_lt C _ _ _ _ E) as Lt. pose proof (flat_le _ _ _ E) as Le.
  assert (Plain : wctl C O b (WMap kt t) v -> wfinishes (St i k D h) (wdech (WMap kt t) v (dst D i) h)).
  { intros Cv'. eapply wends_finishes; [exact Si|exact E|exact Cl|]. exact (mixed_reach C O stk s toks _ b i k v D h rest Ft Cm Z L Cv' E). }
  destruct v as [| | | | |ia ja l|ia ja l]; try (apply Plain; exact I).
  destruct l as [|x0 l0]; [apply Plain; constructor|]. clear Plain.
  pose proof Ft as ((f & Hf & T & Sz & _ & Vf) & _ & Fd & fv & Hv & Pv & _). cbn [flatt dt_et] in T, Vf.
  destruct (wfits_head _ _ _ _ Fd) as (fv' & Hv' & Tv & _). rewrite Hv in Hv'. injection Hv' as <-.
  cbn [Mixed.wlast Mixed.wdech flatt] in *.
  pose proof (step_obj C O stk s toks _ _ D h _ _ _ _ _ Hf E) as ST. unfold obj_tok in ST. rewrite T in ST. cbn [tk_n hp dy si ti] in ST.
  apply lexed_obj in L as (_ & _ & _ & L). fold w64.
  destruct (init_map C h (dst D i)) as [h0| |]; cbn [lift hlift] in *; try (apply reach_one; [exact Lt|exact ST]).
  set (l := x0 :: l0) in *. change (Nat.eqb (length l) 0) with false in ST. cbv iota in ST.
  eapply wfinishes_step; [exact Lt|exact ST|reflexivity|].
  rewrite flat_obj in E. cbn [app] in E. rewrite <- app_assoc in E. apply at_next in E as (_ & _ & E). rewrite ntok_obj in Le.
  assert (Sj : safe (S (S i))).
  { apply (safe_in (S (S i)) fv i f); try assumption; try lia; [|auto]. rewrite Tv. apply wet_not_map. }
  assert (Nl : l <> []) by discriminate.
  assert (Loop : forall l k D1 h e, l <> [] -> calm D1 -> dst D1 i = dst D i ->
    Forall (fun x => key_lexed s x /\ lexed s (snd x)) l -> lastly (fun x => wctl C O true t (snd x)) (fun x => wlast true t (snd x)) l ->
    skipn k toks = flatm k l ++ Tok KObjEnd ja e 0 :: rest ->
    wfinishes (St i k D1 h) (entries_h C kt (wdech t) (is_struct (flatt t)) (dsize (flatt t)) l (dst D i) h)).
  { clear - IH Hf T Ft Fd Sj Cl W. induction l as [|x l IHl]; intros k D1 h e Nl Cm Ds L Ct E; [congruence|].
    cbn [entries_h flatm ntokm app] in *. rewrite <- app_assoc in E. apply Forall_cons_iff in L as [[Kx Lx] Ll].
    assert (Cc : map_ctx C stk i kt t D1) by (split; assumption).
    pose proof (entry_key C O stk s toks i kt t k D1 h x _ Cc Kx E) as ST. rewrite Ds in ST.
    apply at_next in E as (Et & Lt & E). fold w64 in ST.
    change (wb (c_w64 C)) with W. change (wb w64) with W in ST. destruct (let* c := load h (dst D i) W in as_map c) as [m| |]; cbn [lift hlift] in *;
      try (apply reach_one; [exact Lt|exact ST]).
    destruct (key_h C kt (fst (fst x)) (snd (fst x))) as [[[key|]|er]| |]; cbn [lift hlift] in *;
      try (apply reach_one; [exact Lt|exact ST]);
      try (eexists; split; [apply reach_one; [exact Lt|exact ST]|reflexivity]).
    destruct (mapassign h m key (dsize (flatt t))) as [[a h1]| |]; cbn [lift hlift] in *;
      try (apply reach_one; [exact Lt|exact ST]).
    destruct (if is_struct (flatt t) then clear h1 (Some a) (dsize (flatt t)) else Ok h1) as [h2| |]; cbn [lift hlift] in *;
      try (apply reach_one; [exact Lt|exact ST]).
    eapply wfinishes_step; [exact Lt|exact ST| |].
    { cbn [dy]. unfold upd_d. destruct (Nat.eqb_spec 0 (S (S i))); [lia|reflexivity]. }
    destruct (entry_at C stk i kt t D1 a Cc) as (Cm' & Off & Dst). set (D' := upd_d D1 (S (S i)) (set_dest (Some a))) in *.
    destruct l as [|x1 l1].
    - (* the last entry *)
      cbn [lastly entries_h flatm ntokm app] in *.
      pose proof (IH true (S (S i)) (S k) (snd x) D' h2 _ Fd Sj Cm' (fun _ => Off) Lx Ct E) as V. rewrite Dst in V.
      specialize (V ltac:(constructor; [reflexivity|exact Cl])).
      destruct (wdech t (snd x) (Some a) h2); exact V.
    - destruct Ct as [Cx Ct].
      pose proof (mixed_reach C O stk s toks t true (S (S i)) (S k) (snd x) D' h2 _ Fd Cm' (fun _ => Off) Lx Cx E) as V. rewrite Dst in V.
      apply at_skip in E. rewrite flat_length in E.
      destruct (wdech t (snd x) (Some a) h2) as [h3|ei ee h3| |]; try exact V. cbn [hbind].
      destruct V as (D2 & R & Cm2 & A2). rewrite (entry_up C stk toks i kt t D2 _ _ (conj Ft Cm2)) in R.
      assert (DD : forall j, j <= i -> D2 j = D1 j).
      { intros j Hj. rewrite A2 by lia. unfold D', upd_d. destruct (Nat.eqb_spec j (S (S i))); [lia|reflexivity]. }
      eapply wfinishes_reach; [exact R| |].
      { cbn [dy]. rewrite DD by lia. unfold D', upd_d. destruct (Nat.eqb_spec 0 (S (S i))); [lia|reflexivity]. }
      apply IHl with (e := e); try assumption; [discriminate|]. unfold dst in *. rewrite DD by lia. exact Ds. }
  apply Loop with (e := k); try assumption; reflexivity.
Qed.

Lemma struct_last z fs : Forall (fun x => wlast_ok (snd x)) fs -> wlast_ok (WStruct z fs).
Proof.
  intros IH b i k v D h rest Ft Si Cm Z L Cv E Cl. pose proof (at_lt C _ _ _ _ E) as Lt.
  assert (Plain : wctl C O b (WStruct z fs) v -> wfinishes (St i k D h) (wdech (WStruct z fs) v (dst D i) h)).
  { intros Cv'. eapply wends_finishes; [exact Si|exact E|exact Cl|]. exact (mixed_reach C O stk s toks _ b i k v D h rest Ft Cm Z L Cv' E). }
  destruct v as [| | | | |ia ja l|ia ja l]; try (apply Plain; exact I).
  destruct l as [|x0 l0]; [apply Plain; constructor|]. clear Plain.
  destruct (struct_start C stk i z fs D Ft Cm) as (f & Hf & T & Cc & Out).
  cbn [Mixed.wlast Mixed.wdech flatt] in *.
  pose proof (step_obj C O stk s toks _ _ D h _ _ _ _ _ Hf E) as ST. unfold obj_tok in ST. rewrite T in ST. cbn [tk_n hp dy si ti] in ST.
  apply lexed_obj in L as (_ & _ & _ & L).
  set (l := x0 :: l0) in *. change (Nat.eqb (length l) 0) with false in ST. cbv iota in ST.
  eapply wfinishes_step; [exact Lt|exact ST|cbn [goto_ti with_dy dy]; apply Out; lia|]. cbn [goto_ti with_dy si ti dy hp].
  rewrite flat_obj in E. cbn [app] in E. rewrite <- app_assoc in E. apply at_next in E as (_ & _ & E).
  set (p := dst D i) in *.
  assert (Nl : l <> []) by discriminate.
  assert (All : Forall (fun x => wvalue_ok C O stk s toks (snd x)) fs) by (apply Forall_forall; intros; apply mixed_reach).
  match type of Cv with lastly ?P ?Q _ => set (PP := P) in *; set (QQ := Q) in * end.
  assert (Loop : forall l k D1 h e, l <> [] -> struct_ctx C stk i z fs p D1 ->
    Forall (fun x => key_lexed s x /\ lexed s (snd x)) l -> lastly PP QQ l ->
    skipn k toks = flatm k l ++ Tok KObjEnd ja e 0 :: rest ->
    wfinishes (St i k D1 h) (members_h C O (wnames fs) (map (fun x => (snd (fst x), wdech (snd x))) fs) l p h)).
  { clear - IH All Hf T Si Cl W. induction l as [|x l IHl]; intros k D1 h e Nl Cc L Ct E; [congruence|].
    apply Forall_cons_iff in L as [[Kx Lx] Ll]. rewrite members_cons by exact Kx.
    cbn [flatm ntokm app] in *. rewrite <- app_assoc in E.
    destruct l as [|x1 l1].
    - cbn [lastly flatm app] in Ct, E. unfold QQ in Ct.
      assert (Goal : wfinishes (St i k D1 h) (memberh C O s fs x p h)).
      { pose proof (member_key C O stk s toks i z fs p k D1 h x _ Cc Kx E) as ST. unfold memberh in *. pose proof E as E0. apply at_next in E as (_ & Lt & E).
        destruct (pick _ _ _ _) as [q|] eqn:Pq.
        - pose proof (pick_lt _ _ _ _ _ Pq) as Lq. unfold wnames in Lq. rewrite map_length in Lq.
          destruct (nth_error fs q) as [y|] eqn:Ny; [|apply nth_error_None in Ny; lia].
          rewrite nth_error_map, Ny in Ct. cbn [option_map] in Ct.
          destruct (member_at C stk i z fs p D1 q y Cc Ny) as (idx & fy & Nf & Fy & Hy & Py & Off & Dst & G1 & G2 & Aim').
          rewrite Nf in ST. cbn [snd] in ST.
          assert (Vy : wlast_ok (snd y)) by (rewrite Forall_forall in IH; apply IH; eapply nth_error_In; eauto).
          destruct (wfits_head _ _ _ _ Fy) as (fy' & Hy' & Tv & _). rewrite Hy in Hy'. injection Hy' as <-.
          assert (Sj : safe idx).
          { apply (safe_in idx fy i f); try assumption; try lia; [|auto]. rewrite Tv. apply wet_not_map. }
          eapply wfinishes_step; [exact Lt|exact ST|reflexivity|].
          rewrite <- Dst. eapply (Vy (snd (fst y) =? 0)%Z idx (S k) (snd x) D1 h _ Fy Sj (proj1 (proj2 Cc))); try eassumption.
          + intros Q. apply Z.eqb_eq in Q. congruence.
          + constructor; [reflexivity|exact Cl].
        - assert (Mf : mfine C O fs x) by (unfold mfine; rewrite Pq; exact Ct).
          pose proof (member_one C O stk s toks i z fs p k D1 h x _ All Cc Kx Lx Mf E0 (or_intror eq_refl)) as M.
          unfold memberh in M. rewrite Pq in M. pose proof (flat_le _ _ _ E) as Le. apply at_skip in E. rewrite flat_length in E.
          destruct (o_unknown O); [exact M|]. destruct M as (D2 & R & Cc2 & A2).
          eapply settle; [exact R|cbn [dy]; apply A2; lia|exact E| |exact Le|exact Si|apply Cc2]. constructor; [reflexivity|exact Cl]. }
      destruct (memberh C O s fs x p h); exact Goal.
    - destruct Ct as [Cx Ct].
      pose proof (member_one C O stk s toks i z fs p k D1 h x _ All Cc Kx Lx Cx E (or_introl eq_refl)) as M.
      apply at_next in E as (_ & _ & E). apply at_skip in E. rewrite flat_length in E.
      destruct (memberh C O s fs x p h) as [h1|ei ee h1| |]; try exact M. destruct M as (D2 & R & Cc2 & A2). cbn [hbind].
      eapply wfinishes_reach; [exact R|cbn [dy]; apply A2; lia|].
      apply IHl with (e := e); try assumption. discriminate. }
  apply Loop with (e := k); assumption.
Qed.

Theorem last_reach t : wlast_ok t.
Proof.
  induction t using wt_ind'.
  - intros b i k v D h rest F Si Cm _ L Cv E Cl. cbn [Mixed.wlast] in Cv. destruct (lag_of C O d v) as [q|] eqn:Lg; [|congruence].
    eapply ends_finishes; try eassumption. exact (value_reach C O stk s toks d i k v q D h rest F (calm_ok stk _ Cm) L Lg E).
  - apply plain_last. intros b v H. exact H.
  - destruct t; try (apply plain_last; intros b v H; exact H). apply list_last.
  - apply map_last. assumption.
  - apply ptr_last. assumption.
  - apply struct_last. assumption.
Qed.
End Root.

Section Call.
Variables (C : cfg) (O : opts) (stk : list frame) (s : bytes) (t : wt) (v : jv).
Let toks := flat 0 v.
(** The call of Decode. *)
Theorem decode_wdech D a h : wdescribes (c_w64 C) stk t -> wrested stk D -> lexed s v -> wlast C O true t v ->
  match wdech C O s t v (Some a) h with
  | HOk h' => exists D', Decode C O stk D s (TOk toks) (Some a) h = Ret (-1) None D' h' /\ wrested stk D'
  | HErr i e h' => exists D', Decode C O stk D s (TOk toks) (Some a) h = Ret (Z.of_nat i) (Some e) D' h'
  | HPan => Decode C O stk D s (TOk toks) (Some a) h = DPanics
  | HCor => Decode C O stk D s (TOk toks) (Some a) h = DCorrupts
  end.
Proof.
  intros (Len & Ft & f & Hf & Pf & Of & _) (Cm & Dn) L Cv.
  set (D0 := upd_d D 0 (set_dest (Some a))).
  assert (Cm0 : calm stk D0) by (apply calm_dest, Cm).
  assert (Off : d_off (D0 0) = 0%Z).
  { destruct (Cm0 0 f Hf) as [_ Q]. rewrite Q, Of; [reflexivity|]. intros (p & fp & Pp & _). congruence. }
  assert (Hd : dst D0 0 = Some a) by (unfold dst; rewrite Off; unfold D0, upd_d; cbn [Nat.eqb set_dest d_dest]; apply padd0).
  assert (At : skipn 0 toks = flat 0 v ++ []) by (rewrite app_nil_r; reflexivity).
  destruct (wfits_head _ _ _ _ Ft) as (f' & Hf' & Tf & _). rewrite Hf in Hf'. injection Hf' as <-.
  assert (Sf : safe stk 0) by (apply (safe_root stk 0 f Hf); [rewrite Tf; apply wet_not_map|exact Pf]).
  pose proof (last_reach C O stk s toks t true 0 0 v D0 h [] Ft Sf Cm0 (fun _ => Off) L Cv At (Forall_nil _)) as R. rewrite Hd in R.
  unfold Decode. fold D0.
  destruct (wdech C O s t v (Some a) h) as [h'|idx e h'| |].
  - destruct R as (y & (Ty & Hy & Dy & Cy) & R). apply reach_run in R as (n & R). specialize (R 0). cbn [cont] in R.
    assert (Ry : run C O stk s toks 0 y = RDone y).
    { cbn [run]. replace (ti y <? length toks) with false by (symmetry; apply Nat.ltb_ge; lia). reflexivity. }
    rewrite Ry in R. apply run_fuel_enough in R; try discriminate; try reflexivity; [|apply flat_ends].
    rewrite R. replace (d_dest (dy y 0)) with (Some a) by (rewrite Dy; reflexivity). rewrite Nat.eqb_refl, Z.eqb_refl. cbn [andb]. rewrite Hy.
    eexists. split; [reflexivity|]. split; [|reflexivity]. intros j g Hj. unfold clear_dests. cbn. apply Cy, Hj.
  - destruct R as (y & R & Hy). apply reach_run in R as (n & R). specialize (R 0). cbn [cont] in R.
    apply run_fuel_enough in R; try discriminate; try reflexivity; [|apply flat_ends]. rewrite R, Hy. eauto.
  - apply reach_run in R as (n & R). specialize (R 0). cbn [cont] in R.
    apply run_fuel_enough in R; try discriminate; try reflexivity; [|apply flat_ends]. rewrite R. reflexivity.
  - apply reach_run in R as (n & R). specialize (R 0). cbn [cont] in R.
    apply run_fuel_enough in R; try discriminate; try reflexivity; [|apply flat_ends]. rewrite R. reflexivity.
Qed.
End Call.

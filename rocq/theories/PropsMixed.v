(** C17, C26, C27, C28 for types that contain recursive structs: maps, slices, pointers and
    structs around them ([wt], Mixed.v).

    [wresolves] (MixedElab.v) relates the Go type to [wt], [wideal] (MixedSpec.v) is the
    decoding a user expects, [wactual] what the code computes, defects of the number and
    string parsers included, and [wrep] says that memory holds a value. *)
From Verif Require Import Base NumSpec StrSpec Types AppendType Token FloatLit Heap Machine Dt Dec Control Root Elab Rec Value Dval Sep Refine Refine2 Refine3 Typed Spec SpecProofs Main Parse World Elaborate RecSpec RecRefine RecElab PropsRefuted PropsRec Encodes PropsStrict Actual PropsAnyLeaf RecActual PropsRecAny Mixed MixedElab MixedSpec MixedRefine MixedTyped.
Open Scope Z_scope.

(** A decoder state reached from a new decoder by successful calls on documents of the
    class of the theorems, by calls with a nil destination and by calls on ill-formed
    texts.  (After an error inside a tree the code does not work: C28_refuted.) *)
Inductive wused (C : cfg) (t : wt) (stk : list frame) : dyn -> Prop :=
| wu_new : wused C t stk (dyn0 stk)
| wu_nil O D s tk h i e D' h' : wused C t stk D -> Decode C O stk D s tk None h = Ret i e D' h' -> wused C t stk D'
| wu_ill O D s j c a h i e D' h' : wused C t stk D -> Decode C O stk D s (TErr j c) a h = Ret i e D' h' -> wused C t stk D'
| wu_ok O D s v a h i D' h' : wused C t stk D -> json_text s v -> wlast C O true t v ->
    Decode C O stk D s (TOk (flat 0 v)) (Some a) h = Ret i None D' h' -> wused C t stk D'.

Record wdecoder_for (C : cfg) (E : env) (disallow : bool) (T : ty) (t : wt) (stk : list frame) (D : dyn) : Prop := {
  wdf_sizes : sizes_ok (c_w64 C) E;
  wdf_type : exists seen', wresolves (c_w64 C) E disallow [] T t seen';
  wdf_layout : wlayout (c_w64 C) t;
  wdf_new : exists fuel, append (c_w64 C) E disallow fuel [] T = AOk stk;
  wdf_used : wused C t stk D }.

Lemma wdecoder_describes C E dis T t stk D : wdecoder_for C E dis T t stk D -> wdescribes (c_w64 C) stk t.
Proof. intros [S (sn & R) _ (fuel & A) _]. exact (append_ok_wdescribes _ _ _ _ _ _ _ _ S R A). Qed.
Lemma wrested_clear stk D : wrested stk D -> wrested stk (clear_dests D).
Proof. intros [Cm _]. split; [|reflexivity]. intros j f Hj. apply (Cm j f Hj). Qed.
Lemma wrested_dest stk D a : wrested stk D -> wrested stk (clear_dests (upd_d D 0 (set_dest a))).
Proof.
  intros [Cm _]. split; [|reflexivity]. intros j f Hj. destruct (Cm j f Hj) as [C1 C2].
  unfold clear_dests, upd_d. destruct (Nat.eqb j 0); cbn; auto.
Qed.
Lemma wused_rested C t stk D : wdescribes (c_w64 C) stk t -> wused C t stk D -> wrested stk D.
Proof.
  intros Ds U. induction U as [|O D s tk h i e D' h' U IH E|O D s j c a h i e D' h' U IH E|O D s v a h i D' h' U IH J Ct E].
  - apply wrested_fresh.
  - injection E as _ _ <- _. apply wrested_clear, IH.
  - destruct a as [a|]; injection E as _ _ <- _; [apply wrested_dest, IH|apply wrested_clear, IH].
  - pose proof (decode_wdech C O stk s t v D a h Ds IH (json_text_lexed _ _ J) Ct) as Q.
    destruct (wdech C O s t v (Some a) h) as [h1|i1 e1 h1| |]; [destruct Q as (D1 & Q & R)|destruct Q as (D1 & Q)| |]; rewrite Q in E; try discriminate.
    injection E as _ <- _. exact R.
Qed.
Lemma wresolves_slow w64 E dis :
  sizes_ok w64 E ->
  (forall seen T t seen', wresolves w64 E dis seen T t seen' -> slow t) /\
  (forall seen fs ds seen', wresolves_fields w64 E dis seen fs ds seen' -> slows ds).
Proof.
  intros Sz. apply wresolves_mut; intros; try exact I; try assumption.
  - cbn [slow]. split; [|assumption]. eapply slow_elem with (disallow := dis); eassumption.
  - cbn [slows snd]. auto.
  - cbn [slows snd]. split; [|assumption]. match goal with H : wquoted _ = Some _ |- _ => apply wquoted_head in H as (d & d' & -> & -> & _) end. exact I.
  - cbn [slows snd]. auto.
Qed.
Lemma wdecoder_slow C E dis T t stk D : wdecoder_for C E dis T t stk D -> slow t.
Proof. intros [S (sn & R) _ _ _]. exact (proj1 (wresolves_slow _ _ _ S) _ _ _ _ R). Qed.

(** A variable of the type that holds the value [g]. *)
Definition wvariable (C : cfg) (t : wt) (h : heap) (a : addr) (g : gval) (F : list nat) : Prop :=
  wrep (c_w64 C) t h (Some a) g F /\ own h (Some a) F.
Notation wsize C t := (MixedSpec.tsize (c_w64 C) t).
Lemma wvariable_new C E dis T t stk D h a : wdecoder_for C E dis T t stk D ->
  (forall x, 0 <= x < wsize C t -> cellat h (Some a) x = Some CZero) -> own h (Some a) [] -> wvariable C t h a (wzero t) [].
Proof. intros Df Z0 Ow. split; [|exact Ow]. apply (nice_zero _ (nice_wmt (c_w64 C) t (wdf_layout _ _ _ _ _ _ _ Df))). exact Z0. Qed.

(** ** C26
    Missing for the full property: the documents excluded by [wlast] (Mixed.v) - for most
    of them the claim is false, see C26_refuted_nested, C26_refuted_list,
    C26_refuted_list_in_struct -, leaves on which the parsers are defective ([wsound]), and
    decoders that have failed before (C28_refuted). *)
Theorem C26_mixed_partial C O E dis T t stk D s v a h g F :
  wdecoder_for C E dis T t stk D -> json_text s v -> wlast C O true t v -> wsound C O t v -> wvariable C t h a g F ->
  match wideal C O s t v g with
  | VOk g' => exists D' h' F', Decode C O stk D s (TOk (flat 0 v)) (Some a) h = Ret (-1) None D' h' /\
      wvariable C t h' a g' F' /\ only h h' (Some a) (wsize C t) F F'
  | VErr i e g' => exists D' h' F', Decode C O stk D s (TOk (flat 0 v)) (Some a) h = Ret (Z.of_nat i) (Some e) D' h' /\
      wvariable C t h' a g' F' /\ only h h' (Some a) (wsize C t) F F'
  | VPan => False
  end.
Proof.
  intros Df J Ct S [R Ow]. pose proof (wdecoder_describes _ _ _ _ _ _ _ Df) as Ds. pose proof (json_text_lexed _ _ J) as L.
  pose proof (decode_wdech C O stk s t v D a h Ds (wused_rested _ _ _ _ Ds (wdf_used _ _ _ _ _ _ _ Df)) L Ct) as Q.
  pose proof (wdech_ideal C O s t (wdf_layout _ _ _ _ _ _ _ Df) (wdecoder_slow _ _ _ _ _ _ _ Df) v h (Some a) g F (conj L S) R Ow) as G.
  pose proof (wideal_typed C O s t v g L S (wrep_typed C t _ _ _ _ R)) as N.
  unfold gsim in G. destruct (wideal C O s t v g) as [g'|i e g'|]; [| |contradiction].
  - destruct G as (h' & E1 & F' & R' & O' & Y). rewrite E1 in Q. destruct Q as (D' & Q & _). exists D', h', F'. split; [exact Q|]. split; [split; assumption|exact Y].
  - destruct G as (h' & E1 & F' & R' & O' & Y). rewrite E1 in Q. destruct Q as (D' & Q). exists D', h', F'. split; [exact Q|]. split; [split; assumption|exact Y].
Qed.
(** What the code does, for all leaves. *)
Theorem C26_mixed_characterised_partial C O E dis T t stk D s v a h g F :
  wdecoder_for C E dis T t stk D -> json_text s v -> wlast C O true t v -> wvariable C t h a g F ->
  match wactual C O s t v g with
  | VOk g' => exists D' h' F', Decode C O stk D s (TOk (flat 0 v)) (Some a) h = Ret (-1) None D' h' /\
      wvariable C t h' a g' F' /\ only h h' (Some a) (wsize C t) F F'
  | VErr i e g' => exists D' h' F', Decode C O stk D s (TOk (flat 0 v)) (Some a) h = Ret (Z.of_nat i) (Some e) D' h' /\
      wvariable C t h' a g' F' /\ only h h' (Some a) (wsize C t) F F'
  | VPan => Decode C O stk D s (TOk (flat 0 v)) (Some a) h = DPanics
  end.
Proof.
  intros Df J Ct [R Ow]. pose proof (wdecoder_describes _ _ _ _ _ _ _ Df) as Ds. pose proof (json_text_lexed _ _ J) as L.
  pose proof (decode_wdech C O stk s t v D a h Ds (wused_rested _ _ _ _ Ds (wdf_used _ _ _ _ _ _ _ Df)) L Ct) as Q.
  pose proof (wdech_actual C O s t (wdf_layout _ _ _ _ _ _ _ Df) (wdecoder_slow _ _ _ _ _ _ _ Df) v h (Some a) g F L R Ow) as G.
  unfold gsim in G. destruct (wactual C O s t v g) as [g'|i e g'|].
  - destruct G as (h' & E1 & F' & R' & O' & Y). rewrite E1 in Q. destruct Q as (D' & Q & _). exists D', h', F'. split; [exact Q|]. split; [split; assumption|exact Y].
  - destruct G as (h' & E1 & F' & R' & O' & Y). rewrite E1 in Q. destruct Q as (D' & Q). exists D', h', F'. split; [exact Q|]. split; [split; assumption|exact Y].
  - rewrite G in Q. exact Q.
Qed.

(** ** C27: a new variable. *)
Theorem C27_mixed_new_partial C O E dis T t stk D s v a h :
  wdecoder_for C E dis T t stk D -> json_text s v -> wlast C O true t v -> wsound C O t v ->
  (forall x, 0 <= x < wsize C t -> cellat h (Some a) x = Some CZero) -> own h (Some a) [] ->
  exists i e D' h' F' g', Decode C O stk D s (TOk (flat 0 v)) (Some a) h = Ret i e D' h' /\ wvariable C t h' a g' F' /\
    match wideal C O s t v (wzero t) with
    | VOk g => i = -1 /\ e = None /\ g' = g
    | VErr i1 e1 g => i = Z.of_nat i1 /\ e = Some e1 /\ g' = g
    | VPan => False
    end.
Proof.
  intros Df J Ct S Z0 Ow. pose proof (wvariable_new _ _ _ _ _ _ _ _ _ Df Z0 Ow) as V.
  pose proof (C26_mixed_partial _ O _ _ _ _ _ _ _ _ _ _ _ _ Df J Ct S V) as Q.
  destruct (wideal C O s t v (wzero t)) as [g|i e g|]; [| |destruct Q]; destruct Q as (D' & h' & F' & Q & W & _).
  - exists (-1), None, D', h', F', g. split; [exact Q|]. split; [exact W|]. repeat split.
  - exists (Z.of_nat i), (Some e), D', h', F', g. split; [exact Q|]. split; [exact W|]. repeat split.
Qed.

(** ** C17 *)
Theorem C17_mixed_no_panic_partial C O E dis T t stk D s v a h g F :
  wdecoder_for C E dis T t stk D -> json_text s v -> wlast C O true t v -> wno_empty_number C O t v -> wvariable C t h a g F ->
  exists i e D' h' g' F', Decode C O stk D s (TOk (flat 0 v)) (Some a) h = Ret i e D' h' /\ wvariable C t h' a g' F' /\ only h h' (Some a) (wsize C t) F F'.
Proof.
  intros Df J Ct Ne V. pose proof (C26_mixed_characterised_partial C O E dis T t stk D s v a h g F Df J Ct V) as Q.
  pose proof (wactual_typed C O s t v g (json_text_lexed _ _ J) Ne (wrep_typed C t _ _ _ _ (proj1 V))) as N.
  destruct (wactual C O s t v g) as [g'|i e g'|]; [| |contradiction]; destruct Q as (D' & h' & F' & Q & V' & Y); do 3 eexists; exists h', g', F'; eauto.
Qed.

(** ** C28: the history of the decoder does not matter. *)
Theorem C28_mixed_partial C O E dis T t stk D1 D2 s v a1 a2 h1 h2 g F1 F2 :
  wdecoder_for C E dis T t stk D1 -> wdecoder_for C E dis T t stk D2 -> json_text s v -> wlast C O true t v ->
  wvariable C t h1 a1 g F1 -> wvariable C t h2 a2 g F2 ->
  (exists i e D1' D2' h1' h2' g' F1' F2',
    Decode C O stk D1 s (TOk (flat 0 v)) (Some a1) h1 = Ret i e D1' h1' /\ wvariable C t h1' a1 g' F1' /\
    Decode C O stk D2 s (TOk (flat 0 v)) (Some a2) h2 = Ret i e D2' h2' /\ wvariable C t h2' a2 g' F2') \/
  (Decode C O stk D1 s (TOk (flat 0 v)) (Some a1) h1 = DPanics /\ Decode C O stk D2 s (TOk (flat 0 v)) (Some a2) h2 = DPanics).
Proof.
  intros Df1 Df2 J Ct V1 V2.
  pose proof (C26_mixed_characterised_partial C O E dis T t stk D1 s v a1 h1 g F1 Df1 J Ct V1) as Q1.
  pose proof (C26_mixed_characterised_partial C O E dis T t stk D2 s v a2 h2 g F2 Df2 J Ct V2) as Q2.
  destruct (wactual C O s t v g) as [g'|i e g'|]; [left|left|right; auto];
    destruct Q1 as (D1' & h1' & F1' & Q1 & V1' & _); destruct Q2 as (D2' & h2' & F2' & Q2 & V2' & _); eexists _, _, D1', D2', h1', h2', g', F1', F2'; eauto.
Qed.

(** ** Types for which every document is in the class
    With unknown members disallowed: maps of maps ... of trees whose recursion goes through
    pointers, structs whose first field (at offset 0) may contain trees, slices of types
    without trees, and pointers at the root. *)
Section Every.
Variables (C : cfg) (O : opts).
Fixpoint wany_inside (b : bool) (t : wt) : bool :=
  match t with
  | WSub d => no_inner_ptr d
  | WRec _ fs => b && rany_document O fs
  | WSlice t => match t with WRec _ _ => false | _ => wany_inside false t end
  | WMap _ t => wany_inside true t
  | WPtr _ => false
  | WStruct _ fs => o_unknown O && forallb (fun x => wany_inside (snd (fst x) =? 0) (snd x)) fs
  end.
Fixpoint wany (t : wt) : bool :=
  match t with WPtr t => negb (wsize C t =? 0) && wany t | _ => o_unknown O && wany_inside true t end.
Lemma wctl_last t : forall b v, wctl C O b t v -> wlast C O b t v.
Proof.
  assert (La : forall A (P Q : A -> Prop) l, (forall x, In x l -> P x -> Q x) -> Forall P l -> lastly P Q l).
  { intros A P Q l. induction l as [|x [|y l] IH]; intros H F; [exact I| |]; apply Forall_cons_iff in F as [F1 F2].
    - cbn. apply H; [left; reflexivity|exact F1].
    - cbn [lastly]. split; [exact F1|]. apply IH; [intros z Hz; apply H; right; exact Hz|exact F2]. }
  induction t as [d|z fs|t IH|k t IH|t IH|z fs IH] using wt_ind'; intros b v H.
  - cbn in *. congruence.
  - exact H.
  - destruct t as [d|z fs|t|k t|t|z fs]; try exact H. cbn [wlast wctl] in *. destruct v; try exact I. destruct H as [->|[[] _]]. exact I.
  - cbn [wlast wctl] in *. destruct v; try exact I. apply La; [|exact H]. intros x _ Hx. apply IH, Hx.
  - cbn [wlast wctl] in *. destruct v; try contradiction. exact I.
  - cbn [wlast wctl] in *. destruct v; try exact I. apply La; [|exact H]. intros x _ Hx. unfold mfine in Hx.
    destruct (pick _ _ _ _) as [q|]; [|exact Hx]. rewrite nth_error_map in *. destruct (nth_error fs q) as [y|] eqn:Ey; [|exact I]. cbn [option_map] in *.
    rewrite Forall_forall in IH. apply (IH y (nth_error_In _ _ Ey)), Hx.
Qed.
Lemma wany_inside_ctl : o_unknown O = true -> forall t b, wany_inside b t = true -> forall v, wctl C O b t v.
Proof.
  intros Un. induction t as [d|z fs|t IH|k t IH|t IH|z fs IH] using wt_ind'; intros b H v; cbn [wany_inside wctl] in *; try discriminate.
  - apply ctl_on, inner_ctl; [exact H|rewrite Un; reflexivity].
  - apply andb_prop in H as [-> H]. exact (rany_ctl C O fs H v).
  - destruct v; try exact I. right. destruct t as [d|z fs|t|k t|t|z fs]; try discriminate; (split; [exact I|]); apply Forall_forall; intros w _; apply IH, H.
  - destruct v; try exact I. apply Forall_forall. intros w _. apply IH, H.
  - apply andb_prop in H as [_ H]. rewrite forallb_forall in H. destruct v; try exact I. apply Forall_forall. intros x _.
    destruct (pick _ _ _ _) as [q|]; [|left; exact Un]. rewrite nth_error_map. destruct (nth_error fs q) as [y|] eqn:Ey; [|exact I]. cbn [option_map].
    rewrite Forall_forall in IH. apply (IH y (nth_error_In _ _ Ey)), H, (nth_error_In _ _ Ey).
Qed.
Lemma wany_last t : wany t = true -> forall v, wlast C O true t v.
Proof.
  assert (Q : forall t, o_unknown O && wany_inside true t = true -> forall v, wlast C O true t v).
  { intros t0 H v. apply andb_prop in H as [H1 H2]. apply wctl_last, wany_inside_ctl; assumption. }
  induction t as [d|z fs|t IH|k t IH|t IH|z fs IH] using wt_ind'; intros H v; try (apply Q, H).
  cbn [wany wlast] in *. apply andb_prop in H as [H1 H2]. destruct v; try exact I; (split; [apply negb_true_iff in H1; exact H1|apply IH, H2]).
Qed.
End Every.
Theorem C26_mixed_every_document_partial C O E dis T t stk D s v a h g F :
  wdecoder_for C E dis T t stk D -> wany C O t = true -> json_text s v -> wvariable C t h a g F ->
  match wactual C O s t v g with
  | VOk g' => exists D' h' F', Decode C O stk D s (TOk (flat 0 v)) (Some a) h = Ret (-1) None D' h' /\
      wvariable C t h' a g' F' /\ only h h' (Some a) (wsize C t) F F'
  | VErr i e g' => exists D' h' F', Decode C O stk D s (TOk (flat 0 v)) (Some a) h = Ret (Z.of_nat i) (Some e) D' h' /\
      wvariable C t h' a g' F' /\ only h h' (Some a) (wsize C t) F F'
  | VPan => Decode C O stk D s (TOk (flat 0 v)) (Some a) h = DPanics
  end.
Proof. intros Df A J V. exact (C26_mixed_characterised_partial C O E dis T t stk D s v a h g F Df J (wany_last C O t A v) V). Qed.
Theorem C17_mixed_every_document_partial C O E dis T t stk D s v a h g F :
  wdecoder_for C E dis T t stk D -> wany C O t = true -> wno_quoted_numbers t = true -> json_text s v -> wvariable C t h a g F ->
  exists i e D' h' g' F', Decode C O stk D s (TOk (flat 0 v)) (Some a) h = Ret i e D' h' /\ wvariable C t h' a g' F' /\ only h h' (Some a) (wsize C t) F F'.
Proof. intros Df A N J V. exact (C17_mixed_no_panic_partial C O E dis T t stk D s v a h g F Df J (wany_last C O t A v) (wno_quoted_nonempty C O t N v) V). Qed.

(** ** Computed sufficient conditions *)
Section Check.
Variables (C : cfg) (O : opts).
Lemma rctlnb_spec fs n : forall v st zr, rctlb C O fs n st zr v = true -> rctln C O fs n st zr v.
Proof.
  induction n as [|n IH]; intros w st zr H; [discriminate|]. cbn [rctlb rctln] in *. destruct w; try exact I. eapply mctlb_spec; [|exact H].
  intros st1 zr1 w Hw. apply IH, Hw.
Qed.
Definition onb (q : option lag) : bool := match q with Some On => true | _ => false end.
Definition not_recb (t : wt) : bool := match t with WRec _ _ => false | _ => true end.
Fixpoint wctlb (b : bool) (t : wt) (v : jv) {struct t} : bool :=
  match t with
  | WSub d => onb (lag_of C O d v)
  | WRec _ fs => rctlb C O fs (height v) b b v
  | WSlice t => match v with JArr _ _ l => match l with [] => true | _ => not_recb t && forallb (wctlb false t) l end | _ => true end
  | WMap _ t => match v with JObj _ _ l => forallb (fun x => wctlb true t (snd x)) l | _ => true end
  | WPtr _ => match v with JNull _ => true | _ => false end
  | WStruct _ fs =>
      match v with
      | JObj _ _ l => forallb (fun x : (nat * bytes) * jv =>
          match pick (c_fold C) (o_nofold O) (wnames fs) (key_of O (snd (fst x))) with
          | Some j =>
              match nth_error (map (fun y => wctlb (snd (fst y) =? 0) (snd y)) fs) j with
              | Some c => c (snd x)
              | None => true
              end
          | None => o_unknown O || obj_free (snd x)
          end) l
      | _ => true
      end
  end.
Lemma wctlb_spec t : forall b v, wctlb b t v = true -> wctl C O b t v.
Proof.
  induction t as [d|z fs|t IH|k t IH|t IH|z fs IH] using wt_ind'; intros b v H; cbn [wctlb wctl] in *.
  - unfold onb in H. destruct (lag_of C O d v) as [[| |]|]; try discriminate; reflexivity.
  - apply rctlnb_spec, H.
  - destruct v; try exact I. destruct l as [|x l]; [left; reflexivity|right]. apply andb_prop in H as [H1 H2]. split; [destruct t; try discriminate; exact I|].
    eapply forallb_Forall; [|exact H2]. intros w _ Hw. apply IH, Hw.
  - destruct v; try exact I. eapply forallb_Forall; [|exact H]. intros w _ Hw. apply IH, Hw.
  - destruct v; try discriminate; exact I.
  - destruct v; try exact I. eapply forallb_Forall; [|exact H]. intros x _ Hx. cbv beta in Hx. destruct (pick _ _ _ _) as [q|]; [|apply orb_prop, Hx].
    rewrite nth_error_map in *. destruct (nth_error fs q) as [y|] eqn:Ey; [|exact I]. cbn [option_map] in *. rewrite Forall_forall in IH. apply (IH y (nth_error_In _ _ Ey)), Hx.
Qed.
Fixpoint lastlyb {A} (P Q : A -> bool) (l : list A) : bool :=
  match l with [] => true | [x] => Q x | x :: r => P x && lastlyb P Q r end.
Lemma lastlyb_spec {A} (P Q : A -> bool) (P' Q' : A -> Prop) l : (forall x, P x = true -> P' x) -> (forall x, Q x = true -> Q' x) -> lastlyb P Q l = true -> lastly P' Q' l.
Proof.
  intros HP HQ. induction l as [|x [|y l] IH]; intros H; [exact I|apply HQ, H|]. cbn [lastlyb] in H. apply andb_prop in H as [H1 H2]. split; [apply HP, H1|apply IH, H2].
Qed.
Definition someb {A} (q : option A) : bool := match q with Some _ => true | None => false end.
Fixpoint wlastb (b : bool) (t : wt) (v : jv) {struct t} : bool :=
  match t with
  | WSub d => someb (lag_of C O d v)
  | WRec _ fs => rctlb C O fs (height v) b b v
  | WPtr t => match v with JNull _ => true | _ => negb (wsize C t =? 0) && wlastb true t v end
  | WSlice t0 =>
      match t0 with
      | WRec z fs =>
          match v with
          | JArr _ _ (v0 :: l) => rctlb C O fs (height v0) true true v0 && forallb (fun v => rctlb C O fs (height v) false false v) l
          | _ => true
          end
      | _ => wctlb b t v
      end
  | WMap _ t => match v with JObj _ _ l => lastlyb (fun x => wctlb true t (snd x)) (fun x => wlastb true t (snd x)) l | _ => true end
  | WStruct _ fs =>
      match v with
      | JObj _ _ l =>
          lastlyb (fun x : (nat * bytes) * jv =>
            match pick (c_fold C) (o_nofold O) (wnames fs) (key_of O (snd (fst x))) with
            | Some j => match nth_error (map (fun y => wctlb (snd (fst y) =? 0) (snd y)) fs) j with Some c => c (snd x) | None => true end
            | None => o_unknown O || obj_free (snd x)
            end)
          (fun x : (nat * bytes) * jv =>
            match pick (c_fold C) (o_nofold O) (wnames fs) (key_of O (snd (fst x))) with
            | Some j => match nth_error (map (fun y => wlastb (snd (fst y) =? 0) (snd y)) fs) j with Some c => c (snd x) | None => true end
            | None => o_unknown O || obj_free (snd x)
            end) l
      | _ => true
      end
  end.
Lemma wlastb_spec t : forall b v, wlastb b t v = true -> wlast C O b t v.
Proof.
  induction t as [d|z fs|t IH|k t IH|t IH|z fs IH] using wt_ind'; intros b v H.
  - cbn in *. destruct (lag_of C O d v); [discriminate|discriminate H].
  - apply rctlnb_spec, H.
  - destruct t as [d|z fs|t|k t|t|z fs]; try (apply (wctlb_spec (WSlice _) b v H)). cbn [wlastb wlast] in *. destruct v; try exact I. destruct l as [|x l]; [exact I|].
    apply andb_prop in H as [H1 H2]. split; [apply rctlnb_spec, H1|]. eapply forallb_Forall; [|exact H2]. intros w _ Hw. apply rctlnb_spec, Hw.
  - cbn [wlastb wlast] in *. destruct v; try exact I. eapply lastlyb_spec; [| |exact H]; intros x Hx; [apply wctlb_spec, Hx|apply IH, Hx].
  - cbn [wlastb wlast] in *. destruct v; try exact I; apply andb_prop in H as [H1 H2]; (split; [apply negb_true_iff in H1; exact H1|apply IH, H2]).
  - cbn [wlastb wlast] in *. destruct v; try exact I. eapply lastlyb_spec; [| |exact H]; intros x Hx; unfold mfine; cbv beta in Hx.
    + destruct (pick _ _ _ _) as [q|]; [|apply orb_prop, Hx]. rewrite nth_error_map in *. destruct (nth_error fs q) as [y|]; [|exact I]. apply wctlb_spec, Hx.
    + destruct (pick _ _ _ _) as [q|]; [|apply orb_prop, Hx]. rewrite nth_error_map in *. destruct (nth_error fs q) as [y|] eqn:Ey; [|exact I]. cbn [option_map] in *.
      rewrite Forall_forall in IH. apply (IH y (nth_error_In _ _ Ey)), Hx.
Qed.
Fixpoint wsoundb (t : wt) (v : jv) {struct t} : bool :=
  match t with
  | WSub d => soundb C O d v
  | WRec _ fs => rsoundb C O fs (height v) v
  | WSlice t => match v with JArr _ _ l => forallb (wsoundb t) l | _ => true end
  | WMap k t => match v with JObj _ _ l => forallb (fun x => sound_keyb C k (snd (fst x)) && wsoundb t (snd x)) l | _ => true end
  | WPtr t => match v with JNull _ => true | _ => wsoundb t v end
  | WStruct _ fs =>
      match v with
      | JObj _ _ l => forallb (fun x => (o_nounescape O || plain_strb (snd (fst x))) &&
          match field_for C O (wshape fs) (snd (fst x)) with
          | Some j => match nth_error (map (fun x => wsoundb (snd x)) fs) j with Some P => P (snd x) | None => true end
          | None => true
          end) l
      | _ => true
      end
  end.
Lemma wsoundb_spec t : forall v, wsoundb t v = true -> wsound C O t v.
Proof.
  unfold wsound. induction t as [d|z fs|t IH|k t IH|t IH|z fs IH] using wt_ind'; intros v H; cbn [wsoundb leafy] in *.
  - apply soundb_spec, H.
  - apply rsoundb_spec, H.
  - destruct v; try exact I. eapply forallb_Forall; [|exact H]. intros w _ Hw. apply IH, Hw.
  - destruct v; try exact I. eapply forallb_Forall; [|exact H]. intros w _ Hw. apply andb_prop in Hw as [H1 H2]. split; [apply sound_keyb_spec, H1|apply IH, H2].
  - destruct v; try exact I; apply IH, H.
  - destruct v; try exact I. eapply forallb_Forall; [|exact H]. intros w _ Hw. cbv beta in Hw. apply andb_prop in Hw as [H1 H2]. split.
    + apply orb_prop in H1 as [H1|H1]; [left; exact H1|right; apply (plain_strb_spec C), H1].
    + destruct (field_for C O _ _) as [q|]; [|exact I]. rewrite nth_error_map in *. destruct (nth_error fs q) as [y|] eqn:Ey; [|exact I]. cbn [option_map] in *.
      rewrite Forall_forall in IH. apply (IH y (nth_error_In _ _ Ey)), H2.
Qed.
End Check.

(** ** Cases *)
(** type Doc struct { Root Node; Title string; Files map[string]Dir; Tags []Tag } with
    type Node struct { V int8; L *Node `json:"left"`; R *Node },
    type Dir struct { N int16; Sub []Dir }, type Tag struct { Name string; Of []Tag }. *)
Definition E_doc : env := fun i =>
  match i with
  | 0%nat => Decl (TStruct 0 24 [(fld0 "V" 0, tInt8); (tagged "L" "left" 8, TPtr (TNamed 0)); (fld0 "R" 16, TPtr (TNamed 0))]) 24 SNone SNone
  | 1%nat => Decl (TStruct 1 32 [(fld0 "N" 0, TInt (NK true W16)); (fld0 "Sub" 8, TSlice (TNamed 1))]) 32 SNone SNone
  | 2%nat => Decl (TStruct 2 40 [(fld0 "Name" 0, TStr); (fld0 "Of" 16, TSlice (TNamed 2))]) 40 SNone SNone
  | 3%nat => Decl (TStruct 3 72 [(fld0 "Root" 0, TNamed 0); (fld0 "Title" 24, TStr); (fld0 "Files" 40, TMap TStr (TNamed 1)); (fld0 "Tags" 48, TSlice (TNamed 2))]) 72 SNone SNone
  | _ => Decl TOther 8 SNone SNone
  end.
Definition doc_node : rfields := [((bs "V", 0), RSub (DSc (SInt (NK true W8)))); ((bs "left", 8), RSelf); ((bs "R", 16), RSelf)].
Definition doc_dir : rfields := [((bs "N", 0), RSub (DSc (SInt (NK true W16)))); ((bs "Sub", 8), RSlice)].
Definition doc_tag : rfields := [((bs "Name", 0), RSub (DSc SStr)); ((bs "Of", 16), RSlice)].
Definition doc_wt : wt :=
  WStruct 72 [((bs "Root", 0), WRec 24 doc_node); ((bs "Title", 24), WSub (DSc SStr)); ((bs "Files", 40), WMap KeyStr (WRec 32 doc_dir)); ((bs "Tags", 48), WSlice (WRec 40 doc_tag))].
Definition doc_stk : list frame := Eval vm_compute in stack_of E_doc (TNamed 3).
Definition doc_text : bytes :=
  bs "{""Title"":""t"",""Root"":{""left"":{""V"":3,""R"":{}},""V"":1},""Files"":{""a"":{""Sub"":[{""N"":2},{""N"":4,""Sub"":[{}]}],""N"":5},""b"":{""N"":6}},""x"":[1,2],""Tags"":[{""Of"":[{""Name"":""u""},{""Name"":""v""}],""Name"":""w""},{""Name"":""y""}]}".
Definition doc_doc : jv := Eval vm_compute in tree_of doc_text.
Lemma known_plain n o : known_as (fld0 n o) (bs n) false.
Proof. exists [], []. split; [apply tag_name; intros []|]. split; [discriminate|]. split; [reflexivity|]. split; discriminate. Qed.
Lemma doc_resolves : exists seen', wresolves true E_doc false [] (TNamed 3) doc_wt seen'.
Proof.
  eexists. eapply W_struct with (r := RNamed 3); [split; reflexivity|reflexivity|discriminate|reflexivity|lia|].
  eapply WF_field; [apply known_plain| |].
  { apply W_rec. exists 0%nat, 0%nat. eexists. split; [reflexivity|]. split; [split; reflexivity|]. split; [reflexivity|]. split; [lia|]. split; [cbn; intuition discriminate|]. split.
    - eapply RF_field; [apply known_plain|apply R_sc; [exact I|reflexivity]|].
      eapply RF_back with (q := false) (ks := []); [|discriminate|apply B_ptr; [split; reflexivity|reflexivity]|].
      { exists (bs "left"), []. split; [apply tag_name; vm_compute; intuition discriminate|]. split; [discriminate|]. split; [reflexivity|]. split; discriminate. }
      eapply RF_back with (q := false) (ks := []); [apply known_plain|discriminate|apply B_ptr; [split; reflexivity|reflexivity]|apply RF_nil].
    - exists ((bs "R", 16), RSelf). split; [cbn; auto|discriminate]. }
  eapply WF_field; [apply known_plain|apply W_sub, R_sc; [exact I|reflexivity]|].
  eapply WF_field; [apply known_plain| |].
  { eapply W_map with (ks := []); [exact I|reflexivity|cbn; intuition discriminate|intros [_ [H|H]]; discriminate H|apply K_str; [exact I|reflexivity]|].
    apply W_rec. exists 1%nat, 1%nat. eexists. split; [reflexivity|]. split; [split; reflexivity|]. split; [reflexivity|]. split; [lia|]. split; [cbn; intuition discriminate|]. split.
    - eapply RF_field; [apply known_plain|apply R_sc; [exact I|reflexivity]|].
      eapply RF_back with (q := false) (ks := []); [apply known_plain|discriminate|apply B_slice; [exact I|reflexivity]|apply RF_nil].
    - exists ((bs "Sub", 8), RSlice). split; [cbn; auto|discriminate]. }
  eapply WF_field; [apply known_plain| |apply WF_nil].
  eapply W_slice; [exact I|reflexivity|cbn; intuition discriminate| |exact I].
  apply W_rec. exists 2%nat, 2%nat. eexists. split; [reflexivity|]. split; [split; reflexivity|]. split; [reflexivity|]. split; [lia|]. split; [cbn; intuition discriminate|]. split.
  - eapply RF_field; [apply known_plain|apply R_sc; [exact I|reflexivity]|].
    eapply RF_back with (q := false) (ks := []); [apply known_plain|discriminate|apply B_slice; [exact I|reflexivity]|apply RF_nil].
  - exists ((bs "Of", 16), RSlice). split; [cbn; auto|discriminate].
Qed.
Lemma doc_layout : wlayout true doc_wt.
Proof.
  split; [repeat constructor; cbn; lia|]. split; [apply disjoint_slotsb_spec; vm_compute; reflexivity|]. split; [lia|].
  split; [split; [apply layoutb_spec; vm_compute; reflexivity|lia]|]. split; [exact I|].
  split; [split; [apply layoutb_spec; vm_compute; reflexivity|lia]|]. split; [|exact I]. split; [apply layoutb_spec; vm_compute; reflexivity|lia].
Qed.
Lemma doc_decoder : wdecoder_for wC E_doc false (TNamed 3) doc_wt doc_stk (dyn0 doc_stk).
Proof.
  split.
  - intros [|[|[|[|i]]]]; reflexivity.
  - exact doc_resolves.
  - exact doc_layout.
  - exists 50%nat. vm_compute. reflexivity.
  - constructor.
Qed.
Lemma doc_json : json_text doc_text doc_doc.
Proof. apply parse_sound. vm_compute. reflexivity. Qed.
Lemma doc_class : wlast wC default_opts true doc_wt doc_doc /\ wsound wC default_opts doc_wt doc_doc.
Proof. split; [apply wlastb_spec; vm_compute; reflexivity|apply wsoundb_spec; vm_compute; reflexivity]. Qed.
Lemma world_own z : own (world z) (Some (1%nat, 0)) [].
Proof. split; [cbn; lia|]. split; [constructor|]. split; [intros b []|]. intros b [= <-]. cbn. lia. Qed.
Lemma world_zero z x : 0 <= x < z -> cellat (world z) (Some (1%nat, 0)) x = Some CZero.
Proof. intros Hx. cbn. destruct (Z.leb_spec 0 x), (Z.ltb_spec x z); try lia. reflexivity. Qed.
Definition lst (l : list gval) : gval := match l with [] => VSlice None | _ => VSlice (Some (l, [])) end.
Definition dnode (v : Z) (l r : option gval) : gval := VStruct [VInt v; VPtr l; VPtr r].
Definition ddir (n : Z) (sub : list gval) : gval := VStruct [VInt n; lst sub].
Definition dtag (name : bytes) (l : list gval) : gval := VStruct [VStr name; lst l].
Example C26_mixed_case :
  exists D' h' F', Decode wC default_opts doc_stk (dyn0 doc_stk) doc_text (TOk (flat 0 doc_doc)) dest (world 72) = Ret (-1) None D' h' /\
    wvariable wC doc_wt h' (1%nat, 0)
      (VStruct [dnode 1 (Some (dnode 3 None (Some (dnode 0 None None)))) None; VStr (bs "t");
         VMap (Some [(GStr (bs "a"), ddir 5 [ddir 2 []; ddir 4 [ddir 0 []]]); (GStr (bs "b"), ddir 6 [])]);
         lst [dtag (bs "w") [dtag (bs "u") []; dtag (bs "v") []]; dtag (bs "y") []]]) F'.
Proof.
  destruct doc_class as [Ct Sd].
  destruct (C27_mixed_new_partial wC default_opts E_doc false (TNamed 3) doc_wt doc_stk (dyn0 doc_stk) doc_text doc_doc (1%nat, 0) (world 72) doc_decoder doc_json Ct Sd (world_zero 72) (world_own 72))
    as (i & e & D' & h' & F' & g' & Q & W & X).
  match type of X with match ?Y with _ => _ end => let y := eval vm_compute in Y in replace Y with y in X by (vm_compute; reflexivity) end.
  destruct X as (-> & -> & ->). exists D', h', F'. split; [exact Q|exact W].
Qed.

(** map[string]Node behind a pointer, with DisallowUnknownFields: every document is in the
    class; V is an int8 that wraps, and a key has a surrogate pair. *)
Definition mapp_wt : wt := WPtr (WMap KeyStr (WRec 24 doc_node)).
Definition mapp_ty : ty := TPtr (TMap TStr (TNamed 0)).
Definition mapp_stk : list frame := Eval vm_compute in stack_of E_doc mapp_ty.
Definition mapp_text : bytes := bs "{""a"":{""left"":{""V"":300,""R"":{}},""V"":-1},""\ud83d\ude00"":{""R"":{""V"":7},""V"":2}}".
Definition mapp_doc : jv := Eval vm_compute in tree_of mapp_text.
Lemma mapp_decoder : wdecoder_for wC E_doc false mapp_ty mapp_wt mapp_stk (dyn0 mapp_stk).
Proof.
  split.
  - intros [|[|[|[|i]]]]; reflexivity.
  - eexists. eapply W_ptr; [exact I|reflexivity|exact I|].
    eapply W_map with (ks := []); [exact I|reflexivity|cbn; intuition discriminate|intros [_ [H|H]]; discriminate H|apply K_str; [exact I|reflexivity]|].
    apply W_rec. exists 0%nat, 0%nat. eexists. split; [reflexivity|]. split; [split; reflexivity|]. split; [reflexivity|]. split; [lia|]. split; [cbn; intuition discriminate|]. split.
    + eapply RF_field; [apply known_plain|apply R_sc; [exact I|reflexivity]|].
      eapply RF_back with (q := false) (ks := []); [|discriminate|apply B_ptr; [split; reflexivity|reflexivity]|].
      { exists (bs "left"), []. split; [apply tag_name; vm_compute; intuition discriminate|]. split; [discriminate|]. split; [reflexivity|]. split; discriminate. }
      eapply RF_back with (q := false) (ks := []); [apply known_plain|discriminate|apply B_ptr; [split; reflexivity|reflexivity]|apply RF_nil].
    + exists ((bs "R", 16), RSelf). split; [cbn; auto|discriminate].
  - split; [apply layoutb_spec; vm_compute; reflexivity|lia].
  - exists 50%nat. vm_compute. reflexivity.
  - constructor.
Qed.
Example C26_mixed_every_document_case :
  wany wC strict mapp_wt = true /\ wno_quoted_numbers mapp_wt = true /\
  exists D' h' F', Decode wC strict mapp_stk (dyn0 mapp_stk) mapp_text (TOk (flat 0 mapp_doc)) dest (world 8) = Ret (-1) None D' h' /\
    wvariable wC mapp_wt h' (1%nat, 0)
      (VPtr (Some (VMap (Some [(GStr (bs "a"), dnode (-1) (Some (dnode (300 - 256) None (Some (dnode 0 None None)))) None);
         (GStr [239; 191; 189; 239; 191; 189], dnode 2 None (Some (dnode 7 None None)))])))) F'.
Proof.
  split; [reflexivity|]. split; [reflexivity|].
  assert (J : json_text mapp_text mapp_doc) by (apply parse_sound; vm_compute; reflexivity).
  pose proof (wvariable_new _ _ _ _ _ _ _ (world 8) (1%nat, 0) mapp_decoder (world_zero 8) (world_own 8)) as V.
  pose proof (C26_mixed_every_document_partial wC strict E_doc false mapp_ty mapp_wt mapp_stk (dyn0 mapp_stk) mapp_text mapp_doc (1%nat, 0) (world 8) (wzero mapp_wt) [] mapp_decoder eq_refl J V) as Q.
  match type of Q with match ?X with _ => _ end =>
    let y := eval vm_compute in X in replace X with y in Q by (vm_compute; reflexivity) end.
  destruct Q as (D' & h' & F' & Q & W & _). exists D', h', F'. split; [exact Q|exact W].
Qed.

(** Continuation of Refine.v: specialised slices, maps, pointers, and the refinement
    theorem. *)
From Verif Require Import Base NumSpec StrSpec Atoi JsonNum Unescape Lookup Types Token FloatLit Heap Machine Dt Dec Value Dval Sep Refine Refine2.
From Verif Require Control.
Open Scope Z_scope.

Lemma own_perm h p F F' : own h p F -> NoDup F' -> (forall b, In b F' -> In b F) -> own h p F'.
Proof. intros H N I. eapply own_sub; eassumption. Qed.
Lemma only_left h h' p n F F2 F' : only h h' p n F F' -> (forall b, In b F -> In b F2) -> (forall b, In b F2 -> In b F) -> only h h' p n F2 F'.
Proof.
  intros (A & B & D & E & G) I J. repeat split; try assumption; try apply E.
  - intros b Hb Nb Pb. apply B; try assumption. intros Hf. apply Nb, I, Hf.
  - intros b Hb. destruct (G b Hb); [left; apply I; assumption|right; assumption].
Qed.
Lemma holds_eq h h' p n c : (forall x, cellat h' p x = cellat h p x) -> holds h p n c -> holds h' p n c.
Proof. intros E [H1 H2]. split; [intros x Hx; rewrite E; apply H1, Hx|rewrite E; exact H2]. Qed.

Section Refine.
Variables (C : cfg) (O : opts) (s : bytes).
Notation w64 := (c_w64 C).
Notation W := (wb (c_w64 C)).
Notation dsize := (dsize (c_w64 C)).
Notation rep := (rep (c_w64 C)).
Notation layout := (layout (c_w64 C)).
Notation dech := (dech C O s).
Notation dval := (dval C O s).
Notation post := (post C).
Notation good := (good C s).
Notation rep_slice := (rep_slice (c_w64 C)).
Notation mslice := (mslice (c_w64 C)).
Notation rep_map := (rep_map (c_w64 C)).
Notation mmap := (mmap (c_w64 C)).

(** ** Specialised slices *)
Definition fin (v : jv) (p : ptr) (h : heap) (r : res ((cv * Z) + err)) : hres :=
  match r with Ok (inr er) => HErr (jidx v) er h | Ok (inl (c, sz)) => hlift (store h p sz c) HOk | Pan => HPan | Cor => HCor end.
Lemma fastv_eq x e v : fast_et (DSc x) = Some e -> lexed s v ->
  (forall p h, fin v p h (fastv C s e v) = dech (DSc x) v p h) /\
  (forall c sz, fastv C s e v = Ok (inl (c, sz)) -> sz = dsize (DSc x)).
Proof.
  intros Fe L. destruct x; try discriminate; injection Fe as <-.
  - destruct v as [i|i b|i r|i r|i r|i j l|i j l]; try destruct b; (split; [intros; cbn; try (destruct (store h p 1 _)); reflexivity|cbn; congruence]).
  - destruct v as [i|i b|i r|i r|i r|i j l|i j l]; try destruct b;
      try (split; [intros; cbn; try (destruct (store h p _ _)); reflexivity|cbn; congruence]).
    destruct L as [L B]. cbn [fastv fast_elem tk_ty tk_idx]. rewrite (Control.body_ok C) by exact L. cbn [rbind].
    split.
    + intros p h. cbn [Dec.dech]. unfold scalar_h, str_tok, leaf. cbn [f_ty mkfr dt_et sc_et].
      destruct (unesc_str C (i + 1) r); cbn [rbind fin]; try reflexivity. unfold sok. cbn. destruct (store h p _ _); reflexivity.
    + intros c sz. destruct (unesc_str C (i + 1) r); cbn; congruence.
  - destruct v as [i|i b|i r|i r|i r|i j l|i j l]; try destruct b;
      try (split; [intros; cbn; try (destruct (store h p _ _)); reflexivity|cbn; congruence]).
    destruct L as [L B]. cbn [fastv fast_elem tk_ty tk_idx]. rewrite (Control.raw_ok s KInt i r) by (exact L || reflexivity). cbn [rbind].
    split.
    + intros p h. cbn [Dec.dech]. unfold scalar_h, int_tok, leaf. cbn [f_ty mkfr dt_et sc_et].
      destruct (int_of_tok C k r) as [[z|er]| |]; cbn [rbind fin]; try reflexivity. unfold sok. cbn. destruct (store h p _ _); reflexivity.
    + intros c sz. destruct (int_of_tok C k r) as [[z|er]| |]; cbn; congruence.
  - destruct v as [i|i b0|i r|i r|i r|i j l|i j l]; try destruct b0;
      try (split; [intros; cbn; try (destruct (store h p _ _)); reflexivity|cbn; congruence]).
    + destruct L as [L B]. cbn [fastv fast_elem tk_ty tk_idx]. rewrite (Control.raw_ok s KInt i r) by (exact L || reflexivity). cbn [rbind].
      split.
      * intros p h. cbn [Dec.dech]. unfold scalar_h, int_tok, leaf. cbn [f_ty mkfr dt_et sc_et].
        destruct (float_of_int_tok C b r) as [z|]; cbn [rbind fin]; try reflexivity. unfold sok. cbn. destruct (store h p _ _); reflexivity.
      * intros c sz. destruct (float_of_int_tok C b r); cbn; congruence.
    + destruct L as [L B]. cbn [fastv fast_elem tk_ty tk_idx]. rewrite (Control.raw_ok s KNum i r) by (exact L || reflexivity). cbn [rbind].
      split.
      * intros p h. cbn [Dec.dech]. unfold scalar_h, num_tok, leaf. cbn [f_ty mkfr dt_et sc_et].
        destruct (parse_float (c_pf C) b r) as [z|]; cbn [rbind fin]; try reflexivity. unfold sok. cbn. destruct (store h p _ _); reflexivity.
      * intros c sz. destruct (parse_float (c_pf C) b r); cbn; congruence.
Qed.

Definition fout (r : res (heap * option (nat * err))) : hres :=
  hlift r (fun '(h, er) => match er with Some (i, e) => HErr i e h | None => HOk h end).
Lemma fast_elems_eq x e : fast_et (DSc x) = Some e -> forall l, Forall (lexed s) l -> forall i h a,
  fout (fast_elems C s e a i l h) = elems_h (dech (DSc x)) (dsize (DSc x)) i l (Some a) h.
Proof.
  intros Fe. induction 1 as [|v l Lv Ll IH]; intros i h a; [reflexivity|]. cbn [fast_elems elems_h].
  destruct (fastv_eq x e v Fe Lv) as [E1 E2]. rewrite <- E1. destruct (fastv C s e v) as [[[c sz]|er]| |]; cbn [rbind fin]; try reflexivity.
  rewrite <- (E2 c sz eq_refl). destruct (store h _ sz c) as [h1| |]; cbn [rbind hlift hbind]; try reflexivity. rewrite (E2 c sz eq_refl). apply IH.
Qed.

Lemma sc_size_fast x e : fast_et (DSc x) = Some e -> fast_size C e = dsize (DSc x).
Proof. destruct x; cbn; intros [= <-]; reflexivity. Qed.

Lemma fast_good x e : fast_et (DSc x) = Some e -> good (DSc x) (dech (DSc x)) (dval (DSc x)) ->
  forall l h p g F, Forall (lexed s) l -> rep (DSlice (DSc x)) h p g F -> own h p F ->
  gsim (post (DSlice (DSc x)) h p F) (fast_h C s e l p h) (slicev (dval (DSc x)) (zero (DSc x)) true false l g).
Proof.
  intros Fe Gd l h p g F Lx R Ow. pose proof (wb_pos w64) as Wp. set (t := DSc x) in *.
  assert (L : layout t) by exact I. pose proof (nice_mt C t L) as Ln. pose proof (dsize_nonneg w64 t L) as Hs.
  assert (K0 : dsize t = 0 -> forall v p h, dech t v p h = dech t v None h) by (apply dech_size0, L).
  unfold fast_h, slicev. destruct l as [|x0 l0].
  { destruct (slice_view C (mt w64 t) h p g F R) as (c & data & a & vis & hid & F' & Hc & Np & _).
    destruct (store_cell h p (3 * W) c (CSlice (0%nat, 0) 0 0)) as (h1 & E & Hh & Nx & Bk & Ow1 & On1); [lia|exact Hc|exact Np|].
    rewrite E. cbn [hlift gsim]. exists h1. split; [reflexivity|]. exists (abl (mt w64 t) (0%nat, 0) 0 ++ []). split.
    + apply (mk_slice C (mt w64 t) h1 p (0%nat, 0) 0 0 [] []); [exact Hh|lia|reflexivity|intros y Hy; cbn in Hy; lia].
    + unfold abl. cbn [Z.of_nat Z.ltb Z.compare]. rewrite andb_false_r. cbn [app]. split; [apply Ow1; eapply own_nil, Ow|apply On1; intros b []]. }
  set (l := x0 :: l0) in *. assert (Hl : (0 < length l)%nat) by (cbn; lia).
  destruct (slice_view C (mt w64 t) h p g F R) as (c & data & a & vis & hid & F' & Hc & Np & Cg & As & Da & Re & Rm & ->).
  rewrite Cg, (load_holds h p (3 * W) c) by (assumption || lia). cbn [rbind]. rewrite As. cbn [hlift].
  (* what a header store does afterwards *)
  assert (Hdr : forall h0 h1 a1 N gs F1 FF, (length l <= N)%nat -> holds h1 p (3 * W) c -> reps (slots (dsize t) (rep t) 0 N) h1 (Some a1) gs F1 ->
     room h1 (Some a1) (Z.of_nat N * dsize t) -> own h1 p (abl (mt w64 t) a1 N ++ F1) -> only h0 h1 p (3 * W) FF (abl (mt w64 t) a1 N ++ F1) ->
     exists h2, store h1 p (3 * W) (CSlice a1 (Z.of_nat (length l)) (Z.of_nat N)) = Ok h2 /\ post (DSlice t) h0 p FF h2 (split_at (length l) gs)).
  { intros h0 h1 a1 N gs F1 FF HN Hh1 R1 Rm1 Ow1 On1.
    destruct (store_cell h1 p (3 * W) c (CSlice a1 (Z.of_nat (length l)) (Z.of_nat N))) as (h2 & E2 & Hh2 & Nx2 & Bk2 & Ow2 & On2); [lia|exact Hh1|exact Np|].
    exists h2. split; [exact E2|]. destruct (backing_stable (mt w64 t) N a1 h1 h2 _ _ Ln R1 Rm1) as [R2 Rm2].
    { intros b Hb. apply Bk2. destruct Ow1 as (_ & _ & D & _). apply (D b Hb). }
    exists (abl (mt w64 t) a1 N ++ F1). split; [apply (mk_slice C (mt w64 t)); assumption|]. split; [apply Ow2, Ow1|]. eapply only_trans; [exact On1|apply On2, incl_refl]. }
  destruct (Nat.leb_spec (length l) (length vis + length hid)) as [Hle|Hgt].
  - replace (Z.of_nat (length vis + length hid) <? Z.of_nat (length l)) with false by lia. cbn [negb].
    destruct Da as [-> |[_ Z0]]; [|lia].
    pose proof (backing (lexed s) (mt w64 t) (dech t) (dval t) Ln Gd K0 l (length vis + length hid) h p a _ [] F' (3 * W) Lx Re Rm Ow Hle ltac:(lia)) as Q.
    pose proof (fast_elems_eq x e Fe l Lx 0 h a) as FE. fold t in FE. cbn [mt m_size m_zero] in Q. rewrite <- FE in Q.
    destruct (elemsv (dval t) l (vis ++ hid)) as [all|i er all|]; cbn [gsim] in Q.
    + destruct Q as (h1 & E1 & F1 & R1 & Rm1 & Ow1 & On1 & Cl1 & _). cbn [app] in *. unfold fout in E1.
      destruct (fast_elems C s e a 0 l h) as [[h1' [[i1 e1]|]]| |]; cbn in E1; try discriminate. injection E1 as ->. cbn [hlift].
      destruct (Hdr h h1 a (length vis + length hid)%nat all F1 _ Hle (holds_eq _ _ _ _ _ Cl1 Hc) R1 Rm1 Ow1 On1) as (h2 & -> & P). cbn. eauto.
    + destruct Q as (h1 & E1 & F1 & R1 & Rm1 & Ow1 & On1 & Cl1 & _). cbn [app] in *. unfold fout in E1.
      destruct (fast_elems C s e a 0 l h) as [[h1' [[i1 e1]|]]| |]; cbn in E1; try discriminate. injection E1 as -> -> ->. cbn [hlift gsim].
      exists h1. split; [reflexivity|]. exists (abl (mt w64 t) a (length vis + length hid) ++ F1). split; [|split; assumption].
      apply (mk_slice C (mt w64 t)); try assumption; try lia. assert (Ec : c = CSlice a (Z.of_nat (length vis)) (Z.of_nat (length vis + length hid))).
      { destruct c; cbn in As; try discriminate. injection As as -> -> ->. reflexivity. }
      rewrite <- Ec. eapply holds_eq; [exact Cl1|exact Hc].
    + unfold fout in Q. destruct (fast_elems C s e a 0 l h) as [[h1' [[i1 e1]|]]| |]; cbn in Q; try discriminate. reflexivity.
  - replace (Z.of_nat (length vis + length hid) <? Z.of_nat (length l)) with true by lia. cbn [negb].
    destruct (fresh_array (mt w64 t) (length l) h p _ Ln Hl Ow) as (a1 & h1 & Em & Ow1 & On1 & Cl1 & Bk1 & Nx1 & Rz & Zc).
    rewrite (sc_size_fast x e Fe). fold t. cbn [mt m_size] in Em. rewrite Em.
    set (FF := abl (mt w64 t) a (length vis + length hid) ++ F') in *.
    assert (OwP : own h1 p (FF ++ abl (mt w64 t) a1 (length l) ++ [])).
    { eapply own_perm; [exact Ow1| |intros b; rewrite !in_app_iff; cbn; tauto]. destruct Ow1 as (_ & B & _). rewrite nodup_app in B. rewrite app_nil_r, nodup_app.
      repeat split; try tauto. intros b Hb Hb'. apply (proj2 (proj2 B) b Hb' Hb). }
    assert (Rm0 : room h1 (Some a1) (Z.of_nat (length l) * dsize t)) by (intros y Hy; rewrite Zc by exact Hy; discriminate).
    pose proof (backing (lexed s) (mt w64 t) (dech t) (dval t) Ln Gd K0 l (length l) h1 p a1 _ FF [] (3 * W) Lx Rz Rm0 OwP (le_n _) Hl) as Q.
    pose proof (fast_elems_eq x e Fe l Lx 0 h1 a1) as FE. fold t in FE. cbn [mt m_size m_zero] in Q. rewrite <- FE in Q.
    assert (Bf : forall h2, (forall b, In b FF -> blk h2 b = blk h1 b) -> forall b, In b FF -> blk h2 b = blk h b).
    { intros h2 Hb b Hb'. rewrite Hb by exact Hb'. apply Bk1. destruct Ow as (_ & _ & D & _). destruct (D b Hb'). lia. }
    assert (OnF : forall h2 F1, only h1 h2 p (3 * W) (FF ++ abl (mt w64 t) a1 (length l) ++ []) (FF ++ abl (mt w64 t) a1 (length l) ++ F1) ->
      only h h2 p (3 * W) FF (FF ++ abl (mt w64 t) a1 (length l) ++ F1)).
    { intros h2 F1 On2. eapply only_trans; [apply (On1 (3 * W))|]. eapply only_left; [exact On2| |]; intros b; rewrite !in_app_iff; cbn; tauto. }
    destruct (elemsv (dval t) l (repeat (zero t) (length l))) as [all|i er all|]; cbn [gsim] in Q.
    + destruct Q as (h2 & E2 & F1 & R2 & Rm2 & Ow2 & On2 & Cl2 & Bk2). unfold fout in E2.
      destruct (fast_elems C s e a1 0 l h1) as [[h1' [[i1 e1]|]]| |]; cbn in E2; try discriminate. injection E2 as ->. cbn [hlift].
      destruct (Hdr h h2 a1 (length l) all F1 FF (le_n _)) as (h3 & -> & P); try assumption; [| | |cbn; eauto].
      * eapply holds_eq; [|exact Hc]. intros y. rewrite Cl2. apply Cl1.
      * eapply own_perm; [exact Ow2| |intros b; rewrite !in_app_iff; tauto]. destruct Ow2 as (_ & B & _). rewrite nodup_app in B. tauto.
      * eapply only_sub; [apply OnF, On2|]. intros b. rewrite !in_app_iff. tauto.
    + destruct Q as (h2 & E2 & F1 & R2 & Rm2 & Ow2 & On2 & Cl2 & Bk2). unfold fout in E2.
      destruct (fast_elems C s e a1 0 l h1) as [[h1' [[i1 e1]|]]| |]; cbn in E2; try discriminate. injection E2 as -> -> ->. cbn [hlift gsim].
      exists h2. split; [reflexivity|]. exists FF. split; [|split].
      * eapply (rep_agree w64 (DSlice t) L); [exact R|]. split; [intros y _; rewrite Cl2; apply Cl1|apply Bf, Bk2].
      * eapply own_perm; [exact Ow2| |intros b; rewrite !in_app_iff; tauto]. destruct Ow2 as (_ & B & _). rewrite nodup_app in B. tauto.
      * eapply only_sub; [apply OnF, On2|]. intros b. rewrite !in_app_iff. tauto.
    + unfold fout in Q. destruct (fast_elems C s e a1 0 l h1) as [[h1' [[i1 e1]|]]| |]; cbn in Q; try discriminate. reflexivity.
Qed.

(** ** Slices of any element type *)
Lemma null_cell d n h p g F g' : (exists c, holds h p n c /\ is_poison c = false) -> 0 < n -> dsize d = n -> own h p F ->
  (forall h', holds h' p n CZero -> rep d h' p g' []) ->
  rep d h p g F -> exists h', store h p n CZero = Ok h' /\ post d h p F h' g'.
Proof.
  intros (c & Hc & Np) Hn Sz Ow Mk R. destruct (store_cell h p n c CZero Hn Hc Np) as (h' & E & Hh & _ & _ & Ow1 & On1).
  exists h'. split; [exact E|]. exists []. split; [apply Mk, Hh|]. rewrite Sz. split; [apply Ow1; eapply own_nil, Ow|apply On1; intros b []].
Qed.

Lemma slice_good t : layout t -> good t (dech t) (dval t) -> good (DSlice t) (dech (DSlice t)) (dval (DSlice t)).
Proof.
  intros Lt Gd v h p g F L R Ow. pose proof (wb_pos w64) as Wp.
  assert (Cell : exists c, holds h p (3 * W) c /\ is_poison c = false).
  { destruct (slice_view C (mt w64 t) h p g F R) as (c & data & a & vis & hid & F' & Hc & Np & _). eauto. }
  assert (Ke : forall i e, gsim (post (DSlice t) h p F) (HErr i e h) (VErr i e g)) by (intros; exists h; split; [reflexivity|]; apply post_refl; assumption).
  assert (Nl : exists h', store h p (3 * W) CZero = Ok h' /\ post (DSlice t) h p F h' (VSlice None)).
  { eapply null_cell; try eassumption; [lia|reflexivity|]. intros h' Hh. exists CZero. auto. }
  destruct v as [i|i b|i r|i r|i r|i j l|i j l]; cbn [Dec.dech Dval.dval jidx].
  - unfold scalar_h, leaf. cbn [f_ty mkfr].
    assert (Te : (t = DEmpty /\ null_tok C (dt_et (DSlice t)) p h = Ok h) \/ (t <> DEmpty /\ null_tok C (dt_et (DSlice t)) p h = store h p (3 * W) CZero)).
    { destruct t; try (right; split; [discriminate|reflexivity]); [|left; split; reflexivity]. destruct x; right; (split; [discriminate|reflexivity]). }
    destruct Te as [[-> ->]|[Nt ->]]; cbn [hlift].
    + exists h. split; [reflexivity|apply post_refl; assumption].
    + destruct Nl as (h' & -> & P). cbn [hlift]. destruct t; try congruence; exists h'; split; try reflexivity; exact P.
  - unfold scalar_h, leaf. cbn [f_ty mkfr]. destruct t; try (apply Ke). destruct x; apply Ke.
  - unfold scalar_h, leaf. cbn [f_ty mkfr]. destruct t; try (apply Ke). destruct x; apply Ke.
  - unfold scalar_h, leaf. cbn [f_ty mkfr]. destruct t; try (apply Ke). destruct x; apply Ke.
  - unfold scalar_h, leaf, str_tok. cbn [f_ty mkfr]. destruct t; try (apply Ke). destruct x; apply Ke.
  - apply lexed_arr in L as (_ & _ & _ & L). destruct (fast_et t) as [e|] eqn:Fe.
    + destruct t as [x| | | | | | | | | |]; try discriminate.
      * assert (Ne : (match e with ESliceEmpty => hlift (store h p (3 * W) (CSlice (0%nat, 0) (Z.of_nat (length l)) (Z.of_nat (length l)))) HOk | e => fast_h C s e l p h end) = fast_h C s e l p h).
        { destruct x; try discriminate; injection Fe as <-; reflexivity. }
        rewrite Ne. exact (fast_good x e Fe Gd l h p g F L R Ow).
      * injection Fe as <-. destruct Cell as (c & Hc & Np).
        destruct (store_cell h p (3 * W) c (CSlice (0%nat, 0) (Z.of_nat (length l)) (Z.of_nat (length l)))) as (h' & E & Hh & Nx & Bk & Ow1 & On1); [lia|exact Hc|exact Np|].
        rewrite E. cbn [hlift gsim]. exists h'. split; [reflexivity|]. exists []. split; [|split; [apply Ow1; eapply own_nil, Ow|apply On1; intros b []]].
        cbn [Value.rep]. eexists. split; [exact Hh|]. exists (repeat (VStruct []) (length l)), [], []. rewrite repeat_length. cbn [length Dt.dsize]. rewrite Nat.add_0_r, app_nil_r.
        repeat split; try reflexivity.
        -- intros y Hy. lia.
        -- apply reps_zero; [rewrite slots_length, repeat_length; reflexivity|]. intros i0 r z Hr Hz. rewrite nth_error_slots in Hr. rewrite nth_error_repeat in Hz.
           destruct (i0 <? length l)%nat; [|discriminate]. injection Hr as <-. injection Hz as <-. split; reflexivity.
    + assert (Ev : (match t with DEmpty => VOk (VSlice (Some (repeat (VStruct []) (length l), []))) | _ => slicev (dval t) (zero t) false (isElemComposite (dt_et t)) l g end) = slicev (dval t) (zero t) false (isElemComposite (dt_et t)) l g) by (destruct t; try reflexivity; discriminate).
      rewrite Ev. apply (slice_h_good C (lexed s) (mt w64 t)); try assumption; [apply nice_mt, Lt|apply dech_size0, Lt].
  - apply Ke.
Qed.

(** ** Maps *)
Lemma mkey_view k k' : mkey_eqb k k' = gkey_eqb (kview k) (kview k').
Proof. destruct k, k'; reflexivity. Qed.
Lemma entries_none R sz h k : forall l m F, rep_entries R sz h l m F -> find_key l k = None ->
  getk m (kview k) = None /\ forall g, putk m (kview k) g = m ++ [(kview k, g)].
Proof.
  induction l as [|[k0 b] l IH]; intros [|[k' g'] m] F H Fk; cbn in H; try contradiction; [split; reflexivity|].
  destruct H as (F1 & F2 & -> & -> & _ & _ & H). cbn in Fk. rewrite mkey_view in Fk. cbn.
  destruct (gkey_eqb (kview k0) (kview k)); [discriminate|]. destruct (IH _ _ H Fk) as [-> E]. split; [reflexivity|]. intros g. rewrite E. reflexivity.
Qed.
Lemma entries_focus R sz h k vb : stable R sz -> forall l m F, rep_entries R sz h l m F -> find_key l k = Some vb ->
  exists g F1 Fv F2, getk m (kview k) = Some g /\ F = F1 ++ [vb] ++ Fv ++ F2 /\ room h (Some (vb, 0)) sz /\ R h (Some (vb, 0)) g Fv /\
  forall h' g' Fv', R h' (Some (vb, 0)) g' Fv' -> room h' (Some (vb, 0)) sz -> (forall b, In b (F1 ++ F2) -> blk h' b = blk h b) ->
    rep_entries R sz h' l (putk m (kview k) g') (F1 ++ [vb] ++ Fv' ++ F2).
Proof.
  intros St. induction l as [|[k0 b] l IH]; intros [|[k' g0] m] F H Fk; cbn in H; try contradiction; [discriminate|].
  destruct H as (Fa & Fb & -> & -> & Rm & Ra & H). cbn in Fk. cbn [getk putk]. rewrite mkey_view in Fk. destruct (gkey_eqb (kview k0) (kview k)) eqn:Ek.
  - injection Fk as ->. exists g0, [], Fa, Fb. split; [reflexivity|]. split; [reflexivity|]. split; [exact Rm|]. split; [exact Ra|].
    intros h' g' Fv' Rv Rm' Bk. cbn. exists Fv', Fb. repeat split; try assumption. eapply entries_agree; [exact St|exact H|]. exact Bk.
  - destruct (IH _ _ H Fk) as (g & F1 & Fv & F2 & Eg & -> & Rmv & Rv & Upd). exists g, (b :: Fa ++ F1), Fv, F2. split; [exact Eg|].
    split; [cbn; rewrite <- app_assoc; reflexivity|]. split; [exact Rmv|]. split; [exact Rv|].
    intros h' g' Fv' Rv' Rm' Bk. cbn [rep_entries app]. exists Fa, (F1 ++ [vb] ++ Fv' ++ F2). split; [cbn; rewrite <- app_assoc; reflexivity|]. split; [reflexivity|].
    assert (Bb : blk h' b = blk h b) by (apply Bk; left; reflexivity). split; [intros x Hx; unfold cellat; rewrite Bb; exact (Rm x Hx)|]. split.
    + eapply St; [exact Ra|]. split; [intros x _; unfold cellat; rewrite Bb; reflexivity|]. intros c Hc. apply Bk. cbn. rewrite !in_app_iff. tauto.
    + apply Upd; [exact Rv'|exact Rm'|]. intros c Hc. apply Bk. cbn. rewrite in_app_iff in Hc. rewrite !in_app_iff. tauto.
Qed.
Lemma entries_app R sz h : forall l m F k b g Fv, rep_entries R sz h l m F -> room h (Some (b, 0)) sz -> R h (Some (b, 0)) g Fv ->
  rep_entries R sz h (l ++ [(k, b)]) (m ++ [(kview k, g)]) (F ++ b :: Fv).
Proof.
  induction l as [|[k0 b0] l IH]; intros [|[k' g'] m] F k b g Fv H Rm Rv; cbn in H; try contradiction.
  - subst F. cbn. exists Fv, []. rewrite app_nil_r. auto.
  - destruct H as (F1 & F2 & -> & -> & Rm0 & R0 & H). cbn. exists F1, (F2 ++ b :: Fv). rewrite <- app_assoc. split; [reflexivity|]. repeat split; try assumption.
    apply IH; assumption.
Qed.
Lemma find_key_app l k b k' : find_key l k = None -> mkey_eqb k' k = true -> find_key (l ++ [(k', b)]) k = Some b.
Proof. induction l as [|[k0 b0] l IH]; cbn; intros H E; [rewrite E; reflexivity|]. destruct (mkey_eqb k0 k); [discriminate|auto]. Qed.
Lemma gkey_refl k : gkey_eqb k k = true.
Proof. destruct k; cbn; [apply bytes_eqb_refl|apply Z.eqb_refl|apply bytes_eqb_refl]. Qed.
Lemma putk_keys m k g g0 : getk m k = Some g0 -> map fst (putk m k g) = map fst m.
Proof. induction m as [|[k' g'] m IH]; cbn; [discriminate|]. destruct (gkey_eqb k' k); cbn; [reflexivity|]. intros H. rewrite IH by exact H. reflexivity. Qed.
Lemma putk_twice m k g g0 : putk (putk m k g0) k g = putk m k g.
Proof.
  induction m as [|[k' g'] m IH]; cbn; [rewrite gkey_refl; reflexivity|]. destruct (gkey_eqb k' k) eqn:E; cbn; rewrite E; [reflexivity|]. rewrite IH. reflexivity.
Qed.
Lemma getk_put m k g : getk (putk m k g) k = Some g.
Proof. induction m as [|[k' g'] m IH]; cbn; [rewrite gkey_refl; reflexivity|]. destruct (gkey_eqb k' k) eqn:E; cbn; rewrite E; [reflexivity|exact IH]. Qed.
Lemma distinct_app m k : distinct m -> Forall (fun k' => gkey_eqb k' k = false) m -> distinct (m ++ [k]).
Proof.
  induction m as [|k' m IH]; intros D Fa; cbn; [auto|]. destruct D as [D1 D2]. inversion Fa as [|? ? F1 F2]; subst. split; [|apply IH; assumption].
  apply Forall_app. split; [exact D1|]. constructor; [exact F1|constructor].
Qed.
Lemma getk_none_keys m k : getk m k = None -> Forall (fun k' => gkey_eqb k' k = false) (map fst m).
Proof. induction m as [|[k' g] m IH]; cbn; [constructor|]. destruct (gkey_eqb k' k) eqn:E; [discriminate|]. constructor; auto. Qed.

Lemma key_view k i raw : string_body raw ->
  match key_h C k i raw with
  | Ok (inl (Some key)) => keyv C k raw = Ok (inl (kview key))
  | Ok (inr e) => keyv C k raw = Ok (inr e)
  | Pan => keyv C k raw = Pan
  | _ => False
  end.
Proof.
  intros B. unfold key_h, map_key, keyv. destruct k as [|k|id z]; cbn [f_ty mkfr set_rt dkey_et].
  - destruct (unesc_str_txt C (i + 1) raw B) as (g & -> & E). cbn. rewrite E. reflexivity.
  - assert (Nc : int_of_str C k raw <> Cor).
    { unfold int_of_str. destruct (ReadNumber raw) as [[? []]|]; try discriminate. destruct (negb (nk_signed k) && minus raw); [discriminate|]. destruct (atoi w64 k raw) as [[z []]|]; discriminate. }
    destruct (int_of_str C k raw) as [[z|e]| |]; cbn; congruence.
  - cbn [user_id f_rt rbind set_rt mkfr f_ty]. unfold unesc, txt. destruct (Valid_body raw B) as (b & ->). cbn [rbind]. destruct (c_ut C id [] b) as [new [er|]]; cbn; reflexivity.
Qed.

(** mapassign, and clearing of a struct value. *)
Lemma assign_spec t m h p F key isstruct : nice t -> rep_map t h p (VMap (Some m)) F -> own h p F ->
  exists b vb h1 h2 F2 l2, load h p W = Ok (CMap b) /\ mapassign h (Some b) key (m_size t) = Ok ((vb, 0), h1) /\
    (if isstruct : bool then clear h1 (Some (vb, 0)) (m_size t) else Ok h1) = Ok h2 /\
    blk h2 b = BMap l2 /\ find_key l2 key = Some vb /\ holds h2 p W (CMap b) /\
    rep_map t h2 p (VMap (Some (putk m (kview key) (match getk m (kview key) with Some g => if isstruct then m_zero t else g | None => m_zero t end)))) F2 /\
    own h2 p F2 /\ only h h2 p W F F2.
Proof.
  intros L R Ow. pose proof (wb_pos w64) as Wp. pose proof (nice_size t L) as Hs. cbn [Value.rep] in R. destruct R as (c & Hc & R).
  destruct c; try contradiction; [destruct R; discriminate|]. destruct R as (l & m' & F' & Eb & [= <-] & Re & Ds & ->).
  assert (Npb : pblk p <> Some b) by (destruct Ow as (_ & _ & D & _); apply (D b); left; reflexivity).
  exists b. rewrite (load_holds h p W (CMap b)) by (assumption || lia || reflexivity).
  unfold mapassign. rewrite Eb. destruct (find_key l key) as [vb|] eqn:Fk.
  - (* existing key *)
    destruct (entries_focus _ _ _ _ _ (nice_stable t L) _ _ _ Re Fk) as (g & F1 & Fv & F2 & Eg & -> & Rm & Rv & Upd). rewrite Eg.
    assert (OwB : own h p ((b :: F1) ++ qblk (Some (vb, 0)) ++ Fv ++ F2)) by exact Ow.
    assert (Zr : exists h2 g2 Fv2, (if isstruct then clear h (Some (vb, 0)) (m_size t) else Ok h) = Ok h2 /\ g2 = (if isstruct then m_zero t else g) /\
       m_rep t h2 (Some (vb, 0)) g2 Fv2 /\ own h2 (Some (vb, 0)) Fv2 /\ only h h2 (Some (vb, 0)) (m_size t) Fv Fv2).
    { pose proof (own_inner _ _ _ _ _ _ OwB) as Owv. destruct isstruct.
      - unfold clear. destruct (Z.leb_spec (m_size t) 0).
        + assert (S : m_size t = 0) by lia. destruct (nice_size0 t L S _ _ _ _ Rv) as (-> & -> & Any). exists h, (m_zero t), [].
          split; [reflexivity|]. split; [reflexivity|]. split; [apply Any|]. split; [exact Owv|apply only_refl].
        + destruct (room_mem h vb 0 (m_size t)) as (size & cells & Em & _ & Hsz); [lia|exact Rm|]. rewrite Em. replace ((0 <=? 0) && (0 + m_size t <=? size)) with true by lia.
          eexists _, (m_zero t), []. split; [reflexivity|]. split; [reflexivity|].
          assert (Eq : forall kk, blk (set_blk h vb kk) vb = kk) by (intros kk; cbn; rewrite Nat.eqb_refl; reflexivity).
          split; [|split].
          * apply (nice_zero t L). intros x Hx. unfold cellat. rewrite Eq. replace ((0 <=? 0 + x) && (0 + x <? size)) with true by lia.
            replace ((0 <=? 0 + x) && (0 + x <? 0 + m_size t)) with true by lia. reflexivity.
          * eapply own_nil, own_eq; [exact Owv|reflexivity].
          * split; [reflexivity|]. split; [|split; [|split]].
            -- intros c _ _ Hcb. cbn in *. destruct (Nat.eqb_spec c vb); [congruence|reflexivity].
            -- intros x Hx. unfold cellat. rewrite Eq, Em. replace ((0 <=? 0 + x) && (0 + x <? 0 + m_size t)) with false by lia. reflexivity.
            -- intros x. unfold cellat. rewrite Eq, Em. destruct ((0 <=? 0 + x) && (0 + x <? size)); split; congruence.
            -- intros c [].
      - exists h, g, Fv. split; [reflexivity|]. split; [reflexivity|]. split; [exact Rv|]. split; [exact Owv|apply only_refl]. }
    destruct Zr as (h2 & g2 & Fv2 & Ec & -> & Rv2 & Ow2 & On2).
    destruct (box h h2 p (Some (vb, 0)) (b :: F1) Fv Fv2 F2 _ W OwB Ow2 On2) as (OwF & OnF & BkF & ClF).
    assert (Ebb : blk h2 b = blk h b) by (apply BkF; right; left; reflexivity).
    exists vb, h, h2, (b :: F1 ++ [vb] ++ Fv2 ++ F2), l. split; [reflexivity|]. split; [reflexivity|]. split; [exact Ec|]. split; [rewrite Ebb; exact Eb|].
    split; [exact Fk|]. pose proof (holds_eq _ _ _ _ _ ClF Hc) as Hc2. split; [exact Hc2|]. split; [|split; [exact OwF|exact OnF]].
    cbn [Value.rep]. exists (CMap b). split; [exact Hc2|]. exists l. eexists. exists (F1 ++ [vb] ++ Fv2 ++ F2). split; [rewrite Ebb; exact Eb|]. split; [reflexivity|].
    split; [|split; [|reflexivity]].
    + apply Upd; [exact Rv2| |].
      * intros x Hx. destruct On2 as (_ & _ & _ & En & _). rewrite En. apply Rm, Hx.
      * intros c Hcc. apply BkF. right. right. exact Hcc.
    + rewrite (putk_keys _ _ _ _ Eg). exact Ds.
  - (* new key *)
    destruct (entries_none _ _ _ _ _ _ _ Re Fk) as [Eg Ep]. rewrite Eg, Ep. cbn [alloc_blk].
    set (vb := nxt h). set (h1 := set_blk (Heap (S (nxt h)) (fun x => if (x =? nxt h)%nat then BMem (m_size t) (fun _ => CZero) else blk h x)) b (BMap (l ++ [(key, vb)]))).
    destruct Ow as (O1 & O2 & O3 & O4). assert (Ob : (0 < b < nxt h)%nat) by (apply (O3 b); left; reflexivity).
    assert (Nb : vb <> b) by (unfold vb; lia).
    assert (Bv : blk h1 vb = BMem (m_size t) (fun _ => CZero)).
    { unfold h1. cbn. apply Nat.eqb_neq in Nb. rewrite Nb. unfold vb. rewrite Nat.eqb_refl. reflexivity. }
    assert (Bb : blk h1 b = BMap (l ++ [(key, vb)])) by (unfold h1; cbn; rewrite Nat.eqb_refl; reflexivity).
    assert (Bo : forall c, c <> b -> c <> vb -> blk h1 c = blk h c).
    { intros c H1 H2. unfold h1. cbn. apply Nat.eqb_neq in H1, H2. rewrite H1. unfold vb in H2. rewrite H2. reflexivity. }
    assert (Cz : forall x, 0 <= x < m_size t -> cellat h1 (Some (vb, 0)) x = Some CZero).
    { intros x Hx. unfold cellat. rewrite Bv. replace ((0 <=? 0 + x) && (0 + x <? m_size t)) with true by lia. reflexivity. }
    assert (Zr : exists h2, (if isstruct then clear h1 (Some (vb, 0)) (m_size t) else Ok h1) = Ok h2 /\ nxt h2 = nxt h1 /\
       (forall c, c <> vb -> blk h2 c = blk h1 c) /\ (forall x, 0 <= x < m_size t -> cellat h2 (Some (vb, 0)) x = Some CZero)).
    { destruct isstruct; [|exists h1; auto]. unfold clear. destruct (Z.leb_spec (m_size t) 0); [exists h1; auto|].
      rewrite Bv. replace ((0 <=? 0) && (0 + m_size t <=? m_size t)) with true by lia. eexists. split; [reflexivity|]. split; [reflexivity|]. split.
      - intros c Hcc. cbn. apply Nat.eqb_neq in Hcc. rewrite Hcc. reflexivity.
      - intros x Hx. unfold cellat. cbn [blk set_blk]. rewrite Nat.eqb_refl. replace ((0 <=? 0 + x) && (0 + x <? m_size t)) with true by lia.
        replace ((0 <=? 0 + x) && (0 + x <? 0 + m_size t)) with true by lia. reflexivity. }
    destruct Zr as (h2 & Ec & Nx2 & B2 & Cz2).
    assert (B2b : blk h2 b = BMap (l ++ [(key, vb)])) by (rewrite B2 by (intros Q; apply Nb; symmetry; exact Q); exact Bb).
    assert (B2o : forall c, c <> b -> (c < nxt h)%nat -> blk h2 c = blk h c) by (intros c H1 H2; rewrite B2 by (unfold vb; lia); apply Bo; [exact H1|unfold vb; lia]).
    assert (Cl : forall x, cellat h2 p x = cellat h p x).
    { intros x. unfold cellat. destruct p as [[pb po]|]; [|reflexivity]. rewrite B2o; [reflexivity|intros ->; apply Npb; reflexivity|apply O4; reflexivity]. }
    exists vb, h1, h2, (b :: F' ++ [vb]), (l ++ [(key, vb)]). split; [reflexivity|]. split; [reflexivity|]. split; [exact Ec|]. split; [exact B2b|].
    split; [apply find_key_app; [exact Fk|rewrite mkey_view; apply gkey_refl]|]. pose proof (holds_eq _ _ _ _ _ Cl Hc) as Hc2. split; [exact Hc2|].
    assert (NdF : NoDup (b :: F' ++ [vb])).
    { rewrite NoDup_cons_iff in *. destruct O2 as [O2a O2b]. split.
      - rewrite in_app_iff. intros [Q|[Q|[]]]; [contradiction|]. apply Nb. exact Q.
      - apply nodup_app. repeat split; [exact O2b|constructor; [tauto|constructor]|]. intros c Hcc [<-|[]]. destruct (O3 vb) as [Q _]; [right; exact Hcc|]. unfold vb in Q. lia. }
    split; [|split].
    + cbn [Value.rep]. exists (CMap b). split; [exact Hc2|]. exists (l ++ [(key, vb)]). eexists. exists (F' ++ [vb]). split; [exact B2b|]. split; [reflexivity|].
      split; [|split; [|reflexivity]].
      * apply entries_app.
        -- eapply entries_agree; [apply (nice_stable t L)|exact Re|]. intros c Hcc. destruct (O3 c) as [Q1 Q2]; [right; exact Hcc|]. apply B2o; [|lia].
           intros ->. rewrite NoDup_cons_iff in O2. tauto.
        -- intros x Hx. rewrite Cz2 by exact Hx. discriminate.
        -- apply (nice_zero t L); exact Cz2.
      * rewrite map_app. apply distinct_app; [exact Ds|]. apply getk_none_keys, Eg.
    + assert (Nx : nxt h2 = S (nxt h)) by (rewrite Nx2; reflexivity). split; [lia|]. split; [exact NdF|]. split.
      * intros c Hcc. rewrite Nx. destruct Hcc as [<-|Hcc]; [split; [lia|exact Npb]|]. apply in_app_or in Hcc as [Hcc|[<-|[]]].
        -- destruct (O3 c) as [Q1 Q2]; [right; exact Hcc|]. split; [lia|exact Q2].
        -- unfold vb. split; [lia|]. intros Q. apply O4 in Q. lia.
      * intros c Hcc. apply O4 in Hcc. lia.
    + split; [rewrite Nx2; cbn; lia|]. split; [|split; [|split]].
      * intros c Hlt Hn Hp. apply B2o; [|exact Hlt]. intros ->. apply Hn. left. reflexivity.
      * intros x _. apply Cl.
      * intros x. rewrite Cl. tauto.
      * intros c Hcc. destruct Hcc as [<-|Hcc]; [left; left; reflexivity|]. apply in_app_or in Hcc as [Hcc|[<-|[]]]; [left; right; exact Hcc|right; unfold vb; lia].
Qed.

Definition epost (t : mty) (h : heap) (p : ptr) (F : list nat) (h' : heap) (m : list (gkey * gval)) : Prop :=
  postm (mmap t) h p F h' (VMap (Some m)).
Lemma entries_good (Q : jv -> Prop) k t f kd isstruct : nice t -> goodm Q t kd f ->
  forall l h p m F, Forall (fun x => key_lexed s x /\ Q (snd x)) l -> rep_map t h p (VMap (Some m)) F -> own h p F ->
  gsim (epost t h p F) (entries_h C k kd isstruct (m_size t) l p h) (entriesv C k f isstruct (m_zero t) l m).
Proof.
  intros L Gd. induction l as [|x l IH]; intros h p m F Lx R Ow.
  - cbn. exists h. split; [reflexivity|]. apply postm_refl; assumption.
  - inversion Lx as [|? ? [[_ K] L1] L2]; subst. cbn [entries_h entriesv].
    pose proof (key_view k (fst (fst x)) (snd (fst x)) K) as Kv.
    assert (Ld : exists b, load h p W = Ok (CMap b)).
    { pose proof (wb_pos w64) as Wp. cbn [Value.rep] in R. destruct R as (c & Hc & R). destruct c; try contradiction; [destruct R; discriminate|].
      exists b. apply load_holds; [lia|exact Hc|reflexivity]. }
    destruct Ld as (b & Ld). rewrite Ld. cbn [rbind as_map hlift].
    destruct (key_h C k (fst (fst x)) (snd (fst x))) as [[[key|]|e]| |]; try contradiction; rewrite Kv; cbn [hlift].
    2: { exists h. split; [reflexivity|]. apply postm_refl; assumption. }
    2: reflexivity.
    destruct (assign_spec t m h p F key isstruct L R Ow) as (b' & vb & h1 & h2 & F2 & l2 & Ld' & Em & Ec & Eb & Fk & Hc2 & R2 & Ow2 & On2).
    rewrite Ld in Ld'. injection Ld' as <-. rewrite Em. cbn [hlift]. match goal with |- context[hlift ?X _] => replace X with (@Ok heap h2) by (symmetry; exact Ec) end. cbn [hlift]. match goal with |- context[hbind ?X _] => change X with (kd (snd x) (Some (vb, 0)) h2) end.
    set (old := match getk m (kview key) with Some g => if isstruct then m_zero t else g | None => m_zero t end) in *.
    pose proof R2 as R2'. cbn [Value.rep] in R2'. destruct R2' as (c & Hc & R2').
    assert (Ecb : c = CMap b). { destruct Hc as [_ Hc], Hc2 as [_ Hc2]. congruence. } subst c.
    destruct R2' as (l2' & m2 & F' & Eb' & Em2 & Re & Ds & ->). injection Em2 as <-. rewrite Eb in Eb'. injection Eb' as <-.
    destruct (entries_focus _ _ _ _ _ (nice_stable t L) _ _ _ Re Fk) as (g & F1 & Fv & Fw & Eg & -> & Rm & Rv & Upd).
    rewrite getk_put in Eg. injection Eg as <-.
    assert (OwB : own h2 p ((b :: F1) ++ qblk (Some (vb, 0)) ++ Fv ++ Fw)) by exact Ow2.
    pose proof (Gd (snd x) h2 (Some (vb, 0)) old Fv L1 Rv (own_inner _ _ _ _ _ _ OwB)) as Qx.
    assert (Fin : forall h3 g3, postm t h2 (Some (vb, 0)) Fv h3 g3 -> epost t h p F h3 (putk m (kview key) g3)).
    { intros h3 g3 (Fv3 & Rv3 & Ow3 & On3). destruct (box h2 h3 p (Some (vb, 0)) (b :: F1) Fv Fv3 Fw _ W OwB Ow3 On3) as (OwF & OnF & BkF & ClF).
      exists ((b :: F1) ++ [vb] ++ Fv3 ++ Fw). split; [|split; [exact OwF|eapply only_trans; [exact On2|exact OnF]]].
      assert (Ebb : blk h3 b = blk h2 b) by (apply BkF; right; left; reflexivity).
      cbn [Value.rep]. exists (CMap b). split; [eapply holds_eq; [exact ClF|exact Hc2]|]. exists l2. eexists. exists (F1 ++ [vb] ++ Fv3 ++ Fw).
      split; [rewrite Ebb; exact Eb|]. split; [reflexivity|]. split; [|split; [|reflexivity]].
      - rewrite <- (putk_twice m (kview key) g3 old). apply Upd; [exact Rv3| |].
        + intros y Hy. destruct On3 as (_ & _ & _ & En & _). rewrite En. apply Rm, Hy.
        + intros c Hcc. apply BkF. right. right. exact Hcc.
      - rewrite <- (putk_twice m (kview key) g3 old), (putk_keys _ _ _ _ (getk_put m (kview key) old)). exact Ds. }
    destruct (f (snd x) old) as [g3|i e g3|]; cbn [gsim] in Qx.
    + destruct Qx as (h3 & -> & P). cbn [hbind]. destruct (Fin h3 g3 P) as (F3 & R3 & Ow3 & On3).
      eapply gsim_imp; [apply (IH h3 p _ F3 L2 R3 Ow3)|]. intros h4 m4 (F4 & R4 & Ow4 & On4). exists F4. split; [exact R4|]. split; [exact Ow4|]. eapply only_trans; eassumption.
    + destruct Qx as (h3 & -> & P). cbn [hbind gsim]. eauto.
    + rewrite Qx. reflexivity.
Qed.

Lemma init_map_spec t h p g F : rep_map t h p g F -> own h p F ->
  exists h1 F1, init_map C h p = Ok h1 /\ rep_map t h1 p (VMap (Some (match g with VMap (Some m) => m | _ => [] end))) F1 /\ own h1 p F1 /\ only h h1 p W F F1.
Proof.
  intros R Ow. pose proof (wb_pos w64) as Wp.
  unfold init_map. pose proof R as R'. cbn [Value.rep] in R. destruct R as (c & Hc & R). destruct c; try contradiction.
  - destruct R as [-> ->]. rewrite (load_holds h p W CZero) by (assumption || lia || reflexivity). cbn [rbind as_map]. unfold makemap. cbn [alloc_blk].
    set (b := nxt h). set (h1 := Heap (S b) (fun x => if (x =? b)%nat then BMap [] else blk h x)).
    destruct Ow as (O1 & _ & _ & O4).
    assert (Cl : forall x, cellat h1 p x = cellat h p x).
    { intros x. unfold cellat, h1. destruct p as [[pb po]|]; [|reflexivity]. cbn [blk]. specialize (O4 pb eq_refl). replace (pb =? b)%nat with false by (symmetry; apply Nat.eqb_neq; unfold b; lia). reflexivity. }
    assert (Pb : pblk p <> Some b) by (intros Q; apply O4 in Q; unfold b in Q; lia).
    destruct (store_cell h1 p W CZero (CMap b)) as (h2 & E & Hh & Nx & Bk & Ow1 & On1); [lia|eapply holds_eq; [exact Cl|exact Hc]|reflexivity|].
    rewrite E. exists h2, [b]. split; [reflexivity|].
    assert (OwB : own h1 p [b]).
    { split; [cbn; lia|]. split; [constructor; [tauto|constructor]|]. split; [intros c [<-|[]]; cbn; split; [unfold b; lia|exact Pb]|]. intros c Hcc. apply O4 in Hcc. cbn. lia. }
    split; [|split].
    + cbn [Value.rep]. exists (CMap b). split; [exact Hh|]. exists [], [], []. split; [rewrite Bk by exact Pb; cbn; rewrite Nat.eqb_refl; reflexivity|]. repeat split.
    + apply Ow1, OwB.
    + eapply only_trans with (h1 := h1) (F1 := [b]); [|apply On1, incl_refl]. split; [cbn; lia|]. split; [|split; [|split]].
      * intros c Hlt _ _. cbn. replace (c =? b)%nat with false by (symmetry; apply Nat.eqb_neq; unfold b; lia). reflexivity.
      * intros x _. apply Cl.
      * intros x. rewrite Cl. tauto.
      * intros c [<-|[]]. right. unfold b. lia.
  - rewrite (load_holds h p W (CMap b)) by (assumption || lia || reflexivity). cbn [rbind as_map]. exists h, F. split; [reflexivity|].
    pose proof R as (l0 & m0 & F' & _ & -> & _). split; [exact R'|]. split; [exact Ow|apply only_refl].
Qed.

Lemma map_good k t : layout t -> good t (dech t) (dval t) -> good (DMap k t) (dech (DMap k t)) (dval (DMap k t)).
Proof.
  intros Lt Gd v h p g F L R Ow. pose proof (wb_pos w64) as Wp.
  assert (Cell : exists c, holds h p W c /\ is_poison c = false).
  { cbn [Value.rep] in R. destruct R as (c & Hc & R). exists c. split; [exact Hc|]. destruct c; try reflexivity; contradiction. }
  assert (Ke : forall i e, gsim (post (DMap k t) h p F) (HErr i e h) (VErr i e g)) by (intros; exists h; split; [reflexivity|]; apply post_refl; assumption).
  assert (Nl : exists h', store h p W CZero = Ok h' /\ post (DMap k t) h p F h' (VMap None)).
  { eapply null_cell; try eassumption; [reflexivity|]. intros h' Hh. exists CZero. auto. }
  destruct v as [i|i b|i r|i r|i r|i j l|i j l]; cbn [Dec.dech Dval.dval jidx]; try apply Ke.
  - unfold scalar_h, leaf. cbn [f_ty mkfr dt_et null_tok]. destruct Nl as (h' & -> & P). cbn. eauto.
  - apply lexed_obj in L as (_ & _ & _ & L).
    destruct (init_map_spec (mt w64 t) h p g F R Ow) as (h1 & F1 & -> & R1 & Ow1 & On1). cbn [hlift].
    eapply gsim_map; [apply (entries_good (lexed s) k (mt w64 t) (dval t) (dech t) (is_struct t) (nice_mt C t Lt) Gd l h1 p _ F1 L R1 Ow1)|].
    intros h2 m2 (F2 & R2 & Ow2 & On2). exists F2. split; [exact R2|]. split; [exact Ow2|]. eapply only_trans; eassumption.
Qed.

(** map[string]string *)
Lemma mss_view l : Forall (fun x => key_lexed s x /\ lexed s (snd x)) l -> forall acc,
  match mss_h C l acc with
  | inl m => mssv l (map (fun x => (chars (fst x), chars (snd x))) acc) = inl (map (fun x => (chars (fst x), chars (snd x))) m)
  | inr e => mssv l (map (fun x => (chars (fst x), chars (snd x))) acc) = inr e
  end.
Proof.
  induction 1 as [|x l [[_ K] Lx] Ll IH]; intros acc; [reflexivity|]. cbn [mss_h mssv].
  destruct (snd x) as [i|i b|i r|i r|i r|i j l'|i j l']; try reflexivity.
  - specialize (IH (assoc_put acc (str_of C (fst (fst x)) (snd (fst x))) (SOwn []))). rewrite (map_assoc_put chars), (str_of_txt C _ _ K) in IH. exact IH.
  - destruct Lx as [_ B]. specialize (IH (assoc_put acc (str_of C (fst (fst x)) (snd (fst x))) (str_of C i r))). rewrite (map_assoc_put chars), (str_of_txt C _ _ K), (str_of_txt C _ _ B) in IH. exact IH.
Qed.
Lemma mss_good : good DMSS (dech DMSS) (dval DMSS).
Proof.
  intros v h p g F L R Ow. pose proof (wb_pos w64) as Wp.
  assert (Cell : exists c, holds h p W c /\ is_poison c = false).
  { cbn [Value.rep] in R. destruct R as (_ & c & Hc & R). exists c. split; [exact Hc|]. destruct c; try reflexivity; contradiction. }
  assert (Ke : forall i e, gsim (post DMSS h p F) (HErr i e h) (VErr i e g)) by (intros; exists h; split; [reflexivity|]; apply post_refl; assumption).
  assert (Nl : exists h', store h p W CZero = Ok h' /\ post DMSS h p F h' (VMSS None)).
  { eapply null_cell; try eassumption; [reflexivity|]. intros h' Hh. split; [reflexivity|]. exists CZero. auto. }
  destruct v as [i|i b|i r|i r|i r|i j l|i j l]; cbn [Dec.dech Dval.dval jidx]; try apply Ke.
  - unfold scalar_h, leaf. cbn [f_ty mkfr dt_et null_tok]. destruct Nl as (h' & -> & P). cbn. eauto.
  - apply lexed_obj in L as (_ & _ & _ & L). pose proof (mss_view l L []) as Q. cbn [map] in Q. destruct (mss_h C l []) as [m|[i' e']]; rewrite Q; [|apply Ke].
    destruct Cell as (c & Hc & Np). destruct (store_cell h p W c (CMSS m)) as (h' & E & Hh & Nx & Bk & Ow1 & On1); [lia|exact Hc|exact Np|].
    rewrite E. cbn [hlift gsim]. exists h'. split; [reflexivity|]. exists []. split; [|split; [apply Ow1; eapply own_nil, Ow|apply On1; intros b []]].
    split; [reflexivity|]. exists (CMSS m). auto.
Qed.

(** ** Pointers *)
Lemma ptr_good t : layout t -> good t (dech t) (dval t) -> good (DPtr t) (dech (DPtr t)) (dval (DPtr t)).
Proof.
  intros Lt Gd v h p g F L R Ow. pose proof (wb_pos w64) as Wp. pose proof (dsize_nonneg w64 t Lt) as Hs.
  assert (Cell : exists c, holds h p W c /\ is_poison c = false).
  { cbn [Value.rep] in R. destruct R as (c & Hc & R). exists c. split; [exact Hc|]. destruct c; try reflexivity; contradiction. }
  assert (Nl : exists h', store h p W CZero = Ok h' /\ post (DPtr t) h p F h' (VPtr None)).
  { eapply null_cell; try eassumption; [reflexivity|]. intros h' Hh. exists CZero. auto. }
  assert (Main : gsim (post (DPtr t) h p F)
    (if dsize t =? 0 then hlift (store h p W (CPtr (0%nat, 0))) (fun h => dech t v None h)
     else let '(a, h) := malloc h (dsize t) in hlift (store h p W (CPtr a)) (fun h => dech t v (Some a) h))
    (vmap (fun g => VPtr (Some g)) (dval t v (zero t)))).
  { destruct Cell as (c & Hc & Np). destruct (Z.eqb_spec (dsize t) 0) as [S|S].
    - destruct (store_cell h p W c (CPtr (0%nat, 0))) as (h1 & E & Hh & Nx & Bk & Ow1 & On1); [lia|exact Hc|exact Np|]. rewrite E. cbn [hlift].
      assert (Rz : rep t h1 None (zero t) []) by (apply rep_zero; [exact Lt|intros x Hx; lia]).
      assert (OwB : own h1 p ([] ++ qblk None ++ [] ++ [])) by (cbn; apply Ow1; eapply own_nil, Ow).
      eapply gsim_map; [apply (Gd v h1 None (zero t) [] L Rz); eapply own_inner; exact OwB|].
      intros h2 g2 (F2 & R2 & Ow2 & On2). destruct (rep_size0 w64 t Lt S _ _ _ _ R2) as (-> & -> & Any).
      destruct (box h1 h2 p None [] [] [] [] _ W OwB Ow2 On2) as (OwF & OnF & BkF & ClF). cbn [qblk app] in *.
      exists []. split; [|split; [exact OwF|eapply only_trans; [apply (On1 F []); intros b []|exact OnF]]].
      cbn [Value.rep]. exists (CPtr (0%nat, 0)). split; [eapply holds_eq; [exact ClF|exact Hh]|]. exists (zero t), []. split; [reflexivity|]. split; [apply Any|].
      rewrite S. reflexivity.
    - destruct (malloc_spec h (dsize t) p F ltac:(lia) Ow) as (h1 & -> & Nx1 & Bk1 & Bn1 & Ow1 & On1 & Cl1).
      destruct (store_cell h1 p W c (CPtr (nxt h, 0))) as (h2 & E & Hh & Nx2 & Bk2 & Ow2 & On2); [lia|eapply holds_eq; [exact Cl1|exact Hc]|exact Np|].
      rewrite E. cbn [hlift].
      assert (Pn : pblk p <> Some (nxt h)) by (destruct Ow as (_ & _ & _ & O4); intros Q; apply O4 in Q; lia).
      assert (Rz : rep t h2 (Some (nxt h, 0)) (zero t) []).
      { apply rep_zero; [exact Lt|]. intros x Hx. unfold cellat. rewrite Bk2 by exact Pn. rewrite Bn1. replace ((0 <=? 0 + x) && (0 + x <? dsize t)) with true by lia. reflexivity. }
      assert (OwB : own h2 p ([] ++ qblk (Some (nxt h, 0)) ++ [] ++ [])).
      { cbn. apply Ow2. eapply own_perm; [exact Ow1|constructor; [tauto|constructor]|]. intros b [<-|[]]. left. reflexivity. }
      eapply gsim_map; [apply (Gd v h2 (Some (nxt h, 0)) (zero t) [] L Rz); eapply own_inner; exact OwB|].
      intros h3 g3 (F3 & R3 & Ow3 & On3). destruct (box h2 h3 p (Some (nxt h, 0)) [] [] F3 [] _ W OwB Ow3 On3) as (OwF & OnF & BkF & ClF).
      rewrite app_nil_r in *. cbn [qblk app fst] in *. exists (nxt h :: F3). split; [|split; [exact OwF|]].
      + cbn [Value.rep]. exists (CPtr (nxt h, 0)). split; [eapply holds_eq; [exact ClF|exact Hh]|]. exists g3, F3. split; [reflexivity|]. split; [exact R3|].
        replace (0 <? dsize t) with true by lia. reflexivity.
      + eapply only_trans; [apply (On1 W)|]. eapply only_trans; [apply (On2 (nxt h :: F) [nxt h]); intros b [<-|[]]; left; reflexivity|rewrite app_nil_r in OnF; exact OnF]. }
  cbn [Dec.dech Dval.dval]. destruct v; try exact Main. destruct Nl as (h' & E & P). cbn [null_tok]. rewrite E. cbn. eauto.
Qed.

(** ** The refinement theorem *)
Theorem dech_good d : layout d -> good d (dech d) (dval d).
Proof.
  induction d as [x|id z|id z| |n t IH| |t IH|k t IH| |t IH|z fs IH] using dt_ind'; intros L.
  - apply scalar_good.
  - apply text_good.
  - apply json_good.
  - apply arr0_good.
  - apply array_good; [exact L|apply IH, L].
  - apply empty_good.
  - apply slice_good; [exact L|apply IH, L].
  - apply map_good; [exact L|apply IH, L].
  - apply mss_good.
  - apply ptr_good; [exact L|apply IH, L].
  - apply struct_good; [exact L|]. apply layout_struct in L as (_ & _ & _ & La).
    clear z. induction IH as [|x fs Hx IH IHl]; constructor; destruct La as [L1 L2]; auto.
Qed.
End Refine.

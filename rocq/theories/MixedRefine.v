(** The recursive decoder on memory for types around recursive structs ([wdech], Mixed.v)
    computes [walk] (MixedSpec.v). *)
From Verif Require Import Base NumSpec StrSpec Atoi JsonNum Unescape UnescapeProofs Lookup Types Token FloatLit Heap Machine Dt Dec Value Dval Sep Refine Refine2 Refine3 Spec Typed SpecProofs Actual Rec RecSpec RecRefine RecActual Mixed MixedSpec.
Open Scope Z_scope.

(** ** Memory *)
Section Mem.
Variable w64 : bool.
Notation W := (wb w64).
Notation tsize := (tsize w64).
Notation wrep := (wrep w64).
Notation wmt := (wmt w64).
Notation wlayout := (wlayout w64).
Fixpoint wall (fs : wfields) : Prop := match fs with [] => True | x :: r => wlayout (snd x) /\ wall r end.
Lemma wlayout_struct z fs : wlayout (WStruct z fs) <->
  Forall (fun x => 0 <= snd (fst x) /\ snd (fst x) + tsize (snd x) <= z) fs /\
  disjoint_slots (map (fun x => (snd (fst x), tsize (snd x))) fs) /\ 0 < z /\ wall fs.
Proof.
  cbn [MixedSpec.wlayout]. assert (E : forall fs, (fix all (fs : wfields) : Prop := match fs with [] => True | x :: r => wlayout (snd x) /\ all r end) fs <-> wall fs).
  { induction fs0 as [|x r IH]; cbn [wall]; [reflexivity|]. rewrite IH. reflexivity. }
  rewrite E. reflexivity.
Qed.
Lemma wall_in fs x : wall fs -> In x fs -> wlayout (snd x).
Proof. induction fs as [|y r IH]; cbn; [tauto|]. intros [H1 H2] [->|H]; auto. Qed.
Lemma rep_mrep t : m_rep (wmt t) = wrep t.
Proof. reflexivity. Qed.

Lemma nice_over (R : rept) n zr : 0 < n -> stable R n -> (forall h p, holds h p n CZero -> R h p zr []) -> nice (MT n R zr).
Proof.
  intros Hn St Mk. split; cbn [m_size m_rep m_zero]; [lia|exact St| |lia].
  intros h p Hz. apply Mk. split; [intros y Hy; rewrite Hz by lia; discriminate|apply Hz; lia].
Qed.
Lemma nice_wmt t : wlayout t -> nice (wmt t).
Proof.
  pose proof (wb_pos w64) as Wp.
  induction t as [d|z fs|t IH|k t IH|t IH|z fs IH] using wt_ind'; intros L.
  - split; cbn [MixedSpec.wmt m_size m_rep m_zero]; [apply dsize_nonneg, L|apply rep_agree, L|apply rep_zero, L|apply rep_size0, L].
  - exact (nice_sty w64 fs z L).
  - destruct (IH L) as [N1 N2 _ _]. apply nice_over; [change (0 < 3 * W); lia|exact (slice_stable w64 (wmt t) N1 N2)|]. intros h p Hh. exists CZero. auto.
  - destruct (IH L) as [N1 N2 _ _]. apply nice_over; [exact Wp|exact (map_stable w64 (wmt t) N2)|]. intros h p Hh. exists CZero. auto.
  - destruct (IH L) as [N1 N2 _ _]. apply nice_over; [exact Wp|exact (ptr_stable w64 (wmt t) N2)|]. intros h p Hh. exists CZero. auto.
  - apply wlayout_struct in L as (Li & Ld & Zp & La). rewrite Forall_forall in Li, IH. split; cbn [MixedSpec.wmt m_size m_rep m_zero MixedSpec.tsize flatt Dt.dsize]; [lia| | |lia].
    + intros h p h' p' g F (gs & -> & H) A. exists gs. split; [reflexivity|]. eapply reps_agree; [|exact H|exact A].
      apply Forall_forall. intros r Hr. apply in_map_iff in Hr as (x & <- & Hx). destruct (Li x Hx) as [S1 S2]. destruct (IH x Hx (wall_in _ _ La Hx)) as [N1 N2 _ _].
      exists (tsize (snd x)). cbn [fst snd]. repeat split; try lia. exact N2.
    + intros h p Hz. cbn [MixedSpec.wrep wzero]. eexists. split; [reflexivity|]. apply reps_zero; [rewrite !map_length; reflexivity|].
      intros i r zz Hr Hzz. rewrite nth_error_map in Hr, Hzz. destruct (nth_error fs i) as [x|] eqn:Ex; [|discriminate].
      injection Hr as <-. injection Hzz as <-. cbn [fst snd]. apply nth_error_In in Ex. destruct (Li x Ex) as [S1 S2]. destruct (IH x Ex (wall_in _ _ La Ex)) as [_ _ N3 _].
      apply N3. intros y Hy. rewrite cellat_padd. apply Hz. cbn [MixedSpec.wmt m_size] in Hy. lia.
Qed.
Definition wparts (fs : wfields) : list (Z * rept) := map (fun x => (snd (fst x), wrep (snd x))) fs.
Definition wfpost (z : Z) (fs : wfields) (h : heap) (p : ptr) (F : list nat) (h' : heap) (gs : list gval) : Prop :=
  exists F', reps (wparts fs) h' p gs F' /\ own h' p F' /\ only h h' p z F F'.
Lemma wfield_focus z fs h p gs F j x : wlayout (WStruct z fs) -> reps (wparts fs) h p gs F -> own h p F -> nth_error fs j = Some x ->
  exists g Fj, nth_error gs j = Some g /\ m_rep (wmt (snd x)) h (padd p (snd (fst x))) g Fj /\ own h (padd p (snd (fst x))) Fj /\
  forall h' g', postm (wmt (snd x)) h (padd p (snd (fst x))) Fj h' g' -> wfpost z fs h p F h' (set_nth gs j g').
Proof.
  intros L R Ow Hj. pose proof (nth_error_In _ _ Hj) as Hx. apply wlayout_struct in L as (Li & Ld & Zp & La). rewrite Forall_forall in Li.
  destruct (Li x Hx) as [S1 S2]. apply (part_focus _ _ _ _ _ _ _ _ (wmt (snd x))); try assumption.
  - apply nice_wmt, (wall_in _ _ La Hx).
  - unfold wparts. rewrite nth_error_map, Hj. reflexivity.
  - intros i r Ni Hi. unfold wparts in Hi. rewrite nth_error_map in Hi. destruct (nth_error fs i) as [y|] eqn:Ey; [|discriminate]. injection Hi as <-. cbn [fst snd].
    exists (tsize (snd y)). split; [apply (nice_stable _ (nice_wmt _ (wall_in _ _ La (nth_error_In _ _ Ey))))|].
    pose proof (disjoint_nth _ Ld i j (snd (fst y), tsize (snd y)) (snd (fst x), tsize (snd x)) Ni) as Q.
    rewrite !nth_error_map, Ey, Hj in Q. cbn in Q. specialize (Q eq_refl eq_refl). cbn [MixedSpec.wmt m_size]. lia.
Qed.
End Mem.

(** ** The decoder *)
Section Good.
Variables (C : cfg) (O : opts) (s : bytes).
Notation w64 := (c_w64 C).
Notation W := (wb (c_w64 C)).
Notation tsize := (tsize (c_w64 C)).
Notation wmt := (wmt (c_w64 C)).
Notation wlayout := (wlayout (c_w64 C)).
Notation wdech := (wdech C O s).
Lemma null_over t h p F n g' : (exists c, holds h p n c /\ is_poison c = false) -> 0 < n -> m_size t = n ->
  own h p F -> (forall h', holds h' p n CZero -> m_rep t h' p g' []) ->
  exists h', store h p n CZero = Ok h' /\ postm t h p F h' g'.
Proof.
  intros (c & Hc & Np) Hn Sz Ow Mk. destruct (store_cell h p n c CZero Hn Hc Np) as (h' & E & Hh & _ & _ & Ow1 & On1).
  exists h'. split; [exact E|]. exists []. split; [apply Mk, Hh|]. rewrite Sz. split; [apply Ow1; eapply own_nil, Ow|apply On1; intros b []].
Qed.
Lemma wdech_size0 t : wlayout t -> tsize t = 0 -> forall v p h, wdech t v p h = wdech t v None h.
Proof.
  pose proof (wb_pos w64) as Wp. unfold MixedSpec.tsize. destruct t as [d|z fs|t|k t|t|z fs]; intros L S v p h; cbn [flatt Dt.dsize] in S; try lia.
  - apply dech_size0; assumption.
  - destruct L as [_ L]. lia.
  - apply wlayout_struct in L as (_ & _ & L & _). lia.
Qed.

(** Pointers over an arbitrary type (compare [ptr_good]). *)
Lemma ptr_over (Q : jv -> Prop) t k f : nice t -> goodm Q t k f ->
  forall v h p g F, Q v -> rep_ptr w64 t h p g F -> own h p F ->
  gsim (postm (mptr w64 t) h p F)
    (if m_size t =? 0 then hlift (store h p W (CPtr (0%nat, 0))) (fun h => k v None h)
     else let '(a, h) := malloc h (m_size t) in hlift (store h p W (CPtr a)) (fun h => k v (Some a) h))
    (vmap (fun g => VPtr (Some g)) (f v (m_zero t))).
Proof.
  intros N Gd v h p g F L R Ow. pose proof (wb_pos w64) as Wp. pose proof (nice_size _ N) as Hs.
  assert (Cell : exists c, holds h p W c /\ is_poison c = false).
  { destruct R as (c & Hc & R). exists c. split; [exact Hc|]. destruct c; try reflexivity; contradiction. }
  destruct Cell as (c & Hc & Np). destruct (Z.eqb_spec (m_size t) 0) as [S|S].
  - destruct (store_cell h p W c (CPtr (0%nat, 0))) as (h1 & E & Hh & Nx & Bk & Ow1 & On1); [lia|exact Hc|exact Np|]. rewrite E. cbn [hlift].
    assert (Rz : m_rep t h1 None (m_zero t) []) by (apply (nice_zero _ N); intros x Hx; lia).
    assert (OwB : own h1 p ([] ++ qblk None ++ [] ++ [])) by (cbn; apply Ow1; eapply own_nil, Ow).
    eapply gsim_map; [apply (Gd v h1 None (m_zero t) [] L Rz); eapply own_inner; exact OwB|].
    intros h2 g2 (F2 & R2 & Ow2 & On2). destruct (nice_size0 _ N S _ _ _ _ R2) as (-> & -> & Any).
    destruct (box h1 h2 p None [] [] [] [] _ W OwB Ow2 On2) as (OwF & OnF & BkF & ClF). cbn [qblk app] in *.
    exists []. split; [|split; [exact OwF|eapply only_trans; [apply (On1 F []); intros b []|exact OnF]]].
    exists (CPtr (0%nat, 0)). split; [eapply holds_eq; [exact ClF|exact Hh]|]. exists (m_zero t), []. split; [reflexivity|]. split; [apply Any|].
    rewrite S. reflexivity.
  - destruct (malloc_spec h (m_size t) p F ltac:(lia) Ow) as (h1 & -> & Nx1 & Bk1 & Bn1 & Ow1 & On1 & Cl1).
    destruct (store_cell h1 p W c (CPtr (nxt h, 0))) as (h2 & E & Hh & Nx2 & Bk2 & Ow2 & On2); [lia|eapply holds_eq; [exact Cl1|exact Hc]|exact Np|].
    rewrite E. cbn [hlift].
    assert (Pn : pblk p <> Some (nxt h)) by (destruct Ow as (_ & _ & _ & O4); intros Q'; apply O4 in Q'; lia).
    assert (Rz : m_rep t h2 (Some (nxt h, 0)) (m_zero t) []).
    { apply (nice_zero _ N). intros x Hx. unfold cellat. rewrite Bk2 by exact Pn. rewrite Bn1. replace ((0 <=? 0 + x) && (0 + x <? m_size t)) with true by lia. reflexivity. }
    assert (OwB : own h2 p ([] ++ qblk (Some (nxt h, 0)) ++ [] ++ [])).
    { cbn. apply Ow2. eapply own_perm; [exact Ow1|constructor; [tauto|constructor]|]. intros b [<-|[]]. left. reflexivity. }
    eapply gsim_map; [apply (Gd v h2 (Some (nxt h, 0)) (m_zero t) [] L Rz); eapply own_inner; exact OwB|].
    intros h3 g3 (F3 & R3 & Ow3 & On3). destruct (box h2 h3 p (Some (nxt h, 0)) [] [] F3 [] _ W OwB Ow3 On3) as (OwF & OnF & BkF & ClF).
    rewrite app_nil_r in *. cbn [qblk app fst] in *. exists (nxt h :: F3). split; [|split; [exact OwF|]].
    + exists (CPtr (nxt h, 0)). split; [eapply holds_eq; [exact ClF|exact Hh]|]. exists g3, F3. split; [reflexivity|]. split; [exact R3|].
      replace (0 <? m_size t) with true by lia. reflexivity.
    + eapply only_trans; [apply (On1 W)|]. eapply only_trans; [apply (On2 (nxt h :: F) [nxt h]); intros b [<-|[]]; left; reflexivity|rewrite app_nil_r in OnF; exact OnF].
Qed.

(** ** For any choice of the decoders of the parts *)
Section Walk.
Variables (sub : dt -> vdec) (rc : rfields -> vdec)
  (entries : dkey -> vdec -> bool -> gval -> list ((nat * bytes) * jv) -> list (gkey * gval) -> vres (list (gkey * gval)))
  (sel : list ((bytes * Z) * dt) -> bytes -> option nat)
  (Psub : dt -> jv -> Prop) (Prec : rfields -> jv -> Prop) (Pkey : dkey -> bytes -> Prop) (Pname : bytes -> Prop).
Notation walk := (walk O sub rc entries sel).
Notation leafy := (leafy sel Psub Prec Pkey Pname).
Hypothesis Gsub : forall d, layout (c_w64 C) d -> goodm (fun v => lexed s v /\ Psub d v) (mt w64 d) (dech C O s d) (sub d).
Hypothesis Grec : forall z fs, rlayout (c_w64 C) z fs -> goodm (fun v => lexed s v /\ Prec fs v) (sty z fs (rrep w64 z fs)) (rdec C O s z fs) (rc fs).
Hypothesis Gent : forall k f b g0 l, Forall (fun x => key_lexed s x /\ Pkey k (snd (fst x))) l -> forall m, entriesv C k f b g0 l m = entries k f b g0 l m.
Hypothesis Gsel : forall fs r, string_body r -> Pname r ->
  sel fs r = pick (c_fold C) (o_nofold O) (map (fun x => fst (fst x)) fs) (if o_nounescape O then r else txt r).
(** Slices of scalars and of empty structs have frames of their own; they are [WSub]. *)
Fixpoint slow (t : wt) : Prop :=
  match t with
  | WSub _ | WRec _ _ => True
  | WSlice t => fast_et (flatt t) = None /\ slow t
  | WMap _ t | WPtr t => slow t
  | WStruct _ fs => (fix all (fs : wfields) : Prop := match fs with [] => True | x :: r => slow (snd x) /\ all r end) fs
  end.
Fixpoint slows (fs : wfields) : Prop := match fs with [] => True | x :: r => slow (snd x) /\ slows r end.
Lemma slow_struct z fs : slow (WStruct z fs) <-> slows fs.
Proof.
  cbn [slow]. assert (E : forall fs, (fix all (fs : wfields) : Prop := match fs with [] => True | x :: r => slow (snd x) /\ all r end) fs <-> slows fs).
  { induction fs0 as [|x r IH]; cbn [slows]; [reflexivity|]. rewrite IH. reflexivity. }
  apply E.
Qed.
Lemma slows_in fs x : slows fs -> In x fs -> slow (snd x).
Proof. induction fs as [|y r IH]; cbn; [tauto|]. intros [H1 H2] [->|H]; auto. Qed.

Lemma wmembers_good z fs : wlayout (WStruct z fs) ->
  (forall x, In x fs -> goodm (fun v => lexed s v /\ leafy (snd x) v) (wmt (snd x)) (wdech (snd x)) (walk (snd x))) ->
  forall l h p gs F, Forall (fun x => key_lexed s x /\ lexed s (snd x)) l ->
  Forall (fun x => Pname (snd (fst x)) /\
          match sel (wshape fs) (snd (fst x)) with
          | Some j => match nth_error (map (fun x => leafy (snd x)) fs) j with Some P => P (snd x) | None => True end
          | None => True
          end) l ->
  reps (wparts w64 fs) h p gs F -> own h p F ->
  gsim (wfpost w64 z fs h p F) (members_h C O (wnames fs) (map (fun x => (snd (fst x), wdech (snd x))) fs) l p h)
    (ideal_members O (sel (wshape fs)) (map (fun x => walk (snd x)) fs) l gs).
Proof.
  intros Ly Gd. induction l as [|x l IH]; intros h p gs F Lx Sx R Ow.
  - cbn. exists h. split; [reflexivity|]. exists F. split; [exact R|]. split; [exact Ow|apply only_refl].
  - inversion Lx as [|? ? [[_ K] L1] L2]; subst. inversion Sx as [|? ? [S1 S2] S3]; subst.
    destruct x as [[i key] v]. cbn [members_h ideal_members fst snd] in *.
    assert (Ek : (if o_nounescape O then Ok key else unesc key) = Ok (if o_nounescape O then key else txt key)).
    { destruct (o_nounescape O); [reflexivity|]. unfold unesc, txt. destruct (Valid_body _ K) as (b & ->). reflexivity. }
    rewrite Ek. cbn [hlift]. pose proof (Gsel (wshape fs) key K S1) as Ef. rewrite wshape_names in Ef. rewrite <- Ef.
    destruct (sel (wshape fs) key) as [j|].
    2: { destruct (o_unknown O); [|apply (IH h p gs F); assumption]. cbn.
         exists h. split; [reflexivity|]. exists F. split; [exact R|]. split; [exact Ow|apply only_refl]. }
    symmetry in Ef. apply pick_lt in Ef. unfold wnames in Ef. rewrite map_length in Ef.
    destruct (nth_error fs j) as [y|] eqn:Ey; [|apply nth_error_None in Ey; lia].
    rewrite !nth_error_map, Ey in *. cbn [option_map fst snd] in *.
    destruct (wfield_focus _ z fs h p gs F j y Ly R Ow Ey) as (g & Fj & Hg & Rj & Oj & Upd). rewrite Hg.
    pose proof (Gd y (nth_error_In _ _ Ey) v h (padd p (snd (fst y))) g Fj (conj L1 S2) Rj Oj) as Q.
    destruct (walk (snd y) v g) as [g'|i' e g'|]; cbn [gsim] in Q.
    + destruct Q as (h1 & -> & P1). cbn [hbind]. destruct (Upd h1 g' P1) as (F1 & R1 & Ow1 & On1).
      pose proof (IH h1 p _ F1 L2 S3 R1 Ow1) as I1.
      eapply gsim_imp; [exact I1|]. intros h2 gs2 (F2 & R2 & Ow2 & On2). exists F2. split; [exact R2|]. split; [exact Ow2|].
      eapply only_trans; eassumption.
    + destruct Q as (h1 & -> & P1). cbn [hbind gsim]. exists h1. split; [reflexivity|]. exact (Upd h1 g' P1).
    + rewrite Q. reflexivity.
Qed.

Theorem wdech_good t : wlayout t -> slow t -> goodm (fun v => lexed s v /\ leafy t v) (wmt t) (wdech t) (walk t).
Proof.
  pose proof (wb_pos w64) as Wp.
  induction t as [d|z fs|t IH|k t IH|t IH|z fs IH] using wt_ind'; intros Ly Sl.
  - exact (Gsub d Ly).
  - exact (Grec z fs Ly).
  - destruct Sl as [Fe Sl]. specialize (IH Ly Sl). pose proof (nice_wmt _ t Ly) as Nt. intros v h p g F [L S] R Ow.
    assert (Ke : forall i e, gsim (postm (wmt (WSlice t)) h p F) (HErr i e h) (VErr i e g)) by (intros; exists h; split; [reflexivity|]; apply postm_refl; assumption).
    assert (Cell : exists c, holds h p (3 * W) c /\ is_poison c = false).
    { destruct R as (c & Hc & R). exists c. split; [exact Hc|]. destruct c; try reflexivity; contradiction. }
    destruct v as [i|i b|i r|i r|i r|i j l|i j l]; cbn [Mixed.wdech MixedSpec.walk jidx]; try apply Ke.
    + destruct (null_over (wmt (WSlice t)) h p F (3 * W) (VSlice None) Cell ltac:(lia) eq_refl Ow) as (h' & -> & P1); [intros h' Hh; exists CZero; auto|]. cbn. eauto.
    + cbn [MixedSpec.leafy] in S. apply lexed_arr in L as (_ & _ & _ & L). pose proof (carried_spec (flatt t)) as Cs. rewrite Fe in Cs. rewrite <- Cs.
      apply (slice_h_good C _ (wmt t) (wdech t) (walk t) _ Nt IH); [exact (wdech_size0 t Ly)| |exact R|exact Ow].
      rewrite Forall_forall in *. intros w Hw. split; [apply L, Hw|apply S, Hw].
  - cbn [slow] in Sl. specialize (IH Ly Sl). pose proof (nice_wmt _ t Ly) as Nt. intros v h p g F [L S] R Ow.
    assert (Ke : forall i e, gsim (postm (wmt (WMap k t)) h p F) (HErr i e h) (VErr i e g)) by (intros; exists h; split; [reflexivity|]; apply postm_refl; assumption).
    assert (Cell : exists c, holds h p W c /\ is_poison c = false).
    { destruct R as (c & Hc & R). exists c. split; [exact Hc|]. destruct c; try reflexivity; contradiction. }
    destruct v as [i|i b|i r|i r|i r|i j l|i j l]; cbn [Mixed.wdech MixedSpec.walk jidx]; try apply Ke.
    + destruct (null_over (wmt (WMap k t)) h p F W (VMap None) Cell Wp eq_refl Ow) as (h' & -> & P1); [intros h' Hh; exists CZero; auto|]. cbn. eauto.
    + cbn [MixedSpec.leafy] in S. apply lexed_obj in L as (_ & _ & _ & L). rewrite Forall_forall in L, S.
      destruct (init_map_spec C (wmt t) h p g F R Ow) as (h1 & F1 & -> & R1 & Ow1 & On1). cbn [hlift].
      rewrite <- Gent; [|apply Forall_forall; intros w Hw; split; [apply L, Hw|apply S, Hw]].
      eapply gsim_map; [apply (entries_good C s _ k (wmt t) (walk t) (wdech t) (is_struct (flatt t)) Nt IH l h1 p _ F1); [|exact R1|exact Ow1]|].
      * apply Forall_forall. intros w Hw. split; [apply L, Hw|]. split; [apply L, Hw|apply S, Hw].
      * intros h2 m2 (F2 & R2 & Ow2 & On2). exists F2. split; [exact R2|]. split; [exact Ow2|]. eapply only_trans; eassumption.
  - cbn [slow] in Sl. specialize (IH Ly Sl). pose proof (nice_wmt _ t Ly) as Nt. intros v h p g F [L S] R Ow.
    assert (Main : match v with JNull _ => True | _ => gsim (postm (wmt (WPtr t)) h p F)
      (if m_size (wmt t) =? 0 then hlift (store h p W (CPtr (0%nat, 0))) (fun h => wdech t v None h)
       else let '(a, h) := malloc h (m_size (wmt t)) in hlift (store h p W (CPtr a)) (fun h => wdech t v (Some a) h))
      (vmap (fun g => VPtr (Some g)) (walk t v (wzero t))) end).
    { destruct v; try exact I; exact (ptr_over _ (wmt t) (wdech t) (walk t) Nt IH _ h p g F (conj L S) R Ow). }
    destruct v; try exact Main. cbn [Mixed.wdech MixedSpec.walk].
    assert (Cell : exists c, holds h p W c /\ is_poison c = false).
    { destruct R as (c & Hc & R). exists c. split; [exact Hc|]. destruct c; try reflexivity; contradiction. }
    destruct (null_over (wmt (WPtr t)) h p F W (VPtr None) Cell Wp eq_refl Ow) as (h' & -> & P1); [intros h' Hh; exists CZero; auto|]. cbn. eauto.
  - apply slow_struct in Sl. intros v h p g F [L S] R Ow.
    assert (Ke : forall i e, gsim (postm (wmt (WStruct z fs)) h p F) (HErr i e h) (VErr i e g)) by (intros; exists h; split; [reflexivity|]; apply postm_refl; assumption).
    destruct v as [i|i b|i r|i r|i r|i j l|i j l]; cbn [Mixed.wdech MixedSpec.walk jidx]; try apply Ke.
    + exists h. split; [reflexivity|]. apply postm_refl; assumption.
    + cbn [MixedSpec.leafy] in S. apply lexed_obj in L as (_ & _ & _ & L). destruct R as (gs & -> & R).
      assert (Gd : forall x, In x fs -> goodm (fun v => lexed s v /\ leafy (snd x) v) (wmt (snd x)) (wdech (snd x)) (walk (snd x))).
      { rewrite Forall_forall in IH. intros x Hx. apply IH; [exact Hx| |apply (slows_in _ _ Sl Hx)]. apply wlayout_struct in Ly as (_ & _ & _ & La). apply (wall_in _ _ _ La Hx). }
      eapply gsim_map; [apply (wmembers_good z fs Ly Gd l h p gs F L S R Ow)|].
      intros h' g' (F' & R' & Ow' & On'). exists F'. split; [exists g'; split; [reflexivity|exact R']|]. split; assumption.
Qed.
End Walk.

(** ** The ideal decoder and the exact one *)
Theorem wdech_ideal t : wlayout t -> slow t -> goodm (fun v => lexed s v /\ wsound C O t v) (wmt t) (wdech t) (wideal C O s t).
Proof.
  apply wdech_good.
  - intros d Ld v h p g F [L S] R Ow. pose proof (rep_typed _ _ _ _ _ _ R) as Ty. pose proof (dech_good C O s d Ld v h p g F L R Ow) as G.
    rewrite (dval_ideal C O s d v g L S Ty) in *. exact G.
  - intros z fs Lr v h p g F [L S] R Ow. exact (rdecn_good C O s fs z Lr (height v) v h p g F (conj L S) R Ow).
  - intros k f b g0 l H m. exact (entries_same C s k f b g0 l H m).
  - intros fs r B H. apply field_for_pick; assumption.
Qed.
Theorem wdech_actual t : wlayout t -> slow t -> goodm (lexed s) (wmt t) (wdech t) (wactual C O s t).
Proof.
  intros Ly Sl v h p g F L R Ow.
  refine (wdech_good (actual C O s) (actual_rec C O s) (act_entries C) (act_field_for C O) (fun _ _ => True) (fun _ _ => True) (fun _ _ => True) (fun _ => True) _ _ _ _ t Ly Sl v h p g F _ R Ow).
  - intros d Ld v' h' p' g' F' [L' _] R' Ow'. pose proof (dech_good C O s d Ld v' h' p' g' F' L' R' Ow') as G.
    rewrite (dval_actual C O s d v' g' L') in *. exact G.
  - intros z fs Lr v' h' p' g' F' [L' _] R' Ow'. exact (rdec_actual C O s fs z Lr v' h' p' g' F' L' R' Ow').
  - intros k f b g0 l H m. apply (act_entries_same C s). rewrite Forall_forall in *. intros x Hx. apply H, Hx.
  - intros fs r B _. unfold act_field_for, act_key_text. rewrite (txt_units r B). reflexivity.
  - split; [exact L|]. clear. revert v. induction t as [d|z fs|t IH|k t IH|t IH|z fs IH] using wt_ind'; intros v; cbn [leafy]; try exact I.
    + destruct v; try exact I. apply Forall_forall. intros w _. apply IH.
    + destruct v; try exact I. apply Forall_forall. intros w _. split; [exact I|apply IH].
    + destruct v; try exact I; apply IH.
    + destruct v; try exact I. apply Forall_forall. intros w _. split; [exact I|]. destruct (act_field_for C O _ _) as [n|]; [|exact I]. rewrite nth_error_map.
      destruct (nth_error fs n) as [x|] eqn:Ex; [|exact I]. cbn [option_map]. rewrite Forall_forall in IH. apply IH, (nth_error_In _ _ Ex).
Qed.
End Good.

(** ** The ideal decoder does not panic *)
Section Typed.
Variables (C : cfg) (O : opts) (s : bytes).
Fixpoint wtyped (t : wt) (g : gval) {struct t} : Prop :=
  match t with
  | WSub d => typed d g
  | WRec _ fs => forall n, rtyped fs n g
  | WSlice t => slice_of (wtyped t) g
  | WMap _ t => match g with VMap None => True | VMap (Some m) => Forall (fun x => wtyped t (snd x)) m | _ => False end
  | WPtr t => match g with VPtr None => True | VPtr (Some g) => wtyped t g | _ => False end
  | WStruct _ fs => exists gs, g = VStruct gs /\ Forall2 (fun (c : gval -> Prop) g => c g) (map (fun x => wtyped (snd x)) fs) gs
  end.
Lemma wtyped_zero t : wtyped t (wzero t).
Proof.
  induction t as [d|z fs|t IH|k t IH|t IH|z fs IH] using wt_ind'; cbn [wtyped wzero]; try exact I.
  - apply zero_typed.
  - intros n. apply rtyped_zero.
  - eexists. split; [reflexivity|]. induction IH as [|x fs Hx IH IHl]; cbn [map]; constructor; assumption.
Qed.
Lemma wrep_typed t : forall h p g F, wrep (c_w64 C) t h p g F -> wtyped t g.
Proof.
  induction t as [d|z fs|t IH|k t IH|t IH|z fs IH] using wt_ind'; intros h p g F R; cbn [wtyped wrep] in *.
  - eapply rep_typed, R.
  - intros n. exact (rrep_typed C fs z n _ _ _ _ R).
  - destruct R as (c & _ & R). destruct c; try contradiction; [destruct R as [-> _]; exact I|]. destruct R as (vis & hid & F' & -> & _ & _ & _ & R & _).
    apply reps_typed with (P := wtyped t) in R as [_ R]; [|exact IH]. apply Forall_app in R. exact R.
  - destruct R as (c & _ & R). destruct c; try contradiction; [destruct R as [-> _]; exact I|]. destruct R as (lm & m & F' & _ & -> & R & _ & _).
    eapply entries_of; [|exact R]. exact IH.
  - destruct R as (c & _ & R). destruct c; try contradiction; [destruct R as [-> _]; exact I|]. destruct R as (v & F' & -> & R & _). eapply IH, R.
  - destruct R as (gs & -> & R). exists gs. split; [reflexivity|]. revert gs F R. induction IH as [|x fs Hx IH IHl]; intros [|g gs] F R; cbn in R; try contradiction; cbn [map]; constructor.
    + destruct R as (F1 & F2 & _ & R & _). eapply Hx, R.
    + destruct R as (F1 & F2 & _ & _ & R). eapply IHl, R.
Qed.
Lemma rtyped_mono fs n : forall m g, (n <= m)%nat -> rtyped fs m g -> rtyped fs n g.
Proof.
  induction n as [|n IH]; intros m g Hm T; [exact I|]. destruct m as [|m]; [lia|]. destruct T as (gs & -> & T). exists gs. split; [reflexivity|].
  assert (I1 : forall g, rtyped fs m g -> rtyped fs n g) by (intros g; apply IH; lia). clear - T I1.
  revert T. generalize (rtyped fs m) (rtyped fs n) I1. clear I1. intros Tm Tn I1 T. induction T as [|x g l gs T _ IH]; constructor; [|exact IH]. destruct (snd x); cbn [tfield] in *; try exact T.
  - destruct g as [| | | | | | | | | | |[g|]]; try exact T. apply I1, T.
  - destruct g as [| | | | | | | |[[vis hid]|]| | |]; try exact T. destruct T as [T1 T2]. split; (eapply Forall_impl; [|eassumption]; exact I1).
  - destruct g as [| | | | | | | | |[m'|]| |]; try exact T. eapply Forall_impl; [|exact T]. intros a. apply I1.
Qed.
Lemma forall2_nth {A B} (P : A -> B -> Prop) l l' j x : Forall2 P l l' -> nth_error l j = Some x -> exists y, nth_error l' j = Some y /\ P x y.
Proof. intros H. revert j. induction H as [|a b l l' Hab _ IH]; intros [|j] E; try discriminate; cbn in *; [injection E as <-; eauto|eauto]. Qed.
Lemma forall2_set {A} (P : A -> gval -> Prop) l l' j x y : Forall2 P l l' -> nth_error l j = Some x -> P x y -> Forall2 P l (set_nth l' j y).
Proof.
  intros H. revert j. induction H as [|a b l l' Hab Hl IH]; intros [|j] E Q; try discriminate; cbn in *.
  - injection E as <-. constructor; assumption.
  - constructor; [exact Hab|apply IH; assumption].
Qed.
Theorem wideal_typed t : forall v g, lexed s v -> wsound C O t v -> wtyped t g -> vgood (wtyped t) (wideal C O s t v g).
Proof.
  unfold wideal, wsound. induction t as [d|z fs|t IH|k t IH|t IH|z fs IH] using wt_ind'; intros v g L S T; cbn [walk leafy] in *.
  - cbn [wtyped] in *. pose proof (dval_typed C O s d v g L (sound_nonempty C O s d v L S) T) as N. rewrite (dval_ideal C O s d v g L S T) in N. exact N.
  - cbn [wtyped] in *.
    assert (Q : forall n, (height v <= n)%nat -> vgood (rtyped fs n) (ideal_rec C O s fs v g)).
    { intros n Hn. unfold ideal_rec. rewrite (ideal_n_enough C O s fs (height v) n v g (Nat.le_refl _) Hn). apply ideal_typed; [split; [exact L|]|apply T].
      apply (rsoundn_enough C O fs (height v) n v (Nat.le_refl _) Hn), S. }
    pose proof (Q _ (Nat.le_refl _)) as Q0. destruct (ideal_rec C O s fs v g) as [g'|i e g'|]; [| |exact Q0].
    + intros n. apply (rtyped_mono fs n (Nat.max n (height v))); [lia|]. apply (Q (Nat.max n (height v))). lia.
    + intros n. apply (rtyped_mono fs n (Nat.max n (height v))); [lia|]. apply (Q (Nat.max n (height v))). lia.
  - destruct v as [i|i b|i r|i r|i r|i j l|i j l]; try exact T; [exact I|]. apply lexed_arr in L as (_ & _ & _ & L).
    apply slicev_of; [apply wtyped_zero|exact T|]. rewrite Forall_forall in *. intros w Hw g' Tg'. apply IH; [apply L, Hw|apply S, Hw|exact Tg'].
  - destruct v as [i|i b|i r|i r|i r|i j l|i j l]; try exact T; [exact I|]. apply lexed_obj in L as (_ & _ & _ & L).
    eapply vgood_map with (Q := fun m => Forall (fun x => wtyped t (snd x)) m); [|intros m Hm; exact Hm].
    set (m0 := match g with VMap (Some m) => m | _ => [] end).
    assert (T0 : Forall (fun x => wtyped t (snd x)) m0).
    { unfold m0. cbn [wtyped] in T. destruct g as [| | | | | | | | |[m|]| |]; try contradiction; [exact T|constructor]. }
    clearbody m0. revert m0 T0. induction l as [|[[ki key] w] l IHl]; intros m T0; [exact T0|]. cbn [ideal_entries].
    apply Forall_cons_iff in L as [[_ L1] L2]. apply Forall_cons_iff in S as [[_ S1] S2]. cbn [snd] in *.
    destruct (ideal_key C k key) as [ky|]; [|exact T0].
    match goal with |- context [walk _ _ _ _ _ t w ?o] => assert (To : wtyped t o) end.
    { destruct (getk m ky) as [g0|] eqn:Eg; [|apply wtyped_zero]. destruct (is_struct (flatt t)); [apply wtyped_zero|].
      clear - Eg T0. induction T0 as [|[k0 g1] m H _ IHm]; cbn in Eg; [discriminate|]. destruct (gkey_eqb k0 ky); [injection Eg as <-; exact H|apply IHm, Eg]. }
    pose proof (IH w _ L1 S1 To) as Q. destruct (walk _ _ _ _ _ t w _) as [g'|i' e g'|]; cbn in Q; [| |contradiction].
    + apply IHl; [exact L2|exact S2|]. apply putk_of; assumption.
    + cbn. apply putk_of; assumption.
  - destruct v; try exact I; (eapply vgood_map; [apply IH; [exact L|exact S|apply wtyped_zero]|intros a Ha; exact Ha]).
  - destruct v as [i|i b|i r|i r|i r|i j l|i j l]; try exact T. destruct T as (gs & -> & T).
    apply lexed_obj in L as (_ & _ & _ & L). rewrite Forall_forall in IH.
    eapply vgood_map; [|intros m Hm; exists m; split; [reflexivity|exact Hm]].
    revert gs T. induction l as [|[[ki key] w] l IHl]; intros gs T; [exact T|]. cbn [ideal_members].
    apply Forall_cons_iff in L as [[_ L1] L2]. apply Forall_cons_iff in S as [[_ S1] S2]. cbn [fst snd] in *.
    destruct (field_for C O (wshape fs) key) as [jf|] eqn:Pk; [|destruct (o_unknown O); [exact T|apply IHl; assumption]].
    assert (Hj : (jf < length fs)%nat).
    { unfold field_for in Pk. apply pick_lt in Pk. unfold wshape in Pk. rewrite !map_length in Pk. exact Pk. }
    destruct (nth_error fs jf) as [y|] eqn:Ey; [|apply nth_error_None in Ey; lia]. rewrite nth_error_map, Ey in *. cbn [option_map] in *.
    assert (Ey' : nth_error (map (fun x => wtyped (snd x)) fs) jf = Some (wtyped (snd y))) by (rewrite nth_error_map, Ey; reflexivity).
    destruct (forall2_nth _ _ _ _ _ T Ey') as (g & Eg & Tg). rewrite Eg.
    pose proof (IH y (nth_error_In _ _ Ey) w g L1 S1 Tg) as Q.
    destruct (walk _ _ _ _ _ (snd y) w g) as [g'|i' e g'|]; cbn in Q; [| |contradiction].
    + apply IHl; [assumption|assumption|]. eapply forall2_set; eassumption.
    + cbn. eapply forall2_set; eassumption.
Qed.
End Typed.

(** Recursive struct types: what Decode does, exactly, including the leaves on which it
    deviates from the ideal decoder (compare Actual.v): [actual_rec] is [ideal_rec]
    (RecSpec.v) with [actual] for the fields without recursion, the keys that Decode makes
    of a member's text, and a panic for an empty integer map key.

    Specification part: the section Actual. *)
From Verif Require Import Base NumSpec StrSpec JsonNum JsonNumProofs Atoi AtoiProofs Unescape UnescapeProofs Types Token FloatLit Heap Machine Dt Dec Control Value Dval Sep Refine Refine2 Refine3 Typed Parse Spec SpecProofs Main Rec RecSpec RecRefine Actual.
Open Scope Z_scope.

Section Actual.
Variables (C : cfg) (O : opts) (s : bytes) (fs : rfields).
Notation fresh := (VStruct (rzeros fs)).
(** A value for a field; [f]: for S. *)
Definition act_field (f : vdec) (k : rk) : vdec := fun v g =>
  match k with
  | RSelf =>
      match v with
      | JNull _ => VOk (VPtr None)
      | JObj _ _ _ => vmap (fun g => VPtr (Some g)) (f v (match g with VPtr (Some old) => old | _ => fresh end))
      | _ => VErr (jidx v) EUnexpected g
      end
  | RSlice =>
      match v with
      | JNull _ => VOk (VSlice None)
      | JArr _ _ l => slicev f fresh false true l g
      | _ => VErr (jidx v) EUnexpected g
      end
  | RMap kt =>
      match v with
      | JNull _ => VOk (VMap None)
      | JObj _ _ l =>
          vmap (fun m => VMap (Some m)) (act_entries C kt f true fresh l (match g with VMap (Some m) => m | _ => [] end))
      | _ => VErr (jidx v) EUnexpected g
      end
  | RSub d => actual C O s d v g
  end.
Definition act_fields (f : vdec) : list ((nat * bytes) * jv) -> list gval -> vres (list gval) :=
  ideal_members O (act_field_for C O (shape fs)) (map (fun x => act_field f (snd x)) fs).
(** A document for S, [f] being used for the structs inside. *)
Definition act_struct (f : vdec) : vdec := fun v g =>
  match v with
  | JNull _ => VOk g
  | JObj _ _ l => match g with VStruct gs => vmap VStruct (act_fields f l gs) | _ => VPan end
  | _ => VErr (jidx v) EUnexpected g
  end.
Fixpoint act_n (n : nat) : vdec := match n with 0%nat => fun _ _ => VPan | S n => act_struct (act_n n) end.
Definition actual_rec (v : jv) (g : gval) : vres gval := act_n (height v) v g.

(** ** The depth of the recursion does not matter *)
Lemma act_entries_ext (f f' : vdec) k b z l : (forall x, In x l -> forall g, f (snd x) g = f' (snd x) g) ->
  forall m, act_entries C k f b z l m = act_entries C k f' b z l m.
Proof.
  induction l as [|[[i key] v] l IH]; intros H m; [reflexivity|]. cbn [act_entries]. destruct (act_key C k key) as [[ky|]|]; [|reflexivity|reflexivity].
  rewrite (H (i, key, v)) by (left; reflexivity). cbn [snd]. destruct (f' v _); try reflexivity. apply IH. intros x Hx. apply H. right. exact Hx.
Qed.
Lemma act_field_ext (f f' : vdec) n k v g : (forall w, (height w <= n)%nat -> forall g, f w g = f' w g) -> (height v <= n)%nat ->
  act_field f k v g = act_field f' k v g.
Proof.
  intros H Hv. destruct k, v; cbn [act_field]; try reflexivity.
  - rewrite H by exact Hv. reflexivity.
  - apply slicev_ext. intros w Hw. apply H. pose proof (height_arr i j l w Hw). lia.
  - f_equal. apply act_entries_ext. intros x Hx. apply H. pose proof (height_obj i j l x Hx). lia.
Qed.
Lemma act_members_ext (f f' : vdec) n l : (forall w, (height w <= n)%nat -> forall g, f w g = f' w g) -> (forall x, In x l -> (height (snd x) <= n)%nat) ->
  forall gs, act_fields f l gs = act_fields f' l gs.
Proof.
  intros H. unfold act_fields. induction l as [|[[i key] v] l IH]; intros Hl gs; [reflexivity|]. cbn [ideal_members].
  specialize (IH (fun x Hx => Hl x (or_intror Hx))).
  destruct (act_field_for C O (shape fs) key) as [j|]; [|destruct (o_unknown O); [reflexivity|apply IH]]. rewrite !nth_error_map. destruct (nth_error fs j) as [y|]; [|reflexivity]. cbn [option_map].
  destruct (nth_error gs j) as [g|]; [|reflexivity]. rewrite (act_field_ext f f' n _ v g H); [|apply (Hl (i, key, v)); left; reflexivity].
  destruct (act_field f' (snd y) v g); try reflexivity. apply IH.
Qed.
Lemma act_n_enough n : forall m v g, (height v <= n)%nat -> (height v <= m)%nat -> act_n n v g = act_n m v g.
Proof.
  induction n as [|n IH]; intros m v g Hn Hm; [destruct v; cbn in Hn; lia|]. destruct m as [|m]; [destruct v; cbn in Hm; lia|].
  cbn [act_n]. unfold act_struct. destruct v; try reflexivity. destruct g; try reflexivity. f_equal.
  apply act_members_ext with (n := Nat.min n m); [intros w Hw g; apply IH; lia|]. intros x Hx. pose proof (height_obj i j l x Hx). lia.
Qed.
Theorem actual_rec_eq v g : actual_rec v g = act_struct actual_rec v g.
Proof.
  unfold actual_rec at 1. rewrite (act_n_enough _ (S (height v))) by lia. cbn [act_n]. unfold act_struct.
  destruct v; try reflexivity. destruct g; try reflexivity. f_equal.
  apply act_members_ext with (n := height (JObj i j l)); [intros w Hw g; unfold actual_rec; apply act_n_enough; lia|].
  intros x Hx. pose proof (height_obj i j l x Hx). lia.
Qed.
End Actual.

Lemma act_entries_same C s k f b g0 l : Forall (key_lexed s) l -> forall m, entriesv C k f b g0 l m = act_entries C k f b g0 l m.
Proof.
  induction 1 as [|x l [_ K] Hl IH]; intros m; [reflexivity|]. destruct x as [[i key] v]. cbn [entriesv act_entries fst snd] in *.
  rewrite (act_keyv C k key K). destruct (act_key C k key) as [[ky|]|]; try reflexivity. destruct (f v _); try reflexivity. apply IH.
Qed.

Section Main.
Variables (C : cfg) (O : opts) (s : bytes) (fs : rfields) (z : Z).
Notation w64 := (c_w64 C).
Notation W := (wb (c_w64 C)).
Notation dsize := (dsize (c_w64 C)).
Notation rrep := (rrep (c_w64 C) z fs).
Notation sty := (sty z fs).
Notation fty := (fty (c_w64 C) fs z).
Notation rpost := (rpost (c_w64 C) fs z).
Notation parts := (parts (c_w64 C) fs z).
Notation fieldh := (fieldh C O s z).
Notation rmembers := (rmembers C O s z fs).
Notation rdecn := (rdecn C O s z fs).
Notation act_field := (act_field C O s fs).
Notation act_fields := (act_fields C O s fs).
Notation act_n := (act_n C O s fs).
Notation fresh := (VStruct (rzeros fs)).
Hypothesis Ly : rlayout (c_w64 C) z fs.

(** The documents of the given height. *)
Definition low (n : nat) (v : jv) : Prop := lexed s v /\ (height v <= n)%nat.
Lemma act_field_good n f fd x : In x fs -> goodm (low n) (sty rrep) f fd -> goodm (low n) (fty (snd x)) (fieldh f (snd x)) (act_field fd (snd x)).
Proof.
  intros Hx Gd v h p g F [L S] R Ow. pose proof (wb_pos w64) as Wp. assert (Hz : 0 < z) by apply Ly. pose proof (nice_sty _ _ _ Ly) as Ns.
  assert (Ke : forall i e, gsim (postm (fty (snd x)) h p F) (HErr i e h) (VErr i e g)) by (intros; exists h; split; [reflexivity|]; apply postm_refl; assumption).
  pose proof (null_field C fs z x h p F) as Nl. specialize (fun n g' => Nl n g' Hx).
  destruct (snd x) as [| |kt|d] eqn:Ex; cbn [Rec.fieldh RecActual.act_field RecRefine.fty m_rep rep_field erase Dt.dsize] in *.
  - (* *S *)
    assert (Cell : exists c, holds h p W c /\ is_poison c = false).
    { destruct R as (c & Hc & R). exists c. split; [exact Hc|]. destruct c; try reflexivity; contradiction. }
    destruct v as [i|i b|i r|i r|i r|i j l|i j l]; cbn [jidx]; try apply Ke.
    + destruct (Nl W (VPtr None) Cell Wp eq_refl Ow) as (h' & -> & P1); [intros h' Hh; exists CZero; auto|]. cbn. eauto.
    + unfold self_target. destruct R as (c & Hc & R). destruct c; try contradiction.
      * destruct R as [-> ->]. rewrite (load_holds h p W CZero) by (assumption || lia || reflexivity). cbn [rbind as_ptr].
        destruct (malloc_spec h z p [] Hz Ow) as (h1 & -> & Nx1 & Bk1 & Bn1 & Ow1 & On1 & Cl1).
        destruct (store_cell h1 p W CZero (CPtr (nxt h, 0))) as (h2 & E & Hh & Nx2 & Bk2 & Ow2 & On2); [lia|eapply holds_eq; [exact Cl1|exact Hc]|reflexivity|].
        rewrite E. cbn [rbind hlift].
        assert (Pn : pblk p <> Some (nxt h)) by (destruct Ow as (_ & _ & _ & O4); intros Q; apply O4 in Q; lia).
        assert (Rz : rrep h2 (Some (nxt h, 0)) fresh []).
        { apply (rrep_zero _ fs z Ly). intros y Hy. unfold cellat. rewrite Bk2 by exact Pn. rewrite Bn1. replace ((0 <=? 0 + y) && (0 + y <? z)) with true by lia. reflexivity. }
        assert (OwB : own h2 p ([] ++ qblk (Some (nxt h, 0)) ++ [] ++ [])) by (cbn; apply Ow2; exact Ow1).
        pose proof (Gd (JObj i j l) h2 (Some (nxt h, 0)) fresh [] (conj L S) Rz (own_inner _ _ _ _ _ _ OwB)) as Q.
        eapply gsim_map; [exact Q|].
        intros h3 g3 (F3 & R3 & Ow3 & On3). destruct (box h2 h3 p (Some (nxt h, 0)) [] [] F3 [] _ W OwB Ow3 On3) as (OwF & OnF & BkF & ClF).
        rewrite app_nil_r in *. cbn [qblk app fst] in *. exists (nxt h :: F3). split; [|split; [exact OwF|]].
        -- exists (CPtr (nxt h, 0)). split; [eapply holds_eq; [exact ClF|exact Hh]|]. exists g3, F3. split; [reflexivity|]. split; [exact R3|].
           cbn [RecSpec.sty m_size]. replace (0 <? z) with true by lia. reflexivity.
        -- cbn [RecRefine.fty m_size erase Dt.dsize]. eapply only_trans; [apply (On1 W)|]. eapply only_trans; [apply (On2 [nxt h] [nxt h]); apply incl_refl|rewrite ?app_nil_r in OnF; exact OnF].
      * destruct R as (v & F' & -> & Rv & ->). rewrite (load_holds h p W (CPtr p0)) by (assumption || lia || reflexivity). cbn [rbind as_ptr hlift].
        cbn [RecSpec.sty m_size m_rep] in *. replace (0 <? z) with true in * by lia. cbn [app] in *.
        assert (OwB : own h p ([] ++ qblk (Some p0) ++ F' ++ [])) by (cbn; rewrite app_nil_r; exact Ow).
        pose proof (Gd (JObj i j l) h (Some p0) v F' (conj L S) Rv (own_inner _ _ _ _ _ _ OwB)) as Q.
        eapply gsim_map; [exact Q|].
        intros h3 g3 (F3 & R3 & Ow3 & On3). destruct (box h h3 p (Some p0) [] F' F3 [] _ W OwB Ow3 On3) as (OwF & OnF & BkF & ClF).
        rewrite !app_nil_r in *. cbn [qblk app fst] in *. exists (fst p0 :: F3). split; [|split; [exact OwF|exact OnF]].
        exists (CPtr p0). split; [eapply holds_eq; [exact ClF|exact Hc]|]. exists g3, F3. split; [reflexivity|]. split; [exact R3|].
        cbn [RecSpec.sty m_size]. replace (0 <? z) with true by lia. reflexivity.
  - (* []S *)
    assert (Cell : exists c, holds h p (3 * W) c /\ is_poison c = false).
    { destruct R as (c & Hc & R). exists c. split; [exact Hc|]. destruct c; try reflexivity; contradiction. }
    destruct v as [i|i b|i r|i r|i r|i j l|i j l]; cbn [jidx]; try apply Ke.
    + destruct (Nl (3 * W) (VSlice None) Cell ltac:(lia) eq_refl Ow) as (h' & -> & P1); [intros h' Hh; exists CZero; auto|]. cbn. eauto.
    + apply lexed_arr in L as (_ & _ & _ & L).
      apply (slice_h_good C (low n) (sty rrep) f fd true Ns Gd); [cbn [RecSpec.sty m_size]; lia| |exact R|exact Ow].
      rewrite Forall_forall in *. intros w Hw. split; [apply L, Hw|pose proof (height_arr i j l w Hw); lia].
  - (* map[K]S *)
    assert (Cell : exists c, holds h p W c /\ is_poison c = false).
    { destruct R as (c & Hc & R). exists c. split; [exact Hc|]. destruct c; try reflexivity; contradiction. }
    destruct v as [i|i b|i r|i r|i r|i j l|i j l]; cbn [jidx]; try apply Ke.
    + destruct (Nl W (VMap None) Cell Wp eq_refl Ow) as (h' & -> & P1); [intros h' Hh; exists CZero; auto|]. cbn. eauto.
    + apply lexed_obj in L as (_ & _ & _ & L). rewrite Forall_forall in L.
      destruct (init_map_spec C (sty rrep) h p g F R Ow) as (h1 & F1 & -> & R1 & Ow1 & On1). cbn [hlift].
      rewrite <- (act_entries_same C s); [|apply Forall_forall; intros w Hw; apply L, Hw].
      eapply gsim_map; [apply (entries_good C s (low n) kt (sty rrep) fd f true Ns Gd l h1 p _ F1); [|exact R1|exact Ow1]|].
      * apply Forall_forall. intros w Hw. split; [apply L, Hw|]. split; [apply L, Hw|pose proof (height_obj i j l w Hw); lia].
      * intros h2 m2 (F2 & R2 & Ow2 & On2). exists F2. split; [exact R2|]. split; [exact Ow2|]. eapply only_trans; eassumption.
  - (* others *)
    pose proof (sub_layout _ _ _ Ly x d Hx Ex) as Ld. pose proof (rep_typed _ _ _ _ _ _ R) as Ty.
    pose proof (dech_good C O s d Ld v h p g F L R Ow) as G.
    rewrite (dval_actual C O s d v g L) in *. exact G.
Qed.

Lemma act_members_good n f fd : goodm (low n) (sty rrep) f fd -> forall l h p gs F,
  Forall (fun x => key_lexed s x /\ lexed s (snd x)) l -> Forall (fun x => (height (snd x) <= n)%nat) l ->
  reps (parts rrep fs) h p gs F -> own h p F ->
  gsim (rpost h p F) (rmembers f l p h) (act_fields fd l gs).
Proof.
  intros Gd. induction l as [|x l IH]; intros h p gs F Lx Sx R Ow.
  - cbn. exists h. split; [reflexivity|]. exists F. split; [exact R|]. split; [exact Ow|apply only_refl].
  - inversion Lx as [|? ? [[_ K] L1] L2]; subst. inversion Sx as [|? ? S2 S3]; subst.
    unfold Rec.rmembers, RecActual.act_fields in *. destruct x as [[i key] v]. cbn [members_h ideal_members fst snd] in *.
    assert (Ek : (if o_nounescape O then Ok key else unesc key) = Ok (if o_nounescape O then key else txt key)).
    { destruct (o_nounescape O); [reflexivity|]. unfold unesc, txt. destruct (Valid_body _ K) as (b & ->). reflexivity. }
    rewrite Ek. cbn [hlift].
    assert (Ef : act_field_for C O (shape fs) key = pick (c_fold C) (o_nofold O) (rnames fs) (if o_nounescape O then key else txt key)).
    { unfold act_field_for, act_key_text. rewrite shape_names. destruct (o_nounescape O); [reflexivity|]. rewrite txt_units by exact K. reflexivity. }
    rewrite <- Ef. destruct (act_field_for C O (shape fs) key) as [j|].
    2: { destruct (o_unknown O); [|apply (IH h p gs F); assumption]. cbn.
         exists h. split; [reflexivity|]. exists F. split; [exact R|]. split; [exact Ow|apply only_refl]. }
    symmetry in Ef. apply pick_lt in Ef. unfold rnames in Ef. rewrite map_length in Ef.
    destruct (nth_error fs j) as [y|] eqn:Ey; [|apply nth_error_None in Ey; lia].
    rewrite !nth_error_map, Ey. cbn [option_map fst snd].
    destruct (rfield_focus _ fs z Ly h p gs F j y R Ow Ey) as (g & Fj & Hg & Rj & Oj & Upd). rewrite Hg.
    pose proof (act_field_good n f fd y (nth_error_In _ _ Ey) Gd v h (padd p (snd (fst y))) g Fj (conj L1 S2) Rj Oj) as Q.
    destruct (act_field fd (snd y) v g) as [g'|i' e g'|]; cbn [gsim] in Q.
    + destruct Q as (h1 & -> & P1). cbn [hbind]. destruct (Upd h1 g' P1) as (F1 & R1 & Ow1 & On1).
      pose proof (IH h1 p _ F1 L2 S3 R1 Ow1) as I1.
      eapply gsim_imp; [exact I1|]. intros h2 gs2 (F2 & R2 & Ow2 & On2). exists F2. split; [exact R2|]. split; [exact Ow2|].
      eapply only_trans; eassumption.
    + destruct Q as (h1 & -> & P1). cbn [hbind gsim]. exists h1. split; [reflexivity|]. exact (Upd h1 g' P1).
    + rewrite Q. reflexivity.
Qed.

Lemma act_rdecn_good n : goodm (low n) (sty rrep) (rdecn n) (act_n n).
Proof.
  induction n as [|n IH]; intros v h p g F [L S] R Ow; [destruct v; cbn in S; lia|]. cbn [Rec.rdecn RecActual.act_n] in *. unfold act_struct.
  assert (Ke : forall i e, gsim (postm (sty rrep) h p F) (HErr i e h) (VErr i e g)) by (intros; exists h; split; [reflexivity|]; apply postm_refl; assumption).
  destruct v as [i|i b|i r|i r|i r|i j l|i j l]; cbn [jidx]; try apply Ke.
  - exists h. split; [reflexivity|]. apply postm_refl; assumption.
  - apply lexed_obj in L as (_ & _ & _ & L). assert (Sm : Forall (fun x => (height (snd x) <= n)%nat) l) by (apply Forall_forall; intros x Hx; pose proof (height_obj i j l x Hx); lia). cbn [RecSpec.sty m_rep] in R. apply rrep_unfold in R as (gs & -> & R).
    eapply gsim_map; [apply (act_members_good _ _ _ IH l h p gs F L Sm R Ow)|].
    intros h' g' (F' & R' & Ow' & On'). exists F'. split; [apply rrep_unfold; eauto|]. split; assumption.
Qed.

(** The whole document. *)
Theorem rdec_actual v h p g F : lexed s v -> rrep h p g F -> own h p F ->
  gsim (fun h' g' => exists F', rrep h' p g' F' /\ own h' p F' /\ only h h' p z F F') (rdec C O s z fs v p h) (actual_rec C O s fs v g).
Proof. intros L R Ow. exact (act_rdecn_good (height v) v h p g F (conj L (Nat.le_refl _)) R Ow). Qed.
End Main.

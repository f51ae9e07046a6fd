(** The recursive decoder on memory for recursive structs ([rdec], Rec.v) computes the
    ideal decoder ([ideal_rec], RecSpec.v). *)
From Verif Require Import Base NumSpec StrSpec Atoi JsonNum Unescape UnescapeProofs Lookup Types Token FloatLit Heap Machine Dt Dec Value Dval Sep Refine Refine2 Refine3 Spec Typed SpecProofs Rec RecSpec.
From Verif Require Control.
Open Scope Z_scope.

(** ** Pointers, slices and maps over an arbitrary type *)
Section Over.
Variables (w64 : bool) (t : mty).
Notation W := (wb w64).
Hypothesis Sz : 0 <= m_size t.
Hypothesis St : stable (m_rep t) (m_size t).
Lemma ptr_stable : stable (rep_ptr w64 t) W.
Proof.
  pose proof (wb_pos w64) as Wp. intros h p h' p' g F (c & Hc & H) A. exists c.
  split; [eapply holds_agree; [|exact A|exact Hc]; lia|]. destruct c; try exact H. destruct H as (v & F' & -> & Hr & ->).
  exists v, F'. split; [reflexivity|]. split; [|reflexivity]. destruct A as [_ A]. eapply St; [exact Hr|]. split.
  - intros x Hx. unfold cellat. destruct p0 as [b o]. rewrite (A b); [reflexivity|]. apply in_or_app. left. replace (0 <? m_size t) with true by lia. left. reflexivity.
  - intros b Hb. apply A, in_or_app. right. exact Hb.
Qed.
Lemma slice_stable : stable (rep_slice w64 t) (3 * W).
Proof.
  pose proof (wb_pos w64) as Wp. intros h p h' p' g F (c & Hc & H) A. exists c.
  split; [eapply holds_agree; [|exact A|exact Hc]; lia|]. destruct c; try exact H.
  destruct H as (vis & hid & F' & -> & Hl & Hcap & Rm & Hr & ->). exists vis, hid, F'. destruct A as [_ A].
  assert (Ac : forall x, 0 <= x < cap * m_size t -> cellat h' (Some p0) x = cellat h (Some p0) x); [|subst len].
  { intros x Hx. assert (blk h' (fst p0) = blk h (fst p0)) as Ab.
    { apply A. apply in_or_app. left. replace ((0 <? m_size t) && (0 <? cap)) with true; [left; reflexivity|]. symmetry. apply andb_true_iff. split; nia. }
    unfold cellat. destruct p0 as [b o]. cbn [fst] in Ab. rewrite Ab. reflexivity. }
  split; [reflexivity|]. split; [reflexivity|]. split; [exact Hcap|]. split; [|split; [|reflexivity]].
  - intros x Hx. rewrite Ac by exact Hx. apply Rm, Hx.
  - eapply reps_agree; [apply slots_stable; [exact Sz|exact St]|exact Hr|]. split; [intros x Hx; apply Ac; rewrite Hcap; exact Hx|].
    intros b Hb. apply A, in_or_app. right. exact Hb.
Qed.
Lemma map_stable : stable (rep_map w64 t) W.
Proof.
  pose proof (wb_pos w64) as Wp. intros h p h' p' g F (c & Hc & H) A. exists c.
  split; [eapply holds_agree; [|exact A|exact Hc]; lia|]. destruct c; try exact H.
  destruct H as (l & m & F' & Eb & -> & Hr & Hd & ->). exists l, m, F'. destruct A as [_ A].
  split; [rewrite A by (left; reflexivity); exact Eb|]. repeat split; try assumption.
  eapply entries_agree; [exact St|exact Hr|]. intros x Hx. apply A. right. exact Hx.
Qed.
End Over.

(** A representation predicate can be replaced by a weaker one. *)
Definition weaker (R R' : rept) : Prop := forall h p g F, R h p g F -> R' h p g F.
Lemma reps_imp (rs rs' : list (Z * rept)) : Forall2 (fun r r' : Z * rept => fst r = fst r' /\ weaker (snd r) (snd r')) rs rs' ->
  forall h p gs F, reps rs h p gs F -> reps rs' h p gs F.
Proof.
  induction 1 as [|r r' rs rs' [E1 E2] _ IH]; intros h p [|g gs] F H; cbn in *; try contradiction; [exact H|].
  destruct H as (F1 & F2 & -> & A & B). exists F1, F2. split; [reflexivity|]. rewrite <- E1. split; [apply E2, A|apply IH, B].
Qed.
Lemma slots_imp R R' sz : weaker R R' -> forall n k h p gs F, reps (slots sz R k n) h p gs F -> reps (slots sz R' k n) h p gs F.
Proof.
  intros I n k. apply reps_imp. revert k. induction n as [|n IH]; intros k; cbn [slots]; constructor; [|apply IH]. split; [reflexivity|exact I].
Qed.
Lemma entries_imp R R' sz h : weaker R R' -> forall l m F, rep_entries R sz h l m F -> rep_entries R' sz h l m F.
Proof.
  intros I. induction l as [|[k b] l IH]; intros [|[k' g] m] F H; cbn in *; try contradiction; [exact H|].
  destruct H as (F1 & F2 & -> & -> & Rm & A & B). exists F1, F2. repeat split; try assumption; [apply I, A|apply IH, B].
Qed.
(** An increasing family. *)
Section Family.
Variable T : nat -> rept.
Hypothesis Mono : forall n m, (n <= m)%nat -> weaker (T n) (T m).
Definition union : rept := fun h p g F => exists n, T n h p g F.
Lemma slots_depth sz h p : forall n k gs F, reps (slots sz union k n) h p gs F -> exists d, reps (slots sz (T d) k n) h p gs F.
Proof.
  induction n as [|n IH]; intros k [|g gs] F H; cbn in H; try contradiction; [exists 0%nat; exact H|].
  destruct H as (F1 & F2 & -> & (d1 & A) & B). destruct (IH _ _ _ B) as (d2 & B'). exists (Nat.max d1 d2). cbn. exists F1, F2.
  split; [reflexivity|]. split; [eapply Mono; [|exact A]; lia|]. eapply slots_imp; [|exact B']. apply Mono. lia.
Qed.
Lemma entries_depth sz h : forall l m F, rep_entries union sz h l m F -> exists d, rep_entries (T d) sz h l m F.
Proof.
  induction l as [|[k b] l IH]; intros [|[k' g] m] F H; cbn in H; try contradiction; [exists 0%nat; exact H|].
  destruct H as (F1 & F2 & -> & -> & Rm & (d1 & A) & B). destruct (IH _ _ B) as (d2 & B'). exists (Nat.max d1 d2). cbn. exists F1, F2.
  split; [reflexivity|]. split; [reflexivity|]. split; [exact Rm|]. split; [eapply Mono; [|exact A]; lia|]. eapply entries_imp; [|exact B']. apply Mono. lia.
Qed.
End Family.

Section Mem.
Variables (w64 : bool) (fs : rfields) (z : Z).
Notation W := (wb w64).
Notation dsize := (dsize w64).
Notation rep := (rep w64).
Notation layout := (layout w64).
Notation sty := (sty z fs).
Notation rep_field := (rep_field w64 z fs).
Notation repn := (repn w64 z fs).
Notation rrep := (rrep w64 z fs).
Hypothesis Ly : rlayout w64 z fs.

Definition parts (R : rept) (l : rfields) : list (Z * rept) := map (fun x => (snd (fst x), rep_field R (snd x))) l.

Lemma field_imp R R' k : weaker R R' -> weaker (rep_field R k) (rep_field R' k).
Proof.
  intros I h p g F H. destruct k as [| |kt|d]; cbn [RecSpec.rep_field] in *; [| | |exact H].
  - destruct H as (c & Hc & H). exists c. split; [exact Hc|]. destruct c; try exact H. destruct H as (v & F' & E & Hr & E'). exists v, F'. split; [exact E|]. split; [apply I, Hr|exact E'].
  - destruct H as (c & Hc & H). exists c. split; [exact Hc|]. destruct c; try exact H. destruct H as (vis & hid & F' & E1 & E2 & E3 & Rm & Hr & E4).
    exists vis, hid, F'. repeat split; try assumption. eapply slots_imp; [exact I|exact Hr].
  - destruct H as (c & Hc & H). exists c. split; [exact Hc|]. destruct c; try exact H. destruct H as (l & m & F' & E1 & E2 & Hr & D & E4).
    exists l, m, F'. repeat split; try assumption. eapply entries_imp; [exact I|exact Hr].
Qed.
Lemma parts_imp (R R' : rept) l : weaker R R' -> forall h p gs F, reps (parts R l) h p gs F -> reps (parts R' l) h p gs F.
Proof.
  intros I. apply reps_imp. unfold parts. induction l as [|x l IH]; constructor; [|exact IH]. cbn [fst snd]. split; [reflexivity|].
  apply field_imp, I.
Qed.
Lemma repn_mono n m : (n <= m)%nat -> weaker (repn n) (repn m).
Proof.
  revert m. induction n as [|n IH]; intros m Hm h p g F H; [destruct H|]. destruct m as [|m]; [lia|]. cbn [RecSpec.repn] in *.
  destruct H as (gs & -> & H). exists gs. split; [reflexivity|]. eapply (parts_imp (repn n)); [apply IH; lia|exact H].
Qed.
Lemma field_depth k h p g F : rep_field rrep k h p g F -> exists n, rep_field (repn n) k h p g F.
Proof.
  intros H. destruct k as [| |kt|d]; cbn [RecSpec.rep_field] in *; [| | |exists 0%nat; exact H].
  - destruct H as (c & Hc & H). destruct c; try contradiction; [exists 0%nat, CZero; auto|].
    destruct H as (v & F' & E & (m & Hm) & E'). exists m, (CPtr p0). split; [exact Hc|]. exists v, F'. auto.
  - destruct H as (c & Hc & H). destruct c; try contradiction; [exists 0%nat, CZero; auto|].
    destruct H as (vis & hid & F' & E1 & E2 & E3 & Rm & Hr & E4). apply (slots_depth repn repn_mono) in Hr as (d & Hr).
    exists d, (CSlice p0 len cap). split; [exact Hc|]. exists vis, hid, F'. auto 10.
  - destruct H as (c & Hc & H). destruct c; try contradiction; [exists 0%nat, CZero; auto|].
    destruct H as (l & m & F' & E1 & E2 & Hr & D & E4). apply (entries_depth repn repn_mono) in Hr as (d & Hr).
    exists d, (CMap b). split; [exact Hc|]. exists l, m, F'. auto 10.
Qed.
Lemma parts_depth l : forall h p gs F, reps (parts rrep l) h p gs F -> exists n, reps (parts (repn n) l) h p gs F.
Proof.
  induction l as [|x l IH]; intros h p [|g gs] F H; cbn in H; try contradiction; [exists 0%nat; exact H|].
  destruct H as (F1 & F2 & -> & A & B). destruct (IH _ _ _ _ B) as (n & B'). destruct (field_depth _ _ _ _ _ A) as (m & A').
  exists (Nat.max n m). cbn [parts map reps fst snd]. exists F1, F2. split; [reflexivity|]. split.
  - eapply field_imp; [|exact A']. apply repn_mono. lia.
  - eapply parts_imp; [|exact B']. apply repn_mono. lia.
Qed.
Lemma rrep_unfold h p g F : rrep h p g F <-> exists gs, g = VStruct gs /\ reps (parts rrep fs) h p gs F.
Proof.
  split.
  - intros ([|n] & H); [destruct H|]. destruct H as (gs & -> & H). exists gs. split; [reflexivity|]. eapply (parts_imp (repn n)); [|exact H].
    intros ? ? ? ? Q. exists n. exact Q.
  - intros (gs & -> & H). destruct (parts_depth _ _ _ _ _ H) as (n & H'). exists (S n). exists gs. auto.
Qed.

Lemma shape_in x : In x fs -> In (fst x, erase (snd x)) (shape fs).
Proof. intros H. unfold shape. apply (in_map (fun x => (fst x, erase (snd x)))) in H. exact H. Qed.
Lemma slot_in x : In x fs -> 0 <= snd (fst x) /\ snd (fst x) + dsize (erase (snd x)) <= z.
Proof.
  destruct Ly as [L _]. apply layout_struct in L as (Li & _). rewrite Forall_forall in Li. intros H. apply (Li _ (shape_in x H)).
Qed.
Lemma sub_layout x d : In x fs -> snd x = RSub d -> layout d.
Proof.
  destruct Ly as [L _]. apply layout_struct in L as (_ & _ & _ & La). intros H E. pose proof (all_layout_in w64 _ _ La (shape_in x H)) as Q.
  cbn [snd] in Q. rewrite E in Q. exact Q.
Qed.
Lemma erase_size k : dsize (erase k) = match k with RSlice => 3 * W | RSub d => dsize d | _ => W end.
Proof. destruct k; reflexivity. Qed.
Lemma size_pos : 0 < z.
Proof. apply Ly. Qed.

Lemma field_stable R x : stable R z -> In x fs -> stable (rep_field R (snd x)) (dsize (erase (snd x))).
Proof.
  intros St Hx. rewrite erase_size. pose proof size_pos as Zp. destruct (snd x) as [| |kt|d] eqn:Ex; cbn [RecSpec.rep_field].
  - apply ptr_stable; exact St.
  - apply slice_stable; [cbn; lia|exact St].
  - apply map_stable; exact St.
  - apply rep_agree, (sub_layout x d Hx Ex).
Qed.
Lemma parts_stable R : stable R z ->
  Forall (fun r => exists sz, 0 <= fst r /\ fst r + sz <= z /\ stable (snd r) sz) (parts R fs).
Proof.
  intros St. apply Forall_forall. intros r Hr. apply in_map_iff in Hr as (x & <- & Hx). destruct (slot_in x Hx) as [S1 S2].
  cbn [fst snd]. exists (dsize (erase (snd x))). repeat split; try lia. apply field_stable; assumption.
Qed.
Lemma repn_stable n : stable (repn n) z.
Proof.
  induction n as [|n IH]; intros h p h' p' g F H A; [destruct H|]. destruct H as (gs & -> & H). exists gs. split; [reflexivity|].
  eapply reps_agree; [apply parts_stable, IH|exact H|exact A].
Qed.
Lemma rrep_stable : stable rrep z.
Proof. intros h p h' p' g F (n & H) A. exists n. eapply repn_stable; eassumption. Qed.
(** Zeroed memory holds the zero value. *)
Lemma field_zero R x h p : In x fs -> (forall y, 0 <= y < dsize (erase (snd x)) -> cellat h p y = Some CZero) -> rep_field R (snd x) h p (rzero (snd x)) [].
Proof.
  pose proof (wb_pos w64) as Wp. rewrite erase_size. intros Hx Hz.
  assert (Hold : forall n, 0 < n -> (forall y, 0 <= y < n -> cellat h p y = Some CZero) -> holds h p n CZero).
  { intros n Hn Q. split; [intros y Hy; rewrite Q by lia; discriminate|apply Q; lia]. }
  destruct (snd x) as [| |kt|d] eqn:Ek; cbn [RecSpec.rep_field rzero].
  - exists CZero. split; [apply Hold; [lia|exact Hz]|auto].
  - exists CZero. split; [apply Hold; [lia|exact Hz]|auto].
  - exists CZero. split; [apply Hold; [lia|exact Hz]|auto].
  - apply rep_zero; [apply (sub_layout x d Hx Ek)|exact Hz].
Qed.
Lemma rrep_zero h p : (forall x, 0 <= x < z -> cellat h p x = Some CZero) -> rrep h p (VStruct (rzeros fs)) [].
Proof.
  intros Hz. apply rrep_unfold. eexists. split; [reflexivity|]. apply reps_zero; [unfold parts, rzeros; rewrite !map_length; reflexivity|].
  intros i r zz Hr Hzz. unfold parts, rzeros in *. rewrite nth_error_map in Hr, Hzz. destruct (nth_error fs i) as [x|] eqn:Ex; [|discriminate].
  injection Hr as <-. injection Hzz as <-. cbn [fst snd]. apply nth_error_In in Ex. destruct (slot_in x Ex) as [S1 S2].
  apply field_zero; [exact Ex|]. intros y Hy. rewrite cellat_padd. apply Hz. lia.
Qed.
Lemma nice_sty : nice (sty rrep).
Proof.
  pose proof size_pos as Zp. split; cbn [RecSpec.sty m_size m_rep m_zero]; [lia|apply rrep_stable|apply rrep_zero|lia].
Qed.
(** The type of a field in memory. *)
Definition fty (k : rk) : mty := MT (dsize (erase k)) (rep_field rrep k) (rzero k).
Lemma nice_fty x : In x fs -> nice (fty (snd x)).
Proof.
  intros Hx. pose proof (wb_pos w64) as Wp. split; cbn [fty m_size m_rep m_zero].
  - rewrite erase_size. destruct (snd x) as [| |kt|d] eqn:Ek; try lia. apply dsize_nonneg, (sub_layout x d Hx Ek).
  - apply field_stable; [apply rrep_stable|exact Hx].
  - intros h p Hz. apply field_zero; assumption.
  - rewrite erase_size. destruct (snd x) as [| |kt|d] eqn:Ek; try lia. apply rep_size0, (sub_layout x d Hx Ek).
Qed.
Definition rpost (h : heap) (p : ptr) (F : list nat) (h' : heap) (gs : list gval) : Prop :=
  exists F', reps (parts rrep fs) h' p gs F' /\ own h' p F' /\ only h h' p z F F'.

Lemma rfield_focus h p gs F j x : reps (parts rrep fs) h p gs F -> own h p F -> nth_error fs j = Some x ->
  exists g Fj, nth_error gs j = Some g /\ m_rep (fty (snd x)) h (padd p (snd (fst x))) g Fj /\ own h (padd p (snd (fst x))) Fj /\
  forall h' g', postm (fty (snd x)) h (padd p (snd (fst x))) Fj h' g' -> rpost h p F h' (set_nth gs j g').
Proof.
  intros R Ow Hj. pose proof (nth_error_In _ _ Hj) as Hx. destruct (slot_in x Hx) as [S1 S2].
  apply (part_focus _ _ _ _ _ _ _ _ (fty (snd x))); try assumption.
  - apply nice_fty, Hx.
  - unfold parts. rewrite nth_error_map, Hj. reflexivity.
  - intros i r Ni Hi. unfold parts in Hi. rewrite nth_error_map in Hi. destruct (nth_error fs i) as [y|] eqn:Ey; [|discriminate]. injection Hi as <-. cbn [fst snd].
    exists (dsize (erase (snd y))). split; [apply field_stable; [apply rrep_stable|eapply nth_error_In, Ey]|].
    destruct Ly as [L _]. apply layout_struct in L as (_ & Ld & _).
    pose proof (disjoint_nth _ Ld i j (snd (fst y), dsize (erase (snd y))) (snd (fst x), dsize (erase (snd x))) Ni) as Q.
    unfold shape in Q. rewrite !nth_error_map, Ey, Hj in Q. cbn in Q. specialize (Q eq_refl eq_refl). cbn [fty m_size]. lia.
Qed.
End Mem.

Section Main.
Variables (C : cfg) (O : opts) (s : bytes) (fs : rfields) (z : Z).
Notation w64 := (c_w64 C).
Notation W := (wb (c_w64 C)).
Notation dsize := (dsize (c_w64 C)).
Notation rrep := (rrep (c_w64 C) z fs).
Notation sty := (sty z fs).
Notation fty := (fty (c_w64 C) fs z).
Notation rpost := (rpost (c_w64 C) fs z).
Notation parts := (parts (c_w64 C) fs z).
Notation fieldh := (fieldh C O s z).
Notation rmembers := (rmembers C O s z fs).
Notation rdecn := (rdecn C O s z fs).
Notation ideal_field := (ideal_field C O s fs).
Notation ideal_fields := (ideal_fields C O s fs).
Notation ideal_n := (ideal_n C O s fs).
Notation rsoundn := (rsoundn C O fs).
Notation fresh := (VStruct (rzeros fs)).
Hypothesis Ly : rlayout (c_w64 C) z fs.

Lemma entries_same k f b g0 l : Forall (fun x => key_lexed s x /\ sound_key C k (snd (fst x))) l -> forall m,
  entriesv C k f b g0 l m = ideal_entries C k f b g0 l m.
Proof.
  induction 1 as [|x l [[_ K] Sk] Hl IH]; intros m; [reflexivity|]. destruct x as [[i key] v]. cbn [entriesv ideal_entries fst snd] in *.
  rewrite (key_agree C k key K Sk). destruct (ideal_key C k key) as [ky|]; [|reflexivity]. destruct (f v _); try reflexivity. apply IH.
Qed.

(** ** Memory *)
Definition docs (P : jv -> Prop) (v : jv) : Prop := lexed s v /\ P v.
Lemma null_field x h p F n g' : In x fs -> (exists c, holds h p n c /\ is_poison c = false) -> 0 < n -> dsize (erase (snd x)) = n ->
  own h p F -> (forall h', holds h' p n CZero -> m_rep (fty (snd x)) h' p g' []) ->
  exists h', store h p n CZero = Ok h' /\ postm (fty (snd x)) h p F h' g'.
Proof.
  intros Hx (c & Hc & Np) Hn Sz Ow Mk. destruct (store_cell h p n c CZero Hn Hc Np) as (h' & E & Hh & _ & _ & Ow1 & On1).
  exists h'. split; [exact E|]. exists []. split; [apply Mk, Hh|]. cbn [RecRefine.fty m_size]. rewrite Sz. split; [apply Ow1; eapply own_nil, Ow|apply On1; intros b []].
Qed.

Lemma field_good P f fd x : In x fs -> goodm (docs P) (sty rrep) f fd -> goodm (docs (fsound C O P (snd x))) (fty (snd x)) (fieldh f (snd x)) (ideal_field fd (snd x)).
Proof.
  intros Hx Gd v h p g F [L S] R Ow. pose proof (wb_pos w64) as Wp. assert (Hz : 0 < z) by apply Ly. pose proof (nice_sty _ _ _ Ly) as Ns.
  assert (Ke : forall i e, gsim (postm (fty (snd x)) h p F) (HErr i e h) (VErr i e g)) by (intros; exists h; split; [reflexivity|]; apply postm_refl; assumption).
  pose proof (null_field x h p F) as Nl. specialize (fun n g' => Nl n g' Hx).
  destruct (snd x) as [| |kt|d] eqn:Ex; cbn [Rec.fieldh RecSpec.ideal_field fsound RecRefine.fty m_rep rep_field erase Dt.dsize] in *.
  - (* *S *)
    assert (Cell : exists c, holds h p W c /\ is_poison c = false).
    { destruct R as (c & Hc & R). exists c. split; [exact Hc|]. destruct c; try reflexivity; contradiction. }
    destruct v as [i|i b|i r|i r|i r|i j l|i j l]; cbn [jidx]; try apply Ke.
    + destruct (Nl W (VPtr None) Cell Wp eq_refl Ow) as (h' & -> & P1); [intros h' Hh; exists CZero; auto|]. cbn. eauto.
    + unfold self_target. destruct R as (c & Hc & R). destruct c; try contradiction.
      * destruct R as [-> ->]. rewrite (load_holds h p W CZero) by (assumption || lia || reflexivity). cbn [rbind as_ptr].
        destruct (malloc_spec h z p [] Hz Ow) as (h1 & -> & Nx1 & Bk1 & Bn1 & Ow1 & On1 & Cl1).
        destruct (store_cell h1 p W CZero (CPtr (nxt h, 0))) as (h2 & E & Hh & Nx2 & Bk2 & Ow2 & On2); [lia|eapply holds_eq; [exact Cl1|exact Hc]|reflexivity|].
        rewrite E. cbn [rbind hlift].
        assert (Pn : pblk p <> Some (nxt h)) by (destruct Ow as (_ & _ & _ & O4); intros Q; apply O4 in Q; lia).
        assert (Rz : rrep h2 (Some (nxt h, 0)) fresh []).
        { apply (rrep_zero _ fs z Ly). intros y Hy. unfold cellat. rewrite Bk2 by exact Pn. rewrite Bn1. replace ((0 <=? 0 + y) && (0 + y <? z)) with true by lia. reflexivity. }
        assert (OwB : own h2 p ([] ++ qblk (Some (nxt h, 0)) ++ [] ++ [])) by (cbn; apply Ow2; exact Ow1).
        pose proof (Gd (JObj i j l) h2 (Some (nxt h, 0)) fresh [] (conj L S) Rz (own_inner _ _ _ _ _ _ OwB)) as Q.
        eapply gsim_map; [exact Q|].
        intros h3 g3 (F3 & R3 & Ow3 & On3). destruct (box h2 h3 p (Some (nxt h, 0)) [] [] F3 [] _ W OwB Ow3 On3) as (OwF & OnF & BkF & ClF).
        rewrite app_nil_r in *. cbn [qblk app fst] in *. exists (nxt h :: F3). split; [|split; [exact OwF|]].
        -- exists (CPtr (nxt h, 0)). split; [eapply holds_eq; [exact ClF|exact Hh]|]. exists g3, F3. split; [reflexivity|]. split; [exact R3|].
           cbn [RecSpec.sty m_size]. replace (0 <? z) with true by lia. reflexivity.
        -- cbn [RecRefine.fty m_size erase Dt.dsize]. eapply only_trans; [apply (On1 W)|]. eapply only_trans; [apply (On2 [nxt h] [nxt h]); apply incl_refl|rewrite ?app_nil_r in OnF; exact OnF].
      * destruct R as (v & F' & -> & Rv & ->). rewrite (load_holds h p W (CPtr p0)) by (assumption || lia || reflexivity). cbn [rbind as_ptr hlift].
        cbn [RecSpec.sty m_size m_rep] in *. replace (0 <? z) with true in * by lia. cbn [app] in *.
        assert (OwB : own h p ([] ++ qblk (Some p0) ++ F' ++ [])) by (cbn; rewrite app_nil_r; exact Ow).
        pose proof (Gd (JObj i j l) h (Some p0) v F' (conj L S) Rv (own_inner _ _ _ _ _ _ OwB)) as Q.
        eapply gsim_map; [exact Q|].
        intros h3 g3 (F3 & R3 & Ow3 & On3). destruct (box h h3 p (Some p0) [] F' F3 [] _ W OwB Ow3 On3) as (OwF & OnF & BkF & ClF).
        rewrite !app_nil_r in *. cbn [qblk app fst] in *. exists (fst p0 :: F3). split; [|split; [exact OwF|exact OnF]].
        exists (CPtr p0). split; [eapply holds_eq; [exact ClF|exact Hc]|]. exists g3, F3. split; [reflexivity|]. split; [exact R3|].
        cbn [RecSpec.sty m_size]. replace (0 <? z) with true by lia. reflexivity.
  - (* []S *)
    assert (Cell : exists c, holds h p (3 * W) c /\ is_poison c = false).
    { destruct R as (c & Hc & R). exists c. split; [exact Hc|]. destruct c; try reflexivity; contradiction. }
    destruct v as [i|i b|i r|i r|i r|i j l|i j l]; cbn [jidx]; try apply Ke.
    + destruct (Nl (3 * W) (VSlice None) Cell ltac:(lia) eq_refl Ow) as (h' & -> & P1); [intros h' Hh; exists CZero; auto|]. cbn. eauto.
    + apply lexed_arr in L as (_ & _ & _ & L).
      apply (slice_h_good C (docs P) (sty rrep) f fd true Ns Gd); [cbn [RecSpec.sty m_size]; lia| |exact R|exact Ow].
      rewrite Forall_forall in *. intros w Hw. split; [apply L, Hw|apply S, Hw].
  - (* map[K]S *)
    assert (Cell : exists c, holds h p W c /\ is_poison c = false).
    { destruct R as (c & Hc & R). exists c. split; [exact Hc|]. destruct c; try reflexivity; contradiction. }
    destruct v as [i|i b|i r|i r|i r|i j l|i j l]; cbn [jidx]; try apply Ke.
    + destruct (Nl W (VMap None) Cell Wp eq_refl Ow) as (h' & -> & P1); [intros h' Hh; exists CZero; auto|]. cbn. eauto.
    + apply lexed_obj in L as (_ & _ & _ & L). rewrite Forall_forall in L, S.
      destruct (init_map_spec C (sty rrep) h p g F R Ow) as (h1 & F1 & -> & R1 & Ow1 & On1). cbn [hlift].
      rewrite <- entries_same; [|apply Forall_forall; intros w Hw; split; [apply L, Hw|apply S, Hw]].
      eapply gsim_map; [apply (entries_good C s (docs P) kt (sty rrep) fd f true Ns Gd l h1 p _ F1); [|exact R1|exact Ow1]|].
      * apply Forall_forall. intros w Hw. split; [apply L, Hw|]. split; [apply L, Hw|apply S, Hw].
      * intros h2 m2 (F2 & R2 & Ow2 & On2). exists F2. split; [exact R2|]. split; [exact Ow2|]. eapply only_trans; eassumption.
  - (* others *)
    pose proof (sub_layout _ _ _ Ly x d Hx Ex) as Ld. pose proof (rep_typed _ _ _ _ _ _ R) as Ty.
    pose proof (dech_good C O s d Ld v h p g F L R Ow) as G.
    rewrite (dval_ideal C O s d v g L S Ty) in *. exact G.
Qed.

Lemma members_good P f fd : goodm (docs P) (sty rrep) f fd -> forall l h p gs F,
  Forall (fun x => key_lexed s x /\ lexed s (snd x)) l -> Forall (msound C O fs P) l ->
  reps (parts rrep fs) h p gs F -> own h p F ->
  gsim (rpost h p F) (rmembers f l p h) (ideal_fields fd l gs).
Proof.
  intros Gd. induction l as [|x l IH]; intros h p gs F Lx Sx R Ow.
  - cbn. exists h. split; [reflexivity|]. exists F. split; [exact R|]. split; [exact Ow|apply only_refl].
  - inversion Lx as [|? ? [[_ K] L1] L2]; subst. inversion Sx as [|? ? [S1 S2] S3]; subst.
    unfold Rec.rmembers, RecSpec.ideal_fields in *. destruct x as [[i key] v]. cbn [members_h ideal_members fst snd] in *.
    assert (Ek : (if o_nounescape O then Ok key else unesc key) = Ok (if o_nounescape O then key else txt key)).
    { destruct (o_nounescape O); [reflexivity|]. unfold unesc, txt. destruct (Valid_body _ K) as (b & ->). reflexivity. }
    rewrite Ek. cbn [hlift].
    assert (Ef : rfield_for C O fs key = pick (c_fold C) (o_nofold O) (rnames fs) (if o_nounescape O then key else txt key)).
    { unfold rfield_for. rewrite field_for_pick by assumption. rewrite shape_names. reflexivity. }
    rewrite <- Ef. destruct (rfield_for C O fs key) as [j|].
    2: { destruct (o_unknown O); [|apply (IH h p gs F); assumption]. cbn.
         exists h. split; [reflexivity|]. exists F. split; [exact R|]. split; [exact Ow|apply only_refl]. }
    symmetry in Ef. apply pick_lt in Ef. unfold rnames in Ef. rewrite map_length in Ef.
    destruct (nth_error fs j) as [y|] eqn:Ey; [|apply nth_error_None in Ey; lia].
    rewrite !nth_error_map, Ey. cbn [option_map fst snd].
    destruct (rfield_focus _ fs z Ly h p gs F j y R Ow Ey) as (g & Fj & Hg & Rj & Oj & Upd). rewrite Hg.
    pose proof (field_good P f fd y (nth_error_In _ _ Ey) Gd v h (padd p (snd (fst y))) g Fj (conj L1 S2) Rj Oj) as Q.
    destruct (ideal_field fd (snd y) v g) as [g'|i' e g'|]; cbn [gsim] in Q.
    + destruct Q as (h1 & -> & P1). cbn [hbind]. destruct (Upd h1 g' P1) as (F1 & R1 & Ow1 & On1).
      pose proof (IH h1 p _ F1 L2 S3 R1 Ow1) as I1.
      eapply gsim_imp; [exact I1|]. intros h2 gs2 (F2 & R2 & Ow2 & On2). exists F2. split; [exact R2|]. split; [exact Ow2|].
      eapply only_trans; eassumption.
    + destruct Q as (h1 & -> & P1). cbn [hbind gsim]. exists h1. split; [reflexivity|]. exact (Upd h1 g' P1).
    + rewrite Q. reflexivity.
Qed.

Lemma rdecn_good n : goodm (docs (rsoundn n)) (sty rrep) (rdecn n) (ideal_n n).
Proof.
  induction n as [|n IH]; intros v h p g F [L S] R Ow; [destruct S|]. cbn [Rec.rdecn RecSpec.ideal_n RecSpec.rsoundn] in *. unfold ideal_struct.
  assert (Ke : forall i e, gsim (postm (sty rrep) h p F) (HErr i e h) (VErr i e g)) by (intros; exists h; split; [reflexivity|]; apply postm_refl; assumption).
  destruct v as [i|i b|i r|i r|i r|i j l|i j l]; cbn [jidx]; try apply Ke.
  - exists h. split; [reflexivity|]. apply postm_refl; assumption.
  - apply lexed_obj in L as (_ & _ & _ & L). cbn [ssound] in S. cbn [RecSpec.sty m_rep] in R. apply rrep_unfold in R as (gs & -> & R).
    eapply gsim_map; [apply (members_good _ _ _ IH l h p gs F L S R Ow)|].
    intros h' g' (F' & R' & Ow' & On'). exists F'. split; [apply rrep_unfold; eauto|]. split; assumption.
Qed.

(** ** Values: the ideal decoder does not panic *)
Definition tfield (T : gval -> Prop) (k : rk) (g : gval) : Prop :=
  match k with
  | RSelf => match g with VPtr None => True | VPtr (Some g) => T g | _ => False end
  | RSlice => slice_of T g
  | RMap _ => match g with VMap None => True | VMap (Some m) => Forall (fun x => T (snd x)) m | _ => False end
  | RSub d => typed d g
  end.
Definition tfields (T : gval -> Prop) : rfields -> list gval -> Prop := Forall2 (fun x g => tfield T (snd x) g).
Fixpoint rtyped (n : nat) (g : gval) : Prop :=
  match n with 0%nat => True | S n => exists gs, g = VStruct gs /\ tfields (rtyped n) fs gs end.
Lemma rtyped_zero n : rtyped n fresh.
Proof.
  destruct n as [|n]; [exact I|]. eexists. split; [reflexivity|]. unfold tfields, rzeros. generalize fs as l. induction l as [|x l IH]; constructor; [|exact IH].
  destruct (snd x); try exact I. apply zero_typed.
Qed.
Lemma tfields_nth T l gs j x : tfields T l gs -> nth_error l j = Some x -> exists g, nth_error gs j = Some g /\ tfield T (snd x) g.
Proof.
  intros H. revert j. induction H as [|y g l gs Hy _ IH]; intros [|j] E; try discriminate; cbn in *; [injection E as <-; eauto|eauto].
Qed.
Lemma tfields_set T l gs j x g : tfields T l gs -> nth_error l j = Some x -> tfield T (snd x) g -> tfields T l (set_nth gs j g).
Proof.
  intros H. revert j. induction H as [|y g0 l gs Hy Hl IH]; intros [|j] E Tg; try discriminate; cbn in *.
  - injection E as <-. constructor; assumption.
  - constructor; [exact Hy|apply IH; assumption].
Qed.
Lemma entries_of (R : rept) (T : gval -> Prop) sz h : (forall h p g F, R h p g F -> T g) -> forall l m F, rep_entries R sz h l m F -> Forall (fun x : gkey * gval => T (snd x)) m.
Proof.
  intros H. induction l as [|[k b] l IH]; intros [|[k' g] m] F E; cbn in E; try contradiction; constructor.
  - destruct E as (F1 & F2 & _ & _ & _ & A & _). eapply H, A.
  - destruct E as (F1 & F2 & _ & _ & _ & _ & B). eapply IH, B.
Qed.
Lemma rrep_typed n : forall h p g F, rrep h p g F -> rtyped n g.
Proof.
  induction n as [|n IH]; intros h p g F R; [exact I|]. apply rrep_unfold in R as (gs & -> & R). exists gs. split; [reflexivity|].
  revert gs F R. enough (E : forall l gs F, reps (parts rrep l) h p gs F -> tfields (rtyped n) l gs) by (intros gs F R; eapply E, R).
  induction l as [|x l IHl]; intros [|g gs] F R; cbn in R; try contradiction; constructor.
  - destruct R as (F1 & F2 & _ & R & _). destruct (snd x) as [| |kt|d]; cbn [rep_field tfield] in *; [| | |eapply rep_typed, R].
    + destruct R as (c & _ & R). destruct c; try contradiction; [destruct R as [-> _]; exact I|]. destruct R as (v & F' & -> & R & _). eapply IH, R.
    + destruct R as (c & _ & R). destruct c; try contradiction; [destruct R as [-> _]; exact I|]. destruct R as (vis & hid & F' & -> & _ & _ & _ & R & _).
      apply reps_typed with (P := rtyped n) in R as [_ R]; [|exact IH]. apply Forall_app in R. exact R.
    + destruct R as (c & _ & R). destruct c; try contradiction; [destruct R as [-> _]; exact I|]. destruct R as (lm & m & F' & _ & -> & R & _ & _).
      eapply entries_of; [|exact R]. exact IH.
  - destruct R as (F1 & F2 & _ & _ & R). eapply IHl, R.
Qed.

Lemma ideal_field_typed (T : gval -> Prop) (P : jv -> Prop) (fd : vdec) k v g : T fresh -> (forall w g, docs P w -> T g -> vgood T (fd w g)) -> docs (fsound C O P k) v -> tfield T k g ->
  vgood (tfield T k) (ideal_field fd k v g).
Proof.
  intros Tz Hf [L S] Tg. destruct k as [| |kt|d]; cbn [RecSpec.ideal_field fsound] in *.
  - destruct v as [i|i b|i r|i r|i r|i j l|i j l]; try exact Tg; [exact I|].
    eapply vgood_map; [apply Hf; [split; [exact L|exact S]|]|intros a Ha; exact Ha]. destruct g as [| | | | | | | | | | |[g|]]; exact Tz || exact Tg.
  - destruct v as [i|i b|i r|i r|i r|i j l|i j l]; try exact Tg; [exact I|]. apply lexed_arr in L as (_ & _ & _ & L).
    apply slicev_of; [exact Tz|exact Tg|]. rewrite Forall_forall in *. intros w Hw g' Tg'. apply Hf; [split; [apply L, Hw|apply S, Hw]|exact Tg'].
  - destruct v as [i|i b|i r|i r|i r|i j l|i j l]; try exact Tg; [exact I|]. apply lexed_obj in L as (_ & _ & _ & L).
    eapply vgood_map with (Q := fun m => Forall (fun x => T (snd x)) m); [|intros m Hm; exact Hm].
    set (m0 := match g with VMap (Some m) => m | _ => [] end).
    assert (T0 : Forall (fun x => T (snd x)) m0).
    { unfold m0. cbn [tfield] in Tg. destruct g as [| | | | | | | | |[m|]| |]; try contradiction; [exact Tg|constructor]. }
    clearbody m0. revert m0 T0. induction l as [|[[ki key] w] l IHl]; intros m T0; [exact T0|]. cbn [ideal_entries].
    apply Forall_cons_iff in L as [[_ L1] L2]. apply Forall_cons_iff in S as [[_ S1] S2]. cbn [snd] in *.
    destruct (ideal_key C kt key) as [ky|]; [|exact T0].
    assert (To : T (match getk m ky with Some _ => fresh | None => fresh end)) by (destruct (getk m ky); exact Tz).
    pose proof (Hf w _ (conj L1 S1) To) as Q. destruct (fd w _) as [g'|i' e g'|]; cbn in Q; [| |contradiction].
    + apply IHl; [exact L2|exact S2|]. apply putk_of; assumption.
    + cbn. apply putk_of; assumption.
  - cbn [tfield] in *. pose proof (dval_typed C O s d v g L (sound_nonempty C O s d v L S) Tg) as N.
    rewrite (dval_ideal C O s d v g L S Tg) in N. exact N.
Qed.
Lemma ideal_typed n : forall v g, docs (rsoundn n) v -> rtyped n g -> vgood (rtyped n) (ideal_n n v g).
Proof.
  induction n as [|n IH]; intros v g [L S] T; [destruct S|]. cbn [RecSpec.ideal_n RecSpec.rsoundn] in *. unfold ideal_struct.
  destruct v as [i|i b|i r|i r|i r|i j l|i j l]; try exact T. destruct T as (gs & -> & T).
  apply lexed_obj in L as (_ & _ & _ & L). cbn [ssound] in S.
  eapply vgood_map with (Q := tfields (rtyped n) fs); [|intros m Hm; exists m; auto].
  revert gs T. unfold RecSpec.ideal_fields. induction l as [|[[ki key] w] l IHl]; intros gs T; [exact T|]. cbn [ideal_members].
  apply Forall_cons_iff in L as [[_ L1] L2]. apply Forall_cons_iff in S as [[_ S1] S2]. cbn [fst snd] in *.
  destruct (rfield_for C O fs key) as [jf|] eqn:Pk; [|destruct (o_unknown O); [exact T|apply IHl; assumption]].
  assert (Hj : (jf < length fs)%nat).
  { unfold rfield_for, field_for in Pk. apply pick_lt in Pk. unfold shape in Pk. rewrite !map_length in Pk. exact Pk. }
  destruct (nth_error fs jf) as [y|] eqn:Ey; [|apply nth_error_None in Ey; lia]. rewrite nth_error_map, Ey. cbn [option_map].
  destruct (tfields_nth _ _ _ _ _ T Ey) as (g & Eg & Tg). rewrite Eg.
  pose proof (ideal_field_typed (rtyped n) (rsoundn n) (ideal_n n) (snd y) w g (rtyped_zero n) IH (conj L1 S1) Tg) as Q.
  destruct (ideal_field (ideal_n n) (snd y) w g) as [g'|i' e g'|]; cbn in Q; [| |contradiction].
  - apply IHl; [assumption|assumption|]. eapply tfields_set; eassumption.
  - cbn. eapply tfields_set; eassumption.
Qed.

(** The whole document. *)
Theorem rdec_right v h p g F : lexed s v -> rsound C O fs v -> rrep h p g F -> own h p F ->
  gsim (fun h' g' => exists F', rrep h' p g' F' /\ own h' p F' /\ only h h' p z F F') (rdec C O s z fs v p h) (ideal_rec C O s fs v g) /\
  ideal_rec C O s fs v g <> VPan.
Proof.
  intros L S R Ow. split; [exact (rdecn_good (height v) v h p g F (conj L S) R Ow)|].
  pose proof (ideal_typed (height v) v g (conj L S) (rrep_typed _ _ _ _ _ R)) as Q. unfold ideal_rec. intros E. rewrite E in Q. exact Q.
Qed.
End Main.

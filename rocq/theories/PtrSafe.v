(** Types with pointers below the root, every document.

    A pointer below the root is not left after its value, so later members and closing
    brackets are taken for those of an enclosing value (C25_refuted_struct).  This file
    shows that for types built from maps, structs and pointers ([ptrs]) nothing worse
    happens: wherever the loop is, the memory between the destination and the current
    frame holds values of the types of the frames ([Ctx]), so that everything written goes
    to memory owned by the destination.
    [layer], [Ctx], [ptrs], [flatarr] are specification of the invariant; the loop is
    Machine.v (jscandec.go:714-2749). *)
From Verif Require Import Base NumSpec StrSpec Atoi JsonNum Unescape UnescapeProofs Lookup Types Token FloatLit Heap Machine General PropsGeneral Dt Dec Control Root Rec Mixed Value Dval Sep Refine Refine2 Refine3 Spec Typed SpecProofs Actual RecSpec RecRefine RecActual MixedSpec MixedRefine PropsRecAny MixedTyped.
Open Scope nat_scope.

(** No array contains an object. *)
Fixpoint flatarr (v : jv) : bool :=
  match v with
  | JArr _ _ l => obj_free v
  | JObj _ _ l => forallb (fun x => flatarr (snd x)) l
  | _ => true
  end.

(** ** Entering a map entry or a pointer *)
Section Focus.
Variable C : cfg.
Notation w64 := (c_w64 C).
Notation W := (wb (c_w64 C)).
Open Scope Z_scope.
Lemma assign_focus t m h p F key isstruct : nice t -> rep_map w64 t h p (VMap (Some m)) F -> own h p F ->
  exists b vb h1 h2 g Fv, load h p W = Ok (CMap b) /\ mapassign h (Some b) key (m_size t) = Ok ((vb, 0), h1) /\
    (if isstruct : bool then clear h1 (Some (vb, 0)) (m_size t) else Ok h1) = Ok h2 /\
    m_rep t h2 (Some (vb, 0)) g Fv /\ own h2 (Some (vb, 0)) Fv /\
    forall h3 g3, postm t h2 (Some (vb, 0)) Fv h3 g3 -> exists m', postm (mmap w64 t) h p F h3 (VMap (Some m')).
Proof.
  intros L R Ow.
  destruct (assign_spec C t m h p F key isstruct L R Ow) as (b & vb & h1 & h2 & F2 & l2 & Ld & Em & Ec & Eb & Fk & Hc2 & R2 & Ow2 & On2).
  set (old := match getk m (kview key) with Some g => if isstruct then m_zero t else g | None => m_zero t end) in *.
  pose proof R2 as R2'. cbn [Value.rep] in R2'. destruct R2' as (c & Hc & R2').
  assert (Ecb : c = CMap b). { destruct Hc as [_ Hc], Hc2 as [_ Hc2]. congruence. } subst c.
  destruct R2' as (l2' & m2 & F' & Eb' & Em2 & Re & Ds & ->). injection Em2 as <-. rewrite Eb in Eb'. injection Eb' as <-.
  destruct (entries_focus _ _ _ _ _ (nice_stable t L) _ _ _ Re Fk) as (g & F1 & Fv & Fw & Eg & -> & Rm & Rv & Upd).
  rewrite getk_put in Eg. injection Eg as <-.
  assert (OwB : own h2 p ((b :: F1) ++ qblk (Some (vb, 0)) ++ Fv ++ Fw)) by exact Ow2.
  exists b, vb, h1, h2, old, Fv. split; [exact Ld|]. split; [exact Em|]. split; [exact Ec|]. split; [exact Rv|]. split; [exact (own_inner _ _ _ _ _ _ OwB)|].
  intros h3 g3 (Fv3 & Rv3 & Ow3 & On3). destruct (box h2 h3 p (Some (vb, 0)) (b :: F1) Fv Fv3 Fw _ W OwB Ow3 On3) as (OwF & OnF & BkF & ClF).
  exists (putk m (kview key) g3), ((b :: F1) ++ [vb] ++ Fv3 ++ Fw). split; [|split; [exact OwF|eapply only_trans; [exact On2|exact OnF]]].
  assert (Ebb : blk h3 b = blk h2 b) by (apply BkF; right; left; reflexivity).
  cbn [Value.rep]. exists (CMap b). split; [eapply holds_eq; [exact ClF|exact Hc2]|]. exists l2. eexists. exists (F1 ++ [vb] ++ Fv3 ++ Fw).
  split; [rewrite Ebb; exact Eb|]. split; [reflexivity|]. split; [|split; [|reflexivity]].
  - rewrite <- (putk_twice m (kview key) g3 old). apply Upd; [exact Rv3| |].
    + intros y Hy. destruct On3 as (_ & _ & _ & En & _). rewrite En. apply Rm, Hy.
    + intros c Hcc. apply BkF. right. right. exact Hcc.
  - rewrite <- (putk_twice m (kview key) g3 old), (putk_keys _ _ _ _ (getk_put m (kview key) old)). exact Ds.
Qed.
Lemma ptr_focus t h p g F : nice t -> (m_size t =? 0) = false -> rep_ptr w64 t h p g F -> own h p F ->
  exists a h1 h2, malloc h (m_size t) = (a, h1) /\ store h1 p W (CPtr a) = Ok h2 /\
    m_rep t h2 (Some a) (m_zero t) [] /\ own h2 (Some a) [] /\
    forall h3 g3, postm t h2 (Some a) [] h3 g3 -> postm (mptr w64 t) h p F h3 (VPtr (Some g3)).
Proof.
  intros N S R Ow. pose proof (wb_pos w64) as Wp. pose proof (nice_size _ N) as Hs. apply Z.eqb_neq in S.
  assert (Cell : exists c, holds h p W c /\ is_poison c = false).
  { destruct R as (c & Hc & R). exists c. split; [exact Hc|]. destruct c; try reflexivity; contradiction. }
  destruct Cell as (c & Hc & Np).
  destruct (malloc_spec h (m_size t) p F ltac:(lia) Ow) as (h1 & Em & Nx1 & Bk1 & Bn1 & Ow1 & On1 & Cl1).
  destruct (store_cell h1 p W c (CPtr (nxt h, 0))) as (h2 & E & Hh & Nx2 & Bk2 & Ow2 & On2); [lia|eapply holds_eq; [exact Cl1|exact Hc]|exact Np|].
  assert (Pn : pblk p <> Some (nxt h)) by (destruct Ow as (_ & _ & _ & O4); intros Q'; apply O4 in Q'; lia).
  assert (Rz : m_rep t h2 (Some (nxt h, 0)) (m_zero t) []).
  { apply (nice_zero _ N). intros x Hx. unfold cellat. rewrite Bk2 by exact Pn. rewrite Bn1. replace ((0 <=? 0 + x) && (0 + x <? m_size t)) with true by lia. reflexivity. }
  assert (OwB : own h2 p ([] ++ qblk (Some (nxt h, 0)) ++ [] ++ [])).
  { cbn. apply Ow2. eapply own_perm; [exact Ow1|constructor; [tauto|constructor]|]. intros b [<-|[]]. left. reflexivity. }
  exists (nxt h, 0), h1, h2. split; [exact Em|]. split; [exact E|]. split; [exact Rz|]. split; [eapply own_inner; exact OwB|].
  intros h3 g3 (F3 & R3 & Ow3 & On3). destruct (box h2 h3 p (Some (nxt h, 0)) [] [] F3 [] _ W OwB Ow3 On3) as (OwF & OnF & BkF & ClF).
  rewrite app_nil_r in *. cbn [qblk app fst] in *. exists (nxt h :: F3). split; [|split; [exact OwF|]].
  - exists (CPtr (nxt h, 0)). split; [eapply holds_eq; [exact ClF|exact Hh]|]. exists g3, F3. split; [reflexivity|]. split; [exact R3|].
    replace (0 <? m_size t) with true by lia. reflexivity.
  - eapply only_trans; [apply (On1 W)|]. eapply only_trans; [apply (On2 (nxt h :: F) [nxt h]); intros b [<-|[]]; left; reflexivity|rewrite app_nil_r in OnF; exact OnF].
Qed.
Lemma postm_trans t h p F h1 g1 F1 h2 g2 : own h1 p F1 -> m_rep t h1 p g1 F1 -> only h h1 p (m_size t) F F1 -> postm t h1 p F1 h2 g2 -> postm t h p F h2 g2.
Proof. intros _ _ On (F2 & R2 & Ow2 & On2). exists F2. split; [exact R2|]. split; [exact Ow2|]. eapply only_trans; eassumption. Qed.
End Focus.

Section Class.
Variables (C : cfg) (O : opts).
(** The documents: all of them if members without a field are an error; otherwise those in
    which no array contains an object. *)
Definition dfine (v : jv) : Prop := o_unknown O = true \/ flatarr v = true.
(** The types.  Below maps, structs and pointers stand types that are left in step, or one
    closing bracket early, whatever the document is. *)
Fixpoint ptrs (b : bool) (t : wt) : Prop :=
  match t with
  | WSub d => forall v, dfine v -> lag_of C O d v = Some On \/ lag_of C O d v = Some Early
  | WRec _ _ | WSlice _ => forall v, dfine v -> wctl C O b t v
  | WMap _ t => ptrs true t
  | WPtr t => (Dt.dsize (c_w64 C) (flatt t) =? 0)%Z = false /\ ptrs true t
  | WStruct _ fs => (fix all (fs : wfields) : Prop := match fs with [] => True | x :: r => ptrs (snd (fst x) =? 0)%Z (snd x) /\ all r end) fs
  end.
Lemma ptrs_in b z fs x : ptrs b (WStruct z fs) -> In x fs -> ptrs (snd (fst x) =? 0)%Z (snd x).
Proof.
  cbn [ptrs]. induction fs as [|y r IH]; intros H I; [destruct I|]. destruct H as [H1 H2]. destruct I as [->|I]; auto.
Qed.
End Class.

Section Loop.
Variables (C : cfg) (O : opts) (stk : list frame) (s : bytes) (toks : list token).
Let w64 := c_w64 C.
Let W := wb w64.
Notation step := (Machine.step C O stk s toks).
Notation reach := (Control.reach C O stk s toks).
Notation on_val_end := (Machine.on_val_end stk toks).
Notation wdech := (wdech C O s).
Notation calm := (calm stk).
Notation tsize := (tsize w64).
Notation wrep := (wrep w64).
Notation wmt := (wmt w64).
Notation wlayout := (wlayout w64).
Notation wfits := (wfits w64 stk).
Notation struct_ctx := (struct_ctx C stk).
Notation map_ctx := (map_ctx C stk).
Notation ptrs := (ptrs C O).
Notation dfine := (dfine O).
(** The call: the destination and the memory before it; whether panics are possible. *)
Variables (h0 : heap) (t0 : wt) (a : addr) (F0 : list nat) (pan : bool).
Hypothesis root_frame : exists f, nth_error stk 0 = Some f /\ f_ty f <> EMapRecur /\ f_parent f = None.

Definition kind (i : nat) (t : wt) : Prop :=
  wfits i t /\ wlayout t /\ slow t /\ (pan = true \/ wno_quoted_numbers t = true).
Inductive layer := LStruct (c : nat) (z : Z) (fs : wfields) (q : nat) | LMap (c : nat) (k : dkey) (t : wt) | LPtr (c : nat) (t : wt).
Definition lframe (l : layer) : nat := match l with LStruct c _ _ _ | LMap c _ _ | LPtr c _ => c end.
Definition ltype (l : layer) : wt := match l with LStruct _ z fs _ => WStruct z fs | LMap _ k t => WMap k t | LPtr _ t => WPtr t end.
(** What a frame needs so that keys can be read at it. *)
Definition apt (i : nat) (t : wt) (D : dyn) (p : ptr) (g : gval) : Prop :=
  match t with
  | WStruct z fs => struct_ctx i z fs p D
  | WMap _ _ => dst D i = p /\ exists m, g = VMap (Some m)
  | WPtr _ => True
  | _ => False
  end.
Definition inside (l : layer) (i : nat) (t : wt) (D : dyn) (p pc : ptr) : Prop :=
  kind (lframe l) (ltype l) /\ (forall b, ptrs b (ltype l)) /\
  match l with
  | LStruct c z fs q => struct_ctx c z fs pc D /\
      exists y, nth_error fs q = Some y /\ t = snd y /\ nth_error (field_idx (S c) (wshape fs)) q = Some (fst (fst y), i)
  | LMap c k t' => t = t' /\ i = S (S c) /\ dst D c = pc
  | LPtr c t' => t = t' /\ i = S c
  end.
Fixpoint Ctx (L : list layer) (i : nat) (t : wt) (D : dyn) (h : heap) (p : ptr) (F : list nat) : Prop :=
  match L with
  | [] => i = 0 /\ t = t0 /\ p = Some a /\ d_dest (D 0) = Some a /\ only h0 h p (tsize t0) F0 F
  | l :: L => exists pc, inside l i t D p pc /\
      forall h' g', postm (wmt t) h p F h' g' -> exists gc Fc, wrep (ltype l) h' pc gc Fc /\ own h' pc Fc /\
        (match l with LMap _ _ _ => exists m, gc = VMap (Some m) | _ => True end) /\ Ctx L (lframe l) (ltype l) D h' pc Fc
  end.
Definition good (h : heap) : Prop := exists g F, wrep t0 h (Some a) g F /\ own h (Some a) F /\ only h0 h (Some a) (tsize t0) F0 F.
Definition finished (x : st) : Prop :=
  (exists y, (y = x \/ reach x (Next y)) /\ ti y = length toks /\ good (hp y) /\ calm (dy y) /\ d_dest (dy y 0) = Some a) \/
  (exists i e y, reach x (Fail i e y) /\ good (hp y)) \/
  (reach x Panic /\ pan = true).
Lemma finished_reach x x' : reach x (Next x') -> finished x' -> finished x.
Proof.
  intros R [(y & E & H)|[(i & e & y & E & H)|[E H]]].
  - left. exists y. split; [|exact H]. right. destruct E as [->|E]; [exact R|eapply reach_then; eassumption].
  - right. left. exists i, e, y. split; [eapply reach_then; eassumption|exact H].
  - right. right. split; [eapply reach_then; eassumption|exact H].
Qed.
Lemma finished_step x x' : ti x < length toks -> step x = Next x' -> finished x' -> finished x.
Proof. intros L E. apply finished_reach, reach_one; assumption. Qed.

Lemma inside_range l i t D p pc : inside l i t D p pc -> lframe l < i /\ i + dlen (flatt t) <= lframe l + dlen (flatt (ltype l)).
Proof.
  intros ((Ft & _) & _ & H). destruct l as [c z fs q|c k t'|c t']; cbn [lframe ltype] in *.
  - destruct H as (Cc & y & Hy & -> & Hi). destruct (member_at C stk c z fs pc D q y Cc Hy) as (idx & fy & Hi' & _ & _ & _ & _ & _ & G1 & G2 & _).
    rewrite Hi in Hi'. injection Hi' as <-. cbn [flatt]. fold (wshape fs). rewrite dlen_struct. lia.
  - destruct H as (-> & -> & _). cbn [flatt dlen]. lia.
  - destruct H as (-> & ->). cbn [flatt dlen]. lia.
Qed.
Lemma Ctx_dyn L : forall i t D D' h p F, Ctx L i t D h p F -> calm D' -> (forall j, ~ (i < j < i + dlen (flatt t)) -> D' j = D j) -> Ctx L i t D' h p F.
Proof.
  induction L as [|l L IH]; intros i t D D' h p F H Cm A.
  - destruct H as (-> & -> & -> & Ed & On). cbn [Ctx]. rewrite A by lia. auto.
  - destruct H as (pc & I & H). cbn [Ctx]. exists pc. pose proof (inside_range _ _ _ _ _ _ I) as [G1 G2]. split.
    + destruct I as (K & P & I). split; [exact K|]. split; [exact P|]. destruct l as [c z fs q|c k t'|c t']; cbn [lframe] in *.
      * destruct I as (Cc & y & Hy & -> & Hi). split; [|exists y; auto].
        destruct (member_at C stk c z fs pc D q y Cc Hy) as (idx & fy & Hi' & _ & _ & _ & _ & _ & _ & _ & Aim). rewrite Hi in Hi'. injection Hi' as <-.
        split; [apply Cc|]. split; [exact Cm|]. intros x Hx. rewrite (Aim D' A x Hx). apply Cc, Hx.
      * destruct I as (-> & -> & Ds). split; [reflexivity|]. split; [reflexivity|]. unfold dst in *. rewrite A by lia. exact Ds.
      * exact I.
    + intros h' g' Hp. destruct (H h' g' Hp) as (gc & Fc & R & Ow & M & Cc). exists gc, Fc. split; [exact R|]. split; [exact Ow|]. split; [exact M|].
      eapply IH; [exact Cc|exact Cm|]. intros j Hj. apply A. lia.
Qed.
Lemma Ctx_heap L i t D h p F h' g' F' : Ctx L i t D h p F -> wrep t h' p g' F' -> own h' p F' -> only h h' p (tsize t) F F' -> Ctx L i t D h' p F'.
Proof.
  destruct L as [|l L]; intros H R Ow On.
  - destruct H as (-> & -> & -> & Ed & On0). cbn [Ctx]. split; [reflexivity|]. split; [reflexivity|]. split; [reflexivity|]. split; [exact Ed|]. eapply only_trans; eassumption.
  - destruct H as (pc & I & H). exists pc. split; [exact I|]. intros h2 g2 P2. apply (H h2 g2). eapply postm_trans; [exact Ow|exact R|exact On|exact P2].
Qed.
Lemma Ctx_root L : forall i t D h p F g, Ctx L i t D h p F -> wrep t h p g F -> own h p F -> good h /\ d_dest (D 0) = Some a.
Proof.
  induction L as [|l L IH]; intros i t D h p F g H R Ow.
  - destruct H as (-> & -> & -> & Ed & On). split; [|exact Ed]. exists g, F. auto.
  - destruct H as (pc & I & H). destruct (H h g (postm_refl (wmt t) h p g F R Ow)) as (gc & Fc & Rc & Oc & _ & Cc). eapply IH; eassumption.
Qed.
Lemma Ctx_post L i t D h p F h' g' : Ctx L i t D h p F -> postm (wmt t) h p F h' g' -> exists F', wrep t h' p g' F' /\ own h' p F' /\ Ctx L i t D h' p F'.
Proof. intros H (F' & R & Ow & On). exists F'. split; [exact R|]. split; [exact Ow|]. eapply Ctx_heap; eassumption. Qed.

(** Between members. *)
Record at_keys (L : list layer) (i : nat) (t : wt) (D : dyn) (h : heap) (p : ptr) (g : gval) (F : list nat) : Prop := {
  ak_kind : kind i t; ak_ptrs : forall b, ptrs b t; ak_calm : calm D; ak_rep : wrep t h p g F; ak_own : own h p F;
  ak_ctx : Ctx L i t D h p F; ak_apt : apt i t D p g }.

(** The end of a value at frame [i]. *)
Lemma up l L i t D h p g F k : Ctx (l :: L) i t D h p F -> wrep t h p g F -> own h p F -> calm D -> kind i t ->
  on_val_end (St i k D h) = Next (St (lframe l) k D h) /\ exists pc gc Fc, at_keys L (lframe l) (ltype l) D h pc gc Fc.
Proof.
  intros H R Ow Cm Kt. destruct H as (pc & (K & P & I) & H). destruct (H h g (postm_refl (wmt t) h p g F R Ow)) as (gc & Fc & Rc & Oc & M & Cc).
  split.
  - destruct l as [c z fs q|c k' t'|c t']; cbn [lframe ltype] in *.
    + destruct I as (Sc & y & Hy & -> & Hi). destruct (member_at C stk c z fs pc D q y Sc Hy) as (idx & fy & Hi' & _ & Hf & Pf & _).
      rewrite Hi in Hi'. injection Hi' as <-. eapply member_up; eassumption.
    + destruct I as (-> & -> & _). eapply entry_up. split; [apply K|exact Cm].
    + destruct I as (-> & ->). destruct K as (((f & Hf & T & _) & _ & fe & He & Pe & _) & _). cbn [flatt dt_et] in T.
      unfold Machine.on_val_end. cbn [si]. unfold fr. rewrite He, Pe, Hf, T. reflexivity.
  - exists pc, gc, Fc. constructor; try assumption. destruct l as [c z fs q|c k' t'|c t']; cbn [apt ltype lframe] in *; [apply I| |exact Logic.I].
    split; [apply I|exact M].
Qed.
Lemma root_up k D h : on_val_end (St 0 k D h) = Next (St 0 k D h).
Proof. destruct root_frame as (f & Hf & _ & Pf). unfold Machine.on_val_end. cbn [si]. unfold fr. rewrite Hf, Pf. reflexivity. Qed.
Lemma obj_end_step i f k D h j e n rest : nth_error stk i = Some f -> f_ty f <> EMapRecur -> calm D -> skipn k toks = Tok KObjEnd j e n :: rest ->
  step (St i k D h) = on_val_end (St i (S k) D h) /\ k < length toks.
Proof.
  intros Hf T Cm E. apply at_next in E as (Et & Lt & _). split; [|exact Lt]. unfold Machine.step. cbn [ti si]. rewrite Et. unfold fr. rewrite Hf.
  cbn [tk_ty]. unfold obj_end_tok, on_recur_obj_end. cbn [goto_ti si ti dy hp]. unfold fr. rewrite Hf, (proj1 (Cm i f Hf)).
  destruct (f_ty f); congruence || reflexivity.
Qed.

(** ** The rest of the document: members of open objects *)
Definition open := (list ((nat * bytes) * jv) * (nat * nat))%type.
Fixpoint tailt (k : nat) (ls : list open) : list token :=
  match ls with
  | [] => []
  | (l, (ja, e)) :: r => flatm k l ++ Tok KObjEnd ja e 0 :: tailt (S (k + ntokm l)) r
  end.
Definition lok (ls : list open) : Prop :=
  Forall (fun o => Forall (fun x => key_lexed s x /\ lexed s (snd x) /\ dfine (snd x)) (fst o)) ls.
Definition shut (ls : list open) : Prop := Forall (fun o => fst o = []) ls.
Lemma root_shut D h ls : good h -> calm D -> d_dest (D 0) = Some a -> shut ls -> forall k, k <= length toks -> skipn k toks = tailt k ls -> finished (St 0 k D h).
Proof.
  intros G Cm Ed. destruct root_frame as (f & Hf & Tf & _). induction ls as [|[l [ja e]] ls IH]; intros Sh k Hk E.
  - left. exists (St 0 k D h). split; [left; reflexivity|]. cbn [ti hp dy]. split; [|auto]. apply (f_equal (@length token)) in E. rewrite skipn_length in E. cbn in E. lia.
  - apply Forall_cons_iff in Sh as [S1 Sh]. cbn [fst] in S1. subst l. cbn [tailt flatm ntokm app] in E. rewrite Nat.add_0_r in E.
    destruct (obj_end_step 0 f k D h _ _ _ _ Hf Tf Cm E) as [ST Lt]. rewrite root_up in ST. eapply finished_step; [exact Lt|exact ST|].
    apply IH; [exact Sh|lia|]. apply at_next in E. apply E.
Qed.

Definition A_ok (n : nat) : Prop := forall L i t D h p g F k ls,
  at_keys L i t D h p g F -> lok ls -> k <= length toks -> skipn k toks = tailt k ls -> length toks - k <= n -> finished (St i k D h).

(** A value ends. *)
Lemma value_end n L i t D h p F D' h' g' k' ls x : A_ok n -> kind i t -> Ctx L i t D h p F -> postm (wmt t) h p F h' g' -> calm D' ->
  (forall j, ~ (i < j < i + dlen (flatt t)) -> D' j = D j) -> reach x (on_val_end (St i k' D' h')) ->
  lok ls -> (L = [] -> shut ls) -> k' <= length toks -> skipn k' toks = tailt k' ls -> length toks - k' <= n -> finished x.
Proof.
  intros A K H P Cm Ag R Lk Sh Hk E Hn. pose proof (Ctx_dyn L i t D D' h p F H Cm Ag) as H1.
  destruct (Ctx_post L i t D' h p F h' g' H1 P) as (F' & R' & Ow' & H2).
  destruct L as [|l L].
  - pose proof H2 as (-> & _). rewrite root_up in R. eapply finished_reach; [exact R|].
    destruct (Ctx_root [] _ _ _ _ _ _ _ H2 R' Ow') as [Gd Ed]. eapply root_shut; try eassumption. apply Sh. reflexivity.
  - destruct (up l L i t D' h' p g' F' k' H2 R' Ow' Cm K) as (Up & pc & gc & Fc & Ak). rewrite Up in R. eapply finished_reach; [exact R|].
    eapply A; eassumption.
Qed.

(** ** Values *)
Record at_value (b : bool) (L : list layer) (i : nat) (t : wt) (D : dyn) (h : heap) (p : ptr) (g : gval) (F : list nat) : Prop := {
  av_kind : kind i t; av_ptrs : ptrs b t; av_calm : calm D; av_off : b = true -> d_off (D i) = 0%Z; av_dst : dst D i = p;
  av_rep : wrep t h p g F; av_own : own h p F; av_ctx : Ctx L i t D h p F }.
Lemma step_fine b L i t D h p g F v : at_value b L i t D h p g F -> lexed s v ->
  match wdech t v p h with
  | HOk h' => exists g', postm (wmt t) h p F h' g'
  | HErr _ _ h' => good h'
  | HPan => pan = true
  | HCor => False
  end.
Proof.
  intros [K P Cm Off Ds R Ow Cx] Lx. destruct K as (_ & Ly & Sl & Qt).
  pose proof (wdech_actual C O s t Ly Sl v h p g F Lx R Ow) as G.
  assert (Np : wactual C O s t v g = VPan -> pan = true).
  { intros Ev. destruct Qt as [Qt|Qt]; [exact Qt|]. exfalso.
    pose proof (wactual_typed C O s t v g Lx (wno_quoted_nonempty C O t Qt v) (wrep_typed C t h p g F R)) as V. rewrite Ev in V. exact V. }
  destruct (wactual C O s t v g) as [g'|idx e g'|]; cbn [gsim] in G.
  - destruct G as (h' & -> & G). eauto.
  - destruct G as (h' & -> & G). destruct (Ctx_post L i t D h p F h' g' Cx G) as (F' & R' & Ow' & Cx'). apply (Ctx_root _ _ _ _ _ _ _ _ Cx' R' Ow').
  - rewrite G. apply Np. reflexivity.
Qed.
Lemma flat_le k v rest : skipn k toks = flat k v ++ rest -> k + ntok v <= length toks.
Proof.
  intros E. pose proof (ntok_pos v). apply (f_equal (@length token)) in E. rewrite skipn_length, app_length, flat_length in E. lia.
Qed.
(** In step. *)
Lemma in_step n b L i t D h p g F k v ls : A_ok n -> at_value b L i t D h p g F -> lexed s v -> wctl C O b t v ->
  skipn k toks = flat k v ++ tailt (k + ntok v) ls -> lok ls -> (L = [] -> shut ls) -> length toks - k <= S n -> finished (St i k D h).
Proof.
  intros A Av Lx Cv E Lk Sh Hn. pose proof (step_fine b L i t D h p g F v Av Lx) as G. destruct Av as [K P Cm Off Ds R Ow Cx].
  pose proof (mixed_reach C O stk s toks t b i k v D h _ (proj1 K) Cm Off Lx Cv E) as M. rewrite Ds in M.
  pose proof (flat_le _ _ _ E) as Le. pose proof (ntok_pos v) as Np. pose proof E as E'. apply at_skip in E'. rewrite flat_length in E'.
  destruct (wdech t v p h) as [h'|idx e h'| |]; cbn [wends] in M.
  - destruct M as (D' & Rx & Cm' & Ag). destruct G as (g' & G). eapply value_end; try eassumption. lia.
  - destruct M as (y & Rx & <-). right. left. eauto.
  - right. right. auto.
  - destruct G.
Qed.
(** One closing bracket early. *)
Lemma one_early n b L i d D h p g F k v ls : A_ok n -> at_value b L i (WSub d) D h p g F -> lexed s v -> lag_of C O d v = Some Early ->
  skipn k toks = flat k v ++ tailt (k + ntok v) ls -> lok ls -> (L = [] -> shut ls) -> length toks - k <= S n -> finished (St i k D h).
Proof.
  intros A Av Lx Lg E Lk Sh Hn. pose proof (step_fine b L i (WSub d) D h p g F v Av Lx) as G. destruct Av as [K P Cm Off Ds R Ow Cx].
  pose proof (value_reach C O stk s toks d i k v Early D h _ (proj1 K) (calm_ok stk D Cm) Lx Lg E) as M. cbn [Mixed.wdech] in G. rewrite Ds in M.
  pose proof (flat_le _ _ _ E) as Le.
  destruct (early_last C O toks k v d _ Lg E) as (j & E2 & Sk).
  destruct (dech C O s d v p h) as [h'|idx e h'| |]; cbn [ends] in M.
  - destruct M as (D' & Rx & Dk & Ag). destruct G as (g' & G). cbn [Control.fin] in Rx.
    assert (Cm' : calm D').
    { eapply calm_keep; [exact Cm|exact Dk|]. intros j' f Hj T. apply Ag. intros Q. exact (sub_frames C stk i d (proj1 K) j' f Q Hj T). }
    apply (value_end n L i (WSub d) D h p F D' h' g' (pred (k + ntok v)) (([], (j, k)) :: ls) _ A K Cx G Cm' Ag Rx).
    + constructor; [constructor|exact Lk].
    + intros El. constructor; [reflexivity|]. apply Sh, El.
    + lia.
    + rewrite E2. cbn [tailt flatm ntokm app]. rewrite Nat.add_0_r, Sk. reflexivity.
    + assert (2 <= ntok v) by (destruct (early_obj C O d v Lg) as (a1 & a2 & l & ->); rewrite ntok_obj; lia). lia.
  - destruct M as (y & Rx & <-). right. left. eauto.
  - right. right. auto.
  - destruct G.
Qed.

Lemma push_struct L i z fs D h p gs F q y : kind i (WStruct z fs) -> (forall b, ptrs b (WStruct z fs)) -> wrep (WStruct z fs) h p (VStruct gs) F -> own h p F ->
  Ctx L i (WStruct z fs) D h p F -> struct_ctx i z fs p D -> nth_error fs q = Some y ->
  exists idx g Fj, nth_error (field_idx (S i) (wshape fs)) q = Some (fst (fst y), idx) /\
    at_value (snd (fst y) =? 0)%Z (LStruct i z fs q :: L) idx (snd y) D h (padd p (snd (fst y))) g Fj.
Proof.
  intros K P R Ow Cx Sc Hq. destruct (member_at C stk i z fs p D q y Sc Hq) as (idx & fy & Hi & Fy & Hf & Pf & Off & Ds & G1 & G2 & Aim).
  pose proof (nth_error_In _ _ Hq) as Iq. pose proof K as (Ft & Ly & Sl & Qt).
  destruct R as (gs' & Eg & R). injection Eg as <-.
  destruct (wfield_focus w64 z fs h p gs F q y Ly R Ow Hq) as (g & Fj & Hg & Rj & Oj & Up).
  exists idx, g, Fj. split; [exact Hi|]. constructor; try assumption.
  - split; [exact Fy|]. apply wlayout_struct in Ly as (_ & _ & _ & La). split; [exact (wall_in w64 _ _ La Iq)|].
    apply slow_struct in Sl. split; [exact (slows_in _ _ Sl Iq)|]. destruct Qt as [Qt|Qt]; [left; exact Qt|right].
    cbn [wno_quoted_numbers] in Qt. rewrite forallb_forall in Qt. exact (Qt y Iq).
  - exact (ptrs_in C O true z fs y (P true) Iq).
  - apply Sc.
  - intros Q. apply Z.eqb_eq in Q. congruence.
  - cbn [Ctx]. exists p. split.
    + split; [exact K|]. split; [exact P|]. split; [exact Sc|]. exists y. auto.
    + intros h' g' Hp. destruct (Up h' g' Hp) as (F' & R' & Ow' & On'). exists (VStruct (set_nth gs q g')), F'.
      assert (Rs : wrep (WStruct z fs) h' p (VStruct (set_nth gs q g')) F') by (exists (set_nth gs q g'); split; [reflexivity|exact R']).
      split; [exact Rs|]. split; [exact Ow'|]. split; [exact I|]. exact (Ctx_heap L i _ D h p F h' _ F' Cx Rs Ow' On').
Qed.
Lemma push_map L i kt t D h p m F key : kind i (WMap kt t) -> (forall b, ptrs b (WMap kt t)) -> wrep (WMap kt t) h p (VMap (Some m)) F -> own h p F ->
  Ctx L i (WMap kt t) D h p F -> calm D -> dst D i = p ->
  exists b vb h1 h2 g Fv, load h p W = Ok (CMap b) /\ mapassign h (Some b) key (tsize t) = Ok ((vb, 0%Z), h1) /\
    (if is_struct (flatt t) then clear h1 (Some (vb, 0%Z)) (tsize t) else Ok h1) = Ok h2 /\
    at_value true (LMap i kt t :: L) (S (S i)) t (upd_d D (S (S i)) (set_dest (Some (vb, 0%Z)))) h2 (Some (vb, 0%Z)) g Fv.
Proof.
  intros K P R Ow Cx Cm Ds. pose proof K as (Ft & Ly & Sl & Qt). assert (Ly' : wlayout t) by exact Ly.
  destruct (assign_focus C (wmt t) m h p F key (is_struct (flatt t)) (nice_wmt w64 t Ly') R Ow) as (b & vb & h1 & h2 & g & Fv & Ld & Em & Ec & Rv & Ov & Up).
  exists b, vb, h1, h2, g, Fv. split; [exact Ld|]. split; [exact Em|]. split; [exact Ec|].
  assert (Mc : map_ctx i kt t D) by (split; assumption).
  destruct (entry_at C stk i kt t D (vb, 0%Z) Mc) as (Cm' & Off & Ds'). set (D' := upd_d D (S (S i)) (set_dest (Some (vb, 0%Z)))) in *.
  constructor; try assumption.
  - destruct Ft as (_ & _ & Fd & _). split; [exact Fd|]. split; [exact Ly'|]. split; [exact Sl|]. destruct Qt as [Qt|Qt]; [left; exact Qt|right].
    cbn [wno_quoted_numbers] in Qt. apply andb_prop in Qt. apply Qt.
  - exact (P true).
  - intros _. exact Off.
  - cbn [Ctx]. exists p. split.
    + split; [exact K|]. split; [exact P|]. split; [reflexivity|]. split; [reflexivity|]. unfold D', dst, upd_d in *.
      destruct (Nat.eqb_spec i (S (S i))); [lia|]. exact Ds.
    + intros h' g' Hp. destruct (Up h' g' Hp) as (m' & F' & R' & Ow' & On'). exists (VMap (Some m')), F'. split; [exact R'|]. split; [exact Ow'|]. split; [eauto|].
      eapply (Ctx_dyn L i (WMap kt t) D D'); [|exact Cm'|].
      * exact (Ctx_heap L i (WMap kt t) D h p F h' _ F' Cx R' Ow' On').
      * intros j Hj. cbn [flatt dlen] in Hj. pose proof (dlen_pos (flatt t)). unfold D', upd_d. destruct (Nat.eqb_spec j (S (S i))); [lia|reflexivity].
Qed.
Lemma push_ptr b L i t D h p g F : at_value b L i (WPtr t) D h p g F ->
  exists a1 h1 h2, malloc h (tsize t) = (a1, h1) /\ store h1 p W (CPtr a1) = Ok h2 /\
    at_value true (LPtr i t :: L) (S i) t (upd_d D (S i) (set_dest (Some a1))) h2 (Some a1) (wzero t) [].
Proof.
  intros [K [Z0 P] Cm Off Ds R Ow Cx]. pose proof K as (Ft & Ly & Sl & Qt). assert (Ly' : wlayout t) by exact Ly.
  destruct (ptr_focus C (wmt t) h p g F (nice_wmt w64 t Ly') Z0 R Ow) as (a1 & h1 & h2 & Em & Es & Rv & Ov & Up).
  exists a1, h1, h2. split; [exact Em|]. split; [exact Es|]. set (D' := upd_d D (S i) (set_dest (Some a1))).
  assert (Cm' : calm D') by (apply calm_dest, Cm).
  pose proof Ft as ((f & Hf & T & _) & Fd & fe & He & Pe & Oe & _). cbn [flatt dt_et] in T.
  assert (Off' : d_off (D' (S i)) = 0%Z).
  { destruct (Cm' _ fe He) as [_ Q]. rewrite Q, Oe; [reflexivity|].
    intros (pp & fp & Q1 & Q2 & Q3). rewrite Pe in Q1. injection Q1 as <-. rewrite Hf in Q2. injection Q2 as <-. rewrite T in Q3. destruct Q3; discriminate. }
  constructor; try assumption.
  - split; [exact Fd|]. split; [exact Ly'|]. split; [exact Sl|exact Qt].
  - intros _. exact Off'.
  - unfold dst. rewrite Off'. unfold D', upd_d. rewrite Nat.eqb_refl. cbn [set_dest d_dest]. apply padd0.
  - cbn [Ctx]. exists p. split.
    + split; [exact K|]. split; [intros b'; split; assumption|]. split; reflexivity.
    + intros h' g' Hp. destruct (Up h' g' Hp) as (F' & R' & Ow' & On'). exists (VPtr (Some g')), F'. split; [exact R'|]. split; [exact Ow'|]. split; [exact I|].
      eapply (Ctx_dyn L i (WPtr t) D D'); [|exact Cm'|].
      * exact (Ctx_heap L i (WPtr t) D h p F h' _ F' Cx R' Ow' On').
      * intros j Hj. cbn [flatt dlen] in Hj. pose proof (dlen_pos (flatt t)). unfold D', upd_d. destruct (Nat.eqb_spec j (S i)); [lia|reflexivity].
Qed.
Lemma ptrs_any b t : match t with WMap _ _ | WPtr _ | WStruct _ _ => True | _ => False end -> ptrs b t -> forall b', ptrs b' t.
Proof. destruct t; try contradiction; intros _ H b'; exact H. Qed.

Lemma V_ok n : A_ok n -> forall t b L i D h p g F k v ls, at_value b L i t D h p g F -> lexed s v -> dfine v ->
  skipn k toks = flat k v ++ tailt (k + ntok v) ls -> lok ls -> (L = [] -> shut ls) -> length toks - k <= S n -> finished (St i k D h).
Proof.
  intros A. induction t as [d|z fs|t IH|kt t IH|t IH|z fs IH] using wt_ind'; intros b L i D h p g F k v ls Av Lx Dv E Lk Sh Hn.
  - destruct (av_ptrs _ _ _ _ _ _ _ _ _ Av v Dv) as [Lg|Lg]; [eapply in_step; eassumption|eapply one_early; eassumption].
  - eapply in_step; try eassumption. exact (av_ptrs _ _ _ _ _ _ _ _ _ Av v Dv).
  - eapply in_step; try eassumption. exact (av_ptrs _ _ _ _ _ _ _ _ _ Av v Dv).
  - assert (Plain : wctl C O b (WMap kt t) v -> finished (St i k D h)) by (intros Cv; eapply in_step; eassumption).
    destruct v as [| | | | |ia ja l|ia ja l]; try (apply Plain; exact I). destruct l as [|x0 l0]; [apply Plain; constructor|]. clear Plain.
    pose proof (at_lt C _ _ _ _ E) as Lt. destruct Av as [K P Cm Off Ds R Ow Cx]. pose proof K as (Ft & Ly & Sl & Qt).
    pose proof Ft as ((f & Hf & T & Sz & _ & Vf) & _). cbn [flatt dt_et] in T.
    pose proof (step_obj C O stk s toks _ _ D h _ _ _ _ _ Hf E) as ST. unfold obj_tok in ST. rewrite T in ST. cbn [tk_n hp dy si ti] in ST.
    destruct (init_map_spec C (wmt t) h p g F R Ow) as (h1 & F1 & Ei & R1 & Ow1 & On1). rewrite Ds, Ei in ST. cbn [lift] in ST.
    change (Nat.eqb (length (x0 :: l0)) 0) with false in ST. cbv iota in ST.
    eapply finished_step; [exact Lt|exact ST|].
    rewrite flat_obj in E. cbn [app] in E. rewrite <- app_assoc in E. apply at_next in E as (_ & _ & E).
    apply (A L i (WMap kt t) D h1 p (VMap (Some match g with VMap (Some m) => m | _ => [] end)) F1 (S k) ((x0 :: l0, (ja, k)) :: ls)).
    + constructor; try assumption; [exact (ptrs_any b (WMap kt t) I P)|exact (Ctx_heap L i (WMap kt t) D h p F h1 _ F1 Cx R1 Ow1 On1)|]. split; [exact Ds|eauto].
    + constructor; [|exact Lk]. cbn [fst]. apply lexed_obj in Lx as (_ & _ & _ & Lx). clear - Lx Dv. rewrite Forall_forall in *. intros x Hx.
      destruct (Lx x Hx) as [L1 L2]. split; [exact L1|]. split; [exact L2|]. destruct Dv as [Dv|Dv]; [left; exact Dv|right].
      cbn [flatarr] in Dv. rewrite forallb_forall in Dv. exact (Dv x Hx).
    + lia.
    + rewrite E, ntok_obj. cbn [tailt app]. f_equal. f_equal. f_equal. lia.
    + lia.
  - assert (Nu : match v with JNull _ => False | _ => True end \/ exists q, v = JNull q) by (destruct v; eauto).
    destruct Nu as [Nu|(q & ->)].
    2:{ eapply in_step; try eassumption. exact I. }
    pose proof (at_lt C _ _ _ _ E) as Lt.
    destruct (push_ptr b L i t D h p g F Av) as (a1 & h1 & h2 & Em & Es & Av').
    destruct Av as [K [Z0 P] Cm Off Ds R Ow Cx]. destruct K as (((f & Hf & T & _) & Fd & fe & He & Pe & Oe & _) & _). cbn [flatt dt_et] in T.
    destruct (wfits_head _ _ _ _ Fd) as (fe' & He' & Te & Se). rewrite He in He'. injection He' as <-.
    pose proof (ptr_step C O stk s toks i k v D h _ t f fe Hf T He Se Nu E) as ST.
    unfold on_ptr in ST. unfold fr in ST. cbn [si hp dy ti] in ST. rewrite He, Se in ST. fold w64 in Z0. rewrite Z0 in ST.
    change (Dt.dsize w64 (flatt t)) with (tsize t) in ST. rewrite Em in ST. rewrite Ds in ST. change (wb (c_w64 C)) with W in ST. rewrite Es in ST. cbn [lift] in ST.
    eapply finished_step; [exact Lt|exact ST|]. eapply IH; try eassumption. discriminate.
  - assert (Plain : wctl C O b (WStruct z fs) v -> finished (St i k D h)) by (intros Cv; eapply in_step; eassumption).
    destruct v as [| | | | |ia ja l|ia ja l]; try (apply Plain; exact I). destruct l as [|x0 l0]; [apply Plain; constructor|]. clear Plain.
    pose proof (at_lt C _ _ _ _ E) as Lt. destruct Av as [K P Cm Off Ds R Ow Cx]. pose proof K as (Ft & Ly & Sl & Qt).
    destruct (struct_start C stk i z fs D Ft Cm) as (f & Hf & T & Sc & Out).
    pose proof (step_obj C O stk s toks _ _ D h _ _ _ _ _ Hf E) as ST. unfold obj_tok in ST. rewrite T in ST. cbn [tk_n hp dy si ti] in ST.
    change (Nat.eqb (length (x0 :: l0)) 0) with false in ST. cbv iota in ST. cbn [goto_ti with_dy si ti dy hp] in ST. rewrite Ds in *.
    eapply finished_step; [exact Lt|exact ST|].
    rewrite flat_obj in E. cbn [app] in E. rewrite <- app_assoc in E. apply at_next in E as (_ & _ & E).
    apply (A L i (WStruct z fs) (set_dests D (f_fields f) p) h p g F (S k) ((x0 :: l0, (ja, k)) :: ls)).
    + constructor; try assumption; [exact (ptrs_any b (WStruct z fs) I P)|apply Sc|]. eapply Ctx_dyn; [exact Cx|apply Sc|].
      intros j Hj. apply Out. cbn [flatt] in Hj. fold (wshape fs) in Hj. rewrite dlen_struct in Hj. exact Hj.
    + constructor; [|exact Lk]. cbn [fst]. apply lexed_obj in Lx as (_ & _ & _ & Lx). clear - Lx Dv. rewrite Forall_forall in *. intros x Hx.
      destruct (Lx x Hx) as [L1 L2]. split; [exact L1|]. split; [exact L2|]. destruct Dv as [Dv|Dv]; [left; exact Dv|right].
      cbn [flatarr] in Dv. rewrite forallb_forall in Dv. exact (Dv x Hx).
    + lia.
    + rewrite E, ntok_obj. cbn [tailt app]. f_equal. f_equal. f_equal. lia.
    + lia.
Qed.

Lemma keys_frame i t D p g : kind i t -> apt i t D p g -> exists f, nth_error stk i = Some f /\ f_ty f <> EMapRecur.
Proof. intros (Ft & _) _. destruct (wfits_head _ _ _ _ Ft) as (f & Hf & Tf & _). exists f. split; [exact Hf|]. rewrite Tf. apply wet_not_map. Qed.
Lemma A_all n : A_ok n.
Proof.
  induction n as [|n IHn]; intros L i t D h p g F k ls Ak Lk Hk E Hn.
  - destruct Ak as [K P Cm R Ow Cx Ap]. destruct (Ctx_root _ _ _ _ _ _ _ _ Cx R Ow) as [Gd Ed]. left. exists (St i k D h). split; [left; reflexivity|].
    cbn [ti hp dy]. split; [lia|auto].
  - destruct ls as [|[l [ja e]] ls].
    { destruct Ak as [K P Cm R Ow Cx Ap]. destruct (Ctx_root _ _ _ _ _ _ _ _ Cx R Ow) as [Gd Ed]. left. exists (St i k D h). split; [left; reflexivity|].
      cbn [ti hp dy]. split; [|auto]. apply (f_equal (@length token)) in E. rewrite skipn_length in E. cbn in E. lia. }
    destruct (keys_frame _ _ _ _ _ (ak_kind _ _ _ _ _ _ _ _ Ak) (ak_apt _ _ _ _ _ _ _ _ Ak)) as (f & Hf & Tf).
    apply Forall_cons_iff in Lk as [Ll Lk]. cbn [fst] in Ll.
    destruct l as [|x l]; cbn [tailt] in E.
    + (* a closing bracket *)
      cbn [flatm ntokm app] in E. rewrite Nat.add_0_r in E.
      destruct (obj_end_step i f k D h _ _ _ _ Hf Tf (ak_calm _ _ _ _ _ _ _ _ Ak) E) as [ST Lt]. apply at_next in E as (_ & _ & E).
      destruct L as [|la L].
      * pose proof (ak_ctx _ _ _ _ _ _ _ _ Ak) as Cx. destruct Cx as (Ei & _). subst i. rewrite root_up in ST. eapply finished_step; [exact Lt|exact ST|].
        eapply IHn; try eassumption; lia.
      * destruct Ak as [K P Cm R Ow Cx Ap]. destruct (up la L i t D h p g F (S k) Cx R Ow Cm K) as (Up & pc & gc & Fc & Ak').
        rewrite Up in ST. eapply finished_step; [exact Lt|exact ST|]. eapply IHn; try eassumption; lia.
    + (* a key *)
      apply Forall_cons_iff in Ll as [(Kx & Lx & Dx) Ll]. cbn [flatm ntokm app] in E. rewrite <- app_assoc in E.
      assert (E0 : skipn (S k) toks = flat (S k) (snd x) ++ tailt (S k + ntok (snd x)) ((l, (ja, e)) :: ls)).
      { pose proof E as E1. apply at_next in E1 as (_ & _ & E1). rewrite E1. cbn [tailt]. do 4 f_equal. lia. }
      assert (Lt : k < length toks) by (apply at_next in E; apply E).
      assert (Lk' : lok ((l, (ja, e)) :: ls)) by (constructor; assumption).
      destruct Ak as [K P Cm R Ow Cx Ap]. destruct (Ctx_root _ _ _ _ _ _ _ _ Cx R Ow) as [Gd Ed].
      destruct t as [d|z fs|t|kt t|t|z fs]; try contradiction.
      * (* of a map *)
        destruct Ap as (Ds & m & ->). assert (Mc : map_ctx i kt t D) by (split; [apply K|exact Cm]).
        pose proof (entry_key C O stk s toks i kt t k D h x _ Mc Kx E) as ST. rewrite Ds in ST.
        destruct Kx as [_ Kb]. pose proof (key_view C kt (fst (fst x)) (snd (fst x)) Kb) as Kv.
        assert (Ld : exists b, load h p W = Ok (CMap b)).
        { pose proof (wb_pos w64) as Wp. pose proof R as R'. cbn [MixedSpec.wrep Value.rep] in R'. destruct R' as (c & Hc & R'). destruct c; try contradiction; [destruct R'; discriminate|].
          exists b. apply load_holds; [exact Wp|exact Hc|reflexivity]. }
        destruct Ld as (b & Ld). unfold W, w64 in Ld. rewrite Ld in ST. cbn [rbind as_map lift] in ST.
        destruct (key_h C kt (fst (fst x)) (snd (fst x))) as [[[key|]|er]| |] eqn:Ek; try contradiction; cbn [lift] in ST.
        -- destruct (push_map L i kt t D h p m F key K P R Ow Cx Cm Ds) as (b' & vb & h1 & h2 & g & Fv & Ld' & Em & Ec & Av).
           unfold W, w64 in Ld'. rewrite Ld in Ld'. injection Ld' as <-. change (Dt.dsize (c_w64 C) (flatt t)) with (tsize t) in ST.
           rewrite Em in ST. cbn [lift] in ST. unfold w64 in Ec, ST. match type of Ec with ?u = _ => match type of ST with _ = lift ?v _ => change v with u in ST end end. rewrite Ec in ST. cbn [lift] in ST.
           eapply finished_step; [exact Lt|exact ST|]. eapply (V_ok n IHn); try eassumption; [discriminate|lia].
        -- right. left. do 3 eexists. split; [apply reach_one; [exact Lt|exact ST]|exact Gd].
        -- right. right. split; [apply reach_one; [exact Lt|exact ST]|]. destruct K as (_ & _ & _ & [Qt|Qt]); [exact Qt|]. exfalso.
           cbn [wno_quoted_numbers] in Qt. apply andb_prop in Qt as [Qt _]. pose proof (act_keyv C kt (snd (fst x)) Kb) as Ka. rewrite Kv in Ka.
           destruct kt; try discriminate Qt; cbn [keyv] in Kv; try discriminate Kv. destruct (c_ut C id [] (txt (snd (fst x)))) as [? []]; discriminate Kv.
      * (* at a pointer that was not left *)
        destruct K as (((f' & Hf' & T & _) & _) & _). cbn [flatt dt_et] in T. rewrite Hf in Hf'. injection Hf' as <-.
        assert (ST : step (St i k D h) = Fail (fst (fst x)) EUnexpected (St i k D h)).
        { apply at_next in E as (Et & _ & _). unfold Machine.step. cbn [ti si]. rewrite Et. unfold fr. rewrite Hf. cbn [tk_ty]. unfold key_tok. rewrite T. reflexivity. }
        right. left. do 3 eexists. split; [apply reach_one; [exact Lt|exact ST]|exact Gd].
      * (* of a struct *)
        cbn [apt] in Ap. pose proof (member_key C O stk s toks i z fs p k D h x _ Ap Kx E) as ST.
        destruct (pick _ _ _ _) as [q|] eqn:Pq.
        -- pose proof (pick_lt _ _ _ _ _ Pq) as Lq. unfold wnames in Lq. rewrite map_length in Lq.
           destruct (nth_error fs q) as [y|] eqn:Ny; [|apply nth_error_None in Ny; lia].
           pose proof R as R'. destruct R' as (gs & -> & _).
           destruct (push_struct L i z fs D h p gs F q y K P R Ow Cx Ap Ny) as (idx & g & Fj & Hi & Av). rewrite Hi in ST. cbn [snd] in ST.
           eapply finished_step; [exact Lt|exact ST|]. eapply (V_ok n IHn); try eassumption; [discriminate|lia].
        -- destruct (o_unknown O) eqn:U.
           { right. left. do 3 eexists. split; [apply reach_one; [exact Lt|exact ST]|exact Gd]. }
           destruct Dx as [Dx|Dx]; [congruence|]. rewrite E0 in ST.
           assert (Ak : at_keys L i (WStruct z fs) D h p g F) by (constructor; assumption).
           pose proof (flat_le _ _ _ E0) as Le.
           assert (Of : obj_free (snd x) = true \/ exists a1 a2 lo, snd x = JObj a1 a2 lo).
           { destruct (snd x) as [| | | | |a1 a2 lo|a1 a2 lo]; try (left; reflexivity); [left; exact Dx|right; eauto]. }
           destruct Of as [Of|(a1 & a2 & lo & Eo)].
           ++ rewrite (skip_unknown_flat C) in ST by exact Of.
              assert (Sk : skip_unknown 0 (tailt (S k + ntok (snd x)) ((l, (ja, e)) :: ls)) = Some 0) by (destruct l; reflexivity).
              rewrite Sk in ST. cbn [option_map] in ST. rewrite Nat.add_0_r in ST.
              eapply finished_step; [exact Lt|exact ST|]. eapply IHn with (ls := (l, (ja, e)) :: ls); try eassumption; [|lia].
              apply at_skip in E0. rewrite flat_length in E0. exact E0.
           ++ rewrite Eo in *. rewrite (skip_unknown_obj C) in ST.
              eapply finished_step; [exact Lt|exact ST|]. rewrite ntok_obj in *.
              pose proof (obj_last C toks _ _ _ _ _ E0) as [E2 Sk]. rewrite ntok_obj in E2, Sk.
              eapply IHn with (ls := ([], (a2, S k)) :: (l, (ja, e)) :: ls); try eassumption; try lia.
              ** constructor; [constructor|exact Lk'].
              ** replace (S k + (1 + ntokm lo)) with (pred (S k + (2 + ntokm lo))) by lia. rewrite E2. cbn [tailt flatm ntokm app]. rewrite Nat.add_0_r.
                 replace (S (pred (S k + (2 + ntokm lo)))) with (S k + (2 + ntokm lo)) by lia. reflexivity.
Qed.
End Loop.

(** ** The call *)
Section Call.
Variables (C : cfg) (O : opts) (stk : list frame) (s : bytes) (t : wt) (v : jv).
Theorem decode_ptrs D a h g F : wdescribes (c_w64 C) stk t -> wrested stk D -> lexed s v -> dfine O v -> ptrs C O true t ->
  wlayout (c_w64 C) t -> slow t -> wrep (c_w64 C) t h (Some a) g F -> own h (Some a) F ->
  (exists i e D' h' g' F', Decode C O stk D s (TOk (flat 0 v)) (Some a) h = Ret i e D' h' /\
     wrep (c_w64 C) t h' (Some a) g' F' /\ own h' (Some a) F' /\ only h h' (Some a) (tsize (c_w64 C) t) F F' /\
     (e = None -> i = (-1)%Z /\ wrested stk D')) \/
  (Decode C O stk D s (TOk (flat 0 v)) (Some a) h = DPanics /\ wno_quoted_numbers t = false).
Proof.
  intros (Len & Ft & f & Hf & Pf & Of & _) (Cm & Dn) L Dv P Ly Sl R Ow.
  set (D0 := upd_d D 0 (set_dest (Some a))).
  assert (Cm0 : calm stk D0) by (apply calm_dest, Cm).
  assert (Off : d_off (D0 0) = 0%Z).
  { destruct (Cm0 0 f Hf) as [_ Q]. rewrite Q, Of; [reflexivity|]. intros (p & fp & Pp & _). congruence. }
  assert (Hd : dst D0 0 = Some a) by (unfold dst; rewrite Off; unfold D0, upd_d; cbn [Nat.eqb set_dest d_dest]; apply padd0).
  destruct (wfits_head _ _ _ _ Ft) as (f' & Hf' & Tf & _). rewrite Hf in Hf'. injection Hf' as <-.
  assert (Rf : exists f, nth_error stk 0 = Some f /\ f_ty f <> EMapRecur /\ f_parent f = None).
  { exists f. split; [exact Hf|]. split; [rewrite Tf; apply wet_not_map|exact Pf]. }
  set (pan := negb (wno_quoted_numbers t)).
  assert (Av : at_value C O stk h t a F pan true [] 0 t D0 h (Some a) g F).
  { constructor; try assumption.
    - split; [exact Ft|]. split; [exact Ly|]. split; [exact Sl|]. unfold pan. destruct (wno_quoted_numbers t); auto.
    - intros _. exact Off.
    - cbn [Ctx]. split; [reflexivity|]. split; [reflexivity|]. split; [reflexivity|]. split; [reflexivity|apply only_refl]. }
  pose proof (V_ok C O stk s (flat 0 v) h t a F pan Rf (length (flat 0 v)) (A_all C O stk s (flat 0 v) h t a F pan Rf (length (flat 0 v)))
    t true [] 0 D0 h (Some a) g F 0 v [] Av L Dv ltac:(cbn [tailt skipn]; rewrite app_nil_r; reflexivity) (Forall_nil _) (fun _ => Forall_nil _) ltac:(lia)) as Fin.
  unfold Decode. fold D0.
  destruct Fin as [(y & E & Ty & (g' & F' & R' & Ow' & On') & Cy & Ed)|[(i & e & y & E & (g' & F' & R' & Ow' & On'))|[E Pn]]].
  - left. assert (Ry : run C O stk s (flat 0 v) (run_fuel stk (flat 0 v)) (St 0 0 D0 h) = RDone y).
    { assert (Ry : run C O stk s (flat 0 v) 0 y = RDone y).
      { cbn [run]. replace (ti y <? length (flat 0 v)) with false by (symmetry; apply Nat.ltb_ge; lia). reflexivity. }
      destruct E as [E|E].
      - subst y. apply run_fuel_enough with (n := 0); try discriminate; try reflexivity; [apply flat_ends|exact Ry].
      - apply reach_run in E as (n & E). specialize (E 0). cbn [cont] in E. rewrite Ry in E.
        apply run_fuel_enough in E; try discriminate; try reflexivity; [exact E|apply flat_ends]. }
    rewrite Ry, Ed, Nat.eqb_refl, Z.eqb_refl. cbn [andb].
    do 3 eexists. exists (hp y), g', F'. split; [reflexivity|]. split; [exact R'|]. split; [exact Ow'|]. split; [exact On'|]. intros _. split; [reflexivity|].
    split; [|reflexivity]. intros j q Hj. unfold clear_dests. cbn. apply Cy, Hj.
  - left. apply reach_run in E as (n & E). specialize (E 0). cbn [cont] in E.
    apply run_fuel_enough in E; try discriminate; try reflexivity; [|apply flat_ends]. rewrite E.
    do 3 eexists. exists (hp y), g', F'. split; [reflexivity|]. split; [exact R'|]. split; [exact Ow'|]. split; [exact On'|]. discriminate.
  - right. apply reach_run in E as (n & E). specialize (E 0). cbn [cont] in E.
    apply run_fuel_enough in E; try discriminate; try reflexivity; [|apply flat_ends]. rewrite E. split; [reflexivity|].
    unfold pan in Pn. destruct (wno_quoted_numbers t); [discriminate|reflexivity].
Qed.
End Call.

(** The recursive decoder on memory ([dech]) computes the recursive decoder on values
    ([dval]): if the destination holds the value [g], then afterwards it holds the value
    [dval] gives, errors and positions agree, and no memory changes except the
    destination, the blocks owned by the old value, and new blocks. *)
From Verif Require Import Base NumSpec StrSpec Atoi JsonNum Unescape UnescapeProofs Lookup Types Token FloatLit Heap Machine Dt Dec Value Dval Sep.
Open Scope Z_scope.

Definition gsim {A} (Q : heap -> A -> Prop) (r : hres) (q : vres A) : Prop :=
  match q with
  | VOk a => exists h, r = HOk h /\ Q h a
  | VErr i e a => exists h, r = HErr i e h /\ Q h a
  | VPan => r = HPan
  end.
Lemma gsim_map {A B} (Q : heap -> A -> Prop) (Q' : heap -> B -> Prop) (f : A -> B) r q :
  gsim Q r q -> (forall h a, Q h a -> Q' h (f a)) -> gsim Q' r (vmap f q).
Proof. intros H I. destruct q; cbn in *; [destruct H as (h & -> & H); eauto|destruct H as (h & -> & H); eauto|exact H]. Qed.
Lemma gsim_imp {A} (Q Q' : heap -> A -> Prop) r q : gsim Q r q -> (forall h a, Q h a -> Q' h a) -> gsim Q' r q.
Proof. intros H I. destruct q; cbn in *; [destruct H as (h & -> & H); eauto|destruct H as (h & -> & H); eauto|exact H]. Qed.

Lemma own_nil h p F : own h p F -> own h p [].
Proof. intros (A & B & C & D). repeat split; try assumption; try (constructor); destruct H. Qed.

(** Writing one cell. *)
Lemma store_cell h p n c c' : 0 < n -> holds h p n c -> is_poison c = false ->
  exists h', store h p n c' = Ok h' /\ holds h' p n c' /\ nxt h' = nxt h /\ (forall b, pblk p <> Some b -> blk h' b = blk h b) /\
  (forall F, own h p F -> own h' p F) /\ (forall F F', incl F' F -> only h h' p n F F').
Proof.
  intros Hn Hh Np. destruct (store_holds h p n c c' Hn Hh Np) as (h' & E & Nx & Bk & Hh' & Cl & En & _).
  exists h'. split; [exact E|]. split; [exact Hh'|]. split; [exact Nx|]. split; [exact Bk|]. split.
  - intros F (A & B & D & G). unfold own. rewrite Nx. repeat split; try assumption; apply D; assumption.
  - intros F F' I. split; [lia|]. split; [|split; [|split]].
    + intros b _ _ Nb. apply Bk, Nb.
    + exact Cl.
    + exact En.
    + intros b Hb. left. apply I, Hb.
Qed.

Section Refine.
Variables (C : cfg) (O : opts) (s : bytes).
Notation w64 := (c_w64 C).
Notation W := (wb (c_w64 C)).
Notation dsize := (dsize (c_w64 C)).
Notation rep := (rep (c_w64 C)).
Notation layout := (layout (c_w64 C)).
Notation dech := (dech C O s).
Notation dval := (dval C O s).

Definition post (d : dt) (h : heap) (p : ptr) (F : list nat) (h' : heap) (g : gval) : Prop :=
  exists F', rep d h' p g F' /\ own h' p F' /\ only h h' p (dsize d) F F'.
Definition good (d : dt) (k : hdec) (f : vdec) : Prop :=
  forall v h p g F, lexed s v -> rep d h p g F -> own h p F -> gsim (post d h p F) (k v p h) (f v g).

(** The same for an arbitrary type in memory and the documents [Q]. *)
Record nice (t : mty) : Prop := {
  nice_size : 0 <= m_size t;
  nice_stable : stable (m_rep t) (m_size t);
  nice_zero : forall h p, (forall x, 0 <= x < m_size t -> cellat h p x = Some CZero) -> m_rep t h p (m_zero t) [];
  nice_size0 : m_size t = 0 -> forall h p g F, m_rep t h p g F -> F = [] /\ g = m_zero t /\ forall h' p', m_rep t h' p' g F }.
Lemma nice_mt d : layout d -> nice (mt w64 d).
Proof.
  intros L. split; cbn [mt m_size m_rep m_zero]; [apply dsize_nonneg, L|apply rep_agree, L|apply rep_zero, L|apply rep_size0, L].
Qed.
Definition postm (t : mty) (h : heap) (p : ptr) (F : list nat) (h' : heap) (g : gval) : Prop :=
  exists F', m_rep t h' p g F' /\ own h' p F' /\ only h h' p (m_size t) F F'.
Definition goodm (Q : jv -> Prop) (t : mty) (k : hdec) (f : vdec) : Prop :=
  forall v h p g F, Q v -> m_rep t h p g F -> own h p F -> gsim (postm t h p F) (k v p h) (f v g).
Lemma good_goodm d k f : good d k f -> goodm (lexed s) (mt w64 d) k f.
Proof. exact (fun H => H). Qed.
Lemma postm_refl t h p g F : m_rep t h p g F -> own h p F -> postm t h p F h g.
Proof. intros R Ow. exists F. split; [exact R|]. split; [exact Ow|apply only_refl]. Qed.

Lemma post_refl d h p g F : rep d h p g F -> own h p F -> post d h p F h g.
Proof. intros R Ow. exists F. split; [exact R|]. split; [exact Ow|apply only_refl]. Qed.

(** ** Scalars *)
Lemma rep_sc_poison x c g : rep_sc x c g -> is_poison c = false.
Proof. destruct c; cbn; try reflexivity; contradiction. Qed.
Lemma leaf_store x h p g F c' g' : rep (DSc x) h p g F -> own h p F -> rep_sc x c' g' ->
  exists h', store h p (sc_size w64 x) c' = Ok h' /\ post (DSc x) h p F h' g'.
Proof.
  intros R Ow Rc. cbn [Value.rep] in R. destruct R as (-> & c & Hc & Hr).
  destruct (store_cell h p (sc_size w64 x) c c') as (h' & E & Hh & _ & _ & Ow' & On);
    [apply sc_size_pos|exact Hc|eapply rep_sc_poison, Hr|].
  exists h'. split; [exact E|]. exists []. split; [|split].
  - cbn. split; [reflexivity|]. exists c'. split; assumption.
  - apply Ow', Ow.
  - apply On, incl_refl.
Qed.

Lemma Valid_body r : string_body r -> exists b, Valid r = UOk b.
Proof. intros (l & B & _). exists (meaning_units l). apply Valid_units, B. Qed.
Lemma index_none_Valid b : index_bs b = None -> Valid b = UOk b.
Proof. intros H. unfold Valid. rewrite H. reflexivity. Qed.
Lemma chars_mkstr i b : chars (mkstr C i b) = b.
Proof. unfold mkstr. destruct (c_bytes C); reflexivity. Qed.
Lemma unesc_str_txt i r : string_body r -> exists g, unesc_str C i r = Ok g /\ chars g = txt r.
Proof.
  intros B. destruct (Valid_body r B) as (b & V). unfold unesc_str, txt. rewrite V. eexists. split; [reflexivity|].
  destruct (index_bs r) eqn:E; [reflexivity|]. rewrite chars_mkstr. apply index_none_Valid in E. congruence.
Qed.
Lemma str_of_txt i r : string_body r -> chars (str_of C i r) = txt r.
Proof. intros B. unfold str_of. destruct (unesc_str_txt (i + 1) r B) as (g & -> & H). exact H. Qed.

(** ** any *)
Lemma map_assoc_put {V V'} (w : V -> V') l k v :
  map (fun x => (chars (fst x), w (snd x))) (assoc_put l k v) = nassoc_put (map (fun x => (chars (fst x), w (snd x))) l) (chars k) (w v).
Proof.
  induction l as [|[k' v'] l IH]; cbn; [reflexivity|]. destruct (bytes_eqb (chars k') (chars k)); cbn; [reflexivity|]. rewrite IH. reflexivity.
Qed.
Fixpoint nanyl (acc : list jany) (l : list jv) : option jany :=
  match l with [] => Some (NArr acc) | x :: r => match nany C x with Some a => nanyl (acc ++ [a]) r | None => None end end.
Fixpoint nanym (acc : list (bytes * jany)) (l : list ((nat * bytes) * jv)) : option jany :=
  match l with
  | [] => Some (NObj acc)
  | x :: r => match nany C (snd x) with Some a => nanym (nassoc_put acc (txt (snd (fst x))) a) r | None => None end
  end.
Lemma nany_view v : lexed s v -> nany C v = option_map view (anyv C v).
Proof.
  induction v using jv_ind'; intros L; try reflexivity.
  - cbn. destruct (parse_float (c_pf C) B64 r); reflexivity.
  - cbn. destruct (parse_float (c_pf C) B64 r); reflexivity.
  - cbn. rewrite str_of_txt; [reflexivity|]. apply L.
  - apply lexed_arr in L as (_ & _ & _ & L). rewrite anyv_arr. change (nany C (JArr i j l)) with (nanyl [] l).
    assert (E : forall acc, nanyl (map view acc) l = option_map view (anyl C acc l)).
    { induction H as [|x l Hx Hl IH]; intros acc; [reflexivity|]. inversion L as [|? ? L1 L2]; subst.
      cbn [nanyl anyl]. rewrite (Hx L1). destruct (anyv C x) as [a|]; [|reflexivity]. cbn [option_map].
      rewrite <- (IH L2). rewrite map_app. reflexivity. }
    apply (E []).
  - apply lexed_obj in L as (_ & _ & _ & L). rewrite anyv_obj. change (nany C (JObj i j l)) with (nanym [] l).
    assert (E : forall acc, nanym (map (fun x => (chars (fst x), view (snd x))) acc) l = option_map view (anym C acc l)).
    { induction H as [|x l Hx Hl IH]; intros acc; [reflexivity|]. inversion L as [|? ? [[_ K] L1] L2]; subst.
      cbn [nanym anym]. rewrite (Hx L1). destruct (anyv C (snd x)) as [a|]; [|reflexivity]. cbn [option_map].
      rewrite <- (IH L2), map_assoc_put, str_of_txt by exact K. reflexivity. }
    apply (E []).
Qed.

Ltac keep := first [reflexivity | (eexists; split; [reflexivity|]; apply post_refl; assumption)].
Ltac put LS c' g' :=
  let h' := fresh "h'" in let E := fresh "E" in let P := fresh "P" in
  destruct (LS c' g' eq_refl) as (h' & E & P); cbn [sc_size] in E; unfold sok; rewrite E; cbn [rbind hlift]; exists h'; split; [reflexivity|exact P].

Lemma scalar_good x : good (DSc x) (dech (DSc x)) (dval (DSc x)).
Proof.
  intros v h p g F L R Ow. pose proof (fun c' g' => leaf_store x h p g F c' g' R Ow) as LS.
  cbn [Dval.dval].
  assert (LE : forall i e, gsim (post (DSc x) h p F) (HErr i e h) (lput i (LErr e) g)) by (intros; keep).
  assert (Ln : forall i r sz, sz = sc_size w64 x -> (forall z, rep_sc x (CInt z) (VInt z)) ->
    gsim (post (DSc x) h p F)
      (sres_h i (let* r := r in match r with inr e => serr h e | inl v => sok (store h p sz (CInt v)) end)) (lput i (lint r) g) \/ r = Cor).
  { intros i r sz -> HH. destruct r as [[z|e]| |]; [left|left|left|right]; cbn; try keep.
    destruct (LS _ _ (HH z)) as (h' & -> & P). cbn. eauto. }
  assert (Lf : forall i r sz, sz = sc_size w64 x -> (forall z, rep_sc x (CFloat z) (VFloat z)) ->
    gsim (post (DSc x) h p F)
      (sres_h i (match r with None => serr h EParse | Some f => sok (store h p sz (CFloat f)) end)) (lput i (lfloat r) g)).
  { intros i r sz -> HH. destruct r as [z|]; cbn; try keep. destruct (LS _ _ (HH z)) as (h' & -> & P). cbn. eauto. }
  assert (IT : forall k raw, int_of_tok C k raw <> Cor).
  { intros k raw. unfold int_of_tok. destruct (negb (nk_signed k) && minus raw); [discriminate|]. destruct (atoi w64 k raw) as [[z []]|]; discriminate. }
  assert (IS : forall k raw, int_of_str C k raw <> Cor).
  { intros k raw. unfold int_of_str. destruct (ReadNumber raw) as [[? []]|]; try discriminate. destruct (negb (nk_signed k) && minus raw); [discriminate|]. destruct (atoi w64 k raw) as [[z []]|]; discriminate. }
  destruct v as [i|i b|i r|i r|i r|i j l|i j l]; cbn [Dec.dech].
  - (* null *) unfold scalar_h, leaf. cbn [f_ty mkfr dt_et jidx].
    destruct x; cbn [sc_et null_tok scalarv lput gsim hlift]; try keep.
    + put LS (CBool false) (VBool false).
    + put LS (CStr (SOwn [])) (VStr []).
    + put LS (CStr (SOwn [])) (VStr []).
    + put LS (CInt 0) (VInt 0).
    + put LS (CFloat (float_of_int 0)) (VFloat (float_of_int 0)).
    + put LS CZero (VAny NNil).
  - unfold scalar_h, leaf. cbn [f_ty mkfr dt_et jidx].
    destruct x; cbn [sc_et bool_tok scalarv sres_h hlift serr]; try apply LE.
    + put LS (CBool b) (VBool b).
    + put LS (CAny (ABool b)) (VAny (NBool b)).
  - unfold scalar_h, leaf. cbn [f_ty mkfr dt_et jidx].
    destruct x; cbn [sc_et int_tok scalarv]; try apply LE.
    + assert (Q : rep_sc SNumber (CStr (mkstr C i r)) (VStr r)) by (cbn; rewrite chars_mkstr; reflexivity).
      destruct (LS _ _ Q) as (h' & E & P). cbn [sc_size] in E. unfold sok. rewrite E. cbn. eauto.
    + destruct (Ln i (int_of_tok C k r) (wsize w64 (nk_w k)) eq_refl (fun z => eq_refl)) as [Q|Q]; [exact Q|]. destruct (IT _ _ Q).
    + apply (Lf i (float_of_int_tok C b r) (fsize b)); reflexivity.
    + destruct (parse_float (c_pf C) B64 r) as [f|]; [|apply LE]. put LS (CAny (AFloat f)) (VAny (NNum f)).
  - unfold scalar_h, leaf. cbn [f_ty mkfr dt_et jidx].
    destruct x; cbn [sc_et num_tok scalarv]; try apply LE.
    + assert (Q : rep_sc SNumber (CStr (mkstr C i r)) (VStr r)) by (cbn; rewrite chars_mkstr; reflexivity).
      destruct (LS _ _ Q) as (h' & E & P). cbn [sc_size] in E. unfold sok. rewrite E. cbn. eauto.
    + apply (Lf i (parse_float (c_pf C) b r) (fsize b)); reflexivity.
    + destruct (parse_float (c_pf C) B64 r) as [f|]; [|apply LE]. put LS (CAny (AFloat f)) (VAny (NNum f)).
  - destruct L as [_ B]. destruct (unesc_str_txt (i + 1) r B) as (gs & Eg & Cg).
    unfold scalar_h, leaf, str_tok. cbn [f_ty mkfr dt_et jidx].
    destruct x; cbn [sc_et scalarv]; try apply LE.
    + rewrite Eg. cbn [rbind]. assert (Q : rep_sc SStr (CStr gs) (VStr (txt r))) by (cbn; rewrite Cg; reflexivity).
      destruct (LS _ _ Q) as (h' & E & P). cbn [sc_size] in E. unfold sok. rewrite E. cbn. eauto.
    + assert (Q : rep_sc SNumber (CStr (mkstr C (i + 1) r)) (VStr r)) by (cbn; rewrite chars_mkstr; reflexivity).
      destruct (LS _ _ Q) as (h' & E & P). cbn [sc_size] in E.
      destruct (ReadNumber r) as [[? []]|]; cbn [sres_h hlift]; try apply LE; try reflexivity; unfold sok; rewrite E; cbn; eauto.
    + rewrite Eg. cbn [rbind]. assert (Q : rep_sc SAny (CAny (AStr gs)) (VAny (NStr (txt r)))) by (cbn; rewrite Cg; reflexivity).
      destruct (LS _ _ Q) as (h' & E & P). cbn [sc_size] in E. unfold sok. rewrite E. cbn. eauto.
    + destruct (bytes_eqb r (bs "true")); [put LS (CBool true) (VBool true)|].
      destruct (bytes_eqb r (bs "false")); [put LS (CBool false) (VBool false)|apply LE].
    + destruct (quoted_inner r) as [b|]; [|apply LE].
      assert (Q : rep_sc SStrQ (CStr (mkstr C (i + 3) b)) (VStr b)) by (cbn; rewrite chars_mkstr; reflexivity).
      destruct (LS _ _ Q) as (h' & E & P). cbn [sc_size] in E. unfold sok. rewrite E. cbn. eauto.
    + destruct (Ln i (int_of_str C k r) (wsize w64 (nk_w k)) eq_refl (fun z => eq_refl)) as [Q|Q]; [exact Q|]. destruct (IS _ _ Q).
    + destruct (ReadNumber r) as [[? []]|]; try apply LE; try reflexivity;
        apply (Lf i (parse_float (c_pf C) b r) (fsize b)); reflexivity.
  - destruct x; try apply LE. unfold any_h. cbn [scalarv]. rewrite (nany_view _ L). cbn [jidx].
    destruct (anyv C (JArr i j l)) as [a|]; [|apply LE]. put LS (CAny a) (VAny (view a)).
  - destruct x; try apply LE. unfold any_h. cbn [scalarv]. rewrite (nany_view _ L). cbn [jidx].
    destruct (anyv C (JObj i j l)) as [a|]; [|apply LE]. put LS (CAny a) (VAny (view a)).
Qed.

(** ** Types with unmarshaler methods *)
Definition is_user (z : Z) (d : dt) : Prop := exists id, d = DText id z \/ d = DJson id z.
Lemma user_cell z d h p g F : is_user z d -> rep d h p g F -> own h p F ->
  load_user h p z = Ok (as_userv g) /\
  forall new, exists h', store_user h p z new = Ok h' /\ post d h p F h' (VUser (if z <=? 0 then [] else new)).
Proof.
  intros U R Ow.
  assert (R' : F = [] /\ if z <=? 0 then g = VUser [] else exists c, holds h p z c /\ match c with CZero => g = VUser [] | CUser b => g = VUser b | _ => False end).
  { destruct U as (id & [-> | ->]); exact R. }
  assert (Mk : forall h' g', (if z <=? 0 then g' = VUser [] else exists c, holds h' p z c /\ match c with CZero => g' = VUser [] | CUser b => g' = VUser b | _ => False end) -> rep d h' p g' []).
  { intros h' g' Q. destruct U as (id & [-> | ->]); (split; [reflexivity|exact Q]). }
  assert (Sz : dsize d = z) by (destruct U as (id & [-> | ->]); reflexivity).
  destruct R' as [-> R']. unfold load_user, store_user. destruct (Z.leb_spec z 0).
  - subst g. split; [reflexivity|]. intros new. exists h. split; [reflexivity|]. apply post_refl; [exact R|exact Ow].
  - destruct R' as (c & Hc & Hg). assert (Np : is_poison c = false) by (destruct c; try reflexivity; destruct Hg).
    split.
    + rewrite (load_holds h p z c) by (assumption || lia). destruct c; try contradiction; rewrite Hg; reflexivity.
    + intros new. destruct (store_cell h p z c (CUser new)) as (h' & E & Hh & _ & _ & Ow' & On); [lia|exact Hc|exact Np|].
      exists h'. split; [exact E|]. exists []. split; [apply Mk; exists (CUser new); split; [exact Hh|reflexivity]|]. rewrite Sz.
      split; [apply Ow', Ow|apply On, incl_refl].
Qed.

Lemma text_good id z : good (DText id z) (dech (DText id z)) (dval (DText id z)).
Proof.
  intros v h p g F L R Ow. assert (U : is_user z (DText id z)) by (exists id; left; reflexivity).
  destruct (user_cell z _ h p g F U R Ow) as [Ld St].
  destruct v as [i|i b|i r|i r|i r|i j l|i j l]; cbn [Dec.dech Dval.dval jidx]; try (unfold scalar_h; cbn [leaf f_ty mkfr set_rt dt_et bool_tok int_tok num_tok null_tok sres_h hlift serr]; keep).
  unfold scalar_h, str_tok. cbn [leaf f_ty mkfr set_rt dt_et f_size Dt.dsize user_id f_rt rbind]. destruct L as [_ B].
  unfold unesc, txt. destruct (Valid_body r B) as (b & ->). cbn [rbind]. rewrite Ld. cbn [rbind].
  unfold userv. destruct (c_ut C id (as_userv g) b) as [new er]. destruct (St new) as (h' & -> & P). cbn [rbind sres_h hlift fst snd].
  destruct er; cbn; eauto.
Qed.

Lemma jraw_res v : jraw s v <> Cor.
Proof. destruct v; cbn; unfold sub; destruct (slice _ _ _); discriminate. Qed.
Lemma json_good id z : good (DJson id z) (dech (DJson id z)) (dval (DJson id z)).
Proof.
  intros v h p g F L R Ow. assert (U : is_user z (DJson id z)) by (exists id; right; reflexivity).
  destruct (user_cell z _ h p g F U R Ow) as [Ld St]. cbn [Dec.dech Dval.dval]. unfold json_h.
  pose proof (jraw_res v) as Nc. destruct (jraw s v) as [raw| |]; [|reflexivity|congruence]. cbn [hlift]. rewrite Ld. cbn [hlift].
  unfold userv. destruct (c_uj C id (as_userv g) raw) as [new er]. destruct (St new) as (h' & -> & P). cbn [hlift fst snd].
  destruct er; cbn; eauto.
Qed.

(** ** Parts *)
Lemma part_focus rs n h p gs F j off t : nice t -> reps rs h p gs F -> own h p F ->
  nth_error rs j = Some (off, m_rep t) -> 0 <= off -> off + m_size t <= n ->
  (forall i r, i <> j -> nth_error rs i = Some r -> exists sz, stable (snd r) sz /\ (fst r + sz <= off \/ off + m_size t <= fst r)) ->
  exists g Fj, nth_error gs j = Some g /\ m_rep t h (padd p off) g Fj /\ own h (padd p off) Fj /\
  forall h' g', postm t h (padd p off) Fj h' g' ->
    exists F', reps rs h' p (set_nth gs j g') F' /\ own h' p F' /\ only h h' p n F F'.
Proof.
  intros L R Ow Hj H0 H1 Dis. destruct (reps_focus rs j off (m_rep t) h p gs F R Hj) as (g & F1 & Fj & F2 & Hg & -> & Rj & Upd).
  exists g, Fj. split; [exact Hg|]. split; [exact Rj|]. split.
  { destruct Ow as (A & B & D & E). rewrite !nodup_app in B. split; [exact A|]. split; [tauto|]. rewrite pblk_padd. split; [|exact E].
    intros b Hb. apply D. apply in_or_app. right. apply in_or_app. left. exact Hb. }
  intros h' g' (Fj' & Rj' & Ow' & On). destruct (only_part h h' p off (m_size t) n F1 Fj Fj' F2 H0 H1 Ow Ow' On) as (Ow2 & On2 & Bk & Cl).
  exists (F1 ++ Fj' ++ F2). split; [|split; assumption]. apply Upd; [exact Rj'|exact Bk|].
  intros i r Ni Hi. destruct (Dis i r Ni Hi) as (sz & St & Ds). exists sz. split; [exact St|]. intros x Hx. apply Cl. lia.
Qed.

Lemma slot_focus t n h p gs F j : nice t -> reps (slots (m_size t) (m_rep t) 0 n) h p gs F -> own h p F -> (j < n)%nat ->
  exists g Fj, nth_error gs j = Some g /\ m_rep t h (padd p (Z.of_nat j * m_size t)) g Fj /\ own h (padd p (Z.of_nat j * m_size t)) Fj /\
  forall h' g', postm t h (padd p (Z.of_nat j * m_size t)) Fj h' g' ->
    exists F', reps (slots (m_size t) (m_rep t) 0 n) h' p (set_nth gs j g') F' /\ own h' p F' /\ only h h' p (Z.of_nat n * m_size t) F F'.
Proof.
  intros L R Ow Hj. pose proof (nice_size t L) as Hs. destruct (mul_range j n (m_size t) Hj Hs).
  apply part_focus; try assumption.
  - rewrite nth_error_slots. destruct (Nat.ltb_spec j n); [reflexivity|lia].
  - intros i r Ni Hi. rewrite nth_error_slots in Hi. destruct (Nat.ltb_spec i n); [|discriminate]. injection Hi as <-. exists (m_size t).
    split; [apply nice_stable, L|]. cbn [fst Nat.add]. destruct (Nat.lt_ge_cases i j); [left|right]; nia.
Qed.

Lemma reps_length rs h p : forall gs F, reps rs h p gs F -> length gs = length rs.
Proof. induction rs as [|r rs IH]; intros [|g gs] F H; cbn in *; try contradiction; [reflexivity|]. destruct H as (F1 & F2 & _ & _ & H). rewrite (IH _ _ H). reflexivity. Qed.
Lemma set_nth_split {A} (l : list A) i a x : nth_error l i = Some x -> set_nth l i a = firstn i l ++ a :: skipn (S i) l.
Proof. revert i. induction l as [|y l IH]; intros [|i] H; cbn in *; try discriminate; [reflexivity|]. rewrite IH by exact H. reflexivity. Qed.
Lemma skipn_nth {A} (l : list A) i x : nth_error l i = Some x -> skipn i l = x :: skipn (S i) l.
Proof. revert i. induction l as [|y l IH]; intros [|i] H; cbn in *; try discriminate; [congruence|]. rewrite IH by exact H. reflexivity. Qed.

Definition spost (t : mty) (n : nat) (h : heap) (p : ptr) (F : list nat) (h' : heap) (gs : list gval) : Prop :=
  exists F', reps (slots (m_size t) (m_rep t) 0 n) h' p gs F' /\ own h' p F' /\ only h h' p (Z.of_nat n * m_size t) F F'.

Lemma elems_good_from (Q : jv -> Prop) t k f : nice t -> goodm Q t k f -> forall l n h p gs m F, Forall Q l ->
  reps (slots (m_size t) (m_rep t) 0 n) h p gs F -> own h p F -> (m + length l <= n)%nat ->
  gsim (spost t n h p F) (elems_h k (m_size t) (Z.of_nat m) l p h) (vmap (app (firstn m gs)) (elemsv f l (skipn m gs))).
Proof.
  intros L Gd. induction l as [|x l IH]; intros n h p gs m F Lx R Ow Hm.
  - cbn [elems_h elemsv vmap gsim]. exists h. split; [reflexivity|]. rewrite firstn_skipn. exists F. split; [exact R|]. split; [exact Ow|apply only_refl].
  - inversion Lx as [|? ? L1 L2]; subst. cbn [length] in Hm. cbn [elems_h elemsv].
    destruct (slot_focus t n h p gs F m L R Ow) as (g & Fj & Hg & Rj & Oj & Upd); [lia|].
    rewrite (skipn_nth _ _ _ Hg). pose proof (Gd x h _ g Fj L1 Rj Oj) as Qx. destruct (f x g) as [g'|i e g'|]; cbn [gsim] in Qx.
    + destruct Qx as (h1 & -> & P). cbn [hbind]. destruct (Upd h1 g' P) as (F1 & R1 & Ow1 & On1).
      specialize (IH n h1 p _ (S m) F1 L2 R1 Ow1 ltac:(lia)). replace (Z.of_nat m + 1) with (Z.of_nat (S m)) by lia.
      rewrite (set_nth_split _ _ _ _ Hg) in IH. assert (Lm : length (firstn m gs) = m).
      { apply firstn_length_le. pose proof (reps_length _ _ _ _ _ R) as Qx. rewrite slots_length in Qx. lia. }
      replace (skipn (S m) (firstn m gs ++ g' :: skipn (S m) gs)) with (skipn (S m) gs) in IH.
      2: { rewrite skipn_app, Lm, (skipn_all2 (firstn m gs)) by lia. replace (S m - m)%nat with 1%nat by lia. reflexivity. }
      replace (firstn (S m) (firstn m gs ++ g' :: skipn (S m) gs)) with (firstn m gs ++ [g']) in IH.
      2: { rewrite firstn_app, Lm. replace (S m - m)%nat with 1%nat by lia. rewrite (firstn_all2 (firstn m gs)) by lia. reflexivity. }
      assert (Ev : vmap (app (firstn m gs)) (vmap (cons g') (elemsv f l (skipn (S m) gs))) = vmap (app (firstn m gs ++ [g'])) (elemsv f l (skipn (S m) gs))).
      { destruct (elemsv f l (skipn (S m) gs)); cbn; rewrite <- ?app_assoc; reflexivity. }
      rewrite Ev. eapply gsim_imp; [exact IH|]. intros h2 gs2 (F2 & R2 & Ow2 & On2). exists F2. split; [exact R2|]. split; [exact Ow2|].
      eapply only_trans; eassumption.
    + destruct Qx as (h1 & -> & P). cbn [hbind vmap gsim]. exists h1. split; [reflexivity|]. destruct (Upd h1 g' P) as (F1 & R1 & Ow1 & On1).
      rewrite <- (set_nth_split _ _ _ _ Hg). exists F1. auto.
    + rewrite Qx. reflexivity.
Qed.
Lemma elems_good (Q : jv -> Prop) t k f : nice t -> goodm Q t k f -> forall l n h p gs F, Forall Q l ->
  reps (slots (m_size t) (m_rep t) 0 n) h p gs F -> own h p F -> (length l <= n)%nat ->
  gsim (spost t n h p F) (elems_h k (m_size t) 0 l p h) (elemsv f l gs).
Proof.
  intros L Gd l n h p gs F Lx R Ow Hl. pose proof (elems_good_from Q t k f L Gd l n h p gs 0 F Lx R Ow Hl) as Qx. cbn [firstn skipn] in Qx.
  destruct (elemsv f l gs); exact Qx.
Qed.

(** Arrays *)
Lemma Forall_firstn {A} (P : A -> Prop) n l : Forall P l -> Forall P (firstn n l).
Proof. intros H. revert n. induction H; intros [|n]; cbn; constructor; auto. Qed.
Lemma array_good n t : layout t -> good t (dech t) (dval t) -> good (DArr n t) (dech (DArr n t)) (dval (DArr n t)).
Proof.
  intros Lt Gd v h p g F L R Ow.
  destruct v as [i|i b|i r|i r|i r|i j l|i j l]; cbn [Dec.dech Dval.dval jidx]; try (unfold scalar_h, str_tok; cbn [leaf f_ty mkfr set_rt dt_et bool_tok int_tok num_tok null_tok sres_h hlift serr]; keep).
  - apply lexed_arr in L as (_ & _ & _ & L). cbn [Value.rep] in R. destruct R as (gs & -> & R).
    eapply gsim_map.
    + apply (elems_good (lexed s) (mt w64 t) _ _ (nice_mt _ Lt) Gd (firstn n l) n h p gs F (Forall_firstn _ _ _ L) R Ow). rewrite firstn_length. lia.
    + intros h' gs' (F' & R' & Ow' & On'). exists F'. split; [exists gs'; auto|]. split; assumption.
Qed.

Lemma arr0_good : good DArr0 (dech DArr0) (dval DArr0).
Proof.
  intros v h p g F L R Ow.
  destruct v as [i|i b|i r|i r|i r|i j l|i j l]; cbn [Dec.dech Dval.dval jidx]; unfold scalar_h, str_tok; cbn [leaf f_ty mkfr set_rt dt_et bool_tok int_tok num_tok null_tok sres_h hlift serr]; keep.
Qed.
Lemma empty_good : good DEmpty (dech DEmpty) (dval DEmpty).
Proof.
  intros v h p g F L R Ow.
  destruct v as [i|i b|i r|i r|i r|i j l|i j l]; cbn [Dec.dech Dval.dval jidx]; unfold scalar_h, str_tok; cbn [leaf f_ty mkfr set_rt dt_et bool_tok int_tok num_tok null_tok sres_h hlift serr]; keep.
Qed.

(** ** Structs *)
Lemma disjoint_nth l : disjoint_slots l -> forall i j x y, i <> j -> nth_error l i = Some x -> nth_error l j = Some y ->
  fst x + snd x <= fst y \/ fst y + snd y <= fst x.
Proof.
  induction l as [|a l IH]; intros D i j x y N Hi Hj; [destruct i; discriminate|]. destruct D as [D1 D2]. rewrite Forall_forall in D1.
  destruct i as [|i], j as [|j]; cbn in Hi, Hj; [lia| | |].
  - injection Hi as <-. apply D1. eapply nth_error_In, Hj.
  - injection Hj as <-. apply or_comm. apply D1. eapply nth_error_In, Hi.
  - apply (IH D2 i j); try assumption. lia.
Qed.
Lemma field_focus z fs h p gs F j x : layout (DStruct z fs) ->
  reps (map (fun x => (snd (fst x), rep (snd x))) fs) h p gs F -> own h p F -> nth_error fs j = Some x ->
  exists g Fj, nth_error gs j = Some g /\ rep (snd x) h (padd p (snd (fst x))) g Fj /\ own h (padd p (snd (fst x))) Fj /\
  forall h' g', post (snd x) h (padd p (snd (fst x))) Fj h' g' ->
    exists F', reps (map (fun x => (snd (fst x), rep (snd x))) fs) h' p (set_nth gs j g') F' /\ own h' p F' /\ only h h' p z F F'.
Proof.
  intros L R Ow Hj. apply layout_struct in L as (Li & Ld & _ & La). rewrite Forall_forall in Li.
  destruct (Li x (nth_error_In _ _ Hj)). apply (part_focus _ _ _ _ _ _ _ _ (mt w64 (snd x))); try assumption.
  - apply nice_mt, (all_layout_in w64 fs); [exact La|eapply nth_error_In, Hj].
  - rewrite nth_error_map, Hj. reflexivity.
  - intros i r Ni Hi. rewrite nth_error_map in Hi. destruct (nth_error fs i) as [y|] eqn:Ey; [|discriminate]. injection Hi as <-. cbn [fst snd].
    exists (dsize (snd y)). split; [apply rep_agree, (all_layout_in w64 fs); [exact La|eapply nth_error_In, Ey]|].
    pose proof (disjoint_nth _ Ld i j (snd (fst y), dsize (snd y)) (snd (fst x), dsize (snd x)) Ni) as Q.
    rewrite !nth_error_map, Ey, Hj in Q. cbn in Q. specialize (Q eq_refl eq_refl). exact Q.
Qed.

Definition mpost (z : Z) (fs : list ((bytes * Z) * dt)) (h : heap) (p : ptr) (F : list nat) (h' : heap) (gs : list gval) : Prop :=
  exists F', reps (map (fun x => (snd (fst x), rep (snd x))) fs) h' p gs F' /\ own h' p F' /\ only h h' p z F F'.

Lemma pick_lt fold nf names key j : pick fold nf names key = Some j -> (j < length names)%nat.
Proof.
  assert (E : forall P l j, first_pos P l = Some j -> (j < length l)%nat).
  { intros P. induction l as [|a l IH]; intros k H; cbn in H; [discriminate|]. destruct (P a); [injection H as <-; cbn; lia|].
    destruct (first_pos P l) as [m|]; [|discriminate]. injection H as <-. specialize (IH m eq_refl). cbn. lia. }
  unfold pick. destruct (first_pos _ names) eqn:Q; [intros [= <-]; eapply E, Q|]. destruct nf; [discriminate|]. apply E.
Qed.

Lemma members_good z fs : layout (DStruct z fs) -> Forall (fun x => good (snd x) (dech (snd x)) (dval (snd x))) fs ->
  forall l h p gs F, Forall (fun x => key_lexed s x /\ lexed s (snd x)) l ->
  reps (map (fun x => (snd (fst x), rep (snd x))) fs) h p gs F -> own h p F ->
  gsim (mpost z fs h p F)
    (members_h C O (map (fun x => fst (fst x)) fs) (map (fun x => (snd (fst x), dech (snd x))) fs) l p h)
    (membersv C O (map (fun x => fst (fst x)) fs) (map (fun x => dval (snd x)) fs) l gs).
Proof.
  intros L Gd. induction l as [|x l IH]; intros h p gs F Lx R Ow.
  - cbn. exists h. split; [reflexivity|]. exists F. split; [exact R|]. split; [exact Ow|apply only_refl].
  - inversion Lx as [|? ? [[_ K] L1] L2]; subst. cbn [members_h membersv].
    assert (Ek : (if o_nounescape O then Ok (snd (fst x)) else unesc (snd (fst x))) = Ok (if o_nounescape O then snd (fst x) else txt (snd (fst x)))).
    { destruct (o_nounescape O); [reflexivity|]. unfold unesc, txt. destruct (Valid_body _ K) as (b & ->). reflexivity. }
    rewrite Ek. cbn [hlift]. destruct (pick _ _ _ _) as [j|] eqn:Pk.
    2: { destruct (o_unknown O); [|apply IH; assumption]. cbn. exists h. split; [reflexivity|]. exists F. split; [exact R|]. split; [exact Ow|apply only_refl]. }
    apply pick_lt in Pk. rewrite map_length in Pk. destruct (nth_error fs j) as [y|] eqn:Ey; [|apply nth_error_None in Ey; lia].
    rewrite !nth_error_map, Ey. cbn [option_map].
    destruct (field_focus z fs h p gs F j y L R Ow Ey) as (g & Fj & Hg & Rj & Oj & Upd). rewrite Hg.
    rewrite Forall_forall in Gd. pose proof (Gd y (nth_error_In _ _ Ey) (snd x) h _ g Fj L1 Rj Oj) as Q.
    destruct (dval (snd y) (snd x) g) as [g'|i e g'|]; cbn [gsim] in Q.
    + destruct Q as (h1 & -> & P). cbn [hbind]. destruct (Upd h1 g' P) as (F1 & R1 & Ow1 & On1).
      eapply gsim_imp; [apply (IH h1 p _ F1 L2 R1 Ow1)|]. intros h2 gs2 (F2 & R2 & Ow2 & On2). exists F2. split; [exact R2|]. split; [exact Ow2|].
      eapply only_trans; eassumption.
    + destruct Q as (h1 & -> & P). cbn [hbind gsim]. exists h1. split; [reflexivity|]. exact (Upd h1 g' P).
    + rewrite Q. reflexivity.
Qed.

Lemma struct_good z fs : layout (DStruct z fs) -> Forall (fun x => good (snd x) (dech (snd x)) (dval (snd x))) fs ->
  good (DStruct z fs) (dech (DStruct z fs)) (dval (DStruct z fs)).
Proof.
  intros Lt Gd v h p g F L R Ow.
  destruct v as [i|i b|i r|i r|i r|i j l|i j l]; cbn [Dec.dech Dval.dval jidx]; try (unfold scalar_h, str_tok; cbn [leaf f_ty mkfr set_rt dt_et bool_tok int_tok num_tok null_tok sres_h hlift serr]; keep).
  apply lexed_obj in L as (_ & _ & _ & L). cbn [Value.rep] in R. destruct R as (gs & -> & R).
  eapply gsim_map.
  - apply (members_good z fs Lt Gd l h p gs F L R Ow).
  - intros h' gs' (F' & R' & Ow' & On'). exists F'. split; [exists gs'; auto|]. split; assumption.
Qed.
End Refine.

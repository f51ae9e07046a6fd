(** C21: slices. *)
From Verif Require Import Base NumSpec StrSpec JsonNum Types AppendType Token FloatLit Heap Machine Dt Dec Control Root Elab Value Dval Sep Refine Refine2 Refine3 Spec Typed SpecProofs Main Parse World Elaborate PropsDecode.
Open Scope Z_scope.

(** The slice header in memory: pointer to the backing array, length, capacity. *)
Definition header (h : heap) (a : addr) (data : ptr) (len cap : Z) : Prop :=
  match cellat h (Some a) 0 with
  | Some CZero => data = None /\ len = 0 /\ cap = 0
  | Some (CSlice b l c) => data = Some b /\ len = l /\ cap = c
  | _ => False
  end.

Lemma store_reads h p n c h' : 0 < n -> store h p n c = Ok h' -> cellat h' p 0 = Some c /\ nxt h' = nxt h.
Proof.
  intros Hn H. unfold store in H. destruct p as [[b o]|]; [|discriminate]. destruct (blk h b) as [|size cells|] eqn:E; try discriminate.
  destruct ((0 <=? o) && (o + n <=? size) && negb (is_poison (cells o))) eqn:B; [|discriminate]. injection H as <-. split; [|reflexivity].
  unfold cellat. cbn. rewrite Nat.eqb_refl. replace ((0 <=? o + 0) && (o + 0 <? size)) with true by lia. f_equal. unfold put_cell. replace (o + 0) with o by lia. rewrite Z.eqb_refl. reflexivity.
Qed.
Lemma fast_elems_nxt C s e : forall l a i h h' er, fast_elems C s e a i l h = Ok (h', er) -> nxt h' = nxt h.
Proof.
  induction l as [|x l IH]; intros a i h h' er H; cbn [fast_elems] in H; [injection H as <- _; reflexivity|].
  destruct (fastv C s e x) as [[[v sz]|e1]| |]; cbn [rbind] in H; try discriminate; [|injection H as <- _; reflexivity].
  destruct (store h (padd (Some a) (i * sz)) sz v) as [h1| |] eqn:E; cbn [rbind] in H; try discriminate. rewrite (IH _ _ _ _ _ H).
  unfold store in E. destruct (padd (Some a) (i * sz)) as [[b o]|]; [|discriminate]. destruct (blk h b); try discriminate. destruct (_ && _); [|discriminate]. injection E as <-. reflexivity.
Qed.

Section Slices.
Variables (C : cfg) (O : opts) (s : bytes).
Let w64 := c_w64 C.
Let W := wb w64.

(** What the header is after a successful decoding of [n > 0] elements. *)
Definition header_after (esz : Z) (h : heap) (data : ptr) (cap n : Z) (h' : heap) (a : addr) : Prop :=
  if cap <? n then exists b, header h' a (Some b) n n /\ (0 < esz -> fst b = nxt h)
  else exists b, data = Some b /\ header h' a (Some b) n cap.
Definition fast (t : dt) : bool := match fast_et t with Some _ => true | None => false end.

Lemma fast_header e l a h h' data len cap : l <> [] -> header h a data len cap ->
  fast_h C s e l (Some a) h = HOk h' ->
  header_after (fast_size C e) h data cap (Z.of_nat (length l)) h' a /\ ((cap <? Z.of_nat (length l)) = false -> nxt h' = nxt h).
Proof.
  intros Nl Hd H. pose proof (wb_pos w64) as Wp. destruct l as [|x l0]; [congruence|]. set (l := x :: l0) in *. unfold fast_h in H. fold l in H.
  assert (Hl : 0 < Z.of_nat (length l)) by (cbn; lia). set (n := Z.of_nat (length l)) in *.
  destruct (load h (Some a) (3 * wb (c_w64 C))) as [cell| |] eqn:El; cbn [rbind hlift] in H; try discriminate.
  assert (Cc : cellat h (Some a) 0 = Some cell).
  { unfold load in El. destruct a as [b o]. unfold cellat. destruct (blk h b) as [|size cells|]; try discriminate. destruct ((0 <=? o) && (o + _ <=? size) && _) eqn:B; try discriminate.
    injection El as <-. replace ((0 <=? o + 0) && (o + 0 <? size)) with true by lia. rewrite Z.add_0_r. reflexivity. }
  unfold header in Hd. rewrite Cc in Hd. unfold header_after.
  destruct cell as [| | | | | |p0 len0 c| | | | | ] eqn:Ecell; try contradiction; destruct Hd as (-> & -> & ->); cbn [as_slice hlift] in H.
  - replace (0 <? n) with true in * by lia. cbn [negb] in H. destruct (malloc h (fast_size C e * n)) as [b h1] eqn:Em. 
    destruct (fast_elems C s e b 0 l h1) as [[h2 [[i e1]|]]| |] eqn:Ee; cbn [hlift] in H; try discriminate.
    destruct (store h2 (Some a) (3 * wb (c_w64 C)) (CSlice b n n)) as [h3| |] eqn:Es; cbn [hlift] in H; try discriminate. injection H as ->.
    apply store_reads in Es as [Es _]; [|unfold w64 in Wp; lia]. split; [|discriminate]. exists b. split; [unfold header; rewrite Es; auto|].
    intros Sz. unfold malloc in Em. destruct (Z.leb_spec (fast_size C e * n) 0); [nia|]. cbn in Em. injection Em as <- _. reflexivity.
  - destruct (Z.ltb_spec c n) as [Hc|Hc]; cbn [negb] in H.
    + destruct (malloc h (fast_size C e * n)) as [b h1] eqn:Em. 
      destruct (fast_elems C s e b 0 l h1) as [[h2 [[i e1]|]]| |] eqn:Ee; cbn [hlift] in H; try discriminate.
      destruct (store h2 (Some a) (3 * wb (c_w64 C)) (CSlice b n n)) as [h3| |] eqn:Es; cbn [hlift] in H; try discriminate. injection H as ->.
      apply store_reads in Es as [Es _]; [|unfold w64 in Wp; lia]. split; [|discriminate]. exists b. split; [unfold header; rewrite Es; auto|].
      intros Sz. unfold malloc in Em. destruct (Z.leb_spec (fast_size C e * n) 0); [nia|]. cbn in Em. injection Em as <- _. reflexivity.
    + destruct (fast_elems C s e p0 0 l h) as [[h2 [[i e1]|]]| |] eqn:Ee; cbn [hlift] in H; try discriminate.
      destruct (store h2 (Some a) (3 * wb (c_w64 C)) (CSlice p0 n c)) as [h3| |] eqn:Es; cbn [hlift] in H; try discriminate. injection H as ->.
      apply store_reads in Es as [Es Nx]; [|unfold w64 in Wp; lia]. apply fast_elems_nxt in Ee. split; [|intros _; congruence]. exists p0. split; [reflexivity|]. unfold header. rewrite Es. auto.
Qed.

Lemma grow_header esz n keep a h data len cap b h1 : 0 < n -> header h a data len cap -> grow_slice C h (Some a) esz n keep = Ok (b, h1) ->
  cellat h1 (Some a) 0 = Some (CSlice b n (if cap <? n then n else cap)) /\
  (if cap <? n then 0 < esz -> fst b = nxt h else data = Some b).
Proof.
  intros Hn Hd H. pose proof (wb_pos w64) as Wp. unfold grow_slice in H.
  destruct (load h (Some a) (3 * wb (c_w64 C))) as [cell| |] eqn:El; cbn [rbind] in H; try discriminate.
  assert (Cc : cellat h (Some a) 0 = Some cell).
  { unfold load in El. destruct a as [b1 o]. unfold cellat. destruct (blk h b1) as [|size cells|]; try discriminate. destruct ((0 <=? o) && (o + _ <=? size) && _) eqn:B; try discriminate.
    injection El as <-. replace ((0 <=? o + 0) && (o + 0 <? size)) with true by lia. rewrite Z.add_0_r. reflexivity. }
  unfold header in Hd. rewrite Cc in Hd.
  assert (Grow : forall data len, (let '(a0, h0) := malloc h (esz * n) in
      let* h0 := (if (0 <? esz) && negb (len =? 0) && keep then copy h0 (Some a0) data (esz * len) else Ok h0) in
      let* h0 := store h0 (Some a) (3 * wb (c_w64 C)) (CSlice a0 n n) in Ok (a0, h0)) = Ok (b, h1) ->
      cellat h1 (Some a) 0 = Some (CSlice b n n) /\ (0 < esz -> fst b = nxt h)).
  { clear H. intros data0 len0 H. destruct (malloc h (esz * n)) as [a0 h0] eqn:Em. destruct (if (0 <? esz) && negb (len0 =? 0) && keep then _ else _) as [h2| |]; cbn [rbind] in H; try discriminate.
    destruct (store h2 (Some a) _ _) as [h3| |] eqn:Es; cbn [rbind] in H; try discriminate. injection H as <- <-. apply store_reads in Es as [Es _]; [|unfold w64 in Wp; lia]. split; [exact Es|].
    intros Sz. unfold malloc in Em. destruct (Z.leb_spec (esz * n) 0); [nia|]. cbn in Em. injection Em as <- _. reflexivity. }
  destruct cell as [| | | | | |p0 len0 c| | | | | ] eqn:Ecell; try contradiction; destruct Hd as (-> & -> & ->); cbn [as_slice rbind] in H.
  - replace (0 <? n) with true in * by lia. apply Grow in H. exact H.
  - destruct (Z.ltb_spec c n) as [Hc|Hc]; [apply Grow in H; exact H|].
    destruct (store h (Some a) _ _) as [h3| |] eqn:Es; cbn [rbind] in H; try discriminate. injection H as <- <-. apply store_reads in Es as [Es _]; [|unfold w64 in Wp; lia]. auto.
Qed.

Lemma general_header t keep l a h g F h' data len cap : layout w64 t -> l <> [] -> Forall (lexed s) l -> header h a data len cap ->
  rep w64 (DSlice t) h (Some a) g F -> own h (Some a) F ->
  slice_h C (dech C O s t) (dsize w64 t) keep l (Some a) h = HOk h' -> header_after (dsize w64 t) h data cap (Z.of_nat (length l)) h' a.
Proof.
  intros L Nl Lx Hd R Ow H. destruct l as [|x l0]; [congruence|]. set (l := x :: l0) in *. unfold slice_h in H. fold l in H.
  assert (Hl : (0 < length l)%nat) by (cbn; lia).
  destruct (grow_spec C (mt w64 t) keep (length l) h (Some a) g F (nice_mt C t L) Hl R Ow) as (b & h1 & F0 & N & E & Hh & HN & Re & Rm & Ow1 & On1).
  cbn [mt m_size] in E. unfold w64 in *. rewrite E in H. cbn [hlift] in H.
  pose proof (backing (lexed s) (mt w64 t) (dech C O s t) (dval C O s t) (nice_mt C t L) (Refine3.dech_good C O s t L) (dech_size0 C O s t L) l N h1 (Some a) b _ [] F0 (3 * W) Lx Re Rm Ow1 HN ltac:(lia)) as Q.
  pose proof (grow_header (dsize w64 t) (Z.of_nat (length l)) keep a h data len cap b h1 ltac:(lia) Hd E) as [G1 G2].
  assert (Cl : forall x, cellat h' (Some a) x = cellat h1 (Some a) x).
  { destruct (elemsv (dval C O s t) l _); cbn [gsim] in Q; [destruct Q as (h2 & E2 & Q)|destruct Q as (h2 & E2 & Q)|].
    - unfold w64 in *. pose proof (eq_trans (eq_sym E2) H) as X. injection X as ->. destruct Q as (F1 & _ & _ & _ & _ & Cl & _). exact Cl.
    - unfold w64 in *. pose proof (eq_trans (eq_sym E2) H) as X. discriminate X.
    - unfold w64 in *. pose proof (eq_trans (eq_sym Q) H) as X. discriminate X. }
  unfold header_after, header. rewrite Cl, G1. destruct (cap <? Z.of_nat (length l)); exists b; auto.
Qed.
End Slices.

(** The old content an element is decoded into: its own if the capacity suffices; else
    that of the old elements if the element type is composite; else zero. *)
Definition prior (t : dt) (g : gval) (n k : nat) : gval :=
  let '(vis, hid) := contents g in
  if (n <=? length vis + length hid)%nat then nth k (vis ++ hid) (zero t)
  else if carried t then nth k vis (zero t) else zero t.
Lemma elemsv_nth f z : forall l gs gs', elemsv f l gs = VOk gs' ->
  length gs' = length gs /\ (length l <= length gs)%nat /\
  forall k x, nth_error l k = Some x -> exists g', nth_error gs' k = Some g' /\ f x (nth k gs z) = VOk g'.
Proof.
  induction l as [|x l IH]; intros gs gs' H; [injection H as <-; split; [reflexivity|split; [cbn; lia|intros [|k]; discriminate]]|]. destruct gs as [|g gs]; [discriminate|]. cbn [elemsv] in H.
  destruct (f x g) as [g1| |] eqn:Ex; try discriminate. destruct (elemsv f l gs) as [gs1| |] eqn:El; try discriminate. injection H as <-.
  destruct (IH _ _ El) as (L1 & L2 & L3). cbn [length]. split; [congruence|]. split; [lia|]. intros [|k] y Hy; [injection Hy as <-; exists g1; auto|]. apply L3, Hy.
Qed.
Lemma nth_split_firstn {A} (l : list A) n k x : nth_error l k = Some x -> (k < n)%nat -> nth_error (firstn n l) k = Some x.
Proof. revert l k; induction n as [|n IH]; intros [|y l] [|k] H Hk; cbn in *; try discriminate; try lia; [exact H|]. apply IH; [exact H|lia]. Qed.

(** Anywhere in a document: the new slice has as many elements as the array, each the
    decoding of the array's; the capacity is kept if it suffices. *)
Definition slice_post (C : cfg) (O : opts) (s : bytes) (t : dt) (l : list jv) (g : gval) (vis' hid' : list gval) : Prop :=
  length vis' = length l /\
  (length vis' + length hid' = if (length l =? 0)%nat then 0 else Nat.max (length l) (length (fst (contents g)) + length (snd (contents g))))%nat /\
  forall k x, nth_error l k = Some x -> exists g', nth_error vis' k = Some g' /\ ideal C O s t x (prior t g (length l) k) = VOk g'.
Theorem C21_slice_anywhere C O s t i j l g g' : t <> DEmpty ->
  ideal C O s (DSlice t) (JArr i j l) g = VOk g' ->
  exists vis' hid', g' = VSlice (Some (vis', hid')) /\ slice_post C O s t l g vis' hid'.
Proof.
  intros Nt H. assert (H' : slicev (ideal C O s t) (zero t) (fast t) (carried t) l g = VOk g').
  { cbn [ideal] in H. unfold fast. destruct (fast_et t) as [e|]; cbn [negb andb]; destruct t; try congruence; exact H. }
  clear H. unfold slicev in H'. unfold slice_post, prior. destruct l as [|x0 l0]; [injection H' as <-; exists [], []; split; [reflexivity|split; [reflexivity|split; [reflexivity|intros [|k]; discriminate]]]|].
  set (l := x0 :: l0) in *. assert (Hl : (0 < length l)%nat) by (cbn; lia). assert (Ell : length l = S (length l0)) by reflexivity. destruct (contents g) as [vis hid]. cbn [fst snd]. replace (length l =? 0)%nat with false by (symmetry; apply Nat.eqb_neq; lia).
  destruct (Nat.leb_spec (length l) (length vis + length hid)) as [Hle|Hgt].
  - destruct (elemsv _ l _) as [all| |] eqn:E; try discriminate. injection H' as <-. destruct (elemsv_nth _ (zero t) _ _ _ E) as (L1 & L2 & L3). rewrite app_length in L1.
    eexists _, _. split; [reflexivity|]. rewrite firstn_length, skipn_length. split; [lia|]. split; [lia|]. intros k x Hx. destruct (L3 k x Hx) as (g1 & H1 & H2). exists g1. split; [|exact H2].
    apply nth_split_firstn; [exact H1|]. rewrite <- Ell. apply nth_error_Some. congruence.
  - destruct (elemsv _ l _) as [all| |] eqn:E; try discriminate. injection H' as <-. destruct (elemsv_nth _ (zero t) _ _ _ E) as (L1 & L2 & L3).
    assert (L4 : length all = length l).
    { rewrite L1. destruct (carried t); [rewrite app_length|]; rewrite repeat_length; lia. }
    eexists _, _. split; [reflexivity|]. rewrite firstn_length, skipn_length. split; [lia|]. split; [lia|]. intros k x Hx. destruct (L3 k x Hx) as (g1 & H1 & H2). exists g1. split.
    + apply nth_split_firstn; [exact H1|]. rewrite <- Ell. apply nth_error_Some. congruence.
    + destruct (carried t).
      * destruct (Nat.lt_ge_cases k (length vis)); [rewrite app_nth1 in H2 by lia; exact H2|]. rewrite app_nth2, nth_repeat in H2 by lia. rewrite nth_overflow by lia. exact H2.
      * rewrite nth_repeat in H2. exact H2.
Qed.

(** At the root, with the slice header: the backing array is the old one if its capacity
    suffices and otherwise new; for the specialised slices ([]bool, []string, []int, ..)
    nothing is allocated in the first case. *)
Theorem C21_slice_partial C O E dis T t stk D s i j l a h g F data len cap D' h' :
  decoder_for C E dis T (DSlice t) stk D -> json_text s (JArr i j l) -> ctl_root C O (DSlice t) (JArr i j l) -> sound C O (DSlice t) (JArr i j l) ->
  variable C (DSlice t) h a g F -> header h a data len cap -> t <> DEmpty ->
  Decode C O stk D s (TOk (flat 0 (JArr i j l))) (Some a) h = Ret (-1) None D' h' ->
  (exists vis' hid' F', variable C (DSlice t) h' a (VSlice (Some (vis', hid'))) F' /\ slice_post C O s t l g vis' hid') /\
  match l with
  | [] => exists b, header h' a (Some b) 0 0
  | _ => header_after (dsize (c_w64 C) t) h data cap (Z.of_nat (length l)) h' a /\
         (fast t = true -> Z.of_nat (length l) <= cap -> nxt h' = nxt h)
  end.
Proof.
  intros Df J Ct S V Hd Nt Ed.
  pose proof (C15_decode_is_ideal_partial C O E dis T (DSlice t) stk D s _ a h g F Df J Ct S V) as Q.
  pose proof (decoder_describes _ _ _ _ _ _ _ Df) as Ds. pose proof (used_rested _ _ _ _ Ds (df_used _ _ _ _ _ _ _ Df)) as Rd.
  pose proof (json_text_lexed _ _ J) as L. pose proof (decode_dech C O stk s _ (DSlice t) D a h Ds Rd L Ct) as Q'.
  pose proof (df_layout _ _ _ _ _ _ _ Df) as Ly. cbn [layout] in Ly. split.
  - destruct (ideal C O s (DSlice t) (JArr i j l) g) as [g'|n e g'|] eqn:Ei; [| |contradiction]; destruct Q as (D1 & h1 & F1 & Q & V1 & _); pose proof (eq_trans (eq_sym Ed) Q) as X; [|destruct n; discriminate X].
    injection X as <- <-. destruct (C21_slice_anywhere C O s t i j l g g' Nt Ei) as (vis' & hid' & -> & P). eauto.
  - assert (Ed' : dech C O s (DSlice t) (JArr i j l) (Some a) h = HOk h').
    { destruct (dech C O s (DSlice t) (JArr i j l) (Some a) h) as [h2|i2 e2 h2| |].
      - destruct Q' as (D2 & Q' & _). pose proof (eq_trans (eq_sym Ed) Q') as X. injection X as _ ->. reflexivity.
      - destruct Q' as (D2 & Q' & _). pose proof (eq_trans (eq_sym Ed) Q') as X. discriminate X.
      - pose proof (eq_trans (eq_sym Ed) Q') as X. discriminate X.
      - pose proof (eq_trans (eq_sym Ed) Q') as X. discriminate X. }
    pose proof (wb_pos (c_w64 C)) as Wp.
    destruct V as [R Ow]. unfold fast. cbn [dech] in Ed'. destruct (fast_et t) as [e|] eqn:Fe.
    + assert (Fs : fast_h C s e l (Some a) h = HOk h' /\ fast_size C e = dsize (c_w64 C) t).
      { destruct t as [x| | | | | | | | | |]; try discriminate Fe; [|congruence]. split; [|apply Refine3.sc_size_fast, Fe].
        destruct x as [| | |k|b| | | |k|b]; cbn in Fe; try discriminate; injection Fe as <-; try exact Ed'; destruct k as [[] []]; exact Ed'. }
      destruct Fs as [Fs Sz]. destruct l as [|x l].
      * cbn [fast_h] in Fs. destruct (store h (Some a) _ _) as [h2| |] eqn:Es; cbn [hlift] in Fs; try discriminate. injection Fs as ->. apply store_reads in Es as [Es _]; [|lia].
        exists (0%nat, 0). unfold header. rewrite Es. auto.
      * destruct (fast_header C s e (x :: l) a h h' data len cap ltac:(discriminate) Hd Fs) as [H1 H2]. rewrite Sz in H1. split; [exact H1|]. intros _ Hc. apply H2. lia.
    + destruct l as [|x l].
      * cbn [slice_h] in Ed'. destruct (store h (Some a) _ _) as [h2| |] eqn:Es; cbn [hlift] in Ed'; try discriminate. injection Ed' as ->. apply store_reads in Es as [Es _]; [|lia].
        exists (0%nat, 0). unfold header. rewrite Es. auto.
      * split; [|discriminate]. eapply (general_header C O s t _ (x :: l)); try eassumption; [discriminate|].
        apply lexed_arr in L as (_ & _ & _ & L). exact L.
Qed.
(** Case: a []string decoded twice; the second call reuses the array of the first. *)
Definition strs_stk : list frame := Eval vm_compute in stack_of plain_env (TSlice TStr).
Lemma strs_decoder : decoder_for wC plain_env false (TSlice TStr) (DSlice (DSc SStr)) strs_stk (dyn0 strs_stk).
Proof. eapply new_decoder; [apply plain_env_sizes|vm_compute; reflexivity|vm_compute; reflexivity|vm_compute; reflexivity]. Qed.
Definition strs1 : bytes := bs "[""a"",""b\u0021"",""c""]".
Definition strs2 : bytes := bs " [null]".
Example C21_case : exists D1 h1 D2 h2 b,
  Decode wC default_opts strs_stk (dyn0 strs_stk) strs1 (TOk (flat 0 (tree_of strs1))) dest (world 24) = Ret (-1) None D1 h1 /\
  header h1 (1%nat, 0) (Some b) 3 3 /\ fst b = nxt (world 24) /\
  Decode wC default_opts strs_stk D1 strs2 (TOk (flat 0 (tree_of strs2))) dest h1 = Ret (-1) None D2 h2 /\
  header h2 (1%nat, 0) (Some b) 1 3 /\ nxt h2 = nxt h1 /\
  exists F, variable wC (DSlice (DSc SStr)) h2 (1%nat, 0) (VSlice (Some ([VStr []], [VStr (bs "b!"); VStr (bs "c")]))) F.
Proof.
  assert (J1 : json_text strs1 (tree_of strs1)) by (apply parse_sound; vm_compute; reflexivity).
  assert (J2 : json_text strs2 (tree_of strs2)) by (apply parse_sound; vm_compute; reflexivity).
  assert (Ct1 : ctl_root wC default_opts (DSlice (DSc SStr)) (tree_of strs1)) by (apply ctl_rootb_spec; vm_compute; reflexivity).
  assert (Ct2 : ctl_root wC default_opts (DSlice (DSc SStr)) (tree_of strs2)) by (apply ctl_rootb_spec; vm_compute; reflexivity).
  assert (S1 : sound wC default_opts (DSlice (DSc SStr)) (tree_of strs1)) by (apply soundb_spec; vm_compute; reflexivity).
  assert (S2 : sound wC default_opts (DSlice (DSc SStr)) (tree_of strs2)) by (apply soundb_spec; vm_compute; reflexivity).
  pose proof (world_rep (DSlice (DSc SStr)) (df_layout _ _ _ _ _ _ _ strs_decoder)) as V1.
  pose proof (C15_decode_is_ideal_partial _ _ _ _ _ _ _ _ _ _ (1%nat, 0) _ _ [] strs_decoder J1 Ct1 S1 V1) as Q.
  match type of Q with match ?X with _ => _ end => let y := eval vm_compute in X in replace X with y in Q by (vm_compute; reflexivity) end.
  destruct Q as (D1 & h1 & F1 & Q1 & V2 & _).
  assert (Df2 : decoder_for wC plain_env false (TSlice TStr) (DSlice (DSc SStr)) strs_stk D1).
  { destruct strs_decoder as [A1 A2 A3 A4 A5]. constructor; try assumption. eapply u_call; [exact A5|exact Q1]. }
  pose proof (C15_decode_is_ideal_partial _ _ _ _ _ _ _ _ _ _ (1%nat, 0) _ _ F1 Df2 J2 Ct2 S2 V2) as Q.
  match type of Q with match ?X with _ => _ end => let y := eval vm_compute in X in replace X with y in Q by (vm_compute; reflexivity) end.
  destruct Q as (D2 & h2 & F2 & Q2 & V3 & _).
  assert (Hd0 : header (world 24) (1%nat, 0) None 0 0) by (vm_compute; auto).
  revert J1 Ct1 S1 Q1 J2 Ct2 S2 Q2.
  match goal with |- json_text _ ?X -> _ => let y := eval vm_compute in X in change X with y end. intros J1 Ct1 S1 Q1.
  match goal with |- json_text _ ?X -> _ => let y := eval vm_compute in X in change X with y end. intros J2 Ct2 S2 Q2.
  pose proof (C21_slice_partial _ _ _ _ _ _ _ _ _ _ _ _ _ _ _ _ None 0 0 _ _ strs_decoder J1 Ct1 S1 V1 Hd0 ltac:(discriminate) Q1) as [_ [P1 _]].
  unfold header_after in P1. cbn [length Z.of_nat Z.ltb Z.compare] in P1. destruct P1 as (b & H1 & Fr). 
  pose proof (C21_slice_partial _ _ _ _ _ _ _ _ _ _ _ _ _ _ _ _ (Some b) 3 3 _ _ Df2 J2 Ct2 S2 V2 H1 ltac:(discriminate) Q2) as [_ [P2 Nx]].
  unfold header_after in P2. cbn [length Z.of_nat Z.ltb Z.compare] in P2. destruct P2 as (b2 & Eb & H2). injection Eb as <-.
  exists D1, h1, D2, h2, b. split; [exact Q1|]. split; [exact H1|]. split; [apply Fr; reflexivity|]. split; [exact Q2|]. split; [exact H2|]. split; [apply Nx; [reflexivity|cbn; lia]|].
  exists F2. exact V3.
Qed.

(** Encodings of values of recursive struct types.

    The definitions are specification (compare Encodes.v): [encodes_rec x v] says that the
    document [v] is an encoding of the tree [x] of the struct type with fields [fs]
    (RecSpec.v).  The proofs: the ideal decoder inverts them, and Decode computes the ideal
    on them. *)
From Coq Require Import Permutation.
From Verif Require Import Base NumSpec StrSpec Unescape Types Token FloatLit Heap Machine Dt Dec Control Root Rec Value Dval Sep Refine Spec Typed SpecProofs PropsStruct RecSpec Encodes RoundTrip Render Writable.
Open Scope Z_scope.

Section Trip.
Variables (C : cfg) (O : opts) (s : bytes) (fs : rfields).
Notation fresh := (VStruct (rzeros fs)).

(** A value of a field, [R] being the relation for the struct itself. *)
Definition encodes_kind (R : gval -> jv -> Prop) (k : rk) (g : gval) (v : jv) : Prop :=
  match k with
  | RSelf =>
      match g with
      | VPtr None => is_null v = true
      | VPtr (Some g) => is_null v = false /\ R g v
      | _ => False
      end
  | RSlice =>
      match g, v with
      | VSlice None, JNull _ => True
      | VSlice (Some (gs, _)), JArr _ _ l => Forall2 R gs l
      | _, _ => False
      end
  | RMap kt =>
      match g, v with
      | VMap None, JNull _ => True
      | VMap (Some m), JObj _ _ l => NoDup (map fst m) /\
          exists m1, Permutation m m1 /\ Forall2 (fun a x => encodes_key C kt (fst a) (snd (fst x)) /\ R (snd a) (snd x)) m1 l
      | _, _ => False
      end
  | RSub d => encodes C O s d g v
  end.
(** The struct: every field once, in any order. *)
Definition encodes_struct (R : gval -> jv -> Prop) (g : gval) (v : jv) : Prop :=
  match g, v with
  | VStruct gs, JObj _ _ l => NoDup (rnames fs) /\
      exists l1, Permutation l l1 /\ encodes_fields O (map (fun x => (fst (fst x), encodes_kind R (snd x))) fs) gs l1
  | _, _ => False
  end.
Fixpoint encodes_n (n : nat) : gval -> jv -> Prop :=
  match n with 0%nat => fun _ _ => False | S n => encodes_struct (encodes_n n) end.
(** Trees are finite. *)
Definition encodes_rec (g : gval) (v : jv) : Prop := exists n, encodes_n n g v.

(** ** The bound does not matter *)
Lemma encodes_obj n g v : encodes_n n g v -> exists i j l, v = JObj i j l.
Proof. destruct n; cbn; [contradiction|]. unfold encodes_struct. destruct g; try contradiction. destruct v; try contradiction. eauto. Qed.
Lemma Forall2_impl {A B} (R R' : A -> B -> Prop) l l' : (forall a b, In b l' -> R a b -> R' a b) -> Forall2 R l l' -> Forall2 R' l l'.
Proof. intros H F. induction F; constructor; [apply H; [left; reflexivity|assumption]|apply IHF; intros; apply H; [right; assumption|assumption]]. Qed.
Lemma kind_mono (R R' : gval -> jv -> Prop) n k g v : (forall x w, (height w <= n)%nat -> R x w -> R' x w) -> (height v <= n)%nat ->
  encodes_kind R k g v -> encodes_kind R' k g v.
Proof.
  intros H Hv. destruct k as [| |kt|d]; cbn [encodes_kind]; [| | |auto].
  - destruct g as [| | | | | | | | | | |[g|]]; try tauto. intros [A B]. split; [exact A|apply H; assumption].
  - destruct g as [| | | | | | | |[[vis hid]|]| | |]; destruct v; try tauto. apply Forall2_impl. intros a b Hb. pose proof (height_arr i j l b Hb). apply H. lia.
  - destruct g as [| | | | | | | | |[m|]| |]; destruct v; try tauto. intros (N & m1 & P & F). split; [exact N|]. exists m1. split; [exact P|].
    eapply Forall2_impl; [|exact F]. cbn beta. intros a b Hb [A B]. split; [exact A|]. pose proof (height_obj i j l b Hb). apply H; [lia|exact B].
Qed.
Lemma fields_mono (rs : rfields) (R R' : rk -> gval -> jv -> Prop) : forall gs l, (forall k x y, In y l -> R k x (snd y) -> R' k x (snd y)) ->
  encodes_fields O (map (fun x => (fst (fst x), R (snd x))) rs) gs l -> encodes_fields O (map (fun x => (fst (fst x), R' (snd x))) rs) gs l.
Proof.
  induction rs as [|x rs IH]; intros [|g gs] [|y l] H F; cbn in *; try contradiction; [exact I|]. destruct F as [[F1 F2] F3].
  split; [split; [exact F1|apply H; [left; reflexivity|exact F2]]|]. apply IH; [intros; apply H; [right; assumption|assumption]|exact F3].
Qed.
Lemma encodes_enough n : forall m g v, encodes_n n g v -> (height v <= m)%nat -> encodes_n m g v.
Proof.
  induction n as [|n IH]; intros m g v E Hm; [destruct E|]. destruct m as [|m]; [destruct v; cbn in Hm; lia|]. cbn [encodes_n] in *.
  unfold encodes_struct in *. destruct g; try contradiction. destruct v; try contradiction. destruct E as (N & l1 & P & F). split; [exact N|]. exists l1. split; [exact P|].
  eapply (fields_mono fs); [|exact F]. cbn beta. intros k x y Hy. apply (Permutation_in _ (Permutation_sym P)) in Hy. pose proof (height_obj i j l0 y Hy).
  eapply kind_mono; [|apply (Nat.le_refl _)]. intros a w Hw Ha. apply IH; [exact Ha|lia].
Qed.
Lemma encodes_height g v : encodes_rec g v -> encodes_n (height v) g v.
Proof. intros (n & E). eapply encodes_enough; [exact E|lia]. Qed.

(** ** The members of an encoding *)
Definition rmember (R : gval -> jv -> Prop) (gs : list gval) (y : (nat * bytes) * jv) (j : nat) : Prop :=
  exists x g, nth_error fs j = Some x /\ nth_error gs j = Some g /\ encodes_name O (fst (fst x)) (snd (fst y)) /\ encodes_kind R (snd x) g (snd y).
Lemma rec_members R gs i j l : encodes_struct R (VStruct gs) (JObj i j l) ->
  NoDup (rnames fs) /\ length gs = length fs /\ exists js, Permutation (seq 0 (length fs)) js /\ Forall2 (rmember R gs) l js.
Proof.
  cbn [encodes_struct]. intros (N & l1 & P & F). split; [exact N|]. set (rs := map _ fs) in F.
  destruct (fields_for O rs gs l1 [] [] eq_refl F) as [F2 Lx]. cbn [app length] in F2.
  assert (Lrs : length rs = length fs) by (subst rs; apply map_length). rewrite Lrs in F2. split; [congruence|].
  destruct (Permutation_Forall2 (Permutation_sym P) F2) as (js & Pj & Fj). exists js. split; [exact Pj|].
  clear - Fj. subst rs. induction Fj as [|y q l js (nm & Q & g & Hr & Hx & Hn & HR) Fj IHF]; constructor; [|exact IHF].
  rewrite nth_error_map in Hr. destruct (nth_error fs q) as [x|] eqn:Ef; [|discriminate]. cbn in Hr. injection Hr as <- <-. exists x, g. auto.
Qed.
Lemma rname_selects j x r : NoDup (rnames fs) -> nth_error fs j = Some x -> encodes_name O (fst (fst x)) r -> rfield_for C O fs r = Some j.
Proof.
  intros N H Hn. unfold rfield_for. eapply name_selects; [rewrite shape_names; exact N| |exact Hn]. rewrite shape_names. unfold rnames. rewrite nth_error_map, H. reflexivity.
Qed.

(** ** The ideal decoder inverts encodings *)
Section Step.
Variables (R : gval -> jv -> Prop) (f : vdec).
Hypothesis Robj : forall x v, R x v -> exists i j l, v = JObj i j l.
Hypothesis Rf : forall x v, R x v -> exists g', f v fresh = VOk g' /\ same_value x g'.
Lemma relems_round : forall xs l, Forall2 R xs l -> exists gs', elemsv f l (repeat fresh (length l)) = VOk gs' /\ Forall2 same_value xs gs'.
Proof.
  induction 1 as [|x v xs l Hx H (gs' & E2 & S2)]; [exists []; split; [reflexivity|constructor]|].
  destruct (Rf _ _ Hx) as (g' & E' & S'). exists (g' :: gs'). cbn [length repeat elemsv]. rewrite E', E2. split; [reflexivity|constructor; assumption].
Qed.
Lemma rslice_round xs l : Forall2 R xs l -> exists gs' hid', slicev f fresh false true l (VSlice None) = VOk (VSlice (Some (gs', hid'))) /\ Forall2 same_value xs gs'.
Proof.
  intros H. unfold slicev. destruct l as [|v0 l0] eqn:El; [inversion H; subst; exists [], []; split; [reflexivity|constructor]|]. rewrite <- El in *.
  assert (L : (length l <=? length (@nil gval) + length (@nil gval))%nat = false) by (rewrite El; reflexivity). clear El v0 l0. cbn [contents]. rewrite L. clear L.
  destruct (relems_round xs l H) as (gs' & E & S). cbn [app length]. rewrite Nat.sub_0_r. rewrite E.
  assert (Ln : length gs' = length l) by (apply Forall2_length in H; apply Forall2_length in S; congruence).
  exists gs', []. unfold split_at. rewrite <- Ln, firstn_all, skipn_all. split; [reflexivity|exact S].
Qed.
Lemma rentries_round k : forall m l, Forall2 (fun a x => encodes_key C k (fst a) (snd (fst x)) /\ R (snd a) (snd x)) m l ->
  NoDup (map fst m) -> forall acc, (forall y, In y (map fst acc) -> ~ In y (map fst m)) ->
  exists m', ideal_entries C k f true fresh l acc = VOk (acc ++ m') /\
    Forall2 (fun a b => fst a = fst b /\ same_value (snd a) (snd b)) m m'.
Proof.
  induction 1 as [|[key x] [[i r] v] m l [Hk Hx] H IHl]; intros N acc D.
  - exists []. rewrite app_nil_r. split; [reflexivity|constructor].
  - cbn [map fst snd] in *. apply NoDup_cons_iff in N as [Nk N].
    assert (Na : ~ In key (map fst acc)) by (intros Hin; apply (D key Hin); left; reflexivity).
    destruct (Rf _ _ Hx) as (g' & E' & S').
    destruct (IHl N (acc ++ [(key, g')])) as (m' & E2 & S2).
    { intros y. rewrite map_app, in_app_iff. cbn. intros [Hy|[<-|[]]]; [|exact Nk]. intros Hy'. apply (D y Hy). right. exact Hy'. }
    exists ((key, g') :: m'). cbn [ideal_entries]. rewrite (key_round _ _ _ _ Hk), (getk_none _ _ Na), E', (putk_new _ _ _ Na), E2, <- app_assoc.
    split; [reflexivity|]. constructor; [cbn; auto|exact S2].
Qed.
Lemma rkind_round k x v : encodes_kind R k x v -> exists g', ideal_field C O s fs f k v (rzero k) = VOk g' /\ same_value x g'.
Proof.
  destruct k as [| |kt|d]; cbn [encodes_kind ideal_field rzero].
  - destruct x as [| | | | | | | | | | |[x|]]; try contradiction.
    + intros [_ H]. destruct (Robj _ _ H) as (i & j & l & ->). destruct (Rf _ _ H) as (g' & E & S). rewrite E. eexists; split; [reflexivity|constructor; exact S].
    + intros H. destruct v; try discriminate. eexists; split; [reflexivity|constructor].
  - destruct x as [| | | | | | | |[[vis hid]|]| | |]; destruct v; try contradiction.
    + intros H. destruct (rslice_round vis l H) as (gs' & hid' & E & S). rewrite E. eexists; split; [reflexivity|constructor; exact S].
    + intros _. eexists; split; [reflexivity|constructor].
  - destruct x as [| | | | | | | | |[m|]| |]; destruct v; try contradiction.
    + intros (N & m1 & P & F). destruct (rentries_round kt m1 l F) with (acc := @nil (gkey * gval)) as (m' & Ee & S).
      * eapply Permutation_NoDup; [apply Permutation_map, P|exact N].
      * intros y [].
      * rewrite Ee. eexists; split; [reflexivity|]. econstructor; [exact P|exact S].
    + intros _. eexists; split; [reflexivity|constructor].
  - intros H. apply ideal_encodes; [exact H|apply zero_typed|apply zero_empty].
Qed.
Lemma rstruct_round x v : encodes_struct R x v -> exists g', ideal_struct C O s fs f v fresh = VOk g' /\ same_value x g'.
Proof.
  intros E. destruct x as [| | | | | | |xs| | | |]; try contradiction. destruct v; try contradiction.
  apply rec_members in E as (N & Lx & js & Pj & Fj). cbn [ideal_struct]. unfold ideal_fields.
  assert (Lz : length (rzeros fs) = length fs) by apply map_length.
  destruct (members_round O (rfield_for C O fs) (map (fun x => ideal_field C O s fs f (snd x)) fs) xs l js) with (gs := rzeros fs) as (gs' & Em' & Lg' & H1 & H2).
  - eapply Permutation_NoDup; [exact Pj|apply seq_NoDup].
  - congruence.
  - clear - Fj N Robj Rf. induction Fj as [|y j l js (x & g & Hf & Hg & Hn & HR) Fj IHF]; constructor; [|exact IHF].
    split; [eapply rname_selects; eassumption|]. destruct (rkind_round _ _ _ HR) as (g' & E' & S').
    exists (ideal_field C O s fs f (snd x)), (rzero (snd x)), g', g. unfold rzeros. rewrite !nth_error_map, Hf. cbn. auto.
  - rewrite Em'. eexists; split; [reflexivity|]. constructor. apply Forall2_nth; [congruence|]. intros q Hq. destruct (H1 q) as (g' & y & A1 & A2 & A3).
    { eapply Permutation_in; [exact Pj|]. apply in_seq. lia. }
    exists y, g'. auto.
Qed.
End Step.
Theorem ideal_rec_encodes x v : encodes_rec x v -> exists g', ideal_rec C O s fs v fresh = VOk g' /\ same_value x g'.
Proof.
  intros E. apply encodes_height in E. unfold ideal_rec. revert x E. generalize (height v) as n. intros n. revert v.
  induction n as [|n IH]; intros v x E; [destruct E|]. cbn [ideal_n encodes_n] in *. eapply rstruct_round; [apply encodes_obj|intros a b; apply IH|exact E].
Qed.

(** ** Decode computes the ideal on encodings *)
Lemma kind_sound (R : gval -> jv -> Prop) (P : jv -> Prop) k x v : (forall x v, R x v -> P v) -> encodes_kind R k x v -> fsound C O P k v.
Proof.
  intros HR. destruct k as [| |kt|d]; cbn [encodes_kind fsound].
  - destruct x as [| | | | | | | | | | |[x|]]; try contradiction; destruct v; try tauto; [|discriminate]. intros [_ H]. eapply HR, H.
  - destruct x as [| | | | | | | |[[vis hid]|]| | |]; destruct v; try tauto. apply Forall2_right. exact HR.
  - destruct x as [| | | | | | | | |[m|]| |]; destruct v; try tauto. intros (_ & m1 & _ & F). eapply Forall2_right; [|exact F]. intros a b [A B]. split; [eapply key_sound, A|eapply HR, B].
  - apply encodes_sound.
Qed.
Theorem encodes_rsound x v : encodes_rec x v -> rsound C O fs v.
Proof.
  intros E. apply encodes_height in E. unfold rsound. revert x E. generalize (height v) as n. intros n. revert v.
  induction n as [|n IH]; intros v x E; [destruct E|]. cbn [rsoundn encodes_n] in *.
  destruct x as [| | | | | | |xs| | | |]; try contradiction. destruct v; try contradiction. apply rec_members in E as (N & Lx & js & Pj & Fj). cbn [ssound].
  clear Pj. induction Fj as [|y q l js (x & g & Hf & Hg & Hn & HR) Fj IHF]; constructor; [|exact IHF].
  split; [right; destruct Hn as [Hn _]; eapply is_string_plain, Hn|]. rewrite (rname_selects q x _ N Hf Hn), Hf. eapply kind_sound; [|exact HR]. intros a b H. eapply IH, H.
Qed.

(** A struct whose recursion is through pointers only, and whose other fields have types
    without pointers and struct{}. *)
Definition pointer_tree : bool := forallb (fun x => match snd x with RSelf => true | RSub d => no_inner_ptr d | _ => false end) fs.
Theorem encodes_rctl x v : pointer_tree = true -> encodes_rec x v -> rctl C O fs v.
Proof.
  intros Pt E. apply encodes_height in E. unfold rctl. revert x E. generalize (height v) as n. intros n. revert v.
  induction n as [|n IH]; intros v x E; [destruct E|]. cbn [rctln encodes_n] in *.
  destruct x as [| | | | | | |xs| | | |]; try contradiction. destruct v; try contradiction. apply rec_members in E as (N & Lx & js & Pj & Fj).
  clear Pj. induction Fj as [|y q l js (x & g & Hf & Hg & Hn & HR) Fj IHF]; [exact I|]. cbn [mctl].
  pose proof (rname_selects q x _ N Hf Hn) as Sel. unfold rfield_for in Sel. destruct Hn as [Hs Hr].
  rewrite (field_for_pick C O (shape fs) _ (or_intror (is_string_plain _ _ Hs)) (is_string_body _ _ Hs)), shape_names in Sel.
  replace (key_of O (snd (fst y))) with (if o_nounescape O then snd (fst y) else txt (snd (fst y))).
  2:{ unfold key_of, txt, unesc. destruct (o_nounescape O); [reflexivity|]. destruct (Valid _); reflexivity. }
  rewrite Sel, Hf. split; [reflexivity|]. unfold pointer_tree in Pt. rewrite forallb_forall in Pt. specialize (Pt x (nth_error_In _ _ Hf)).
  split; [|destruct (restores _ _); exact IHF].
  destruct (snd x) as [| |kt|d]; try discriminate; cbn [encodes_kind fctl] in *.
  - destruct g as [| | | | | | | | | | |[g|]]; try contradiction; destruct (snd y); try exact I; try discriminate. destruct HR as [_ HR]. eapply IH, HR.
  - apply ctl_on. eapply encodes_ctl; [exact Pt|exact HR].
Qed.
End Trip.

(** ** Every tree can be written *)
Section Write.
Variables (C : cfg) (O : opts) (fs : rfields).
Definition writable_kind (P : gval -> Prop) (k : rk) (g : gval) : Prop :=
  match k with
  | RSelf => match g with VPtr None => True | VPtr (Some g) => P g | _ => False end
  | RSlice => match g with VSlice None => True | VSlice (Some (gs, _)) => Forall P gs | _ => False end
  | RMap kt =>
      match g with
      | VMap None => True
      | VMap (Some m) => NoDup (map fst m) /\ Forall (fun x => writable_key C kt (fst x) /\ P (snd x)) m
      | _ => False
      end
  | RSub d => writable C d g
  end.
Fixpoint writable_rfields (P : gval -> Prop) (rs : rfields) (gs : list gval) : Prop :=
  match rs, gs with
  | [], [] => True
  | x :: rs, g :: gs => (plain (fst (fst x)) /\ writable_kind P (snd x) g) /\ writable_rfields P rs gs
  | _, _ => False
  end.
Fixpoint writable_n (n : nat) (g : gval) : Prop :=
  match n with
  | 0%nat => False
  | S n => exists gs, g = VStruct gs /\ NoDup (rnames fs) /\ writable_rfields (writable_n n) fs gs
  end.
Definition writable_rec (g : gval) : Prop := exists n, writable_n n g.

Definition rprints (R : bytes -> gval -> jv -> Prop) (g : gval) : Prop := exists v, wf v /\ is_null v = false /\ forall s k, R s g (place k v).
Section Step.
Variables (P : gval -> Prop) (R : bytes -> gval -> jv -> Prop).
Hypothesis PR : forall g, P g -> rprints R g.
Lemma print_kind k g : writable_kind P k g -> exists v, wf v /\ forall s q, encodes_kind C O s (R s) k g (place q v).
Proof.
  destruct k as [| |kt|d]; cbn [writable_kind encodes_kind].
  - destruct g as [| | | | | | | | | | |[g|]]; try contradiction.
    + intros H. destruct (PR _ H) as (v & W & Nn & E). exists v. split; [exact W|]. intros s q. rewrite is_null_place. split; [exact Nn|apply E].
    + intros _. exists (JNull 0). split; [exact I|]. reflexivity.
  - destruct g as [| | | | | | | |[[vis hid]|]| | |]; try contradiction.
    + intros H. assert (G : exists vs, Forall wf vs /\ forall s q, Forall2 (R s) vis (places q vs)).
      { induction H as [|g gs Hg H (vs & Ws & Es)]; [exists []; split; [constructor|intros s q; constructor]|]. destruct (PR _ Hg) as (v & W & _ & E).
        exists (v :: vs). split; [constructor; assumption|]. intros s q. cbn [places]. constructor; [apply E|apply Es]. }
      destruct G as (vs & W & E). exists (JArr 0 0 vs). split; [apply wf_arr, W|]. intros s q. rewrite place_arr. apply E.
    + intros _. exists (JNull 0). split; [exact I|]. intros s q. exact I.
  - destruct g as [| | | | | | | | |[m|]| |]; try contradiction.
    + intros [N H]. assert (G : exists vs, Forall (fun x => string_body (snd (fst x)) /\ wf (snd x)) vs /\
         forall s q, Forall2 (fun a x => encodes_key C kt (fst a) (snd (fst x)) /\ R s (snd a) (snd x)) m (placem q vs)).
      { clear N. induction H as [|[ky a] m [Hk Ha] H (vs & Ws & Es)]; [exists []; split; [constructor|intros s q; constructor]|].
        destruct (PR a Ha) as (v & W & _ & E). destruct (print_key C O kt ky Hk) as (r & B & S). exists (((0%nat, r), v) :: vs).
        split; [constructor; [split; [exact B|exact W]|exact Ws]|]. intros s q. cbn [placem fst snd]. constructor; [cbn; split; [exact S|apply E]|apply Es]. }
      destruct G as (vs & W & E). exists (JObj 0 0 vs). split; [apply wf_obj, W|]. intros s q. rewrite place_obj. split; [exact N|]. exists m. split; [apply Permutation_refl|apply E].
    + intros _. exists (JNull 0). split; [exact I|]. intros s q. exact I.
  - intros H. destruct (print_exists C O d g H) as (v & W & _ & E). exists v. auto.
Qed.
Lemma print_fields rs : forall gs, writable_rfields P rs gs -> exists vs, Forall (fun x => string_body (snd (fst x)) /\ wf (snd x)) vs /\
  forall s q, encodes_fields O (map (fun x => (fst (fst x), encodes_kind C O s (R s) (snd x))) rs) gs (placem q vs).
Proof.
  induction rs as [|x rs IH]; intros [|g gs] H; try contradiction; [exists []; split; [constructor|intros s q; exact I]|].
  destruct H as [[Hp Hw] H]. destruct (IH gs H) as (vs & Ws & Es). destruct (print_kind _ _ Hw) as (v & W & E).
  exists (((0%nat, fst (fst x)), v) :: vs). split; [constructor; [split; [eapply is_string_body, plain_string, Hp|exact W]|exact Ws]|]. intros s q. cbn [placem fst snd map]. cbn. split; [|apply Es].
  split; [split; [apply plain_string, Hp|reflexivity]|apply E].
Qed.
End Step.
Theorem print_rec g : writable_rec g -> exists v, wf v /\ forall s k, encodes_rec C O s fs g (place k v).
Proof.
  intros (n & H). assert (Q : rprints (fun s => encodes_n C O s fs n) g).
  { revert g H. induction n as [|n IH]; intros g H; [destruct H|]. destruct H as (gs & -> & N & H). destruct (print_fields _ _ IH fs gs H) as (vs & W & E).
    exists (JObj 0 0 vs). split; [apply wf_obj, W|]. split; [reflexivity|]. intros s q. rewrite place_obj. cbn [encodes_n encodes_struct]. split; [exact N|].
    exists (placem (S q) vs). split; [apply Permutation_refl|apply E]. }
  destruct Q as (v & W & _ & E). exists v. split; [exact W|]. intros s k. exists n. apply E.
Qed.
End Write.

(** C42, C43 for types that contain recursive structs ([wt], Mixed.v).

    The definitions of the first section are specification (compare Encodes.v and
    RecTrip.v): [wencodes t x v] says that the document [v] is an encoding of the value [x]
    of type [t]. *)
From Coq Require Import Permutation.
From Verif Require Import Base NumSpec StrSpec Unescape Types AppendType Token FloatLit Heap Machine Dt Dec Control Root Elab Rec Value Dval Sep Refine Spec Typed SpecProofs Main Parse World Elaborate RecSpec RecRefine RecElab PropsStruct PropsRec Encodes RoundTrip Render Writable RecTrip PropsRoundTrip PropsRecTrip PropsStrict Actual PropsExact RecActual PropsRecAny Mixed MixedElab MixedSpec MixedRefine MixedTyped PropsMixed.
Open Scope Z_scope.

(** ** Specification *)
Section Encodings.
Variables (C : cfg) (O : opts) (s : bytes).
Fixpoint wencodes (t : wt) (g : gval) (v : jv) {struct t} : Prop :=
  match t with
  | WSub d => encodes C O s d g v
  | WRec _ fs => encodes_rec C O s fs g v
  | WSlice t =>
      match g, v with
      | VSlice None, JNull _ => True
      | VSlice (Some (gs, _)), JArr _ _ l => Forall2 (wencodes t) gs l
      | _, _ => False
      end
  | WMap k t =>
      match g, v with
      | VMap None, JNull _ => True
      | VMap (Some m), JObj _ _ l => NoDup (map fst m) /\
          exists m1, Permutation m m1 /\ Forall2 (fun a x => encodes_key C k (fst a) (snd (fst x)) /\ wencodes t (snd a) (snd x)) m1 l
      | _, _ => False
      end
  | WPtr t =>
      match g with
      | VPtr None => is_null v = true
      | VPtr (Some g) => is_null v = false /\ wencodes t g v
      | _ => False
      end
  | WStruct _ fs =>
      match g, v with
      | VStruct gs, JObj _ _ l => NoDup (wnames fs) /\
          exists l1, Permutation l l1 /\ encodes_fields O (map (fun x => (fst (fst x), wencodes (snd x))) fs) gs l1
      | _, _ => False
      end
  end.
(** The values that have an encoding. *)
Fixpoint wwritable (t : wt) (g : gval) {struct t} : Prop :=
  match t with
  | WSub d => writable C d g
  | WRec _ fs => writable_rec C fs g
  | WSlice t => match g with VSlice None => True | VSlice (Some (gs, _)) => Forall (wwritable t) gs | _ => False end
  | WMap k t =>
      match g with
      | VMap None => True
      | VMap (Some m) => NoDup (map fst m) /\ Forall (fun x => writable_key C k (fst x) /\ wwritable t (snd x)) m
      | _ => False
      end
  | WPtr t => match g with VPtr None => True | VPtr (Some g) => wwritable t g /\ nil_value g = false | _ => False end
  | WStruct _ fs =>
      match g with
      | VStruct gs => NoDup (wnames fs) /\
          (fix go (fs : wfields) (gs : list gval) : Prop :=
             match fs, gs with
             | [], [] => True
             | x :: fs, g :: gs => (plain (fst (fst x)) /\ wwritable (snd x) g) /\ go fs gs
             | _, _ => False
             end) fs gs
      | _ => False
      end
  end.
End Encodings.
(** The types all of whose encodings are in the class of Mixed.v: trees whose recursion goes
    through pointers, in maps and as first fields of structs, and pointers at the root. *)
Fixpoint wtree_inside (b : bool) (t : wt) : bool :=
  match t with
  | WSub d => no_inner_ptr d
  | WRec _ fs => b && pointer_tree fs
  | WSlice t => match t with WRec _ _ => false | _ => wtree_inside false t end
  | WMap _ t => wtree_inside true t
  | WPtr _ => false
  | WStruct _ fs => forallb (fun x => wtree_inside (snd (fst x) =? 0) (snd x)) fs
  end.
Fixpoint wtree (C : cfg) (t : wt) : bool :=
  match t with WPtr t => negb (wsize C t =? 0) && wtree C t | _ => wtree_inside true t end.

(** ** The ideal decoder inverts encodings *)
Section General.
Variables (C : cfg) (z : gval) (R : gval -> jv -> Prop) (f : vdec).
Hypothesis Rf : forall x v, R x v -> exists g', f v z = VOk g' /\ same_value x g'.
Lemma elems_fresh : forall xs l, Forall2 R xs l -> exists gs', elemsv f l (repeat z (length l)) = VOk gs' /\ Forall2 same_value xs gs'.
Proof.
  induction 1 as [|x v xs l Hx H (gs' & E2 & S2)]; [exists []; split; [reflexivity|constructor]|].
  destruct (Rf _ _ Hx) as (g' & E' & S'). exists (g' :: gs'). cbn [length repeat elemsv]. rewrite E', E2. split; [reflexivity|constructor; assumption].
Qed.
Lemma slice_fresh xs l fast keep : Forall2 R xs l -> exists gs' hid', slicev f z fast keep l (VSlice None) = VOk (VSlice (Some (gs', hid'))) /\ Forall2 same_value xs gs'.
Proof.
  intros H. unfold slicev. destruct l as [|v0 l0] eqn:El; [inversion H; subst; exists [], []; split; [reflexivity|constructor]|]. rewrite <- El in *.
  assert (L : (length l <=? length (@nil gval) + length (@nil gval))%nat = false) by (rewrite El; reflexivity). clear El v0 l0. cbn [contents]. rewrite L. clear L.
  destruct (elems_fresh xs l H) as (gs' & E & S). cbn [app length]. rewrite Nat.sub_0_r.
  replace (if keep then repeat z (length l) else repeat z (length l)) with (repeat z (length l)) by (destruct keep; reflexivity). rewrite E.
  assert (Ln : length gs' = length l) by (apply Forall2_length in H; apply Forall2_length in S; congruence).
  exists gs', []. unfold split_at. rewrite <- Ln, firstn_all, skipn_all. split; [reflexivity|exact S].
Qed.
Lemma entries_fresh k st : forall m l, Forall2 (fun a x => encodes_key C k (fst a) (snd (fst x)) /\ R (snd a) (snd x)) m l ->
  NoDup (map fst m) -> forall acc, (forall y, In y (map fst acc) -> ~ In y (map fst m)) ->
  exists m', ideal_entries C k f st z l acc = VOk (acc ++ m') /\
    Forall2 (fun a b => fst a = fst b /\ same_value (snd a) (snd b)) m m'.
Proof.
  induction 1 as [|[key x] [[i r] v] m l [Hk Hx] H IHl]; intros N acc D.
  - exists []. rewrite app_nil_r. split; [reflexivity|constructor].
  - cbn [map fst snd] in *. apply NoDup_cons_iff in N as [Nk N].
    assert (Na : ~ In key (map fst acc)) by (intros Hin; apply (D key Hin); left; reflexivity).
    destruct (Rf _ _ Hx) as (g' & E' & S').
    destruct (IHl N (acc ++ [(key, g')])) as (m' & E2 & S2).
    { intros y. rewrite map_app, in_app_iff. cbn. intros [Hy|[<-|[]]]; [|exact Nk]. intros Hy'. apply (D y Hy). right. exact Hy'. }
    exists ((key, g') :: m'). cbn [ideal_entries]. rewrite (key_round _ _ _ _ Hk), (getk_none _ _ Na).
    replace (if st then z else z) with z by (destruct st; reflexivity). rewrite E', (putk_new _ _ _ Na), E2, <- app_assoc.
    split; [reflexivity|]. constructor; [cbn; auto|exact S2].
Qed.
End General.

Section Trip.
Variables (C : cfg) (O : opts) (s : bytes).
Notation wencodes := (wencodes C O s).
Definition wmember (fs : wfields) (gs : list gval) (y : (nat * bytes) * jv) (j : nat) : Prop :=
  exists x g, nth_error fs j = Some x /\ nth_error gs j = Some g /\ encodes_name O (fst (fst x)) (snd (fst y)) /\ wencodes (snd x) g (snd y).
Lemma wmembers z fs gs i j l : wencodes (WStruct z fs) (VStruct gs) (JObj i j l) ->
  NoDup (wnames fs) /\ length gs = length fs /\ exists js, Permutation (seq 0 (length fs)) js /\ Forall2 (wmember fs gs) l js.
Proof.
  cbn [MixedTrip.wencodes]. intros (N & l1 & P & F). split; [exact N|]. set (rs := map _ fs) in F.
  destruct (fields_for O rs gs l1 [] [] eq_refl F) as [F2 Lx]. cbn [app length] in F2.
  assert (Lrs : length rs = length fs) by (subst rs; apply map_length). rewrite Lrs in F2. split; [congruence|].
  destruct (Permutation_Forall2 (Permutation_sym P) F2) as (js & Pj & Fj). exists js. split; [exact Pj|].
  clear - Fj. subst rs. induction Fj as [|y q l js (nm & Q & g & Hr & Hx & Hn & HR) Fj IHF]; constructor; [|exact IHF].
  rewrite nth_error_map in Hr. destruct (nth_error fs q) as [x|] eqn:Ef; [|discriminate]. cbn in Hr. injection Hr as <- <-. exists x, g. auto.
Qed.
Lemma wname_selects fs j x r : NoDup (wnames fs) -> nth_error fs j = Some x -> encodes_name O (fst (fst x)) r -> field_for C O (wshape fs) r = Some j.
Proof.
  intros N H Hn. eapply name_selects; [rewrite wshape_names; exact N| |exact Hn]. rewrite wshape_names. unfold wnames. rewrite nth_error_map, H. reflexivity.
Qed.
Theorem wideal_encodes t : forall x v, wencodes t x v -> exists g', wideal C O s t v (wzero t) = VOk g' /\ same_value x g'.
Proof.
  unfold wideal. induction t as [d|z fs|t IH|k t IH|t IH|z fs IH] using wt_ind'; intros x v E; cbn [MixedTrip.wencodes walk wzero] in *.
  - apply ideal_encodes; [exact E|apply zero_typed|apply zero_empty].
  - apply ideal_rec_encodes, E.
  - destruct x as [| | | | | | | |[[vis hid]|]| | |]; destruct v; try contradiction.
    + destruct (slice_fresh _ _ _ IH vis l false (carried (flatt t)) E) as (gs' & hid' & E' & S'). rewrite E'. eexists; split; [reflexivity|constructor; exact S'].
    + eexists; split; [reflexivity|constructor].
  - destruct x as [| | | | | | | | |[m|]| |]; destruct v; try contradiction.
    + destruct E as (N & m1 & P & F). destruct (entries_fresh C _ _ _ IH k (is_struct (flatt t)) m1 l F) with (acc := @nil (gkey * gval)) as (m' & Ee & S').
      * eapply Permutation_NoDup; [apply Permutation_map, P|exact N].
      * intros y [].
      * rewrite Ee. eexists; split; [reflexivity|]. econstructor; [exact P|exact S'].
    + eexists; split; [reflexivity|constructor].
  - destruct x as [| | | | | | | | | | |[x|]]; try contradiction.
    + destruct E as [Nn E]. destruct (IH _ _ E) as (g' & E' & S'). destruct v; try discriminate; rewrite E'; (eexists; split; [reflexivity|constructor; exact S']).
    + destruct v; try discriminate. eexists; split; [reflexivity|constructor].
  - destruct x as [| | | | | | |xs| | | |]; try contradiction. destruct v; try contradiction.
    apply (wmembers z _ _ 0 0) in E as (N & Lx & js & Pj & Fj).
    assert (Lz : length (map (fun x : bytes * Z * wt => wzero (snd x)) fs) = length fs) by apply map_length.
    match goal with |- context [ideal_members O ?sel ?ds l ?z0] =>
      destruct (members_round O sel ds xs l js) with (gs := z0) as (gs' & Em' & Lg' & H1 & H2) end.
    + eapply Permutation_NoDup; [exact Pj|apply seq_NoDup].
    + congruence.
    + clear - Fj N IH. rewrite Forall_forall in IH. induction Fj as [|y j l js (x & g & Hf & Hg & Hn & HR) Fj IHF]; constructor; [|exact IHF].
      split; [eapply wname_selects; eassumption|]. destruct (IH x (nth_error_In _ _ Hf) _ _ HR) as (g' & E' & S').
      eexists _, (wzero (snd x)), g', g. rewrite !nth_error_map, Hf. cbn. eauto.
    + rewrite Em'. eexists; split; [reflexivity|]. constructor. apply Forall2_nth; [congruence|]. intros q Hq. destruct (H1 q) as (g' & y & A1 & A2 & A3).
      { eapply Permutation_in; [exact Pj|]. apply in_seq. lia. }
      exists y, g'. auto.
Qed.

(** ** Decode computes the ideal on encodings *)
Theorem wencodes_sound t : forall x v, wencodes t x v -> wsound C O t v.
Proof.
  unfold wsound. induction t as [d|z fs|t IH|k t IH|t IH|z fs IH] using wt_ind'; intros x v E; cbn [MixedTrip.wencodes leafy] in *.
  - eapply encodes_sound, E.
  - eapply encodes_rsound, E.
  - destruct x as [| | | | | | | |[[vis hid]|]| | |]; destruct v; try tauto. eapply Forall2_right; [|exact E]. exact IH.
  - destruct x as [| | | | | | | | |[m|]| |]; destruct v; try tauto. destruct E as (_ & m1 & _ & F). eapply Forall2_right; [|exact F]. intros a b [A B]. split; [eapply key_sound, A|eapply IH, B].
  - destruct x as [| | | | | | | | | | |[x|]]; try contradiction; destruct v; try discriminate; try exact I; destruct E as [_ E]; try (eapply IH, E); discriminate.
  - destruct x as [| | | | | | |xs| | | |]; try contradiction. destruct v; try contradiction. apply (wmembers z _ _ 0 0) in E as (N & Lx & js & Pj & Fj). clear Pj.
    rewrite Forall_forall in IH. induction Fj as [|y q l js (x & g & Hf & Hg & Hn & HR) Fj IHF]; constructor; [|exact IHF].
    split; [right; destruct Hn as [Hn _]; eapply is_string_plain, Hn|]. rewrite (wname_selects fs q x _ N Hf Hn), nth_error_map, Hf. cbn [option_map]. eapply (IH x (nth_error_In _ _ Hf)), HR.
Qed.
Lemma wencodes_ctl t : forall b, wtree_inside b t = true -> forall x v, wencodes t x v -> wctl C O b t v.
Proof.
  induction t as [d|z fs|t IH|k t IH|t IH|z fs IH] using wt_ind'; intros b H x v E; cbn [wtree_inside wctl MixedTrip.wencodes] in *; try discriminate.
  - apply ctl_on. eapply encodes_ctl; [exact H|exact E].
  - apply andb_prop in H as [-> H]. exact (encodes_rctl C O s fs x v H E).
  - destruct x as [| | | | | | | |[[vis hid]|]| | |]; destruct v; try tauto. right. destruct t as [d|z fs|t|k t|t|z fs]; try discriminate; (split; [exact I|]);
      (eapply Forall2_right; [|exact E]; intros a w Hw; eapply IH; [exact H|exact Hw]).
  - destruct x as [| | | | | | | | |[m|]| |]; destruct v; try tauto. destruct E as (_ & m1 & _ & F). eapply Forall2_right; [|exact F]. intros a w [_ Hw]. eapply IH; [exact H|exact Hw].
  - destruct x as [| | | | | | |xs| | | |]; try contradiction. destruct v; try contradiction. apply (wmembers z _ _ 0 0) in E as (N & Lx & js & Pj & Fj). clear Pj.
    rewrite forallb_forall in H. rewrite Forall_forall in IH. induction Fj as [|y q l js (x & g & Hf & Hg & Hn & HR) Fj IHF]; constructor; [|exact IHF].
    pose proof (wname_selects fs q x _ N Hf Hn) as Sel. destruct Hn as [Hs Hr].
    rewrite (field_for_pick C O (wshape fs) _ (or_intror (is_string_plain _ _ Hs)) (is_string_body _ _ Hs)), wshape_names in Sel.
    replace (key_of O (snd (fst y))) with (if o_nounescape O then snd (fst y) else txt (snd (fst y))).
    2:{ unfold key_of, txt, unesc. destruct (o_nounescape O); [reflexivity|]. destruct (Valid _); reflexivity. }
    rewrite Sel, nth_error_map, Hf. cbn [option_map]. eapply (IH x (nth_error_In _ _ Hf)); [apply H, (nth_error_In _ _ Hf)|exact HR].
Qed.
Theorem wencodes_last t : wtree C t = true -> forall x v, wencodes t x v -> wlast C O true t v.
Proof.
  assert (Q : forall t, wtree_inside true t = true -> forall x v, wencodes t x v -> wlast C O true t v).
  { intros t0 H x v E. apply wctl_last. eapply wencodes_ctl; [exact H|exact E]. }
  induction t as [d|z fs|t IH|k t IH|t IH|z fs IH] using wt_ind'; intros H; try (apply Q, H).
  intros x v E. cbn [wtree wlast MixedTrip.wencodes] in *. apply andb_prop in H as [H1 H2]. apply negb_true_iff in H1.
  destruct x as [| | | | | | | | | | |[x|]]; try contradiction; destruct v; try discriminate; try exact I; destruct E as [En E]; try discriminate; (split; [exact H1|eapply IH; [exact H2|exact E]]).
Qed.
End Trip.

(** ** Every value can be written *)
Section Write.
Variables (C : cfg) (O : opts).
Definition wprints (R : bytes -> gval -> jv -> Prop) (g : gval) : Prop := exists v, wf v /\ (is_null v = true -> nil_value g = true) /\ forall s k, R s g (place k v).
Theorem wprint t : forall g, wwritable C t g -> wprints (fun s => wencodes C O s t) g.
Proof.
  induction t as [d|z fs|t IH|k t IH|t IH|z fs IH] using wt_ind'; intros g W; unfold wprints; cbn [wwritable wencodes] in *.
  - destruct (print_exists C O d g W) as (v & Wf & Nn & E). exists v. auto.
  - destruct (print_rec C O fs g W) as (v & Wf & E). exists v. split; [exact Wf|]. split; [|exact E]. intros Hn. exfalso.
    destruct (E [] 0%nat) as (n & En). destruct (encodes_obj _ _ _ _ _ _ _ En) as (i & j & l & Ev). pose proof (is_null_place 0 v) as Q. rewrite Ev, Hn in Q. discriminate.
  - destruct g as [| | | | | | | |[[vis hid]|]| | |]; try contradiction.
    + assert (G : exists vs, Forall wf vs /\ forall s q, Forall2 (wencodes C O s t) vis (places q vs)).
      { induction W as [|g gs Hg H (vs & Ws & Es)]; [exists []; split; [constructor|intros s q; constructor]|]. destruct (IH _ Hg) as (v & Wf & _ & E).
        exists (v :: vs). split; [constructor; assumption|]. intros s q. cbn [places]. constructor; [apply E|apply Es]. }
      destruct G as (vs & Wf & E). exists (JArr 0 0 vs). split; [apply wf_arr, Wf|]. split; [discriminate|]. intros s q. rewrite place_arr. apply E.
    + exists (JNull 0). split; [exact I|]. split; [reflexivity|]. intros s q. exact I.
  - destruct g as [| | | | | | | | |[m|]| |]; try contradiction.
    + destruct W as [N H]. assert (G : exists vs, Forall (fun x => string_body (snd (fst x)) /\ wf (snd x)) vs /\
         forall s q, Forall2 (fun a x => encodes_key C k (fst a) (snd (fst x)) /\ wencodes C O s t (snd a) (snd x)) m (placem q vs)).
      { clear N. induction H as [|[ky a] m [Hk Ha] H (vs & Ws & Es)]; [exists []; split; [constructor|intros s q; constructor]|].
        destruct (IH a Ha) as (v & Wf & _ & E). destruct (print_key C O k ky Hk) as (r & B & S). exists (((0%nat, r), v) :: vs).
        split; [constructor; [split; [exact B|exact Wf]|exact Ws]|]. intros s q. cbn [placem fst snd]. constructor; [cbn; split; [exact S|apply E]|apply Es]. }
      destruct G as (vs & Wf & E). exists (JObj 0 0 vs). split; [apply wf_obj, Wf|]. split; [discriminate|]. intros s q. rewrite place_obj. split; [exact N|]. exists m. split; [apply Permutation_refl|apply E].
    + exists (JNull 0). split; [exact I|]. split; [reflexivity|]. intros s q. exact I.
  - destruct g as [| | | | | | | | | | |[g|]]; try contradiction.
    + destruct W as [W Nn]. destruct (IH _ W) as (v & Wf & Hn & E). exists v. split; [exact Wf|].
      assert (V : is_null v = false) by (destruct (is_null v); [rewrite Hn in Nn by reflexivity; discriminate|reflexivity]).
      split; [congruence|]. intros s q. rewrite is_null_place. split; [exact V|apply E].
    + exists (JNull 0). split; [exact I|]. split; [reflexivity|]. reflexivity.
  - destruct g as [| | | | | | |gs| | | |]; try contradiction. destruct W as [N W].
    assert (G : exists vs, Forall (fun x => string_body (snd (fst x)) /\ wf (snd x)) vs /\
      forall s q, encodes_fields O (map (fun x => (fst (fst x), wencodes C O s (snd x))) fs) gs (placem q vs)).
    { clear N. revert gs W. induction IH as [|x fs Hx IH IHf]; intros [|g gs] W; try contradiction; [exists []; split; [constructor|intros s q; exact I]|].
      destruct W as [[Hp Hw] W]. destruct (IHf gs W) as (vs & Ws & Es). destruct (Hx _ Hw) as (v & Wf & _ & E).
      exists (((0%nat, fst (fst x)), v) :: vs). split; [constructor; [split; [eapply is_string_body, plain_string, Hp|exact Wf]|exact Ws]|]. intros s q. cbn [placem fst snd map]. cbn. split; [|apply Es].
      split; [split; [apply plain_string, Hp|reflexivity]|apply E]. }
    destruct G as (vs & Wf & E). exists (JObj 0 0 vs). split; [apply wf_obj, Wf|]. split; [discriminate|]. intros s q. rewrite place_obj. split; [exact N|].
    exists (placem (S q) vs). split; [apply Permutation_refl|apply E].
Qed.
End Write.

(** ** Theorems *)
(** Any encoding in the class of Mixed.v, decoded into a new variable. *)
Theorem C42_mixed_in_class_partial C O E dis T t stk D s v x a h F :
  wdecoder_for C E dis T t stk D -> json_text s v -> wlast C O true t v -> wencodes C O s t x v ->
  wvariable C t h a (wzero t) F ->
  exists D' h' g' F', Decode C O stk D s (TOk (flat 0 v)) (Some a) h = Ret (-1) None D' h' /\
    wvariable C t h' a g' F' /\ same_value x g' /\ only h h' (Some a) (wsize C t) F F'.
Proof.
  intros Df J Ct En V. pose proof (C26_mixed_partial C O E dis T t stk D s v a h _ F Df J Ct (wencodes_sound C O s t x v En) V) as Q.
  destruct (wideal_encodes C O s t x v En) as (g' & E' & S). rewrite E' in Q.
  destruct Q as (D' & h' & F' & Q & V' & Y). exists D', h', g', F'. auto.
Qed.
(** For the types [wtree] every encoding is in the class: any order of members at every
    level, any white space, any notation. *)
Theorem C42_mixed_partial C O E dis T t stk D s v x a h F :
  wdecoder_for C E dis T t stk D -> wtree C t = true -> json_text s v -> wencodes C O s t x v ->
  wvariable C t h a (wzero t) F ->
  exists D' h' g' F', Decode C O stk D s (TOk (flat 0 v)) (Some a) h = Ret (-1) None D' h' /\
    wvariable C t h' a g' F' /\ same_value x g' /\ only h h' (Some a) (wsize C t) F F'.
Proof.
  intros Df Tr J En V. exact (C42_mixed_in_class_partial C O E dis T t stk D s v x a h F Df J (wencodes_last C O s t Tr x v En) En V).
Qed.
(** Every value of such a type has a JSON text from which Decode makes that value. *)
Theorem C43_mixed_partial C O E dis T t stk D x a h F :
  wdecoder_for C E dis T t stk D -> wtree C t = true -> wwritable C t x ->
  wvariable C t h a (wzero t) F ->
  exists s v, json_text s v /\
    exists D' h' g' F', Decode C O stk D s (TOk (flat 0 v)) (Some a) h = Ret (-1) None D' h' /\
      wvariable C t h' a g' F' /\ same_value x g'.
Proof.
  intros Df Tr W V. destruct (wprint C O t x W) as (v & Wf & _ & En). exists (render v), (place 0 v). split; [apply render_text, Wf|].
  destruct (C42_mixed_partial C O E dis T t stk D (render v) (place 0 v) x a h F Df Tr (render_text v Wf) (En _ _) V) as (D' & h' & g' & F' & Q & V' & S & _).
  exists D', h', g', F'. auto.
Qed.

(** ** Cases: a pointer to a map of linked structs (C26_mixed_every_document_case) *)
Definition mtr_text : bytes :=
  bs "{""\n"":{""R"":null,""left"":{""V"":3,""R"":null,""left"":null}, ""V"":-1},""a"" : {""left"":null,""\u0056"":2,""R"":{""left"":null,""R"":null,""V"":7}}}".
Definition mtr_doc : jv := Eval vm_compute in tree_of mtr_text.
Definition mtr_value : gval :=
  VPtr (Some (VMap (Some [(GStr (bs "a"), dnode 2 None (Some (dnode 7 None None))); (GStr [10], dnode (-1) (Some (dnode 3 None None)) None)]))).
Lemma mtr_encodes : wencodes wC default_opts mtr_text mapp_wt mtr_value mtr_doc.
Proof.
  assert (Int : forall k r z, is_int r = true -> int_value r = z -> in_range (kind_of wC k) z -> nk_signed k = true -> is_integer wC k r z).
  { intros k r z J V I S. split; [apply is_int_spec, J|]. split; [exact V|]. split; [exact I|]. congruence. }
  assert (N : NoDup (rnames doc_node)) by (unfold doc_node, rnames; cbn [map fst snd]; nodup).
  assert (B : forall n i j l l1 v p q, Permutation l l1 ->
     encodes_fields default_opts (map (fun x => (fst (fst x), encodes_kind wC default_opts mtr_text (encodes_n wC default_opts mtr_text doc_node n) (snd x))) doc_node) [VInt v; VPtr p; VPtr q] l1 ->
     encodes_n wC default_opts mtr_text doc_node (S n) (dnode v p q) (JObj i j l)).
  { intros. cbn [encodes_n encodes_struct]. split; [exact N|]. exists l1. auto. }
  unfold mtr_value, mtr_doc, mapp_wt. cbn [wencodes is_null]. split; [reflexivity|]. split; [nodup|].
  eexists. split; [apply Permutation_rev|]. cbn [rev app].
  Ltac fields Int := unfold doc_node; cbn [map fst snd];
    repeat match goal with |- encodes_fields _ (_ :: _) _ _ => split; [split; [split; [str|discriminate]|]|] end; [| | |exact I]; cbn [encodes_kind snd];
    [cbn; apply Int; [reflexivity|reflexivity|vm_compute; split; discriminate|reflexivity]| |].
  constructor; [|constructor; [|constructor]]; cbn [fst snd]; (split; [cbn; str|]); exists 2%nat.
  - eapply B; [eapply perm_trans; [apply Permutation_rev|apply Permutation_refl]|]. cbn [rev app]. fields Int; [|reflexivity]. split; [reflexivity|]. eapply B; [apply perm_skip, perm_swap|]. fields Int; reflexivity.
  - eapply B; [apply perm_swap|]. fields Int; [reflexivity|]. split; [reflexivity|]. eapply B; [eapply perm_trans; [apply perm_skip, perm_swap|apply perm_swap]|]. fields Int; reflexivity.
Qed.
Example C42_mixed_case : exists D' h' g' F', Decode wC default_opts mapp_stk (dyn0 mapp_stk) mtr_text (TOk (flat 0 mtr_doc)) dest (world 8) = Ret (-1) None D' h' /\
    wvariable wC mapp_wt h' (1%nat, 0) g' F' /\ same_value mtr_value g'.
Proof.
  assert (J : json_text mtr_text mtr_doc) by (apply parse_sound; vm_compute; reflexivity).
  pose proof (wvariable_new _ _ _ _ _ _ _ (world 8) (1%nat, 0) mapp_decoder (world_zero 8) (world_own 8)) as V.
  destruct (C42_mixed_partial wC default_opts E_doc false mapp_ty mapp_wt mapp_stk (dyn0 mapp_stk) mtr_text mtr_doc mtr_value (1%nat, 0) (world 8) []
              mapp_decoder eq_refl J mtr_encodes V) as (D' & h' & g' & F' & Q & W & S & _).
  exists D', h', g', F'. auto.
Qed.
Example C43_mixed_case : wtree wC mapp_wt = true /\ wwritable wC mapp_wt mtr_value.
Proof.
  split; [reflexivity|]. unfold mtr_value, mapp_wt. cbn [wwritable nil_value].
  assert (N : NoDup (rnames doc_node)) by (unfold doc_node, rnames; cbn [map fst snd]; nodup).
  assert (Pl : Forall (fun x => plain (fst (fst x))) doc_node) by (unfold doc_node, plain; repeat constructor; cbn; lia).
  assert (B : forall n v l r, in_range (kind_of wC (NK true W8)) v -> writable_kind wC (writable_n wC doc_node n) RSelf (VPtr l) ->
            writable_kind wC (writable_n wC doc_node n) RSelf (VPtr r) -> writable_n wC doc_node (S n) (dnode v l r)).
  { intros n v l r Hv Hl Hr. exists [VInt v; VPtr l; VPtr r]. split; [reflexivity|]. split; [exact N|]. inversion Pl as [|? ? P1 Q1]; subst. inversion Q1 as [|? ? P2 Q2]; subst.
    inversion Q2 as [|? ? P3 Q3]; subst. repeat (split; [split; assumption|]). exact I. }
  assert (R : forall v, -128 <= v <= 127 -> in_range (kind_of wC (NK true W8)) v) by (intros v Hv; unfold in_range; cbn; lia).
  split; [|reflexivity]. split; [nodup|]. constructor; [|constructor; [|constructor]]; (split; [cbn; repeat constructor; lia|]); exists 2%nat; cbn [snd].
  - apply B; [apply R; lia|exact I|]. cbn [writable_kind]. apply B; [apply R; lia|exact I|exact I].
  - apply B; [apply R; lia| |exact I]. cbn [writable_kind]. apply B; [apply R; lia|exact I|exact I].
Qed.

(** Proofs about encodings: the ideal decoder inverts them, and they are documents on
    which Decode computes the ideal. *)
From Coq Require Import Permutation.
From Verif Require Import Base NumSpec StrSpec JsonNum JsonNumProofs AtoiProofs Unescape Types Token FloatLit Heap Machine Dt Dec Control Root Value Dval Sep Refine Spec Typed SpecProofs PropsStruct Encodes.
Open Scope Z_scope.

Lemma Forall2_length {A B} (R : A -> B -> Prop) l l' : Forall2 R l l' -> length l = length l'.
Proof. induction 1; cbn; congruence. Qed.
Lemma is_string_text r t : is_string r t -> str_text r = t.
Proof. intros (l & B & L & _ & <-). apply str_text_spec; assumption. Qed.
Lemma is_string_plain r t : is_string r t -> plain_str r.
Proof. intros (l & B & L & P & _). unfold plain_str. rewrite (items_spec r l B L). exact P. Qed.
Lemma is_string_body r t : is_string r t -> string_body r.
Proof. intros (l & B & L & _). exists l. split; assumption. Qed.
Lemma is_float_round b r f : is_float b r f -> exists f', round b r = Some f' /\ same_float f f'.
Proof.
  unfold is_float, round, same_float. destruct (num_value r) as [m e]. cbn [fst]. intros (H & N & T). rewrite T.
  eexists. split; [reflexivity|]. cbn. rewrite <- N. tauto.
Qed.
Lemma is_integer_lit C k r z : is_integer C k r z -> int_lit C k r = LSet (VInt z) /\ int_text C k r = inl z.
Proof.
  intros (J & <- & R & U). unfold int_lit, int_text. apply in_rangeb_spec in R. rewrite R. rewrite (proj2 (is_int_spec r) J).
  assert (E : negb (nk_signed k) && neg r = false). { destruct (nk_signed k); [reflexivity|]. apply uint_not_minus, U. reflexivity. }
  rewrite E. split; reflexivity.
Qed.
Lemma is_integer_sound C k r z : is_integer C k r z -> int_sound C k r.
Proof. intros (J & <- & R & U) _ [N _]. contradiction. Qed.
Lemma number_quoted_sound r : json_number r -> quoted_sound r.
Proof. intros H. apply quoted_scan. left. apply is_num_spec, H. Qed.

(** ** any *)
Lemma nassoc_put_new {V} (l : list (bytes * V)) k v : ~ In k (map fst l) -> nassoc_put l k v = l ++ [(k, v)].
Proof.
  induction l as [|[k' v'] l IH]; cbn; intros H; [reflexivity|]. destruct (bytes_eqb k' k) eqn:E; [apply bytes_eqb_eq in E; tauto|]. rewrite IH by tauto. reflexivity.
Qed.
Lemma any_plain v : forall a, encodes_any a v -> plain_all v.
Proof.
  induction v as [i|i b|i r|i r|i r|i j l IH|i j l IH] using jv_ind'; intros a E; inversion E as [| | | | |? ? la ? F|? ? la la' ? P N F]; subst; try exact I.
  - cbn. eapply is_string_plain; eauto.
  - cbn. clear E. revert la F. induction IH as [|x l Hx IH IHl]; intros la F; [exact I|]. inversion F as [|? ? ? ? F1 F2]; subst. split; [exact (Hx _ F1)|exact (IHl _ F2)].
  - cbn. clear E P N. revert la' F. induction IH as [|x l Hx IH IHl]; intros la' F; [exact I|]. inversion F as [|? ? ? ? [F1 F2] F3]; subst.
    split; [split; [eapply is_string_plain, F1|exact (Hx _ F2)]|exact (IHl _ F3)].
Qed.
Definition gen_list := fix go (l : list jv) : option (list jany) :=
         match l with
         | [] => Some []
         | x :: r => match generic x, go r with Some a, Some b => Some (a :: b) | _, _ => None end
         end.
Definition gen_members := fix go (acc : list (bytes * jany)) (l : list ((nat * bytes) * jv)) : option (list (bytes * jany)) :=
         match l with
         | [] => Some acc
         | x :: r => match generic (snd x) with
                     | Some a => go (nassoc_put acc (str_text (snd (fst x))) a) r
                     | None => None
                     end
         end.
Lemma generic_arr i j l : generic (JArr i j l) = option_map NArr (gen_list l).
Proof. reflexivity. Qed.
Lemma generic_obj i j l : generic (JObj i j l) = option_map NObj (gen_members [] l).
Proof. reflexivity. Qed.
Lemma any_generic v : forall a, encodes_any a v -> exists a', generic v = Some a' /\ same_any a a'.
Proof.
  induction v as [i|i b|i r|i r|i r|i j l IH|i j l IH] using jv_ind'; intros a E; inversion E as [| |? ? f Ff|? ? f Ff|? ? tx St|? ? la ? F|? ? la la' ? P N F]; subst; clear E.
  - eexists; split; [reflexivity|constructor].
  - eexists; split; [reflexivity|constructor].
  - cbn. destruct (is_float_round _ _ _ Ff) as (f' & -> & Sf). eexists; split; [reflexivity|constructor; exact Sf].
  - cbn. destruct (is_float_round _ _ _ Ff) as (f' & -> & Sf). eexists; split; [reflexivity|constructor; exact Sf].
  - cbn. rewrite (is_string_text _ _ St). eexists; split; [reflexivity|constructor].
  - rewrite generic_arr. assert (G : exists la', gen_list l = Some la' /\ Forall2 same_any la la').
    { revert la F. induction IH as [|x l Hx IH IHl]; intros la F; inversion F as [|a ? la0 ? Fa Fl]; subst; [exists []; split; [reflexivity|constructor]|].
      destruct (Hx _ Fa) as (a' & Ea & Sa). destruct (IHl _ Fl) as (l' & El & Sl). exists (a' :: l'). cbn [gen_list]. rewrite Ea. fold gen_list. rewrite El.
      split; [reflexivity|constructor; assumption]. }
    destruct G as (la' & -> & G). eexists; split; [reflexivity|constructor; exact G].
  - rewrite generic_obj.
    assert (G : forall acc, (forall x, In x (map fst acc) -> ~ In x (map fst la')) -> exists la2, gen_members acc l = Some (acc ++ la2) /\ Forall2 (fun a b => fst a = fst b /\ same_any (snd a) (snd b)) la' la2).
    { assert (N' : NoDup (map fst la')) by (eapply Permutation_NoDup; [apply Permutation_map, P|exact N]). clear P N la.
      revert la' F N'. induction IH as [|x l Hx IH IHl]; intros la F N' acc D; inversion F as [|[k a] ? la0 ? [Fk Fa] Fl]; subst.
      - exists []. rewrite app_nil_r. split; [reflexivity|constructor].
      - cbn [fst snd] in *. destruct (Hx _ Fa) as (a' & Ea & Sa). cbn [map fst] in N'. apply NoDup_cons_iff in N' as [Nk N'].
        destruct (IHl _ Fl N' (acc ++ [(k, a')])) as (l' & El & Sl).
        { intros y. rewrite map_app, in_app_iff. cbn. intros [Hy|[<-|[]]]; [|exact Nk]. intros Hy'. apply (D y Hy). right. exact Hy'. }
        exists ((k, a') :: l'). cbn [gen_members]. rewrite Ea, (is_string_text _ _ Fk), nassoc_put_new.
        + fold gen_members. rewrite El, <- app_assoc. split; [reflexivity|]. constructor; [cbn; auto|exact Sl].
        + intros Hk. apply (D k Hk). left. reflexivity. }
    destruct (G []) as (la2 & E2 & S2); [intros x []|]. rewrite E2. eexists; split; [reflexivity|]. eapply sa_obj; [exact P|exact S2].
Qed.

(** ** Freshness *)
Fixpoint fresh_fields (fs : list ((bytes * Z) * dt)) (gs : list gval) : Prop :=
  match fs, gs with x :: fs, g :: gs => empty_maps (snd x) g /\ fresh_fields fs gs | _, _ => True end.
Lemma empty_struct z fs gs : empty_maps (DStruct z fs) (VStruct gs) <-> fresh_fields fs gs.
Proof. cbn [empty_maps]. revert gs. induction fs as [|x fs IH]; intros [|g gs]; try tauto. cbn [fresh_fields]. rewrite <- IH. tauto. Qed.
Lemma zero_empty d : empty_maps d (zero d).
Proof.
  induction d as [x|id z|id z| |n t IH| |t IH|k t IH| |t IH|z fs IH] using dt_ind'; try exact I.
  - cbn. apply Forall_forall. intros g Hg. apply repeat_spec in Hg as ->. exact IH.
  - cbn [zero]. apply empty_struct. induction IH as [|x fs Hx IH IHl]; cbn; auto.
Qed.

Section RT.
Variables (C : cfg) (O : opts) (s : bytes).
Notation ideal := (ideal C O s).
Notation encodes := (encodes C O s).
Notation encodes_fields := (encodes_fields O).

(** ** Scalars *)
Lemma scalar_round x g v g0 : encodes_sc C x g v -> exists g', lput (jidx v) (ideal_sc C x v) g0 = VOk g' /\ same_value g g'.
Proof.
  intros E. destruct x, g; cbn in E; try contradiction.
  - destruct v; try contradiction. subst. eexists; split; [reflexivity|constructor].
  - destruct v; try contradiction. cbn. rewrite (is_string_text _ _ E). eexists; split; [reflexivity|constructor].
  - destruct v; try contradiction; subst; eexists; (split; [reflexivity|constructor]).
  - destruct v; try contradiction. cbn. rewrite (proj1 (is_integer_lit _ _ _ _ E)). eexists; split; [reflexivity|constructor].
  - destruct v; try contradiction.
    + destruct E as [E _]. cbn. unfold float_lit. destruct (is_float_round _ _ _ E) as (f' & -> & Sf). eexists; split; [reflexivity|constructor; exact Sf].
    + cbn. unfold float_lit. destruct (is_float_round _ _ _ E) as (f' & -> & Sf). eexists; split; [reflexivity|constructor; exact Sf].
  - destruct (any_generic _ _ E) as (a' & Ea & Sa). destruct v; cbn [ideal_sc];
      try (rewrite Ea; eexists; split; [reflexivity|constructor; exact Sa]).
    all: cbn [generic] in Ea; destruct (round B64 raw) as [f|]; [|discriminate]; injection Ea as <-; eexists; split; [reflexivity|constructor; exact Sa].
  - destruct v; try contradiction. subst. destruct b; eexists; (split; [reflexivity|constructor]).
  - destruct v; try contradiction. destruct E as [-> N]. cbn [ideal_sc]. change (92 :: 34 :: b ++ [92; 34]) with ([92; 34] ++ b ++ [92; 34]).
    assert (L : length ([92; 34] ++ b ++ [92; 34]) = (length b + 4)%nat) by (rewrite !app_length; cbn; lia).
    rewrite L. replace (length b + 4 - 4)%nat with (length b) by lia. replace (length b + 4 - 2)%nat with (S (S (length b))) by lia.
    replace (4 <=? length b + 4)%nat with true by (symmetry; apply Nat.leb_le; lia).
    change (firstn 2 ([92; 34] ++ b ++ [92; 34])) with [92; 34]. change (skipn 2 ([92; 34] ++ b ++ [92; 34])) with (b ++ [92; 34]).
    change (skipn (S (S (length b))) ([92; 34] ++ b ++ [92; 34])) with (skipn (length b) (b ++ [92; 34])).
    rewrite skipn_app, skipn_all, Nat.sub_diag, firstn_app, firstn_all, Nat.sub_diag. cbn [app skipn firstn]. rewrite app_nil_r.
    assert (Ne : existsb (Z.eqb 92) b = false).
    { destruct (existsb (Z.eqb 92) b) eqn:Ex; [|reflexivity]. apply existsb_exists in Ex as (c & Hc & Ec). apply Z.eqb_eq in Ec. subst c. contradiction. }
    rewrite Ne. cbn. eexists; split; [reflexivity|constructor].
  - destruct v; try contradiction. cbn. rewrite (proj2 (is_integer_lit _ _ _ _ E)). eexists; split; [reflexivity|constructor].
  - destruct v; try contradiction. destruct E as [J E]. cbn. rewrite (proj2 (is_num_spec raw) J). unfold float_lit.
    destruct (is_float_round _ _ _ E) as (f' & -> & Sf). eexists; split; [reflexivity|constructor; exact Sf].
Qed.
Lemma scalar_sound x g v : encodes_sc C x g v -> sound_sc C x v.
Proof.
  intros E. destruct x, g; cbn in E; try contradiction; try (destruct v; try contradiction; exact I); try (eapply any_plain in E; exact E); destruct v; try contradiction; cbn; try exact I.
  - eapply is_string_plain; eauto.
  - eapply is_integer_sound; eauto.
  - destruct E as [(_ & M & _) Z]. intros ->. cbn in M. congruence.
  - split; [apply number_quoted_sound; left; apply E|eapply is_integer_sound; eauto].
  - apply number_quoted_sound, E.
Qed.

(** ** Elements *)
Section Elems.
Variable t : dt.
Hypothesis IH : forall v x g, encodes t x v -> typed t g -> empty_maps t g -> exists g', ideal t v g = VOk g' /\ same_value x g'.
Lemma elems_round : forall xs l, Forall2 (encodes t) xs l -> forall gs, (length l <= length gs)%nat ->
  Forall (typed t) gs -> Forall (empty_maps t) gs ->
  exists gs', elemsv (ideal t) l gs = VOk (gs' ++ skipn (length l) gs) /\ Forall2 same_value xs gs'.
Proof.
  induction 1 as [|x v xs l Hx H IHl]; intros gs L Ty Em.
  - exists []. split; [destruct gs; reflexivity|constructor].
  - destruct gs as [|g gs]; [cbn in L; lia|]. inversion Ty as [|? ? T1 T2]; subst. inversion Em as [|? ? M1 M2]; subst.
    destruct (IH _ _ g Hx T1 M1) as (g' & E' & S'). destruct (IHl gs ltac:(cbn in L; lia) T2 M2) as (gs' & E2 & S2).
    exists (g' :: gs'). cbn [elemsv length skipn app]. rewrite E', E2. split; [reflexivity|constructor; assumption].
Qed.
Lemma slice_round xs l fast keep g : Forall2 (encodes t) xs l -> typed (DSlice t) g -> empty_maps (DSlice t) g ->
  exists gs' hid', slicev (ideal t) (zero t) fast keep l g = VOk (VSlice (Some (gs', hid'))) /\ Forall2 same_value xs gs'.
Proof.
  intros H Ty Em. unfold slicev. destruct l as [|v0 l0] eqn:El; [inversion H; subst; exists [], []; split; [reflexivity|constructor]|]. rewrite <- El in *. clear El v0 l0.
  assert (Q : Forall (typed t) (fst (contents g)) /\ Forall (typed t) (snd (contents g)) /\ Forall (empty_maps t) (fst (contents g)) /\ Forall (empty_maps t) (snd (contents g))).
  { cbn [typed empty_maps] in *. destruct g as [| | | | | | | |[[vis hid]|]| | |]; cbn; try contradiction; tauto || (repeat split; constructor). }
  destruct (contents g) as [vis hid]. cbn [fst snd] in Q. destruct Q as (Q1 & Q2 & Q3 & Q4).
  assert (G : forall gs, (length l <= length gs)%nat -> Forall (typed t) gs -> Forall (empty_maps t) gs ->
    exists gs' hid', match elemsv (ideal t) l gs with VOk all => VOk (split_at (length l) all) | VErr i e all => VErr i e (VSlice None) | VPan => VPan end = VOk (VSlice (Some (gs', hid'))) /\ Forall2 same_value xs gs').
  { intros gs L T M. destruct (elems_round xs l H gs L T M) as (gs' & E & S). rewrite E. exists gs', (skipn (length l) gs). split; [|exact S].
    assert (Ln : length gs' = length l) by (apply Forall2_length in H; apply Forall2_length in S; congruence).
    unfold split_at. rewrite <- Ln, firstn_app, firstn_all, Nat.sub_diag, skipn_app, skipn_all, Nat.sub_diag. cbn [firstn skipn app]. rewrite app_nil_r. reflexivity. }
  assert (R : forall n, Forall (typed t) (repeat (zero t) n) /\ Forall (empty_maps t) (repeat (zero t) n)).
  { intros n. split; apply Forall_forall; intros y Hy; apply repeat_spec in Hy as ->; [apply zero_typed|apply zero_empty]. }
  destruct (length l <=? length vis + length hid)%nat eqn:Le.
  - apply Nat.leb_le in Le. destruct (G (vis ++ hid)) as (gs' & hid' & E & S); [rewrite app_length; lia|apply Forall_app; tauto|apply Forall_app; tauto|].
    exists gs', hid'. split; [|exact S]. destruct (elemsv _ _ _); try discriminate. exact E.
  - apply Nat.leb_gt in Le. set (gs := if keep then _ else _).
    destruct (G gs) as (gs' & hid' & E & S).
    + subst gs. destruct keep; rewrite ?app_length, repeat_length; lia.
    + subst gs. destruct keep; [apply Forall_app; split; [tauto|]|]; apply R.
    + subst gs. destruct keep; [apply Forall_app; split; [tauto|]|]; apply R.
    + exists gs', hid'. split; [|exact S]. destruct (elemsv _ _ _); try discriminate. exact E.
Qed.

(** ** Maps *)
Lemma getk_none m k : ~ In k (map fst m) -> getk m k = None.
Proof. induction m as [|[k' g] m IHm]; cbn; intros H; [reflexivity|]. destruct (gkey_eqb k' k) eqn:E; [apply gkey_eq in E; tauto|]. apply IHm. tauto. Qed.
Lemma putk_new m k g : ~ In k (map fst m) -> putk m k g = m ++ [(k, g)].
Proof. induction m as [|[k' g'] m IHm]; cbn; intros H; [reflexivity|]. destruct (gkey_eqb k' k) eqn:E; [apply gkey_eq in E; tauto|]. rewrite IHm by tauto. reflexivity. Qed.
Lemma key_round k key r : encodes_key C k key r -> ideal_key C k r = inl key.
Proof.
  destruct k, key; cbn; try contradiction.
  - intros H. rewrite (is_string_text _ _ H). reflexivity.
  - intros H. rewrite (proj2 (is_integer_lit _ _ _ _ H)). reflexivity.
  - intros (t0 & H & E). rewrite (is_string_text _ _ H), E. reflexivity.
Qed.
Lemma key_sound k key r : encodes_key C k key r -> sound_key C k r.
Proof.
  destruct k, key; cbn; try contradiction.
  - eapply is_string_plain.
  - intros H. split; [apply number_quoted_sound; left; apply H|eapply is_integer_sound; eauto].
  - intros (t0 & H & E). eapply is_string_plain, H.
Qed.
Lemma entries_round k isstruct : forall m l, Forall2 (fun a x => encodes_key C k (fst a) (snd (fst x)) /\ encodes t (snd a) (snd x)) m l ->
  NoDup (map fst m) -> forall acc, (forall y, In y (map fst acc) -> ~ In y (map fst m)) ->
  exists m', ideal_entries C k (ideal t) isstruct (zero t) l acc = VOk (acc ++ m') /\
    Forall2 (fun a b => fst a = fst b /\ same_value (snd a) (snd b)) m m'.
Proof.
  induction 1 as [|[key x] [[i r] v] m l [Hk Hx] H IHl]; intros N acc D.
  - exists []. rewrite app_nil_r. split; [reflexivity|constructor].
  - cbn [map fst snd] in *. apply NoDup_cons_iff in N as [Nk N].
    assert (Na : ~ In key (map fst acc)) by (intros Hin; apply (D key Hin); left; reflexivity).
    destruct (IH _ _ (zero t) Hx (zero_typed t) (zero_empty t)) as (g' & E' & S').
    destruct (IHl N (acc ++ [(key, g')])) as (m' & E2 & S2).
    { intros y. rewrite map_app, in_app_iff. cbn. intros [Hy|[<-|[]]]; [|exact Nk]. intros Hy'. apply (D y Hy). right. exact Hy'. }
    exists ((key, g') :: m'). cbn [ideal_entries]. rewrite (key_round _ _ _ Hk), (getk_none _ _ Na), E', (putk_new _ _ _ Na), E2, <- app_assoc.
    split; [reflexivity|]. constructor; [cbn; auto|exact S2].
Qed.
End Elems.

Lemma mss_round : forall m l, Forall2 (fun a (x : (nat * bytes) * jv) => is_string (snd (fst x)) (fst a) /\ exists i r, snd x = JStr i r /\ is_string r (snd a)) m l ->
  NoDup (map fst m) -> forall acc, (forall y : bytes, In y (map fst acc) -> ~ In y (map fst m)) -> ideal_mss l acc = inl (acc ++ m).
Proof.
  induction 1 as [|[key x] [[i r] v] m l [Hk (j & q & Ev & Hx)] H IHl]; intros N acc D; [rewrite app_nil_r; reflexivity|].
  cbn [map fst snd] in *. subst v. apply NoDup_cons_iff in N as [Nk N]. cbn [ideal_mss]. rewrite (is_string_text _ _ Hk), (is_string_text _ _ Hx).
  rewrite nassoc_put_new by (intros Hin; apply (D key Hin); left; reflexivity). rewrite IHl; [rewrite <- app_assoc; reflexivity|exact N|].
  intros y. rewrite map_app, in_app_iff. cbn. intros [Hy|[<-|[]]]; [|exact Nk]. intros Hy'. apply (D y Hy). right. exact Hy'.
Qed.

(** ** Structs *)
Lemma first_pos_name names : forall j nm, NoDup names -> nth_error names j = Some nm -> first_pos (fun a => bytes_eqb a nm) names = Some j.
Proof.
  induction names as [|a names IHn]; intros [|j] nm N H; cbn in *; try discriminate.
  - injection H as ->. replace (bytes_eqb nm nm) with true by (symmetry; apply bytes_eqb_eq; reflexivity). reflexivity.
  - apply NoDup_cons_iff in N as [Na N]. destruct (bytes_eqb a nm) eqn:E.
    + apply bytes_eqb_eq in E. subst a. exfalso. apply Na. eapply nth_error_In, H.
    + rewrite (IHn j nm N H). reflexivity.
Qed.
Lemma name_selects fs j nm r : NoDup (map (fun x : (bytes * Z) * dt => fst (fst x)) fs) -> nth_error (map (fun x => fst (fst x)) fs) j = Some nm ->
  encodes_name O nm r -> field_for C O fs r = Some j.
Proof.
  intros N H [S R]. unfold field_for, key_text, pick. replace (if o_nounescape O then r else str_text r) with nm.
  - rewrite (first_pos_name _ j nm N H). reflexivity.
  - destruct (o_nounescape O); [symmetry; apply R; reflexivity|symmetry; apply is_string_text, S].
Qed.
(** The members with the fields they are for. *)
Definition for_field (rs : list (bytes * (gval -> jv -> Prop))) (gs : list gval) (x : (nat * bytes) * jv) (j : nat) : Prop :=
  exists nm R g, nth_error rs j = Some (nm, R) /\ nth_error gs j = Some g /\ encodes_name O nm (snd (fst x)) /\ R g (snd x).
Lemma fields_for : forall rs gs l rs0 gs0, length rs0 = length gs0 -> encodes_fields rs gs l ->
  Forall2 (for_field (rs0 ++ rs) (gs0 ++ gs)) l (seq (length rs0) (length rs)) /\ length rs = length gs.
Proof.
  induction rs as [|[nm R] rs IHr]; intros [|g gs] [|x l] rs0 gs0 L H; cbn in H; try contradiction.
  - split; [constructor|reflexivity].
  - destruct H as [[Hn Hg] H]. destruct (IHr gs l (rs0 ++ [(nm, R)]) (gs0 ++ [g]) ltac:(rewrite !app_length; cbn; lia) H) as [F Ln].
    rewrite <- !app_assoc, app_length in F. cbn [app length] in F. rewrite Nat.add_1_r in F. split; [|cbn; congruence].
    cbn [length seq]. constructor; [|exact F]. exists nm, R, g. rewrite !nth_error_app2 by lia. rewrite <- L, !Nat.sub_diag. cbn. auto.
Qed.
Lemma members_round sel (fs : list vdec) xs : forall l js, NoDup js -> forall gs, length gs = length xs ->
  Forall2 (fun (x : (nat * bytes) * jv) j => sel (snd (fst x)) = Some j /\ exists f g g' y, nth_error fs j = Some f /\ nth_error gs j = Some g /\
     nth_error xs j = Some y /\ f (snd x) g = VOk g' /\ same_value y g') l js ->
  exists gs', ideal_members O sel fs l gs = VOk gs' /\ length gs' = length gs /\
    (forall q, In q js -> exists g' y, nth_error gs' q = Some g' /\ nth_error xs q = Some y /\ same_value y g') /\
    (forall q, ~ In q js -> nth_error gs' q = nth_error gs q).
Proof.
  induction l as [|[[i r] v] l IHl]; intros js N gs Lg F; inversion F as [|? j ? js' [Sj (f & g & g' & y & Hf & Hg & Hy & Ef & Sy)] F']; subst.
  - exists gs. repeat split; try tauto. intros q [].
  - apply NoDup_cons_iff in N as [Nj N]. cbn [fst snd] in *.
    destruct (IHl js' N (set_nth gs j g')) as (gs' & E & Ln & H1 & H2).
    + rewrite set_nth_length. exact Lg.
    + clear - F' Nj. induction F' as [|x k l js' [A (f & g1 & g2 & y & B1 & B2 & B3 & B4 & B5)] F IHF]; constructor.
      * split; [exact A|]. exists f, g1, g2, y. rewrite set_nth_other by (intros ->; apply Nj; left; reflexivity). auto.
      * apply IHF. intros H. apply Nj. right. exact H.
    + exists gs'. cbn [ideal_members]. rewrite Sj, Hf, Hg, Ef, E. split; [reflexivity|]. split; [rewrite Ln; apply set_nth_length|]. split.
      * intros q [<-|Hq]; [|apply H1, Hq]. exists g', y. rewrite (H2 j Nj), (set_nth_same _ _ _ _ Hg). auto.
      * intros q Hq. cbn [In] in Hq. rewrite H2 by tauto. apply set_nth_other. tauto.
Qed.

Lemma nth_typed fs gs : typed_fields fs gs -> forall j x g, nth_error fs j = Some x -> nth_error gs j = Some g -> typed (snd x) g.
Proof. revert gs. induction fs as [|y fs IHf]; intros [|h gs] T [|j] x g Hx Hg; cbn in *; try discriminate; try contradiction; [injection Hx as <-; injection Hg as <-; tauto|]. eapply IHf; [apply T|eauto|eauto]. Qed.
Lemma nth_fresh fs gs : typed_fields fs gs -> fresh_fields fs gs -> forall j x g, nth_error fs j = Some x -> nth_error gs j = Some g -> empty_maps (snd x) g.
Proof. revert gs. induction fs as [|y fs IHf]; intros [|h gs] T M [|j] x g Hx Hg; cbn in *; try discriminate; try contradiction; [injection Hx as <-; injection Hg as <-; tauto|]. eapply IHf; [apply T|apply M|eauto|eauto]. Qed.
Lemma typed_fields_length fs : forall gs, typed_fields fs gs -> length gs = length fs.
Proof. induction fs as [|x fs IHf]; intros [|g gs] H; cbn in *; try contradiction; [reflexivity|]. f_equal. apply IHf, H. Qed.
Lemma Forall2_nth {A B} (R : A -> B -> Prop) : forall l l', length l = length l' ->
  (forall q, (q < length l)%nat -> exists a b, nth_error l q = Some a /\ nth_error l' q = Some b /\ R a b) -> Forall2 R l l'.
Proof.
  induction l as [|a l IHl]; intros [|b l'] L H; cbn in L; try discriminate; constructor.
  - destruct (H 0%nat ltac:(cbn; lia)) as (x & y & Ex & Ey & Q). cbn in *. congruence.
  - apply IHl; [lia|]. intros q Hq. apply (H (S q)). cbn. lia.
Qed.

(** ** The ideal decoder inverts encodings *)
Theorem ideal_encodes d : forall v x g, encodes d x v -> typed d g -> empty_maps d g -> exists g', ideal d v g = VOk g' /\ same_value x g'.
Proof.
  induction d as [x|id z|id z| |n t IH| |t IH|k t IH| |t IH|z fs IH] using dt_ind'; intros v x0 g E Ty Em.
  - apply scalar_round. exact E.
  - cbn [Encodes.encodes] in E. destruct x0; try contradiction. destruct v; try contradiction. destruct E as (t & St & U & Z0). cbn [Spec.ideal].
    rewrite (is_string_text _ _ St), U. unfold userv. cbn [fst snd]. eexists; split; [reflexivity|].
    destruct (Z.leb_spec z 0); [rewrite (Z0 H)|]; constructor.
  - cbn [Encodes.encodes] in E. destruct x0; try contradiction. destruct E as (U & Z0). cbn [Spec.ideal].
    rewrite U. unfold userv. cbn [fst snd]. eexists; split; [reflexivity|].
    destruct (Z.leb_spec z 0); [rewrite (Z0 H)|]; constructor.
  - cbn [Encodes.encodes] in E. destruct x0 as [| | | | | |[|]| | | | |]; try contradiction. destruct v as [| | | | |? ? [|]|]; try contradiction. cbn [typed] in Ty. subst g.
    eexists; split; [reflexivity|]. constructor. constructor.
  - cbn [Encodes.encodes] in E. destruct x0; try contradiction. destruct v; try contradiction. destruct E as [Ln F]. cbn [typed empty_maps] in Ty, Em. destruct g; try contradiction. destruct Ty as [Lg Ty].
    pose proof (Forall2_length _ _ _ F) as L2. cbn [Spec.ideal]. rewrite (firstn_all2 l0) by lia.
    destruct (elems_round t IH l l0 F l1 ltac:(lia) Ty Em) as (gs' & Ee & S). rewrite Ee. eexists; split; [reflexivity|]. constructor.
    pose proof (Forall2_length _ _ _ S). rewrite (skipn_all2 l1), app_nil_r by lia. rewrite firstn_all2 by lia. replace (n - length l0)%nat with 0%nat by lia. cbn. rewrite app_nil_r. exact S.
  - cbn [Encodes.encodes] in E. destruct x0 as [| | | | | | |[|]| | | |]; try contradiction. destruct v as [| | | | | |? ? [|]]; try contradiction. cbn [typed] in Ty. subst g.
    eexists; split; [reflexivity|]. constructor. constructor.
  - cbn [Encodes.encodes] in E. destruct x0 as [| | | | | | | |[[vis hid]|]| | |]; try contradiction; destruct v; try contradiction.
    + cbn [Spec.ideal]. assert (De : t = DEmpty \/ t <> DEmpty) by (destruct t; (left; reflexivity) || (right; discriminate)); destruct De as [->|Ne].
      * rewrite find_none_objects.
        -- eexists; split; [reflexivity|]. constructor. revert vis E. induction l as [|y l IHl]; intros vis E; inversion E as [|a ? vs ? Ea Es]; subst; [constructor|].
           cbn [length repeat]. constructor; [|apply IHl, Es]. destruct a as [| | | | | | |[|]| | | |]; try contradiction. constructor. constructor.
        -- clear - E. induction E as [|a y vs l Ea Es IHE]; [reflexivity|]. cbn [forallb]. rewrite IHE. destruct a as [| | | | | | |[|]| | | |]; try contradiction. destruct y; try contradiction. reflexivity.
      * destruct (slice_round t IH vis l (match fast_et t with Some _ => true | None => false end) (carried t) g E Ty Em) as (gs' & hid' & Es & S).
        exists (VSlice (Some (gs', hid'))). split; [|constructor; exact S]. rewrite <- Es. destruct t; try reflexivity. congruence.
    + eexists; split; [reflexivity|constructor].
  - cbn [Encodes.encodes] in E. destruct x0 as [| | | | | | | | |[m|]| |]; try contradiction; destruct v; try contradiction.
    + destruct E as (N & m1 & P & F). cbn [Spec.ideal].
      assert (Em' : (match g with VMap (Some m) => m | _ => [] end) = []). { cbn in Em. destruct g as [| | | | | | | | |[[|]|]| |]; try reflexivity. contradiction. }
      rewrite Em'. destruct (entries_round t IH k (is_struct t) m1 l F) with (acc := @nil (gkey * gval)) as (m' & Ee & S).
      * eapply Permutation_NoDup; [apply Permutation_map, P|exact N].
      * intros y [].
      * rewrite Ee. eexists; split; [reflexivity|]. econstructor; [exact P|exact S].
    + eexists; split; [reflexivity|constructor].
  - cbn [Encodes.encodes] in E. destruct x0 as [| | | | | | | | | |[m|]|]; try contradiction; destruct v; try contradiction.
    + destruct E as (N & m1 & P & F). cbn [Spec.ideal]. rewrite (mss_round m1 l F) with (acc := @nil (bytes * bytes)).
      * eexists; split; [reflexivity|]. constructor. exact P.
      * eapply Permutation_NoDup; [apply Permutation_map, P|exact N].
      * intros y [].
    + eexists; split; [reflexivity|constructor].
  - cbn [Encodes.encodes] in E. destruct x0 as [| | | | | | | | | | |[x1|]]; try contradiction.
    + destruct E as [Nn E]. destruct (IH v x1 (zero t) E (zero_typed t) (zero_empty t)) as (g' & Eg & S). exists (VPtr (Some g')). split; [|constructor; exact S].
      cbn [Spec.ideal]. destruct v; try discriminate; rewrite Eg; reflexivity.
    + destruct v; try discriminate. eexists; split; [reflexivity|constructor].
  - cbn [Encodes.encodes] in E. destruct x0 as [| | | | | | |xs| | | |]; try contradiction. destruct v; try contradiction. destruct E as (N & l1 & P & F).
    apply typed_struct in Ty as (gs & -> & Ty). apply empty_struct in Em. cbn [Spec.ideal].
    set (rs := map _ fs) in F. destruct (fields_for rs xs l1 [] [] eq_refl F) as [F2 Lx]. cbn [app length] in F2.
    destruct (Permutation_Forall2 (Permutation_sym P) F2) as (js & Pj & Fj).
    assert (Lrs : length rs = length fs) by (subst rs; apply map_length). pose proof (typed_fields_length _ _ Ty) as Lgs.
    destruct (members_round (field_for C O fs) (map (fun x => ideal (snd x)) fs) xs l js) with (gs := gs) as (gs' & Em' & Lg' & H1 & H2).
    + eapply Permutation_NoDup; [exact Pj|apply seq_NoDup].
    + lia.
    + clear - Fj IH Ty Em N Lgs. subst rs. induction Fj as [|y j l js (nm & R & xv & Hr & Hx & Hn & HR) Fj IHF]; constructor; [|exact IHF].
      rewrite nth_error_map in Hr. destruct (nth_error fs j) as [[[nm' off] t]|] eqn:Ef; [|discriminate]. cbn in Hr. injection Hr as <- <-.
      assert (Hj : (j < length gs)%nat) by (rewrite Lgs; apply nth_error_Some; congruence). destruct (nth_error gs j) as [g|] eqn:Eg; [|apply nth_error_Some in Eg; [contradiction|exact Hj]].
      split; [eapply name_selects; [exact N| |exact Hn]; rewrite nth_error_map, Ef; reflexivity|].
      rewrite Forall_forall in IH. destruct (IH _ (nth_error_In _ _ Ef) (snd y) xv g HR) as (g' & E' & S').
      * exact (nth_typed _ _ Ty _ _ _ Ef Eg).
      * exact (nth_fresh _ _ Ty Em _ _ _ Ef Eg).
      * exists (ideal t), g, g', xv. rewrite nth_error_map, Ef. cbn. auto.
    + rewrite Em'. eexists; split; [reflexivity|]. constructor. apply Forall2_nth; [lia|]. intros q Hq. destruct (H1 q) as (g' & y & A1 & A2 & A3).
      { eapply Permutation_in; [exact Pj|]. apply in_seq. lia. }
      exists y, g'. auto.
Qed.

(** ** Decode computes the ideal on encodings *)
Definition member_for (fs : list ((bytes * Z) * dt)) (xs : list gval) (y : (nat * bytes) * jv) (j : nat) : Prop :=
  exists nm off t g, nth_error fs j = Some ((nm, off), t) /\ nth_error xs j = Some g /\ encodes_name O nm (snd (fst y)) /\ encodes t g (snd y).
Lemma struct_members z fs xs i j l : encodes (DStruct z fs) (VStruct xs) (JObj i j l) ->
  NoDup (map (fun x => fst (fst x)) fs) /\ Forall (fun y => exists j, member_for fs xs y j) l.
Proof.
  cbn [Encodes.encodes]. intros (N & l1 & P & F). split; [exact N|]. set (rs := map _ fs) in F. destruct (fields_for rs xs l1 [] [] eq_refl F) as [F2 Lx]. cbn [app length] in F2.
  apply Forall_forall. intros y Hy. apply (Permutation_in _ P) in Hy. clear - F2 Hy. subst rs. induction F2 as [|y' q l1 js (nm & R & g & Hr & Hx & Hn & HR) F IHF]; [destruct Hy|].
  destruct Hy as [<-|Hy]; [|apply IHF, Hy]. rewrite nth_error_map in Hr. destruct (nth_error fs q) as [[[nm' off] t]|] eqn:Ef; [|discriminate].
  injection Hr as <- <-. exists q, nm', off, t, g. auto.
Qed.
Lemma Forall2_right {A B} (R : A -> B -> Prop) (Q : B -> Prop) l l' : (forall a b, R a b -> Q b) -> Forall2 R l l' -> Forall Q l'.
Proof. intros H F. induction F; constructor; eauto. Qed.
Lemma encodes_sound d : forall v x, encodes d x v -> sound C O d v.
Proof.
  induction d as [x|id z|id z| |n t IH| |t IH|k t IH| |t IH|z fs IH] using dt_ind'; intros v x0 E; try exact I.
  - eapply scalar_sound, E.
  - cbn [Encodes.encodes] in E. destruct x0; try contradiction. destruct v; try contradiction. destruct E as (t & St & _). eapply is_string_plain, St.
  - cbn [Encodes.encodes] in E. destruct x0; try contradiction. destruct v; try contradiction. destruct E as [Ln F]. pose proof (Forall2_length _ _ _ F). cbn [Spec.sound].
    split; [lia|]. rewrite firstn_all2 by lia. eapply Forall2_right; [|exact F]. intros a b. apply IH.
  - cbn [Encodes.encodes] in E. assert (De : t = DEmpty \/ t <> DEmpty) by (destruct t; (left; reflexivity) || (right; discriminate)).
    destruct x0 as [| | | | | | | |[[vis hid]|]| | |]; try contradiction; destruct v; try contradiction; destruct De as [->|Ne].
    + cbn [Spec.sound]. clear - E. induction E as [|a y vs l Ea Es IHE]; [reflexivity|]. cbn [forallb]. rewrite IHE. destruct a as [| | | | | | |[|]| | | |]; try contradiction. destruct y; try contradiction. reflexivity.
    + assert (F : Forall (Spec.sound C O t) l) by (eapply Forall2_right; [|exact E]; intros a b; apply IH). destruct t; try exact F. congruence.
    + congruence.
    + destruct t; try exact I. congruence.
  - cbn [Encodes.encodes] in E. destruct x0 as [| | | | | | | | |[m|]| |]; try contradiction; destruct v; try contradiction; try exact I.
    destruct E as (_ & m1 & _ & F). cbn [Spec.sound]. eapply Forall2_right; [|exact F]. intros a b [A B]. split; [eapply key_sound, A|eapply IH, B].
  - cbn [Encodes.encodes] in E. destruct x0 as [| | | | | | | | | |[m|]|]; try contradiction; destruct v; try contradiction; try exact I.
    destruct E as (_ & m1 & _ & F). cbn [Spec.sound]. eapply Forall2_right; [|exact F]. intros a b [A (i1 & r & -> & B)]. split; eapply is_string_plain; eassumption.
  - cbn [Encodes.encodes] in E. destruct x0 as [| | | | | | | | | | |[x1|]]; try contradiction.
    + destruct E as [_ E]. cbn [Spec.sound]. destruct v; try exact I; eapply IH, E.
    + destruct v; try discriminate. exact I.
  - destruct x0 as [| | | | | | |xs| | | |]; try contradiction. destruct v; try contradiction. apply struct_members in E as [N F]. cbn [Spec.sound].
    eapply Forall_impl; [|exact F]. intros y (q & nm & off & t & g & Ef & Hg & Hn & Ht). split; [right; destruct Hn as [Hn _]; eapply is_string_plain, Hn|].
    rewrite (name_selects fs q nm) by (exact N || exact Hn || (rewrite nth_error_map, Ef; reflexivity)). rewrite nth_error_map, Ef. cbn.
    rewrite Forall_forall in IH. eapply (IH _ (nth_error_In _ _ Ef)), Ht.
Qed.
Lemma encodes_ctl d : no_inner_ptr d = true -> forall v x, encodes d x v -> ctl C O d v.
Proof.
  induction d as [x|id z|id z| |n t IH| |t IH|k t IH| |t IH|z fs IH] using dt_ind'; intros Np v x0 E; try exact I; try discriminate.
  - cbn [Encodes.encodes] in E. destruct x0; try contradiction. destruct v; try contradiction. destruct E as [Ln F]. pose proof (Forall2_length _ _ _ F). cbn [ctl].
    rewrite firstn_all2 by lia. eapply Forall2_right; [|exact F]. intros a b. apply IH, Np.
  - cbn [Encodes.encodes no_inner_ptr ctl] in *. destruct x0 as [| | | | | | | |[[vis hid]|]| | |]; try contradiction; destruct v; try contradiction; destruct (fast_et t); try exact I.
    eapply Forall2_right; [|exact E]. intros a b. apply IH, Np.
  - cbn [Encodes.encodes no_inner_ptr ctl] in *. destruct x0 as [| | | | | | | | |[m|]| |]; try contradiction; destruct v; try contradiction; try exact I.
    destruct E as (_ & m1 & _ & F). eapply Forall2_right; [|exact F]. intros a b [A B]. eapply (IH Np), B.
  - destruct x0 as [| | | | | | |xs| | | |]; try contradiction. destruct v; try contradiction. apply struct_members in E as [N F]. cbn [ctl no_inner_ptr] in *.
    rewrite forallb_forall in Np.
    eapply Forall_impl; [|exact F]. intros y (q & nm & off & t & g & Ef & Hg & Hn & Ht).
    pose proof (name_selects fs q nm _ N ltac:(rewrite nth_error_map, Ef; reflexivity) Hn) as Sel.
    destruct Hn as [Hs Hr]. rewrite (field_for_pick C O fs _ (or_intror (is_string_plain _ _ Hs)) (is_string_body _ _ Hs)) in Sel.
    replace (key_of O (snd (fst y))) with (if o_nounescape O then snd (fst y) else txt (snd (fst y))).
    + rewrite Sel, nth_error_map, Ef. cbn. rewrite Forall_forall in IH. eapply (IH _ (nth_error_In _ _ Ef)); [exact (Np _ (nth_error_In _ _ Ef))|exact Ht].
    + unfold key_of, txt, unesc. destruct (o_nounescape O); [reflexivity|]. destruct (Valid _); reflexivity.
Qed.
Lemma encodes_ctl_root d : root_shape d = true -> forall v x, encodes d x v -> ctl_root C O d v.
Proof.
  intros Rs v x E. apply ctl_root_top. revert Rs v x E.
  induction d as [x|id z|id z| |n t IH| |t IH|k t IH| |t IH|z fs IH] using dt_ind'; intros Np v x0 E;
    try (cbn [ctl_top]; erewrite ctl_on by (eapply encodes_ctl; [exact Np|exact E]); discriminate).
  - cbn [ctl_top lag_of]. destruct v; discriminate.
  - cbn [ctl_top Encodes.encodes root_shape] in *. destruct x0 as [| | | | | | | | | | |[x1|]]; try contradiction.
    + destruct E as [_ E]. destruct v; try exact I; eapply IH; eassumption.
    + destruct v; try discriminate. exact I.
Qed.
End RT.

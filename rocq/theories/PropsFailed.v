(** C69: what a failed call leaves in the destination.  For the types of C53 every
    document; otherwise the documents of [ctl_root]. *)
From Verif Require Import Base NumSpec StrSpec JsonNum Types AppendType Token FloatLit Heap Machine Dt Dec Control Root Elab Value Dval Sep Refine Spec Typed SpecProofs Main Parse World Elaborate PropsDecode PropsStruct PropsSlice PropsStrict Actual PropsExact PropsAnyLeaf PropsSafe.
Open Scope Z_scope.

(** ** Specification *)
Section Left.
Variables (C : cfg) (O : opts) (s : bytes).

(** A struct: the members [l1] before the failing one have been decoded; the field of the
    failing one holds what its own failed decoding leaves; all others are as after [l1]. *)
Definition struct_left (fs : list ((bytes * Z) * dt)) (l : list ((nat * bytes) * jv)) (i : nat) (e : err) (gs gs' : list gval) : Prop :=
  exists l1 k key w l2, l = l1 ++ ((k, key), w) :: l2 /\ length gs' = length gs /\
  (forall q nm t g, nth_error fs q = Some (nm, t) -> nth_error gs q = Some g -> act_field_for C O fs key <> Some q ->
     exists g', nth_error gs' q = Some g' /\ in_turn (actual C O s t) (act_assigned C O fs q l1) g = VOk g') /\
  match act_field_for C O fs key with
  | None => e = EUnknownField /\ i = k /\ o_unknown O = true
  | Some q => exists nm t g g1 g', nth_error fs q = Some (nm, t) /\ nth_error gs q = Some g /\ nth_error gs' q = Some g' /\
      in_turn (actual C O s t) (act_assigned C O fs q l1) g = VOk g1 /\ actual C O s t w g1 = VErr i e g'
  end.

(** A map, likewise: an entry for the failing value is there, with what is left of it; if
    the key itself cannot be parsed nothing is added for it. *)
Definition map_left (k : dkey) (t : dt) (l : list ((nat * bytes) * jv)) (i : nat) (e : err) (m m' : list (gkey * gval)) : Prop :=
  exists l1 p key w l2, l = l1 ++ ((p, key), w) :: l2 /\
  match act_key C k key with
  | Some (inr e') => e = e' /\ i = p /\
      forall key', entry (actual C O s t) (is_struct t) (zero t) (act_gives C k l1 key') (getk m key') = VOk (getk m' key')
  | Some (inl gk) =>
      (forall key', key' <> gk -> entry (actual C O s t) (is_struct t) (zero t) (act_gives C k l1 key') (getk m key') = VOk (getk m' key')) /\
      exists old g', entry (actual C O s t) (is_struct t) (zero t) (act_gives C k l1 gk) (getk m gk) = VOk old /\
        actual C O s t w (match old with Some g => if is_struct t then zero t else g | None => zero t end) = VErr i e g' /\
        getk m' gk = Some g'
  | None => False
  end.

(** Elements: those before the failing one are decoded, the failing one holds what is left
    of it, the later ones are as before. *)
Definition elems_left (t : dt) (l : list jv) (i : nat) (e : err) (gs gs' : list gval) : Prop :=
  exists l1 w l2, l = l1 ++ w :: l2 /\ length gs' = length gs /\
  (forall q x, nth_error l1 q = Some x -> exists g g', nth_error gs q = Some g /\ nth_error gs' q = Some g' /\ actual C O s t x g = VOk g') /\
  (exists g g', nth_error gs (length l1) = Some g /\ nth_error gs' (length l1) = Some g' /\ actual C O s t w g = VErr i e g') /\
  (forall q, (length l1 < q)%nat -> nth_error gs' q = nth_error gs q).

(** A slice holding [g].  If the array fits into the capacity, or the slice is not one of
    the specialised types, the elements are as in [elems_left] and the slice already has
    the length of the whole array (the specialised ones: the old length); a specialised
    slice that has to grow is unchanged. *)
Definition slice_left (t : dt) (l : list jv) (i : nat) (e : err) (g g' : gval) : Prop :=
  let '(vis, hid) := contents g in
  if (length l <=? length vis + length hid)%nat then
    exists all, elems_left t l i e (vis ++ hid) all /\
      g' = (let n := if fast t then length vis else length l in VSlice (Some (firstn n all, skipn n all)))
  else if fast t then
    g' = g /\ exists l1 w l2 g1 g2, l = l1 ++ w :: l2 /\ actual C O s t w g1 = VErr i e g2 /\
              forall x, In x l1 -> exists g1 g2, actual C O s t x g1 = VOk g2
  else exists all, elems_left t l i e (if carried t then vis ++ repeat (zero t) (length l - length vis) else repeat (zero t) (length l)) all /\
      g' = VSlice (Some (all, [])).

(** ** Proof *)
Lemma members_left fs l i e : forall gs gs',
  ideal_members O (act_field_for C O fs) (map (fun x => actual C O s (snd x)) fs) l gs = VErr i e gs' -> struct_left fs l i e gs gs'.
Proof.
  induction l as [|[[p key] x] l IH]; intros gs gs' H; [discriminate|]. cbn [ideal_members] in H.
  destruct (act_field_for C O fs key) as [r|] eqn:Ek.
  - rewrite nth_error_map in H. destruct (nth_error fs r) as [[nm0 t0]|] eqn:Ef; [|discriminate]. cbn [option_map snd] in H.
    destruct (nth_error gs r) as [g0|] eqn:Eg; [|discriminate].
    destruct (actual C O s t0 x g0) as [g1|i1 e1 g1|] eqn:Ex; [| |discriminate].
    + apply IH in H as (l1 & k' & key' & w & l2 & -> & Ln & A & B). rewrite set_nth_length in Ln.
      exists (((p, key), x) :: l1), k', key', w, l2. split; [reflexivity|]. split; [exact Ln|].
      assert (Asg : forall q, act_assigned C O fs q (((p, key), x) :: l1) = if Nat.eqb r q then x :: act_assigned C O fs q l1 else act_assigned C O fs q l1).
      { intros q. unfold act_assigned. cbn [filter fst snd]. rewrite Ek. destruct (Nat.eqb r q); reflexivity. }
      assert (Turn : forall q nm t g g2, nth_error fs q = Some (nm, t) -> nth_error (set_nth gs r g1) q = Some g2 -> nth_error gs q = Some g ->
        in_turn (actual C O s t) (act_assigned C O fs q (((p, key), x) :: l1)) g = in_turn (actual C O s t) (act_assigned C O fs q l1) g2).
      { intros q nm t g g2 Fq Gq Gq0. rewrite Asg. destruct (Nat.eqb_spec r q) as [->|Nq].
        - rewrite Ef in Fq. injection Fq as <- <-. rewrite Eg in Gq0. injection Gq0 as <-. cbn [in_turn]. rewrite Ex.
          rewrite (set_nth_same _ _ _ _ Eg) in Gq. injection Gq as <-. reflexivity.
        - rewrite set_nth_other in Gq by exact Nq. rewrite Gq0 in Gq. injection Gq as <-. reflexivity. }
      assert (Ex' : forall q g, nth_error gs q = Some g -> exists g2, nth_error (set_nth gs r g1) q = Some g2).
      { intros q g Gq. destruct (nth_error (set_nth gs r g1) q) eqn:E; [eauto|]. apply nth_error_None in E. rewrite set_nth_length in E.
        assert (q < length gs)%nat by (apply nth_error_Some; congruence). lia. }
      split.
      * intros q nm t g Fq Gq Nk. destruct (Ex' q g Gq) as (g2 & G2). destruct (A q nm t g2 Fq G2 Nk) as (g' & G' & T). exists g'. split; [exact G'|].
        rewrite (Turn q nm t g g2 Fq G2 Gq). exact T.
      * destruct (act_field_for C O fs key') as [q|]; [|exact B]. destruct B as (nm & t & g & g2 & g' & Fq & Gq & G' & T & X).
        destruct (nth_error gs q) as [g3|] eqn:G3.
        -- exists nm, t, g3, g2, g'. split; [exact Fq|]. split; [reflexivity|]. split; [exact G'|]. split; [|exact X].
           rewrite (Turn q nm t g3 g Fq Gq G3). exact T.
        -- exfalso. apply nth_error_None in G3. assert (q < length (set_nth gs r g1))%nat by (apply nth_error_Some; congruence).
           rewrite set_nth_length in *. lia.
    + injection H as <- <- <-. exists [], p, key, x, l. split; [reflexivity|]. split; [apply set_nth_length|]. rewrite Ek. split.
      * intros q nm t g Fq Gq Nk. exists g. split; [|reflexivity]. rewrite set_nth_other; [exact Gq|congruence].
      * exists nm0, t0, g0, g0, g1. repeat split; try assumption. eapply set_nth_same, Eg.
  - destruct (o_unknown O) eqn:U.
    + injection H as <- <- <-. exists [], p, key, x, l. split; [reflexivity|]. split; [reflexivity|]. rewrite Ek. split; [|auto].
      intros q nm t g Fq Gq _. exists g. auto.
    + apply IH in H as (l1 & k' & key' & w & l2 & -> & Ln & A & B). exists (((p, key), x) :: l1), k', key', w, l2.
      split; [reflexivity|]. split; [exact Ln|].
      assert (Asg : forall q, act_assigned C O fs q (((p, key), x) :: l1) = act_assigned C O fs q l1).
      { intros q. unfold act_assigned. cbn [filter fst snd]. rewrite Ek. reflexivity. }
      split.
      * intros q nm t g Fq Gq Nk. rewrite Asg. eauto.
      * destruct (act_field_for C O fs key') as [q|]; [|exact B]. destruct B as (nm & t & g & g2 & g' & B). exists nm, t, g, g2, g'. rewrite Asg. exact B.
Qed.

Lemma entries_left k t l i e : forall m m',
  act_entries C k (actual C O s t) (is_struct t) (zero t) l m = VErr i e m' -> map_left k t l i e m m'.
Proof.
  induction l as [|[[p key] x] l IH]; intros m m' H; [discriminate|]. cbn [act_entries] in H.
  destruct (act_key C k key) as [[gk|e0]|] eqn:Ek; [| |discriminate].
  - destruct (actual C O s t x _) as [g1|i1 e1 g1|] eqn:Ex in H; [| |discriminate].
    + apply IH in H as (l1 & p' & key' & w & l2 & -> & B). exists (((p, key), x) :: l1), p', key', w, l2. split; [reflexivity|].
      assert (Step : forall q, entry (actual C O s t) (is_struct t) (zero t) (act_gives C k (((p, key), x) :: l1) q) (getk m q) =
        entry (actual C O s t) (is_struct t) (zero t) (act_gives C k l1 q) (getk (putk m gk g1) q)).
      { intros q. unfold act_gives. cbn [filter fst snd]. rewrite Ek. destruct (gkey_eqb gk q) eqn:Eq.
        - apply gkey_eq in Eq. subst q. cbn [map snd entry]. rewrite Ex, Refine3.getk_put. reflexivity.
        - rewrite getk_put_other; [reflexivity|]. intros ->. rewrite Refine3.gkey_refl in Eq. discriminate. }
      destruct (act_key C k key') as [[gk'|e']|]; [| |exact B].
      * destruct B as (A & old & g' & B & X). split; [intros q Nq; rewrite Step; auto|]. exists old, g'. rewrite Step. auto.
      * destruct B as (-> & -> & A). split; [reflexivity|]. split; [reflexivity|]. intros q. rewrite Step. apply A.
    + injection H as <- <- <-. exists [], p, key, x, l. split; [reflexivity|]. rewrite Ek. split.
      * intros q Nq. cbn. rewrite getk_put_other by congruence. reflexivity.
      * exists (getk m gk), g1. split; [reflexivity|]. split; [exact Ex|]. apply Refine3.getk_put.
  - injection H as <- <- <-. exists [], p, key, x, l. split; [reflexivity|]. rewrite Ek. repeat split.
Qed.

Lemma elemsv_left t l i e : forall gs gs', elemsv (actual C O s t) l gs = VErr i e gs' -> elems_left t l i e gs gs'.
Proof.
  induction l as [|x l IH]; intros gs gs' H; [destruct gs; discriminate|]. destruct gs as [|g gs]; [discriminate|]. cbn [elemsv] in H.
  destruct (actual C O s t x g) as [g1|i1 e1 g1|] eqn:Ex; [| |discriminate].
  - destruct (elemsv (actual C O s t) l gs) as [a|i2 e2 a|] eqn:Er; try discriminate. injection H as -> -> <-.
    apply IH in Er as (l1 & w & l2 & -> & Ln & A & (g2 & g3 & B1 & B2 & B3) & D). exists (x :: l1), w, l2. split; [reflexivity|]. split; [cbn; lia|].
    split; [|split].
    + intros [|q] y Hy; cbn in *; [injection Hy as <-; exists g, g1; auto|eauto].
    + exists g2, g3. auto.
    + intros [|q] Lq; cbn in *; [lia|]. apply D. lia.
  - injection H as <- <- <-. exists [], x, l. split; [reflexivity|]. split; [reflexivity|]. split; [|split].
    + intros [|q]; discriminate.
    + exists g, g1. auto.
    + intros [|q] Lq; cbn in *; [lia|reflexivity].
Qed.

Lemma slicev_left t l i e g g' : slicev (actual C O s t) (zero t) (fast t) (carried t) l g = VErr i e g' -> slice_left t l i e g g'.
Proof.
  unfold slicev, slice_left. destruct l as [|x0 l0]; [discriminate|]. set (l := x0 :: l0). destruct (contents g) as [vis hid].
  destruct (_ <=? _)%nat eqn:Le.
  - destruct (elemsv _ l _) as [a|i1 e1 a|] eqn:E; try discriminate. intros [= -> -> <-]. exists a. split; [apply elemsv_left, E|reflexivity].
  - apply Nat.leb_gt in Le. destruct (elemsv _ l _) as [a|i1 e1 a|] eqn:E; try discriminate. intros [= -> -> <-].
    apply elemsv_left in E. destruct (fast t).
    + split; [reflexivity|]. destruct E as (l1 & w & l2 & El & _ & A & (g1 & g2 & _ & _ & X) & _). exists l1, w, l2, g1, g2. split; [exact El|]. split; [exact X|].
      intros x Hx. apply In_nth_error in Hx as (q & Hq). destruct (A q x Hq) as (a1 & a2 & _ & _ & Y). eauto.
    + exists a. split; [exact E|]. unfold split_at.
      assert (La : length a = length l).
      { destruct E as (_ & _ & _ & _ & Ln & _). rewrite Ln. destruct (carried t); [rewrite app_length|]; rewrite repeat_length; lia. }
      assert (Sp : forall n, n = length a -> VSlice (Some (firstn n a, skipn n a)) = VSlice (Some (a, []))) by (intros n ->; rewrite firstn_all, skipn_all; reflexivity).
      apply Sp. symmetry. exact La.
Qed.
End Left.

(** ** The theorems *)
(** What is left of a value of type [d] when the decoding of [v] fails at [i] with [e]. *)
Definition left (C : cfg) (O : opts) (s : bytes) (d : dt) (v : jv) (i : nat) (e : err) (g g' : gval) : Prop :=
  match d, v with
  | DStruct _ fs, JObj _ _ l => exists gs gs', g = VStruct gs /\ g' = VStruct gs' /\ struct_left C O s fs l i e gs gs'
  | DMap k t, JObj _ _ l => exists m', g' = VMap (Some m') /\ map_left C O s k t l i e (entries_of g) m'
  | DArr n t, JArr _ _ l => exists gs gs', g = VArr gs /\ g' = VArr gs' /\ elems_left C O s t (firstn n l) i e gs gs'
  | DSlice t, JArr _ _ l => slice_left C O s t l i e g g'
  | DPtr t, JNull _ => False
  | DPtr t, v => exists g1, g' = VPtr (Some g1) /\ actual C O s t v (zero t) = VErr i e g1
  | DJson _ _, _ | DText _ _, JStr _ _ => exists c, i = jidx v /\ e = EUser c (* the user's method failed *)
  | _, _ => g' = g (* nothing has been stored *)
  end.

(** In the decoding function, hence at every place inside a document too. *)
Theorem C69_left_anywhere C O s d v i e g g' : actual C O s d v g = VErr i e g' -> left C O s d v i e g g'.
Proof.
  destruct d as [x|id z|id z| |n t| |t|k t| |t|z fs]; cbn [actual left].
  - destruct (act_sc C x v); cbn [lput]; try discriminate. intros [= <- <- <-]. reflexivity.
  - destruct v; try (intros [= _ _ <-]; reflexivity); try discriminate. unfold userv. destruct (snd _); [|discriminate]. intros [= <- <- _]. eauto.
  - unfold userv. destruct (snd _); [|discriminate]. intros [= <- <- _]. eauto.
  - destruct v; try (intros [= _ _ <-]; reflexivity); discriminate.
  - destruct v; try (intros [= _ _ <-]; reflexivity); try discriminate. destruct g; try discriminate.
    destruct (elemsv _ _ _) as [a|i1 e1 a|] eqn:E; try discriminate. intros [= -> -> <-]. eexists _, _. split; [reflexivity|]. split; [reflexivity|].
    apply elemsv_left, E.
  - destruct v; try (intros [= _ _ <-]; reflexivity); discriminate.
  - destruct v; try (intros [= _ _ <-]; reflexivity); try (destruct t; discriminate). destruct t; try discriminate; apply slicev_left.
  - destruct v; try (intros [= _ _ <-]; reflexivity); try discriminate. fold (entries_of g).
    destruct (act_entries _ _ _ _ _ _ _) as [a|i1 e1 a|] eqn:E; try discriminate. intros [= -> -> <-]. eexists. split; [reflexivity|].
    eapply entries_left, E.
  - destruct v; try (intros [= _ _ <-]; reflexivity); try discriminate. destruct (act_mss l []) as [|[]]; [discriminate|]. intros [= _ _ <-]. reflexivity.
  - destruct v; try discriminate; (destruct (actual C O s t _ (zero t)) as [a|i1 e1 a|] eqn:E; try discriminate; intros [= -> -> <-]; eauto).
  - destruct v; try (intros [= _ _ <-]; reflexivity); try discriminate. destruct g; try discriminate.
    destruct (ideal_members _ _ _ _ _) as [a|i1 e1 a|] eqn:E; try discriminate. intros [= -> -> <-]. eexists _, _. split; [reflexivity|]. split; [reflexivity|].
    apply members_left, E.
Qed.

Theorem C69_failed_call C O E dis T d stk D s v a h g F :
  decoder_for C E dis T d stk D -> any_document O d = true -> no_quoted_numbers d = true ->
  json_text s v -> variable C d h a g F ->
  forall r e D' h', Decode C O stk D s (TOk (flat 0 v)) (Some a) h = Ret r (Some e) D' h' ->
  exists i g' F', r = Z.of_nat i /\ variable C d h' a g' F' /\ left C O s d v i e g g'.
Proof.
  intros Df A N J V r e D' h' Ed. destruct (C53_plain_types_are_safe C O E dis T d stk D s v a h g F Df A N J V) as (r1 & er & D1 & h1 & g' & F' & Q & V' & _ & _ & X).
  rewrite Ed in Q. injection Q as <- <- <- <-. destruct (actual C O s d v g) as [g1|i e1 g1|] eqn:Ea; [destruct X as (_ & X & _); discriminate| |contradiction].
  destruct X as (-> & [= <-] & ->). exists i, g1, F'. split; [reflexivity|]. split; [exact V'|]. eapply C69_left_anywhere, Ea.
Qed.
(** Other types, on the documents of [ctl_root]. *)
Theorem C69_failed_call_other_types C O E dis T d stk D s v a h g F :
  decoder_for C E dis T d stk D -> ctl_root C O d v -> json_text s v -> variable C d h a g F ->
  forall r e D' h', Decode C O stk D s (TOk (flat 0 v)) (Some a) h = Ret r (Some e) D' h' ->
  exists i g' F', r = Z.of_nat i /\ variable C d h' a g' F' /\ left C O s d v i e g g'.
Proof.
  intros Df Ct J V r e D' h' Ed. pose proof (C15_characterised_partial C O E dis T d stk D s v a h g F Df J Ct V) as Q.
  destruct (actual C O s d v g) as [g1|i e1 g1|] eqn:Ea.
  - destruct Q as (D1 & h1 & F1 & Q & _). rewrite Ed in Q. discriminate.
  - destruct Q as (D1 & h1 & F1 & Q & V' & _). rewrite Ed in Q. injection Q as -> <- <- <-. exists i, g1, F1. split; [reflexivity|]. split; [exact V'|]. eapply C69_left_anywhere, Ea.
  - rewrite Q in Ed. discriminate.
Qed.

(** Cases.  struct { A int8; B [3]float64; C string }: the member C has been stored, the
    array up to its failing element, A was not reached. *)
Definition failed_text : bytes := bs "{""C"":""y"",""B"":[1,2,{}],""A"":7}".
Definition failed_doc : jv := Eval vm_compute in tree_of failed_text.
Example C69_case :
  decoder_for wC plain_env false safe_ty safe_dt safe_stk (dyn0 safe_stk) /\ any_document strict safe_dt = true /\ no_quoted_numbers safe_dt = true /\
  json_text failed_text failed_doc /\
  exists D' h' F', Decode wC strict safe_stk (dyn0 safe_stk) failed_text (TOk (flat 0 failed_doc)) (Some (1%nat, 0)) (world 48) = Ret 18 (Some EUnexpected) D' h' /\
    variable wC safe_dt h' (1%nat, 0) (VStruct [VInt 0; VArr [VFloat (FN 1 0 false); VFloat (FN 2 0 false); VFloat (FN 0 0 false)]; VStr (bs "y")]) F'.
Proof.
  assert (Df : decoder_for wC plain_env false safe_ty safe_dt safe_stk (dyn0 safe_stk)).
  { eapply new_decoder; [apply plain_env_sizes|vm_compute; reflexivity|vm_compute; reflexivity|vm_compute; reflexivity]. }
  assert (J : json_text failed_text failed_doc) by (apply parse_sound; vm_compute; reflexivity).
  split; [exact Df|]. split; [reflexivity|]. split; [reflexivity|]. split; [exact J|].
  pose proof (world_rep safe_dt (df_layout _ _ _ _ _ _ _ Df)) as V.
  destruct (C53_plain_types_are_safe wC strict plain_env false safe_ty safe_dt safe_stk _ failed_text failed_doc (1%nat, 0) (world 48) _ [] Df eq_refl eq_refl J V)
    as (r & er & D' & h' & g' & F' & Q & V' & _ & _ & X).
  exists D', h', F'.
  match type of X with match ?A with _ => _ end => let y := eval vm_compute in A in replace A with y in X by (vm_compute; reflexivity) end.
  destruct X as (-> & -> & ->). split; [exact Q|exact V'].
Qed.
(** []int: into spare capacity the elements before the error are written and the length is
    kept; a slice that is too small is unchanged. *)
Example C69_case_slices :
  let v := JArr 0 10 [JInt 1 (bs "7"); JInt 3 (bs "8"); JNull 5; JStr 7 []] in
  let t := DSc (SInt (NK true W64)) in
  let one := VInt 1 in
  actual wC default_opts [] (DSlice t) v (VSlice (Some ([one], [one; one; one]))) =
    VErr 7 EUnexpected (VSlice (Some ([VInt 7], [VInt 8; VInt 0; one]))) /\
  actual wC default_opts [] (DSlice t) v (VSlice (Some ([one], []))) = VErr 7 EUnexpected (VSlice (Some ([one], []))).
Proof. cbn zeta. split; vm_compute; reflexivity. Qed.

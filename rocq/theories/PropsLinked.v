(** C74: types around recursive structs: what a successful call stores and what a failed call
    leaves, at any depth (compare C69 and C70, for plain types).  For the types of C62 every
    document; otherwise the documents of [wlast]. *)
From Verif Require Import Base NumSpec StrSpec JsonNum Types AppendType Token FloatLit Heap Machine Dt Dec Control Root Elab Value Dval Sep Refine Spec Typed SpecProofs Main Parse World Elaborate PropsDecode PropsStruct PropsSlice PropsStrict Actual PropsExact PropsAnyLeaf PropsSafe PropsFailed Rec RecSpec RecActual Mixed MixedSpec MixedTyped PropsMixed PropsMixedStruct PropsAcceptRec.
Open Scope Z_scope.

(** ** Specification *)
(** [f], [dec]: what decoding one value into an element or a field gives. *)
(** A struct.  Success: every field holds the result of decoding the members for it one after
    the other, starting with its old value; without DisallowUnknownFields members for no
    field count for nothing, with it there are none. *)
Definition struct_stored (O : opts) (sel : bytes -> option nat) (dec : list vdec) (l : list ((nat * bytes) * jv)) (gs gs' : list gval) : Prop :=
  length gs' = length gs /\
  (forall q f g, nth_error dec q = Some f -> nth_error gs q = Some g -> exists g', nth_error gs' q = Some g' /\ in_turn f (given sel q l) g = VOk g') /\
  (o_unknown O = true -> forall k key w, In ((k, key), w) l -> sel key <> None).
(** Failure: the members [l1] before the failing one have been decoded; the field of the
    failing one holds what its own failed decoding leaves; all others are as after [l1]. *)
Definition struct_stopped (O : opts) (sel : bytes -> option nat) (dec : list vdec) (l : list ((nat * bytes) * jv)) (i : nat) (e : err) (gs gs' : list gval) : Prop :=
  exists l1 k key w l2, l = l1 ++ ((k, key), w) :: l2 /\ length gs' = length gs /\
  (forall q f g, nth_error dec q = Some f -> nth_error gs q = Some g -> sel key <> Some q ->
     exists g', nth_error gs' q = Some g' /\ in_turn f (given sel q l1) g = VOk g') /\
  match sel key with
  | None => e = EUnknownField /\ i = k /\ o_unknown O = true
  | Some q => exists f g g1 g', nth_error dec q = Some f /\ nth_error gs q = Some g /\ nth_error gs' q = Some g' /\
      in_turn f (given sel q l1) g = VOk g1 /\ f w g1 = VErr i e g'
  end.
(** A map.  [b]: the values are structs, which are cleared before an entry is decoded again. *)
Definition map_stored (C : cfg) (k : dkey) (f : vdec) (b : bool) (z : gval) (l : list ((nat * bytes) * jv)) (m m' : list (gkey * gval)) : Prop :=
  forall key, entry f b z (act_gives C k l key) (getk m key) = VOk (getk m' key).
Definition map_stopped (C : cfg) (k : dkey) (f : vdec) (b : bool) (z : gval) (l : list ((nat * bytes) * jv)) (i : nat) (e : err) (m m' : list (gkey * gval)) : Prop :=
  exists l1 p key w l2, l = l1 ++ ((p, key), w) :: l2 /\
  match act_key C k key with
  | Some (inr e') => e = e' /\ i = p /\ map_stored C k f b z l1 m m'
  | Some (inl gk) =>
      (forall key', key' <> gk -> entry f b z (act_gives C k l1 key') (getk m key') = VOk (getk m' key')) /\
      exists old g', entry f b z (act_gives C k l1 gk) (getk m gk) = VOk old /\
        f w (match old with Some g => if b then z else g | None => z end) = VErr i e g' /\
        getk m' gk = Some g'
  | None => False
  end.
(** Elements, stored into [gs]. *)
Definition elems_stored (f : vdec) (l : list jv) (gs gs' : list gval) : Prop :=
  length gs' = length gs /\ (length l <= length gs)%nat /\
  (forall q x, nth_error l q = Some x -> exists g g', nth_error gs q = Some g /\ nth_error gs' q = Some g' /\ f x g = VOk g') /\
  (forall q, (length l <= q)%nat -> nth_error gs' q = nth_error gs q).
Definition elems_stopped (f : vdec) (l : list jv) (i : nat) (e : err) (gs gs' : list gval) : Prop :=
  exists l1 w l2, l = l1 ++ w :: l2 /\ length gs' = length gs /\
  (forall q x, nth_error l1 q = Some x -> exists g g', nth_error gs q = Some g /\ nth_error gs' q = Some g' /\ f x g = VOk g') /\
  (exists g g', nth_error gs (length l1) = Some g /\ nth_error gs' (length l1) = Some g' /\ f w g = VErr i e g') /\
  (forall q, (length l1 < q)%nat -> nth_error gs' q = nth_error gs q).
(** A slice of [n] elements is decoded into the elements and the spare elements it has, if
    they are enough; otherwise into new memory, to which the old elements are copied if they
    are composite ([keep]).  The slice has the new length, also after an error. *)
Definition room (z : gval) (keep : bool) (n : nat) (g : gval) : list gval :=
  let '(vis, hid) := contents g in
  if (n <=? length vis + length hid)%nat then vis ++ hid
  else if keep then vis ++ repeat z (n - length vis) else repeat z n.
Definition cut_at (n : nat) (l : list gval) : gval := VSlice (Some (firstn n l, skipn n l)).
Definition slice_stored (f : vdec) (z : gval) (keep : bool) (l : list jv) (g g' : gval) : Prop :=
  match l with
  | [] => g' = VSlice (Some ([], []))
  | _ => exists all, elems_stored f l (room z keep (length l) g) all /\ g' = cut_at (length l) all
  end.
Definition slice_stopped (f : vdec) (z : gval) (keep : bool) (l : list jv) (i : nat) (e : err) (g g' : gval) : Prop :=
  exists all, elems_stopped f l i e (room z keep (length l) g) all /\ g' = cut_at (length l) all.

Section Types.
Variables (C : cfg) (O : opts) (s : bytes).
(** The value of a pointer to the struct, or a new struct. *)
Definition pointee (fs : rfields) (g : gval) : gval := match g with VPtr (Some old) => old | _ => VStruct (rzeros fs) end.
(** A recursive struct with the fields [fs]. *)
Definition rec_stored (fs : rfields) (v : jv) (g g' : gval) : Prop :=
  match v with
  | JNull _ => g' = g
  | JObj _ _ l => exists gs gs', g = VStruct gs /\ g' = VStruct gs' /\
      struct_stored O (act_field_for C O (shape fs)) (map (fun x => act_field C O s fs (actual_rec C O s fs) (snd x)) fs) l gs gs'
  | _ => False
  end.
Definition rec_stopped (fs : rfields) (v : jv) (i : nat) (e : err) (g g' : gval) : Prop :=
  match v with
  | JNull _ => False
  | JObj _ _ l => exists gs gs', g = VStruct gs /\ g' = VStruct gs' /\
      struct_stopped O (act_field_for C O (shape fs)) (map (fun x => act_field C O s fs (actual_rec C O s fs) (snd x)) fs) l i e gs gs'
  | _ => i = jidx v /\ e = EUnexpected /\ g' = g
  end.
(** A field of it. *)
Definition field_stored (fs : rfields) (k : rk) (v : jv) (g g' : gval) : Prop :=
  match k, v with
  | RSub d, _ => actual C O s d v g = VOk g'
  | RSelf, JNull _ => g' = VPtr None
  | RSelf, JObj _ _ _ => exists g1, g' = VPtr (Some g1) /\ rec_stored fs v (pointee fs g) g1
  | RSlice, JNull _ => g' = VSlice None
  | RSlice, JArr _ _ l => slice_stored (actual_rec C O s fs) (VStruct (rzeros fs)) true l g g'
  | RMap _, JNull _ => g' = VMap None
  | RMap k, JObj _ _ l => exists m', g' = VMap (Some m') /\ map_stored C k (actual_rec C O s fs) true (VStruct (rzeros fs)) l (entries_of g) m'
  | _, _ => False
  end.
Definition field_stopped (fs : rfields) (k : rk) (v : jv) (i : nat) (e : err) (g g' : gval) : Prop :=
  match k, v with
  | RSub d, _ => left C O s d v i e g g'
  | _, JNull _ => False
  | RSelf, JObj _ _ _ => exists g1, g' = VPtr (Some g1) /\ rec_stopped fs v i e (pointee fs g) g1
  | RSlice, JArr _ _ l => slice_stopped (actual_rec C O s fs) (VStruct (rzeros fs)) true l i e g g'
  | RMap k, JObj _ _ l => exists m', g' = VMap (Some m') /\ map_stopped C k (actual_rec C O s fs) true (VStruct (rzeros fs)) l i e (entries_of g) m'
  | _, _ => i = jidx v /\ e = EUnexpected /\ g' = g
  end.
(** The types around recursive structs. *)
Definition stored (t : wt) (v : jv) (g g' : gval) : Prop :=
  match t, v with
  | WSub d, _ => actual C O s d v g = VOk g'
  | WRec _ fs, _ => rec_stored fs v g g'
  | WSlice _, JNull _ => g' = VSlice None
  | WSlice t, JArr _ _ l => slice_stored (wactual C O s t) (wzero t) (carried (flatt t)) l g g'
  | WMap _ _, JNull _ => g' = VMap None
  | WMap k t, JObj _ _ l => exists m', g' = VMap (Some m') /\ map_stored C k (wactual C O s t) (is_struct (flatt t)) (wzero t) l (entries_of g) m'
  | WPtr _, JNull _ => g' = VPtr None
  | WPtr t, _ => exists g1, g' = VPtr (Some g1) /\ wactual C O s t v (wzero t) = VOk g1
  | WStruct _ _, JNull _ => g' = g
  | WStruct _ fs, JObj _ _ l => exists gs gs', g = VStruct gs /\ g' = VStruct gs' /\
      struct_stored O (act_field_for C O (wshape fs)) (map (fun x => wactual C O s (snd x)) fs) l gs gs'
  | _, _ => False
  end.
Definition stopped (t : wt) (v : jv) (i : nat) (e : err) (g g' : gval) : Prop :=
  match t, v with
  | WSub d, _ => left C O s d v i e g g'
  | WRec _ fs, _ => rec_stopped fs v i e g g'
  | WPtr _, JNull _ => False
  | WPtr t, _ => exists g1, g' = VPtr (Some g1) /\ wactual C O s t v (wzero t) = VErr i e g1
  | _, JNull _ => False
  | WSlice t, JArr _ _ l => slice_stopped (wactual C O s t) (wzero t) (carried (flatt t)) l i e g g'
  | WMap k t, JObj _ _ l => exists m', g' = VMap (Some m') /\ map_stopped C k (wactual C O s t) (is_struct (flatt t)) (wzero t) l i e (entries_of g) m'
  | WStruct _ fs, JObj _ _ l => exists gs gs', g = VStruct gs /\ g' = VStruct gs' /\
      struct_stopped O (act_field_for C O (wshape fs)) (map (fun x => wactual C O s (snd x)) fs) l i e gs gs'
  | _, _ => i = jidx v /\ e = EUnexpected /\ g' = g
  end.

(** ** Proof *)
Lemma given_cons sel q p key x l : given sel q (((p, key), x) :: l) =
  match sel key with Some j => if Nat.eqb j q then x :: given sel q l else given sel q l | None => given sel q l end.
Proof. unfold given. cbn [filter fst snd]. destruct (sel key) as [j|]; [destruct (Nat.eqb j q)|]; reflexivity. Qed.
Lemma nth_ex {A} (l l' : list A) q g : length l' = length l -> nth_error l q = Some g -> exists g2, nth_error l' q = Some g2.
Proof.
  intros Ln Gq. destruct (nth_error l' q) eqn:E; [eauto|]. apply nth_error_None in E. assert (q < length l)%nat by (apply nth_error_Some; congruence). lia.
Qed.
(** One member more. *)
Lemma member_turn sel dec p key x l r f0 g0 g1 gs : sel key = Some r -> nth_error dec r = Some f0 -> nth_error gs r = Some g0 -> f0 x g0 = VOk g1 ->
  forall q f g g2, nth_error dec q = Some f -> nth_error (set_nth gs r g1) q = Some g2 -> nth_error gs q = Some g ->
  in_turn f (given sel q (((p, key), x) :: l)) g = in_turn f (given sel q l) g2.
Proof.
  intros Ek Ef Eg Ex q f g g2 Fq Gq Gq0. rewrite given_cons, Ek. destruct (Nat.eqb_spec r q) as [->|Nq].
  - rewrite Ef in Fq. injection Fq as <-. rewrite Eg in Gq0. injection Gq0 as <-. cbn [in_turn]. rewrite Ex.
    rewrite (set_nth_same _ _ _ _ Eg) in Gq. injection Gq as <-. reflexivity.
  - rewrite set_nth_other in Gq by exact Nq. rewrite Gq0 in Gq. injection Gq as <-. reflexivity.
Qed.
Lemma members_ok sel dec l : forall gs gs', ideal_members O sel dec l gs = VOk gs' -> struct_stored O sel dec l gs gs'.
Proof.
  induction l as [|[[p key] x] l IH]; intros gs gs' H; cbn [ideal_members] in H.
  { injection H as <-. split; [reflexivity|]. split; [intros q f g _ Eg; exists g; split; [exact Eg|reflexivity]|intros _ k key w []]. }
  destruct (sel key) as [r|] eqn:Ek.
  - destruct (nth_error dec r) as [f0|] eqn:Ef; [|discriminate]. destruct (nth_error gs r) as [g0|] eqn:Eg; [|discriminate].
    destruct (f0 x g0) as [g1| |] eqn:Ex; try discriminate. apply IH in H as (Ln & A & B). rewrite set_nth_length in Ln. split; [exact Ln|]. split.
    + intros q f g Fq Gq. destruct (nth_ex gs (set_nth gs r g1) q g (set_nth_length _ _ _) Gq) as (g2 & G2). destruct (A q f g2 Fq G2) as (g' & G' & T).
      exists g'. split; [exact G'|]. rewrite (member_turn sel dec p key x l r f0 g0 g1 gs Ek Ef Eg Ex q f g g2 Fq G2 Gq). exact T.
    + intros U k key' w [[= <- <- <-]|I]; [congruence|eauto].
  - destruct (o_unknown O) eqn:U; [discriminate|]. apply IH in H as (Ln & A & B). split; [exact Ln|]. split; [|intros U'; congruence].
    intros q f g Fq Gq. rewrite given_cons, Ek. eauto.
Qed.
Lemma members_stop sel dec l i e : forall gs gs', ideal_members O sel dec l gs = VErr i e gs' -> struct_stopped O sel dec l i e gs gs'.
Proof.
  induction l as [|[[p key] x] l IH]; intros gs gs' H; [discriminate|]. cbn [ideal_members] in H.
  destruct (sel key) as [r|] eqn:Ek.
  - destruct (nth_error dec r) as [f0|] eqn:Ef; [|discriminate]. destruct (nth_error gs r) as [g0|] eqn:Eg; [|discriminate].
    destruct (f0 x g0) as [g1|i1 e1 g1|] eqn:Ex; [| |discriminate].
    + apply IH in H as (l1 & k' & key' & w & l2 & -> & Ln & A & B). rewrite set_nth_length in Ln.
      exists (((p, key), x) :: l1), k', key', w, l2. split; [reflexivity|]. split; [exact Ln|].
      pose proof (member_turn sel dec p key x l1 r f0 g0 g1 gs Ek Ef Eg Ex) as Turn. split.
      * intros q f g Fq Gq Nk. destruct (nth_ex gs (set_nth gs r g1) q g (set_nth_length _ _ _) Gq) as (g2 & G2). destruct (A q f g2 Fq G2 Nk) as (g' & G' & T).
        exists g'. split; [exact G'|]. rewrite (Turn q f g g2 Fq G2 Gq). exact T.
      * destruct (sel key') as [q|]; [|exact B]. destruct B as (f & g & g2 & g' & Fq & Gq & G' & T & X).
        destruct (nth_ex (set_nth gs r g1) gs q g (eq_sym (set_nth_length _ _ _)) Gq) as (g3 & G3).
        exists f, g3, g2, g'. split; [exact Fq|]. split; [exact G3|]. split; [exact G'|]. split; [|exact X]. rewrite (Turn q f g3 g Fq Gq G3). exact T.
    + injection H as <- <- <-. exists [], p, key, x, l. split; [reflexivity|]. split; [apply set_nth_length|]. rewrite Ek. split.
      * intros q f g Fq Gq Nk. exists g. split; [|reflexivity]. rewrite set_nth_other; [exact Gq|congruence].
      * exists f0, g0, g0, g1. repeat split; try assumption. eapply set_nth_same, Eg.
  - destruct (o_unknown O) eqn:U.
    + injection H as <- <- <-. exists [], p, key, x, l. split; [reflexivity|]. split; [reflexivity|]. rewrite Ek. split; [|auto].
      intros q f g Fq Gq _. exists g. auto.
    + apply IH in H as (l1 & k' & key' & w & l2 & -> & Ln & A & B). exists (((p, key), x) :: l1), k', key', w, l2.
      split; [reflexivity|]. split; [exact Ln|]. split.
      * intros q f g Fq Gq Nk. rewrite given_cons, Ek. eauto.
      * destruct (sel key') as [q|]; [|exact B]. destruct B as (f & g & g2 & g' & B). exists f, g, g2, g'. rewrite given_cons, Ek. exact B.
Qed.

Lemma entry_turn k (f : vdec) (b : bool) z (p : nat) key x l gk g1 m : act_key C k key = Some (inl gk) -> f x (match getk m gk with Some g => if b then z else g | None => z end) = VOk g1 ->
  forall q, entry f b z (act_gives C k (((p, key), x) :: l) q) (getk m q) = entry f b z (act_gives C k l q) (getk (putk m gk g1) q).
Proof.
  intros Ek Ex q. unfold act_gives. cbn [filter fst snd]. rewrite Ek. destruct (gkey_eqb gk q) eqn:Eq.
  - apply gkey_eq in Eq. subst q. cbn [map snd entry]. rewrite Ex, Refine3.getk_put. reflexivity.
  - rewrite getk_put_other; [reflexivity|]. intros ->. rewrite Refine3.gkey_refl in Eq. discriminate.
Qed.
Lemma entries_ok k f b z l : forall m m', act_entries C k f b z l m = VOk m' -> map_stored C k f b z l m m'.
Proof.
  induction l as [|[[p key] x] l IH]; intros m m' H; cbn [act_entries] in H; [injection H as <-; intros q; reflexivity|].
  destruct (act_key C k key) as [[gk|e0]|] eqn:Ek; try discriminate.
  destruct (f x _) as [g1| |] eqn:Ex in H; try discriminate. apply IH in H. intros q. rewrite (entry_turn k f b z p key x l gk g1 m Ek Ex). apply H.
Qed.
Lemma entries_stop k f b z l i e : forall m m', act_entries C k f b z l m = VErr i e m' -> map_stopped C k f b z l i e m m'.
Proof.
  induction l as [|[[p key] x] l IH]; intros m m' H; [discriminate|]. cbn [act_entries] in H.
  destruct (act_key C k key) as [[gk|e0]|] eqn:Ek; [| |discriminate].
  - destruct (f x _) as [g1|i1 e1 g1|] eqn:Ex in H; [| |discriminate].
    + apply IH in H as (l1 & p' & key' & w & l2 & -> & B). exists (((p, key), x) :: l1), p', key', w, l2. split; [reflexivity|].
      pose proof (entry_turn k f b z p key x l1 gk g1 m Ek Ex) as Step.
      destruct (act_key C k key') as [[gk'|e']|]; [| |exact B].
      * destruct B as (A & old & g' & B & X). split; [intros q Nq; rewrite Step; auto|]. exists old, g'. rewrite Step. auto.
      * destruct B as (-> & -> & A). split; [reflexivity|]. split; [reflexivity|]. intros q. rewrite Step. apply A.
    + injection H as <- <- <-. exists [], p, key, x, l. split; [reflexivity|]. rewrite Ek. split.
      * intros q Nq. cbn. rewrite getk_put_other by congruence. reflexivity.
      * exists (getk m gk), g1. split; [reflexivity|]. split; [exact Ex|]. apply Refine3.getk_put.
  - injection H as <- <- <-. exists [], p, key, x, l. split; [reflexivity|]. rewrite Ek. repeat split.
Qed.

Lemma elems_ok f l : forall gs gs', elemsv f l gs = VOk gs' -> elems_stored f l gs gs'.
Proof.
  induction l as [|x l IH]; intros gs gs' H.
  { assert (gs' = gs) as -> by (destruct gs; cbn in H; congruence). split; [reflexivity|]. split; [cbn; lia|]. split; [intros [|q]; discriminate|reflexivity]. }
  destruct gs as [|g gs]; [discriminate|]. cbn [elemsv] in H.
  destruct (f x g) as [g1| |] eqn:Ex; try discriminate. destruct (elemsv f l gs) as [a| |] eqn:Er; try discriminate. injection H as <-.
  destruct (IH gs a Er) as (Ln & Le & A & B). split; [cbn; lia|]. split; [cbn; lia|]. split.
  - intros [|q] y Hy; cbn in *; [injection Hy as <-; exists g, g1; auto|eauto].
  - intros [|q] Lq; cbn in *; [lia|]. apply B. lia.
Qed.
Lemma elems_stop f l i e : forall gs gs', elemsv f l gs = VErr i e gs' -> elems_stopped f l i e gs gs'.
Proof.
  induction l as [|x l IH]; intros gs gs' H; [destruct gs; discriminate|]. destruct gs as [|g gs]; [discriminate|]. cbn [elemsv] in H.
  destruct (f x g) as [g1|i1 e1 g1|] eqn:Ex; [| |discriminate].
  - destruct (elemsv f l gs) as [a|i2 e2 a|] eqn:Er; try discriminate. injection H as -> -> <-.
    apply IH in Er as (l1 & w & l2 & -> & Ln & A & (g2 & g3 & B1 & B2 & B3) & D). exists (x :: l1), w, l2. split; [reflexivity|]. split; [cbn; lia|].
    split; [|split].
    + intros [|q] y Hy; cbn in *; [injection Hy as <-; exists g, g1; auto|eauto].
    + exists g2, g3. auto.
    + intros [|q] Lq; cbn in *; [lia|]. apply D. lia.
  - injection H as <- <- <-. exists [], x, l. split; [reflexivity|]. split; [reflexivity|]. split; [|split].
    + intros [|q]; discriminate.
    + exists g, g1. auto.
    + intros [|q] Lq; cbn in *; [lia|reflexivity].
Qed.
Lemma slicev_room f z keep l g : l <> [] -> slicev f z false keep l g =
  match elemsv f l (room z keep (length l) g) with VOk all => VOk (cut_at (length l) all) | VErr i e all => VErr i e (cut_at (length l) all) | VPan => VPan end.
Proof.
  intros N. unfold slicev, room. destruct l as [|x0 l0]; [congruence|]. set (l := x0 :: l0). destruct (contents g) as [vis hid].
  destruct (_ <=? _)%nat; (destruct (elemsv f l _); reflexivity).
Qed.
Lemma slice_ok f z keep l g g' : slicev f z false keep l g = VOk g' -> slice_stored f z keep l g g'.
Proof.
  intros H. destruct l as [|x0 l0]; [cbn in H; injection H as <-; reflexivity|]. rewrite slicev_room in H by discriminate. unfold slice_stored.
  destruct (elemsv f _ _) as [a| |] eqn:E; try discriminate. injection H as <-. exists a. split; [apply elems_ok, E|reflexivity].
Qed.
Lemma slice_stop f z keep l i e g g' : slicev f z false keep l g = VErr i e g' -> slice_stopped f z keep l i e g g'.
Proof.
  intros H. destruct l as [|x0 l0]; [discriminate|]. rewrite slicev_room in H by discriminate.
  destruct (elemsv f _ _) as [|i1 e1 a|] eqn:E; try discriminate. injection H as -> -> <-. exists a. split; [apply elems_stop, E|reflexivity].
Qed.

(** ** In the decoding function, hence at every place inside a document *)
Theorem C74_struct_stored fs v g g' : actual_rec C O s fs v g = VOk g' -> rec_stored fs v g g'.
Proof.
  rewrite actual_rec_eq. destruct v as [i|i b|i r|i r|i r|i j l|i j l]; cbn [act_struct rec_stored]; try discriminate; [intros [= <-]; reflexivity|].
  destruct g; try discriminate. unfold act_fields. destruct (ideal_members _ _ _ _ _) as [a| |] eqn:E; try discriminate. intros [= <-].
  eexists _, _. split; [reflexivity|]. split; [reflexivity|]. apply members_ok, E.
Qed.
Theorem C74_struct_stopped fs v i e g g' : actual_rec C O s fs v g = VErr i e g' -> rec_stopped fs v i e g g'.
Proof.
  rewrite actual_rec_eq. destruct v as [p|p b|p r|p r|p r|p j l|p j l]; cbn [act_struct rec_stopped jidx]; try discriminate; try (intros [= <- <- <-]; auto; fail).
  destruct g; try discriminate. unfold act_fields. destruct (ideal_members _ _ _ _ _) as [|i1 e1 a|] eqn:E; try discriminate. intros [= -> -> <-].
  eexists _, _. split; [reflexivity|]. split; [reflexivity|]. apply members_stop, E.
Qed.
Theorem C74_field_stored fs k v g g' : act_field C O s fs (actual_rec C O s fs) k v g = VOk g' -> field_stored fs k v g g'.
Proof.
  destruct k as [| |kt|d]; cbn [act_field field_stored].
  - destruct v as [p|p b|p r|p r|p r|p j l|p j l]; try discriminate; [intros [= <-]; reflexivity|]. fold (pointee fs g).
    destruct (actual_rec _ _ _ _ _ _) as [g1| |] eqn:E; try discriminate. intros [= <-]. exists g1. split; [reflexivity|]. apply C74_struct_stored, E.
  - destruct v as [p|p b|p r|p r|p r|p j l|p j l]; try discriminate; [intros [= <-]; reflexivity|]. apply slice_ok.
  - destruct v as [p|p b|p r|p r|p r|p j l|p j l]; try discriminate; [intros [= <-]; reflexivity|]. fold (entries_of g).
    destruct (act_entries _ _ _ _ _ _ _) as [m| |] eqn:E; try discriminate. intros [= <-]. exists m. split; [reflexivity|]. apply entries_ok, E.
  - intros H. destruct v; exact H.
Qed.
Theorem C74_field_stopped fs k v i e g g' : act_field C O s fs (actual_rec C O s fs) k v g = VErr i e g' -> field_stopped fs k v i e g g'.
Proof.
  destruct k as [| |kt|d]; cbn [act_field field_stopped].
  - destruct v as [p|p b|p r|p r|p r|p j l|p j l]; try discriminate; try (intros [= <- <- <-]; auto; fail). fold (pointee fs g).
    destruct (actual_rec _ _ _ _ _ _) as [|i1 e1 g1|] eqn:E; try discriminate. intros [= -> -> <-]. exists g1. split; [reflexivity|]. apply C74_struct_stopped, E.
  - destruct v as [p|p b|p r|p r|p r|p j l|p j l]; try discriminate; try (intros [= <- <- <-]; auto; fail). apply slice_stop.
  - destruct v as [p|p b|p r|p r|p r|p j l|p j l]; try discriminate; try (intros [= <- <- <-]; auto; fail). fold (entries_of g).
    destruct (act_entries _ _ _ _ _ _ _) as [|i1 e1 m|] eqn:E; try discriminate. intros [= -> -> <-]. exists m. split; [reflexivity|]. apply entries_stop, E.
  - intros H. apply C69_left_anywhere in H. destruct v; exact H.
Qed.
Theorem C74_stored_anywhere t v g g' : wactual C O s t v g = VOk g' -> stored t v g g'.
Proof.
  destruct t as [d|z fs|t|k t|t|z fs]; unfold wactual; cbn [walk stored]; fold (wactual C O s).
  - intros H. destruct v; exact H.
  - intros H. apply C74_struct_stored in H. destruct v; exact H.
  - destruct v as [p|p b|p r|p r|p r|p j l|p j l]; try discriminate; [intros [= <-]; reflexivity|]. apply slice_ok.
  - destruct v as [p|p b|p r|p r|p r|p j l|p j l]; try discriminate; [intros [= <-]; reflexivity|]. fold (entries_of g).
    destruct (act_entries _ _ _ _ _ _ _) as [m| |] eqn:E; try discriminate. intros [= <-]. exists m. split; [reflexivity|]. apply entries_ok, E.
  - destruct v as [p|p b|p r|p r|p r|p j l|p j l]; try (intros [= <-]; reflexivity); (destruct (wactual C O s t _ (wzero t)) as [g1| |] eqn:E; try discriminate; intros [= <-]; eauto).
  - destruct v as [p|p b|p r|p r|p r|p j l|p j l]; try discriminate; [intros [= <-]; reflexivity|]. destruct g; try discriminate.
    destruct (ideal_members _ _ _ _ _) as [a| |] eqn:E; try discriminate. intros [= <-]. eexists _, _. split; [reflexivity|]. split; [reflexivity|]. apply members_ok, E.
Qed.
Theorem C74_stopped_anywhere t v i e g g' : wactual C O s t v g = VErr i e g' -> stopped t v i e g g'.
Proof.
  destruct t as [d|z fs|t|k t|t|z fs]; unfold wactual; cbn [walk stopped]; fold (wactual C O s).
  - intros H. apply C69_left_anywhere in H. destruct v; exact H.
  - intros H. apply C74_struct_stopped in H. destruct v; exact H.
  - destruct v as [p|p b|p r|p r|p r|p j l|p j l]; try discriminate; try (intros [= <- <- <-]; auto; fail). apply slice_stop.
  - destruct v as [p|p b|p r|p r|p r|p j l|p j l]; try discriminate; try (intros [= <- <- <-]; auto; fail). fold (entries_of g).
    destruct (act_entries _ _ _ _ _ _ _) as [|i1 e1 m|] eqn:E; try discriminate. intros [= -> -> <-]. exists m. split; [reflexivity|]. apply entries_stop, E.
  - destruct v as [p|p b|p r|p r|p r|p j l|p j l]; try discriminate; (destruct (wactual C O s t _ (wzero t)) as [|i1 e1 g1|] eqn:E; try discriminate; intros [= -> -> <-]; eauto).
  - destruct v as [p|p b|p r|p r|p r|p j l|p j l]; try discriminate; try (intros [= <- <- <-]; auto; fail). destruct g; try discriminate.
    destruct (ideal_members _ _ _ _ _) as [|i1 e1 a|] eqn:E; try discriminate. intros [= -> -> <-]. eexists _, _. split; [reflexivity|]. split; [reflexivity|]. apply members_stop, E.
Qed.
End Types.

(** ** The calls *)
Theorem C74_successful_call C O E dis T t stk D s v a h g F D' h' :
  wdecoder_for C E dis T t stk D -> wany C O t = true -> wno_quoted_numbers t = true -> json_text s v -> wvariable C t h a g F ->
  Decode C O stk D s (TOk (flat 0 v)) (Some a) h = Ret (-1) None D' h' ->
  exists g' F', wvariable C t h' a g' F' /\ stored C O s t v g g'.
Proof.
  intros Df A N J V Ed. destruct (C62_types_around_linked_structs_are_safe C O E dis T t stk D s v a h g F Df A N J V) as (r1 & er & D1 & h1 & g' & F' & Q & V' & _ & _ & X).
  rewrite Ed in Q. injection Q as <- <- <- <-. destruct (wactual C O s t v g) as [g1|i e g1|] eqn:Ea; [|destruct X as (_ & X & _); discriminate|contradiction].
  destruct X as (_ & _ & ->). exists g1, F'. split; [exact V'|]. apply C74_stored_anywhere, Ea.
Qed.
Theorem C74_failed_call C O E dis T t stk D s v a h g F r e D' h' :
  wdecoder_for C E dis T t stk D -> wany C O t = true -> wno_quoted_numbers t = true -> json_text s v -> wvariable C t h a g F ->
  Decode C O stk D s (TOk (flat 0 v)) (Some a) h = Ret r (Some e) D' h' ->
  exists i g' F', r = Z.of_nat i /\ wvariable C t h' a g' F' /\ stopped C O s t v i e g g'.
Proof.
  intros Df A N J V Ed. destruct (C62_types_around_linked_structs_are_safe C O E dis T t stk D s v a h g F Df A N J V) as (r1 & er & D1 & h1 & g' & F' & Q & V' & _ & _ & X).
  rewrite Ed in Q. injection Q as <- <- <- <-. destruct (wactual C O s t v g) as [g1|i e1 g1|] eqn:Ea; [destruct X as (_ & X & _); discriminate| |contradiction].
  destruct X as (-> & [= <-] & ->). exists i, g1, F'. split; [reflexivity|]. split; [exact V'|]. apply C74_stopped_anywhere, Ea.
Qed.
(** All types with recursive structs (also through slices and maps), on the documents of [wlast]. *)
Theorem C74_other_types C O E dis T t stk D s v a h g F r er D' h' :
  wdecoder_for C E dis T t stk D -> json_text s v -> wlast C O true t v -> wno_empty_number C O t v -> wvariable C t h a g F ->
  Decode C O stk D s (TOk (flat 0 v)) (Some a) h = Ret r er D' h' ->
  exists g' F', wvariable C t h' a g' F' /\
    match er with
    | None => r = -1 /\ stored C O s t v g g'
    | Some e => exists i, r = Z.of_nat i /\ stopped C O s t v i e g g'
    end.
Proof.
  intros Df J Ct N V Ed. pose proof (wcharacterised C O E dis T t stk D s v a h g F Df J Ct N V) as Q.
  destruct (wactual C O s t v g) as [g1|i e g1|] eqn:Ea; [| |contradiction]; destruct Q as (D1 & h1 & F1 & Q & V' & _); rewrite Ed in Q; injection Q as -> -> <- <-; exists g1, F1; (split; [exact V'|]).
  - split; [reflexivity|]. apply C74_stored_anywhere, Ea.
  - exists i. split; [reflexivity|]. apply C74_stopped_anywhere, Ea.
Qed.

(** ** Cases *)
(** *map[string]Node, Node = struct { V int8; left, R *Node }: a document that is accepted, and
    one that is refused inside the second tree: its R has been stored up to V, its own V was not
    reached. *)
Definition linked_value : gval := Eval vm_compute in match wactual wC strict mapp_text mapp_wt mapp_doc (wzero mapp_wt) with VOk g => g | _ => VInt 0 end.
Example C74_case :
  wdecoder_for wC E_doc false mapp_ty mapp_wt mapp_stk (dyn0 mapp_stk) /\ wany wC strict mapp_wt = true /\ wno_quoted_numbers mapp_wt = true /\
  json_text mapp_text mapp_doc /\ json_text mapp_bad (tree_of mapp_bad) /\ wvariable wC mapp_wt (world 8) (1%nat, 0) (wzero mapp_wt) [] /\
  exists D1 h1 F1 D2 h2 F2,
    Decode wC strict mapp_stk (dyn0 mapp_stk) mapp_text (TOk (flat 0 mapp_doc)) (Some (1%nat, 0)) (world 8) = Ret (-1) None D1 h1 /\
    wvariable wC mapp_wt h1 (1%nat, 0) linked_value F1 /\ wdecoder_for wC E_doc false mapp_ty mapp_wt mapp_stk D1 /\
    Decode wC strict mapp_stk D1 mapp_bad (TOk (flat 0 (tree_of mapp_bad))) (Some (1%nat, 0)) h1 = Ret 45 (Some EUnexpected) D2 h2 /\
    wvariable wC mapp_wt h2 (1%nat, 0) (VPtr (Some (VMap (Some [(GStr (bs "a"), dnode 0 (Some (dnode 3 None None)) None); (GStr (bs "b"), dnode 0 None (Some (dnode 7 None None)))])))) F2.
Proof.
  destruct C62_case as (Df & A & N & J2 & V & _).
  assert (J1 : json_text mapp_text mapp_doc) by (apply parse_sound; vm_compute; reflexivity).
  split; [exact Df|]. split; [exact A|]. split; [exact N|]. split; [exact J1|]. split; [exact J2|]. split; [exact V|].
  destruct (C62_types_around_linked_structs_are_safe wC strict E_doc false mapp_ty mapp_wt mapp_stk _ mapp_text mapp_doc (1%nat, 0) (world 8) _ [] Df A N J1 V)
    as (r & er & D1 & h1 & g1 & F1 & Q1 & V1 & _ & Df1 & X1).
  match type of X1 with match ?A with _ => _ end => let y := eval vm_compute in A in replace A with y in X1 by (vm_compute; reflexivity) end.
  destruct X1 as (-> & -> & ->). specialize (Df1 eq_refl).
  destruct (C62_types_around_linked_structs_are_safe wC strict E_doc false mapp_ty mapp_wt mapp_stk _ mapp_bad (tree_of mapp_bad) (1%nat, 0) h1 _ F1 Df1 A N J2 V1)
    as (r & er & D2 & h2 & g2 & F2 & Q2 & V2 & _ & _ & X2).
  match type of X2 with match ?A with _ => _ end => let y := eval vm_compute in A in replace A with y in X2 by (vm_compute; reflexivity) end.
  destruct X2 as (-> & -> & ->). exists D1, h1, F1, D2, h2, F2. split; [exact Q1|]. split; [exact V1|]. split; [exact Df1|]. split; [exact Q2|exact V2].
Qed.
(** Lists of structs with lists of such structs: the call fails in the second of three
    elements; the slice has three elements, the last one is new, or what was there (spare capacity). *)
Example C74_case_slices :
  let tag n := VStruct [VStr n; VSlice None] in
  let v := JArr 0 30 [JObj 1 5 [((2%nat, bs "Name"), JStr 3 (bs "x"))]; JObj 6 9 [((7%nat, bs "Of"), JStr 8 [])]; JNull 20] in
  wactual wC default_opts [] (WSlice (WRec 40 doc_tag)) v (VSlice (Some ([tag (bs "a"); tag (bs "b")], []))) =
    VErr 8 EUnexpected (VSlice (Some ([tag (bs "x"); tag (bs "b"); tag (bs "")], []))) /\
  wactual wC default_opts [] (WSlice (WRec 40 doc_tag)) v (VSlice (Some ([tag (bs "a")], [tag (bs "b"); tag (bs "c"); tag (bs "d")]))) =
    VErr 8 EUnexpected (VSlice (Some ([tag (bs "x"); tag (bs "b"); tag (bs "c")], [tag (bs "d")]))) /\
  stopped wC default_opts [] (WSlice (WRec 40 doc_tag)) v 8 EUnexpected (VSlice (Some ([tag (bs "a"); tag (bs "b")], []))) (VSlice (Some ([tag (bs "x"); tag (bs "b"); tag (bs "")], []))) /\
  ~ stopped wC default_opts [] (WSlice (WRec 40 doc_tag)) v 8 EUnexpected (VSlice (Some ([tag (bs "a"); tag (bs "b")], []))) (VSlice (Some ([tag (bs "x"); tag (bs "b"); tag (bs "c")], []))) /\
  ~ stopped wC default_opts [] (WSlice (WRec 40 doc_tag)) v 8 EUnexpected (VSlice (Some ([tag (bs "a"); tag (bs "b")], []))) (VSlice (Some ([tag (bs "x"); tag (bs "b")], []))).
Proof.
  cbn zeta. split; [vm_compute; reflexivity|]. split; [vm_compute; reflexivity|]. split; [apply C74_stopped_anywhere; vm_compute; reflexivity|]. split.
  - intros (all & (l1 & w & l2 & El & Ln & A & (g1 & g2 & G1 & G2 & G3) & B) & E). cbn in E. unfold cut_at in E. injection E as E _.
    change (length (room _ _ _ _)) with 3%nat in Ln. destruct all as [|x1 [|x2 [|x3 [|]]]]; try discriminate Ln. cbn in E. injection E as <- <- <-.
    destruct l1 as [|y1 [|y2 [|y3 l1]]]; cbn in El.
    + injection El as <- _. cbn in G1. injection G1 as <-. vm_compute in G3. discriminate.
    + specialize (B 2%nat ltac:(cbn; lia)). discriminate B.
    + injection El as <- <- <- _. cbn in G1. injection G1 as <-. vm_compute in G3. discriminate.
    + apply (f_equal (@length _)) in El. cbn in El. rewrite app_length in El. cbn in El. lia.
  - intros (all & (l1 & w & l2 & _ & Ln & _) & E). unfold cut_at in E. injection E as E _. change (length (room _ _ _ _)) with 3%nat in Ln.
    destruct all as [|x1 [|x2 [|x3 [|]]]]; try discriminate Ln. discriminate E.
Qed.

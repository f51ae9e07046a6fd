(** Recursive struct types: values, memory, and the ideal decoder.

    This file is specification.  A struct S with fields of type *S, []S or map[K]S
    ([rk] in Rec.v: [RSelf], [RSlice], [RMap K]; [RSub d] for any type [d] without
    recursion).  A value of S is a finite tree; [rrep] says what it means that memory
    holds it (compare [rep] in Value.v).  The ideal decoder is the one of Spec.v with more
    kinds of fields:
    *S: null makes the pointer nil, an object is decoded into the struct the pointer
    refers to, or into a new one if it is nil;
    []S: as a slice of structs, existing elements being decoded into;
    map[K]S: as a map of structs, the struct of a key present being cleared first. *)
From Verif Require Import Base NumSpec StrSpec Types Token FloatLit Heap Machine Dt Dec Value Dval Spec Rec.
Open Scope Z_scope.

(** The zero value of a field. *)
Definition rzero (k : rk) : gval :=
  match k with RSelf => VPtr None | RSlice => VSlice None | RMap _ => VMap None | RSub d => zero d end.
Definition rzeros (fs : rfields) : list gval := map (fun x => rzero (snd x)) fs.

Section Memory.
Variables (w64 : bool) (z : Z) (fs : rfields).
Let W := wb w64.
(** The fields (of the size of a pointer, a slice header, a map, or of their type) lie
    inside the struct and do not overlap; the struct is not empty. *)
Definition rlayout : Prop := layout w64 (DStruct z (shape fs)) /\ 0 < z.

(** The struct in memory if [R] describes its values. *)
Definition sty (R : rept) : mty := MT z R (VStruct (rzeros fs)).
Definition rep_field (R : rept) (k : rk) : rept :=
  match k with
  | RSelf => rep_ptr w64 (sty R)
  | RSlice => rep_slice w64 (sty R)
  | RMap _ => rep_map w64 (sty R)
  | RSub d => rep w64 d
  end.
(** Memory holds a struct that is a tree of depth at most [n]; [F]: its other blocks. *)
Fixpoint repn (n : nat) (h : heap) (p : ptr) (g : gval) (F : list nat) : Prop :=
  match n with
  | O => False
  | S m => exists gs, g = VStruct gs /\ reps (map (fun x => (snd (fst x), rep_field (repn m) (snd x))) fs) h p gs F
  end.
Definition rrep (h : heap) (p : ptr) (g : gval) (F : list nat) : Prop := exists n, repn n h p g F.
End Memory.

Section Ideal.
Variables (C : cfg) (O : opts) (s : bytes) (fs : rfields).
Notation fresh := (VStruct (rzeros fs)).
(** The field a key selects. *)
Definition rfield_for (key : bytes) : option nat := field_for C O (shape fs) key.

(** A value for a field; [f]: for S. *)
Definition ideal_field (f : vdec) (k : rk) : vdec := fun v g =>
  match k with
  | RSelf =>
      match v with
      | JNull _ => VOk (VPtr None)
      | JObj _ _ _ => vmap (fun g => VPtr (Some g)) (f v (match g with VPtr (Some old) => old | _ => fresh end))
      | _ => VErr (jidx v) EUnexpected g
      end
  | RSlice =>
      match v with
      | JNull _ => VOk (VSlice None)
      | JArr _ _ l => slicev f fresh false true l g
      | _ => VErr (jidx v) EUnexpected g
      end
  | RMap kt =>
      match v with
      | JNull _ => VOk (VMap None)
      | JObj _ _ l =>
          vmap (fun m => VMap (Some m)) (ideal_entries C kt f true fresh l (match g with VMap (Some m) => m | _ => [] end))
      | _ => VErr (jidx v) EUnexpected g
      end
  | RSub d => ideal C O s d v g
  end.
Definition ideal_fields (f : vdec) : list ((nat * bytes) * jv) -> list gval -> vres (list gval) :=
  ideal_members O rfield_for (map (fun x => ideal_field f (snd x)) fs).
(** A document for S, [f] being used for the structs inside. *)
Definition ideal_struct (f : vdec) : vdec := fun v g =>
  match v with
  | JNull _ => VOk g
  | JObj _ _ l => match g with VStruct gs => vmap VStruct (ideal_fields f l gs) | _ => VPan end
  | _ => VErr (jidx v) EUnexpected g
  end.
Fixpoint ideal_n (n : nat) : vdec := match n with 0%nat => fun _ _ => VPan | S n => ideal_struct (ideal_n n) end.
Definition ideal_rec (v : jv) (g : gval) : vres gval := ideal_n (height v) v g.

(** Documents without the leaves on which the code deviates from the ideal (see [sound]
    in Spec.v). *)
Definition fsound (P : jv -> Prop) (k : rk) (v : jv) : Prop :=
  match k, v with
  | RSelf, JObj _ _ _ => P v
  | RSlice, JArr _ _ l => Forall P l
  | RMap kt, JObj _ _ l => Forall (fun x => sound_key C kt (snd (fst x)) /\ P (snd x)) l
  | RSub d, _ => sound C O d v
  | _, _ => True
  end.
Definition msound (P : jv -> Prop) (x : (nat * bytes) * jv) : Prop :=
  (o_nounescape O = true \/ plain_str (snd (fst x))) /\
  match rfield_for (snd (fst x)) with
  | Some j => match nth_error fs j with Some y => fsound P (snd y) (snd x) | None => True end
  | None => True
  end.
Definition ssound (P : jv -> Prop) (v : jv) : Prop := match v with JObj _ _ l => Forall (msound P) l | _ => True end.
Fixpoint rsoundn (n : nat) : jv -> Prop := match n with 0%nat => fun _ => False | S n => ssound (rsoundn n) end.
Definition rsound (v : jv) : Prop := rsoundn (height v) v.

(** ** The depth of the recursion does not matter: [ideal_rec] and [rsound] satisfy their
    recursive equations. *)
Lemma elemsv_ext (f f' : vdec) l : (forall v, In v l -> forall g, f v g = f' v g) -> forall gs, elemsv f l gs = elemsv f' l gs.
Proof.
  induction l as [|v l IH]; intros H gs; [reflexivity|]. destruct gs as [|g gs]; [reflexivity|]. cbn [elemsv].
  rewrite H by (left; reflexivity). destruct (f' v g); try reflexivity. rewrite IH; [reflexivity|]. intros w Hw. apply H. right. exact Hw.
Qed.
Lemma slicev_ext (f f' : vdec) z fast keep l g : (forall v, In v l -> forall g, f v g = f' v g) -> slicev f z fast keep l g = slicev f' z fast keep l g.
Proof. intros H. unfold slicev. destruct l; [reflexivity|]. destruct (contents g) as [vis hid]. rewrite !(elemsv_ext f f' _ H). reflexivity. Qed.
Lemma entries_ext (f f' : vdec) k b z l : (forall x, In x l -> forall g, f (snd x) g = f' (snd x) g) ->
  forall m, ideal_entries C k f b z l m = ideal_entries C k f' b z l m.
Proof.
  induction l as [|[[i key] v] l IH]; intros H m; [reflexivity|]. cbn [ideal_entries]. destruct (ideal_key C k key) as [ky|]; [|reflexivity].
  rewrite (H (i, key, v)) by (left; reflexivity). cbn [snd]. destruct (f' v _); try reflexivity. apply IH. intros x Hx. apply H. right. exact Hx.
Qed.
(** [f] and [f'] agree on the documents inside [v]. *)
Lemma field_ext (f f' : vdec) n k v g : (forall w, (height w <= n)%nat -> forall g, f w g = f' w g) -> (height v <= n)%nat ->
  ideal_field f k v g = ideal_field f' k v g.
Proof.
  intros H Hv. destruct k, v; cbn [ideal_field]; try reflexivity.
  - rewrite H by exact Hv. reflexivity.
  - apply slicev_ext. intros w Hw. apply H. pose proof (height_arr i j l w Hw). lia.
  - f_equal. apply entries_ext. intros x Hx. apply H. pose proof (height_obj i j l x Hx). lia.
Qed.
Lemma members_ext (f f' : vdec) n l : (forall w, (height w <= n)%nat -> forall g, f w g = f' w g) -> (forall x, In x l -> (height (snd x) <= n)%nat) ->
  forall gs, ideal_fields f l gs = ideal_fields f' l gs.
Proof.
  intros H. unfold ideal_fields. induction l as [|[[i key] v] l IH]; intros Hl gs; [reflexivity|]. cbn [ideal_members].
  specialize (IH (fun x Hx => Hl x (or_intror Hx))).
  destruct (rfield_for key) as [j|]; [|destruct (o_unknown O); [reflexivity|apply IH]]. rewrite !nth_error_map. destruct (nth_error fs j) as [y|]; [|reflexivity]. cbn [option_map].
  destruct (nth_error gs j) as [g|]; [|reflexivity]. rewrite (field_ext f f' n _ v g H); [|apply (Hl (i, key, v)); left; reflexivity].
  destruct (ideal_field f' (snd y) v g); try reflexivity. apply IH.
Qed.
Lemma ideal_n_enough n : forall m v g, (height v <= n)%nat -> (height v <= m)%nat -> ideal_n n v g = ideal_n m v g.
Proof.
  induction n as [|n IH]; intros m v g Hn Hm; [destruct v; cbn in Hn; lia|]. destruct m as [|m]; [destruct v; cbn in Hm; lia|].
  cbn [ideal_n]. unfold ideal_struct. destruct v; try reflexivity. destruct g; try reflexivity. f_equal.
  apply members_ext with (n := Nat.min n m); [intros w Hw g; apply IH; lia|]. intros x Hx. pose proof (height_obj i j l x Hx). lia.
Qed.
Theorem ideal_rec_eq v g : ideal_rec v g = ideal_struct ideal_rec v g.
Proof.
  unfold ideal_rec at 1. rewrite (ideal_n_enough _ (S (height v))) by lia. cbn [ideal_n]. unfold ideal_struct.
  destruct v; try reflexivity. destruct g; try reflexivity. f_equal.
  apply members_ext with (n := height (JObj i j l)); [intros w Hw g; unfold ideal_rec; apply ideal_n_enough; lia|].
  intros x Hx. pose proof (height_obj i j l x Hx). lia.
Qed.

Lemma fsound_ext P P' n k v : (forall w, (height w <= n)%nat -> P w <-> P' w) -> (height v <= n)%nat -> fsound P k v <-> fsound P' k v.
Proof.
  intros H Hv. destruct k, v; cbn [fsound]; try reflexivity.
  - apply H, Hv.
  - rewrite !Forall_forall. split; intros Q w Hw; pose proof (height_arr i j l w Hw); apply H; try lia; apply Q, Hw.
  - rewrite !Forall_forall. split; intros Q x Hx; pose proof (height_obj i j l x Hx); (split; [apply Q, Hx|apply H; [lia|apply Q, Hx]]).
Qed.
Lemma ssound_ext P P' n v : (forall w, (height w <= n)%nat -> P w <-> P' w) -> (height v <= S n)%nat -> ssound P v <-> ssound P' v.
Proof.
  intros H Hv. destruct v; cbn [ssound]; try reflexivity. rewrite !Forall_forall. unfold msound.
  split; intros Q x Hx; pose proof (height_obj i j l x Hx); specialize (Q x Hx); (split; [apply Q|]); destruct (rfield_for _); try exact I; destruct (nth_error fs _); try exact I;
    (eapply fsound_ext; [|apply (Nat.le_refl _)|apply Q]); intros w Hw; [symmetry|]; apply H; lia.
Qed.
Lemma rsoundn_enough n : forall m v, (height v <= n)%nat -> (height v <= m)%nat -> rsoundn n v <-> rsoundn m v.
Proof.
  induction n as [|n IH]; intros m v Hn Hm; [destruct v; cbn in Hn; lia|]. destruct m as [|m]; [destruct v; cbn in Hm; lia|].
  cbn [rsoundn]. apply ssound_ext with (n := Nat.min n m); [|lia]. intros w Hw. apply IH; lia.
Qed.
Theorem rsound_eq v : rsound v <-> ssound rsound v.
Proof.
  unfold rsound at 1. rewrite (rsoundn_enough _ (S (height v))) by lia. cbn [rsoundn]. apply ssound_ext with (n := height v); [|lia].
  intros w Hw. apply rsoundn_enough; lia.
Qed.
End Ideal.

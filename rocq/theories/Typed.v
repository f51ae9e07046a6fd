(** Values have the shape of their type, the recursive decoder preserves this, and it
    panics only on an empty quoted number. *)
From Verif Require Import Base NumSpec StrSpec JsonNum JsonNumProofs Atoi AtoiProofs Unescape Types Token FloatLit Heap Machine Dt Dec Value Dval Sep Refine.
Open Scope Z_scope.

(** A Go value of a resolved type. *)
Definition typed_sc (x : sc) (g : gval) : Prop :=
  match x, g with
  | (SBool | SBoolQ), VBool _ | (SStr | SStrQ | SNumber), VStr _ | (SInt _ | SIntQ _), VInt _
  | (SFloat _ | SFloatQ _), VFloat _ | SAny, VAny _ => True
  | _, _ => False
  end.
Fixpoint typed (d : dt) (g : gval) {struct d} : Prop :=
  match d with
  | DSc x => typed_sc x g
  | DText _ z | DJson _ z => match g with VUser b => z <= 0 -> b = [] | _ => False end
  | DArr0 => g = VArr []
  | DArr n t => match g with VArr gs => length gs = n /\ Forall (typed t) gs | _ => False end
  | DEmpty => g = VStruct []
  | DSlice t => match g with
                | VSlice None => True
                | VSlice (Some (vis, hid)) => Forall (typed t) vis /\ Forall (typed t) hid
                | _ => False end
  | DMap _ t => match g with
                | VMap None => True
                | VMap (Some m) => distinct (map fst m) /\ Forall (fun x => typed t (snd x)) m
                | _ => False end
  | DMSS => match g with VMSS _ => True | _ => False end
  | DPtr t => match g with VPtr None => True | VPtr (Some g) => typed t g | _ => False end
  | DStruct _ fs =>
      match g with
      | VStruct gs => (fix go (fs : list ((bytes * Z) * dt)) (gs : list gval) : Prop :=
          match fs, gs with [], [] => True | x :: fs, g :: gs => typed (snd x) g /\ go fs gs | _, _ => False end) fs gs
      | _ => False
      end
  end.
Fixpoint typed_fields (fs : list ((bytes * Z) * dt)) (gs : list gval) : Prop :=
  match fs, gs with [], [] => True | x :: fs, g :: gs => typed (snd x) g /\ typed_fields fs gs | _, _ => False end.
Lemma typed_struct z fs g : typed (DStruct z fs) g <-> exists gs, g = VStruct gs /\ typed_fields fs gs.
Proof.
  cbn [typed]. assert (E : forall fs gs, (fix go (fs : list ((bytes * Z) * dt)) (gs : list gval) : Prop :=
          match fs, gs with [], [] => True | x :: fs, g :: gs => typed (snd x) g /\ go fs gs | _, _ => False end) fs gs <-> typed_fields fs gs).
  { induction fs0 as [|x r IH]; intros [|g' gs]; try tauto. rewrite (IH gs). reflexivity. }
  split.
  - destruct g; try contradiction. intros H. exists l. split; [reflexivity|]. apply E, H.
  - intros (gs & -> & H). apply E, H.
Qed.

Lemma zero_typed d : typed d (zero d).
Proof.
  induction d as [x|id z|id z| |n t IH| |t IH|k t IH| |t IH|z fs IH] using dt_ind'; cbn [zero]; try exact I; try reflexivity; try (intros _; reflexivity).
  - destruct x; exact I.
  - cbn [typed]. split; [apply repeat_length|]. apply Forall_forall. intros g Hg. apply repeat_spec in Hg as ->. exact IH.
  - apply typed_struct. eexists. split; [reflexivity|]. induction IH as [|x fs Hx IH IHl]; cbn; auto.
Qed.

Section Rep.
Variable w64 : bool.
Lemma reps_typed (P : gval -> Prop) (R : rept) sz h p : (forall h p g F, R h p g F -> P g) ->
  forall n k gs F, reps (slots sz R k n) h p gs F -> length gs = n /\ Forall P gs.
Proof.
  intros HR. induction n as [|n IH]; intros k [|g gs] F H; cbn in H; try contradiction; [split; [reflexivity|constructor]|].
  destruct H as (F1 & F2 & _ & Hg & H). apply IH in H as [L A]. split; [cbn; congruence|]. constructor; [eapply HR, Hg|exact A].
Qed.
Lemma rep_typed d : forall h p g F, rep w64 d h p g F -> typed d g.
Proof.
  induction d as [x|id z|id z| |n t IH| |t IH|k t IH| |t IH|z fs IH] using dt_ind'; intros h p g F R; cbn [rep] in R.
  - destruct R as (_ & c & _ & R). cbn [typed]. unfold rep_sc in R. destruct c; try contradiction; destruct x; try contradiction; subst g; exact I.
  - destruct R as [_ R]. cbn [typed]. destruct (Z.leb_spec z 0); [subst g; auto|]. destruct R as (c & _ & R). destruct c; try contradiction; subst g; lia || auto.
  - destruct R as [_ R]. cbn [typed]. destruct (Z.leb_spec z 0); [subst g; auto|]. destruct R as (c & _ & R). destruct c; try contradiction; subst g; lia || auto.
  - apply R.
  - destruct R as (gs & -> & R). cbn [typed]. eapply reps_typed; [|exact R]. exact IH.
  - apply R.
  - destruct R as (c & _ & R). destruct c; try contradiction; [destruct R as [-> _]; exact I|]. destruct R as (vis & hid & F' & -> & _ & _ & _ & R & _).
    cbn [typed]. apply reps_typed with (P := typed t) in R as [_ R]; [|exact IH]. apply Forall_app in R. exact R.
  - destruct R as (c & _ & R). destruct c; try contradiction; [destruct R as [-> _]; exact I|]. destruct R as (l & m & F' & _ & -> & R & Ds & _).
    cbn [typed]. split; [exact Ds|]. clear Ds. revert m F' R. induction l as [|[k0 b0] l IHl]; intros [|[k' g'] m] F' R; cbn in R; try contradiction; [constructor|].
    destruct R as (F1 & F2 & _ & _ & _ & Rv & R). constructor; [eapply IH, Rv|]. eapply IHl, R.
  - destruct R as (_ & c & _ & R). destruct c; try contradiction; subst g; exact I.
  - destruct R as (c & _ & R). destruct c; try contradiction; [destruct R as [-> _]; exact I|]. destruct R as (v & F' & -> & R & _). cbn [typed]. eapply IH, R.
  - destruct R as (gs & -> & R). apply typed_struct. exists gs. split; [reflexivity|]. revert gs F R.
    induction IH as [|x fs Hx IH IHl]; intros [|g gs] F R; cbn in R; try contradiction; [exact I|].
    destruct R as (F1 & F2 & _ & R1 & R). split; [eapply Hx, R1|eapply IHl, R].
Qed.
End Rep.

(** ** Every leaf of a document that is decoded into a type satisfies a condition *)
Section Leaves.
Variables (C : cfg) (O : opts) (P : sc -> jv -> Prop) (K : dkey -> bytes -> Prop).
Fixpoint leaves (d : dt) (v : jv) {struct d} : Prop :=
  match d with
  | DSc x => P x v
  | DArr n t => match v with JArr _ _ l => Forall (leaves t) (firstn n l) | _ => True end
  | DSlice t => match v with JArr _ _ l => Forall (leaves t) l | _ => True end
  | DMap k t => match v with JObj _ _ l => Forall (fun x => K k (snd (fst x)) /\ leaves t (snd x)) l | _ => True end
  | DPtr t => match v with JNull _ => True | _ => leaves t v end
  | DStruct _ fs =>
      match v with
      | JObj _ _ l => Forall (fun x =>
          match pick (c_fold C) (o_nofold O) (map (fun x => fst (fst x)) fs) (if o_nounescape O then snd (fst x) else txt (snd (fst x))) with
          | Some j => match nth_error (map (fun x => leaves (snd x)) fs) j with Some Q => Q (snd x) | None => True end
          | None => True
          end) l
      | _ => True
      end
  | _ => True
  end.
End Leaves.

(** Not the empty string for a Number, a quoted number or an integer map key. *)
Definition nonempty_sc (x : sc) (v : jv) : Prop :=
  match x, v with (SNumber | SIntQ _ | SFloatQ _), JStr _ r => r <> [] | _, _ => True end.
Definition nonempty_key (k : dkey) (r : bytes) : Prop := match k with KeyInt _ => r <> [] | _ => True end.
Definition no_empty_number (C : cfg) (O : opts) : dt -> jv -> Prop := leaves C O nonempty_sc nonempty_key.

(** ** The decoder preserves types and does not panic *)
Lemma first_pos_lt Q names j : first_pos Q names = Some j -> (j < length names)%nat.
Proof.
  revert j. induction names as [|a names IH]; cbn; intros j; [discriminate|]. destruct (Q a); [intros [= <-]; lia|].
  destruct (first_pos Q names) as [i|]; cbn; [|discriminate]. intros [= <-]. specialize (IH i eq_refl). lia.
Qed.
Lemma pick_lt fold nofold names key j : pick fold nofold names key = Some j -> (j < length names)%nat.
Proof.
  unfold pick. destruct (first_pos _ names) as [i|] eqn:E; [intros [= <-]; eapply first_pos_lt, E|]. destruct nofold; [discriminate|]. apply first_pos_lt.
Qed.

Section NoPanic.
Variables (C : cfg) (O : opts) (s : bytes).
Notation dval := (dval C O s).

Definition vgood {A} (Q : A -> Prop) (r : vres A) : Prop := match r with VOk a => Q a | VErr _ _ a => Q a | VPan => False end.
Lemma vgood_map {A B} (f : A -> B) (Q : A -> Prop) (Q' : B -> Prop) r : vgood Q r -> (forall a, Q a -> Q' (f a)) -> vgood Q' (vmap f r).
Proof. destruct r; cbn; auto. Qed.

Ltac total := repeat (cbv zeta; match goal with
  | |- exists v o, (if ?b then _ else _) = _ => destruct b
  | |- exists v o, match ?n with _ => _ end = _ => destruct n
  end); unfold ok, ovf; eauto.
Lemma atoi_total k r : r <> [] -> exists v o, atoi (c_w64 C) k r = Some (v, o).
Proof.
  intros N. unfold atoi. destruct (nk_w k), (nk_signed k); try destruct (c_w64 C);
    unfold I8, I16, I32, I64, U8, U16, U32, U64; destruct r as [|c0 r0]; try congruence; total.
Qed.
Lemma int_of_tok_total k r : r <> [] -> exists x, int_of_tok C k r = Ok x.
Proof.
  intros N. unfold int_of_tok. destruct (negb (nk_signed k) && minus r); [eauto|].
  destruct (atoi_total k r N) as (v & o & ->). destruct o; eauto.
Qed.
Lemma int_of_str_total k r : r <> [] -> exists x, int_of_str C k r = Ok x.
Proof.
  intros N. unfold int_of_str. destruct (ReadNumber r) as [[t []]|] eqn:E; eauto; [|apply ReadNumber_panic_iff in E; contradiction].
  destruct (negb (nk_signed k) && minus r); [eauto|]. destruct (atoi_total k r N) as (v & o & ->). destruct o; eauto.
Qed.
Lemma int_nonempty r : json_int r -> r <> [].
Proof. intros H ->. inversion H as [? [_ (c & q & E & _)]|]; discriminate. Qed.

Lemma scalarv_typed x v g : lexed s v -> nonempty_sc x v -> typed_sc x g -> vgood (typed_sc x) (lput (jidx v) (scalarv C x v) g).
Proof.
  intros L N T. assert (Any : x = SAny -> vgood (typed_sc x) (lput (jidx v) (match nany C v with Some a => LSet (VAny a) | None => LErr EUnexpected end) g)).
  { intros ->. destruct (nany C v); exact T || exact I. }
  destruct x, v; cbn [scalarv]; try exact T; try exact I; try (apply Any; reflexivity).
  all: try match goal with |- context[lany ?r] => destruct r; exact T || exact I end.
  all: try match goal with |- context[lfloat ?r] => destruct r; exact T || exact I end.
  all: try match goal with |- context[int_of_tok C ?k ?r] => destruct (int_of_tok_total k r) as [[z|e] ->]; [apply int_nonempty, L|exact I|exact T] end.
  all: try match goal with |- context[int_of_str C ?k ?r] => destruct (int_of_str_total k r) as [[z|e] ->]; [exact N|exact I|exact T] end.
  - cbn in N. destruct (ReadNumber raw) as [[t []]|] eqn:E; try exact I; try exact T. apply ReadNumber_panic_iff in E. contradiction.
  - destruct (bytes_eqb _ _); [exact I|]. destruct (bytes_eqb _ _); [exact I|exact T].
  - destruct (quoted_inner _); [exact I|exact T].
  - cbn in N. destruct (ReadNumber raw) as [[t []]|] eqn:E; try exact T; try (destruct (parse_float _ _ _); exact I || exact T). apply ReadNumber_panic_iff in E. contradiction.
Qed.

Lemma elemsv_typed (Q : gval -> Prop) f : forall l gs, (length l <= length gs)%nat -> Forall Q gs ->
  Forall (fun v => forall g, Q g -> vgood Q (f v g)) l -> vgood (fun gs' => length gs' = length gs /\ Forall Q gs') (elemsv f l gs).
Proof.
  induction l as [|v l IH]; intros gs Le A H; [cbn; auto|]. destruct gs as [|g gs]; [cbn in Le; lia|]. cbn [elemsv].
  inversion A as [|? ? A1 A2]; subst. inversion H as [|? ? H1 H2]; subst. specialize (H1 g A1). destruct (f v g) as [g'|i e g'|]; cbn in H1; [| |contradiction].
  - eapply vgood_map; [apply IH; [cbn in Le; lia|assumption|assumption]|]. intros gs' [E1 E2]. split; [cbn; congruence|constructor; assumption].
  - cbn. split; [reflexivity|]. constructor; assumption.
Qed.
Lemma Forall_repeat {A} (Q : A -> Prop) a n : Q a -> Forall Q (repeat a n).
Proof. intros H. apply Forall_forall. intros x Hx. apply repeat_spec in Hx as ->. exact H. Qed.
(** A slice whose elements, visible or hidden, satisfy [Q]. *)
Definition slice_of (Q : gval -> Prop) (g : gval) : Prop :=
  match g with
  | VSlice None => True
  | VSlice (Some (vis, hid)) => Forall Q vis /\ Forall Q hid
  | _ => False
  end.
Lemma split_of (Q : gval -> Prop) n l : Forall Q l -> slice_of Q (split_at n l).
Proof. intros H. rewrite <- (firstn_skipn n l) in H. apply Forall_app in H. exact H. Qed.
Lemma slicev_of (Q : gval -> Prop) z f fast keep l g : Q z -> slice_of Q g -> Forall (fun v => forall g, Q g -> vgood Q (f v g)) l ->
  vgood (slice_of Q) (slicev f z fast keep l g).
Proof.
  intros Hz T H. unfold slicev. destruct l as [|v0 l0]; [cbn; auto|]. set (l := v0 :: l0) in *.
  assert (Ct : Forall Q (fst (contents g)) /\ Forall Q (snd (contents g))).
  { unfold slice_of in T. destruct g as [| | | | | | | |[[vis hid]|]| | |]; try contradiction; cbn; auto. }
  destruct (contents g) as [vis hid]. cbn [fst snd] in Ct. destruct Ct as [Hv Hh].
  destruct (Nat.leb_spec (length l) (length vis + length hid)) as [Le|Gt].
  - pose proof (elemsv_typed Q f l (vis ++ hid) ltac:(rewrite app_length; lia) ltac:(apply Forall_app; auto) H) as P.
    destruct (elemsv f l (vis ++ hid)); cbn in P; try contradiction; apply split_of, P.
  - set (base := if keep then _ else _).
    assert (B : (length l <= length base)%nat /\ Forall Q base).
    { unfold base. destruct keep; [rewrite app_length, repeat_length|rewrite repeat_length]; (split; [lia|]).
      - apply Forall_app. split; [exact Hv|apply Forall_repeat; assumption].
      - apply Forall_repeat; assumption. }
    pose proof (elemsv_typed Q f l base (proj1 B) (proj2 B) H) as P.
    destruct (elemsv f l base); cbn in P; try contradiction; [apply split_of, P|]. destruct fast; [exact T|apply split_of, P].
Qed.
Lemma slicev_typed t f fast keep l g : typed (DSlice t) g -> Forall (fun v => forall g, typed t g -> vgood (typed t) (f v g)) l ->
  vgood (typed (DSlice t)) (slicev f (zero t) fast keep l g).
Proof. apply (slicev_of (typed t)), zero_typed. Qed.

Lemma typed_fields_nth fs gs j x : typed_fields fs gs -> nth_error fs j = Some x -> exists g, nth_error gs j = Some g /\ typed (snd x) g.
Proof.
  revert gs j. induction fs as [|y fs IH]; intros [|g gs] [|j] T H; cbn in *; try discriminate; try contradiction.
  - injection H as <-. exists g. tauto.
  - apply IH; tauto.
Qed.
Lemma typed_fields_set fs gs j x g : typed_fields fs gs -> nth_error fs j = Some x -> typed (snd x) g -> typed_fields fs (set_nth gs j g).
Proof.
  revert gs j. induction fs as [|y fs IH]; intros [|g0 gs] [|j] T H Tg; cbn in *; try discriminate; try contradiction.
  - injection H as <-. tauto.
  - split; [tauto|]. apply IH; tauto.
Qed.

Lemma gkey_sym a b : gkey_eqb a b = gkey_eqb b a.
Proof.
  assert (E : forall x y, bytes_eqb x y = bytes_eqb y x).
  { intros x y. destruct (bytes_eqb x y) eqn:E1, (bytes_eqb y x) eqn:E2; try reflexivity.
    - apply bytes_eqb_eq in E1 as ->. rewrite bytes_eqb_refl in E2. discriminate.
    - apply bytes_eqb_eq in E2 as ->. rewrite bytes_eqb_refl in E1. discriminate. }
  destruct a, b; cbn; try reflexivity; try apply E. apply Z.eqb_sym.
Qed.
Lemma getk_of (Q : gval -> Prop) m k : Forall (fun x => Q (snd x)) m -> match getk m k with Some g => Q g | None => True end.
Proof. induction 1 as [|[k' g] m H Hm IH]; cbn; [exact I|]. destruct (gkey_eqb k' k); [exact H|exact IH]. Qed.
Lemma putk_of (Q : gval -> Prop) m k g : Forall (fun x => Q (snd x)) m -> Q g -> Forall (fun x => Q (snd x)) (putk m k g).
Proof.
  intros H T. induction H as [|[k' g'] m H Hm IH]; cbn; [constructor; [exact T|constructor]|].
  destruct (gkey_eqb k' k); constructor; assumption.
Qed.
Lemma putk_in m k g k' : In k' (map fst (putk m k g)) -> k = k' \/ In k' (map fst m).
Proof. induction m as [|[a b] m IH]; cbn; [tauto|]. destruct (gkey_eqb a k); cbn; [tauto|]. intros [Q|Q]; [tauto|]. apply IH in Q. tauto. Qed.
Lemma putk_distinct m k g : distinct (map fst m) -> distinct (map fst (putk m k g)).
Proof.
  induction m as [|[a b] m IH]; cbn; [auto|]. intros [H D]. destruct (gkey_eqb a k) eqn:E; cbn; [auto|]. split; [|apply IH, D].
  apply Forall_forall. intros k' Hk. apply putk_in in Hk as [<-|Hk]; [exact E|]. rewrite Forall_forall in H. apply H, Hk.
Qed.

Lemma keyv_total k r : nonempty_key k r -> exists x, keyv C k r = Ok x.
Proof.
  destruct k as [|k|id z]; cbn; intros N; [eauto| |].
  - destruct (int_of_str_total k r N) as [[z|e] ->]; eauto.
  - destruct (c_ut C id [] (txt r)); eauto.
Qed.

Lemma jraw_ok v : lexed s v -> exists r, jraw s v = Ok r.
Proof.
  intros L. assert (Oc : forall i r, occurs s i r -> sub s i (i + length r) = Ok r) by (intros i r H; unfold sub; rewrite H; reflexivity).
  destruct v as [i|i b|i r|i r|i r|i j l|i j l]; cbn [jraw].
  - eexists. apply (Oc i (bs "null")), L.
  - destruct b; eexists; [apply (Oc i (bs "true")), L|apply (Oc i (bs "false")), L].
  - eexists. apply Oc, L.
  - eexists. apply Oc, L.
  - eexists. pose proof (Oc _ _ (proj1 L)) as E. cbn [length] in E. rewrite app_length in E. cbn [length] in E.
    replace (i + length r + 2)%nat with (i + S (length r + 1))%nat by lia. exact E.
  - apply lexed_arr in L as (_ & O2 & Lt & _). unfold occurs, slice in O2. unfold sub, slice. cbn [length] in O2.
    destruct (Nat.leb j (j + 1) && Nat.leb (j + 1) (length s)) eqn:E; [|discriminate].
    replace (Nat.leb i (j + 1) && Nat.leb (j + 1) (length s)) with true by lia. eauto.
  - apply lexed_obj in L as (_ & O2 & Lt & _). unfold occurs, slice in O2. unfold sub, slice. cbn [length] in O2.
    destruct (Nat.leb j (j + 1) && Nat.leb (j + 1) (length s)) eqn:E; [|discriminate].
    replace (Nat.leb i (j + 1) && Nat.leb (j + 1) (length s)) with true by lia. eauto.
Qed.
Lemma userv_typed z i r id : vgood (typed (DText id z)) (userv z i r) /\ vgood (typed (DJson id z)) (userv z i r).
Proof.
  unfold userv. split; destruct r as [b [c|]]; cbn; destruct (Z.leb_spec z 0); cbn; auto; lia.
Qed.

Theorem dval_typed d : forall v g, lexed s v -> no_empty_number C O d v -> typed d g -> vgood (typed d) (dval d v g).
Proof.
  unfold no_empty_number.
  induction d as [x|id z|id z| |n t IH| |t IH|k t IH| |t IH|z fs IH] using dt_ind'; intros v g L N T.
  - cbn [Dval.dval]. apply scalarv_typed; assumption.
  - cbn [Dval.dval]. destruct v; try exact T. apply (userv_typed z i _ id).
  - cbn [Dval.dval]. destruct (jraw_ok v L) as [r ->]. apply (userv_typed z (jidx v) _ id).
  - cbn [Dval.dval]. destruct v; exact T.
  - cbn [Dval.dval]. destruct v as [i|i b|i r|i r|i r|i j l|i j l]; try exact T. cbn [typed] in T. destruct g as [| | | | | |gs| | | | |]; try contradiction.
    destruct T as [Lg Ag]. apply lexed_arr in L as (_ & _ & _ & L). cbn [leaves] in N.
    eapply vgood_map; [apply (elemsv_typed (typed t)); [rewrite firstn_length; lia|exact Ag|]|].
    + rewrite Forall_forall in *. intros v Hv g Tg. apply IH; [apply L; rewrite <- (firstn_skipn n l); apply in_or_app; left; exact Hv|apply N, Hv|exact Tg].
    + intros gs' [E A]. split; [congruence|exact A].
  - cbn [Dval.dval]. destruct v; exact T.
  - cbn [Dval.dval]. destruct v as [i|i b|i r|i r|i r|i j l|i j l]; try exact T; [destruct t; exact T || exact I|].
    apply lexed_arr in L as (_ & _ & _ & L). cbn [leaves] in N.
    assert (H : Forall (fun v => forall g, typed t g -> vgood (typed t) (dval t v g)) l).
    { rewrite Forall_forall in *. intros v Hv g' Tg. apply IH; [apply L, Hv|apply N, Hv|exact Tg]. }
    destruct t; try (apply slicev_typed; assumption). cbn. split; [|constructor]. apply Forall_repeat. reflexivity.
  - cbn [Dval.dval]. destruct v as [i|i b|i r|i r|i r|i j l|i j l]; try exact T; [exact I|].
    apply lexed_obj in L as (_ & _ & _ & L). cbn [leaves] in N.
    set (m0 := match g with VMap (Some m) => m | _ => [] end).
    assert (T0 : distinct (map fst m0) /\ Forall (fun x => typed t (snd x)) m0).
    { unfold m0. cbn [typed] in T. destruct g as [| | | | | | | | |[m|]| |]; try contradiction; [exact T|]. split; [exact I|constructor]. }
    eapply vgood_map with (Q := fun m => distinct (map fst m) /\ Forall (fun x => typed t (snd x)) m); [|intros m Hm; exact Hm].
    revert T0. generalize m0. clear m0 T g. induction l as [|x l IHl]; intros m [Ds Tm]; [cbn; auto|]. cbn [entriesv].
    inversion L as [|? ? [_ L1] L2]; subst. inversion N as [|? ? [N1 N2] N3]; subst.
    destruct (keyv_total k (snd (fst x)) N1) as [[key|e] ->]; [|cbn; auto].
    assert (To : typed t (match getk m key with Some g => if is_struct t then zero t else g | None => zero t end)).
    { pose proof (getk_of (typed t) m key Tm) as G. pose proof (zero_typed t). destruct (getk m key); [destruct (is_struct t)|]; assumption. }
    pose proof (IH (snd x) _ L1 N2 To) as Q. destruct (dval t (snd x) _) as [g'|i' e g'|]; cbn in Q; [| |contradiction].
    + apply IHl; [assumption|assumption|]. split; [apply putk_distinct, Ds|apply putk_of; assumption].
    + cbn. split; [apply putk_distinct, Ds|apply putk_of; assumption].
  - cbn [Dval.dval]. destruct v as [i|i b|i r|i r|i r|i j l|i j l]; try exact T; [exact I|]. destruct (mssv l []) as [m|[i' e]]; [exact I|exact T].
  - cbn [Dval.dval leaves] in *. destruct v; [exact I|..]; (eapply vgood_map; [apply IH; [exact L|exact N|apply zero_typed]|]; intros g' Hg'; exact Hg').
  - cbn [Dval.dval]. destruct v as [i|i b|i r|i r|i r|i j l|i j l]; try exact T. apply typed_struct in T as (gs & -> & T).
    apply lexed_obj in L as (_ & _ & _ & L). cbn [leaves] in N.
    eapply vgood_map with (Q := typed_fields fs); [|intros m Hm; apply typed_struct; eauto].
    revert gs T. induction l as [|x l IHl]; intros gs T; [exact T|]. cbn [membersv].
    inversion L as [|? ? [_ L1] L2]; subst. inversion N as [|? ? N1 N2]; subst.
    destruct (pick (c_fold C) (o_nofold O) (map (fun x => fst (fst x)) fs) _) as [jf|] eqn:Pk; [|destruct (o_unknown O); [exact T|apply IHl; assumption]].
    pose proof (pick_lt _ _ _ _ _ Pk) as Hj. rewrite map_length in Hj.
    destruct (nth_error fs jf) as [y|] eqn:Ey; [|apply nth_error_None in Ey; lia].
    match goal with |- vgood _ match ?X with Some _ => _ | None => VPan end => assert (Em : X = Some (dval (snd y))) by (exact (map_nth_error _ jf fs Ey)); rewrite Em; clear Em end. rewrite (map_nth_error (fun x => leaves C O nonempty_sc nonempty_key (snd x)) jf fs Ey) in N1.
    destruct (typed_fields_nth fs gs jf y T Ey) as (g & Eg & Tg). rewrite Eg.
    rewrite Forall_forall in IH. pose proof (IH y (nth_error_In _ _ Ey) (snd x) g L1 N1 Tg) as Q.
    destruct (dval (snd y) (snd x) g) as [g'|i' e g'|]; cbn in Q; [| |contradiction].
    + apply IHl; [assumption|assumption|]. eapply typed_fields_set; eassumption.
    + cbn. eapply typed_fields_set; eassumption.
Qed.
End NoPanic.

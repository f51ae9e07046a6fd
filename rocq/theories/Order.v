(** Lemmas for C44 (the order of members does not matter) and C45 (decoding the same
    document again changes nothing). *)
From Coq Require Import Permutation.
From Verif Require Import Base NumSpec StrSpec JsonNum Types AppendType Token FloatLit Heap Machine Dt Dec Value Dval Sep Refine Spec Typed SpecProofs Encodes PropsStruct RoundTrip.
Open Scope Z_scope.

(** ** The same document up to the order of members (and the formatting) *)
Inductive reordered : jv -> jv -> Prop :=
| ro_null i i' : reordered (JNull i) (JNull i')
| ro_bool i i' b : reordered (JBool i b) (JBool i' b)
| ro_int i i' r : reordered (JInt i r) (JInt i' r)
| ro_num i i' r : reordered (JNum i r) (JNum i' r)
| ro_str i i' r : reordered (JStr i r) (JStr i' r)
| ro_arr i j l i' j' l' : Forall2 reordered l l' -> reordered (JArr i j l) (JArr i' j' l')
| ro_obj i j l l1 i' j' l' : Permutation l l1 ->
    Forall2 (fun x y => snd (fst x) = snd (fst y) /\ reordered (snd x) (snd y)) l1 l' ->
    reordered (JObj i j l) (JObj i' j' l').

(** No two members of an object are for the same field, map key or key of an any. *)
Fixpoint unlike_any (v : jv) : Prop :=
  match v with
  | JArr _ _ l => (fix go l := match l with [] => True | x :: r => unlike_any x /\ go r end) l
  | JObj _ _ l => NoDup (map (fun x => str_text (snd (fst x))) l) /\
      (fix go l := match l with [] => True | x :: r => unlike_any (snd x) /\ go r end) l
  | _ => True
  end.
Definition targets (sel : bytes -> option nat) (l : list ((nat * bytes) * jv)) : list nat :=
  flat_map (fun x => match sel (snd (fst x)) with Some j => [j] | None => [] end) l.
Definition map_keys (C : cfg) (k : dkey) (l : list ((nat * bytes) * jv)) : list gkey :=
  flat_map (fun x => match ideal_key C k (snd (fst x)) with inl key => [key] | inr _ => [] end) l.
Section Unlike.
Variables (C : cfg) (O : opts).
Fixpoint unlike (d : dt) (v : jv) {struct d} : Prop :=
  match d with
  | DSc SAny => unlike_any v
  | DArr n t => match v with JArr _ _ l => Forall (unlike t) (firstn n l) | _ => True end
  | DSlice t => match v with JArr _ _ l => Forall (unlike t) l | _ => True end
  | DMap k t => match v with
                | JObj _ _ l => NoDup (map_keys C k l) /\ Forall (fun x => unlike t (snd x)) l
                | _ => True end
  | DMSS => match v with JObj _ _ l => NoDup (map (fun x => str_text (snd (fst x))) l) | _ => True end
  | DPtr t => unlike t v
  | DStruct _ fs =>
      match v with
      | JObj _ _ l => NoDup (targets (field_for C O fs) l) /\
          Forall (fun x => match field_for C O fs (snd (fst x)) with
                           | Some j => match nth_error (map (fun x => unlike (snd x)) fs) j with Some P => P (snd x) | None => True end
                           | None => True end) l
      | _ => True
      end
  | _ => True
  end.
End Unlike.
(** No type with an UnmarshalJSON method (which sees the text); no type with either. *)
Fixpoint no_json (d : dt) : bool :=
  match d with
  | DJson _ _ => false
  | DArr _ t | DSlice t | DMap _ t | DPtr t => no_json t
  | DStruct _ fs => forallb (fun x => no_json (snd x)) fs
  | _ => true
  end.
Fixpoint no_user (d : dt) : bool :=
  match d with
  | DJson _ _ | DText _ _ => false
  | DArr _ t | DSlice t | DMap _ t | DPtr t => no_user t
  | DStruct _ fs => forallb (fun x => no_user (snd x)) fs
  | _ => true
  end.

(** ** Sameness is reflexive *)
Lemma same_float_refl f : same_float f f.
Proof. unfold same_float, same_dec. auto. Qed.
Lemma same_any_refl : forall a, same_any a a.
Proof.
  fix IH 1. intros [|b|f|t|l|l]; try constructor.
  - apply same_float_refl.
  - induction l as [|x l IHl]; constructor; [apply IH|exact IHl].
  - econstructor; [apply Permutation_refl|]. induction l as [|[k x] l IHl]; constructor; [split; [reflexivity|apply IH]|exact IHl].
Qed.
Lemma same_refl : forall g, same_value g g.
Proof.
  fix IH 1. intros [b|z|f|t|a|b|l|l|[[vis hid]|]|[m|]|[m|]|[g|]]; try constructor; try apply same_float_refl; try apply same_any_refl.
  - induction l as [|x l IHl]; constructor; [apply IH|exact IHl].
  - induction l as [|x l IHl]; constructor; [apply IH|exact IHl].
  - induction vis as [|x vis IHl]; constructor; [apply IH|exact IHl].
  - econstructor; [apply Permutation_refl|]. induction m as [|[k x] l IHl]; constructor; [split; [reflexivity|apply IH]|exact IHl].
  - apply Permutation_refl.
  - apply IH.
Qed.
Lemma Forall2_same_refl l : Forall2 same_value l l.
Proof. induction l; constructor; [apply same_refl|assumption]. Qed.

(** ** Members of a struct *)
Section Members.
Variables (O : opts) (sel : bytes -> option nat) (fs : list vdec).
Notation dec := (ideal_members O sel fs).

Lemma set_nth_twice {A} (l : list A) j k a b : j <> k -> set_nth (set_nth l j a) k b = set_nth (set_nth l k b) j a.
Proof. revert j k. induction l as [|x l IH]; intros [|j] [|k] H; cbn; try reflexivity; [congruence|]. f_equal. apply IH. congruence. Qed.
Lemma targets_perm l l1 : Permutation l l1 -> Permutation (targets sel l) (targets sel l1).
Proof. apply Permutation_flat_map. Qed.

Lemma members_perm l l1 : Permutation l l1 -> NoDup (targets sel l) -> forall gs gs', dec l gs = VOk gs' -> dec l1 gs = VOk gs'.
Proof.
  induction 1 as [|x l l1 P IH|x y l|l l1 l2 P1 IH1 P2 IH2]; intros N gs gs' E; [exact E| | |].
  - destruct x as [[i key] v]. cbn [ideal_members] in *. unfold targets in N. cbn [flat_map fst snd] in N. destruct (sel key) as [j|].
    + destruct (nth_error fs j); [|discriminate]. destruct (nth_error gs j) as [g|]; [|discriminate]. destruct (v0 v g) as [g'| |]; try discriminate.
      apply IH; [|exact E]. cbn in N. inversion N; assumption.
    + destruct (o_unknown O); [discriminate|]. apply IH; assumption.
  - destruct x as [[i key] v], y as [[i2 key2] v2]. cbn [ideal_members] in *. unfold targets in N. cbn [flat_map fst snd] in N.
    destruct (sel key2) as [j2|] eqn:E2, (sel key) as [j|] eqn:E1.
    + assert (Nj : j2 <> j) by (cbn in N; inversion N as [|? ? Hn _]; subst; intros ->; apply Hn; left; reflexivity).
      destruct (nth_error fs j2) as [f2|] eqn:F2; [|discriminate]. destruct (nth_error gs j2) as [g2|] eqn:G2; [|discriminate].
      destruct (f2 v2 g2) as [g2'| |] eqn:R2; try discriminate. destruct (nth_error fs j) as [f|] eqn:F1; [|discriminate].
      rewrite set_nth_other in E by exact Nj. destruct (nth_error gs j) as [g|] eqn:G1; [|discriminate].
      destruct (f v g) as [g'| |] eqn:R1; try discriminate. rewrite set_nth_other by congruence. rewrite G2, R2. rewrite set_nth_twice by congruence. exact E.
    + destruct (nth_error fs j2) as [f2|]; [|discriminate]. destruct (nth_error gs j2) as [g2|]; [|discriminate].
      destruct (f2 v2 g2) as [g2'| |]; try discriminate. destruct (o_unknown O); [discriminate|exact E].
    + destruct (o_unknown O); [discriminate|]. exact E.
    + destruct (o_unknown O); [discriminate|]. exact E.
  - apply IH2; [|apply IH1; assumption]. eapply Permutation_NoDup; [apply targets_perm, P1|exact N].
Qed.
Lemma members_alike (fs' : list vdec) : forall l l', Forall2 (fun x y => snd (fst x) = snd (fst y) /\
      forall j f g g1, sel (snd (fst x)) = Some j -> nth_error fs j = Some f -> f (snd x) g = VOk g1 ->
      exists f' g2, nth_error fs' j = Some f' /\ f' (snd y) g = VOk g2 /\ same_value g1 g2) l l' ->
  NoDup (targets sel l) -> forall gs hs gs', Forall2 same_value gs hs -> (forall j, In j (targets sel l) -> nth_error gs j = nth_error hs j) ->
  dec l gs = VOk gs' -> exists hs', ideal_members O sel fs' l' hs = VOk hs' /\ Forall2 same_value gs' hs'.
Proof.
  induction 1 as [|[[i key] v] [[i' key'] v'] l l' [Ek Hv] _ IH]; intros N gs hs gs' S A E.
  - injection E as <-. exists hs. auto.
  - cbn [fst snd] in *. subst key'. unfold targets in N, A. cbn [ideal_members flat_map fst snd] in *. destruct (sel key) as [j|].
    + destruct (nth_error fs j) as [f|] eqn:Ef; [|discriminate]. rewrite <- (A j) by (left; reflexivity). destruct (nth_error gs j) as [g|] eqn:Eg; [|discriminate].
      destruct (f v g) as [g1| |] eqn:E1; try discriminate. destruct (Hv j f g g1 eq_refl Ef E1) as (f' & g2 & Ef' & E2 & S2). rewrite Ef', E2.
      cbn in N. inversion N as [|? ? Nj N']; subst. apply (IH N' (set_nth gs j g1) (set_nth hs j g2)); [| |exact E].
      * clear - S S2. revert j. induction S as [|a b gs hs Sab S IH]; intros [|j]; cbn; constructor; auto.
      * intros k Hk. assert (k <> j) by (intros ->; contradiction). rewrite !set_nth_other by congruence. apply A. right. exact Hk.
    + destruct (o_unknown O); [discriminate|]. apply (IH N gs hs gs' S A E).
Qed.
Lemma members_untouched l : forall gs gs', dec l gs = VOk gs' -> forall j, ~ In j (targets sel l) -> nth_error gs' j = nth_error gs j.
Proof.
  induction l as [|[[i key] v] l IH]; intros gs gs' E j N; [injection E as <-; reflexivity|]. unfold targets in N. cbn [ideal_members flat_map fst snd] in *. destruct (sel key) as [q|].
  - destruct (nth_error fs q) as [f|]; [|discriminate]. destruct (nth_error gs q) as [g|]; [|discriminate]. destruct (f v g) as [g'| |]; try discriminate.
    rewrite (IH _ _ E j) by (intros H; apply N; right; exact H). apply set_nth_other. intros ->. apply N. left. reflexivity.
  - destruct (o_unknown O); [discriminate|]. apply (IH _ _ E j N).
Qed.
Lemma set_nth_id {A} (l : list A) j a : nth_error l j = Some a -> set_nth l j a = l.
Proof. revert j. induction l as [|x l IH]; intros [|j] H; cbn in *; try discriminate; [congruence|]. f_equal. apply IH, H. Qed.
Lemma members_again l : (forall x, In x l -> forall j f g g1, sel (snd (fst x)) = Some j -> nth_error fs j = Some f -> f (snd x) g = VOk g1 -> f (snd x) g1 = VOk g1) ->
  NoDup (targets sel l) -> forall gs gs', dec l gs = VOk gs' -> dec l gs' = VOk gs'.
Proof.
  induction l as [|[[i key] v] l IH]; intros H N gs gs' E; [reflexivity|]. unfold targets in N. cbn [ideal_members flat_map fst snd] in *. destruct (sel key) as [j|] eqn:Ek.
  - destruct (nth_error fs j) as [f|] eqn:Ef; [|discriminate]. destruct (nth_error gs j) as [g|] eqn:Eg; [|discriminate]. destruct (f v g) as [g1| |] eqn:E1; try discriminate.
    cbn in N. inversion N as [|? ? Nj N']; subst.
    assert (Ej : nth_error gs' j = Some g1) by (rewrite (members_untouched _ _ _ E j Nj); eapply set_nth_same, Eg).
    pose proof (H (i, key, v) (or_introl eq_refl) j f g g1 Ek Ef E1) as E2. cbn [snd] in E2. rewrite Ej, E2. rewrite set_nth_id by exact Ej. apply (IH (fun x Hx => H x (or_intror Hx)) N' _ _ E).
  - destruct (o_unknown O); [discriminate|]. apply (IH (fun x Hx => H x (or_intror Hx)) N _ _ E).
Qed.
End Members.

(** ** Entries of a map *)
Lemma distinct_NoDup l : distinct l <-> NoDup l.
Proof.
  induction l as [|k l IH]; [split; [constructor|intros _; exact I]|]. cbn [distinct]. rewrite IH. split.
  - intros [H N]. constructor; [|exact N]. intros I. rewrite Forall_forall in H. specialize (H k I). assert (gkey_eqb k k = true) by (apply gkey_eq; reflexivity). congruence.
  - intros N. inversion N; subst. split; [|assumption]. apply Forall_forall. intros k' I. destruct (gkey_eqb k k') eqn:E; [|reflexivity]. apply gkey_eq in E as ->. contradiction.
Qed.
Lemma gkey_refl k : gkey_eqb k k = true.
Proof. apply gkey_eq. reflexivity. Qed.
Lemma gkey_neq k k' : k <> k' -> gkey_eqb k k' = false.
Proof. intros H. destruct (gkey_eqb k k') eqn:E; [|reflexivity]. apply gkey_eq in E. contradiction. Qed.
(** The same entries, and the same one found first for every key. *)
Definition shuffled (m m0 : list (gkey * gval)) : Prop := Permutation m m0 /\ forall k, getk m k = getk m0 k.
Lemma getk_put_same m k g : getk (putk m k g) k = Some g.
Proof. induction m as [|[k' g'] m IH]; cbn; [rewrite gkey_refl; reflexivity|]. destruct (gkey_eqb k' k) eqn:E; cbn; rewrite ?E; [reflexivity|exact IH]. Qed.
Lemma getk_put m k g k' : getk (putk m k g) k' = if gkey_eqb k k' then Some g else getk m k'.
Proof.
  destruct (gkey_eqb k k') eqn:E; [apply gkey_eq in E as <-; apply getk_put_same|]. apply getk_put_other. intros ->. rewrite gkey_refl in E. discriminate.
Qed.
Lemma putk_split m k g : match getk m k with Some g0 => Permutation ((k, g0) :: putk m k g) ((k, g) :: m) | None => putk m k g = m ++ [(k, g)] end.
Proof.
  induction m as [|[k' g'] m IH]; [reflexivity|]. cbn. destruct (gkey_eqb k' k) eqn:E.
  - apply gkey_eq in E as ->. apply perm_swap.
  - destruct (getk m k) as [g0|]; [|rewrite IH; reflexivity]. eapply Permutation_trans; [apply perm_swap|]. eapply Permutation_trans; [apply perm_skip, IH|]. apply perm_swap.
Qed.
Lemma putk_shuffled m m0 k g : shuffled m m0 -> shuffled (putk m k g) (putk m0 k g).
Proof.
  intros [P G]. split.
  - pose proof (putk_split m k g) as S. pose proof (putk_split m0 k g) as S0. rewrite <- (G k) in S0. destruct (getk m k) as [g0|].
    + apply Permutation_cons_inv with (a := (k, g0)). eapply Permutation_trans; [exact S|]. eapply Permutation_trans; [apply perm_skip, P|]. apply Permutation_sym, S0.
    + rewrite S, S0. apply Permutation_app_tail, P.
  - intros k'. rewrite !getk_put, G. reflexivity.
Qed.
Lemma putk_twice m k g k' g' : k <> k' -> shuffled (putk (putk m k g) k' g') (putk (putk m k' g') k g).
Proof.
  intros D. split.
  - induction m as [|[a b] m IH]; cbn.
    + rewrite !gkey_neq by congruence. apply perm_swap.
    + destruct (gkey_eqb a k) eqn:E1.
      * apply gkey_eq in E1 as ->. cbn. rewrite (gkey_neq k k' D). cbn. rewrite gkey_refl. apply Permutation_refl.
      * destruct (gkey_eqb a k') eqn:E2; cbn; rewrite ?E1, ?E2; [apply Permutation_refl|apply perm_skip, IH].
  - intros q. rewrite !getk_put. destruct (gkey_eqb k q) eqn:E1, (gkey_eqb k' q) eqn:E2; try reflexivity. apply gkey_eq in E1, E2. congruence.
Qed.
Lemma putk_id m k g : getk m k = Some g -> putk m k g = m.
Proof. induction m as [|[k' g'] m IH]; cbn; [discriminate|]. destruct (gkey_eqb k' k) eqn:E; [intros [= ->]; reflexivity|]. intros H. rewrite IH by exact H. reflexivity. Qed.

Section Entries.
Variables (C : cfg) (kt : dkey) (f : vdec) (isstruct : bool) (z : gval).
Notation dec := (ideal_entries C kt f isstruct z).
Notation keys l := (map_keys C kt l).
Definition old (m : list (gkey * gval)) (k : gkey) : gval := match getk m k with Some g => if isstruct then z else g | None => z end.
Lemma entries_cons i r v l m : dec ((i, r, v) :: l) m =
  match ideal_key C kt r with
  | inr e => VErr i e m
  | inl key => match f v (old m key) with VOk g => dec l (putk m key g) | VErr i e g => VErr i e (putk m key g) | VPan => VPan end
  end.
Proof. reflexivity. Qed.
Lemma old_perm m m0 k : shuffled m m0 -> old m k = old m0 k.
Proof. intros [_ G]. unfold old. rewrite G. reflexivity. Qed.
Lemma old_put m k g k' : k <> k' -> old (putk m k g) k' = old m k'.
Proof. intros H. unfold old. rewrite getk_put_other by exact H. reflexivity. Qed.

Lemma entries_start l : forall m m0 m', shuffled m m0 -> dec l m = VOk m' -> exists m0', dec l m0 = VOk m0' /\ shuffled m' m0'.
Proof.
  induction l as [|[[i r] v] l IH]; intros m m0 m' P E; [injection E as <-; exists m0; auto|]. rewrite entries_cons in *.
  destruct (ideal_key C kt r) as [key|e]; [|discriminate]. rewrite <- (old_perm m m0 key P). destruct (f v (old m key)) as [g| |]; try discriminate.
  apply (IH (putk m key g)); [apply putk_shuffled, P|exact E].
Qed.
Lemma entries_perm l l1 : Permutation l l1 -> NoDup (keys l) -> forall m m', dec l m = VOk m' -> exists m1, dec l1 m = VOk m1 /\ shuffled m' m1.
Proof.
  induction 1 as [|x l l1 P IH|x y l|l l1 l2 P1 IH1 P2 IH2]; intros Nk m m' E.
  - exists m'. split; [exact E|]. split; [apply Permutation_refl|reflexivity].
  - destruct x as [[i r] v]. rewrite entries_cons in *. unfold map_keys in Nk. cbn [flat_map fst snd] in Nk. destruct (ideal_key C kt r) as [key|e]; [|discriminate]. inversion Nk; subst.
    destruct (f v (old m key)) as [g| |]; try discriminate. apply (IH ltac:(assumption) (putk m key g)). exact E.
  - destruct x as [[i r] v], y as [[i2 r2] v2]. rewrite entries_cons in E |- *. unfold map_keys in Nk. cbn [flat_map fst snd] in Nk.
    destruct (ideal_key C kt r2) as [k2|e2] eqn:E2; [|discriminate]. destruct (f v2 (old m k2)) as [g2| |] eqn:F2; try discriminate. rewrite entries_cons in E.
    destruct (ideal_key C kt r) as [k1|e1] eqn:E1; [|discriminate]. assert (D : k2 <> k1) by (inversion Nk as [|? ? K1 _]; subst; intros ->; apply K1; left; reflexivity).
    rewrite old_put in E by exact D. destruct (f v (old m k1)) as [g1| |] eqn:F1; try discriminate. rewrite entries_cons, E2, old_put by congruence. rewrite F2.
    apply (entries_start l (putk (putk m k2 g2) k1 g1)); [apply putk_twice, D|exact E].
  - destruct (IH1 Nk m m' E) as (m1 & X1 & Y1). destruct (IH2 (Permutation_NoDup (Permutation_flat_map _ P1) Nk) m m1 X1) as (m2 & X2 & Y2).
    exists m2. split; [exact X2|]. destruct Y1, Y2. split; [eapply Permutation_trans; eassumption|congruence].
Qed.
Lemma put_alike m m2 k g g2 : Forall2 (fun a b => fst a = fst b /\ same_value (snd a) (snd b)) m m2 -> same_value g g2 ->
  Forall2 (fun a b => fst a = fst b /\ same_value (snd a) (snd b)) (putk m k g) (putk m2 k g2).
Proof.
  induction 1 as [|[ka a] [kb b] m m2 [Ek S] H IH]; intros Sg; cbn; [repeat constructor; exact Sg|]. cbn in Ek. subst kb.
  destruct (gkey_eqb ka k); constructor; auto.
Qed.
Lemma entries_alike (f' : vdec) : forall l l', Forall2 (fun x y => snd (fst x) = snd (fst y) /\ forall g g1, f (snd x) g = VOk g1 -> exists g2, f' (snd y) g = VOk g2 /\ same_value g1 g2) l l' ->
  NoDup (keys l) -> forall m m2 m', Forall2 (fun a b => fst a = fst b /\ same_value (snd a) (snd b)) m m2 ->
  (forall k, In k (keys l) -> old m k = old m2 k) ->
  dec l m = VOk m' -> exists m2', ideal_entries C kt f' isstruct z l' m2 = VOk m2' /\ Forall2 (fun a b => fst a = fst b /\ same_value (snd a) (snd b)) m' m2'.
Proof.
  induction 1 as [|[[i r] v] [[i' r'] v'] l l' [Er Hv] _ IH]; intros N m m2 m' S A E.
  - injection E as <-. exists m2. auto.
  - cbn [fst snd] in *. subst r'. rewrite entries_cons in E. cbn [ideal_entries]. unfold map_keys in N, A. cbn [flat_map fst snd] in N, A. destruct (ideal_key C kt r) as [key|e] eqn:Ek; [|discriminate]. inversion N as [|? ? Nk N']; subst.
    fold (old m2 key). rewrite <- (A key) by (left; reflexivity). destruct (f v (old m key)) as [g1| |] eqn:E1; try discriminate. destruct (Hv _ _ E1) as (g2 & E2 & S2). rewrite E2.
    apply (IH N' (putk m key g1) (putk m2 key g2)); [apply put_alike; assumption| |exact E].
    intros k Hk. assert (key <> k) by (intros ->; contradiction). rewrite !old_put by assumption. apply A. right. exact Hk.
Qed.
Lemma entries_untouched l : forall m m', dec l m = VOk m' -> forall k, ~ In k (keys l) -> getk m' k = getk m k.
Proof.
  induction l as [|[[i r] v] l IH]; intros m m' E k N; [injection E as <-; reflexivity|]. rewrite entries_cons in E. unfold map_keys in N. cbn [flat_map fst snd] in N.
  destruct (ideal_key C kt r) as [key|e]; [|discriminate]. destruct (f v (old m key)) as [g| |]; try discriminate.
  rewrite (IH _ _ E k) by (intros H; apply N; right; exact H). apply getk_put_other. intros ->. apply N. left. reflexivity.
Qed.
Lemma entries_again l : (forall x, In x l -> forall g g1, f (snd x) g = VOk g1 -> f (snd x) g1 = VOk g1) ->
  NoDup (keys l) -> forall m m', dec l m = VOk m' -> dec l m' = VOk m'.
Proof.
  induction l as [|[[i r] v] l IH]; intros H N m m' E; [reflexivity|]. unfold map_keys in N. cbn [flat_map fst snd] in N. rewrite entries_cons in *.
  destruct (ideal_key C kt r) as [key|e] eqn:Ek; [|discriminate]. inversion N as [|? ? Nk N']; subst. destruct (f v (old m key)) as [g| |] eqn:Eg; try discriminate.
  assert (G : getk m' key = Some g) by (rewrite (entries_untouched _ _ _ E key Nk); apply getk_put_same).
  assert (E2 : f v (old m' key) = VOk g).
  { unfold old at 1. rewrite G. destruct isstruct eqn:Is; [|exact (H (i, r, v) (or_introl eq_refl) _ _ Eg)].
    unfold old in Eg. rewrite Is in Eg. destruct (getk m key); exact Eg. }
  rewrite E2, putk_id by exact G. apply (IH (fun x Hx => H x (or_intror Hx)) N' _ _ E).
Qed.
End Entries.

(** ** Any *)
Fixpoint gen_entries (l : list ((nat * bytes) * jv)) : option (list (bytes * jany)) :=
  match l with
  | [] => Some []
  | x :: r => match generic (snd x), gen_entries r with Some a, Some b => Some ((str_text (snd (fst x)), a) :: b) | _, _ => None end
  end.
Notation names l := (map (fun x : (nat * bytes) * jv => str_text (snd (fst x))) l).
Lemma gen_members_entries l : forall acc, NoDup (map fst acc ++ names l) -> gen_members acc l = option_map (app acc) (gen_entries l).
Proof.
  induction l as [|x l IH]; intros acc N; [cbn; rewrite app_nil_r; reflexivity|]. cbn [gen_members gen_entries map] in *. destruct (generic (snd x)) as [a|]; [|reflexivity].
  rewrite nassoc_put_new.
  - rewrite IH.
    + destruct (gen_entries l); [|reflexivity]. cbn. rewrite <- app_assoc. reflexivity.
    + rewrite map_app, <- app_assoc. exact N.
  - intros I. apply NoDup_remove_2 in N. apply N, in_or_app. left. exact I.
Qed.
Lemma gen_entries_perm l l1 : Permutation l l1 -> forall a, gen_entries l = Some a -> exists a1, gen_entries l1 = Some a1 /\ Permutation a a1.
Proof.
  induction 1 as [|x l l1 P IH|x y l|l l1 l2 P1 IH1 P2 IH2]; intros a E.
  - exists a. auto.
  - cbn [gen_entries] in *. destruct (generic (snd x)); [|discriminate]. destruct (gen_entries l) as [b|]; [|discriminate]. injection E as <-.
    destruct (IH b eq_refl) as (b1 & -> & Pb). eexists. split; [reflexivity|]. apply perm_skip, Pb.
  - cbn [gen_entries] in *. destruct (generic (snd x)); [|destruct (generic (snd y)); discriminate]. destruct (generic (snd y)); [|discriminate].
    destruct (gen_entries l) as [b|]; [|discriminate]. injection E as <-. eexists. split; [reflexivity|]. apply perm_swap.
  - destruct (IH1 a E) as (a1 & E1 & Q1). destruct (IH2 a1 E1) as (a2 & E2 & Q2). exists a2. split; [exact E2|]. eapply Permutation_trans; eassumption.
Qed.
Lemma unlike_any_arr i j l : unlike_any (JArr i j l) <-> Forall unlike_any l.
Proof. cbn [unlike_any]. induction l as [|x l IH]; [split; [constructor|intros _; exact I]|]. rewrite Forall_cons_iff, IH. reflexivity. Qed.
Lemma unlike_any_obj i j l : unlike_any (JObj i j l) <-> NoDup (names l) /\ Forall (fun x => unlike_any (snd x)) l.
Proof.
  cbn [unlike_any]. apply and_iff_compat_l. induction l as [|x l IH]; [split; [constructor|intros _; exact I]|]. rewrite Forall_cons_iff, IH. reflexivity.
Qed.
Lemma names_alike {P : (nat * bytes) * jv -> (nat * bytes) * jv -> Prop} l l' : (forall x y, P x y -> snd (fst x) = snd (fst y)) -> Forall2 P l l' -> map (fun x => snd (fst x)) l = map (fun x => snd (fst x)) l'.
Proof. intros H. induction 1 as [|x y l l' Hxy _ IH]; [reflexivity|]. cbn. rewrite (H x y Hxy), IH. reflexivity. Qed.

Lemma generic_reordered v : forall v' a, reordered v v' -> unlike_any v -> generic v = Some a -> exists a', generic v' = Some a' /\ same_any a a'.
Proof.
  induction v as [i|i b|i r|i r|i r|i j l IH|i j l IH] using jv_ind'; intros v' a R U E; inversion R; subst; try (exists a; split; [exact E|apply same_any_refl]).
  - rewrite generic_arr in *. apply unlike_any_arr in U. destruct (gen_list l) as [la|] eqn:El; [|discriminate]. injection E as <-.
    assert (H : exists la', gen_list l' = Some la' /\ Forall2 same_any la la').
    { clear R. revert la El. match goal with H : Forall2 reordered l l' |- _ => induction H as [|x y l l' Rxy Rl IHl] end; intros la El; [injection El as <-; exists []; split; [reflexivity|constructor]|].
      inversion IH as [|? ? IHx IHr]; inversion U as [|? ? Ux Ur]; subst. cbn [gen_list] in *. destruct (generic x) as [ax|] eqn:Ex; [|discriminate].
      fold gen_list in *. destruct (gen_list l) as [ar|]; [|discriminate]. injection El as <-. destruct (IHx y ax Rxy Ux eq_refl) as (ay & -> & Sy). destruct (IHl IHr Ur ar eq_refl) as (br & Er & Sr).
      change ((fix go (l : list jv) : option (list jany) := match l with [] => Some [] | x :: r => match generic x, go r with Some a, Some b => Some (a :: b) | _, _ => None end end) l') with (gen_list l').
      rewrite Er. eexists. split; [reflexivity|]. constructor; assumption. }
    destruct H as (la' & -> & S). eexists. split; [reflexivity|]. constructor. exact S.
  - rewrite generic_obj in *. apply unlike_any_obj in U as [N U].
    match goal with H : Permutation l _, H' : Forall2 _ _ l' |- _ => rename H into P; rename H' into Q end.
    assert (Nn : NoDup (names l1)) by (eapply Permutation_NoDup; [apply (Permutation_map (fun x => str_text (snd (fst x)))), P|exact N]).
    assert (En : names l' = names l1).
    { rewrite <- (map_map (fun x => snd (fst x)) str_text l'), <- (map_map (fun x => snd (fst x)) str_text l1). f_equal. symmetry. eapply names_alike; [|exact Q]. cbn. tauto. }
    rewrite gen_members_entries in E by exact N. rewrite gen_members_entries by (cbn [app map]; rewrite En; exact Nn).
    destruct (gen_entries l) as [la|] eqn:El; [|discriminate]. injection E as <-. destruct (gen_entries_perm l l1 P la El) as (l1a & E1 & P1).
    assert (IH1 : Forall (fun x => forall v' a, reordered (snd x) v' -> unlike_any (snd x) -> generic (snd x) = Some a -> exists a', generic v' = Some a' /\ same_any a a') l1).
    { rewrite Forall_forall in *. intros x Hx. apply IH. eapply Permutation_in; [apply Permutation_sym, P|exact Hx]. }
    assert (U1 : Forall (fun x => unlike_any (snd x)) l1).
    { rewrite Forall_forall in *. intros x Hx. apply U. eapply Permutation_in; [apply Permutation_sym, P|exact Hx]. }
    assert (H : exists la', gen_entries l' = Some la' /\ Forall2 (fun a b => fst a = fst b /\ same_any (snd a) (snd b)) l1a la').
    { clear - Q IH1 U1 E1. revert l1a E1. induction Q as [|x y l1 l' [Ek Rxy] Q IHl]; intros l1a E1; [injection E1 as <-; exists []; split; [reflexivity|constructor]|].
      inversion IH1 as [|? ? IHx IHr]; inversion U1 as [|? ? Ux Ur]; subst. cbn [gen_entries] in *. destruct (generic (snd x)) as [ax|] eqn:Ex; [|discriminate].
      destruct (gen_entries l1) as [ar|]; [|discriminate]. injection E1 as <-. destruct (IHx (snd y) ax Rxy Ux eq_refl) as (ay & -> & Sy). destruct (IHl IHr Ur ar eq_refl) as (br & -> & Sr).
      eexists. split; [reflexivity|]. constructor; [|exact Sr]. cbn. rewrite Ek. auto. }
    destruct H as (la' & -> & S). eexists. split; [reflexivity|]. cbn [app]. econstructor; eassumption.
Qed.

(** ** map[string]string *)
Fixpoint mss_entries (l : list ((nat * bytes) * jv)) : option (list (bytes * bytes)) :=
  match l with
  | [] => Some []
  | (_, r, JStr _ t) :: rest => option_map (cons (str_text r, str_text t)) (mss_entries rest)
  | (_, r, JNull _) :: rest => option_map (cons (str_text r, [])) (mss_entries rest)
  | _ => None
  end.
Lemma mss_entries_spec l : forall acc, NoDup (map fst acc ++ names l) ->
  match ideal_mss l acc with inl m => exists a, mss_entries l = Some a /\ m = acc ++ a | inr _ => mss_entries l = None end.
Proof.
  induction l as [|[[i r] v] l IH]; intros acc N; [exists []; rewrite app_nil_r; auto|]. cbn [map fst snd] in N.
  assert (St : forall t, match ideal_mss l (nassoc_put acc (str_text r) t) with
      | inl m => exists a, option_map (cons (str_text r, t)) (mss_entries l) = Some a /\ m = acc ++ a | inr _ => option_map (cons (str_text r, t)) (mss_entries l) = None end).
  { intros t. rewrite nassoc_put_new by (intros I; apply NoDup_remove_2 in N; apply N, in_or_app; left; exact I).
    specialize (IH (acc ++ [(str_text r, t)])). rewrite map_app, <- app_assoc in IH. specialize (IH N). destruct (ideal_mss l (acc ++ [(str_text r, t)])) as [m|].
    - destruct IH as (a & -> & ->). eexists. split; [reflexivity|]. rewrite <- app_assoc. reflexivity.
    - rewrite IH. reflexivity. }
  destruct v; cbn [ideal_mss mss_entries]; try reflexivity; apply St.
Qed.
Lemma mss_entries_perm l l1 : Permutation l l1 -> forall a, mss_entries l = Some a -> exists a1, mss_entries l1 = Some a1 /\ Permutation a a1.
Proof.
  assert (Cons : forall i r v l a, mss_entries ((i, r, v) :: l) = Some a -> exists t b, mss_entries l = Some b /\ a = (str_text r, t) :: b /\ forall l2 b2, mss_entries l2 = Some b2 -> mss_entries ((i, r, v) :: l2) = Some ((str_text r, t) :: b2)).
  { intros i r v l0 a E. destruct v; cbn [mss_entries] in E; try discriminate; destruct (mss_entries l0) as [b|] eqn:Eb; try discriminate; injection E as <-;
      eexists _, b; (split; [reflexivity|split; [reflexivity|]]); intros l2 b2 E2; cbn [mss_entries]; rewrite E2; reflexivity. }
  induction 1 as [|x l l1 P IH|x y l|l l1 l2 P1 IH1 P2 IH2]; intros a E.
  - exists a. auto.
  - destruct x as [[i r] v]. destruct (Cons _ _ _ _ _ E) as (t & b & Eb & -> & K). destruct (IH b Eb) as (b1 & E1 & Q1). eexists. split; [apply K, E1|]. apply perm_skip, Q1.
  - destruct x as [[i r] v], y as [[i2 r2] v2]. destruct (Cons _ _ _ _ _ E) as (t & b & Eb & -> & K). destruct (Cons _ _ _ _ _ Eb) as (t2 & b2 & Eb2 & -> & K2).
    eexists. split; [apply K2, K, Eb2|]. apply perm_swap.
  - destruct (IH1 a E) as (a1 & E1 & Q1). destruct (IH2 a1 E1) as (a2 & E2 & Q2). exists a2. split; [exact E2|]. eapply Permutation_trans; eassumption.
Qed.
Lemma mss_entries_alike l l' : Forall2 (fun x y => snd (fst x) = snd (fst y) /\ reordered (snd x) (snd y)) l l' -> mss_entries l = mss_entries l'.
Proof.
  induction 1 as [|[[i r] v] [[i' r'] v'] l l' [Ek R] _ IH]; [reflexivity|]. cbn in Ek, R. subst r'. inversion R; subst; cbn [mss_entries]; rewrite ?IH; reflexivity.
Qed.

(** ** Elements *)
Lemma elemsv_alike (f f' : vdec) : forall l l', Forall2 (fun x y => forall g g1, f x g = VOk g1 -> exists g2, f' y g = VOk g2 /\ same_value g1 g2) l l' ->
  forall gs gs', elemsv f l gs = VOk gs' -> exists hs', elemsv f' l' gs = VOk hs' /\ Forall2 same_value gs' hs'.
Proof.
  induction 1 as [|x y l l' H _ IH]; intros gs gs' E; [injection E as <-; exists gs; split; [reflexivity|apply Forall2_same_refl]|].
  destruct gs as [|g gs]; [discriminate|]. cbn [elemsv] in *. destruct (f x g) as [g1| |] eqn:E1; try discriminate. destruct (H _ _ E1) as (g2 & -> & S2).
  destruct (elemsv f l gs) as [r| |] eqn:Er; try discriminate. injection E as <-. destruct (IH gs r Er) as (hr & -> & Sr). eexists. split; [reflexivity|]. constructor; assumption.
Qed.
Lemma elemsv_split (f : vdec) l : forall gs gs', elemsv f l gs = VOk gs' -> length gs' = length gs /\ (length l <= length gs)%nat.
Proof.
  induction l as [|x l IH]; intros gs gs' E; [injection E as <-; cbn; lia|]. destruct gs as [|g gs]; [discriminate|]. cbn [elemsv] in *.
  destruct (f x g) as [g1| |] eqn:E1; try discriminate. destruct (elemsv f l gs) as [r| |] eqn:Er; try discriminate. injection E as <-. apply IH in Er. cbn. lia.
Qed.
Lemma elemsv_again (f : vdec) l : (forall x, In x l -> forall g g1, f x g = VOk g1 -> f x g1 = VOk g1) -> forall gs gs' t, elemsv f l gs = VOk gs' ->
  elemsv f l (firstn (length l) gs' ++ t) = VOk (firstn (length l) gs' ++ t).
Proof.
  induction l as [|x l IH]; intros H gs gs' t E; [reflexivity|]. destruct gs as [|g gs]; [discriminate|]. cbn [elemsv length] in *.
  destruct (f x g) as [g1| |] eqn:E1; try discriminate. destruct (elemsv f l gs) as [r| |] eqn:Er; try discriminate. injection E as <-. cbn [firstn app].
  rewrite (H x (or_introl eq_refl) g g1 E1). rewrite (IH (fun y Hy => H y (or_intror Hy)) gs r t Er). reflexivity.
Qed.
Lemma elemsv_twice (f : vdec) l : (forall x, In x l -> forall g g1, f x g = VOk g1 -> f x g1 = VOk g1) -> forall gs gs', elemsv f l gs = VOk gs' -> elemsv f l gs' = VOk gs'.
Proof. intros H gs gs' E. pose proof (elemsv_again f l H gs gs' (skipn (length l) gs') E) as E2. rewrite firstn_skipn in E2. exact E2. Qed.

(** ** The order of members does not matter *)
Lemma F2_len {A B} (P : A -> B -> Prop) l l' : Forall2 P l l' -> length l = length l'.
Proof. induction 1; cbn; congruence. Qed.
Lemma F2_firstn {A B} (P : A -> B -> Prop) n l l' : Forall2 P l l' -> Forall2 P (firstn n l) (firstn n l').
Proof. intros H. revert n. induction H; intros [|n]; cbn; constructor; auto. Qed.
Lemma F2_with {A B} (P : A -> Prop) (R S : A -> B -> Prop) l l' : (forall x y, P x -> R x y -> S x y) -> Forall P l -> Forall2 R l l' -> Forall2 S l l'.
Proof. intros H F. induction 1; inversion F; subst; constructor; auto. Qed.
Lemma slicev_alike (f f' : vdec) z fast keep l l' g g1 : Forall2 (fun x y => forall g g1, f x g = VOk g1 -> exists g2, f' y g = VOk g2 /\ same_value g1 g2) l l' ->
  slicev f z fast keep l g = VOk g1 -> exists g2, slicev f' z fast keep l' g = VOk g2 /\ same_value g1 g2.
Proof.
  intros F E. pose proof (F2_len _ _ _ F) as L. unfold slicev in *. destruct l as [|x l], l' as [|x' l']; try discriminate L.
  - injection E as <-. eexists. split; [reflexivity|]. apply same_refl.
  - rewrite <- L. destruct (contents g) as [vis hid]. destruct (_ <=? _)%nat.
    + destruct (elemsv f (x :: l) (vis ++ hid)) as [all| |] eqn:Ea; try discriminate. injection E as <-. destruct (elemsv_alike f f' _ _ F _ _ Ea) as (all' & -> & S).
      eexists. split; [reflexivity|]. unfold split_at. constructor. apply F2_firstn, S.
    + destruct (elemsv f (x :: l) _) as [all| |] eqn:Ea; try discriminate. injection E as <-. destruct (elemsv_alike f f' _ _ F _ _ Ea) as (all' & -> & S).
      eexists. split; [reflexivity|]. unfold split_at. constructor. apply F2_firstn, S.
Qed.
Lemma find_reordered l l' : Forall2 reordered l l' -> find (fun x => negb (null_or_object x)) l = None -> find (fun x => negb (null_or_object x)) l' = None.
Proof.
  induction 1 as [|x y l l' R _ IH]; cbn; [auto|]. replace (null_or_object y) with (null_or_object x) by (inversion R; reflexivity). destruct (negb (null_or_object x)); [discriminate|exact IH].
Qed.

Lemma Forall2_entries_refl (m : list (gkey * gval)) : Forall2 (fun a b => fst a = fst b /\ same_value (snd a) (snd b)) m m.
Proof. induction m; constructor; [split; [reflexivity|apply same_refl]|assumption]. Qed.
Lemma perm_F2 {A B} (R : A -> B -> Prop) l1 l : Permutation l1 l -> forall l', Forall2 R l' l1 -> exists l2, Permutation l' l2 /\ Forall2 R l2 l.
Proof.
  induction 1 as [|x l1 l P IH|x y l|l1 l2 l3 P1 IH1 P2 IH2]; intros l' Q.
  - exists l'. auto.
  - inversion Q as [|a b q r Ra Qr]; subst. destruct (IH q Qr) as (l2 & P2 & Q2). exists (a :: l2). auto.
  - inversion Q as [|a b q r Ra Qr]; subst. inversion Qr as [|a2 b2 q2 r2 Ra2 Qr2]; subst. exists (a2 :: a :: q2). split; [apply perm_swap|auto].
  - destruct (IH1 l' Q) as (m2 & X1 & Y1). destruct (IH2 m2 Y1) as (m3 & X2 & Y2). exists m3. split; [eapply Permutation_trans; eassumption|exact Y2].
Qed.
Section Reordered.
Variables (C : cfg) (O : opts).
Lemma sc_reordered x v v' g g1 : reordered v v' -> unlike C O (DSc x) v -> lput (jidx v) (ideal_sc C x v) g = VOk g1 ->
  exists g2, lput (jidx v') (ideal_sc C x v') g = VOk g2 /\ same_value g1 g2.
Proof.
  intros R U E. assert (Same : forall r, lput (jidx v) r g = VOk g1 -> lput (jidx v') r g = VOk g1) by (intros []; cbn; auto; discriminate).
  assert (Triv : ideal_sc C x v' = ideal_sc C x v -> exists g2, lput (jidx v') (ideal_sc C x v') g = VOk g2 /\ same_value g1 g2).
  { intros Eq. exists g1. split; [|apply same_refl]. rewrite Eq. apply Same, E. }
  destruct x; try (apply Triv; inversion R; reflexivity).
  cbn [unlike] in U. assert (G : forall w, match w with JInt _ _ | JNum _ _ => False | _ => True end -> ideal_sc C SAny w = match generic w with Some a => LSet (VAny a) | None => LErr EUnexpected end).
  { intros [] H; try contradiction; reflexivity. }
  destruct v; try (apply Triv; inversion R; reflexivity).
  all: match type of R with reordered ?w _ => rewrite G in E by exact I; destruct (generic w) as [a|] eqn:Ea; [|discriminate]; injection E as <-; destruct (generic_reordered _ v' a R U Ea) as (a' & E' & S) end;
    exists (VAny a'); (split; [|constructor; exact S]); rewrite G by (inversion R; exact I); rewrite E'; reflexivity.
Qed.
Theorem ideal_reordered s s' d : no_json d = true -> forall v v' g g1, reordered v v' -> unlike C O d v -> ideal C O s d v g = VOk g1 ->
  exists g2, ideal C O s' d v' g = VOk g2 /\ same_value g1 g2.
Proof.
  induction d as [x|id z|id z| |n t IH| |t IH|k t IH| |t IH|z fs IH] using dt_ind'; intros NJ v v' g g1 R U E; cbn [no_json] in NJ; try discriminate NJ.
  - cbn [ideal] in *. eapply sc_reordered; eassumption.
  - exists g1. split; [|apply same_refl]. cbn [ideal] in *. inversion R; subst; cbn [jidx] in *; try discriminate; try exact E.
    unfold userv in *. destruct (snd _); [discriminate|exact E].
  - exists g1. split; [|apply same_refl]. cbn [ideal] in *. inversion R; subst; try discriminate; exact E.
  - cbn [ideal unlike] in *. inversion R; subst; try discriminate; try (exists g1; split; [exact E|apply same_refl]).
    destruct g as [| | | | | |gs| | | | |]; try discriminate. destruct (elemsv (ideal C O s t) (firstn n l) gs) as [gs'| |] eqn:Es; try discriminate. injection E as <-.
    match goal with H : Forall2 reordered l l' |- _ => rename H into F end.
    destruct (elemsv_alike (ideal C O s t) (ideal C O s' t) (firstn n l) (firstn n l')) with (gs := gs) (gs' := gs') as (hs' & -> & S); [|exact Es|].
    + eapply F2_with; [|exact U|apply F2_firstn, F]. cbn. intros x y Ux Rxy g g1. apply IH; assumption.
    + eexists. split; [reflexivity|]. constructor. rewrite <- (F2_len _ _ _ F). apply Forall2_app; [apply F2_firstn, S|apply Forall2_same_refl].
  - exists g1. split; [|apply same_refl]. cbn [ideal] in *. inversion R; subst; try discriminate; exact E.
  - cbn [unlike] in U. cbn [ideal] in E |- *. inversion R; subst; try discriminate; try (exists g1; split; [exact E|apply same_refl]).
    match goal with H : Forall2 reordered l l' |- _ => rename H into F end.
    assert (Sl : slicev (ideal C O s t) (zero t) (match fast_et t with Some _ => true | None => false end) (carried t) l g = VOk g1 ->
      exists g2, slicev (ideal C O s' t) (zero t) (match fast_et t with Some _ => true | None => false end) (carried t) l' g = VOk g2 /\ same_value g1 g2).
    { apply slicev_alike. eapply F2_with; [|exact U|exact F]. cbn. intros x y Ux Rxy g0 g2. apply IH; assumption. }
    destruct t; try exact (Sl E). destruct (find (fun x => negb (null_or_object x)) l) eqn:Ef; [discriminate|]. rewrite (find_reordered l l' F Ef), <- (F2_len _ _ _ F).
    exists g1. split; [exact E|apply same_refl].
  - cbn [unlike] in U. cbn [ideal] in E |- *. inversion R; subst; try discriminate; try (exists g1; split; [exact E|apply same_refl]).
    match goal with H : Permutation l _, H' : Forall2 _ _ l' |- _ => rename H into P; rename H' into Q end. destruct U as [N U].
    set (m0 := match g with VMap (Some m) => m | _ => [] end) in *. destruct (ideal_entries C k (ideal C O s t) (is_struct t) (zero t) l m0) as [m'| |] eqn:Em; try discriminate. injection E as <-.
    destruct (entries_perm C k (ideal C O s t) (is_struct t) (zero t) l l1 P N m0 m' Em) as (m1 & E1 & P1 & _).
    destruct (entries_alike C k (ideal C O s t) (is_struct t) (zero t) (ideal C O s' t) l1 l') with (m := m0) (m2 := m0) (m' := m1) as (m2 & E2 & S2).
    + eapply F2_with; [|eapply Permutation_Forall; [exact P|exact U]|exact Q]. cbn. intros x y Ux [Ek Rxy]. split; [exact Ek|]. intros g0 g2. apply IH; assumption.
    + eapply Permutation_NoDup; [apply Permutation_flat_map, P|exact N].
    + apply Forall2_entries_refl.
    + reflexivity.
    + exact E1.
    + rewrite E2. eexists. split; [reflexivity|]. econstructor; eassumption.
  - cbn [unlike] in U. cbn [ideal] in E |- *. inversion R; subst; try discriminate; try (exists g1; split; [exact E|apply same_refl]).
    match goal with H : Permutation l _, H' : Forall2 _ _ l' |- _ => rename H into P; rename H' into Q end.
    assert (En : names l' = names l1).
    { rewrite <- (map_map (fun x => snd (fst x)) str_text l'), <- (map_map (fun x => snd (fst x)) str_text l1). f_equal. symmetry. eapply names_alike; [|exact Q]. cbn. tauto. }
    pose proof (mss_entries_spec l [] U) as S. pose proof (mss_entries_spec l' []) as S'. cbn [map app] in S'. rewrite En in S'.
    specialize (S' (Permutation_NoDup (Permutation_map _ P) U)). destruct (ideal_mss l []) as [m|[]]; [|discriminate]. injection E as <-. destruct S as (a & Ea & ->).
    destruct (mss_entries_perm l l1 P a Ea) as (a1 & E1 & P1). rewrite (mss_entries_alike l1 l' Q) in E1. rewrite E1 in S'. destruct (ideal_mss l' []) as [m'|[]]; [|discriminate].
    destruct S' as (a' & [= <-] & ->). eexists. split; [reflexivity|]. constructor. exact P1.
  - cbn [unlike] in U. cbn [ideal] in E |- *.
    assert (Sub : vmap (fun g => VPtr (Some g)) (ideal C O s t v (zero t)) = VOk g1 -> exists g2, vmap (fun g => VPtr (Some g)) (ideal C O s' t v' (zero t)) = VOk g2 /\ same_value g1 g2).
    { intros E'. destruct (ideal C O s t v (zero t)) as [a| |] eqn:Ea; try discriminate. injection E' as <-. destruct (IH NJ v v' _ _ R U Ea) as (b & -> & S). eexists. split; [reflexivity|]. constructor. exact S. }
    inversion R; subst; try exact (Sub E). exists g1. split; [exact E|apply same_refl].
  - cbn [unlike] in U. cbn [ideal] in E |- *. inversion R; subst; try discriminate; try (exists g1; split; [exact E|apply same_refl]).
    match goal with H : Permutation l _, H' : Forall2 _ _ l' |- _ => rename H into P; rename H' into Q end. destruct U as [N U].
    destruct g as [| | | | | | |gs| | | |]; try discriminate. destruct (ideal_members O (field_for C O fs) (map (fun x => ideal C O s (snd x)) fs) l gs) as [gs'| |] eqn:Em; try discriminate. injection E as <-.
    pose proof (members_perm O (field_for C O fs) _ l l1 P N gs gs' Em) as E1.
    destruct (members_alike O (field_for C O fs) (map (fun x => ideal C O s (snd x)) fs) (map (fun x => ideal C O s' (snd x)) fs) l1 l') with (gs := gs) (hs := gs) (gs' := gs') as (hs' & E2 & S2).
    + eapply F2_with; [|eapply Permutation_Forall; [exact P|exact U]|exact Q]. cbn. intros x y Ux [Ek Rxy]. split; [exact Ek|]. intros jj f g0 g2 Ej Ef Ev. rewrite Ej in Ux.
      rewrite nth_error_map in Ef, Ux. rewrite nth_error_map. destruct (nth_error fs jj) as [q|] eqn:Eq; [|discriminate]. cbn in *. injection Ef as <-.
      rewrite Forall_forall in IH. apply nth_error_In in Eq. rewrite forallb_forall in NJ.
      destruct (IH q Eq (NJ q Eq) (snd x) (snd y) g0 g2 Rxy Ux Ev) as (g3 & E3 & S3). exists (ideal C O s' (snd q)), g3. auto.
    + eapply Permutation_NoDup; [apply Permutation_flat_map, P|exact N].
    + apply Forall2_same_refl.
    + reflexivity.
    + exact E1.
    + rewrite E2. eexists. split; [reflexivity|]. constructor. exact S2.
Qed.

(** ** Decoding again changes nothing *)
Lemma slicev_again (f : vdec) z fast keep l g g1 : (forall x, In x l -> forall g g1, f x g = VOk g1 -> f x g1 = VOk g1) ->
  slicev f z fast keep l g = VOk g1 -> slicev f z fast keep l g1 = VOk g1.
Proof.
  intros H E. unfold slicev in *. destruct l as [|x l]; [exact E|]. destruct (contents g) as [vis hid].
  assert (St : forall gs all, elemsv f (x :: l) gs = VOk all -> VOk (split_at (length (x :: l)) all) = VOk g1 ->
     (let '(vis, hid) := contents g1 in if (length (x :: l) <=? length vis + length hid)%nat then
        match elemsv f (x :: l) (vis ++ hid) with
        | VOk all => VOk (split_at (length (x :: l)) all)
        | VErr i e all => VErr i e (split_at (if fast then length vis else length (x :: l)) all)
        | VPan => VPan
        end
      else
        match elemsv f (x :: l) (if keep then vis ++ repeat z (length (x :: l) - length vis) else repeat z (length (x :: l))) with
        | VOk all => VOk (split_at (length (x :: l)) all)
        | VErr i e all => VErr i e (if fast then g1 else split_at (length (x :: l)) all)
        | VPan => VPan
        end) = VOk g1).
  { intros gs all Ea Es. injection Es as <-. unfold split_at at 1. cbn [contents]. rewrite <- app_length, firstn_skipn. destruct (elemsv_split _ _ _ _ Ea) as [L1 L2].
    rewrite (proj2 (Nat.leb_le _ _)) by lia. rewrite (elemsv_twice f _ H _ _ Ea). reflexivity. }
  destruct (_ <=? _)%nat.
  - destruct (elemsv f (x :: l) (vis ++ hid)) as [all| |] eqn:Ea; try discriminate. exact (St _ _ Ea E).
  - destruct (elemsv f (x :: l) _) as [all| |] eqn:Ea in E; try discriminate. exact (St _ _ Ea E).
Qed.
Theorem ideal_again s d : no_user d = true -> forall v g g1, unlike C O d v -> ideal C O s d v g = VOk g1 -> ideal C O s d v g1 = VOk g1.
Proof.
  induction d as [x|id z|id z| |n t IH| |t IH|k t IH| |t IH|z fs IH] using dt_ind'; intros NU v g g1 U E; cbn [no_user] in NU; try discriminate NU.
  - cbn [ideal] in *. destruct (ideal_sc C x v); cbn in *; congruence.
  - cbn [ideal] in *. destruct v; try discriminate; exact eq_refl.
  - cbn [ideal unlike] in *. destruct v as [i|i b|i r|i r|i r|i j l|i j l]; try discriminate; [reflexivity|]. destruct g as [| | | | | |gs| | | | |]; try discriminate.
    destruct (elemsv (ideal C O s t) (firstn n l) gs) as [gs'| |] eqn:Es; try discriminate. injection E as <-.
    assert (H : forall x, In x (firstn n l) -> forall g g1, ideal C O s t x g = VOk g1 -> ideal C O s t x g1 = VOk g1).
    { rewrite Forall_forall in U. intros x Hx g g1. apply IH; [exact NU|apply U, Hx]. }
    assert (X : elemsv (ideal C O s t) (firstn n l) (firstn (length l) gs' ++ repeat (zero t) (n - length l)) = VOk (firstn (length l) gs' ++ repeat (zero t) (n - length l))).
    { destruct (Nat.le_gt_cases n (length l)) as [L|L].
      - replace (n - length l)%nat with 0%nat by lia. cbn [repeat]. rewrite app_nil_r.
        pose proof (elemsv_again _ _ H gs gs' (skipn (length (firstn n l)) (firstn (length l) gs')) Es) as A.
        replace (firstn (length (firstn n l)) gs') with (firstn (length (firstn n l)) (firstn (length l) gs')) in A by (rewrite firstn_firstn; f_equal; rewrite firstn_length; lia).
        rewrite firstn_skipn in A. exact A.
      - pose proof (elemsv_again _ _ H gs gs' (repeat (zero t) (n - length l)) Es) as A. rewrite firstn_length in A. replace (Nat.min n (length l)) with (length l) in A by lia. exact A. }
    rewrite X. do 2 f_equal. destruct (elemsv_split _ _ _ _ Es) as [L1 L2]. rewrite firstn_length in L2. destruct (Nat.le_gt_cases n (length l)) as [L|L].
    + replace (n - length l)%nat with 0%nat by lia. cbn [repeat]. rewrite !app_nil_r. rewrite firstn_firstn. f_equal. lia.
    + rewrite firstn_app. rewrite firstn_firstn. f_equal. replace (length l - length (firstn (length l) gs'))%nat with 0%nat by (rewrite firstn_length; lia). rewrite firstn_O, app_nil_r. f_equal. lia.
  - cbn [ideal] in *. destruct v; try discriminate; exact eq_refl.
  - cbn [unlike] in U. cbn [ideal] in E |- *. destruct v as [i|i b|i r|i r|i r|i j l|i j l]; try discriminate; [exact E|].
    assert (Sl : slicev (ideal C O s t) (zero t) (match fast_et t with Some _ => true | None => false end) (carried t) l g = VOk g1 ->
      slicev (ideal C O s t) (zero t) (match fast_et t with Some _ => true | None => false end) (carried t) l g1 = VOk g1).
    { apply slicev_again. rewrite Forall_forall in U. intros x Hx g0 g2. apply IH; [exact NU|apply U, Hx]. }
    destruct t; try exact (Sl E). destruct (find _ l); [discriminate|exact E].
  - cbn [unlike] in U. cbn [ideal] in E |- *. destruct v as [i|i b|i r|i r|i r|i j l|i j l]; try discriminate; [exact E|]. destruct U as [N U].
    set (m0 := match g with VMap (Some m) => m | _ => [] end) in *. destruct (ideal_entries C k (ideal C O s t) (is_struct t) (zero t) l m0) as [m'| |] eqn:Em; try discriminate. injection E as <-.
    rewrite (entries_again C k (ideal C O s t) (is_struct t) (zero t) l) with (m := m0); [reflexivity| |exact N|exact Em].
    rewrite Forall_forall in U. intros x Hx g0 g2. apply IH; [exact NU|apply U, Hx].
  - cbn [ideal] in E |- *. destruct v as [i|i b|i r|i r|i r|i j l|i j l]; try discriminate; [exact E|]. destruct (ideal_mss l []) as [m|[]]; [exact E|discriminate].
  - cbn [ideal] in E |- *. destruct v; try exact E; destruct (ideal C O s t _ (zero t)); try discriminate; exact E.
  - cbn [unlike] in U. cbn [ideal] in E |- *. destruct v as [i|i b|i r|i r|i r|i j l|i j l]; try discriminate; [reflexivity|]. destruct U as [N U].
    destruct g as [| | | | | | |gs| | | |]; try discriminate. destruct (ideal_members O (field_for C O fs) (map (fun x => ideal C O s (snd x)) fs) l gs) as [gs'| |] eqn:Em; try discriminate. injection E as <-.
    rewrite (members_again O (field_for C O fs) (map (fun x => ideal C O s (snd x)) fs) l) with (gs := gs); [reflexivity| |exact N|exact Em].
    rewrite Forall_forall in U, IH. rewrite forallb_forall in NU. intros x Hx jj f g0 g2 Ej Ef Ev. specialize (U x Hx). rewrite Ej in U. rewrite nth_error_map in Ef, U.
    destruct (nth_error fs jj) as [q|] eqn:Eq; [|discriminate]. cbn in *. injection Ef as <-. apply nth_error_In in Eq. apply (IH q Eq (NU q Eq) (snd x) g0 g2 U Ev).
Qed.

(** ** Reordering is symmetric and keeps members unlike *)
Lemma reordered_sym v : forall v', reordered v v' -> reordered v' v.
Proof.
  induction v as [i|i b|i r|i r|i r|i j l IH|i j l IH] using jv_ind'; intros v' R; inversion R; subst; try constructor.
  - match goal with H : Forall2 reordered l l' |- _ => rename H into F end. clear R. induction F; constructor; inversion IH; subst; auto.
  - match goal with H : Permutation l _, H' : Forall2 _ _ l' |- _ => rename H into P; rename H' into Q end. clear R.
    assert (Q' : Forall2 (fun x y => snd (fst x) = snd (fst y) /\ reordered (snd x) (snd y)) l' l1).
    { assert (IH1 : Forall (fun x => forall v', reordered (snd x) v' -> reordered v' (snd x)) l1) by (eapply Permutation_Forall; [exact P|exact IH]).
      clear - Q IH1. induction Q as [|x y l1 l' [Ek R] Q IHq]; constructor; inversion IH1; subst; auto. }
    destruct (perm_F2 _ _ _ (Permutation_sym P) _ Q') as (l2 & P2 & Q2). econstructor; eassumption.
Qed.
Lemma unlike_any_reordered v : forall v', reordered v v' -> unlike_any v -> unlike_any v'.
Proof.
  induction v as [i|i b|i r|i r|i r|i j l IH|i j l IH] using jv_ind'; intros v' R U; inversion R; subst; try exact I.
  - match goal with H : Forall2 reordered l l' |- _ => rename H into F end. rewrite unlike_any_arr in *. clear R. induction F; constructor; inversion IH; inversion U; subst; auto.
  - match goal with H : Permutation l _, H' : Forall2 _ _ l' |- _ => rename H into P; rename H' into Q end. clear R. rewrite unlike_any_obj in *. destruct U as [N U].
    assert (En : names l' = names l1).
    { rewrite <- (map_map (fun x => snd (fst x)) str_text l'), <- (map_map (fun x => snd (fst x)) str_text l1). f_equal. symmetry. eapply names_alike; [|exact Q]. cbn. tauto. }
    split; [rewrite En; eapply Permutation_NoDup; [apply (Permutation_map (fun x => str_text (snd (fst x)))), P|exact N]|].
    apply (Permutation_Forall P) in IH, U. clear - IH U Q. induction Q as [|x y l1 l' [Ek R] Q IHq]; constructor; inversion IH; inversion U; subst; auto.
Qed.
Lemma flat_keys {X} (h : bytes -> list X) l1 l' : Forall2 (fun x y : (nat * bytes) * jv => snd (fst x) = snd (fst y) /\ reordered (snd x) (snd y)) l1 l' ->
  flat_map (fun x => h (snd (fst x))) l1 = flat_map (fun x => h (snd (fst x))) l'.
Proof. induction 1 as [|x y l1 l' [Ek _] _ IH]; [reflexivity|]. cbn. rewrite Ek, IH. reflexivity. Qed.
Lemma unlike_reordered d : forall v v', reordered v v' -> unlike C O d v -> unlike C O d v'.
Proof.
  induction d as [x|id z|id z| |n t IH| |t IH|k t IH| |t IH|z fs IH] using dt_ind'; intros v v' R U; cbn [unlike] in *; try exact I.
  - destruct x; try exact I. eapply unlike_any_reordered; eassumption.
  - inversion R; subst; try exact I. match goal with H : Forall2 reordered l l' |- _ => rename H into F end.
    apply (F2_firstn _ n) in F. clear R. revert U F. generalize (firstn n l), (firstn n l'). intros a b U F. induction F; constructor; inversion U; subst; eauto.
  - inversion R; subst; try exact I. match goal with H : Forall2 reordered l l' |- _ => rename H into F end. clear R. induction F; constructor; inversion U; subst; eauto.
  - inversion R; subst; try exact I. match goal with H : Permutation l _, H' : Forall2 _ _ l' |- _ => rename H into P; rename H' into Q end. destruct U as [N U]. clear R. split.
    + unfold map_keys in *. rewrite <- (flat_keys (fun r => match ideal_key C k r with inl key => [key] | inr _ => [] end) l1 l' Q).
      eapply Permutation_NoDup; [apply Permutation_flat_map, P|exact N].
    + apply (Permutation_Forall P) in U. clear - IH U Q. induction Q as [|x y l1 l' [Ek R] Q IHq]; constructor; inversion U; subst; eauto.
  - inversion R; subst; try exact I. match goal with H : Permutation l _, H' : Forall2 _ _ l' |- _ => rename H into P; rename H' into Q end.
    assert (En : names l' = names l1).
    { rewrite <- (map_map (fun x => snd (fst x)) str_text l'), <- (map_map (fun x => snd (fst x)) str_text l1). f_equal. symmetry. eapply names_alike; [|exact Q]. cbn. tauto. }
    rewrite En. eapply Permutation_NoDup; [apply (Permutation_map (fun x => str_text (snd (fst x)))), P|exact U].
  - eapply IH; eassumption.
  - inversion R; subst; try exact I. match goal with H : Permutation l _, H' : Forall2 _ _ l' |- _ => rename H into P; rename H' into Q end. destruct U as [N U]. clear R. split.
    + unfold targets in *. rewrite <- (flat_keys (fun r => match field_for C O fs r with Some j => [j] | None => [] end) l1 l' Q).
      eapply Permutation_NoDup; [apply Permutation_flat_map, P|exact N].
    + apply (Permutation_Forall P) in U. clear - IH U Q. induction Q as [|x y l1 l' [Ek R] Q IHq]; constructor; inversion U as [|? ? Ux Ur]; subst; [|eauto].
      rewrite <- Ek. destruct (field_for C O fs (snd (fst x))) as [q|]; [|exact I]. rewrite nth_error_map in *. destruct (nth_error fs q) as [p|] eqn:Ep; [|exact I]. cbn in *.
      apply nth_error_In in Ep. rewrite Forall_forall in IH. eapply IH; eassumption.
Qed.
End Reordered.

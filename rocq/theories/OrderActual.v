(** Order.v for the exact decoder [actual] (Actual.v): lemmas for C44 and C45 without the
    condition [sound]. *)
From Coq Require Import Permutation.
From Verif Require Import Base NumSpec StrSpec JsonNum Types AppendType Token FloatLit Heap Machine Dt Dec Value Dval Sep Refine Spec Typed SpecProofs Encodes PropsStruct RoundTrip Order Actual.
Open Scope Z_scope.

(** No two members of an object are for the same field, map key or key of an any. *)
Fixpoint act_unlike_any (v : jv) : Prop :=
  match v with
  | JArr _ _ l => (fix go l := match l with [] => True | x :: r => act_unlike_any x /\ go r end) l
  | JObj _ _ l => NoDup (map (fun x => units_text (snd (fst x))) l) /\
      (fix go l := match l with [] => True | x :: r => act_unlike_any (snd x) /\ go r end) l
  | _ => True
  end.
Definition act_map_keys (C : cfg) (k : dkey) (l : list ((nat * bytes) * jv)) : list gkey :=
  flat_map (fun x => match act_key C k (snd (fst x)) with Some (inl key) => [key] | _ => [] end) l.
Section Unlike.
Variables (C : cfg) (O : opts).
Fixpoint act_unlike (d : dt) (v : jv) {struct d} : Prop :=
  match d with
  | DSc SAny => act_unlike_any v
  | DArr n t => match v with JArr _ _ l => Forall (act_unlike t) (firstn n l) | _ => True end
  | DSlice t => match v with JArr _ _ l => Forall (act_unlike t) l | _ => True end
  | DMap k t => match v with
                | JObj _ _ l => NoDup (act_map_keys C k l) /\ Forall (fun x => act_unlike t (snd x)) l
                | _ => True end
  | DMSS => match v with JObj _ _ l => NoDup (map (fun x => units_text (snd (fst x))) l) | _ => True end
  | DPtr t => act_unlike t v
  | DStruct _ fs =>
      match v with
      | JObj _ _ l => NoDup (targets (act_field_for C O fs) l) /\
          Forall (fun x => match act_field_for C O fs (snd (fst x)) with
                           | Some j => match nth_error (map (fun x => act_unlike (snd x)) fs) j with Some P => P (snd x) | None => True end
                           | None => True end) l
      | _ => True
      end
  | _ => True
  end.
End Unlike.
(** ** Entries of a map *)
Section Entries.
Variables (C : cfg) (kt : dkey) (f : vdec) (isstruct : bool) (z : gval).
Notation dec := (act_entries C kt f isstruct z).
Notation keys l := (act_map_keys C kt l).
Definition aold (m : list (gkey * gval)) (k : gkey) : gval := match getk m k with Some g => if isstruct then z else g | None => z end.
Lemma act_entries_cons i r v l m : dec ((i, r, v) :: l) m =
  match act_key C kt r with
  | None => VPan
  | Some (inr e) => VErr i e m
  | Some (inl key) => match f v (aold m key) with VOk g => dec l (putk m key g) | VErr i e g => VErr i e (putk m key g) | VPan => VPan end
  end.
Proof. reflexivity. Qed.
Lemma aold_perm m m0 k : shuffled m m0 -> aold m k = aold m0 k.
Proof. intros [_ G]. unfold aold. rewrite G. reflexivity. Qed.
Lemma aold_put m k g k' : k <> k' -> aold (putk m k g) k' = aold m k'.
Proof. intros H. unfold aold. rewrite getk_put_other by exact H. reflexivity. Qed.

Lemma act_entries_start l : forall m m0 m', shuffled m m0 -> dec l m = VOk m' -> exists m0', dec l m0 = VOk m0' /\ shuffled m' m0'.
Proof.
  induction l as [|[[i r] v] l IH]; intros m m0 m' P E; [injection E as <-; exists m0; auto|]. rewrite act_entries_cons in *.
  destruct (act_key C kt r) as [[key|e]|]; [|discriminate|discriminate]. rewrite <- (aold_perm m m0 key P). destruct (f v (aold m key)) as [g| |]; try discriminate.
  apply (IH (putk m key g)); [apply putk_shuffled, P|exact E].
Qed.
Lemma act_entries_perm l l1 : Permutation l l1 -> NoDup (keys l) -> forall m m', dec l m = VOk m' -> exists m1, dec l1 m = VOk m1 /\ shuffled m' m1.
Proof.
  induction 1 as [|x l l1 P IH|x y l|l l1 l2 P1 IH1 P2 IH2]; intros Nk m m' E.
  - exists m'. split; [exact E|]. split; [apply Permutation_refl|reflexivity].
  - destruct x as [[i r] v]. rewrite act_entries_cons in *. unfold act_map_keys in Nk. cbn [flat_map fst snd] in Nk. destruct (act_key C kt r) as [[key|e]|]; [|discriminate|discriminate]. inversion Nk; subst.
    destruct (f v (aold m key)) as [g| |]; try discriminate. apply (IH ltac:(assumption) (putk m key g)). exact E.
  - destruct x as [[i r] v], y as [[i2 r2] v2]. rewrite act_entries_cons in E |- *. unfold act_map_keys in Nk. cbn [flat_map fst snd] in Nk.
    destruct (act_key C kt r2) as [[k2|e2]|] eqn:E2; [|discriminate|discriminate]. destruct (f v2 (aold m k2)) as [g2| |] eqn:F2; try discriminate. rewrite act_entries_cons in E.
    destruct (act_key C kt r) as [[k1|e1]|] eqn:E1; [|discriminate|discriminate]. assert (D : k2 <> k1) by (inversion Nk as [|? ? K1 _]; subst; intros ->; apply K1; left; reflexivity).
    rewrite aold_put in E by exact D. destruct (f v (aold m k1)) as [g1| |] eqn:F1; try discriminate. rewrite act_entries_cons, E2, aold_put by congruence. rewrite F2.
    apply (act_entries_start l (putk (putk m k2 g2) k1 g1)); [apply putk_twice, D|exact E].
  - destruct (IH1 Nk m m' E) as (m1 & X1 & Y1). destruct (IH2 (Permutation_NoDup (Permutation_flat_map _ P1) Nk) m m1 X1) as (m2 & X2 & Y2).
    exists m2. split; [exact X2|]. destruct Y1, Y2. split; [eapply Permutation_trans; eassumption|congruence].
Qed.
Lemma act_entries_alike (f' : vdec) : forall l l', Forall2 (fun x y => snd (fst x) = snd (fst y) /\ forall g g1, f (snd x) g = VOk g1 -> exists g2, f' (snd y) g = VOk g2 /\ same_value g1 g2) l l' ->
  NoDup (keys l) -> forall m m2 m', Forall2 (fun a b => fst a = fst b /\ same_value (snd a) (snd b)) m m2 ->
  (forall k, In k (keys l) -> aold m k = aold m2 k) ->
  dec l m = VOk m' -> exists m2', act_entries C kt f' isstruct z l' m2 = VOk m2' /\ Forall2 (fun a b => fst a = fst b /\ same_value (snd a) (snd b)) m' m2'.
Proof.
  induction 1 as [|[[i r] v] [[i' r'] v'] l l' [Er Hv] _ IH]; intros N m m2 m' S A E.
  - injection E as <-. exists m2. auto.
  - cbn [fst snd] in *. subst r'. rewrite act_entries_cons in E. cbn [act_entries]. unfold act_map_keys in N, A. cbn [flat_map fst snd] in N, A. destruct (act_key C kt r) as [[key|e]|] eqn:Ek; [|discriminate|discriminate]. inversion N as [|? ? Nk N']; subst.
    fold (aold m2 key). rewrite <- (A key) by (left; reflexivity). destruct (f v (aold m key)) as [g1| |] eqn:E1; try discriminate. destruct (Hv _ _ E1) as (g2 & E2 & S2). rewrite E2.
    apply (IH N' (putk m key g1) (putk m2 key g2)); [apply put_alike; assumption| |exact E].
    intros k Hk. assert (key <> k) by (intros ->; contradiction). rewrite !aold_put by assumption. apply A. right. exact Hk.
Qed.
Lemma act_entries_untouched l : forall m m', dec l m = VOk m' -> forall k, ~ In k (keys l) -> getk m' k = getk m k.
Proof.
  induction l as [|[[i r] v] l IH]; intros m m' E k N; [injection E as <-; reflexivity|]. rewrite act_entries_cons in E. unfold act_map_keys in N. cbn [flat_map fst snd] in N.
  destruct (act_key C kt r) as [[key|e]|]; [|discriminate|discriminate]. destruct (f v (aold m key)) as [g| |]; try discriminate.
  rewrite (IH _ _ E k) by (intros H; apply N; right; exact H). apply getk_put_other. intros ->. apply N. left. reflexivity.
Qed.
Lemma act_entries_again l : (forall x, In x l -> forall g g1, f (snd x) g = VOk g1 -> f (snd x) g1 = VOk g1) ->
  NoDup (keys l) -> forall m m', dec l m = VOk m' -> dec l m' = VOk m'.
Proof.
  induction l as [|[[i r] v] l IH]; intros H N m m' E; [reflexivity|]. unfold act_map_keys in N. cbn [flat_map fst snd] in N. rewrite act_entries_cons in *.
  destruct (act_key C kt r) as [[key|e]|] eqn:Ek; [|discriminate|discriminate]. inversion N as [|? ? Nk N']; subst. destruct (f v (aold m key)) as [g| |] eqn:Eg; try discriminate.
  assert (G : getk m' key = Some g) by (rewrite (act_entries_untouched _ _ _ E key Nk); apply getk_put_same).
  assert (E2 : f v (aold m' key) = VOk g).
  { unfold aold at 1. rewrite G. destruct isstruct eqn:Is; [|exact (H (i, r, v) (or_introl eq_refl) _ _ Eg)].
    unfold aold in Eg. rewrite Is in Eg. destruct (getk m key); exact Eg. }
  rewrite E2, putk_id by exact G. apply (IH (fun x Hx => H x (or_intror Hx)) N' _ _ E).
Qed.
End Entries.
(** ** Any *)
Definition act_gen_list := fix go (l : list jv) : option (list jany) :=
         match l with
         | [] => Some []
         | x :: r => match act_generic x, go r with Some a, Some b => Some (a :: b) | _, _ => None end
         end.
Definition act_gen_members := fix go (acc : list (bytes * jany)) (l : list ((nat * bytes) * jv)) : option (list (bytes * jany)) :=
         match l with
         | [] => Some acc
         | x :: r => match act_generic (snd x) with
                     | Some a => go (nassoc_put acc (units_text (snd (fst x))) a) r
                     | None => None
                     end
         end.
Lemma act_generic_arr i j l : act_generic (JArr i j l) = option_map NArr (act_gen_list l).
Proof. reflexivity. Qed.
Lemma act_generic_obj i j l : act_generic (JObj i j l) = option_map NObj (act_gen_members [] l).
Proof. reflexivity. Qed.
Fixpoint act_gen_entries (l : list ((nat * bytes) * jv)) : option (list (bytes * jany)) :=
  match l with
  | [] => Some []
  | x :: r => match act_generic (snd x), act_gen_entries r with Some a, Some b => Some ((units_text (snd (fst x)), a) :: b) | _, _ => None end
  end.
Notation names l := (map (fun x : (nat * bytes) * jv => units_text (snd (fst x))) l).
Lemma act_gen_members_entries l : forall acc, NoDup (map fst acc ++ names l) -> act_gen_members acc l = option_map (app acc) (act_gen_entries l).
Proof.
  induction l as [|x l IH]; intros acc N; [cbn; rewrite app_nil_r; reflexivity|]. cbn [act_gen_members act_gen_entries map] in *. destruct (act_generic (snd x)) as [a|]; [|reflexivity].
  rewrite nassoc_put_new.
  - rewrite IH.
    + destruct (act_gen_entries l); [|reflexivity]. cbn. rewrite <- app_assoc. reflexivity.
    + rewrite map_app, <- app_assoc. exact N.
  - intros I. apply NoDup_remove_2 in N. apply N, in_or_app. left. exact I.
Qed.
Lemma act_gen_entries_perm l l1 : Permutation l l1 -> forall a, act_gen_entries l = Some a -> exists a1, act_gen_entries l1 = Some a1 /\ Permutation a a1.
Proof.
  induction 1 as [|x l l1 P IH|x y l|l l1 l2 P1 IH1 P2 IH2]; intros a E.
  - exists a. auto.
  - cbn [act_gen_entries] in *. destruct (act_generic (snd x)); [|discriminate]. destruct (act_gen_entries l) as [b|]; [|discriminate]. injection E as <-.
    destruct (IH b eq_refl) as (b1 & -> & Pb). eexists. split; [reflexivity|]. apply perm_skip, Pb.
  - cbn [act_gen_entries] in *. destruct (act_generic (snd x)); [|destruct (act_generic (snd y)); discriminate]. destruct (act_generic (snd y)); [|discriminate].
    destruct (act_gen_entries l) as [b|]; [|discriminate]. injection E as <-. eexists. split; [reflexivity|]. apply perm_swap.
  - destruct (IH1 a E) as (a1 & E1 & Q1). destruct (IH2 a1 E1) as (a2 & E2 & Q2). exists a2. split; [exact E2|]. eapply Permutation_trans; eassumption.
Qed.
Lemma act_unlike_any_arr i j l : act_unlike_any (JArr i j l) <-> Forall act_unlike_any l.
Proof. cbn [act_unlike_any]. induction l as [|x l IH]; [split; [constructor|intros _; exact I]|]. rewrite Forall_cons_iff, IH. reflexivity. Qed.
Lemma act_unlike_any_obj i j l : act_unlike_any (JObj i j l) <-> NoDup (names l) /\ Forall (fun x => act_unlike_any (snd x)) l.
Proof.
  cbn [act_unlike_any]. apply and_iff_compat_l. induction l as [|x l IH]; [split; [constructor|intros _; exact I]|]. rewrite Forall_cons_iff, IH. reflexivity.
Qed.

Lemma act_generic_reordered v : forall v' a, reordered v v' -> act_unlike_any v -> act_generic v = Some a -> exists a', act_generic v' = Some a' /\ same_any a a'.
Proof.
  induction v as [i|i b|i r|i r|i r|i j l IH|i j l IH] using jv_ind'; intros v' a R U E; inversion R; subst; try (exists a; split; [exact E|apply same_any_refl]).
  - rewrite act_generic_arr in *. apply act_unlike_any_arr in U. destruct (act_gen_list l) as [la|] eqn:El; [|discriminate]. injection E as <-.
    assert (H : exists la', act_gen_list l' = Some la' /\ Forall2 same_any la la').
    { clear R. revert la El. match goal with H : Forall2 reordered l l' |- _ => induction H as [|x y l l' Rxy Rl IHl] end; intros la El; [injection El as <-; exists []; split; [reflexivity|constructor]|].
      inversion IH as [|? ? IHx IHr]; inversion U as [|? ? Ux Ur]; subst. cbn [act_gen_list] in *. destruct (act_generic x) as [ax|] eqn:Ex; [|discriminate].
      fold act_gen_list in *. destruct (act_gen_list l) as [ar|]; [|discriminate]. injection El as <-. destruct (IHx y ax Rxy Ux eq_refl) as (ay & -> & Sy). destruct (IHl IHr Ur ar eq_refl) as (br & Er & Sr).
      change ((fix go (l : list jv) : option (list jany) := match l with [] => Some [] | x :: r => match act_generic x, go r with Some a, Some b => Some (a :: b) | _, _ => None end end) l') with (act_gen_list l').
      rewrite Er. eexists. split; [reflexivity|]. constructor; assumption. }
    destruct H as (la' & -> & S). eexists. split; [reflexivity|]. constructor. exact S.
  - rewrite act_generic_obj in *. apply act_unlike_any_obj in U as [N U].
    match goal with H : Permutation l _, H' : Forall2 _ _ l' |- _ => rename H into P; rename H' into Q end.
    assert (Nn : NoDup (names l1)) by (eapply Permutation_NoDup; [apply (Permutation_map (fun x => units_text (snd (fst x)))), P|exact N]).
    assert (En : names l' = names l1).
    { rewrite <- (map_map (fun x => snd (fst x)) units_text l'), <- (map_map (fun x => snd (fst x)) units_text l1). f_equal. symmetry. eapply names_alike; [|exact Q]. cbn. tauto. }
    rewrite act_gen_members_entries in E by exact N. rewrite act_gen_members_entries by (cbn [app map]; rewrite En; exact Nn).
    destruct (act_gen_entries l) as [la|] eqn:El; [|discriminate]. injection E as <-. destruct (act_gen_entries_perm l l1 P la El) as (l1a & E1 & P1).
    assert (IH1 : Forall (fun x => forall v' a, reordered (snd x) v' -> act_unlike_any (snd x) -> act_generic (snd x) = Some a -> exists a', act_generic v' = Some a' /\ same_any a a') l1).
    { rewrite Forall_forall in *. intros x Hx. apply IH. eapply Permutation_in; [apply Permutation_sym, P|exact Hx]. }
    assert (U1 : Forall (fun x => act_unlike_any (snd x)) l1).
    { rewrite Forall_forall in *. intros x Hx. apply U. eapply Permutation_in; [apply Permutation_sym, P|exact Hx]. }
    assert (H : exists la', act_gen_entries l' = Some la' /\ Forall2 (fun a b => fst a = fst b /\ same_any (snd a) (snd b)) l1a la').
    { clear - Q IH1 U1 E1. revert l1a E1. induction Q as [|x y l1 l' [Ek Rxy] Q IHl]; intros l1a E1; [injection E1 as <-; exists []; split; [reflexivity|constructor]|].
      inversion IH1 as [|? ? IHx IHr]; inversion U1 as [|? ? Ux Ur]; subst. cbn [act_gen_entries] in *. destruct (act_generic (snd x)) as [ax|] eqn:Ex; [|discriminate].
      destruct (act_gen_entries l1) as [ar|]; [|discriminate]. injection E1 as <-. destruct (IHx (snd y) ax Rxy Ux eq_refl) as (ay & -> & Sy). destruct (IHl IHr Ur ar eq_refl) as (br & -> & Sr).
      eexists. split; [reflexivity|]. constructor; [|exact Sr]. cbn. rewrite Ek. auto. }
    destruct H as (la' & -> & S). eexists. split; [reflexivity|]. cbn [app]. econstructor; eassumption.
Qed.

(** ** map[string]string *)
Fixpoint act_mss_entries (l : list ((nat * bytes) * jv)) : option (list (bytes * bytes)) :=
  match l with
  | [] => Some []
  | (_, r, JStr _ t) :: rest => option_map (cons (units_text r, units_text t)) (act_mss_entries rest)
  | (_, r, JNull _) :: rest => option_map (cons (units_text r, [])) (act_mss_entries rest)
  | _ => None
  end.
Lemma act_mss_entries_spec l : forall acc, NoDup (map fst acc ++ names l) ->
  match act_mss l acc with inl m => exists a, act_mss_entries l = Some a /\ m = acc ++ a | inr _ => act_mss_entries l = None end.
Proof.
  induction l as [|[[i r] v] l IH]; intros acc N; [exists []; rewrite app_nil_r; auto|]. cbn [map fst snd] in N.
  assert (St : forall t, match act_mss l (nassoc_put acc (units_text r) t) with
      | inl m => exists a, option_map (cons (units_text r, t)) (act_mss_entries l) = Some a /\ m = acc ++ a | inr _ => option_map (cons (units_text r, t)) (act_mss_entries l) = None end).
  { intros t. rewrite nassoc_put_new by (intros I; apply NoDup_remove_2 in N; apply N, in_or_app; left; exact I).
    specialize (IH (acc ++ [(units_text r, t)])). rewrite map_app, <- app_assoc in IH. specialize (IH N). destruct (act_mss l (acc ++ [(units_text r, t)])) as [m|].
    - destruct IH as (a & -> & ->). eexists. split; [reflexivity|]. rewrite <- app_assoc. reflexivity.
    - rewrite IH. reflexivity. }
  destruct v; cbn [act_mss act_mss_entries]; try reflexivity; apply St.
Qed.
Lemma act_mss_entries_perm l l1 : Permutation l l1 -> forall a, act_mss_entries l = Some a -> exists a1, act_mss_entries l1 = Some a1 /\ Permutation a a1.
Proof.
  assert (Cons : forall i r v l a, act_mss_entries ((i, r, v) :: l) = Some a -> exists t b, act_mss_entries l = Some b /\ a = (units_text r, t) :: b /\ forall l2 b2, act_mss_entries l2 = Some b2 -> act_mss_entries ((i, r, v) :: l2) = Some ((units_text r, t) :: b2)).
  { intros i r v l0 a E. destruct v; cbn [act_mss_entries] in E; try discriminate; destruct (act_mss_entries l0) as [b|] eqn:Eb; try discriminate; injection E as <-;
      eexists _, b; (split; [reflexivity|split; [reflexivity|]]); intros l2 b2 E2; cbn [act_mss_entries]; rewrite E2; reflexivity. }
  induction 1 as [|x l l1 P IH|x y l|l l1 l2 P1 IH1 P2 IH2]; intros a E.
  - exists a. auto.
  - destruct x as [[i r] v]. destruct (Cons _ _ _ _ _ E) as (t & b & Eb & -> & K). destruct (IH b Eb) as (b1 & E1 & Q1). eexists. split; [apply K, E1|]. apply perm_skip, Q1.
  - destruct x as [[i r] v], y as [[i2 r2] v2]. destruct (Cons _ _ _ _ _ E) as (t & b & Eb & -> & K). destruct (Cons _ _ _ _ _ Eb) as (t2 & b2 & Eb2 & -> & K2).
    eexists. split; [apply K2, K, Eb2|]. apply perm_swap.
  - destruct (IH1 a E) as (a1 & E1 & Q1). destruct (IH2 a1 E1) as (a2 & E2 & Q2). exists a2. split; [exact E2|]. eapply Permutation_trans; eassumption.
Qed.
Lemma act_mss_entries_alike l l' : Forall2 (fun x y => snd (fst x) = snd (fst y) /\ reordered (snd x) (snd y)) l l' -> act_mss_entries l = act_mss_entries l'.
Proof.
  induction 1 as [|[[i r] v] [[i' r'] v'] l l' [Ek R] _ IH]; [reflexivity|]. cbn in Ek, R. subst r'. inversion R; subst; cbn [act_mss_entries]; rewrite ?IH; reflexivity.
Qed.

Section Reordered.
Variables (C : cfg) (O : opts).
Lemma act_sc_reordered x v v' g g1 : reordered v v' -> act_unlike C O (DSc x) v -> lput (jidx v) (act_sc C x v) g = VOk g1 ->
  exists g2, lput (jidx v') (act_sc C x v') g = VOk g2 /\ same_value g1 g2.
Proof.
  intros R U E. assert (Same : forall r, lput (jidx v) r g = VOk g1 -> lput (jidx v') r g = VOk g1) by (intros []; cbn; auto; discriminate).
  assert (Triv : act_sc C x v' = act_sc C x v -> exists g2, lput (jidx v') (act_sc C x v') g = VOk g2 /\ same_value g1 g2).
  { intros Eq. exists g1. split; [|apply same_refl]. rewrite Eq. apply Same, E. }
  destruct x; try (apply Triv; inversion R; reflexivity).
  cbn [act_unlike] in U. assert (G : forall w, match w with JInt _ _ | JNum _ _ => False | _ => True end -> act_sc C SAny w = match act_generic w with Some a => LSet (VAny a) | None => LErr EUnexpected end).
  { intros [] H; try contradiction; reflexivity. }
  destruct v; try (apply Triv; inversion R; reflexivity).
  all: match type of R with reordered ?w _ => rewrite G in E by exact I; destruct (act_generic w) as [a|] eqn:Ea; [|discriminate]; injection E as <-; destruct (act_generic_reordered _ v' a R U Ea) as (a' & E' & S) end;
    exists (VAny a'); (split; [|constructor; exact S]); rewrite G by (inversion R; exact I); rewrite E'; reflexivity.
Qed.
Theorem actual_reordered s s' d : no_json d = true -> forall v v' g g1, reordered v v' -> act_unlike C O d v -> actual C O s d v g = VOk g1 ->
  exists g2, actual C O s' d v' g = VOk g2 /\ same_value g1 g2.
Proof.
  induction d as [x|id z|id z| |n t IH| |t IH|k t IH| |t IH|z fs IH] using dt_ind'; intros NJ v v' g g1 R U E; cbn [no_json] in NJ; try discriminate NJ.
  - cbn [actual] in *. eapply act_sc_reordered; eassumption.
  - exists g1. split; [|apply same_refl]. cbn [actual] in *. inversion R; subst; cbn [jidx] in *; try discriminate; try exact E.
    unfold userv in *. destruct (snd _); [discriminate|exact E].
  - exists g1. split; [|apply same_refl]. cbn [actual] in *. inversion R; subst; try discriminate; exact E.
  - cbn [actual act_unlike] in *. inversion R; subst; try discriminate; try (exists g1; split; [exact E|apply same_refl]).
    destruct g as [| | | | | |gs| | | | |]; try discriminate. destruct (elemsv (actual C O s t) (firstn n l) gs) as [gs'| |] eqn:Es; try discriminate. injection E as <-.
    match goal with H : Forall2 reordered l l' |- _ => rename H into F end.
    destruct (elemsv_alike (actual C O s t) (actual C O s' t) (firstn n l) (firstn n l')) with (gs := gs) (gs' := gs') as (hs' & -> & S); [|exact Es|].
    + eapply F2_with; [|exact U|apply F2_firstn, F]. cbn. intros x y Ux Rxy g g1. apply IH; assumption.
    + eexists. split; [reflexivity|]. constructor. exact S.
  - exists g1. split; [|apply same_refl]. cbn [actual] in *. inversion R; subst; try discriminate; exact E.
  - cbn [act_unlike] in U. cbn [actual] in E |- *. inversion R; subst; try discriminate; try (exists g1; split; [exact E|apply same_refl]).
    match goal with H : Forall2 reordered l l' |- _ => rename H into F end.
    assert (Sl : slicev (actual C O s t) (zero t) (match fast_et t with Some _ => true | None => false end) (carried t) l g = VOk g1 ->
      exists g2, slicev (actual C O s' t) (zero t) (match fast_et t with Some _ => true | None => false end) (carried t) l' g = VOk g2 /\ same_value g1 g2).
    { apply slicev_alike. eapply F2_with; [|exact U|exact F]. cbn. intros x y Ux Rxy g0 g2. apply IH; assumption. }
    destruct t; try exact (Sl E). rewrite <- (F2_len _ _ _ F). exists g1. split; [exact E|apply same_refl].
  - cbn [act_unlike] in U. cbn [actual] in E |- *. inversion R; subst; try discriminate; try (exists g1; split; [exact E|apply same_refl]).
    match goal with H : Permutation l _, H' : Forall2 _ _ l' |- _ => rename H into P; rename H' into Q end. destruct U as [N U].
    set (m0 := match g with VMap (Some m) => m | _ => [] end) in *. destruct (act_entries C k (actual C O s t) (is_struct t) (zero t) l m0) as [m'| |] eqn:Em; try discriminate. injection E as <-.
    destruct (act_entries_perm C k (actual C O s t) (is_struct t) (zero t) l l1 P N m0 m' Em) as (m1 & E1 & P1 & _).
    destruct (act_entries_alike C k (actual C O s t) (is_struct t) (zero t) (actual C O s' t) l1 l') with (m := m0) (m2 := m0) (m' := m1) as (m2 & E2 & S2).
    + eapply F2_with; [|eapply Permutation_Forall; [exact P|exact U]|exact Q]. cbn. intros x y Ux [Ek Rxy]. split; [exact Ek|]. intros g0 g2. apply IH; assumption.
    + eapply Permutation_NoDup; [apply Permutation_flat_map, P|exact N].
    + apply Forall2_entries_refl.
    + reflexivity.
    + exact E1.
    + rewrite E2. eexists. split; [reflexivity|]. econstructor; eassumption.
  - cbn [act_unlike] in U. cbn [actual] in E |- *. inversion R; subst; try discriminate; try (exists g1; split; [exact E|apply same_refl]).
    match goal with H : Permutation l _, H' : Forall2 _ _ l' |- _ => rename H into P; rename H' into Q end.
    assert (En : names l' = names l1).
    { rewrite <- (map_map (fun x => snd (fst x)) units_text l'), <- (map_map (fun x => snd (fst x)) units_text l1). f_equal. symmetry. eapply names_alike; [|exact Q]. cbn. tauto. }
    pose proof (act_mss_entries_spec l [] U) as S. pose proof (act_mss_entries_spec l' []) as S'. cbn [map app] in S'. rewrite En in S'.
    specialize (S' (Permutation_NoDup (Permutation_map _ P) U)). destruct (act_mss l []) as [m|[]]; [|discriminate]. injection E as <-. destruct S as (a & Ea & ->).
    destruct (act_mss_entries_perm l l1 P a Ea) as (a1 & E1 & P1). rewrite (act_mss_entries_alike l1 l' Q) in E1. rewrite E1 in S'. destruct (act_mss l' []) as [m'|[]]; [|discriminate].
    destruct S' as (a' & [= <-] & ->). eexists. split; [reflexivity|]. constructor. exact P1.
  - cbn [act_unlike] in U. cbn [actual] in E |- *.
    assert (Sub : vmap (fun g => VPtr (Some g)) (actual C O s t v (zero t)) = VOk g1 -> exists g2, vmap (fun g => VPtr (Some g)) (actual C O s' t v' (zero t)) = VOk g2 /\ same_value g1 g2).
    { intros E'. destruct (actual C O s t v (zero t)) as [a| |] eqn:Ea; try discriminate. injection E' as <-. destruct (IH NJ v v' _ _ R U Ea) as (b & -> & S). eexists. split; [reflexivity|]. constructor. exact S. }
    inversion R; subst; try exact (Sub E). exists g1. split; [exact E|apply same_refl].
  - cbn [act_unlike] in U. cbn [actual] in E |- *. inversion R; subst; try discriminate; try (exists g1; split; [exact E|apply same_refl]).
    match goal with H : Permutation l _, H' : Forall2 _ _ l' |- _ => rename H into P; rename H' into Q end. destruct U as [N U].
    destruct g as [| | | | | | |gs| | | |]; try discriminate. destruct (ideal_members O (act_field_for C O fs) (map (fun x => actual C O s (snd x)) fs) l gs) as [gs'| |] eqn:Em; try discriminate. injection E as <-.
    pose proof (members_perm O (act_field_for C O fs) _ l l1 P N gs gs' Em) as E1.
    destruct (members_alike O (act_field_for C O fs) (map (fun x => actual C O s (snd x)) fs) (map (fun x => actual C O s' (snd x)) fs) l1 l') with (gs := gs) (hs := gs) (gs' := gs') as (hs' & E2 & S2).
    + eapply F2_with; [|eapply Permutation_Forall; [exact P|exact U]|exact Q]. cbn. intros x y Ux [Ek Rxy]. split; [exact Ek|]. intros jj f g0 g2 Ej Ef Ev. rewrite Ej in Ux.
      rewrite nth_error_map in Ef, Ux. rewrite nth_error_map. destruct (nth_error fs jj) as [q|] eqn:Eq; [|discriminate]. cbn in *. injection Ef as <-.
      rewrite Forall_forall in IH. apply nth_error_In in Eq. rewrite forallb_forall in NJ.
      destruct (IH q Eq (NJ q Eq) (snd x) (snd y) g0 g2 Rxy Ux Ev) as (g3 & E3 & S3). exists (actual C O s' (snd q)), g3. auto.
    + eapply Permutation_NoDup; [apply Permutation_flat_map, P|exact N].
    + apply Forall2_same_refl.
    + reflexivity.
    + exact E1.
    + rewrite E2. eexists. split; [reflexivity|]. constructor. exact S2.
Qed.
Theorem actual_again s d : no_user d = true -> forall v g g1, act_unlike C O d v -> actual C O s d v g = VOk g1 -> actual C O s d v g1 = VOk g1.
Proof.
  induction d as [x|id z|id z| |n t IH| |t IH|k t IH| |t IH|z fs IH] using dt_ind'; intros NU v g g1 U E; cbn [no_user] in NU; try discriminate NU.
  - cbn [actual] in *. destruct (act_sc C x v); cbn in *; congruence.
  - cbn [actual] in *. destruct v; try discriminate; exact eq_refl.
  - cbn [actual act_unlike] in *. destruct v as [i|i b|i r|i r|i r|i j l|i j l]; try discriminate; [reflexivity|]. destruct g as [| | | | | |gs| | | | |]; try discriminate.
    destruct (elemsv (actual C O s t) (firstn n l) gs) as [gs'| |] eqn:Es; try discriminate. injection E as <-.
    assert (H : forall x, In x (firstn n l) -> forall g g1, actual C O s t x g = VOk g1 -> actual C O s t x g1 = VOk g1).
    { rewrite Forall_forall in U. intros x Hx g g1. apply IH; [exact NU|apply U, Hx]. }
    rewrite (elemsv_twice _ _ H _ _ Es). reflexivity.
  - cbn [actual] in *. destruct v; try discriminate; exact eq_refl.
  - cbn [act_unlike] in U. cbn [actual] in E |- *. destruct v as [i|i b|i r|i r|i r|i j l|i j l]; try discriminate; [destruct t; try exact E; reflexivity|].
    assert (Sl : slicev (actual C O s t) (zero t) (match fast_et t with Some _ => true | None => false end) (carried t) l g = VOk g1 ->
      slicev (actual C O s t) (zero t) (match fast_et t with Some _ => true | None => false end) (carried t) l g1 = VOk g1).
    { apply slicev_again. rewrite Forall_forall in U. intros x Hx g0 g2. apply IH; [exact NU|apply U, Hx]. }
    destruct t; try exact (Sl E). exact E.
  - cbn [act_unlike] in U. cbn [actual] in E |- *. destruct v as [i|i b|i r|i r|i r|i j l|i j l]; try discriminate; [exact E|]. destruct U as [N U].
    set (m0 := match g with VMap (Some m) => m | _ => [] end) in *. destruct (act_entries C k (actual C O s t) (is_struct t) (zero t) l m0) as [m'| |] eqn:Em; try discriminate. injection E as <-.
    rewrite (act_entries_again C k (actual C O s t) (is_struct t) (zero t) l) with (m := m0); [reflexivity| |exact N|exact Em].
    rewrite Forall_forall in U. intros x Hx g0 g2. apply IH; [exact NU|apply U, Hx].
  - cbn [actual] in E |- *. destruct v as [i|i b|i r|i r|i r|i j l|i j l]; try discriminate; [exact E|]. destruct (act_mss l []) as [m|[]]; [exact E|discriminate].
  - cbn [actual] in E |- *. destruct v; try exact E; destruct (actual C O s t _ (zero t)); try discriminate; exact E.
  - cbn [act_unlike] in U. cbn [actual] in E |- *. destruct v as [i|i b|i r|i r|i r|i j l|i j l]; try discriminate; [reflexivity|]. destruct U as [N U].
    destruct g as [| | | | | | |gs| | | |]; try discriminate. destruct (ideal_members O (act_field_for C O fs) (map (fun x => actual C O s (snd x)) fs) l gs) as [gs'| |] eqn:Em; try discriminate. injection E as <-.
    rewrite (members_again O (act_field_for C O fs) (map (fun x => actual C O s (snd x)) fs) l) with (gs := gs); [reflexivity| |exact N|exact Em].
    rewrite Forall_forall in U, IH. rewrite forallb_forall in NU. intros x Hx jj f g0 g2 Ej Ef Ev. specialize (U x Hx). rewrite Ej in U. rewrite nth_error_map in Ef, U.
    destruct (nth_error fs jj) as [q|] eqn:Eq; [|discriminate]. cbn in *. injection Ef as <-. apply nth_error_In in Eq. apply (IH q Eq (NU q Eq) (snd x) g0 g2 U Ev).
Qed.
Lemma act_unlike_any_reordered v : forall v', reordered v v' -> act_unlike_any v -> act_unlike_any v'.
Proof.
  induction v as [i|i b|i r|i r|i r|i j l IH|i j l IH] using jv_ind'; intros v' R U; inversion R; subst; try exact I.
  - match goal with H : Forall2 reordered l l' |- _ => rename H into F end. rewrite act_unlike_any_arr in *. clear R. induction F; constructor; inversion IH; inversion U; subst; auto.
  - match goal with H : Permutation l _, H' : Forall2 _ _ l' |- _ => rename H into P; rename H' into Q end. clear R. rewrite act_unlike_any_obj in *. destruct U as [N U].
    assert (En : names l' = names l1).
    { rewrite <- (map_map (fun x => snd (fst x)) units_text l'), <- (map_map (fun x => snd (fst x)) units_text l1). f_equal. symmetry. eapply names_alike; [|exact Q]. cbn. tauto. }
    split; [rewrite En; eapply Permutation_NoDup; [apply (Permutation_map (fun x => units_text (snd (fst x)))), P|exact N]|].
    apply (Permutation_Forall P) in IH, U. clear - IH U Q. induction Q as [|x y l1 l' [Ek R] Q IHq]; constructor; inversion IH; inversion U; subst; auto.
Qed.
Lemma act_unlike_reordered d : forall v v', reordered v v' -> act_unlike C O d v -> act_unlike C O d v'.
Proof.
  induction d as [x|id z|id z| |n t IH| |t IH|k t IH| |t IH|z fs IH] using dt_ind'; intros v v' R U; cbn [act_unlike] in *; try exact I.
  - destruct x; try exact I. eapply act_unlike_any_reordered; eassumption.
  - inversion R; subst; try exact I. match goal with H : Forall2 reordered l l' |- _ => rename H into F end.
    apply (F2_firstn _ n) in F. clear R. revert U F. generalize (firstn n l), (firstn n l'). intros a b U F. induction F; constructor; inversion U; subst; eauto.
  - inversion R; subst; try exact I. match goal with H : Forall2 reordered l l' |- _ => rename H into F end. clear R. induction F; constructor; inversion U; subst; eauto.
  - inversion R; subst; try exact I. match goal with H : Permutation l _, H' : Forall2 _ _ l' |- _ => rename H into P; rename H' into Q end. destruct U as [N U]. clear R. split.
    + unfold act_map_keys in *. rewrite <- (flat_keys (fun r => match act_key C k r with Some (inl key) => [key] | _ => [] end) l1 l' Q).
      eapply Permutation_NoDup; [apply Permutation_flat_map, P|exact N].
    + apply (Permutation_Forall P) in U. clear - IH U Q. induction Q as [|x y l1 l' [Ek R] Q IHq]; constructor; inversion U; subst; eauto.
  - inversion R; subst; try exact I. match goal with H : Permutation l _, H' : Forall2 _ _ l' |- _ => rename H into P; rename H' into Q end.
    assert (En : names l' = names l1).
    { rewrite <- (map_map (fun x => snd (fst x)) units_text l'), <- (map_map (fun x => snd (fst x)) units_text l1). f_equal. symmetry. eapply names_alike; [|exact Q]. cbn. tauto. }
    rewrite En. eapply Permutation_NoDup; [apply (Permutation_map (fun x => units_text (snd (fst x)))), P|exact U].
  - eapply IH; eassumption.
  - inversion R; subst; try exact I. match goal with H : Permutation l _, H' : Forall2 _ _ l' |- _ => rename H into P; rename H' into Q end. destruct U as [N U]. clear R. split.
    + unfold targets in *. rewrite <- (flat_keys (fun r => match act_field_for C O fs r with Some j => [j] | None => [] end) l1 l' Q).
      eapply Permutation_NoDup; [apply Permutation_flat_map, P|exact N].
    + apply (Permutation_Forall P) in U. clear - IH U Q. induction Q as [|x y l1 l' [Ek R] Q IHq]; constructor; inversion U as [|? ? Ux Ur]; subst; [|eauto].
      rewrite <- Ek. destruct (act_field_for C O fs (snd (fst x))) as [q|]; [|exact I]. rewrite nth_error_map in *. destruct (nth_error fs q) as [p|] eqn:Ep; [|exact I]. cbn in *.
      apply nth_error_In in Ep. rewrite Forall_forall in IH. eapply IH; eassumption.
Qed.
End Reordered.

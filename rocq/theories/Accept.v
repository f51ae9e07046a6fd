(** Whether a document is accepted, and where it is refused, as a function of the type and
    the document alone: no previous value, no memory.

    Specification part: [check] (with the deviations of the leaves, Actual.v) and
    [conforms] (the ideal: which documents fit a type). *)
From Verif Require Import Base NumSpec StrSpec JsonNum JsonNumProofs Atoi AtoiProofs AtoiAny Types Token FloatLit Heap Machine Dt Dec Value Dval Sep Refine Typed Parse Spec SpecProofs Actual.
Open Scope Z_scope.

Inductive verdict := Accepted | Refused (i : nat) (e : err) | Panics.
(** The first verdict, in document order, that is not [Accepted]. *)
Fixpoint first_bad (l : list verdict) : verdict :=
  match l with [] => Accepted | Accepted :: r => first_bad r | x :: _ => x end.

(** The errors of the user's methods do not depend on the value they are called on. *)
Definition steady (C : cfg) : Prop :=
  (forall id o x, snd (c_ut C id o x) = snd (c_ut C id [] x)) /\ (forall id o x, snd (c_uj C id o x) = snd (c_uj C id [] x)).

Section Check.
Variables (C : cfg) (O : opts) (s : bytes).
Definition leaf_verdict (i : nat) (r : lres) : verdict :=
  match r with LSet _ | LKeep => Accepted | LErr e => Refused i e | LPan => Panics end.
Definition user_verdict (i : nat) (r : bytes * option nat) : verdict :=
  match snd r with Some c => Refused i (EUser c) | None => Accepted end.
Definition key_verdict (k : dkey) (i : nat) (r : bytes) : verdict :=
  match act_key C k r with None => Panics | Some (inr e) => Refused i e | Some (inl _) => Accepted end.
Fixpoint check (d : dt) (v : jv) {struct d} : verdict :=
  match d with
  | DSc x => leaf_verdict (jidx v) (act_sc C x v)
  | DText id _ =>
      match v with
      | JNull _ => Accepted
      | JStr i r => user_verdict i (c_ut C id [] (units_text r))
      | _ => Refused (jidx v) EUnexpected
      end
  | DJson id _ => user_verdict (jidx v) (c_uj C id [] (source s v))
  | DArr0 => match v with JNull _ | JArr _ _ _ => Accepted | _ => Refused (jidx v) EUnexpected end
  | DArr n t =>
      match v with
      | JNull _ => Accepted
      | JArr _ _ l => first_bad (map (check t) (firstn n l))
      | _ => Refused (jidx v) EUnexpected
      end
  | DEmpty => match v with JNull _ | JObj _ _ _ => Accepted | _ => Refused (jidx v) EUnexpected end
  | DSlice DEmpty => match v with JNull _ | JArr _ _ _ => Accepted | _ => Refused (jidx v) EUnexpected end
  | DSlice t =>
      match v with
      | JNull _ => Accepted
      | JArr _ _ l => first_bad (map (check t) l)
      | _ => Refused (jidx v) EUnexpected
      end
  | DMap k t =>
      match v with
      | JNull _ => Accepted
      | JObj _ _ l => first_bad (map (fun x => first_bad [key_verdict k (fst (fst x)) (snd (fst x)); check t (snd x)]) l)
      | _ => Refused (jidx v) EUnexpected
      end
  | DMSS =>
      match v with
      | JNull _ => Accepted
      | JObj _ _ l => first_bad (map (fun x => match snd x with JStr _ _ | JNull _ => Accepted | v => Refused (jidx v) EUnexpected end) l)
      | _ => Refused (jidx v) EUnexpected
      end
  | DPtr t => match v with JNull _ => Accepted | _ => check t v end
  | DStruct _ fs =>
      match v with
      | JNull _ => Accepted
      | JObj _ _ l =>
          first_bad (map (fun x =>
            match act_field_for C O fs (snd (fst x)) with
            | None => if o_unknown O then Refused (fst (fst x)) EUnknownField else Accepted
            | Some j => match nth_error (map (fun y => check (snd y)) fs) j with Some f => f (snd x) | None => Accepted end
            end) l)
      | _ => Refused (jidx v) EUnexpected
      end
  end.

(** ** [actual] ends as [check] says *)
Definition ends_as {A} (Q : A -> Prop) (r : vres A) (c : verdict) : Prop :=
  match r, c with
  | VOk a, Accepted => Q a
  | VErr i e _, Refused i' e' => i = i' /\ e = e'
  | VPan, Panics => True
  | _, _ => False
  end.
Lemma ends_map {A B} (f : A -> B) (Q : A -> Prop) (Q' : B -> Prop) r c : ends_as Q r c -> (forall a, Q a -> Q' (f a)) -> ends_as Q' (vmap f r) c.
Proof. destruct r, c; cbn; auto. Qed.

Lemma act_sc_typed x v g : act_sc C x v = LSet g -> typed_sc x g.
Proof.
  destruct x, v; cbn [act_sc ideal_sc]; unfold act_int, act_float, int_lit, float_lit;
    repeat match goal with
    | |- context[match ?e with _ => _ end] => destruct e
    | |- LSet _ = LSet _ -> _ => intros [= <-]
    end; try discriminate; try exact (fun _ => I); try exact I.
Qed.
Lemma elemsv_ends (Q : gval -> Prop) f c : forall l gs, (length l <= length gs)%nat -> Forall Q gs ->
  Forall (fun v => forall g, Q g -> ends_as Q (f v g) (c v)) l ->
  ends_as (fun gs' => length gs' = length gs /\ Forall Q gs') (elemsv f l gs) (first_bad (map c l)).
Proof.
  induction l as [|v l IH]; intros gs Le A H; [cbn; auto|]. destruct gs as [|g gs]; [cbn in Le; lia|]. cbn [elemsv map first_bad].
  inversion A as [|? ? A1 A2]; subst. inversion H as [|? ? H1 H2]; subst. specialize (H1 g A1).
  destruct (f v g) as [g'|i e g'|], (c v) as [|i' e'|]; cbn in H1; try contradiction; cbn; auto.
  eapply ends_map; [apply IH; [cbn in Le; lia|assumption|assumption]|]. intros gs' [E1 E2]. split; [cbn; congruence|constructor; assumption].
Qed.
Lemma slicev_ends (Q : gval -> Prop) z f c fast keep l g : Q z -> slice_of Q g -> Forall (fun v => forall g, Q g -> ends_as Q (f v g) (c v)) l ->
  ends_as (slice_of Q) (slicev f z fast keep l g) (first_bad (map c l)).
Proof.
  intros Hz T H. unfold slicev. destruct l as [|v0 l0]; [cbn; auto|]. set (l := v0 :: l0) in *.
  assert (Ct : Forall Q (fst (contents g)) /\ Forall Q (snd (contents g))).
  { unfold slice_of in T. destruct g as [| | | | | | | |[[vis hid]|]| | |]; try contradiction; cbn; auto. }
  destruct (contents g) as [vis hid]. cbn [fst snd] in Ct. destruct Ct as [Hv Hh].
  destruct (Nat.leb_spec (length l) (length vis + length hid)) as [Le|Gt].
  - pose proof (elemsv_ends Q f c l (vis ++ hid) ltac:(rewrite app_length; lia) ltac:(apply Forall_app; auto) H) as P.
    destruct (elemsv f l (vis ++ hid)), (first_bad (map c l)); cbn in P; try contradiction; try exact P; apply (split_of Q), P.
  - set (base := if keep then _ else _).
    assert (B : (length l <= length base)%nat /\ Forall Q base).
    { unfold base. destruct keep; [rewrite app_length, repeat_length|rewrite repeat_length]; (split; [lia|]).
      - apply Forall_app. split; [exact Hv|apply Forall_repeat; assumption].
      - apply Forall_repeat; assumption. }
    pose proof (elemsv_ends Q f c l base (proj1 B) (proj2 B) H) as P.
    destruct (elemsv f l base), (first_bad (map c l)); cbn in P; try contradiction; try exact P; apply (split_of Q), P.
Qed.
Lemma userv_ends z i r r' id : snd r = snd r' -> ends_as (typed (DText id z)) (userv z i r) (user_verdict i r').
Proof.
  intros E. unfold userv, user_verdict. rewrite E. destruct (snd r'); cbn; [auto|]. destruct (Z.leb_spec z 0); [auto|lia].
Qed.
Lemma act_mss_ends l : forall acc, match act_mss l acc, first_bad (map (fun x : (nat * bytes) * jv => match snd x with JStr _ _ | JNull _ => Accepted | v => Refused (jidx v) EUnexpected end) l) with
  | inl _, Accepted => True | inr (i, e), Refused i' e' => i = i' /\ e = e' | _, _ => False end.
Proof. induction l as [|[[i r] v] l IH]; intros acc; [exact I|]. destruct v; cbn; try apply IH; auto. Qed.

Hypothesis St : steady C.
Theorem actual_ends d : forall v g, typed d g -> ends_as (typed d) (actual C O s d v g) (check d v).
Proof.
  induction d as [x|id z|id z| |n t IH| |t IH|k t IH| |t IH|z fs IH] using dt_ind'; intros v g T.
  - cbn [actual check]. pose proof (act_sc_typed x v) as Tx. destruct (act_sc C x v) as [g'| |e|]; cbn; auto.
  - cbn [actual check]. destruct v; cbn [ends_as]; try exact T; try (split; reflexivity). apply (userv_ends z i _ _ id), (proj1 St).
  - cbn [actual check]. pose proof (userv_ends z (jidx v) (c_uj C id (as_userv g) (source s v)) (c_uj C id [] (source s v)) id (proj2 St id _ _)) as U. exact U.
  - cbn [actual check]. destruct v; cbn; auto.
  - cbn [actual check]. destruct v as [i|i b|i r|i r|i r|i j l|i j l]; try (split; reflexivity); [exact T|]. cbn [typed] in T. destruct g as [| | | | | |gs| | | | |]; try contradiction.
    destruct T as [Lg Ag]. eapply ends_map; [apply (elemsv_ends (typed t)); [rewrite firstn_length; lia|exact Ag|]|].
    + apply Forall_forall. intros v _ g Tg. apply IH, Tg.
    + intros gs' [E A]. split; [congruence|exact A].
  - cbn [actual check]. destruct v; cbn; auto.
  - assert (H : forall l, Forall (fun v => forall g, typed t g -> ends_as (typed t) (actual C O s t v g) (check t v)) l).
    { intros l. apply Forall_forall. intros v' _ g' Tg. apply IH, Tg. }
    destruct v as [i|i b|i r|i r|i r|i j l|i j l]; try (destruct t; split; reflexivity).
    + destruct t; exact T || exact I.
    + pose proof (fun fast keep => slicev_ends (typed t) (zero t) (actual C O s t) (check t) fast keep l g (zero_typed t) T (H l)) as Q.
      destruct t; try exact (Q _ _). cbn. split; [apply Forall_repeat; reflexivity|constructor].
  - cbn [actual check]. destruct v as [i|i b|i r|i r|i r|i j l|i j l]; try (split; reflexivity).
    set (m0 := match g with VMap (Some m) => m | _ => [] end).
    assert (T0 : distinct (map fst m0) /\ Forall (fun x => typed t (snd x)) m0).
    { unfold m0. cbn [typed] in T. destruct g as [| | | | | | | | |[m|]| |]; try contradiction; [exact T|]. split; [exact I|constructor]. }
    eapply ends_map with (Q := fun m => distinct (map fst m) /\ Forall (fun x => typed t (snd x)) m); [|intros m Hm; exact Hm].
    revert T0. generalize m0. clear m0 T g. induction l as [|[[ik rk] x] l IHl]; intros m [Ds Tm]; [cbn; auto|]. cbn [act_entries map fst snd].
    unfold key_verdict at 1. destruct (act_key C k rk) as [[key|e]|]; [|cbn; auto|cbn; auto].
    assert (To : typed t (match getk m key with Some g => if is_struct t then zero t else g | None => zero t end)).
    { pose proof (getk_of (typed t) m key Tm) as G. pose proof (zero_typed t). destruct (getk m key); [destruct (is_struct t)|]; assumption. }
    pose proof (IH x _ To) as Q. destruct (actual C O s t x _) as [g'|i' e g'|], (check t x) as [|i2 e2|]; cbn in Q; try contradiction; cbn [first_bad]; try exact Q.
    apply IHl. split; [apply putk_distinct, Ds|apply putk_of; assumption].
  - cbn [actual check]. destruct v as [i|i b|i r|i r|i r|i j l|i j l]; try (split; reflexivity). pose proof (act_mss_ends l []) as Q.
    destruct (act_mss l []) as [m|[i' e]], (first_bad _); try contradiction; [exact I|exact Q].
  - cbn [actual check]. destruct v; [exact I|..]; (eapply ends_map; [apply IH, zero_typed|]; intros g' Hg'; exact Hg').
  - cbn [actual check]. destruct v as [i|i b|i r|i r|i r|i j l|i j l]; try (split; reflexivity); [exact T|]. apply typed_struct in T as (gs & -> & T).
    eapply ends_map with (Q := typed_fields fs); [|intros m Hm; apply typed_struct; eauto].
    revert gs T. induction l as [|[[ik rk] x] l IHl]; intros gs T; [exact T|]. cbn [ideal_members map fst snd].
    destruct (act_field_for C O fs rk) as [jf|] eqn:Pk; [|destruct (o_unknown O); [cbn; auto|apply IHl, T]].
    pose proof (pick_lt _ _ _ _ _ Pk) as Hj. rewrite map_length in Hj.
    destruct (nth_error fs jf) as [y|] eqn:Ey; [|apply nth_error_None in Ey; lia].
    match goal with |- ends_as _ match ?X with Some _ => _ | None => VPan end (first_bad (match ?Y with Some _ => _ | None => _ end :: _)) =>
      assert (Em : X = Some (actual C O s (snd y))) by (exact (map_nth_error _ jf fs Ey));
      assert (Ec : Y = Some (check (snd y))) by (exact (map_nth_error _ jf fs Ey)); rewrite Em, Ec; clear Em Ec end.
    destruct (typed_fields_nth fs gs jf y T Ey) as (g & Eg & Tg). rewrite Eg.
    rewrite Forall_forall in IH. pose proof (IH y (nth_error_In _ _ Ey) x g Tg) as Q.
    destruct (actual C O s (snd y) x g) as [g'|i' e g'|], (check (snd y) x) as [|i2 e2|]; cbn in Q; try contradiction; cbn [first_bad]; try exact Q.
    apply IHl. eapply typed_fields_set; eassumption.
Qed.
End Check.

(** ** Which documents fit a type: the ideal *)
Section Conforms.
Variables (C : cfg) (O : opts) (s : bytes).
(** An integer literal fits an integer type; a number fits a float type. *)
Definition int_fits (k : nk) (r : bytes) : Prop :=
  (nk_signed k = false -> neg r = false) /\ in_range (kind_of C k) (int_value r).
Definition float_fits (b : fbits) (r : bytes) : Prop := too_big b (num_value r) = false.
(** All numbers of the document fit float64. *)
Fixpoint finite (v : jv) : Prop :=
  match v with
  | JInt _ r | JNum _ r => float_fits B64 r
  | JArr _ _ l => (fix go l := match l with [] => True | x :: r => finite x /\ go r end) l
  | JObj _ _ l => (fix go l := match l with [] => True | x :: r => finite (snd x) /\ go r end) l
  | _ => True
  end.
Definition leaf_fits (x : sc) (v : jv) : Prop :=
  match x, v with
  | _, JNull _ => True
  | SBool, JBool _ _ => True
  | SStr, JStr _ _ => True
  | SNumber, (JInt _ _ | JNum _ _) => True
  | SNumber, JStr _ r => json_number r
  | SInt k, JInt _ r => int_fits k r
  | SFloat b, (JInt _ r | JNum _ r) => float_fits b r
  | SAny, v => finite v
  | SBoolQ, JStr _ r => r = bs "true" \/ r = bs "false"
  | SStrQ, JStr _ r => exists t, r = [92; 34] ++ t ++ [92; 34] /\ ~ In 92 t
  | SIntQ k, JStr _ r => json_int r /\ int_fits k r
  | SFloatQ b, JStr _ r => json_number r /\ float_fits b r
  | _, _ => False
  end.
Definition key_fits (k : dkey) (r : bytes) : Prop :=
  match k with
  | KeyStr => True
  | KeyInt k => json_int r /\ int_fits k r
  | KeyText id _ => snd (c_ut C id [] (str_text r)) = None
  end.
Fixpoint conforms (d : dt) (v : jv) {struct d} : Prop :=
  match d with
  | DSc x => leaf_fits x v
  | DText id _ => match v with JNull _ => True | JStr _ r => snd (c_ut C id [] (str_text r)) = None | _ => False end
  | DJson id _ => snd (c_uj C id [] (source s v)) = None
  | DArr0 => match v with JNull _ | JArr _ _ _ => True | _ => False end
  | DArr n t => match v with JNull _ => True | JArr _ _ l => Forall (conforms t) (firstn n l) | _ => False end
  | DEmpty => match v with JNull _ | JObj _ _ _ => True | _ => False end
  | DSlice t => match v with JNull _ => True | JArr _ _ l => Forall (conforms t) l | _ => False end
  | DMap k t => match v with JNull _ => True | JObj _ _ l => Forall (fun x => key_fits k (snd (fst x)) /\ conforms t (snd x)) l | _ => False end
  | DMSS => match v with JNull _ => True | JObj _ _ l => Forall (fun x => match snd x with JStr _ _ | JNull _ => True | _ => False end) l | _ => False end
  | DPtr t => match v with JNull _ => True | _ => conforms t v end
  | DStruct _ fs =>
      match v with
      | JNull _ => True
      | JObj _ _ l => Forall (fun x =>
          match field_for C O fs (snd (fst x)) with
          | None => o_unknown O = false
          | Some j => match nth_error (map (fun y => conforms (snd y)) fs) j with Some P => P (snd x) | None => False end
          end) l
      | _ => False
      end
  end.

Definition answers {A} (Q : A -> Prop) (r : vres A) (P : Prop) : Prop :=
  match r with VOk a => Q a /\ P | VErr _ _ _ => ~ P | VPan => False end.
Lemma answers_map {A B} (f : A -> B) (Q : A -> Prop) (Q' : B -> Prop) r P P' : answers Q r P -> (forall a, Q a -> Q' (f a)) -> (P <-> P') -> answers Q' (vmap f r) P'.
Proof. intros H X Y. destruct r; cbn in *; [split; [apply X|apply Y]; tauto|tauto|tauto]. Qed.
Lemma answers_iff {A} (Q : A -> Prop) r P P' : answers Q r P -> (P <-> P') -> answers Q r P'.
Proof. intros H Y. destruct r; cbn in *; tauto. Qed.

Lemma round_fits b r : match round b r with Some _ => float_fits b r | None => ~ float_fits b r end.
Proof. unfold round, float_fits. destruct (num_value r) as [m e]. destruct (too_big b (m, e)); congruence. Qed.
Lemma generic_finite v : match generic v with Some _ => finite v | None => ~ finite v end.
Proof.
  induction v as [i|i b|i r|i r|i r|i j l IH|i j l IH] using jv_ind'; cbn [generic finite]; try exact I.
  - pose proof (round_fits B64 r). destruct (round B64 r); assumption.
  - pose proof (round_fits B64 r). destruct (round B64 r); assumption.
  - induction IH as [|x l Hx IH IHl]; [exact I|]. destruct (generic x); [|cbn; tauto].
    match type of IHl with match option_map NArr ?X with _ => _ end => destruct X end; cbn in *; tauto.
  - generalize (@nil (bytes * jany)). induction IH as [|x l Hx IH IHl]; intros acc; [exact I|]. destruct (generic (snd x)); [|cbn; tauto].
    specialize (IHl (nassoc_put acc (str_text (snd (fst x))) j0)).
    match type of IHl with match option_map NObj ?X with _ => _ end => destruct X end; cbn in *; tauto.
Qed.
Lemma int_lit_fits k r : match int_lit C k r with LSet (VInt _) => int_fits k r | LErr _ => ~ int_fits k r | _ => False end.
Proof.
  unfold int_lit, int_fits. destruct (nk_signed k), (neg r); cbn [negb andb]; try (intros [H _]; specialize (H eq_refl); discriminate);
    pose proof (in_rangeb_spec (kind_of C k) (int_value r)) as R; destruct (in_rangeb _ _); try (intros [_ H]; apply R in H; discriminate); (split; [auto|apply R; reflexivity]).
Qed.
Lemma int_text_fits k r : match int_text C k r with inl _ => json_int r /\ int_fits k r | inr _ => ~ (json_int r /\ int_fits k r) end.
Proof.
  unfold int_text, int_fits. pose proof (is_int_spec r) as I1. pose proof (in_rangeb_spec (kind_of C k) (int_value r)) as R.
  destruct (is_int r); cbn [andb]; [|intros [H _]; apply I1 in H; discriminate].
  destruct (nk_signed k), (neg r); cbn [negb andb]; try (intros (_ & H & _); specialize (H eq_refl); discriminate);
    destruct (in_rangeb _ _); try (intros (_ & _ & H); apply R in H; discriminate); (split; [apply I1; reflexivity|split; [auto|apply R; reflexivity]]).
Qed.
Lemma strq_fits r :
  ((4 <=? length r)%nat && bytes_eqb (firstn 2 r) [92; 34] && bytes_eqb (skipn (length r - 2) r) [92; 34]
         && negb (existsb (Z.eqb 92) (firstn (length r - 4) (skipn 2 r))) = true) <-> exists t, r = [92; 34] ++ t ++ [92; 34] /\ ~ In 92 t.
Proof.
  rewrite !andb_true_iff, negb_true_iff, Nat.leb_le, !bytes_eqb_eq. split.
  - intros (((L & E1) & E2) & N). exists (firstn (length r - 4) (skipn 2 r)). split.
    + rewrite <- (firstn_skipn 2 r) at 1. rewrite E1. f_equal. rewrite <- (firstn_skipn (length r - 4) (skipn 2 r)) at 1. f_equal.
      rewrite skipn_skipn. replace (length r - 4 + 2)%nat with (length r - 2)%nat by lia. exact E2.
    + intros H. assert (existsb (Z.eqb 92) (firstn (length r - 4) (skipn 2 r)) = true) by (apply existsb_exists; exists 92; split; [exact H|reflexivity]). congruence.
  - intros (t & -> & N). rewrite !app_length. cbn [length app firstn skipn]. repeat split; try lia.
    + replace (2 + (length t + 2) - 2)%nat with (S (S (length t))) by lia. cbn [skipn]. rewrite skipn_app, skipn_all, Nat.sub_diag. reflexivity.
    + replace (2 + (length t + 2) - 4)%nat with (length t + 0)%nat by lia. rewrite firstn_app_2. cbn [firstn]. rewrite app_nil_r.
      destruct (existsb (Z.eqb 92) t) eqn:E; [|reflexivity]. apply existsb_exists in E as (x & Hx & E). apply Z.eqb_eq in E as <-. contradiction.
Qed.

Lemma leaf_answers x v g : typed_sc x g -> answers (typed_sc x) (lput (jidx v) (ideal_sc C x v) g) (leaf_fits x v).
Proof.
  intros T.
  assert (Any : x = SAny -> answers (typed_sc x) (lput (jidx v) (match generic v with Some a => LSet (VAny a) | None => LErr EUnexpected end) g) (finite v)).
  { intros ->. pose proof (generic_finite v) as Q. destruct (generic v); cbn; auto. }
  destruct x, v; cbn [ideal_sc leaf_fits]; try (split; [exact I|exact I]); try (split; [exact T|exact I]); try (intros F; exact F); try (apply Any; reflexivity).
  all: try solve [match goal with |- context[float_lit ?b ?r] => pose proof (round_fits b r); unfold float_lit; destruct (round b r); cbn; auto end].
  all: try match goal with |- context[match round ?b ?r with _ => _ end] => pose proof (round_fits b r); destruct (round b r); cbn; auto end.
  - pose proof (is_num_spec raw) as N. destruct (is_num raw); cbn; [split; [exact I|apply N; reflexivity]|]. intros H. apply N in H. discriminate.
  - pose proof (int_lit_fits k raw) as Q. destruct (int_lit C k raw) as [[]| | |]; cbn in *; try contradiction; auto.
  - pose proof (bytes_eqb_eq raw (bs "true")) as B1. pose proof (bytes_eqb_eq raw (bs "false")) as B2.
    destruct (bytes_eqb raw (bs "true")); [cbn; split; [exact I|left; apply B1; reflexivity]|].
    destruct (bytes_eqb raw (bs "false")); [cbn; split; [exact I|right; apply B2; reflexivity]|].
    intros [H|H]; [apply B1 in H|apply B2 in H]; discriminate.
  - pose proof (strq_fits raw) as B. match goal with |- context[if ?b then _ else _] => destruct b end; cbn [lput answers].
    + split; [exact I|apply B; reflexivity].
    + intros H. apply B in H. discriminate.
  - pose proof (int_text_fits k raw) as Q. destruct (int_text C k raw); cbn; auto.
  - pose proof (is_num_spec raw) as N. pose proof (round_fits b raw). unfold float_lit. destruct (is_num raw).
    + destruct (round b raw); cbn; [split; [exact I|split; [apply N; reflexivity|assumption]]|tauto].
    + intros [H' _]. apply N in H'. discriminate.
Qed.

Lemma elemsv_answers (Q : gval -> Prop) f P : forall l gs, (length l <= length gs)%nat -> Forall Q gs ->
  Forall (fun v => forall g, Q g -> answers Q (f v g) (P v)) l ->
  answers (fun gs' => length gs' = length gs /\ Forall Q gs') (elemsv f l gs) (Forall P l).
Proof.
  induction l as [|v l IH]; intros gs Le A H; [cbn; auto|]. destruct gs as [|g gs]; [cbn in Le; lia|]. cbn [elemsv].
  inversion A as [|? ? A1 A2]; subst. inversion H as [|? ? H1 H2]; subst. specialize (H1 g A1).
  destruct (f v g) as [g'|i e g'|]; cbn in H1; [|intros F; inversion F; contradiction|contradiction].
  eapply answers_map; [apply IH; [cbn in Le; lia|assumption|assumption]| |].
  - intros gs' [E1 E2]. split; [cbn; congruence|constructor; tauto].
  - split; intros F; [constructor; tauto|inversion F; assumption].
Qed.
Lemma slicev_answers (Q : gval -> Prop) z f P fast keep l g : Q z -> slice_of Q g -> Forall (fun v => forall g, Q g -> answers Q (f v g) (P v)) l ->
  answers (slice_of Q) (slicev f z fast keep l g) (Forall P l).
Proof.
  intros Hz T H. unfold slicev. destruct l as [|v0 l0]; [cbn; auto|]. set (l := v0 :: l0) in *.
  assert (Ct : Forall Q (fst (contents g)) /\ Forall Q (snd (contents g))).
  { unfold slice_of in T. destruct g as [| | | | | | | |[[vis hid]|]| | |]; try contradiction; cbn; auto. }
  destruct (contents g) as [vis hid]. cbn [fst snd] in Ct. destruct Ct as [Hv Hh].
  destruct (Nat.leb_spec (length l) (length vis + length hid)) as [Le|Gt].
  - pose proof (elemsv_answers Q f P l (vis ++ hid) ltac:(rewrite app_length; lia) ltac:(apply Forall_app; auto) H) as A.
    destruct (elemsv f l (vis ++ hid)); cbn [answers] in *; try exact A. split; [apply (split_of Q), A|apply A].
  - set (base := if keep then _ else _).
    assert (B : (length l <= length base)%nat /\ Forall Q base).
    { unfold base. destruct keep; [rewrite app_length, repeat_length|rewrite repeat_length]; (split; [lia|]).
      - apply Forall_app. split; [exact Hv|apply Forall_repeat; assumption].
      - apply Forall_repeat; assumption. }
    pose proof (elemsv_answers Q f P l base (proj1 B) (proj2 B) H) as A.
    destruct (elemsv f l base); cbn [answers] in *; try exact A. split; [apply (split_of Q), A|apply A].
Qed.
Lemma userv_answers z i (r r' : bytes * option nat) id : snd r = snd r' -> answers (typed (DText id z)) (userv z i r) (snd r' = None).
Proof.
  intros E. unfold userv. rewrite E. destruct (snd r'); cbn; [discriminate|]. split; [|reflexivity]. destruct (Z.leb_spec z 0); [auto|lia].
Qed.
Lemma mss_answers l : forall acc, match ideal_mss l acc with
  | inl _ => Forall (fun x : (nat * bytes) * jv => match snd x with JStr _ _ | JNull _ => True | _ => False end) l
  | inr _ => ~ Forall (fun x : (nat * bytes) * jv => match snd x with JStr _ _ | JNull _ => True | _ => False end) l end.
Proof.
  induction l as [|[[i r] v] l IH]; intros acc; [constructor|].
  destruct v as [i'|i' b|i' r'|i' r'|i' r'|i' j l'|i' j l']; cbn; try (intros F; inversion F; assumption).
  - specialize (IH (nassoc_put acc (str_text r) [])). destruct (ideal_mss _ _); [constructor; [exact I|exact IH]|]. intros F. inversion F. contradiction.
  - specialize (IH (nassoc_put acc (str_text r) (str_text r'))). destruct (ideal_mss _ _); [constructor; [exact I|exact IH]|]. intros F. inversion F. contradiction.
Qed.
Lemma key_answers k r : match ideal_key C k r with inl _ => key_fits k r | inr _ => ~ key_fits k r end.
Proof.
  destruct k as [|k|id z]; cbn; [exact I| |].
  - pose proof (int_text_fits k r). destruct (int_text C k r); assumption.
  - destruct (c_ut C id [] (str_text r)) as [new [c|]]; cbn; [discriminate|reflexivity].
Qed.
Lemma find_none {A} (f : A -> bool) l : match find (fun x => negb (f x)) l with None => Forall (fun x => f x = true) l | Some _ => ~ Forall (fun x => f x = true) l end.
Proof.
  induction l as [|x l IH]; cbn; [constructor|]. destruct (f x) eqn:E; cbn.
  - destruct (find _ l); [intros F; inversion F; contradiction|constructor; assumption].
  - intros F. inversion F. congruence.
Qed.

Hypothesis St : steady C.
Theorem ideal_answers d : forall v g, typed d g -> answers (typed d) (ideal C O s d v g) (conforms d v).
Proof.
  induction d as [x|id z|id z| |n t IH| |t IH|k t IH| |t IH|z fs IH] using dt_ind'; intros v g T.
  - cbn [ideal conforms]. apply leaf_answers, T.
  - cbn [ideal conforms]. destruct v; try (intros F; exact F); [split; [exact T|exact I]|]. apply (userv_answers z i _ _ id), (proj1 St).
  - cbn [ideal conforms]. pose proof (userv_answers z (jidx v) (c_uj C id (as_userv g) (source s v)) (c_uj C id [] (source s v)) id (proj2 St id _ _)) as U. exact U.
  - cbn [ideal conforms]. destruct v; try (intros F; exact F); (split; [exact T|exact I]).
  - cbn [ideal conforms]. destruct v as [i|i b|i r|i r|i r|i j l|i j l]; try (intros F; exact F); [split; [exact T|exact I]|]. cbn [typed] in T. destruct g as [| | | | | |gs| | | | |]; try contradiction.
    destruct T as [Lg Ag]. pose proof (elemsv_answers (typed t) (ideal C O s t) (conforms t) (firstn n l) gs ltac:(rewrite firstn_length; lia) Ag ltac:(apply Forall_forall; intros v _ g Tg; apply IH, Tg)) as A.
    destruct (elemsv _ _ _) as [gs'|i' e gs'|]; cbn [answers typed] in *; try exact A. destruct A as [[E1 E2] A]. split; [|exact A].
    split; [rewrite app_length, firstn_length, repeat_length; lia|]. apply Forall_app. split; [|apply Forall_repeat, zero_typed].
    rewrite <- (firstn_skipn (length l) gs') in E2. apply Forall_app in E2. apply E2.
  - cbn [ideal conforms]. destruct v; try (intros F; exact F); (split; [exact T|exact I]).
  - assert (H : forall l, Forall (fun v => forall g, typed t g -> answers (typed t) (ideal C O s t v g) (conforms t v)) l).
    { intros l. apply Forall_forall. intros v' _ g' Tg. apply IH, Tg. }
    destruct v as [i|i b|i r|i r|i r|i j l|i j l]; try (intros F; exact F); [split; exact I|].
    pose proof (fun fast keep => slicev_answers (typed t) (zero t) (ideal C O s t) (conforms t) fast keep l g (zero_typed t) T (H l)) as Q.
    destruct t; try exact (Q _ _). cbn [ideal conforms].
    pose proof (find_none null_or_object l) as N.
    assert (Eq : Forall (fun x => null_or_object x = true) l <-> Forall (fun v => match v with JNull _ | JObj _ _ _ => True | _ => False end) l).
    { split; apply Forall_impl; intros []; cbn; auto; discriminate || contradiction. }
    destruct (find _ l); cbn [answers typed]; [tauto|]. split; [|tauto]. split; [apply Forall_repeat; reflexivity|constructor].
  - cbn [ideal conforms]. destruct v as [i|i b|i r|i r|i r|i j l|i j l]; try (intros F; exact F); [split; exact I|].
    set (m0 := match g with VMap (Some m) => m | _ => [] end).
    assert (T0 : distinct (map fst m0) /\ Forall (fun x => typed t (snd x)) m0).
    { unfold m0. cbn [typed] in T. destruct g as [| | | | | | | | |[m|]| |]; try contradiction; [exact T|]. split; [exact I|constructor]. }
    eapply answers_map with (Q := fun m => distinct (map fst m) /\ Forall (fun x => typed t (snd x)) m); [|intros m Hm; exact Hm|reflexivity].
    revert T0. generalize m0. clear m0 T g. induction l as [|[[ik rk] x] l IHl]; intros m [Ds Tm]; [cbn; auto|]. cbn [ideal_entries].
    pose proof (key_answers k rk) as Ka. destruct (ideal_key C k rk) as [key|e]; [|cbn; intros F; inversion F; tauto].
    assert (To : typed t (match getk m key with Some g => if is_struct t then zero t else g | None => zero t end)).
    { pose proof (getk_of (typed t) m key Tm) as G. pose proof (zero_typed t). destruct (getk m key); [destruct (is_struct t)|]; assumption. }
    pose proof (IH x _ To) as Q. destruct (ideal C O s t x _) as [g'|i' e g'|]; cbn [answers] in Q; [|cbn; intros F; inversion F; tauto|contradiction].
    eapply answers_iff; [apply IHl; split; [apply putk_distinct, Ds|apply putk_of; tauto]|]. split; intros F; [constructor; tauto|inversion F; assumption].
  - cbn [ideal conforms]. destruct v as [i|i b|i r|i r|i r|i j l|i j l]; try (intros F; exact F); [split; exact I|]. pose proof (mss_answers l []) as Q.
    destruct (ideal_mss l []) as [m|[i' e]]; [split; [exact I|exact Q]|exact Q].
  - cbn [ideal conforms]. destruct v; [split; exact I|..]; (eapply answers_map; [apply IH, zero_typed| |reflexivity]; intros g' Hg'; exact Hg').
  - cbn [ideal conforms]. destruct v as [i|i b|i r|i r|i r|i j l|i j l]; try (intros F; exact F); [split; [exact T|exact I]|]. apply typed_struct in T as (gs & -> & T).
    eapply answers_map with (Q := typed_fields fs); [|intros m Hm; apply typed_struct; eauto|reflexivity].
    revert gs T. induction l as [|[[ik rk] x] l IHl]; intros gs T; [cbn; auto|]. cbn [ideal_members].
    destruct (field_for C O fs rk) as [jf|] eqn:Pk.
    2: { destruct (o_unknown O) eqn:Eu; cbn [answers].
         - intros F. inversion F as [|? ? F1 F2]. cbn [fst snd] in F1. rewrite Pk in F1. discriminate.
         - eapply answers_iff; [apply IHl, T|]. split; intros F; [constructor; [cbn [fst snd]; rewrite Pk; reflexivity|exact F]|inversion F; assumption]. }
    pose proof (pick_lt _ _ _ _ _ Pk) as Hj. rewrite map_length in Hj.
    destruct (nth_error fs jf) as [y|] eqn:Ey; [|apply nth_error_None in Ey; lia].
    match goal with |- answers _ match ?X with Some _ => _ | None => VPan end _ =>
      assert (Em : X = Some (ideal C O s (snd y))) by (exact (map_nth_error _ jf fs Ey)); rewrite Em; clear Em end.
    pose proof (map_nth_error (fun y => conforms (snd y)) jf fs Ey) as Ec. cbn beta in Ec.
    destruct (typed_fields_nth fs gs jf y T Ey) as (g & Eg & Tg). rewrite Eg.
    rewrite Forall_forall in IH. pose proof (IH y (nth_error_In _ _ Ey) x g Tg) as Q.
    destruct (ideal C O s (snd y) x g) as [g'|i' e g'|]; cbn [answers] in Q; [| |contradiction].
    + eapply answers_iff; [apply IHl; eapply typed_fields_set; [exact T|exact Ey|apply Q]|]. split; intros F; [constructor; [cbn [fst snd]; rewrite Pk, Ec; apply Q|exact F]|inversion F; assumption].
    + cbn [answers]. intros F. inversion F as [|? ? F1 F2]. cbn [fst snd] in F1. rewrite Pk, Ec in F1. contradiction.
Qed.
End Conforms.

(** C40: the decode options change nothing but what they are for.  For every decoder
    state (every destination type), memory and document. *)
From Verif Require Import Base NumSpec StrSpec Unescape UnescapeProofs Lookup PropsLeaf Types Token FloatLit Heap Machine General Provenance Dt Dec Control Parse World.
Open Scope Z_scope.

(** ** Specification *)

(** The member names of a document, as written (between the quotes). *)
Fixpoint keys (v : jv) : list bytes :=
  match v with
  | JArr _ _ l => flat_map keys l
  | JObj _ _ l => flat_map (fun m => snd (fst m) :: keys (snd m)) l
  | _ => []
  end.
(** The byte position and text of every member name. *)
Fixpoint key_marks (v : jv) : list (nat * bytes) :=
  match v with
  | JArr _ _ l => flat_map key_marks l
  | JObj _ _ l => flat_map (fun m => fst m :: key_marks (snd m)) l
  | _ => []
  end.
(** The name that is looked up: as written, or with its escapes resolved. *)
Definition looked_up (O : opts) (raw key : bytes) : Prop :=
  if o_nounescape O then key = raw else exists l, body raw l /\ key = meaning_units l.
(** No field of a struct has this name (up to letter case unless that is disabled). *)
Definition matches_no_field (C : cfg) (O : opts) (f : frame) (key : bytes) : Prop :=
  Forall (fun a => fst a <> key /\ (o_nofold O = false -> ~ (length (fst a) = length key /\ c_fold C (fst a) key = true))) (f_fields f).

(** ** Keys of the token stream *)
Lemma flat_keys s v : lexed s v -> forall k t, In t (flat k v) -> tk_ty t = KKey ->
  exists raw, In (tk_idx t, raw) (key_marks v) /\ body_of s t = Ok raw /\ string_body raw.
Proof.
  induction v using jv_ind'; intros L k t Hin Ht;
    try (destruct Hin as [<-|[]]; cbn in Ht; try destruct b; discriminate).
  - rewrite flat_arr in Hin. destruct Hin as [<-|Hin]; [discriminate|]. apply lexed_arr in L as (_ & _ & _ & L).
    apply in_app_or in Hin as [Hin|[<-|[]]]; [|discriminate]. cbn [key_marks].
    revert Hin. generalize (S k). induction H as [|x l Hx Hl IH]; intros m; cbn; [easy|]. inversion L; subst.
    intros Hin. apply in_app_or in Hin as [Hin|Hin].
    + destruct (Hx ltac:(assumption) _ _ Hin Ht) as (raw & A & B). exists raw. split; [apply in_or_app; left; exact A|exact B].
    + destruct (IH ltac:(assumption) _ Hin) as (raw & A & B). exists raw. split; [apply in_or_app; right; exact A|exact B].
  - rewrite flat_obj in Hin. destruct Hin as [<-|Hin]; [discriminate|]. apply lexed_obj in L as (_ & _ & _ & L).
    apply in_app_or in Hin as [Hin|[<-|[]]]; [|discriminate]. cbn [key_marks].
    revert Hin. generalize (S k). induction H as [|x l Hx Hl IH]; intros m; cbn [flatm flat_map]; [easy|].
    inversion L as [|? ? [[K1 K2] V] L']; subst. intros [<-|Hin].
    + exists (snd (fst x)). split; [left; cbn; destruct (fst x); reflexivity|]. split; [|exact K2].
      apply (body_ok wC), K1.
    + apply in_app_or in Hin as [Hin|Hin].
      * destruct (Hx V _ _ Hin Ht) as (raw & A & B). exists raw. split; [right; apply in_or_app; left; exact A|exact B].
      * destruct (IH L' _ Hin) as (raw & A & B). exists raw. split; [right; apply in_or_app; right; exact A|exact B].
Qed.
Lemma marks_keys v i raw : In (i, raw) (key_marks v) -> In raw (keys v).
Proof.
  induction v using jv_ind'; cbn [key_marks keys]; try easy.
  - rewrite !in_flat_map. intros (x & Hx & Hi). exists x. split; [exact Hx|]. rewrite Forall_forall in H. auto.
  - rewrite !in_flat_map. intros (x & Hx & Hi). exists x. split; [exact Hx|]. rewrite Forall_forall in H.
    destruct Hi as [E|Hi]; [left; rewrite E; reflexivity|right; auto].
Qed.

(** ** Runs with different options *)
Section Runs.
Variables (C : cfg) (O1 O2 : opts) (stk : list frame) (s : bytes) (toks : list token).

Lemma step_options x :
  (forall t f, nth_error toks (ti x) = Some t -> tk_ty t = KKey -> fr stk (si x) = Some f ->
     key_tok C O1 stk s toks f t x = key_tok C O2 stk s toks f t x \/ exists i y, key_tok C O1 stk s toks f t x = Fail i EUnknownField y) ->
  step C O1 stk s toks x = step C O2 stk s toks x \/ exists i y, step C O1 stk s toks x = Fail i EUnknownField y.
Proof.
  intros H. unfold step. destruct (nth_error toks (ti x)) as [t|] eqn:Et; [|left; reflexivity].
  destruct (fr stk (si x)) as [f|] eqn:Ef; [|left; reflexivity].
  destruct (tk_ty t) eqn:K; try (left; reflexivity). eauto.
Qed.
Lemma run_options :
  (forall x t f, nth_error toks (ti x) = Some t -> tk_ty t = KKey -> fr stk (si x) = Some f ->
     key_tok C O1 stk s toks f t x = key_tok C O2 stk s toks f t x \/ exists i y, key_tok C O1 stk s toks f t x = Fail i EUnknownField y) ->
  forall fuel x, run C O1 stk s toks fuel x = run C O2 stk s toks fuel x \/ exists i y, run C O1 stk s toks fuel x = RFail i EUnknownField y.
Proof.
  intros H. induction fuel as [|fuel IH]; intros x; cbn [run]; (destruct (ti x <? length toks)%nat; [|left; reflexivity]); [left; reflexivity|].
  destruct (step_options x (H x)) as [E|(i & y & E)]; rewrite E; [|right; eauto].
  destruct (step C O2 stk s toks x); try (left; reflexivity). apply IH.
Qed.
End Runs.

Lemma Decode_options C O1 O2 stk D s toks t h :
  (forall x tk f, nth_error toks (ti x) = Some tk -> tk_ty tk = KKey -> fr stk (si x) = Some f ->
     key_tok C O1 stk s toks f tk x = key_tok C O2 stk s toks f tk x \/ exists i y, key_tok C O1 stk s toks f tk x = Fail i EUnknownField y) ->
  Decode C O1 stk D s (TOk toks) t h = Decode C O2 stk D s (TOk toks) t h \/
  exists i D' h', Decode C O1 stk D s (TOk toks) t h = Ret i (Some EUnknownField) D' h'.
Proof.
  intros H. unfold Decode. destruct t as [a|]; [|left; reflexivity].
  destruct (run_options C O1 O2 stk s toks H (run_fuel stk toks) (St 0 0 (upd_d D 0 (set_dest (Some a))) h)) as [E|(i & y & E)];
    rewrite E; [left; reflexivity|right; eauto].
Qed.

(** If the keys are processed alike, nothing changes. *)
Lemma Decode_same_keys C O1 O2 stk D s toks t h :
  (forall x tk f, nth_error toks (ti x) = Some tk -> tk_ty tk = KKey -> fr stk (si x) = Some f ->
     key_tok C O1 stk s toks f tk x = key_tok C O2 stk s toks f tk x) ->
  Decode C O1 stk D s (TOk toks) t h = Decode C O2 stk D s (TOk toks) t h.
Proof.
  intros H. unfold Decode. destruct t as [a|]; [|reflexivity].
  assert (E : forall fuel x, run C O1 stk s toks fuel x = run C O2 stk s toks fuel x).
  { induction fuel as [|fuel IH]; intros x; cbn [run]; (destruct (ti x <? length toks)%nat; [|reflexivity]); [reflexivity|].
    assert (Es : step C O1 stk s toks x = step C O2 stk s toks x).
    { unfold step. destruct (nth_error toks (ti x)) as [tk|] eqn:Et; [|reflexivity].
      destruct (fr stk (si x)) as [f|] eqn:Ef; [|reflexivity]. destruct (tk_ty tk) eqn:K; try reflexivity. eauto. }
    rewrite Es. destruct (step C O2 stk s toks x); auto. }
  rewrite E. reflexivity.
Qed.

(** ** C40 *)

(** DisallowUnknownFields: a call that does not report an unknown field does exactly what
    it does without the option. *)
Theorem C40_unknown_fields_only_rejects C u n stk D s tk t h :
  Decode C (Opts true u n) stk D s tk t h = Decode C (Opts false u n) stk D s tk t h \/
  exists i D' h', Decode C (Opts true u n) stk D s tk t h = Ret i (Some EUnknownField) D' h'.
Proof.
  destruct tk as [toks|]; [|left; destruct t; reflexivity].
  apply Decode_options. intros x t0 f _ _ _. unfold key_tok. cbn [o_unknown o_nounescape o_nofold].
  assert (G : forall A (r : res A) (g1 g2 : A -> out), (forall a, g1 a = g2 a \/ exists i y, g1 a = Fail i EUnknownField y) ->
    lift r g1 = lift r g2 \/ exists i y, lift r g1 = Fail i EUnknownField y).
  { intros A r g1 g2 Hg. destruct r; cbn; auto. }
  destruct (f_ty f); try (left; reflexivity);
    (apply G; intros kb; apply G; intros key; destruct (lookup_field _ _ _ _); [left; reflexivity|]; right; eauto).
Qed.

(** Without the option an unknown field is never an error; with it, the error is at a
    member name that no field of a struct of the destination type matches. *)
Theorem C40_unknown_field_justified C O stk D s v t h i D' h' :
  json_text s v ->
  Decode C O stk D s (TOk (flat 0 v)) t h = Ret i (Some EUnknownField) D' h' ->
  o_unknown O = true /\
  exists f raw key, In f stk /\ (f_ty f = EStruct \/ f_ty f = EStructRecur) /\
    In (Z.to_nat i, raw) (key_marks v) /\ looked_up O raw key /\ matches_no_field C O f key.
Proof.
  intros J H. apply json_text_lexed in J. destruct t as [a|]; [|discriminate].
  apply Decode_why in H as (m & tk & f & Hm & Hf & <- & K & Un & T & kb & key & B & Ky & L).
  split; [exact Un|]. destruct (flat_keys s v J 0 tk (nth_error_In _ _ Hm) K) as (raw & Mk & B' & Sb).
  assert (kb = raw) as -> by congruence.
  exists f, raw, key. rewrite Nat2Z.id. repeat split; try assumption.
  - unfold looked_up. destruct (o_nounescape O); [congruence|]. destruct Sb as (l & Bd & _). exists l. split; [exact Bd|].
    unfold unesc in Ky. rewrite (C06_unescape_meaning _ _ Bd) in Ky. congruence.
  - unfold matches_no_field. destruct (C09_lookup (c_fold C) (o_nofold O) (f_fields f) key) as [(i & _ & E)|(N & E)]; [congruence|].
    cbn in N. rewrite Forall_forall in *. intros b Hb. split; [apply N, Hb|]. intros Nf. rewrite Nf in E. rewrite Nf in L. rewrite L in E. cbn in E.
    rewrite Forall_forall in E. apply E, Hb.
Qed.

(** DisableCaseInsensitiveMatching: if every member name equals a field name exactly, or
    matches none even ignoring case, in every struct of the destination type, the option
    changes nothing. *)
Theorem C40_exact_names_need_no_folding C u e stk D s v t h :
  json_text s v ->
  (forall f raw key, In f stk -> f_ty f = EStruct \/ f_ty f = EStructRecur -> In raw (keys v) -> looked_up (Opts u e true) raw key ->
     In key (map fst (f_fields f)) \/ matches_no_field C (Opts u e false) f key) ->
  Decode C (Opts u e true) stk D s (TOk (flat 0 v)) t h = Decode C (Opts u e false) stk D s (TOk (flat 0 v)) t h.
Proof.
  intros J H. apply json_text_lexed in J. apply Decode_same_keys. intros x tk f Ht K Hf.
  destruct (flat_keys s v J 0 tk (nth_error_In _ _ Ht) K) as (raw & Mk & B & l & Bd & _). apply marks_keys in Mk.
  unfold key_tok. cbn [o_unknown o_nounescape o_nofold]. rewrite B.
  assert (G : f_ty f = EStruct \/ f_ty f = EStructRecur -> forall key, (if e then Ok raw else unesc raw) = Ok key ->
    lookup_field (c_fold C) true (f_fields f) key = lookup_field (c_fold C) false (f_fields f) key).
  { intros T key E. assert (Lu : looked_up (Opts u e true) raw key).
    { unfold looked_up. cbn. destruct e; [congruence|]. exists l. split; [exact Bd|]. unfold unesc in E. rewrite (C06_unescape_meaning _ _ Bd) in E. congruence. }
    specialize (H f raw key (nth_error_In _ _ Hf) T Mk Lu). unfold lookup_field, fieldFrameIndexByName.
    destruct (exact_loop (f_fields f) key) as [i|] eqn:E1; [reflexivity|].
    destruct (C09_lookup (c_fold C) false (f_fields f) key) as [(i & _ & E2)|(N & E2)].
    { unfold lookup_field, fieldFrameIndexByName in E2. rewrite E1 in E2. 
      destruct (C09_lookup (c_fold C) true (f_fields f) key) as [(i' & _ & E3)|(N & _)]; [cbn in E3; congruence|].
      destruct H as [H|H].
      - apply in_map_iff in H as (a & <- & Ha). cbn in N. rewrite Forall_forall in N. destruct (N a Ha). reflexivity.
      - destruct (C09_lookup (c_fold C) false (f_fields f) key) as [(i'' & (pre & a & post & Ef & _ & Ea & _) & _)|(_ & E4)].
        + rewrite Ef in N. cbn in N. apply Forall_app in N as [_ N]. inversion N; subst. tauto.
        + unfold lookup_field, fieldFrameIndexByName in E4. rewrite E1, E2 in E4. destruct E4 as (pre & a & post & Ef & _ & Ea & _).
          unfold matches_no_field in H. rewrite Ef in H. apply Forall_app in H as [_ H]. inversion H; subst. cbn in *. tauto. }
    unfold lookup_field, fieldFrameIndexByName in E2. rewrite E1 in E2. destruct H as [H|H].
    - apply in_map_iff in H as (a & <- & Ha). cbn in N. rewrite Forall_forall in N. destruct (N a Ha). reflexivity.
    - destruct (ci_loop (c_fold C) (f_fields f) key) as [i|]; [|reflexivity]. destruct E2 as (pre & a & post & Ef & _ & Ea & _).
      unfold matches_no_field in H. rewrite Ef in H. apply Forall_app in H as [_ H]. inversion H; subst. cbn in *. tauto. }
  destruct (f_ty f); try reflexivity;
    (cbn [lift]; destruct (if e then Ok raw else unesc raw) as [key| |] eqn:E; cbn [lift]; try reflexivity;
     rewrite (G ltac:(auto) key eq_refl); reflexivity).
Qed.

(** DisableFieldNameUnescaping: documents whose member names contain no escape sequence
    are decoded alike. *)
Theorem C40_no_escapes_need_no_unescaping C u n stk D s v t h :
  json_text s v -> (forall raw, In raw (keys v) -> ~ In 92 raw) ->
  Decode C (Opts u true n) stk D s (TOk (flat 0 v)) t h = Decode C (Opts u false n) stk D s (TOk (flat 0 v)) t h.
Proof.
  intros J H. apply json_text_lexed in J. apply Decode_same_keys. intros x tk f Ht K Hf.
  destruct (flat_keys s v J 0 tk (nth_error_In _ _ Ht) K) as (raw & Mk & B & _). apply marks_keys in Mk.
  unfold key_tok. cbn [o_unknown o_nounescape o_nofold]. rewrite B.
  destruct (f_ty f); try reflexivity; cbn [lift]; unfold unesc; rewrite (C06_no_escape_identity _ (H _ Mk)); reflexivity.
Qed.

(** struct{ A int; B string }: an unknown member, exact names, and escapes. *)
Definition opt_ty : ty := TStruct 1 24 [(fld0 "A" 0, tInt); (fld0 "B" 8, TStr)].
Definition opt_text : bytes := bs "{""A"":1,""x"":2,""B"":""v""}".
Definition opt_run (O : opts) (s : bytes) : result :=
  decode_in O noenv opt_ty (dyn0 (stack_of noenv opt_ty)) s (world 24).
Example C40_unknown_case :
  json_text opt_text (tree_of opt_text) /\ keys (tree_of opt_text) = [bs "A"; bs "x"; bs "B"] /\
  key_marks (tree_of opt_text) = [(1%nat, bs "A"); (7%nat, bs "x"); (13%nat, bs "B")] /\
  obs (opt_run (Opts true false false) opt_text) [(1%nat, 0)] = Some (7, Some EUnknownField, [Some (CInt 1)]) /\
  obs (opt_run (Opts false false false) opt_text) [(1%nat, 0); (1%nat, 8)] = Some (-1, None, [Some (CInt 1); Some (CStr (SAlias 18 (bs "v")))]).
Proof. split; [apply parse_sound; vm_compute; reflexivity|]. repeat split; vm_compute; reflexivity. Qed.

(** The hypotheses of the other two theorems hold of this document and type ... *)
Example C40_names_case :
  (forall f raw key, In f (stack_of noenv opt_ty) -> f_ty f = EStruct \/ f_ty f = EStructRecur -> In raw (keys (tree_of opt_text)) ->
     looked_up (Opts false false true) raw key ->
     In key (map fst (f_fields f)) \/ matches_no_field wC (Opts false false false) f key) /\
  (forall raw, In raw (keys (tree_of opt_text)) -> ~ In 92 raw).
Proof.
  assert (K : keys (tree_of opt_text) = [bs "A"; bs "x"; bs "B"]) by (vm_compute; reflexivity). rewrite K. split.
  - intros f raw key Hf T Hr (l & B & ->).
    assert (E : meaning_units l = raw).
    { assert (V : Valid raw = UOk raw) by (apply C06_no_escape_identity; destruct Hr as [<-|[<-|[<-|[]]]]; cbn; intuition discriminate).
      rewrite (C06_unescape_meaning _ _ B) in V. congruence. }
    rewrite E. assert (Ef : f_fields f = [(bs "A", 1%nat); (bs "B", 2%nat)]).
    { vm_compute in Hf. destruct Hf as [<-|[<-|[<-|[]]]]; vm_compute in T; destruct T as [T|T]; try discriminate T; vm_compute; reflexivity. }
    unfold matches_no_field. rewrite Ef. destruct Hr as [<-|[<-|[<-|[]]]]; cbn; auto.
    right. repeat constructor; cbn; try discriminate; intros _ [_ H]; vm_compute in H; discriminate H.
  - intros raw [<-|[<-|[<-|[]]]]; cbn; intuition discriminate.
Qed.
(** ... and where they fail, the options do matter. *)
Example C40_options_matter :
  obs (opt_run (Opts true false false) (bs "{""a"":1}")) [(1%nat, 0)] = Some (-1, None, [Some (CInt 1)]) /\
  obs (opt_run (Opts true false true) (bs "{""a"":1}")) [(1%nat, 0)] = Some (1, Some EUnknownField, [Some CZero]) /\
  obs (opt_run (Opts true false false) (bs "{""\u0041"":1}")) [(1%nat, 0)] = Some (-1, None, [Some (CInt 1)]) /\
  obs (opt_run (Opts true true false) (bs "{""\u0041"":1}")) [(1%nat, 0)] = Some (1, Some EUnknownField, [Some CZero]).
Proof. repeat split; vm_compute; reflexivity. Qed.

(** C41: every error Decode reports is one the input deserves.  For every decoder state
    (every destination type), memory and document. *)
From Verif Require Import Base NumSpec StrSpec Atoi AtoiProofs JsonNum JsonNumProofs Unescape Lookup PropsLeaf Types AppendType Token FloatLit Heap Machine General Provenance Dt Dec Control Parse Spec SpecProofs World Sim PropsInput PropsOptions.
Open Scope Z_scope.

(** ** Specification *)

(** What justifies error [e] at byte [i] of text [s] with tree [v], for a destination
    type whose frames are [stk]. *)
Definition deserved (C : cfg) (O : opts) (stk : list frame) (s : bytes) (v : jv) (i : nat) (e : err) : Prop :=
  match e with
  (* an integer literal at [i] does not fit the integer type it is for *)
  | EOverflow => exists raw f k, In (JInt i raw) (parts v) /\ In f stk /\ (f_ty f = EInt k \/ f_ty f = ESliceInt k) /\
      ~ in_range (kind_of C k) (int_value raw)
  (* a number at [i] rounds to infinity in the float format it is for; or a string at [i],
     for a number field with option `string`, is too big or not a number *)
  | EParse => exists raw f b, In f stk /\
      ((In (JInt i raw) (parts v) \/ In (JNum i raw) (parts v)) /\ (f_ty f = EF b \/ f_ty f = ESliceF b \/ f_ty f = EAny /\ b = B64) /\
         too_big b (num_value raw) = true \/
       In (JStr i raw) (parts v) /\ f_ty f = EFS b /\ (json_number raw -> too_big b (num_value raw) = true))
  (* a member name at [i] that is no field of a struct, with DisallowUnknownFields *)
  | EUnknownField => o_unknown O = true /\ exists raw f key, In (i, raw) (key_marks v) /\ In f stk /\
      (f_ty f = EStruct \/ f_ty f = EStructRecur) /\ looked_up O raw key /\ matches_no_field C O f key
  (* an unmarshaler of the destination type returned this error when called with the text
     of the value at [i], resp. with the string or member name at [i] *)
  | EUser c => exists id f old new arg, In f stk /\ f_rt f = Some (RNamed id) /\
      (f_ty f = EJSON /\ c_uj C id old arg = (new, Some c) /\
         (exists u j, In u (parts v) /\ value s i u j /\ slice s i j = Some arg) \/
       f_ty f = EText /\ c_ut C id old arg = (new, Some c) /\
         (exists raw l, (In (JStr i raw) (parts v) \/ In (i, raw) (key_marks v)) /\ body raw l /\ arg = meaning_units l))
  | EUnexpected => In i (positions v)
  | ENilDest | ETok _ => False
  end.

(** ** Proof *)

Lemma parts_her (P : jv -> Prop) : hereditary P -> forall v, P v -> forall u, In u (parts v) -> P u.
Proof.
  intros [HA HO]. induction v using jv_ind'; intros Hv u; cbn [parts]; intros [<-|Hin]; try assumption; try easy.
  - apply HA in Hv. apply in_flat_map in Hin as (x & Hx & Hu). rewrite Forall_forall in *. eauto.
  - apply HO in Hv. apply in_flat_map in Hin as (x & Hx & Hu). rewrite Forall_forall in *. eauto.
Qed.

(** The part a token belongs to. *)
Lemma tok_part s v m t : valued s v -> nth_error (flat 0 v) m = Some t -> starts t = true ->
  exists u rest j, skipn m (flat 0 v) = flat m u ++ rest /\ In u (parts v) /\ hd_error (flat m u) = Some t /\
    tk_idx t = jidx u /\ value s (jidx u) u j.
Proof.
  intros V Hm St. destruct (flat_part v 0 m t Hm St) as (u & rest & E & I). cbn [Nat.add] in E.
  destruct (parts_her _ (valued_her s) v V u I) as (i & j & Vu).
  assert (i = jidx u) as -> by (inversion Vu; reflexivity).
  exists u, rest, j. repeat split; try assumption.
  - pose proof (nth_skipn0 (flat 0 v) m) as Z. rewrite E, Hm in Z. rewrite <- Z.
    destruct (flat m u) eqn:F; [apply (f_equal (@length token)) in F; rewrite flat_length in F; pose proof (ntok_pos u); cbn in F; lia|]. reflexivity.
  - pose proof (nth_skipn0 (flat 0 v) m) as Z. rewrite E, Hm in Z.
    destruct u; try (cbn in Z; try destruct b; injection Z as <-; reflexivity).
Qed.

Lemma sub_slice s a b r : sub s a b = Ok r -> slice s a b = Some r.
Proof. unfold sub. destruct (slice s a b); congruence. Qed.

Lemma tok_raw s v m t raw : valued s v -> nth_error (flat 0 v) m = Some t -> tk_ty t = KInt \/ tk_ty t = KNum -> raw_of s t = Ok raw ->
  json_number raw /\ (tk_ty t = KInt -> In (JInt (tk_idx t) raw) (parts v) /\ json_int raw) /\
  (In (JInt (tk_idx t) raw) (parts v) \/ In (JNum (tk_idx t) raw) (parts v)).
Proof.
  intros V Hm K R. destruct (tok_part s v m t V Hm) as (u & rest & j & _ & I & Hd & E & Vu); [unfold starts; destruct K as [K|K]; rewrite K; reflexivity|].
  apply sub_slice in R.
  destruct u; cbn in Hd; try destruct b; injection Hd as <-; cbn in K, E, R |- *; try (destruct K; discriminate);
    inversion Vu as [| | |? ? Oc J|? ? Oc J| | | | |]; subst; unfold occurs in Oc; cbn [jidx] in Oc; rewrite Oc in R; injection R as <-.
  - split; [left; exact J|]. split; auto.
  - split; [right; exact J|]. split; [discriminate|auto].
Qed.

Lemma tok_str s v m t b : valued s v -> nth_error (flat 0 v) m = Some t -> tk_ty t = KStr -> body_of s t = Ok b ->
  In (JStr (tk_idx t) b) (parts v) /\ string_body b.
Proof.
  intros V Hm K R. destruct (tok_part s v m t V Hm) as (u & rest & j & _ & I & Hd & E & Vu); [unfold starts; rewrite K; reflexivity|].
  destruct u; cbn in Hd; try destruct b0; injection Hd as <-; cbn in K; try discriminate.
  inversion Vu as [| | | | |? ? Oc J| | | |]; subst. apply (body_ok wC) with (k := KStr) (n := 0%nat) in Oc. cbn [jidx] in Oc. rewrite Oc in R.
  injection R as <-. auto.
Qed.

Lemma tok_range s v m t arg : valued s v -> nth_error (flat 0 v) m = Some t -> starts t = true -> range_of s (flat 0 v) t = Ok arg ->
  exists u j, In u (parts v) /\ value s (tk_idx t) u j /\ slice s (tk_idx t) j = Some arg.
Proof.
  intros V Hm St R. destruct (tok_part s v m t V Hm St) as (u & rest & j & Es & I & Hd & E & Vu).
  exists u, j. split; [exact I|]. rewrite E. split; [exact Vu|]. rewrite <- E.
  destruct u; try (cbn in Hd; try destruct b; injection Hd as <-; cbn in E, R |- *; apply sub_slice in R; cbn in R;
    inversion Vu; subst; exact R).
  - rewrite flat_arr in Es, Hd. cbn in Hd. injection Hd as <-. unfold range_of in R. cbn [tk_ty tk_end tk_idx] in *.
    cbn [app] in Es. rewrite <- app_assoc in Es. apply at_next in Es as (_ & _ & Es). apply at_skip in Es. rewrite flats_length in Es.
    apply at_next in Es as (En & _ & _). cbn [Nat.add] in En. rewrite En in R. cbn [tk_idx] in R. apply sub_slice in R.
    inversion Vu; subst; rewrite Nat.add_1_r in R; exact R.
  - rewrite flat_obj in Es, Hd. cbn in Hd. injection Hd as <-. unfold range_of in R. cbn [tk_ty tk_end tk_idx] in *.
    cbn [app] in Es. rewrite <- app_assoc in Es. apply at_next in Es as (_ & _ & Es). apply at_skip in Es. rewrite flatm_length in Es.
    apply at_next in Es as (En & _ & _). cbn [Nat.add] in En. rewrite En in R. cbn [tk_idx] in R. apply sub_slice in R.
    inversion Vu; subst; rewrite Nat.add_1_r in R; exact R.
Qed.

Lemma parse_float_none pf b raw : json_number raw -> parse_float pf b raw = None -> too_big b (num_value raw) = true.
Proof.
  intros J H. unfold parse_float in H. destruct (C04_scanner_whole raw) as [A B].
  assert (X : match num_value raw with (m, e) => if too_big b (m, e) then None else Some (FN m e (minus_zero raw m)) end = None).
  { destruct J as [J|J]; [apply A in J|apply B in J]; rewrite J in H; exact H. }
  destruct (num_value raw) as [m e]. destruct (too_big b (m, e)); [reflexivity|discriminate].
Qed.

Lemma unesc_meaning b arg : string_body b -> unesc b = Ok arg -> exists l, body b l /\ arg = meaning_units l.
Proof.
  intros (l & B & _) U. exists l. split; [exact B|]. unfold unesc in U. rewrite (C06_unescape_meaning _ _ B) in U. congruence.
Qed.

Theorem C41_errors_deserved C O stk D s v a h i e D' h' :
  json_text s v ->
  Decode C O stk D s (TOk (flat 0 v)) (Some a) h = Ret i (Some e) D' h' ->
  exists k, i = Z.of_nat k /\ deserved C O stk s v k e.
Proof.
  intros J H. pose proof (json_text_lexed _ _ J) as L. assert (V : valued s v) by (destruct J as (x & y & _ & J & _); exists x, y; exact J).
  pose proof H as H0. apply Decode_why in H as (m & t & f & Hm & Hf & <- & W). exists (tk_idx t). split; [reflexivity|].
  destruct e as [| | | |c| |c]; try contradiction.
  - unfold deserved. unfold Decode in H0. destruct (run _ _ _ _ _ _ _) as [x|k e x| | |] eqn:R; try discriminate.
    + destruct (d_dest (dy x 0%nat)) as [a'|]; [|discriminate]. destruct (_ && _); [discriminate|]. destruct (copy _ _ _ _); discriminate.
    + injection H0 as K -> _ _. apply run_err_pos in R. replace (tk_idx t) with k by lia. exact R.
  - destruct W as (K & k & raw & n & T & R & M & A). destruct (tok_raw s v m t raw V Hm (or_introl K) R) as (_ & Q & _).
    destruct (Q K) as [I Ji]. exists raw, f, k. repeat split; try assumption. intros Rg.
    rewrite (atoi_exact C k raw Ji) in A; [|intros Hk; apply M, Hk|].
    + unfold exact in A. apply in_rangeb_spec in Rg. rewrite Rg in A. discriminate.
    + intros _ (X & _). apply X, Rg.
  - destruct W as (K & Un & T & kb & key & B & Ky & Lk). destruct (C40_unknown_field_justified C O stk D s v (Some a) h _ _ _ J H0) as (_ & f' & raw & key' & F1 & F2 & F3 & F4 & F5).
    rewrite Nat2Z.id in F3. split; [exact Un|]. exists raw, f', key'. auto.
  - destruct W as (b & raw & P & [(K & R & T)|(K & R & T)]).
    + destruct (tok_raw s v m t raw V Hm K R) as (Jn & _ & I). exists raw, f, b. split; [exact Hf|]. left.
      split; [exact I|]. split; [exact T|]. eapply parse_float_none; eauto.
    + destruct (tok_str s v m t raw V Hm K R) as [I _]. exists raw, f, b. split; [exact Hf|]. right.
      split; [exact I|]. split; [exact T|]. intros Jn. eapply parse_float_none; eauto.
  - destruct W as (id & old & arg & new & Rt & [(T & K & U & b & B & Un)|(T & St & U & R)]); exists id, f, old, new, arg; (split; [exact Hf|]); (split; [exact Rt|]).
    + right. split; [exact T|]. split; [exact U|]. destruct K as [K|K].
      * destruct (tok_str s v m t b V Hm K B) as [I Sb]. destruct (unesc_meaning b arg Sb Un) as (l & Bd & E). exists b, l. auto.
      * destruct (flat_keys s v L 0 t (nth_error_In _ _ Hm) K) as (raw & Mk & B' & Sb). assert (raw = b) as -> by congruence.
        destruct (unesc_meaning b arg Sb Un) as (l & Bd & E). exists b, l. auto.
    + left. split; [exact T|]. split; [exact U|]. eapply tok_range; eauto.
Qed.

(** One case of each error.  Type 1 has UnmarshalJSON, type 2 has UnmarshalText; both
    return error 7 when the argument starts with a bracket or is "bad". *)
Definition err_env : env := fun i => match i with 1%nat => Decl (TStruct 8 16 [(fld0 "S" 0, TStr)]) 16 SSome SNone | 2%nat => Decl (TStruct 9 16 [(fld0 "S" 0, TStr)]) 16 SNone SSome | _ => Decl TOther 0 SNone SNone end.
Definition err_cfg : cfg :=
  Cfg true false (fun _ _ raw => (raw, match raw with 91 :: _ => Some 7%nat | _ => None end))
    (fun _ _ raw => (raw, if bytes_eqb raw (bs "bad") then Some 7%nat else None)) (fun _ _ => None) (c_fold wC).
Definition err_run (O : opts) (T : ty) (s : bytes) : option (Z * option err * list (option cv)) :=
  obs (Decode err_cfg O (stack_of err_env T) (dyn0 (stack_of err_env T)) s (TOk (flat 0 (tree_of s))) dest (world (tsize true err_env T))) [].
Example C41_cases :
  err_run default_opts (TSlice tInt) (bs "[1, 9223372036854775808]") = Some (4, Some EOverflow, []) /\
  err_run default_opts (TArr 2 (TInt (NK false W8))) (bs "[1, 256]") = Some (4, Some EOverflow, []) /\
  err_run default_opts (TFloat B64) (bs " 1e999") = Some (1, Some EParse, []) /\
  err_run default_opts (TSlice (TFloat B32)) (bs "[1e38,1e39]") = Some (6, Some EParse, []) /\
  err_run (Opts true false false) (TStruct 1 16 [(fld0 "A" 0, TStr)]) (bs "{""B"":1}") = Some (1, Some EUnknownField, []) /\
  err_run default_opts (TSlice (TNamed 1)) (bs "[{},[ 1 ]]") = Some (4, Some (EUser 7), []) /\
  err_run default_opts (TSlice (TNamed 2)) (bs "[""a"",""b\u0061d""]") = Some (5, Some (EUser 7), []) /\
  err_run default_opts (TMap (TNamed 2) tInt) (bs "{""b\u0061d"":1}") = Some (1, Some (EUser 7), []) /\
  json_text (bs "[{},[ 1 ]]") (tree_of (bs "[{},[ 1 ]]")).
Proof. repeat (split; [vm_compute; reflexivity|]). apply parse_sound; vm_compute; reflexivity. Qed.

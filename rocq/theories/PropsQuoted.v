(** C05: numbers inside JSON strings: jscandec.Number, fields with the `string` option,
    integer map keys.

    [quoted_sound r] (Spec.v): the string is not empty and not a number followed by other
    bytes.  On the excluded strings the claim is false (PropsRefuted.v); what the code does
    with them is stated for Number in full ([C05_Number_characterised]). *)
From Verif Require Import Base NumSpec StrSpec JsonNum JsonNumProofs Types AppendType Token FloatLit Heap Machine Dt Dec Control Root Elab Value Dval Sep Refine Spec Typed SpecProofs Main Parse World Elaborate PropsDecode PropsStruct PropsRefuted.
Open Scope Z_scope.

(** [r] is an integer literal for the integer type [k], of value [n]. *)
Definition int_number (C : cfg) (k : nk) (r : bytes) (n : Z) : Prop :=
  json_int r /\ int_value r = n /\ in_range (kind_of C k) n /\ (nk_signed k = false -> forall t, r <> 45 :: t).
Lemma int_text_spec C k r :
  (forall n, int_number C k r n -> int_text C k r = inl n) /\ ((forall n, ~ int_number C k r n) -> int_text C k r = inr EUnexpected).
Proof.
  assert (Ng : neg r = false <-> forall t, r <> 45 :: t).
  { destruct r as [|c r]; cbn; [split; [intros _ t; discriminate|reflexivity]|]. destruct (Z.eqb_spec c 45) as [->|N].
    - split; [discriminate|]. intros H. exfalso. eapply H. reflexivity.
    - split; [|reflexivity]. intros _ t [= -> _]. congruence. }
  unfold int_text. split.
  - intros n (J & <- & Rg & Sg). apply is_int_spec in J. rewrite J. apply in_rangeb_spec in Rg. rewrite Rg. cbn.
    destruct (nk_signed k); cbn; [reflexivity|]. rewrite (proj2 Ng) by (apply Sg; reflexivity). reflexivity.
  - intros H. destruct (is_int r && negb (negb (nk_signed k) && neg r) && in_rangeb (kind_of C k) (int_value r)) eqn:E; [|reflexivity].
    exfalso. apply andb_prop in E as [E E3]. apply andb_prop in E as [E1 E2]. apply (H (int_value r)). split; [apply is_int_spec, E1|]. split; [reflexivity|].
    split; [apply in_rangeb_spec, E3|]. intros Sg. apply Ng. rewrite Sg in E2. cbn in E2. destruct (neg r); [discriminate|reflexivity].
Qed.

(** ** Number *)
(** A string for a Number: the empty string panics; otherwise, with [p] the longest prefix
    that can be completed to a number: if [p] is a number the whole string is stored,
    otherwise the error is reported at the string and no memory is changed. *)
Theorem C05_Number_characterised C O E dis T stk D s i r a h g F :
  decoder_for C E dis T (DSc SNumber) stk D -> json_text s (JStr i r) -> variable C (DSc SNumber) h a g F ->
  let call := Decode C O stk D s (TOk (flat 0 (JStr i r))) (Some a) h in
  (r = [] -> call = DPanics) /\
  (forall p t, r <> [] -> longest_viable r p t -> json_number p ->
     exists D' h' F', call = Ret (-1) None D' h' /\ variable C (DSc SNumber) h' a (VStr r) F') /\
  (forall p t, r <> [] -> longest_viable r p t -> ~ json_number p -> exists D', call = Ret (Z.of_nat i) (Some EUnexpected) D' h).
Proof.
  intros Df J V call. unfold call.
  pose proof (C15_decode_is_recursive_partial C O E dis T (DSc SNumber) stk D s (JStr i r) a h g F Df J ltac:(discriminate) V) as Q. cbn [dval lput scalarv] in Q.
  split; [|split].
  - intros ->. exact Q.
  - intros p t N L Jn. destruct (ReadNumber_spec r N) as (p' & t1 & k & t' & V' & Er & _ & _ & Ke & _).
    destruct (longest_viable_unique _ _ _ _ _ L V') as [<- <-]. rewrite Er in Q.
    destruct k; try (exfalso; apply (proj1 Ke eq_refl), Jn); cbn in Q; destruct Q as (D' & h' & F' & Q & V2 & _); eauto.
  - intros p t N L Jn. destruct (ReadNumber_spec r N) as (p' & t1 & k & t' & V' & Er & _ & _ & Ke & _).
    destruct (longest_viable_unique _ _ _ _ _ L V') as [<- <-].
    assert (S : quoted_sound r) by (split; [exact N|]; intros p2 t2 L2 J2; destruct (longest_viable_unique _ _ _ _ _ L L2) as [<- <-]; contradiction).
    assert (Nn : is_num r = false).
    { destruct (is_num r) eqn:En; [|reflexivity]. exfalso. apply is_num_spec in En. apply Jn.
      assert (Lr : longest_viable r r []).
      { split; [symmetry; apply app_nil_r|]. split; [exists []; rewrite app_nil_r; exact En|]. intros q u Eq _. apply (f_equal (@length _)) in Eq. rewrite app_length in Eq. lia. }
      destruct (longest_viable_unique _ _ _ _ _ L Lr) as [-> _]. exact En. }
    pose proof (C14_scalars_partial C O E dis T SNumber stk D s (JStr i r) a h g F Df J eq_refl S V) as P. cbn [ideal_sc] in P. rewrite Nn in P. exact P.
Qed.
(** In particular the claim holds for every string that is not empty and not a number
    followed by something. *)
Corollary C05_Number_partial C O E dis T stk D s i r a h g F :
  decoder_for C E dis T (DSc SNumber) stk D -> json_text s (JStr i r) -> variable C (DSc SNumber) h a g F -> quoted_sound r ->
  let call := Decode C O stk D s (TOk (flat 0 (JStr i r))) (Some a) h in
  (json_number r -> exists D' h' F', call = Ret (-1) None D' h' /\ variable C (DSc SNumber) h' a (VStr r) F') /\
  (~ json_number r -> exists D', call = Ret (Z.of_nat i) (Some EUnexpected) D' h).
Proof.
  intros Df J V S call. pose proof (C14_scalars_partial C O E dis T SNumber stk D s (JStr i r) a h g F Df J eq_refl S V) as P. cbn [ideal_sc] in P.
  split; intros Jn.
  - apply is_num_spec in Jn. rewrite Jn in P. destruct P as (D' & h' & F' & P & V' & _). eauto.
  - destruct (is_num r) eqn:En; [apply is_num_spec in En; contradiction|]. exact P.
Qed.

(** ** The `string` option *)
Lemma set_nth_id {A} (l : list A) j x : nth_error l j = Some x -> set_nth l j x = l.
Proof. revert j. induction l as [|y l IH]; intros [|j] H; cbn in *; try discriminate; [congruence|]. f_equal. apply IH, H. Qed.
(** A struct and a document with one member, selecting field [q]. *)
Lemma one_member C O E dis T z fs stk D s i j ki key w q y a h gs F :
  decoder_for C E dis T (DStruct z fs) stk D -> json_text s (JObj i j [(ki, key, w)]) ->
  o_nounescape O = true \/ plain_str key -> field_for C O fs key = Some q -> nth_error fs q = Some y ->
  lag_of C O (snd y) w <> None -> sound C O (snd y) w -> variable C (DStruct z fs) h a (VStruct gs) F ->
  exists g, nth_error gs q = Some g /\
  match ideal C O s (snd y) w g with
  | VOk g' => exists D' h' F', Decode C O stk D s (TOk (flat 0 (JObj i j [(ki, key, w)]))) (Some a) h = Ret (-1) None D' h' /\
      variable C (DStruct z fs) h' a (VStruct (set_nth gs q g')) F'
  | VErr n e g' => exists D' h' F', Decode C O stk D s (TOk (flat 0 (JObj i j [(ki, key, w)]))) (Some a) h = Ret (Z.of_nat n) (Some e) D' h' /\
      variable C (DStruct z fs) h' a (VStruct (set_nth gs q g')) F'
  | VPan => False
  end.
Proof.
  intros Df J Hk Hf Hy Ct Sd V.
  assert (Nm : @nth_error vdec (@map _ vdec (fun x => ideal C O s (snd x)) fs) q = Some (ideal C O s (snd y))) by (rewrite nth_error_map, Hy; reflexivity).
  assert (Hg : exists g, nth_error gs q = Some g).
  { destruct V as [R _]. apply rep_typed in R. apply typed_struct in R as (gs' & [= <-] & R). clear - R Hy. revert gs q Hy R.
    induction fs as [|x fs IH]; intros gs [|q] Hy R; try discriminate Hy; destruct gs as [|g gs]; try (destruct R; fail); cbn [nth_error] in *; [eauto|].
    destruct R as [_ R]. eapply IH; eassumption. }
  destruct Hg as (g & Hg). exists g. split; [exact Hg|].
  pose proof (json_text_lexed _ _ J) as L. apply lexed_obj in L as (_ & _ & _ & L). apply Forall_cons_iff in L as [[Lk _] _].
  assert (B : string_body key) by apply Lk.
  assert (Ct' : ctl_root C O (DStruct z fs) (JObj i j [(ki, key, w)])).
  { cbn [ctl_root map]. rewrite lags_one. unfold member_lag. cbn [fst snd]. rewrite field_for_pick in Hf by assumption. replace (key_of O key) with (if o_nounescape O then key else txt key) by (unfold key_of, txt, unesc; destruct (o_nounescape O); [reflexivity|]; destruct (Unescape.Valid key); reflexivity). rewrite Hf, nth_error_map, Hy. exact Ct. }
  assert (Sd' : sound C O (DStruct z fs) (JObj i j [(ki, key, w)])).
  { cbn [sound]. constructor; [|constructor]. cbn [fst snd]. split; [exact Hk|]. rewrite Hf. rewrite nth_error_map, Hy. exact Sd. }
  pose proof (C15_decode_is_ideal_partial C O E dis T (DStruct z fs) stk D s _ a h _ F Df J Ct' Sd' V) as Q.
  change (ideal C O s (DStruct z fs) (JObj i j [(ki, key, w)]) (VStruct gs)) with
    (vmap VStruct (ideal_members O (field_for C O fs) (map (fun x => ideal C O s (snd x)) fs) [(ki, key, w)] gs)) in Q.
  cbn [ideal_members] in Q. rewrite Hf in Q. unfold vdec in *. rewrite Nm in Q. rewrite Hg in Q.
  destruct (ideal C O s (snd y) w g) as [g'|n e g'|]; cbn [vmap] in Q; [| |exact Q]; destruct Q as (D' & h' & F' & Q & V' & _); eauto.
Qed.

(** A field of an integer type with the `string` option: the member is accepted iff the
    whole string is an integer literal of the type, whose value is then stored; otherwise
    the error is reported at the string and the struct is unchanged. *)
Theorem C05_string_option_int_partial C O E dis T z fs stk D s i j ki key vi r q nm k a h gs F :
  decoder_for C E dis T (DStruct z fs) stk D -> json_text s (JObj i j [(ki, key, JStr vi r)]) ->
  o_nounescape O = true \/ plain_str key -> field_for C O fs key = Some q -> nth_error fs q = Some (nm, DSc (SIntQ k)) ->
  quoted_sound r -> int_sound C k r -> variable C (DStruct z fs) h a (VStruct gs) F ->
  let call := Decode C O stk D s (TOk (flat 0 (JObj i j [(ki, key, JStr vi r)]))) (Some a) h in
  (forall n, int_number C k r n -> exists D' h' F', call = Ret (-1) None D' h' /\ variable C (DStruct z fs) h' a (VStruct (set_nth gs q (VInt n))) F') /\
  ((forall n, ~ int_number C k r n) -> exists D' h' F', call = Ret (Z.of_nat vi) (Some EUnexpected) D' h' /\ variable C (DStruct z fs) h' a (VStruct gs) F').
Proof.
  intros Df J Hk Hf Hy S1 S2 V call.
  destruct (one_member C O E dis T z fs stk D s i j ki key (JStr vi r) q _ a h gs F Df J Hk Hf Hy ltac:(discriminate) (conj S1 S2) V) as (g & Hg & Q).
  cbn [snd ideal ideal_sc] in Q. destruct (int_text_spec C k r) as [A B]. split.
  - intros n Hn. rewrite (A n Hn) in Q. exact Q.
  - intros Hn. rewrite (B Hn) in Q. cbn [lput] in Q. rewrite (set_nth_id _ _ _ Hg) in Q. exact Q.
Qed.
(** The same for a floating point type: the whole string must be a number (that does not
    overflow the type). *)
Theorem C05_string_option_float_partial C O E dis T z fs stk D s i j ki key vi r q nm b a h gs F :
  decoder_for C E dis T (DStruct z fs) stk D -> json_text s (JObj i j [(ki, key, JStr vi r)]) ->
  o_nounescape O = true \/ plain_str key -> field_for C O fs key = Some q -> nth_error fs q = Some (nm, DSc (SFloatQ b)) ->
  quoted_sound r -> variable C (DStruct z fs) h a (VStruct gs) F ->
  let call := Decode C O stk D s (TOk (flat 0 (JObj i j [(ki, key, JStr vi r)]))) (Some a) h in
  (forall f, json_number r -> round b r = Some f -> exists D' h' F', call = Ret (-1) None D' h' /\ variable C (DStruct z fs) h' a (VStruct (set_nth gs q (VFloat f))) F') /\
  (json_number r -> round b r = None -> exists D' h' F', call = Ret (Z.of_nat vi) (Some EParse) D' h' /\ variable C (DStruct z fs) h' a (VStruct gs) F') /\
  (~ json_number r -> exists D' h' F', call = Ret (Z.of_nat vi) (Some EUnexpected) D' h' /\ variable C (DStruct z fs) h' a (VStruct gs) F').
Proof.
  intros Df J Hk Hf Hy S1 V call.
  destruct (one_member C O E dis T z fs stk D s i j ki key (JStr vi r) q _ a h gs F Df J Hk Hf Hy ltac:(discriminate) S1 V) as (g & Hg & Q).
  cbn [snd ideal ideal_sc] in Q. split; [|split].
  - intros f Hn Hr. apply is_num_spec in Hn. rewrite Hn in Q. unfold float_lit in Q. rewrite Hr in Q. exact Q.
  - intros Hn Hr. apply is_num_spec in Hn. rewrite Hn in Q. unfold float_lit in Q. rewrite Hr in Q. cbn [lput] in Q. rewrite (set_nth_id _ _ _ Hg) in Q. exact Q.
  - intros Hn. destruct (is_num r) eqn:En; [apply is_num_spec in En; contradiction|]. cbn [lput] in Q. rewrite (set_nth_id _ _ _ Hg) in Q. exact Q.
Qed.

(** ** Integer map keys *)
(** A key of a map[integer]T: if the whole key is an integer literal of the key type the
    entry for its value is set to the decoded value; otherwise the error is reported at the
    key and the map has its old entries. *)
Theorem C05_map_key_partial C O E dis T k t stk D s i j ki key w a h m F :
  decoder_for C E dis T (DMap (KeyInt k) t) stk D -> json_text s (JObj i j [(ki, key, w)]) ->
  quoted_sound key -> int_sound C k key -> lag_of C O t w <> None -> sound C O t w -> variable C (DMap (KeyInt k) t) h a (VMap (Some m)) F ->
  let call := Decode C O stk D s (TOk (flat 0 (JObj i j [(ki, key, w)]))) (Some a) h in
  (forall n, int_number C k key n ->
     let old := match getk m (GInt n) with Some g => match t with DStruct _ _ => zero t | _ => g end | None => zero t end in
     match ideal C O s t w old with
     | VOk g => exists D' h' F', call = Ret (-1) None D' h' /\ variable C (DMap (KeyInt k) t) h' a (VMap (Some (putk m (GInt n) g))) F'
     | VErr e1 e2 g => exists D' h' F', call = Ret (Z.of_nat e1) (Some e2) D' h' /\ variable C (DMap (KeyInt k) t) h' a (VMap (Some (putk m (GInt n) g))) F'
     | VPan => False
     end) /\
  ((forall n, ~ int_number C k key n) -> exists D' h' F', call = Ret (Z.of_nat ki) (Some EUnexpected) D' h' /\ variable C (DMap (KeyInt k) t) h' a (VMap (Some m)) F').
Proof.
  intros Df J S1 S2 Ct Sd V call.
  assert (Ct' : ctl_root C O (DMap (KeyInt k) t) (JObj i j [(ki, key, w)])) by (cbn [ctl_root map]; rewrite lags_one; exact Ct).
  assert (Sd' : sound C O (DMap (KeyInt k) t) (JObj i j [(ki, key, w)])) by (cbn; constructor; [split; [split; assumption|exact Sd]|constructor]).
  pose proof (C15_decode_is_ideal_partial C O E dis T _ stk D s _ a h _ F Df J Ct' Sd' V) as Q.
  cbn [ideal ideal_entries ideal_key] in Q. destruct (int_text_spec C k key) as [A B]. split.
  - intros n Hn old. rewrite (A n Hn) in Q. 
    assert (Eo : match getk m (GInt n) with Some g => if is_struct t then zero t else g | None => zero t end = old) by (destruct t; reflexivity).
    rewrite Eo in Q. destruct (ideal C O s t w old) as [g|e1 e2 g|]; cbn [vmap] in Q; [| |exact Q]; destruct Q as (D' & h' & F' & Q & V' & _); eauto.
  - intros Hn. rewrite (B Hn) in Q. cbn [vmap] in Q. destruct Q as (D' & h' & F' & Q & V' & _). eauto.
Qed.


(** Cases: a Number; struct { A int8 `json:",string"`; B float32 `json:",string"` }; map[uint16]string. *)
Definition numb_stk : list frame := Eval vm_compute in stack_of plain_env TNumber.
Definition sq_ty : ty := TStruct 1 8 [(tagged "A" "A,string" 0, tInt8); (tagged "B" "B,string" 4, TFloat B32)].
Definition sq_dt : dt := Eval vm_compute in match elab true plain_env false 50 [] sq_ty with Some (d, _) => d | None => DEmpty end.
Definition sq_stk : list frame := Eval vm_compute in stack_of plain_env sq_ty.
Definition mu_ty : ty := TMap (TInt (NK false W16)) TStr.
Definition mu_dt : dt := DMap (KeyInt (NK false W16)) (DSc SStr).
Definition mu_stk : list frame := Eval vm_compute in stack_of plain_env mu_ty.

Ltac is_decoder := eapply new_decoder; [apply plain_env_sizes|vm_compute; reflexivity|vm_compute; reflexivity|vm_compute; reflexivity].
Example C05_Number_case :
  decoder_for wC plain_env false TNumber (DSc SNumber) numb_stk (dyn0 numb_stk) /\
  variable wC (DSc SNumber) (world 16) (1%nat, 0) (VStr []) [] /\
  (let s := bs " ""-1.5e3""" in json_text s (JStr 1 (bs "-1.5e3")) /\ quoted_sound (bs "-1.5e3") /\ json_number (bs "-1.5e3")) /\
  (let s := bs """-.5""" in json_text s (JStr 0 (bs "-.5")) /\ quoted_sound (bs "-.5") /\ ~ json_number (bs "-.5")).
Proof.
  split; [is_decoder|]. split.
  { pose proof (world_rep (DSc SNumber) (layoutb_spec true (DSc SNumber) eq_refl)) as W. exact W. }
  split; cbn zeta.
  - split; [apply parse_sound; vm_compute; reflexivity|]. split; [apply quoted_soundb_spec; vm_compute; reflexivity|apply is_num_spec; vm_compute; reflexivity].
  - split; [apply parse_sound; vm_compute; reflexivity|]. split; [apply quoted_soundb_spec; vm_compute; reflexivity|].
    intros H. apply is_num_spec in H. vm_compute in H. discriminate.
Qed.
Lemma sq_variable : variable wC sq_dt (world 8) (1%nat, 0) (VStruct [VInt 0; VFloat (FN 0 0 false)]) [].
Proof. pose proof (world_rep sq_dt (layoutb_spec true sq_dt eq_refl)) as W. exact W. Qed.
Example C05_string_option_case :
  let fs := [(bs "A", 0, DSc (SIntQ (NK true W8))); (bs "B", 4, DSc (SFloatQ B32))] in
  decoder_for wC plain_env false sq_ty (DStruct 8 fs) sq_stk (dyn0 sq_stk) /\
  variable wC (DStruct 8 fs) (world 8) (1%nat, 0) (VStruct [VInt 0; VFloat (FN 0 0 false)]) [] /\
  field_for wC default_opts fs (bs "a") = Some 0%nat /\ field_for wC default_opts fs (bs "B") = Some 1%nat /\ plain_str (bs "a") /\ plain_str (bs "B") /\
  (json_text (bs "{""a"":""-128""}") (JObj 0 11 [(1%nat, bs "a", JStr 5 (bs "-128"))]) /\
   quoted_sound (bs "-128") /\ int_sound wC (NK true W8) (bs "-128") /\ int_number wC (NK true W8) (bs "-128") (-128)) /\
  (json_text (bs "{""a"":""+1""}") (JObj 0 9 [(1%nat, bs "a", JStr 5 (bs "+1"))]) /\
   quoted_sound (bs "+1") /\ int_sound wC (NK true W8) (bs "+1") /\ forall n, ~ int_number wC (NK true W8) (bs "+1") n) /\
  (json_text (bs "{""B"":""2.50""}") (JObj 0 11 [(1%nat, bs "B", JStr 5 (bs "2.50"))]) /\
   quoted_sound (bs "2.50") /\ json_number (bs "2.50") /\ round B32 (bs "2.50") = Some (FN 250 (-2) false)) /\
  (json_text (bs "{""B"":""1e99""}") (JObj 0 11 [(1%nat, bs "B", JStr 5 (bs "1e99"))]) /\
   quoted_sound (bs "1e99") /\ json_number (bs "1e99") /\ round B32 (bs "1e99") = None).
Proof.
  cbn zeta. split; [is_decoder|]. split; [exact sq_variable|]. split; [vm_compute; reflexivity|]. split; [vm_compute; reflexivity|].
  split; [apply (plain_strb_spec wC); vm_compute; reflexivity|]. split; [apply (plain_strb_spec wC); vm_compute; reflexivity|].
  repeat match goal with |- _ /\ _ => split end;
    try (apply parse_sound; vm_compute; reflexivity); try (apply quoted_soundb_spec; vm_compute; reflexivity);
    try (apply int_soundb_spec; vm_compute; reflexivity); try (apply is_num_spec; vm_compute; reflexivity); try (vm_compute; reflexivity).
  - split; [apply is_int_spec; vm_compute; reflexivity|]. split; [vm_compute; reflexivity|]. split; [apply in_rangeb_spec; vm_compute; reflexivity|discriminate].
  - intros n (J & _). apply is_int_spec in J. vm_compute in J. discriminate.
Qed.
Example C05_map_key_case :
  decoder_for wC plain_env false mu_ty mu_dt mu_stk (dyn0 mu_stk) /\
  (let key := bs "65535" in json_text (bs "{""65535"":""x""}") (JObj 0 12 [(1%nat, key, JStr 9 (bs "x"))]) /\
   quoted_sound key /\ int_sound wC (NK false W16) key /\ int_number wC (NK false W16) key 65535) /\
  (let key := bs "-1" in json_text (bs "{""-1"":""x""}") (JObj 0 9 [(1%nat, key, JStr 6 (bs "x"))]) /\
   quoted_sound key /\ int_sound wC (NK false W16) key /\ forall n, ~ int_number wC (NK false W16) key n) /\
  lag_of wC default_opts (DSc SStr) (JStr 9 (bs "x")) <> None /\ sound wC default_opts (DSc SStr) (JStr 9 (bs "x")) /\
  ideal wC default_opts [] (DSc SStr) (JStr 9 (bs "x")) (VStr (bs "old")) = VOk (VStr (bs "x")).
Proof.
  split; [is_decoder|]. cbn zeta. repeat match goal with |- _ /\ _ => split end;
    try (apply parse_sound; vm_compute; reflexivity); try (apply quoted_soundb_spec; vm_compute; reflexivity);
    try (apply int_soundb_spec; vm_compute; reflexivity); try (apply soundb_spec; vm_compute; reflexivity); try (vm_compute; reflexivity); try discriminate.
  - split; [apply is_int_spec; vm_compute; reflexivity|]. split; [vm_compute; reflexivity|]. split; [apply in_rangeb_spec; vm_compute; reflexivity|]. intros _ t H. discriminate.
  - intros n (_ & _ & _ & J). apply (J eq_refl (bs "1")). reflexivity.
Qed.

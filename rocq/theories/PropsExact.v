(** What Decode does on the documents for which the properties C03, C05, C08, C14, C15, C19,
    C22, C23, C24, C34 and C35 are false: the exact behaviour ([actual], Actual.v), without
    the condition [sound]. *)
From Verif Require Import Base NumSpec StrSpec JsonNum Atoi AtoiProofs AtoiAny Types AppendType Token FloatLit Heap Machine Dt Dec Control Root Elab Value Dval Sep Refine Spec Typed SpecProofs Main Parse World Elaborate PropsDecode PropsStruct PropsStrict Actual.
Open Scope Z_scope.

(** ** C15 *)
Theorem C15_characterised_partial C O E dis T d stk D s v a h g F :
  decoder_for C E dis T d stk D -> json_text s v -> ctl_root C O d v -> variable C d h a g F ->
  match actual C O s d v g with
  | VOk g' => exists D' h' F', Decode C O stk D s (TOk (flat 0 v)) (Some a) h = Ret (-1) None D' h' /\
      variable C d h' a g' F' /\ only h h' (Some a) (dsize (c_w64 C) d) F F'
  | VErr i e g' => exists D' h' F', Decode C O stk D s (TOk (flat 0 v)) (Some a) h = Ret (Z.of_nat i) (Some e) D' h' /\
      variable C d h' a g' F' /\ only h h' (Some a) (dsize (c_w64 C) d) F F'
  | VPan => Decode C O stk D s (TOk (flat 0 v)) (Some a) h = DPanics
  end.
Proof.
  intros Df J Ct V. rewrite <- (dval_actual C O s d v g (json_text_lexed _ _ J)).
  exact (C15_decode_is_recursive_partial C O E dis T d stk D s v a h g F Df J Ct V).
Qed.
(** No condition on the document at all, for the types of [any_document] (PropsStrict.v). *)
Theorem C15_characterised_every_document_partial C O E dis T d stk D s v a h g F :
  decoder_for C E dis T d stk D -> any_document O d = true -> json_text s v -> variable C d h a g F ->
  match actual C O s d v g with
  | VOk g' => exists D' h' F', Decode C O stk D s (TOk (flat 0 v)) (Some a) h = Ret (-1) None D' h' /\
      variable C d h' a g' F' /\ only h h' (Some a) (dsize (c_w64 C) d) F F'
  | VErr i e g' => exists D' h' F', Decode C O stk D s (TOk (flat 0 v)) (Some a) h = Ret (Z.of_nat i) (Some e) D' h' /\
      variable C d h' a g' F' /\ only h h' (Some a) (dsize (c_w64 C) d) F F'
  | VPan => Decode C O stk D s (TOk (flat 0 v)) (Some a) h = DPanics
  end.
Proof. intros Df A J V. exact (C15_characterised_partial C O E dis T d stk D s v a h g F Df J (any_ctl C O d A v) V). Qed.
(** Case: a document full of defective leaves. *)
(** struct { A int8; B [3]float64; C string; D int16 `,string` } *)
Definition odd_ty : ty := TStruct 1 56 [(fld0 "A" 0, tInt8); (fld0 "B" 8, TArr 3 (TFloat B64)); (fld0 "C" 32, TStr); (tagged "D" "D,string" 48, TInt (NK true W16))].
Definition odd_dt : dt := Eval vm_compute in match elab true plain_env false 50 [] odd_ty with Some (d, _) => d | None => DEmpty end.
Definition odd_stk : list frame := Eval vm_compute in stack_of plain_env odd_ty.
Definition odd_text : bytes := bs "{""A"":300,""B"":[-0,1.5],""C"":""\ud83d\ude00"",""D"":""65536""}".
Example C15_characterised_case :
  let v := tree_of odd_text in
  decoder_for wC plain_env false odd_ty odd_dt odd_stk (dyn0 odd_stk) /\ json_text odd_text v /\ ctl_root wC default_opts odd_dt v /\
  actual wC default_opts odd_text odd_dt v (VStruct [VInt 0; VArr [VFloat (FN 7 0 false); VFloat (FN 8 0 false); VFloat (FN 9 0 false)]; VStr []; VInt 5]) =
  VOk (VStruct [VInt 44; VArr [VFloat (FN 0 0 false); VFloat (FN 15 (-1) false); VFloat (FN 9 0 false)]; VStr [239; 191; 189; 239; 191; 189]; VInt 0]).
Proof.
  cbn zeta. split; [eapply new_decoder; [apply plain_env_sizes|vm_compute; reflexivity|vm_compute; reflexivity|vm_compute; reflexivity]|].
  split; [apply parse_sound; vm_compute; reflexivity|]. split; [apply ctl_rootb_spec; vm_compute; reflexivity|vm_compute; reflexivity].
Qed.

(** ** C14 *)
(** Every scalar document into every scalar variable. *)
Theorem C14_characterised C O E dis T x stk D s v a h g F :
  decoder_for C E dis T (DSc x) stk D -> json_text s v -> scalar_doc v = true -> variable C (DSc x) h a g F ->
  match act_sc C x v with
  | LSet g' => exists D' h' F', Decode C O stk D s (TOk (flat 0 v)) (Some a) h = Ret (-1) None D' h' /\
      variable C (DSc x) h' a g' F' /\ only h h' (Some a) (sc_size (c_w64 C) x) F F'
  | LKeep => exists D' h' F', Decode C O stk D s (TOk (flat 0 v)) (Some a) h = Ret (-1) None D' h' /\ variable C (DSc x) h' a g F'
  | LErr e => exists D', Decode C O stk D s (TOk (flat 0 v)) (Some a) h = Ret (Z.of_nat (jidx v)) (Some e) D' h
  | LPan => Decode C O stk D s (TOk (flat 0 v)) (Some a) h = DPanics
  end.
Proof.
  intros Df J Sd V. pose proof (C15_characterised_partial C O E dis T (DSc x) stk D s v a h g F Df J ltac:(discriminate) V) as Q.
  cbn [actual] in Q. destruct (act_sc C x v) as [g'| |e|]; cbn [lput] in Q.
  - destruct Q as (D' & h' & F' & Q & V' & Y). exists D', h', F'. auto.
  - destruct Q as (D' & h' & F' & Q & V' & Y). exists D', h', F'. auto.
  - destruct Q as (D' & h' & F' & Q & V' & Y). exists D'. rewrite Q. f_equal.
    pose proof (decoder_describes _ _ _ _ _ _ _ Df) as Ds. pose proof (used_rested _ _ _ _ Ds (df_used _ _ _ _ _ _ _ Df)) as Rd.
    pose proof (decode_dech C O stk s v (DSc x) D a h Ds Rd (json_text_lexed _ _ J) ltac:(discriminate)) as Q'.
    destruct (dech C O s (DSc x) v (Some a) h) as [h2|i2 e2 h2| |] eqn:Ed.
    + destruct Q' as (D2 & Q' & _). rewrite Q in Q'. discriminate.
    + destruct Q' as (D2 & Q' & _). rewrite Q in Q'. injection Q' as _ _ _ ->. apply (scalar_error_same _ _ _ _ _ _ _ _ _ _ Ed Sd).
    + rewrite Q in Q'. discriminate.
    + rewrite Q in Q'. discriminate.
  - exact Q.
Qed.

(** ** C03 *)
(** An integer document into a variable of any integer type: the four cases. *)
Theorem C03_decode_characterised C O E dis T k stk D s i r a h g F :
  decoder_for C E dis T (DSc (SInt k)) stk D -> json_text s (JInt i r) -> variable C (DSc (SInt k)) h a g F ->
  let call := Decode C O stk D s (TOk (flat 0 (JInt i r))) (Some a) h in
  let K := kind_of C k in
  let z := int_value r in
  (nk_signed k = false -> (exists t, r = 45 :: t) -> exists D', call = Ret (Z.of_nat i) (Some EUnexpected) D' h) /\
  ((nk_signed k = false -> forall t, r <> 45 :: t) ->
   (in_range K z -> exists D' h' F', call = Ret (-1) None D' h' /\ variable C (DSc (SInt k)) h' a (VInt z) F') /\
   (narrow C k = true -> wraps_silently K (digits_of C k) z ->
      exists D' h' F', call = Ret (-1) None D' h' /\ variable C (DSc (SInt k)) h' a (VInt (wrap K z)) F' /\ wrap K z <> z) /\
   (~ in_range K z -> ~ (narrow C k = true /\ wraps_silently K (digits_of C k) z) ->
      exists D', call = Ret (Z.of_nat i) (Some EOverflow) D' h)).
Proof.
  intros Df J V call K z. pose proof (C14_characterised C O E dis T (SInt k) stk D s (JInt i r) a h g F Df J eq_refl V) as Q.
  cbn [act_sc] in Q. unfold act_int in Q. fold K z in Q. fold call in Q.
  assert (Ng : neg r = true <-> exists t, r = 45 :: t).
  { destruct r as [|c r]; cbn; [split; [discriminate|intros [t [=]]]|]. destruct (Z.eqb_spec c 45) as [->|N]; [split; [eauto|reflexivity]|split; [discriminate|intros [t [= -> _]]; congruence]]. }
  split.
  - intros Sg Hm. apply Ng in Hm. rewrite Sg, Hm in Q. exact Q.
  - intros Hm. assert (E1 : negb (nk_signed k) && neg r = false).
    { destruct (nk_signed k); [reflexivity|]. cbn. destruct (neg r) eqn:En; [|reflexivity]. destruct (proj1 Ng eq_refl) as [t Et]. exfalso. exact (Hm eq_refl t Et). }
    rewrite E1 in Q. split; [|split].
    + intros R. apply in_rangeb_spec in R. rewrite R in Q. destruct Q as (D' & h' & F' & Q & V' & _). eauto.
    + intros Nw Ws. pose proof Ws as [R _]. assert (Rb : in_rangeb K z = false) by (rewrite <- in_rangeb_spec in R; destruct (in_rangeb K z); congruence). rewrite Rb in Q.
      rewrite (proj2 (wrapsb_spec C k z) (conj Nw Ws)) in Q. destruct Q as (D' & h' & F' & Q & V' & _). exists D', h', F'. split; [exact Q|]. split; [exact V'|].
      intros W. apply R. rewrite <- W. unfold narrow in Nw. apply andb_prop in Nw as [Sg Wd]. assert (P : 1 <= ik_width K) by (unfold K, kind_of; cbn; destruct (nk_w k); cbn; try destruct (c_w64 C); cbn; lia).
      assert (Sk : ik_signed K = true) by exact Sg. unfold wrap, in_range, imin, imax. rewrite Sk.
      pose proof (two_pow_split (ik_width K) P) as Tp. pose proof (Z.pow_pos_nonneg 2 (ik_width K - 1) ltac:(lia) ltac:(lia)). pose proof (Z.mod_pos_bound z (2 ^ ik_width K) ltac:(lia)).
      cbv zeta. cbn [andb]. destruct (Z.leb_spec (2 ^ (ik_width K - 1)) (z mod 2 ^ ik_width K)); lia.
    + intros R Nw. assert (Rb : in_rangeb K z = false) by (rewrite <- in_rangeb_spec in R; destruct (in_rangeb K z); congruence). rewrite Rb in Q.
      assert (Wb : wrapsb C k z = false) by (destruct (wrapsb C k z) eqn:Ew; [exfalso; apply Nw, wrapsb_spec, Ew|reflexivity]). rewrite Wb in Q. exact Q.
Qed.
Example C03_decode_case : let k := NK true W8 in
  narrow wC k = true /\ wraps_silently (kind_of wC k) (digits_of wC k) (int_value (bs "300")) /\ wrap (kind_of wC k) 300 = 44 /\
  ~ in_range (kind_of wC k) 200 /\ ~ wraps_silently (kind_of wC k) (digits_of wC k) 200.
Proof.
  cbn zeta. split; [reflexivity|]. split; [split; [vm_compute; intros [_ H]; apply H; reflexivity|vm_compute; repeat split; congruence]|]. split; [reflexivity|].
  split; [vm_compute; intros [_ H]; apply H; reflexivity|]. intros (_ & _ & H & _). specialize (H ltac:(lia)). vm_compute in H. apply H; reflexivity.
Qed.

(** ** C08 *)
(** A string document into a string variable: the concatenation of the meanings of the
    literal bytes and escapes, each taken on its own. *)
Theorem C08_decode_characterised C O E dis T stk D s i r l a h g F :
  decoder_for C E dis T (DSc SStr) stk D -> json_text s (JStr i r) -> body r l -> Forall lit_ok l -> variable C (DSc SStr) h a g F ->
  exists D' h' F', Decode C O stk D s (TOk (flat 0 (JStr i r))) (Some a) h = Ret (-1) None D' h' /\
    variable C (DSc SStr) h' a (VStr (meaning_units l)) F' /\
    (meaning_units l = meaning l \/ ~ pair_free l).
Proof.
  intros Df J B Lo V. pose proof (C14_characterised C O E dis T SStr stk D s (JStr i r) a h g F Df J eq_refl V) as Q.
  cbn [act_sc] in Q. rewrite (units_text_spec r l B Lo) in Q. destruct Q as (D' & h' & F' & Q & V' & _). exists D', h', F'. split; [exact Q|]. split; [exact V'|].
  destruct (list_eq_dec Z.eq_dec (meaning_units l) (meaning l)) as [Eq|N]; [left; exact Eq|right]. intros P. apply N. symmetry. apply UnescapeProofs.meaning_pair_free, P.
Qed.

(** ** C34 *)
(** -0 into a float variable: +0, the value encoding/json gives is -0. *)
Theorem C34_minus_zero_characterised C O E dis T b stk D s i a h g F :
  decoder_for C E dis T (DSc (SFloat b)) stk D -> json_text s (JInt i [45; 48]) -> variable C (DSc (SFloat b)) h a g F ->
  exists D' h' F', Decode C O stk D s (TOk (flat 0 (JInt i [45; 48]))) (Some a) h = Ret (-1) None D' h' /\
    variable C (DSc (SFloat b)) h' a (VFloat (FN 0 0 false)) F' /\ round b [45; 48] = Some (FN 0 0 true).
Proof.
  intros Df J V. pose proof (C14_characterised C O E dis T (SFloat b) stk D s _ a h g F Df J eq_refl V) as Q.
  cbn [act_sc] in Q. unfold act_float in Q. cbn in Q. destruct Q as (D' & h' & F' & Q & V' & _). exists D', h', F'. split; [exact Q|]. split; [exact V'|]. destruct b; reflexivity.
Qed.

(** ** C24 *)
(** Every document into an [any]. *)
Theorem C24_characterised C O E dis T stk D s v a h g F :
  decoder_for C E dis T (DSc SAny) stk D -> json_text s v -> variable C (DSc SAny) h a g F ->
  match act_generic v with
  | Some x => exists D' h' F', Decode C O stk D s (TOk (flat 0 v)) (Some a) h = Ret (-1) None D' h' /\ variable C (DSc SAny) h' a (VAny x) F'
  | None => exists e D' h' F', Decode C O stk D s (TOk (flat 0 v)) (Some a) h = Ret (Z.of_nat (jidx v)) (Some e) D' h' /\ variable C (DSc SAny) h' a g F' /\ ~ numbers_fit v
  end.
Proof.
  intros Df J V. pose proof (C15_characterised_partial C O E dis T (DSc SAny) stk D s v a h g F Df J ltac:(discriminate) V) as Q. cbn [actual] in Q.
  assert (Sc : act_sc C SAny v = match act_generic v with Some x => LSet (VAny x) | None => LErr (match v with JInt _ _ | JNum _ _ => EParse | _ => EUnexpected end) end).
  { destruct v; cbn; try reflexivity; destruct (round B64 raw); reflexivity. }
  rewrite Sc in Q. destruct (act_generic v) as [x|] eqn:Eg; cbn [lput] in Q; destruct Q as (D' & h' & F' & Q & V' & _); [eauto|].
  eexists _, D', h', F'. split; [exact Q|]. split; [exact V'|]. intros N. clear - Eg N.
  revert N Eg. induction v as [i|i b|i r|i r|i r|i j l IH|i j l IH] using jv_ind'; cbn [numbers_fit act_generic]; intros N; try discriminate.
  - unfold round. destruct (num_value r). rewrite N. discriminate.
  - unfold round. destruct (num_value r). rewrite N. discriminate.
  - match goal with |- option_map NArr ?X = None -> _ => enough (G : X <> None) by (destruct X; [discriminate|congruence]) end.
    induction l as [|x l IHl]; [discriminate|]. inversion IH as [|? ? P1 P2]; subst. destruct N as [N1 N2]. specialize (P1 N1). specialize (IHl P2 N2).
    destruct (act_generic x); [|congruence]. match type of IHl with ?X <> None => destruct X; [discriminate|congruence] end.
  - match goal with |- option_map NObj ?X = None -> _ => enough (G : X <> None) by (destruct X; [discriminate|congruence]) end.
    generalize (@nil (bytes * jany)). induction l as [|x l IHl]; intros acc; [discriminate|]. inversion IH as [|? ? P1 P2]; subst. destruct N as [N1 N2]. specialize (P1 N1).
    destruct (act_generic (snd x)) as [y|]; [|congruence]. apply IHl; assumption.
Qed.
(** Without surrogate pairs this is the generic value. *)
Lemma act_generic_plain s v : lexed s v -> plain_all v -> act_generic v = generic v.
Proof.
  intros L P. rewrite <- (nany_generic wC s v L P). symmetry. exact (act_nany wC s v L).
Qed.
Example C24_characterised_case :
  let s := bs "{""a"":""\ud83d\ude00""}" in
  json_text s (tree_of s) /\ act_generic (tree_of s) = Some (NObj [(bs "a", NStr [239; 191; 189; 239; 191; 189])]) /\
  generic (tree_of s) = Some (NObj [(bs "a", NStr [240; 159; 152; 128])]).
Proof. cbn zeta. split; [apply parse_sound; vm_compute; reflexivity|]. split; vm_compute; reflexivity. Qed.

(** ** C22 *)
(** An array document of any length into [n]T: on success the k-th element is the k-th
    element of the document decoded into its old value, and elements for which the
    document has none keep their value (C22 wants them zero); the first failing element
    stops the call. *)
Theorem C22_characterised_partial C O E dis T n t stk D s i j l a h gs F :
  decoder_for C E dis T (DArr n t) stk D -> json_text s (JArr i j l) ->
  ctl_root C O (DArr n t) (JArr i j l) -> variable C (DArr n t) h a (VArr gs) F ->
  let call := Decode C O stk D s (TOk (flat 0 (JArr i j l))) (Some a) h in
  (exists k x g, (k < n)%nat /\ nth_error l k = Some x /\ nth_error gs k = Some g /\ actual C O s t x g = VPan /\ call = DPanics) \/
  exists gs' D' h' F',
    variable C (DArr n t) h' a (VArr gs') F' /\ only h h' (Some a) (Z.of_nat n * dsize (c_w64 C) t) F F' /\ length gs' = n /\
    ((call = Ret (-1) None D' h' /\
      (forall k x, (k < n)%nat -> nth_error l k = Some x ->
        exists g g', nth_error gs k = Some g /\ nth_error gs' k = Some g' /\ actual C O s t x g = VOk g') /\
      (forall k, (length l <= k)%nat -> nth_error gs' k = nth_error gs k)) \/
     (exists k x g idx e g', (k < n)%nat /\ nth_error l k = Some x /\ nth_error gs k = Some g /\ nth_error gs' k = Some g' /\
      actual C O s t x g = VErr idx e g' /\
      call = Ret (Z.of_nat idx) (Some e) D' h' /\
      (forall k' x, (k' < k)%nat -> nth_error l k' = Some x ->
        exists g g', nth_error gs k' = Some g /\ nth_error gs' k' = Some g' /\ actual C O s t x g = VOk g') /\
      (forall k', (k < k')%nat -> nth_error gs' k' = nth_error gs k'))).
Proof.
  intros Df J Ct V call. pose proof V as [R _]. pose proof (rep_typed _ _ _ _ _ _ R) as Ty.
  pose proof (C15_characterised_partial C O E dis T (DArr n t) stk D s _ a h (VArr gs) F Df J Ct V) as Q. fold call in Q.
  cbn [typed] in Ty. destruct Ty as [Lg _].
  assert (G : forall l gs, (length l <= length gs)%nat -> match elemsv (actual C O s t) l gs with
    | VOk gs' => length gs' = length gs /\ (forall k x, nth_error l k = Some x -> exists g g', nth_error gs k = Some g /\ nth_error gs' k = Some g' /\ actual C O s t x g = VOk g') /\
        (forall k, (length l <= k)%nat -> nth_error gs' k = nth_error gs k)
    | VErr idx e gs' => length gs' = length gs /\ exists k x g g', nth_error l k = Some x /\ nth_error gs k = Some g /\ nth_error gs' k = Some g' /\ actual C O s t x g = VErr idx e g' /\
        (forall k' x, (k' < k)%nat -> nth_error l k' = Some x -> exists g g', nth_error gs k' = Some g /\ nth_error gs' k' = Some g' /\ actual C O s t x g = VOk g') /\
        (forall k', (k < k')%nat -> nth_error gs' k' = nth_error gs k')
    | VPan => exists k x g, nth_error l k = Some x /\ nth_error gs k = Some g /\ actual C O s t x g = VPan end).
  { clear. induction l as [|x l IH]; intros gs Hl; [cbn; split; [reflexivity|]; split; [intros [|k] x; discriminate|reflexivity]|]. destruct gs as [|g gs]; [cbn in Hl; lia|]. cbn [elemsv].
    destruct (actual C O s t x g) as [g'|i e g'|] eqn:Ex.
    - specialize (IH gs ltac:(cbn in Hl; lia)). destruct (elemsv (actual C O s t) l gs) as [gs'|i e gs'|]; cbn [vmap].
      + destruct IH as (L1 & IH & IH2). split; [cbn; congruence|]. split.
        * intros [|k] y Hy; [injection Hy as <-; exists g, g'; auto|apply IH, Hy].
        * intros [|k] Hk; [cbn in Hk; lia|]. apply IH2. cbn in Hk. lia.
      + destruct IH as (L1 & k & y & g1 & g2 & H1 & H2 & H3 & H4 & H5 & H6). split; [cbn; congruence|]. exists (S k), y, g1, g2. repeat (split; [assumption|]). split.
        * intros [|k'] z Hk Hz; [injection Hz as <-; exists g, g'; auto|apply H5; [lia|exact Hz]].
        * intros [|k'] Hk; [lia|apply H6; lia].
      + destruct IH as (k & y & g1 & H1 & H2 & H3). exists (S k), y, g1. auto.
    - split; [reflexivity|]. exists 0%nat, x, g, g'. repeat (split; [reflexivity || assumption|]). split; [intros k' z Hk; lia|]. intros [|k'] Hk; [lia|reflexivity].
    - exists 0%nat, x, g. auto. }
  assert (Nth : forall k x, (k < n)%nat -> nth_error l k = Some x -> nth_error (firstn n l) k = Some x).
  { clear. revert n. induction l as [|y l IH]; intros n k x Hk Hx; [destruct k; discriminate|]. destruct n; [lia|]. destruct k; [exact Hx|]. cbn. apply IH; [lia|exact Hx]. }
  assert (Nth' : forall k x, nth_error (firstn n l) k = Some x -> (k < n)%nat /\ nth_error l k = Some x).
  { clear. revert n. induction l as [|y l IH]; intros n k x Hx; [rewrite firstn_nil in Hx; destruct k; discriminate|]. destruct n; [destruct k; discriminate|].
    destruct k; [split; [lia|exact Hx]|]. cbn in Hx. destruct (IH n k x Hx). split; [lia|assumption]. }
  specialize (G (firstn n l) gs ltac:(rewrite firstn_length; lia)). cbn [actual] in Q.
  destruct (elemsv (actual C O s t) (firstn n l) gs) as [gs'|idx e gs'|]; cbn [vmap] in Q.
  - right. destruct G as (L1 & G & G2).
    destruct Q as (D' & h' & F' & Q & V' & Y). exists gs', D', h', F'. split; [exact V'|]. split; [exact Y|]. split; [congruence|]. left. split; [exact Q|]. split.
    + intros k x Hk Hx. apply G, Nth; assumption.
    + intros k Hk. apply G2. rewrite firstn_length. lia.
  - right. destruct G as (L1 & k & x & g & g' & H1 & H2 & H3 & H4 & H5 & H6). destruct (Nth' _ _ H1) as [Hk Hx].
    destruct Q as (D' & h' & F' & Q & V' & Y). exists gs', D', h', F'. split; [exact V'|]. split; [exact Y|]. split; [congruence|]. right.
    exists k, x, g, idx, e, g'. repeat (split; [assumption|]). split; [|exact H6]. intros k' y Hk' Hy. apply H5; [exact Hk'|]. apply Nth; [lia|exact Hy].
  - left. destruct G as (k & x & g & H1 & H2 & H3). destruct (Nth' _ _ H1) as [Hk Hx]. exists k, x, g. auto.
Qed.

(** ** C23: map[string]string *)
(** The value a list of members gives to a key: that of the last member with this text;
    null gives the empty string. *)
Definition given (l : list ((nat * bytes) * jv)) (key : bytes) : option bytes :=
  fold_left (fun acc x => if bytes_eqb (units_text (snd (fst x))) key
                          then Some (match snd x with JStr _ t => units_text t | _ => [] end) else acc) l None.
Fixpoint find_key (m : list (bytes * bytes)) (key : bytes) : option bytes :=
  match m with [] => None | (k, v) :: r => if bytes_eqb k key then Some v else find_key r key end.
Definition string_or_null (v : jv) : bool := match v with JStr _ _ | JNull _ => true | _ => false end.
Lemma find_put m k v key : find_key (nassoc_put m k v) key = if bytes_eqb k key then Some v else find_key m key.
Proof.
  induction m as [|[k' v'] m IH]; cbn; [reflexivity|]. destruct (bytes_eqb k' k) eqn:E; cbn.
  - apply bytes_eqb_eq in E as ->. destruct (bytes_eqb k key); reflexivity.
  - rewrite IH. destruct (bytes_eqb k' key) eqn:E1; [|reflexivity]. apply bytes_eqb_eq in E1 as ->. destruct (bytes_eqb k key) eqn:E2; [|reflexivity].
    apply bytes_eqb_eq in E2 as ->. rewrite (proj2 (bytes_eqb_eq key key) eq_refl) in E. discriminate.
Qed.
Lemma act_mss_spec l : forall acc,
  match act_mss l acc with
  | inl m => Forall (fun x => string_or_null (snd x) = true) l /\
             (forall key, find_key m key = fold_left (fun acc x => if bytes_eqb (units_text (snd (fst x))) key
                          then Some (match snd x with JStr _ t => units_text t | _ => [] end) else acc) l (find_key acc key))
  | inr (i, e) => e = EUnexpected /\ exists l1 x l2, l = l1 ++ x :: l2 /\ Forall (fun x => string_or_null (snd x) = true) l1 /\ string_or_null (snd x) = false /\ i = jidx (snd x)
  end.
Proof.
  induction l as [|[[p k] v] l IH]; intros acc; cbn [act_mss]; [split; [constructor|reflexivity]|].
  assert (Go : forall b, string_or_null v = true -> match v with JStr _ t => units_text t | _ => [] end = b ->
    match act_mss l (nassoc_put acc (units_text k) b) with
  | inl m => Forall (fun x => string_or_null (snd x) = true) ((p, k, v) :: l) /\
             (forall key, find_key m key = fold_left (fun acc x => if bytes_eqb (units_text (snd (fst x))) key
                          then Some (match snd x with JStr _ t => units_text t | _ => [] end) else acc) ((p, k, v) :: l) (find_key acc key))
  | inr (i, e) => e = EUnexpected /\ exists l1 x l2, (p, k, v) :: l = l1 ++ x :: l2 /\ Forall (fun x => string_or_null (snd x) = true) l1 /\ string_or_null (snd x) = false /\ i = jidx (snd x)
  end).
  { intros b Sn Eb. specialize (IH (nassoc_put acc (units_text k) b)). destruct (act_mss l _) as [m|[i e]].
    - destruct IH as [F1 F2]. split; [constructor; assumption|]. intros key. rewrite F2, find_put. cbn [fold_left fst snd]. rewrite Eb. reflexivity.
    - destruct IH as (-> & l1 & x & l2 & -> & F1 & F2 & F3). split; [reflexivity|]. exists ((p, k, v) :: l1), x, l2. split; [reflexivity|]. split; [constructor; assumption|]. auto. }
  destruct v; try (apply Go; reflexivity); (split; [reflexivity|]); eexists [], _, l; (split; [reflexivity|]); (split; [constructor|]); (split; reflexivity).
Qed.
(** An object into a map[string]string: if all its members are strings or null the new map
    has exactly the members of the document (the entries it had before are gone, where C23
    wants them kept); otherwise the error is reported at the first other member and the
    variable is as it was. *)
Theorem C23_string_map_characterised C O E dis T stk D s i j l a h g F :
  decoder_for C E dis T DMSS stk D -> json_text s (JObj i j l) -> variable C DMSS h a g F ->
  let call := Decode C O stk D s (TOk (flat 0 (JObj i j l))) (Some a) h in
  (Forall (fun x => string_or_null (snd x) = true) l /\
   exists m D' h' F', call = Ret (-1) None D' h' /\ variable C DMSS h' a (VMSS (Some m)) F' /\ forall key, find_key m key = given l key) \/
  (exists l1 x l2 D' h' F', l = l1 ++ x :: l2 /\ Forall (fun x => string_or_null (snd x) = true) l1 /\ string_or_null (snd x) = false /\
   call = Ret (Z.of_nat (jidx (snd x))) (Some EUnexpected) D' h' /\ variable C DMSS h' a g F').
Proof.
  intros Df J V call. pose proof (C15_characterised_partial C O E dis T DMSS stk D s _ a h g F Df J ltac:(discriminate) V) as Q. fold call in Q. cbn [actual] in Q.
  pose proof (act_mss_spec l []) as M. destruct (act_mss l []) as [m|[p e]].
  - left. destruct M as [M1 M2]. split; [exact M1|]. destruct Q as (D' & h' & F' & Q & V' & _). exists m, D', h', F'. split; [exact Q|]. split; [exact V'|]. exact M2.
  - right. destruct M as (-> & l1 & x & l2 & El & M1 & M2 & ->). destruct Q as (D' & h' & F' & Q & V' & _). exists l1, x, l2, D', h', F'. auto 10.
Qed.
Definition mss_stk : list frame := Eval vm_compute in stack_of plain_env (TMap TStr TStr).
Example C23_string_map_case :
  let s := bs "{""b"":""y"",""c"":null,""b"":""z""}" in
  let v := tree_of s in
  decoder_for wC plain_env false (TMap TStr TStr) DMSS mss_stk (dyn0 mss_stk) /\ json_text s v /\
  match v with JObj _ _ l => given l (bs "b") = Some (bs "z") /\ given l (bs "c") = Some [] /\ given l (bs "a") = None | _ => False end.
Proof.
  cbn zeta. split; [eapply new_decoder; [apply plain_env_sizes|vm_compute; reflexivity|vm_compute; reflexivity|vm_compute; reflexivity]|].
  split; [apply parse_sound; vm_compute; reflexivity|]. vm_compute. auto.
Qed.

(** ** C35 *)
(** What null does to a variable of any type. *)
Theorem C35_characterised C O E dis T d stk D s i a h g F :
  decoder_for C E dis T d stk D -> json_text s (JNull i) -> variable C d h a g F ->
  match d with
  | DSlice DEmpty => exists D' h' F', Decode C O stk D s (TOk (flat 0 (JNull i))) (Some a) h = Ret (-1) None D' h' /\ variable C d h' a g F'
  | DJson id z => (* UnmarshalJSON gets the four bytes *)
      exists D' h' F', variable C d h' a (VUser (if z <=? 0 then [] else fst (c_uj C id (as_userv g) (bs "null")))) F' /\
      Decode C O stk D s (TOk (flat 0 (JNull i))) (Some a) h =
        match snd (c_uj C id (as_userv g) (bs "null")) with None => Ret (-1) None D' h' | Some c => Ret (Z.of_nat i) (Some (EUser c)) D' h' end
  | _ => exists D' h' F', Decode C O stk D s (TOk (flat 0 (JNull i))) (Some a) h = Ret (-1) None D' h' /\ variable C d h' a (null_value d g) F'
  end.
Proof.
  intros Df J V.
  assert (Ct : ctl_root C O d (JNull i)) by (destruct d; cbn; try exact I; try destruct (fast_et d); discriminate).
  pose proof (C15_characterised_partial C O E dis T d stk D s _ a h g F Df J Ct V) as Q.
  assert (Gen : null_special d = false -> exists D' h' F', Decode C O stk D s (TOk (flat 0 (JNull i))) (Some a) h = Ret (-1) None D' h' /\ variable C d h' a (null_value d g) F')
    by (intros N; exact (C35_null_partial C O E dis T d stk D s i a h g F Df J N V)).
  destruct d as [x|id z|id z| |n t| |t|k t| |t|z fs]; try (apply Gen; reflexivity).
  - cbn [actual] in Q. unfold userv in Q.
    assert (Src : source s (JNull i) = bs "null").
    { pose proof (json_text_lexed _ _ J) as L. cbn [lexed] in L. unfold occurs, slice in L. unfold source. cbn [jend jidx]. destruct (_ && _); [|discriminate]. injection L as L. exact L. }
    rewrite Src in Q. destruct (c_uj C id (as_userv g) (bs "null")) as [new [c|]]; cbn [fst snd] in *; destruct Q as (D' & h' & F' & Q & V' & _); exists D', h', F'; auto.
  - destruct t; try (apply Gen; reflexivity). cbn [actual] in Q. destruct Q as (D' & h' & F' & Q & V' & _). eauto.
Qed.

(** ** C19: struct{} *)
(** Every object is accepted by struct{}, whatever its members and the options (C19 wants the
    first member to be an error with DisallowUnknownFields); nothing is written. *)
Theorem C19_empty_struct_characterised C O E dis T stk D s i j l a h F :
  decoder_for C E dis T DEmpty stk D -> json_text s (JObj i j l) -> variable C DEmpty h a (VStruct []) F ->
  exists D' h' F', Decode C O stk D s (TOk (flat 0 (JObj i j l))) (Some a) h = Ret (-1) None D' h' /\ variable C DEmpty h' a (VStruct []) F' /\
    only h h' (Some a) 0 F F'.
Proof. intros Df J V. exact (C15_characterised_partial C O E dis T DEmpty stk D s _ a h _ F Df J ltac:(discriminate) V). Qed.

(** ** C05: fields with the `string` option and integer map keys *)
Lemma act_int_text_junk C k r p t : longest_viable r p t -> json_int p -> t <> [] ->
  act_int_text C k r = Some (match (if negb (nk_signed k) && neg r then None else any_digits (kind_of C k) r) with Some n => inl n | None => inr EUnexpected end).
Proof.
  intros Lv Jp Nt. assert (St : starts_int r = true) by (apply starts_int_spec; eauto).
  assert (Ni : is_int r = false).
  { destruct (is_int r) eqn:Ei; [|reflexivity]. apply is_int_spec in Ei. exfalso. apply Nt. destruct Lv as (E & _ & Mx).
    specialize (Mx r [] (eq_sym (app_nil_r r)) ltac:(exists []; rewrite app_nil_r; left; exact Ei)).
    apply (f_equal (@length _)) in E. rewrite app_length in E. destruct t; [reflexivity|cbn in E; lia]. }
  unfold act_int_text. rewrite Ni, St. destruct r; [discriminate Ni || discriminate St|]. destruct (_ && _); [reflexivity|]. destruct (any_digits _ _); reflexivity.
Qed.
(** Every string for an integer field with the option, in a document with one member: the
    five cases.  An integer followed by other bytes is not refused: every byte is taken as
    a digit ([any_digits], AtoiAny.v). *)
Theorem C05_string_option_characterised C O E dis T z fs stk D s i j ki key vi r q nm k a h gs F :
  decoder_for C E dis T (DStruct z fs) stk D -> json_text s (JObj i j [(ki, key, JStr vi r)]) ->
  act_field_for C O fs key = Some q -> nth_error fs q = Some (nm, DSc (SIntQ k)) -> variable C (DStruct z fs) h a (VStruct gs) F ->
  let call := Decode C O stk D s (TOk (flat 0 (JObj i j [(ki, key, JStr vi r)]))) (Some a) h in
  (r = [] -> call = DPanics) /\
  (forall n, json_int r -> act_int C k r = LSet (VInt n) ->
     exists D' h' F', call = Ret (-1) None D' h' /\ variable C (DStruct z fs) h' a (VStruct (set_nth gs q (VInt n))) F') /\
  (json_int r -> (forall n, act_int C k r <> LSet (VInt n)) ->
     exists D' h' F', call = Ret (Z.of_nat vi) (Some EUnexpected) D' h' /\ variable C (DStruct z fs) h' a (VStruct gs) F') /\
  (r <> [] -> (forall p t, longest_viable r p t -> ~ json_int p) ->
     exists D' h' F', call = Ret (Z.of_nat vi) (Some EUnexpected) D' h' /\ variable C (DStruct z fs) h' a (VStruct gs) F') /\
  (forall p t, longest_viable r p t -> json_int p -> t <> [] ->
     match (if negb (nk_signed k) && neg r then None else any_digits (kind_of C k) r) with
     | Some n => exists D' h' F', call = Ret (-1) None D' h' /\ variable C (DStruct z fs) h' a (VStruct (set_nth gs q (VInt n))) F'
     | None => exists D' h' F', call = Ret (Z.of_nat vi) (Some EUnexpected) D' h' /\ variable C (DStruct z fs) h' a (VStruct gs) F'
     end).
Proof.
  intros Df J Hf Hy V call.
  assert (Nm : @nth_error vdec (@map _ vdec (fun x => actual C O s (snd x)) fs) q = Some (actual C O s (DSc (SIntQ k)))) by (rewrite nth_error_map, Hy; reflexivity).
  assert (Hg : exists g, nth_error gs q = Some g).
  { destruct V as [R _]. apply rep_typed in R. apply typed_struct in R as (gs' & [= <-] & R). clear - R Hy. revert gs q Hy R.
    induction fs as [|x fs IH]; intros gs [|q] Hy R; try discriminate Hy; destruct gs as [|g gs]; try (destruct R; fail); cbn [nth_error] in *; [eauto|].
    destruct R as [_ R]. eapply IH; eassumption. }
  destruct Hg as (g & Hg).
  pose proof (json_text_lexed _ _ J) as L. apply lexed_obj in L as (_ & _ & _ & L). apply Forall_cons_iff in L as [[Lk _] _].
  assert (B : string_body key) by apply Lk.
  assert (Ct : ctl_root C O (DStruct z fs) (JObj i j [(ki, key, JStr vi r)])).
  { cbn [ctl_root map]. rewrite lags_one. unfold member_lag. cbn [fst snd].
    replace (key_of O key) with (act_key_text O key).
    2:{ unfold act_key_text, key_of, unesc. destruct (o_nounescape O); [reflexivity|]. rewrite <- (txt_units key B). unfold txt. destruct (Unescape.Valid key); reflexivity. }
    unfold act_field_for in Hf. rewrite Hf, nth_error_map, Hy. discriminate. }
  pose proof (C15_characterised_partial C O E dis T (DStruct z fs) stk D s _ a h _ F Df J Ct V) as Q. fold call in Q.
  change (actual C O s (DStruct z fs) (JObj i j [(ki, key, JStr vi r)]) (VStruct gs)) with
    (vmap VStruct (ideal_members O (act_field_for C O fs) (map (fun x => actual C O s (snd x)) fs) [(ki, key, JStr vi r)] gs)) in Q.
  cbn [ideal_members] in Q. rewrite Hf in Q. unfold vdec in *. rewrite Nm in Q. rewrite Hg in Q. cbn [actual act_sc jidx] in Q.
  assert (Same : set_nth gs q g = gs) by (clear - Hg; revert q Hg; induction gs as [|y gs IH]; intros [|q] H; cbn in *; try discriminate; [congruence|f_equal; apply IH, H]).
  split; [|split; [|split; [|split]]].
  - intros ->. exact Q.
  - intros n Jr Er. destruct r as [|c r0]; [exfalso; apply is_int_spec in Jr; discriminate|]. unfold act_int_text in Q. rewrite (proj2 (is_int_spec _) Jr), Er in Q.
    cbn [lput vmap] in Q. destruct Q as (D' & h' & F' & Q & V' & _). eauto.
  - intros Jr Er. destruct r as [|c r0]; [exfalso; apply is_int_spec in Jr; discriminate|]. unfold act_int_text in Q. rewrite (proj2 (is_int_spec _) Jr) in Q.
    destruct (act_int C k (c :: r0)) as [g'| |e|] eqn:Ea; [destruct g'; try (exfalso; eapply Er; reflexivity)| | |];
      cbn [lput vmap] in Q; rewrite Same in Q; destruct Q as (D' & h' & F' & Q & V' & _); eauto.
  - intros N Np. assert (St : starts_int r = false).
    { destruct (starts_int r) eqn:Es; [|reflexivity]. apply starts_int_spec in Es as (p & t & Lv & Jp). exfalso. exact (Np p t Lv Jp). }
    destruct r as [|c r0]; [congruence|]. unfold act_int_text in Q.
    destruct (is_int (c :: r0)) eqn:Ei. { unfold is_int in Ei. unfold starts_int in St. destruct (ReadNumber (c :: r0)) as [[[|x y] []]|]; discriminate. }
    rewrite St in Q. cbn [lput vmap] in Q. rewrite Same in Q. destruct Q as (D' & h' & F' & Q & V' & _). eauto.
  - intros p t Lv Jp Nt. rewrite (act_int_text_junk C k r p t Lv Jp Nt) in Q.
    destruct (if _ && _ then None else any_digits _ _) as [n|]; cbn [lput vmap] in Q; [|rewrite Same in Q];
      destruct Q as (D' & h' & F' & Q & V' & _); eauto.
Qed.
Example C05_string_option_characterised_case :
  nth_error (match odd_dt with DStruct _ fs => fs | _ => [] end) 3 = Some ((bs "D", 48), DSc (SIntQ (NK true W16))) /\
  act_field_for wC default_opts (match odd_dt with DStruct _ fs => fs | _ => [] end) (bs "d") = Some 3%nat /\
  act_int wC (NK true W16) (bs "65536") = LSet (VInt 0) /\ act_int wC (NK true W16) (bs "40000") = LErr EOverflow.
Proof. repeat split; vm_compute; reflexivity. Qed.
(** Case: int16 fields with the option accept "12x" (as 192: 'x' is the digit 72) and "-7 "
    (as -310); a byte field refuses "300x". *)
Lemma junk_case r : starts_int r = true -> is_int r = false -> exists p t, longest_viable r p t /\ json_int p /\ t <> [].
Proof.
  intros St Ni. apply starts_int_spec in St as (p & t & Lv & J). exists p, t. repeat split; try assumption; try apply Lv.
  intros ->. destruct Lv as (E & _). rewrite app_nil_r in E. subst r. apply is_int_spec in J. congruence.
Qed.
Example C05_string_option_junk_case :
  Forall (fun r => exists p t, longest_viable r p t /\ json_int p /\ t <> []) [bs "12x"; bs "-7 "; bs "300x"] /\
  any_digits (kind_of wC (NK true W16)) (bs "12x") = Some 192 /\ any_digits (kind_of wC (NK true W16)) (bs "-7 ") = Some (-310) /\
  any_digits (kind_of wC (NK false W8)) (bs "300x") = None.
Proof. split; [repeat constructor; apply junk_case; vm_compute; reflexivity|]. repeat split; vm_compute; reflexivity. Qed.

(** A key of a map with integer keys, in a document with one member. *)
Theorem C05_map_key_characterised C O E dis T k t stk D s i j ki key w a h mo F :
  decoder_for C E dis T (DMap (KeyInt k) t) stk D -> json_text s (JObj i j [(ki, key, w)]) ->
  lag_of C O t w <> None -> variable C (DMap (KeyInt k) t) h a (VMap mo) F ->
  let m := match mo with Some m => m | None => [] end in
  let call := Decode C O stk D s (TOk (flat 0 (JObj i j [(ki, key, w)]))) (Some a) h in
  let refused := exists D' h' F', call = Ret (Z.of_nat ki) (Some EUnexpected) D' h' /\ variable C (DMap (KeyInt k) t) h' a (VMap (Some m)) F' in
  let entered n :=
    let old := match getk m (GInt n) with Some g => match t with DStruct _ _ => zero t | _ => g end | None => zero t end in
    match actual C O s t w old with
    | VOk g => exists D' h' F', call = Ret (-1) None D' h' /\ variable C (DMap (KeyInt k) t) h' a (VMap (Some (putk m (GInt n) g))) F'
    | VErr e1 e2 g => exists D' h' F', call = Ret (Z.of_nat e1) (Some e2) D' h' /\ variable C (DMap (KeyInt k) t) h' a (VMap (Some (putk m (GInt n) g))) F'
    | VPan => call = DPanics
    end in
  (key = [] -> call = DPanics) /\
  (forall n, json_int key -> act_int C k key = LSet (VInt n) -> entered n) /\
  (json_int key -> (forall n, act_int C k key <> LSet (VInt n)) -> refused) /\
  (key <> [] -> (forall p t, longest_viable key p t -> ~ json_int p) -> refused) /\
  (forall p t, longest_viable key p t -> json_int p -> t <> [] ->
     match (if negb (nk_signed k) && neg key then None else any_digits (kind_of C k) key) with
     | Some n => entered n
     | None => refused
     end).
Proof.
  intros Df J Ct V m call refused entered.
  assert (Ct' : ctl_root C O (DMap (KeyInt k) t) (JObj i j [(ki, key, w)])) by (cbn [ctl_root map]; rewrite lags_one; exact Ct).
  pose proof (C15_characterised_partial C O E dis T _ stk D s _ a h _ F Df J Ct' V) as Q. fold call in Q.
  cbn [actual act_entries act_key] in Q. change (match mo with Some l => l | None => [] end) with m in Q.
  assert (In : forall n, act_int_text C k key = Some (inl n) -> entered n).
  { intros n En. rewrite En in Q. unfold entered. 
    assert (Eo : match getk m (GInt n) with Some g => if is_struct t then zero t else g | None => zero t end =
      match getk m (GInt n) with Some g => match t with DStruct _ _ => zero t | _ => g end | None => zero t end) by (destruct t; reflexivity).
    rewrite Eo in Q. cbn zeta. set (old := match getk m (GInt n) with Some g => _ | None => _ end) in *. destruct (actual C O s t w old) as [g|e1 e2 g|]; cbn [vmap] in Q; [| |exact Q]; destruct Q as (D' & h' & F' & Q & V' & _); eauto. }
  assert (Rf : act_int_text C k key = Some (inr EUnexpected) -> refused).
  { intros En. rewrite En in Q. cbn [vmap] in Q. destruct Q as (D' & h' & F' & Q & V' & _). exists D', h', F'. auto. }
  split; [|split; [|split; [|split]]].
  - intros ->. exact Q.
  - intros n Jr Er. apply In. destruct key; [exfalso; apply is_int_spec in Jr; discriminate|]. unfold act_int_text. rewrite (proj2 (is_int_spec _) Jr), Er. reflexivity.
  - intros Jr Er. apply Rf. destruct key as [|c r0]; [exfalso; apply is_int_spec in Jr; discriminate|]. unfold act_int_text. rewrite (proj2 (is_int_spec _) Jr).
    destruct (act_int C k (c :: r0)) as [g'| |e|] eqn:Ea; try reflexivity. destruct g'; try reflexivity. exfalso; eapply Er; reflexivity.
  - intros N Np. apply Rf. assert (St : starts_int key = false).
    { destruct (starts_int key) eqn:Es; [|reflexivity]. apply starts_int_spec in Es as (p & t' & Lv & Jp). exfalso. exact (Np p t' Lv Jp). }
    destruct key as [|c r0]; [congruence|]. unfold act_int_text.
    destruct (is_int (c :: r0)) eqn:Ei. { unfold is_int in Ei. unfold starts_int in St. destruct (ReadNumber (c :: r0)) as [[[|x y] []]|]; discriminate. }
    rewrite St. reflexivity.
  - intros p t' Lv Jp Nt. pose proof (act_int_text_junk C k key p t' Lv Jp Nt) as Et.
    destruct (if _ && _ then None else any_digits _ _) as [n|]; [apply In, Et|apply Rf, Et].
Qed.
Definition mk_ty : ty := TMap (TInt (NK true W16)) TStr.
Definition mk_stk : list frame := Eval vm_compute in stack_of plain_env mk_ty.
Example C05_map_key_characterised_case :
  let s := bs "{""-7 "":""x""}" in
  decoder_for wC plain_env false mk_ty (DMap (KeyInt (NK true W16)) (DSc SStr)) mk_stk (dyn0 mk_stk) /\
  json_text s (JObj 0 10 [(1%nat, bs "-7 ", JStr 7 (bs "x"))]) /\ lag_of wC default_opts (DSc SStr) (JStr 7 (bs "x")) <> None /\
  variable wC (DMap (KeyInt (NK true W16)) (DSc SStr)) (world 8) (1%nat, 0) (VMap None) [] /\
  actual wC default_opts s (DSc SStr) (JStr 7 (bs "x")) (VStr []) = VOk (VStr (bs "x")).
Proof.
  cbn zeta. split; [eapply new_decoder; [apply plain_env_sizes|vm_compute; reflexivity|vm_compute; reflexivity|vm_compute; reflexivity]|].
  split; [apply parse_sound; vm_compute; reflexivity|]. split; [discriminate|]. split; [|vm_compute; reflexivity].
  exact (world_rep (DMap (KeyInt (NK true W16)) (DSc SStr)) (layoutb_spec true (DMap (KeyInt (NK true W16)) (DSc SStr)) eq_refl)).
Qed.

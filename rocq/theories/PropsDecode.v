(** Properties of Decode on supported, non-recursive types: C14, C15, C16, C17, C22, C24,
    C25, C34, C35, C36.

    [decoder_for C E dis T d stk D]: NewDecoder made the frames [stk] for the Go type [T]
    (resolved: [d]) and the decoder is in state [D] after any earlier calls (Main.v).
    [variable C d h a g F]: memory [h] has at address [a] a variable of type [d] holding
    the Go value [g] (Value.v).  [ideal]: the decoding a user expects (Spec.v).
    The hypotheses [ctl_root] (Root.v, Control.v) and [sound] (Spec.v) exclude documents
    on which the code is proved to be defective in PropsRefuted.v and PropsLeaf.v. *)
From Verif Require Import Base NumSpec StrSpec Types AppendType Token FloatLit Heap Machine Dt Dec Control Root Elab Value Dval Sep Refine Spec Typed SpecProofs Main Parse World Elaborate.
Open Scope Z_scope.

Definition variable (C : cfg) (d : dt) (h : heap) (a : addr) (g : gval) (F : list nat) : Prop :=
  rep (c_w64 C) d h (Some a) g F /\ own h (Some a) F.

(** ** C15 *)
(** Decode returns the value, or the error and its index, of the recursive decoder; it
    does not panic; only the destination and its own memory are written. *)
Theorem C15_decode_is_ideal_partial C O E dis T d stk D s v a h g F :
  decoder_for C E dis T d stk D -> json_text s v -> ctl_root C O d v -> sound C O d v -> variable C d h a g F ->
  match ideal C O s d v g with
  | VOk g' => exists D' h' F', Decode C O stk D s (TOk (flat 0 v)) (Some a) h = Ret (-1) None D' h' /\
      variable C d h' a g' F' /\ only h h' (Some a) (dsize (c_w64 C) d) F F'
  | VErr i e g' => exists D' h' F', Decode C O stk D s (TOk (flat 0 v)) (Some a) h = Ret (Z.of_nat i) (Some e) D' h' /\
      variable C d h' a g' F' /\ only h h' (Some a) (dsize (c_w64 C) d) F F'
  | VPan => False
  end.
Proof.
  intros Df J Ct S [R Ow]. destruct (decode_ideal C O E dis T d stk D s v a h g F Df J Ct S R Ow) as [N Q].
  unfold returned, stored in Q. destruct (ideal C O s d v g) as [g'|i e g'|]; [| |congruence].
  - destruct Q as (D' & h' & Q & F' & R' & O' & Y). exists D', h', F'. split; [exact Q|split; [split; assumption|exact Y]].
  - destruct Q as (D' & h' & Q & F' & R' & O' & Y). exists D', h', F'. split; [exact Q|split; [split; assumption|exact Y]].
Qed.

(** The same without [sound]: Decode computes the recursive decoder [dval], whose leaves
    are the number and string parsers of the source as they are. *)
Theorem C15_decode_is_recursive_partial C O E dis T d stk D s v a h g F :
  decoder_for C E dis T d stk D -> json_text s v -> ctl_root C O d v -> variable C d h a g F ->
  match dval C O s d v g with
  | VOk g' => exists D' h' F', Decode C O stk D s (TOk (flat 0 v)) (Some a) h = Ret (-1) None D' h' /\
      variable C d h' a g' F' /\ only h h' (Some a) (dsize (c_w64 C) d) F F'
  | VErr i e g' => exists D' h' F', Decode C O stk D s (TOk (flat 0 v)) (Some a) h = Ret (Z.of_nat i) (Some e) D' h' /\
      variable C d h' a g' F' /\ only h h' (Some a) (dsize (c_w64 C) d) F F'
  | VPan => Decode C O stk D s (TOk (flat 0 v)) (Some a) h = DPanics
  end.
Proof.
  intros Df J Ct [R Ow]. pose proof (decode_dval C O E dis T d stk D s v a h g F Df J Ct R Ow) as Q.
  unfold returned, stored in Q. destruct (dval C O s d v g) as [g'|i e g'|]; [| |exact Q].
  - destruct Q as (D' & h' & Q & F' & R' & O' & Y). exists D', h', F'. split; [exact Q|split; [split; assumption|exact Y]].
  - destruct Q as (D' & h' & Q & F' & R' & O' & Y). exists D', h', F'. split; [exact Q|split; [split; assumption|exact Y]].
Qed.

(** Case: struct { A int8; B []string; C map[string]struct{ X [2]bool; Y any }; D float64 `,string` } *)
Definition ex_inner : ty := TStruct 2 24 [(fld0 "X" 0, TArr 2 TBool); (fld0 "Y" 8, TAny)].
Definition ex_ty : ty :=
  TStruct 1 48 [(fld0 "A" 0, tInt8); (fld0 "B" 8, TSlice TStr); (fld0 "C" 32, TMap TStr ex_inner); (tagged "D" "D,string" 40, TFloat B64)].
Definition ex_text : bytes :=
  bs "{""a"":-5, ""skip"":[1,2,""x""], ""B"":[""p"",null,""q\n""], ""C"":{""k"":{""X"":[true,false],""Y"":{""z"":[1.5e3]}}}, ""D"":""-2.50""}".
Definition ex_dt : dt := Eval vm_compute in match elab true plain_env false 50 [] ex_ty with Some (d, _) => d | None => DEmpty end.
Definition ex_stk : list frame := Eval vm_compute in stack_of plain_env ex_ty.
Definition ex_doc : jv := Eval vm_compute in tree_of ex_text.
Lemma ex_decoder : decoder_for wC plain_env false ex_ty ex_dt ex_stk (dyn0 ex_stk).
Proof. eapply new_decoder; [apply plain_env_sizes|vm_compute; reflexivity|vm_compute; reflexivity|vm_compute; reflexivity]. Qed.
Lemma ex_json : json_text ex_text ex_doc.
Proof. apply parse_sound. vm_compute. reflexivity. Qed.
Lemma ex_ctl : ctl_root wC default_opts ex_dt ex_doc.
Proof. apply ctl_rootb_spec. vm_compute. reflexivity. Qed.
Lemma ex_sound : sound wC default_opts ex_dt ex_doc.
Proof. apply soundb_spec. vm_compute. reflexivity. Qed.
Example C15_case : exists g',
  g' = VStruct [VInt (-5);
                VSlice (Some ([VStr (bs "p"); VStr []; VStr [113; 10]], []));
                VMap (Some [(GStr (bs "k"), VStruct [VArr [VBool true; VBool false]; VAny (NObj [(bs "z", NArr [NNum (FN 15 2 false)])])])]);
                VFloat (FN (-250) (-2) false)] /\
  exists D' h' F', Decode wC default_opts ex_stk (dyn0 ex_stk) ex_text (TOk (flat 0 ex_doc)) dest (world 48) = Ret (-1) None D' h' /\
    variable wC ex_dt h' (1%nat, 0) g' F'.
Proof.
  eexists. split; [reflexivity|].
  pose proof (world_rep ex_dt (df_layout _ _ _ _ _ _ _ ex_decoder)) as [R Ow].
  pose proof (C15_decode_is_ideal_partial _ _ _ _ _ _ _ _ _ _ (1%nat, 0) _ _ [] ex_decoder ex_json ex_ctl ex_sound (conj R Ow)) as Q.
  match type of Q with match ?X with _ => _ end =>
    let y := eval vm_compute in X in replace X with y in Q by (vm_compute; reflexivity) end.
  destruct Q as (D' & h' & F' & Q & V & _). exists D', h', F'. split; [exact Q|exact V].
Qed.

(** ** C16 *)
(** Whatever the values in it, a document on which the control flow is right makes Decode
    write only to the destination, to memory the destination owns and to new memory;
    in particular no access is out of bounds ([DCorrupts]). *)
Theorem C16_writes_only_destination_partial C O E dis T d stk D s v a h g F :
  decoder_for C E dis T d stk D -> json_text s v -> ctl_root C O d v -> variable C d h a g F ->
  match Decode C O stk D s (TOk (flat 0 v)) (Some a) h with
  | Ret _ _ _ h' => exists g' F', variable C d h' a g' F' /\ only h h' (Some a) (dsize (c_w64 C) d) F F'
  | DPanics => True
  | _ => False
  end.
Proof.
  intros Df J Ct V. pose proof (C15_decode_is_recursive_partial C O E dis T d stk D s v a h g F Df J Ct V) as Q.
  destruct (dval C O s d v g) as [g'|i e g'|].
  - destruct Q as (D' & h' & F' & -> & V' & Y). eauto.
  - destruct Q as (D' & h' & F' & -> & V' & Y). eauto.
  - rewrite Q. exact I.
Qed.

(** ** C17 *)
(** On such documents the only cause of a panic is an empty string for a number. *)
Theorem C17_no_panic_partial C O E dis T d stk D s v a h g F :
  decoder_for C E dis T d stk D -> json_text s v -> ctl_root C O d v -> no_empty_number C O d v -> variable C d h a g F ->
  exists i e D' h', Decode C O stk D s (TOk (flat 0 v)) (Some a) h = Ret i e D' h'.
Proof.
  intros Df J Ct N V. pose proof (C15_decode_is_recursive_partial C O E dis T d stk D s v a h g F Df J Ct V) as Q.
  destruct V as [R _]. pose proof (dval_typed C O s d v g (json_text_lexed _ _ J) N (rep_typed _ _ _ _ _ _ R)) as G.
  destruct (dval C O s d v g) as [g'|i e g'|]; [| |contradiction].
  - destruct Q as (D' & h' & F' & -> & _). eauto.
  - destruct Q as (D' & h' & F' & -> & _). eauto.
Qed.

(** ** C14 *)
Definition scalar_doc (v : jv) : bool := match v with JArr _ _ _ | JObj _ _ _ => false | _ => true end.
Lemma sok_no_error r h' e : sok r = Ok (h', Some e) -> False.
Proof. unfold sok. destruct r; cbn; discriminate. Qed.
Lemma scalar_error_same C O s x v p h i e h' : dech C O s (DSc x) v p h = HErr i e h' -> scalar_doc v = true -> i = jidx v /\ h' = h.
Proof.
  assert (L : forall j r, (forall h1 e1, r = Ok (h1, Some e1) -> h1 = h) -> sres_h j r = HErr i e h' -> i = j /\ h' = h).
  { intros j r Hr H. unfold sres_h in H. destruct r as [[h1 [e1|]]| |]; cbn in H; try discriminate. injection H as <- <- <-. split; [reflexivity|]. eapply Hr. reflexivity. }
  assert (Fl : forall q (k : fnum -> res heap) h1 e1, match q with None => serr h EParse | Some f => sok (k f) end = Ok (h1, Some e1) -> h1 = h).
  { intros [f|] k h1 e1 Hq; [exfalso; eapply sok_no_error, Hq|]. injection Hq as <- _. reflexivity. }
  assert (In : forall q (k : Z -> res heap) h1 e1, (let* r := q in match r with inr e => serr h e | inl v => sok (k v) end) = Ok (h1, Some e1) -> h1 = h).
  { intros [[z|er]| |] k h1 e1 Hq; cbn in Hq; try discriminate; [exfalso; eapply sok_no_error, Hq|]. injection Hq as <- _. reflexivity. }
  intros H S. destruct v as [j|j b|j r|j r|j r|j k l|j k l]; try discriminate S.
  - assert (H' : hlift (null_tok C (sc_et x) p h) HOk = HErr i e h') by (destruct x; exact H). unfold hlift in H'. destruct (null_tok _ _ _ _); discriminate.
  - apply (L j (bool_tok C (sc_et x) b p h)); [|destruct x; exact H]. intros h1 e1 Hr. destruct x; cbn in Hr; try (exfalso; eapply sok_no_error, Hr); injection Hr as <- _; reflexivity.
  - apply (L j (int_tok C (sc_et x) r j p h)); [|destruct x; exact H]. intros h1 e1 Hr. destruct x; cbn [sc_et int_tok] in Hr; try (injection Hr as <- _; reflexivity);
      try (eapply Fl, Hr); try (eapply In, Hr); exfalso; eapply sok_no_error, Hr.
  - apply (L j (num_tok C (sc_et x) r j p h)); [|destruct x; exact H]. intros h1 e1 Hr. destruct x; cbn [sc_et num_tok] in Hr; try (injection Hr as <- _; reflexivity);
      try (eapply Fl, Hr); exfalso; eapply sok_no_error, Hr.
  - apply (L j (str_tok C (leaf C (DSc x)) r j p h)); [|destruct x; exact H]. intros h1 e1 Hr. destruct x; cbn [leaf f_ty mkfr dt_et sc_et str_tok] in Hr; try (injection Hr as <- _; reflexivity).
    + destruct (unesc_str C (j + 1) r); cbn in Hr; try discriminate. exfalso; eapply sok_no_error, Hr.
    + destruct (JsonNum.ReadNumber r) as [[t []]|]; try discriminate Hr; try (exfalso; eapply sok_no_error, Hr). injection Hr as <- _. reflexivity.
    + destruct (unesc_str C (j + 1) r); cbn in Hr; try discriminate. exfalso; eapply sok_no_error, Hr.
    + destruct (bytes_eqb r _); [exfalso; eapply sok_no_error, Hr|]. destruct (bytes_eqb r _); [exfalso; eapply sok_no_error, Hr|]. injection Hr as <- _. reflexivity.
    + destruct (quoted_inner r); [exfalso; eapply sok_no_error, Hr|]. injection Hr as <- _. reflexivity.
    + eapply In, Hr.
    + destruct (JsonNum.ReadNumber r) as [[t []]|]; try discriminate Hr; try (eapply Fl, Hr). injection Hr as <- _. reflexivity.
Qed.
(** A scalar document into a scalar variable: the denoted value is stored, or the memory
    is unchanged and the error is reported at the scalar's index. *)
Theorem C14_scalars_partial C O E dis T x stk D s v a h g F :
  decoder_for C E dis T (DSc x) stk D -> json_text s v -> scalar_doc v = true -> sound_sc C x v -> variable C (DSc x) h a g F ->
  match ideal_sc C x v with
  | LSet g' => exists D' h' F', Decode C O stk D s (TOk (flat 0 v)) (Some a) h = Ret (-1) None D' h' /\
      variable C (DSc x) h' a g' F' /\ only h h' (Some a) (sc_size (c_w64 C) x) F F'
  | LKeep => exists D' h' F', Decode C O stk D s (TOk (flat 0 v)) (Some a) h = Ret (-1) None D' h' /\ variable C (DSc x) h' a g F'
  | LErr e => exists D', Decode C O stk D s (TOk (flat 0 v)) (Some a) h = Ret (Z.of_nat (jidx v)) (Some e) D' h
  | LPan => False
  end.
Proof.
  intros Df J Sd S V. pose proof (C15_decode_is_ideal_partial C O E dis T (DSc x) stk D s v a h g F Df J ltac:(discriminate) S V) as Q.
  cbn [ideal] in Q. destruct (ideal_sc C x v) as [g'| |e|]; cbn [lput] in Q.
  - destruct Q as (D' & h' & F' & Q & V' & Y). exists D', h', F'. auto.
  - destruct Q as (D' & h' & F' & Q & V' & Y). exists D', h', F'. auto.
  - destruct Q as (D' & h' & F' & Q & V' & Y). exists D'. rewrite Q. f_equal.
    pose proof (decoder_describes _ _ _ _ _ _ _ Df) as Ds. pose proof (used_rested _ _ _ _ Ds (df_used _ _ _ _ _ _ _ Df)) as Rd.
    pose proof (decode_dech C O stk s v (DSc x) D a h Ds Rd (json_text_lexed _ _ J) ltac:(discriminate)) as Q'.
    destruct (dech C O s (DSc x) v (Some a) h) as [h2|i2 e2 h2| |] eqn:Ed.
    + destruct Q' as (D2 & Q' & _). rewrite Q in Q'. discriminate.
    + destruct Q' as (D2 & Q' & _). rewrite Q in Q'. injection Q' as _ _ _ ->. apply (scalar_error_same _ _ _ _ _ _ _ _ _ _ Ed Sd).
    + rewrite Q in Q'. discriminate.
    + rewrite Q in Q'. discriminate.
  - exact Q.
Qed.

(** Case: uint8. *)
Definition u8_ty : ty := TInt (NK false W8).
Definition u8_stk : list frame := Eval vm_compute in stack_of plain_env u8_ty.
Lemma u8_decoder : decoder_for wC plain_env false u8_ty (DSc (SInt (NK false W8))) u8_stk (dyn0 u8_stk).
Proof. eapply new_decoder; [apply plain_env_sizes|vm_compute; reflexivity|vm_compute; reflexivity|vm_compute; reflexivity]. Qed.
Example C14_case txt :
  In txt [bs " 255"; bs " 256"; bs " -1"; bs " ""x"""; bs " 1.0"] ->
  match parse txt with
  | Some v => json_text txt v /\ scalar_doc v = true /\ sound_sc wC (SInt (NK false W8)) v /\
              ideal_sc wC (SInt (NK false W8)) v =
              (if bytes_eqb txt (bs " 255") then LSet (VInt 255) else LErr (if bytes_eqb txt (bs " 256") then EOverflow else EUnexpected))
  | None => False
  end.
Proof.
  intros H. repeat (destruct H as [<-|H]; [(match goal with |- match ?X with _ => _ end => let y := eval vm_compute in X in assert (P : X = y) by (vm_compute; reflexivity); rewrite P end;
    split; [apply parse_sound, P|split; [reflexivity|split; [apply sound_scb_spec; vm_compute; reflexivity|vm_compute; reflexivity]]])|]). destruct H.
Qed.

(** ** C22 *)
(** An array document with at least [n] elements into [n]T: the first [n] elements are
    decoded into the elements, the surplus ones are ignored; the first failing element
    stops the call. *)
Theorem C22_array_partial C O E dis T n t stk D s i j l a h gs F :
  decoder_for C E dis T (DArr n t) stk D -> json_text s (JArr i j l) -> (n <= length l)%nat ->
  ctl_root C O (DArr n t) (JArr i j l) -> Forall (sound C O t) (firstn n l) -> variable C (DArr n t) h a (VArr gs) F ->
  exists gs' D' h' F',
    variable C (DArr n t) h' a (VArr gs') F' /\ only h h' (Some a) (Z.of_nat n * dsize (c_w64 C) t) F F' /\ length gs' = n /\
    ((Decode C O stk D s (TOk (flat 0 (JArr i j l))) (Some a) h = Ret (-1) None D' h' /\
      forall k x, (k < n)%nat -> nth_error l k = Some x ->
        exists g g', nth_error gs k = Some g /\ nth_error gs' k = Some g' /\ ideal C O s t x g = VOk g') \/
     (exists k x g idx e g', (k < n)%nat /\ nth_error l k = Some x /\ nth_error gs k = Some g /\ nth_error gs' k = Some g' /\
      ideal C O s t x g = VErr idx e g' /\
      Decode C O stk D s (TOk (flat 0 (JArr i j l))) (Some a) h = Ret (Z.of_nat idx) (Some e) D' h' /\
      (forall k' x, (k' < k)%nat -> nth_error l k' = Some x ->
        exists g g', nth_error gs k' = Some g /\ nth_error gs' k' = Some g' /\ ideal C O s t x g = VOk g') /\
      (forall k', (k < k')%nat -> nth_error gs' k' = nth_error gs k'))).
Proof.
  intros Df J Ln Ct S V. pose proof V as [R _]. pose proof (rep_typed _ _ _ _ _ _ R) as Ty.
  pose proof (C15_decode_is_ideal_partial C O E dis T (DArr n t) stk D s _ a h (VArr gs) F Df J Ct (conj Ln S) V) as Q.
  cbn [typed] in Ty. destruct Ty as [Lg _].
  assert (G : forall l gs, (length l <= length gs)%nat -> match elemsv (ideal C O s t) l gs with
    | VOk gs' => length gs' = length gs /\ forall k x, nth_error l k = Some x -> exists g g', nth_error gs k = Some g /\ nth_error gs' k = Some g' /\ ideal C O s t x g = VOk g'
    | VErr idx e gs' => length gs' = length gs /\ exists k x g g', nth_error l k = Some x /\ nth_error gs k = Some g /\ nth_error gs' k = Some g' /\ ideal C O s t x g = VErr idx e g' /\
        (forall k' x, (k' < k)%nat -> nth_error l k' = Some x -> exists g g', nth_error gs k' = Some g /\ nth_error gs' k' = Some g' /\ ideal C O s t x g = VOk g') /\
        (forall k', (k < k')%nat -> nth_error gs' k' = nth_error gs k')
    | VPan => True end).
  { clear. induction l as [|x l IH]; intros gs Hl; [cbn; split; [reflexivity|]; intros [|k] x; discriminate|]. destruct gs as [|g gs]; [cbn in Hl; lia|]. cbn [elemsv].
    destruct (ideal C O s t x g) as [g'|i e g'|] eqn:Ex; [| |exact I].
    - specialize (IH gs ltac:(cbn in Hl; lia)). destruct (elemsv (ideal C O s t) l gs) as [gs'|i e gs'|]; cbn [vmap]; [| |exact I].
      + destruct IH as [L1 IH]. split; [cbn; congruence|]. intros [|k] y Hy; [injection Hy as <-; exists g, g'; auto|apply IH, Hy].
      + destruct IH as (L1 & k & y & g1 & g2 & H1 & H2 & H3 & H4 & H5 & H6). split; [cbn; congruence|]. exists (S k), y, g1, g2. repeat (split; [assumption|]). split.
        * intros [|k'] z Hk Hz; [injection Hz as <-; exists g, g'; auto|apply H5; [lia|exact Hz]].
        * intros [|k'] Hk; [lia|apply H6; lia].
    - split; [reflexivity|]. exists 0%nat, x, g, g'. repeat (split; [reflexivity || assumption|]). split; [intros k' z Hk; lia|]. intros [|k'] Hk; [lia|reflexivity]. }
  assert (Nth : forall k x, (k < n)%nat -> nth_error l k = Some x -> nth_error (firstn n l) k = Some x).
  { clear. revert n. induction l as [|y l IH]; intros n k x Hk Hx; [destruct k; discriminate|]. destruct n; [lia|]. destruct k; [exact Hx|]. cbn. apply IH; [lia|exact Hx]. }
  assert (Nth' : forall k x, nth_error (firstn n l) k = Some x -> (k < n)%nat /\ nth_error l k = Some x).
  { clear. revert n. induction l as [|y l IH]; intros n k x Hx; [rewrite firstn_nil in Hx; destruct k; discriminate|]. destruct n; [destruct k; discriminate|].
    destruct k; [split; [lia|exact Hx]|]. cbn in Hx. destruct (IH n k x Hx). split; [lia|assumption]. }
  specialize (G (firstn n l) gs ltac:(rewrite firstn_length; lia)). cbn [ideal] in Q.
  destruct (elemsv (ideal C O s t) (firstn n l) gs) as [gs'|idx e gs'|]; [| |contradiction].
  - destruct G as [L1 G]. rewrite firstn_all2 in Q by lia. replace (n - length l)%nat with 0%nat in Q by lia. cbn [repeat] in Q. rewrite app_nil_r in Q.
    destruct Q as (D' & h' & F' & Q & V' & Y). exists gs', D', h', F'. split; [exact V'|]. split; [exact Y|]. split; [congruence|]. left. split; [exact Q|].
    intros k x Hk Hx. apply G, Nth; assumption.
  - destruct G as (L1 & k & x & g & g' & H1 & H2 & H3 & H4 & H5 & H6). destruct (Nth' _ _ H1) as [Hk Hx].
    destruct Q as (D' & h' & F' & Q & V' & Y). exists gs', D', h', F'. split; [exact V'|]. split; [exact Y|]. split; [congruence|]. right.
    exists k, x, g, idx, e, g'. repeat (split; [assumption|]). split; [|exact H6]. intros k' y Hk' Hy. apply H5; [exact Hk'|]. apply Nth; [lia|exact Hy].
Qed.

(** ** C24 *)
(** No number of the document is too large for a float64. *)
Fixpoint numbers_fit (v : jv) : Prop :=
  match v with
  | JInt _ r | JNum _ r => too_big B64 (num_value r) = false
  | JArr _ _ l => (fix go l := match l with [] => True | x :: r => numbers_fit x /\ go r end) l
  | JObj _ _ l => (fix go (l : list ((nat * bytes) * jv)) := match l with [] => True | x :: r => numbers_fit (snd x) /\ go r end) l
  | _ => True
  end.
Lemma generic_total v : numbers_fit v -> exists x, generic v = Some x.
Proof.
  induction v as [i|i b|i r|i r|i r|i j l IH|i j l IH] using jv_ind'; cbn [numbers_fit generic]; intros H; try (eexists; reflexivity).
  - unfold round. destruct (num_value r). rewrite H. eexists. reflexivity.
  - unfold round. destruct (num_value r). rewrite H. eexists. reflexivity.
  - match goal with |- exists x, option_map NArr ?X = Some x => enough (G : exists y, X = Some y) by (destruct G as [y ->]; eexists; reflexivity) end.
    induction l as [|x l IHl]; [eexists; reflexivity|]. inversion IH as [|? ? P1 P2]; subst. destruct H as [H1 H2]. destruct (P1 H1) as [y ->]. destruct (IHl P2 H2) as [ys ->]. eexists. reflexivity.
  - match goal with |- exists x, option_map NObj ?X = Some x => enough (G : exists y, X = Some y) by (destruct G as [y ->]; eexists; reflexivity) end.
    generalize (@nil (bytes * jany)). induction l as [|x l IHl]; intros acc; [eexists; reflexivity|]. inversion IH as [|? ? P1 P2]; subst. destruct H as [H1 H2]. destruct (P1 H1) as [y ->]. apply IHl; assumption.
Qed.
(** Any document, of any depth, into an [any]: the generic JSON value; documents with a
    number too large for float64 are an error at the root. *)
Theorem C24_any_partial C O E dis T stk D s v a h g F :
  decoder_for C E dis T (DSc SAny) stk D -> json_text s v -> plain_all v -> variable C (DSc SAny) h a g F ->
  (numbers_fit v -> exists x D' h' F', generic v = Some x /\
     Decode C O stk D s (TOk (flat 0 v)) (Some a) h = Ret (-1) None D' h' /\ variable C (DSc SAny) h' a (VAny x) F') /\
  (generic v = None -> exists e D' h', Decode C O stk D s (TOk (flat 0 v)) (Some a) h = Ret (Z.of_nat (jidx v)) (Some e) D' h').
Proof.
  intros Df J S V. pose proof (C15_decode_is_ideal_partial C O E dis T (DSc SAny) stk D s v a h g F Df J ltac:(discriminate) S V) as Q.
  cbn [ideal] in Q.
  assert (Sc : ideal_sc C SAny v = match generic v with Some x => LSet (VAny x) | None => LErr (match v with JInt _ _ | JNum _ _ => EParse | _ => EUnexpected end) end).
  { destruct v; cbn; try reflexivity; destruct (round B64 raw); reflexivity. }
  rewrite Sc in Q. split.
  - intros N. destruct (generic_total v N) as [x Ex]. rewrite Ex in Q. cbn [lput] in Q. destruct Q as (D' & h' & F' & Q & V' & _). exists x, D', h', F'. auto.
  - intros Ex. rewrite Ex in Q. cbn [lput] in Q. destruct Q as (D' & h' & F' & Q & _). eexists _, D', h'. exact Q.
Qed.
Definition any_stk : list frame := Eval vm_compute in stack_of plain_env TAny.
Lemma any_decoder : decoder_for wC plain_env false TAny (DSc SAny) any_stk (dyn0 any_stk).
Proof. eapply new_decoder; [apply plain_env_sizes|vm_compute; reflexivity|vm_compute; reflexivity|vm_compute; reflexivity]. Qed.
Example C24_case :
  let s := bs "[{""a"":[null,true,-1.5],""b"":""\u00e9"",""a"":{}}, []]" in
  let v := tree_of s in
  json_text s v /\ plain_all v /\ numbers_fit v /\
  generic v = Some (NArr [NObj [(bs "a", NObj []); (bs "b", NStr [195; 169])]; NArr []]).
Proof.
  cbn zeta. split; [apply parse_sound; vm_compute; reflexivity|]. split; [apply (plain_allb_spec wC); vm_compute; reflexivity|].
  split; [vm_compute; repeat constructor|vm_compute; reflexivity].
Qed.

(** ** C25 *)
Lemma ptr_fresh C O s t v a h g F h' : layout (c_w64 C) t -> 0 < dsize (c_w64 C) t -> lexed s v ->
  match v with JNull _ => True | _ => False end \/
  (variable C (DPtr t) h a g F -> dech C O s (DPtr t) v (Some a) h = HOk h' \/ (exists i e, dech C O s (DPtr t) v (Some a) h = HErr i e h') ->
   cellat h' (Some a) 0 = Some (CPtr (nxt h, 0))).
Proof.
  intros Lt Sz L. destruct (match v with JNull _ => true | _ => false end) eqn:Nu; [left; destruct v; try discriminate; exact I|right].
  intros [R Ow] E. rewrite dech_ptr in E by exact Nu. replace (dsize (c_w64 C) t =? 0) with false in E by lia.
  pose proof (wb_pos (c_w64 C)) as Wp.
  destruct (Refine2.malloc_spec h (dsize (c_w64 C) t) (Some a) F Sz Ow) as (h1 & E1 & Nx1 & Bk1 & Bn1 & Ow1 & On1 & Cl1). rewrite E1 in E.
  assert (Cell : exists c, holds h (Some a) (wb (c_w64 C)) c /\ is_poison c = false).
  { cbn [rep] in R. destruct R as (c & Hc & R). exists c. split; [exact Hc|]. destruct c; try reflexivity; contradiction. }
  destruct Cell as (c & Hc & Np).
  destruct (store_cell h1 (Some a) (wb (c_w64 C)) c (CPtr (nxt h, 0))) as (h2 & E2 & Hh & Nx2 & Bk2 & Ow2 & On2); [lia|eapply Refine3.holds_eq; [exact Cl1|exact Hc]|exact Np|].
  rewrite E2 in E. cbn [hlift] in E.
  assert (Pn : pblk (Some a) <> Some (nxt h)) by (destruct Ow as (_ & _ & _ & O4); intros Q; apply O4 in Q; lia).
  assert (Rz : rep (c_w64 C) t h2 (Some (nxt h, 0)) (zero t) []).
  { apply rep_zero; [exact Lt|]. intros x Hx. unfold cellat. rewrite Bk2 by exact Pn. rewrite Bn1. replace ((0 <=? 0 + x) && (0 + x <? dsize (c_w64 C) t)) with true by lia. reflexivity. }
  assert (OwB : own h2 (Some (nxt h, 0)) []).
  { split; [lia|]. split; [constructor|]. split; [intros b []|]. intros b [= <-]. lia. }
  pose proof (Refine3.dech_good C O s t Lt v h2 (Some (nxt h, 0)) (zero t) [] L Rz OwB) as G.
  assert (Post : exists g3, post C t h2 (Some (nxt h, 0)) [] h' g3).
  { unfold gsim in G. destruct (dval C O s t v (zero t)) as [g3|i3 e3 g3|].
    - destruct G as (h3 & E3 & P). destruct E as [E|(i & e & E)]; pose proof (eq_trans (eq_sym E3) E) as X; [injection X as <-; eauto|discriminate].
    - destruct G as (h3 & E3 & P). destruct E as [E|(i & e & E)]; pose proof (eq_trans (eq_sym E3) E) as X; [discriminate|injection X as <- <- <-; eauto].
    - destruct E as [E|(i & e & E)]; pose proof (eq_trans (eq_sym G) E); discriminate. }
  destruct Post as (g3 & F3 & _ & _ & (_ & B3 & _)). destruct Hh as [_ Hh].
  assert (Bl : blk h' (fst a) = blk h2 (fst a)).
  { apply B3; [|intros []|intros Q; apply Pn; destruct a; cbn in *; congruence]. destruct Ow as (_ & _ & _ & O4). specialize (O4 (fst a)). destruct a as [b o]. cbn in *. specialize (O4 eq_refl). lia. }
  destruct a as [b o]. unfold cellat in *. cbn [fst] in Bl. rewrite Bl. exact Hh.
Qed.

(** A root pointer: null sets nil; any other document sets the pointer to new memory
    (block [nxt h] was not allocated before) holding the decoded value. *)
Theorem C25_root_pointer_partial C O E dis T t stk D s v a h g F :
  decoder_for C E dis T (DPtr t) stk D -> json_text s v -> ctl_root C O (DPtr t) v -> sound C O (DPtr t) v -> variable C (DPtr t) h a g F ->
  match v with
  | JNull _ => exists D' h' F', Decode C O stk D s (TOk (flat 0 v)) (Some a) h = Ret (-1) None D' h' /\ variable C (DPtr t) h' a (VPtr None) F'
  | _ =>
      exists g' D' h' F', variable C (DPtr t) h' a (VPtr (Some g')) F' /\
        (0 < dsize (c_w64 C) t -> cellat h' (Some a) 0 = Some (CPtr (nxt h, 0))) /\
        (ideal C O s t v (zero t) = VOk g' /\ Decode C O stk D s (TOk (flat 0 v)) (Some a) h = Ret (-1) None D' h' \/
         exists i e, ideal C O s t v (zero t) = VErr i e g' /\ Decode C O stk D s (TOk (flat 0 v)) (Some a) h = Ret (Z.of_nat i) (Some e) D' h')
  end.
Proof.
  intros Df J Ct S V. pose proof (C15_decode_is_ideal_partial C O E dis T (DPtr t) stk D s v a h g F Df J Ct S V) as Q.
  pose proof (decoder_describes _ _ _ _ _ _ _ Df) as Ds. pose proof (used_rested _ _ _ _ Ds (df_used _ _ _ _ _ _ _ Df)) as Rd.
  pose proof (json_text_lexed _ _ J) as L. pose proof (decode_dech C O stk s v (DPtr t) D a h Ds Rd L Ct) as Q'.
  assert (Main : match v with JNull _ => false | _ => true end = true ->
      exists g' D' h' F', variable C (DPtr t) h' a (VPtr (Some g')) F' /\
        (0 < dsize (c_w64 C) t -> cellat h' (Some a) 0 = Some (CPtr (nxt h, 0))) /\
        (ideal C O s t v (zero t) = VOk g' /\ Decode C O stk D s (TOk (flat 0 v)) (Some a) h = Ret (-1) None D' h' \/
         exists i e, ideal C O s t v (zero t) = VErr i e g' /\ Decode C O stk D s (TOk (flat 0 v)) (Some a) h = Ret (Z.of_nat i) (Some e) D' h')).
  { intros Nn. assert (Id : ideal C O s (DPtr t) v g = vmap (fun g => VPtr (Some g)) (ideal C O s t v (zero t))) by (destruct v; try discriminate; reflexivity).
    rewrite Id in Q. pose proof (df_layout _ _ _ _ _ _ _ Df) as Ly. cbn [layout] in Ly.
    destruct (ideal C O s t v (zero t)) as [g'|i e g'|]; cbn [vmap] in Q; [| |contradiction].
    - destruct Q as (D' & h' & F' & Q & V' & _). exists g', D', h', F'. split; [exact V'|]. split; [|left; auto].
      intros Sz. destruct (ptr_fresh C O s t v a h g F h' Ly Sz L) as [N|N]; [destruct v; discriminate || contradiction|]. apply N; [exact V|]. left.
      destruct (dech C O s (DPtr t) v (Some a) h) as [h2|i2 e2 h2| |].
      + destruct Q' as (D2 & Q' & _). rewrite Q in Q'. injection Q' as _ ->. reflexivity.
      + destruct Q' as (D2 & Q' & _). rewrite Q in Q'. discriminate.
      + rewrite Q in Q'. discriminate.
      + rewrite Q in Q'. discriminate.
    - destruct Q as (D' & h' & F' & Q & V' & _). exists g', D', h', F'. split; [exact V'|]. split; [|right; eauto].
      intros Sz. destruct (ptr_fresh C O s t v a h g F h' Ly Sz L) as [N|N]; [destruct v; discriminate || contradiction|]. apply N; [exact V|]. right. exists i, e.
      destruct (dech C O s (DPtr t) v (Some a) h) as [h2|i2 e2 h2| |].
      + destruct Q' as (D2 & Q' & _). rewrite Q in Q'. discriminate.
      + destruct Q' as (D2 & Q' & _). rewrite Q in Q'. injection Q' as Hi -> _ ->. apply Nat2Z.inj in Hi as ->. reflexivity.
      + rewrite Q in Q'. discriminate.
      + rewrite Q in Q'. discriminate. }
  destruct v; try (apply Main; reflexivity). cbn [ideal] in Q. destruct Q as (D' & h' & F' & Q & V' & _). exists D', h', F'. auto.
Qed.
(** Case: **struct{ A int8 .. } of C15. *)
Definition pp_stk : list frame := Eval vm_compute in stack_of plain_env (TPtr (TPtr ex_ty)).
Example C25_case :
  decoder_for wC plain_env false (TPtr (TPtr ex_ty)) (DPtr (DPtr ex_dt)) pp_stk (dyn0 pp_stk) /\
  ctl_root wC default_opts (DPtr (DPtr ex_dt)) ex_doc /\ sound wC default_opts (DPtr (DPtr ex_dt)) ex_doc /\ 0 < dsize true (DPtr ex_dt).
Proof.
  split; [eapply new_decoder; [apply plain_env_sizes|vm_compute; reflexivity|vm_compute; reflexivity|vm_compute; reflexivity]|].
  split; [apply ctl_rootb_spec; vm_compute; reflexivity|]. split; [apply soundb_spec; vm_compute; reflexivity|reflexivity].
Qed.

(** ** C34 *)
(** Integer literals into float variables, on the fast path and off it: except for the
    literal -0 the stored float is the correctly rounded value of the literal, and on
    the fast path (fewer than 8 bytes for float32, 16 for float64) the literal is small
    enough to be a float exactly: below 2^24, 2^53. *)
Theorem C34_integer_to_float_partial C O E dis T b stk D s i r a h g F :
  decoder_for C E dis T (DSc (SFloat b)) stk D -> json_text s (JInt i r) -> r <> [45; 48] -> variable C (DSc (SFloat b)) h a g F ->
  match round b r with
  | Some f => exists D' h' F', Decode C O stk D s (TOk (flat 0 (JInt i r))) (Some a) h = Ret (-1) None D' h' /\
                variable C (DSc (SFloat b)) h' a (VFloat f) F'
  | None => exists D', Decode C O stk D s (TOk (flat 0 (JInt i r))) (Some a) h = Ret (Z.of_nat i) (Some EParse) D' h
  end /\
  (Z.of_nat (length r) < match b with B32 => 8 | B64 => 16 end ->
   round b r = Some (FN (int_value r) 0 false) /\ Z.abs (int_value r) < match b with B32 => 2 ^ 24 | B64 => 2 ^ 53 end).
Proof.
  intros Df J N V. pose proof (C14_scalars_partial C O E dis T (SFloat b) stk D s (JInt i r) a h g F Df J eq_refl N V) as Q.
  pose proof (json_text_lexed _ _ J) as [_ Ji]. split.
  - cbn [ideal_sc float_lit] in Q. unfold float_lit in Q. destruct (round b r) as [f|]; [|exact Q]. destruct Q as (D' & h' & F' & Q & V' & _). eauto.
  - intros Sh. pose proof (float_int_round C b r Ji N) as Fr. unfold float_of_int_tok in Fr. apply Z.ltb_lt in Sh. rewrite Sh in Fr. rewrite <- Fr. split; [reflexivity|].
    pose proof (int_abs_bound r Ji) as B. apply Z.ltb_lt in Sh.
    eapply Z.lt_le_trans; [exact B|]. eapply Z.le_trans; [apply (Z.pow_le_mono_r 10 _ (match b with B32 => 7 | B64 => 15 end)); [lia|destruct b; lia]|]. destruct b; vm_compute; discriminate.
Qed.
Example C34_case : json_int (bs "-1234567") /\ round B32 (bs "-1234567") = Some (FN (-1234567) 0 false) /\
  round B32 (bs "340282350000000000000000000000000000000") = Some (FN 340282350000000000000000000000000000000 0 false) /\
  round B32 (bs "340282360000000000000000000000000000000") = None.
Proof. split; [apply is_int_spec; vm_compute; reflexivity|]. vm_compute. auto. Qed.

(** ** C35 *)
(** What null does to a variable of type [d] holding [g]. *)
Definition null_value (d : dt) (g : gval) : gval :=
  match d with
  | DPtr _ => VPtr None | DMap _ _ => VMap None | DMSS => VMSS None | DSlice _ => VSlice None
  | DSc SAny => VAny NNil
  | DSc SBool => VBool false | DSc (SStr | SNumber) => VStr []
  | DSc (SInt _) => VInt 0 | DSc (SFloat _) => VFloat (FN 0 0 false)
  | _ => g (* structs, arrays, fields with the `string` option, text unmarshalers *)
  end.
(** json.Unmarshalers receive the null; []struct{} is left as it is (C35_refuted). *)
Definition null_special (d : dt) : bool := match d with DJson _ _ | DSlice DEmpty => true | _ => false end.
(** At any depth: the ideal decoder, hence (C15) Decode. *)
Theorem C35_null_anywhere C O s d i g : null_special d = false -> ideal C O s d (JNull i) g = VOk (null_value d g).
Proof. intros H. destruct d as [x| | | | | |t| | | |]; try reflexivity; try discriminate H. destruct x; reflexivity. Qed.
(** At the root. *)
Theorem C35_null_partial C O E dis T d stk D s i a h g F :
  decoder_for C E dis T d stk D -> json_text s (JNull i) -> null_special d = false -> variable C d h a g F ->
  exists D' h' F', Decode C O stk D s (TOk (flat 0 (JNull i))) (Some a) h = Ret (-1) None D' h' /\ variable C d h' a (null_value d g) F'.
Proof.
  intros Df J Ns V.
  assert (Ct : ctl_root C O d (JNull i)) by (destruct d; cbn; try exact I; try destruct (fast_et d); discriminate).
  assert (S : sound C O d (JNull i)).
  { destruct d as [x| | | | | |t| | | |]; try exact I; [destruct x; exact I|]. destruct t; try exact I. discriminate. }
  pose proof (C15_decode_is_ideal_partial C O E dis T d stk D s _ a h g F Df J Ct S V) as Q.
  rewrite (C35_null_anywhere C O s d i g Ns) in Q. destruct Q as (D' & h' & F' & Q & V' & _). eauto.
Qed.
Example C35_case : json_text (bs " null") (JNull 1) /\ null_special ex_dt = false /\ null_special (DSlice ex_dt) = false /\
  null_value (DSlice ex_dt) (VSlice (Some ([zero ex_dt], []))) = VSlice None.
Proof. split; [apply parse_sound; vm_compute; reflexivity|]. auto. Qed.

(** ** C36 *)
(** A type with UnmarshalJSON: the method gets the old value and exactly the source text
    of the JSON value, whatever kind of value it is; what it leaves is the new value, and
    its error is returned with the index of the JSON value. *)
Theorem C36_json_anywhere C O s id z v g :
  ideal C O s (DJson id z) v g =
  (let '(new, er) := c_uj C id (as_userv g) (source s v) in
   let g' := VUser (if z <=? 0 then [] else new) in (* types of size 0 have one value *)
   match er with None => VOk g' | Some c => VErr (jidx v) (EUser c) g' end).
Proof. cbn [ideal]. unfold userv. destruct (c_uj C id (as_userv g) (source s v)) as [new [c|]]; reflexivity. Qed.
Theorem C36_json_partial C O E dis T id z stk D s v a h old F :
  decoder_for C E dis T (DJson id z) stk D -> json_text s v -> 0 < z -> variable C (DJson id z) h a (VUser old) F ->
  exists new er D' h' F', c_uj C id old (source s v) = (new, er) /\ variable C (DJson id z) h' a (VUser new) F' /\
    Decode C O stk D s (TOk (flat 0 v)) (Some a) h =
      match er with None => Ret (-1) None D' h' | Some c => Ret (Z.of_nat (jidx v)) (Some (EUser c)) D' h' end.
Proof.
  intros Df J Hz V. pose proof (C15_decode_is_ideal_partial C O E dis T (DJson id z) stk D s v a h _ F Df J ltac:(discriminate) I V) as Q.
  rewrite C36_json_anywhere in Q. cbn [as_userv] in Q. replace (z <=? 0) with false in Q by lia.
  destruct (c_uj C id old (source s v)) as [new [c|]]; destruct Q as (D' & h' & F' & Q & V' & _); eexists _, _, D', h', F'; split; try reflexivity; auto.
Qed.
(** A type with UnmarshalText: the method gets the text the JSON string denotes. *)
Theorem C36_text_anywhere C O s id z i r g :
  ideal C O s (DText id z) (JStr i r) g =
  (let '(new, er) := c_ut C id (as_userv g) (str_text r) in
   let g' := VUser (if z <=? 0 then [] else new) in (* types of size 0 have one value *)
   match er with None => VOk g' | Some c => VErr i (EUser c) g' end).
Proof. cbn [ideal]. unfold userv. destruct (c_ut C id (as_userv g) (str_text r)) as [new [c|]]; reflexivity. Qed.
Theorem C36_text_partial C O E dis T id z stk D s i r a h old F :
  decoder_for C E dis T (DText id z) stk D -> json_text s (JStr i r) -> plain_str r -> 0 < z -> variable C (DText id z) h a (VUser old) F ->
  exists new er D' h' F', c_ut C id old (str_text r) = (new, er) /\ variable C (DText id z) h' a (VUser new) F' /\
    Decode C O stk D s (TOk (flat 0 (JStr i r))) (Some a) h =
      match er with None => Ret (-1) None D' h' | Some c => Ret (Z.of_nat i) (Some (EUser c)) D' h' end.
Proof.
  intros Df J P Hz V. pose proof (C15_decode_is_ideal_partial C O E dis T (DText id z) stk D s _ a h _ F Df J ltac:(discriminate) P V) as Q.
  rewrite C36_text_anywhere in Q. cbn [as_userv] in Q. replace (z <=? 0) with false in Q by lia.
  destruct (c_ut C id old (str_text r)) as [new [c|]]; destruct Q as (D' & h' & F' & Q & V' & _); eexists _, _, D', h', F'; split; try reflexivity; auto.
Qed.
(** Case: named types 0 (UnmarshalJSON) and 1 (UnmarshalText), and a map of such values. *)
Definition um_env : env := fun i =>
  match i with 0%nat => Decl (TStruct 0 8 [(fld0 "V" 0, tInt)]) 8 SSome SNone | 1%nat => Decl tInt 8 SNone SSome | _ => Decl TOther 8 SNone SNone end.
Lemma um_sizes : sizes_ok true um_env.
Proof. intros [|[|i]]; reflexivity. Qed.
Example C36_case :
  decoder_for wC um_env false (TNamed 0) (DJson 0 8) (stack_of um_env (TNamed 0)) (dyn0 (stack_of um_env (TNamed 0))) /\
  decoder_for wC um_env false (TMap (TNamed 1) (TNamed 0)) (DMap (KeyText 1 8) (DJson 0 8)) (stack_of um_env (TMap (TNamed 1) (TNamed 0))) (dyn0 (stack_of um_env (TMap (TNamed 1) (TNamed 0)))) /\
  source (bs " {""a"" : [1]} ") (tree_of (bs " {""a"" : [1]} ")) = bs "{""a"" : [1]}".
Proof.
  split; [eapply new_decoder; [apply um_sizes|vm_compute; reflexivity|vm_compute; reflexivity|vm_compute; reflexivity]|].
  split; [eapply new_decoder; [apply um_sizes|vm_compute; reflexivity|vm_compute; reflexivity|vm_compute; reflexivity]|vm_compute; reflexivity].
Qed.

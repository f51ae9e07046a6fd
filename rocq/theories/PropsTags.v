(** C52: the members of a struct are those encoding/json knows it by.

    The specification is the documentation of encoding/json (the comment of Unmarshal in
    jscandec.go:476-482 promises the behaviour of encoding/json): struct fields that are
    not exported and fields with the tag "-" are ignored; the name is the part of the tag
    before the first comma, or the Go name if that part is empty or has characters that
    are not allowed; the option "string" may stand anywhere in the option list.
    Embedded structs are not part of the positive theorem (C52_refuted_embedded). *)
From Verif Require Import Base NumSpec StrSpec JsonNum Lookup Types AppendType Token FloatLit Heap Machine Dt Dec Control Root Elab Value Dval Sep Refine Spec Typed SpecProofs Main Parse World Elaborate PropsDecode PropsStruct PropsRefuted PropsQuoted.
Open Scope Z_scope.

(** ** Specification *)
(** The parts of a tag separated by commas. *)
Fixpoint parts (tag : bytes) : list bytes :=
  match tag with
  | [] => [[]]
  | c :: r => if c =? 44 then [] :: parts r
              else match parts r with p :: ps => (c :: p) :: ps | [] => [[c]] end
  end.
Definition tag_name_of (tag : bytes) : bytes := hd [] (parts tag).
Definition options (tag : bytes) : list bytes := tl (parts tag).
(** Characters of names in tags: letters, digits and the marks listed by encoding/json;
    bytes of non-ASCII characters are taken for letters. *)
Definition tag_char (c : Z) : bool :=
  ((48 <=? c) && (c <=? 57)) || ((65 <=? c) && (c <=? 90)) || ((97 <=? c) && (c <=? 122)) || (128 <=? c)
  || existsb (Z.eqb c) (bs "!#$%&()*+-./:;<=>?@[]^_{|}~ ").
Definition upper_case (c : Z) : bool := (65 <=? c) && (c <=? 90).
Definition exported (f : fld) : bool := match fd_name f with c :: _ => upper_case c | [] => false end.
(** The name of a field in JSON; none if the field is ignored. *)
Definition json_name (f : fld) : option bytes :=
  if negb (exported f) then None
  else if bytes_eqb (fd_tag f) (bs "-") then None
  else let n := tag_name_of (fd_tag f) in
       Some (match n with [] => fd_name f | _ => if forallb tag_char n then n else fd_name f end).
Definition json_string (f : fld) : bool := existsb (bytes_eqb (bs "string")) (options (fd_tag f)).
Definition json_members (fs : list (fld * ty)) : list (fld * ty) :=
  filter (fun x => match json_name (fst x) with Some _ => true | None => false end) fs.

(** ** The fields the theorem is about *)
(** Exported or with the tag "-"; a name of allowed characters; not "-" followed by
    options; "string" only as the single option. *)
Definition ordinary (f : fld) : Prop :=
  (exported f = true \/ fd_tag f = bs "-") /\ forallb tag_char (tag_name_of (fd_tag f)) = true /\
  (tag_name_of (fd_tag f) = bs "-" -> fd_tag f = bs "-") /\
  (json_string f = true -> options (fd_tag f) = [bs "string"]).

Lemma parts_nonempty tag : parts tag <> [].
Proof. destruct tag as [|c r]; [discriminate|]. cbn. destruct (c =? 44); [discriminate|]. destruct (parts r); discriminate. Qed.
Lemma parts_name n : ~ In 44 n -> parts n = [n].
Proof.
  induction n as [|c n IH]; intros H; [reflexivity|]. cbn. destruct (Z.eqb_spec c 44); [exfalso; apply H; left; assumption|].
  rewrite IH; [reflexivity|]. intros Q. apply H. right. exact Q.
Qed.
Lemma parts_options n o : ~ In 44 n -> parts (n ++ 44 :: o) = n :: parts o.
Proof.
  induction n as [|c n IH]; intros H; [reflexivity|]. cbn [app parts]. destruct (Z.eqb_spec c 44); [exfalso; apply H; left; assumption|].
  rewrite IH; [reflexivity|]. intros Q. apply H. right. exact Q.
Qed.
Lemma parts_single o : parts o = [bs "string"] -> o = bs "string".
Proof.
  intros H. destruct (tag_parts_total o) as (n & r & Q). destruct Q as [n Nn|n r Nn].
  - rewrite parts_name in H by exact Nn. congruence.
  - rewrite parts_options in H by exact Nn. injection H as _ H. destruct (parts_nonempty _ H).
Qed.
Lemma string_parts : parts (bs "string") = [bs "string"].
Proof. reflexivity. Qed.

(** On ordinary fields NewDecoder reads tags like encoding/json. *)
Lemma ordinary_name f : ordinary f -> field_name f = option_map (fun n => (n, json_string f)) (json_name f).
Proof.
  intros (Ex & Ch & Da & St). destruct (tag_parts_total (fd_tag f)) as (n & o & H). rewrite (field_name_parts f n o H).
  unfold json_name, json_string in *. remember (fd_tag f) as tag eqn:Et. destruct H as [n Nn|n o Nn].
  - unfold tag_name_of, options in *. rewrite parts_name in * by exact Nn. cbn [hd tl existsb] in *.
    destruct (bytes_eqb_spec n (bs "-")) as [->|Nd].
    + destruct (exported f); reflexivity.
    + destruct Ex as [Ex|Ex]; [|contradiction]. rewrite Ex. cbn [negb]. destruct (bytes_eqb_spec n []) as [->|Ne]; [reflexivity|].
      rewrite Ch. destruct n; [contradiction|]. reflexivity.
  - unfold tag_name_of, options in *. rewrite parts_options in * by exact Nn. cbn [hd tl] in *.
    assert (Nt : n ++ 44 :: o <> bs "-") by (intros Q; assert (L : In 44 (bs "-")) by (rewrite <- Q; apply in_or_app; right; left; reflexivity); cbn in L; intuition discriminate).
    destruct Ex as [Ex|Ex]; [|contradiction]. rewrite Ex. cbn [negb]. destruct (bytes_eqb_spec (n ++ 44 :: o) (bs "-")); [contradiction|].
    assert (So : bytes_eqb o (bs "string") = existsb (bytes_eqb (bs "string")) (parts o)).
    { destruct (bytes_eqb_spec o (bs "string")) as [->|No]; [reflexivity|]. destruct (existsb _ (parts o)); [|reflexivity]. exfalso. apply No, parts_single, St. reflexivity. }
    rewrite <- So. destruct (bytes_eqb_spec n []) as [->|Ne]; [reflexivity|]. destruct (bytes_eqb_spec n (bs "-")) as [->|Nd]; [exfalso; apply Nt, Da; reflexivity|].
    rewrite Ch. destruct n; [contradiction|]. reflexivity.
Qed.

(** [y] is the decoder's view (name, offset, type) of the field [x]. *)
Definition seen_as (w64 : bool) (E : env) (dis : bool) (x : fld * ty) (y : (bytes * Z) * dt) : Prop :=
  json_name (fst x) = Some (fst (fst y)) /\ snd (fst y) = fd_off (fst x) /\
  exists before d after, resolves w64 E dis before (snd x) d after /\
    snd y = if json_string (fst x) then match quoted d with Some q => q | None => d end else d.
Lemma fields_seen w64 E dis seen fs ds seen' : resolves_fields w64 E dis seen fs ds seen' -> Forall (fun x => ordinary (fst x)) fs ->
  Forall2 (seen_as w64 E dis) (json_members fs) ds.
Proof.
  intros R. assert (Kn : forall f (T : ty) name q, ordinary f -> known_as f name q -> json_name f = Some name /\ json_string f = q).
  { intros f T name q Of K. apply known_name in K. rewrite (ordinary_name f Of) in K. destruct (json_name f); [|discriminate]. injection K as <- <-. auto. }
  induction R; intros Of; [constructor| | | |]; inversion Of as [|? ? O1 O2]; subst; cbn [fst] in O1; unfold json_members; cbn [filter fst].
  - match goal with H : ignored _ |- _ => apply ignored_name in H; rewrite (ordinary_name f O1) in H end. destruct (json_name f); [discriminate|]. apply IHR, O2.
  - destruct (Kn f T _ _ O1 H) as [-> S]. constructor; [|apply IHR, O2]. split; [|split; [reflexivity|]]; [cbn; eapply Kn; eassumption|]. eexists _, _, _. split; [eassumption|]. cbn. rewrite S. reflexivity.
  - destruct (Kn f T _ _ O1 H) as [-> S]. constructor; [|apply IHR, O2]. split; [|split; [reflexivity|]]; [cbn; eapply Kn; eassumption|]. eexists _, _, _. split; [eassumption|]. cbn. rewrite S, H1. reflexivity.
  - destruct (Kn f T _ _ O1 H) as [-> S]. constructor; [|apply IHR, O2]. split; [|split; [reflexivity|]]; [cbn; eapply Kn; eassumption|]. eexists _, _, _. split; [eassumption|]. cbn. rewrite S, H1. reflexivity.
Qed.

(** The members of a struct type, their names, places and types are those of
    encoding/json. *)
Theorem C52_members_partial C E dis T z ds stk D id sz fs :
  decoder_for C E dis T (DStruct z ds) stk D -> under E T = TStruct id sz fs -> Forall (fun x => ordinary (fst x)) fs ->
  z = sz /\ Forall2 (seen_as (c_w64 C) E dis) (json_members fs) ds.
Proof.
  intros Df U Of. destruct (df_type _ _ _ _ _ _ _ Df) as (seen & R). inversion R; subst; try congruence.
  match goal with H : under E T = TStruct _ _ ?fs', H2 : resolves_fields _ _ _ _ ?fs' _ _ |- _ => rewrite U in H; injection H as <- <- <-; split; [reflexivity|]; eapply fields_seen; [exact H2|exact Of] end.
Qed.

Lemma first_pos_exact names key : forall q,
  nth_error names q = Some key -> (forall k, (k < q)%nat -> nth_error names k <> Some key) -> first_pos (fun a => bytes_eqb a key) names = Some q.
Proof.
  induction names as [|a names IH]; intros q Hq Hb; [destruct q; discriminate|]. cbn [first_pos]. destruct (bytes_eqb_spec a key) as [->|Na].
  - destruct q; [reflexivity|]. exfalso. apply (Hb 0%nat); [lia|reflexivity].
  - destruct q as [|q]; [cbn in Hq; congruence|]. rewrite (IH q); [reflexivity|exact Hq|]. intros k Hk. apply (Hb (S k)). lia.
Qed.
Lemma seen_names w64 E dis l ds : Forall2 (seen_as w64 E dis) l ds -> map (fun x => Some (fst (fst x))) ds = map (fun x => json_name (fst x)) l.
Proof. induction 1 as [|x y l ds (N & _) _ IH]; [reflexivity|]. cbn [map]. rewrite N, IH. reflexivity. Qed.
Lemma F2_nth {A B} (R : A -> B -> Prop) l l' : Forall2 R l l' -> forall q x, nth_error l q = Some x -> exists y, nth_error l' q = Some y /\ R x y.
Proof. induction 1 as [|a b l l' H _ IH]; intros [|q] x Hx; try discriminate; [injection Hx as <-; exists b; auto|apply IH, Hx]. Qed.

(** A document with one member, whose key is the name of a field [f] (and of no field
    before it): the member is decoded into the field, as the type of the field says. *)
Theorem C52_member_partial C O E dis T z ds stk D id sz fs s i j ki key w q f U a h gs F :
  decoder_for C E dis T (DStruct z ds) stk D -> under E T = TStruct id sz fs -> Forall (fun x => ordinary (fst x)) fs ->
  json_text s (JObj i j [(ki, key, w)]) -> o_nounescape O = true \/ plain_str key ->
  nth_error (json_members fs) q = Some (f, U) -> json_name f = Some (key_text O key) ->
  (forall k x, (k < q)%nat -> nth_error (json_members fs) k = Some x -> json_name (fst x) <> Some (key_text O key)) ->
  variable C (DStruct z ds) h a (VStruct gs) F ->
  exists d g, nth_error ds q = Some ((key_text O key, fd_off f), d) /\ nth_error gs q = Some g /\
    (lag_of C O d w <> None -> sound C O d w ->
     match ideal C O s d w g with
     | VOk g' => exists D' h' F', Decode C O stk D s (TOk (flat 0 (JObj i j [(ki, key, w)]))) (Some a) h = Ret (-1) None D' h' /\
         variable C (DStruct z ds) h' a (VStruct (set_nth gs q g')) F'
     | VErr n e g' => exists D' h' F', Decode C O stk D s (TOk (flat 0 (JObj i j [(ki, key, w)]))) (Some a) h = Ret (Z.of_nat n) (Some e) D' h' /\
         variable C (DStruct z ds) h' a (VStruct (set_nth gs q g')) F'
     | VPan => False
     end).
Proof.
  intros Df Un Of J Hk Hq Hn Hb V. destruct (C52_members_partial C E dis T z ds stk D id sz fs Df Un Of) as [_ Sn].
  pose proof (seen_names _ _ _ _ _ Sn) as Nm. destruct (F2_nth _ _ _ Sn q _ Hq) as ([[n o] d] & Hd & N1 & N2 & _). cbn [fst snd] in N1, N2.
  assert (n = key_text O key) by congruence. subst n o.
  assert (Ff : field_for C O ds key = Some q).
  { unfold field_for, pick. rewrite (first_pos_exact _ _ q); [reflexivity| |].
    - rewrite nth_error_map, Hd. reflexivity.
    - intros k Lk Q. rewrite nth_error_map in Q. destruct (nth_error ds k) as [y|] eqn:Ey; [|discriminate]. injection Q as Q.
      assert (X : nth_error (map (fun x => json_name (fst x)) (json_members fs)) k = Some (Some (fst (fst y)))) by (rewrite <- Nm, nth_error_map, Ey; reflexivity).
      rewrite nth_error_map in X. destruct (nth_error (json_members fs) k) as [x|] eqn:Ex; [|discriminate]. injection X as X. apply (Hb k x Lk Ex). congruence. }
  assert (G : exists g, nth_error gs q = Some g).
  { destruct V as [R _]. pose proof (rep_typed _ _ _ _ _ _ R) as Ty. apply typed_struct in Ty as (gs' & [= <-] & Ty). clear - Ty Hd. revert gs q Hd Ty.
    induction ds as [|y ds IH]; intros gs [|q] Hd Ty; try discriminate; destruct gs as [|g gs]; cbn in Ty; try contradiction; [exists g; reflexivity|]. apply (IH gs q Hd). apply Ty. }
  destruct G as [g Hg]. exists d, g. split; [exact Hd|]. split; [exact Hg|]. intros Lg Sd.
  destruct (one_member C O E dis T z ds stk D s i j ki key w q _ a h gs F Df J Hk Ff Hd Lg Sd V) as (g' & Hg' & Q). cbn [snd] in Q.
  assert (g' = g) by congruence. subst g'. exact Q.
Qed.

(** ** Where the code deviates *)
(** A field that is not exported is set from the document: struct{ A int; secret int }. *)
Definition T_secret := TStruct 1 16 [(fld0 "A" 0, tInt); (fld0 "secret" 8, tInt)].
Definition s_secret := bs "{""secret"":7}".
Theorem C52_refuted_unexported :
  meaningful noenv T_secret s_secret /\ json_name (fld0 "secret" 8) = None /\
  obs (decode noenv T_secret s_secret) [(1%nat, 0); (1%nat, 8)] = Some (-1, None, [Some CZero; Some (CInt 7)]).
Proof. split; [meaningful|]. split; run. Qed.
(** The tag "-," gives the field the name "-"; the code ignores the field. *)
Definition T_dash := TStruct 1 8 [(tagged "A" "-," 0, tInt)].
Definition s_dash := bs "{""-"":7}".
Theorem C52_refuted_dash :
  meaningful noenv T_dash s_dash /\ json_name (tagged "A" "-," 0) = Some (bs "-") /\
  obs (decode noenv T_dash s_dash) [(1%nat, 0)] = Some (-1, None, [Some CZero]).
Proof. split; [meaningful|]. split; run. Qed.
(** The option string after another option is not seen: struct{ A int `json:",omitempty,string"` }. *)
Definition T_opts := TStruct 1 8 [(tagged "A" ",omitempty,string" 0, tInt)].
Definition s_opts := bs "{""A"":""7""}".
Theorem C52_refuted_options :
  meaningful noenv T_opts s_opts /\ json_string (tagged "A" ",omitempty,string" 0) = true /\
  obs (decode noenv T_opts s_opts) [(1%nat, 0)] = Some (5, Some EUnexpected, [Some CZero]).
Proof. split; [meaningful|]. split; run. Qed.
(** A name with characters that are not allowed is used nevertheless: `json:"a'b"`. *)
Definition T_mark := TStruct 1 8 [(tagged "A" "a'b" 0, tInt)].
Definition s_mark := bs "{""A"":7}".
Theorem C52_refuted_characters :
  meaningful noenv T_mark s_mark /\ json_name (tagged "A" "a'b" 0) = Some (bs "A") /\
  obs (decode noenv T_mark s_mark) [(1%nat, 0)] = Some (-1, None, [Some CZero]).
Proof. split; [meaningful|]. split; run. Qed.
(** The fields of an embedded struct are not members of the outer struct: with
    type Base struct{ X int } the type struct{ Base; Y int } is the struct with fields
    Base (embedded) and Y, and the document {"X":7,"Y":8} loses the 7.  (reflect reports an
    embedded field under the name of its type, and append_type_stack.go does not look at
    StructField.Anonymous.) *)
Definition T_embed := TStruct 1 16 [(fld0 "Base" 0, TStruct 2 8 [(fld0 "X" 0, tInt)]); (fld0 "Y" 8, tInt)].
Definition s_embed := bs "{""X"":7,""Y"":8}".
Theorem C52_refuted_embedded :
  meaningful noenv T_embed s_embed /\
  obs (decode noenv T_embed s_embed) [(1%nat, 0); (1%nat, 8)] = Some (-1, None, [Some CZero; Some (CInt 8)]).
Proof. split; [meaningful|]. run. Qed.

(** Folding is only tried on names of the same length in bytes (jscandec.go:2777-2795), so
    that a key and a name which strings.EqualFold takes for equal - encoding/json matches
    them - do not match if they differ in length: with struct{ K int } the key U+212A, the
    Kelvin sign, in three bytes.  [fold_kelvin] is the fold relation of ASCII and this pair. *)
Definition kelvin : bytes := [226; 132; 170].
Definition fold_kelvin (a b : bytes) : bool := c_fold wC a b || (bytes_eqb a (bs "K") && bytes_eqb b kelvin).
Definition C_kelvin : cfg := Cfg (c_w64 wC) (c_bytes wC) (c_uj wC) (c_ut wC) (c_pf wC) fold_kelvin.
Definition T_kelvin := TStruct 1 8 [(fld0 "K" 0, tInt)].
Definition s_kelvin := bs "{" ++ [34] ++ kelvin ++ [34] ++ bs ":7}".
Theorem C52_refuted_folding :
  json_text s_kelvin (tree_of s_kelvin) /\ fold_kelvin (bs "K") kelvin = true /\ obs (Decode C_kelvin default_opts (stack_of noenv T_kelvin) (dyn0 (stack_of noenv T_kelvin)) s_kelvin (TOk (flat 0 (tree_of s_kelvin))) (Some (1%nat, 0)) (world 8))
    [(1%nat, 0)] = Some (-1, None, [Some CZero]) /\ obs (decode noenv T_kelvin (bs "{""k"":7}")) [(1%nat, 0)] = Some (-1, None, [Some (CInt 7)]).
Proof. split; [apply parse_sound; vm_compute; reflexivity|]. split; [reflexivity|]. split; vm_compute; reflexivity. Qed.
(** For every fold relation: a key whose length is the length of no name is unknown. *)
Theorem C52_refuted_folding_always fold dis (fields : list field) key :
  Forall (fun f => length (fst f) <> length key) fields -> lookup_field fold dis fields key = None.
Proof.
  intros H.
  assert (X1 : exact_loop fields key = None).
  { rewrite (exact_loop_tail fold key (length fields)) by lia. induction H as [|x r Hx _ IH]; [reflexivity|]. cbn.
    destruct (bytes_eqb (fst x) key) eqn:E; [|exact IH]. apply bytes_eqb_eq in E. subst key. exfalso. apply Hx. reflexivity. }
  assert (X2 : ci_loop fold fields key = None).
  { rewrite (ci_loop_tail fold key (length fields)) by lia. clear X1. induction H as [|x r Hx _ IH]; [reflexivity|]. cbn. unfold ci.
    destruct (Nat.eqb_spec (length (fst x)) (length key)); [contradiction|]. exact IH. }
  unfold lookup_field, fieldFrameIndexByName. destruct dis; [exact X1|]. rewrite X1. exact X2.
Qed.

(** Case: struct{ A int `json:"x"`; B bool `json:"-"`; C float64 `json:",string"` }. *)
Definition tag_ty : ty := TStruct 1 24 [(tagged "A" "x" 0, tInt); (tagged "B" "-" 8, TBool); (tagged "C" ",string" 16, TFloat B64)].
Definition tag_dt : dt := Eval vm_compute in match elab true plain_env false 50 [] tag_ty with Some (d, _) => d | None => DEmpty end.
Definition tag_stk : list frame := Eval vm_compute in stack_of plain_env tag_ty.
Definition tag_text : bytes := bs "{""C"":""1.5""}".
Lemma tag_decoder : decoder_for wC plain_env false tag_ty tag_dt tag_stk (dyn0 tag_stk).
Proof. eapply new_decoder; [apply plain_env_sizes|vm_compute; reflexivity|vm_compute; reflexivity|vm_compute; reflexivity]. Qed.
Example C52_case :
  decoder_for wC plain_env false tag_ty tag_dt tag_stk (dyn0 tag_stk) /\
  Forall (fun x => ordinary (fst x)) [(tagged "A" "x" 0, tInt); (tagged "B" "-" 8, TBool); (tagged "C" ",string" 16, TFloat B64)] /\
  map (fun x => json_name (fst x)) (json_members [(tagged "A" "x" 0, tInt); (tagged "B" "-" 8, TBool); (tagged "C" ",string" 16, TFloat B64)]) = [Some (bs "x"); Some (bs "C")] /\
  tag_dt = DStruct 24 [((bs "x", 0), DSc (SInt (NK true WWord))); ((bs "C", 16), DSc (SFloatQ B64))] /\
  json_text tag_text (tree_of tag_text) /\
  obs (decode plain_env tag_ty tag_text) [(1%nat, 16)] = Some (-1, None, [Some (CFloat (FN 15 (-1) false))]).
Proof.
  split; [exact tag_decoder|]. split.
  { assert (Q : forall n t o, exported (tagged n t o) = true -> forallb tag_char (tag_name_of (bs t)) = true ->
      (tag_name_of (bs t) = bs "-" -> bs t = bs "-") -> (json_string (tagged n t o) = true -> options (bs t) = [bs "string"]) -> ordinary (tagged n t o))
      by (intros; split; [left; assumption|auto]).
    repeat constructor; cbn [fst]; try (apply Q; [reflexivity|reflexivity|vm_compute; intuition congruence|vm_compute; intuition congruence]). }
  split; [vm_compute; reflexivity|]. split; [reflexivity|]. split; [apply parse_sound; vm_compute; reflexivity|vm_compute; reflexivity].
Qed.

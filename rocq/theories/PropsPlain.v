(** C70, C71, C72: plain types ([any_document], as in C53): the rules of C19-C23 and
    C42-C45 without exceptions. *)
From Verif Require Import Base NumSpec StrSpec JsonNum Types AppendType Token FloatLit Heap Machine Dt Dec Control Root Elab Value Dval Sep Refine Spec Typed SpecProofs Main Parse World Elaborate PropsDecode PropsStruct PropsSlice PropsStrict Encodes RoundTrip Writable PropsRoundTrip Order PropsOrder Actual PropsExact OrderActual PropsAnyLeaf PropsSafe.
Open Scope Z_scope.

(** ** C70: what a successful call stores *)
(** A struct: every field holds the result of decoding the members for it in order,
    starting from its old value; fields without a member keep their value. *)
Theorem C70_struct C O E dis T z fs stk D s i j l a h gs F D' h' :
  decoder_for C E dis T (DStruct z fs) stk D -> any_document O (DStruct z fs) = true -> no_quoted_numbers (DStruct z fs) = true ->
  json_text s (JObj i j l) -> variable C (DStruct z fs) h a (VStruct gs) F ->
  Decode C O stk D s (TOk (flat 0 (JObj i j l))) (Some a) h = Ret (-1) None D' h' ->
  exists gs' F', variable C (DStruct z fs) h' a (VStruct gs') F' /\ length gs' = length gs /\
    (forall q nm t g, nth_error fs q = Some (nm, t) -> nth_error gs q = Some g ->
       exists g', nth_error gs' q = Some g' /\ in_turn (actual C O s t) (act_assigned C O fs q l) g = VOk g') /\
    (forall q, act_assigned C O fs q l = [] -> nth_error gs' q = nth_error gs q) /\
    (* with DisallowUnknownFields every key selects a field *)
    (o_unknown O = true -> forall k key w, In ((k, key), w) l -> act_field_for C O fs key <> None).
Proof.
  intros Df A N J V Ed. destruct (C20_fields_every_document_partial C O E dis T z fs stk D s i j l a h gs F Df A N J V) as (gs' & r & er & D1 & h1 & F' & Q & V' & (P1 & P2 & P3)).
  rewrite Ed in Q. injection Q as <- <- <- <-. exists gs', F'. split; [exact V'|]. split; [exact P1|]. split; [exact (P2 eq_refl)|]. split; [exact P3|].
  intros U k key w I E0.
  assert (G : exists g', actual C O s (DStruct z fs) (JObj i j l) (VStruct gs) = VOk g').
  { destruct (C53_plain_types_are_safe C O E dis T _ stk D s _ a h _ F Df A N J V) as (r1 & er1 & D2 & h2 & g2 & F2 & Q & _ & _ & _ & X).
    rewrite Ed in Q. injection Q as <- <- _ _. destruct (actual _ _ _ _ _ _) as [g1|? ? ?|]; [eauto|destruct X as (_ & X & _); discriminate|contradiction]. }
  destruct G as (g' & G). cbn [actual] in G. destruct (ideal_members _ _ _ _ _) as [m| |] eqn:Em; try discriminate. clear - Em U I E0.
  revert gs m Em. induction l as [|[[p ky] x] l IH]; intros gs m Em; [destruct I|]. cbn [ideal_members] in Em. destruct I as [[= -> -> ->]|I].
  - rewrite E0, U in Em. discriminate.
  - destruct (act_field_for C O fs ky); [|rewrite U in Em; discriminate].
    destruct (nth_error _ n); [|discriminate]. destruct (nth_error gs n); [|discriminate]. destruct (v x g); try discriminate. eapply IH; eauto.
Qed.
(** A map: the entry of every key is the result of decoding the values given for it, the
    first one into the old entry or a zero value; other entries are kept. *)
Theorem C70_map C O E dis T k t stk D s i j l a h g F D' h' :
  decoder_for C E dis T (DMap k t) stk D -> any_document O (DMap k t) = true -> no_quoted_numbers (DMap k t) = true ->
  json_text s (JObj i j l) -> variable C (DMap k t) h a g F ->
  Decode C O stk D s (TOk (flat 0 (JObj i j l))) (Some a) h = Ret (-1) None D' h' ->
  exists m' F', variable C (DMap k t) h' a (VMap (Some m')) F' /\
    (forall key, entry (actual C O s t) (is_struct t) (zero t) (act_gives C k l key) (getk (entries_of g) key) = VOk (getk m' key)) /\
    (forall key, act_gives C k l key = [] -> getk m' key = getk (entries_of g) key).
Proof.
  intros Df A N J V Ed. destruct (C23_entries_every_document_partial C O E dis T k t stk D s i j l a h g F Df A N J V) as (m' & r & er & D1 & h1 & F' & Q & V' & (P1 & P2)).
  rewrite Ed in Q. injection Q as <- <- <- <-. exists m', F'. auto.
Qed.
(** A slice: as many elements as the array; element k is the k-th element of the document
    decoded into the old element ([prior]; zero if there is none); the backing array is kept
    if its capacity suffices. *)
Theorem C70_slice C O E dis T t stk D s i j l a h g F data len cap D' h' :
  decoder_for C E dis T (DSlice t) stk D -> any_document O (DSlice t) = true -> json_text s (JArr i j l) ->
  variable C (DSlice t) h a g F -> header h a data len cap -> t <> DEmpty ->
  Decode C O stk D s (TOk (flat 0 (JArr i j l))) (Some a) h = Ret (-1) None D' h' ->
  (exists vis' hid' F', variable C (DSlice t) h' a (VSlice (Some (vis', hid'))) F' /\ length vis' = length l /\
     forall k x, nth_error l k = Some x -> exists g', nth_error vis' k = Some g' /\ actual C O s t x (prior t g (length l) k) = VOk g') /\
  match l with
  | [] => exists b, header h' a (Some b) 0 0
  | _ => header_after (dsize (c_w64 C) t) h data cap (Z.of_nat (length l)) h' a
  end.
Proof.
  intros Df A J V H Nt Ed. destruct (C21_slice_every_document_partial C O E dis T t stk D s i j l a h g F data len cap D' h' Df A J V H Nt Ed) as ((vis' & hid' & F' & V' & P1 & _ & P3) & Q).
  split; [exists vis', hid', F'; auto|]. destruct l; [exact Q|exact (proj1 Q)].
Qed.
(** An array: surplus elements of the document are ignored; elements the document does not
    mention keep their value. *)
Theorem C70_array C O E dis T n t stk D s i j l a h gs F D' h' :
  decoder_for C E dis T (DArr n t) stk D -> any_document O (DArr n t) = true -> json_text s (JArr i j l) ->
  variable C (DArr n t) h a (VArr gs) F ->
  Decode C O stk D s (TOk (flat 0 (JArr i j l))) (Some a) h = Ret (-1) None D' h' ->
  exists gs' F', variable C (DArr n t) h' a (VArr gs') F' /\ length gs' = n /\
    (forall k x, (k < n)%nat -> nth_error l k = Some x ->
       exists g g', nth_error gs k = Some g /\ nth_error gs' k = Some g' /\ actual C O s t x g = VOk g') /\
    (forall k, (length l <= k)%nat -> nth_error gs' k = nth_error gs k).
Proof.
  intros Df A J V Ed.
  destruct (C22_characterised_partial C O E dis T n t stk D s i j l a h gs F Df J (any_ctl C O _ A _) V) as [(k & x & g & _ & _ & _ & _ & Q)|(gs' & D1 & h1 & F' & V' & _ & Ln & [(Q & P1 & P2)|(k & x & g & idx & e & g' & _ & _ & _ & _ & _ & Q & _)])].
  - rewrite Ed in Q. discriminate.
  - rewrite Ed in Q. injection Q as <- <-. exists gs', F'. auto.
  - rewrite Ed in Q. discriminate.
Qed.

(** ** C71: encodings *)
(** Types without pointers and struct{} below the root; DisallowUnknownFields is not needed. *)
Theorem C71_decode_inverts_encoding C O E dis T d stk D s v x a h g F :
  decoder_for C E dis T d stk D -> root_shape d = true -> json_text s v -> encodes C O s d x v ->
  variable C d h a g F -> empty_maps d g ->
  exists D' h' g' F', Decode C O stk D s (TOk (flat 0 v)) (Some a) h = Ret (-1) None D' h' /\
    variable C d h' a g' F' /\ same_value x g' /\ only h h' (Some a) (dsize (c_w64 C) d) F F'.
Proof. exact (C42_decode_inverts_encoding_partial C O E dis T d stk D s v x a h g F). Qed.
Theorem C71_every_value_has_a_text C O E dis T d stk D x a h g F :
  decoder_for C E dis T d stk D -> root_shape d = true -> writable C d x ->
  variable C d h a g F -> empty_maps d g ->
  exists s v, json_text s v /\
    exists D' h' g' F', Decode C O stk D s (TOk (flat 0 v)) (Some a) h = Ret (-1) None D' h' /\
      variable C d h' a g' F' /\ same_value x g'.
Proof. exact (C43_every_value_has_a_text_partial C O E dis T d stk D x a h g F). Qed.

(** ** C72: the order of members, and decoding again *)
Theorem C72_member_order C O E dis T d stk D1 D2 s1 s2 v1 v2 a1 a2 h1 h2 g F1 F2 :
  no_json d = true -> decoder_for C E dis T d stk D1 -> decoder_for C E dis T d stk D2 ->
  any_document O d = true -> no_quoted_numbers d = true ->
  json_text s1 v1 -> json_text s2 v2 -> reordered v1 v2 -> act_unlike C O d v1 ->
  variable C d h1 a1 g F1 -> variable C d h2 a2 g F2 ->
  (exists D1' D2' h1' h2' g1 g2 F1' F2',
     Decode C O stk D1 s1 (TOk (flat 0 v1)) (Some a1) h1 = Ret (-1) None D1' h1' /\ variable C d h1' a1 g1 F1' /\
     Decode C O stk D2 s2 (TOk (flat 0 v2)) (Some a2) h2 = Ret (-1) None D2' h2' /\ variable C d h2' a2 g2 F2' /\
     same_value g1 g2) \/
  (exists D1' D2' h1' h2' i1 i2 e1 e2,
     Decode C O stk D1 s1 (TOk (flat 0 v1)) (Some a1) h1 = Ret i1 (Some e1) D1' h1' /\
     Decode C O stk D2 s2 (TOk (flat 0 v2)) (Some a2) h2 = Ret i2 (Some e2) D2' h2').
Proof. exact (C44_member_order_every_document_partial C O E dis T d stk D1 D2 s1 s2 v1 v2 a1 a2 h1 h2 g F1 F2). Qed.
Theorem C72_decoding_again C O E dis T d stk D s v a h g F D1 h1 :
  no_user d = true -> any_document O d = true -> decoder_for C E dis T d stk D -> json_text s v -> act_unlike C O d v -> variable C d h a g F ->
  Decode C O stk D s (TOk (flat 0 v)) (Some a) h = Ret (-1) None D1 h1 ->
  exists g1 F1 D2 h2 F2, variable C d h1 a g1 F1 /\
    Decode C O stk D1 s (TOk (flat 0 v)) (Some a) h1 = Ret (-1) None D2 h2 /\ variable C d h2 a g1 F2.
Proof. exact (C45_decoding_again_every_document_partial C O E dis T d stk D s v a h g F D1 h1). Qed.

(** ** Cases *)
(** A call that succeeds from the zero value, for four types. *)
Definition plain_case (O : opts) (T : ty) (d : dt) (s : bytes) (v : jv) (g : gval) : Prop :=
  exists stk size, decoder_for wC plain_env false T d stk (dyn0 stk) /\ any_document O d = true /\ no_quoted_numbers d = true /\ json_text s v /\
    variable wC d (world size) (1%nat, 0) (zero d) [] /\
    exists D' h' F', Decode wC O stk (dyn0 stk) s (TOk (flat 0 v)) (Some (1%nat, 0)) (world size) = Ret (-1) None D' h' /\ variable wC d h' (1%nat, 0) g F'.
Lemma plain_call O T d stk s v g :
  decoder_for wC plain_env false T d stk (dyn0 stk) -> any_document O d = true -> no_quoted_numbers d = true -> parse s = Some v ->
  actual wC O s d v (zero d) = VOk g -> plain_case O T d s v g.
Proof.
  intros Df A N J Ea. apply parse_sound in J. exists stk, (dsize true d). pose proof (world_rep d (df_layout _ _ _ _ _ _ _ Df)) as V.
  split; [exact Df|]. split; [exact A|]. split; [exact N|]. split; [exact J|]. split; [exact V|].
  destruct (C53_plain_types_are_safe wC O plain_env false T d stk _ s v (1%nat, 0) _ _ [] Df A N J V) as (r & er & D' & h' & g' & F' & Q & V' & _ & _ & X).
  rewrite Ea in X. destruct X as (-> & -> & ->). exists D', h', F'. auto.
Qed.
Ltac plain_case := match goal with |- plain_case ?O ?T ?d ?s _ _ =>
  eapply plain_call; [eapply new_decoder; [apply plain_env_sizes|vm_compute; reflexivity|vm_compute; reflexivity|vm_compute; reflexivity]|vm_compute; reflexivity|vm_compute; reflexivity|vm_compute; reflexivity|vm_compute; reflexivity] end.
Definition pl_struct : ty := TStruct 1 24 [(fld0 "A" 0, tInt8); (fld0 "B" 8, TStr)].
Example C70_struct_case : exists d v, plain_case strict pl_struct d (bs "{""A"":1,""B"":""x"",""a"":-3}") v (VStruct [VInt (-3); VStr (bs "x")]).
Proof. eexists _, _. plain_case. Qed.
Example C70_map_case : exists d v, plain_case default_opts (TMap TStr (TSlice TBool)) d (bs "{""k"":[true],""l"":null,""k"":[]}") v
  (VMap (Some [(GStr (bs "k"), VSlice (Some ([], []))); (GStr (bs "l"), VSlice None)])).
Proof. eexists _, _. plain_case. Qed.
Example C70_slice_case : exists d v, plain_case default_opts (TSlice (TArr 2 TStr)) d (bs "[[""a""],[],[""b"",""c"",""d""]]") v
  (VSlice (Some ([VArr [VStr (bs "a"); VStr []]; VArr [VStr []; VStr []]; VArr [VStr (bs "b"); VStr (bs "c")]], []))).
Proof. eexists _, _. plain_case. Qed.
Example C70_array_case : exists d v, plain_case default_opts (TArr 3 TAny) d (bs "[{""a"":[]}, null]") v
  (VArr [VAny (NObj [(bs "a", NArr [])]); VAny NNil; VAny NNil]).
Proof. eexists _, _. plain_case. Qed.

(** C42: decoding inverts encoding.  C43: every value of a type can be obtained.

    [encodes C O s d x v] (Encodes.v): the document [v] is an encoding of the Go value [x]
    of type [d].  [same_value x g]: the Go values are equal (maps are unordered, slice
    elements beyond the length do not count, floats are compared as numbers). *)
From Coq Require Import Permutation.
From Verif Require Import Base NumSpec StrSpec Types AppendType Token FloatLit Heap Machine Dt Dec Control Root Elab Value Dval Sep Refine Spec Typed SpecProofs Main Parse World Elaborate PropsDecode PropsStruct PropsSlice PropsNested Encodes RoundTrip Render Writable.
Open Scope Z_scope.

(** ** C42 *)
(** Whatever encoding of a value is decoded, into whatever variable (whose maps are empty),
    with whatever options and after whatever calls: Decode succeeds and the variable holds
    that value.  Missing from the full claim: the documents outside the class [ctl_root]
    (Control.v), for which it is false ([C25_refuted_...] in PropsRefuted.v). *)
Theorem C42_encodings_in_class_partial C O E dis T d stk D s v x a h g F :
  decoder_for C E dis T d stk D -> json_text s v -> ctl_root C O d v -> encodes C O s d x v ->
  variable C d h a g F -> empty_maps d g ->
  exists D' h' g' F', Decode C O stk D s (TOk (flat 0 v)) (Some a) h = Ret (-1) None D' h' /\
    variable C d h' a g' F' /\ same_value x g' /\ only h h' (Some a) (dsize (c_w64 C) d) F F'.
Proof.
  intros Df J Ct En V Em. pose proof (encodes_sound C O s d v x En) as Sd.
  pose proof (C15_decode_is_ideal_partial C O E dis T d stk D s v a h g F Df J Ct Sd V) as Q.
  destruct (ideal_encodes C O s d v x g En (rep_typed _ _ _ _ _ _ (proj1 V)) Em) as (g' & E' & S). rewrite E' in Q.
  destruct Q as (D' & h' & F' & Q & V' & Y). exists D', h', g', F'. auto.
Qed.
(** For a type without pointers and struct{} below the root ([root_shape]) every encoding
    is in the class. *)
Theorem C42_decode_inverts_encoding_partial C O E dis T d stk D s v x a h g F :
  decoder_for C E dis T d stk D -> root_shape d = true -> json_text s v -> encodes C O s d x v ->
  variable C d h a g F -> empty_maps d g ->
  exists D' h' g' F', Decode C O stk D s (TOk (flat 0 v)) (Some a) h = Ret (-1) None D' h' /\
    variable C d h' a g' F' /\ same_value x g' /\ only h h' (Some a) (dsize (c_w64 C) d) F F'.
Proof.
  intros Df Rs J En V Em. exact (C42_encodings_in_class_partial C O E dis T d stk D s v x a h g F Df J (encodes_ctl_root C O s d Rs v x En) En V Em).
Qed.

(** Case: the type of C15_case; members in another order, a float in another notation, an
    escaped key, white space. *)
Definition rt_text : bytes :=
  bs "{ ""D"":""-2.50"", ""C"" : {""k\u0031"":{""Y"":{""z"":[0.15e4, true],""a"":null},""X"":[true,false]}, ""\n"":{""X"":[false,false],""Y"":null}}, ""B"":[""p"",""q\n""], ""A"":-5 }".
Definition rt_doc : jv := Eval vm_compute in tree_of rt_text.
Definition rt_value : gval :=
  VStruct [VInt (-5);
           VSlice (Some ([VStr (bs "p"); VStr [113; 10]], []));
           VMap (Some [(GStr [10], VStruct [VArr [VBool false; VBool false]; VAny NNil]);
                       (GStr (bs "k1"), VStruct [VArr [VBool true; VBool false]; VAny (NObj [(bs "a", NNil); (bs "z", NArr [NNum (FN 1500 0 false); NBool true])])])]);
           VFloat (FN (-25) (-1) false)].
Lemma rt_json : json_text rt_text rt_doc.
Proof. apply parse_sound. vm_compute. reflexivity. Qed.
(** A checker for strings, for the examples. *)
Definition pairs_free (l : list sitem) : bool := forallb (fun i => match i with IU _ _ _ _ v => v <? 55296 | _ => true end) l.
Lemma is_string_check r t l : str_items (r ++ [34]) = Some (l, []) -> pairs_free l = true -> meaning l = t -> is_string r t.
Proof.
  intros H P M. apply (str_items_sound (length (r ++ [34]))) in H as (E & A & B); [|lia]. exists l. apply app_inj_tail in E as [E _].
  split; [split; [exact A|exact E]|]. split; [exact B|]. split; [|exact M]. clear - P. induction l as [|x l IH]; [exact I|]. cbn in P. apply andb_true_iff in P as [P1 P2].
  cbn [pair_free]. destruct x; try exact (IH P2). destruct l as [|y l]; [exact I|]. destruct y; try exact (IH P2). split; [lia|exact (IH P2)].
Qed.
Ltac str := eapply is_string_check; [vm_compute; reflexivity|reflexivity|vm_compute; reflexivity].
Ltac nodup := repeat constructor; cbn; intuition discriminate.
Lemma rt_encodes : encodes wC default_opts rt_text ex_dt rt_value rt_doc.
Proof.
  unfold ex_dt, rt_value, rt_doc. cbn [encodes]. split; [nodup|]. eexists. split; [apply Permutation_rev|]. cbn [rev app map].
  repeat match goal with |- encodes_fields _ (_ :: _) _ _ => split; [split; [split; [str|discriminate]|]|] end; [| | | |exact I].
  - split; [right; split; [repeat constructor; unfold is_digit; lia|]; do 2 eexists; split; [reflexivity|discriminate]|]. split; [reflexivity|]. split; [vm_compute; split; discriminate|discriminate].
  - repeat constructor; cbn; str.
  - split; [nodup|]. eexists. split; [apply perm_swap|]. constructor; [split; [cbn; str|]|constructor; [split; [cbn; str|]|constructor]]; cbn [snd encodes].
    + split; [nodup|]. eexists. split; [apply Permutation_rev|]. cbn [rev app map].
      split; [split; [split; [str|discriminate]|]|split; [split; [split; [str|discriminate]|]|exact I]].
      * split; [reflexivity|]. repeat constructor.
      * cbn. eapply ea_obj; [apply perm_swap|nodup|]. constructor; [split; [cbn; str|]|constructor; [split; [cbn; str|]|constructor]]; cbn [snd].
        -- constructor. constructor; [|constructor; [constructor|constructor]]. constructor. split; [reflexivity|split; reflexivity].
        -- constructor.
    + split; [nodup|]. eexists. split; [apply Permutation_refl|]. cbn [map].
      split; [split; [split; [str|discriminate]|]|split; [split; [split; [str|discriminate]|]|exact I]].
      * split; [reflexivity|]. repeat constructor.
      * constructor.
  - split; [|split; [reflexivity|split; reflexivity]]. apply is_num_spec. reflexivity.
Qed.
Example C42_case : exists D' h' g' F', Decode wC default_opts ex_stk (dyn0 ex_stk) rt_text (TOk (flat 0 rt_doc)) dest (world 48) = Ret (-1) None D' h' /\
    variable wC ex_dt h' (1%nat, 0) g' F' /\ same_value rt_value g'.
Proof.
  pose proof (world_rep ex_dt (df_layout _ _ _ _ _ _ _ ex_decoder)) as [R Ow].
  destruct (C42_decode_inverts_encoding_partial _ _ _ _ _ _ _ _ _ _ rt_value (1%nat, 0) _ _ [] ex_decoder eq_refl rt_json rt_encodes (conj R Ow) (zero_empty _))
    as (D' & h' & g' & F' & Q & V & S & _). exists D', h', g', F'. auto.
Qed.

(** A struct with pointers (PropsNested.v): {"A":null,"B":true,"x":{},"P":{..}} is not an
    encoding (it has an unknown member), without "x" it is. *)
Definition rtp_text : bytes := bs "{""A"":null,""B"":true,""P"":{""A"":-5,""B"":[],""C"":{},""D"":""1.5""}}".
Definition rtp_value : gval :=
  VStruct [VPtr None; VBool true; VPtr (Some (VStruct [VInt (-5); VSlice (Some ([], [])); VMap (Some []); VFloat (FN 15 (-1) false)]))].
Example C42_pointer_case : exists stk D' h' g' F', Decode wC default_opts stk (dyn0 stk) rtp_text (TOk (flat 0 (tree_of rtp_text))) dest (world 24) = Ret (-1) None D' h' /\
    variable wC np_dt h' (1%nat, 0) g' F' /\ same_value rtp_value g'.
Proof.
  assert (Df : decoder_for wC plain_env false np_ty np_dt np_stk (dyn0 np_stk)) by (eapply new_decoder; [apply plain_env_sizes|vm_compute; reflexivity|vm_compute; reflexivity|vm_compute; reflexivity]).
  assert (J : json_text rtp_text (tree_of rtp_text)) by (apply parse_sound; vm_compute; reflexivity).
  assert (Ct : ctl_root wC default_opts np_dt (tree_of rtp_text)) by (apply ctl_rootb_spec; vm_compute; reflexivity).
  assert (En : encodes wC default_opts rtp_text np_dt rtp_value (tree_of rtp_text)).
  { let a := eval vm_compute in (tree_of rtp_text) in change (tree_of rtp_text) with a. unfold np_dt, rtp_value. cbn [encodes]. split; [nodup|]. eexists. split; [apply Permutation_refl|]. cbn [map].
    repeat match goal with |- encodes_fields _ (_ :: _) _ _ => split; [split; [split; [str|discriminate]|]|] end; [| | |exact I]; [reflexivity|reflexivity|].
    split; [reflexivity|]. cbn [encodes]. split; [nodup|]. eexists. split; [apply Permutation_refl|]. cbn [map].
    repeat match goal with |- encodes_fields _ (_ :: _) _ _ => split; [split; [split; [str|discriminate]|]|] end; [| | | |exact I].
    - split; [right; split; [repeat constructor; unfold is_digit; lia|]; do 2 eexists; split; [reflexivity|discriminate]|]. split; [reflexivity|]. split; [vm_compute; split; discriminate|discriminate].
    - constructor.
    - split; [nodup|]. eexists. split; [apply Permutation_refl|]. constructor.
    - split; [|split; [reflexivity|split; reflexivity]]. apply is_num_spec. reflexivity. }
  pose proof (world_rep np_dt (df_layout _ _ _ _ _ _ _ Df)) as [R Ow].
  destruct (C42_encodings_in_class_partial _ _ _ _ _ _ _ _ _ _ rtp_value (1%nat, 0) _ _ [] Df J Ct En (conj R Ow) (zero_empty _))
    as (D' & h' & g' & F' & Q & V & S & _). exists np_stk, D', h', g', F'. auto.
Qed.

(** ** C43 *)
(** Every value of the type (integers in range, finite floats, strings of bytes, distinct
    map keys, struct field names that need no escapes) has a JSON text which Decode turns
    into that value. *)
Theorem C43_every_value_has_a_text_partial C O E dis T d stk D x a h g F :
  decoder_for C E dis T d stk D -> root_shape d = true -> writable C d x ->
  variable C d h a g F -> empty_maps d g ->
  exists s v, json_text s v /\
    exists D' h' g' F', Decode C O stk D s (TOk (flat 0 v)) (Some a) h = Ret (-1) None D' h' /\
      variable C d h' a g' F' /\ same_value x g'.
Proof.
  intros Df Rs W V Em. destruct (print_exists C O d x W) as (v & Wf & _ & En). exists (render v), (place 0 v). split; [apply render_text, Wf|].
  destruct (C42_decode_inverts_encoding_partial C O E dis T d stk D (render v) (place 0 v) x a h g F Df Rs (render_text v Wf) (En _ _) V Em) as (D' & h' & g' & F' & Q & V' & S & _).
  exists D', h', g', F'. auto.
Qed.
(** Case: the value of C42_case. *)
Example C43_case : writable wC ex_dt rt_value.
Proof.
  unfold ex_dt, rt_value. cbn [writable].
  split; [nodup|]. repeat match goal with |- _ /\ _ => split end; try exact I; try (repeat constructor; cbn; lia); try (vm_compute; split; discriminate).
  - nodup.
Qed.

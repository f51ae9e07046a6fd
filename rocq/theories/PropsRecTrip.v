(** C42, C43 for recursive struct types.

    [encodes_rec C O s fs x v] (RecTrip.v): the document [v] is an encoding of the tree [x]
    of the struct type with fields [fs].  The variable decoded into is new (zero). *)
From Coq Require Import Permutation.
From Verif Require Import Base NumSpec StrSpec Types AppendType Token FloatLit Heap Machine Dt Dec Control Root Elab Rec Value Dval Sep Refine Spec SpecProofs Main Parse World Elaborate RecSpec RecRefine RecElab PropsRec Encodes RoundTrip Render Writable RecTrip PropsRoundTrip.
Open Scope Z_scope.

(** Any encoding of any tree, of any depth, with recursion through pointers, slices and
    maps.  Missing from the full claim: the documents outside the class [rctl] (Rec.v), for
    which it is false (C27_refuted_member_order, C27_refuted_map_in_list: the documents of
    these theorems are encodings up to members left out), decoders that have failed before
    (C28), recursion that does not start at the root, and variables that are not new. *)
Theorem C42_recursive_in_class_partial C O E dis T z fs stk D s v x a h F :
  rdecoder_for C E dis T z fs stk D -> json_text s v -> rctl C O fs v -> encodes_rec C O s fs x v ->
  rvariable C z fs h a (VStruct (rzeros fs)) F ->
  exists D' h' g' F', Decode C O stk D s (TOk (flat 0 v)) (Some a) h = Ret (-1) None D' h' /\
    rvariable C z fs h' a g' F' /\ same_value x g' /\ only h h' (Some a) z F F'.
Proof.
  intros Df J Ct En V. pose proof (C26_recursive_partial C O E dis T z fs stk D s v a h _ F Df J Ct (encodes_rsound C O s fs x v En) V) as Q.
  destruct (ideal_rec_encodes C O s fs x v En) as (g' & E' & S). rewrite E' in Q.
  destruct Q as (D' & h' & F' & Q & V' & Y). exists D', h', g', F'. auto.
Qed.
(** If the recursion is through pointers only ([pointer_tree]) every encoding is in the
    class: any order of members at every level. *)
Theorem C42_recursive_pointers_partial C O E dis T z fs stk D s v x a h F :
  rdecoder_for C E dis T z fs stk D -> pointer_tree fs = true -> json_text s v -> encodes_rec C O s fs x v ->
  rvariable C z fs h a (VStruct (rzeros fs)) F ->
  exists D' h' g' F', Decode C O stk D s (TOk (flat 0 v)) (Some a) h = Ret (-1) None D' h' /\
    rvariable C z fs h' a g' F' /\ same_value x g' /\ only h h' (Some a) z F F'.
Proof.
  intros Df Pt J En V. exact (C42_recursive_in_class_partial C O E dis T z fs stk D s v x a h F Df J (encodes_rctl C O s fs x v Pt En) En V).
Qed.
(** Every finite tree of such a type has a JSON text from which Decode makes that tree. *)
Theorem C43_recursive_partial C O E dis T z fs stk D x a h F :
  rdecoder_for C E dis T z fs stk D -> pointer_tree fs = true -> writable_rec C fs x ->
  rvariable C z fs h a (VStruct (rzeros fs)) F ->
  exists s v, json_text s v /\
    exists D' h' g' F', Decode C O stk D s (TOk (flat 0 v)) (Some a) h = Ret (-1) None D' h' /\
      rvariable C z fs h' a g' F' /\ same_value x g'.
Proof.
  intros Df Pt W V. destruct (print_rec C O fs x W) as (v & Wf & En). exists (render v), (place 0 v). split; [apply render_text, Wf|].
  destruct (C42_recursive_pointers_partial C O E dis T z fs stk D (render v) (place 0 v) x a h F Df Pt (render_text v Wf) (En _ _) V) as (D' & h' & g' & F' & Q & V' & S & _).
  exists D', h', g', F'. auto.
Qed.

(** Case: type Node of C26_case. *)
Definition rtr_text : bytes :=
  bs "{""R"":{""V"":2,""left"":{""R"":null,""T"":[""x""],""left"":null,""V"":-3},""T"":[],""R"":null}, ""T"":null, ""left"":null, ""\u0056"":1}".
Definition rtr_doc : jv := Eval vm_compute in tree_of rtr_text.
Definition rtr_value : gval :=
  VStruct [VInt 1; VPtr None; VSlice None;
    VPtr (Some (VStruct [VInt 2; VPtr (Some (VStruct [VInt (-3); VPtr None; VSlice (Some ([VStr (bs "x")], [])); VPtr None])); VSlice (Some ([], [])); VPtr None]))].
Lemma node_new : rvariable wC 48 node_fs (world 48) (1%nat, 0) (VStruct (rzeros node_fs)) [].
Proof.
  split.
  - apply rrep_zero with (z := 48); [exact (rdf_layout _ _ _ _ _ _ _ _ node_decoder)|].
    intros x Hx. cbn. destruct (Z.leb_spec 0 x), (Z.ltb_spec x 48); try lia. reflexivity.
  - split; [cbn; lia|]. split; [constructor|]. split; [intros b []|]. intros b [= <-]. cbn. lia.
Qed.
Lemma rtr_encodes : encodes_rec wC default_opts rtr_text node_fs rtr_value rtr_doc.
Proof.
  assert (Int : forall k r z, is_int r = true -> int_value r = z -> in_range (kind_of wC k) z -> nk_signed k = true -> is_integer wC k r z).
  { intros k r z J V I S. split; [apply is_int_spec, J|]. split; [exact V|]. split; [exact I|]. congruence. }
  assert (N : NoDup (rnames node_fs)) by (unfold node_fs, rnames; cbn [map fst snd]; nodup).
  exists 3%nat. unfold rtr_value, rtr_doc. cbn [encodes_n encodes_struct]. split; [apply N|].
  eexists. split; [apply Permutation_rev|]. cbn [rev app]. unfold node_fs; cbn [map fst snd].
  repeat match goal with |- encodes_fields _ (_ :: _) _ _ => split; [split; [split; [str|discriminate]|]|] end; [| | | |exact I]; cbn [encodes_kind snd].
  - cbn. apply Int; [reflexivity|reflexivity|vm_compute; split; discriminate|reflexivity].
  - reflexivity.
  - cbn. discriminate.
  - split; [reflexivity|]. cbn [encodes_struct]. split; [apply N|]. eexists. split; [apply Permutation_refl|]. unfold node_fs; cbn [map fst snd].
    repeat match goal with |- encodes_fields _ (_ :: _) _ _ => split; [split; [split; [str|discriminate]|]|] end; [| | | |exact I]; cbn [encodes_kind snd].
    + cbn. apply Int; [reflexivity|reflexivity|vm_compute; split; discriminate|reflexivity].
    + split; [reflexivity|]. cbn [encodes_struct]. split; [apply N|]. eexists. split; [apply Permutation_rev|]. cbn [rev app]. unfold node_fs; cbn [map fst snd].
      repeat match goal with |- encodes_fields _ (_ :: _) _ _ => split; [split; [split; [str|discriminate]|]|] end; [| | | |exact I]; cbn [encodes_kind snd].
      * cbn. apply Int; [reflexivity|reflexivity|vm_compute; split; discriminate|reflexivity].
      * reflexivity.
      * cbn. constructor; [str|constructor].
      * reflexivity.
    + cbn. constructor.
    + reflexivity.
Qed.
Example C42_recursive_case : exists D' h' g' F', Decode wC default_opts node_stk (dyn0 node_stk) rtr_text (TOk (flat 0 rtr_doc)) dest (world 48) = Ret (-1) None D' h' /\
    rvariable wC 48 node_fs h' (1%nat, 0) g' F' /\ same_value rtr_value g'.
Proof.
  assert (J : json_text rtr_text rtr_doc) by (apply parse_sound; vm_compute; reflexivity).
  destruct (C42_recursive_pointers_partial wC default_opts E_node false (TNamed 0) 48 node_fs node_stk (dyn0 node_stk) rtr_text rtr_doc rtr_value (1%nat, 0) (world 48) []
              node_decoder eq_refl J rtr_encodes node_new) as (D' & h' & g' & F' & Q & V & S & _).
  exists D', h', g', F'. auto.
Qed.
Example C43_recursive_case : writable_rec wC node_fs rtr_value.
Proof.
  exists 3%nat. unfold rtr_value.
  assert (N : NoDup (rnames node_fs)) by (unfold node_fs, rnames; cbn [map fst snd]; nodup).
  assert (Pl : Forall (fun x => plain (fst (fst x))) node_fs) by (unfold node_fs, plain; repeat constructor; cbn; lia).
  assert (B : forall n v l t r, in_range (kind_of wC (NK true W8)) v -> writable_kind wC (writable_n wC node_fs n) RSelf l ->
            writable wC (DSlice (DSc SStr)) t -> writable_kind wC (writable_n wC node_fs n) RSelf r -> writable_n wC node_fs (S n) (VStruct [VInt v; l; t; r])).
  { intros n v l t r Hv Hl Ht Hr. exists [VInt v; l; t; r]. split; [reflexivity|]. split; [exact N|]. inversion Pl as [|? ? P1 Q1]; subst. inversion Q1 as [|? ? P2 Q2]; subst.
    inversion Q2 as [|? ? P3 Q3]; subst. inversion Q3 as [|? ? P4 Q4]; subst. repeat (split; [split; assumption|]). exact I. }
  apply B; [vm_compute; split; discriminate|exact I|cbn; discriminate|]. cbn [writable_kind].
  apply B; [vm_compute; split; discriminate| |constructor|exact I]. cbn [writable_kind].
  apply B; [vm_compute; split; discriminate|exact I| |exact I]. cbn. constructor; [|constructor]. repeat constructor; lia.
Qed.

(** Case with lists and maps: type Dir of C27_case. *)
Definition rtd_text : bytes :=
  bs "{""Name"":""r"",""Sub"":[{""Name"":""a"",""Sub"":[{""Name"":""c"",""Sub"":[],""Idx"":null,""Up"":null,""N"":3}],""Idx"":null,""Up"":null,""N"":1},{""Name"":""b"",""Sub"":null,""Idx"":null,""Up"":null,""N"":2}],""Idx"":{""k"":{""Name"":""d"",""Sub"":null,""Idx"":null,""Up"":null,""N"":4}},""Up"":{""Name"":"""",""Sub"":null,""Idx"":null,""Up"":null,""N"":5},""N"":6}".
Definition rtd_doc : jv := Eval vm_compute in tree_of rtd_text.
Definition rtd_value : gval :=
  let leaf t n := VStruct [VStr t; VSlice None; VMap None; VPtr None; VInt n] in
  VStruct [VStr (bs "r");
    VSlice (Some ([VStruct [VStr (bs "a"); VSlice (Some ([VStruct [VStr (bs "c"); VSlice (Some ([], [])); VMap None; VPtr None; VInt 3]], [])); VMap None; VPtr None; VInt 1];
                   leaf (bs "b") 2], []));
    VMap (Some [(GStr (bs "k"), leaf (bs "d") 4)]); VPtr (Some (leaf [] 5)); VInt 6].
Lemma rtd_encodes : encodes_rec wC default_opts rtd_text dir_fs rtd_value rtd_doc.
Proof.
  assert (Int : forall k r z, is_int r = true -> int_value r = z -> in_range (kind_of wC k) z -> nk_signed k = true -> is_integer wC k r z).
  { intros k r z J V I S. split; [apply is_int_spec, J|]. split; [exact V|]. split; [exact I|]. congruence. }
  assert (N : NoDup (rnames dir_fs)) by (unfold dir_fs, rnames; cbn [map fst snd]; nodup).
  assert (B : forall n i j a b c d e i1 i2 i3 i4 i5 va vb vc vd ve,
     encodes_kind wC default_opts rtd_text (encodes_n wC default_opts rtd_text dir_fs n) (RSub (DSc SStr)) a va ->
     encodes_kind wC default_opts rtd_text (encodes_n wC default_opts rtd_text dir_fs n) RSlice b vb ->
     encodes_kind wC default_opts rtd_text (encodes_n wC default_opts rtd_text dir_fs n) (RMap KeyStr) c vc ->
     encodes_kind wC default_opts rtd_text (encodes_n wC default_opts rtd_text dir_fs n) RSelf d vd ->
     encodes_kind wC default_opts rtd_text (encodes_n wC default_opts rtd_text dir_fs n) (RSub (DSc (SInt (NK true W16)))) e ve ->
     encodes_n wC default_opts rtd_text dir_fs (S n) (VStruct [a; b; c; d; e])
       (JObj i j [((i1, bs "Name"), va); ((i2, bs "Sub"), vb); ((i3, bs "Idx"), vc); ((i4, bs "Up"), vd); ((i5, bs "N"), ve)])).
  { intros. cbn [encodes_n encodes_struct]. split; [exact N|]. eexists. split; [apply Permutation_refl|]. unfold dir_fs; cbn [map fst snd].
    repeat match goal with |- encodes_fields _ (_ :: _) _ _ => split; [split; [split; [str|discriminate]|assumption]|] end. exact I. }
  exists 3%nat. unfold rtd_value, rtd_doc.
  Ltac leaf Int := cbn [encodes_kind]; first
    [ exact I | reflexivity | (cbn; str) | (cbn; apply Int; [reflexivity|reflexivity|vm_compute; split; discriminate|reflexivity]) | idtac ].
  apply B; leaf Int.
  - constructor; [|constructor; [|constructor]]; (apply B; leaf Int).
    constructor; [|constructor]. apply B; leaf Int. constructor.
  - split; [nodup|]. eexists. split; [apply Permutation_refl|]. constructor; [|constructor]. split; [cbn; str|]. apply B; leaf Int.
  - split; [reflexivity|]. apply B; leaf Int.
Qed.
Example C42_recursive_lists_case : exists D' h' g' F', Decode wC default_opts dir_stk (dyn0 dir_stk) rtd_text (TOk (flat 0 rtd_doc)) dest (world 64) = Ret (-1) None D' h' /\
    rvariable wC 64 dir_fs h' (1%nat, 0) g' F' /\ same_value rtd_value g'.
Proof.
  assert (V : rvariable wC 64 dir_fs (world 64) (1%nat, 0) (VStruct (rzeros dir_fs)) []).
  { split.
    - apply rrep_zero with (z := 64); [exact (rdf_layout _ _ _ _ _ _ _ _ dir_decoder)|].
      intros x Hx. cbn. destruct (Z.leb_spec 0 x), (Z.ltb_spec x 64); try lia. reflexivity.
    - split; [cbn; lia|]. split; [constructor|]. split; [intros b []|]. intros b [= <-]. cbn. lia. }
  assert (J : json_text rtd_text rtd_doc) by (apply parse_sound; vm_compute; reflexivity).
  assert (Ct : rctl wC default_opts dir_fs rtd_doc) by (apply rctlb_spec; vm_compute; reflexivity).
  destruct (C42_recursive_in_class_partial wC default_opts E_dir false (TNamed 0) 64 dir_fs dir_stk (dyn0 dir_stk) rtd_text rtd_doc rtd_value (1%nat, 0) (world 64) []
              dir_decoder J Ct rtd_encodes V) as (D' & h' & g' & F' & Q & W & S & _).
  exists D', h', g', F'. auto.
Qed.

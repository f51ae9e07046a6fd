(** C26, C27: recursive struct types.

    The type is a named struct S with fields of type *S, []S and map[K]S besides fields of
    non-recursive types ([rresolves], RecElab.v).  [ideal_rec] (RecSpec.v) is the decoding a user
    expects; [rrep] says that memory holds a tree. *)
From Verif Require Import Base NumSpec StrSpec Types AppendType Token FloatLit Heap Machine Dt Dec Control Root Elab Rec Value Dval Sep Refine Spec SpecProofs Main Parse World Elaborate RecSpec RecRefine RecElab PropsRefuted.
Open Scope Z_scope.

(** A decoder state reached from a new decoder by successful calls on documents of the
    class of the theorem, by calls with a nil destination and by calls on ill-formed
    texts.  (After an error inside a tree the code does not work: C28_refuted.) *)
Inductive rused (C : cfg) (fs : rfields) (stk : list frame) : dyn -> Prop :=
| ru_new : rused C fs stk (dyn0 stk)
| ru_nil O D s tk h i e D' h' : rused C fs stk D -> Decode C O stk D s tk None h = Ret i e D' h' -> rused C fs stk D'
| ru_ill O D s j c a h i e D' h' : rused C fs stk D -> Decode C O stk D s (TErr j c) a h = Ret i e D' h' -> rused C fs stk D'
| ru_ok O D s v a h i D' h' : rused C fs stk D -> json_text s v -> rctl C O fs v ->
    Decode C O stk D s (TOk (flat 0 v)) (Some a) h = Ret i None D' h' -> rused C fs stk D'.

Record rdecoder_for (C : cfg) (E : env) (disallow : bool) (T : ty) (z : Z) (fs : rfields) (stk : list frame) (D : dyn) : Prop := {
  rdf_sizes : sizes_ok (c_w64 C) E;
  rdf_type : rresolves (c_w64 C) E disallow T z fs;
  rdf_layout : rlayout (c_w64 C) z fs;
  rdf_new : exists fuel, append (c_w64 C) E disallow fuel [] T = AOk stk;
  rdf_used : rused C fs stk D }.

Lemma rdecoder_describes C E dis T z fs stk D : rdecoder_for C E dis T z fs stk D -> rdescribes (c_w64 C) stk z fs.
Proof. intros [S R _ (fuel & A) _]. exact (append_ok_rdescribes _ _ _ _ _ _ _ _ S R A). Qed.

Lemma ready_clear stk D : ready stk D -> ready stk (clear_dests D).
Proof. intros (K & R & O & N). split; [apply dyn_ok_clear, K|]. split; [exact R|]. split; [exact O|reflexivity]. Qed.
Lemma ready_dest stk D a : ready stk D -> ready stk (clear_dests (upd_d D 0 (set_dest a))).
Proof.
  intros (K & R & O & _). split; [apply dyn_ok_clear, dyn_ok_dest, K|]. split; [exact R|]. split; [exact O|reflexivity].
Qed.
Lemma rused_ready C z fs stk D : rdescribes (c_w64 C) stk z fs -> rused C fs stk D -> ready stk D.
Proof.
  intros Ds U. induction U as [|O D s tk h i e D' h' U IH E|O D s j c a h i e D' h' U IH E|O D s v a h i D' h' U IH J Ct E].
  - eapply ready_fresh, Ds.
  - injection E as _ _ <- _. apply ready_clear, IH.
  - destruct a as [a|]; injection E as _ _ <- _; [apply ready_dest, IH|apply ready_clear, IH].
  - pose proof (decode_rdec C O stk s z fs v D a h Ds IH (json_text_lexed _ _ J) Ct) as Q.
    destruct (rdec C O s z fs v (Some a) h) as [h1|i1 e1 h1| |]; [destruct Q as (D1 & Q & R)|destruct Q as (D1 & Q)| |]; rewrite Q in E; try discriminate.
    injection E as _ <- _. exact R.
Qed.

(** A variable of the struct type that holds the tree [g]. *)
Definition rvariable (C : cfg) (z : Z) (fs : rfields) (h : heap) (a : addr) (g : gval) (F : list nat) : Prop :=
  rrep (c_w64 C) z fs h (Some a) g F /\ own h (Some a) F.

(** Missing for the full property: documents with unknown members that contain objects,
    leaves on which the parsers are defective ([rsound]), decoders that have failed
    before, recursion that does not start at the root (C26_refuted_nested) and, for lists
    and maps, the member orders excluded by [rctl] (C27_refuted_member_order). *)
Theorem C26_recursive_partial C O E dis T z fs stk D s v a h g F :
  rdecoder_for C E dis T z fs stk D -> json_text s v -> rctl C O fs v -> rsound C O fs v -> rvariable C z fs h a g F ->
  match ideal_rec C O s fs v g with
  | VOk g' => exists D' h' F', Decode C O stk D s (TOk (flat 0 v)) (Some a) h = Ret (-1) None D' h' /\
      rvariable C z fs h' a g' F' /\ only h h' (Some a) z F F'
  | VErr i e g' => exists D' h' F', Decode C O stk D s (TOk (flat 0 v)) (Some a) h = Ret (Z.of_nat i) (Some e) D' h' /\
      rvariable C z fs h' a g' F' /\ only h h' (Some a) z F F'
  | VPan => False
  end.
Proof.
  intros Df J Ct S [R Ow]. pose proof (rdecoder_describes _ _ _ _ _ _ _ _ Df) as Ds.
  pose proof (rused_ready _ _ _ _ _ Ds (rdf_used _ _ _ _ _ _ _ _ Df)) as Rd. pose proof (json_text_lexed _ _ J) as L.
  pose proof (decode_rdec C O stk s z fs v D a h Ds Rd L Ct) as Q.
  destruct (rdec_right C O s fs z (rdf_layout _ _ _ _ _ _ _ _ Df) v h (Some a) g F L S R Ow) as [G N].
  unfold gsim in G. destruct (ideal_rec C O s fs v g) as [g'|i e g'|].
  - destruct G as (h' & E1 & F' & R' & O' & Y). rewrite E1 in Q. destruct Q as (D' & Q & _). exists D', h', F'. split; [exact Q|]. split; [split; assumption|exact Y].
  - destruct G as (h' & E1 & F' & R' & O' & Y). rewrite E1 in Q. destruct Q as (D' & Q). exists D', h', F'. split; [exact Q|]. split; [split; assumption|exact Y].
  - congruence.
Qed.

(** Computed sufficient conditions. *)
Section Check.
Variables (C : cfg) (O : opts) (fs : rfields).
Definition nonnullb (v : jv) : bool := match v with JNull _ => false | _ => true end.
Lemma nonnullb_spec v : nonnullb v = true -> nonnull v.
Proof. destruct v; intros; first [discriminate | exact I]. Qed.
Definition fctlb (R : bool -> bool -> jv -> bool) (zr : bool) (k : rk) (v : jv) : bool :=
  match k, v with
  | RSelf, JObj _ _ _ => R true zr v
  | RSlice, JArr _ _ (x :: r) => nonnullb x && R true true x && forallb (fun x => nonnullb x && R false false x) r
  | RMap _, JObj _ _ l => zr && match l with [] => false | _ => true end && forallb (fun x => nonnullb (snd x) && R true true (snd x)) l
  | RSub d, _ => match lag_of C O d v with Some On => true | _ => false end
  | _, _ => true
  end.
Fixpoint mctlb (R : bool -> bool -> jv -> bool) (st zr live : bool) (l : list ((nat * bytes) * jv)) : bool :=
  match l with
  | [] => true
  | x :: r =>
      match pick (c_fold C) (o_nofold O) (rnames fs) (key_of O (snd (fst x))) with
      | Some j =>
          match nth_error fs j with
          | Some y => live && fctlb R zr (snd y) (snd x) && mctlb R st zr (if restores (snd y) (snd x) then st else live) r
          | None => true
          end
      | None => (o_unknown O || obj_free (snd x)) && mctlb R st zr live r
      end
  end.
Fixpoint rctlb (n : nat) (st zr : bool) (v : jv) : bool :=
  match n with
  | 0%nat => false
  | S n => match v with JObj _ _ l => mctlb (rctlb n) st zr true l | _ => true end
  end.
Lemma fctlb_spec R (R' : bool -> bool -> jv -> Prop) zr k v : (forall st zr v, R st zr v = true -> R' st zr v) -> fctlb R zr k v = true -> fctl C O R' zr k v.
Proof.
  intros HR H. destruct k as [| |kt|d]; [destruct v; try exact I; apply HR, H|destruct v; try exact I|destruct v; try exact I|cbn [fctlb fctl] in *; destruct (lag_of C O d v) as [[| |]|]; try discriminate; reflexivity]; cbn [fctlb fctl] in *.
  - destruct l as [|x r]; [exact I|]. apply andb_prop in H as [H1 H2]. apply andb_prop in H1 as [N1 H1]. split; [split; [apply nonnullb_spec, N1|apply HR, H1]|].
    eapply forallb_Forall; [|exact H2]. intros y _ Hy. apply andb_prop in Hy as [N2 H3]. split; [apply nonnullb_spec, N2|apply HR, H3].
  - apply andb_prop in H as [H H3]. apply andb_prop in H as [H1 H2]. split; [exact H1|]. split; [intros ->; discriminate H2|].
    eapply forallb_Forall; [|exact H3]. intros y _ Hy. apply andb_prop in Hy as [N2 H4]. split; [apply nonnullb_spec, N2|apply HR, H4].
Qed.
Lemma mctlb_spec R (R' : bool -> bool -> jv -> Prop) st zr l : (forall st zr v, R st zr v = true -> R' st zr v) ->
  forall live, mctlb R st zr live l = true -> mctl C O fs R' st zr live l.
Proof.
  intros HR. induction l as [|x r IH]; intros live H; [exact I|]. cbn [mctlb mctl] in *. destruct (pick _ _ _ _) as [q|].
  - destruct (nth_error fs q) as [y|]; [|exact I]. apply andb_prop in H as [H H2]. apply andb_prop in H as [H H1].
    split; [exact H|]. split; [eapply fctlb_spec; eassumption|apply IH, H2].
  - apply andb_prop in H as [H H1]. split; [apply orb_prop, H|apply IH, H1].
Qed.
Lemma rctlb_spec v : rctlb (height v) true true v = true -> rctl C O fs v.
Proof.
  assert (Q : forall n v st zr, rctlb n st zr v = true -> rctln C O fs n st zr v); [|apply Q].
  induction n as [|n IH]; intros w st zr H; [discriminate|]. cbn [rctlb rctln] in *. destruct w; try exact I. eapply mctlb_spec; [|exact H].
  intros st1 zr1 w Hw. apply IH, Hw.
Qed.
Definition fsoundb (P : jv -> bool) (k : rk) (v : jv) : bool :=
  match k, v with
  | RSelf, JObj _ _ _ => P v
  | RSlice, JArr _ _ l => forallb P l
  | RMap kt, JObj _ _ l => forallb (fun x => sound_keyb C kt (snd (fst x)) && P (snd x)) l
  | RSub d, _ => soundb C O d v
  | _, _ => true
  end.
Fixpoint rsoundb (n : nat) (v : jv) : bool :=
  match n with
  | 0%nat => false
  | S n =>
      match v with
      | JObj _ _ l => forallb (fun x =>
          (o_nounescape O || plain_strb (snd (fst x))) &&
          match rfield_for C O fs (snd (fst x)) with
          | Some j => match nth_error fs j with Some y => fsoundb (rsoundb n) (snd y) (snd x) | None => true end
          | None => true
          end) l
      | _ => true
      end
  end.
Lemma fsoundb_spec P (P' : jv -> Prop) k v : (forall v, P v = true -> P' v) -> fsoundb P k v = true -> fsound C O P' k v.
Proof.
  intros HP H. destruct k as [| |kt|d]; [destruct v; try exact I; apply HP, H|destruct v; try exact I|destruct v; try exact I|exact (soundb_spec _ _ _ _ H)]; cbn [fsoundb fsound] in *;
    (eapply forallb_Forall; [|exact H]); intros x _ Hx; [apply HP, Hx|]. apply andb_prop in Hx as [H1 H2]. split; [apply sound_keyb_spec, H1|apply HP, H2].
Qed.
Lemma rsoundb_spec v : rsoundb (height v) v = true -> rsound C O fs v.
Proof.
  unfold rsound. generalize (height v) as n. intros n. revert v. induction n as [|n IH]; intros v H; [discriminate|].
  destruct v; try exact I. cbn [rsoundb rsoundn ssound] in *.
  eapply forallb_Forall; [|exact H]. intros x _ Hx. apply andb_prop in Hx as [H1 H2]. unfold msound. split.
  - apply orb_prop in H1 as [H1|H1]; [left; exact H1|right; apply (plain_strb_spec C), H1].
  - destruct (rfield_for C O fs (snd (fst x))) as [q|]; [|exact I].
    destruct (nth_error fs q) as [y|]; [|exact I]. eapply fsoundb_spec; [exact IH|exact H2].
Qed.
End Check.

(** Case: type Node struct { V int8; L *Node `json:"left"`; T []string; R *Node }, a
    document of depth three with members in mixed order, a null, an unknown member and a
    tree that is already there. *)
Definition E_node : env := fun i =>
  match i with
  | 0%nat => Decl (TStruct 0 48 [(fld0 "V" 0, tInt8); (tagged "L" "left" 8, TPtr (TNamed 0)); (fld0 "T" 16, TSlice TStr); (fld0 "R" 40, TPtr (TNamed 0))]) 48 SNone SNone
  | _ => Decl TOther 8 SNone SNone
  end.
Definition node_fs : rfields :=
  [((bs "V", 0), RSub (DSc (SInt (NK true W8)))); ((bs "left", 8), RSelf); ((bs "T", 16), RSub (DSlice (DSc SStr))); ((bs "R", 40), RSelf)].
Definition node_stk : list frame := Eval vm_compute in stack_of E_node (TNamed 0).
Definition node_text : bytes :=
  bs "{""r"":{""left"":{""V"":3,""left"":{}},""T"":[""a""],""V"":-2,""R"":null},""V"":1,""x"":[1],""left"":{""V"":7}, ""R"":{""left"":{""T"":[""b"",""c""]}}}".
Definition node_doc : jv := Eval vm_compute in tree_of node_text.
Lemma node_decoder : rdecoder_for wC E_node false (TNamed 0) 48 node_fs node_stk (dyn0 node_stk).
Proof.
  split.
  - intros [|i]; reflexivity.
  - exists 0%nat, 0%nat. eexists _, _. split; [reflexivity|]. split; [split; reflexivity|]. split; [reflexivity|]. split; [lia|]. split.
    + assert (K : forall n o, known_as (fld0 n o) (bs n) false).
      { intros. exists [], []. split; [apply tag_name; intros []|]. split; [discriminate|]. split; [reflexivity|]. split; discriminate. }
      eapply RF_field; [apply K|apply R_sc; [exact I|reflexivity]|].
      eapply RF_back with (q := false) (ks := []); [|discriminate|apply B_ptr; [split; reflexivity|reflexivity]|].
      { exists (bs "left"), []. split; [apply tag_name; vm_compute; intuition discriminate|]. split; [discriminate|]. split; [reflexivity|]. split; discriminate. }
      eapply RF_field; [apply K|eapply R_slice; [exact I|reflexivity|exact I|apply R_sc; [exact I|reflexivity]|exact I]|].
      eapply RF_back with (q := false) (ks := []); [apply K|discriminate|apply B_ptr; [split; reflexivity|reflexivity]|apply RF_nil].
    + exists ((bs "R", 40), RSelf). split; [cbn; auto|discriminate].
  - split; [|lia]. apply layoutb_spec. vm_compute. reflexivity.
  - exists 50%nat. vm_compute. reflexivity.
  - constructor.
Qed.
Lemma node_json : json_text node_text node_doc.
Proof. apply parse_sound. vm_compute. reflexivity. Qed.
Definition node (v : Z) (l : option gval) (t : list bytes) (r : option gval) : gval :=
  VStruct [VInt v; VPtr l; match t with [] => VSlice None | _ => VSlice (Some (map VStr t, [])) end; VPtr r].
Example C26_case :
  exists D' h' F', Decode wC default_opts node_stk (dyn0 node_stk) node_text (TOk (flat 0 node_doc)) dest (world 48) = Ret (-1) None D' h' /\
    rvariable wC 48 node_fs h' (1%nat, 0)
      (node 1 (Some (node 7 None [] None)) []
         (Some (node (-2) (Some (node 3 (Some (node 0 None [] None)) [bs "b"; bs "c"] None)) [bs "a"] None))) F'.
Proof.
  assert (V : rvariable wC 48 node_fs (world 48) (1%nat, 0) (VStruct (rzeros node_fs)) []).
  { split.
    - apply rrep_zero with (z := 48); [exact (rdf_layout _ _ _ _ _ _ _ _ node_decoder)|].
      intros x Hx. cbn. destruct (Z.leb_spec 0 x), (Z.ltb_spec x 48); try lia. reflexivity.
    - split; [cbn; lia|]. split; [constructor|]. split; [intros b []|]. intros b [= <-]. cbn. lia. }
  assert (Ct : rctl wC default_opts node_fs node_doc) by (apply rctlb_spec; vm_compute; reflexivity).
  assert (Sd : rsound wC default_opts node_fs node_doc) by (apply rsoundb_spec; vm_compute; reflexivity).
  pose proof (C26_recursive_partial _ _ _ _ _ _ _ _ _ _ _ (1%nat, 0) _ _ [] node_decoder node_json Ct Sd V) as Q.
  match type of Q with match ?X with _ => _ end =>
    let y := eval vm_compute in X in replace X with y in Q by (vm_compute; reflexivity) end.
  destruct Q as (D' & h' & F' & Q & W & _). exists D', h', F'. split; [exact Q|exact W].
Qed.

(** The restriction to the root is necessary.  struct { A int; N Tree } with
    {"A":1,"N":{"L":{},"V":5}}: success is reported and A is 5, N.V is 0: after the nested
    tree the fields of N are stored relative to the enclosing struct. *)
Definition Outer := TStruct 9 32 [(fld0 "A" 0, tInt); (fld0 "N" 8, Tree)].
Definition s_outer := bs "{""A"":1,""N"":{""L"":{},""V"":5}}".
Theorem C26_refuted_nested :
  meaningful E_tree Outer s_outer /\
  obs (decode E_tree Outer s_outer) [(1%nat, 0); (1%nat, 8); (1%nat, 16)] = Some (-1, None, [Some (CInt 5); Some CZero; Some (CPtr (2%nat, 0))]).
Proof. split; [meaningful|vm_compute; reflexivity]. Qed.

(** The same for a list of trees at the root: a member after a nested tree is stored in
    the first element.  []Tree with three elements: element 0 gets the V of element 2,
    which stays 0, and success is reported. *)
Theorem C26_refuted_list :
  let s := bs "[{""V"":5},{""V"":6},{""L"":{},""V"":8}]" in
  meaningful E_tree (TSlice Tree) s /\
  obs (decode E_tree (TSlice Tree) s) [(1%nat, 0); (2%nat, 0); (2%nat, 24); (2%nat, 48)] =
    Some (-1, None, [Some (CSlice (2%nat, 0) 3 3); Some (CInt 8); Some (CInt 6); Some CZero]).
Proof. cbn zeta. split; [meaningful|vm_compute; reflexivity]. Qed.
(** A list of trees in a struct: at the end of the list the loop stays at the frame of the
    elements (jscandec.go:2567-2574), so that the members after it are looked up in the
    fields of Tree.  struct { I []Tree; V int; N int } with
    {"I":[{"V":3}],"V":7,"N":1}: V and N stay 0, the element of the list gets V = 7, and
    success is reported. *)
Definition Box := TStruct 7 40 [(fld0 "I" 0, TSlice Tree); (fld0 "V" 24, tInt); (fld0 "N" 32, tInt)].
Theorem C26_refuted_list_in_struct :
  let s := bs "{""I"":[{""V"":3}],""V"":7,""N"":1}" in
  meaningful E_tree Box s /\
  obs (decode E_tree Box s) [(1%nat, 0); (1%nat, 24); (1%nat, 32); (2%nat, 0)] =
    Some (-1, None, [Some (CSlice (2%nat, 0) 1 1); Some CZero; Some CZero; Some (CInt 7)]).
Proof. cbn zeta. split; [meaningful|vm_compute; reflexivity]. Qed.
(** For the same reason the second list of a list of lists of trees is refused. *)
Theorem C26_refuted_list_of_lists :
  let s := bs "[[{""V"":3}],[{""V"":4}]]" in
  meaningful E_tree (TSlice (TSlice Tree)) s /\
  obs (decode E_tree (TSlice (TSlice Tree)) s) [] = Some (11, Some EUnexpected, []).
Proof. cbn zeta. split; [meaningful|vm_compute; reflexivity]. Qed.
(** And for arrays of trees the end of the array counts as one more element: as the array
    is full, the rest of it is skipped once more, beyond the last token.  Every full array
    panics. *)
Theorem C17_refuted_recursive_array :
  let s := bs "[{""V"":3},{""V"":4}]" in
  meaningful E_tree (TArr 2 Tree) s /\ decode E_tree (TArr 2 Tree) s = DPanics.
Proof. cbn zeta. split; [meaningful|vm_compute; reflexivity]. Qed.

(** ** C27: recursion through slices and maps
    The theorem above covers fields of type []S and map[K]S.  Its condition [rctl] is
    about the order of members; without it the claim is false.  Here for a new variable:
    success is reported exactly when the document fits the type, and then the variable
    holds the tree of the document. *)
Theorem C27_builds_tree_partial C O E dis T z fs stk D s v a h :
  rdecoder_for C E dis T z fs stk D -> json_text s v -> rctl C O fs v -> rsound C O fs v ->
  (forall x, 0 <= x < z -> cellat h (Some a) x = Some CZero) -> own h (Some a) [] ->
  exists i e D' h' F' g', Decode C O stk D s (TOk (flat 0 v)) (Some a) h = Ret i e D' h' /\ rvariable C z fs h' a g' F' /\
    match ideal_rec C O s fs v (VStruct (rzeros fs)) with
    | VOk g => i = -1 /\ e = None /\ g' = g
    | VErr i1 e1 g => i = Z.of_nat i1 /\ e = Some e1 /\ g' = g
    | VPan => False
    end.
Proof.
  intros Df J Ct S Z0 Ow.
  assert (V : rvariable C z fs h a (VStruct (rzeros fs)) []).
  { split; [|exact Ow]. apply rrep_zero with (z := z); [exact (rdf_layout _ _ _ _ _ _ _ _ Df)|exact Z0]. }
  pose proof (C26_recursive_partial _ O _ _ _ _ _ _ _ _ _ _ _ _ _ Df J Ct S V) as Q.
  destruct (ideal_rec C O s fs v (VStruct (rzeros fs))) as [g|i e g|]; [| |destruct Q]; destruct Q as (D' & h' & F' & Q & W & _).
  - exists (-1), None, D', h', F', g. split; [exact Q|]. split; [exact W|]. repeat split.
  - exists (Z.of_nat i), (Some e), D', h', F', g. split; [exact Q|]. split; [exact W|]. repeat split.
Qed.

(** Case: type Dir struct { Name string; Sub []Dir; Idx map[string]Dir; Up *Dir; N int16 }
    with lists in lists, maps of structs with lists, and a map below a pointer. *)
Definition E_dir : env := fun i =>
  match i with
  | 0%nat => Decl (TStruct 0 64 [(fld0 "Name" 0, TStr); (fld0 "Sub" 16, TSlice (TNamed 0)); (fld0 "Idx" 40, TMap TStr (TNamed 0));
               (fld0 "Up" 48, TPtr (TNamed 0)); (fld0 "N" 56, TInt (NK true W16))]) 64 SNone SNone
  | _ => Decl TOther 8 SNone SNone
  end.
Definition dir_fs : rfields :=
  [((bs "Name", 0), RSub (DSc SStr)); ((bs "Sub", 16), RSlice); ((bs "Idx", 40), RMap KeyStr); ((bs "Up", 48), RSelf);
   ((bs "N", 56), RSub (DSc (SInt (NK true W16))))].
Definition dir_stk : list frame := Eval vm_compute in stack_of E_dir (TNamed 0).
Definition dir_text : bytes :=
  bs "{""Name"":""r"",""Sub"":[{""Sub"":[{""N"":1}],""Name"":""a""},{""N"":2,""Sub"":[{""Name"":""x""},{""Name"":""y""}]}],""Idx"":{""k"":{""N"":3,""Up"":{""N"":4}},""l"":{""Sub"":[{""N"":5}],""N"":6}},""Up"":{""Idx"":{""m"":{}},""N"":7}}".
Definition dir_doc : jv := Eval vm_compute in tree_of dir_text.
Lemma dir_decoder : rdecoder_for wC E_dir false (TNamed 0) 64 dir_fs dir_stk (dyn0 dir_stk).
Proof.
  split.
  - intros [|i]; reflexivity.
  - exists 0%nat, 0%nat. eexists _, _. split; [reflexivity|]. split; [split; reflexivity|]. split; [reflexivity|]. split; [lia|]. split.
    + assert (K : forall n o, known_as (fld0 n o) (bs n) false).
      { intros. exists [], []. split; [apply tag_name; intros []|]. split; [discriminate|]. split; [reflexivity|]. split; discriminate. }
      eapply RF_field; [apply K|apply R_sc; [exact I|reflexivity]|].
      eapply RF_back with (q := false) (ks := []); [apply K|discriminate|apply B_slice; [exact I|reflexivity]|].
      eapply RF_back with (q := false) (ks := []); [apply K|discriminate|eapply B_map; [exact I|reflexivity|apply K_str; [exact I|reflexivity]]|].
      eapply RF_back with (q := false) (ks := []); [apply K|discriminate|apply B_ptr; [split; reflexivity|reflexivity]|].
      eapply RF_field; [apply K|apply R_sc; [exact I|reflexivity]|]. apply RF_nil.
    + exists ((bs "Up", 48), RSelf). split; [cbn; auto|discriminate].
  - split; [|lia]. apply layoutb_spec. vm_compute. reflexivity.
  - exists 50%nat. vm_compute. reflexivity.
  - constructor.
Qed.
Lemma dir_json : json_text dir_text dir_doc.
Proof. apply parse_sound. vm_compute. reflexivity. Qed.
Definition dir (name : bytes) (sub : list gval) (idx : list (gkey * gval)) (up : option gval) (n : Z) : gval :=
  VStruct [VStr name; match sub with [] => VSlice None | _ => VSlice (Some (sub, [])) end;
           match idx with [] => VMap None | _ => VMap (Some idx) end; VPtr up; VInt n].
Example C27_case :
  exists D' h' F', Decode wC default_opts dir_stk (dyn0 dir_stk) dir_text (TOk (flat 0 dir_doc)) dest (world 64) = Ret (-1) None D' h' /\
    rvariable wC 64 dir_fs h' (1%nat, 0)
      (dir (bs "r") [dir (bs "a") [dir [] [] [] None 1] [] None 0; dir [] [dir (bs "x") [] [] None 0; dir (bs "y") [] [] None 0] [] None 2]
         [(GStr (bs "k"), dir [] [] [] (Some (dir [] [] [] None 4)) 3); (GStr (bs "l"), dir [] [dir [] [] [] None 5] [] None 6)]
         (Some (dir [] [] [(GStr (bs "m"), dir [] [] [] None 0)] None 7)) 0) F'.
Proof.
  assert (V : rvariable wC 64 dir_fs (world 64) (1%nat, 0) (VStruct (rzeros dir_fs)) []).
  { split.
    - apply rrep_zero with (z := 64); [exact (rdf_layout _ _ _ _ _ _ _ _ dir_decoder)|].
      intros x Hx. cbn. destruct (Z.leb_spec 0 x), (Z.ltb_spec x 64); try lia. reflexivity.
    - split; [cbn; lia|]. split; [constructor|]. split; [intros b []|]. intros b [= <-]. cbn. lia. }
  assert (Ct : rctl wC default_opts dir_fs dir_doc) by (apply rctlb_spec; vm_compute; reflexivity).
  assert (Sd : rsound wC default_opts dir_fs dir_doc) by (apply rsoundb_spec; vm_compute; reflexivity).
  pose proof (C26_recursive_partial _ _ _ _ _ _ _ _ _ _ _ (1%nat, 0) _ _ [] dir_decoder dir_json Ct Sd V) as Q.
  match type of Q with match ?X with _ => _ end =>
    let y := eval vm_compute in X in replace X with y in Q by (vm_compute; reflexivity) end.
  destruct Q as (D' & h' & F' & Q & W & _). exists D', h', F'. split; [exact Q|exact W].
Qed.

(** type N struct { V int; C []N }: in an element after the first, a member after a
    non-empty list is stored in element 0.  From [{"V":1},{"C":[{"V":9}],"V":5}] element 0
    has V = 5 and element 1 has V = 0; success is reported.  With V before C it works. *)
Theorem C27_refuted_member_order :
  let s := bs "{""C"":[{""V"":1},{""C"":[{""V"":9}],""V"":5}],""V"":7}" in
  meaningful E_rec (TNamed 0) s /\
  obs (decode E_rec (TNamed 0) s) [(1%nat, 0); (1%nat, 8); (2%nat, 0); (2%nat, 32); (2%nat, 40); (3%nat, 0)] =
    Some (-1, None, [Some (CInt 7); Some (CSlice (2%nat, 0) 2 2); Some (CInt 5); Some CZero; Some (CSlice (3%nat, 0) 1 1); Some (CInt 9)]).
Proof. cbn zeta. split; [meaningful|vm_compute; reflexivity]. Qed.

(** A map of structs inside an element of a list after the first: the struct for the map
    value is written at the address of the value plus the offset of the list element,
    which is outside the memory of the map value. *)
Theorem C27_refuted_map_in_list :
  let s := bs "{""Sub"":[{},{""Idx"":{""k"":{""N"":3}}}]}" in
  meaningful E_dir (TNamed 0) s /\ decode E_dir (TNamed 0) s = DCorrupts.
Proof. cbn zeta. split; [meaningful|vm_compute; reflexivity]. Qed.

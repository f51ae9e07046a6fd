(** C59: types with pointers below the root, every document.

    After the value of a pointer the decoder does not leave the pointer, so the rest of the
    enclosing value may be taken for something else (C25).  Below a slice or an array this
    corrupts memory (C25_refuted_nested_lists).  Here: in all other types ([pointer_safe])
    the result may be wrong, but never memory.

    [wof] rewrites a type so that maps, structs and pointers outside of lists are visible to
    PtrSafe.v; the theorems are stated without it. *)
From Verif Require Import Base NumSpec StrSpec Types AppendType Lookup Token FloatLit Heap Machine Dt Dec Control Root Elab Rec Value Dval Sep Refine Refine2 Refine3 Typed Spec SpecProofs Main Parse World Elaborate RecSpec RecRefine RecElab PropsDecode PropsStruct PropsRefuted PropsRec Encodes PropsStrict Actual PropsExact PropsAnyLeaf RecActual PropsRecAny Mixed MixedElab MixedSpec MixedRefine MixedTyped PtrSafe PropsMixed PropsSafe.
Open Scope Z_scope.

(** ** The types *)
(** No struct outside of lists. *)
Fixpoint listed (d : dt) : bool :=
  match d with DStruct _ _ => false | DMap _ t | DPtr t => listed t | _ => true end.
(** Maps, structs and pointers in any combination, over types without pointers inside.
    Pointers to types of size 0 are excluded (new(T) is not modelled for them below the
    root), and structs of size 0. *)
Fixpoint pointer_safe (w64 : bool) (O : opts) (d : dt) : bool :=
  match d with
  | DPtr t => negb (dsize w64 t =? 0) && pointer_safe w64 O t
  | DMap _ t => pointer_safe w64 O t
  | DStruct z fs => (0 <? z) && forallb (fun x => pointer_safe w64 O (snd x)) fs
  | DEmpty => true
  | _ => no_inner_ptr d && (o_unknown O || listed d)
  end.
(** The documents: all of them with DisallowUnknownFields; without, those in which no array
    contains an object. *)
Definition shallow (O : opts) (v : jv) : bool := o_unknown O || flatarr v.

Lemma shallow_fine O v : shallow O v = true -> dfine O v.
Proof. intros H. apply orb_prop in H as [H|H]; [left|right]; exact H. Qed.

Section Ctl.
Variables (C : cfg) (O : opts).
Lemma plain_ctl d : no_inner_ptr d = true -> forall v, obj_free v = true -> ctl C O d v.
Proof.
  induction d as [x|id z|id z| |n t IH| |t IH|k t IH| |t IH|z fs IH] using dt_ind'; intros Np v Of; cbn [no_inner_ptr ctl] in *; try exact I; try discriminate;
    destruct v; try exact I; try discriminate Of; cbn [obj_free] in Of; try rewrite forallb_forall in Of.
  - apply Forall_forall. intros x Hx. apply IH; [exact Np|]. apply Of. rewrite <- (firstn_skipn n l). apply in_or_app. left. exact Hx.
  - destruct (fast_et t); exact I.
  - destruct (fast_et t); exact I.
  - destruct (fast_et t); exact I.
  - destruct (fast_et t); exact I.
  - destruct (fast_et t); exact I.
  - destruct (fast_et t); [exact I|]. apply Forall_forall. intros x Hx. apply IH; [exact Np|]. apply Of, Hx.
Qed.
Lemma flat_ctl d : no_inner_ptr d = true -> listed d = true -> forall v, flatarr v = true -> ctl C O d v.
Proof.
  induction d as [x|id z|id z| |n t IH| |t IH|k t IH| |t IH|z fs IH] using dt_ind'; intros Np Li v Fa; try exact I; try discriminate.
  - destruct v as [| | | | |i j l|i j l]; try exact I. apply plain_ctl; assumption.
  - destruct v as [| | | | |i j l|i j l]; try (cbn [ctl]; destruct (fast_et t); exact I). apply plain_ctl; assumption.
  - cbn [no_inner_ptr listed ctl] in *. destruct v as [| | | | |i j l|i j l]; try exact I. cbn [flatarr] in Fa. rewrite forallb_forall in Fa.
    apply Forall_forall. intros x Hx. apply IH; [exact Np|exact Li|]. apply Fa, Hx.
Qed.
Lemma leaf_in_step d : no_inner_ptr d && (o_unknown O || listed d) = true -> forall v, dfine O v -> lag_of C O d v = Some On \/ lag_of C O d v = Some Early.
Proof.
  intros H v Dv. apply andb_prop in H as [Np H]. left. apply ctl_on. destruct Dv as [Un|Fa].
  - apply inner_ctl; [exact Np|rewrite Un; reflexivity].
  - apply orb_prop in H as [Un|Li]; [apply inner_ctl; [exact Np|rewrite Un; reflexivity]|apply flat_ctl; assumption].
Qed.
End Ctl.

(** ** The same type, seen from outside *)
Fixpoint wof (d : dt) : wt :=
  match d with
  | DPtr t => WPtr (wof t)
  | DMap k t => WMap k (wof t)
  | DStruct z fs => WStruct z (map (fun x => (fst x, wof (snd x))) fs)
  | _ => WSub d
  end.
Lemma flatt_wof d : flatt (wof d) = d.
Proof.
  induction d as [x|id z|id z| |n t IH| |t IH|k t IH| |t IH|z fs IH] using dt_ind'; try reflexivity; cbn [wof flatt]; try congruence.
  f_equal. rewrite map_map. cbn [fst snd]. induction IH as [|x fs Hx IH IHl]; [reflexivity|]. cbn [map]. rewrite Hx, IHl. destruct x; reflexivity.
Qed.
Lemma wshape_wof fs : wshape (map (fun x => (fst x, wof (snd x))) fs) = fs.
Proof.
  unfold wshape. rewrite map_map. cbn [fst snd]. induction fs as [|x fs IH]; [reflexivity|]. cbn [map]. rewrite flatt_wof, IH. destruct x; reflexivity.
Qed.
Lemma wfits_wof w64 stk d : forall i, fits w64 stk i d -> wfits w64 stk i (wof d).
Proof.
  induction d as [x|id z|id z| |n t IH| |t IH|k t IH| |t IH|z fs IH] using dt_ind'; intros i F; try exact F.
  - cbn [wof wfits flatt] in *. rewrite flatt_wof. destruct F as (F1 & F2 & F3 & F4). auto.
  - cbn [wof wfits flatt] in *. rewrite flatt_wof. destruct F as (F1 & F2 & F3). auto.
  - cbn [wof]. apply fits_struct in F as [Fh Ff]. apply wfits_struct. change (flatt (WStruct z (map (fun x => (fst x, wof (snd x))) fs))) with (flatt (wof (DStruct z fs))).
    rewrite flatt_wof, wshape_wof. split; [exact Fh|]. clear Fh. revert Ff. generalize (S i) as k. induction IH as [|x fs Hx IH IHl]; intros k Ff; cbn [map fits_fields wfits_fields fst snd] in *; [exact I|].
    destruct Ff as (F1 & F2 & F3). split; [apply Hx, F1|]. split; [exact F2|]. rewrite flatt_wof. apply IHl, F3.
Qed.
Lemma wdescribes_wof w64 stk d : describes w64 stk d -> wdescribes w64 stk (wof d).
Proof. intros (L & F & K). split; [rewrite flatt_wof; exact L|]. split; [apply wfits_wof, F|exact K]. Qed.
Lemma wzero_wof d : wzero (wof d) = zero d.
Proof.
  induction d as [x|id z|id z| |n t IH| |t IH|k t IH| |t IH|z fs IH] using dt_ind'; try reflexivity. cbn [wof wzero zero]. rewrite map_map. cbn [snd]. f_equal.
  apply map_ext_Forall. exact IH.
Qed.
Lemma wrep_wof w64 d : wrep w64 (wof d) = rep w64 d.
Proof.
  induction d as [x|id z|id z| |n t IH| |t IH|k t IH| |t IH|z fs IH] using dt_ind'; try reflexivity.
  - cbn [wof wrep]. rewrite IH, wzero_wof. unfold tsize. rewrite flatt_wof. reflexivity.
  - cbn [wof wrep]. rewrite IH, wzero_wof. unfold tsize. rewrite flatt_wof. reflexivity.
  - cbn [wof wrep]. rewrite map_map. cbn [fst snd].
    replace (map (fun x => (snd (fst x), wrep w64 (wof (snd x)))) fs) with (map (fun x => (snd (fst x), rep w64 (snd x))) fs); [reflexivity|].
    apply map_ext_Forall. eapply Forall_impl; [|exact IH]. intros x Hx. cbv beta in *. rewrite Hx. reflexivity.
Qed.
Lemma tsize_wof w64 d : tsize w64 (wof d) = dsize w64 d.
Proof. unfold tsize. rewrite flatt_wof. reflexivity. Qed.
Lemma wlayout_wof w64 O d : pointer_safe w64 O d = true -> layout w64 d -> wlayout w64 (wof d).
Proof.
  induction d as [x|id z|id z| |n t IH| |t IH|k t IH| |t IH|z fs IH] using dt_ind'; intros P L; try exact L.
  - apply IH; assumption.
  - cbn [pointer_safe] in P. apply andb_prop in P as [_ P]. apply IH; assumption.
  - cbn [pointer_safe] in P. apply andb_prop in P as [Pz P]. cbn [wof wlayout]. cbn [layout] in L. destruct L as (L1 & L2 & L3 & L4). rewrite map_map. cbn [fst snd].
    split; [|split; [|split; [lia|]]].
    + clear - L1. induction L1 as [|x fs H L1 IHl]; [constructor|]. cbn [map]. constructor; [cbn [fst snd]; rewrite tsize_wof; exact H|exact IHl].
    + replace (map (fun x => (snd (fst x), tsize w64 (wof (snd x)))) fs) with (map (fun x => (snd (fst x), dsize w64 (snd x))) fs); [exact L2|].
      apply map_ext. intros x. rewrite tsize_wof. reflexivity.
    + clear - IH P L4. induction IH as [|x fs Hx IH IHl]; [exact I|]. cbn [map forallb snd] in *. apply andb_prop in P as [P1 P2]. destruct L4 as [L4 L5].
      split; [apply Hx; assumption|apply IHl; assumption].
Qed.
Lemma slow_wof d : slow (wof d).
Proof.
  induction d as [x|id z|id z| |n t IH| |t IH|k t IH| |t IH|z fs IH] using dt_ind'; try exact I; try exact IH.
  cbn [wof]. apply slow_struct. induction IH as [|x fs Hx IH IHl]; [exact I|]. cbn [map slows snd]. split; assumption.
Qed.
Lemma ptrs_wof C O d : pointer_safe (c_w64 C) O d = true -> forall b, ptrs C O b (wof d).
Proof.
  induction d as [x|id z|id z| |n t IH| |t IH|k t IH| |t IH|z fs IH] using dt_ind'; intros P b; cbn [wof ptrs]; try (apply leaf_in_step; exact P).
  - intros v _. cbn [lag_of]. destruct v; auto.
  - apply IH, P.
  - cbn [pointer_safe] in P. apply andb_prop in P as [P1 P2]. rewrite flatt_wof. split; [apply negb_true_iff, P1|apply IH, P2].
  - cbn [pointer_safe] in P. apply andb_prop in P as [_ P]. clear z. induction IH as [|x fs Hx IH IHl]; [exact I|]. cbn [map forallb fst snd] in *. apply andb_prop in P as [P1 P2].
    split; [apply Hx, P1|apply IHl, P2].
Qed.
Lemma quoted_wof d : wno_quoted_numbers (wof d) = no_quoted_numbers d.
Proof.
  induction d as [x|id z|id z| |n t IH| |t IH|k t IH| |t IH|z fs IH] using dt_ind'; try reflexivity; try exact IH.
  - cbn [wof wno_quoted_numbers no_quoted_numbers]. rewrite IH. destruct k; reflexivity.
  - cbn [wof wno_quoted_numbers no_quoted_numbers]. induction IH as [|x fs Hx IH IHl]; [reflexivity|]. cbn [map forallb snd]. rewrite Hx, IHl. reflexivity.
Qed.
Lemma rested_calm stk D : rested stk D -> wrested stk D.
Proof. intros [[R Of] N]. split; [|exact N]. intros j f Hj. split; [apply R|apply Of, Hj]. Qed.

(** ** C59 *)
(** Decode returns or panics; it never writes memory that is not part of the variable's
    value, the variable holds a value of its type afterwards, and the decoder can be used
    again (also after errors).  Panics come from numbers in strings only. *)
Theorem C59_pointers_outside_lists C O E dis T d stk D s v a h g F :
  decoder_for C E dis T d stk D -> pointer_safe (c_w64 C) O d = true -> json_text s v -> shallow O v = true -> variable C d h a g F ->
  (exists r er D' h' g' F',
    Decode C O stk D s (TOk (flat 0 v)) (Some a) h = Ret r er D' h' /\
    variable C d h' a g' F' /\ only h h' (Some a) (dsize (c_w64 C) d) F F' /\
    decoder_for C E dis T d stk D') \/
  (Decode C O stk D s (TOk (flat 0 v)) (Some a) h = DPanics /\ no_quoted_numbers d = false).
Proof.
  intros Df P J Sh [R Ow]. pose proof (decoder_describes _ _ _ _ _ _ _ Df) as Ds. pose proof (used_rested _ _ _ _ Ds (df_used _ _ _ _ _ _ _ Df)) as Rd.
  rewrite <- (wrep_wof (c_w64 C) d) in R.
  destruct (decode_ptrs C O stk s (wof d) v D a h g F (wdescribes_wof _ _ _ Ds) (rested_calm _ _ Rd) (json_text_lexed _ _ J) (shallow_fine _ _ Sh)
    (ptrs_wof C O d P true) (wlayout_wof _ O d P (df_layout _ _ _ _ _ _ _ Df)) (slow_wof d) R Ow) as [(r & er & D' & h' & g' & F' & Q & R' & Ow' & On' & _)|[Q N]].
  - left. exists r, er, D', h', g', F'. split; [exact Q|]. rewrite wrep_wof in R'. rewrite tsize_wof in On'. split; [split; assumption|]. split; [exact On'|].
    destruct Df as [D1 D2 D3 D4 D5]. constructor; try assumption. eapply u_call; eassumption.
  - right. split; [exact Q|]. rewrite <- quoted_wof. exact N.
Qed.
(** Without numbers in strings: any number of calls on any documents. *)
Theorem C59_any_number_of_calls C O E dis T d stk D a h g F (l : list (bytes * jv)) :
  decoder_for C E dis T d stk D -> pointer_safe (c_w64 C) O d = true -> no_quoted_numbers d = true ->
  Forall (fun x => json_text (fst x) (snd x) /\ shallow O (snd x) = true) l -> variable C d h a g F ->
  exists D' h' g' F', calls C O stk D a h l = Some (D', h') /\ variable C d h' a g' F' /\ only h h' (Some a) (dsize (c_w64 C) d) F F'.
Proof.
  intros Df P N Js. revert D h g F Df. induction Js as [|[s v] l [J Sh] Js IH]; intros D h g F Df V; [exists D, h, g, F; split; [reflexivity|]; split; [exact V|apply only_refl]|].
  cbn [fst snd] in J, Sh. destruct (C59_pointers_outside_lists C O E dis T d stk D s v a h g F Df P J Sh V) as [(r & er & D1 & h1 & g1 & F1 & Q & V1 & Y1 & Df1)|[_ X]]; [|congruence].
  cbn [calls fst snd]. rewrite Q. destruct (IH D1 h1 g1 F1 Df1 V1) as (D' & h' & g' & F' & Q' & V' & Y'). exists D', h', g', F'. split; [exact Q'|]. split; [exact V'|eapply only_trans; eassumption].
Qed.

(** The same with recursive structs: trees whose recursion goes through pointers may stand at
    offset 0 of structs, in maps and behind pointers (with DisallowUnknownFields).  Missing
    for the full property: decoders that have failed inside a tree before (C28_refuted), and
    documents read by the decoder earlier are those of [wused]. *)
Fixpoint wpointer_safe (w64 : bool) (O : opts) (b : bool) (t : wt) : bool :=
  match t with
  | WSub DEmpty => true
  | WSub d => no_inner_ptr d && (o_unknown O || listed d)
  | WRec _ _ | WSlice _ => o_unknown O && wany_inside O b t
  | WMap _ t => wpointer_safe w64 O true t
  | WPtr t => negb (tsize w64 t =? 0) && wpointer_safe w64 O true t
  | WStruct _ fs => forallb (fun x => wpointer_safe w64 O (snd (fst x) =? 0) (snd x)) fs
  end.
Lemma wpointer_ptrs C O t : forall b, wpointer_safe (c_w64 C) O b t = true -> ptrs C O b t.
Proof.
  induction t as [d|z fs|t IH|kt t IH|t IH|z fs IH] using wt_ind'; intros b H.
  - destruct d; try (cbn [ptrs]; apply leaf_in_step; exact H). intros v _. cbn [lag_of]. destruct v; auto.
  - apply andb_prop in H as [Un H]. intros v _. apply wany_inside_ctl; assumption.
  - apply andb_prop in H as [Un H]. intros v _. apply wany_inside_ctl; assumption.
  - apply IH, H.
  - cbn [wpointer_safe ptrs] in *. apply andb_prop in H as [H1 H2]. split; [apply negb_true_iff in H1; exact H1|apply IH, H2].
  - cbn [wpointer_safe ptrs] in *. induction IH as [|x fs Hx IH IHl]; [exact I|]. cbn [forallb] in H. apply andb_prop in H as [H1 H2]. split; [apply Hx, H1|apply IHl, H2].
Qed.
Theorem C59_recursive_partial C O E dis T t stk D s v a h g F :
  wdecoder_for C E dis T t stk D -> wpointer_safe (c_w64 C) O true t = true -> json_text s v -> shallow O v = true -> wvariable C t h a g F ->
  (exists r er D' h' g' F',
    Decode C O stk D s (TOk (flat 0 v)) (Some a) h = Ret r er D' h' /\
    wvariable C t h' a g' F' /\ only h h' (Some a) (tsize (c_w64 C) t) F F' /\ (er = None -> wrested stk D')) \/
  (Decode C O stk D s (TOk (flat 0 v)) (Some a) h = DPanics /\ wno_quoted_numbers t = false).
Proof.
  intros Df P J Sh [R Ow]. pose proof (wdecoder_describes _ _ _ _ _ _ _ Df) as Ds. pose proof (wused_rested _ _ _ _ Ds (wdf_used _ _ _ _ _ _ _ Df)) as Rd.
  destruct (decode_ptrs C O stk s t v D a h g F Ds Rd (json_text_lexed _ _ J) (shallow_fine _ _ Sh)
    (wpointer_ptrs C O t true P) (wdf_layout _ _ _ _ _ _ _ Df) (wdecoder_slow _ _ _ _ _ _ _ Df) R Ow) as [(r & er & D' & h' & g' & F' & Q & R' & Ow' & On' & K)|[Q N]].
  - left. exists r, er, D', h', g', F'. split; [exact Q|]. split; [split; assumption|]. split; [exact On'|]. intros Er. apply K, Er.
  - right. split; assumption.
Qed.

(** ** Cases *)
(** struct { A *struct { B *string; M map[string]*int8 }; N string; L [][]struct{ X int8 } } *)
Definition ptr_ty : ty := TStruct 1 48 [(fld0 "A" 0, TPtr (TStruct 2 16 [(fld0 "B" 0, TPtr TStr); (fld0 "M" 8, TMap TStr (TPtr tInt8))])); (fld0 "N" 8, TStr);
  (fld0 "L" 24, TSlice (TSlice (TStruct 3 1 [(fld0 "X" 0, tInt8)])))].
Definition ptr_dt : dt := Eval vm_compute in match elab true plain_env false 50 [] ptr_ty with Some (d, _) => d | None => DEmpty end.
Definition ptr_stk : list frame := Eval vm_compute in stack_of plain_env ptr_ty.
(** B is not left after its value, so N is looked up in the inner struct and skipped. *)
Definition ptr_text : bytes := bs "{""A"":{""B"":""b""},""N"":""n"",""x"":{""L"":[1]}}".
(** The value of "k" is not left: "l" is an unexpected key. *)
Definition ptr_text2 : bytes := bs "{""A"":{""M"":{""k"":1,""l"":2},""B"":""c""},""N"":""n""}".
Definition ptr_docs : list (bytes * jv) := [(ptr_text, tree_of ptr_text); (ptr_text2, tree_of ptr_text2); (bs "null", tree_of (bs "null"))].
Example C59_case :
  decoder_for wC plain_env false ptr_ty ptr_dt ptr_stk (dyn0 ptr_stk) /\ pointer_safe true default_opts ptr_dt = true /\ no_quoted_numbers ptr_dt = true /\
  Forall (fun x => json_text (fst x) (snd x) /\ shallow default_opts (snd x) = true) ptr_docs /\
  variable wC ptr_dt (world 48) (1%nat, 0) (zero ptr_dt) [] /\ any_document default_opts ptr_dt = false /\ any_document strict ptr_dt = false /\
  (exists D' h' g' F', calls wC default_opts ptr_stk (dyn0 ptr_stk) (1%nat, 0) (world 48) ptr_docs = Some (D', h') /\
     variable wC ptr_dt h' (1%nat, 0) g' F' /\ only (world 48) h' (Some (1%nat, 0)) 48 [] F').
Proof.
  assert (Df : decoder_for wC plain_env false ptr_ty ptr_dt ptr_stk (dyn0 ptr_stk)) by (eapply new_decoder; [apply plain_env_sizes|vm_compute; reflexivity|vm_compute; reflexivity|vm_compute; reflexivity]).
  assert (Js : Forall (fun x => json_text (fst x) (snd x) /\ shallow default_opts (snd x) = true) ptr_docs).
  { repeat constructor; cbn [fst snd]; try (apply parse_sound; vm_compute; reflexivity); vm_compute; reflexivity. }
  assert (V : variable wC ptr_dt (world 48) (1%nat, 0) (zero ptr_dt) []).
  { split; [|apply world_own]. apply rep_zero; [apply (df_layout _ _ _ _ _ _ _ Df)|]. intros x Hx. apply world_zero, Hx. }
  repeat (split; [first [exact Df|exact Js|exact V|vm_compute; reflexivity]|]).
  destruct (C59_any_number_of_calls wC default_opts plain_env false ptr_ty ptr_dt ptr_stk (dyn0 ptr_stk) (1%nat, 0) (world 48) (zero ptr_dt) [] ptr_docs Df ltac:(vm_compute; reflexivity) ltac:(vm_compute; reflexivity) Js V)
    as (D' & h' & g' & F' & Q & V' & Y). exists D', h', g', F'. auto.
Qed.

(** map[string]*struct{ Root Node; P *Node } with type Node struct { V int8; L *Node `json:"left"`; R *Node }. *)
Definition ptree_ty : ty := TMap TStr (TPtr (TStruct 9 32 [(fld0 "Root" 0, TNamed 0); (fld0 "P" 24, TPtr TStr)])).
Definition ptree_wt : wt := WMap KeyStr (WPtr (WStruct 32 [((bs "Root", 0), WRec 24 doc_node); ((bs "P", 24), WPtr (WSub (DSc SStr)))])).
Definition ptree_stk : list frame := Eval vm_compute in stack_of E_doc ptree_ty.
Definition ptree_text : bytes := bs "{""a"":{""P"":""x"",""Root"":{""V"":1}},""b"":{""Root"":{""left"":{}}}}".
Lemma ptree_decoder : wdecoder_for wC E_doc false ptree_ty ptree_wt ptree_stk (dyn0 ptree_stk).
Proof.
  split.
  - intros [|[|[|[|i]]]]; reflexivity.
  - eexists. eapply W_map with (ks := []); [exact I|reflexivity|cbn; intuition discriminate|intros [_ [H|H]]; discriminate H|apply K_str; [exact I|reflexivity]|].
    eapply W_ptr; [exact I|reflexivity|cbn; intuition discriminate|].
    eapply W_struct with (r := RStruct 9); [exact I|reflexivity|discriminate|reflexivity|lia|].
    eapply WF_field; [apply known_plain| |].
    { apply W_rec. exists 0%nat, 0%nat. eexists. split; [reflexivity|]. split; [split; reflexivity|]. split; [reflexivity|]. split; [lia|]. split; [cbn; intuition discriminate|]. split.
      - eapply RF_field; [apply known_plain|apply R_sc; [exact I|reflexivity]|].
        eapply RF_back with (q := false) (ks := []); [|discriminate|apply B_ptr; [split; reflexivity|reflexivity]|].
        { exists (bs "left"), []. split; [apply tag_name; vm_compute; intuition discriminate|]. split; [discriminate|]. split; [reflexivity|]. split; discriminate. }
        eapply RF_back with (q := false) (ks := []); [apply known_plain|discriminate|apply B_ptr; [split; reflexivity|reflexivity]|apply RF_nil].
      - exists ((bs "R", 16), RSelf). split; [cbn; auto|discriminate]. }
    eapply WF_field; [apply known_plain| |apply WF_nil]. eapply W_ptr; [exact I|reflexivity|cbn; intuition discriminate|]. apply W_sub, R_sc; [exact I|reflexivity].
  - split; [repeat constructor; cbn; lia|]. split; [apply disjoint_slotsb_spec; vm_compute; reflexivity|]. split; [lia|].
    split; [split; [apply layoutb_spec; vm_compute; reflexivity|lia]|]. split; exact I.
  - exists 50%nat. vm_compute. reflexivity.
  - constructor.
Qed.
Example C59_recursive_case :
  wpointer_safe true strict true ptree_wt = true /\ wno_quoted_numbers ptree_wt = true /\ json_text ptree_text (tree_of ptree_text) /\ shallow strict (tree_of ptree_text) = true /\
  wvariable wC ptree_wt (world 8) (1%nat, 0) (wzero ptree_wt) [].
Proof.
  split; [vm_compute; reflexivity|]. split; [vm_compute; reflexivity|]. split; [apply parse_sound; vm_compute; reflexivity|]. split; [reflexivity|].
  exact (wvariable_new _ _ _ _ _ _ _ (world 8) (1%nat, 0) ptree_decoder (world_zero 8) (world_own 8)).
Qed.

(** Counterexamples: properties that the code does not have.  Each theorem exhibits a
    destination type accepted by NewDecoder, a JSON text and (where it matters) a
    previous value or history, and the outcome of the modelled code that contradicts the
    property.
    [meaningful E T s]: NewDecoder accepts T and s is a JSON text.
    [decode E T s]: outcome of a fresh decoder with default options into a zeroed
    destination; [obs r l]: index, error and the memory cells [l] (block, byte) after the
    call.  The destination is block 1; in [CStr]/[CSlice]/[CPtr]/[CMap] cells the numbers
    are blocks. *)
From Verif Require Import Base NumSpec JsonNum JsonNumProofs Lookup Types AppendType Token FloatLit Heap Machine Parse World Unmarshal PropsGeneral.
Open Scope Z_scope.

Ltac run := vm_compute; reflexivity.

Lemma not_number s : ReadNumber s <> Some ([], RInteger) -> ReadNumber s <> Some ([], RNumber) -> ~ json_number s.
Proof. intros H1 H2 [H|H]; [apply H1, ReadNumber_int, H|apply H2, ReadNumber_nonint, H]. Qed.

(** ** C05: quoted numbers *)
(** struct{ A int `json:"a,string"` } *)
Definition T_quoted := TStruct 1 8 [(tagged "A" "a,string" 0, tInt)].
(** The string 1a is not a number but is accepted and stored as 59. *)
Theorem C05_refuted_string_option :
  meaningful noenv T_quoted (bs "{""a"":""1a""}") /\ ~ json_number (bs "1a") /\
  obs (decode noenv T_quoted (bs "{""a"":""1a""}")) [(1%nat, 0)] = Some (-1, None, [Some (CInt 59)]).
Proof. split; [meaningful|]. split; [apply not_number; vm_compute; discriminate|run]. Qed.
(** A Number holding 123abc. *)
Theorem C05_refuted_Number :
  meaningful noenv TNumber (bs """123abc""") /\ ~ json_number (bs "123abc") /\
  obs (decode noenv TNumber (bs """123abc""")) [(1%nat, 0)] = Some (-1, None, [Some (CStr (SAlias 1 (bs "123abc")))]).
Proof. split; [meaningful|]. split; [apply not_number; vm_compute; discriminate|run]. Qed.
(** The key 1a of a map[int]int becomes 59. *)
Theorem C05_refuted_map_key :
  meaningful noenv (TMap tInt tInt) (bs "{""1a"":7}") /\
  obs (decode noenv (TMap tInt tInt) (bs "{""1a"":7}")) [(1%nat, 0); (3%nat, 0)] = Some (-1, None, [Some (CMap 2); Some (CInt 7)]) /\
  map_after (decode noenv (TMap tInt tInt) (bs "{""1a"":7}")) 2 = Some [(MInt 59, 3%nat)].
Proof. split; [meaningful|]. split; run. Qed.
(** The empty string panics in all three places. *)
Theorem C05_refuted_empty :
  (meaningful noenv T_quoted (bs "{""a"":""""}") /\ decode noenv T_quoted (bs "{""a"":""""}") = DPanics) /\
  (meaningful noenv TNumber (bs """""") /\ decode noenv TNumber (bs """""") = DPanics) /\
  (meaningful noenv (TMap tInt tInt) (bs "{"""":7}") /\ decode noenv (TMap tInt tInt) (bs "{"""":7}") = DPanics).
Proof. split; [|split]; (split; [meaningful|run]). Qed.

(** ** C16: writes outside of the destination *)
(** []struct{ B int } *)
Definition T_elem := TStruct 2 8 [(fld0 "B" 0, tInt)].
(** An unknown member holding an object ends the element early: the next element is
    written behind the end of the new backing array. *)
Theorem C16_refuted_out_of_bounds :
  meaningful noenv (TSlice T_elem) (bs "[{""u"":{}},{""b"":2}]") /\
  decode noenv (TSlice T_elem) (bs "[{""u"":{}},{""b"":2}]") = DCorrupts.
Proof. split; [meaningful|run]. Qed.

(** A pointer below the root ends its struct too late.  [][]struct{ B struct{ A **int } }
    and [][]struct{ B struct{ A *int } }: an element is written outside of the backing array,
    also when unknown members are disallowed.  The first document has the wrong shape, but
    every one of its members is known; and the document of the right shape is refused. *)
Definition T_pp := TStruct 4 8 [(fld0 "A" 0, TPtr (TPtr tInt))].
Definition T_ps := TStruct 5 8 [(fld0 "B" 0, T_pp)].
Definition T_p1 := TStruct 4 8 [(fld0 "A" 0, TPtr tInt)].
Definition T_s1 := TStruct 5 8 [(fld0 "B" 0, T_p1)].
Definition decode_strict (T : ty) (s : bytes) : result :=
  decode_in (Opts true false false) noenv T (dyn0 (stack_of noenv T)) s (world (tsize true noenv T)).
Theorem C16_refuted_pointers :
  let shape := bs "[[{""B"":{""A"":1}}],{""B"":{""A"":2}}]" in
  let unknown := bs "[[{""B"":{""A"":1},""A"":2}],{""B"":{""A"":2}}]" in
  (meaningful noenv (TSlice (TSlice T_ps)) shape /\
   decode noenv (TSlice (TSlice T_ps)) shape = DCorrupts /\ decode_strict (TSlice (TSlice T_ps)) shape = DCorrupts) /\
  (meaningful noenv (TSlice (TSlice T_s1)) unknown /\
   decode noenv (TSlice (TSlice T_s1)) unknown = DCorrupts /\ decode_strict (TSlice (TSlice T_s1)) unknown = DCorrupts).
Proof. split; (split; [meaningful|split; run]). Qed.
Theorem C25_refuted_nested_lists :
  let s := bs "[[{""B"":{""A"":1}}],[{""B"":{""A"":2}}]]" in
  meaningful noenv (TSlice (TSlice T_ps)) s /\
  obs (decode noenv (TSlice (TSlice T_ps)) s) [] = Some (17, Some EUnexpected, []).
Proof. split; [meaningful|run]. Qed.

(** type Tree struct { V int; L, R *Tree } *)
Definition E_tree : env := fun i =>
  match i with
  | 0%nat => Decl (TStruct 0 24 [(fld0 "V" 0, tInt); (fld0 "L" 8, TPtr (TNamed 0)); (fld0 "R" 16, TPtr (TNamed 0))]) 24 SNone SNone
  | _ => Decl TOther 0 SNone SNone
  end.
Definition Tree := TNamed 0.
Definition tree_stk := stack_of E_tree Tree.
(** Memory with two zeroed Trees: block 1 and block 2. *)
Definition two_trees : heap :=
  Heap 3 (fun b => match b with 0%nat => BMem 0 (fun _ => CZero) | 1%nat | 2%nat => BMem 24 (fun _ => CZero) | _ => BFree end).
Definition dec_tree (D : dyn) (s : bytes) (t : ptr) (h : heap) : result :=
  Decode wC default_opts tree_stk D s (TOk (flat 0 (tree_of s))) t h.

(** ** C28, C29, C16: history *)
(** A decoder that failed once, then decodes into another variable. *)
Definition s_fail := bs "{""L"":{""V"":""x""}}".
Definition s_next := bs "{""L"":{""V"":7},""V"":1}".
(** first call: destination block 1 *)
Definition call1 := dec_tree (dyn0 tree_stk) s_fail (Some (1%nat, 0)) two_trees.
(** second call on the same decoder: destination block 2 *)
Definition call2 := dec_tree (dyn_after call1) s_next (Some (2%nat, 0)) (heap_after call1).
(** the same call on a fresh decoder *)
Definition call2_fresh := dec_tree (dyn0 tree_stk) s_next (Some (2%nat, 0)) (heap_after call1).

(** After a failed call the decoder still holds a pointer to the first variable. *)
Theorem C29_refuted :
  meaningful E_tree Tree s_fail /\
  obs call1 [(1%nat, 0)] = Some (10, Some EUnexpected, [Some CZero]) /\ holds_pointer (dyn_after call1).
Proof.
  split; [meaningful|]. split; [run|]. exists 0%nat. right. exists (RS (Some (1%nat, 0)) 0 2).
  split; [vm_compute; left; reflexivity|discriminate].
Qed.
(** The second call, a correct document with V = 1, reports success and leaves V = 0: the
    second variable receives a copy of the first one.  On a fresh decoder V becomes 1. *)
Theorem C28_refuted :
  meaningful E_tree Tree s_fail /\ meaningful E_tree Tree s_next /\
  obs call1 [(1%nat, 0); (2%nat, 0)] = Some (10, Some EUnexpected, [Some CZero; Some CZero]) /\
  obs call2 [(1%nat, 0); (2%nat, 0)] = Some (-1, None, [Some CZero; Some CZero]) /\
  obs call2_fresh [(1%nat, 0); (2%nat, 0)] = Some (-1, None, [Some CZero; Some (CInt 1)]).
Proof. split; [meaningful|]. split; [meaningful|]. repeat split; run. Qed.
(** The same with []Tree: the second call, whose destination is the slice variable in
    block 2, writes V = 2 into the backing array (block 3) of the first variable. *)
Definition Trees := TSlice Tree.
Definition dec_trees (D : dyn) (s : bytes) (t : ptr) (h : heap) : result :=
  Decode wC default_opts (stack_of E_tree Trees) D s (TOk (flat 0 (tree_of s))) t h.
Definition s_fails := bs "[{""V"":5,""L"":{""V"":""x""}}]".
Definition s_nexts := bs "[{""V"":1},{""V"":2}]".
Definition calls1 := dec_trees (dyn0 (stack_of E_tree Trees)) s_fails (Some (1%nat, 0)) two_trees.
Definition calls2 := dec_trees (dyn_after calls1) s_nexts (Some (2%nat, 0)) (heap_after calls1).
Theorem C16_refuted_other_variable :
  meaningful E_tree Trees s_fails /\ meaningful E_tree Trees s_nexts /\
  obs calls1 [(1%nat, 0); (3%nat, 0); (2%nat, 0)] = Some (17, Some EUnexpected, [Some (CSlice (3%nat, 0) 1 1); Some (CInt 5); Some CZero]) /\
  obs calls2 [(1%nat, 0); (3%nat, 0); (2%nat, 0)] = Some (-1, None, [Some (CSlice (3%nat, 0) 1 1); Some (CInt 2); Some (CSlice (5%nat, 0) 2 2)]).
Proof. split; [meaningful|]. split; [meaningful|]. split; run. Qed.

(** ** C17: panics *)
(** struct{ B int }: an unknown member holding an array with an object. *)
Theorem C17_refuted_unknown_member :
  meaningful noenv T_elem (bs "{""u"":[{}]}") /\ decode noenv T_elem (bs "{""u"":[{}]}") = DPanics.
Proof. split; [meaningful|run]. Qed.
(** A map with a key type that is neither string, integer nor a text unmarshaler. *)
Theorem C17_refuted_map_key_type :
  meaningful noenv (TMap TBool tInt) (bs "{""true"":1}") /\ decode noenv (TMap TBool tInt) (bs "{""true"":1}") = DPanics.
Proof. split; [meaningful|run]. Qed.

(** ** C18, C20: unknown members of nested structs *)
(** struct{ B int; N struct{ B int } } *)
Definition T_nested := TStruct 3 16 [(fld0 "B" 0, tInt); (fld0 "N" 8, T_elem)].
(** Without the unknown member N.B = 7; with it N.B is not set and the outer B, whose key
    does not occur in the outer object, becomes 7. *)
Theorem C18_refuted_C20_refuted :
  let with_u := bs "{""N"":{""u"":{},""B"":7}}" in let without_u := bs "{""N"":{""B"":7}}" in
  meaningful noenv T_nested with_u /\ meaningful noenv T_nested without_u /\
  obs (decode noenv T_nested without_u) [(1%nat, 0); (1%nat, 8)] = Some (-1, None, [Some CZero; Some (CInt 7)]) /\
  obs (decode noenv T_nested with_u) [(1%nat, 0); (1%nat, 8)] = Some (-1, None, [Some (CInt 7); Some CZero]).
Proof. cbn zeta. split; [meaningful|]. split; [meaningful|]. split; run. Qed.

(** struct{ P struct{ E struct{}; X int }; X int }: the member E ends P early. *)
Definition T_empty := TStruct 4 0 [].
Definition T_emptyin := TStruct 5 16 [(fld0 "P" 0, TStruct 6 8 [(fld0 "E" 0, T_empty); (fld0 "X" 0, tInt)]); (fld0 "X" 8, tInt)].
Theorem C20_refuted_empty_struct :
  meaningful noenv T_emptyin (bs "{""P"":{""E"":{},""X"":9}}") /\
  obs (decode noenv T_emptyin (bs "{""P"":{""E"":{},""X"":9}}")) [(1%nat, 0); (1%nat, 8)] =
    Some (-1, None, [Some CZero; Some (CInt 9)]).
Proof. split; [meaningful|run]. Qed.

(** ** C19: the empty struct accepts unknown members even with DisallowUnknownFields *)
Theorem C19_refuted_empty_struct :
  meaningful noenv T_empty (bs "{""x"":1}") /\
  obs (decode_in (Opts true false false) noenv T_empty (dyn0 (stack_of noenv T_empty)) (bs "{""x"":1}") (world 0)) [] = Some (-1, None, []).
Proof. split; [meaningful|run]. Qed.

(** ** C22: arrays *)
Definition put (h : heap) (b : nat) (o sz : Z) (v : cv) : heap :=
  match store h (Some (b, o)) sz v with Ok h => h | _ => h end.
(** [2]int{5,6}, then [7]: the second element is not zeroed. *)
Theorem C22_refuted :
  let T := TArr 2 tInt in
  meaningful noenv T (bs "[7]") /\
  obs (decode_in default_opts noenv T (dyn0 (stack_of noenv T)) (bs "[7]")
        (put (put (world 16) 1 0 8 (CInt 5)) 1 8 8 (CInt 6))) [(1%nat, 0); (1%nat, 8)] =
    Some (-1, None, [Some (CInt 7); Some (CInt 6)]).
Proof. cbn zeta. split; [meaningful|run]. Qed.

(** ** C23: maps *)
(** map[string]string{"a":"x"}, then {"b":"y"}: the entry a is lost. *)
Theorem C23_refuted_existing_entries :
  let T := TMap TStr TStr in
  meaningful noenv T (bs "{""b"":""y""}") /\
  obs (decode_in default_opts noenv T (dyn0 (stack_of noenv T)) (bs "{""b"":""y""}")
        (put (world 8) 1 0 8 (CMSS [(SOwn (bs "a"), SOwn (bs "x"))]))) [(1%nat, 0)] =
    Some (-1, None, [Some (CMSS [(SAlias 2 (bs "b"), SAlias 6 (bs "y"))])]).
Proof. cbn zeta. split; [meaningful|run]. Qed.
(** map[string][2]int: the last of two duplicates does not win completely. *)
Theorem C23_refuted_duplicates :
  let T := TMap TStr (TArr 2 tInt) in
  meaningful noenv T (bs "{""k"":[1,2],""k"":[3]}") /\
  map_after (decode noenv T (bs "{""k"":[1,2],""k"":[3]}")) 2 = Some [(MStr (SAlias 2 (bs "k")), 3%nat)] /\
  obs (decode noenv T (bs "{""k"":[1,2],""k"":[3]}")) [(1%nat, 0); (3%nat, 0); (3%nat, 8)] =
    Some (-1, None, [Some (CMap 2); Some (CInt 3); Some (CInt 2)]).
Proof. cbn zeta. split; [meaningful|]. split; run. Qed.

(** ** C25: pointers that are not at the root *)
(** struct{ A, B *int }: a correct document is rejected. *)
Definition T_ptrs := TStruct 1 16 [(fld0 "A" 0, TPtr tInt); (fld0 "B" 8, TPtr tInt)].
Theorem C25_refuted_struct :
  meaningful noenv T_ptrs (bs "{""A"":1,""B"":2}") /\
  obs (decode noenv T_ptrs (bs "{""A"":1,""B"":2}")) [] = Some (7, Some EUnexpected, []).
Proof. split; [meaningful|run]. Qed.
(** []*int from [1,2]: the first element points to 2, the second is nil. *)
Theorem C25_refuted_slice :
  meaningful noenv (TSlice (TPtr tInt)) (bs "[1,2]") /\
  obs (decode noenv (TSlice (TPtr tInt)) (bs "[1,2]")) [(1%nat, 0); (2%nat, 0); (2%nat, 8); (4%nat, 0)] =
    Some (-1, None, [Some (CSlice (2%nat, 0) 2 2); Some (CPtr (4%nat, 0)); Some CZero; Some (CInt 2)]).
Proof. split; [meaningful|run]. Qed.

(** ** C27: recursion through slices and maps *)
(** type N struct { V int; C []N }, type M struct { V int; M map[string]M } *)
Definition E_rec : env := fun i =>
  match i with
  | 0%nat => Decl (TStruct 0 32 [(fld0 "V" 0, tInt); (fld0 "C" 8, TSlice (TNamed 0))]) 32 SNone SNone
  | 1%nat => Decl (TStruct 1 16 [(fld0 "V" 0, tInt); (fld0 "M" 8, TMap TStr (TNamed 1))]) 16 SNone SNone
  | _ => Decl TOther 0 SNone SNone
  end.
(** C from [null, {V:5}]: the null does not advance, element 0 gets V = 5. *)
Theorem C27_refuted_slice :
  let s := bs "{""C"":[null,{""V"":5}],""V"":1}" in
  meaningful E_rec (TNamed 0) s /\
  obs (decode E_rec (TNamed 0) s) [(1%nat, 8); (2%nat, 0); (2%nat, 32)] =
    Some (-1, None, [Some (CSlice (2%nat, 0) 2 2); Some (CInt 5); Some CZero]).
Proof. cbn zeta. split; [meaningful|run]. Qed.
(** An empty map inside: the resulting map has no entry a. *)
Theorem C27_refuted_map :
  let s := bs "{""M"":{""a"":{""M"":{},""V"":2},""b"":{""V"":3}},""V"":1}" in
  meaningful E_rec (TNamed 1) s /\
  obs (decode E_rec (TNamed 1) s) [(1%nat, 0); (1%nat, 8)] = Some (-1, None, [Some (CInt 1); Some (CMap 4)]) /\
  map_after (decode E_rec (TNamed 1) s) 4 = Some [(MStr (SAlias 26 (bs "b")), 5%nat)] .
Proof. cbn zeta. split; [meaningful|]. split; run. Qed.

(** ** C31: NewDecoder does not terminate *)
(** type T []T and type P *P: the construction of the frames runs out of any fuel. *)
Definition E_loop : env := fun i =>
  match i with
  | 0%nat => Decl (TSlice (TNamed 0)) 24 SNone SNone
  | 1%nat => Decl (TPtr (TNamed 1)) 8 SNone SNone
  | _ => Decl TOther 0 SNone SNone
  end.
Theorem C31_refuted : forall fuel stk,
  append true E_loop false fuel stk (TNamed 0) = AFuel /\ append true E_loop false fuel stk (TNamed 1) = AFuel.
Proof.
  induction fuel as [|fuel IH]; intros stk; [split; reflexivity|].
  split; cbn [append]; cbn [json_support text_support under E_loop d_json d_text d_under slice_fast tsize find_recur struct_id].
  - rewrite (proj1 (IH _)). reflexivity.
  - rewrite (proj2 (IH _)). reflexivity.
Qed.

(** ** C34: minus zero *)
(** The integer literal -0 is stored as +0, the number -0.0 as -0. *)
Theorem C34_refuted :
  meaningful noenv (TFloat B64) (bs "-0") /\
  obs (decode noenv (TFloat B64) (bs "-0")) [(1%nat, 0)] = Some (-1, None, [Some (CFloat (FN 0 0 false))]) /\
  parse_float (fun _ _ => None) B64 (bs "-0") = Some (FN 0 0 true).
Proof. split; [meaningful|]. split; run. Qed.

(** ** C35: null *)
(** struct{ A int `json:",string"`; B []struct{} }{5, three elements}: null leaves both. *)
Definition T_null := TStruct 9 32 [(tagged "A" ",string" 0, tInt); (fld0 "B" 8, TSlice T_empty)].
Theorem C35_refuted :
  let s := bs "{""A"":null,""B"":null}" in
  meaningful noenv T_null s /\
  obs (decode_in default_opts noenv T_null (dyn0 (stack_of noenv T_null)) s
        (put (put (world 32) 1 0 8 (CInt 5)) 1 8 24 (CSlice (0%nat, 0) 3 3))) [(1%nat, 0); (1%nat, 8)] =
    Some (-1, None, [Some (CInt 5); Some (CSlice (0%nat, 0) 3 3)]).
Proof. cbn zeta. split; [meaningful|run]. Qed.

(** ** C36: unmarshalers *)
(** Named types 0 (a struct) and 1 (an int) implement json.Unmarshaler. *)
Definition E_um : env := fun i =>
  match i with
  | 0%nat => Decl (TStruct 0 8 [(fld0 "V" 0, tInt)]) 8 SSome SNone
  | 1%nat => Decl tInt 8 SSome SNone
  | _ => Decl TOther 0 SNone SNone
  end.
(** A pointer to such a type panics. *)
Theorem C36_refuted_pointer :
  meaningful E_um (TPtr (TNamed 0)) (bs "{}") /\ decode E_um (TPtr (TNamed 0)) (bs "{}") = DPanics.
Proof. split; [meaningful|run]. Qed.
(** In a slice the method of an integer type is not called: the element is decoded as an
    integer. *)
Theorem C36_refuted_slice :
  meaningful E_um (TSlice (TNamed 1)) (bs "[1]") /\
  obs (decode E_um (TSlice (TNamed 1)) (bs "[1]")) [(1%nat, 0); (2%nat, 0)] =
    Some (-1, None, [Some (CSlice (2%nat, 0) 1 1); Some (CInt 1)]).
Proof. split; [meaningful|run]. Qed.

(** ** C37: Unmarshal into a non-nil any *)
Definition uobs (r : uresult) (l : list (nat * Z)) : option (option err * list (option cv)) :=
  match r with URet e h => Some (e, map (fun x => cell h (fst x) (snd x)) l) | _ => None end.
(** var x any = int(0): Unmarshal decodes as int and stores the integer over the
    interface value; a decoder for any stores the float64 7. *)
Theorem C37_refuted :
  let s := bs "7" in let tk := TOk (flat 0 (tree_of s)) in
  meaningful noenv TAny s /\
  uobs (Unmarshal wC noenv 50 TAny (Some tInt) s tk dest (world 16)) [(1%nat, 0)] = Some (None, [Some (CInt 7)]) /\
  uobs (NewDecoder_Decode wC noenv 50 TAny s tk dest (world 16)) [(1%nat, 0)] = Some (None, [Some (CAny (AFloat (FN 7 0 false)))]).
Proof. cbn zeta. split; [meaningful|]. split; run. Qed.

(** Except for interface types, Unmarshal is NewDecoder followed by Decode. *)
Theorem C37_unmarshal_partial C E fuel T dynamic s tk t h :
  is_interface E T = false \/ dynamic = None ->
  Unmarshal C E fuel T dynamic s tk t h =
  match t with None => URet (Some ENilDest) h | Some _ => NewDecoder_Decode C E fuel T s tk t h end.
Proof.
  intros H. unfold Unmarshal, NewDecoder_Decode. destruct t; [|reflexivity].
  replace (typeof E T dynamic) with (typeof E T None); [reflexivity|].
  unfold typeof. destruct H as [-> | ->]; reflexivity.
Qed.

(** ** C51: a struct type used at two places *)
(** NewDecoder takes a pointer to, a slice or a map of a struct type that occurs anywhere
    before (not only around) the current place for recursion. P and Q are two struct types
    with the same fields. *)
Definition T_P := TStruct 7 16 [(fld0 "X" 0, tInt); (fld0 "Y" 8, tInt)].
Definition T_Q := TStruct 8 16 [(fld0 "X" 0, tInt); (fld0 "Y" 8, tInt)].
(** struct{ A []P; B []Q } and struct{ A, B []P }: *)
Definition T_PQ := TStruct 1 48 [(fld0 "A" 0, TSlice T_P); (fld0 "B" 24, TSlice T_Q)].
Definition T_PP := TStruct 1 48 [(fld0 "A" 0, TSlice T_P); (fld0 "B" 24, TSlice T_P)].
Definition s_PP := bs "{""A"":[{""X"":1}],""B"":[{""X"":2}]}".
(** both lists are stored in the first type, B is lost without an error in the second; *)
Theorem C51_refuted_slices :
  meaningful noenv T_PQ s_PP /\ meaningful noenv T_PP s_PP /\
  obs (decode noenv T_PQ s_PP) [(1%nat, 0); (1%nat, 24); (2%nat, 0); (3%nat, 0)] =
    Some (-1, None, [Some (CSlice (2%nat, 0) 1 1); Some (CSlice (3%nat, 0) 1 1); Some (CInt 1); Some (CInt 2)]) /\
  obs (decode noenv T_PP s_PP) [(1%nat, 0); (1%nat, 24); (2%nat, 0)] =
    Some (-1, None, [Some (CSlice (2%nat, 0) 1 1); Some CZero; Some (CInt 1)]).
Proof. split; [meaningful|]. split; [meaningful|]. split; run. Qed.
(** an unknown member after A overwrites the last element of A; *)
Definition s_PX := bs "{""A"":[{""X"":1}],""X"":5}".
Theorem C51_refuted_overwrites :
  meaningful noenv T_PQ s_PX /\ meaningful noenv T_PP s_PX /\
  obs (decode noenv T_PQ s_PX) [(2%nat, 0)] = Some (-1, None, [Some (CInt 1)]) /\
  obs (decode noenv T_PP s_PX) [(2%nat, 0)] = Some (-1, None, [Some (CInt 5)]).
Proof. split; [meaningful|]. split; [meaningful|]. split; run. Qed.
(** and struct{ A [2]P; B *P } panics on a document that fits. *)
Definition T_AP := TStruct 1 40 [(fld0 "A" 0, TArr 2 T_P); (fld0 "B" 32, TPtr T_P)].
Definition T_AQ := TStruct 1 40 [(fld0 "A" 0, TArr 2 T_P); (fld0 "B" 32, TPtr T_Q)].
Definition s_AP := bs "{""A"":[{""X"":1},{""X"":2}],""B"":{""X"":3}}".
Theorem C51_refuted_array :
  meaningful noenv T_AQ s_AP /\ meaningful noenv T_AP s_AP /\
  obs (decode noenv T_AQ s_AP) [(1%nat, 0); (1%nat, 16); (1%nat, 32); (2%nat, 0)] =
    Some (-1, None, [Some (CInt 1); Some (CInt 2); Some (CPtr (2%nat, 0)); Some (CInt 3)]) /\
  decode noenv T_AP s_AP = DPanics.
Proof. split; [meaningful|]. split; [meaningful|]. split; run. Qed.

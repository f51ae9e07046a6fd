(** C26, C27: recursion that does not go straight from a field of the struct back to it.
    Each theorem is one run of the model on a valid document for the type. *)
From Verif Require Import Base NumSpec StrSpec Lookup Types AppendType Token FloatLit Heap Machine Parse World PropsRec PropsRefuted PropsTypes.
Open Scope Z_scope.

(** type A struct { B *B }, type B struct { A *A; V int };
    type K struct { K []*K; V int }; type P struct { P **P; V int };
    type L struct { L [][]L; V int };
    type I struct { V int; I struct { N *I; W int } } *)
Definition E_deep : env := fun i =>
  match i with
  | 0%nat => Decl (TStruct 0 8 [(fld0 "B" 0, TPtr (TNamed 1))]) 8 SNone SNone
  | 1%nat => Decl (TStruct 1 16 [(fld0 "A" 0, TPtr (TNamed 0)); (fld0 "V" 8, tInt)]) 16 SNone SNone
  | 2%nat => Decl (TStruct 2 32 [(fld0 "K" 0, TSlice (TPtr (TNamed 2))); (fld0 "V" 24, tInt)]) 32 SNone SNone
  | 3%nat => Decl (TStruct 3 16 [(fld0 "P" 0, TPtr (TPtr (TNamed 3))); (fld0 "V" 8, tInt)]) 16 SNone SNone
  | 4%nat => Decl (TStruct 4 32 [(fld0 "L" 0, TSlice (TSlice (TNamed 4))); (fld0 "V" 24, tInt)]) 32 SNone SNone
  | 5%nat => Decl (TStruct 5 24 [(fld0 "V" 0, tInt); (fld0 "I" 8, TStruct 6 16 [(fld0 "N" 0, TPtr (TNamed 5)); (fld0 "W" 8, tInt)])]) 24 SNone SNone
  | _ => Decl TOther 8 SNone SNone
  end.
(** Mutual recursion: from {"B":{"A":{"B":{"V":1}},"V":2}} the member V of the outer B is
    lost, success is reported.  The frame of B is shared by the outer and the inner B, and
    only the frame of A has a recursion stack.  With V before A it works. *)
Theorem C26_refuted_mutual :
  let s := bs "{""B"":{""A"":{""B"":{""V"":1}},""V"":2}}" in
  let s' := bs "{""B"":{""V"":2,""A"":{""B"":{""V"":1}}}}" in
  meaningful E_deep (TNamed 0) s /\ meaningful E_deep (TNamed 0) s' /\
  obs (decode E_deep (TNamed 0) s) [(1%nat, 0); (2%nat, 0); (2%nat, 8); (3%nat, 0); (4%nat, 8)] =
    Some (-1, None, [Some (CPtr (2%nat, 0)); Some (CPtr (3%nat, 0)); Some CZero; Some (CPtr (4%nat, 0)); Some (CInt 1)]) /\
  obs (decode E_deep (TNamed 0) s') [(1%nat, 0); (2%nat, 0); (2%nat, 8); (3%nat, 0); (4%nat, 8)] =
    Some (-1, None, [Some (CPtr (2%nat, 0)); Some (CPtr (3%nat, 0)); Some (CInt 2); Some (CPtr (4%nat, 0)); Some (CInt 1)]).
Proof. cbn zeta. split; [meaningful|]. split; [meaningful|]. split; vm_compute; reflexivity. Qed.
(** []*K: lists of one element work, the second element is refused. *)
Theorem C27_refuted_pointer_list :
  let s1 := bs "{""K"":[{""V"":2}],""V"":1}" in
  let s2 := bs "{""K"":[{""V"":2},{""V"":3}],""V"":1}" in
  meaningful E_deep (TNamed 2) s1 /\ meaningful E_deep (TNamed 2) s2 /\
  obs (decode E_deep (TNamed 2) s1) [(1%nat, 0); (1%nat, 24); (2%nat, 0); (3%nat, 24)] =
    Some (-1, None, [Some (CSlice (2%nat, 0) 1 1); Some (CInt 1); Some (CPtr (3%nat, 0)); Some (CInt 2)]) /\
  obs (decode E_deep (TNamed 2) s2) [] = Some (14, Some EUnexpected, []).
Proof. cbn zeta. split; [meaningful|]. split; [meaningful|]. split; vm_compute; reflexivity. Qed.
(** **P: the member after the pointer is refused. *)
Theorem C26_refuted_double_pointer :
  let s := bs "{""P"":{""V"":2},""V"":1}" in
  meaningful E_deep (TNamed 3) s /\ obs (decode E_deep (TNamed 3) s) [] = Some (13, Some EUnexpected, []).
Proof. cbn zeta. split; [meaningful|vm_compute; reflexivity]. Qed.
(** [][]L: the second list is refused. *)
Theorem C27_refuted_nested_list :
  let s := bs "{""L"":[[{""V"":2}],[{""V"":3}]]}" in
  meaningful E_deep (TNamed 4) s /\ obs (decode E_deep (TNamed 4) s) [] = Some (17, Some EUnexpected, []).
Proof. cbn zeta. split; [meaningful|vm_compute; reflexivity]. Qed.
(** A struct inside that points back: from {"I":{"N":{"I":{"N":{},"W":6}},"W":5}} the outer
    W stays 0 and the inner one is 5; success is reported. *)
Theorem C26_refuted_inner_struct :
  let s := bs "{""I"":{""N"":{""I"":{""N"":{},""W"":6}},""W"":5}}" in
  meaningful E_deep (TNamed 5) s /\
  obs (decode E_deep (TNamed 5) s) [(1%nat, 8); (1%nat, 16); (2%nat, 8); (2%nat, 16)] =
    Some (-1, None, [Some (CPtr (2%nat, 0)); Some CZero; Some (CPtr (3%nat, 0)); Some (CInt 5)]).
Proof. cbn zeta. split; [meaningful|vm_compute; reflexivity]. Qed.

(** C28, C29, C45: successful calls after which the decoder does not work any more; C42. *)
From Verif Require Import Base NumSpec StrSpec Types AppendType Token FloatLit Heap Machine Parse World Dt Elab Value Spec SpecProofs Main Elaborate Encodes PropsGeneral PropsRefuted PropsAccept.
Open Scope Z_scope.

(** ** Recursive types
    An empty map of recursive structs pushes an entry on the recursion stack that is never
    removed (jscandec.go:2154-2177).  type M struct { V int; M map[string]M }, []M. *)
Definition Ms : ty := TSlice (TNamed 1).
Definition ms_stk : list frame := Eval vm_compute in stack_of E_rec Ms.
Definition ms_text : bytes := bs "[{""V"":3},{""M"":{},""V"":4}]".
Definition ms_call (D : dyn) (h : heap) : result := Decode wC default_opts ms_stk D ms_text (TOk (flat 0 (tree_of ms_text))) dest h.
Definition ms_first : result := ms_call (dyn0 ms_stk) (world 24).
(** The same call twice: the first one succeeds, and the variable holds
    [{3,nil},{4,map[]}]; the second one is refused at the member "V" of the second element. *)
Theorem C45_refuted_recursive :
  meaningful E_rec Ms ms_text /\ ms_stk = stack_of E_rec Ms /\
  obs ms_first [(1%nat, 0); (2%nat, 0); (2%nat, 8); (2%nat, 16); (2%nat, 24)] =
    Some (-1, None, [Some (CSlice (2%nat, 0) 2 2); Some (CInt 3); Some CZero; Some (CInt 4); Some (CMap 3)]) /\
  map_after ms_first 3 = Some [] /\
  answer_of (ms_call (dyn_after ms_first) (heap_after ms_first)) = Answer 21 (Some EUnexpected).
Proof. split; [meaningful|]. repeat (split; [vm_compute; reflexivity|]). vm_compute. reflexivity. Qed.
(** A call for another new variable is refused, too; on a new decoder it succeeds. *)
Theorem C28_refuted_after_success :
  meaningful E_rec Ms ms_text /\ ms_stk = stack_of E_rec Ms /\ answer_of ms_first = Answer (-1) None /\
  answer_of (ms_call (dyn_after ms_first) (world 24)) = Answer 21 (Some EUnexpected) /\
  answer_of (ms_call (dyn0 ms_stk) (world 24)) = Answer (-1) None.
Proof. split; [meaningful|]. repeat (split; [vm_compute; reflexivity|]). vm_compute. reflexivity. Qed.
(** After the successful call the decoder holds a pointer to the elements of the slice. *)
Theorem C29_refuted_after_success :
  meaningful E_rec Ms ms_text /\ ms_stk = stack_of E_rec Ms /\ answer_of ms_first = Answer (-1) None /\ holds_pointer (dyn_after ms_first).
Proof.
  split; [meaningful|]. split; [vm_compute; reflexivity|]. split; [vm_compute; reflexivity|]. exists 1%nat. right. eexists.
  split; [vm_compute; left; reflexivity|discriminate].
Qed.

(** ** Arrays
    struct{ A [5]int; B map[string]struct{ X int } }: the brackets after the array in the
    unknown member of B count as elements of A. *)
Definition Ab : ty := TStruct 1 48 [(fld0 "A" 0, TArr 5 tInt); (fld0 "B" 40, TMap TStr (TStruct 2 8 [(fld0 "X" 0, tInt)]))].
Definition ab_stk : list frame := Eval vm_compute in stack_of noenv Ab.
Definition ab_text : bytes := bs "{""B"":{""k"":{""u"":[{""x"":1}]}}}".
Definition ab_call (D : dyn) (h : heap) : result := Decode wC default_opts ab_stk D ab_text (TOk (flat 0 (tree_of ab_text))) dest h.
Definition ab_first : result := ab_call (dyn0 ab_stk) (world 48).
(** The same call twice: the first one succeeds, the second one panics. *)
Theorem C45_refuted_array :
  meaningful noenv Ab ab_text /\ ab_stk = stack_of noenv Ab /\ answer_of ab_first = Answer (-1) None /\
  answer_of (ab_call (dyn_after ab_first) (heap_after ab_first)) = APanic.
Proof. split; [meaningful|]. repeat (split; [vm_compute; reflexivity|]). vm_compute. reflexivity. Qed.

(** ** C42
    [1,2] encodes the []*int value whose elements point to 1 and 2; from it Decode makes the
    value whose first element points to 2 and whose second element is nil (C25_refuted_slice). *)
Definition ptrs_dt : dt := DSlice (DPtr (DSc (SInt (NK true WWord)))).
Theorem C42_refuted_pointers :
  let s := bs "[1,2]" in let T := TSlice (TPtr tInt) in
  decoder_for wC plain_env false T ptrs_dt (stack_of plain_env T) (dyn0 (stack_of plain_env T)) /\ json_text s (tree_of s) /\
  encodes wC default_opts s ptrs_dt (VSlice (Some ([VPtr (Some (VInt 1)); VPtr (Some (VInt 2))], []))) (tree_of s) /\
  obs (decode plain_env T s) [(1%nat, 0); (2%nat, 0); (2%nat, 8); (4%nat, 0)] =
    Some (-1, None, [Some (CSlice (2%nat, 0) 2 2); Some (CPtr (4%nat, 0)); Some CZero; Some (CInt 2)]).
Proof.
  cbn zeta. split; [|split; [apply parse_sound; vm_compute; reflexivity|split; [|vm_compute; reflexivity]]].
  - eapply new_decoder; [apply plain_env_sizes|vm_compute; reflexivity|vm_compute; reflexivity|vm_compute; reflexivity].
  - change (Forall2 (encodes wC default_opts (bs "[1,2]") (DPtr (DSc (SInt (NK true WWord))))) [VPtr (Some (VInt 1)); VPtr (Some (VInt 2))] [JInt 1 (bs "1"); JInt 3 (bs "2")]).
    constructor; [|constructor; [|constructor]]; (split; [reflexivity|]); (split; [apply is_int_spec; reflexivity|]); vm_compute; intuition discriminate.
Qed.

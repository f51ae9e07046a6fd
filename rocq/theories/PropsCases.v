(** Cases that meet the hypotheses of the theorems about every frame list
    (PropsGeneral.v, Alloc.v). *)
From Verif Require Import Base NumSpec Unescape Lookup Types AppendType Token FloatLit Heap Machine Parse World General Alias Alloc PropsGeneral.
Open Scope Z_scope.

(** struct{ A, B string; C []int } *)
Definition case_ty := TStruct 1 56 [(fld0 "A" 0, TStr); (fld0 "B" 16, TStr); (fld0 "C" 32, TSlice tInt)].
Definition case_text : bytes := bs "{""A"":""xy"",""B"":""x\ny"",""C"":[1,2,3]}".
Definition case_bad : bytes := bs "{""A"":""xy"",""C"":[1,true,3]}".
Definition case_stk : list frame := Eval vm_compute in stack_of noenv case_ty.

Lemma world_strings n : all_heap (fun _ => False) (world n).
Proof. intros [|[|b]]; cbn; auto. Qed.
(** C48: with string input A refers to bytes 6 and 7 of the input, B is a new string. *)
Example C48_case :
  all_heap (fun _ => False) (world 56) /\
  obs (decode_in default_opts noenv case_ty (dyn0 case_stk) case_text (world 56)) [(1%nat, 0); (1%nat, 16)] =
    Some (-1, None, [Some (CStr (SAlias 6 (bs "xy"))); Some (CStr (SOwn [120; 10; 121]))]) /\
  slice case_text 6 8 = Some (bs "xy") /\ In 92 (bs "x\ny") /\ Valid (bs "x\ny") = UOk [120; 10; 121].
Proof. split; [apply world_strings|]. split; [vm_compute; reflexivity|]. split; [vm_compute; reflexivity|]. split; [cbn; auto|vm_compute; reflexivity]. Qed.
(** C33: with []byte input both are new. *)
Definition bC : cfg := Cfg true true (c_uj wC) (c_ut wC) (c_pf wC) (c_fold wC).
Example C33_case :
  c_bytes bC = true /\ own_heap (world 56) /\
  obs (Decode bC default_opts case_stk (dyn0 case_stk) case_text (TOk (flat 0 (tree_of case_text))) dest (world 56)) [(1%nat, 0); (1%nat, 16)] =
    Some (-1, None, [Some (CStr (SOwn (bs "xy"))); Some (CStr (SOwn [120; 10; 121]))]).
Proof. split; [reflexivity|]. split; [intros [|[|b]]; cbn; auto|]. vm_compute. reflexivity. Qed.
(** C49: one block of 24 bytes; the theorem allows 5 blocks and 6 * 56 bytes per byte of
    input, plus 4 blocks. *)
Definition grown (r : result) (h : heap) : option (nat * Z) := match r with Ret _ _ _ h' => Some (new_blocks h h', new_bytes h h') | _ => None end.
Example C49_case :
  json_text case_text (tree_of case_text) /\
  grown (decode_in default_opts noenv case_ty (dyn0 case_stk) case_text (world 56)) (world 56) = Some (1%nat, 24) /\
  largest case_stk = 56 /\ length case_stk = 4%nat.
Proof. split; [apply parse_sound; vm_compute; reflexivity|]. repeat split; vm_compute; reflexivity. Qed.
(** C12, C13: an error inside, at the index of the value [true]. *)
Example C12_case :
  json_text case_bad (tree_of case_bad) /\
  obs (decode_in default_opts noenv case_ty (dyn0 case_stk) case_bad (world 56)) [(1%nat, 0)] =
    Some (17, Some EUnexpected, [Some (CStr (SAlias 6 (bs "xy")))]) /\
  In 17%nat (positions (tree_of case_bad)) /\ slice case_bad 17 21 = Some (bs "true").
Proof. split; [apply parse_sound; vm_compute; reflexivity|]. split; [vm_compute; reflexivity|]. split; [vm_compute; tauto|vm_compute; reflexivity]. Qed.

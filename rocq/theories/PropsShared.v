(** C51: how a value is decoded depends on the structure of its type only, not on the
    names of types or on a type being used at several places.  It is false where a struct
    type that occurs before is the element type of a pointer, slice or map (C51_refuted...
    in PropsRefuted.v). *)
From Verif Require Import Base NumSpec StrSpec Lookup Types AppendType Token FloatLit Heap Machine Dt Dec Control Root Elab Value Dval Spec Typed SpecProofs Main Parse World Elaborate PropsDecode.
Open Scope Z_scope.

(** Two decoders, for two Go types with the same resolved form (same kinds, sizes, field
    names and offsets, methods), with any histories, on variables that hold the same value
    at any two places of any two memories: the same document gives the same index, the
    same error and the same value. *)
Theorem C51_same_structure_partial C O E1 dis1 T1 stk1 D1 h1 a1 F1 E2 dis2 T2 stk2 D2 h2 a2 F2 d s v g :
  decoder_for C E1 dis1 T1 d stk1 D1 -> variable C d h1 a1 g F1 ->
  decoder_for C E2 dis2 T2 d stk2 D2 -> variable C d h2 a2 g F2 ->
  json_text s v -> ctl_root C O d v ->
  match Decode C O stk1 D1 s (TOk (flat 0 v)) (Some a1) h1, Decode C O stk2 D2 s (TOk (flat 0 v)) (Some a2) h2 with
  | Ret i e _ h1', Ret i' e' _ h2' => i = i' /\ e = e' /\
      exists g' F1' F2', variable C d h1' a1 g' F1' /\ variable C d h2' a2 g' F2'
  | DPanics, DPanics => True
  | _, _ => False
  end.
Proof.
  intros Df1 V1 Df2 V2 J Ct.
  pose proof (C15_decode_is_recursive_partial C O E1 dis1 T1 d stk1 D1 s v a1 h1 g F1 Df1 J Ct V1) as Q1.
  pose proof (C15_decode_is_recursive_partial C O E2 dis2 T2 d stk2 D2 s v a2 h2 g F2 Df2 J Ct V2) as Q2.
  destruct (dval C O s d v g) as [g'|i e g'|].
  - destruct Q1 as (D1' & h1' & F1' & -> & V1' & _). destruct Q2 as (D2' & h2' & F2' & -> & V2' & _). eauto 8.
  - destruct Q1 as (D1' & h1' & F1' & -> & V1' & _). destruct Q2 as (D2' & h2' & F2' & -> & V2' & _). eauto 8.
  - rewrite Q1, Q2. exact I.
Qed.

(** Case: type Celsius float64; type Row struct { X Celsius; Y []Celsius };
    struct { A, B Row; C []struct { Z Row } } with and without these names. *)
Definition E_row : env := fun i =>
  match i with
  | 0%nat => Decl (TFloat B64) 8 SNone SNone
  | 1%nat => Decl (TStruct 5 32 [(fld0 "X" 0, TNamed 0); (fld0 "Y" 8, TSlice (TNamed 0))]) 32 SNone SNone
  | _ => Decl TOther 8 SNone SNone
  end.
Lemma E_row_sizes : sizes_ok true E_row.
Proof. intros [|[|i]]; reflexivity. Qed.
Definition row (id : nat) : ty := TStruct id 32 [(fld0 "X" 0, TFloat B64); (fld0 "Y" 8, TSlice (TFloat B64))].
Definition named_ty : ty := TStruct 1 88 [(fld0 "A" 0, TNamed 1); (fld0 "B" 32, TNamed 1); (fld0 "C" 64, TSlice (TStruct 2 32 [(fld0 "Z" 0, TNamed 1)]))].
Definition literal_ty : ty := TStruct 1 88 [(fld0 "A" 0, row 6); (fld0 "B" 32, row 7); (fld0 "C" 64, TSlice (TStruct 2 32 [(fld0 "Z" 0, row 8)]))].
Definition row_dt : dt := Eval vm_compute in match elab true E_row false 50 [] named_ty with Some (d, _) => d | None => DEmpty end.
Definition named_stk : list frame := Eval vm_compute in stack_of E_row named_ty.
Definition literal_stk : list frame := Eval vm_compute in stack_of plain_env literal_ty.
Definition row_text : bytes := bs "{""B"":{""X"":1.5},""C"":[{""Z"":{""Y"":[1,2]}},{""Z"":{""X"":-3}}],""A"":{""Y"":[]}}".
Example C51_case :
  decoder_for wC E_row false named_ty row_dt named_stk (dyn0 named_stk) /\
  decoder_for wC plain_env false literal_ty row_dt literal_stk (dyn0 literal_stk) /\
  json_text row_text (tree_of row_text) /\ ctl_root wC default_opts row_dt (tree_of row_text) /\
  (exists g, variable wC row_dt (world 88) (1%nat, 0) g []) /\
  obs (decode E_row named_ty row_text) [(1%nat, 32); (1%nat, 64); (2%nat, 32)] =
    Some (-1, None, [Some (CFloat (FN 15 (-1) false)); Some (CSlice (2%nat, 0) 2 2); Some (CFloat (FN (-3) 0 false))]).
Proof.
  split; [eapply new_decoder; [apply E_row_sizes|vm_compute; reflexivity|vm_compute; reflexivity|vm_compute; reflexivity]|].
  assert (Df : decoder_for wC plain_env false literal_ty row_dt literal_stk (dyn0 literal_stk))
    by (eapply new_decoder; [apply plain_env_sizes|vm_compute; reflexivity|vm_compute; reflexivity|vm_compute; reflexivity]).
  split; [exact Df|]. split; [apply parse_sound; vm_compute; reflexivity|]. split; [apply ctl_rootb_spec; vm_compute; reflexivity|].
  split; [|vm_compute; reflexivity]. eexists. exact (world_rep row_dt (df_layout _ _ _ _ _ _ _ Df)).
Qed.

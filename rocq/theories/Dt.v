(** Resolved destination types and the shape of the frame list NewDecoder builds for them.

    [dt] is a Go type with all names resolved, restricted to the types without recursion
    that the decoder supports.  [resolves E T d] relates a Go type and its resolved form;
    [fits stk i d] says that the frames of [stk] from index [i] on describe [d].
    Models: append_type_stack.go:11-545 (through AppendType.v); [fits] itself is a
    specification (property C30). *)
From Verif Require Import Base Lookup Types AppendType.
Open Scope Z_scope.

(** Scalar types.  The [Q] forms are struct fields with the `string` tag option. *)
Inductive sc := SBool | SStr | SNumber | SInt (k : nk) | SFloat (b : fbits) | SAny
| SBoolQ | SStrQ | SIntQ (k : nk) | SFloatQ (b : fbits).

(** Map key types: string kinds, integer kinds, text unmarshalers. *)
Inductive dkey := KeyStr | KeyInt (k : nk) | KeyText (id : nat) (size : Z).

Inductive dt :=
| DSc (x : sc)
| DText (id : nat) (size : Z)      (* named type [id] implementing encoding.TextUnmarshaler *)
| DJson (id : nat) (size : Z)      (* named type [id] implementing json.Unmarshaler *)
| DArr0                            (* [0]T *)
| DArr (n : nat) (t : dt)          (* [n]T, n > 0 *)
| DEmpty                           (* struct{} *)
| DSlice (t : dt)
| DMap (k : dkey) (t : dt)
| DMSS                             (* map[string]string *)
| DPtr (t : dt)
| DStruct (size : Z) (fs : list ((bytes * Z) * dt)). (* field name, offset, type *)

Section DtInd.
  Context (P : dt -> Prop).
  Hypothesis (H1 : forall x, P (DSc x)) (H2 : forall i z, P (DText i z)) (H3 : forall i z, P (DJson i z))
    (H4 : P DArr0) (H5 : forall n t, P t -> P (DArr n t)) (H6 : P DEmpty) (H7 : forall t, P t -> P (DSlice t))
    (H8 : forall k t, P t -> P (DMap k t)) (H9 : P DMSS) (H10 : forall t, P t -> P (DPtr t))
    (H11 : forall z fs, Forall (fun x => P (snd x)) fs -> P (DStruct z fs)).
  Fixpoint dt_ind' (d : dt) : P d :=
    match d return P d with
    | DSc x => H1 x | DText i z => H2 i z | DJson i z => H3 i z | DArr0 => H4
    | DArr n t => H5 n t (dt_ind' t) | DEmpty => H6 | DSlice t => H7 t (dt_ind' t)
    | DMap k t => H8 k t (dt_ind' t) | DMSS => H9 | DPtr t => H10 t (dt_ind' t)
    | DStruct z fs => H11 z fs ((fix go fs : Forall (fun x => P (snd x)) fs :=
        match fs with [] => Forall_nil _ | x :: r => Forall_cons x (dt_ind' (snd x)) (go r) end) fs)
    end.
End DtInd.

Definition sc_et (x : sc) : et :=
  match x with
  | SBool => EBool | SStr => EStr | SNumber => ENumber | SInt k => EInt k | SFloat b => EF b | SAny => EAny
  | SBoolQ => EBoolS | SStrQ => EStrS | SIntQ k => EIntS k | SFloatQ b => EFS b
  end.

(** Slices with a specialised one-frame representation. *)
Definition fast_et (t : dt) : option et :=
  match t with
  | DSc SBool => Some ESliceBool | DSc SStr => Some ESliceStr
  | DSc (SInt k) => Some (ESliceInt k) | DSc (SFloat b) => Some (ESliceF b)
  | DEmpty => Some ESliceEmpty
  | _ => None
  end.

(** Frame type of the first frame. *)
Definition dt_et (d : dt) : et :=
  match d with
  | DSc x => sc_et x | DText _ _ => EText | DJson _ _ => EJSON | DArr0 => EArray0 | DArr _ _ => EArray
  | DEmpty => EEmptyStruct
  | DSlice t => match fast_et t with Some e => e | None => ESlice end
  | DMap _ _ => EMap | DMSS => EMapSS | DPtr _ => EPtr | DStruct _ _ => EStruct
  end.
Definition dkey_et (k : dkey) : et := match k with KeyStr => EStr | KeyInt k => EInt k | KeyText _ _ => EText end.

Section Sizes.
Variable w64 : bool.
Let W := wb w64.
Definition sc_size (x : sc) : Z :=
  match x with
  | SBool | SBoolQ => 1
  | SStr | SStrQ | SNumber | SAny => 2 * W
  | SInt k | SIntQ k => wsize w64 (nk_w k)
  | SFloat b | SFloatQ b => fsize b
  end.
Fixpoint dsize (d : dt) : Z :=
  match d with
  | DSc x => sc_size x | DText _ z | DJson _ z => z
  | DArr0 | DEmpty => 0
  | DArr n t => Z.of_nat n * dsize t
  | DSlice _ => 3 * W | DMap _ _ | DMSS | DPtr _ => W
  | DStruct z _ => z
  end.
(** Number of frames. *)
Fixpoint dlen (d : dt) : nat :=
  match d with
  | DArr _ t | DPtr t => S (dlen t)
  | DSlice t => match fast_et t with Some _ => 1 | None => S (dlen t) end
  | DMap _ t => S (S (dlen t))
  | DStruct _ fs => S ((fix go fs := match fs with [] => 0%nat | x :: r => (dlen (snd x) + go r)%nat end) fs)
  | _ => 1
  end.
Fixpoint dlens (fs : list ((bytes * Z) * dt)) : nat :=
  match fs with [] => 0%nat | x :: r => (dlen (snd x) + dlens r)%nat end.
Lemma dlen_struct z fs : dlen (DStruct z fs) = S (dlens fs).
Proof. reflexivity. Qed.
Lemma dlen_pos d : (1 <= dlen d)%nat.
Proof using. clear W w64. destruct d; cbn; try lia. destruct (fast_et d); lia. Qed.

(** Names and frame indices of the fields of a struct whose first field has index [i]. *)
Fixpoint field_idx (i : nat) (fs : list ((bytes * Z) * dt)) : list field :=
  match fs with [] => [] | x :: r => (fst (fst x), i) :: field_idx (i + dlen (snd x)) r end.

Section Fits.
Variable stk : list frame.
(** Frame [i] is linked to its parent: parent index, field offset, array length. *)
Definition linked (i : nat) (par : option nat) (off cap : Z) : Prop :=
  exists f, nth_error stk i = Some f /\ f_parent f = par /\ f_off f = off /\ f_cap f = cap.
(** Frame [i] has the type and size of [d], the given fields, and what the type needs
    besides: the unmarshaler type, the size of map values. *)
Definition head_is (i : nat) (d : dt) (fields : list field) : Prop :=
  exists f, nth_error stk i = Some f /\ f_ty f = dt_et d /\ f_size f = dsize d /\ f_fields f = fields /\
    match d with
    | DText id _ | DJson id _ => f_rt f = Some (RNamed id)
    | DMap _ t => f_vsize f = dsize t
    | _ => True
    end.
Definition key_is (i : nat) (k : dkey) : Prop :=
  exists f, nth_error stk i = Some f /\ f_ty f = dkey_et k /\
    match k with KeyText id _ => f_rt f = Some (RNamed id) | _ => True end.

Fixpoint fits (i : nat) (d : dt) {struct d} : Prop :=
  match d with
  | DArr n t => head_is i d [] /\ (0 < n)%nat /\ fits (S i) t /\ linked (S i) (Some i) 0 (Z.of_nat n)
  | DSlice t =>
      match fast_et t with
      | Some _ => head_is i d []
      | None => head_is i d [] /\ fits (S i) t /\ linked (S i) (Some i) 0 0
      end
  | DMap k t => head_is i d [] /\ key_is (S i) k /\ fits (S (S i)) t /\ linked (S (S i)) (Some i) 0 0
  | DPtr t => head_is i d [] /\ fits (S i) t /\ linked (S i) (Some i) 0 0
  | DStruct _ fs =>
      head_is i d (field_idx (S i) fs) /\
      (fix go (k : nat) (fs : list ((bytes * Z) * dt)) : Prop :=
         match fs with
         | [] => True
         | x :: r => fits k (snd x) /\ linked k (Some i) (snd (fst x)) 0 /\ go (k + dlen (snd x))%nat r
         end) (S i) fs
  | _ => head_is i d []
  end.
(** The fields of a struct at frame [i], the first one at frame [k]. *)
Fixpoint fits_fields (i k : nat) (fs : list ((bytes * Z) * dt)) : Prop :=
  match fs with
  | [] => True
  | x :: r => fits k (snd x) /\ linked k (Some i) (snd (fst x)) 0 /\ fits_fields i (k + dlen (snd x)) r
  end.
Lemma fits_struct i z fs :
  fits i (DStruct z fs) <-> head_is i (DStruct z fs) (field_idx (S i) fs) /\ fits_fields i (S i) fs.
Proof.
  cbn [fits]. assert (E : forall fs k, (fix go (k : nat) (fs : list ((bytes * Z) * dt)) : Prop :=
         match fs with
         | [] => True
         | x :: r => fits k (snd x) /\ linked k (Some i) (snd (fst x)) 0 /\ go (k + dlen (snd x))%nat r
         end) k fs <-> fits_fields i k fs).
  { induction fs0 as [|x r IH]; intros k; [tauto|]. rewrite IH. reflexivity. }
  rewrite E. tauto.
Qed.
End Fits.
End Sizes.

(** Go types as seen by the decoder, the expected-type enumeration, and stack frames.

    Models: jscandec.go:48-242 (ExpectType), 352-378 (isElemComposite), 380-447
    (fieldStackFrame, recursionStackFrame, stackFrame), and the facts about
    reflect.Type used by append_type_stack.go (Kind, Elem, Key, Len, Size, Field). *)
From Verif Require Import Base Lookup.
Open Scope Z_scope.

(** Integer widths; [WWord] is Go's int/uint (8 bytes, or 4 on 32-bit systems). *)
Inductive width := W8 | W16 | W32 | W64 | WWord.
Record nk := NK { nk_signed : bool; nk_w : width }.
Inductive fbits := B32 | B64.

(** Go types.  [TNamed i] refers to the [i]-th declaration of the environment (this is
    how recursive types and types with methods are written); all other constructors are
    type literals.  A struct literal carries an identity number (two struct literals are
    the same Go type iff the numbers agree), its size and its fields.
    [TNumber] is jscandec.Number.  [TIfaceM] is an interface with methods; [TOther] any
    type of a kind the decoder rejects (chan, func, complex, ...). *)
Record fld := Fld { fd_name : bytes; fd_tag : bytes; fd_off : Z }.
Inductive ty :=
| TBool | TStr | TNumber | TInt (k : nk) | TFloat (b : fbits)
| TAny | TIfaceM | TOther
| TArr (n : nat) (t : ty) | TSlice (t : ty) | TMap (k v : ty) | TPtr (t : ty)
| TStruct (id : nat) (size : Z) (fs : list (fld * ty))
| TNamed (id : nat).

Section TyInd.
  Context (P : ty -> Prop).
  Hypothesis (HB : P TBool) (HS : P TStr) (HN : P TNumber) (HI : forall k, P (TInt k))
    (HF : forall b, P (TFloat b)) (HA : P TAny) (HM : P TIfaceM) (HO : P TOther)
    (HArr : forall n t, P t -> P (TArr n t)) (HSl : forall t, P t -> P (TSlice t))
    (HMap : forall k v, P k -> P v -> P (TMap k v)) (HP : forall t, P t -> P (TPtr t))
    (HSt : forall id size fs, Forall (fun x => P (snd x)) fs -> P (TStruct id size fs))
    (HNm : forall id, P (TNamed id)).
  Fixpoint ty_ind' (t : ty) : P t :=
    match t return P t with
    | TBool => HB | TStr => HS | TNumber => HN | TInt k => HI k | TFloat b => HF b
    | TAny => HA | TIfaceM => HM | TOther => HO
    | TArr n t => HArr n t (ty_ind' t) | TSlice t => HSl t (ty_ind' t)
    | TMap k v => HMap k v (ty_ind' k) (ty_ind' v) | TPtr t => HP t (ty_ind' t)
    | TStruct id size fs => HSt id size fs
        ((fix go fs : Forall (fun x => P (snd x)) fs :=
            match fs with [] => Forall_nil _ | x :: r => Forall_cons x (ty_ind' (snd x)) (go r) end) fs)
    | TNamed id => HNm id
    end.
End TyInd.

(** Does the named type implement an unmarshaler interface: not at all, or with the
    method on the value or on the pointer (jscandec.go:614-655 determine*Support). *)
Inductive support := SNone | SSome.
Record decl := Decl { d_under : ty; d_size : Z; d_json : support; d_text : support }.
Definition env := nat -> decl.

(** The underlying type (reflect: Kind/Elem/... look through names). *)
Definition under (E : env) (t : ty) : ty := match t with TNamed i => d_under (E i) | _ => t end.

(** Platform and input-type parameters.  [c_word64]: 64-bit system; [c_bytes]: the input
    type S is []byte rather than string. *)
Definition wb (word64 : bool) : Z := if word64 then 8 else 4.

Definition wsize (w64 : bool) (w : width) : Z :=
  match w with W8 => 1 | W16 => 2 | W32 => 4 | W64 => 8 | WWord => wb w64 end.
Definition fsize (b : fbits) : Z := match b with B32 => 4 | B64 => 8 end.

(** reflect.Type.Size() *)
Fixpoint tsize (w64 : bool) (E : env) (t : ty) : Z :=
  match t with
  | TBool => 1
  | TStr | TNumber | TAny | TIfaceM => 2 * wb w64
  | TInt k => wsize w64 (nk_w k)
  | TFloat b => fsize b
  | TOther => wb w64
  | TArr n t => Z.of_nat n * tsize w64 E t
  | TSlice _ => 3 * wb w64
  | TMap _ _ | TPtr _ => wb w64
  | TStruct _ sz _ => sz
  | TNamed i => d_size (E i)
  end.

(** Identity of the types recorded in a frame's RType. *)
Inductive rtid := RStruct (id : nat) | RNamed (id : nat) | RPtrNamed (id : nat) | ROther.

(** jscandec.go:48-242. *)
Inductive et :=
| EAny | ENumber | EJSON | EText | EPtr | EPtrRecur | EMap | EMapSS | EMapRecur
| EArray | EArray0 | ESlice | ESliceRecur | ESliceEmpty | ESliceBool | ESliceStr
| ESliceInt (k : nk) | ESliceF (b : fbits)
| EStruct | EStructRecur | EEmptyStruct | EBool | EStr | EF (b : fbits) | EInt (k : nk)
| EBoolS | EStrS | EFS (b : fbits) | EIntS (k : nk).

(** jscandec.go:354-378 [isElemComposite]. *)
Definition isElemComposite (e : et) : bool :=
  match e with
  | EPtr | EArray0 | EEmptyStruct | EBool | EStr | EF _ | EInt _ => false
  | _ => true
  end.

(** jscandec.go:403-447 [stackFrame], the part fixed by NewDecoder.  [f_vsize] is the
    size of MapValueType; Typ is represented by [f_size] (only its size matters to
    newarray/mallocgc/typedslicecopy in this model).  [None] for the parent is the
    constant noParentFrame. *)
Record frame := Fr {
  f_ty : et; f_size : Z; f_fields : list field; f_rt : option rtid; f_vsize : Z;
  f_cap : Z; f_recur : nat; f_parent : option nat; f_off : Z }.
Definition mkfr (e : et) (size : Z) : frame := Fr e size [] None 0 0 0 None 0.
Definition set_ty (e : et) (f : frame) : frame :=
  Fr e (f_size f) (f_fields f) (f_rt f) (f_vsize f) (f_cap f) (f_recur f) (f_parent f) (f_off f).
Definition set_fields (l : list field) (f : frame) : frame :=
  Fr (f_ty f) (f_size f) l (f_rt f) (f_vsize f) (f_cap f) (f_recur f) (f_parent f) (f_off f).
Definition set_rt (r : rtid) (f : frame) : frame :=
  Fr (f_ty f) (f_size f) (f_fields f) (Some r) (f_vsize f) (f_cap f) (f_recur f) (f_parent f) (f_off f).
Definition set_vsize (z : Z) (f : frame) : frame :=
  Fr (f_ty f) (f_size f) (f_fields f) (f_rt f) z (f_cap f) (f_recur f) (f_parent f) (f_off f).
Definition set_cap (z : Z) (f : frame) : frame :=
  Fr (f_ty f) (f_size f) (f_fields f) (f_rt f) (f_vsize f) z (f_recur f) (f_parent f) (f_off f).
Definition set_recur (i : nat) (f : frame) : frame :=
  Fr (f_ty f) (f_size f) (f_fields f) (f_rt f) (f_vsize f) (f_cap f) i (f_parent f) (f_off f).
Definition set_parent (i : nat) (f : frame) : frame :=
  Fr (f_ty f) (f_size f) (f_fields f) (f_rt f) (f_vsize f) (f_cap f) (f_recur f) (Some i) (f_off f).
Definition set_off (z : Z) (f : frame) : frame :=
  Fr (f_ty f) (f_size f) (f_fields f) (f_rt f) (f_vsize f) (f_cap f) (f_recur f) (f_parent f) z.

(** stack[i] = g(stack[i]) *)
Fixpoint upd {A} (l : list A) (i : nat) (g : A -> A) : list A :=
  match l, i with
  | [], _ => []
  | x :: r, O => g x :: r
  | x :: r, S i => x :: upd r i g
  end.

Lemma upd_length {A} (l : list A) i g : length (upd l i g) = length l.
Proof. revert i; induction l; intros [|i]; cbn; congruence. Qed.
Lemma upd_nth {A} (l : list A) i g j :
  nth_error (upd l i g) j = if Nat.eqb i j then option_map g (nth_error l j) else nth_error l j.
Proof.
  revert i j; induction l as [|x l IH]; intros i j.
  - destruct i, j; cbn; try reflexivity. destruct (Nat.eqb i j); reflexivity.
  - destruct i, j; cbn; try reflexivity. apply IH.
Qed.
Lemma upd_app_r {A} (l m : list A) i g : upd (l ++ m) (length l + i) g = l ++ upd m i g.
Proof. induction l; cbn; congruence. Qed.
Lemma upd_app_l {A} (l m : list A) i g : (i < length l)%nat -> upd (l ++ m) i g = upd l i g ++ m.
Proof.
  revert i; induction l as [|x l IH]; intros i H; cbn in *; [lia|].
  destruct i; cbn; [reflexivity|]. rewrite IH by lia. reflexivity.
Qed.

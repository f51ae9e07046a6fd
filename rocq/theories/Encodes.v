(** What it means that a JSON document encodes a Go value, and that two Go values are the
    same for a user.

    This file is specification: no code of the repository is used.  [encodes d x v]: the
    document [v] is an encoding of the value [x] of type [d] in the way of encoding/json,
    with any choice of whitespace, escapes, number notation and order of members.  [s] is
    the text of the document (needed for json.Unmarshaler only). *)
From Coq Require Import Permutation.
From Verif Require Import Base NumSpec StrSpec Types Token FloatLit Heap Machine Dt Value Dval Spec.
Open Scope Z_scope.

(** The body [r] of a JSON string denotes the text [t], without escaped surrogate pairs
    (which the code mishandles, C08). *)
Definition is_string (r t : bytes) : Prop := exists l, body r l /\ Forall lit_ok l /\ pair_free l /\ meaning l = t.

(** The decimals [m*10^e] and [m'*10^e'] are the same number. *)
Definition same_dec (a b : Z * Z) : Prop :=
  let k := Z.min (snd a) (snd b) in fst a * 10 ^ (snd a - k) = fst b * 10 ^ (snd b - k).
Definition same_float (f g : fnum) : Prop := same_dec (fm f, fe f) (fm g, fe g) /\ fnz f = fnz g.
(** The literal [r] denotes the float [f] of the given width: same number, same sign of
    zero, no overflow. *)
Definition is_float (b : fbits) (r : bytes) (f : fnum) : Prop :=
  same_dec (fm f, fe f) (num_value r) /\ minus_zero r (fst (num_value r)) = fnz f /\ too_big b (num_value r) = false.

(** Encodings of values of type any.  The entries of a map may come in any order. *)
Inductive encodes_any : jany -> jv -> Prop :=
| ea_nil i : encodes_any NNil (JNull i)
| ea_bool i b : encodes_any (NBool b) (JBool i b)
| ea_int i r f : is_float B64 r f -> encodes_any (NNum f) (JInt i r)
| ea_num i r f : is_float B64 r f -> encodes_any (NNum f) (JNum i r)
| ea_str i r t : is_string r t -> encodes_any (NStr t) (JStr i r)
| ea_arr i j la l : Forall2 encodes_any la l -> encodes_any (NArr la) (JArr i j l)
| ea_obj i j la la' l : Permutation la la' -> NoDup (map fst la) ->
    Forall2 (fun a x => is_string (snd (fst x)) (fst a) /\ encodes_any (snd a) (snd x)) la' l ->
    encodes_any (NObj la) (JObj i j l).

(** ** Sameness of values: floats are numbers, maps are unordered, elements of a slice
    beyond its length do not count. *)
Inductive same_any : jany -> jany -> Prop :=
| sa_nil : same_any NNil NNil
| sa_bool b : same_any (NBool b) (NBool b)
| sa_num f g : same_float f g -> same_any (NNum f) (NNum g)
| sa_str t : same_any (NStr t) (NStr t)
| sa_arr l l' : Forall2 same_any l l' -> same_any (NArr l) (NArr l')
| sa_obj l l1 l' : Permutation l l1 -> Forall2 (fun a b => fst a = fst b /\ same_any (snd a) (snd b)) l1 l' ->
    same_any (NObj l) (NObj l').
Inductive same_value : gval -> gval -> Prop :=
| sv_bool b : same_value (VBool b) (VBool b)
| sv_int z : same_value (VInt z) (VInt z)
| sv_float f g : same_float f g -> same_value (VFloat f) (VFloat g)
| sv_str t : same_value (VStr t) (VStr t)
| sv_any a b : same_any a b -> same_value (VAny a) (VAny b)
| sv_user b : same_value (VUser b) (VUser b)
| sv_arr l l' : Forall2 same_value l l' -> same_value (VArr l) (VArr l')
| sv_struct l l' : Forall2 same_value l l' -> same_value (VStruct l) (VStruct l')
| sv_nil : same_value (VSlice None) (VSlice None)
| sv_slice l l' hid hid' : Forall2 same_value l l' -> same_value (VSlice (Some (l, hid))) (VSlice (Some (l', hid')))
| sv_nomap : same_value (VMap None) (VMap None)
| sv_map m m1 m' : Permutation m m1 -> Forall2 (fun a b => fst a = fst b /\ same_value (snd a) (snd b)) m1 m' ->
    same_value (VMap (Some m)) (VMap (Some m'))
| sv_nomss : same_value (VMSS None) (VMSS None)
| sv_mss m m' : Permutation m m' -> same_value (VMSS (Some m)) (VMSS (Some m'))
| sv_noptr : same_value (VPtr None) (VPtr None)
| sv_ptr g g' : same_value g g' -> same_value (VPtr (Some g)) (VPtr (Some g')).

Section Encodes.
Variables (C : cfg) (O : opts) (s : bytes).

(** The literal [r] denotes the integer [z], which fits the type. *)
Definition is_integer (k : nk) (r : bytes) (z : Z) : Prop :=
  json_int r /\ int_value r = z /\ in_range (kind_of C k) z /\ (nk_signed k = false -> json_uint r).
Definition encodes_sc (x : sc) (g : gval) (v : jv) : Prop :=
  match x, g, v with
  | SBool, VBool b, JBool _ b' => b = b'
  | SStr, VStr t, JStr _ r => is_string r t
  | SNumber, VStr t, (JInt _ r | JNum _ r) => r = t
  | SInt k, VInt z, JInt _ r => is_integer k r z
  | SFloat b, VFloat f, JInt _ r => is_float b r f /\ fnz f = false (* C34: the sign of -0 is lost *)
  | SFloat b, VFloat f, JNum _ r => is_float b r f
  | SAny, VAny a, v => encodes_any a v
  (* fields with the `string` option *)
  | SBoolQ, VBool b, JStr _ r => r = if b then bs "true" else bs "false"
  | SStrQ, VStr t, JStr _ r => r = [92; 34] ++ t ++ [92; 34] /\ ~ In 92 t
  | SIntQ k, VInt z, JStr _ r => is_integer k r z
  | SFloatQ b, VFloat f, JStr _ r => json_number r /\ is_float b r f
  | _, _, _ => False
  end.
(** Map keys. *)
Definition encodes_key (k : dkey) (key : gkey) (r : bytes) : Prop :=
  match k, key with
  | KeyStr, GStr t => is_string r t
  | KeyInt k, GInt z => is_integer k r z
  | KeyText id _, GUser b => exists t, is_string r t /\ c_ut C id [] t = (b, None)
  | _, _ => False
  end.
(** Names of struct fields; with DisableFieldNameUnescaping the key must be the name. *)
Definition encodes_name (nm r : bytes) : Prop := is_string r nm /\ (o_nounescape O = true -> r = nm).
Fixpoint encodes_fields (rs : list (bytes * (gval -> jv -> Prop))) (gs : list gval) (l : list ((nat * bytes) * jv)) : Prop :=
  match rs, gs, l with
  | [], [], [] => True
  | (nm, R) :: rs, g :: gs, x :: l => (encodes_name nm (snd (fst x)) /\ R g (snd x)) /\ encodes_fields rs gs l
  | _, _, _ => False
  end.
Definition is_null (v : jv) : bool := match v with JNull _ => true | _ => false end.

Fixpoint encodes (d : dt) (g : gval) (v : jv) {struct d} : Prop :=
  match d with
  | DSc x => encodes_sc x g v
  | DText id z => (* the method accepts the text and makes it this value, whatever was there *)
      match g, v with
      | VUser b, JStr _ r => exists t, is_string r t /\ (forall old, c_ut C id old t = (b, None)) /\ (z <= 0 -> b = [])
      | _, _ => False
      end
  | DJson id z =>
      match g with
      | VUser b => (forall old, c_uj C id old (source s v) = (b, None)) /\ (z <= 0 -> b = [])
      | _ => False
      end
  | DArr0 => match g, v with VArr [], JArr _ _ [] => True | _, _ => False end
  | DEmpty => match g, v with VStruct [], JObj _ _ [] => True | _, _ => False end
  | DArr n t => match g, v with VArr gs, JArr _ _ l => length gs = n /\ Forall2 (encodes t) gs l | _, _ => False end
  | DSlice t =>
      match g, v with
      | VSlice None, JNull _ => t <> DEmpty (* C35 *)
      | VSlice (Some (gs, _)), JArr _ _ l => Forall2 (encodes t) gs l
      | _, _ => False
      end
  | DMap k t =>
      match g, v with
      | VMap None, JNull _ => True
      | VMap (Some m), JObj _ _ l => NoDup (map fst m) /\
          exists m1, Permutation m m1 /\ Forall2 (fun a x => encodes_key k (fst a) (snd (fst x)) /\ encodes t (snd a) (snd x)) m1 l
      | _, _ => False
      end
  | DMSS =>
      match g, v with
      | VMSS None, JNull _ => True
      | VMSS (Some m), JObj _ _ l => NoDup (map fst m) /\
          exists m1, Permutation m m1 /\
            Forall2 (fun a x => is_string (snd (fst x)) (fst a) /\ exists i r, snd x = JStr i r /\ is_string r (snd a)) m1 l
      | _, _ => False
      end
  | DPtr t =>
      match g with
      | VPtr None => is_null v = true
      | VPtr (Some g) => is_null v = false /\ encodes t g v
      | _ => False
      end
  | DStruct _ fs => (* every field once, in any order *)
      match g, v with
      | VStruct gs, JObj _ _ l => NoDup (map (fun x => fst (fst x)) fs) /\
          exists l1, Permutation l l1 /\ encodes_fields (map (fun x => (fst (fst x), encodes (snd x))) fs) gs l1
      | _, _ => False
      end
  end.
End Encodes.

(** All maps inside the value that will be filled are empty.  (Decode adds to what is
    there, C23; what a pointer points to is replaced.) *)
Fixpoint empty_maps (d : dt) (g : gval) {struct d} : Prop :=
  match d with
  | DMap _ _ => match g with VMap (Some (_ :: _)) => False | _ => True end
  | DArr _ t => match g with VArr gs => Forall (empty_maps t) gs | _ => True end
  | DSlice t => match g with VSlice (Some (vis, hid)) => Forall (empty_maps t) vis /\ Forall (empty_maps t) hid | _ => True end
  | DStruct _ fs =>
      match g with
      | VStruct gs => (fix go (fs : list ((bytes * Z) * dt)) (gs : list gval) : Prop :=
          match fs, gs with x :: fs, g :: gs => empty_maps (snd x) g /\ go fs gs | _, _ => True end) fs gs
      | _ => True
      end
  | _ => True
  end.

(** Types without a pointer or struct{} below the root: where these occur inside other
    types the code is defective (C25, C20); []struct{} is fine. *)
Fixpoint no_inner_ptr (d : dt) : bool :=
  match d with
  | DPtr _ | DEmpty => false
  | DArr _ t | DMap _ t => no_inner_ptr t
  | DSlice t => match fast_et t with Some _ => true | None => no_inner_ptr t end
  | DStruct _ fs => forallb (fun x => no_inner_ptr (snd x)) fs
  | _ => true
  end.
Fixpoint root_shape (d : dt) : bool :=
  match d with DPtr t => root_shape t | DEmpty => true | _ => no_inner_ptr d end.

(** Go values, and what it means that memory holds a Go value of a resolved type.

    This file is specification.  [gval] are Go values as a user sees them (strings are
    byte sequences, maps are association lists with distinct keys, a slice has its
    visible elements and the elements between its length and its capacity).
    [rep d h p g F]: memory [h] holds the value [g] of type [d] at address [p], and [F]
    are the memory blocks that belong to the value (backing arrays, maps, map values,
    pointees).  Requiring [F] to have no duplicates says that the value is a tree: no
    two parts of it share memory. *)
From Verif Require Import Base Types FloatLit Heap Dt.
Open Scope Z_scope.

(** Values of type any. *)
Inductive jany := NNil | NBool (b : bool) | NNum (f : fnum) | NStr (b : bytes) | NArr (l : list jany) | NObj (l : list (bytes * jany)).
Inductive gkey := GStr (b : bytes) | GInt (z : Z) | GUser (b : bytes).
Inductive gval :=
| VBool (b : bool) | VInt (z : Z) | VFloat (f : fnum) | VStr (b : bytes) | VAny (a : jany)
| VUser (b : bytes)                                   (* a type with unmarshaler methods *)
| VArr (l : list gval) | VStruct (l : list gval)
| VSlice (o : option (list gval * list gval))         (* nil, or visible and hidden elements *)
| VMap (o : option (list (gkey * gval))) | VMSS (o : option (list (bytes * bytes)))
| VPtr (o : option gval).

Definition gkey_eqb (a b : gkey) : bool :=
  match a, b with
  | GStr x, GStr y | GUser x, GUser y => bytes_eqb x y
  | GInt x, GInt y => x =? y
  | _, _ => false
  end.

(** The zero value of a type. *)
Definition zero_sc (x : sc) : gval :=
  match x with
  | SBool | SBoolQ => VBool false
  | SStr | SStrQ | SNumber => VStr []
  | SInt _ | SIntQ _ => VInt 0
  | SFloat _ | SFloatQ _ => VFloat (float_of_int 0)
  | SAny => VAny NNil
  end.
Fixpoint zero (d : dt) : gval :=
  match d with
  | DSc x => zero_sc x
  | DText _ _ | DJson _ _ => VUser []
  | DArr0 => VArr []
  | DArr n t => VArr (repeat (zero t) n)
  | DEmpty => VStruct []
  | DSlice _ => VSlice None
  | DMap _ _ => VMap None
  | DMSS => VMSS None
  | DPtr _ => VPtr None
  | DStruct _ fs => VStruct (map (fun x => zero (snd x)) fs)
  end.

(** Layout: sizes are not negative, the fields of a struct lie inside it and do not
    overlap. *)
Fixpoint disjoint_slots (l : list (Z * Z)) : Prop :=
  match l with
  | [] => True
  | x :: r => Forall (fun y => fst x + snd x <= fst y \/ fst y + snd y <= fst x) r /\ disjoint_slots r
  end.
Section Rep.
Variable w64 : bool.
Let W := wb w64.
Notation dsize := (dsize w64).
Fixpoint layout (d : dt) : Prop :=
  match d with
  | DText _ z | DJson _ z => 0 <= z
  | DArr _ t | DSlice t | DMap _ t | DPtr t => layout t
  | DStruct z fs =>
      Forall (fun x => 0 <= snd (fst x) /\ snd (fst x) + dsize (snd x) <= z) fs /\
      disjoint_slots (map (fun x => (snd (fst x), dsize (snd x))) fs) /\ 0 <= z /\
      (fix all (fs : list ((bytes * Z) * dt)) : Prop := match fs with [] => True | x :: r => layout (snd x) /\ all r end) fs
  | _ => True
  end.

(** The byte at distance [x] from [p]. *)
Definition cellat (h : heap) (p : ptr) (x : Z) : option cv :=
  match p with
  | None => None
  | Some (b, o) =>
      match blk h b with
      | BMem size cells => if (0 <=? o + x) && (o + x <? size) then Some (cells (o + x)) else None
      | _ => None
      end
  end.
(** There are [n] bytes of memory at [p]. *)
Definition room (h : heap) (p : ptr) (n : Z) : Prop := forall x, 0 <= x < n -> cellat h p x <> None.

(** What a cell holds. *)
Fixpoint view (a : gany) : jany :=
  match a with
  | ANil => NNil | ABool b => NBool b | AFloat f => NNum f | AStr g => NStr (chars g)
  | AArr l => NArr (map view l)
  | AObj l => NObj (map (fun x => (chars (fst x), view (snd x))) l)
  end.
Definition kview (k : mkey) : gkey := match k with MStr g => GStr (chars g) | MInt z => GInt z | MUser b => GUser b end.
Definition rep_sc (x : sc) (c : cv) (g : gval) : Prop :=
  match c with
  | CZero => g = zero_sc x
  | CBool b => match x with SBool | SBoolQ => g = VBool b | _ => False end
  | CInt z => match x with SInt _ | SIntQ _ => g = VInt z | _ => False end
  | CFloat f => match x with SFloat _ | SFloatQ _ => g = VFloat f | _ => False end
  | CStr s => match x with SStr | SStrQ | SNumber => g = VStr (chars s) | _ => False end
  | CAny a => match x with SAny => g = VAny (view a) | _ => False end
  | _ => False
  end.

Definition rept := heap -> ptr -> gval -> list nat -> Prop.
(** Parts at given offsets. *)
Fixpoint reps (rs : list (Z * rept)) (h : heap) (p : ptr) (gs : list gval) (F : list nat) : Prop :=
  match rs, gs with
  | [], [] => F = []
  | r :: rs, g :: gs => exists F1 F2, F = F1 ++ F2 /\ snd r h (padd p (fst r)) g F1 /\ reps rs h p gs F2
  | _, _ => False
  end.
(** [n] elements of [sz] bytes, the first one with index [k]. *)
Fixpoint slots (sz : Z) (R : rept) (k n : nat) : list (Z * rept) :=
  match n with O => [] | S m => (Z.of_nat k * sz, R) :: slots sz R (S k) m end.
(** Map entries: a block per value. *)
Fixpoint rep_entries (R : rept) (sz : Z) (h : heap) (l : list (mkey * nat)) (m : list (gkey * gval)) (F : list nat) : Prop :=
  match l, m with
  | [], [] => F = []
  | (k, b) :: l, (k', g) :: m => exists F1 F2, F = b :: F1 ++ F2 /\ k' = kview k /\
      room h (Some (b, 0)) sz /\
      R h (Some (b, 0)) g F1 /\ rep_entries R sz h l m F2
  | _, _ => False
  end.
Fixpoint distinct (m : list gkey) : Prop :=
  match m with [] => True | k :: r => Forall (fun k' => gkey_eqb k k' = false) r /\ distinct r end.

(** One cell of [n] bytes holding [c]. *)
Definition holds (h : heap) (p : ptr) (n : Z) (c : cv) : Prop := room h p n /\ cellat h p 0 = Some c.

Fixpoint rep (d : dt) (h : heap) (p : ptr) (g : gval) (F : list nat) {struct d} : Prop :=
  match d with
  | DSc x => F = [] /\ exists c, holds h p (sc_size w64 x) c /\ rep_sc x c g
  | DText _ z | DJson _ z =>
      F = [] /\
      if z <=? 0 then g = VUser []
      else exists c, holds h p z c /\ match c with CZero => g = VUser [] | CUser b => g = VUser b | _ => False end
  | DArr0 => F = [] /\ g = VArr []
  | DEmpty => F = [] /\ g = VStruct []
  | DArr n t => exists gs, g = VArr gs /\ reps (slots (dsize t) (rep t) 0 n) h p gs F
  | DStruct _ fs => exists gs, g = VStruct gs /\ reps (map (fun x => (snd (fst x), rep (snd x))) fs) h p gs F
  | DSlice t =>
      exists c, holds h p (3 * W) c /\
      match c with
      | CZero => g = VSlice None /\ F = []
      | CSlice a len cap =>
          exists vis hid F', g = VSlice (Some (vis, hid)) /\ len = Z.of_nat (length vis) /\
            cap = Z.of_nat (length vis + length hid) /\ room h (Some a) (cap * dsize t) /\
            reps (slots (dsize t) (rep t) 0 (length vis + length hid)) h (Some a) (vis ++ hid) F' /\
            F = (if (0 <? dsize t) && (0 <? cap) then [fst a] else []) ++ F'
      | _ => False
      end
  | DMap _ t =>
      exists c, holds h p W c /\
      match c with
      | CZero => g = VMap None /\ F = []
      | CMap b =>
          exists l m F', blk h b = BMap l /\ g = VMap (Some m) /\ rep_entries (rep t) (dsize t) h l m F' /\
            distinct (map fst m) /\ F = b :: F'
      | _ => False
      end
  | DMSS =>
      F = [] /\ exists c, holds h p W c /\
      match c with
      | CZero => g = VMSS None
      | CMSS l => g = VMSS (Some (map (fun x => (chars (fst x), chars (snd x))) l))
      | _ => False
      end
  | DPtr t =>
      exists c, holds h p W c /\
      match c with
      | CZero => g = VPtr None /\ F = []
      | CPtr a =>
          exists v F', g = VPtr (Some v) /\ rep t h (Some a) v F' /\
            F = (if 0 <? dsize t then [fst a] else []) ++ F'
      | _ => False
      end
  end.
End Rep.

(** ** Slices, maps and pointers over an arbitrary element type *)
(** A type in memory: its size, what it means that memory holds a value, its zero value. *)
Record mty := MT { m_size : Z; m_rep : rept; m_zero : gval }.
Section Over.
Variable w64 : bool.
Let W := wb w64.
Definition mt (d : dt) : mty := MT (dsize w64 d) (rep w64 d) (zero d).
Definition rep_slice (t : mty) : rept := fun h p g F =>
  exists c, holds h p (3 * W) c /\
  match c with
  | CZero => g = VSlice None /\ F = []
  | CSlice a len cap =>
      exists vis hid F', g = VSlice (Some (vis, hid)) /\ len = Z.of_nat (length vis) /\
        cap = Z.of_nat (length vis + length hid) /\ room h (Some a) (cap * m_size t) /\
        reps (slots (m_size t) (m_rep t) 0 (length vis + length hid)) h (Some a) (vis ++ hid) F' /\
        F = (if (0 <? m_size t) && (0 <? cap) then [fst a] else []) ++ F'
  | _ => False
  end.
Definition rep_map (t : mty) : rept := fun h p g F =>
  exists c, holds h p W c /\
  match c with
  | CZero => g = VMap None /\ F = []
  | CMap b =>
      exists l m F', blk h b = BMap l /\ g = VMap (Some m) /\ rep_entries (m_rep t) (m_size t) h l m F' /\
        distinct (map fst m) /\ F = b :: F'
  | _ => False
  end.
Definition rep_ptr (t : mty) : rept := fun h p g F =>
  exists c, holds h p W c /\
  match c with
  | CZero => g = VPtr None /\ F = []
  | CPtr a =>
      exists v F', g = VPtr (Some v) /\ m_rep t h (Some a) v F' /\
        F = (if 0 <? m_size t then [fst a] else []) ++ F'
  | _ => False
  end.
Definition mslice (t : mty) : mty := MT (3 * W) (rep_slice t) (VSlice None).
Definition mmap (t : mty) : mty := MT W (rep_map t) (VMap None).
Definition mptr (t : mty) : mty := MT W (rep_ptr t) (VPtr None).
(** They are what [rep] says about them. *)
Lemma rep_slice_eq t : rep w64 (DSlice t) = rep_slice (mt t).
Proof. reflexivity. Qed.
Lemma rep_map_eq k t : rep w64 (DMap k t) = rep_map (mt t).
Proof. reflexivity. Qed.
Lemma rep_ptr_eq t : rep w64 (DPtr t) = rep_ptr (mt t).
Proof. reflexivity. Qed.
End Over.

(** The blocks [F] of a value at [p] are distinct, allocated, and none of them is the
    block of [p] itself. *)
Definition pblk (p : ptr) : option nat := match p with Some (b, _) => Some b | None => None end.
Definition own (h : heap) (p : ptr) (F : list nat) : Prop :=
  (0 < nxt h)%nat /\ NoDup F /\ (forall b, In b F -> (0 < b < nxt h)%nat /\ pblk p <> Some b) /\
  (forall b, pblk p = Some b -> (b < nxt h)%nat).
(** From [h] to [h'] only the [n] bytes at [p], the blocks [F] and new blocks changed; the
    blocks [F'] are among [F] and the new ones.  Memory at [p] stays allocated. *)
Definition only (h h' : heap) (p : ptr) (n : Z) (F F' : list nat) : Prop :=
  (nxt h <= nxt h')%nat /\
  (forall b, (b < nxt h)%nat -> ~ In b F -> pblk p <> Some b -> blk h' b = blk h b) /\
  (forall x, ~ (0 <= x < n) -> cellat h' p x = cellat h p x) /\
  (forall x, cellat h' p x = None <-> cellat h p x = None) /\
  (forall b, In b F' -> In b F \/ (nxt h <= b)%nat).

(** Memory model.

    Memory is a collection of blocks.  An address is a block and a byte offset.  A block
    of plain memory has a size in bytes and contents per byte offset: the value stored at
    an offset is kept as one abstract cell value at its first byte, its other bytes are
    marked [CPoison].  [CZero] is the initial contents of every byte (Go memory is
    zeroed) and can be read as the zero value of any type.  Accesses are checked: out of
    bounds or into the middle of a stored value is [Cor] (memory corruption), through a
    nil pointer is [Pan] (run-time panic).

    Block 0 is the zero-sized block used by Go for allocations of size 0 (runtime
    zerobase, jscandec.go:2852-2854 emptyStructAddr).

    Simplifications: values of type `any` and map[string]string are immutable trees
    inside one cell (the decoder only ever replaces them); every map value lives in a
    block of its own that does not move (Go may move values when a map grows; the
    decoder never keeps a value pointer across an assignment to the same map). *)
From Verif Require Import Base FloatLit.
Open Scope Z_scope.

Inductive res (A : Type) := Ok (a : A) | Pan | Cor.
Arguments Ok {A}. Arguments Pan {A}. Arguments Cor {A}.
Definition rbind {A B} (r : res A) (f : A -> res B) : res B :=
  match r with Ok a => f a | Pan => Pan | Cor => Cor end.
Notation "'let*' x := e 'in' k" := (rbind e (fun x => k)) (at level 200, x pattern, right associativity).

Definition addr := (nat * Z)%type.
Definition ptr := option addr. (* None = nil *)
Definition padd (p : ptr) (o : Z) : ptr := match p with Some (b, x) => Some (b, x + o) | None => None end.

(** A Go string: its bytes, and whether it owns them or refers to the input at byte [i]. *)
Inductive gstr := SOwn (b : bytes) | SAlias (i : nat) (b : bytes).
Definition chars (g : gstr) : bytes := match g with SOwn b => b | SAlias _ b => b end.

Inductive gany :=
| ANil | ABool (b : bool) | AFloat (f : fnum) | AStr (g : gstr) | AArr (l : list gany)
| AObj (l : list (gstr * gany)).

Inductive cv :=
| CZero | CPoison | CBool (b : bool) | CInt (z : Z) | CFloat (f : fnum) | CStr (g : gstr)
| CSlice (p : addr) (len cap : Z) | CPtr (p : addr) | CMap (b : nat) | CAny (a : gany)
| CMSS (l : list (gstr * gstr)) | CUser (b : bytes).

(** Map keys: strings, integers, keys produced by a text unmarshaler. *)
Inductive mkey := MStr (g : gstr) | MInt (z : Z) | MUser (b : bytes).
Definition mkey_eqb (a b : mkey) : bool :=
  match a, b with
  | MStr g, MStr g' => bytes_eqb (chars g) (chars g')
  | MInt z, MInt z' => z =? z'
  | MUser u, MUser u' => bytes_eqb u u'
  | _, _ => false
  end.

Inductive block := BFree | BMem (size : Z) (cells : Z -> cv) | BMap (l : list (mkey * nat)).
Record heap := Heap { nxt : nat; blk : nat -> block }.

Definition set_blk (h : heap) (b : nat) (k : block) : heap :=
  Heap (nxt h) (fun x => if Nat.eqb x b then k else blk h x).
Definition alloc_blk (h : heap) (k : block) : nat * heap :=
  (nxt h, Heap (S (nxt h)) (fun x => if Nat.eqb x (nxt h) then k else blk h x)).

(** Contents after storing a value of [sz] bytes at offset [o]. *)
Definition put_cell (cells : Z -> cv) (o sz : Z) (v : cv) : Z -> cv :=
  fun x => if x =? o then v else if (o <? x) && (x <? o + sz) then CPoison else cells x.

Definition is_poison (v : cv) : bool := match v with CPoison => true | _ => false end.

Definition store (h : heap) (p : ptr) (sz : Z) (v : cv) : res heap :=
  match p with
  | None => Pan
  | Some (b, o) =>
      match blk h b with
      | BMem size cells =>
          if (0 <=? o) && (o + sz <=? size) && negb (is_poison (cells o))
          then Ok (set_blk h b (BMem size (put_cell cells o sz v))) else Cor
      | _ => Cor
      end
  end.

Definition load (h : heap) (p : ptr) (sz : Z) : res cv :=
  match p with
  | None => Pan
  | Some (b, o) =>
      match blk h b with
      | BMem size cells =>
          if (0 <=? o) && (o + sz <=? size) && negb (is_poison (cells o)) then Ok (cells o) else Cor
      | _ => Cor
      end
  end.

(** mallocgc(size, typ, true) and newarray(typ, n) with n*size bytes. *)
Definition malloc (h : heap) (size : Z) : addr * heap :=
  if size <=? 0 then ((0%nat, 0), h)
  else let '(b, h) := alloc_blk h (BMem size (fun _ => CZero)) in ((b, 0), h).

(** typedmemclr *)
Definition clear (h : heap) (p : ptr) (n : Z) : res heap :=
  if n <=? 0 then Ok h else
  match p with
  | None => Pan
  | Some (b, o) =>
      match blk h b with
      | BMem size cells =>
          if (0 <=? o) && (o + n <=? size)
          then Ok (set_blk h b (BMem size (fun x => if (o <=? x) && (x <? o + n) then CZero else cells x))) else Cor
      | _ => Cor
      end
  end.

(** typedslicecopy / typedmemmove of [n] bytes. *)
Definition copy (h : heap) (dst src : ptr) (n : Z) : res heap :=
  if n <=? 0 then Ok h else
  match dst, src with
  | Some (b, o), Some (b', o') =>
      match blk h b, blk h b' with
      | BMem size cells, BMem size' cells' =>
          if (0 <=? o) && (o + n <=? size) && (0 <=? o') && (o' + n <=? size')
          then Ok (set_blk h b (BMem size (fun x => if (o <=? x) && (x <? o + n) then cells' (x - o + o') else cells x)))
          else Cor
      | _, _ => Cor
      end
  | _, _ => Pan
  end.

(** makemap *)
Definition makemap (h : heap) : nat * heap := alloc_blk h (BMap []).

Fixpoint find_key (l : list (mkey * nat)) (k : mkey) : option nat :=
  match l with
  | [] => None
  | (k', b) :: r => if mkey_eqb k' k then Some b else find_key r k
  end.

(** mapassign / mapassign_faststr: address of the (possibly new, zeroed) value cell.
    Assigning to a nil map panics. *)
Definition mapassign (h : heap) (m : option nat) (k : mkey) (vsize : Z) : res (addr * heap) :=
  match m with
  | None => Pan
  | Some b =>
      match blk h b with
      | BMap l =>
          match find_key l k with
          | Some vb => Ok ((vb, 0), h)
          | None =>
              let '(vb, h1) := alloc_blk h (BMem vsize (fun _ => CZero)) in
              Ok ((vb, 0), set_blk h1 b (BMap (l ++ [(k, vb)])))
          end
      | _ => Cor
      end
  end.

(** Reading a cell at a type. *)
Definition as_slice (v : cv) : res (ptr * Z * Z) :=
  match v with CZero => Ok (None, 0, 0) | CSlice p l c => Ok (Some p, l, c) | _ => Cor end.
Definition as_ptr (v : cv) : res ptr :=
  match v with CZero => Ok None | CPtr p => Ok (Some p) | _ => Cor end.
Definition as_map (v : cv) : res (option nat) :=
  match v with CZero => Ok None | CMap b => Ok (Some b) | _ => Cor end.
Definition as_user (v : cv) : res bytes :=
  match v with CZero => Ok [] | CUser b => Ok b | _ => Cor end.

(** Go map assignment on immutable association lists. *)
Fixpoint assoc_put {V} (l : list (gstr * V)) (k : gstr) (v : V) : list (gstr * V) :=
  match l with
  | [] => [(k, v)]
  | (k', v') :: r => if bytes_eqb (chars k') (chars k) then (k', v) :: r else (k', v') :: assoc_put r k v
  end.

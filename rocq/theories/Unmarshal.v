(** Model of jscandec.go:484-503 [Unmarshal] and 519-537 [NewDecoder]. *)
From Verif Require Import Base NumSpec Lookup Types AppendType Token FloatLit Heap Machine.
Open Scope Z_scope.

(** What the caller of Unmarshal sees: an error or not, and the memory afterwards. *)
Inductive uresult :=
| URet (e : option err) (h : heap)
| UInitErr (a : ares) (h : heap) (* error of appendTypeToStack *)
| UPanics | UCorrupts | ULoops.

Definition seen (r : result) : uresult :=
  match r with
  | Ret _ e _ h => URet e h
  | DPanics => UPanics | DCorrupts => UCorrupts | DLoops => ULoops
  end.

(** reflect.TypeOf(x) of a variable x of static type T: for interface types it is the
    dynamic type of the value in the interface, if there is one. *)
Definition is_interface (E : env) (T : ty) : bool := match under E T with TAny | TIfaceM => true | _ => false end.
Definition typeof (E : env) (T : ty) (dynamic : option ty) : ty :=
  if is_interface E T then match dynamic with Some U => U | None => T end else T.

(** Lines 484-503.  [dynamic]: the dynamic type of *t if T is an interface type and *t
    is not nil. The comparison with ErrStringTagOptionOnUnsupportedType at the end never
    applies: Decode does not return it. *)
Definition Unmarshal (C : cfg) (E : env) (fuel : nat) (T : ty) (dynamic : option ty)
    (s : bytes) (tk : tokres) (t : ptr) (h : heap) : uresult :=
  match t with
  | None => URet (Some ENilDest) h
  | Some _ =>
      match append (c_w64 C) E false fuel [] (typeof E T dynamic) with
      | AOk stk => seen (Decode C default_opts stk (dyn0 stk) s tk t h)
      | a => UInitErr a h
      end
  end.

(** Lines 519-537 with the default options, followed by Decode with default options:
    NewDecoder looks at the zero value of T. *)
Definition NewDecoder_Decode (C : cfg) (E : env) (fuel : nat) (T : ty) (s : bytes) (tk : tokres) (t : ptr) (h : heap) : uresult :=
  match append (c_w64 C) E false fuel [] (typeof E T None) with
  | AOk stk => seen (Decode C default_opts stk (dyn0 stk) s tk t h)
  | a => UInitErr a h
  end.

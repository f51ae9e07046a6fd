(** Model of append_type_stack.go:11-545 [appendTypeToStack].

    [AFuel]: the Coq recursion ran out of fuel.  The Go function has no such bound; a
    type on which every fuel runs out is one on which it does not return.
    [AErr]: "unsupported type" / ErrStringTagOptionOnUnsupportedType.  [APanic]: the
    explicit panic on interfaces with methods.  The types [Typ] of the frames are
    represented by sizes only; [MapCanUseAssignFaststr] has no effect on the meaning of
    the assignment and is not represented. *)
From Verif Require Import Base Lookup Types.
Open Scope Z_scope.

Inductive ares := AOk (stk : list frame) | AErrUnsupported | AErrStringTag | APanic | AFuel.

Section Append.
Variables (w64 : bool) (E : env) (disallow : bool).
Let W := wb w64.

(** The identity of a struct-kinded type, to be compared with RType. *)
Definition struct_id (t : ty) : option rtid :=
  match t with
  | TStruct id _ _ => Some (RStruct id)
  | TNamed i => match d_under (E i) with TStruct _ _ _ => Some (RNamed i) | _ => None end
  | _ => None
  end.

Definition rtid_eqb (a b : rtid) : bool :=
  match a, b with
  | RStruct i, RStruct j | RNamed i, RNamed j | RPtrNamed i, RPtrNamed j => Nat.eqb i j
  | _, _ => false
  end.

(** [for i := range stack { if stack[i].RType == elem ...]: first match. *)
Fixpoint find_rt (stk : list frame) (i : nat) (r : rtid) : option nat :=
  match stk with
  | [] => None
  | f :: rest =>
      match f_rt f with
      | Some r' => if rtid_eqb r' r then Some i else find_rt rest (S i) r
      | None => find_rt rest (S i) r
      end
  end.

(** Recursion check (lines 89-104, 228-258, 507-523): elem is a struct of size > 0 whose
    type is the RType of some frame. *)
Definition find_recur (stk : list frame) (elem : ty) : option nat :=
  match struct_id elem with
  | Some r => if 0 <? tsize w64 E elem then find_rt stk 0 r else None
  | None => None
  end.

(** jscandec.go:614-655: JSON/Text unmarshaler support.  A pointer to a type with the
    method (on the value or on the pointer) is assignable to the interface itself. *)
Definition json_support (t : ty) : option rtid :=
  match t with
  | TNamed i => match d_json (E i) with SSome => Some (RNamed i) | SNone => None end
  | TPtr (TNamed i) => match d_json (E i) with SSome => Some (RPtrNamed i) | SNone => None end
  | _ => None
  end.
Definition text_support (t : ty) : option rtid :=
  match t with
  | TNamed i => match d_text (E i) with SSome => Some (RNamed i) | SNone => None end
  | TPtr (TNamed i) => match d_text (E i) with SSome => Some (RPtrNamed i) | SNone => None end
  | _ => None
  end.

(** strings.IndexByte(tag, ',') *)
Fixpoint index_comma (s : bytes) : option nat :=
  match s with
  | [] => None
  | c :: r => if c =? 44 then Some 0%nat else option_map S (index_comma r)
  end.

(** Lines 337-356: name and `string` option of a field; [None] = ignored field. *)
Definition field_name (f : fld) : option (bytes * bool) :=
  match fd_tag f with
  | [] => Some (fd_name f, false)
  | tag =>
      let '(name, opt) := match index_comma tag with
        | Some i => (firstn i tag, bytes_eqb (skipn (S i) tag) (bs "string"))
        | None => (tag, false)
        end in
      if bytes_eqb name [] then Some (fd_name f, opt)
      else if bytes_eqb name (bs "-") then None
      else Some (name, opt)
  end.

(** Lines 381-419: the type of a field with the `string` option. *)
Definition string_type (e : et) : option et :=
  match e with
  | EStr => Some EStrS | EBool => Some EBoolS | EF b => Some (EFS b) | EInt k => Some (EIntS k)
  | _ => None
  end.

(** Lines 87-201: specialised slice types by kind of the element. *)
Definition slice_fast (elem : ty) : option et :=
  match under E elem with
  | TStruct _ _ _ => if tsize w64 E elem <? 1 then Some ESliceEmpty else None
  | TBool => Some ESliceBool
  | TStr => Some ESliceStr
  | TInt k => Some (ESliceInt k)
  | TFloat b => Some (ESliceF b)
  | _ => None (* in particular jscandec.Number, lines 112-114 *)
  end.

Definition kind_string (t : ty) : bool :=
  match under E t with TStr | TNumber => true | _ => false end.

(** Lines 93-102, 234-236, 511-513: mark the frame as recursive. *)
Definition mark (stk : list frame) (i : nat) : list frame := upd stk i (set_ty EStructRecur).

Fixpoint append (fuel : nat) (stk : list frame) (t : ty) : ares :=
  match fuel with
  | O => AFuel
  | S fuel =>
  (* append child type at the end of [stk], then apply [link] to its first frame *)
  let child stk t link k :=
    match append fuel stk t with
    | AOk stk' => k (upd stk' (length stk) link)
    | r => r
    end in
  match json_support t with
  | Some r => AOk (stk ++ [set_rt r (mkfr EJSON (tsize w64 E t))]) (* lines 21-28 *)
  | None =>
  match text_support t with
  | Some r => AOk (stk ++ [set_rt r (mkfr EText (tsize w64 E t))]) (* lines 29-36 *)
  | None =>
  match under E t with
  | TNamed _ => AErrUnsupported (* not a Go type: underlying types are literals *)
  | TIfaceM => APanic (* lines 40-43 *)
  | TAny => AOk (stk ++ [mkfr EAny (2 * W)]) (* lines 14-20, 44-49 *)
  | TArr O _ => AOk (stk ++ [mkfr EArray0 0]) (* lines 51-58 *)
  | TArr n elem => (* lines 60-77 *)
      child (stk ++ [mkfr EArray (tsize w64 E t)]) elem
        (fun f => set_cap (Z.of_nat n) (set_parent (length stk) f)) AOk
  | TSlice elem => (* lines 79-219 *)
      match slice_fast elem with
      | Some e => AOk (stk ++ [mkfr e (3 * W)])
      | None =>
          match find_recur stk elem with
          | Some i => AOk (mark stk i ++ [set_recur i (mkfr ESliceRecur (3 * W))])
          | None => child (stk ++ [mkfr ESlice (3 * W)]) elem (set_parent (length stk)) AOk
          end
      end
  | TMap key elem => (* lines 221-307 *)
      match find_recur stk elem with
      | Some i =>
          child (mark stk i ++ [set_recur i (set_vsize (tsize w64 E elem) (mkfr EMapRecur W))]) key
            (set_parent (length stk)) AOk
      | None =>
          if kind_string key && kind_string elem
          then AOk (stk ++ [set_rt ROther (mkfr EMapSS W)])
          else
            child (stk ++ [set_rt ROther (set_vsize (tsize w64 E elem) (mkfr EMap W))]) key
              (set_parent (length stk))
              (fun stk' => child stk' elem (set_parent (length stk)) AOk)
      end
  | TStruct _ _ fs => (* lines 309-423 *)
      match fs with
      | [] => AOk (stk ++ [mkfr EEmptyStruct (tsize w64 E t)])
      | _ =>
          let parent := length stk in
          let fr0 := mkfr EStruct (tsize w64 E t) in
          let fr0 := match struct_id t with Some r => set_rt r fr0 | None => fr0 end in
          (fix fields (fs : list (fld * ty)) (stk : list frame) : ares :=
             match fs with
             | [] => AOk stk
             | (f, ft) :: fs =>
                 match field_name f with
                 | None => fields fs stk (* continue *)
                 | Some (name, optionString) =>
                     let at_ := length stk in
                     match append fuel stk ft with
                     | AOk stk =>
                         let stk := upd stk parent (fun p => set_fields (f_fields p ++ [(name, at_)]) p) in
                         let stk := upd stk at_ (fun c => set_parent parent (set_off (fd_off f) c)) in
                         if optionString then
                           match nth_error stk at_ with
                           | Some c =>
                               match string_type (f_ty c) with
                               | Some e => fields fs (upd stk at_ (set_ty e))
                               | None => if disallow then AErrStringTag else fields fs stk
                               end
                           | None => APanic
                           end
                         else fields fs stk
                     | r => r
                     end
                 end
             end) fs (stk ++ [fr0])
      end
  | TBool => AOk (stk ++ [mkfr EBool 1])
  | TStr => AOk (stk ++ [mkfr EStr (2 * W)])
  | TNumber => AOk (stk ++ [mkfr ENumber (2 * W)])
  | TInt k => AOk (stk ++ [mkfr (EInt k) (wsize w64 (nk_w k))])
  | TFloat b => AOk (stk ++ [mkfr (EF b) (fsize b)])
  | TPtr elem => (* lines 502-541 *)
      match find_recur stk elem with
      | Some i => AOk (mark stk i ++ [set_recur i (mkfr EPtrRecur W)])
      | None => child (stk ++ [mkfr EPtr W]) elem (set_parent (length stk)) AOk
      end
  | TOther => AErrUnsupported (* line 543 *)
  end
  end
  end
  end.

End Append.

(** The recursive decoder on values: [dval d v g] decodes the document [v] into a variable
    of type [d] that holds [g], giving the new value, or an error with its position and
    the value the variable is left with, or a panic.

    This is the "obvious recursive decoding function"; the parsing of scalars is still
    the one of the source (with its defects), and is replaced by the mathematical one in
    Spec.v.  No memory, no frames, no tokens. *)
From Verif Require Import Base NumSpec Atoi JsonNum Unescape Lookup Types Token FloatLit Heap Machine Dt Dec Value.
Open Scope Z_scope.

Inductive vres (A : Type) := VOk (a : A) | VErr (idx : nat) (e : err) (a : A) | VPan.
Arguments VOk {A}. Arguments VErr {A}. Arguments VPan {A}.
Definition vmap {A B} (f : A -> B) (r : vres A) : vres B :=
  match r with VOk a => VOk (f a) | VErr i e a => VErr i e (f a) | VPan => VPan end.

Section Dval.
Variables (C : cfg) (O : opts) (s : bytes).
Let w64 := c_w64 C.

(** Text of a string or key. *)
Definition txt (raw : bytes) : bytes := match Valid raw with UOk r => r | _ => [] end.

Fixpoint nassoc_put {V} (l : list (bytes * V)) (k : bytes) (v : V) : list (bytes * V) :=
  match l with
  | [] => [(k, v)]
  | (k', v') :: r => if bytes_eqb k' k then (k', v) :: r else (k', v') :: nassoc_put r k v
  end.
(** any *)
Fixpoint nany (v : jv) : option jany :=
  match v with
  | JNull _ => Some NNil
  | JBool _ b => Some (NBool b)
  | JInt _ raw | JNum _ raw => option_map NNum (parse_float (c_pf C) B64 raw)
  | JStr _ raw => Some (NStr (txt raw))
  | JArr _ _ l =>
      (fix go (acc : list jany) (l : list jv) : option jany :=
         match l with
         | [] => Some (NArr acc)
         | x :: r => match nany x with Some a => go (acc ++ [a]) r | None => None end
         end) [] l
  | JObj _ _ l =>
      (fix go (acc : list (bytes * jany)) (l : list ((nat * bytes) * jv)) : option jany :=
         match l with
         | [] => Some (NObj acc)
         | x :: r => match nany (snd x) with
                     | Some a => go (nassoc_put acc (txt (snd (fst x))) a) r
                     | None => None
                     end
         end) [] l
  end.

(** Scalars: a new value, nothing, an error, or a panic. *)
Inductive lres := LSet (g : gval) | LKeep | LErr (e : err) | LPan.
Definition lint (r : res (Z + err)) : lres :=
  match r with Ok (inl z) => LSet (VInt z) | Ok (inr e) => LErr e | _ => LPan end.
Definition lfloat (r : option fnum) : lres := match r with Some f => LSet (VFloat f) | None => LErr EParse end.
Definition lany (r : option fnum) : lres := match r with Some f => LSet (VAny (NNum f)) | None => LErr EParse end.
Definition scalarv (x : sc) (v : jv) : lres :=
  match x, v with
  | SBool, JNull _ => LSet (VBool false)
  | SBool, JBool _ b => LSet (VBool b)
  | SStr, JNull _ => LSet (VStr [])
  | SStr, JStr _ raw => LSet (VStr (txt raw))
  | SNumber, JNull _ => LSet (VStr [])
  | SNumber, JInt _ raw | SNumber, JNum _ raw => LSet (VStr raw)
  | SNumber, JStr _ raw =>
      match ReadNumber raw with None => LPan | Some (_, RErr) => LErr EUnexpected | Some _ => LSet (VStr raw) end
  | SInt _, JNull _ => LSet (VInt 0)
  | SInt k, JInt _ raw => lint (int_of_tok C k raw)
  | SFloat _, JNull _ => LSet (VFloat (float_of_int 0))
  | SFloat b, JInt _ raw => lfloat (float_of_int_tok C b raw)
  | SFloat b, JNum _ raw => lfloat (parse_float (c_pf C) b raw)
  | SAny, JNull _ => LSet (VAny NNil)
  | SAny, JBool _ b => LSet (VAny (NBool b))
  | SAny, JInt _ raw | SAny, JNum _ raw => lany (parse_float (c_pf C) B64 raw)
  | SAny, JStr _ raw => LSet (VAny (NStr (txt raw)))
  | SAny, v => match nany v with Some a => LSet (VAny a) | None => LErr EUnexpected end
  | (SBoolQ | SStrQ | SIntQ _ | SFloatQ _), JNull _ => LKeep
  | SBoolQ, JStr _ raw =>
      if bytes_eqb raw (bs "true") then LSet (VBool true)
      else if bytes_eqb raw (bs "false") then LSet (VBool false) else LErr EUnexpected
  | SStrQ, JStr _ raw => match quoted_inner raw with Some b => LSet (VStr b) | None => LErr EUnexpected end
  | SIntQ k, JStr _ raw => lint (int_of_str C k raw)
  | SFloatQ b, JStr _ raw =>
      match ReadNumber raw with None => LPan | Some (_, RErr) => LErr EUnexpected | Some _ => lfloat (parse_float (c_pf C) b raw) end
  | _, _ => LErr EUnexpected
  end.
Definition lput (i : nat) (r : lres) (g : gval) : vres gval :=
  match r with LSet g' => VOk g' | LKeep => VOk g | LErr e => VErr i e g | LPan => VPan end.

Definition vdec := jv -> gval -> vres gval.
(** Elements, one after the other, into existing element values. *)
Fixpoint elemsv (f : vdec) (l : list jv) (gs : list gval) : vres (list gval) :=
  match l, gs with
  | [], _ => VOk gs
  | x :: r, g :: gs =>
      match f x g with
      | VOk g' => vmap (cons g') (elemsv f r gs)
      | VErr i e g' => VErr i e (g' :: gs)
      | VPan => VPan
      end
  | _ :: _, [] => VPan
  end.
Fixpoint set_nth {A} (l : list A) (i : nat) (a : A) : list A :=
  match l, i with [], _ => [] | _ :: r, 0%nat => a :: r | x :: r, S i => x :: set_nth r i a end.
(** Members of a struct. *)
Fixpoint membersv (names : list bytes) (fs : list vdec) (l : list ((nat * bytes) * jv)) (gs : list gval) : vres (list gval) :=
  match l with
  | [] => VOk gs
  | x :: r =>
      match pick (c_fold C) (o_nofold O) names (if o_nounescape O then snd (fst x) else txt (snd (fst x))) with
      | Some j =>
          match nth_error fs j, nth_error gs j with
          | Some f, Some g =>
              match f (snd x) g with
              | VOk g' => membersv names fs r (set_nth gs j g')
              | VErr i e g' => VErr i e (set_nth gs j g')
              | VPan => VPan
              end
          | _, _ => VPan
          end
      | None => if o_unknown O then VErr (fst (fst x)) EUnknownField gs else membersv names fs r gs
      end
  end.
(** Entries of a map. *)
Fixpoint getk (m : list (gkey * gval)) (k : gkey) : option gval :=
  match m with [] => None | (k', g) :: r => if gkey_eqb k' k then Some g else getk r k end.
Fixpoint putk (m : list (gkey * gval)) (k : gkey) (g : gval) : list (gkey * gval) :=
  match m with [] => [(k, g)] | (k', g') :: r => if gkey_eqb k' k then (k', g) :: r else (k', g') :: putk r k g end.
Definition keyv (k : dkey) (raw : bytes) : res (gkey + err) :=
  match k with
  | KeyStr => Ok (inl (GStr (txt raw)))
  | KeyInt k => match int_of_str C k raw with Ok (inl z) => Ok (inl (GInt z)) | Ok (inr e) => Ok (inr e) | Pan => Pan | Cor => Cor end
  | KeyText id _ => let '(new, er) := c_ut C id [] (txt raw) in
                    Ok (match er with Some c => inr (EUser c) | None => inl (GUser new) end)
  end.
Fixpoint entriesv (k : dkey) (f : vdec) (isstruct : bool) (z : gval) (l : list ((nat * bytes) * jv)) (m : list (gkey * gval)) : vres (list (gkey * gval)) :=
  match l with
  | [] => VOk m
  | x :: r =>
      match keyv k (snd (fst x)) with
      | Ok (inl key) =>
          let old := match getk m key with Some g => if isstruct then z else g | None => z end in
          match f (snd x) old with
          | VOk g => entriesv k f isstruct z r (putk m key g)
          | VErr i e g => VErr i e (putk m key g)
          | VPan => VPan
          end
      | Ok (inr e) => VErr (fst (fst x)) e m
      | _ => VPan
      end
  end.
(** map[string]string *)
Fixpoint mssv (l : list ((nat * bytes) * jv)) (acc : list (bytes * bytes)) : list (bytes * bytes) + (nat * err) :=
  match l with
  | [] => inl acc
  | x :: r =>
      match snd x with
      | JStr _ raw => mssv r (nassoc_put acc (txt (snd (fst x))) (txt raw))
      | JNull _ => mssv r (nassoc_put acc (txt (snd (fst x))) [])
      | v => inr (jidx v, EUnexpected)
      end
  end.

(** Slices: the elements present before decoding [n] elements. *)
Definition contents (g : gval) : list gval * list gval := match g with VSlice (Some c) => c | _ => ([], []) end.
Definition split_at (n : nat) (l : list gval) : gval := VSlice (Some (firstn n l, skipn n l)).
Definition slicev (f : vdec) (z : gval) (fast keep : bool) (l : list jv) (g : gval) : vres gval :=
  match l with
  | [] => VOk (VSlice (Some ([], [])))
  | _ =>
      let n := length l in
      let '(vis, hid) := contents g in
      if (n <=? length vis + length hid)%nat then
        match elemsv f l (vis ++ hid) with
        | VOk all => VOk (split_at n all)
        | VErr i e all => VErr i e (split_at (if fast then length vis else n) all)
        | VPan => VPan
        end
      else
        match elemsv f l (if keep then vis ++ repeat z (n - length vis) else repeat z n) with
        | VOk all => VOk (split_at n all)
        | VErr i e all => VErr i e (if fast then g else split_at n all)
        | VPan => VPan
        end
  end.

Definition as_userv (g : gval) : bytes := match g with VUser b => b | _ => [] end.
Definition userv (z : Z) (i : nat) (r : bytes * option nat) : vres gval :=
  let g := VUser (if z <=? 0 then [] else fst r) in
  match snd r with Some c => VErr i (EUser c) g | None => VOk g end.

Fixpoint dval (d : dt) (v : jv) (g : gval) {struct d} : vres gval :=
  match d with
  | DSc x => lput (jidx v) (scalarv x v) g
  | DText id z =>
      match v with
      | JNull _ => VOk g
      | JStr i raw => userv z i (c_ut C id (as_userv g) (txt raw))
      | _ => VErr (jidx v) EUnexpected g
      end
  | DJson id z =>
      match jraw s v with Ok raw => userv z (jidx v) (c_uj C id (as_userv g) raw) | _ => VPan end
  | DArr0 => match v with JNull _ | JArr _ _ _ => VOk g | _ => VErr (jidx v) EUnexpected g end
  | DArr n t =>
      match v with
      | JNull _ => VOk g
      | JArr _ _ l =>
          match g with VArr gs => vmap VArr (elemsv (dval t) (firstn n l) gs) | _ => VPan end
      | _ => VErr (jidx v) EUnexpected g
      end
  | DEmpty => match v with JNull _ | JObj _ _ _ => VOk g | _ => VErr (jidx v) EUnexpected g end
  | DSlice t =>
      match v with
      | JNull _ => match t with DEmpty => VOk g | _ => VOk (VSlice None) end
      | JArr _ _ l =>
          match t with
          | DEmpty => VOk (VSlice (Some (repeat (VStruct []) (length l), [])))
          | _ => slicev (dval t) (zero t) (match fast_et t with Some _ => true | None => false end)
                   (match fast_et t with Some _ => false | None => isElemComposite (dt_et t) end) l g
          end
      | _ => VErr (jidx v) EUnexpected g
      end
  | DMap k t =>
      match v with
      | JNull _ => VOk (VMap None)
      | JObj _ _ l =>
          vmap (fun m => VMap (Some m))
            (entriesv k (dval t) (is_struct t) (zero t) l (match g with VMap (Some m) => m | _ => [] end))
      | _ => VErr (jidx v) EUnexpected g
      end
  | DMSS =>
      match v with
      | JNull _ => VOk (VMSS None)
      | JObj _ _ l => match mssv l [] with inl m => VOk (VMSS (Some m)) | inr (i, e) => VErr i e g end
      | _ => VErr (jidx v) EUnexpected g
      end
  | DPtr t =>
      match v with
      | JNull _ => VOk (VPtr None)
      | _ => vmap (fun g => VPtr (Some g)) (dval t v (zero t))
      end
  | DStruct _ fs =>
      match v with
      | JNull _ => VOk g
      | JObj _ _ l =>
          match g with
          | VStruct gs => vmap VStruct (membersv (map (fun x => fst (fst x)) fs) (map (fun x => dval (snd x)) fs) l gs)
          | _ => VPan
          end
      | _ => VErr (jidx v) EUnexpected g
      end
  end.
End Dval.

(** The recursive decoder on memory: what Decode does, written as a structural recursion
    on the type and the document instead of a loop over tokens and frames.

    [dech d v p h] decodes the value [v] into the destination [p] of type [d].
    It uses the leaf operations of Machine.v (scalar stores, grow_slice, mapassign, ..),
    each of which cites the source; the control structure here is proved to be the one of
    Decode in Control.v.  The lines given are those of jscandec.go. *)
From Verif Require Import Base NumSpec Atoi JsonNum Unescape Lookup Types Token FloatLit Heap Machine Dt.
Open Scope Z_scope.

Inductive hres := HOk (h : heap) | HErr (idx : nat) (e : err) (h : heap) | HPan | HCor.
Definition hlift {A} (r : res A) (k : A -> hres) : hres :=
  match r with Ok a => k a | Pan => HPan | Cor => HCor end.
Definition hbind (r : hres) (k : heap -> hres) : hres := match r with HOk h => k h | e => e end.

(** Position of the field selected by a key: first exact match, else (unless disabled)
    first case-insensitive match of the same length. *)
Fixpoint first_pos (P : bytes -> bool) (names : list bytes) : option nat :=
  match names with [] => None | a :: r => if P a then Some 0%nat else option_map S (first_pos P r) end.
Definition pick (fold : bytes -> bytes -> bool) (nofold : bool) (names : list bytes) (key : bytes) : option nat :=
  match first_pos (fun a => bytes_eqb a key) names with
  | Some j => Some j
  | None => if nofold then None
            else first_pos (fun a => Nat.eqb (length a) (length key) && fold a key) names
  end.

Section Dec.
Variables (C : cfg) (O : opts) (s : bytes).
Let w64 := c_w64 C.
Let W := wb w64.

(** The value of [any] for a document (lines 2799-2850). *)
Definition str_of (i : nat) (raw : bytes) : gstr :=
  match unesc_str C (i + 1) raw with Ok g => g | _ => SOwn [] end.
Fixpoint anyv (v : jv) : option gany :=
  match v with
  | JNull _ => Some ANil
  | JBool _ b => Some (ABool b)
  | JInt _ raw | JNum _ raw => option_map AFloat (parse_float (c_pf C) B64 raw)
  | JStr i raw => Some (AStr (str_of i raw))
  | JArr _ _ l =>
      (fix go (acc : list gany) (l : list jv) : option gany :=
         match l with
         | [] => Some (AArr acc)
         | x :: r => match anyv x with Some a => go (acc ++ [a]) r | None => None end
         end) [] l
  | JObj _ _ l =>
      (fix go (acc : list (gstr * gany)) (l : list ((nat * bytes) * jv)) : option gany :=
         match l with
         | [] => Some (AObj acc)
         | x :: r => match anyv (snd x) with
                     | Some a => go (assoc_put acc (str_of (fst (fst x)) (snd (fst x))) a) r
                     | None => None
                     end
         end) [] l
  end.
Fixpoint anyl (acc : list gany) (l : list jv) : option gany :=
  match l with
  | [] => Some (AArr acc)
  | x :: r => match anyv x with Some a => anyl (acc ++ [a]) r | None => None end
  end.
Fixpoint anym (acc : list (gstr * gany)) (l : list ((nat * bytes) * jv)) : option gany :=
  match l with
  | [] => Some (AObj acc)
  | x :: r => match anyv (snd x) with
              | Some a => anym (assoc_put acc (str_of (fst (fst x)) (snd (fst x))) a) r
              | None => None
              end
  end.
Lemma anyv_arr i j l : anyv (JArr i j l) = anyl [] l.
Proof. reflexivity. Qed.
Lemma anyv_obj i j l : anyv (JObj i j l) = anym [] l.
Proof. reflexivity. Qed.

(** Byte index of a value. *)
Definition jidx (v : jv) : nat :=
  match v with JNull i | JBool i _ | JInt i _ | JNum i _ | JStr i _ | JArr i _ _ | JObj i _ _ => i end.
(** The text of a value (lines 2689-2700). *)
Definition jraw (v : jv) : res bytes :=
  match v with
  | JNull i => sub s i (i + 4)
  | JBool i b => sub s i (i + (if b then 4 else 5))
  | JInt i r | JNum i r => sub s i (i + length r)
  | JStr i r => sub s i (i + length r + 2)
  | JArr i j _ | JObj i j _ => sub s i (j + 1)
  end.

(** A leaf frame: type, size, unmarshaler. *)
Definition leaf (d : dt) : frame :=
  let f := mkfr (dt_et d) (dsize w64 d) in
  match d with DText id _ | DJson id _ => set_rt (RNamed id) f | _ => f end.

Definition sres_h (i : nat) (r : sres) : hres :=
  hlift r (fun '(h, e) => match e with Some e => HErr i e h | None => HOk h end).

(** Scalar values into any destination but pointers and json.Unmarshalers (735-1310). *)
Definition scalar_h (f : frame) (v : jv) (p : ptr) (h : heap) : hres :=
  match v with
  | JNull _ => hlift (null_tok C (f_ty f) p h) HOk
  | JBool i b => sres_h i (bool_tok C (f_ty f) b p h)
  | JInt i raw => sres_h i (int_tok C (f_ty f) raw i p h)
  | JNum i raw => sres_h i (num_tok C (f_ty f) raw i p h)
  | JStr i raw => sres_h i (str_tok C f raw i p h)
  | JArr i _ _ | JObj i _ _ => HErr i EUnexpected h
  end.

(** Lines 2689-2714. *)
Definition json_h (id : nat) (size : Z) (v : jv) (p : ptr) (h : heap) : hres :=
  hlift (jraw v) (fun raw =>
  hlift (load_user h p size) (fun old =>
  let '(new, er) := c_uj C id old raw in
  hlift (store_user h p size new) (fun h =>
  match er with Some c => HErr (jidx v) (EUser c) h | None => HOk h end))).

(** Array or object into any (1314-1326, 2104-2116). *)
Definition any_h (v : jv) (p : ptr) (h : heap) : hres :=
  match anyv v with
  | None => HErr (jidx v) EUnexpected h
  | Some a => hlift (store h p (2 * W) (CAny a)) HOk
  end.

Definition hdec := jv -> ptr -> heap -> hres.

(** Elements of an array or slice (1328-1390, 2636-2665). *)
Fixpoint elems_h (f : hdec) (sz m : Z) (l : list jv) (p : ptr) (h : heap) : hres :=
  match l with
  | [] => HOk h
  | x :: r => hbind (f x (padd p (m * sz)) h) (elems_h f sz (m + 1) r p)
  end.

(** Specialised slices (1471-2089). *)
Definition fastv (e : et) (v : jv) : res ((cv * Z) + err) := 
  match v with
  | JNull i => fast_elem C s e (Tok KNull i (i + 4) 0)
  | JBool i b => fast_elem C s e (Tok (if b then KTrue else KFalse) i (i + (if b then 4 else 5)) 0)
  | JInt i r => fast_elem C s e (Tok KInt i (i + length r) 0)
  | JNum i r => fast_elem C s e (Tok KNum i (i + length r) 0)
  | JStr i r => fast_elem C s e (Tok KStr i (i + length r + 2) 0)
  | JArr _ _ _ | JObj _ _ _ => Ok (inr EUnexpected)
  end.
Fixpoint fast_elems (e : et) (a : addr) (i : Z) (l : list jv) (h : heap) : res (heap * option (nat * err)) :=
  match l with
  | [] => Ok (h, None)
  | x :: r =>
      let* y := fastv e x in
      match y with
      | inr er => Ok (h, Some (jidx x, er))
      | inl (v, sz) => let* h := store h (padd (Some a) (i * sz)) sz v in fast_elems e a (i + 1) r h
      end
  end.
Definition fast_h (e : et) (l : list jv) (p : ptr) (h : heap) : hres :=
  match l with
  | [] => hlift (store h p (3 * W) (CSlice (0%nat, 0) 0 0)) HOk
  | _ =>
      let n := Z.of_nat (length l) in
      hlift (let* c := load h p (3 * W) in as_slice c) (fun '(data, len, cap) =>
      let reuse := negb (cap <? n) in
      let '(a, h) := if reuse then (data, h) else let '(a, h) := malloc h (fast_size C e * n) in (Some a, h) in
      match a with
      | None => HCor
      | Some a =>
          hlift (fast_elems e a 0 l h) (fun '(h, er) =>
          match er with
          | Some (i, e) => HErr i e h
          | None => hlift (store h p (3 * W) (CSlice a n (if reuse then cap else n))) HOk
          end)
      end)
  end.

(** General slices (1343-1390). *)
Definition slice_h (f : hdec) (sz : Z) (keep : bool) (l : list jv) (p : ptr) (h : heap) : hres :=
  match l with
  | [] => hlift (store h p (3 * W) (CSlice (0%nat, 0) 0 0)) HOk
  | _ => hlift (grow_slice C h p sz (Z.of_nat (length l)) keep) (fun '(a, h) => elems_h f sz 0 l (Some a) h)
  end.

(** Members of a struct (2270-2344). *)
Fixpoint members_h (names : list bytes) (fs : list (Z * hdec)) (l : list ((nat * bytes) * jv)) (p : ptr) (h : heap) : hres :=
  match l with
  | [] => HOk h
  | x :: r =>
      hlift (if o_nounescape O then Ok (snd (fst x)) else unesc (snd (fst x))) (fun key =>
      match pick (c_fold C) (o_nofold O) names key with
      | Some j =>
          match nth_error fs j with
          | Some (off, f) => hbind (f (snd x) (padd p off) h) (members_h names fs r p)
          | None => HPan
          end
      | None => if o_unknown O then HErr (fst (fst x)) EUnknownField h else members_h names fs r p h
      end)
  end.

(** Keys of a map (2346-2511). *)
Definition key_h (k : dkey) (i : nat) (raw : bytes) : res (option mkey + err) :=
  map_key C (match k with
             | KeyText id z => set_rt (RNamed id) (mkfr EText z)
             | k => mkfr (dkey_et k) 0 end) raw i.
Fixpoint entries_h (k : dkey) (f : hdec) (isstruct : bool) (vsize : Z) (l : list ((nat * bytes) * jv)) (p : ptr) (h : heap) : hres :=
  match l with
  | [] => HOk h
  | x :: r =>
      hlift (let* c := load h p W in as_map c) (fun m =>
      hlift (key_h k (fst (fst x)) (snd (fst x))) (fun key =>
      match key with
      | inr e => HErr (fst (fst x)) e h
      | inl None => HPan
      | inl (Some key) =>
          hlift (mapassign h m key vsize) (fun '(a, h) =>
          hlift (if isstruct then clear h (Some a) vsize else Ok h) (fun h =>
          hbind (f (snd x) (Some a) h) (entries_h k f isstruct vsize r p)))
      end))
  end.

(** map[string]string (2179-2213). *)
Fixpoint mss_h (l : list ((nat * bytes) * jv)) (acc : list (gstr * gstr)) : list (gstr * gstr) + (nat * err) :=
  match l with
  | [] => inl acc
  | x :: r =>
      match snd x with
      | JStr i raw => mss_h r (assoc_put acc (str_of (fst (fst x)) (snd (fst x))) (str_of i raw))
      | JNull _ => mss_h r (assoc_put acc (str_of (fst (fst x)) (snd (fst x))) (SOwn []))
      | v => inr (jidx v, EUnexpected)
      end
  end.

Definition is_struct (d : dt) : bool := match d with DStruct _ _ => true | _ => false end.

Fixpoint dech (d : dt) (v : jv) (p : ptr) (h : heap) {struct d} : hres :=
  match d with
  | DJson id size => json_h id size v p h
  | DPtr t => (* 1228-1310, 2673-2687 *)
      match v with
      | JNull _ => hlift (null_tok C EPtr p h) HOk
      | _ =>
          if dsize w64 t =? 0 then hlift (store h p W (CPtr (0%nat, 0))) (fun h => dech t v None h)
          else let '(a, h) := malloc h (dsize w64 t) in
               hlift (store h p W (CPtr a)) (fun h => dech t v (Some a) h)
      end
  | _ =>
    match v with
    | JArr i _ l =>
        match d with
        | DSc SAny => any_h v p h
        | DArr0 => HOk h
        | DArr n t => elems_h (dech t) (dsize w64 t) 0 (firstn n l) p h
        | DSlice t =>
            match fast_et t with
            | Some ESliceEmpty =>
                hlift (store h p (3 * W) (CSlice (0%nat, 0) (Z.of_nat (length l)) (Z.of_nat (length l)))) HOk
            | Some e => fast_h e l p h
            | None => slice_h (dech t) (dsize w64 t) (isElemComposite (dt_et t)) l p h
            end
        | _ => HErr i EUnexpected h
        end
    | JObj i _ l =>
        match d with
        | DSc SAny => any_h v p h
        | DEmpty => HOk h
        | DMap k t => hlift (init_map C h p) (entries_h k (dech t) (is_struct t) (dsize w64 t) l p)
        | DMSS => match mss_h l [] with
                  | inl m => hlift (store h p W (CMSS m)) HOk
                  | inr (i, e) => HErr i e h
                  end
        | DStruct _ fs =>
            members_h (map (fun x => fst (fst x)) fs) (map (fun x => (snd (fst x), dech (snd x))) fs) l p h
        | _ => HErr i EUnexpected h
        end
    | _ => scalar_h (leaf d) v p h
    end
  end.
End Dec.

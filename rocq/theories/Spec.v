(** The ideal decoder: what a user expects Decode to compute, as a recursive function of
    the destination type, the document and the previous value of the destination.

    This file is specification.  Numbers have their mathematical value (NumSpec.v,
    FloatLit.v), strings their RFC 8259 meaning (StrSpec.v, surrogate pairs included);
    nothing of the code of the repository is used, except that [is_int]/[is_num] are
    computed with the number scanner, which is proved to decide the grammar
    ([is_int_spec], [is_num_spec]).  [sound d v] lists the leaves of a document on which
    the code is known to deviate from the ideal (each deviation is proved in PropsLeaf.v
    or PropsRefuted.v); on all other documents [ideal] and the code agree (SpecProofs.v). *)
From Verif Require Import Base NumSpec StrSpec JsonNum Types Token FloatLit Heap Machine Dt Dec Value Dval Parse AtoiProofs.
Open Scope Z_scope.

(** ** Leaves *)
Definition is_int (r : bytes) : bool := match ReadNumber r with Some ([], RInteger) => true | _ => false end.
Definition is_num (r : bytes) : bool := match ReadNumber r with Some ([], RInteger) | Some ([], RNumber) => true | _ => false end.

(** The text denoted by the body of a JSON string. *)
Definition items (r : bytes) : list sitem := match str_items (r ++ [34]) with Some (l, []) => l | _ => [] end.
Definition str_text (r : bytes) : bytes := meaning (items r).

(** The number denoted by a literal, rounded to a float format; none if it overflows. *)
Definition round (b : fbits) (r : bytes) : option fnum :=
  let '(m, e) := num_value r in if too_big b (m, e) then None else Some (FN m e (minus_zero r m)).

(** Element types whose old contents are carried over when a slice grows; the contents of
    the others (plain scalars, pointers, types without contents) are not. *)
Definition carried (t : dt) : bool :=
  match t with
  | DSc SBool | DSc SStr | DSc (SInt _) | DSc (SFloat _) | DPtr _ | DArr0 | DEmpty => false
  | _ => true
  end.

Section Ideal.
Variables (C : cfg) (O : opts) (s : bytes).
Let w64 := c_w64 C.

Definition kind_of (k : nk) : ikind := IKind (nk_signed k) (8 * wsize w64 (nk_w k)).
Definition neg (r : bytes) : bool := match r with c :: _ => c =? 45 | [] => false end.
(** An integer literal for an integer type. *)
Definition int_lit (k : nk) (r : bytes) : lres :=
  if negb (nk_signed k) && neg r then LErr EUnexpected
  else if in_rangeb (kind_of k) (int_value r) then LSet (VInt (int_value r)) else LErr EOverflow.
(** The same inside a string (`string` option, map keys): the whole string must be an
    integer literal in range. *)
Definition int_text (k : nk) (r : bytes) : Z + err :=
  if is_int r && negb (negb (nk_signed k) && neg r) && in_rangeb (kind_of k) (int_value r) then inl (int_value r) else inr EUnexpected.
Definition float_lit (b : fbits) (r : bytes) : lres := match round b r with Some f => LSet (VFloat f) | None => LErr EParse end.

(** The generic value of a document: nil, bool, float64, string, []any, map[string]any. *)
Fixpoint generic (v : jv) : option jany :=
  match v with
  | JNull _ => Some NNil
  | JBool _ b => Some (NBool b)
  | JInt _ r | JNum _ r => option_map NNum (round B64 r)
  | JStr _ r => Some (NStr (str_text r))
  | JArr _ _ l =>
      option_map NArr ((fix go (l : list jv) : option (list jany) :=
         match l with
         | [] => Some []
         | x :: r => match generic x, go r with Some a, Some b => Some (a :: b) | _, _ => None end
         end) l)
  | JObj _ _ l => (* the last of several members with the same key wins *)
      option_map NObj ((fix go (acc : list (bytes * jany)) (l : list ((nat * bytes) * jv)) : option (list (bytes * jany)) :=
         match l with
         | [] => Some acc
         | x :: r => match generic (snd x) with
                     | Some a => go (nassoc_put acc (str_text (snd (fst x))) a) r
                     | None => None
                     end
         end) [] l)
  end.

Definition ideal_sc (x : sc) (v : jv) : lres :=
  match x, v with
  | SBool, JNull _ => LSet (VBool false)
  | SBool, JBool _ b => LSet (VBool b)
  | (SStr | SNumber), JNull _ => LSet (VStr [])
  | SStr, JStr _ r => LSet (VStr (str_text r))
  | SNumber, (JInt _ r | JNum _ r) => LSet (VStr r)
  | SNumber, JStr _ r => if is_num r then LSet (VStr r) else LErr EUnexpected
  | SInt _, JNull _ => LSet (VInt 0)
  | SInt k, JInt _ r => int_lit k r
  | SFloat _, JNull _ => LSet (VFloat (FN 0 0 false))
  | SFloat b, (JInt _ r | JNum _ r) => float_lit b r
  | SAny, (JInt _ r | JNum _ r) => match round B64 r with Some f => LSet (VAny (NNum f)) | None => LErr EParse end
  | SAny, v => match generic v with Some a => LSet (VAny a) | None => LErr EUnexpected end
  | (SBoolQ | SStrQ | SIntQ _ | SFloatQ _), JNull _ => LKeep
  | SBoolQ, JStr _ r =>
      if bytes_eqb r (bs "true") then LSet (VBool true)
      else if bytes_eqb r (bs "false") then LSet (VBool false) else LErr EUnexpected
  | SStrQ, JStr _ r => (* \"..\" without further escapes *)
      if (4 <=? length r)%nat && bytes_eqb (firstn 2 r) [92; 34] && bytes_eqb (skipn (length r - 2) r) [92; 34]
         && negb (existsb (Z.eqb 92) (firstn (length r - 4) (skipn 2 r)))
      then LSet (VStr (firstn (length r - 4) (skipn 2 r))) else LErr EUnexpected
  | SIntQ k, JStr _ r => match int_text k r with inl z => LSet (VInt z) | inr e => LErr e end
  | SFloatQ b, JStr _ r => if is_num r then float_lit b r else LErr EUnexpected
  | _, _ => LErr EUnexpected
  end.

(** The source text of a value. *)
Definition jend (v : jv) : nat :=
  match v with
  | JNull i => i + 4 | JBool i b => i + (if b then 4 else 5) | JInt i r | JNum i r => i + length r
  | JStr i r => i + length r + 2 | JArr _ j _ | JObj _ j _ => j + 1
  end.
Definition source (v : jv) : bytes := firstn (jend v - jidx v) (skipn (jidx v) s).

(** ** Composite types *)
Definition key_text (r : bytes) : bytes := if o_nounescape O then r else str_text r.
(** The field a key selects: the first with that name, else (unless disabled) the first
    of the same length that matches case-insensitively. *)
Definition field_for (fs : list ((bytes * Z) * dt)) (key : bytes) : option nat :=
  pick (c_fold C) (o_nofold O) (map (fun x => fst (fst x)) fs) (key_text key).

Fixpoint ideal_members (sel : bytes -> option nat) (fs : list vdec) (l : list ((nat * bytes) * jv)) (gs : list gval) : vres (list gval) :=
  match l with
  | [] => VOk gs
  | (i, key, v) :: r =>
      match sel key with
      | None => if o_unknown O then VErr i EUnknownField gs else ideal_members sel fs r gs
      | Some j =>
          match nth_error fs j, nth_error gs j with
          | Some f, Some g =>
              match f v g with
              | VOk g' => ideal_members sel fs r (set_nth gs j g')
              | VErr i e g' => VErr i e (set_nth gs j g')
              | VPan => VPan
              end
          | _, _ => VPan
          end
      end
  end.
Definition ideal_key (k : dkey) (r : bytes) : gkey + err :=
  match k with
  | KeyStr => inl (GStr (str_text r))
  | KeyInt k => match int_text k r with inl z => inl (GInt z) | inr e => inr e end
  | KeyText id _ => let '(new, er) := c_ut C id [] (str_text r) in
                    match er with Some c => inr (EUser c) | None => inl (GUser new) end
  end.
(** Members of a map: the value for a key already present is decoded into the present
    value, except that a struct is cleared first.  (encoding/json always starts from the
    zero value; see C23_refuted_duplicates.) *)
Fixpoint ideal_entries (k : dkey) (f : vdec) (isstruct : bool) (z : gval) (l : list ((nat * bytes) * jv)) (m : list (gkey * gval)) : vres (list (gkey * gval)) :=
  match l with
  | [] => VOk m
  | (i, r, v) :: rest =>
      match ideal_key k r with
      | inr e => VErr i e m
      | inl key =>
          match f v (match getk m key with Some g => if isstruct then z else g | None => z end) with
          | VOk g => ideal_entries k f isstruct z rest (putk m key g)
          | VErr i e g => VErr i e (putk m key g)
          | VPan => VPan
          end
      end
  end.
Fixpoint ideal_mss (l : list ((nat * bytes) * jv)) (acc : list (bytes * bytes)) : list (bytes * bytes) + (nat * err) :=
  match l with
  | [] => inl acc
  | (_, r, JStr _ t) :: rest => ideal_mss rest (nassoc_put acc (str_text r) (str_text t))
  | (_, r, JNull _) :: rest => ideal_mss rest (nassoc_put acc (str_text r) [])
  | (_, _, v) :: _ => inr (jidx v, EUnexpected)
  end.

Definition null_or_object (v : jv) : bool := match v with JNull _ | JObj _ _ _ => true | _ => false end.
Fixpoint ideal (d : dt) (v : jv) (g : gval) {struct d} : vres gval :=
  match d with
  | DSc x => lput (jidx v) (ideal_sc x v) g
  | DText id z =>
      match v with
      | JNull _ => VOk g
      | JStr i r => userv z i (c_ut C id (as_userv g) (str_text r))
      | _ => VErr (jidx v) EUnexpected g
      end
  | DJson id z => userv z (jidx v) (c_uj C id (as_userv g) (source v))
  | DArr0 => match v with JNull _ | JArr _ _ _ => VOk g | _ => VErr (jidx v) EUnexpected g end
  | DArr n t =>
      match v with
      | JNull _ => VOk g
      | JArr _ _ l => (* surplus elements are ignored, missing ones become zero *)
          match g with
          | VArr gs =>
              match elemsv (ideal t) (firstn n l) gs with
              | VOk gs' => VOk (VArr (firstn (length l) gs' ++ repeat (zero t) (n - length l)))
              | VErr i e gs' => VErr i e (VArr gs')
              | VPan => VPan
              end
          | _ => VPan
          end
      | _ => VErr (jidx v) EUnexpected g
      end
  | DEmpty => match v with JNull _ | JObj _ _ _ => VOk g | _ => VErr (jidx v) EUnexpected g end
  | DSlice t =>
      match v with
      | JNull _ => VOk (VSlice None)
      | JArr _ _ l =>
          match t with
          | DEmpty =>
              match find (fun x => negb (null_or_object x)) l with
              | None => VOk (VSlice (Some (repeat (VStruct []) (length l), [])))
              | Some x => VErr (jidx x) EUnexpected g
              end
          | _ => slicev (ideal t) (zero t) (match fast_et t with Some _ => true | None => false end)
                   (carried t) l g
          end
      | _ => VErr (jidx v) EUnexpected g
      end
  | DMap k t =>
      match v with
      | JNull _ => VOk (VMap None)
      | JObj _ _ l =>
          vmap (fun m => VMap (Some m))
            (ideal_entries k (ideal t) (is_struct t) (zero t) l (match g with VMap (Some m) => m | _ => [] end))
      | _ => VErr (jidx v) EUnexpected g
      end
  | DMSS =>
      match v with
      | JNull _ => VOk (VMSS None)
      | JObj _ _ l => match ideal_mss l [] with inl m => VOk (VMSS (Some m)) | inr (i, e) => VErr i e g end
      | _ => VErr (jidx v) EUnexpected g
      end
  | DPtr t =>
      match v with
      | JNull _ => VOk (VPtr None)
      | _ => vmap (fun g => VPtr (Some g)) (ideal t v (zero t))
      end
  | DStruct _ fs =>
      match v with
      | JNull _ => VOk g
      | JObj _ _ l =>
          match g with
          | VStruct gs => vmap VStruct (ideal_members (field_for fs) (map (fun x => ideal (snd x)) fs) l gs)
          | _ => VPan
          end
      | _ => VErr (jidx v) EUnexpected g
      end
  end.

(** ** Documents on which the code computes the ideal *)
(** No escaped surrogate pair (C08). *)
Definition plain_str (r : bytes) : Prop := pair_free (items r).
(** Not one of the literals that narrow signed types store truncated (C03). *)
Definition digits_of (k : nk) : nat := match wsize w64 (nk_w k) with 1 => 3 | 2 => 5 | _ => 10 end.
Definition narrow (k : nk) : bool := nk_signed k && (wsize w64 (nk_w k) <? 8).
Definition int_sound (k : nk) (r : bytes) : Prop := narrow k = true -> ~ wraps_silently (kind_of k) (digits_of k) (int_value r).
(** A quoted number is not empty and not a number followed by something (C05). *)
Definition quoted_sound (r : bytes) : Prop := r <> [] /\ forall p t, longest_viable r p t -> json_number p -> t = [].
(** Not the short integer literal -0 for a float (C34). *)
Definition float_sound (r : bytes) : Prop := r <> [45; 48].

Fixpoint plain_all (v : jv) : Prop :=
  match v with
  | JStr _ r => plain_str r
  | JArr _ _ l => (fix go l := match l with [] => True | x :: r => plain_all x /\ go r end) l
  | JObj _ _ l => (fix go l := match l with [] => True | x :: r => (plain_str (snd (fst x)) /\ plain_all (snd x)) /\ go r end) l
  | _ => True
  end.
Definition sound_sc (x : sc) (v : jv) : Prop :=
  match x, v with
  | SStr, JStr _ r => plain_str r
  | SNumber, JStr _ r => quoted_sound r
  | SInt k, JInt _ r => int_sound k r
  | SFloat _, JInt _ r => float_sound r
  | SAny, v => plain_all v
  | SIntQ k, JStr _ r => quoted_sound r /\ int_sound k r
  | SFloatQ _, JStr _ r => quoted_sound r
  | _, _ => True
  end.
Definition sound_key (k : dkey) (r : bytes) : Prop :=
  match k with KeyStr | KeyText _ _ => plain_str r | KeyInt k => quoted_sound r /\ int_sound k r end.
Fixpoint sound (d : dt) (v : jv) {struct d} : Prop :=
  match d with
  | DSc x => sound_sc x v
  | DText _ _ => match v with JStr _ r => plain_str r | _ => True end
  | DArr n t => match v with JArr _ _ l => (n <= length l)%nat /\ Forall (sound t) (firstn n l) | _ => True end (* C22 *)
  | DSlice DEmpty => match v with JArr _ _ l => forallb null_or_object l = true | JNull _ => False | _ => True end (* C35 *)
  | DSlice t => match v with JArr _ _ l => Forall (sound t) l | _ => True end
  | DMap k t => match v with JObj _ _ l => Forall (fun x => sound_key k (snd (fst x)) /\ sound t (snd x)) l | _ => True end
  | DMSS => match v with
            | JObj _ _ l => Forall (fun x => plain_str (snd (fst x)) /\ match snd x with JStr _ r => plain_str r | _ => True end) l
            | _ => True end
  | DPtr t => match v with JNull _ => True | _ => sound t v end
  | DStruct _ fs =>
      match v with
      | JObj _ _ l => Forall (fun x => (o_nounescape O = true \/ plain_str (snd (fst x))) /\
          match field_for fs (snd (fst x)) with
          | Some j => match nth_error (map (fun x => sound (snd x)) fs) j with Some P => P (snd x) | None => True end
          | None => True
          end) l
      | _ => True
      end
  | _ => True
  end.
End Ideal.

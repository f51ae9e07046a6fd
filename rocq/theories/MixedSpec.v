(** Types that contain recursive structs: values, memory, and the ideal decoder.

    This file is specification.  [wt] (Mixed.v) are the types built with slices, maps,
    pointers and structs from recursive structs ([WRec], see RecSpec.v) and types without
    recursion ([WSub], see Value.v and Spec.v).  The ideal decoder follows the type as
    [ideal] does; [walk] is the part that is common to it and to the exact description of
    the code ([wactual]). *)
From Verif Require Import Base NumSpec StrSpec Types Token FloatLit Heap Machine Dt Dec Value Dval Spec Actual Rec RecSpec RecActual Mixed.
Open Scope Z_scope.

Fixpoint wzero (t : wt) : gval :=
  match t with
  | WSub d => zero d
  | WRec _ fs => VStruct (rzeros fs)
  | WSlice _ => VSlice None
  | WMap _ _ => VMap None
  | WPtr _ => VPtr None
  | WStruct _ fs => VStruct (map (fun x => wzero (snd x)) fs)
  end.

Section Memory.
Variable w64 : bool.
Definition tsize (t : wt) : Z := dsize w64 (flatt t).
(** Memory holds a value. *)
Fixpoint wrep (t : wt) : rept :=
  match t with
  | WSub d => rep w64 d
  | WRec z fs => rrep w64 z fs
  | WSlice t => rep_slice w64 (MT (tsize t) (wrep t) (wzero t))
  | WMap _ t => rep_map w64 (MT (tsize t) (wrep t) (wzero t))
  | WPtr t => rep_ptr w64 (MT (tsize t) (wrep t) (wzero t))
  | WStruct _ fs => fun h p g F => exists gs, g = VStruct gs /\ reps (map (fun x => (snd (fst x), wrep (snd x))) fs) h p gs F
  end.
Definition wmt (t : wt) : mty := MT (tsize t) (wrep t) (wzero t).
(** Fields lie inside their struct and do not overlap; the structs are not empty. *)
Fixpoint wlayout (t : wt) : Prop :=
  match t with
  | WSub d => layout w64 d
  | WRec z fs => rlayout w64 z fs
  | WSlice t | WMap _ t | WPtr t => wlayout t
  | WStruct z fs =>
      Forall (fun x => 0 <= snd (fst x) /\ snd (fst x) + tsize (snd x) <= z) fs /\
      disjoint_slots (map (fun x => (snd (fst x), tsize (snd x))) fs) /\ 0 < z /\
      (fix all (fs : wfields) : Prop := match fs with [] => True | x :: r => wlayout (snd x) /\ all r end) fs
  end.
End Memory.

(** ** Decoding along the type *)
Section Walk.
Variables (O : opts) (sub : dt -> vdec) (rc : rfields -> vdec)
  (entries : dkey -> vdec -> bool -> gval -> list ((nat * bytes) * jv) -> list (gkey * gval) -> vres (list (gkey * gval)))
  (sel : list ((bytes * Z) * dt) -> bytes -> option nat).
Fixpoint walk (t : wt) (v : jv) (g : gval) {struct t} : vres gval :=
  match t with
  | WSub d => sub d v g
  | WRec _ fs => rc fs v g
  | WSlice t =>
      match v with
      | JNull _ => VOk (VSlice None)
      | JArr _ _ l => slicev (walk t) (wzero t) false (carried (flatt t)) l g
      | _ => VErr (jidx v) EUnexpected g
      end
  | WMap k t =>
      match v with
      | JNull _ => VOk (VMap None)
      | JObj _ _ l => vmap (fun m => VMap (Some m)) (entries k (walk t) (is_struct (flatt t)) (wzero t) l (match g with VMap (Some m) => m | _ => [] end))
      | _ => VErr (jidx v) EUnexpected g
      end
  | WPtr t =>
      match v with
      | JNull _ => VOk (VPtr None)
      | _ => vmap (fun g => VPtr (Some g)) (walk t v (wzero t))
      end
  | WStruct _ fs =>
      match v with
      | JNull _ => VOk g
      | JObj _ _ l =>
          match g with
          | VStruct gs => vmap VStruct (ideal_members O (sel (wshape fs)) (map (fun x => walk (snd x)) fs) l gs)
          | _ => VPan
          end
      | _ => VErr (jidx v) EUnexpected g
      end
  end.
(** The documents all of whose leaves satisfy the given conditions. *)
Variables (Psub : dt -> jv -> Prop) (Prec : rfields -> jv -> Prop) (Pkey : dkey -> bytes -> Prop) (Pname : bytes -> Prop).
Fixpoint leafy (t : wt) (v : jv) {struct t} : Prop :=
  match t with
  | WSub d => Psub d v
  | WRec _ fs => Prec fs v
  | WSlice t => match v with JArr _ _ l => Forall (leafy t) l | _ => True end
  | WMap k t => match v with JObj _ _ l => Forall (fun x => Pkey k (snd (fst x)) /\ leafy t (snd x)) l | _ => True end
  | WPtr t => match v with JNull _ => True | _ => leafy t v end
  | WStruct _ fs =>
      match v with
      | JObj _ _ l => Forall (fun x => Pname (snd (fst x)) /\
          match sel (wshape fs) (snd (fst x)) with
          | Some j => match nth_error (map (fun x => leafy (snd x)) fs) j with Some P => P (snd x) | None => True end
          | None => True
          end) l
      | _ => True
      end
  end.
End Walk.

Section Decoders.
Variables (C : cfg) (O : opts) (s : bytes).
(** The ideal decoder, and the documents without the leaves on which the code deviates
    from it (see [sound], [rsound]). *)
Definition wideal : wt -> vdec := walk O (ideal C O s) (ideal_rec C O s) (ideal_entries C) (field_for C O).
Definition wsound : wt -> jv -> Prop :=
  leafy (field_for C O) (sound C O) (rsound C O) (sound_key C) (fun r => o_nounescape O = true \/ plain_str r).
(** What the code computes, defects of the leaves included (see [actual], [actual_rec]). *)
Definition wactual : wt -> vdec := walk O (actual C O s) (actual_rec C O s) (act_entries C) (act_field_for C O).
End Decoders.

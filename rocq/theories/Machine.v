(** Model of jscandec.go:714-2733 [Decode] and 2799-2850 [decodeAny].

    One iteration of the token loop (line 732) is one [step].  The labels ON_PTR,
    ON_JSON_UNMARSHALER, ON_VAL_END, ON_RECUR_OBJ_END are functions.  [si] and [ti] have
    the meaning they have in the source.  The unknown-member loop SCAN_KEYVALS is split
    at its [continue]: skipping an unknown member ends the iteration with [ti] at the
    next key, which the next iteration processes with the same frame, exactly as the
    source's [continue SCAN_KEYVALS] does.

    The per-kind copies of the source (ExpectTypeInt8, .., ExpectTypeUint64, the slice
    and `string` option variants) are one case parameterised by the integer kind or the
    float width. *)
From Verif Require Import Base NumSpec Atoi JsonNum Unescape Lookup Types Token FloatLit Heap.
Open Scope Z_scope.

(** ErrUnexpectedValue, ErrIntegerOverflow, ErrUnknownField, the error of
    strconv.ParseFloat, an error returned by an unmarshaler, ErrNilDest, a tokenizer
    error. *)
Inductive err := EUnexpected | EOverflow | EUnknownField | EParse | EUser (code : nat) | ENilDest | ETok (code : nat).

(** Environment of a decoder: platform, input type, and the external functions.
    [c_uj]/[c_ut]: UnmarshalJSON/UnmarshalText of named type [i]: old value and argument
    to new value and optional error.  [c_pf]: strconv.ParseFloat outside JSON numbers.
    [c_fold]: strings.EqualFold. *)
Record cfg := Cfg {
  c_w64 : bool; c_bytes : bool;
  c_uj : nat -> bytes -> bytes -> bytes * option nat;
  c_ut : nat -> bytes -> bytes -> bytes * option nat;
  c_pf : fbits -> bytes -> option fnum;
  c_fold : bytes -> bytes -> bool }.

(** jscandec.go:664-700 [DecodeOptions]. *)
Record opts := Opts { o_unknown : bool; o_nounescape : bool; o_nofold : bool }.
Definition default_opts := Opts false false false.

(** The part of a stack frame that changes at run time. *)
Record rsframe := RS { r_dest : ptr; r_off : Z; r_con : nat }.
Record dframe := DF { d_dest : ptr; d_off : Z; d_len : Z; d_rs : list rsframe }.
Definition dyn := nat -> dframe.
Definition set_dest (p : ptr) (d : dframe) : dframe := DF p (d_off d) (d_len d) (d_rs d).
Definition set_doff (o : Z) (d : dframe) : dframe := DF (d_dest d) o (d_len d) (d_rs d).
Definition set_dlen (l : Z) (d : dframe) : dframe := DF (d_dest d) (d_off d) l (d_rs d).
Definition set_drs (r : list rsframe) (d : dframe) : dframe := DF (d_dest d) (d_off d) (d_len d) r.
Definition upd_d (D : dyn) (i : nat) (g : dframe -> dframe) : dyn :=
  fun j => if Nat.eqb j i then g (D j) else D j.
(** [for i := range Fields { stackExp[Fields[i].FrameIndex].Dest = p }] *)
Definition set_dests (D : dyn) (fs : list field) (p : ptr) : dyn :=
  fold_left (fun D f => upd_d D (snd f) (set_dest p)) fs D.

Record st := St { si : nat; ti : nat; dy : dyn; hp : heap }.
Inductive out := Next (x : st) | Fail (idx : nat) (e : err) (x : st) | Panic | Corrupt.

Definition lift {A} (r : res A) (k : A -> out) : out :=
  match r with Ok a => k a | Pan => Panic | Cor => Corrupt end.

(** Integer kinds and their parsers: jscandec.go:538-570 (parseInt/parseUint use the
    64-bit or 32-bit parser by word size) and the direct calls to atoi. *)
Definition atoi (w64 : bool) (k : nk) (s : bytes) : option (Z * bool) :=
  match nk_w k, nk_signed k with
  | W8, true => I8 s | W8, false => U8 s
  | W16, true => I16 s | W16, false => U16 s
  | W32, true => I32 s | W32, false => U32 s
  | W64, true => I64 s | W64, false => U64 s
  | WWord, true => if w64 then I64 s else I32 s
  | WWord, false => if w64 then U64 s else U32 s
  end.

Section Machine.
Variables (C : cfg) (O : opts) (stk : list frame) (s : bytes) (toks : list token).
Let W := wb (c_w64 C).

Definition fr (i : nat) : option frame := nth_error stk i.
Definition nosi : nat := length stk. (* noParentFrame used as an index: out of range *)

(** [s[a:b]] *)
Definition sub (a b : nat) : res bytes := match slice s a b with Some r => Ok r | None => Pan end.
(** text of a number token; body of a string or key token *)
Definition raw_of (t : token) : res bytes := sub (tk_idx t) (tk_end t).
Definition body_of (t : token) : res bytes := sub (tk_idx t + 1) (tk_end t - 1).

(** string(s[i:j]): a substring of the input when S is string, a copy when it is []byte. *)
Definition mkstr (i : nat) (b : bytes) : gstr := if c_bytes C then SOwn b else SAlias i b.
(** unescape.Valid[S, string] *)
Definition unesc_str (i : nat) (b : bytes) : res gstr :=
  match Valid b with
  | UOk r => Ok (match index_bs b with None => mkstr i b | Some _ => SOwn r end)
  | _ => Pan
  end.
(** unescape.Valid[S, []byte], unescape.Valid[S, S] *)
Definition unesc (b : bytes) : res bytes := match Valid b with UOk r => Ok r | _ => Pan end.

Definition minus (b : bytes) : bool := match b with c :: _ => c =? 45 | [] => false end.

(** Result of trying to store a scalar: the memory afterwards and an optional error. *)
Definition sres := res (heap * option err).
Definition sok (r : res heap) : sres := let* h := r in Ok (h, None).
Definition serr (h : heap) (e : err) : sres := Ok (h, Some e).

(** Parsing an integer token for an integer destination: lines 781-899 and, in slices,
    1570-1955.  A leading minus is rejected for unsigned kinds first. *)
Definition int_of_tok (k : nk) (raw : bytes) : res (Z + err) :=
  if negb (nk_signed k) && minus raw then Ok (inr EUnexpected)
  else match atoi (c_w64 C) k raw with
       | None => Pan
       | Some (_, true) => Ok (inr EOverflow)
       | Some (v, false) => Ok (inl v)
       end.

(** Float destination, integer token: lines 901-939, 2003-2024, 2060-2083. *)
Definition float_of_int_tok (b : fbits) (raw : bytes) : option fnum :=
  if Z.of_nat (length raw) <? (match b with B32 => 8 | B64 => 16 end)
  then Some (float_of_int (int_value raw)) (* tokens[ti].Int32/Int64, external, exact *)
  else parse_float (c_pf C) b raw.

(** Lines 735-757. *)
Definition bool_tok (e : et) (v : bool) (p : ptr) (h : heap) : sres :=
  match e with
  | EAny => sok (store h p (2 * W) (CAny (ABool v)))
  | EBool => sok (store h p 1 (CBool v))
  | _ => serr h EUnexpected
  end.

(** Lines 759-943. *)
Definition int_tok (e : et) (raw : bytes) (i : nat) (p : ptr) (h : heap) : sres :=
  match e with
  | EAny => match parse_float (c_pf C) B64 raw with
            | None => serr h EParse
            | Some f => sok (store h p (2 * W) (CAny (AFloat f)))
            end
  | EInt k => let* r := int_of_tok k raw in
              match r with inr e => serr h e | inl v => sok (store h p (wsize (c_w64 C) (nk_w k)) (CInt v)) end
  | EF b => match float_of_int_tok b raw with
            | None => serr h EParse
            | Some f => sok (store h p (fsize b) (CFloat f))
            end
  | ENumber => sok (store h p (2 * W) (CStr (mkstr i raw)))
  | _ => serr h EUnexpected
  end.

(** Lines 945-992. *)
Definition num_tok (e : et) (raw : bytes) (i : nat) (p : ptr) (h : heap) : sres :=
  match e with
  | EAny => match parse_float (c_pf C) B64 raw with
            | None => serr h EParse
            | Some f => sok (store h p (2 * W) (CAny (AFloat f)))
            end
  | EF b => match parse_float (c_pf C) b raw with
            | None => serr h EParse
            | Some f => sok (store h p (fsize b) (CFloat f))
            end
  | ENumber => sok (store h p (2 * W) (CStr (mkstr i raw)))
  | _ => serr h EUnexpected
  end.

(** The value of a named type with methods lives in one cell of its size. *)
Definition load_user (h : heap) (p : ptr) (sz : Z) : res bytes :=
  if sz <=? 0 then Ok [] else let* c := load h p sz in as_user c.
Definition store_user (h : heap) (p : ptr) (sz : Z) (b : bytes) : res heap :=
  if sz <=? 0 then Ok h else store h p sz (CUser b).
(** reflect.NewAt(RType, p).Interface().(I): succeeds for a named type with the method;
    for RType = *T it yields **T, which does not implement I: panic. *)
Definition user_id (f : frame) : res nat :=
  match f_rt f with Some (RNamed i) => Ok i | _ => Pan end.

(** Lines 1026-1049: a string of the form \"..\" without further backslash. *)
Definition quoted_inner (tv : bytes) : option bytes :=
  let n := length tv in
  if (n <? 4)%nat || negb (bytes_eqb (firstn 2 tv) [92; 34]) || negb (bytes_eqb (skipn (n - 2) tv) [92; 34])
  then None
  else let v := firstn (n - 4) (skipn 2 tv) in
       match index_bs v with Some _ => None | None => Some v end.

(** Lines 1084-1218 and (for map keys) 2370-2510: integer in a string. *)
Definition int_of_str (k : nk) (tv : bytes) : res (Z + err) :=
  match ReadNumber tv with
  | None => Pan
  | Some (_, RInteger) =>
      if negb (nk_signed k) && minus tv then Ok (inr EUnexpected)
      else match atoi (c_w64 C) k tv with
           | None => Pan
           | Some (_, true) => Ok (inr EUnexpected)
           | Some (v, false) => Ok (inl v)
           end
  | Some _ => Ok (inr EUnexpected)
  end.

(** Lines 994-1226. [tv] is the body of the string token at byte [i]. *)
Definition str_tok (f : frame) (tv : bytes) (i : nat) (p : ptr) (h : heap) : sres :=
  match f_ty f with
  | EText =>
      let* id := user_id f in
      let* tb := unesc tv in
      let* old := load_user h p (f_size f) in
      let '(new, er) := c_ut C id old tb in
      let* h := store_user h p (f_size f) new in
      Ok (h, match er with Some c => Some (EUser c) | None => None end)
  | EAny => let* g := unesc_str (i + 1) tv in sok (store h p (2 * W) (CAny (AStr g)))
  | EStr => let* g := unesc_str (i + 1) tv in sok (store h p (2 * W) (CStr g))
  | EBoolS =>
      if bytes_eqb tv (bs "true") then sok (store h p 1 (CBool true))
      else if bytes_eqb tv (bs "false") then sok (store h p 1 (CBool false))
      else serr h EUnexpected
  | EStrS =>
      match quoted_inner tv with
      | None => serr h EUnexpected
      | Some v => sok (store h p (2 * W) (CStr (mkstr (i + 3) v)))
      end
  | ENumber =>
      match ReadNumber tv with
      | None => Pan
      | Some (_, RErr) => serr h EUnexpected
      | Some _ => sok (store h p (2 * W) (CStr (mkstr (i + 1) tv)))
      end
  | EFS b =>
      match ReadNumber tv with
      | None => Pan
      | Some (_, RErr) => serr h EUnexpected
      | Some _ => match parse_float (c_pf C) b tv with
                  | None => serr h EParse
                  | Some f => sok (store h p (fsize b) (CFloat f))
                  end
      end
  | EIntS k =>
      let* r := int_of_str k tv in
      match r with inr e => serr h e | inl v => sok (store h p (wsize (c_w64 C) (nk_w k)) (CInt v)) end
  | _ => serr h EUnexpected
  end.

(** Lines 1228-1310. *)
Definition null_tok (e : et) (p : ptr) (h : heap) : res heap :=
  match e with
  | EAny => store h p (2 * W) CZero
  | EMapSS | EMap | EMapRecur | EPtr | EPtrRecur => store h p W CZero
  | ESlice | ESliceRecur | ESliceBool | ESliceStr | ESliceInt _ | ESliceF _ => store h p (3 * W) CZero
  | EBool => store h p 1 (CBool false)
  | EStr | ENumber => store h p (2 * W) (CStr (SOwn []))
  | EF b => store h p (fsize b) (CFloat (float_of_int 0))
  | EInt k => store h p (wsize (c_w64 C) (nk_w k)) (CInt 0)
  | _ => Ok h
  end.

(** The five scalar token types into any destination except pointers and
    json.Unmarshaler. *)
Definition scalar_tok (f : frame) (t : token) (p : ptr) (h : heap) : sres :=
  match tk_ty t with
  | KTrue => bool_tok (f_ty f) true p h
  | KFalse => bool_tok (f_ty f) false p h
  | KInt => let* raw := raw_of t in int_tok (f_ty f) raw (tk_idx t) p h
  | KNum => let* raw := raw_of t in num_tok (f_ty f) raw (tk_idx t) p h
  | KStr => let* tv := body_of t in str_tok f tv (tk_idx t) p h
  | _ => sok (null_tok (f_ty f) p h)
  end.

(** Address written by the current frame: Dest + Offset. *)
Definition dst (D : dyn) (i : nat) : ptr := padd (d_dest (D i)) (d_off (D i)).

Definition goto_si (i : nat) (x : st) : st := St i (ti x) (dy x) (hp x).
Definition goto_ti (i : nat) (x : st) : st := St (si x) i (dy x) (hp x).
Definition with_dy (D : dyn) (x : st) : st := St (si x) (ti x) D (hp x).
Definition with_hp (h : heap) (x : st) : st := St (si x) (ti x) (dy x) h.

(** Lines 2645-2656: from token [ti], number of tokens up to the end token of the
    enclosing array. *)
Fixpoint skip_extra (l : nat) (ts : list token) : option nat :=
  match ts with
  | [] => None (* index out of range *)
  | t :: r =>
      match tk_ty t with
      | KArr => option_map S (skip_extra (S l) r)
      | KArrEnd => match l with
                   | S (S l') => option_map S (skip_extra (S l') r)
                   | _ => Some 0%nat
                   end
      | _ => option_map S (skip_extra l r)
      end
  end.

(** Lines 2636-2671, label ON_VAL_END. *)
Definition on_val_end (x : st) : out :=
  match fr (si x) with
  | None => Panic
  | Some f =>
      match f_parent f with
      | None => Next x
      | Some c =>
          match fr c with
          | None => Panic
          | Some fc =>
              match f_ty fc with
              | EPtr => match si x with 0%nat => Panic | S i => Next (goto_si i x) end
              | EArray =>
                  let len := d_len (dy x (si x)) + 1 in
                  let D := upd_d (dy x) (si x) (set_dlen len) in
                  if f_cap f <=? len then
                    match skip_extra 1 (skipn (ti x) toks) with
                    | None => Panic
                    | Some n => Next (St (si x) (ti x + n) D (hp x))
                    end
                  else Next (with_dy (upd_d D (si x) (fun d => set_doff (d_off d + f_size f) d)) x)
              | ESlice => Next (with_dy (upd_d (dy x) (si x) (fun d => set_doff (d_off d + f_size f) d)) x)
              | EMap | EStruct | EStructRecur => Next (goto_si c x)
              | _ => Next x
              end
          end
      end
  end.

(** Lines 2673-2687, label ON_PTR. *)
Definition on_ptr (x : st) : out :=
  match fr (S (si x)) with
  | None => Panic
  | Some f =>
      let p := dst (dy x) (si x) in
      if f_size f =? 0 then lift (store (hp x) p W (CPtr (0%nat, 0))) (fun h => Next (goto_si (S (si x)) (with_hp h x)))
      else
        let '(a, h) := malloc (hp x) (f_size f) in
        lift (store h p W (CPtr a)) (fun h =>
          Next (St (S (si x)) (ti x) (upd_d (dy x) (S (si x)) (set_dest (Some a))) h))
  end.

(** Lines 2689-2714, label ON_JSON_UNMARSHALER. *)
Definition on_json (f : frame) (t : token) (x : st) : out :=
  let range : res (bytes * nat) :=
    match tk_ty t with
    | KObj | KArr =>
        match nth_error toks (tk_end t) with
        | None => Pan
        | Some te => let* r := sub (tk_idx t) (tk_idx te + 1) in Ok (r, (tk_end t + 1)%nat)
        end
    | _ => let* r := raw_of t in Ok (r, S (ti x))
    end in
  lift range (fun '(raw, ti') =>
  lift (user_id f) (fun id =>
  let p := dst (dy x) (si x) in
  lift (load_user (hp x) p (f_size f)) (fun old =>
  let '(new, er) := c_uj C id old raw in
  lift (store_user (hp x) p (f_size f) new) (fun h =>
  match er with
  | Some c => Fail (tk_idx t) (EUser c) (with_hp h x)
  | None => on_val_end (St (si x) ti' (dy x) h)
  end)))).

(** Lines 2597-2634, label ON_RECUR_OBJ_END. *)
Definition pop_rs (D : dyn) (i : nat) (f : frame) (top : rsframe) (rest : list rsframe) : dyn :=
  let D := upd_d D i (fun d => DF (r_dest top) (r_off top) (d_len d) rest) in
  set_dests D (f_fields f) (r_dest top).
Definition parent_si (f : frame) : nat := match f_parent f with Some p => p | None => nosi end.
(** The recursion stack is kept with its top first. *)
Definition on_recur_obj_end (x : st) : out :=
  match fr (si x) with
  | None => Panic
  | Some f =>
      match d_rs (dy x (si x)) with
      | [] => on_val_end x
      | top :: rest =>
          match fr (r_con top) with
          | None => Panic
          | Some fc =>
              match f_ty fc with
              | ESliceRecur =>
                  Next (with_dy (upd_d (dy x) (si x) (fun d => set_doff (d_off d + f_size f) d)) x)
              | EPtrRecur =>
                  Next (St (parent_si fc) (ti x) (pop_rs (dy x) (si x) f top rest) (hp x))
              | EMapRecur =>
                  Next (St (r_con top) (ti x) (upd_d (dy x) (r_con top) (set_dest (r_dest top))) (hp x))
              | _ => Next x
              end
          end
      end
  end.

(** Lines 2799-2850 [decodeAny]; [DFuel] only bounds the Coq recursion. *)
Inductive dres := DOk (a : gany) (rest : list token) | DErr | DPanic | DFuel.
Fixpoint decodeAny (fuel : nat) (ts : list token) : dres :=
  match fuel with
  | 0%nat => DFuel
  | S fuel =>
      match ts with
      | [] => DPanic
      | t :: r =>
          match tk_ty t with
          | KNull => DOk ANil r
          | KNum | KInt =>
              match raw_of t with
              | Ok raw => match parse_float (c_pf C) B64 raw with Some f => DOk (AFloat f) r | None => DErr end
              | _ => DPanic
              end
          | KTrue => DOk (ABool true) r
          | KFalse => DOk (ABool false) r
          | KStr =>
              match body_of t with
              | Ok b => match unesc_str (tk_idx t + 1) b with Ok g => DOk (AStr g) r | _ => DPanic end
              | _ => DPanic
              end
          | KArr => anyArr fuel [] r
          | KObj => if Nat.eqb (tk_n t) 0 then match r with _ :: r' => DOk (AObj []) r' | [] => DPanic end
                    else anyObj fuel [] r
          | _ => DPanic (* panic("unreachable") *)
          end
      end
  end
(** Lines 2822-2830 *)
with anyArr (fuel : nat) (acc : list gany) (ts : list token) : dres :=
  match fuel with
  | 0%nat => DFuel
  | S fuel =>
      match ts with
      | [] => DPanic
      | t :: r =>
          match tk_ty t with
          | KArrEnd => DOk (AArr acc) r
          | _ => match decodeAny fuel ts with
                 | DOk v rest => anyArr fuel (acc ++ [v]) rest
                 | e => e
                 end
          end
      end
  end
(** Lines 2835-2846 *)
with anyObj (fuel : nat) (acc : list (gstr * gany)) (ts : list token) : dres :=
  match fuel with
  | 0%nat => DFuel
  | S fuel =>
      match ts with
      | [] => DPanic
      | t :: r =>
          match tk_ty t with
          | KObjEnd => DOk (AObj acc) r
          | _ => match body_of t with
                 | Ok kb =>
                     match decodeAny fuel r with
                     | DOk v rest =>
                         match unesc_str (tk_idx t + 1) kb with
                         | Ok g => anyObj fuel (assoc_put acc g v) rest
                         | _ => DPanic
                         end
                     | e => e
                     end
                 | _ => DPanic
                 end
          end
      end
  end.

(** Lines 1314-1326, 2104-2116: array or object into any. *)
Definition any_tok (t : token) (x : st) : out :=
  match decodeAny (2 * length toks + 1) (skipn (ti x) toks) with
  | DErr => Fail (tk_idx t) EUnexpected x
  | DPanic | DFuel => Panic
  | DOk v rest =>
      lift (store (hp x) (dst (dy x) (si x)) (2 * W) (CAny v)) (fun h =>
        on_val_end (St (si x) (length toks - length rest) (dy x) h))
  end.

(** Lines 1359-1390, 1415-1441: existing backing array or a new one; [esz] element size,
    [keep] whether existing elements are copied to a new array.
    Result: address of the first element. *)
Definition grow_slice (h : heap) (p : ptr) (esz n : Z) (keep : bool) : res (addr * heap) :=
  let* c := load h p (3 * W) in
  let* (data, len, cap) := as_slice c in
  if cap <? n then
    let '(a, h) := malloc h (esz * n) in
    let* h := if (0 <? esz) && negb (len =? 0) && keep then copy h (Some a) data (esz * len) else Ok h in
    let* h := store h p (3 * W) (CSlice a n n) in
    Ok (a, h)
  else
    match data with
    | None => Cor (* cap >= n > 0 with nil data: not a Go slice *)
    | Some a => let* h := store h p (3 * W) (CSlice a n cap) in Ok (a, h)
    end.

(** Element of a specialised slice: lines 1489-1501, 1526-1538, 1563-2085. *)
Definition fast_elem (e : et) (t : token) : res ((cv * Z) + err) :=
  match e with
  | ESliceBool =>
      match tk_ty t with
      | KNull | KFalse => Ok (inl (CBool false, 1))
      | KTrue => Ok (inl (CBool true, 1))
      | _ => Ok (inr EUnexpected)
      end
  | ESliceStr =>
      match tk_ty t with
      | KNull => Ok (inl (CStr (SOwn []), 2 * W))
      | KStr => let* b := body_of t in let* g := unesc_str (tk_idx t + 1) b in Ok (inl (CStr g, 2 * W))
      | _ => Ok (inr EUnexpected)
      end
  | ESliceInt k =>
      match tk_ty t with
      | KNull => Ok (inl (CInt 0, wsize (c_w64 C) (nk_w k)))
      | KInt => let* raw := raw_of t in
                let* r := int_of_tok k raw in
                Ok (match r with inl v => inl (CInt v, wsize (c_w64 C) (nk_w k)) | inr e => inr e end)
      | _ => Ok (inr EUnexpected)
      end
  | ESliceF b =>
      match tk_ty t with
      | KNull => Ok (inl (CFloat (float_of_int 0), fsize b))
      | KNum => let* raw := raw_of t in
                Ok (match parse_float (c_pf C) b raw with Some f => inl (CFloat f, fsize b) | None => inr EParse end)
      | KInt => let* raw := raw_of t in
                Ok (match float_of_int_tok b raw with Some f => inl (CFloat f, fsize b) | None => inr EParse end)
      | _ => Ok (inr EUnexpected)
      end
  | _ => Pan
  end.

(** The loop over the element tokens; [i] is the index of the next element, [n] the
    length of the slice. *)
Fixpoint fast_loop (e : et) (a : addr) (n i : Z) (ts : list token) (h : heap) : res (heap * option (nat * err)) :=
  match ts with
  | [] => Ok (h, None)
  | t :: r =>
      let* x := fast_elem e t in
      match x with
      | inr er => Ok (h, Some (tk_idx t, er))
      | inl (v, sz) =>
          if n <=? i then Pan (* index out of range *)
          else let* h := store h (padd (Some a) (i * sz)) sz v in fast_loop e a n (i + 1) r h
      end
  end.

Definition fast_size (e : et) : Z :=
  match e with
  | ESliceBool => 1 | ESliceStr => 2 * W
  | ESliceInt k => wsize (c_w64 C) (nk_w k) | ESliceF b => fsize b
  | _ => 0
  end.

(** Lines 1471-2089: one specialised slice type. *)
Definition fast_slice (e : et) (t : token) (x : st) : out :=
  let p := dst (dy x) (si x) in
  let n := Z.of_nat (tk_n t) in
  if n <? 1 then
    lift (store (hp x) p (3 * W) (CSlice (0%nat, 0) 0 0)) (fun h => on_val_end (St (si x) (ti x + 2) (dy x) h))
  else
    lift (let* c := load (hp x) p (3 * W) in as_slice c) (fun '(data, len, cap) =>
    let reuse := negb (cap <? n) in
    let '(a, h) := if reuse then (data, hp x) else let '(a, h) := malloc (hp x) (fast_size e * n) in (Some a, h) in
    match a with
    | None => Corrupt
    | Some a =>
        let ts := firstn (tk_end t - S (ti x)) (skipn (S (ti x)) toks) in
        lift (fast_loop e a n 0 ts h) (fun '(h, er) =>
        match er with
        | Some (i, e) => Fail i e (with_hp h x)
        | None =>
            lift (store h p (3 * W) (CSlice a n (if reuse then cap else n))) (fun h =>
              on_val_end (St (si x) (ti x + length ts + 2) (dy x) h))
        end)
    end).

(** Lines 1312-2098: token Array. *)
Definition arr_tok (f : frame) (t : token) (x : st) : out :=
  let p := dst (dy x) (si x) in
  match f_ty f with
  | EAny => any_tok t x
  | EArray0 => on_val_end (goto_ti (S (tk_end t)) x)
  | EArray =>
      if (tk_n t <? 1)%nat then on_val_end (goto_ti (ti x + 2) x)
      else match fr (S (si x)) with
           | None => Panic
           | Some _ => Next (St (S (si x)) (S (ti x)) (upd_d (dy x) (S (si x)) (fun d => DF p 0 0 (d_rs d))) (hp x))
           end
  | ESlice =>
      match fr (S (si x)) with
      | None => Panic
      | Some fe =>
          if Nat.eqb (tk_n t) 0 then
            (* newarray(typ, 0) and emptyStructAddr are both the zero-sized block *)
            lift (store (hp x) p (3 * W) (CSlice (0%nat, 0) 0 0)) (fun h =>
              on_val_end (St (si x) (ti x + 2) (dy x) h))
          else
            lift (grow_slice (hp x) p (f_size fe) (Z.of_nat (tk_n t)) (isElemComposite (f_ty fe))) (fun '(a, h) =>
              Next (St (S (si x)) (S (ti x))
                     (upd_d (dy x) (S (si x)) (fun d => DF (Some a) 0 (d_len d) (d_rs d))) h))
      end
  | ESliceRecur =>
      let rf := f_recur f in
      match fr rf with
      | None => Panic
      | Some fe =>
          if Nat.eqb (tk_n t) 0 then
            lift (store (hp x) p (3 * W) (CSlice (0%nat, 0) 0 0)) (fun h =>
              let x' := St (si x) (ti x + 2) (dy x) h in
              match d_rs (dy x rf) with
              | [] => on_val_end x'
              | _ => Next (goto_si rf x')
              end)
          else
            lift (grow_slice (hp x) p (f_size fe) (Z.of_nat (tk_n t)) true) (fun '(a, h) =>
              let push := RS (d_dest (dy x rf)) (d_off (dy x rf)) (si x) in
              Next (St rf (S (ti x))
                     (upd_d (dy x) rf (fun d => DF (Some a) 0 (d_len d) (push :: d_rs d))) h))
      end
  | ESliceEmpty =>
      lift (store (hp x) p (3 * W) (CSlice (0%nat, 0) (Z.of_nat (tk_n t)) (Z.of_nat (tk_n t)))) (fun h =>
        on_val_end (St (si x) (S (tk_end t)) (dy x) h))
  | ESliceBool | ESliceStr | ESliceInt _ | ESliceF _ => fast_slice (f_ty f) t x
  | EPtr => on_ptr x
  | EJSON => on_json f t x
  | _ => Fail (tk_idx t) EUnexpected x
  end.

(** Lines 2181-2213: map[string]string. *)
Fixpoint mss_loop (ts : list token) (acc : list (gstr * gstr)) : res (list (gstr * gstr) + (nat * err)) :=
  match ts with
  | k :: v :: r =>
      match tk_ty v with
      | KStr =>
          let* kb := body_of k in let* kg := unesc_str (tk_idx k + 1) kb in
          let* vb := body_of v in let* vg := unesc_str (tk_idx v + 1) vb in
          mss_loop r (assoc_put acc kg vg)
      | KNull =>
          let* kb := body_of k in let* kg := unesc_str (tk_idx k + 1) kb in
          mss_loop r (assoc_put acc kg (SOwn []))
      | _ => Ok (inr (tk_idx v, EUnexpected))
      end
  | _ => Ok (inl acc)
  end.

(** The map pointer at [p], creating the map if it is nil: lines 2160-2165, 2172-2177. *)
Definition init_map (h : heap) (p : ptr) : res heap :=
  let* c := load h p W in
  let* m := as_map c in
  match m with
  | Some _ => Ok h
  | None => let '(b, h) := makemap h in store h p W (CMap b)
  end.

(** Lines 2100-2268: token Object. *)
Definition obj_tok (f : frame) (t : token) (x : st) : out :=
  let p := dst (dy x) (si x) in
  match f_ty f with
  | EEmptyStruct => on_val_end (goto_ti (tk_end t) x)
  | EAny => any_tok t x
  | EPtrRecur =>
      let rf := f_recur f in
      match fr rf with
      | None => Panic
      | Some fe =>
          let push := RS (d_dest (dy x rf)) (d_off (dy x rf)) (si x) in
          lift (load (hp x) p W) (fun c =>
          lift (as_ptr c) (fun old =>
          lift (match old with
                | Some a => Ok (a, hp x)
                | None => let '(a, h) := malloc (hp x) (f_size fe) in
                          let* h := store h p W (CPtr a) in Ok (a, h)
                end) (fun '(a, h) =>
          let D := upd_d (dy x) rf (fun d => DF (Some a) (d_off d) (d_len d) (push :: d_rs d)) in
          if Nat.eqb (tk_n t) 0 then on_recur_obj_end (St rf (ti x + 2) D h)
          else Next (St rf (S (ti x)) (set_dests D (f_fields fe) (Some a)) h))))
      end
  | EMapRecur =>
      let rf := f_recur f in
      let push := RS (d_dest (dy x rf)) (d_off (dy x rf)) (si x) in
      let D := upd_d (dy x) rf (fun d => set_drs (push :: d_rs d) d) in
      lift (init_map (hp x) p) (fun h =>
      if Nat.eqb (tk_n t) 0 then on_val_end (St (si x) (ti x + 2) D h)
      else Next (St (si x) (S (ti x)) D h))
  | EMap =>
      lift (init_map (hp x) p) (fun h =>
      if Nat.eqb (tk_n t) 0 then on_val_end (St (si x) (ti x + 2) (dy x) h)
      else Next (St (si x) (S (ti x)) (dy x) h))
  | EMapSS =>
      if Nat.eqb (tk_n t) 0 then
        lift (store (hp x) p W (CMSS [])) (fun h => on_val_end (St (si x) (ti x + 2) (dy x) h))
      else
        lift (mss_loop (firstn (tk_end t - S (ti x)) (skipn (S (ti x)) toks)) []) (fun r =>
        match r with
        | inr (i, e) => Fail i e x
        | inl m => lift (store (hp x) p W (CMSS m)) (fun h =>
                     on_val_end (St (si x) (S (tk_end t)) (dy x) h))
        end)
  | EStruct =>
      if Nat.eqb (tk_n t) 0 then on_val_end (goto_ti (ti x + 2) x)
      else Next (goto_ti (S (ti x)) (with_dy (set_dests (dy x) (f_fields f) p) x))
  | EStructRecur =>
      if Nat.eqb (tk_n t) 0 then on_recur_obj_end (goto_ti (ti x + 2) x)
      else Next (goto_ti (S (ti x)) (with_dy (set_dests (dy x) (f_fields f) p) x))
  | EPtr => on_ptr x
  | EJSON => on_json f t x
  | _ => Fail (tk_idx t) EUnexpected x
  end.

(** Lines 2320-2335: skipping the value of an unknown member, [l] is the object depth
    (an integer: it can become negative).  Result: number of tokens skipped. *)
Fixpoint skip_unknown (l : Z) (ts : list token) : option nat :=
  match ts with
  | [] => None (* index out of range *)
  | t :: r =>
      match tk_ty t with
      | KKey => if l <? 1 then Some 0%nat else option_map S (skip_unknown l r)
      | KObj => option_map S (skip_unknown (l + 1) r)
      | KObjEnd => if l - 1 <? 1 then Some 0%nat else option_map S (skip_unknown (l - 1) r)
      | _ => option_map S (skip_unknown l r)
      end
  end.

(** Lines 2365-2511: the map key and the address of the value. *)
Definition map_key (fk : frame) (kb : bytes) (i : nat) : res (option mkey + err) :=
  match f_ty fk with
  | EText =>
      let* id := user_id fk in
      let* tb := unesc kb in
      let '(new, er) := c_ut C id [] tb in
      Ok (match er with Some c => inr (EUser c) | None => inl (Some (MUser new)) end)
  | EStr => let* g := unesc_str (i + 1) kb in Ok (inl (Some (MStr g)))
  | EInt k =>
      let* r := int_of_str k kb in
      Ok (match r with inl v => inl (Some (MInt v)) | inr e => inr e end)
  | _ => Ok (inl None) (* pNewData stays nil *)
  end.

(** Lines 2270-2533: token Key. *)
Definition key_tok (f : frame) (t : token) (x : st) : out :=
  match f_ty f with
  | EStruct | EStructRecur =>
      lift (body_of t) (fun kb =>
      lift (if o_nounescape O then Ok kb else unesc kb) (fun key =>
      match lookup_field (c_fold C) (o_nofold O) (f_fields f) key with
      | Some i => Next (St i (S (ti x)) (dy x) (hp x))
      | None =>
          if o_unknown O then Fail (tk_idx t) EUnknownField x
          else match skip_unknown 0 (skipn (S (ti x)) toks) with
               | None => Panic
               | Some n => Next (goto_ti (S (ti x) + n) x)
               end
      end))
  | EMap | EMapRecur =>
      lift (body_of t) (fun kb =>
      lift (let* c := load (hp x) (dst (dy x) (si x)) W in as_map c) (fun m =>
      match fr (S (si x)) with
      | None => Panic
      | Some fk =>
          lift (map_key fk kb (tk_idx t)) (fun k =>
          match k with
          | inr e => Fail (tk_idx t) e x
          | inl k =>
              lift (match k with
                    | Some k => let* (a, h) := mapassign (hp x) m k (f_vsize f) in Ok (Some a, h)
                    | None => Ok (None, hp x)
                    end) (fun '(p, h) =>
              let si' := match f_ty f with EMapRecur => f_recur f | _ => S (S (si x)) end in
              match fr si' with
              | None => Panic
              | Some fv =>
                  let D := upd_d (dy x) si' (set_dest p) in
                  lift (match f_ty fv with
                        | EStruct | EStructRecur => clear h p (f_vsize f)
                        | _ => Ok h
                        end) (fun h =>
                  Next (St si' (S (ti x)) D h))
              end)
          end)
      end))
  | _ => Fail (tk_idx t) EUnexpected x
  end.

(** Lines 2535-2565: token ObjectEnd. *)
Definition obj_end_tok (f : frame) (x : st) : out :=
  let x := goto_ti (S (ti x)) x in
  match f_ty f with
  | EStruct => on_val_end x
  | EMapRecur =>
      let rf := f_recur f in
      match fr rf with
      | None => Panic
      | Some fe =>
          match d_rs (dy x rf) with
          | [] => on_val_end (goto_si rf x)
          | top :: rest => Next (St (parent_si f) (ti x) (pop_rs (dy x) rf fe top rest) (hp x))
          end
      end
  | _ => on_recur_obj_end x
  end.

(** Lines 2567-2594: token ArrayEnd. *)
Definition arr_end_tok (f : frame) (x : st) : out :=
  let x := goto_ti (S (ti x)) x in
  match f_ty f with
  | EStructRecur =>
      match d_rs (dy x (si x)) with
      | [] => on_val_end x
      | top :: rest =>
          match fr (r_con top) with
          | None => Panic
          | Some fc => Next (St (parent_si fc) (ti x) (pop_rs (dy x) (si x) f top rest) (hp x))
          end
      end
  | _ => match si x with
         | 0%nat => Panic (* si-- wraps around; the next access is out of range *)
         | S i => on_val_end (goto_si i x)
         end
  end.

(** One iteration of the loop of line 732. *)
Definition step (x : st) : out :=
  match nth_error toks (ti x), fr (si x) with
  | Some t, Some f =>
      match tk_ty t with
      | KArr => arr_tok f t x
      | KObj => obj_tok f t x
      | KKey => key_tok f t x
      | KObjEnd => obj_end_tok f x
      | KArrEnd => arr_end_tok f x
      | k =>
          match f_ty f, k with
          | EJSON, _ => on_json f t x
          | EPtr, KNull => lift (null_tok EPtr (dst (dy x) (si x)) (hp x)) (fun h =>
                             on_val_end (St (si x) (S (ti x)) (dy x) h))
          | EPtr, _ => on_ptr x
          | _, _ =>
              lift (scalar_tok f t (dst (dy x) (si x)) (hp x)) (fun '(h, r) =>
              match r with
              | Some e => Fail (tk_idx t) e (with_hp h x)
              | None => on_val_end (St (si x) (S (ti x)) (dy x) h)
              end)
          end
      end
  | _, _ => Panic
  end.

(** The loop.  [RFuel] only bounds the Coq recursion. *)
Inductive rout := RDone (x : st) | RFail (idx : nat) (e : err) (x : st) | RPanic | RCorrupt | RFuel.
Fixpoint run (fuel : nat) (x : st) : rout :=
  if (ti x <? length toks)%nat then
    match fuel with
    | 0%nat => RFuel
    | S fuel =>
        match step x with
        | Next x' => run fuel x'
        | Fail i e x' => RFail i e x'
        | Panic => RPanic
        | Corrupt => RCorrupt
        end
    end
  else RDone x.

Definition run_fuel : nat := S (length toks) * S (length stk).
End Machine.

(** Result of tokenizing: external. *)
Inductive tokres := TOk (ts : list token) | TErr (idx : nat) (code : nat).

(** Dynamic part of the frames of a fresh decoder. *)
Definition dyn0 (stk : list frame) : dyn :=
  fun i => DF None (match nth_error stk i with Some f => f_off f | None => 0 end) 0 [].
(** Lines 717-721: the deferred reset. *)
Definition clear_dests (D : dyn) : dyn := fun i => set_dest None (D i).

(** What a call of Decode returns: index and error ([Ret (-1) None] on success), and the
    decoder and memory afterwards; or no return. *)
Inductive result := Ret (idx : Z) (e : option err) (D : dyn) (h : heap) | DPanics | DCorrupts | DLoops.

(** Lines 714-2733 [Decode]. [t] is the destination pointer. *)
Definition Decode (C : cfg) (O : opts) (stk : list frame) (D : dyn) (s : bytes) (tk : tokres) (t : ptr) (h : heap) : result :=
  match t with
  | None => Ret 0 (Some ENilDest) (clear_dests D) h
  | Some a =>
      let D := upd_d D 0 (set_dest t) in
      match tk with
      | TErr i c => Ret (Z.of_nat i) (Some (ETok c)) (clear_dests D) h
      | TOk toks =>
          match run C O stk s toks (run_fuel stk toks) (St 0 0 D h) with
          | RFail i e x => Ret (Z.of_nat i) (Some e) (clear_dests (dy x)) (hp x)
          | RDone x =>
              (* line 2731: t is assigned the T at the root frame Dest *)
              let size := match nth_error stk 0 with Some f => f_size f | None => 0 end in
              match d_dest (dy x 0%nat) with
              | Some a' =>
                  if (Nat.eqb (fst a') (fst a)) && (snd a' =? snd a) then Ret (-1) None (clear_dests (dy x)) (hp x)
                  else match copy (hp x) t (Some a') size with
                       | Ok h => Ret (-1) None (clear_dests (dy x)) h
                       | Pan => DPanics
                       | Cor => DCorrupts
                       end
              | None => DPanics
              end
          | RPanic => DPanics
          | RCorrupt => DCorrupts
          | RFuel => DLoops
          end
      end
  end.

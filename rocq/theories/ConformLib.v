(** Harness for running the model on the repository's own test cases.

    These are tests of the model, not proofs: they check that the definitions of
    AppendType.v, Machine.v and Parse.v compute what the Go tests of /repo (which pass on
    the real code) expect.  The cases themselves are generated from /repo/*_test.go by
    /verif/tools/conformance.py into Conformance.v.  No theorem depends on these files. *)
From Verif Require Import Base NumSpec Atoi JsonNum Unescape Lookup Types AppendType Token FloatLit Heap Machine Parse World.
Open Scope Z_scope.

(** A Go value as written in a test: [XZ] the zero value of any type, [XNil] nil, [XL]
    elements of a slice, array (missing ones are zero) or struct (all fields in order),
    [XU] a value of a type with an unmarshal method, [XIgn] a value outside the model. *)
Inductive xv :=
| XZ | XB (b : bool) | XI (z : Z) | XF (m e : Z) | XS (s : bytes) | XNil
| XL (l : list xv) | XM (l : list (xv * xv)) | XP (x : xv) | XU (s : bytes) | XIgn.

Definition feq (f : fnum) (m e : Z) : bool :=
  let lo := Z.min (fe f) e in fm f * 10 ^ (fe f - lo) =? m * 10 ^ (e - lo).

Definition user_ty (E : env) (t : ty) : bool :=
  match t with
  | TNamed i => match d_json (E i), d_text (E i) with SNone, SNone => false | _, _ => true end
  | _ => false
  end.

(** Does the `any` value equal the expected one? *)
Fixpoint any_eq (a : gany) (x : xv) {struct a} : bool :=
  match a, x with
  | ANil, XNil | ANil, XZ => true
  | ABool b, XB c => Bool.eqb b c
  | AFloat f, XF m e => feq f m e
  | AStr g, XS s => bytes_eqb (chars g) s
  | AArr l, XL m =>
      (fix go l m := match l, m with
        | [], [] => true | a :: l, x :: m => any_eq a x && go l m | _, _ => false end) l m
  | AObj l, XM m =>
      Nat.eqb (length l) (length m) &&
      (fix go (l : list (gstr * gany)) := match l with
        | [] => true
        | (k, a) :: l =>
            existsb (fun y => match fst y with XS s => bytes_eqb (chars k) s && any_eq a (snd y) | _ => false end) m
            && go l
        end) l
  | _, _ => false
  end.

Definition key_of (x : xv) : option mkey :=
  match x with XS s => Some (MStr (SOwn s)) | XI z => Some (MInt z) | XU s => Some (MUser s) | _ => None end.

(** Does the variable of type [t] at [b],[o] hold the expected value? *)
Fixpoint chk (fuel : nat) (E : env) (h : heap) (t : ty) (b : nat) (o : Z) (x : xv) {struct fuel} : bool :=
  match fuel with
  | O => false
  | S fuel =>
  let sz := tsize true E t in
  match x with XIgn => true | _ =>
  match sz with 0 => match x with XZ | XL _ => true | _ => false end | _ =>
  if user_ty E t then
    match load h (Some (b, o)) sz, x with
    | Ok CZero, XZ | Ok CZero, XU [] => true
    | Ok (CUser u), XU s => bytes_eqb u s
    | Ok (CUser []), XZ => true
    | _, _ => false
    end
  else match under E t with
  | TArr n e =>
      let es := tsize true E e in
      let l := match x with XL l => Some l | XZ => Some [] | _ => None end in
      match l with
      | None => false
      | Some l =>
          Nat.leb (length l) n &&
          forallb (fun i => chk fuel E h e b (o + Z.of_nat i * es) (nth i l XZ)) (seq 0 n)
      end
  | TStruct _ _ fs =>
      let l := match x with XL l => l | _ => map (fun _ => XZ) fs end in
      Nat.eqb (length l) (length fs) &&
      match x with XL _ | XZ => true | _ => false end &&
      forallb (fun i => match nth_error fs i with
        | Some (f, ft) => chk fuel E h ft b (o + fd_off f) (nth i l XZ)
        | None => false end) (seq 0 (length fs))
  | u =>
      match load h (Some (b, o)) sz with
      | Ok c =>
          match u, c, x with
          | TBool, CZero, XZ | TBool, CZero, XB false | TBool, CBool false, XZ => true
          | TBool, CBool v, XB w => Bool.eqb v w
          | TStr, CZero, XZ | TStr, CZero, XS [] | TNumber, CZero, XZ | TNumber, CZero, XS [] => true
          | TStr, CStr g, XS s | TNumber, CStr g, XS s => bytes_eqb (chars g) s
          | TStr, CStr g, XZ | TNumber, CStr g, XZ => bytes_eqb (chars g) []
          | TInt _, CZero, XZ | TInt _, CZero, XI 0 => true
          | TInt _, CInt z, XI y => z =? y
          | TInt _, CInt z, XZ => z =? 0
          | TFloat _, CZero, XZ | TFloat _, CZero, XF 0 _ => true
          | TFloat _, CFloat f, XF m e => feq f m e
          | TFloat _, CFloat f, XZ => feq f 0 0
          | TAny, CZero, XZ | TAny, CZero, XNil => true
          | TAny, CAny a, _ => any_eq a x
          | TSlice _, CZero, XZ | TSlice _, CZero, XNil => true
          | TSlice e, CSlice (b', o') len _, XL l =>
              let es := tsize true E e in
              (Z.of_nat (length l) =? len) &&
              forallb (fun i => chk fuel E h e b' (o' + Z.of_nat i * es) (nth i l XZ)) (seq 0 (length l))
          | TPtr _, CZero, XZ | TPtr _, CZero, XNil => true
          | TPtr e, CPtr (b', o'), XP y => chk fuel E h e b' o' y
          | TMap _ _, CZero, XZ | TMap _ _, CZero, XNil => true
          | TMap _ e, CMap m, XM l =>
              match blk h m with
              | BMap kl =>
                  Nat.eqb (length kl) (length l) &&
                  forallb (fun kx => match key_of (fst kx) with
                    | Some k => match find_key kl k with Some vb => chk fuel E h e vb 0 (snd kx) | None => false end
                    | None => false end) l
              | _ => false
              end
          | TMap _ _, CMSS kl, XM l =>
              Nat.eqb (length kl) (length l) &&
              forallb (fun kx => match kx with
                | (XS k, XS v) => existsb (fun y => bytes_eqb (chars (fst y)) k && bytes_eqb (chars (snd y)) v) kl
                | _ => false end) l
          | _, _, _ => false
          end
      | _ => false
      end
  end
  end
  end
  end.

Fixpoint to_any (x : xv) : gany :=
  match x with
  | XB b => ABool b | XF m e => AFloat (FN m e false) | XS s => AStr (SOwn s)
  | XI z => AFloat (FN z 0 false) (* stands for an int stored in an interface *)
  | XL l => AArr (map to_any l)
  | XM l => AObj (map (fun kx => (match fst kx with XS s => SOwn s | _ => SOwn [] end, to_any (snd kx))) l)
  | XIgn => AStr (SOwn (bs "value outside the model"))
  | _ => ANil
  end.

(** Put a value into the (zeroed) variable of type [t] at [b],[o]. *)
Fixpoint build (fuel : nat) (E : env) (h : heap) (t : ty) (b : nat) (o : Z) (x : xv) {struct fuel} : res heap :=
  match fuel with
  | O => Cor
  | S fuel =>
  let sz := tsize true E t in
  let put c := store h (Some (b, o)) sz c in
  let seqb h e b o es l :=
    fold_left (fun r ix => let* h := r in build fuel E h e b (o + Z.of_nat (fst ix) * es) (snd ix))
      (combine (seq 0 (length l)) l) (Ok h) in
  match sz with 0 => Ok h | _ =>
  if user_ty E t then match x with XU s => put (CUser s) | XZ => Ok h | _ => Cor end
  else match under E t, x with
  | _, XZ | _, XNil => Ok h
  | TBool, XB v => put (CBool v)
  | TStr, XS s | TNumber, XS s => put (CStr (SOwn s))
  | TInt _, XI z => put (CInt z)
  | TFloat _, XF m e => put (CFloat (FN m e false))
  | TAny, _ => put (CAny (to_any x))
  | TArr _ e, XL l => seqb h e b o (tsize true E e) l
  | TStruct _ _ fs, XL l =>
      fold_left (fun r fx => let* h := r in
        build fuel E h (snd (fst fx)) b (o + fd_off (fst (fst fx))) (snd fx)) (combine fs l) (Ok h)
  | TSlice e, XL l =>
      let n := Z.of_nat (length l) in
      let '((b', o'), h) := malloc h (n * tsize true E e) in
      let* h := store h (Some (b, o)) sz (CSlice (b', o') n n) in
      seqb h e b' o' (tsize true E e) l
  | TPtr e, XP y =>
      let '((b', o'), h) := malloc h (tsize true E e) in
      let* h := store h (Some (b, o)) sz (CPtr (b', o')) in
      build fuel E h e b' o' y
  | TMap k e, XM l =>
      if kind_string E k && kind_string E e then
        put (CMSS (map (fun kx => match kx with (XS a, XS v) => (SOwn a, SOwn v) | (XS a, _) => (SOwn a, SOwn []) | _ => (SOwn [], SOwn []) end) l))
      else
        let '(m, h) := makemap h in
        let* h := store h (Some (b, o)) sz (CMap m) in
        fold_left (fun r kx => let* h := r in
          match key_of (fst kx) with
          | Some key =>
              let* ah := mapassign h (Some m) key (tsize true E e) in
              build fuel E (snd ah) e (fst (fst ah)) (snd (fst ah)) (snd kx)
          | None => Cor
          end) l (Ok h)
  | _, _ => Cor
  end
  end
  end.

(** A test case: text, optional previous value, expectation.  [WOk x]: no error and the
    variable holds [x]; [WErr i e]: the error, at index [i] if given; [WTok]: the text is
    not JSON. *)
Inductive want := WOk (x : xv) | WErr (i : option Z) (e : err) | WTok.
Record case := K { k_text : bytes; k_prep : option xv; k_want : want }.
Record group := G { g_env : list decl; g_errs : list nat; g_ty : ty; g_opts : opts; g_cases : list case }.

Definition env_of (l : list decl) : env := fun i => nth i l (Decl TOther 0 SNone SNone).
Definition err_eqb (a b : err) : bool :=
  match a, b with
  | EUnexpected, EUnexpected | EOverflow, EOverflow | EUnknownField, EUnknownField
  | EParse, EParse | ENilDest, ENilDest | EUser _, EUser _ => true
  | _, _ => false
  end.

(** The unmarshalers of the tests: record the argument; those of the types [errs] return
    an error. *)
Definition cfg_of (errs : list nat) (bytes_in : bool) : cfg :=
  let u := fun i (_ raw : bytes) => if existsb (Nat.eqb i) errs then ([], Some 1%nat) else (raw, None) in
  Cfg true bytes_in u u (fun _ _ => None) ascii_fold.

Definition run_case (errs : list nat) (E : env) (T : ty) (O : opts) (b : bool) (D : dyn) (c : case) : bool * dyn :=
  let h := match k_prep c with
    | None => Ok (world (tsize true E T))
    | Some x => build 12 E (world (tsize true E T)) T 1 0 x end in
  match h with
  | Ok h =>
      match parse (k_text c) with
      | None => (match k_want c with WTok => true | _ => false end, D)
      | Some v =>
          match Decode (cfg_of errs b) O (stack_of E T) D (k_text c) (TOk (flat 0 v)) dest h with
          | Ret i e D' h' =>
              (match e, k_want c with
               | None, WOk x => chk 12 E h' T 1 0 x
               | Some e, WErr j e' =>
                   err_eqb e e' && match j with Some j => i =? j | None => true end
               | _, _ => false
               end, D')
          | _ => (false, D)
          end
      end
  | _ => (false, D)
  end.

(** Numbers of the failing cases of a group, the decoder being reused from case to case. *)
Fixpoint run_cases (errs : list nat) (E : env) (T : ty) (O : opts) (b : bool) (D : dyn) (n : nat) (l : list case) : list nat :=
  match l with
  | [] => []
  | c :: l => let '(ok, D) := run_case errs E T O b D c in
              (if ok then [] else [n]) ++ run_cases errs E T O b D (S n) l
  end.
Definition run_group (b : bool) (g : group) : list nat :=
  let E := env_of (g_env g) in
  run_cases (g_errs g) E (g_ty g) (g_opts g) b (dyn0 (stack_of E (g_ty g))) 0 (g_cases g).
Definition failures (gs : list group) : list (nat * list nat * list nat) :=
  filter (fun r => match r with (_, [], []) => false | _ => true end)
    (map (fun ig => (fst ig, run_group false (snd ig), run_group true (snd ig))) (combine (seq 0 (length gs)) gs)).

(** Expected frames of TestAppendTypeToStack. *)
Definition et_eqb (a b : et) : bool.
Proof.
  refine (if (_ : {a = b} + {a <> b}) then true else false). repeat decide equality.
Defined.
(** type, size, offset, parent, recursion frame, capacity, named fields, has RType *)
Record xframe := XFr { x_ty : et; x_size : Z; x_off : Z; x_parent : option nat; x_recur : nat; x_cap : Z;
  x_fields : list (bytes * nat); x_rt : bool }.
Definition frame_eqb (f : frame) (x : xframe) : bool :=
  et_eqb (f_ty f) (x_ty x) && (f_size f =? x_size x) && (f_off f =? x_off x) &&
  match f_parent f, x_parent x with None, None => true | Some a, Some b => Nat.eqb a b | _, _ => false end &&
  Nat.eqb (f_recur f) (x_recur x) && (f_cap f =? x_cap x) &&
  Nat.eqb (length (f_fields f)) (length (x_fields x)) &&
  forallb (fun p => bytes_eqb (fst (fst p)) (fst (snd p)) && Nat.eqb (snd (fst p)) (snd (snd p)))
    (combine (f_fields f) (x_fields x)) &&
  Bool.eqb (match f_rt f with Some _ => true | None => false end) (x_rt x).
Definition stack_case (l : list decl) (T : ty) (xs : list xframe) : bool :=
  match append true (env_of l) false 50 [] T with
  | AOk stk => Nat.eqb (length stk) (length xs) && forallb (fun p => frame_eqb (fst p) (snd p)) (combine stk xs)
  | _ => false
  end.

(** Cases of internal/atoi, internal/jsonnum, internal/unescape that fail. *)
Definition atoi_bad (f : bytes -> option (Z * bool)) (l : list (bytes * (Z * bool))) : list bytes :=
  flat_map (fun c => match f (fst c) with
    | Some (z, o) => if (z =? fst (snd c)) && Bool.eqb o (snd (snd c)) then [] else [fst c]
    | None => [fst c] end) l.
Definition rc_eqb (a b : rc) : bool :=
  match a, b with RErr, RErr | RInteger, RInteger | RNumber, RNumber => true | _, _ => false end.
Definition num_bad (l : list (bytes * (bytes * rc))) : list bytes :=
  flat_map (fun c => match ReadNumber (fst c) with
    | Some (t, r) => if bytes_eqb t (fst (snd c)) && rc_eqb r (snd (snd c)) then [] else [fst c]
    | None => [fst c] end) l.
Definition unesc_bad (l : list (bytes * bytes)) : list bytes :=
  flat_map (fun c => match Valid (fst c) with UOk r => if bytes_eqb r (snd c) then [] else [fst c] | _ => [fst c] end) l.

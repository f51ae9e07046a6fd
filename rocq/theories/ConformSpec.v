(** The specification [ideal] (Spec.v) run on the repository's own decode tests.

    The expectations of those tests are also what encoding/json computes (the Go test
    helper compares the two), so this tests that [ideal] says what a user expects.  Tests
    only; no theorem depends on this file. *)
From Verif Require Import Base NumSpec Lookup Types AppendType Token FloatLit Heap Machine Parse World
  Dt Value Dval Spec Elaborate ConformLib.
Open Scope Z_scope.

Fixpoint to_jany (x : xv) : jany :=
  match x with
  | XB b => NBool b | XF m e => NNum (FN m e false) | XS s => NStr s
  | XL l => NArr (map to_jany l)
  | XM l => NObj (map (fun kx => (match fst kx with XS s => s | _ => [] end, to_jany (snd kx))) l)
  | XIgn | XI _ => NStr (bs "value outside the model")
  | _ => NNil
  end.

(** A written value as a value of the specification. *)
Fixpoint to_gval (fuel : nat) (E : env) (T : ty) (d : dt) (x : xv) {struct fuel} : gval :=
  match fuel with
  | O => zero d
  | S fuel =>
  match d, x with
  | DStruct _ ds, XL l =>
      match under E T with
      | TStruct _ _ fs =>
          let kept := filter (fun fx => match field_name (fst (fst fx)) with Some _ => true | None => false end) (combine fs l) in
          VStruct (map (fun p => to_gval fuel E (snd (fst (fst p))) (snd (snd p)) (snd (fst p))) (combine kept ds))
      | _ => zero d
      end
  | _, XZ => zero d
  | DSc SAny, _ => VAny (to_jany x)
  | DSc _, XB b => VBool b
  | DSc _, XI z => VInt z
  | DSc _, XF m e => VFloat (FN m e false)
  | DSc _, XS s => VStr s
  | DText _ _, XU s | DJson _ _, XU s => VUser s
  | DArr n d, XL l =>
      match under E T with
      | TArr _ U => VArr (map (fun i => to_gval fuel E U d (nth i l XZ)) (seq 0 n))
      | _ => zero d
      end
  | DSlice d, XL l =>
      match under E T with TSlice U => VSlice (Some (map (to_gval fuel E U d) l, [])) | _ => zero d end
  | DMap k d, XM l =>
      match under E T with
      | TMap _ U => VMap (Some (map (fun kx => (match fst kx with XS s => GStr s | XI z => GInt z | XU s => GUser s | _ => GStr [] end,
                                               to_gval fuel E U d (snd kx))) l))
      | _ => zero d
      end
  | DMSS, XM l => VMSS (Some (map (fun kx => match kx with (XS a, XS b) => (a, b) | (XS a, _) => (a, []) | _ => ([], []) end) l))
  | DPtr d, XP y => match under E T with TPtr U => VPtr (Some (to_gval fuel E U d y)) | _ => zero d end
  | _, _ => zero d
  end
  end.

Definition fnum_eqb (a b : fnum) : bool := feq a (fm b) (fe b).
Fixpoint jany_eqb (a b : jany) {struct a} : bool :=
  match a, b with
  | NNil, NNil => true
  | NBool x, NBool y => Bool.eqb x y
  | NNum x, NNum y => fnum_eqb x y
  | NStr x, NStr y => bytes_eqb x y
  | NArr l, NArr m =>
      (fix go l m := match l, m with [], [] => true | a :: l, b :: m => jany_eqb a b && go l m | _, _ => false end) l m
  | NObj l, NObj m =>
      Nat.eqb (length l) (length m) &&
      (fix go l := match l with
        | [] => true
        | (k, a) :: l => existsb (fun y => bytes_eqb k (fst y) && jany_eqb a (snd y)) m && go l
        end) l
  | _, _ => false
  end.
Fixpoint gval_eqb (a b : gval) {struct a} : bool :=
  let all := fix go l m := match l, m with [], [] => true | a :: l, b :: m => gval_eqb a b && go l m | _, _ => false end in
  match a, b with
  | VBool x, VBool y => Bool.eqb x y
  | VInt x, VInt y => x =? y
  | VFloat x, VFloat y => fnum_eqb x y
  | VStr x, VStr y | VUser x, VUser y => bytes_eqb x y
  | VAny x, VAny y => jany_eqb x y
  | VArr l, VArr m | VStruct l, VStruct m => all l m
  | VSlice None, VSlice None | VMap None, VMap None | VMSS None, VMSS None | VPtr None, VPtr None => true
  | VSlice (Some (l, _)), VSlice (Some (m, _)) => all l m
  | VPtr (Some x), VPtr (Some y) => gval_eqb x y
  | VMap (Some l), VMap (Some m) =>
      Nat.eqb (length l) (length m) &&
      (fix go l := match l with
        | [] => true
        | (k, a) :: l => existsb (fun y => gkey_eqb k (fst y) && gval_eqb a (snd y)) m && go l
        end) l
  | VMSS (Some l), VMSS (Some m) =>
      Nat.eqb (length l) (length m) &&
      forallb (fun ka => existsb (fun y => bytes_eqb (fst ka) (fst y) && bytes_eqb (snd ka) (snd y)) m) l
  | _, _ => false
  end.

Definition spec_case (errs : list nat) (E : env) (T : ty) (d : dt) (O : opts) (c : case) : bool :=
  let g := match k_prep c with None => zero d | Some x => to_gval 12 E T d x end in
  match parse (k_text c) with
  | None => match k_want c with WTok => true | _ => false end
  | Some v =>
      match ideal (cfg_of errs false) O (k_text c) d v g, k_want c with
      | VOk g', WOk x => match x with XIgn => true | _ => gval_eqb g' (to_gval 12 E T d x) end
      | VErr i e _, WErr j e' => err_eqb e e' && match j with Some j => Z.of_nat i =? j | None => true end
      | _, _ => false
      end
  end.
(** [None]: the type is recursive or otherwise outside the domain of [ideal]. *)
Definition spec_group (g : group) : option (list nat) :=
  let E := env_of (g_env g) in
  match elab true E false 50 [] (g_ty g) with
  | None => None
  | Some (d, _) =>
      Some (flat_map (fun p => if spec_case (g_errs g) E (g_ty g) d (g_opts g) (snd p) then [] else [fst p])
        (combine (seq 0 (length (g_cases g))) (g_cases g)))
  end.

(** The same for a recursive struct ([ideal_rec], RecSpec.v); the test types have no
    ignored fields, and their other fields are strings. *)
From Verif Require Import Rec RecSpec.
Fixpoint to_rgval (fuel : nat) (fs : rfields) (x : xv) {struct fuel} : gval :=
  match fuel, x with
  | S fuel, XL l =>
      VStruct (map (fun p => match snd (fst p), snd p with
        | RSelf, XP y => VPtr (Some (to_rgval fuel fs y))
        | RSlice, XL l => VSlice (Some (map (to_rgval fuel fs) l, []))
        | RMap _, XM l => VMap (Some (map (fun kx => (match fst kx with XS s => GStr s | _ => GStr [] end, to_rgval fuel fs (snd kx))) l))
        | RSub _, XS s => VStr s
        | k, _ => rzero k
        end) (combine fs l))
  | _, _ => VStruct (rzeros fs)
  end.
Definition rspec_case (fs : rfields) (O : opts) (c : case) : bool :=
  let g := match k_prep c with None => VStruct (rzeros fs) | Some x => to_rgval 12 fs x end in
  match parse (k_text c) with
  | None => false
  | Some v =>
      match ideal_rec (cfg_of [] false) O (k_text c) fs v g, k_want c with
      | VOk g', WOk x => gval_eqb g' (to_rgval 12 fs x)
      | VErr i e _, WErr j e' => err_eqb e e' && match j with Some j => Z.of_nat i =? j | None => true end
      | _, _ => false
      end
  end.
Definition rspec_group (k : rk) (g : group) : list nat :=
  let fs : rfields := [((bs "ID", 0), RSub (DSc SStr)); ((bs "Name", 16), RSub (DSc SStr)); ((bs "Recurse", 32), k)] in
  flat_map (fun p => if rspec_case fs (g_opts g) (snd p) then [] else [fst p]) (combine (seq 0 (length (g_cases g))) (g_cases g)).

(** Concrete executions: a small harness to run the model of NewDecoder and Decode on a
    literal type and text.  Used for witnesses and counterexamples only. *)
From Verif Require Import Base NumSpec Lookup Types AppendType Token FloatLit Heap Machine Parse.
Open Scope Z_scope.

(** ASCII lower case, enough of strings.EqualFold for examples. *)
Definition lower (c : Z) : Z := if (65 <=? c) && (c <=? 90) then c + 32 else c.
Definition ascii_fold (a b : bytes) : bool := bytes_eqb (map lower a) (map lower b).
(** 64-bit system, S = string, unmarshalers that record their argument. *)
Definition wC : cfg :=
  Cfg true false (fun _ _ raw => (raw, None)) (fun _ _ raw => (raw, None)) (fun _ _ => None) ascii_fold.
Definition noenv : env := fun _ => Decl TOther 0 SNone SNone.

(** Memory with a zeroed destination of [size] bytes at block 1. *)
Definition world (size : Z) : heap :=
  Heap 2 (fun b => match b with 0%nat => BMem 0 (fun _ => CZero) | 1%nat => BMem size (fun _ => CZero) | _ => BFree end).
Definition dest : ptr := Some (1%nat, 0).

Definition stack_of (E : env) (T : ty) : list frame :=
  match append true E false 50 [] T with AOk stk => stk | _ => [] end.
Definition tree_of (s : bytes) : jv := match parse s with Some v => v | None => JNull 0 end.

Definition decode_in (O : opts) (E : env) (T : ty) (D : dyn) (s : bytes) (h : heap) : result :=
  Decode wC O (stack_of E T) D s (TOk (flat 0 (tree_of s))) dest h.
(** Decode with a fresh decoder into a zeroed destination. *)
Definition decode (E : env) (T : ty) (s : bytes) : result :=
  decode_in default_opts E T (dyn0 (stack_of E T)) s (world (tsize true E T)).

(** Contents of memory after a call. *)
Definition cell (h : heap) (b : nat) (o : Z) : option cv :=
  match blk h b with BMem size cells => if o <? size then Some (cells o) else None | _ => None end.
Definition after (r : result) : option (Z * option err * heap) :=
  match r with Ret i e _ h => Some (i, e, h) | _ => None end.
Definition obs (r : result) (l : list (nat * Z)) : option (Z * option err * list (option cv)) :=
  match r with Ret i e _ h => Some (i, e, map (fun x => cell h (fst x) (snd x)) l) | _ => None end.

(** Decoder state and memory after a call. *)
Definition dyn_after (r : result) : dyn := match r with Ret _ _ D _ => D | _ => dyn0 [] end.
Definition heap_after (r : result) : heap := match r with Ret _ _ _ h => h | _ => world 0 end.
(** Keys and value blocks of the map in block [b]. *)
Definition map_after (r : result) (b : nat) : option (list (mkey * nat)) :=
  match r with Ret _ _ _ h => match blk h b with BMap l => Some l | _ => None end | _ => None end.

(** The harness is used with types NewDecoder accepts and texts that are JSON. *)
Definition meaningful (E : env) (T : ty) (s : bytes) : Prop :=
  append true E false 50 [] T = AOk (stack_of E T) /\ json_text s (tree_of s).
Lemma meaningful_intro E T s stk v :
  append true E false 50 [] T = AOk stk -> parse s = Some v -> meaningful E T s.
Proof.
  intros H P. unfold meaningful, stack_of, tree_of. rewrite H, P. split; [reflexivity|]. apply parse_sound, P.
Qed.
Ltac meaningful := eapply meaningful_intro; vm_compute; reflexivity.

Definition tInt := TInt (NK true WWord).
Definition tInt8 := TInt (NK true W8).
Definition fld0 (n : String.string) (o : Z) : fld := Fld (bs n) [] o.
Arguments fld0 n%string_scope o%Z_scope.
Definition tagged (n tag : String.string) (o : Z) : fld := Fld (bs n) (bs tag) o.
Arguments tagged n%string_scope tag%string_scope o%Z_scope.

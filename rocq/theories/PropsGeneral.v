(** Properties of Decode that hold for every frame list: C10, C11, C12, C13, C29, C33, C48.

    [Decode C O stk D s tk t h]: [stk] are the frames built by NewDecoder, [D] the state
    of the decoder (arbitrary: any history), [t] the destination pointer, [h] memory. *)
From Verif Require Import Base NumSpec Unescape Lookup Types AppendType Token FloatLit Heap Machine General Alias Parse.
Open Scope Z_scope.

(** ** C10 *)
Theorem C10_nil_destination C O stk D s tk h :
  exists D', Decode C O stk D s tk None h = Ret 0 (Some ENilDest) D' h.
Proof. eexists. reflexivity. Qed.

(** ** C11 *)
Theorem C11_syntax_error_untouched C O stk D s i c a h :
  exists D', Decode C O stk D s (TErr i c) (Some a) h = Ret (Z.of_nat i) (Some (ETok c)) D' h.
Proof. eexists. reflexivity. Qed.

(** ** C12 *)
Lemma positions_bound s v : lexed s v -> forall p, In p (positions v) -> (p < length s)%nat.
Proof.
  assert (Occ : forall i r, occurs s i r -> r <> [] -> (i < length s)%nat).
  { unfold occurs, slice. intros i r H Hr. destruct (Nat.leb _ _ && Nat.leb _ _) eqn:E; [|discriminate].
    destruct r; [congruence|]. cbn [length] in E. lia. }
  induction v using jv_ind'; intros L p Hp; cbn [positions] in Hp;
    try (destruct Hp as [<-|[]]; cbn in L; eapply Occ; [eassumption || apply L|]; try destruct b; discriminate).
  - destruct Hp as [<-|[]]. cbn in L. destruct L as [L J]. eapply Occ; [exact L|].
    destruct J as [? (_ & ? & ? & -> & _)|? (_ & ? & ? & -> & _)]; discriminate.
  - destruct Hp as [<-|[]]. cbn in L. destruct L as [L J]. eapply Occ; [exact L|].
    intros ->. inversion J as [? ? ? Hf Q|? ? ? Hf Q|? ? ? ? Hf Hg Q]; symmetry in Q || idtac;
    match goal with Q : _ = [] |- _ => apply app_eq_nil in Q as [Q _] | Q : [] = _ |- _ => symmetry in Q; apply app_eq_nil in Q as [Q _] end; subst;
    match goal with J : json_int [] |- _ => inversion J as [? (_ & ? & ? & E & _)|]; discriminate end.
  - rewrite lexed_arr in L. destruct L as (L1 & _ & _ & L2). destruct Hp as [<-|Hp]; [eapply Occ; [exact L1|discriminate]|].
    apply in_flat_map in Hp as (x & Hx & Hp). rewrite Forall_forall in *. eauto.
  - rewrite lexed_obj in L. destruct L as (L1 & _ & _ & L2). destruct Hp as [<-|Hp]; [eapply Occ; [exact L1|discriminate]|].
    apply in_flat_map in Hp as (x & Hx & Hp). rewrite Forall_forall in *. destruct (L2 _ Hx) as [[K _] L].
    destruct Hp as [<-|Hp]; [eapply Occ; [exact K|discriminate]|]. eapply H; eauto.
Qed.

(** The index returned with an error of the decoder is the position of a value or of a
    key of the document, hence inside the input; success returns -1. *)
Theorem C12_error_index C O stk D s v a h i e D' h' :
  json_text s v ->
  Decode C O stk D s (TOk (flat 0 v)) (Some a) h = Ret i e D' h' ->
  match e with
  | None => i = -1
  | Some _ => In (Z.to_nat i) (positions v) /\ 0 <= i < Z.of_nat (length s)
  end.
Proof.
  intros J H. apply json_text_lexed in J. unfold Decode in H.
  destruct (run _ _ _ _ _ _ _) as [x|k er x| | |] eqn:R; try discriminate.
  - destruct (d_dest (dy x 0%nat)); try discriminate.
    destruct (_ && _); [injection H as <- <- <- <-; reflexivity|].
    destruct (copy _ _ _ _); try discriminate. injection H as <- <- <- <-. reflexivity.
  - injection H as <- <- <- <-. apply run_err_pos in R. rewrite Nat2Z.id. split; [exact R|].
    apply (positions_bound s v J) in R. lia.
Qed.

(** ** C13 *)
(** The loop of Decode makes at most (tokens + 1) * (frames + 1) iterations: [DLoops] is
    the outcome of a call that makes more. *)
Theorem C13_terminates C O stk D s v t h :
  Decode C O stk D s (TOk (flat 0 v)) t h <> DLoops.
Proof.
  unfold Decode. destruct t as [a|]; [|discriminate].
  pose proof (run_terminates C O stk s (flat 0 v) (flat_ends v 0) (run_fuel stk (flat 0 v)) (St 0 0 (upd_d D 0 (set_dest (Some a))) h)) as T.
  destruct (run _ _ _ _ _ _ _); try discriminate.
  - destruct (d_dest _); [|discriminate]. destruct (_ && _); [discriminate|]. destruct (copy _ _ _ _); discriminate.
  - exfalso. apply T; [|reflexivity]. unfold measure, run_fuel. cbn [si ti]. nia.
Qed.

(** ** C29 *)
Definition recur_frame (f : frame) : bool :=
  match f_ty f with EPtrRecur | ESliceRecur | EMapRecur => true | _ => false end.

Section Rs.
Variables (C : cfg) (O : opts) (stk : list frame) (s : bytes) (toks : list token).
Hypothesis plain : Forall (fun f => recur_frame f = false) stk.

Definition rs_nil (D : dyn) : Prop := forall j, d_rs (D j) = [].
Definition rs_out (o : out) : Prop :=
  match o with Next x => rs_nil (dy x) | Fail _ _ x => rs_nil (dy x) | _ => True end.

Lemma rs_upd D i g : rs_nil D -> (forall d, d_rs d = [] -> d_rs (g d) = []) -> rs_nil (upd_d D i g).
Proof. intros H Hg j. unfold upd_d. destruct (Nat.eqb j i); auto. Qed.
Lemma rs_dests fs p : forall D, rs_nil D -> rs_nil (set_dests D fs p).
Proof.
  unfold set_dests. induction fs as [|f fs IH]; intros D H; cbn; [exact H|]. apply IH, rs_upd; auto.
Qed.
Lemma rs_lift {A} (r : res A) k : (forall a, rs_out (k a)) -> rs_out (lift r k).
Proof. destruct r; cbn; auto. Qed.
Ltac go :=
  repeat match goal with
  | |- rs_out (lift _ _) => apply rs_lift; intros
  | |- rs_out (let '(_, _) := ?d in _) => destruct d eqn:?
  | |- rs_out (match ?d with _ => _ end) => destruct d eqn:?
  | |- rs_out _ => cbn [rs_out dy goto_si goto_ti with_dy with_hp]
  | |- rs_nil (upd_d _ _ _) => apply rs_upd; [|intros; cbn; auto]
  | |- rs_nil (set_dests _ _ _) => apply rs_dests
  end; auto.
Lemma rs_val_end x : rs_nil (dy x) -> rs_out (on_val_end stk toks x).
Proof. intros H. unfold on_val_end. cbv zeta. go. Qed.
Lemma rs_recur x : rs_nil (dy x) -> rs_out (on_recur_obj_end stk toks x).
Proof. intros H. unfold on_recur_obj_end. rewrite H. destruct (fr _ _); [apply rs_val_end, H|exact I]. Qed.
Hint Resolve rs_val_end rs_recur : rs.
Lemma rs_ptr x : rs_nil (dy x) -> rs_out (on_ptr C stk x).
Proof. intros H. unfold on_ptr. cbv zeta. go. Qed.
Lemma rs_json f t x : rs_nil (dy x) -> rs_out (on_json C stk s toks f t x).
Proof. intros H. unfold on_json. cbv zeta. apply rs_lift. intros [raw ti']. go. apply rs_val_end, H. Qed.
Lemma rs_any t x : rs_nil (dy x) -> rs_out (any_tok C stk s toks t x).
Proof. intros H. unfold any_tok. go. apply rs_val_end, H. Qed.

Lemma rs_step x : rs_nil (dy x) -> rs_out (step C O stk s toks x).
Proof.
  intros H. unfold step. destruct (nth_error toks (ti x)) as [t|]; [|exact I].
  destruct (fr stk (si x)) as [f|] eqn:Ef; [|exact I].
  assert (Pf : recur_frame f = false) by (rewrite Forall_forall in plain; apply plain; eapply nth_error_In; exact Ef).
  unfold recur_frame in Pf.
  assert (Scal : rs_out (match f_ty f, tk_ty t with
          | EJSON, _ => on_json C stk s toks f t x
          | EPtr, KNull => lift (null_tok C EPtr (dst (dy x) (si x)) (hp x)) (fun h =>
                             on_val_end stk toks (St (si x) (S (ti x)) (dy x) h))
          | EPtr, _ => on_ptr C stk x
          | _, _ =>
              lift (scalar_tok C s f t (dst (dy x) (si x)) (hp x)) (fun '(h, r) =>
              match r with
              | Some e => Fail (tk_idx t) e (with_hp h x)
              | None => on_val_end stk toks (St (si x) (S (ti x)) (dy x) h)
              end)
          end)).
  { destruct (f_ty f);
    try (apply rs_lift; intros [h r]; destruct r; [cbn; assumption|apply rs_val_end; cbn; assumption]).
    - apply rs_json, H.
    - destruct (tk_ty t); try (apply rs_ptr, H). apply rs_lift. intros h. apply rs_val_end, H. }
  destruct (tk_ty t); try exact Scal; clear Scal.
  - unfold arr_tok. cbv zeta. destruct (f_ty f); try discriminate; try (cbn; exact H);
      try (apply rs_any, H); try (apply rs_ptr, H); try (apply rs_json, H);
      try (apply rs_val_end, H); try (unfold fast_slice; cbv zeta); go;
      apply rs_val_end; exact H.
  - unfold arr_end_tok. cbv zeta. cbn [dy si goto_ti]. rewrite !H. go; apply rs_val_end; exact H.
  - unfold obj_tok. cbv zeta. destruct (f_ty f); try discriminate; try (cbn; exact H);
      try (apply rs_any, H); try (apply rs_ptr, H); try (apply rs_json, H);
      try (apply rs_val_end, H); go; try (apply rs_val_end; exact H); apply rs_recur; exact H.
  - unfold obj_end_tok. cbv zeta. destruct (f_ty f); try discriminate; try (apply rs_val_end; exact H); apply rs_recur; exact H.
  - unfold key_tok. cbv zeta. destruct (f_ty f); try discriminate; go.
Qed.
Lemma rs_run fuel : forall x, rs_nil (dy x) ->
  match run C O stk s toks fuel x with RDone y | RFail _ _ y => rs_nil (dy y) | _ => True end.
Proof.
  induction fuel as [|fuel IH]; intros x H; cbn [run]; destruct (ti x <? length toks)%nat; try exact I; try exact H.
  pose proof (rs_step x H) as S. destruct (step C O stk s toks x); cbn in S; try exact I; [apply IH, S|exact S].
Qed.
End Rs.

(** Pointers held by a decoder: the destination of a frame and the destinations saved in
    its recursion stack. *)
Definition holds_pointer (D : dyn) : Prop :=
  exists j, d_dest (D j) <> None \/ exists r, In r (d_rs (D j)) /\ r_dest r <> None.

(** For frame lists without recursive frames: if the decoder held no recursion state
    before the call (which a fresh decoder does not, and which the call preserves), it
    holds no pointer after the call, however the call ends. *)
Theorem C29_no_pointers_retained_partial C O stk D s tk t h i e D' h' :
  Forall (fun f => recur_frame f = false) stk ->
  rs_nil D ->
  Decode C O stk D s tk t h = Ret i e D' h' ->
  ~ holds_pointer D' /\ rs_nil D'.
Proof.
  intros P R H.
  assert (G : rs_nil D').
  { unfold Decode in H. destruct t as [a|].
    2:{ injection H as <- <- <- <-. exact R. }
    assert (R' : rs_nil (upd_d D 0 (set_dest (Some a)))) by (apply rs_upd; auto).
    destruct tk as [ts|k c].
    2:{ injection H as <- <- <- <-. intros j. cbn. apply R'. }
    pose proof (rs_run C O stk s ts P (run_fuel stk ts) (St 0 0 (upd_d D 0 (set_dest (Some a))) h) R') as Q.
    destruct (run _ _ _ _ _ _ _) as [x|k er x| | |]; try discriminate.
    - destruct (d_dest _); try discriminate. destruct (_ && _).
      + injection H as <- <- <- <-. intros j. cbn. apply Q.
      + destruct (copy _ _ _ _); try discriminate. injection H as <- <- <- <-. intros j. cbn. apply Q.
    - injection H as <- <- <- <-. intros j. cbn. apply Q. }
  split; [|exact G]. intros (j & [Hd|(r & Hr & _)]); [|rewrite G in Hr; exact Hr].
  apply Hd. unfold Decode in H. destruct t as [a|]; [|injection H as <- <- <- <-; reflexivity].
  destruct tk as [ts|k c]; [|injection H as <- <- <- <-; reflexivity].
  destruct (run _ _ _ _ _ _ _) as [x|k er x| | |]; try discriminate.
  - destruct (d_dest (dy x 0%nat)); try discriminate. destruct (_ && _).
    + injection H as <- <- <- <-. reflexivity.
    + destruct (copy _ _ _ _); try discriminate. injection H as <- <- <- <-. reflexivity.
  - injection H as <- <- <- <-. reflexivity.
Qed.

(** ** C33, C48 *)
Lemma strings_kept (good : gstr -> Prop) C O stk D s tk t h i e D' h' :
  good (SOwn []) ->
  (forall i b, slice s i (i + length b) = Some b -> good (mkstr C i b)) ->
  (forall i b k r, slice s i (i + length b) = Some b -> index_bs b = Some k -> Valid b = UOk r -> good (SOwn r)) ->
  all_heap good h ->
  Decode C O stk D s tk t h = Ret i e D' h' ->
  all_heap good h'.
Proof.
  intros G0 G1 G2 Hh H. unfold Decode in H. destruct t as [a|]; [|injection H as <- <- <- <-; exact Hh].
  destruct tk as [ts|k c]; [|injection H as <- <- <- <-; exact Hh].
  pose proof (run_own good C O stk s ts G0 G1 G2 (run_fuel stk ts) (St 0 0 (upd_d D 0 (set_dest (Some a))) h) Hh) as Q.
  destruct (run _ _ _ _ _ _ _) as [x|k er x| | |]; try discriminate.
  - destruct (d_dest (dy x 0%nat)); try discriminate. destruct (_ && _).
    + injection H as <- <- <- <-. exact Q.
    + destruct (copy _ _ _ _) eqn:E; try discriminate. injection H as <- <- <- <-. eapply own_copy; eauto.
  - injection H as <- <- <- <-. exact Q.
Qed.

(** No string in memory refers to the input buffer: no string, no string inside an `any`
    or a map[string]string, and no map key. *)
Definition owned (g : gstr) : Prop := match g with SOwn _ => True | SAlias _ _ => False end.
Definition own_heap : heap -> Prop := all_heap owned.
(** If no string in memory refers to the input buffer before the call, none does after
    it. *)
Theorem C33_bytes_input_not_aliased C O stk D s tk t h i e D' h' :
  c_bytes C = true ->
  own_heap h ->
  Decode C O stk D s tk t h = Ret i e D' h' ->
  own_heap h'.
Proof.
  intros B. apply strings_kept; [exact I| |intros; exact I]. intros j b _. unfold mkstr. rewrite B. exact I.
Qed.

(** [g] is made from the input [s]: it refers to a part of it (string input), or is a
    copy of a part of it ([]byte input), or is the unescaped form of a part that contains
    a backslash, or is empty. *)
Definition made_from (C : cfg) (s : bytes) (g : gstr) : Prop :=
  match g with
  | SAlias i b => c_bytes C = false /\ slice s i (i + length b) = Some b
  | SOwn b => b = [] \/
      (c_bytes C = true /\ exists i, slice s i (i + length b) = Some b) \/
      (exists i e, slice s i (i + length e) = Some e /\ In 92 e /\ Valid e = UOk b)
  end.
Lemma index_in b k : index_bs b = Some k -> In 92 b.
Proof.
  revert k. induction b as [|c b IH]; cbn; intros k; [discriminate|]. destruct (c =? 92) eqn:E; [apply Z.eqb_eq in E; auto|].
  destruct (index_bs b) as [j|]; [|discriminate]. intros _. right. apply (IH j eq_refl).
Qed.
(** Every string in memory after the call was there before it or is made from the input:
    whatever held for all strings before ([old]) holds for the others.  In particular,
    with string input a string without escapes is never copied, and what a string refers
    to is inside the input. *)
Theorem C48_strings_from_input (old : gstr -> Prop) C O stk D s tk t h i e D' h' :
  all_heap old h ->
  Decode C O stk D s tk t h = Ret i e D' h' ->
  all_heap (fun g => old g \/ made_from C s g) h'.
Proof.
  intros Hh. apply strings_kept.
  - right. left. reflexivity.
  - intros j b P. right. unfold mkstr. destruct (c_bytes C) eqn:B; cbn; eauto.
  - intros j b k r P E V. right. right. right. exists j, b. split; [exact P|]. split; [eapply index_in, E|exact V].
  - revert Hh. apply all_heap_mono. auto.
Qed.

(** C38, C39: what Decode does depends on the document, not on its whitespace nor on
    whether the text is a string or a []byte.  For every decoder state (every destination
    type), every memory and every document. *)
From Verif Require Import Base NumSpec StrSpec Unescape Lookup Types Token FloatLit Heap Machine General Dt Dec Control Sim Parse World.
Open Scope Z_scope.

(** ** Specification *)

(** Outcomes of two calls: the same error or success, the same decoder and the same
    memory contents afterwards; [pos] relates the returned indexes. *)
Definition same_result (pos : option err -> Z -> Z -> Prop) (r1 r2 : result) : Prop :=
  match r1, r2 with
  | Ret i e D h, Ret i' e' D' h' => e = e' /\ pos e i i' /\ (forall n, D n = D' n) /\ same_mem h h'
  | DPanics, DPanics => True
  | DCorrupts, DCorrupts => True
  | DLoops, DLoops => True
  | _, _ => False
  end.
(** The same index. *)
Definition same_index (_ : option err) (i i' : Z) : Prop := i = i'.
(** An error at the same token of the two texts. *)
Definition same_token (v v' : jv) (e : option err) (i i' : Z) : Prop :=
  match e with
  | None => i = i'
  | Some _ => exists n t t', nth_error (flat 0 v) n = Some t /\ nth_error (flat 0 v') n = Some t' /\
                             i = Z.of_nat (tk_idx t) /\ i' = Z.of_nat (tk_idx t')
  end.

(** Unmarshalers that do not depend on the whitespace of their argument. *)
Definition whitespace_blind (uj : nat -> bytes -> bytes -> bytes * option nat) : Prop :=
  forall r r' u u', json_text r u -> json_text r' u' -> same_doc u u' -> forall id old, uj id old r = uj id old r'.

(** ** The text of a value inside a document is a text of that value *)

Section Cut.
Variables (s r : bytes) (o : nat).
Hypothesis cut : slice s o (o + length r) = Some r.

Fixpoint shift (v : jv) : jv :=
  match v with
  | JNull i => JNull (i - o) | JBool i b => JBool (i - o) b | JInt i x => JInt (i - o) x
  | JNum i x => JNum (i - o) x | JStr i x => JStr (i - o) x
  | JArr i j l => JArr (i - o) (j - o) (map shift l)
  | JObj i j l => JObj (i - o) (j - o) (map (fun m => ((fst (fst m) - o, snd (fst m))%nat, shift (snd m))) l)
  end.
Lemma shift_same v : same_doc v (shift v).
Proof.
  induction v using jv_ind'; cbn [shift same_doc]; auto.
  - apply (proj2 (same_doc_arr i j l (i - o) (j - o) _)). induction H; cbn; constructor; auto.
  - apply (proj2 (same_doc_obj i j l (i - o) (j - o) _)). induction H; cbn; constructor; auto. split; auto.
Qed.

Lemma cut_occurs i raw : occurs s i raw -> (o <= i)%nat -> (i + length raw <= o + length r)%nat -> occurs r (i - o) raw.
Proof.
  unfold occurs. intros H Ho Hi.
  pose proof cut as K. unfold slice in K, H |- *.
  destruct (_ && _) eqn:E1 in K; [|discriminate]. destruct (_ && _) eqn:E2 in H; [|discriminate].
  injection K as K. injection H as H. replace (o + length r - o)%nat with (length r) in K by lia.
  replace (i + length raw - i)%nat with (length raw) in H by lia.
  match goal with |- (if ?b then _ else _) = _ => replace b with true by (symmetry; lia) end. f_equal. replace (i - o + length raw - (i - o))%nat with (length raw) by lia.
  rewrite <- K at 1. rewrite skipn_firstn_comm, firstn_firstn, skipn_skipn.
  replace (Nat.min (length raw) (length r - (i - o))) with (length raw) by lia.
  replace (i - o + o)%nat with i by lia. exact H.
Qed.
Lemma cut_ws i j : ws s i j -> (o <= i)%nat -> (j <= o + length r)%nat -> ws r (i - o) (j - o).
Proof. intros (x & Hx & -> & Hf) Ho Hj. exists x. split; [apply cut_occurs; assumption|]. split; [lia|exact Hf]. Qed.

Lemma cut_value :
  (forall i v j, value s i v j -> (o <= i)%nat -> (j <= o + length r)%nat -> value r (i - o) (shift v) (j - o)) /\
  (forall i l j, elements s i l j -> (o <= i)%nat -> (j <= o + length r)%nat -> elements r (i - o) (map shift l) (j - o)) /\
  (forall i l j, members s i l j -> (o <= i)%nat -> (j <= o + length r)%nat ->
     members r (i - o) (map (fun m => ((fst (fst m) - o, snd (fst m))%nat, shift (snd m))) l) (j - o)) /\
  (forall i x j, member s i x j -> (o <= i)%nat -> (j <= o + length r)%nat ->
     member r (i - o) ((fst (fst x) - o, snd (fst x))%nat, shift (snd x)) (j - o)).
Proof.
  pose proof (value_lexed s) as (LV & LE & LM & LX).
  apply (json_mutind s
    (fun i v j _ => (o <= i)%nat -> (j <= o + length r)%nat -> value r (i - o) (shift v) (j - o))
    (fun i l j _ => (o <= i)%nat -> (j <= o + length r)%nat -> elements r (i - o) (map shift l) (j - o))
    (fun i l j _ => (o <= i)%nat -> (j <= o + length r)%nat ->
       members r (i - o) (map (fun m => ((fst (fst m) - o, snd (fst m))%nat, shift (snd m))) l) (j - o))
    (fun i x j _ => (o <= i)%nat -> (j <= o + length r)%nat ->
       member r (i - o) ((fst (fst x) - o, snd (fst x))%nat, shift (snd x)) (j - o))); intros;
  repeat match goal with
  | H : value s ?a _ ?b |- _ => lazymatch goal with L : (a < b)%nat |- _ => fail | _ => pose proof (proj2 (LV _ _ _ H)) end
  | H : elements s ?a _ ?b |- _ => lazymatch goal with L : (a <= b)%nat |- _ => fail | _ => pose proof (proj2 (LE _ _ _ H)) end
  | H : members s ?a _ ?b |- _ => lazymatch goal with L : (a <= b)%nat |- _ => fail | _ => pose proof (proj2 (LM _ _ _ H)) end
  | H : member s ?a _ ?b |- _ => lazymatch goal with L : (a <= b)%nat |- _ => fail | _ => pose proof (proj2 (LX _ _ _ H)) end
  | H : ws s ?a ?b |- _ => lazymatch goal with L : (a <= b)%nat |- _ => fail | _ => pose proof (ws_le _ _ _ H) end
  end; cbn [shift map fst snd] in *.
  - replace (i + 4 - o)%nat with (i - o + 4)%nat by lia. constructor. apply cut_occurs; cbn; auto; lia.
  - replace (i + 4 - o)%nat with (i - o + 4)%nat by lia. constructor. apply cut_occurs; cbn; auto; lia.
  - replace (i + 5 - o)%nat with (i - o + 5)%nat by lia. constructor. apply cut_occurs; cbn; auto; lia.
  - replace (i + length r0 - o)%nat with (i - o + length r0)%nat by lia. constructor; auto. apply cut_occurs; auto; lia.
  - replace (i + length r0 - o)%nat with (i - o + length r0)%nat by lia. constructor; auto. apply cut_occurs; auto; lia.
  - replace (i + length r0 + 2 - o)%nat with (i - o + length r0 + 2)%nat by lia. constructor; auto. apply cut_occurs; cbn [length]; rewrite ?app_length; cbn; auto; lia.
  - replace (S j - o)%nat with (S (j - o)) by lia. constructor; [apply cut_occurs; cbn; auto; lia| |apply cut_occurs; cbn; auto; lia].
    replace (S (i - o)) with (S i - o)%nat by lia. apply cut_ws; auto; lia.
  - replace (S j - o)%nat with (S (j - o)) by lia. apply v_arr; [apply cut_occurs; cbn; auto; lia| |apply cut_occurs; cbn; auto; lia].
    replace (S (i - o)) with (S i - o)%nat by lia. auto with arith.
  - replace (S j - o)%nat with (S (j - o)) by lia. constructor; [apply cut_occurs; cbn; auto; lia| |apply cut_occurs; cbn; auto; lia].
    replace (S (i - o)) with (S i - o)%nat by lia. apply cut_ws; auto; lia.
  - replace (S j - o)%nat with (S (j - o)) by lia. apply v_obj; [apply cut_occurs; cbn; auto; lia| |apply cut_occurs; cbn; auto; lia].
    replace (S (i - o)) with (S i - o)%nat by lia. auto with arith.
  - eapply e_one; [apply cut_ws; eauto; lia| |apply cut_ws; eauto; lia]. match goal with H : _ -> _ -> value r _ _ _ |- _ => apply H; lia end.
  - eapply e_cons; [apply cut_ws; eauto; lia| |apply cut_ws; eauto; lia|apply cut_occurs; cbn; eauto; lia|].
    + match goal with H : _ -> _ -> value r _ _ _ |- _ => apply H; lia end.
    + replace (S (n - o)) with (S n - o)%nat by lia. match goal with H : _ -> _ -> elements r _ _ _ |- _ => apply H; lia end.
  - apply m_one. match goal with H : _ -> _ -> member r _ _ _ |- _ => apply H; lia end.
  - eapply m_cons with (n := (n - o)%nat); [match goal with H : _ -> _ -> member r _ _ _ |- _ => apply H; lia end|apply cut_occurs; cbn; eauto; lia|].
    replace (S (n - o)) with (S n - o)%nat by lia. match goal with H : _ -> _ -> members r _ _ _ |- _ => apply H; lia end.
  - eapply m_mem with (c := (c - o)%nat) (d := (d - o)%nat) (m := (m - o)%nat); auto.
    + apply cut_ws; auto; lia.
    + apply cut_occurs; cbn [length]; rewrite ?app_length; cbn; auto; lia.
    + replace (k - o + length r0 + 2)%nat with (k + length r0 + 2 - o)%nat by lia. apply cut_ws; auto; lia.
    + apply cut_occurs; cbn; auto; lia.
    + replace (S (c - o)) with (S c - o)%nat by lia. apply cut_ws; auto; lia.
    + match goal with H : _ -> _ -> value r _ _ _ |- _ => apply H; lia end.
    + apply cut_ws; auto; lia.
Qed.
End Cut.

(** Every value of a document is a value of its text. *)
Definition valued (s : bytes) (v : jv) : Prop := exists i j, value s i v j.
Lemma elements_valued s : forall l i j, elements s i l j -> Forall (valued s) l.
Proof. induction l; intros i j H; inversion H; subst; constructor; eauto; unfold valued; eauto. Qed.
Lemma members_valued s : forall l i j, members s i l j -> Forall (fun x => valued s (snd x)) l.
Proof.
  induction l; intros i j H; inversion H; subst; constructor; eauto;
    match goal with M : member s _ _ _ |- _ => inversion M; subst; unfold valued; cbn; eauto end.
Qed.
Lemma valued_her s : hereditary (valued s).
Proof.
  split; intros i j l (a & b & H); inversion H; subst; try constructor; [eapply elements_valued; eauto|eapply members_valued; eauto].
Qed.

(** The text between two brackets. *)
Lemma composite_text s i j r u : value s i u (S j) -> sub s i (j + 1) = Ok r -> exists u', json_text r u' /\ same_doc u u'.
Proof.
  intros H Hs. pose proof (proj1 (value_lexed s) _ _ _ H) as [_ Lt].
  assert (K : slice s i (i + length r) = Some r).
  { unfold sub in Hs. destruct (slice s i (j + 1)) as [x|] eqn:E; [|discriminate]. injection Hs as <-.
    pose proof E as E'. unfold slice in E'. destruct (_ && _) eqn:B; [|discriminate]. injection E' as E'.
    assert (Ln : length x = (j + 1 - i)%nat) by (rewrite <- E', firstn_length, skipn_length; lia).
    rewrite Ln. replace (i + (j + 1 - i))%nat with (j + 1)%nat by lia. exact E. }
  assert (Ln : length r = (S j - i)%nat).
  { unfold sub, slice in Hs. destruct (_ && _) eqn:B in Hs; [|discriminate]. injection Hs as <-. rewrite firstn_length, skipn_length. lia. }
  exists (shift i u). split; [|apply shift_same].
  exists 0%nat, (length r). split; [|split].
  - exists []. split; [reflexivity|]. split; [reflexivity|constructor].
  - rewrite Ln. replace 0%nat with (i - i)%nat by lia. apply (proj1 (cut_value s r i K)); [exact H|lia|lia].
  - exists []. split; [|split; [cbn; lia|constructor]]. unfold occurs, slice. cbn. rewrite Nat.add_0_r, !Nat.leb_refl, Nat.sub_diag. reflexivity.
Qed.

(** ** From runs to calls *)

Section Calls.
Variables (w b1 b2 : bool) (uj ut : nat -> bytes -> bytes -> bytes * option nat)
  (pf : fbits -> bytes -> option fnum) (fold : bytes -> bytes -> bool).
Variables (O : opts) (stk : list frame) (s1 s2 : bytes) (v1 v2 : jv).

Lemma Decode_rel : same_doc v1 v2 -> lexed s1 v1 -> lexed s2 v2 ->
  ((exists f, In f stk /\ f_ty f = EJSON) -> forall m t1 t2 e1 e2 r1 r2 id old,
    nth_error (flat 0 v1) m = Some t1 -> nth_error (flat 0 v2) m = Some t2 -> tk_ty t1 = KArr \/ tk_ty t1 = KObj ->
    nth_error (flat 0 v1) (tk_end t1) = Some e1 -> nth_error (flat 0 v2) (tk_end t2) = Some e2 ->
    sub s1 (tk_idx t1) (tk_idx e1 + 1) = Ok r1 -> sub s2 (tk_idx t2) (tk_idx e2 + 1) = Ok r2 ->
    uj id old r1 = uj id old r2) ->
  forall D a h1 h2, same_mem h1 h2 ->
  same_result (same_token v1 v2)
    (Decode (Cfg w b1 uj ut pf fold) O stk D s1 (TOk (flat 0 v1)) (Some a) h1)
    (Decode (Cfg w b2 uj ut pf fold) O stk D s2 (TOk (flat 0 v2)) (Some a) h2).
Proof.
  intros Sd L1 L2 J D a h1 h2 H. unfold Decode.
  assert (Fu : run_fuel stk (flat 0 v2) = run_fuel stk (flat 0 v1)).
  { unfold run_fuel. rewrite !flat_length, (same_doc_ntok _ _ Sd). reflexivity. }
  rewrite Fu.
  pose proof (run_rel w b1 b2 uj ut pf fold O stk s1 s2 v1 v2 Sd L1 L2 J (run_fuel stk (flat 0 v1)) 0 0 (upd_d D 0 (set_dest (Some a))) h1 h2 H) as R.
  destruct (run _ _ _ s1 _ _ _) as [x|i e x| | |], (run _ _ _ s2 _ _ _) as [y|j e' y| | |]; cbn in R; try tauto; try exact I.
  - destruct R as (_ & _ & Ed & Eh). rewrite Ed. destruct (d_dest (dy y 0%nat)) as [a'|]; [|exact I].
    destruct (_ && _); [repeat split; apply Eh|].
    pose proof (copy_rel (hp x) (hp y) (Some a) (Some a') (match nth_error stk 0 with Some f => f_size f | None => 0 end) Eh) as Cp.
    destruct (copy (hp x) _ _ _), (copy (hp y) _ _ _); cbn in Cp; try tauto; try exact I. repeat split; apply Cp.
  - destruct R as ((m & t1 & t2 & A1 & A2 & -> & ->) & <- & (_ & _ & Ed & Eh)). rewrite Ed.
    split; [reflexivity|]. split; [|split; [reflexivity|exact Eh]]. exists m, t1, t2. auto.
Qed.
End Calls.

(** ** C38 *)

(** Two texts of the same document, in two memories with the same contents: Decode with
    the same decoder and options returns the same error at the same token, or success,
    and leaves the same decoder and the same memory contents (or neither call returns).
    Types with a method UnmarshalJSON see the text of their value, so the method must
    not depend on whitespace.  The texts may also be of different Go types. *)
Theorem C38_whitespace_independent w b1 b2 uj ut pf fold O stk D s1 s2 v1 v2 a h1 h2 :
  json_text s1 v1 -> json_text s2 v2 -> same_doc v1 v2 ->
  whitespace_blind uj \/ Forall (fun f => f_ty f <> EJSON) stk ->
  same_mem h1 h2 ->
  same_result (same_token v1 v2)
    (Decode (Cfg w b1 uj ut pf fold) O stk D s1 (TOk (flat 0 v1)) (Some a) h1)
    (Decode (Cfg w b2 uj ut pf fold) O stk D s2 (TOk (flat 0 v2)) (Some a) h2).
Proof.
  intros J1 J2 Sd Bl H. pose proof (json_text_lexed _ _ J1) as L1. pose proof (json_text_lexed _ _ J2) as L2.
  apply Decode_rel; try assumption.
  intros (f & Hf & Ef) m t1 t2 e1 e2 r1 r2 id old N1 N2 K E1 E2 R1 R2.
  destruct Bl as [Bl|Nj]; [|rewrite Forall_forall in Nj; destruct (Nj f Hf Ef)].
  assert (V1 : valued s1 v1) by (destruct J1 as (i & j & _ & V & _); exists i, j; exact V).
  assert (V2 : valued s2 v2) by (destruct J2 as (i & j & _ & V & _); exists i, j; exact V).
  destruct (flat_sub2 _ _ (valued_her s1) (valued_her s2) v1 v2 0 m t1 Sd V1 V2 N1 K) as (u1 & u2 & q1 & q2 & S1 & S2 & Su & U1 & U2).
  cbn [Nat.add] in S1, S2.
  assert (G : forall s toks u r t e x, skipn m toks = flat m u ++ r -> valued s u -> nth_error toks m = Some t ->
    tk_ty t = KArr \/ tk_ty t = KObj -> nth_error toks (tk_end t) = Some e -> sub s (tk_idx t) (tk_idx e + 1) = Ok x ->
    exists u', json_text x u' /\ same_doc u u').
  { clear. intros s toks u r t e x E (a & b & V) Ht K Ne R.
    pose proof (nth_skipn0 toks m) as Z. rewrite E, Ht in Z.
    destruct K as [K|K].
    - destruct (flat_head_arr _ _ _ _ Z K) as (i & j & l & ->). rewrite flat_arr in E, Z. cbn in Z. injection Z as <-.
      cbn [app] in E. rewrite <- app_assoc in E. apply at_next in E as (_ & _ & E). apply at_skip in E. rewrite flats_length in E.
      apply at_next in E as (En & _ & _). cbn [tk_end tk_idx] in *. replace (S m + ntoks l)%nat with (S (m + ntoks l)) in * by lia.
      cbn [Nat.add] in *. rewrite En in Ne. injection Ne as <-. cbn in R.
      inversion V; subst; eapply composite_text; eauto.
    - destruct (flat_head_obj _ _ _ _ Z K) as (i & j & l & ->). rewrite flat_obj in E, Z. cbn in Z. injection Z as <-.
      cbn [app] in E. rewrite <- app_assoc in E. apply at_next in E as (_ & _ & E). apply at_skip in E. rewrite flatm_length in E.
      apply at_next in E as (En & _ & _). cbn [tk_end tk_idx] in *. replace (S m + ntokm l)%nat with (S (m + ntokm l)) in * by lia.
      cbn [Nat.add] in *. rewrite En in Ne. injection Ne as <-. cbn in R.
      inversion V; subst; eapply composite_text; eauto. }
  assert (K2 : tk_ty t2 = KArr \/ tk_ty t2 = KObj).
  { pose proof (Forall2_nth _ _ _ (flat_same (Cfg w b1 uj ut pf fold) s1 s2 v1 v2 0 Sd L1 L2) m) as T. rewrite N1, N2 in T.
    destruct T as (Ty & _). rewrite <- Ty. exact K. }
  destruct (G s1 _ u1 q1 t1 e1 r1 S1 U1 N1 K E1 R1) as (u1' & Ja & Sa).
  destruct (G s2 _ u2 q2 t2 e2 r2 S2 U2 N2 K2 E2 R2) as (u2' & Jb & Sb).
  eapply Bl; [exact Ja|exact Jb|].
  apply same_doc_trans with u2; [|exact Sb]. apply same_doc_trans with u1; [apply same_doc_sym, Sa|exact Su].
Qed.

(** struct{ A string; B []int } and three texts of two documents. *)
Definition in_ty : ty := TStruct 1 40 [(fld0 "A" 0, TStr); (fld0 "B" 16, TSlice tInt)].
Definition in_text1 : bytes := bs "{""A"":""x"",""B"":[1,true]}".
Definition in_text2 : bytes := bs " { ""A"" : ""x"" , ""B"" : [ 1 , true ] } ".
Definition in_text3 : bytes := bs "{""A"":""x"", ""B"":[1,2]}".
Definition in_text4 : bytes := bs "{""A"" :""x"",""B"":[1,2 ]}".
Example C38_case :
  json_text in_text1 (tree_of in_text1) /\ json_text in_text2 (tree_of in_text2) /\
  json_text in_text3 (tree_of in_text3) /\ json_text in_text4 (tree_of in_text4) /\
  same_doc (tree_of in_text1) (tree_of in_text2) /\ same_doc (tree_of in_text3) (tree_of in_text4) /\
  Forall (fun f => f_ty f <> EJSON) (stack_of noenv in_ty) /\ length (stack_of noenv in_ty) = 3%nat /\
  (* the error of the first document is at its seventh token, byte 16 and byte 27 *)
  obs (decode noenv in_ty in_text1) [] = Some (16, Some EUnexpected, []) /\
  obs (decode noenv in_ty in_text2) [] = Some (27, Some EUnexpected, []) /\
  obs (decode noenv in_ty in_text3) [(1%nat, 0)] = Some (-1, None, [Some (CStr (SAlias 6 (bs "x")))]) /\
  obs (decode noenv in_ty in_text4) [(1%nat, 0)] = Some (-1, None, [Some (CStr (SAlias 7 (bs "x")))]).
Proof.
  split; [apply parse_sound; vm_compute; reflexivity|]. split; [apply parse_sound; vm_compute; reflexivity|].
  split; [apply parse_sound; vm_compute; reflexivity|]. split; [apply parse_sound; vm_compute; reflexivity|].
  split; [vm_compute; repeat split|]. split; [vm_compute; repeat split|].
  split; [repeat constructor; discriminate|].
  repeat split; vm_compute; reflexivity.
Qed.
(** An unmarshaler that does not look at the whitespace. *)
Example C38_blind : whitespace_blind (fun id old raw => (bs "seen", Some id)).
Proof. intros r r' u u' _ _ _ id old. reflexivity. Qed.

(** ** C39 *)

(** The same text as a string and as a []byte: the same result, and the same memory
    contents. *)
Theorem C39_string_and_bytes_agree w uj ut pf fold O stk D s tk t h1 h2 :
  match tk with TOk ts => exists v, json_text s v /\ ts = flat 0 v | TErr _ _ => True end ->
  same_mem h1 h2 ->
  same_result same_index
    (Decode (Cfg w false uj ut pf fold) O stk D s tk t h1)
    (Decode (Cfg w true uj ut pf fold) O stk D s tk t h2).
Proof.
  intros Htk H. destruct t as [a|]; [|repeat split; apply H].
  destruct tk as [ts|i c]; [|repeat split; apply H]. destruct Htk as (v & J & ->).
  pose proof (json_text_lexed _ _ J) as L.
  assert (R : same_result (same_token v v)
    (Decode (Cfg w false uj ut pf fold) O stk D s (TOk (flat 0 v)) (Some a) h1)
    (Decode (Cfg w true uj ut pf fold) O stk D s (TOk (flat 0 v)) (Some a) h2)).
  { apply Decode_rel; try assumption; [apply same_doc_refl|].
    intros _ m t1 t2 e1 e2 r1 r2 id old N1 N2 K E1 E2 R1 R2. rewrite N1 in N2. injection N2 as <-.
    rewrite E1 in E2. injection E2 as <-. rewrite R1 in R2. injection R2 as <-. reflexivity. }
  unfold same_result in *. destruct (Decode (Cfg w false uj ut pf fold) _ _ _ _ _ _ _), (Decode (Cfg w true uj ut pf fold) _ _ _ _ _ _ _); try tauto.
  destruct R as (-> & P & R). split; [reflexivity|]. split; [|exact R].
  unfold same_token in P. unfold same_index. destruct e0; [|exact P].
  destruct P as (n & t1 & t2 & N1 & N2 & -> & ->). rewrite N1 in N2. injection N2 as <-. reflexivity.
Qed.

Example C39_case :
  json_text in_text3 (tree_of in_text3) /\
  obs (Decode wC default_opts (stack_of noenv in_ty) (dyn0 (stack_of noenv in_ty)) in_text3 (TOk (flat 0 (tree_of in_text3))) dest (world 40))
    [(1%nat, 0)] = Some (-1, None, [Some (CStr (SAlias 6 (bs "x")))]) /\
  obs (Decode (Cfg true true (c_uj wC) (c_ut wC) (c_pf wC) (c_fold wC)) default_opts (stack_of noenv in_ty) (dyn0 (stack_of noenv in_ty)) in_text3 (TOk (flat 0 (tree_of in_text3))) dest (world 40))
    [(1%nat, 0)] = Some (-1, None, [Some (CStr (SOwn (bs "x")))]).
Proof. split; [apply parse_sound; vm_compute; reflexivity|]. split; vm_compute; reflexivity. Qed.

(** C29 once more: in terms of Go types, and for recursive types.

    [holds_pointer] (PropsGeneral.v): some frame of the decoder has a destination or a
    saved destination. *)
From Verif Require Import Base NumSpec StrSpec Types AppendType Token FloatLit Heap Machine Dt Dec Control Root Rec Elab Value Dval Spec Typed Main RecSpec RecRefine RecElab Parse World Elaborate PropsGeneral PropsDecode PropsRec.
Open Scope Z_scope.

(** ** Recursion stacks belong to the targets of recursive frames *)
Section Targets.
Variables (C : cfg) (O : opts) (stk : list frame) (s : bytes) (toks : list token).
(** No recursive frame returns to [j]. *)
Definition not_target (j : nat) : Prop := forall i f, nth_error stk i = Some f -> recur_frame f = true -> f_recur f <> j.
Definition rs_q (D : dyn) : Prop := forall j, not_target j -> d_rs (D j) = [].
Definition rs_qout (o : out) : Prop :=
  match o with Next x => rs_q (dy x) | Fail _ _ x => rs_q (dy x) | _ => True end.

Lemma q_upd D i g : rs_q D -> (not_target i -> d_rs (g (D i)) = []) -> rs_q (upd_d D i g).
Proof. intros H Hg j Nj. unfold upd_d. destruct (Nat.eqb_spec j i) as [->|]; auto. Qed.
Lemma q_upd_same D i g : rs_q D -> (forall d, d_rs (g d) = d_rs d) -> rs_q (upd_d D i g).
Proof. intros H Hg. apply q_upd; [exact H|]. intros N. rewrite Hg. apply H, N. Qed.
Lemma q_dests fs p : forall D, rs_q D -> rs_q (set_dests D fs p).
Proof. unfold set_dests. induction fs as [|f fs IH]; intros D H; cbn; [exact H|]. apply IH, q_upd_same; [exact H|reflexivity]. Qed.
Lemma q_lift {A} (r : res A) k : (forall a, rs_qout (k a)) -> rs_qout (lift r k).
Proof. destruct r; cbn; auto. Qed.
Lemma q_pop D i f top rest : rs_q D -> (not_target i -> False) -> rs_q (pop_rs D i f top rest).
Proof. intros H N. unfold pop_rs. apply q_dests, q_upd; [exact H|]. intros Q. destruct (N Q). Qed.
Lemma full_target D i r rs : rs_q D -> d_rs (D i) = r :: rs -> not_target i -> False.
Proof. intros H E N. rewrite (H i N) in E. discriminate. Qed.
Ltac go :=
  repeat match goal with
  | |- rs_qout (lift _ _) => apply q_lift; intros
  | |- rs_qout (let '(_, _) := ?d in _) => destruct d eqn:?
  | |- rs_qout (match ?d with _ => _ end) => destruct d eqn:?
  | |- rs_qout _ => cbn [rs_qout dy goto_si goto_ti with_dy with_hp]
  | |- rs_q (pop_rs _ _ _ _ _) => apply q_pop; [|eapply full_target; [|eassumption]]
  | |- rs_q (upd_d _ _ _) => apply q_upd_same; [|reflexivity]
  | |- rs_q (set_dests _ _ _) => apply q_dests
  end; auto.
Lemma q_val_end x : rs_q (dy x) -> rs_qout (on_val_end stk toks x).
Proof. intros H. unfold on_val_end. cbv zeta. go. Qed.
Lemma q_recur x : rs_q (dy x) -> rs_qout (on_recur_obj_end stk toks x).
Proof. intros H. unfold on_recur_obj_end. go. apply q_val_end, H. Qed.
Lemma q_ptr x : rs_q (dy x) -> rs_qout (on_ptr C stk x).
Proof. intros H. unfold on_ptr. cbv zeta. go. Qed.
Lemma q_json f t x : rs_q (dy x) -> rs_qout (on_json C stk s toks f t x).
Proof. intros H. unfold on_json. cbv zeta. apply q_lift. intros [raw ti']. go. apply q_val_end, H. Qed.
Lemma q_any t x : rs_q (dy x) -> rs_qout (any_tok C stk s toks t x).
Proof. intros H. unfold any_tok. go. apply q_val_end, H. Qed.
Lemma is_target i f : nth_error stk i = Some f -> recur_frame f = true -> not_target (f_recur f) -> False.
Proof. intros Hi Hf N. exact (N i f Hi Hf eq_refl). Qed.

Lemma q_step x : rs_q (dy x) -> rs_qout (step C O stk s toks x).
Proof.
  intros H. unfold step. destruct (nth_error toks (ti x)) as [t|]; [|exact I].
  destruct (fr stk (si x)) as [f|] eqn:Ef; [|exact I].
  assert (Tg : recur_frame f = true -> not_target (f_recur f) -> False) by (intros Rf; eapply is_target; [exact Ef|exact Rf]).
  assert (Scal : rs_qout (match f_ty f, tk_ty t with
          | EJSON, _ => on_json C stk s toks f t x
          | EPtr, KNull => lift (null_tok C EPtr (dst (dy x) (si x)) (hp x)) (fun h =>
                             on_val_end stk toks (St (si x) (S (ti x)) (dy x) h))
          | EPtr, _ => on_ptr C stk x
          | _, _ =>
              lift (scalar_tok C s f t (dst (dy x) (si x)) (hp x)) (fun '(h, r) =>
              match r with
              | Some e => Fail (tk_idx t) e (with_hp h x)
              | None => on_val_end stk toks (St (si x) (S (ti x)) (dy x) h)
              end)
          end)).
  { destruct (f_ty f);
    try (apply q_lift; intros [h r]; destruct r; [cbn; assumption|apply q_val_end; cbn; assumption]).
    - apply q_json, H.
    - destruct (tk_ty t); try (apply q_ptr, H). apply q_lift. intros h. apply q_val_end, H. }
  assert (Push : recur_frame f = true -> forall g, rs_q (upd_d (dy x) (f_recur f) g)).
  { intros Rf g. apply q_upd; [exact H|]. intros N. destruct (Tg Rf N). }
  unfold recur_frame in *.
  destruct (tk_ty t); try exact Scal; clear Scal.
  - unfold arr_tok. cbv zeta. destruct (f_ty f) eqn:Ety; try (cbn; exact H);
      try (apply q_any, H); try (apply q_ptr, H); try (apply q_json, H);
      try (apply q_val_end, H); try (unfold fast_slice; cbv zeta); go;
      try (apply q_val_end; exact H); cbn [rs_qout dy]; apply Push; reflexivity.
  - unfold arr_end_tok. cbv zeta. cbn [dy si goto_ti]. go; apply q_val_end; exact H.
  - unfold obj_tok. cbv zeta. destruct (f_ty f) eqn:Ety; try (cbn; exact H);
      try (apply q_any, H); try (apply q_ptr, H); try (apply q_json, H);
      try (apply q_val_end, H); go; try (apply q_val_end; exact H); try (apply q_recur; exact H);
      first [apply q_recur | apply q_val_end | idtac]; cbn [dy]; try (apply Push; reflexivity).
  - unfold obj_end_tok. cbv zeta. cbn [dy si goto_ti]. destruct (f_ty f); try (apply q_val_end; exact H); try (apply q_recur; exact H). go. apply q_val_end. exact H.
  - unfold key_tok. cbv zeta. destruct (f_ty f); go.
Qed.
Lemma q_run fuel : forall x, rs_q (dy x) ->
  match run C O stk s toks fuel x with RDone y | RFail _ _ y => rs_q (dy y) | _ => True end.
Proof.
  induction fuel as [|fuel IH]; intros x H; cbn [run]; destruct (ti x <? length toks)%nat; try exact I; try exact H.
  pose proof (q_step x H) as S. destruct (step C O stk s toks x); cbn in S; try exact I; [apply IH, S|exact S].
Qed.
End Targets.

(** A decoder state reached from a new decoder by any calls ([used], Main.v). *)
Lemma cleared_dests C O stk D s tk t h i e D' h' : Decode C O stk D s tk t h = Ret i e D' h' -> forall j, d_dest (D' j) = None.
Proof.
  intros H j. unfold Decode in H. destruct t as [a|]; [|injection H as <- <- <- <-; reflexivity].
  destruct tk as [ts|k c]; [|injection H as <- <- <- <-; reflexivity].
  destruct (run _ _ _ _ _ _ _) as [x|k er x| | |]; try discriminate.
  - destruct (d_dest (dy x 0%nat)); try discriminate. destruct (_ && _).
    + injection H as <- <- <- <-. reflexivity.
    + destruct (copy _ _ _ _); try discriminate. injection H as <- <- <- <-. reflexivity.
  - injection H as <- <- <- <-. reflexivity.
Qed.
Lemma q_decode C O stk D s tk t h i e D' h' : rs_q stk D -> Decode C O stk D s tk t h = Ret i e D' h' -> rs_q stk D'.
Proof.
  intros R H. unfold Decode in H. destruct t as [a|].
  2:{ injection H as <- <- <- <-. exact R. }
  assert (R' : rs_q stk (upd_d D 0 (set_dest (Some a)))) by (apply q_upd_same; [exact R|reflexivity]).
  destruct tk as [ts|k c].
  2:{ injection H as <- <- <- <-. intros j Nj. cbn. apply R', Nj. }
  pose proof (q_run C O stk s ts (run_fuel stk ts) (St 0 0 (upd_d D 0 (set_dest (Some a))) h) R') as Q.
  destruct (run _ _ _ _ _ _ _) as [x|k er x| | |]; try discriminate.
  - destruct (d_dest _); try discriminate. destruct (_ && _).
    + injection H as <- <- <- <-. intros j Nj. cbn. apply Q, Nj.
    + destruct (copy _ _ _ _); try discriminate. injection H as <- <- <- <-. intros j Nj. cbn. apply Q, Nj.
  - injection H as <- <- <- <-. intros j Nj. cbn. apply Q, Nj.
Qed.
Lemma used_q C stk D : used C stk D -> rs_q stk D.
Proof. induction 1 as [|O D s tk t h i e D' h' _ IH E]; [intros j _; reflexivity|]. eapply q_decode; eassumption. Qed.

(** Every type, recursive or not, every document, every history: after a call the only
    pointers a decoder can hold are those saved for a frame that recursive frames return
    to. *)
Theorem C29_only_recursion_retains C O stk D s tk t h i e D' h' :
  used C stk D -> Decode C O stk D s tk t h = Ret i e D' h' ->
  forall j, d_dest (D' j) = None /\
    (d_rs (D' j) <> [] -> exists k f, nth_error stk k = Some f /\ recur_frame f = true /\ f_recur f = j).
Proof.
  intros U H j. split; [exact (cleared_dests _ _ _ _ _ _ _ _ _ _ _ _ H j)|]. intros N.
  pose proof (q_decode _ _ _ _ _ _ _ _ _ _ _ _ (used_q _ _ _ U) H) as Q.
  assert (Dc : {k : nat & {f | nth_error stk k = Some f /\ recur_frame f = true /\ f_recur f = j}} + {not_target stk j}).
  { clear - stk. induction stk as [|f l IH]; [right; intros [|i] g; discriminate|].
    destruct (recur_frame f) eqn:Rf; [destruct (Nat.eq_dec (f_recur f) j) as [Ej|Nj]|].
    - left. exists 0%nat, f. auto.
    - destruct IH as [(k & g & K)|IH]; [left; exists (S k), g; exact K|]. right. intros [|i] g Hg Rg; [injection Hg as <-; exact Nj|exact (IH i g Hg Rg)].
    - destruct IH as [(k & g & K)|IH]; [left; exists (S k), g; exact K|]. right. intros [|i] g Hg Rg; [injection Hg as <-; congruence|exact (IH i g Hg Rg)]. }
  destruct Dc as [(k & f & K)|K]; [exists k, f; exact K|]. destruct (N (Q j K)).
Qed.

Lemma plain_recur f : recur_et (f_ty f) = false -> recur_frame f = false.
Proof. unfold recur_frame. destruct (f_ty f); try discriminate; reflexivity. Qed.
Lemma described_plain w64 stk d : describes w64 stk d -> forall j f, nth_error stk j = Some f -> recur_frame f = false.
Proof.
  intros Ds j f Hj. destruct Ds as (Ln & Fi & _). apply plain_recur. eapply (fits_frames _ _ _ _ Fi j); [|exact Hj].
  assert (j < length stk)%nat by (apply nth_error_Some; congruence). lia.
Qed.
(** A decoder for a type without recursion: no pointer after any call, whatever the
    document and however the call ends. *)
Theorem C29_types_without_recursion C O E dis T d stk D s tk t h i e D' h' :
  decoder_for C E dis T d stk D -> Decode C O stk D s tk t h = Ret i e D' h' -> ~ holds_pointer D'.
Proof.
  intros Df H (j & [Hd|(r & Hr & _)]).
  - apply Hd. eapply cleared_dests, H.
  - destruct (C29_only_recursion_retains _ _ _ _ _ _ _ _ _ _ _ _ (df_used _ _ _ _ _ _ _ Df) H j) as [_ Q].
    destruct Q as (k & f & Hk & Rf & _); [intros E0; rewrite E0 in Hr; exact Hr|].
    rewrite (described_plain _ _ _ (decoder_describes _ _ _ _ _ _ _ Df) _ _ Hk) in Rf. discriminate.
Qed.

(** Recursive types: all recursive frames return to the root. *)
Lemma rfits_targets w64 stk z fs : forall k, rfits_fields w64 stk 0 z k fs ->
  forall j f, (k <= j < k + dlens (shape fs))%nat -> nth_error stk j = Some f -> recur_frame f = true -> f_recur f = 0%nat.
Proof.
  induction fs as [|x r IH]; intros k H j f Hj Hf Rf; cbn [shape map dlens rfits_fields snd] in *; [lia|]. destruct H as [H1 H2].
  destruct (Nat.lt_ge_cases j (k + dlen (erase (snd x)))) as [Lj|Lj]; [|eapply IH; [exact H2| |exact Hf|exact Rf]; fold (shape r) in *; lia].
  destruct (snd x) as [| |kt|d]; cbn [rfit erase dlen fast_et] in *.
  - destruct H1 as (g & A & _ & B & _). assert (j = k) as -> by lia. congruence.
  - destruct H1 as (g & A & _ & B & _). assert (j = k) as -> by lia. congruence.
  - destruct H1 as ((g & (A & _ & B & _) & _) & K). assert (j = k \/ j = S k) as [-> | ->] by lia; [congruence|].
    pose proof (key_frame_ok _ _ _ K f Hf) as [P _]. rewrite (plain_recur _ P) in Rf. discriminate.
  - destruct H1 as [F _]. pose proof (fits_frames _ _ _ _ F j ltac:(lia) f Hf) as [P _]. rewrite (plain_recur _ P) in Rf. discriminate.
Qed.
Lemma rdescribed_targets w64 stk z fs : rdescribes w64 stk z fs -> forall j, j <> 0%nat -> not_target stk j.
Proof.
  intros (Ln & Rf & f0 & (H0 & T0 & _) & _) j Nj i f Hi Ri Q. apply Nj. rewrite <- Q.
  destruct i as [|i]; [exfalso; rewrite H0 in Hi; injection Hi as <-; unfold recur_frame in Ri; rewrite T0 in Ri; discriminate|].
  eapply (rfits_targets _ _ _ _ 1%nat Rf (S i)); [|exact Hi|exact Ri].
  assert (S i < length stk)%nat by (apply nth_error_Some; congruence). lia.
Qed.
Lemma rused_used C fs stk D : rused C fs stk D -> used C stk D.
Proof. induction 1; [constructor|econstructor; eassumption|econstructor; eassumption|econstructor; eassumption]. Qed.
(** A decoder for a recursive struct after a call that succeeds, or that fails before
    anything is decoded (no destination, not JSON): no pointer.  Missing: calls that fail
    inside the document (C29_refuted). *)
Theorem C29_recursive_partial C O E dis T z fs stk D s v a h i D' h' :
  rdecoder_for C E dis T z fs stk D -> json_text s v -> rctl C O fs v ->
  Decode C O stk D s (TOk (flat 0 v)) (Some a) h = Ret i None D' h' -> ~ holds_pointer D'.
Proof.
  intros Df J Ct H (j & [Hd|(r & Hr & _)]); [apply Hd; eapply cleared_dests, H|].
  pose proof (rdecoder_describes _ _ _ _ _ _ _ _ Df) as Ds. pose proof (rdf_used _ _ _ _ _ _ _ _ Df) as U.
  assert (R : ready stk D') by (eapply (rused_ready C z fs stk D' Ds); eapply ru_ok; eassumption).
  destruct (Nat.eq_dec j 0) as [->|Nj]; [destruct R as (_ & R & _); rewrite R in Hr; exact Hr|].
  pose proof (q_decode _ _ _ _ _ _ _ _ _ _ _ _ (used_q _ _ _ (rused_used _ _ _ _ U)) H j (rdescribed_targets _ _ _ _ Ds j Nj)) as Q.
  rewrite Q in Hr. exact Hr.
Qed.
Theorem C29_recursive_refused C O E dis T z fs stk D s tk t h i e D' h' :
  rdecoder_for C E dis T z fs stk D -> (t = None \/ exists k c, tk = TErr k c) ->
  Decode C O stk D s tk t h = Ret i e D' h' -> ~ holds_pointer D'.
Proof.
  intros Df Or H (j & [Hd|(r & Hr & _)]); [apply Hd; eapply cleared_dests, H|].
  pose proof (rdecoder_describes _ _ _ _ _ _ _ _ Df) as Ds. pose proof (rdf_used _ _ _ _ _ _ _ _ Df) as U.
  assert (R : ready stk D').
  { eapply (rused_ready C z fs stk D' Ds). destruct Or as [->|(k & c & ->)]; [eapply ru_nil; eassumption|eapply ru_ill; eassumption]. }
  destruct (Nat.eq_dec j 0) as [->|Nj]; [destruct R as (_ & R & _); rewrite R in Hr; exact Hr|].
  pose proof (q_decode _ _ _ _ _ _ _ _ _ _ _ _ (used_q _ _ _ (rused_used _ _ _ _ U)) H j (rdescribed_targets _ _ _ _ Ds j Nj)) as Q.
  rewrite Q in Hr. exact Hr.
Qed.

(** Cases: the struct of C15 and the tree of C26; the hypotheses hold and the calls return. *)
Example C29_types_case :
  decoder_for wC plain_env false ex_ty ex_dt ex_stk (dyn0 ex_stk) /\
  exists D' h', Decode wC default_opts ex_stk (dyn0 ex_stk) ex_text (TOk (flat 0 ex_doc)) dest (world 48) = Ret (-1) None D' h' /\ ~ holds_pointer D'.
Proof.
  split; [exact ex_decoder|]. destruct C15_case as (g & _ & D' & h' & F' & Q & _). exists D', h'. split; [exact Q|].
  exact (C29_types_without_recursion wC default_opts plain_env false ex_ty ex_dt ex_stk (dyn0 ex_stk) ex_text (TOk (flat 0 ex_doc)) dest (world 48) (-1) None D' h' ex_decoder Q).
Qed.
Example C29_recursive_case :
  exists D' h', Decode wC default_opts node_stk (dyn0 node_stk) node_text (TOk (flat 0 node_doc)) dest (world 48) = Ret (-1) None D' h' /\ ~ holds_pointer D'.
Proof.
  destruct C26_case as (D' & h' & F' & Q & _). exists D', h'. split; [exact Q|].
  assert (Ct : rctl wC default_opts node_fs node_doc) by (apply rctlb_spec; vm_compute; reflexivity).
  exact (C29_recursive_partial wC default_opts E_node false (TNamed 0) 48 node_fs node_stk (dyn0 node_stk) node_text node_doc (1%nat, 0) (world 48) (-1) D' h' node_decoder node_json Ct Q).
Qed.

(** ** C28 for recursive types *)
(** Two decoders for the same recursive struct type with different histories of calls that
    succeeded or were refused: the same document gives the same index, error and value.
    Missing: calls that failed inside a document (C28_refuted). *)
Theorem C28_recursive_partial C O E dis T z fs stk D1 D2 s v a1 a2 h1 h2 g F1 F2 :
  rdecoder_for C E dis T z fs stk D1 -> rdecoder_for C E dis T z fs stk D2 -> json_text s v -> rctl C O fs v -> rsound C O fs v ->
  rvariable C z fs h1 a1 g F1 -> rvariable C z fs h2 a2 g F2 ->
  exists i e D1' D2' h1' h2' g' F1' F2',
    Decode C O stk D1 s (TOk (flat 0 v)) (Some a1) h1 = Ret i e D1' h1' /\ rvariable C z fs h1' a1 g' F1' /\
    Decode C O stk D2 s (TOk (flat 0 v)) (Some a2) h2 = Ret i e D2' h2' /\ rvariable C z fs h2' a2 g' F2'.
Proof.
  intros Df1 Df2 J Ct S V1 V2.
  pose proof (C26_recursive_partial C O E dis T z fs stk D1 s v a1 h1 g F1 Df1 J Ct S V1) as Q1.
  pose proof (C26_recursive_partial C O E dis T z fs stk D2 s v a2 h2 g F2 Df2 J Ct S V2) as Q2.
  destruct (ideal_rec C O s fs v g) as [g'|i e g'|]; [| |contradiction];
    destruct Q1 as (D1' & h1' & F1' & Q1 & V1' & _); destruct Q2 as (D2' & h2' & F2' & Q2 & V2' & _); eexists _, _, D1', D2', h1', h2', g', F1', F2'; eauto.
Qed.
(** Case: the decoder of C26 after the call of C26_case. *)
Example C28_recursive_case : exists D' h',
  Decode wC default_opts node_stk (dyn0 node_stk) node_text (TOk (flat 0 node_doc)) dest (world 48) = Ret (-1) None D' h' /\
  rdecoder_for wC E_node false (TNamed 0) 48 node_fs node_stk D'.
Proof.
  destruct C26_case as (D' & h' & F' & Q & _). exists D', h'. split; [exact Q|].
  assert (Ct : rctl wC default_opts node_fs node_doc) by (apply rctlb_spec; vm_compute; reflexivity).
  destruct node_decoder as [S R L N U]. split; [exact S|exact R|exact L|exact N|].
  exact (ru_ok wC node_fs node_stk default_opts (dyn0 node_stk) node_text node_doc (1%nat, 0) (world 48) (-1) D' h' U node_json Ct Q).
Qed.

(** Where an error of the state machine comes from: for every decoder state and stream. *)
From Verif Require Import Base NumSpec Atoi JsonNum Unescape Lookup Types Token FloatLit Heap Machine General.
Open Scope Z_scope.

(** The values a document consists of. *)
Fixpoint parts (v : jv) : list jv :=
  v :: match v with
       | JArr _ _ l => flat_map parts l
       | JObj _ _ l => flat_map (fun m => parts (snd m)) l
       | _ => []
       end.
Lemma parts_self v : In v (parts v). Proof. destruct v; left; reflexivity. Qed.

(** Every token that is neither a key nor an end is the start of the stream of a part. *)
Definition starts (t : token) : bool := match tk_ty t with KArrEnd | KObjEnd | KKey => false | _ => true end.
Lemma flat_part v : forall k m t, nth_error (flat k v) m = Some t -> starts t = true ->
  exists u rest, skipn m (flat k v) = flat (k + m) u ++ rest /\ In u (parts v).
Proof.
  assert (B : forall k m t w, nth_error (flat k w) m = Some t -> ntok w = 1%nat ->
    exists u rest, skipn m (flat k w) = flat (k + m) u ++ rest /\ In u (parts w)).
  { intros k m t w Hm N. exists w, []. assert (m = 0)%nat as ->.
    { assert (m < length (flat k w))%nat by (apply nth_error_Some; congruence). rewrite flat_length in H. lia. }
    rewrite Nat.add_0_r, app_nil_r. split; [reflexivity|apply parts_self]. }
  induction v using jv_ind'; intros k m t Hm Ht; try (eapply B; [exact Hm|reflexivity]).
  - destruct m as [|m].
    { exists (JArr i j l), []. rewrite Nat.add_0_r, app_nil_r. split; [reflexivity|apply parts_self]. }
    rewrite flat_arr in *. cbn [nth_error skipn] in *. cbn [parts].
    assert (G : forall k m, nth_error (flats k l ++ [Tok KArrEnd j (Nat.pred k) 0]) m = Some t ->
      exists u rest, skipn m (flats k l ++ [Tok KArrEnd j (Nat.pred k) 0]) = flat (k + m) u ++ rest
                     /\ In u (flat_map parts l)).
    { clear Hm m k. intros k. remember (Tok KArrEnd j (Nat.pred k) 0) as te eqn:Q. assert (Hte : tk_ty te = KArrEnd) by (subst; reflexivity). clear Q.
      revert k te Hte. induction H as [|x l Hx Hl IH]; intros k te Hte m Hm; cbn [flats flat_map app] in *.
      - destruct m as [|[|]]; cbn in Hm; try discriminate. injection Hm as Hm. rewrite <- Hm in Ht. unfold starts in Ht. rewrite Hte in Ht. discriminate.
      - rewrite <- app_assoc in *. destruct (Nat.lt_ge_cases m (ntok x)) as [L|L].
        + rewrite nth_error_app1 in Hm by (rewrite flat_length; lia).
          destruct (Hx _ _ _ Hm Ht) as (u & rest & E & I). exists u, (rest ++ flats (k + ntok x) l ++ [te]).
          rewrite skipn_app, E, flat_length. replace (m - ntok x)%nat with 0%nat by lia. cbn [skipn].
          rewrite <- app_assoc. split; [reflexivity|]. apply in_or_app; left; exact I.
        + rewrite nth_error_app2 in Hm by (rewrite flat_length; lia). rewrite flat_length in Hm.
          destruct (IH (k + ntok x)%nat te Hte _ Hm) as (u & rest & E & I). exists u, rest.
          rewrite skipn_app, flat_length, skipn_all2 by (rewrite flat_length; lia). cbn [app]. rewrite E.
          replace (k + ntok x + (m - ntok x))%nat with (k + m)%nat by lia. split; [reflexivity|]. apply in_or_app; right; exact I. }
    destruct (G _ _ Hm) as (u & rest & E & I). cbn [Nat.pred] in E. exists u, rest.
    replace (k + S m)%nat with (S k + m)%nat by lia. split; [exact E|]. right; exact I.
  - destruct m as [|m].
    { exists (JObj i j l), []. rewrite Nat.add_0_r, app_nil_r. split; [reflexivity|apply parts_self]. }
    rewrite flat_obj in *. cbn [nth_error skipn] in *. cbn [parts].
    assert (G : forall k m, nth_error (flatm k l ++ [Tok KObjEnd j (Nat.pred k) 0]) m = Some t ->
      exists u rest, skipn m (flatm k l ++ [Tok KObjEnd j (Nat.pred k) 0]) = flat (k + m) u ++ rest
                     /\ In u (flat_map (fun m => parts (snd m)) l)).
    { clear Hm m k. intros k. remember (Tok KObjEnd j (Nat.pred k) 0) as te eqn:Q. assert (Hte : tk_ty te = KObjEnd) by (subst; reflexivity). clear Q.
      revert k te Hte. induction H as [|x l Hx Hl IH]; intros k te Hte m Hm; cbn [flatm flat_map app] in *.
      - destruct m as [|[|]]; cbn in Hm; try discriminate. injection Hm as Hm. rewrite <- Hm in Ht. unfold starts in Ht. rewrite Hte in Ht. discriminate.
      - rewrite <- app_assoc in *. destruct m as [|m]; cbn [nth_error skipn] in *.
        { injection Hm as <-. discriminate. }
        destruct (Nat.lt_ge_cases m (ntok (snd x))) as [L|L].
        + rewrite nth_error_app1 in Hm by (rewrite flat_length; lia).
          destruct (Hx _ _ _ Hm Ht) as (u & rest & E & I). exists u, (rest ++ flatm (S k + ntok (snd x)) l ++ [te]).
          rewrite skipn_app, E, flat_length. replace (m - ntok (snd x))%nat with 0%nat by lia. cbn [skipn].
          rewrite <- app_assoc. replace (k + S m)%nat with (S k + m)%nat by lia. split; [reflexivity|].
          apply in_or_app; left; exact I.
        + rewrite nth_error_app2 in Hm by (rewrite flat_length; lia). rewrite flat_length in Hm.
          destruct (IH (S k + ntok (snd x))%nat te Hte _ Hm) as (u & rest & E & I). exists u, rest.
          rewrite skipn_app, flat_length, skipn_all2 by (rewrite flat_length; lia). cbn [app]. rewrite E.
          replace (S k + ntok (snd x) + (m - ntok (snd x)))%nat with (k + S m)%nat by lia. split; [reflexivity|].
          apply in_or_app; right; exact I. }
    destruct (G _ _ Hm) as (u & rest & E & I). cbn [Nat.pred] in E. exists u, rest.
    replace (k + S m)%nat with (S k + m)%nat by lia. split; [exact E|]. right; exact I.
Qed.

Section Why.
Variables (C : cfg) (O : opts) (stk : list frame) (s : bytes) (toks : list token).

(** The text handed to UnmarshalJSON for the value at token [t]. *)
Definition range_of (t : token) : res bytes :=
  match tk_ty t with
  | KObj | KArr => match nth_error toks (tk_end t) with Some te => sub s (tk_idx t) (tk_idx te + 1) | None => Pan end
  | _ => raw_of s t
  end.

(** The circumstances of an error raised for token [t] by frame [f]. *)
Definition why (t : token) (f : frame) (e : err) : Prop :=
  match e with
  | EUnexpected => True
  | EUnknownField => tk_ty t = KKey /\ o_unknown O = true /\ (f_ty f = EStruct \/ f_ty f = EStructRecur) /\
      exists kb key, body_of s t = Ok kb /\ (if o_nounescape O then Ok kb else unesc kb) = Ok key /\
        lookup_field (c_fold C) (o_nofold O) (f_fields f) key = None
  | EOverflow => tk_ty t = KInt /\ exists k raw n, (f_ty f = EInt k \/ f_ty f = ESliceInt k) /\ raw_of s t = Ok raw /\
      (nk_signed k = false -> minus raw = false) /\ atoi (c_w64 C) k raw = Some (n, true)
  | EParse => exists b txt, parse_float (c_pf C) b txt = None /\
      ((tk_ty t = KInt \/ tk_ty t = KNum) /\ raw_of s t = Ok txt /\ (f_ty f = EF b \/ f_ty f = ESliceF b \/ f_ty f = EAny /\ b = B64) \/
       tk_ty t = KStr /\ body_of s t = Ok txt /\ f_ty f = EFS b)
  | EUser c => exists id old arg new, f_rt f = Some (RNamed id) /\
      (f_ty f = EText /\ (tk_ty t = KStr \/ tk_ty t = KKey) /\ c_ut C id old arg = (new, Some c) /\
         (exists b, body_of s t = Ok b /\ unesc b = Ok arg) \/
       f_ty f = EJSON /\ starts t = true /\ c_uj C id old arg = (new, Some c) /\ range_of t = Ok arg)
  | ENilDest | ETok _ => False
  end.

Lemma int_of_tok_why k raw e : int_of_tok C k raw = Ok (inr e) ->
  e = EUnexpected \/ e = EOverflow /\ (nk_signed k = false -> minus raw = false) /\ exists n, atoi (c_w64 C) k raw = Some (n, true).
Proof.
  unfold int_of_tok. destruct (negb (nk_signed k) && minus raw) eqn:B; [intros H; injection H as <-; auto|].
  destruct (atoi (c_w64 C) k raw) as [[n []]|]; try discriminate. intros H; injection H as <-. right.
  split; [reflexivity|]. split; [|eauto]. intros Hk. rewrite Hk in B. exact B.
Qed.
Lemma int_of_str_why k tv e : int_of_str C k tv = Ok (inr e) -> e = EUnexpected.
Proof.
  unfold int_of_str. destruct (ReadNumber tv) as [[? []]|]; try discriminate;
  repeat (match goal with |- (if ?b then _ else _) = _ -> _ => destruct b
          | |- match ?b with _ => _ end = _ -> _ => destruct b end); congruence.
Qed.
Lemma float_of_int_why b raw : float_of_int_tok C b raw = None -> parse_float (c_pf C) b raw = None.
Proof. unfold float_of_int_tok. destruct (_ <? _); [discriminate|auto]. Qed.
Lemma sok_none r h e : sok r = Ok (h, Some e) -> False.
Proof. unfold sok. destruct r; cbn; discriminate. Qed.
Lemma serr_some h' e' h e : serr h' e' = Ok (h, Some e) -> e = e'.
Proof. unfold serr. congruence. Qed.
Lemma user_id_rt f id : user_id f = Ok id -> f_rt f = Some (RNamed id).
Proof. unfold user_id. destruct (f_rt f) as [[]|]; congruence. Qed.

Ltac fin := exfalso; eapply sok_none; eassumption.
Ltac unexp := match goal with H : serr _ _ = _ |- _ => apply serr_some in H as -> end.

Lemma scalar_why f t p h h' e : scalar_tok C s f t p h = Ok (h', Some e) -> why t f e.
Proof.
  unfold scalar_tok. intros H. destruct (tk_ty t) eqn:K; try fin.
  - unfold bool_tok in H. destruct (f_ty f); try fin; unexp; exact I.
  - unfold bool_tok in H. destruct (f_ty f); try fin; unexp; exact I.
  - destruct (raw_of s t) as [raw| |] eqn:R; cbn [rbind] in H; try discriminate. unfold int_tok in H.
    destruct (f_ty f) eqn:T; try (unexp; exact I); try fin.
    + destruct (parse_float (c_pf C) B64 raw) eqn:P; [fin|]. unexp. exists B64, raw. split; [exact P|]. left. split; [rewrite K; auto|]. rewrite T. auto.
    + destruct (float_of_int_tok C b raw) eqn:P; [fin|]. unexp. apply float_of_int_why in P. exists b, raw. split; [exact P|]. left. split; [rewrite K; auto|]. rewrite T. auto.
    + destruct (int_of_tok C k raw) as [[n|e']| |] eqn:E; cbn [rbind] in H; try discriminate; [fin|]. unexp.
      apply int_of_tok_why in E as [->|(-> & A & n & B)]; [exact I|]. cbn. split; [exact K|]. exists k, raw, n. rewrite T. auto.
  - destruct (raw_of s t) as [raw| |] eqn:R; cbn [rbind] in H; try discriminate. unfold num_tok in H.
    destruct (f_ty f) eqn:T; try (unexp; exact I); try fin.
    + destruct (parse_float (c_pf C) B64 raw) eqn:P; [fin|]. unexp. exists B64, raw. split; [exact P|]. left. split; [rewrite K; auto|]. rewrite T. auto.
    + destruct (parse_float (c_pf C) b raw) eqn:P; [fin|]. unexp. exists b, raw. split; [exact P|]. left. split; [rewrite K; auto|]. rewrite T. auto.
  - destruct (body_of s t) as [tv| |] eqn:R; cbn [rbind] in H; try discriminate. unfold str_tok in H.
    destruct (f_ty f) eqn:T; try (unexp; exact I);
      try (destruct (unesc_str C _ _); cbn [rbind] in H; try discriminate; fin).
    + destruct (ReadNumber tv) as [[? []]|]; try discriminate; try fin. unexp; exact I.
    + destruct (user_id f) as [id| |] eqn:U; cbn [rbind] in H; try discriminate. apply user_id_rt in U.
      destruct (unesc tv) as [tb| |] eqn:V; cbn [rbind] in H; try discriminate.
      destruct (load_user h p (f_size f)) as [old| |]; cbn [rbind] in H; try discriminate.
      destruct (c_ut C id old tb) as [new er] eqn:Ut. destruct (store_user _ _ _ _); cbn [rbind] in H; try discriminate.
      injection H as <- H. destruct er as [c|]; [|discriminate]. injection H as <-.
      exists id, old, tb, new. split; [exact U|]. left. rewrite K. eauto 8.
    + destruct (bytes_eqb _ _); [fin|]. destruct (bytes_eqb _ _); [fin|]. unexp; exact I.
    + destruct (quoted_inner tv); [fin|]. unexp; exact I.
    + destruct (ReadNumber tv) as [[? []]|]; try discriminate; try (unexp; exact I);
      (destruct (parse_float (c_pf C) b tv) eqn:P; [fin|]; unexp; exists b, tv; split; [exact P|]; right; auto).
    + destruct (int_of_str C k tv) as [[n|e']| |] eqn:E; cbn [rbind] in H; try discriminate; [fin|]. unexp.
      apply int_of_str_why in E as ->. exact I.
Qed.

Lemma fast_elem_why ty t e f : fast_elem C s ty t = Ok (inr e) -> f_ty f = ty -> why t f e.
Proof.
  unfold fast_elem. intros H T. destruct ty; try discriminate; destruct (tk_ty t) eqn:K; try discriminate; try (injection H as <-; exact I).
  - destruct (body_of s t); cbn [rbind] in H; try discriminate. destruct (unesc_str C _ _); cbn [rbind] in H; discriminate.
  - destruct (raw_of s t) as [raw| |] eqn:R; cbn [rbind] in H; try discriminate.
    destruct (int_of_tok C k raw) as [[n|e']| |] eqn:E; cbn [rbind] in H; try discriminate. injection H as <-.
    apply int_of_tok_why in E as [->|(-> & A & n & B)]; [exact I|]. cbn. split; [exact K|]. exists k, raw, n. rewrite T. auto.
  - destruct (raw_of s t) as [raw| |] eqn:R; cbn [rbind] in H; try discriminate.
    destruct (float_of_int_tok C b raw) eqn:P; try discriminate. injection H as <-. apply float_of_int_why in P.
    exists b, raw. split; [exact P|]. left. rewrite K, T. auto.
  - destruct (raw_of s t) as [raw| |] eqn:R; cbn [rbind] in H; try discriminate.
    destruct (parse_float (c_pf C) b raw) eqn:P; try discriminate. injection H as <-.
    exists b, raw. split; [exact P|]. left. rewrite K, T. auto.
Qed.
Lemma fast_loop_why e a n : forall ts i h h' j er, fast_loop C s e a n i ts h = Ok (h', Some (j, er)) ->
  exists t, In t ts /\ tk_idx t = j /\ fast_elem C s e t = Ok (inr er).
Proof.
  induction ts as [|t ts IH]; intros i h h' j er H; cbn [fast_loop] in H; [discriminate|].
  destruct (fast_elem C s e t) as [[[v sz]|er']| |] eqn:E; cbn [rbind] in H; try discriminate.
  - destruct (n <=? i); [discriminate|]. destruct (store _ _ _ _); cbn [rbind] in H; try discriminate.
    destruct (IH _ _ _ _ _ H) as (t' & A & B). exists t'. split; [right; exact A|exact B].
  - injection H as <- <- <-. exists t. split; [left; reflexivity|auto].
Qed.
Lemma mss_why : forall n ts acc j er, (length ts <= n)%nat -> mss_loop C s ts acc = Ok (inr (j, er)) ->
  er = EUnexpected /\ exists t, In t ts /\ tk_idx t = j.
Proof.
  induction n as [|n IH]; intros [|k [|v ts]] acc j er L H; cbn [mss_loop length] in *; try discriminate; try lia.
  assert (G : forall acc, mss_loop C s ts acc = Ok (inr (j, er)) -> er = EUnexpected /\ exists t, In t (k :: v :: ts) /\ tk_idx t = j).
  { intros acc' H'. apply IH in H' as (A & t & B & E); [|lia]. split; [exact A|]. exists t. split; [right; right; exact B|exact E]. }
  destruct (tk_ty v); try (injection H as <- <-; split; [reflexivity|]; exists v; split; [right; left; reflexivity|reflexivity]);
  repeat match type of H with rbind ?r _ = _ => destruct r; cbn [rbind] in H; try discriminate end; eauto.
Qed.

Ltac inv_fail :=
  repeat match goal with
  | H : Next _ = Fail _ _ _ |- _ => discriminate
  | H : Fail _ _ _ = Fail _ _ _ |- _ => injection H as ? ? ?; subst
  | H : lift _ _ = Fail _ _ _ |- _ => apply lift_fail in H as (? & ? & ?)
  | H : (let '(_, _) := ?p in _) = Fail _ _ _ |- _ => destruct p eqn:?
  | H : match ?d with _ => _ end = Fail _ _ _ |- _ => destruct d eqn:?; try discriminate
  end.

Lemma on_json_why f t x i e y : starts t = true -> f_ty f = EJSON -> on_json C stk s toks f t x = Fail i e y -> i = tk_idx t /\ why t f e.
Proof.
  intros St T H. unfold on_json in H. cbv zeta in H. apply lift_fail in H as ([raw ti'] & R & H).
  apply lift_fail in H as (id & U & H). apply lift_fail in H as (old & _ & H). destruct (c_uj C id old raw) as [new er] eqn:J.
  apply lift_fail in H as (h & _ & H). destruct er as [c|]; [|exfalso; eapply on_val_end_nofail; eauto].
  injection H as <- <- <-. split; [reflexivity|]. exists id, old, raw, new. split; [apply user_id_rt, U|]. right.
  repeat split; auto. unfold range_of.
  destruct (tk_ty t) eqn:K; try (destruct (raw_of s t); cbn [rbind] in R; try discriminate; injection R as <- <-; reflexivity);
    (destruct (nth_error toks (tk_end t)) as [te|]; [|discriminate];
     destruct (sub s _ _); cbn [rbind] in R; try discriminate; injection R as <- <-; reflexivity).
Qed.
Lemma any_tok_why t x i e y : any_tok C stk s toks t x = Fail i e y -> i = tk_idx t /\ e = EUnexpected.
Proof.
  intros H. unfold any_tok in H. inv_fail; auto. exfalso; eapply on_val_end_nofail; eauto.
Qed.

Lemma map_key_why fk kb i e t : map_key C fk kb i = Ok (inr e) -> tk_ty t = KKey -> body_of s t = Ok kb -> why t fk e.
Proof.
  unfold map_key. intros H K B. destruct (f_ty fk) eqn:T; try discriminate.
  - destruct (user_id fk) as [id| |] eqn:U; cbn [rbind] in H; try discriminate. apply user_id_rt in U.
    destruct (unesc kb) as [tb| |] eqn:V; cbn [rbind] in H; try discriminate.
    destruct (c_ut C id [] tb) as [new er] eqn:Ut. injection H as H. destruct er as [c|]; [|discriminate]. injection H as <-.
    exists id, [], tb, new. split; [exact U|]. left. rewrite K. eauto 8.
  - destruct (unesc_str C _ _); cbn [rbind] in H; discriminate.
  - destruct (int_of_str C k kb) as [[n|e']| |] eqn:E; cbn [rbind] in H; try discriminate. injection H as <-.
    apply int_of_str_why in E as ->. exact I.
Qed.

Lemma step_why x i e y : step C O stk s toks x = Fail i e y ->
  exists m t f, nth_error toks m = Some t /\ In f stk /\ tk_idx t = i /\ why t f e.
Proof.
  intros H. unfold step in H.
  destruct (nth_error toks (ti x)) as [t|] eqn:Et; [|discriminate].
  destruct (fr stk (si x)) as [f|] eqn:Ef; [|discriminate].
  assert (Hf : In f stk) by (eapply nth_error_In; exact Ef).
  assert (N1 := on_val_end_nofail stk toks). assert (N2 := on_recur_nofail stk toks). assert (N3 := on_ptr_nofail C stk).
  assert (G : i = tk_idx t /\ why t f e -> exists m t f, nth_error toks m = Some t /\ In f stk /\ tk_idx t = i /\ why t f e).
  { intros [-> W]. exists (ti x), t, f. auto. }
  assert (U : i = tk_idx t /\ e = EUnexpected -> exists m t f, nth_error toks m = Some t /\ In f stk /\ tk_idx t = i /\ why t f e).
  { intros [-> ->]. apply G. split; [reflexivity|exact I]. }
  assert (InG : forall ts t', In t' ts -> (exists a b, ts = firstn a (skipn b toks)) -> exists m, nth_error toks m = Some t').
  { intros ts t' Hin (a & b & ->). apply In_nth_error. rewrite <- (firstn_skipn b toks). apply in_or_app. right.
    rewrite <- (firstn_skipn a (skipn b toks)). apply in_or_app. left. exact Hin. }
  assert (Scal : starts t = true -> match f_ty f, tk_ty t with
          | EJSON, _ => on_json C stk s toks f t x
          | EPtr, KNull => lift (null_tok C EPtr (dst (dy x) (si x)) (hp x)) (fun h =>
                             on_val_end stk toks (St (si x) (S (ti x)) (dy x) h))
          | EPtr, _ => on_ptr C stk x
          | _, _ =>
              lift (scalar_tok C s f t (dst (dy x) (si x)) (hp x)) (fun '(h, r) =>
              match r with
              | Some e => Fail (tk_idx t) e (with_hp h x)
              | None => on_val_end stk toks (St (si x) (S (ti x)) (dy x) h)
              end)
          end = Fail i e y -> i = tk_idx t /\ why t f e).
  { clear H. intros St H. destruct (f_ty f) eqn:T;
    try (apply lift_fail in H as ([h r] & R & H); destruct r; [injection H as <- <- <-; split; [reflexivity|eapply scalar_why; exact R]|exfalso; eapply N1; eauto]).
    - eapply on_json_why; eauto.
    - destruct (tk_ty t); try (exfalso; eapply N3; eauto; fail). apply lift_fail in H as (? & _ & H). exfalso; eapply N1; eauto. }
  destruct (tk_ty t) eqn:Ety; try (apply G, Scal; [unfold starts; rewrite Ety; reflexivity|exact H]).
  - unfold arr_tok in H. cbv zeta in H.
    destruct (f_ty f) eqn:T; try (exfalso; eapply N3; eauto; fail);
    try (apply U; eapply any_tok_why; exact H);
    try (apply G; eapply on_json_why; [unfold starts; rewrite Ety; reflexivity|exact T|exact H]);
    try (injection H as <- <- <-; apply U; auto; fail);
    try (inv_fail; exfalso; eapply N1; eauto; fail);
    (unfold fast_slice in H; cbv zeta in H;
     inv_fail; try (exfalso; eapply N1; eauto; fail); subst;
     match goal with L : fast_loop _ _ _ _ _ _ _ _ = _ |- _ => apply fast_loop_why in L as (t' & Hin & <- & L) end;
     eapply InG in Hin as [m Hm]; [|eauto]; exists m, t', f; repeat split; auto; eapply fast_elem_why; eauto).
  - exfalso. unfold arr_end_tok in H. cbv zeta in H. inv_fail; eapply N1; eauto.
  - unfold obj_tok in H. cbv zeta in H.
    destruct (f_ty f) eqn:T; try (exfalso; eapply N3; eauto; fail);
    try (apply U; eapply any_tok_why; exact H);
    try (apply G; eapply on_json_why; [unfold starts; rewrite Ety; reflexivity|exact T|exact H]);
    try (injection H as <- <- <-; apply U; auto; fail);
    try (inv_fail; exfalso; (eapply N1; eauto; fail) || (eapply N2; eauto; fail));
    (inv_fail; try (exfalso; eapply N1; eauto; fail); subst;
     match goal with L : mss_loop _ _ _ _ = _ |- _ => apply (mss_why _ _ _ _ _ (le_n _)) in L as (-> & t' & Hin & <-) end;
     eapply InG in Hin as [m Hm]; [|eauto]; exists m, t', f; repeat split; auto).
  - exfalso. unfold obj_end_tok in H. cbv zeta in H. inv_fail; try (eapply N1; eauto; fail); eapply N2; eauto.
  - unfold key_tok in H. cbv zeta in H.
    assert (St : f_ty f = EStruct \/ f_ty f = EStructRecur -> lift (body_of s t) (fun kb =>
      lift (if o_nounescape O then Ok kb else unesc kb) (fun key =>
      match lookup_field (c_fold C) (o_nofold O) (f_fields f) key with
      | Some i => Next (St i (S (ti x)) (dy x) (hp x))
      | None =>
          if o_unknown O then Fail (tk_idx t) EUnknownField x
          else match skip_unknown 0 (skipn (S (ti x)) toks) with
               | None => Panic
               | Some n => Next (goto_ti (S (ti x) + n) x)
               end
      end)) = Fail i e y -> i = tk_idx t /\ why t f e).
    { clear H. intros T H. apply lift_fail in H as (kb & B & H). apply lift_fail in H as (key & K & H).
      destruct (lookup_field _ _ _ _) eqn:L; [discriminate|]. destruct (o_unknown O) eqn:Un.
      - injection H as <- <- <-. split; [reflexivity|]. cbn. eauto 10.
      - destruct (skip_unknown _ _); discriminate. }
    destruct (f_ty f) eqn:T; try (injection H as <- <- <-; apply U; auto; fail); try (apply G, St; [auto|exact H]);
    (apply lift_fail in H as (kb & B & H); apply lift_fail in H as (mm & _ & H);
     destruct (fr stk (S (si x))) as [fk|] eqn:Fk; [|discriminate];
     apply lift_fail in H as (k & K & H); destruct k as [k|e']; [inv_fail|];
     injection H as <- <- <-; exists (ti x), t, fk; repeat split; auto; [eapply nth_error_In; exact Fk|eapply map_key_why; eauto]).
Qed.

Lemma run_why fuel : forall x i e y, run C O stk s toks fuel x = RFail i e y ->
  exists m t f, nth_error toks m = Some t /\ In f stk /\ tk_idx t = i /\ why t f e.
Proof.
  induction fuel as [|fuel IH]; intros x i e y H; cbn [run] in H;
    destruct (ti x <? length toks)%nat; try discriminate.
  destruct (step C O stk s toks x) eqn:Es; try discriminate; [eauto|].
  injection H as <- <- <-. eapply step_why; eauto.
Qed.
End Why.

Lemma Decode_why C O stk D s toks a h i e D' h' :
  Decode C O stk D s (TOk toks) (Some a) h = Ret i (Some e) D' h' ->
  exists m t f, nth_error toks m = Some t /\ In f stk /\ Z.of_nat (tk_idx t) = i /\ why C O s toks t f e.
Proof.
  unfold Decode. destruct (run _ _ _ _ _ _ _) as [x|k e0 x| | |] eqn:R; try discriminate.
  - destruct (d_dest (dy x 0%nat)) as [a'|]; [|discriminate]. destruct (_ && _); [discriminate|]. destruct (copy _ _ _ _); discriminate.
  - intros H. injection H as <- <- <- <-. apply run_why in R as (m & t & f & A & B & <- & W). exists m, t, f. auto.
Qed.

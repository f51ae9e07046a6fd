(** A reference JSON parser, sound with respect to the grammar of Token.v.  It is used to
    give the positions and trees of the example documents, i.e. to show that hypotheses
    of the form [json_text s v] are met by concrete texts.  It models no code of the
    repository. *)
From Verif Require Import Base NumSpec StrSpec JsonNum JsonNumProofs Token.
Open Scope nat_scope.

Definition is_wsb (c : byte) : bool := ((c =? 32) || (c =? 9) || (c =? 10) || (c =? 13))%Z.
Fixpoint skip_ws (i : nat) (l : bytes) : nat * bytes :=
  match l with
  | c :: r => if is_wsb c then skip_ws (S i) r else (i, l)
  | [] => (i, [])
  end.

Fixpoint str_items (l : bytes) : option (list sitem * bytes) :=
  match l with
  | [] => None
  | c :: r =>
      if (c =? 34)%Z then Some ([], r)
      else if (c =? 92)%Z then
        match r with
        | e :: r1 =>
            if (e =? 117)%Z then
              match r1 with
              | h1 :: h2 :: h3 :: h4 :: r2 =>
                  match hexval h1, hexval h2, hexval h3, hexval h4, str_items r2 with
                  | Some a, Some b, Some c, Some d, Some (it, t) =>
                      Some (IU h1 h2 h3 h4 (a * 4096 + b * 256 + c * 16 + d)%Z :: it, t)
                  | _, _, _, _, _ => None
                  end
              | _ => None
              end
            else match simple_escape e, str_items r1 with
                 | Some v, Some (it, t) => Some (IEsc e v :: it, t)
                 | _, _ => None
                 end
        | [] => None
        end
      else if (32 <=? c)%Z then
        match str_items r with Some (it, t) => Some (ILit c :: it, t) | None => None end
      else None
  end.

(** A string literal at position [i] (the input starts with the opening quote). *)
Definition parse_str (i : nat) (l : bytes) : option (bytes * nat * bytes) :=
  match l with
  | c :: r => if (c =? 34)%Z then
      match str_items r with Some (it, t) => Some (text it, i + length (text it) + 2, t) | None => None end
      else None
  | [] => None
  end.

Definition lit (w : bytes) (l : bytes) : option bytes :=
  if bytes_eqb (firstn (length w) l) w then Some (skipn (length w) l) else None.

Fixpoint parse_value (fuel i : nat) (l : bytes) : option (jv * nat * bytes) :=
  match fuel with
  | 0 => None
  | S fuel =>
      match l with
      | [] => None
      | c :: r =>
          if (c =? 34)%Z then
            match parse_str i l with Some (b, j, t) => Some (JStr i b, j, t) | None => None end
          else if (c =? 91)%Z then
            let '(k, u) := skip_ws (S i) r in
            match u with
            | d :: u' => if (d =? 93)%Z then Some (JArr i k [], S k, u') else
                match parse_elems fuel (S i) r with
                | Some (vs, j, d :: t) => if (d =? 93)%Z then Some (JArr i j vs, S j, t) else None
                | _ => None
                end
            | [] => None
            end
          else if (c =? 123)%Z then
            let '(k, u) := skip_ws (S i) r in
            match u with
            | d :: u' => if (d =? 125)%Z then Some (JObj i k [], S k, u') else
                match parse_mems fuel (S i) r with
                | Some (vs, j, d :: t) => if (d =? 125)%Z then Some (JObj i j vs, S j, t) else None
                | _ => None
                end
            | [] => None
            end
          else match lit (bs "null") l with
          | Some t => Some (JNull i, i + 4, t)
          | None => match lit (bs "true") l with
          | Some t => Some (JBool i true, i + 4, t)
          | None => match lit (bs "false") l with
          | Some t => Some (JBool i false, i + 5, t)
          | None =>
              match ReadNumber l with
              | Some (t, RInteger) => let raw := firstn (length l - length t) l in Some (JInt i raw, i + length raw, t)
              | Some (t, RNumber) => let raw := firstn (length l - length t) l in Some (JNum i raw, i + length raw, t)
              | _ => None
              end
          end end end
      end
  end
with parse_elems (fuel i : nat) (l : bytes) : option (list jv * nat * bytes) :=
  match fuel with
  | 0 => None
  | S fuel =>
      let '(k, u) := skip_ws i l in
      match parse_value fuel k u with
      | Some (v, m, t) =>
          let '(n, t') := skip_ws m t in
          match t' with
          | d :: t2 => if (d =? 44)%Z then
                match parse_elems fuel (S n) t2 with
                | Some (vs, j, t3) => Some (v :: vs, j, t3)
                | None => None
                end
              else Some ([v], n, t')
          | [] => Some ([v], n, t')
          end
      | None => None
      end
  end
with parse_mems (fuel i : nat) (l : bytes) : option (list ((nat * bytes) * jv) * nat * bytes) :=
  match fuel with
  | 0 => None
  | S fuel =>
      let '(k, u) := skip_ws i l in
      match parse_str k u with
      | Some (b, c0, t) =>
          let '(c, t) := skip_ws c0 t in
          match t with
          | d :: t1 => if (d =? 58)%Z then
              let '(d, t2) := skip_ws (S c) t1 in
              match parse_value fuel d t2 with
              | Some (v, m, t) =>
                  let '(n, t') := skip_ws m t in
                  match t' with
                  | d :: t2 => if (d =? 44)%Z then
                        match parse_mems fuel (S n) t2 with
                        | Some (vs, j, t3) => Some (((k, b), v) :: vs, j, t3)
                        | None => None
                        end
                      else Some ([((k, b), v)], n, t')
                  | [] => Some ([((k, b), v)], n, t')
                  end
              | None => None
              end
            else None
          | [] => None
          end
      | None => None
      end
  end.

Definition parse (s : bytes) : option jv :=
  let '(i, l) := skip_ws 0 s in
  match parse_value (2 * length s + 2) i l with
  | Some (v, j, t) => match skip_ws j t with (_, []) => Some v | _ => None end
  | None => None
  end.

(** [l] is the rest of [s] from [i]. *)
Definition rest (s : bytes) (i : nat) (l : bytes) : Prop := i <= length s /\ skipn i s = l.

Lemma rest_app s i a b : rest s i (a ++ b) -> occurs s i a /\ rest s (i + length a) b.
Proof.
  intros [Hi E]. assert (L : length (skipn i s) = length a + length b) by (rewrite E, app_length; reflexivity).
  rewrite skipn_length in L. split.
  - unfold occurs, slice. destruct (Nat.leb_spec i (i + length a)); [|lia].
    destruct (Nat.leb_spec (i + length a) (length s)); [|lia]. cbn.
    replace (i + length a - i) with (length a) by lia. rewrite E, firstn_app, firstn_all.
    replace (length a - length a) with 0 by lia. cbn. rewrite app_nil_r. reflexivity.
  - split; [lia|]. replace (i + length a) with (length a + i) by lia. rewrite <- skipn_skipn, E.
    rewrite skipn_app, skipn_all. replace (length a - length a) with 0 by lia. reflexivity.
Qed.

Lemma is_wsb_spec c : is_wsb c = true -> is_ws c.
Proof. unfold is_wsb, is_ws. lia. Qed.

Lemma skip_ws_sound l : forall i j t, skip_ws i l = (j, t) ->
  exists w, l = w ++ t /\ j = i + length w /\ Forall is_ws w.
Proof.
  induction l as [|c l IH]; intros i j t H; cbn in H.
  - injection H as <- <-. exists []. repeat split; [cbn; lia|constructor].
  - destruct (is_wsb c) eqn:E.
    + destruct (IH _ _ _ H) as (w & -> & -> & Hw). exists (c :: w). split; [reflexivity|].
      split; [cbn; lia|]. constructor; [apply is_wsb_spec, E|exact Hw].
    + injection H as <- <-. exists []. repeat split; [cbn; lia|constructor].
Qed.
Lemma skip_ws_rest s i l j t : rest s i l -> skip_ws i l = (j, t) -> ws s i j /\ rest s j t.
Proof.
  intros R H. destruct (skip_ws_sound _ _ _ _ H) as (w & -> & -> & Hw).
  apply rest_app in R as [R1 R2]. split; [|exact R2]. exists w. auto.
Qed.

Lemma str_items_sound n : forall l it t, length l <= n -> str_items l = Some (it, t) ->
  l = text it ++ 34%Z :: t /\ Forall item_ok it /\ Forall lit_ok it.
Proof.
  induction n as [|n IH]; intros l it t Hn H.
  - destruct l; [discriminate|cbn in Hn; lia].
  - destruct l as [|c r]; [discriminate|]. cbn [str_items] in H. cbn in Hn.
    destruct (Z.eqb_spec c 34) as [->|N34].
    + injection H as <- <-. repeat split; constructor.
    + destruct (Z.eqb_spec c 92) as [->|N92].
      * destruct r as [|e r1]; [discriminate|]. destruct (Z.eqb_spec e 117) as [->|].
        -- destruct r1 as [|h1 [|h2 [|h3 [|h4 r2]]]]; try discriminate.
           destruct (hexval h1) as [a|] eqn:E1; [|discriminate]. destruct (hexval h2) as [b|] eqn:E2; [|discriminate].
           destruct (hexval h3) as [c|] eqn:E3; [|discriminate]. destruct (hexval h4) as [d|] eqn:E4; [|discriminate].
           destruct (str_items r2) as [[it' t']|] eqn:E5; [|discriminate]. injection H as <- <-.
           cbn in Hn. destruct (IH r2 it' t' ltac:(lia) E5) as (-> & H1 & H2).
           split; [reflexivity|]. split; constructor; try assumption; [|exact I].
           exists a, b, c, d. auto.
        -- destruct (simple_escape e) as [v|] eqn:Ee; [|discriminate].
           destruct (str_items r1) as [[it' t']|] eqn:E5; [|discriminate]. injection H as <- <-.
           cbn in Hn. destruct (IH r1 it' t' ltac:(lia) E5) as (-> & H1 & H2).
           split; [reflexivity|]. split; constructor; try assumption. exact I.
      * destruct (Z.leb_spec 32 c); [|discriminate].
        destruct (str_items r) as [[it' t']|] eqn:E5; [|discriminate]. injection H as <- <-.
        destruct (IH r it' t' ltac:(lia) E5) as (-> & H1 & H2).
        split; [reflexivity|]. split; constructor; try assumption. cbn. lia.
Qed.

Lemma parse_str_sound s i l b j t : rest s i l -> parse_str i l = Some (b, j, t) ->
  occurs s i (34%Z :: b ++ [34%Z]) /\ string_body b /\ j = i + length b + 2 /\ rest s j t.
Proof.
  intros R H. unfold parse_str in H. destruct l as [|c r]; [discriminate|].
  destruct (Z.eqb_spec c 34) as [->|]; [|discriminate].
  destruct (str_items r) as [[it t']|] eqn:E; [|discriminate]. injection H as <- <- <-.
  apply (str_items_sound (length r)) in E as (-> & H1 & H2); [|lia].
  assert (R' : rest s i ((34%Z :: text it ++ [34%Z]) ++ t')) by (cbn; rewrite <- app_assoc; exact R).
  apply rest_app in R' as [R1 R2]. split; [exact R1|]. split; [exists it; split; [split; [exact H1|reflexivity]|exact H2]|].
  split; [reflexivity|]. cbn [length] in R2. rewrite app_length in R2. cbn in R2.
  replace (i + length (text it) + 2) with (i + S (length (text it) + 1)) by lia. exact R2.
Qed.

Lemma lit_sound s i w l t : rest s i l -> lit w l = Some t -> occurs s i w /\ rest s (i + length w) t.
Proof.
  unfold lit. intros R. destruct (bytes_eqb (firstn (length w) l) w) eqn:E; [|discriminate].
  apply bytes_eqb_eq in E. intros [= <-]. apply rest_app. rewrite <- E at 1. rewrite firstn_skipn. exact R.
Qed.

Lemma ReadNumber_split l t k : ReadNumber l = Some (t, k) -> k <> RErr ->
  exists p, l = p ++ t /\ (k = RInteger -> json_int p) /\ (k = RNumber -> json_nonint p).
Proof.
  intros H Hk. destruct l as [|c r]; [discriminate|].
  destruct (ReadNumber_spec (c :: r) ltac:(congruence)) as (p & t0 & k0 & t' & (E & _ & _) & H' & HI & HN & _ & Ht).
  rewrite H in H'. injection H' as <- <-. rewrite (Ht Hk). exists p. split; [exact E|].
  split; intros ->; tauto.
Qed.

Lemma rest_cons s i c r : rest s i (c :: r) -> occurs s i [c] /\ rest s (S i) r.
Proof. intros R. apply (rest_app s i [c] r) in R. cbn in R. replace (i + 1) with (S i) in R by lia. exact R. Qed.

Lemma parse_sound_aux s : forall fuel,
  (forall i l v j t, rest s i l -> parse_value fuel i l = Some (v, j, t) -> value s i v j /\ rest s j t) /\
  (forall i l vs j t, rest s i l -> parse_elems fuel i l = Some (vs, j, t) -> elements s i vs j /\ rest s j t) /\
  (forall i l vs j t, rest s i l -> parse_mems fuel i l = Some (vs, j, t) -> members s i vs j /\ rest s j t).
Proof.
  induction fuel as [|fuel (IHv & IHe & IHm)]; [repeat split; discriminate|].
  repeat match goal with |- _ /\ _ => split end.
  - intros i l v j t R H. destruct l as [|c r]; [discriminate|]. cbn [parse_value] in H.
    destruct (Z.eqb_spec c 34) as [->|].
    { destruct (parse_str i (34%Z :: r)) as [[[b j'] t']|] eqn:E; [|discriminate]. injection H as <- <- <-.
      destruct (parse_str_sound _ _ _ _ _ _ R E) as (H1 & H2 & -> & H4). split; [|exact H4]. constructor; assumption. }
    destruct (Z.eqb_spec c 91) as [->|].
    { apply rest_cons in R as [R0 R]. destruct (skip_ws (S i) r) as [k u] eqn:E.
      destruct (skip_ws_rest _ _ _ _ _ R E) as [W Ru]. destruct u as [|d u']; [discriminate|].
      destruct (Z.eqb_spec d 93) as [->|].
      - injection H as <- <- <-. apply rest_cons in Ru as [R1 R2]. split; [|exact R2]. constructor; assumption.
      - destruct (parse_elems fuel (S i) r) as [[[vs j'] [|d' t']]|] eqn:E2; try discriminate.
        destruct (Z.eqb_spec d' 93) as [->|]; [|discriminate]. injection H as <- <- <-.
        destruct (IHe _ _ _ _ _ R E2) as [H1 H2]. apply rest_cons in H2 as [H2 H3]. split; [|exact H3].
        constructor; assumption. }
    destruct (Z.eqb_spec c 123) as [->|].
    { apply rest_cons in R as [R0 R]. destruct (skip_ws (S i) r) as [k u] eqn:E.
      destruct (skip_ws_rest _ _ _ _ _ R E) as [W Ru]. destruct u as [|d u']; [discriminate|].
      destruct (Z.eqb_spec d 125) as [->|].
      - injection H as <- <- <-. apply rest_cons in Ru as [R1 R2]. split; [|exact R2]. constructor; assumption.
      - destruct (parse_mems fuel (S i) r) as [[[vs j'] [|d' t']]|] eqn:E2; try discriminate.
        destruct (Z.eqb_spec d' 125) as [->|]; [|discriminate]. injection H as <- <- <-.
        destruct (IHm _ _ _ _ _ R E2) as [H1 H2]. apply rest_cons in H2 as [H2 H3]. split; [|exact H3].
        constructor; assumption. }
    destruct (lit (bs "null") (c :: r)) as [t0|] eqn:E1.
    { injection H as <- <- <-. destruct (lit_sound _ _ _ _ _ R E1). split; [constructor; assumption|assumption]. }
    destruct (lit (bs "true") (c :: r)) as [t0|] eqn:E2.
    { injection H as <- <- <-. destruct (lit_sound _ _ _ _ _ R E2). split; [constructor; assumption|assumption]. }
    destruct (lit (bs "false") (c :: r)) as [t0|] eqn:E3.
    { injection H as <- <- <-. destruct (lit_sound _ _ _ _ _ R E3). split; [constructor; assumption|assumption]. }
    destruct (ReadNumber (c :: r)) as [[t0 k]|] eqn:E4; [|discriminate].
    assert (Hk : k <> RErr) by (destruct k; congruence).
    destruct (ReadNumber_split _ _ _ E4 Hk) as (p & Ep & HI & HN). rewrite Ep in *.
    assert (F : firstn (length (p ++ t0) - length t0) (p ++ t0) = p).
    { rewrite app_length. replace (length p + length t0 - length t0) with (length p) by lia.
      rewrite firstn_app, firstn_all. replace (length p - length p) with 0 by lia. cbn. apply app_nil_r. }
    rewrite F in H. apply rest_app in R as [R1 R2].
    destruct k; [discriminate|..]; injection H as <- <- <-; (split; [constructor; auto|exact R2]).
  - intros i l vs j t R H. cbn [parse_elems] in H. destruct (skip_ws i l) as [k u] eqn:E1.
    destruct (skip_ws_rest _ _ _ _ _ R E1) as [W1 R1].
    destruct (parse_value fuel k u) as [[[v m] t0]|] eqn:E2; [|discriminate].
    destruct (IHv _ _ _ _ _ R1 E2) as [V R2]. destruct (skip_ws m t0) as [n t'] eqn:E3.
    destruct (skip_ws_rest _ _ _ _ _ R2 E3) as [W2 R3]. destruct t' as [|d t2].
    + injection H as <- <- <-. split; [econstructor; eassumption|exact R3].
    + destruct (Z.eqb_spec d 44) as [->|].
      * destruct (parse_elems fuel (S n) t2) as [[[vs' j'] t3]|] eqn:E4; [|discriminate]. injection H as <- <- <-.
        apply rest_cons in R3 as [R3 R4]. destruct (IHe _ _ _ _ _ R4 E4) as [V2 R5].
        split; [eapply e_cons; eassumption|exact R5].
      * injection H as <- <- <-. split; [econstructor; eassumption|exact R3].
  - intros i l vs j t R H. cbn [parse_mems] in H. destruct (skip_ws i l) as [k u] eqn:E1.
    destruct (skip_ws_rest _ _ _ _ _ R E1) as [W1 R1].
    destruct (parse_str k u) as [[[b c0] t0]|] eqn:E2; [|discriminate].
    destruct (parse_str_sound _ _ _ _ _ _ R1 E2) as (P1 & P2 & -> & R2).
    destruct (skip_ws (k + length b + 2) t0) as [c t1] eqn:E3.
    destruct (skip_ws_rest _ _ _ _ _ R2 E3) as [W2 R3]. destruct t1 as [|d t1]; [discriminate|].
    destruct (Z.eqb_spec d 58) as [->|]; [|discriminate]. apply rest_cons in R3 as [R3 R4].
    destruct (skip_ws (S c) t1) as [d t2] eqn:E4. destruct (skip_ws_rest _ _ _ _ _ R4 E4) as [W3 R5].
    destruct (parse_value fuel d t2) as [[[v m] t3]|] eqn:E5; [|discriminate].
    destruct (IHv _ _ _ _ _ R5 E5) as [V R6]. destruct (skip_ws m t3) as [n t'] eqn:E6.
    destruct (skip_ws_rest _ _ _ _ _ R6 E6) as [W4 R7].
    assert (M : member s i (k, b, v) n) by (econstructor; eassumption). destruct t' as [|d' t4].
    + injection H as <- <- <-. split; [constructor; exact M|exact R7].
    + destruct (Z.eqb_spec d' 44) as [->|].
      * destruct (parse_mems fuel (S n) t4) as [[[vs' j'] t5]|] eqn:E7; [|discriminate]. injection H as <- <- <-.
        apply rest_cons in R7 as [R7 R8]. destruct (IHm _ _ _ _ _ R8 E7) as [V2 R9].
        split; [eapply m_cons; eassumption|exact R9].
      * injection H as <- <- <-. split; [constructor; exact M|exact R7].
Qed.

Theorem parse_sound s v : parse s = Some v -> json_text s v.
Proof.
  unfold parse. intros H. destruct (skip_ws 0 s) as [i l] eqn:E1.
  destruct (skip_ws_rest s 0 s i l ltac:(split; [lia|reflexivity]) E1) as [W1 R1].
  destruct (parse_value (2 * length s + 2) i l) as [[[v' j] t]|] eqn:E2; [|discriminate].
  destruct (proj1 (parse_sound_aux s _) _ _ _ _ _ R1 E2) as [V R2].
  destruct (skip_ws j t) as [n t'] eqn:E3. destruct t'; [|discriminate]. injection H as <-.
  destruct (skip_ws_rest _ _ _ _ _ R2 E3) as [W2 [L R3]].
  assert (n = length s).
  { apply (f_equal (@length Z)) in R3. rewrite skipn_length in R3. cbn in R3. lia. }
  subst n. exists i, j. auto.
Qed.

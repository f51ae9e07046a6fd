(** A text has at most one JSON tree: the reference parser of Parse.v finds every tree of
    the grammar of Token.v.  So "the tokens of a document" is a function of its text. *)
From Verif Require Import Base NumSpec StrSpec JsonNum JsonNumProofs Token Parse.
Open Scope nat_scope.

(** ** Lexemes *)
Lemma occurs_skipn s i r : occurs s i r -> skipn i s = r ++ skipn (i + length r) s /\ i + length r <= length s.
Proof.
  unfold occurs, slice. destruct (Nat.leb_spec i (i + length r)); [|lia]. destruct (Nat.leb_spec (i + length r) (length s)); [|discriminate].
  cbn. replace (i + length r - i) with (length r) by lia. intros [= E]. split; [|lia].
  replace (i + length r) with (length r + i) by lia. rewrite <- skipn_skipn.
  transitivity (firstn (length r) (skipn i s) ++ skipn (length r) (skipn i s)); [symmetry; apply firstn_skipn|]. rewrite E. reflexivity.
Qed.
Lemma occurs1 s i c : occurs s i [c] -> skipn i s = c :: skipn (S i) s.
Proof. intros H. apply occurs_skipn in H as [H _]. cbn in H. replace (i + 1) with (S i) in H by lia. exact H. Qed.

(** The first byte that is not white space ends white space. *)
Definition solid (l : bytes) : Prop := match l with [] => True | c :: _ => is_wsb c = false end.
Lemma skip_ws_app w : Forall is_ws w -> forall i t, solid t -> skip_ws i (w ++ t) = (i + length w, t).
Proof.
  induction 1 as [|c w Hc H IH]; intros i t S; cbn [app skip_ws length].
  - rewrite Nat.add_0_r. destruct t as [|c t]; [reflexivity|]. cbn in *. rewrite S. reflexivity.
  - assert (E : is_wsb c = true) by (unfold is_wsb, is_ws in *; lia). rewrite E, IH by exact S. f_equal. lia.
Qed.
Lemma skip_ws_to s i j : ws s i j -> solid (skipn j s) -> skip_ws i (skipn i s) = (j, skipn j s).
Proof. intros (w & O & -> & W) S. apply occurs_skipn in O as [O _]. rewrite O. apply skip_ws_app; assumption. Qed.

Lemma str_items_complete it t : Forall item_ok it -> Forall lit_ok it -> str_items (text it ++ 34%Z :: t) = Some (it, t).
Proof.
  induction it as [|x it IH]; intros A B; [reflexivity|]. inversion A as [|? ? A1 A2]; inversion B as [|? ? B1 B2]; subst.
  unfold text in *. cbn [map concat]. rewrite <- app_assoc. specialize (IH A2 B2). destruct x as [c|c v|h1 h2 h3 h4 v]; cbn [item_text app] in *.
  - cbn [str_items]. cbn in A1, B1. destruct (Z.eqb_spec c 34); [lia|]. destruct (Z.eqb_spec c 92); [lia|]. destruct (Z.leb_spec 32 c); [|lia]. rewrite IH. reflexivity.
  - cbn [str_items]. cbn in A1. cbn [Z.eqb]. change (92 =? 34)%Z with false. change (92 =? 92)%Z with true. cbv iota.
    destruct (Z.eqb_spec c 117) as [->|]; [discriminate|]. rewrite A1, IH. reflexivity.
  - cbn [str_items]. change (92 =? 34)%Z with false. change (92 =? 92)%Z with true. change (117 =? 117)%Z with true. cbv iota.
    destruct A1 as (a & b & c & d & -> & -> & -> & -> & ->). rewrite IH. reflexivity.
Qed.
Lemma parse_str_complete s k r : occurs s k (34%Z :: r ++ [34%Z]) -> string_body r ->
  parse_str k (skipn k s) = Some (r, k + length r + 2, skipn (k + length r + 2) s).
Proof.
  intros O (it & [A ->] & B). apply occurs_skipn in O as [O _]. rewrite O. cbn [app parse_str]. change (34 =? 34)%Z with true. cbv iota.
  rewrite <- app_assoc. cbn [app]. rewrite (str_items_complete it _ A B). do 3 f_equal. cbn [length]. rewrite app_length. cbn. lia.
Qed.

(** Numbers: the bytes that end them. *)
Definition num_byte (c : byte) : Prop := (48 <= c <= 57 \/ c = 43 \/ c = 45 \/ c = 46 \/ c = 69 \/ c = 101)%Z.
Definition stops (l : bytes) : Prop := match l with [] => True | c :: _ => ~ num_byte c end.
Lemma digits_num ds : Forall is_digit ds -> Forall num_byte ds.
Proof. apply Forall_impl. unfold is_digit, num_byte. lia. Qed.
Lemma int_num p : json_int p -> Forall num_byte p.
Proof. intros [s [H _]|s [H _]]; [apply digits_num, H|]. constructor; [unfold num_byte; lia|apply digits_num, H]. Qed.
Lemma frac_num p : json_frac p -> Forall num_byte p.
Proof. intros [ds _ H]. constructor; [unfold num_byte; lia|apply digits_num, H]. Qed.
Lemma exp_num p : json_exp p -> Forall num_byte p.
Proof.
  intros [e sg ds He Hs _ H]. constructor; [unfold num_byte; lia|]. apply Forall_app. split; [|apply digits_num, H].
  destruct Hs as [->|[->| ->]]; repeat constructor; unfold num_byte; lia.
Qed.
Lemma number_num p : json_number p -> Forall num_byte p.
Proof.
  intros [H|H]; [apply int_num, H|]. destruct H as [i f Hi Hf|i e Hi He|i f e Hi Hf He]; rewrite ?Forall_app; auto using int_num, frac_num, exp_num.
Qed.
Lemma number_longest p t : json_number p -> stops t -> longest_viable (p ++ t) p t.
Proof.
  intros J S. split; [reflexivity|]. split; [exists []; rewrite app_nil_r; exact J|]. intros p' t' E [x V].
  destruct (Nat.le_gt_cases (length p') (length p)) as [|G]; [assumption|exfalso].
  apply number_num in V. apply Forall_app in V as [V _].
  assert (E2 : p' = p ++ skipn (length p) p').
  { rewrite <- (firstn_skipn (length p) p') at 1. f_equal. apply (f_equal (firstn (length p))) in E.
    rewrite !firstn_app, firstn_all, Nat.sub_diag in E. replace (length p - length p') with 0 in E by lia. cbn in E. rewrite !app_nil_r in E. congruence. }
  rewrite E2 in E, V. rewrite <- app_assoc in E. apply app_inv_head in E. apply Forall_app in V as [_ V].
  destruct (skipn (length p) p') as [|c y] eqn:E3.
  - rewrite app_nil_r in E2. subst. lia.
  - subst t. inversion V; subst. contradiction.
Qed.
Lemma longest_unique r p t p' t' : longest_viable r p t -> longest_viable r p' t' -> p = p' /\ t = t'.
Proof.
  intros (E & V & M) (E' & V' & M'). pose proof (M p' t' E' V'). pose proof (M' p t E V).
  assert (L : length p = length p') by lia. rewrite E in E'. clear - E' L. revert p' L E'. induction p as [|c p IH]; intros [|c' p'] L E; try discriminate; [auto|].
  cbn in *. injection E as <- E. destruct (IH p' ltac:(lia) E) as [<- <-]. auto.
Qed.
Lemma ReadNumber_complete p t : json_number p -> stops t ->
  exists k, ReadNumber (p ++ t) = Some (t, k) /\ (json_int p -> k = RInteger) /\ (json_nonint p -> k = RNumber).
Proof.
  intros J S. assert (N : p ++ t <> []).
  { intros E. apply app_eq_nil in E as [-> _]. destruct J as [J|J].
    - inversion J as [? [_ (? & ? & ? & _)]|]; discriminate.
    - inversion J as [? ? Hi Hf E1|? ? Hi He E1|? ? ? Hi Hf He E1]; apply app_eq_nil in E1 as [-> _]; inversion Hi as [? [_ (? & ? & ? & _)]|]; discriminate. }
  destruct (ReadNumber_spec _ N) as (p1 & t1 & k & t' & L & E & KI & KN & KE & KT).
  destruct (longest_unique _ _ _ _ _ (number_longest p t J S) L) as [<- <-]. exists k.
  assert (k <> RErr) by (intros K; apply KE in K; contradiction). rewrite (KT H) in E. tauto.
Qed.

(** ** Values *)
Definition closes (l : bytes) : Prop := match l with [] => True | c :: _ => is_wsb c = true \/ c = 44%Z \/ c = 93%Z \/ c = 125%Z end.
Lemma closes_stops l : closes l -> stops l.
Proof. destruct l; [trivial|]. cbn. unfold is_wsb, num_byte. lia. Qed.
Lemma ws_closes s m j : ws s m j -> closes (skipn j s) -> closes (skipn m s).
Proof.
  intros (w & O & -> & W) H. apply occurs_skipn in O as [O _]. rewrite O. destruct w as [|c w]; cbn [app]; [|].
  - cbn [length app] in *. exact H.
  - inversion W; subst. left. unfold is_wsb, is_ws in *. lia.
Qed.
Lemma number_head p : json_number p -> exists c r, p = c :: r /\ (48 <= c <= 57 \/ c = 45)%Z.
Proof.
  assert (U : forall i, json_int i -> exists c r, i = c :: r /\ (48 <= c <= 57 \/ c = 45)%Z).
  { intros i [s [D (c & r & -> & _)]|s _]; [|exists 45%Z, s; split; [reflexivity|lia]]. inversion D; subst. exists c, r. unfold is_digit in *. split; [reflexivity|lia]. }
  intros [J|J]; [auto|]. destruct J as [i f Hi _|i e Hi _|i f e Hi _ _]; destruct (U i Hi) as (c & r & -> & H); eexists c, _; (split; [reflexivity|exact H]).
Qed.
Definition heads (l : bytes) : Prop := match l with [] => False | c :: _ => is_wsb c = false /\ c <> 93%Z /\ c <> 125%Z /\ c <> 44%Z end.
Lemma heads_solid l : heads l -> solid l.
Proof. destruct l; [contradiction|]. intros [H _]. exact H. Qed.
Lemma value_heads s i v j : value s i v j -> heads (skipn i s).
Proof.
  assert (N : forall i r, occurs s i r -> json_number r -> heads (skipn i s)).
  { intros i0 r O J. apply occurs_skipn in O as [-> _]. destruct (number_head r J) as (c & r' & -> & H). cbn. unfold is_wsb. lia. }
  assert (K : forall i c r, occurs s i (c :: r) -> is_wsb c = false /\ c <> 93%Z /\ c <> 125%Z /\ c <> 44%Z -> heads (skipn i s)).
  { intros i0 c r O H. apply occurs_skipn in O as [-> _]. exact H. }
  intros H. inversion H; subst.
  1-3: eapply K; [eassumption|vm_compute; intuition discriminate].
  1-2: eapply N; [eassumption|unfold json_number; tauto].
  all: eapply K; [eassumption|vm_compute; intuition discriminate].
Qed.
Lemma lit_miss w c r : (match w with [] => False | d :: _ => c <> d end) -> lit w (c :: r) = None.
Proof. destruct w as [|d w]; [contradiction|]. intros H. unfold lit. cbn. destruct (Z.eqb_spec c d); [contradiction|reflexivity]. Qed.
Lemma lit_app w t : lit w (w ++ t) = Some t.
Proof.
  unfold lit. rewrite firstn_app, firstn_all, Nat.sub_diag, skipn_app, skipn_all, Nat.sub_diag. cbn. rewrite app_nil_r.
  destruct (bytes_eqb w w) eqn:E; [reflexivity|]. assert (bytes_eqb w w = true) by (apply bytes_eqb_eq; reflexivity). congruence.
Qed.

(** What the parser does with a member. *)
Definition member_parsed (s : bytes) (i : nat) (x : (nat * bytes) * jv) (j : nat) : Prop :=
  exists k r c d v m, x = ((k, r), v) /\ i <= k /\ k + length r + 2 <= c /\ c < d /\ d < m /\ m <= j /\
    skip_ws i (skipn i s) = (k, skipn k s) /\
    parse_str k (skipn k s) = Some (r, k + length r + 2, skipn (k + length r + 2) s) /\
    skip_ws (k + length r + 2) (skipn (k + length r + 2) s) = (c, skipn c s) /\
    skipn c s = 58%Z :: skipn (S c) s /\ skip_ws (S c) (skipn (S c) s) = (d, skipn d s) /\
    (solid (skipn j s) -> closes (skipn j s) ->
       (forall fuel, 2 * (m - d) <= fuel -> parse_value fuel d (skipn d s) = Some (v, m, skipn m s)) /\
       skip_ws m (skipn m s) = (j, skipn j s)).
Lemma one_head s c j : occurs s j [c] -> is_wsb c = false -> c = 44%Z \/ c = 93%Z \/ c = 125%Z ->
  solid (skipn j s) /\ closes (skipn j s).
Proof. intros O W H. rewrite (occurs1 _ _ _ O). cbn. tauto. Qed.

Lemma parse_complete_aux s :
  (forall i v j, value s i v j -> closes (skipn j s) -> forall fuel, 2 * (j - i) <= fuel -> parse_value fuel i (skipn i s) = Some (v, j, skipn j s)) /\
  (forall i l j, elements s i l j -> (occurs s j [93%Z] -> forall fuel, 2 * (j - i) + 1 <= fuel -> parse_elems fuel i (skipn i s) = Some (l, j, skipn j s)) /\
     (exists k, ws s i k /\ heads (skipn k s))) /\
  (forall i l j, members s i l j -> (occurs s j [125%Z] -> forall fuel, 2 * (j - i) + 1 <= fuel -> parse_mems fuel i (skipn i s) = Some (l, j, skipn j s)) /\
     (exists k, ws s i k /\ occurs s k [34%Z])) /\
  (forall i x j, member s i x j -> member_parsed s i x j /\ (exists k, ws s i k /\ occurs s k [34%Z])).
Proof.
  apply (json_mutind s
    (fun i v j _ => closes (skipn j s) -> forall fuel, 2 * (j - i) <= fuel -> parse_value fuel i (skipn i s) = Some (v, j, skipn j s))
    (fun i l j _ => (occurs s j [93%Z] -> forall fuel, 2 * (j - i) + 1 <= fuel -> parse_elems fuel i (skipn i s) = Some (l, j, skipn j s)) /\
       (exists k, ws s i k /\ heads (skipn k s)))
    (fun i l j _ => (occurs s j [125%Z] -> forall fuel, 2 * (j - i) + 1 <= fuel -> parse_mems fuel i (skipn i s) = Some (l, j, skipn j s)) /\
       (exists k, ws s i k /\ occurs s k [34%Z]))
    (fun i x j _ => member_parsed s i x j /\ (exists k, ws s i k /\ occurs s k [34%Z]))).
  - (* null *) intros i O _ fuel F. destruct fuel as [|fuel]; [lia|]. apply occurs_skipn in O as [-> _]. reflexivity.
  - intros i O _ fuel F. destruct fuel as [|fuel]; [lia|]. apply occurs_skipn in O as [-> _]. reflexivity.
  - intros i O _ fuel F. destruct fuel as [|fuel]; [lia|]. apply occurs_skipn in O as [-> _]. reflexivity.
  - (* integers *) intros i r O J Cl fuel F. destruct (number_head r (or_introl J)) as (c & r' & E & Hc).
    destruct fuel as [|fuel]; [subst r; cbn in F; lia|]. apply occurs_skipn in O as [O _].
    destruct (ReadNumber_complete r _ (or_introl J) (closes_stops _ Cl)) as (k & Ek & KI & _). rewrite O.
    assert (Fr : firstn (length (r ++ skipn (i + length r) s) - length (skipn (i + length r) s)) (r ++ skipn (i + length r) s) = r).
    { rewrite app_length. replace (length r + length (skipn (i + length r) s) - length (skipn (i + length r) s)) with (length r) by lia.
      rewrite firstn_app, firstn_all, Nat.sub_diag. cbn. apply app_nil_r. }
    rewrite E in *. cbn [app parse_value] in *.
    destruct (Z.eqb_spec c 34); [lia|]. destruct (Z.eqb_spec c 91); [lia|]. destruct (Z.eqb_spec c 123); [lia|].
    rewrite !lit_miss by (vm_compute; lia). rewrite Ek, (KI J). cbv zeta. rewrite Fr. reflexivity.
  - (* numbers *) intros i r O J Cl fuel F. destruct (number_head r (or_intror J)) as (c & r' & E & Hc).
    destruct fuel as [|fuel]; [subst r; cbn in F; lia|]. apply occurs_skipn in O as [O _].
    destruct (ReadNumber_complete r _ (or_intror J) (closes_stops _ Cl)) as (k & Ek & _ & KN). rewrite O.
    assert (Fr : firstn (length (r ++ skipn (i + length r) s) - length (skipn (i + length r) s)) (r ++ skipn (i + length r) s) = r).
    { rewrite app_length. replace (length r + length (skipn (i + length r) s) - length (skipn (i + length r) s)) with (length r) by lia.
      rewrite firstn_app, firstn_all, Nat.sub_diag. cbn. apply app_nil_r. }
    rewrite E in *. cbn [app parse_value] in *.
    destruct (Z.eqb_spec c 34); [lia|]. destruct (Z.eqb_spec c 91); [lia|]. destruct (Z.eqb_spec c 123); [lia|].
    rewrite !lit_miss by (vm_compute; lia). rewrite Ek, (KN J). cbv zeta. rewrite Fr. reflexivity.
  - (* strings *) intros i r O B Cl fuel F. destruct fuel as [|fuel]; [lia|]. pose proof (parse_str_complete s i r O B) as P.
    apply occurs_skipn in O as [O _]. rewrite O in *. cbn [app parse_value] in *. change (34 =? 34)%Z with true. cbv iota. rewrite P. reflexivity.
  - (* [] *) intros i j O W O' Cl fuel F. pose proof (ws_le _ _ _ W). destruct fuel as [|fuel]; [lia|]. apply occurs1 in O, O'. rewrite O. cbn [parse_value].
    change (91 =? 34)%Z with false. change (91 =? 91)%Z with true. cbv iota.
    rewrite (skip_ws_to s (S i) j W) by (rewrite O'; reflexivity). cbv beta iota zeta. rewrite O'. change (93 =? 93)%Z with true. cbv iota. reflexivity.
  - intros i j l O E [IH (k & Wk & Hk)] O' Cl fuel F. pose proof (proj2 (proj1 (proj2 (value_lexed s)) _ _ _ E)) as Le.
    destruct fuel as [|fuel]; [lia|]. apply occurs1 in O. rewrite O. cbn [parse_value].
    change (91 =? 34)%Z with false. change (91 =? 91)%Z with true. cbv iota.
    rewrite (skip_ws_to s (S i) k Wk) by (apply heads_solid, Hk). cbv beta iota zeta.
    destruct (skipn k s) as [|c u]; [contradiction|]. destruct Hk as (_ & N & _). destruct (Z.eqb_spec c 93); [contradiction|].
    rewrite (IH O' fuel ltac:(lia)). apply occurs1 in O'. rewrite O'. change (93 =? 93)%Z with true. cbv iota. reflexivity.
  - (* {} *) intros i j O W O' Cl fuel F. pose proof (ws_le _ _ _ W). destruct fuel as [|fuel]; [lia|]. apply occurs1 in O, O'. rewrite O. cbn [parse_value].
    change (123 =? 34)%Z with false. change (123 =? 91)%Z with false. change (123 =? 123)%Z with true. cbv iota.
    rewrite (skip_ws_to s (S i) j W) by (rewrite O'; reflexivity). cbv beta iota zeta. rewrite O'. change (125 =? 125)%Z with true. cbv iota. reflexivity.
  - intros i j l O E [IH (k & Wk & Hk)] O' Cl fuel F. pose proof (proj2 (proj1 (proj2 (proj2 (value_lexed s))) _ _ _ E)) as Le.
    destruct fuel as [|fuel]; [lia|]. apply occurs1 in O. rewrite O. cbn [parse_value]. apply occurs1 in Hk.
    change (123 =? 34)%Z with false. change (123 =? 91)%Z with false. change (123 =? 123)%Z with true. cbv iota.
    rewrite (skip_ws_to s (S i) k Wk) by (rewrite Hk; reflexivity). cbv beta iota zeta. rewrite Hk. change (34 =? 125)%Z with false. cbv iota.
    rewrite (IH O' fuel ltac:(lia)). apply occurs1 in O'. rewrite O'. change (125 =? 125)%Z with true. cbv iota. reflexivity.
  - (* one element *) intros i k v m j W1 V IH W2. pose proof (value_heads _ _ _ _ V) as Hd. split; [|exists k; auto].
    intros O fuel F. pose proof (proj2 (proj1 (value_lexed s) _ _ _ V)) as L1. pose proof (ws_le _ _ _ W1). pose proof (ws_le _ _ _ W2).
    destruct (one_head s 93%Z j O eq_refl ltac:(tauto)) as [Sj Cj]. destruct fuel as [|fuel]; [lia|]. cbn [parse_elems].
    rewrite (skip_ws_to s i k W1) by (apply heads_solid, Hd). cbv beta iota zeta.
    rewrite (IH (ws_closes _ _ _ W2 Cj) fuel ltac:(lia)). rewrite (skip_ws_to s m j W2 Sj). cbv beta iota zeta.
    apply occurs1 in O. rewrite O. change (93 =? 44)%Z with false. cbv iota. reflexivity.
  - intros i k v m n l j W1 V IH W2 O E [IHl _]. pose proof (value_heads _ _ _ _ V) as Hd. split; [|exists k; auto].
    intros Oj fuel F. pose proof (proj2 (proj1 (value_lexed s) _ _ _ V)) as L1. pose proof (ws_le _ _ _ W1). pose proof (ws_le _ _ _ W2).
    pose proof (proj2 (proj1 (proj2 (value_lexed s)) _ _ _ E)) as Le.
    destruct (one_head s 44%Z n O eq_refl ltac:(tauto)) as [Sn Cn]. destruct fuel as [|fuel]; [lia|]. cbn [parse_elems].
    rewrite (skip_ws_to s i k W1) by (apply heads_solid, Hd). cbv beta iota zeta.
    rewrite (IH (ws_closes _ _ _ W2 Cn) fuel ltac:(lia)). rewrite (skip_ws_to s m n W2 Sn). cbv beta iota zeta.
    apply occurs1 in O. rewrite O. change (44 =? 44)%Z with true. cbv iota. rewrite (IHl Oj fuel ltac:(lia)). reflexivity.
  - (* one member *) intros i x j M [(k & r & c & d & v & m & -> & L1 & L2 & L3 & L4 & L5 & P1 & P2 & P3 & P4 & P5 & P6) K]. split; [|exact K].
    intros O fuel F. destruct (one_head s 125%Z j O eq_refl ltac:(tauto)) as [Sj Cj]. destruct (P6 Sj Cj) as [P7 P8].
    destruct fuel as [|fuel]; [lia|]. cbn [parse_mems]. rewrite P1, P2, P3, P4. change (58 =? 58)%Z with true. cbv iota. rewrite P5, (P7 fuel ltac:(lia)), P8.
    apply occurs1 in O. rewrite O. change (125 =? 44)%Z with false. cbv iota. reflexivity.
  - intros i x n l j M [(k & r & c & d & v & m & -> & L1 & L2 & L3 & L4 & L5 & P1 & P2 & P3 & P4 & P5 & P6) K] O E [IHl _]. split; [|exact K].
    intros Oj fuel F. pose proof (proj2 (proj1 (proj2 (proj2 (value_lexed s))) _ _ _ E)) as Le.
    destruct (one_head s 44%Z n O eq_refl ltac:(tauto)) as [Sj Cj]. destruct (P6 Sj Cj) as [P7 P8].
    destruct fuel as [|fuel]; [lia|]. cbn [parse_mems]. rewrite P1, P2, P3, P4. change (58 =? 58)%Z with true. cbv iota. rewrite P5, (P7 fuel ltac:(lia)), P8.
    apply occurs1 in O. rewrite O. change (44 =? 44)%Z with true. cbv iota. rewrite (IHl Oj fuel ltac:(lia)). reflexivity.
  - (* member *) intros i k r c d v m j W1 O B W2 Oc W3 V IH W4.
    assert (Ok : occurs s k [34%Z]).
    { apply occurs_skipn in O as [O1 O2]. unfold occurs, slice. cbn [length] in *. destruct (Nat.leb_spec k (k + 1)); [|lia]. destruct (Nat.leb_spec (k + 1) (length s)); [|lia].
      cbn [andb]. replace (k + 1 - k) with 1 by lia. rewrite O1. reflexivity. }
    split; [|exists k; auto]. pose proof (ws_le _ _ _ W1). pose proof (ws_le _ _ _ W2). pose proof (ws_le _ _ _ W3). pose proof (ws_le _ _ _ W4).
    pose proof (proj2 (proj1 (value_lexed s) _ _ _ V)). pose proof (value_heads _ _ _ _ V) as Hd.
    exists k, r, c, d, v, m. repeat split; try lia.
    + apply skip_ws_to; [exact W1|]. apply occurs1 in Ok. rewrite Ok. reflexivity.
    + apply parse_str_complete; assumption.
    + apply skip_ws_to; [exact W2|]. apply occurs1 in Oc. rewrite Oc. reflexivity.
    + apply occurs1, Oc.
    + apply skip_ws_to; [exact W3|]. apply heads_solid, Hd.
    + apply IH. eapply ws_closes; eassumption.
    + apply skip_ws_to; assumption.
Qed.

Theorem parse_complete s v : json_text s v -> parse s = Some v.
Proof.
  intros (i & j & W1 & V & W2). unfold parse. pose proof (proj2 (proj1 (value_lexed s) _ _ _ V)). pose proof (ws_le _ _ _ W2).
  assert (E : skipn (length s) s = []) by apply skipn_all.
  assert (Cl : closes (skipn j s)) by (eapply ws_closes; [exact W2|rewrite E; exact I]).
  change s with (skipn 0 s) at 1. rewrite (skip_ws_to s 0 i W1) by (apply heads_solid; eapply value_heads, V). cbv beta iota zeta.
  rewrite (proj1 (parse_complete_aux s) _ _ _ V Cl) by lia. rewrite (skip_ws_to s j _ W2) by (rewrite E; exact I). rewrite E. reflexivity.
Qed.
(** A text has at most one tree, and whether it has one is decidable. *)
Theorem json_text_parse s v : json_text s v <-> parse s = Some v.
Proof. split; [apply parse_complete|apply parse_sound]. Qed.
Theorem json_text_unique s v v' : json_text s v -> json_text s v' -> v = v'.
Proof. intros H H'. apply parse_complete in H, H'. congruence. Qed.
(** So the contract of the tokenizer (Token.v) determines its tokens. *)
Corollary tokens_unique s ts ts' : (exists v, json_text s v /\ ts = flat 0 v) -> (exists v, json_text s v /\ ts' = flat 0 v) -> ts = ts'.
Proof. intros (v & J & ->) (v' & J' & ->). rewrite (json_text_unique s v v' J J'). reflexivity. Qed.
(** A text either has a tree or it has none. *)
Corollary json_text_dec s : (exists v, json_text s v) \/ forall v, ~ json_text s v.
Proof. destruct (parse s) as [v|] eqn:E; [left; exists v; apply parse_sound, E|right]. intros v H. apply parse_complete in H. congruence. Qed.

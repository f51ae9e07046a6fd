(** The ideal decoder and the code agree on sound documents. *)
From Verif Require Import Base NumSpec StrSpec JsonNum JsonNumProofs Atoi AtoiProofs Unescape UnescapeProofs Types Token FloatLit Heap Machine Dt Dec Value Dval Sep Refine Typed Parse Spec.
Open Scope Z_scope.

(** ** The leaf functions of the specification say what they should *)
Lemma C04w r : (json_int r <-> ReadNumber r = Some ([], RInteger)) /\ (json_nonint r <-> ReadNumber r = Some ([], RNumber)).
Proof. split; split; intros H; try (apply ReadNumber_int, H); apply ReadNumber_nonint, H. Qed.
Theorem is_int_spec r : is_int r = true <-> json_int r.
Proof.
  unfold is_int. rewrite (proj1 (C04w r)). destruct (ReadNumber r) as [[[|c t] []]|]; split; intros H; try discriminate; try reflexivity; congruence.
Qed.
Theorem is_num_spec r : is_num r = true <-> json_number r.
Proof.
  unfold is_num, json_number. rewrite (proj1 (C04w r)), (proj2 (C04w r)).
  destruct (ReadNumber r) as [[[|c t] []]|]; split; intros H; try discriminate; try tauto; destruct H; congruence.
Qed.

Lemma longest_viable_unique r p t p' t' : longest_viable r p t -> longest_viable r p' t' -> p = p' /\ t = t'.
Proof.
  intros (E & V & M) (E' & V' & M'). assert (L : length p = length p') by (specialize (M _ _ E' V'); specialize (M' _ _ E V); lia).
  rewrite E in E'. clear - E' L. revert p' E' L. induction p as [|c p IH]; intros [|c' p'] E L; try discriminate; [split; [reflexivity|exact E]|].
  injection E as <- E. destruct (IH p' E ltac:(injection L; auto)) as [<- <-]. split; reflexivity.
Qed.
Lemma quoted_scan r : quoted_sound r <-> (is_num r = true \/ exists t, ReadNumber r = Some (t, RErr)).
Proof.
  split.
  - intros [N Q]. destruct (ReadNumber_spec r N) as (p & t & k & t' & V & E & _ & _ & Ke & _). destruct (is_num r) eqn:En; [left; reflexivity|right].
    exists t'. rewrite E. replace k with RErr; [reflexivity|]. symmetry. apply Ke. intros J. specialize (Q _ _ V J). subst t. destruct V as (Er & _).
    rewrite app_nil_r in Er. subst p. apply is_num_spec in J. congruence.
  - intros H. assert (N : r <> []) by (intros ->; destruct H as [H|[t H]]; discriminate). split; [exact N|]. intros p t V J.
    destruct (ReadNumber_spec r N) as (p' & t1 & k & t' & V' & E & _ & _ & Ke & Kt). destruct (longest_viable_unique _ _ _ _ _ V V') as [<- <-].
    assert (Nk : k <> RErr) by (intros Q; apply Ke in Q; contradiction). rewrite <- (Kt Nk). destruct H as [H|[t2 H]]; [|congruence].
    unfold is_num in H. rewrite E in H. destruct t'; [reflexivity|]. destruct k; discriminate.
Qed.

Lemma str_items_complete l t : Forall item_ok l -> Forall lit_ok l -> str_items (text l ++ 34 :: t) = Some (l, t).
Proof.
  induction l as [|x l IH]; intros H1 H2; [reflexivity|]. inversion H1 as [|? ? A1 A2]; subst. inversion H2 as [|? ? B1 B2]; subst.
  specialize (IH A2 B2). unfold text in *. cbn [map concat]. rewrite <- app_assoc. destruct x as [c|c v|a b c d v]; cbn [item_text app str_items].
  - cbn in A1, B1. replace (c =? 34) with false by lia. replace (c =? 92) with false by lia. replace (32 <=? c) with true by lia. rewrite IH. reflexivity.
  - cbn in A1. assert (c <> 117) by (intros ->; discriminate). replace (c =? 117) with false by lia. rewrite A1, IH. reflexivity.
  - cbn in A1. destruct A1 as (x1 & x2 & x3 & x4 & E1 & E2 & E3 & E4 & ->). cbn. rewrite E1, E2, E3, E4, IH. reflexivity.
Qed.
Lemma items_spec r l : body r l -> Forall lit_ok l -> items r = l.
Proof. intros [H ->] B. unfold items. rewrite str_items_complete by assumption. reflexivity. Qed.
Theorem str_text_spec r l : body r l -> Forall lit_ok l -> str_text r = meaning l.
Proof. intros H B. unfold str_text. rewrite (items_spec r l H B). reflexivity. Qed.

Lemma txt_text r : string_body r -> plain_str r -> txt r = str_text r.
Proof.
  intros (l & B & Lo) P. unfold plain_str in P. rewrite (items_spec r l B Lo) in P. rewrite (str_text_spec r l B Lo).
  unfold txt. rewrite (Valid_meaning_pair_free r l B P). reflexivity.
Qed.

(** Numbers *)
Lemma parse_float_round other b r : json_number r -> parse_float other b r = round b r.
Proof.
  intros H. apply is_num_spec in H. unfold is_num in H. unfold parse_float, round.
  destruct (ReadNumber r) as [[[|c t] []]|]; try discriminate; reflexivity.
Qed.
Lemma span_all ds : Forall is_digit ds -> span_digits ds = (ds, []).
Proof.
  induction 1 as [|c ds H Hs IH]; cbn; [reflexivity|]. apply is_digitb_spec in H. rewrite H, IH. reflexivity.
Qed.
Lemma unum_uint r : json_uint r -> unum_value r = (dec r, 0).
Proof. intros [H _]. unfold unum_value. rewrite (span_all r H). rewrite app_nil_r. reflexivity. Qed.
Lemma uint_not_minus r : json_uint r -> neg r = false.
Proof. intros [H (c & q & -> & _)]. inversion H as [|? ? D _]; subst. unfold is_digit in D. cbn. lia. Qed.
Lemma int_value_uint r : json_uint r -> int_value r = dec r.
Proof. intros H. pose proof (uint_not_minus r H) as N. unfold int_value. destruct r as [|c q]; [reflexivity|]. cbn in N. destruct c as [|c|c]; try reflexivity. do 6 (destruct c as [c|c|]; try reflexivity). discriminate. Qed.
Lemma num_value_int r : json_int r -> num_value r = (int_value r, 0).
Proof.
  intros H. inversion H as [? U|q U]; subst.
  - rewrite (int_value_uint r U), <- (unum_uint r U). pose proof (uint_not_minus r U) as N. unfold num_value. destruct r as [|c q]; [reflexivity|]. cbn in N.
    destruct c as [|c|c]; try reflexivity. do 6 (destruct c as [c|c|]; try reflexivity). discriminate.
  - cbn. rewrite (unum_uint q U). reflexivity.
Qed.
Lemma dec_bound ds : Forall is_digit ds -> 0 <= dec ds < 10 ^ Z.of_nat (length ds).
Proof.
  intros H. unfold dec. enough (G : forall acc, 0 <= acc -> 0 <= dec_from acc ds < (acc + 1) * 10 ^ Z.of_nat (length ds)) by (specialize (G 0 ltac:(lia)); lia).
  induction H as [|c ds D Ds IH]; intros acc Ha; cbn [dec_from length]; [lia|].
  unfold is_digit in D. specialize (IH (acc * 10 + (c - 48)) ltac:(lia)). rewrite Nat2Z.inj_succ, Z.pow_succ_r by lia.
  pose proof (Z.pow_pos_nonneg 10 (Z.of_nat (length ds)) ltac:(lia) ltac:(lia)). nia.
Qed.
Lemma minus_zero_neg r : json_int r -> minus_zero r (int_value r) = true -> r = [45; 48].
Proof.
  intros H M. assert (N : neg r = true). { unfold minus_zero in M. destruct r as [|c q]; [discriminate|]. destruct c as [|c|c]; try discriminate. do 6 (destruct c as [c|c|]; try discriminate). reflexivity. }
  inversion H as [? U|q U]; subst; [rewrite (uint_not_minus r U) in N; discriminate|]. cbn in M. f_equal.
  destruct U as [D (c & q' & -> & Hz)]. inversion D as [|? ? D1 D2]; subst. unfold is_digit in D1.
  assert (dec (c :: q') = 0) by lia. pose proof (dec_cons c q') as Dc. pose proof (dec_bound q' D2).
  assert (P : 0 < 10 ^ Z.of_nat (length q')) by (apply Z.pow_pos_nonneg; lia).
  assert (c = 48) by nia. rewrite (Hz ltac:(assumption)). congruence.
Qed.
Lemma int_abs_bound r : json_int r -> Z.abs (int_value r) < 10 ^ Z.of_nat (length r).
Proof.
  intros H. inversion H as [? U|q U]; subst.
  - rewrite (int_value_uint r U). pose proof (dec_bound r (proj1 U)). lia.
  - cbn. pose proof (dec_bound q (proj1 U)). pose proof (Z.pow_le_mono_r 10 (Z.of_nat (length q)) (Z.of_nat (S (length q)))). cbn in *. lia.
Qed.
Lemma small_not_big b z n : Z.abs z < 10 ^ n -> 0 <= n <= 38 -> too_big b (z, 0) = false.
Proof.
  intros H Hn. pose proof (Z.pow_le_mono_r 10 n 38 ltac:(lia) ltac:(lia)). unfold too_big. replace (0 <=? 0) with true by lia. rewrite Z.pow_0_r, Z.mul_1_r.
  apply Z.leb_gt. assert (10 ^ 38 < 2 ^ 128 - 2 ^ 103) by reflexivity. assert (2 ^ 128 - 2 ^ 103 < 2 ^ 1024 - 2 ^ 970) by reflexivity. destruct b; lia.
Qed.
(** The fast path for short integers (C34). *)
Lemma float_int_round C b r : json_int r -> float_sound r -> float_of_int_tok C b r = round b r.
Proof.
  intros H N. unfold float_of_int_tok. destruct (Z.ltb_spec (Z.of_nat (length r)) (match b with B32 => 8 | B64 => 16 end)) as [L|L].
  - unfold round. rewrite (num_value_int r H). rewrite (small_not_big b _ (Z.of_nat (length r))); [|apply int_abs_bound, H|destruct b; lia].
    unfold float_of_int. destruct (minus_zero r (int_value r)) eqn:E; [|reflexivity]. apply minus_zero_neg in E; [|exact H]. contradiction.
  - apply parse_float_round. left. exact H.
Qed.

(** Integers *)
Section Agree.
Variables (C : cfg) (O : opts) (s : bytes).
Notation dval := (dval C O s).
Notation ideal := (ideal C O s).
Notation sound := (sound C O).

Lemma atoi_exact k r : json_int r -> (nk_signed k = false -> neg r = false) -> int_sound C k r -> atoi (c_w64 C) k r = exact (kind_of C k) (int_value r).
Proof.
  intros J M S. assert (U : nk_signed k = false -> json_uint r).
  { intros Hk. specialize (M Hk). inversion J; subst; [assumption|]. discriminate M. }
  unfold int_sound, narrow, digits_of, kind_of in *. unfold atoi. destruct k as [sg w]. cbn [nk_signed nk_w] in *.
  pose proof (sgn_beh_char I8k 3 (int_value r) ltac:(auto with kinds) eq_refl ltac:(vm_compute; congruence) ltac:(vm_compute; congruence)) as [_ A1].
  pose proof (sgn_beh_char I16k 5 (int_value r) ltac:(auto with kinds) eq_refl ltac:(vm_compute; congruence) ltac:(vm_compute; congruence)) as [_ A2].
  pose proof (sgn_beh_char I32k 10 (int_value r) ltac:(auto with kinds) eq_refl ltac:(vm_compute; congruence) ltac:(vm_compute; congruence)) as [_ A3].
  destruct sg; [clear U M|specialize (U eq_refl); rewrite (int_value_uint r U)]; destruct w; try destruct (c_w64 C); cbn [wsize wb Z.mul Pos.mul] in *.
  all: try (rewrite I8_beh by exact J; apply A1, S; reflexivity).
  all: try (rewrite I16_beh by exact J; apply A2, S; reflexivity).
  all: try (rewrite I32_beh by exact J; apply A3, S; reflexivity).
  all: try (apply I64_exact; exact J).
  all: first [apply U8_exact|apply U16_exact|apply U32_exact|apply U64_exact]; exact U.
Qed.
Lemma minus_neg r : minus r = neg r.
Proof. reflexivity. Qed.
Lemma int_tok_lit k r : json_int r -> int_sound C k r -> lint (int_of_tok C k r) = int_lit C k r.
Proof.
  intros J S. unfold int_of_tok, int_lit. rewrite minus_neg. destruct (negb (nk_signed k) && neg r) eqn:E; [reflexivity|].
  rewrite (atoi_exact k r J); [|intros Hk; rewrite Hk in E; exact E|exact S]. unfold exact. destruct (in_rangeb _ _); reflexivity.
Qed.
Lemma int_str_text k r : quoted_sound r -> int_sound C k r -> int_of_str C k r = Ok (int_text C k r).
Proof.
  intros Q S. unfold int_of_str, int_text. destruct (is_int r) eqn:Ei.
  - pose proof (proj1 (is_int_spec r) Ei) as J. unfold is_int in Ei. destruct (ReadNumber r) as [[[|c t] []]|]; try discriminate.
    rewrite minus_neg. destruct (negb (nk_signed k) && neg r) eqn:E; [reflexivity|].
    rewrite (atoi_exact k r J); [|intros Hk; rewrite Hk in E; exact E|exact S]. unfold exact. cbn. destruct (in_rangeb _ _); reflexivity.
  - cbn. apply quoted_scan in Q as [Q|[t Q]]; [|rewrite Q; reflexivity]. unfold is_num in Q. unfold is_int in Ei. destruct (ReadNumber r) as [[[|c t] []]|]; try discriminate; reflexivity.
Qed.

Lemma index_none v : match index_bs v with Some _ => None | None => Some v end = (if existsb (Z.eqb 92) v then None else Some v).
Proof.
  destruct (existsb (Z.eqb 92) v) eqn:E.
  - destruct (index_bs v) eqn:I; [reflexivity|]. exfalso. revert I. clear - E. induction v as [|c v IH]; [discriminate|]. cbn [existsb] in E. cbn [index_bs].
    rewrite Z.eqb_sym. destruct (92 =? c) eqn:Ec; [discriminate|]. cbn in E. intros H. apply IH; [exact E|]. destruct (index_bs v); [discriminate|reflexivity].
  - destruct (index_bs v) eqn:I; [|reflexivity]. exfalso. revert n I. induction v as [|c v IH]; [discriminate|]. cbn [existsb] in E. apply orb_false_iff in E as [E1 E2].
    cbn [index_bs]. rewrite Z.eqb_sym, E1. intros n. destruct (index_bs v); [|discriminate]. intros _. eapply IH; [exact E2|reflexivity].
Qed.

(** any *)
Lemma nany_generic v : lexed s v -> plain_all v -> nany C v = generic v.
Proof.
  induction v as [i|i b|i r|i r|i r|i j l IH|i j l IH] using jv_ind'; intros L P; try reflexivity.
  - cbn. rewrite parse_float_round by (left; apply L). reflexivity.
  - cbn. rewrite parse_float_round by (right; apply L). reflexivity.
  - cbn. rewrite txt_text by (apply L || exact P). reflexivity.
  - apply lexed_arr in L as (_ & _ & _ & L). cbn [nany generic plain_all] in *.
    enough (G : forall acc, (fix go (acc : list jany) (l : list jv) : option jany :=
         match l with [] => Some (NArr acc) | x :: r => match nany C x with Some a => go (acc ++ [a]) r | None => None end end) acc l =
       option_map (fun b => NArr (acc ++ b)) ((fix go (l : list jv) : option (list jany) :=
         match l with [] => Some [] | x :: r => match generic x, go r with Some a, Some b => Some (a :: b) | _, _ => None end end) l)).
    { rewrite G. destruct (_ l); reflexivity. }
    induction IH as [|x l Hx IH IHl]; intros acc; [cbn; rewrite app_nil_r; reflexivity|].
    inversion L as [|? ? L1 L2]; subst. destruct P as [P1 P2]. rewrite Hx by assumption. destruct (generic x) as [a|]; [|reflexivity].
    rewrite (IHl L2 P2). destruct (_ l); cbn; [rewrite <- app_assoc; reflexivity|reflexivity].
  - apply lexed_obj in L as (_ & _ & _ & L). cbn [nany generic plain_all] in *.
    enough (G : forall acc, (fix go (acc : list (bytes * jany)) (l : list ((nat * bytes) * jv)) : option jany :=
         match l with [] => Some (NObj acc) | x :: r => match nany C (snd x) with
                     | Some a => go (nassoc_put acc (txt (snd (fst x))) a) r | None => None end end) acc l =
       option_map NObj ((fix go (acc : list (bytes * jany)) (l : list ((nat * bytes) * jv)) : option (list (bytes * jany)) :=
         match l with [] => Some acc | x :: r => match generic (snd x) with
                     | Some a => go (nassoc_put acc (str_text (snd (fst x))) a) r | None => None end end) acc l)) by apply G.
    induction IH as [|x l Hx IH IHl]; intros acc; [reflexivity|].
    inversion L as [|? ? [[_ L0] L1] L2]; subst. destruct P as [[P0 P1] P2]. rewrite Hx by assumption. destruct (generic (snd x)) as [a|]; [|reflexivity].
    rewrite (txt_text _ L0 P0). apply (IHl L2 P2).
Qed.

Lemma quoted_same r : match quoted_inner r with Some b => LSet (VStr b) | None => LErr EUnexpected end =
  (if (4 <=? length r)%nat && bytes_eqb (firstn 2 r) [92; 34] && bytes_eqb (skipn (length r - 2) r) [92; 34]
         && negb (existsb (Z.eqb 92) (firstn (length r - 4) (skipn 2 r)))
      then LSet (VStr (firstn (length r - 4) (skipn 2 r))) else LErr EUnexpected).
Proof.
  unfold quoted_inner. cbv zeta. rewrite index_none. destruct (Nat.ltb_spec (length r) 4), (Nat.leb_spec 4 (length r)); try lia; try reflexivity.
  destruct (bytes_eqb (firstn 2 r) [92; 34]); [|reflexivity]. destruct (bytes_eqb (skipn (length r - 2) r) [92; 34]); [|reflexivity]. cbn [negb orb andb].
  destruct (existsb _ _); reflexivity.
Qed.

Lemma scalar_agree x v : lexed s v -> sound_sc C x v -> scalarv C x v = ideal_sc C x v.
Proof.
  intros L S.
  assert (Fl : forall b r, json_number r -> lfloat (parse_float (c_pf C) b r) = float_lit b r).
  { intros b r H. rewrite parse_float_round by exact H. reflexivity. }
  destruct x, v; cbn [scalarv ideal_sc]; try reflexivity.
  - rewrite txt_text; [reflexivity|apply L|exact S].
  - cbn in S. destruct (is_num raw) eqn:E.
    + unfold is_num in E. destruct (ReadNumber raw) as [[[|c t] []]|]; try discriminate; reflexivity.
    + apply quoted_scan in S as [S|[t S]]; [congruence|rewrite S; reflexivity].
  - apply int_tok_lit; [apply L|exact S].
  - unfold float_lit. rewrite float_int_round; [reflexivity|apply L|exact S].
  - apply Fl. right. apply L.
  - unfold lany. rewrite parse_float_round by (left; apply L). reflexivity.
  - unfold lany. rewrite parse_float_round by (right; apply L). reflexivity.
  - cbn. rewrite txt_text; [reflexivity|apply L|exact S].
  - rewrite nany_generic; [reflexivity|exact L|exact S].
  - rewrite nany_generic; [reflexivity|exact L|exact S].
  - apply quoted_same.
  - destruct S as [S1 S2]. rewrite int_str_text by assumption. destruct (int_text C k raw); reflexivity.
  - cbn in S. destruct (is_num raw) eqn:E.
    + pose proof (proj1 (is_num_spec raw) E) as J. unfold is_num in E. destruct (ReadNumber raw) as [[[|c t] []]|]; try discriminate; apply Fl, J.
    + apply quoted_scan in S as [S|[t S]]; [congruence|rewrite S; reflexivity].
Qed.

Lemma key_agree k r : string_body r -> sound_key C k r -> keyv C k r = Ok (ideal_key C k r).
Proof.
  intros B S. destruct k as [|k|id z]; cbn in *.
  - rewrite txt_text by assumption. reflexivity.
  - destruct S as [S1 S2]. rewrite int_str_text by assumption. destruct (int_text C k r); reflexivity.
  - rewrite txt_text by assumption. destruct (c_ut C id [] (str_text r)) as [new [er|]]; reflexivity.
Qed.

Lemma elems_agree (f f' : vdec) (Q : gval -> Prop) : forall l gs, Forall Q gs ->
  Forall (fun v => forall g, Q g -> f v g = f' v g) l -> elemsv f l gs = elemsv f' l gs.
Proof.
  induction l as [|v l IH]; intros gs A H; [reflexivity|]. destruct gs as [|g gs]; [reflexivity|]. cbn [elemsv].
  inversion A as [|? ? A1 A2]; subst. inversion H as [|? ? H1 H2]; subst. rewrite H1 by assumption. destruct (f' v g); try reflexivity. rewrite (IH gs) by assumption. reflexivity.
Qed.
Lemma elemsv_length f : forall l gs, match elemsv f l gs with VOk gs' => length gs' = length gs | VErr _ _ gs' => length gs' = length gs | VPan => True end.
Proof.
  induction l as [|v l IH]; intros gs; [reflexivity|]. destruct gs as [|g gs]; [exact I|]. cbn [elemsv]. destruct (f v g); try exact I; [|reflexivity].
  specialize (IH gs). destruct (elemsv f l gs); cbn in *; try exact I; congruence.
Qed.
Lemma carried_spec t : match fast_et t with Some _ => false | None => isElemComposite (dt_et t) end = carried t.
Proof.
  destruct t; try reflexivity; cbn [fast_et dt_et carried];
  match goal with
  | x : sc |- _ => destruct x; reflexivity
  | t : dt |- _ => destruct t; try reflexivity; cbn [fast_et]; match goal with x : sc |- _ => destruct x; reflexivity end
  end.
Qed.
Lemma slice_agree (f f' : vdec) t fast keep l g : typed (DSlice t) g -> Forall (fun v => forall g, typed t g -> f v g = f' v g) l ->
  slicev f (zero t) fast keep l g = slicev f' (zero t) fast keep l g.
Proof.
  intros T H. unfold slicev. destruct l as [|v0 l0]; [reflexivity|].
  assert (Ct : Forall (typed t) (fst (contents g)) /\ Forall (typed t) (snd (contents g))).
  { cbn [typed] in T. destruct g as [| | | | | | | |[[vis hid]|]| | |]; try contradiction; cbn; auto. }
  destruct (contents g) as [vis hid]. cbn [fst snd] in Ct. destruct Ct as [Hv Hh].
  rewrite (elems_agree f f' (typed t) (v0 :: l0) (vis ++ hid)); [|apply Forall_app; auto|exact H].
  rewrite (elems_agree f f' (typed t) (v0 :: l0) (if keep then _ else _)); [reflexivity| |exact H].
  destruct keep; [apply Forall_app; split; [exact Hv|]|]; apply Forall_repeat, zero_typed.
Qed.

(** Sound documents contain no empty quoted number. *)
Lemma quoted_nonempty r : quoted_sound r -> r <> [].
Proof. intros [H _]. exact H. Qed.
Lemma field_for_pick fs r : (o_nounescape O = true \/ plain_str r) -> string_body r ->
  field_for C O fs r = pick (c_fold C) (o_nofold O) (map (fun x => fst (fst x)) fs) (if o_nounescape O then r else txt r).
Proof. intros H B. unfold field_for, key_text. destruct (o_nounescape O); [reflexivity|]. destruct H as [H|H]; [discriminate|]. rewrite txt_text by assumption. reflexivity. Qed.
Lemma sound_nonempty d : forall v, lexed s v -> sound d v -> no_empty_number C O d v.
Proof.
  unfold no_empty_number.
  induction d as [x|id z|id z| |n t IH| |t IH|k t IH| |t IH|z fs IH] using dt_ind'; intros v L S; try exact I.
  - cbn in *. destruct x, v; try exact I; cbn in *; try (apply quoted_nonempty; tauto).
  - cbn [leaves Spec.sound] in *. destruct v; try exact I. apply lexed_arr in L as (_ & _ & _ & L). destruct S as [_ S]. rewrite Forall_forall in *. intros x Hx.
    apply IH; [apply L|apply S, Hx]. rewrite <- (firstn_skipn n l). apply in_or_app. left. exact Hx.
  - cbn [leaves]. destruct v; try exact I. apply lexed_arr in L as (_ & _ & _ & L). rewrite Forall_forall in *. intros x Hx.
    destruct t; try (apply IH; [apply L, Hx|cbn [Spec.sound] in S; rewrite Forall_forall in S; apply S, Hx]); exact I.
  - cbn [leaves Spec.sound] in *. destruct v; try exact I. apply lexed_obj in L as (_ & _ & _ & L). rewrite Forall_forall in *. intros x Hx.
    destruct (S x Hx) as [S1 S2]. destruct (L x Hx) as [_ L2]. split; [|apply IH; assumption]. destruct k; try exact I. cbn in *. apply quoted_nonempty. tauto.
  - cbn [leaves Spec.sound] in *. destruct v; try exact I; apply IH; assumption.
  - cbn [leaves Spec.sound] in *. destruct v; try exact I. apply lexed_obj in L as (_ & _ & _ & L). rewrite Forall_forall in S, L. apply Forall_forall. intros x Hx.
    destruct (S x Hx) as [S1 S2]. destruct (L x Hx) as [[_ B] L2]. rewrite (field_for_pick fs _ S1 B) in S2.
    destruct (pick _ _ _ _) as [jf|]; [|exact I]. destruct (nth_error fs jf) as [y|] eqn:Ey.
    + rewrite (map_nth_error (fun x => leaves C O nonempty_sc nonempty_key (snd x)) jf fs Ey). rewrite (map_nth_error (fun x => Spec.sound C O (snd x)) jf fs Ey) in S2.
      rewrite Forall_forall in IH. apply (IH y (nth_error_In _ _ Ey)); assumption.
    + clear S2. match goal with |- match ?X with _ => _ end => replace X with (@None (jv -> Prop)); [exact I|symmetry; apply nth_error_None; rewrite map_length; apply nth_error_None, Ey] end.
Qed.

Lemma source_raw v r : jraw s v = Ok r -> r = source s v.
Proof.
  intros H. unfold source. assert (E : sub s (jidx v) (jend v) = Ok r) by (destruct v; exact H).
  unfold sub, slice in E. destruct (_ && _); [|discriminate]. injection E as <-. reflexivity.
Qed.
Lemma find_none_objects l : forallb null_or_object l = true -> find (fun x => negb (null_or_object x)) l = None.
Proof. induction l as [|x l IH]; cbn; [reflexivity|]. destruct (null_or_object x); [exact IH|discriminate]. Qed.

(** On sound documents the recursive decoder is the ideal one. *)
Theorem dval_ideal d : forall v g, lexed s v -> sound d v -> typed d g -> dval d v g = ideal d v g.
Proof.
  induction d as [x|id z|id z| |n t IH| |t IH|k t IH| |t IH|z fs IH] using dt_ind'; intros v g L S T.
  - cbn [Dval.dval Spec.ideal]. rewrite scalar_agree by assumption. reflexivity.
  - cbn [Dval.dval Spec.ideal]. destruct v; try reflexivity. rewrite txt_text; [reflexivity|apply L|exact S].
  - cbn [Dval.dval Spec.ideal]. destruct (jraw_ok s v L) as [r E]. rewrite E, (source_raw v r E). reflexivity.
  - reflexivity.
  - cbn [Dval.dval Spec.ideal Spec.sound] in *. destruct v as [i|i b|i r|i r|i r|i j l|i j l]; try reflexivity. cbn [typed] in T. destruct g as [| | | | | |gs| | | | |]; try reflexivity.
    destruct T as [Lg Ag]. apply lexed_arr in L as (_ & _ & _ & L). destruct S as [Sn S].
    rewrite (elems_agree (dval t) (ideal t) (typed t)); [|exact Ag|].
    2: { rewrite Forall_forall in *. intros x Hx g Tg. apply IH; [apply L|apply S, Hx|exact Tg]. rewrite <- (firstn_skipn n l). apply in_or_app. left. exact Hx. }
    pose proof (elemsv_length (ideal t) (firstn n l) gs) as El. destruct (elemsv (ideal t) (firstn n l) gs); try reflexivity. cbn [vmap].
    rewrite firstn_all2 by lia. replace (n - length l)%nat with 0%nat by lia. rewrite app_nil_r. reflexivity.
  - reflexivity.
  - cbn [Dval.dval Spec.ideal Spec.sound] in *. destruct v as [i|i b|i r|i r|i r|i j l|i j l]; try reflexivity; [destruct t; reflexivity || contradiction|].
    rewrite carried_spec. apply lexed_arr in L as (_ & _ & _ & L).
    assert (H : t <> DEmpty -> Forall (fun v => forall g, typed t g -> dval t v g = ideal t v g) l).
    { intros Nt. rewrite Forall_forall in *. intros x Hx g' Tg. apply IH; [apply L, Hx| |exact Tg].
      destruct t; try (rewrite Forall_forall in S; apply S, Hx). congruence. }
    destruct t; try (apply slice_agree; [exact T|apply H; discriminate]). rewrite find_none_objects by exact S. reflexivity.
  - cbn [Dval.dval Spec.ideal Spec.sound] in *. destruct v as [i|i b|i r|i r|i r|i j l|i j l]; try reflexivity. apply lexed_obj in L as (_ & _ & _ & L). f_equal.
    set (m0 := match g with VMap (Some m) => m | _ => [] end).
    assert (T0 : Forall (fun x => typed t (snd x)) m0).
    { unfold m0. cbn [typed] in T. destruct g as [| | | | | | | | |[m|]| |]; try contradiction; [apply T|]. constructor. }
    revert T0. generalize m0. clear m0 T g. induction l as [|[[p0 kr] v] l IHl]; intros m Tm; [reflexivity|]. cbn [entriesv ideal_entries fst snd].
    inversion L as [|? ? [[_ B] L1] L2]; subst. inversion S as [|? ? [S1 S2] S3]; subst. cbn [fst snd] in *. rewrite key_agree by assumption.
    destruct (ideal_key C k kr) as [key|e]; [|reflexivity].
    set (old := match getk m key with Some g => if is_struct t then zero t else g | None => zero t end).
    assert (To : typed t old).
    { unfold old. pose proof (getk_of (typed t) m key Tm) as G. pose proof (zero_typed t). destruct (getk m key); [destruct (is_struct t)|]; assumption. }
    pose proof (dval_typed C O s t v old L1 (sound_nonempty t v L1 S2) To) as Q. rewrite (IH v old L1 S2 To) in *.
    destruct (ideal t v old) as [g'|i' e g'|]; try reflexivity. apply IHl; [assumption|assumption|]. apply (putk_of (typed t)); assumption.
  - cbn [Dval.dval Spec.ideal Spec.sound] in *. destruct v as [i|i b|i r|i r|i r|i j l|i j l]; try reflexivity. apply lexed_obj in L as (_ & _ & _ & L).
    enough (G : forall acc, mssv l acc = ideal_mss l acc) by (rewrite G; reflexivity).
    induction l as [|[[p0 kr] v] l IHl]; intros acc; [reflexivity|]. inversion L as [|? ? [[_ B] L1] L2]; subst. inversion S as [|? ? [S1 S2] S3]; subst. cbn [fst snd] in *.
    cbn [mssv ideal_mss fst snd]. destruct v; try reflexivity; rewrite (txt_text kr B S1); [apply IHl; assumption|]. rewrite (txt_text raw (proj2 L1) S2). apply IHl; assumption.
  - cbn [Dval.dval Spec.ideal Spec.sound] in *. destruct v; try reflexivity; rewrite IH by (assumption || apply zero_typed); reflexivity.
  - cbn [Dval.dval Spec.ideal Spec.sound] in *. destruct v as [i|i b|i r|i r|i r|i j l|i j l]; try reflexivity.
    assert (Tg : exists gs, g = VStruct gs /\ typed_fields fs gs) by (apply (typed_struct z fs g), T). clear T. destruct Tg as (gs & -> & T). f_equal.
    apply lexed_obj in L as (_ & _ & _ & L). revert gs T. induction l as [|[[p0 kr] v] l IHl]; intros gs T; [reflexivity|].
    inversion L as [|? ? [[_ B] L1] L2]; subst. inversion S as [|? ? [S1 S2] S3]; subst. cbn [fst snd] in *. cbn [membersv ideal_members fst snd].
    rewrite <- (field_for_pick fs kr S1 B). destruct (field_for C O fs kr) as [jf|] eqn:Ff; [|destruct (o_unknown O); [reflexivity|apply IHl; assumption]].
    unfold field_for in Ff. pose proof (pick_lt _ _ _ _ _ Ff) as Hj. rewrite map_length in Hj.
    destruct (nth_error fs jf) as [y|] eqn:Ey; [|apply nth_error_None in Ey; lia].
    rewrite (map_nth_error (fun x => Spec.sound C O (snd x)) jf fs Ey) in S2.
    destruct (typed_fields_nth fs gs jf y T Ey) as (g & Eg & Tg). rewrite Eg.
    match goal with |- match ?X with Some _ => _ | None => _ end = match ?Y with Some _ => _ | None => _ end =>
      assert (E1 : X = Some (dval (snd y))) by (exact (map_nth_error _ jf fs Ey)); assert (E2 : Y = Some (ideal (snd y))) by (exact (map_nth_error _ jf fs Ey)); rewrite E1, E2; clear E1 E2 end.
    rewrite Forall_forall in IH. pose proof (dval_typed C O s (snd y) v g L1 (sound_nonempty _ v L1 S2) Tg) as Q.
    rewrite (IH y (nth_error_In _ _ Ey) v g L1 S2 Tg) in *. destruct (ideal (snd y) v g) as [g'|i' e g'|]; try reflexivity.
    apply IHl; [assumption|assumption|]. eapply typed_fields_set; eassumption.
Qed.
End Agree.

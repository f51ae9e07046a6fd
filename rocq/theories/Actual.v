(** What Decode does, exactly, including the leaves on which it deviates from the ideal
    decoder of Spec.v: [actual d v g] is total and has no side condition such as [sound].

    Specification part: definitions up to the first lemma.  The deviations are written out
    one by one and marked DEVIATION:
    - each \u escape of a string is translated on its own: both halves of a surrogate pair
      become U+FFFD (C08);
    - some integers that do not fit a narrow signed type are stored modulo 2^width (C03);
    - the literal -0 is stored as +0 in floats (C34);
    - the empty string for a number panics, and for a number followed by other bytes the
      whole string is used (C05);
    - array elements without an element in the document keep their value (C22);
    - []struct{} does not look at its elements, and null leaves it as it is (C19, C35). *)
From Verif Require Import Base NumSpec StrSpec JsonNum JsonNumProofs Atoi AtoiProofs AtoiAny Unescape UnescapeProofs Types Token FloatLit Heap Machine Dt Dec Value Dval Sep Refine Typed Parse Spec SpecProofs.
Open Scope Z_scope.

(** DEVIATION: the text of a string, each escape on its own ([item_unit], StrSpec.v). *)
Definition units_text (r : bytes) : bytes := meaning_units (items r).
(** The string is an integer (a number), or one followed by other bytes: its longest prefix
    that can be completed to a number is one.  (Decided by the scanner; see
    [starts_int_spec], [starts_num_spec].) *)
Definition starts_int (r : bytes) : bool := match ReadNumber r with Some (_, RInteger) => true | _ => false end.
Definition starts_num (r : bytes) : bool := match ReadNumber r with Some (_, RInteger) | Some (_, RNumber) => true | _ => false end.

Section Actual.
Variables (C : cfg) (O : opts) (s : bytes).

(** DEVIATION: [v] is outside the type, but is stored modulo 2^width: it has at most as many
    digits as the largest value of the type, and the sign survives. *)
Definition wrapsb (k : nk) (v : Z) : bool :=
  narrow C k && negb (in_rangeb (kind_of C k) v) && (Z.abs v <? 10 ^ Z.of_nat (digits_of C k))
  && (if 0 <=? v then 0 <=? wrap (kind_of C k) v else wrap (kind_of C k) v <=? 0).
Definition act_int (k : nk) (r : bytes) : lres :=
  if negb (nk_signed k) && neg r then LErr EUnexpected
  else if in_rangeb (kind_of C k) (int_value r) then LSet (VInt (int_value r))
  else if wrapsb k (int_value r) then LSet (VInt (wrap (kind_of C k) (int_value r)))
  else LErr EOverflow.
(** An integer inside a string; the error is the same for all causes.  None: a panic. *)
Definition act_int_text (k : nk) (r : bytes) : option (Z + err) :=
  match r with
  | [] => None
  | _ =>
      if is_int r then
        Some (match act_int k r with LSet (VInt z) => inl z | _ => inr EUnexpected end)
      else if starts_int r then (* DEVIATION: every byte is taken as a digit ([any_digits], AtoiAny.v) *)
        if negb (nk_signed k) && neg r then Some (inr EUnexpected)
        else Some (match any_digits (kind_of C k) r with Some z => inl z | None => inr EUnexpected end)
      else Some (inr EUnexpected)
  end.
(** DEVIATION: -0 *)
Definition act_float (b : fbits) (r : bytes) : lres :=
  if bytes_eqb r [45; 48] then LSet (VFloat (FN 0 0 false)) else float_lit b r.

Fixpoint act_generic (v : jv) : option jany :=
  match v with
  | JNull _ => Some NNil
  | JBool _ b => Some (NBool b)
  | JInt _ r | JNum _ r => option_map NNum (round B64 r)
  | JStr _ r => Some (NStr (units_text r))
  | JArr _ _ l =>
      option_map NArr ((fix go (l : list jv) : option (list jany) :=
         match l with
         | [] => Some []
         | x :: r => match act_generic x, go r with Some a, Some b => Some (a :: b) | _, _ => None end
         end) l)
  | JObj _ _ l =>
      option_map NObj ((fix go (acc : list (bytes * jany)) (l : list ((nat * bytes) * jv)) : option (list (bytes * jany)) :=
         match l with
         | [] => Some acc
         | x :: r => match act_generic (snd x) with
                     | Some a => go (nassoc_put acc (units_text (snd (fst x))) a) r
                     | None => None
                     end
         end) [] l)
  end.

Definition act_sc (x : sc) (v : jv) : lres :=
  match x, v with
  | SStr, JStr _ r => LSet (VStr (units_text r))
  | SNumber, JStr _ r => match r with [] => LPan | _ => if starts_num r then LSet (VStr r) else LErr EUnexpected end
  | SInt k, JInt _ r => act_int k r
  | SFloat b, JInt _ r => act_float b r
  | SAny, (JInt _ r | JNum _ r) => match round B64 r with Some f => LSet (VAny (NNum f)) | None => LErr EParse end
  | SAny, v => match act_generic v with Some a => LSet (VAny a) | None => LErr EUnexpected end
  | SIntQ k, JStr _ r => match act_int_text k r with Some (inl z) => LSet (VInt z) | Some (inr e) => LErr e | None => LPan end
  | SFloatQ b, JStr _ r =>
      match r with
      | [] => LPan
      | _ => if is_num r then float_lit b r
             else if starts_num r (* DEVIATION: what strconv.ParseFloat makes of it *)
                  then match c_pf C b r with Some f => LSet (VFloat f) | None => LErr EParse end
             else LErr EUnexpected
      end
  | x, v => ideal_sc C x v
  end.

Definition act_key_text (r : bytes) : bytes := if o_nounescape O then r else units_text r.
Definition act_field_for (fs : list ((bytes * Z) * dt)) (key : bytes) : option nat :=
  pick (c_fold C) (o_nofold O) (map (fun x => fst (fst x)) fs) (act_key_text key).
Definition act_key (k : dkey) (r : bytes) : option (gkey + err) :=
  match k with
  | KeyStr => Some (inl (GStr (units_text r)))
  | KeyInt k => match act_int_text k r with Some (inl z) => Some (inl (GInt z)) | Some (inr e) => Some (inr e) | None => None end
  | KeyText id _ => let '(new, er) := c_ut C id [] (units_text r) in
                    Some (match er with Some c => inr (EUser c) | None => inl (GUser new) end)
  end.
Fixpoint act_entries (k : dkey) (f : vdec) (isstruct : bool) (z : gval) (l : list ((nat * bytes) * jv)) (m : list (gkey * gval)) : vres (list (gkey * gval)) :=
  match l with
  | [] => VOk m
  | (i, r, v) :: rest =>
      match act_key k r with
      | None => VPan
      | Some (inr e) => VErr i e m
      | Some (inl key) =>
          match f v (match getk m key with Some g => if isstruct then z else g | None => z end) with
          | VOk g => act_entries k f isstruct z rest (putk m key g)
          | VErr i e g => VErr i e (putk m key g)
          | VPan => VPan
          end
      end
  end.
Fixpoint act_mss (l : list ((nat * bytes) * jv)) (acc : list (bytes * bytes)) : list (bytes * bytes) + (nat * err) :=
  match l with
  | [] => inl acc
  | (_, r, JStr _ t) :: rest => act_mss rest (nassoc_put acc (units_text r) (units_text t))
  | (_, r, JNull _) :: rest => act_mss rest (nassoc_put acc (units_text r) [])
  | (_, _, v) :: _ => inr (jidx v, EUnexpected)
  end.

Fixpoint actual (d : dt) (v : jv) (g : gval) {struct d} : vres gval :=
  match d with
  | DSc x => lput (jidx v) (act_sc x v) g
  | DText id z =>
      match v with
      | JNull _ => VOk g
      | JStr i r => userv z i (c_ut C id (as_userv g) (units_text r))
      | _ => VErr (jidx v) EUnexpected g
      end
  | DJson id z => userv z (jidx v) (c_uj C id (as_userv g) (source s v))
  | DArr0 => match v with JNull _ | JArr _ _ _ => VOk g | _ => VErr (jidx v) EUnexpected g end
  | DArr n t =>
      match v with
      | JNull _ => VOk g
      | JArr _ _ l => (* DEVIATION: elements beyond the document keep their value *)
          match g with VArr gs => vmap VArr (elemsv (actual t) (firstn n l) gs) | _ => VPan end
      | _ => VErr (jidx v) EUnexpected g
      end
  | DEmpty => match v with JNull _ | JObj _ _ _ => VOk g | _ => VErr (jidx v) EUnexpected g end
  | DSlice t =>
      match v with
      | JNull _ => match t with DEmpty => VOk g (* DEVIATION *) | _ => VOk (VSlice None) end
      | JArr _ _ l =>
          match t with
          | DEmpty => VOk (VSlice (Some (repeat (VStruct []) (length l), []))) (* DEVIATION *)
          | _ => slicev (actual t) (zero t) (match fast_et t with Some _ => true | None => false end) (carried t) l g
          end
      | _ => VErr (jidx v) EUnexpected g
      end
  | DMap k t =>
      match v with
      | JNull _ => VOk (VMap None)
      | JObj _ _ l =>
          vmap (fun m => VMap (Some m))
            (act_entries k (actual t) (is_struct t) (zero t) l (match g with VMap (Some m) => m | _ => [] end))
      | _ => VErr (jidx v) EUnexpected g
      end
  | DMSS => (* a new map *)
      match v with
      | JNull _ => VOk (VMSS None)
      | JObj _ _ l => match act_mss l [] with inl m => VOk (VMSS (Some m)) | inr (i, e) => VErr i e g end
      | _ => VErr (jidx v) EUnexpected g
      end
  | DPtr t =>
      match v with
      | JNull _ => VOk (VPtr None)
      | _ => vmap (fun g => VPtr (Some g)) (actual t v (zero t))
      end
  | DStruct _ fs =>
      match v with
      | JNull _ => VOk g
      | JObj _ _ l =>
          match g with
          | VStruct gs => vmap VStruct (ideal_members O (act_field_for fs) (map (fun x => actual (snd x)) fs) l gs)
          | _ => VPan
          end
      | _ => VErr (jidx v) EUnexpected g
      end
  end.
End Actual.

(** ** The definitions above say what they should *)
Theorem starts_int_spec r : starts_int r = true <-> exists p t, longest_viable r p t /\ json_int p.
Proof.
  unfold starts_int. destruct r as [|c r0].
  - split; [discriminate|]. intros (p & t & (E & _) & J). destruct p; [|discriminate].
    exfalso. inversion J as [? [_ (x & q & E' & _)]|]; discriminate.
  - destruct (ReadNumber_spec (c :: r0) ltac:(discriminate)) as (p & t & k & t' & V & E & Ki & _ & _ & _). rewrite E. split.
    + intros H. exists p, t. split; [exact V|]. apply Ki. destruct k; try discriminate. reflexivity.
    + intros (p' & t2 & V' & J). destruct (longest_viable_unique _ _ _ _ _ V V') as [<- <-]. apply Ki in J as ->. reflexivity.
Qed.
Theorem starts_num_spec r : starts_num r = true <-> exists p t, longest_viable r p t /\ json_number p.
Proof.
  unfold starts_num. destruct r as [|c r0].
  - split; [discriminate|]. intros (p & t & (E & _) & J). destruct p; [|discriminate]. apply is_num_spec in J. discriminate.
  - destruct (ReadNumber_spec (c :: r0) ltac:(discriminate)) as (p & t & k & t' & V & E & _ & _ & Ke & _). rewrite E. split.
    + intros H. exists p, t. split; [exact V|]. destruct (is_num p) eqn:Ep; [apply is_num_spec, Ep|]. exfalso.
      assert (N : ~ json_number p) by (rewrite <- is_num_spec; congruence). apply Ke in N as ->. discriminate.
    + intros (p' & t2 & V' & J). destruct (longest_viable_unique _ _ _ _ _ V V') as [<- <-].
      destruct k; try reflexivity. exfalso. apply (proj1 Ke eq_refl), J.
Qed.
Theorem wrapsb_spec C k v : wrapsb C k v = true <-> narrow C k = true /\ wraps_silently (kind_of C k) (digits_of C k) v.
Proof.
  unfold wrapsb, wraps_silently. rewrite !andb_true_iff, negb_true_iff, Z.ltb_lt.
  assert (R : in_rangeb (kind_of C k) v = false <-> ~ in_range (kind_of C k) v) by (rewrite <- in_rangeb_spec; destruct (in_rangeb _ _); split; congruence).
  rewrite R. destruct (Z.leb_spec 0 v); rewrite Z.leb_le; split; intros H1; decompose [and] H1; repeat split; try tauto; intros; try lia.
Qed.
Theorem units_text_spec r l : body r l -> Forall lit_ok l -> units_text r = meaning_units l.
Proof. intros H B. unfold units_text. rewrite (items_spec r l H B). reflexivity. Qed.

(** ** The recursive decoder is [actual] *)
Lemma txt_units r : string_body r -> txt r = units_text r.
Proof. intros (l & B & Lo). rewrite (units_text_spec r l B Lo). unfold txt. rewrite (Valid_units r l B). reflexivity. Qed.

Section Agree.
Variables (C : cfg) (O : opts) (s : bytes).

Lemma atoi_act k r : json_int r -> (nk_signed k = false -> neg r = false) ->
  atoi (c_w64 C) k r =
  (if in_rangeb (kind_of C k) (int_value r) then Some (int_value r, false)
   else if wrapsb C k (int_value r) then Some (wrap (kind_of C k) (int_value r), false) else Some (0, true)).
Proof.
  intros J M. destruct (wrapsb C k (int_value r)) eqn:Ew.
  - apply wrapsb_spec in Ew as [Nw Ws]. pose proof Ws as [Nr _]. rewrite <- in_rangeb_spec in Nr. destruct (in_rangeb _ _); [congruence|].
    unfold narrow in Nw. apply andb_prop in Nw as [Sg Wd].
    assert (K : (forall n, n = 8 \/ n = 16 \/ n = 32 -> True)) by auto. clear K.
    unfold atoi, kind_of, digits_of in *. destruct k as [sg w]. cbn [nk_signed nk_w] in *. subst sg.
    pose proof (sgn_beh_char I8k 3 (int_value r) ltac:(auto with kinds) eq_refl ltac:(vm_compute; congruence) ltac:(vm_compute; congruence)) as [A1 _].
    pose proof (sgn_beh_char I16k 5 (int_value r) ltac:(auto with kinds) eq_refl ltac:(vm_compute; congruence) ltac:(vm_compute; congruence)) as [A2 _].
    pose proof (sgn_beh_char I32k 10 (int_value r) ltac:(auto with kinds) eq_refl ltac:(vm_compute; congruence) ltac:(vm_compute; congruence)) as [A3 _].
    destruct w; try destruct (c_w64 C); cbn [wsize wb Z.mul Pos.mul] in *; try discriminate Wd.
    all: try (rewrite I8_beh by exact J; apply A1, Ws).
    all: try (rewrite I16_beh by exact J; apply A2, Ws).
    all: try (rewrite I32_beh by exact J; apply A3, Ws).
  - rewrite (atoi_exact C k r J M).
    + reflexivity.
    + intros Nw Ws. assert (wrapsb C k (int_value r) = true) by (apply wrapsb_spec; auto). congruence.
Qed.
Lemma act_int_tok k r : json_int r -> lint (int_of_tok C k r) = act_int C k r.
Proof.
  intros J. unfold int_of_tok, act_int. rewrite minus_neg. destruct (negb (nk_signed k) && neg r) eqn:E; [reflexivity|].
  rewrite (atoi_act k r J); [|intros Hk; rewrite Hk in E; exact E]. destruct (in_rangeb _ _); [reflexivity|]. destruct (wrapsb _ _ _); reflexivity.
Qed.
Lemma starts_int_head c r : starts_int (c :: r) = true -> c = 45 \/ is_digit c.
Proof.
  intros H. apply starts_int_spec in H as (p & t & (E & _) & J). destruct J as [u [Hd (x & q & -> & _)]|u _].
  - right. injection E as -> _. inversion_clear Hd. assumption.
  - left. injection E as -> _. reflexivity.
Qed.
Lemma atoi_any k c r : starts_int (c :: r) = true -> (nk_signed k = false -> neg (c :: r) = false) ->
  atoi (c_w64 C) k (c :: r) = res_of (any_digits (kind_of C k) (c :: r)).
Proof.
  intros St M. assert (Hd : nk_signed k = false -> is_digit (at_ (c :: r) 0)).
  { intros Hu. specialize (M Hu). cbn [neg] in M. apply Z.eqb_neq in M. destruct (starts_int_head c r St) as [->|Hd]; [congruence|exact Hd]. }
  destruct k as [[] w]; unfold atoi, kind_of; cbn [nk_signed nk_w] in *; destruct w; try destruct (c_w64 C); cbn [wsize wb Z.mul Pos.mul].
  all: first [apply I8_any|apply I16_any|apply I32_any|apply I64_any|apply U8_any|apply U16_any|apply U32_any|apply U64_any]; try discriminate; auto.
Qed.
Lemma act_int_str k r : int_of_str C k r = match act_int_text C k r with Some x => Ok x | None => Pan end.
Proof.
  unfold int_of_str, act_int_text. destruct r as [|c r0]; [reflexivity|]. destruct (is_int (c :: r0)) eqn:Ei.
  - pose proof (proj1 (is_int_spec _) Ei) as J. unfold is_int in Ei. destruct (ReadNumber (c :: r0)) as [[[|c1 t] []]|]; try discriminate.
    unfold act_int. rewrite minus_neg. destruct (negb (nk_signed k) && neg (c :: r0)) eqn:E; [reflexivity|].
    rewrite (atoi_act k _ J); [|intros Hk; rewrite Hk in E; exact E]. destruct (in_rangeb _ _); [reflexivity|]. destruct (wrapsb _ _ _); reflexivity.
  - unfold starts_int. destruct (ReadNumber (c :: r0)) as [[t k1]|] eqn:Er.
    + destruct k1; try reflexivity. rewrite minus_neg. destruct (negb (nk_signed k) && neg (c :: r0)) eqn:En; [reflexivity|].
      rewrite atoi_any; [|unfold starts_int; rewrite Er; reflexivity|intros Hk; rewrite Hk in En; exact En]. destruct (any_digits _ _); reflexivity.
    + exfalso. destruct (ReadNumber_spec (c :: r0) ltac:(discriminate)) as (p & t & k1 & t' & _ & E & _). congruence.
Qed.
Lemma act_float_int b r : json_int r -> lfloat (float_of_int_tok C b r) = act_float b r.
Proof.
  intros J. unfold act_float. destruct (bytes_eqb r [45; 48]) eqn:E.
  - apply bytes_eqb_eq in E as ->. destruct b; reflexivity.
  - rewrite float_int_round; [reflexivity|exact J|]. intros ->. discriminate.
Qed.
Lemma act_nany v : lexed s v -> nany C v = act_generic v.
Proof.
  induction v as [i|i b|i r|i r|i r|i j l IH|i j l IH] using jv_ind'; intros L; try reflexivity.
  - cbn. rewrite parse_float_round by (left; apply L). reflexivity.
  - cbn. rewrite parse_float_round by (right; apply L). reflexivity.
  - cbn. rewrite txt_units by apply L. reflexivity.
  - apply lexed_arr in L as (_ & _ & _ & L). cbn [nany act_generic] in *.
    enough (G : forall acc, (fix go (acc : list jany) (l : list jv) : option jany :=
         match l with [] => Some (NArr acc) | x :: r => match nany C x with Some a => go (acc ++ [a]) r | None => None end end) acc l =
       option_map (fun b => NArr (acc ++ b)) ((fix go (l : list jv) : option (list jany) :=
         match l with [] => Some [] | x :: r => match act_generic x, go r with Some a, Some b => Some (a :: b) | _, _ => None end end) l)).
    { rewrite G. destruct (_ l); reflexivity. }
    induction IH as [|x l Hx IH IHl]; intros acc; [cbn; rewrite app_nil_r; reflexivity|].
    inversion L as [|? ? L1 L2]; subst. rewrite Hx by assumption. destruct (act_generic x) as [a|]; [|reflexivity].
    rewrite (IHl L2). destruct (_ l); cbn; [rewrite <- app_assoc; reflexivity|reflexivity].
  - apply lexed_obj in L as (_ & _ & _ & L). cbn [nany act_generic] in *.
    enough (G : forall acc, (fix go (acc : list (bytes * jany)) (l : list ((nat * bytes) * jv)) : option jany :=
         match l with [] => Some (NObj acc) | x :: r => match nany C (snd x) with
                     | Some a => go (nassoc_put acc (txt (snd (fst x))) a) r | None => None end end) acc l =
       option_map NObj ((fix go (acc : list (bytes * jany)) (l : list ((nat * bytes) * jv)) : option (list (bytes * jany)) :=
         match l with [] => Some acc | x :: r => match act_generic (snd x) with
                     | Some a => go (nassoc_put acc (units_text (snd (fst x))) a) r | None => None end end) acc l)) by apply G.
    induction IH as [|x l Hx IH IHl]; intros acc; [reflexivity|].
    inversion L as [|? ? [[_ L0] L1] L2]; subst. rewrite Hx by assumption. destruct (act_generic (snd x)) as [a|]; [|reflexivity].
    rewrite (txt_units _ L0). apply (IHl L2).
Qed.
Lemma act_scalar x v : lexed s v -> scalarv C x v = act_sc C x v.
Proof.
  intros L.
  assert (Fl : forall b r, json_number r -> lfloat (parse_float (c_pf C) b r) = float_lit b r).
  { intros b r H. rewrite parse_float_round by exact H. reflexivity. }
  assert (Ne : forall c r, ReadNumber (c :: r) = None -> False).
  { intros c r H. destruct (ReadNumber_spec (c :: r) ltac:(discriminate)) as (p & t & k1 & t' & _ & E & _). congruence. }
  destruct x, v; cbn [scalarv act_sc ideal_sc]; try reflexivity.
  - rewrite txt_units by apply L. reflexivity.
  - destruct raw as [|c r0]; [reflexivity|]. unfold starts_num. destruct (ReadNumber (c :: r0)) as [[t []]|] eqn:E; try reflexivity. exfalso. exact (Ne _ _ E).
  - apply act_int_tok, L.
  - apply act_float_int, L.
  - apply Fl. right. apply L.
  - unfold lany. rewrite parse_float_round by (left; apply L). reflexivity.
  - unfold lany. rewrite parse_float_round by (right; apply L). reflexivity.
  - cbn. rewrite txt_units by apply L. reflexivity.
  - rewrite act_nany by exact L. reflexivity.
  - rewrite act_nany by exact L. reflexivity.
  - apply quoted_same.
  - rewrite act_int_str. destruct (act_int_text C k raw) as [[z|e]|]; reflexivity.
  - destruct raw as [|c r0]; [reflexivity|]. destruct (is_num (c :: r0)) eqn:E.
    + pose proof (proj1 (is_num_spec _) E) as J. unfold is_num in E. destruct (ReadNumber (c :: r0)) as [[[|c1 t] []]|]; try discriminate; apply Fl, J.
    + unfold starts_num, parse_float. unfold is_num in E. destruct (ReadNumber (c :: r0)) as [[[|c1 t] []]|] eqn:Er; try discriminate E; try reflexivity. exfalso. exact (Ne _ _ Er).
Qed.
Lemma act_keyv k r : string_body r -> keyv C k r = match act_key C k r with Some x => Ok x | None => Pan end.
Proof.
  intros B. destruct k as [|k|id z]; cbn [keyv act_key].
  - rewrite txt_units by exact B. reflexivity.
  - rewrite act_int_str. destruct (act_int_text C k r) as [[z|e]|]; reflexivity.
  - rewrite txt_units by exact B. destruct (c_ut C id [] (units_text r)) as [new [er|]]; reflexivity.
Qed.
Lemma elems_ext (f f' : vdec) : forall l gs, Forall (fun v => forall g, f v g = f' v g) l -> elemsv f l gs = elemsv f' l gs.
Proof.
  induction l as [|v l IH]; intros gs H; [reflexivity|]. destruct gs as [|g gs]; [reflexivity|]. cbn [elemsv].
  inversion H as [|? ? H1 H2]; subst. rewrite H1. destruct (f' v g); try reflexivity. rewrite IH by assumption. reflexivity.
Qed.
Lemma slice_ext (f f' : vdec) z fast keep l g : Forall (fun v => forall g, f v g = f' v g) l -> slicev f z fast keep l g = slicev f' z fast keep l g.
Proof.
  intros H. unfold slicev. destruct l as [|v0 l0]; [reflexivity|]. destruct (contents g) as [vis hid]. rewrite !(elems_ext f f') by exact H. reflexivity.
Qed.

Theorem dval_actual d : forall v g, lexed s v -> dval C O s d v g = actual C O s d v g.
Proof.
  induction d as [x|id z|id z| |n t IH| |t IH|k t IH| |t IH|z fs IH] using dt_ind'; intros v g L.
  - cbn [dval actual]. rewrite act_scalar by exact L. reflexivity.
  - cbn [dval actual]. destruct v; try reflexivity. rewrite txt_units by apply L. reflexivity.
  - cbn [dval actual]. destruct (jraw_ok s v L) as [r E]. rewrite E, (source_raw s v r E). reflexivity.
  - reflexivity.
  - cbn [dval actual]. destruct v as [i|i b|i r|i r|i r|i j l|i j l]; try reflexivity. destruct g; try reflexivity. f_equal. apply elems_ext.
    apply lexed_arr in L as (_ & _ & _ & L). rewrite Forall_forall in *. intros x Hx g0. apply IH, L. rewrite <- (firstn_skipn n l). apply in_or_app. left. exact Hx.
  - reflexivity.
  - cbn [dval actual]. destruct v as [i|i b|i r|i r|i r|i j l|i j l]; try reflexivity. rewrite carried_spec. apply lexed_arr in L as (_ & _ & _ & L).
    assert (H : Forall (fun v => forall g, dval C O s t v g = actual C O s t v g) l) by (rewrite Forall_forall in *; intros x Hx g0; apply IH, L, Hx).
    destruct t; try reflexivity; apply slice_ext, H.
  - cbn [dval actual]. destruct v as [i|i b|i r|i r|i r|i j l|i j l]; try reflexivity. apply lexed_obj in L as (_ & _ & _ & L). f_equal.
    generalize (match g with VMap (Some m) => m | _ => [] end). induction l as [|[[p0 kr] v] l IHl]; intros m; [reflexivity|].
    cbn [entriesv act_entries fst snd]. inversion L as [|? ? [[_ B] L1] L2]; subst. cbn [fst snd] in *. rewrite act_keyv by exact B.
    destruct (act_key C k kr) as [[key|e]|]; try reflexivity. rewrite IH by exact L1.
    destruct (actual C O s t v _) as [g'|i' e g'|]; try reflexivity. apply IHl, L2.
  - cbn [dval actual]. destruct v as [i|i b|i r|i r|i r|i j l|i j l]; try reflexivity. apply lexed_obj in L as (_ & _ & _ & L).
    replace (mssv l []) with (act_mss l []); [reflexivity|]. generalize (@nil (bytes * bytes)).
    induction l as [|[[p0 kr] v] l IHl]; intros acc; [reflexivity|]. inversion L as [|? ? [[_ B] L1] L2]; subst. cbn [fst snd] in *.
    cbn [mssv act_mss fst snd]. destruct v; try reflexivity.
    + rewrite (txt_units kr B). apply IHl, L2.
    + rewrite (txt_units kr B), txt_units by apply L1. apply IHl, L2.
  - cbn [dval actual]. destruct v; try reflexivity; rewrite IH by exact L; reflexivity.
  - cbn [dval actual]. destruct v as [i|i b|i r|i r|i r|i j l|i j l]; try reflexivity. destruct g as [| | | | | | |gs| | | |]; try reflexivity.
    apply lexed_obj in L as (_ & _ & _ & L). f_equal. revert gs. induction l as [|[[p0 kr] v] l IHl]; intros gs; [reflexivity|].
    inversion L as [|? ? [[_ B] L1] L2]; subst. cbn [fst snd] in *. cbn [membersv ideal_members fst snd]. unfold act_field_for, act_key_text.
    replace (if o_nounescape O then kr else txt kr) with (if o_nounescape O then kr else units_text kr) by (destruct (o_nounescape O); [reflexivity|symmetry; apply txt_units, B]).
    destruct (pick _ _ _ _) as [jf|]; [|destruct (o_unknown O); [reflexivity|apply IHl, L2]].
    unfold vdec in *. rewrite !nth_error_map. destruct (nth_error fs jf) as [y|] eqn:Ey; [|reflexivity]. cbn [option_map].
    destruct (nth_error gs jf) as [g|]; [|reflexivity]. rewrite Forall_forall in IH. rewrite (IH y (nth_error_In _ _ Ey)) by exact L1.
    destruct (actual C O s (snd y) v g); try reflexivity. apply IHl, L2.
Qed.
End Agree.

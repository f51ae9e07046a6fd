(** Every Go value of a supported type has an encoding: the values Decode can produce are
    all the values of the type. *)
From Coq Require Import Permutation.
From Verif Require Import Base NumSpec StrSpec AtoiProofs UnescapeProofs Types Token FloatLit Heap Machine Dt Value Dval Spec SpecProofs Encodes RoundTrip Render.
Open Scope Z_scope.

(** ** Values that can be written *)
Definition bytes_ok (t : bytes) : Prop := Forall (fun c => 0 <= c < 256) t.
(** A finite float in canonical form: only a zero has the minus-zero mark. *)
Definition float_ok (b : fbits) (f : fnum) : Prop := too_big b (fm f, fe f) = false /\ (fnz f = true -> fm f = 0).
Inductive any_ok : jany -> Prop :=
| ao_nil : any_ok NNil
| ao_bool b : any_ok (NBool b)
| ao_num f : float_ok B64 f -> any_ok (NNum f)
| ao_str t : bytes_ok t -> any_ok (NStr t)
| ao_arr l : Forall any_ok l -> any_ok (NArr l)
| ao_obj l : NoDup (map fst l) -> Forall (fun x => bytes_ok (fst x) /\ any_ok (snd x)) l -> any_ok (NObj l).
(** Text that needs no escapes in a JSON string. *)
Definition plain (t : bytes) : Prop := Forall (fun c => 32 <= c < 256 /\ c <> 34 /\ c <> 92) t.
(** Encoded as null. *)
Definition nil_value (g : gval) : bool :=
  match g with VSlice None | VMap None | VMSS None | VPtr None | VAny NNil => true | _ => false end.

Section Writable.
Variable C : cfg.
Definition writable_sc (x : sc) (g : gval) : Prop :=
  match x, g with
  | (SBool | SBoolQ), VBool _ => True
  | SStr, VStr t => bytes_ok t
  | SNumber, VStr t => json_number t
  | (SInt k | SIntQ k), VInt z => in_range (kind_of C k) z
  | (SFloat b | SFloatQ b), VFloat f => float_ok b f
  | SAny, VAny a => any_ok a
  | SStrQ, VStr t => plain t
  | _, _ => False
  end.
Definition writable_key (k : dkey) (key : gkey) : Prop :=
  match k, key with
  | KeyStr, GStr t => bytes_ok t
  | KeyInt k, GInt z => in_range (kind_of C k) z
  | KeyText id _, GUser b => exists t, bytes_ok t /\ c_ut C id [] t = (b, None)
  | _, _ => False
  end.
Fixpoint writable (d : dt) (g : gval) {struct d} : Prop :=
  match d with
  | DSc x => writable_sc x g
  | DText id z => match g with VUser b => exists t, bytes_ok t /\ (forall old, c_ut C id old t = (b, None)) /\ (z <= 0 -> b = []) | _ => False end
  | DJson _ _ => False (* not covered *)
  | DArr0 => g = VArr []
  | DEmpty => g = VStruct []
  | DArr n t => match g with VArr gs => length gs = n /\ Forall (writable t) gs | _ => False end
  | DSlice t =>
      match g with
      | VSlice None => t <> DEmpty
      | VSlice (Some (gs, _)) => Forall (writable t) gs
      | _ => False
      end
  | DMap k t =>
      match g with
      | VMap None => True
      | VMap (Some m) => NoDup (map fst m) /\ Forall (fun x => writable_key k (fst x) /\ writable t (snd x)) m
      | _ => False
      end
  | DMSS =>
      match g with
      | VMSS None => True
      | VMSS (Some m) => NoDup (map fst m) /\ Forall (fun x => bytes_ok (fst x) /\ bytes_ok (snd x)) m
      | _ => False
      end
  | DPtr t =>
      match g with
      | VPtr None => True
      | VPtr (Some g) => writable t g /\ nil_value g = false
      | _ => False
      end
  | DStruct _ fs =>
      match g with
      | VStruct gs => NoDup (map (fun x => fst (fst x)) fs) /\
          (fix go (fs : list ((bytes * Z) * dt)) (gs : list gval) : Prop :=
             match fs, gs with
             | [], [] => True
             | x :: fs, g :: gs => (plain (fst (fst x)) /\ writable (snd x) g) /\ go fs gs
             | _, _ => False
             end) fs gs
      | _ => False
      end
  end.
Fixpoint writable_fields (fs : list ((bytes * Z) * dt)) (gs : list gval) : Prop :=
  match fs, gs with
  | [], [] => True
  | x :: fs, g :: gs => (plain (fst (fst x)) /\ writable (snd x) g) /\ writable_fields fs gs
  | _, _ => False
  end.
End Writable.

(** ** Decimal digits *)
Lemma digits_exist n : forall z, 0 <= z < 10 ^ Z.of_nat n -> exists ds, json_uint ds /\ dec ds = z.
Proof.
  assert (G : forall z, 0 <= z < 10 ^ Z.of_nat n -> exists c r, Forall is_digit (c :: r) /\ dec (c :: r) = z /\ (c = 48 -> r = [] /\ z = 0)).
  { induction n as [|n IH]; intros z Hz.
    - change (10 ^ Z.of_nat 0) with 1 in Hz. exists 48, []. split; [constructor; [unfold is_digit; lia|constructor]|]. split; [unfold dec; cbn [dec_from]; lia|]. intros; split; [reflexivity|lia].
    - destruct (Z_lt_le_dec z 10) as [L|L].
      + exists (48 + z), []. split; [constructor; [unfold is_digit; lia|constructor]|]. split; [unfold dec; cbn [dec_from]; lia|]. intros; split; [reflexivity|lia].
      + rewrite Nat2Z.inj_succ, Z.pow_succ_r in Hz by lia. pose proof (Z.div_mod z 10 ltac:(lia)) as Dm. pose proof (Z.mod_pos_bound z 10 ltac:(lia)) as Mb.
        destruct (IH (z / 10)) as (c & r & F & D & H0). { split; [apply Z.div_pos; lia|]. apply Z.div_lt_upper_bound; lia. }
        exists c, (r ++ [48 + z mod 10]). split; [|split].
        * change (c :: r ++ [48 + z mod 10]) with ((c :: r) ++ [48 + z mod 10]). apply Forall_app. split; [exact F|]. constructor; [unfold is_digit; lia|constructor].
        * change (c :: r ++ [48 + z mod 10]) with ((c :: r) ++ [48 + z mod 10]). unfold dec in *. rewrite dec_from_app, D. cbn [dec_from]. lia.
        * intros Ec. apply H0 in Ec. destruct Ec as [_ Ec]. lia. }
  intros z Hz. destruct (G z Hz) as (c & r & F & D & H0). exists (c :: r). split; [|exact D]. split; [exact F|]. exists c, r. split; [reflexivity|]. intros E. apply H0, E.
Qed.
Lemma pow10_big z : 0 <= z -> z < 10 ^ Z.of_nat (Z.to_nat z).
Proof. intros H. rewrite Z2Nat.id by exact H. apply Z.pow_gt_lin_r; lia. Qed.
Lemma print_uint z : 0 <= z -> exists ds, json_uint ds /\ dec ds = z.
Proof. intros H. apply (digits_exist (Z.to_nat z)). split; [exact H|apply pow10_big, H]. Qed.
Lemma print_int z : exists r, json_int r /\ int_value r = z /\ (0 <= z -> json_uint r).
Proof.
  destruct (Z_lt_le_dec z 0) as [L|L].
  - destruct (print_uint (- z) ltac:(lia)) as (ds & J & D). exists (45 :: ds). split; [apply ji_neg, J|]. split; [cbn; lia|lia].
  - destruct (print_uint z L) as (ds & J & D). exists ds. split; [apply ji_pos, J|]. split; [rewrite (int_value_uint _ J); exact D|auto].
Qed.
Lemma print_integer C k z : in_range (kind_of C k) z -> exists r, is_integer C k r z.
Proof.
  intros H. destruct (print_int z) as (r & J & V & U). exists r. split; [exact J|]. split; [exact V|]. split; [exact H|]. intros S. apply U.
  unfold in_range, kind_of, imin in H. cbn in H. rewrite S in H. lia.
Qed.

(** ** Floats *)
Lemma span_app ds c r : Forall is_digit ds -> is_digitb c = false -> span_digits (ds ++ c :: r) = (ds, c :: r).
Proof.
  induction 1 as [|d ds Hd H IH]; intros Hc; cbn [app span_digits]; [rewrite Hc; reflexivity|]. apply is_digitb_spec in Hd. rewrite Hd, IH by exact Hc. reflexivity.
Qed.
Lemma print_exp e : exists x, json_exp (101 :: x) /\ exp_value x = e.
Proof.
  destruct (Z_lt_le_dec e 0) as [L|L].
  - destruct (print_uint (- e) ltac:(lia)) as (ds & (F & c & r & -> & _) & D). exists ([45] ++ c :: r). split; [apply je; auto; discriminate|]. cbn -[dec]. rewrite D. lia.
  - destruct (print_uint e L) as (ds & (F & c & r & -> & _) & D). exists ([43] ++ c :: r). split; [apply je; auto; discriminate|]. cbn -[dec]. rewrite D. lia.
Qed.
Lemma print_float b f : float_ok b f -> exists r, json_nonint r /\ is_float b r f.
Proof.
  intros [T N]. destruct (print_uint (Z.abs (fm f)) ltac:(lia)) as (ds & J & D). destruct (print_exp (fe f)) as (x & Jx & Vx).
  assert (U : unum_value (ds ++ 101 :: x) = (Z.abs (fm f), fe f)).
  { unfold unum_value. rewrite span_app by (apply J || reflexivity). rewrite app_nil_r, D, Vx. cbn. f_equal. lia. }
  assert (Sd : forall m e, same_dec (m, e) (m, e)) by (intros; reflexivity).
  destruct ((fm f <? 0) || fnz f) eqn:Sg.
  - exists ((45 :: ds) ++ 101 :: x). split; [apply jn_e; [apply ji_neg, J|exact Jx]|].
    assert (V : num_value ((45 :: ds) ++ 101 :: x) = (fm f, fe f)).
    { change (num_value ((45 :: ds) ++ 101 :: x)) with (let '(m, e) := unum_value (ds ++ 101 :: x) in (- m, e)). rewrite U. f_equal. destruct (fnz f) eqn:Z0; [rewrite N by reflexivity; reflexivity|]. rewrite orb_false_r in Sg. lia. }
    unfold is_float. rewrite V. split; [apply Sd|]. split; [|exact T]. cbn [fst app minus_zero]. destruct (fnz f) eqn:Z0; [rewrite N by reflexivity; reflexivity|]. rewrite orb_false_r in Sg. lia.
  - apply orb_false_iff in Sg as [Sg Z0]. exists (ds ++ 101 :: x). split; [apply jn_e; [apply ji_pos, J|exact Jx]|].
    assert (M : match ds ++ 101 :: x with 45 :: _ => False | _ => True end). { destruct J as (F & c & r & -> & _). inversion F as [|? ? Dc _]; subst. unfold is_digit in Dc. cbn. destruct c as [|c|c]; try exact I. repeat (destruct c as [c|c|]; try exact I). lia. }
    assert (V : num_value (ds ++ 101 :: x) = (fm f, fe f)).
    { assert (Q : num_value (ds ++ 101 :: x) = unum_value (ds ++ 101 :: x)).
      { unfold num_value. destruct (ds ++ 101 :: x) as [|c r]; [reflexivity|]. destruct c as [|c|c]; try reflexivity. repeat (destruct c as [c|c|]; try reflexivity). destruct M. }
      rewrite Q, U. f_equal. lia. }
    unfold is_float. rewrite V. split; [apply Sd|]. split; [|exact T]. rewrite Z0. unfold minus_zero. destruct (ds ++ 101 :: x) as [|c r]; [reflexivity|]. destruct c as [|c|c]; try reflexivity. repeat (destruct c as [c|c|]; try reflexivity). destruct M.
Qed.

(** ** Strings *)
Definition esc_item (c : byte) : sitem :=
  if (c =? 34) || (c =? 92) then IEsc c c
  else if c <? 32 then IU 48 48 (if c <? 16 then 48 else 49) (if c mod 16 <? 10 then 48 + c mod 16 else 87 + c mod 16) c
  else ILit c.
Lemma esc_item_ok c : 0 <= c < 256 -> item_ok (esc_item c) /\ lit_ok (esc_item c) /\ item_unit (esc_item c) = [c] /\
  (forall a b d e v, esc_item c = IU a b d e v -> v < 32).
Proof.
  intros H. unfold esc_item. destruct ((c =? 34) || (c =? 92)) eqn:E.
  - split; [|split; [exact I|split; [reflexivity|discriminate]]]. cbn. assert (c = 34 \/ c = 92) as [-> | ->] by lia; reflexivity.
  - destruct (Z.ltb_spec c 32).
    + split; [|split; [exact I|split]].
      * exists 0, 0, (c / 16), (c mod 16). split; [reflexivity|]. split; [reflexivity|].
        pose proof (Z.mod_pos_bound c 16 ltac:(lia)). pose proof (Z.div_mod c 16 ltac:(lia)).
        split; [|split; [|lia]].
        -- destruct (Z.ltb_spec c 16); [replace (c / 16) with 0 by lia; reflexivity|replace (c / 16) with 1 by lia; reflexivity].
        -- unfold hexval. destruct (Z.ltb_spec (c mod 16) 10).
           ++ replace ((48 <=? 48 + c mod 16) && (48 + c mod 16 <=? 57)) with true by lia. f_equal. lia.
           ++ replace ((48 <=? 87 + c mod 16) && (87 + c mod 16 <=? 57)) with false by lia.
              replace ((65 <=? 87 + c mod 16) && (87 + c mod 16 <=? 70)) with false by lia.
              replace ((97 <=? 87 + c mod 16) && (87 + c mod 16 <=? 102)) with true by lia. f_equal. lia.
      * cbn [item_unit]. replace ((55296 <=? c) && (c <=? 57343)) with false by lia. unfold utf8_encode. replace (c <? 128) with true by lia. reflexivity.
      * intros a b d e v [= _ _ _ _ <-]. lia.
    + split; [cbn; lia|split; [cbn; lia|split; [reflexivity|discriminate]]].
Qed.
Lemma print_string t : bytes_ok t -> exists r, is_string r t.
Proof.
  intros H. set (l := map esc_item t). exists (text l).
  assert (A : Forall item_ok l /\ Forall lit_ok l /\ meaning_units l = t /\ Forall (fun i => forall a b d e v, i = IU a b d e v -> v < 32) l).
  { subst l. induction H as [|c t Hc H IH]; [repeat split; constructor|]. destruct (esc_item_ok c Hc) as (A1 & A2 & A3 & A4). destruct IH as (B1 & B2 & B3 & B4).
    cbn [map]. split; [constructor; assumption|]. split; [constructor; assumption|]. split; [unfold meaning_units in *; cbn [map concat]; rewrite A3, B3; reflexivity|constructor; assumption]. }
  destruct A as (A1 & A2 & A3 & A4).
  assert (P : pair_free l). { clear - A4. induction A4 as [|x l Hx H IH]; [exact I|]. cbn [pair_free]. destruct x; try exact IH. destruct l as [|y l]; [exact I|]. destruct y; try exact IH. split; [|exact IH]. specialize (Hx _ _ _ _ _ eq_refl). lia. }
  exists l. split; [split; [exact A1|reflexivity]|]. split; [exact A2|]. split; [exact P|]. rewrite meaning_pair_free by exact P. exact A3.
Qed.
Lemma plain_string t : plain t -> is_string t t.
Proof.
  intros H. exists (map ILit t). assert (T : text (map ILit t) = t) by (clear; induction t as [|c t IH]; [reflexivity|]; unfold text in *; cbn; rewrite IH; reflexivity).
  split; [split; [|symmetry; exact T]|split; [|split]].
  - apply Forall_map. eapply Forall_impl; [|exact H]. cbn. lia.
  - apply Forall_map. eapply Forall_impl; [|exact H]. cbn. lia.
  - clear. induction t as [|c t IH]; [exact I|exact IH].
  - clear. induction t as [|c t IH]; [reflexivity|]. change (meaning (map ILit (c :: t))) with (c :: meaning (map ILit t)). rewrite IH. reflexivity.
Qed.

(** ** any *)
Lemma print_any : forall a, any_ok a -> exists v, wf v /\ (is_null v = true -> a = NNil) /\ forall k, encodes_any a (place k v).
Proof.
  fix IH 1. intros a H. destruct a as [|b|f|t|l|l].
  - exists (JNull 0). split; [exact I|]. split; [reflexivity|]. intros k. constructor.
  - exists (JBool 0 b). split; [exact I|]. split; [discriminate|]. intros k. constructor.
  - assert (Hf : float_ok B64 f) by (inversion H; assumption). destruct (print_float B64 f Hf) as (r & J & F). exists (JNum 0 r). split; [exact J|]. split; [discriminate|]. intros k. constructor. exact F.
  - assert (Ht : bytes_ok t) by (inversion H; assumption). destruct (print_string t Ht) as (r & S). exists (JStr 0 r). split; [eapply is_string_body, S|]. split; [discriminate|]. intros k. constructor. exact S.
  - assert (Hl : Forall any_ok l) by (inversion H; assumption). clear H.
    assert (G : exists vs, Forall wf vs /\ forall k, Forall2 encodes_any l (places k vs)).
    { revert Hl. induction l as [|a l IHl]; intros Hl; [exists []; split; [constructor|intros k; constructor]|].
      assert (Ha : any_ok a) by (inversion Hl; assumption). assert (Hl' : Forall any_ok l) by (inversion Hl; assumption).
      destruct (IH a Ha) as (v & W & _ & E). destruct (IHl Hl') as (vs & Ws & Es). exists (v :: vs). split; [constructor; assumption|]. intros k. cbn [places]. constructor; [apply E|apply Es]. }
    destruct G as (vs & W & E). exists (JArr 0 0 vs). split; [apply wf_arr, W|]. split; [discriminate|]. intros k. rewrite place_arr. constructor. apply E.
  - assert (N : NoDup (map fst l)) by (inversion H; assumption).
    assert (Hl : Forall (fun x => bytes_ok (fst x) /\ any_ok (snd x)) l) by (inversion H; assumption). clear H.
    assert (G : exists vs, Forall (fun x => string_body (snd (fst x)) /\ wf (snd x)) vs /\
       forall k, Forall2 (fun a x => is_string (snd (fst x)) (fst a) /\ encodes_any (snd a) (snd x)) l (placem k vs)).
    { clear N. revert Hl. induction l as [|[ky a] l IHl]; intros Hl; [exists []; split; [constructor|intros k; constructor]|].
      assert (Hk : bytes_ok ky) by (inversion Hl; cbn in *; tauto). assert (Ha : any_ok a) by (inversion Hl; cbn in *; tauto). assert (Hl' : Forall (fun x => bytes_ok (fst x) /\ any_ok (snd x)) l) by (inversion Hl; assumption).
      destruct (IH a Ha) as (v & W & _ & E). destruct (IHl Hl') as (vs & Ws & Es). destruct (print_string ky Hk) as (r & S). exists (((0%nat, r), v) :: vs).
      split; [constructor; [split; [eapply is_string_body, S|exact W]|exact Ws]|]. intros k. cbn [placem fst snd]. constructor; [cbn; split; [exact S|apply E]|apply Es]. }
    destruct G as (vs & W & E). exists (JObj 0 0 vs). split; [apply wf_obj, W|]. split; [discriminate|]. intros k. rewrite place_obj. econstructor; [apply Permutation_refl|exact N|apply E].
Qed.

(** ** All types *)
Section Print.
Variables (C : cfg) (O : opts).
Definition prints (t : dt) (g : gval) : Prop :=
  exists v, wf v /\ (is_null v = true -> nil_value g = true) /\ forall s k, encodes C O s t g (place k v).
Lemma is_null_place k v : is_null (place k v) = is_null v.
Proof. destruct v; reflexivity. Qed.
Lemma print_list t gs : Forall (prints t) gs -> exists vs, Forall wf vs /\ forall s k, Forall2 (encodes C O s t) gs (places k vs).
Proof.
  induction 1 as [|g gs (v & W & _ & E) H (vs & Ws & Es)]; [exists []; split; [constructor|intros s k; constructor]|].
  exists (v :: vs). split; [constructor; assumption|]. intros s k. cbn [places]. constructor; [apply E|apply Es].
Qed.
Lemma print_scalar x g : writable_sc C x g -> prints (DSc x) g.
Proof.
  intros H. unfold prints. destruct x, g; cbn in H; try contradiction.
  - exists (JBool 0 b). split; [exact I|]. split; [discriminate|]. intros s k. reflexivity.
  - destruct (print_string b H) as (r & S). exists (JStr 0 r). split; [eapply is_string_body, S|]. split; [discriminate|]. intros s k. exact S.
  - destruct H as [H|H]; [exists (JInt 0 b)|exists (JNum 0 b)]; (split; [exact H|]; split; [discriminate|]; intros s k; reflexivity).
  - destruct (print_integer C k z H) as (r & S). exists (JInt 0 r). split; [apply S|]. split; [discriminate|]. intros s q. exact S.
  - destruct (print_float b f H) as (r & J & S). exists (JNum 0 r). split; [exact J|]. split; [discriminate|]. intros s q. exact S.
  - destruct (print_any a H) as (v & W & N & E). exists v. split; [exact W|]. split; [intros Hn; rewrite (N Hn); reflexivity|intros s k; apply E].
  - exists (JStr 0 (if b then bs "true" else bs "false")). split; [|split; [discriminate|intros s k; reflexivity]].
    cbn. eapply is_string_body, plain_string. destruct b; repeat constructor; lia.
  - exists (JStr 0 ([92; 34] ++ b ++ [92; 34])). split; [|split; [discriminate|]].
    + apply plain_string in H as (l & (B1 & B2) & L & _ & _). exists (IEsc 34 34 :: l ++ [IEsc 34 34]). split; [split|].
      * constructor; [reflexivity|]. apply Forall_app. split; [exact B1|]. constructor; [reflexivity|constructor].
      * unfold text in *. cbn [map concat]. rewrite map_app, concat_app, <- B2. reflexivity.
      * constructor; [exact I|]. apply Forall_app. split; [exact L|]. constructor; [exact I|constructor].
    + intros s k. split; [reflexivity|]. intros Hi. unfold plain in H. rewrite Forall_forall in H. apply H in Hi. lia.
  - destruct (print_integer C k z H) as (r & S). exists (JStr 0 r). split; [|split; [discriminate|intros s q; exact S]].
    destruct S as (J & _). cbn. eapply is_string_body, plain_string. unfold plain.
    assert (Dg : forall ds, Forall is_digit ds -> Forall (fun c => 32 <= c < 256 /\ c <> 34 /\ c <> 92) ds) by (intros ds; apply Forall_impl; unfold is_digit; lia).
    inversion J as [? [F _]|? [F _]]; subst; [apply Dg, F|constructor; [lia|apply Dg, F]].
  - destruct (print_float b f H) as (r & J & S). exists (JStr 0 r). split; [|split; [discriminate|intros s q; split; [right; exact J|exact S]]].
    cbn. eapply is_string_body, plain_string. unfold plain.
    assert (Dg : forall ds, Forall is_digit ds -> Forall (fun c => 32 <= c < 256 /\ c <> 34 /\ c <> 92) ds) by (intros ds; apply Forall_impl; unfold is_digit; lia).
    assert (Ji : forall i, json_int i -> Forall (fun c => 32 <= c < 256 /\ c <> 34 /\ c <> 92) i) by (intros i [? [F _]|? [F _]]; [apply Dg, F|constructor; [lia|apply Dg, F]]).
    assert (Jf : forall i, json_frac i -> Forall (fun c => 32 <= c < 256 /\ c <> 34 /\ c <> 92) i) by (intros i [? _ F]; constructor; [lia|apply Dg, F]).
    assert (Je : forall i, json_exp i -> Forall (fun c => 32 <= c < 256 /\ c <> 34 /\ c <> 92) i).
    { intros i [e sg ds He Hs _ F]. constructor; [lia|]. apply Forall_app. split; [|apply Dg, F]. destruct Hs as [-> | [-> | ->]]; repeat constructor; lia. }
    destruct J; repeat (apply Forall_app; split); auto.
Qed.
Lemma print_key k key : writable_key C k key -> exists r, string_body r /\ encodes_key C k key r.
Proof.
  destruct k, key; cbn; try contradiction.
  - intros H. destruct (print_string b H) as (r & S). exists r. split; [eapply is_string_body, S|exact S].
  - intros H. destruct (print_scalar (SIntQ k) (VInt z) H) as (v & W & _ & E). specialize (E [] 0%nat). cbn in E. destruct v; try contradiction. exists raw. split; [exact W|exact E].
  - intros (t & H & U). destruct (print_string t H) as (r & S). exists r. split; [eapply is_string_body, S|]. exists t. auto.
Qed.
Theorem print_exists d : forall g, writable C d g -> prints d g.
Proof.
  induction d as [x|id z|id z| |n t IH| |t IH|k t IH| |t IH|z fs IH] using dt_ind'; intros g H.
  - apply print_scalar, H.
  - cbn in H. destruct g; try contradiction. destruct H as (t & B & U & Z0). destruct (print_string t B) as (r & S). exists (JStr 0 r). split; [eapply is_string_body, S|]. split; [discriminate|].
    intros s q. cbn. exists t. auto.
  - destruct H.
  - cbn in H. subst g. exists (JArr 0 0 []). split; [exact I|]. split; [discriminate|]. intros s q. exact I.
  - cbn in H. destruct g; try contradiction. destruct H as [L H]. destruct (print_list t l) as (vs & W & E); [eapply Forall_impl; [|exact H]; exact IH|].
    exists (JArr 0 0 vs). split; [apply wf_arr, W|]. split; [discriminate|]. intros s q. rewrite place_arr. split; [exact L|apply E].
  - cbn in H. subst g. exists (JObj 0 0 []). split; [exact I|]. split; [discriminate|]. intros s q. exact I.
  - cbn in H. destruct g as [| | | | | | | |[[vis hid]|]| | |]; try contradiction.
    + destruct (print_list t vis) as (vs & W & E); [eapply Forall_impl; [|exact H]; exact IH|].
      exists (JArr 0 0 vs). split; [apply wf_arr, W|]. split; [discriminate|]. intros s q. rewrite place_arr. apply E.
    + exists (JNull 0). split; [exact I|]. split; [reflexivity|]. intros s q. exact H.
  - cbn in H. destruct g as [| | | | | | | | |[m|]| |]; try contradiction.
    + destruct H as [N H].
      assert (G : exists vs, Forall (fun x => string_body (snd (fst x)) /\ wf (snd x)) vs /\
         forall s q, Forall2 (fun a x => encodes_key C k (fst a) (snd (fst x)) /\ encodes C O s t (snd a) (snd x)) m (placem q vs)).
      { clear N. induction H as [|[ky a] m [Hk Ha] H (vs & Ws & Es)]; [exists []; split; [constructor|intros s q; constructor]|].
        destruct (IH a Ha) as (v & W & _ & E). destruct (print_key k ky Hk) as (r & B & S). exists (((0%nat, r), v) :: vs).
        split; [constructor; [split; [exact B|exact W]|exact Ws]|]. intros s q. cbn [placem fst snd]. constructor; [cbn; split; [exact S|apply E]|apply Es]. }
      destruct G as (vs & W & E). exists (JObj 0 0 vs). split; [apply wf_obj, W|]. split; [discriminate|]. intros s q. rewrite place_obj. split; [exact N|]. exists m. split; [apply Permutation_refl|apply E].
    + exists (JNull 0). split; [exact I|]. split; [reflexivity|]. intros s q. exact I.
  - cbn in H. destruct g as [| | | | | | | | | |[m|]|]; try contradiction.
    + destruct H as [N H].
      assert (G : exists vs, Forall (fun x => string_body (snd (fst x)) /\ wf (snd x)) vs /\
         forall (s : bytes) q, Forall2 (fun a (x : (nat * bytes) * jv) => is_string (snd (fst x)) (fst a) /\ exists i r, snd x = JStr i r /\ is_string r (snd a)) m (placem q vs)).
      { clear N. induction H as [|[ky a] m [Hk Ha] H (vs & Ws & Es)]; [exists []; split; [constructor|intros s q; constructor]|]. cbn [fst snd] in *.
        destruct (print_string a Ha) as (ra & Sa). destruct (print_string ky Hk) as (r & S). exists (((0%nat, r), JStr 0 ra) :: vs).
        split; [constructor; [split; eapply is_string_body; eassumption|exact Ws]|]. intros s q. cbn [placem fst snd place]. constructor; [cbn; split; [exact S|eauto]|apply (Es s)]. }
      destruct G as (vs & W & E). exists (JObj 0 0 vs). split; [apply wf_obj, W|]. split; [discriminate|]. intros s q. rewrite place_obj. split; [exact N|]. exists m. split; [apply Permutation_refl|apply (E s)].
    + exists (JNull 0). split; [exact I|]. split; [reflexivity|]. intros s q. exact I.
  - cbn in H. destruct g as [| | | | | | | | | | |[g|]]; try contradiction.
    + destruct H as [H Nn]. destruct (IH g H) as (v & W & N & E). assert (Nv : is_null v = false) by (destruct (is_null v); [rewrite N in Nn by reflexivity; discriminate|reflexivity]).
      exists v. split; [exact W|]. split; [congruence|]. intros s q. cbn. rewrite is_null_place. auto.
    + exists (JNull 0). split; [exact I|]. split; [reflexivity|]. intros s q. reflexivity.
  - cbn [writable] in H. destruct g as [| | | | | | |gs| | | |]; try contradiction. destruct H as [N H]. change (writable_fields C fs gs) in H.
    assert (G : exists vs, Forall (fun x => string_body (snd (fst x)) /\ wf (snd x)) vs /\
         forall s q, encodes_fields O (map (fun x => (fst (fst x), encodes C O s (snd x))) fs) gs (placem q vs)).
    { clear N. revert gs H. induction IH as [|x fs Hx IH IHl]; intros [|g gs] H; try contradiction; [exists []; split; [constructor|intros s q; exact I]|].
      destruct H as [[Hp Hw] H]. destruct (IHl gs H) as (vs & Ws & Es). destruct (Hx g Hw) as (v & W & _ & E).
      exists (((0%nat, fst (fst x)), v) :: vs). split; [constructor; [split; [eapply is_string_body, plain_string, Hp|exact W]|exact Ws]|]. intros s q. cbn [placem fst snd map]. cbn. split; [|apply Es].
      split; [split; [apply plain_string, Hp|reflexivity]|apply E]. }
    destruct G as (vs & W & E). exists (JObj 0 0 vs). split; [apply wf_obj, W|]. split; [discriminate|]. intros s q. rewrite place_obj. split; [exact N|]. exists (placem (S q) vs). split; [apply Permutation_refl|apply E].
Qed.
End Print.

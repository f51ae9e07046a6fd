(** From Go's recursive struct types to [rfields], and the frames NewDecoder builds for
    them.

    [rresolves T z fs] is a specification: the named struct type [T] of size [z] has the
    known fields [fs], at least one of which is of type *T, []T or map[K]T, while the types
    of the other fields are not recursive and do not mention [T]. *)
From Verif Require Import Base Lookup Types AppendType Token Heap Machine Dt Dec Control Root Elab Rec.
Open Scope Z_scope.

Section RecElab.
Variables (w64 : bool) (E : env) (disallow : bool).
Notation append := (AppendType.append w64 E disallow).
Notation resolves := (Elab.resolves w64 E disallow).

(** The types that refer back to the struct [i]; the last argument are the unmarshaler
    types that occur in them (as map keys). *)
Inductive back_type (i : nat) : ty -> rk -> list rtid -> Prop :=
| B_ptr U : plain E U -> under E U = TPtr (TNamed i) -> back_type i U RSelf []
| B_slice U : plain E U -> under E U = TSlice (TNamed i) -> back_type i U RSlice []
| B_map U K k ks : plain E U -> under E U = TMap K (TNamed i) -> key_type E K k ks -> back_type i U (RMap k) ks.

(** The last argument: the types met before and in the fields. *)
Inductive rresolves_fields (i : nat) : list rtid -> list (fld * ty) -> rfields -> list rtid -> Prop :=
| RF_nil seen : rresolves_fields i seen [] [] seen
| RF_skip seen f T fs ds seen' : ignored f -> rresolves_fields i seen fs ds seen' -> rresolves_fields i seen ((f, T) :: fs) ds seen'
| RF_back seen f U fs name q k ks ds seen' : known_as f name q -> (q = true -> disallow = false) ->
    back_type i U k ks -> rresolves_fields i (ks ++ seen) fs ds seen' ->
    rresolves_fields i seen ((f, U) :: fs) (((name, fd_off f), k) :: ds) seen'
| RF_field seen f T fs name d ds seen1 seen' : known_as f name false -> resolves seen T d seen1 ->
    rresolves_fields i seen1 fs ds seen' ->
    rresolves_fields i seen ((f, T) :: fs) (((name, fd_off f), RSub d) :: ds) seen'
| RF_quoted seen f T fs name d d' ds seen1 seen' : known_as f name true -> resolves seen T d seen1 ->
    quoted d = Some d' -> rresolves_fields i seen1 fs ds seen' ->
    rresolves_fields i seen ((f, T) :: fs) (((name, fd_off f), RSub d') :: ds) seen'
| RF_unquoted seen f T fs name d ds seen1 seen' : known_as f name true -> resolves seen T d seen1 ->
    quoted d = None -> disallow = false -> rresolves_fields i seen1 fs ds seen' ->
    rresolves_fields i seen ((f, T) :: fs) (((name, fd_off f), RSub d) :: ds) seen'.
(** [seen]: the types met before [T]; [seen']: after it. *)
Definition rresolves_after (seen : list rtid) (T : ty) (z : Z) (fs : rfields) (seen' : list rtid) : Prop :=
  exists i id l, T = TNamed i /\ plain E T /\ under E T = TStruct id z l /\ 0 < z /\ ~ In (RNamed i) seen /\
    rresolves_fields i (RNamed i :: seen) l fs seen' /\ exists x, In x fs /\ forall d, snd x <> RSub d.
Definition rresolves (T : ty) (z : Z) (fs : rfields) : Prop :=
  exists i id l seen', T = TNamed i /\ plain E T /\ under E T = TStruct id z l /\ 0 < z /\
    rresolves_fields i [RNamed i] l fs seen' /\ exists x, In x fs /\ forall d, snd x <> RSub d.
Lemma rresolves_first T z fs : rresolves T z fs -> exists seen', rresolves_after [] T z fs seen'.
Proof. intros (i & id & l & seen' & H1 & H2 & H3 & H4 & H). exists seen', i, id, l. repeat (split; [assumption|]). split; [intros []|exact H]. Qed.

(** ** Frames *)
Definition is_self (k : rk) : bool := match k with RSub _ => false | _ => true end.
Definition marked (fs : rfields) : et := if existsb (fun x => is_self (snd x)) fs then EStructRecur else EStruct.
(** Partway through the fields; the frames [pre] were there before. *)
Variable pre : list frame.
Notation b := (length pre).
Definition rpartway (z : Z) (f0 : frame) (done : rfields) (stk : list frame) : Prop :=
  (length stk = b + S (dlens (shape done)))%nat /\
  nth_error stk b = Some (set_ty (marked done) (set_fields (field_idx (S b) (shape done)) f0)) /\
  rfits_fields w64 stk b z (S b) done /\ (forall j, (j < b)%nat -> nth_error stk j = nth_error pre j).

Lemma shape_app a b : shape (a ++ b) = shape a ++ shape b.
Proof. apply map_app. Qed.
Lemma rfits_app stk i z a : forall k b, rfits_fields w64 stk i z k (a ++ b) <->
  rfits_fields w64 stk i z k a /\ rfits_fields w64 stk i z (k + dlens (shape a)) b.
Proof.
  induction a as [|x r IH]; intros k b; cbn [app rfits_fields shape map dlens fst snd]; [rewrite Nat.add_0_r; tauto|]. rewrite IH.
  fold (shape r). replace (k + dlen (erase (snd x)) + dlens (shape r))%nat with (k + (dlen (erase (snd x)) + dlens (shape r)))%nat by lia. tauto.
Qed.
Lemma rfits_same stk stk' i z fs : forall k, (forall j, (k <= j < k + dlens (shape fs))%nat -> nth_error stk j = nth_error stk' j) ->
  rfits_fields w64 stk i z k fs -> rfits_fields w64 stk' i z k fs.
Proof.
  induction fs as [|x r IH]; intros k A F; [exact I|]. cbn [rfits_fields shape map dlens fst snd] in *. destruct F as (Fx & Fr). fold (shape r) in A.
  pose proof (dlen_pos (erase (snd x))). split.
  - destruct (snd x) as [| |kt|d]; cbn [erase rfit] in *.
    + destruct Fx as (f & Hf & Lk). exists f. split; [rewrite <- A by lia; exact Hf|assumption].
    + destruct Fx as (f & Hf & Lk). exists f. split; [rewrite <- A by lia; exact Hf|assumption].
    + destruct Fx as ((f & (Hf & Lk) & Vf) & (fk & Hk & Kk)). cbn [dlen] in *. split.
      * exists f. split; [split; [rewrite <- A by lia; exact Hf|exact Lk]|exact Vf].
      * exists fk. split; [rewrite <- A by lia; exact Hk|exact Kk].
    + destruct Fx as [Fx Lk]. split.
      * eapply fits_alike; [|exact Fx]. split; [intros j Hj; apply A; lia|]. intros f Hf. exists f. rewrite <- A by lia. split; [exact Hf|repeat split].
      * destruct Lk as (f & Hf & Lk). exists f. rewrite <- A by lia. split; assumption.
  - apply IH; [intros j Hj; apply A; lia|exact Fr].
Qed.

(** One more field: [stk1] is the frame list after appending the field's type, [g] what is
    done to the field's first frame afterwards. *)
Lemma rpart_add z f0 done stk stk1 k name off g :
  rpartway z f0 done stk -> length stk1 = (length stk + dlen (erase k))%nat ->
  (forall j, (j < length stk)%nat -> j <> b -> nth_error stk1 j = nth_error stk j) ->
  nth_error stk1 b = Some (set_ty (marked (done ++ [((name, off), k)])) (set_fields (field_idx (S b) (shape done)) f0)) ->
  (forall stk2, (forall j, (length stk < j < length stk + dlen (erase k))%nat -> nth_error stk2 j = nth_error stk1 j) ->
     nth_error stk2 (length stk) = option_map g (nth_error stk1 (length stk)) ->
     rfit w64 stk2 b z (length stk) off k) ->
  rpartway z f0 (done ++ [((name, off), k)])
    (upd (upd stk1 b (fun p => set_fields (f_fields p ++ [(name, length stk)]) p)) (length stk) g).
Proof.
  intros (Ln & Hf & Ff & Pr) Ln1 Pre1 H0 Fit. pose proof (dlen_pos (erase k)).
  set (stk2 := upd _ (length stk) g).
  assert (N2 : forall j, nth_error stk2 j = if Nat.eqb (length stk) j then option_map g (nth_error stk1 j)
    else if Nat.eqb b j then option_map (fun p => set_fields (f_fields p ++ [(name, length stk)]) p) (nth_error stk1 j)
    else nth_error stk1 j).
  { intros j. unfold stk2. rewrite !upd_nth. destruct (Nat.eqb_spec (length stk) j), (Nat.eqb_spec b j); try reflexivity. lia. }
  unfold rpartway. rewrite !shape_app, dlens_app, field_idx_app, rfits_app. cbn [shape map dlens rfits_fields field_idx fst snd].
  split; [|split; [|split; [split; [|split; [|exact I]]|]]].
  - unfold stk2. rewrite !upd_length. lia.
  - rewrite N2, Nat.eqb_refl. destruct (Nat.eqb_spec (length stk) b); [lia|]. rewrite H0. cbn [option_map]. f_equal.
    replace (S b + dlens (shape done))%nat with (length stk) by lia. reflexivity.
  - eapply rfits_same; [|exact Ff]. intros j Hj. rewrite N2. destruct (Nat.eqb_spec (length stk) j); [lia|].
    destruct (Nat.eqb_spec b j); [lia|]. symmetry. apply Pre1; lia.
  - replace (S b + dlens (shape done))%nat with (length stk) by lia. apply Fit.
    + intros j Hj. rewrite N2. destruct (Nat.eqb_spec (length stk) j); [lia|]. destruct (Nat.eqb_spec b j); [lia|]. reflexivity.
    + rewrite N2, Nat.eqb_refl. reflexivity.
  - intros j Hj. rewrite N2. destruct (Nat.eqb_spec (length stk) j); [lia|]. destruct (Nat.eqb_spec b j); [lia|].
    rewrite Pre1 by lia. apply Pr, Hj.
Qed.

Lemma marked_sub done nm d : marked (done ++ [(nm, RSub d)]) = marked done.
Proof. unfold marked. rewrite existsb_app. cbn. rewrite !orb_false_r. reflexivity. Qed.
Lemma marked_back i U k ks done nm : back_type i U k ks -> marked (done ++ [(nm, k)]) = EStructRecur.
Proof. intros B. unfold marked. rewrite existsb_app. destruct B; cbn; rewrite orb_true_r; reflexivity. Qed.

(** The frames of a field that refers back. *)
Lemma back_built i U k ks z stk : back_type i U k ks -> find_recur w64 E stk (TNamed i) = Some b ->
  0 < z -> tsize w64 E (TNamed i) = z -> (exists id l, under E (TNamed i) = TStruct id z l) ->
  exists c tail, (forall fuel, append (S (S fuel)) stk U = AOk (mark stk b ++ c :: tail)) /\
    S (length tail) = dlen (erase k) /\ string_type (f_ty c) = None /\ f_rt c = None /\
    (forall g r, In g tail -> f_rt g = Some r -> In r ks) /\
    (forall stk3 off, nth_error stk3 (length stk) = Some (set_parent b (set_off off c)) ->
       (forall j, (j < length tail)%nat -> nth_error stk3 (S (length stk) + j) = nth_error tail j) ->
       rfit w64 stk3 b z (length stk) off k).
Proof.
  intros B FR Zp Ts (id & l & Un). destruct B as [U Pl Uu|U Pl Uu|U K k ks Pl Uu Kt]; destruct (plain_support E U Pl) as [J X].
  - exists (set_recur b (mkfr EPtrRecur (wb w64))), []. split; [|split; [reflexivity|split; [reflexivity|split; [reflexivity|split]]]].
    + intros fuel. cbn [AppendType.append]. rewrite J, X, Uu, FR. reflexivity.
    + intros g r [].
    + intros stk3 off N _. eexists. split; [exact N|]. repeat split.
  - exists (set_recur b (mkfr ESliceRecur (3 * wb w64))), []. split; [|split; [reflexivity|split; [reflexivity|split; [reflexivity|split]]]].
    + intros fuel. cbn [AppendType.append]. rewrite J, X, Uu. unfold slice_fast. rewrite Un, Ts. replace (z <? 1) with false by lia. rewrite FR. reflexivity.
    + intros g r [].
    + intros stk3 off N _. eexists. split; [exact N|]. repeat split.
  - set (c := set_recur b (set_vsize (tsize w64 E (TNamed i)) (mkfr EMapRecur (wb w64)))).
    assert (KB : exists fk, (forall fuel st, append (S fuel) st K = AOk (st ++ [fk])) /\
      f_ty fk = dkey_et k /\ (match k with KeyText id _ => f_rt fk = Some (RNamed id) | _ => True end) /\
      (forall r, f_rt fk = Some r -> In r ks)).
    { inversion Kt as [K' PK UK|K' k' PK UK|i' JK XK]; subst.
      - destruct (plain_support E K PK) as [JK XK]. eexists. split; [|split; [|split]].
        + intros fuel st. cbn [AppendType.append]. rewrite JK, XK, UK. reflexivity.
        + reflexivity.
        + exact I.
        + discriminate.
      - destruct (plain_support E K PK) as [JK XK]. eexists. split; [|split; [|split]].
        + intros fuel st. cbn [AppendType.append]. rewrite JK, XK, UK. reflexivity.
        + reflexivity.
        + exact I.
        + discriminate.
      - eexists. split; [|split; [|split]].
        + intros fuel st. cbn [AppendType.append json_support text_support]. rewrite JK, XK. reflexivity.
        + reflexivity.
        + reflexivity.
        + intros r [= <-]. left. reflexivity. }
    destruct KB as (fk & ApK & Tk & Rk & Sk). exists c, [set_parent (length stk) fk].
    split; [|split; [reflexivity|split; [reflexivity|split; [reflexivity|split]]]].
    + intros fuel. remember (S fuel) as fu eqn:Ef. cbn [AppendType.append]. rewrite J, X, Uu, FR. fold c. subst fu. rewrite ApK.
      f_equal. rewrite <- (Nat.add_0_r (length (mark stk b ++ [c]))). rewrite upd_app_r. cbn [upd]. rewrite <- app_assoc. reflexivity.
    + intros g r [<-|[]] Hr. apply Sk. exact Hr.
    + intros stk3 off N N1. split.
      * eexists. split; [split; [exact N|]|]; repeat split. exact Ts.
      * specialize (N1 0%nat ltac:(cbn; lia)). rewrite Nat.add_0_r in N1. eexists. split; [exact N1|]. split; [exact Tk|exact Rk].
Qed.

Lemma find_rt_at stk p n f : (length p < length stk)%nat -> (forall j, (j < length p)%nat -> nth_error stk j = nth_error p j) ->
  (forall i, find_rt p i (RNamed n) = None) -> nth_error stk (length p) = Some f -> f_rt f = Some (RNamed n) -> find_rt stk 0 (RNamed n) = Some (length p).
Proof.
  assert (Q : forall p stk k, (length p < length stk)%nat -> (forall j, (j < length p)%nat -> nth_error stk j = nth_error p j) ->
    find_rt p k (RNamed n) = None -> nth_error stk (length p) = Some f -> f_rt f = Some (RNamed n) -> find_rt stk k (RNamed n) = Some (k + length p)%nat).
  { intros q. induction q as [|g p0 IH]; intros [|x st] k L A F N R; cbn [length] in *; try lia.
    - assert (x = f) as -> by (cbn in N; congruence). cbn [find_rt]. rewrite R. cbn [rtid_eqb]. rewrite Nat.eqb_refl. f_equal. lia.
    - specialize (A 0%nat ltac:(lia)) as A0. cbn in A0. injection A0 as ->. cbn [nth_error] in N.
      assert (A' : forall j, (j < length p0)%nat -> nth_error st j = nth_error p0 j) by (intros j Hj; exact (A (S j) ltac:(lia))).
      cbn [find_rt] in *. destruct (f_rt g) as [r'|]; [destruct (rtid_eqb r' (RNamed n)); [discriminate|]|];
        rewrite (IH st (S k)); try assumption; try lia; f_equal; lia. }
  intros L A F N R. rewrite (Q p stk 0%nat L A (F 0%nat) N R). reflexivity.
Qed.
Lemma rresolves_built i id z l0 : sizes_ok w64 E -> (forall k, find_rt pre k (RNamed i) = None) -> under E (TNamed i) = TStruct id z l0 -> 0 < z ->
  forall seen l ds seen', rresolves_fields i seen l ds seen' -> In (RNamed i) seen ->
  forall f0 done stk, f_rt f0 = Some (RNamed i) -> rpartway z f0 done stk -> within stk seen ->
  exists n stk', (forall fuel, (n <= fuel)%nat -> fields_loop w64 E disallow fuel b l stk = AOk stk') /\ rpartway z f0 (done ++ ds) stk' /\ within stk' seen'.
Proof.
  intros Sz Fp Un Zp.
  assert (Sub : forall stk seen f0 done name off T d d' seen1 g, within stk seen -> rpartway z f0 done stk ->
    resolves seen T d seen1 -> dlen d' = dlen d ->
    (forall c, f_rt (g c) = f_rt c /\ f_parent (g c) = Some b /\ f_off (g c) = off /\ f_cap (g c) = f_cap c) ->
    (forall stk1 stk', fits w64 stk1 (length stk) d ->
       (forall j, (length stk < j < length stk + dlen d)%nat -> nth_error stk' j = nth_error stk1 j) ->
       (forall c, nth_error stk1 (length stk) = Some c -> nth_error stk' (length stk) = Some (g c)) -> fits w64 stk' (length stk) d') ->
    exists n stk1, (forall fuel, (n <= fuel)%nat -> append fuel stk T = AOk stk1) /\ fits w64 stk1 (length stk) d /\
      let stk2 := upd (upd stk1 b (fun p => set_fields (f_fields p ++ [(name, length stk)]) p)) (length stk) g in
      rpartway z f0 (done ++ [((name, off), RSub d')]) stk2 /\ within stk2 seen1).
  { intros stk seen f0 done name off T d d' seen1 g Wi P R Dl Hg Hfit.
    destruct (proj1 (resolves_built w64 E disallow Sz) _ _ _ _ R stk Wi) as (n & stk1 & Ap & (Ln1 & Pre1 & F1 & Lk1) & Wi1).
    exists n, stk1. split; [exact Ap|]. split; [exact F1|]. cbv zeta. split.
    - assert (Lp : (b < length stk)%nat) by (destruct P as (Lp & _); lia).
      apply rpart_add; [exact P|cbn [erase]; congruence|intros j Hj _; apply Pre1; exact Hj| |].
      + rewrite Pre1 by exact Lp. rewrite marked_sub. apply P.
      + cbn [erase]. rewrite Dl. intros stk2 A B. split.
        * apply (Hfit stk1); [exact F1|exact A|]. intros c Hc. rewrite B, Hc. reflexivity.
        * destruct Lk1 as (c & Hc & _ & _ & Cc). exists (g c). rewrite B, Hc. split; [reflexivity|]. destruct (Hg c) as (_ & Pg & Og & Cg). repeat split; congruence.
    - apply within_upd; [|intros c; apply Hg]. apply within_upd; [exact Wi1|reflexivity]. }
  assert (Mono : forall seen T d seen1, resolves seen T d seen1 -> In (RNamed i) seen -> In (RNamed i) seen1).
  { assert (Q : (forall seen T d seen1, resolves seen T d seen1 -> In (RNamed i) seen -> In (RNamed i) seen1) /\
      (forall seen fs ds seen1, resolves_fields w64 E disallow seen fs ds seen1 -> In (RNamed i) seen -> In (RNamed i) seen1)).
    { apply resolves_mut; intros; try assumption; try (right; assumption); auto.
      - apply H5. apply in_or_app. right. assumption.
      - apply H4. right. assumption. }
    apply Q. }
  induction 1 as [seen|seen f T fs ds seen' Ig RF IH|seen f U fs name q k ks ds seen' Kn Qd Bt RF IH|seen f T fs name d ds seen1 seen' Kn RT RF IH
    |seen f T fs name d d' ds seen1 seen' Kn RT Qd RF IH|seen f T fs name d ds seen1 seen' Kn RT Qd Da RF IH]; intros Si f0 done stk Hr P Wi.
  - exists 0%nat, stk. rewrite app_nil_r. split; [reflexivity|]. split; [exact P|exact Wi].
  - destruct (IH Si f0 done stk Hr P Wi) as (n & stk' & Ap & Q). exists n, stk'. split; [|exact Q].
    intros fuel Hf. cbn [fields_loop]. rewrite (ignored_name _ Ig). apply Ap, Hf.
  - assert (Lp : (b < length stk)%nat) by (destruct P as (Lp & _); lia).
    assert (Ts : tsize w64 E (TNamed i) = z) by (rewrite (tsize_under w64 E (TNamed i) Sz), Un; reflexivity).
    assert (FR : find_recur w64 E stk (TNamed i) = Some b).
    { unfold find_recur. cbn [struct_id]. cbn [under] in Un. rewrite Un. rewrite Ts.
      replace (0 <? z) with true by lia. destruct P as (Lp' & H0 & _ & Pr). eapply (find_rt_at stk pre i); [exact Lp|exact Pr|exact Fp|exact H0|exact Hr]. }
    destruct (back_built i U k ks z stk Bt FR Zp Ts ltac:(eauto)) as (c & tail & Ap1 & Lt & St & Rc & Rt & Fit).
    set (stk1 := mark stk b ++ c :: tail) in *.
    set (stk2 := upd (upd stk1 b (fun p => set_fields (f_fields p ++ [(name, length stk)]) p)) (length stk) (fun c => set_parent b (set_off (fd_off f) c))).
    assert (Ln1 : length stk1 = (length stk + dlen (erase k))%nat) by (unfold stk1, mark; rewrite app_length, upd_length; cbn [length]; lia).
    assert (Nb : forall j, nth_error stk1 (length stk + j) = nth_error (c :: tail) j).
    { intros j. unfold stk1, mark. rewrite nth_error_app2 by (rewrite upd_length; lia). rewrite upd_length. f_equal. lia. }
    assert (N1 : nth_error stk1 (length stk) = Some c) by (rewrite <- (Nat.add_0_r (length stk)), Nb; reflexivity).
    assert (P2 : rpartway z f0 (done ++ [((name, fd_off f), k)]) stk2).
    { apply rpart_add; [exact P|exact Ln1| | |].
      - intros j Hj Nj. unfold stk1, mark. rewrite nth_error_app1 by (rewrite upd_length; lia). rewrite upd_nth. destruct (Nat.eqb_spec b j); [congruence|]. reflexivity.
      - unfold stk1, mark. rewrite nth_error_app1 by (rewrite upd_length; lia). rewrite upd_nth, Nat.eqb_refl.
        destruct P as (_ & -> & _). rewrite (marked_back i U k ks done _ Bt). reflexivity.
      - intros stk3 A B. apply Fit; [rewrite B, N1; reflexivity|]. intros j Hj. rewrite A by lia.
        replace (S (length stk) + j)%nat with (length stk + S j)%nat by lia. rewrite Nb. reflexivity. }
    assert (Wi2 : within stk2 (ks ++ seen)).
    { unfold stk2. apply within_upd; [|reflexivity]. apply within_upd; [|reflexivity]. unfold stk1. intros g r Hg Hgr. apply in_app_or in Hg as [Hg|[<-|Hg]].
      - assert (Wm : within (mark stk b) seen) by (unfold mark; apply within_upd; [exact Wi|reflexivity]).
        destruct (Wm g r Hg Hgr); [left; assumption|right; apply in_or_app; right; assumption].
      - congruence.
      - right. apply in_or_app. left. eapply Rt; eassumption. }
    assert (Si2 : In (RNamed i) (ks ++ seen)) by (apply in_or_app; right; exact Si).
    destruct (IH Si2 f0 _ _ Hr P2 Wi2) as (n2 & stk3 & Ap2 & Q). rewrite <- app_assoc in Q. cbn [app] in Q.
    exists (S (S n2)), stk3. split; [|exact Q]. intros fuel Hf. destruct fuel as [|[|fuel]]; [lia|lia|]. cbn [fields_loop]. rewrite (known_name _ _ _ Kn).
    rewrite Ap1. cbv zeta. change (upd (upd stk1 b _) (length stk) _) with stk2. destruct q; [|apply Ap2; lia].
    assert (N2 : nth_error stk2 (length stk) = Some (set_parent b (set_off (fd_off f) c))).
    { unfold stk2. rewrite !upd_nth, Nat.eqb_refl. destruct (Nat.eqb_spec b (length stk)); [lia|]. rewrite N1. reflexivity. }
    rewrite N2. replace (string_type (f_ty (set_parent b (set_off (fd_off f) c)))) with (@None et) by (symmetry; exact St).
    rewrite <- (Ap2 (S (S fuel)) ltac:(lia)). rewrite Qd by reflexivity. reflexivity.
  - destruct (Sub stk seen f0 done name (fd_off f) T d d seen1 (fun c => set_parent b (set_off (fd_off f) c)) Wi P RT eq_refl) as (n1 & stk1 & Ap1 & _ & P2 & Wi2).
    { intros c. repeat split. }
    { intros stk1 stk' F A B. eapply fits_alike; [|exact F]. split; [intros j Hj; symmetry; apply A, Hj|].
      intros c Hc. eexists. split; [apply B, Hc|]. repeat split. }
    destruct (IH (Mono _ _ _ _ RT Si) f0 _ _ Hr P2 Wi2) as (n2 & stk3 & Ap2 & Q). rewrite <- app_assoc in Q. cbn [app] in Q.
    exists (n1 + n2)%nat, stk3. split; [|exact Q]. intros fuel Hf. cbn [fields_loop]. rewrite (known_name _ _ _ Kn).
    rewrite Ap1 by lia. apply Ap2. lia.
  - destruct (quoted_head d d' Qd) as (Qe & Q1 & Q2).
    destruct (Sub stk seen f0 done name (fd_off f) T d d' seen1 (fun c => set_ty (dt_et d') (set_parent b (set_off (fd_off f) c))) Wi P RT ltac:(congruence)) as (n1 & stk1 & Ap1 & F1 & P2 & Wi2).
    { intros c. repeat split. }
    { intros stk1 stk' F A B. clear - F A B Qd.
      destruct d as [x| | | | | | | | | |]; try discriminate; destruct x; try discriminate; injection Qd as <-;
      destruct F as (c & Hc & T & S & Fl & _); eexists; (split; [apply B, Hc|]); repeat split; cbn; assumption. }
    destruct (fits_head_et _ _ _ _ F1) as (c & Hc & Tc).
    destruct (IH (Mono _ _ _ _ RT Si) f0 _ _ Hr P2 Wi2) as (n2 & stk3 & Ap2 & Q). rewrite <- app_assoc in Q. cbn [app] in Q.
    exists (n1 + n2)%nat, stk3. split; [|exact Q]. intros fuel Hf. cbn [fields_loop]. rewrite (known_name _ _ _ Kn).
    rewrite Ap1 by lia. cbv zeta. assert (Lp : (b < length stk)%nat) by (destruct P as (Lp & _); lia).
    rewrite !upd_nth, Nat.eqb_refl. destruct (Nat.eqb_spec b (length stk)); [lia|].
    rewrite Hc. cbn [option_map]. cbn [set_parent set_off f_ty]. rewrite Tc, Qe.
    rewrite <- (Ap2 fuel ltac:(lia)). f_equal.
    apply nth_error_ext. intros j. rewrite !upd_nth. destruct (Nat.eqb (length stk) j); [|reflexivity].
    destruct (Nat.eqb b j); destruct (nth_error stk1 j); reflexivity.
  - pose proof (unquoted_head d Qd) as Qe.
    destruct (Sub stk seen f0 done name (fd_off f) T d d seen1 (fun c => set_parent b (set_off (fd_off f) c)) Wi P RT eq_refl) as (n1 & stk1 & Ap1 & F1 & P2 & Wi2).
    { intros c. repeat split. }
    { intros stk1 stk' F A B. eapply fits_alike; [|exact F]. split; [intros j Hj; symmetry; apply A, Hj|].
      intros c Hc. eexists. split; [apply B, Hc|]. repeat split. }
    destruct (fits_head_et _ _ _ _ F1) as (c & Hc & Tc).
    destruct (IH (Mono _ _ _ _ RT Si) f0 _ _ Hr P2 Wi2) as (n2 & stk3 & Ap2 & Q). rewrite <- app_assoc in Q. cbn [app] in Q.
    exists (n1 + n2)%nat, stk3. split; [|exact Q]. intros fuel Hf. cbn [fields_loop]. rewrite (known_name _ _ _ Kn).
    rewrite Ap1 by lia. cbv zeta. assert (Lp : (b < length stk)%nat) by (destruct P as (Lp & _); lia).
    rewrite !upd_nth, Nat.eqb_refl. destruct (Nat.eqb_spec b (length stk)); [lia|].
    rewrite Hc. cbn [option_map]. cbn [set_parent set_off f_ty]. rewrite Tc, Qe. rewrite <- (Ap2 fuel ltac:(lia)). rewrite Da. reflexivity.
Qed.

(** The frames of the recursive struct, appended to [pre]. *)
Lemma append_rafter seen T z fs seen' : sizes_ok w64 E -> within pre seen -> rresolves_after seen T z fs seen' ->
  exists n stk, (forall fuel, (n <= fuel)%nat -> append fuel pre T = AOk stk) /\
    (length stk = b + S (dlens (shape fs)))%nat /\ rfits_fields w64 stk b z (S b) fs /\
    (forall j, (j < b)%nat -> nth_error stk j = nth_error pre j) /\ within stk seen' /\
    exists f, rec_frame stk b z fs f /\ f_parent f = None /\ f_off f = 0 /\ f_cap f = 0.
Proof.
  intros Sz Wi (i & id & l & -> & Pl & Un & Zp & Ns & RF & Sf).
  set (f0 := set_rt (RNamed i) (mkfr EStruct z)).
  assert (Fp : forall k, find_rt pre k (RNamed i) = None) by (eapply find_rt_none; [exact Wi|discriminate|exact Ns]).
  destruct (rresolves_built i id z l Sz Fp Un Zp _ _ _ _ RF (or_introl eq_refl) f0 [] (pre ++ [f0]) eq_refl) as (n & stk & Ap & (Ln & N & Ff & Pr) & Wi').
  { unfold rpartway. split; [rewrite app_length; cbn; lia|]. split; [rewrite nth_error_app2 by lia; rewrite Nat.sub_diag; reflexivity|]. split; [exact I|].
    intros j Hj. apply nth_error_app1, Hj. }
  { apply within_app; [eapply within_more; [exact Wi|intros r Hr; right; exact Hr]|]. intros r [= <-]. right. left. reflexivity. }
  exists (S n), stk. split.
  - intros [|fuel] Hf; [lia|]. cbn [AppendType.append]. destruct (plain_support E _ Pl) as [-> ->]. rewrite Un.
    assert (Ts : tsize w64 E (TNamed i) = z) by (rewrite (tsize_under w64 E _ Sz), Un; reflexivity). rewrite Ts.
    assert (Si : struct_id E (TNamed i) = Some (RNamed i)) by (cbn in *; rewrite Un; reflexivity). rewrite Si.
    destruct l as [|x l]; [exfalso; inversion RF; subst; destruct Sf as (? & [] & _)|].
    change (fields_loop w64 E disallow fuel b (x :: l) (pre ++ [f0]) = AOk stk). apply Ap. lia.
  - cbn [app] in *. split; [exact Ln|]. split; [exact Ff|]. split; [exact Pr|]. split; [exact Wi'|].
    exists (set_ty (marked fs) (set_fields (field_idx (S b) (shape fs)) f0)). split; [|repeat split].
    split; [exact N|]. split; [|split; reflexivity].
    cbn [set_ty f_ty]. unfold marked. replace (existsb _ fs) with true; [reflexivity|]. symmetry. apply existsb_exists.
    destruct Sf as (x & Hx & Nx). exists x. split; [exact Hx|]. destruct (snd x) as [| | |d]; try reflexivity. exfalso. eapply Nx. reflexivity.
Qed.
End RecElab.

Section Root.
Variables (w64 : bool) (E : env) (disallow : bool).
Notation append := (AppendType.append w64 E disallow).
Theorem append_rdescribes T z fs : sizes_ok w64 E -> rresolves w64 E disallow T z fs ->
  exists n stk, rdescribes w64 stk z fs /\ forall fuel, (n <= fuel)%nat -> append fuel [] T = AOk stk.
Proof.
  intros Sz R. destruct (rresolves_first _ _ _ _ _ _ R) as (seen' & R').
  destruct (append_rafter w64 E disallow [] [] T z fs seen' Sz (fun f r (H : In f []) => match H with end) R') as (n & stk & Ap & Ln & Ff & _ & _ & Rf).
  exists n, stk. split; [|exact Ap]. split; [exact Ln|]. split; [exact Ff|]. destruct Rf as (f & Rf & Pf & Of & _). eauto.
Qed.
Theorem append_ok_rdescribes T z fs fuel stk : sizes_ok w64 E -> rresolves w64 E disallow T z fs ->
  append fuel [] T = AOk stk -> rdescribes w64 stk z fs.
Proof.
  intros S R H. destruct (append_rdescribes _ _ _ S R) as (n & stk' & D & A).
  pose proof (append_fuel w64 E disallow fuel [] T n) as F. rewrite H in F. specialize (F ltac:(discriminate)).
  rewrite A in F by lia. injection F as ->. exact D.
Qed.
End Root.

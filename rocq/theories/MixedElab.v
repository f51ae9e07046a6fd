(** From Go types that contain recursive structs to [wt], and the frames NewDecoder builds
    for them.

    [wresolves seen T t seen'] is a specification over the Go type only, as [resolves]
    (Elab.v) and [rresolves_after] (RecElab.v): [seen] and [seen'] are the types with an
    identity that are met before and after [T] in reading order. *)
From Verif Require Import Base Lookup Types AppendType Token Heap Machine Dt Dec Control Root Elab Rec RecElab Mixed.
Open Scope Z_scope.

Section Resolve.
Variables (w64 : bool) (E : env) (disallow : bool).
Notation append := (AppendType.append w64 E disallow).
Notation resolves := (Elab.resolves w64 E disallow).
Notation plain := (Elab.plain E).
Notation unseen := (Elab.unseen E).

Definition not_sub (t : wt) : Prop := match t with WSub _ => False | _ => True end.
(** The type of a struct field with the `string` tag option. *)
Definition wquoted (t : wt) : option wt := match t with WSub d => option_map WSub (quoted d) | _ => None end.

Inductive wresolves : list rtid -> ty -> wt -> list rtid -> Prop :=
| W_sub seen T d seen' : resolves seen T d seen' -> wresolves seen T (WSub d) seen'
| W_rec seen T z fs seen' : rresolves_after w64 E disallow seen T z fs seen' -> wresolves seen T (WRec z fs) seen'
| W_slice seen T U t seen' : plain T -> under E T = TSlice U -> unseen seen U ->
    wresolves seen U t seen' -> not_sub t -> wresolves seen T (WSlice t) seen'
| W_map seen T K V k ks t seen' : plain T -> under E T = TMap K V -> unseen seen V ->
    ~ (stringy E K /\ stringy E V) -> key_type E K k ks ->
    wresolves (ks ++ seen) V t seen' -> wresolves seen T (WMap k t) seen'
| W_ptr seen T U t seen' : plain T -> under E T = TPtr U -> unseen seen U ->
    wresolves seen U t seen' -> wresolves seen T (WPtr t) seen'
| W_struct seen T r id z fs ds seen' : plain T -> under E T = TStruct id z fs -> fs <> [] -> identity E T = Some r -> 0 < z ->
    wresolves_fields (r :: seen) fs ds seen' -> wresolves seen T (WStruct z ds) seen'
with wresolves_fields : list rtid -> list (fld * ty) -> wfields -> list rtid -> Prop :=
| WF_nil seen : wresolves_fields seen [] [] seen
| WF_skip seen f T fs ds seen' : ignored f -> wresolves_fields seen fs ds seen' ->
    wresolves_fields seen ((f, T) :: fs) ds seen'
| WF_field seen f T fs name t ds seen1 seen' : known_as f name false -> wresolves seen T t seen1 ->
    wresolves_fields seen1 fs ds seen' ->
    wresolves_fields seen ((f, T) :: fs) (((name, fd_off f), t) :: ds) seen'
| WF_quoted seen f T fs name t t' ds seen1 seen' : known_as f name true -> wresolves seen T t seen1 ->
    wquoted t = Some t' -> wresolves_fields seen1 fs ds seen' ->
    wresolves_fields seen ((f, T) :: fs) (((name, fd_off f), t') :: ds) seen'
| WF_unquoted seen f T fs name t ds seen1 seen' : known_as f name true -> wresolves seen T t seen1 ->
    wquoted t = None -> disallow = false -> wresolves_fields seen1 fs ds seen' ->
    wresolves_fields seen ((f, T) :: fs) (((name, fd_off f), t) :: ds) seen'.
Scheme wresolves_ind2 := Minimality for wresolves Sort Prop
  with wresolves_fields_ind2 := Minimality for wresolves_fields Sort Prop.
Combined Scheme wresolves_mut from wresolves_ind2, wresolves_fields_ind2.

Lemma wresolves_size : sizes_ok w64 E -> forall seen T t seen', wresolves seen T t seen' -> tsize w64 E T = dsize w64 (flatt t).
Proof.
  intros S seen T t seen' R. destruct R as [seen T d seen' R|seen T z fs seen' R| | | |];
    try (rewrite (tsize_under w64 E T S); match goal with H : under E _ = _ |- _ => rewrite H end; reflexivity).
  - eapply resolves_size; eassumption.
  - destruct R as (i & id & l & -> & _ & Un & _). rewrite (tsize_under w64 E _ S), Un. reflexivity.
Qed.

(** ** Frames *)
Notation wfits := (Mixed.wfits w64).
Notation wfits_fields := (Mixed.wfits_fields w64).
Lemma wfits_alike t : forall stk stk' i, alike stk stk' i (dlen (flatt t)) -> wfits stk i t -> wfits stk' i t.
Proof.
  induction t as [d|z fs|t IH|k t IH|t IH|z fs IH] using wt_ind'; intros stk stk' i A F; pose proof dlen_pos as P.
  - eapply fits_alike; eassumption.
  - cbn [Mixed.wfits flatt] in *. rewrite dlen_struct in A. destruct F as (Ff & f & Hf & T & S & Fl). destruct A as [A B]. split.
    + eapply rfits_same; [|exact Ff]. intros j Hj. apply A. lia.
    + destruct (B f Hf) as (f' & Hf' & T' & S' & F' & _). exists f'. unfold rec_frame. rewrite <- T', <- S', <- F'. auto.
  - cbn [Mixed.wfits flatt dlen] in *. destruct F as (Fe & Hd & Ft & Lk). rewrite Fe in A. split; [exact Fe|].
    split; [eapply head_alike; eassumption|]. split.
    + eapply IH; [|exact Ft]. eapply alike_sub; [exact A|lia|lia|apply P].
    + eapply linked_alike; [exact A|specialize (P (flatt t)); lia|exact Lk].
  - cbn [Mixed.wfits flatt dlen] in *. destruct F as (Hd & Kf & Ft & Lk). split; [eapply head_alike; eassumption|]. split; [|split].
    + destruct Kf as (f & Hf & Kf). exists f. destruct A as [A _]. rewrite <- A by lia. split; assumption.
    + eapply IH; [|exact Ft]. eapply alike_sub; [exact A|lia|lia|apply P].
    + eapply linked_alike; [exact A|specialize (P (flatt t)); lia|exact Lk].
  - cbn [Mixed.wfits flatt dlen] in *. destruct F as (Hd & Ft & Lk). split; [eapply head_alike; eassumption|]. split.
    + eapply IH; [|exact Ft]. eapply alike_sub; [exact A|lia|lia|apply P].
    + eapply linked_alike; [exact A|specialize (P (flatt t)); lia|exact Lk].
  - apply wfits_struct in F as [Hd F]. apply wfits_struct. split; [eapply head_alike; eassumption|].
    cbn [flatt] in A. rewrite dlen_struct in A. fold (wshape fs) in A.
    assert (G : forall k, (i < k)%nat -> (k + dlens (wshape fs) <= i + S (dlens (wshape fs)))%nat -> wfits_fields stk i k fs -> wfits_fields stk' i k fs).
    2:{ apply G; [lia|lia|exact F]. }
    clear F Hd. revert A. generalize (S (dlens (wshape fs))) as n. intros n A.
    induction IH as [|x fs Hx IH IHl]; intros k H1 H2 F; [exact I|]. cbn [Mixed.wfits_fields wshape map dlens fst snd] in *. fold (wshape fs) in *.
    destruct F as (Fx & Lk & Fr). pose proof (P (flatt (snd x))). repeat split.
    + eapply Hx; [|exact Fx]. eapply alike_sub; [exact A|lia|lia|apply P].
    + eapply linked_alike; [exact A|lia|exact Lk].
    + apply IHl; [lia|lia|exact Fr].
Qed.

(** [stk'] is [stk] followed by the frames of [t]. *)
Definition wextends (stk : list frame) (t : wt) (stk' : list frame) : Prop :=
  length stk' = (length stk + dlen (flatt t))%nat /\ (forall j, (j < length stk)%nat -> nth_error stk' j = nth_error stk j) /\
  wfits stk' (length stk) t /\ linked stk' (length stk) None 0 0.
Definition wbuilt (stk : list frame) (T : ty) (t : wt) (seen' : list rtid) : Prop :=
  exists n stk', (forall fuel, (n <= fuel)%nat -> append fuel stk T = AOk stk') /\ wextends stk t stk' /\ within stk' seen'.

(** A frame followed by its only child. *)
Lemma wwith_child stk f t0 t stk1 link par off cap : dlen (flatt t0) = S (dlen (flatt t)) ->
  f_parent f = None -> f_off f = 0 -> f_cap f = 0 ->
  wextends (stk ++ [f]) t stk1 -> (forall g, same_head g (link g)) ->
  (forall g, f_parent g = None -> f_off g = 0 -> f_cap g = 0 -> f_parent (link g) = par /\ f_off (link g) = off /\ f_cap (link g) = cap) ->
  (forall stk', nth_error stk' (length stk) = Some f -> wfits stk' (S (length stk)) t ->
     linked stk' (S (length stk)) par off cap -> wfits stk' (length stk) t0) ->
  wextends stk t0 (upd stk1 (length (stk ++ [f])) link).
Proof.
  intros L P O K (Ln & Pre & Ft & Lk) Sh Lin F. rewrite app_length in *. cbn [length] in *. rewrite Nat.add_1_r in *.
  assert (N : nth_error (upd stk1 (S (length stk)) link) (length stk) = Some f).
  { rewrite upd_nth. destruct (Nat.eqb_spec (S (length stk)) (length stk)); [lia|]. rewrite Pre by lia.
    rewrite nth_error_app2, Nat.sub_diag by lia. reflexivity. }
  repeat split.
  - rewrite upd_length. lia.
  - intros j Hj. rewrite upd_nth. destruct (Nat.eqb_spec (S (length stk)) j); [lia|]. rewrite Pre by lia. apply nth_error_app1, Hj.
  - apply F; [exact N| |].
    + eapply wfits_alike; [|exact Ft]. split.
      * intros j Hj. rewrite upd_nth. destruct (Nat.eqb_spec (S (length stk)) j); [lia|]. reflexivity.
      * intros g Hg. rewrite upd_nth, Nat.eqb_refl, Hg. exists (link g). split; [reflexivity|apply Sh].
    + destruct Lk as (g & Hg & Pg & Og & Cg). exists (link g). rewrite upd_nth, Nat.eqb_refl, Hg. split; [reflexivity|].
      apply Lin; assumption.
  - exists f. repeat split; assumption.
Qed.

Lemma wshape_app a b : wshape (a ++ b) = wshape a ++ wshape b.
Proof. apply map_app. Qed.
Lemma wfits_app stk i a : forall k b, wfits_fields stk i k (a ++ b) <->
  wfits_fields stk i k a /\ wfits_fields stk i (k + dlens (wshape a)) b.
Proof.
  induction a as [|x r IH]; intros k b; cbn [app Mixed.wfits_fields wshape map dlens fst snd]; [rewrite Nat.add_0_r; tauto|]. rewrite IH. fold (wshape r).
  replace (k + dlen (flatt (snd x)) + dlens (wshape r))%nat with (k + (dlen (flatt (snd x)) + dlens (wshape r)))%nat by lia. tauto.
Qed.
Lemma wfits_same stk stk' i fs : forall k, (forall j, (k <= j < k + dlens (wshape fs))%nat -> nth_error stk j = nth_error stk' j) ->
  wfits_fields stk i k fs -> wfits_fields stk' i k fs.
Proof.
  induction fs as [|x r IH]; intros k A F; [exact I|]. cbn [Mixed.wfits_fields wshape map dlens fst snd] in *. fold (wshape r) in *. destruct F as (Fx & Lk & Fr).
  pose proof (dlen_pos (flatt (snd x))). repeat split.
  - eapply wfits_alike; [|exact Fx]. split; [intros j Hj; apply A; lia|]. intros f Hf. exists f. rewrite <- A by lia. split; [exact Hf|repeat split].
  - destruct Lk as (f & Hf & Lk). exists f. rewrite <- A by lia. split; assumption.
  - apply IH; [intros j Hj; apply A; lia|exact Fr].
Qed.

(** State of the fields loop: the struct frame with the fields done, and their frames. *)
Definition wpartway (base : list frame) (f0 : frame) (done : wfields) (stk : list frame) : Prop :=
  length stk = (S (length base) + dlens (wshape done))%nat /\
  (forall j, (j < length base)%nat -> nth_error stk j = nth_error base j) /\
  nth_error stk (length base) = Some (set_fields (field_idx (S (length base)) (wshape done)) f0) /\
  wfits_fields stk (length base) (S (length base)) done.
Lemma wpartway_add base f0 done stk t stk1 t' name off g seen :
  wpartway base f0 done stk -> wextends stk t stk1 -> within stk1 seen -> dlen (flatt t') = dlen (flatt t) ->
  (forall c, f_rt (g c) = f_rt c /\ f_parent (g c) = Some (length base) /\ f_off (g c) = off /\ f_cap (g c) = f_cap c) ->
  (forall stk', wfits stk1 (length stk) t ->
     (forall j, (length stk < j < length stk + dlen (flatt t))%nat -> nth_error stk' j = nth_error stk1 j) ->
     (forall c, nth_error stk1 (length stk) = Some c -> nth_error stk' (length stk) = Some (g c)) -> wfits stk' (length stk) t') ->
  let stk2 := upd (upd stk1 (length base) (fun p => set_fields (f_fields p ++ [(name, length stk)]) p)) (length stk) g in
  wpartway base f0 (done ++ [((name, off), t')]) stk2 /\ within stk2 seen.
Proof.
  intros (Ln & Pre & Hf & Ff) (Ln1 & Pre1 & F1 & Lk1) Wi Dl Hg Hfit stk2. pose proof (dlen_pos (flatt t)).
  assert (N2 : forall j, nth_error stk2 j = if Nat.eqb (length stk) j then option_map g (nth_error stk1 j)
    else if Nat.eqb (length base) j then option_map (fun p => set_fields (f_fields p ++ [(name, length stk)]) p) (nth_error stk1 j)
    else nth_error stk1 j).
  { intros j. unfold stk2. rewrite !upd_nth. destruct (Nat.eqb_spec (length stk) j), (Nat.eqb_spec (length base) j); try reflexivity. lia. }
  split.
  - unfold wpartway. rewrite !wshape_app, dlens_app, field_idx_app, wfits_app. cbn [dlens Mixed.wfits_fields field_idx wshape map fst snd].
    repeat split.
    + unfold stk2. rewrite !upd_length. lia.
    + intros j Hj. rewrite N2. destruct (Nat.eqb_spec (length stk) j); [lia|]. destruct (Nat.eqb_spec (length base) j); [lia|].
      rewrite Pre1 by lia. apply Pre, Hj.
    + rewrite N2, Nat.eqb_refl. destruct (Nat.eqb_spec (length stk) (length base)); [lia|]. rewrite Pre1 by lia.
      rewrite Hf. cbn [option_map]. f_equal. rewrite Ln. reflexivity.
    + eapply wfits_same; [|exact Ff]. intros j Hj. rewrite N2.
      destruct (Nat.eqb_spec (length stk) j); [lia|]. destruct (Nat.eqb_spec (length base) j); [lia|]. symmetry. apply Pre1. lia.
    + rewrite <- Ln. apply Hfit; [exact F1| |].
      * intros j Hj. rewrite N2. destruct (Nat.eqb_spec (length stk) j); [lia|]. destruct (Nat.eqb_spec (length base) j); [lia|]. reflexivity.
      * intros c Hc. rewrite N2, Nat.eqb_refl, Hc. reflexivity.
    + rewrite <- Ln. destruct Lk1 as (c & Hc & _ & _ & Cc). exists (g c). rewrite N2, Nat.eqb_refl, Hc. split; [reflexivity|].
      destruct (Hg c) as (_ & Pg & Og & Cg). repeat split; congruence.
  - unfold stk2. apply within_upd; [|intros c; apply Hg]. apply within_upd; [exact Wi|reflexivity].
Qed.

Lemma wquoted_head t t' : wquoted t = Some t' -> exists d d', t = WSub d /\ t' = WSub d' /\ quoted d = Some d'.
Proof. destruct t as [d| | | | |]; try discriminate. cbn. destruct (quoted d) eqn:Q; [|discriminate]. intros [= <-]. eauto. Qed.
Lemma wunquoted_head t : wquoted t = None -> string_type (wet t) = None.
Proof.
  destruct t as [d| |t| | |]; try reflexivity.
  - cbn. destruct (quoted d) eqn:Q; [discriminate|]. intros _. apply unquoted_head, Q.
  - intros _. cbn. destruct (flatt t) as [x| | | | | | | | | |]; try reflexivity. destruct x; reflexivity.
Qed.
Lemma slow_elem seen U t seen' : sizes_ok w64 E -> wresolves seen U t seen' -> not_sub t -> slice_fast w64 E U = None /\ fast_et (flatt t) = None.
Proof.
  intros Sz R N. unfold slice_fast. destruct R as [|seen T z fs seen' R| | | |seen T r id z fs ds seen' Pl Un Ne Id Zp RF]; try contradiction;
    try (match goal with H : under E _ = _ |- _ => rewrite H end; split; reflexivity).
  - destruct R as (i & id & l & -> & _ & Un & Zp & _). rewrite Un, (tsize_under w64 E _ Sz), Un. cbn [tsize flatt fast_et].
    destruct (Z.ltb_spec z 1); [lia|]. split; reflexivity.
  - rewrite Un, (tsize_under w64 E _ Sz), Un. cbn [tsize flatt fast_et]. destruct (Z.ltb_spec z 1); [lia|]. split; reflexivity.
Qed.

Theorem wresolves_built : sizes_ok w64 E ->
  (forall seen T t seen', wresolves seen T t seen' -> forall stk, within stk seen -> wbuilt stk T t seen') /\
  (forall seen fs ds seen', wresolves_fields seen fs ds seen' -> forall base f0 done stk, wpartway base f0 done stk -> within stk seen ->
     exists n stk', (forall fuel, (n <= fuel)%nat -> fields_loop w64 E disallow fuel (length base) fs stk = AOk stk') /\
       wpartway base f0 (done ++ ds) stk' /\ within stk' seen').
Proof.
  intros Sz. pose proof (wresolves_size Sz) as Rs. apply wresolves_mut.
  - (* no recursion *)
    intros seen T d seen' R stk Wi. destruct (proj1 (resolves_built w64 E disallow Sz) _ _ _ _ R stk Wi) as (n & stk' & Ap & Ex & Wi').
    exists n, stk'. split; [exact Ap|]. split; [exact Ex|exact Wi'].
  - (* recursive structs *)
    intros seen T z fs seen' R stk Wi. destruct (append_rafter w64 E disallow stk seen T z fs seen' Sz Wi R) as (n & stk' & Ap & Ln & Ff & Pr & Wi' & f & Rf & Pf & Of & Cf).
    exists n, stk'. split; [exact Ap|]. split; [|exact Wi']. split; [cbn [flatt]; rewrite dlen_struct; exact Ln|]. split; [exact Pr|]. split.
    + split; [exact Ff|]. exists f. exact Rf.
    + exists f. split; [apply Rf|]. auto.
  - (* slices *)
    intros seen T U t seen' Pl Un Us RU IH Ns stk Wi. destruct (plain_support E T Pl) as [J X]. destruct (slow_elem _ _ _ _ Sz RU Ns) as [SF Fe].
    destruct (IH (stk ++ [mkfr ESlice (3 * wb w64)])) as (m & stk1 & Ap & Ex & Wi1); [apply within_app; [exact Wi|discriminate]|].
    exists (S m). eexists. split; [|split].
    + intros [|fuel] Hf; [lia|]. cbn [AppendType.append]. rewrite J, X, Un, SF, (find_recur_none w64 E stk seen U Wi Us).
      rewrite Ap by lia. reflexivity.
    + eapply wwith_child with (par := Some (length stk)) (off := 0) (cap := 0); try exact Ex; try reflexivity.
      * cbn [flatt dlen]. rewrite Fe. reflexivity.
      * intros g. repeat split.
      * intros g _ Og Cg. repeat split; assumption.
      * intros stk' N Ft Lk. cbn [Mixed.wfits]. repeat split; try assumption. eexists. split; [exact N|].
        cbn [flatt dt_et]. rewrite Fe. repeat split.
    + apply within_upd; [exact Wi1|reflexivity].
  - (* maps *)
    intros seen T K V k ks t seen' Pl Un Us Ns Kt RV IH stk Wi. destruct (plain_support E T Pl) as [J X].
    set (f0 := set_rt ROther (set_vsize (tsize w64 E V) (mkfr EMap (wb w64)))).
    assert (KB : exists fk, (forall fuel, (1 <= fuel)%nat -> append fuel (stk ++ [f0]) K = AOk ((stk ++ [f0]) ++ [fk])) /\
      f_ty fk = dkey_et k /\ (match k with KeyText id _ => f_rt fk = Some (RNamed id) | _ => True end) /\
      (forall r, f_rt fk = Some r -> In r ks)).
    { inversion Kt as [K' PK UK|K' k' PK UK|i JK XK]; subst.
      - destruct (plain_support E K PK) as [JK XK]. eexists. split; [|split; [|split]].
        + intros [|fuel] Hf; [lia|]. cbn [AppendType.append]. rewrite JK, XK, UK. reflexivity.
        + reflexivity.
        + exact I.
        + discriminate.
      - destruct (plain_support E K PK) as [JK XK]. eexists. split; [|split; [|split]].
        + intros [|fuel] Hf; [lia|]. cbn [AppendType.append]. rewrite JK, XK, UK. reflexivity.
        + reflexivity.
        + exact I.
        + discriminate.
      - eexists. split; [|split; [|split]].
        + intros [|fuel] Hf; [lia|]. cbn [AppendType.append json_support text_support]. rewrite JK, XK. reflexivity.
        + reflexivity.
        + reflexivity.
        + intros r [= <-]. left. reflexivity. }
    destruct KB as (fk & ApK & Tk & Rk & Sk).
    set (fk' := set_parent (length stk) fk).
    assert (Lb : upd ((stk ++ [f0]) ++ [fk]) (length (stk ++ [f0])) (set_parent (length stk)) = (stk ++ [f0]) ++ [fk']).
    { rewrite <- (Nat.add_0_r (length (stk ++ [f0]))). rewrite upd_app_r. reflexivity. }
    assert (Wk : within ((stk ++ [f0]) ++ [fk']) (ks ++ seen)).
    { apply within_app.
      - apply within_app; [eapply within_more; [exact Wi|intros; apply in_or_app; right; assumption]|].
        intros r [= <-]. left. reflexivity.
      - intros r Hr. right. apply in_or_app. left. apply Sk. exact Hr. }
    destruct (IH _ Wk) as (m & stk2 & Ap & (Ln & Pre & Ft & Lk) & Wi2).
    exists (S (S m)). eexists. split; [|split].
    + intros [|fuel] Hf; [lia|]. cbn [AppendType.append]. rewrite J, X, Un, (find_recur_none w64 E stk seen V Wi Us).
      replace (kind_string E K && kind_string E V) with false.
      2:{ symmetry. apply andb_false_iff. unfold kind_string. unfold stringy in Ns.
          destruct (under E K), (under E V); try (left; reflexivity); try (right; reflexivity); exfalso; apply Ns; split; auto. }
      fold f0. rewrite ApK by lia. rewrite Lb. rewrite Ap by lia. reflexivity.
    + assert (L2 : length ((stk ++ [f0]) ++ [fk']) = S (S (length stk))) by (rewrite !app_length; cbn; lia).
      rewrite L2 in *.
      assert (N : forall j, (j < S (S (length stk)))%nat ->
        nth_error (upd stk2 (S (S (length stk))) (set_parent (length stk))) j = nth_error ((stk ++ [f0]) ++ [fk']) j).
      { intros j Hj. rewrite upd_nth. destruct (Nat.eqb_spec (S (S (length stk))) j); [lia|]. apply Pre, Hj. }
      assert (N0 : nth_error (upd stk2 (S (S (length stk))) (set_parent (length stk))) (length stk) = Some f0).
      { rewrite N by lia. rewrite nth_error_app1 by (rewrite app_length; cbn; lia).
        rewrite nth_error_app2, Nat.sub_diag by lia. reflexivity. }
      split; [|split; [|split]].
      * rewrite upd_length, Ln. cbn [flatt dlen]. lia.
      * intros j Hj. rewrite N by lia. rewrite nth_error_app1 by (rewrite app_length; cbn; lia). apply nth_error_app1, Hj.
      * cbn [Mixed.wfits]. split; [|split; [|split]].
        -- exists f0. split; [exact N0|]. repeat split. cbn [f0 set_rt set_vsize f_vsize]. apply (Rs _ _ _ _ RV).
        -- exists fk'. split.
           ++ rewrite N by lia. rewrite nth_error_app2 by (rewrite app_length; cbn; lia).
              rewrite app_length. cbn [length]. replace (S (length stk) - (length stk + 1))%nat with 0%nat by lia. reflexivity.
           ++ split; [exact Tk|exact Rk].
        -- eapply wfits_alike; [|exact Ft]. split.
           ++ intros j Hj. rewrite upd_nth. destruct (Nat.eqb_spec (S (S (length stk))) j); [lia|]. reflexivity.
           ++ intros g Hg. rewrite upd_nth, Nat.eqb_refl, Hg. eexists. split; [reflexivity|repeat split].
        -- destruct Lk as (g & Hg & Pg & Og & Cg). exists (set_parent (length stk) g). rewrite upd_nth, Nat.eqb_refl, Hg.
           repeat split; assumption.
      * exists f0. repeat split. exact N0.
    + apply within_upd; [exact Wi2|reflexivity].
  - (* pointers *)
    intros seen T U t seen' Pl Un Us RU IH stk Wi. destruct (plain_support E T Pl) as [J X].
    destruct (IH (stk ++ [mkfr EPtr (wb w64)])) as (m & stk1 & Ap & Ex & Wi1); [apply within_app; [exact Wi|discriminate]|].
    exists (S m). eexists. split; [|split].
    + intros [|fuel] Hf; [lia|]. cbn [AppendType.append]. rewrite J, X, Un, (find_recur_none w64 E stk seen U Wi Us).
      rewrite Ap by lia. reflexivity.
    + eapply wwith_child with (par := Some (length stk)) (off := 0) (cap := 0); try exact Ex; try reflexivity.
      * intros g. repeat split.
      * intros g _ Og Cg. repeat split; assumption.
      * intros stk' N Ft Lk. cbn [Mixed.wfits]. repeat split; try assumption. eexists. split; [exact N|]. repeat split.
    + apply within_upd; [exact Wi1|reflexivity].
  - (* structs *)
    intros seen T r id z fs ds seen' Pl Un Ne Id Zp RF IH stk Wi. destruct (plain_support E T Pl) as [J X].
    set (f0 := set_rt r (mkfr EStruct (tsize w64 E T))).
    destruct (IH stk f0 [] (stk ++ [f0])) as (m & stk1 & Ap & (Ln & Pre & N & Ff) & Wi1).
    { repeat split.
      - rewrite app_length. cbn. lia.
      - intros j Hj. apply nth_error_app1, Hj.
      - rewrite nth_error_app2, Nat.sub_diag by lia. reflexivity. }
    { apply within_app; [eapply within_more; [exact Wi|intros; right; assumption]|]. intros q [= <-]. right. left. reflexivity. }
    exists (S m). exists stk1. split; [|split; [|exact Wi1]].
    + intros [|fuel] Hf; [lia|]. cbn [AppendType.append]. rewrite J, X, Un, identity_struct_id, Id. fold f0.
      destruct fs as [|x fs]; [congruence|]. apply (Ap fuel). lia.
    + cbn [app] in *. split; [|split; [|split]].
      * cbn [flatt]. rewrite dlen_struct. fold (wshape ds). lia.
      * exact Pre.
      * apply wfits_struct. split; [|exact Ff]. eexists. split; [exact N|]. repeat split.
        cbn [set_fields f0 set_rt mkfr f_size dsize flatt]. rewrite (tsize_under w64 E T Sz), Un. reflexivity.
      * eexists. split; [exact N|]. repeat split.
  - (* no more fields *)
    intros seen base f0 done stk P Wi. exists 0%nat, stk. rewrite app_nil_r. split; [intros fuel _; reflexivity|]. split; assumption.
  - (* ignored field *)
    intros seen f T fs ds seen' Fn RF IH base f0 done stk P Wi. destruct (IH base f0 done stk P Wi) as (n & stk' & Ap & Q).
    exists n, stk'. split; [|exact Q]. intros fuel Hf. cbn [fields_loop]. rewrite (ignored_name _ Fn). apply Ap, Hf.
  - (* field *)
    intros seen f T fs name t ds seen1 seen' Fn RT IHT RF IH base f0 done stk P Wi.
    destruct (IHT stk Wi) as (n1 & stk1 & Ap1 & Ex1 & Wi1).
    destruct (wpartway_add base f0 done stk t stk1 t name (fd_off f)
      (fun c => set_parent (length base) (set_off (fd_off f) c)) seen1 P Ex1 Wi1 eq_refl) as (P2 & Wi2).
    { intros c. repeat split. }
    { intros stk' F A B. eapply wfits_alike; [|exact F]. split; [intros j Hj; symmetry; apply A, Hj|].
      intros c Hc. eexists. split; [apply B, Hc|]. repeat split. }
    destruct (IH base f0 _ _ P2 Wi2) as (n2 & stk3 & Ap2 & Q). rewrite <- app_assoc in Q. cbn [app] in Q.
    exists (n1 + n2)%nat, stk3. split; [|exact Q]. intros fuel Hf. cbn [fields_loop]. rewrite (known_name _ _ _ Fn).
    rewrite Ap1 by lia. apply Ap2. lia.
  - (* field with the string option *)
    intros seen f T fs name t t' ds seen1 seen' Fn RT IHT Qd RF IH base f0 done stk P Wi.
    destruct (wquoted_head t t' Qd) as (d & d' & -> & -> & Qd'). clear Qd. rename Qd' into Qd.
    destruct (quoted_head d d' Qd) as (Qe & Q1 & Q2).
    destruct (IHT stk Wi) as (n1 & stk1 & Ap1 & Ex1 & Wi1).
    assert (Ex1' := Ex1). destruct Ex1' as (Ln1 & Pre1 & F1 & _).
    destruct (fits_head_et _ _ _ _ F1) as (c & Hc & Tc).
    destruct (wpartway_add base f0 done stk (WSub d) stk1 (WSub d') name (fd_off f)
      (fun c => set_ty (dt_et d') (set_parent (length base) (set_off (fd_off f) c))) seen1 P Ex1 Wi1 ltac:(cbn [flatt]; congruence)) as (P2 & Wi2).
    { intros c'. repeat split. }
    { intros stk' F A B. clear - F A B Qd.
      destruct d as [x| | | | | | | | | |]; try discriminate; destruct x; try discriminate; injection Qd as <-;
      destruct F as (c & Hc & T & S & Fl & _); eexists; (split; [apply B, Hc|]); repeat split; cbn; assumption. }
    destruct (IH base f0 _ _ P2 Wi2) as (n2 & stk3 & Ap2 & Q). rewrite <- app_assoc in Q. cbn [app] in Q.
    exists (n1 + n2)%nat, stk3. split; [|exact Q]. intros fuel Hf. cbn [fields_loop]. rewrite (known_name _ _ _ Fn).
    rewrite Ap1 by lia. cbv zeta.
    assert (Nb : length stk <> length base) by (destruct P as (Lp & _); lia).
    rewrite !upd_nth, Nat.eqb_refl. destruct (Nat.eqb_spec (length base) (length stk)); [congruence|].
    rewrite Hc. cbn [option_map]. cbn [set_parent set_off f_ty]. rewrite Tc, Qe.
    rewrite <- (Ap2 fuel ltac:(lia)). f_equal.
    apply nth_error_ext. intros j. rewrite !upd_nth. destruct (Nat.eqb (length stk) j); [|reflexivity].
    destruct (Nat.eqb (length base) j); destruct (nth_error stk1 j); reflexivity.
  - (* string option ignored *)
    intros seen f T fs name t ds seen1 seen' Fn RT IHT Qd Da RF IH base f0 done stk P Wi.
    pose proof (wunquoted_head t Qd) as Qe.
    destruct (IHT stk Wi) as (n1 & stk1 & Ap1 & Ex1 & Wi1).
    assert (Ex1' := Ex1). destruct Ex1' as (Ln1 & Pre1 & F1 & _).
    destruct (wfits_head _ _ _ _ F1) as (c & Hc & Tc & _).
    destruct (wpartway_add base f0 done stk t stk1 t name (fd_off f)
      (fun c => set_parent (length base) (set_off (fd_off f) c)) seen1 P Ex1 Wi1 eq_refl) as (P2 & Wi2).
    { intros c'. repeat split. }
    { intros stk' F A B. eapply wfits_alike; [|exact F]. split; [intros j Hj; symmetry; apply A, Hj|].
      intros c' Hc'. eexists. split; [apply B, Hc'|]. repeat split. }
    destruct (IH base f0 _ _ P2 Wi2) as (n2 & stk3 & Ap2 & Q). rewrite <- app_assoc in Q. cbn [app] in Q.
    exists (n1 + n2)%nat, stk3. split; [|exact Q]. intros fuel Hf. cbn [fields_loop]. rewrite (known_name _ _ _ Fn).
    rewrite Ap1 by lia. cbv zeta.
    assert (Nb : length stk <> length base) by (destruct P as (Lp & _); lia).
    rewrite !upd_nth, Nat.eqb_refl. destruct (Nat.eqb_spec (length base) (length stk)); [congruence|].
    rewrite Hc. cbn [option_map]. cbn [set_parent set_off f_ty]. rewrite Tc, Qe. rewrite <- (Ap2 fuel ltac:(lia)). rewrite Da. reflexivity.
Qed.
End Resolve.

(** For every type that resolves, NewDecoder succeeds and its frames describe the type. *)
Theorem append_wdescribes w64 E disallow T t seen' :
  sizes_ok w64 E -> wresolves w64 E disallow [] T t seen' ->
  exists n stk, wdescribes w64 stk t /\
    forall fuel, (n <= fuel)%nat -> append w64 E disallow fuel [] T = AOk stk.
Proof.
  intros S R. destruct (proj1 (wresolves_built w64 E disallow S) _ _ _ _ R []) as (n & stk & Ap & (Ln & _ & Ft & Lk) & _).
  { intros f r []. }
  exists n, stk. split; [|exact Ap]. split; [exact Ln|]. split; [exact Ft|exact Lk].
Qed.
Theorem append_ok_wdescribes w64 E disallow T t seen' fuel stk :
  sizes_ok w64 E -> wresolves w64 E disallow [] T t seen' ->
  append w64 E disallow fuel [] T = AOk stk -> wdescribes w64 stk t.
Proof.
  intros S R H. destruct (append_wdescribes _ _ _ _ _ _ S R) as (n & stk' & D & A).
  pose proof (append_fuel w64 E disallow fuel [] T n) as F. rewrite H in F. specialize (F ltac:(discriminate)).
  rewrite A in F by lia. injection F as ->. exact D.
Qed.

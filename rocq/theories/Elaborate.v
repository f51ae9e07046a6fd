(** Computing the resolved form of a type, and concrete instances of the hypotheses of
    the main theorems.  Used for witnesses only; models no code of the repository. *)
From Verif Require Import Base NumSpec StrSpec Lookup Types AppendType Token FloatLit Heap Machine Dt Dec Control Root Elab Value Dval Sep Refine Spec Typed SpecProofs Main Parse World.
Open Scope Z_scope.

Section Elaborate.
Variables (w64 : bool) (E : env) (disallow : bool).
Definition none (x : support) : bool := match x with SNone => true | SSome => false end.
Definition plainb (T : ty) : bool :=
  match T with TNamed i | TPtr (TNamed i) => none (d_json (E i)) && none (d_text (E i)) | _ => true end.
Definition unseenb (seen : list rtid) (T : ty) : bool :=
  match identity E T with Some r => negb (existsb (rtid_eqb r) seen) | None => true end.
Definition slice_elem_okb (T : ty) (d : dt) : bool :=
  match d with
  | DText _ _ | DJson _ _ =>
      match under E T with TBool | TStr | TInt _ | TFloat _ => false | TStruct _ _ _ => 0 <? tsize w64 E T | _ => true end
  | DStruct z _ => 0 <? z
  | _ => true
  end.
Definition stringyb (T : ty) : bool := match under E T with TStr | TNumber => true | _ => false end.
Definition key_typeb (T : ty) : option (dkey * list rtid) :=
  match T with
  | TNamed i => if none (d_json (E i)) then
                  if none (d_text (E i)) then
                    match d_under (E i) with TStr => Some (KeyStr, []) | TInt k => Some (KeyInt k, []) | _ => None end
                  else Some (KeyText i (d_size (E i)), [RNamed i])
                else None
  | TStr => Some (KeyStr, [])
  | TInt k => Some (KeyInt k, [])
  | _ => None
  end.
Fixpoint elab_fields (rec : list rtid -> ty -> option (dt * list rtid)) (seen : list rtid) (fs : list (fld * ty)) : option (list ((bytes * Z) * dt) * list rtid) :=
                 match fs with
                 | [] => Some ([], seen)
                 | (f, U) :: fs =>
                     match field_name f with
                     | None => elab_fields rec seen fs
                     | Some (name, q) =>
                         match rec seen U with
                         | None => None
                         | Some (d, seen) =>
                             match elab_fields rec seen fs with
                             | None => None
                             | Some (ds, seen) =>
                                 if q then match quoted d with
                                           | Some d' => Some (((name, fd_off f), d') :: ds, seen)
                                           | None => if disallow then None else Some (((name, fd_off f), d) :: ds, seen)
                                           end
                                 else Some (((name, fd_off f), d) :: ds, seen)
                             end
                         end
                     end
                 end.
Fixpoint elab (fuel : nat) (seen : list rtid) (T : ty) : option (dt * list rtid) :=
  match fuel with
  | O => None
  | S fuel =>
    match json_support E T, text_support E T, T with
    | Some _, _, TNamed i => Some (DJson i (d_size (E i)), RNamed i :: seen)
    | None, Some _, TNamed i => Some (DText i (d_size (E i)), RNamed i :: seen)
    | None, None, _ =>
      match under E T with
      | TArr O _ => Some (DArr0, seen)
      | TArr n U => match elab fuel seen U with Some (d, seen) => Some (DArr n d, seen) | None => None end
      | TSlice U =>
          if unseenb seen U then
            match elab fuel seen U with
            | Some (d, seen) => if slice_elem_okb U d then Some (DSlice d, seen) else None
            | None => None
            end
          else None
      | TMap K V =>
          if unseenb seen V then
            if stringyb K && stringyb V then
              match under E K, under E V with
              | TStr, TStr => if plainb K && plainb V then Some (DMSS, seen) else None
              | _, _ => None
              end
            else match key_typeb K with
                 | Some (k, ks) => match elab fuel (ks ++ seen) V with Some (d, seen) => Some (DMap k d, seen) | None => None end
                 | None => None
                 end
          else None
      | TPtr U => if unseenb seen U then match elab fuel seen U with Some (d, seen) => Some (DPtr d, seen) | None => None end else None
      | TStruct _ z [] => if z =? 0 then Some (DEmpty, seen) else None
      | TStruct _ z fs =>
          match identity E T with
          | Some r =>
              match elab_fields (elab fuel) (r :: seen) fs with
              | Some (ds, seen) => Some (DStruct z ds, seen)
              | None => None
              end
          | None => None
          end
      | U => match scalar_of U with Some x => Some (DSc x, seen) | None => None end
      end
    | _, _, _ => None
    end
  end.

Lemma none_spec x : none x = true -> x = SNone.
Proof. destruct x; [reflexivity|discriminate]. Qed.
Lemma none_not x : none x = false -> x = SSome.
Proof. destruct x; [discriminate|reflexivity]. Qed.
Lemma rtid_refl r : r <> ROther -> rtid_eqb r r = true.
Proof. destruct r; intros H; try apply Nat.eqb_refl. congruence. Qed.
Lemma unseenb_spec seen T : unseenb seen T = true -> unseen E seen T.
Proof.
  unfold unseenb, unseen. destruct (identity E T) as [r|] eqn:Ei; [|intros _; exact I]. intros H Hin.
  assert (existsb (rtid_eqb r) seen = true); [|rewrite H0 in H; discriminate].
  apply existsb_exists. exists r. split; [exact Hin|]. apply rtid_refl, (identity_not_other E T), Ei.
Qed.
Lemma supports_plain T : json_support E T = None -> text_support E T = None -> plain E T.
Proof.
  intros H1 H2. destruct T as [| | | | | | | | | | |U| |i]; cbn in *; try exact I.
  - destruct U; try exact I. destruct (d_json (E id)), (d_text (E id)); try discriminate. auto.
  - destruct (d_json (E i)), (d_text (E i)); try discriminate. auto.
Qed.
Lemma plainb_spec T : plainb T = true -> plain E T.
Proof.
  unfold plainb, plain. destruct T; try (intros; exact I).
  - destruct T; try (intros; exact I). intros H. apply andb_prop in H as [H1 H2]. split; apply none_spec; assumption.
  - intros H. apply andb_prop in H as [H1 H2]. split; apply none_spec; assumption.
Qed.
Lemma slice_elem_okb_spec T d : slice_elem_okb T d = true -> slice_elem_ok w64 E T d.
Proof. unfold slice_elem_okb, slice_elem_ok. destruct d; try (intros; exact I); try (destruct (under E T); try (intros; exact I); try discriminate; apply Z.ltb_lt). Qed.
Lemma key_typeb_spec T k ks : key_typeb T = Some (k, ks) -> key_type E T k ks.
Proof.
  unfold key_typeb. destruct T; try discriminate; try (intros [= <- <-]; constructor; (exact I || reflexivity)).
  destruct (none (d_json (E id))) eqn:H1; [|discriminate]. destruct (none (d_text (E id))) eqn:H2.
  - destruct (d_under (E id)) eqn:Eu; try discriminate; intros [= <- <-]; constructor; try exact Eu; split; apply none_spec; assumption.
  - intros [= <- <-]. constructor; [apply none_spec; assumption|apply none_not; assumption].
Qed.
Lemma stringyb_spec T : stringyb T = false -> ~ stringy E T.
Proof. unfold stringyb, stringy. intros H [H1|H1]; rewrite H1 in H; discriminate. Qed.

Theorem elab_sound fuel : forall seen T d seen', elab fuel seen T = Some (d, seen') -> resolves w64 E disallow seen T d seen'.
Proof.
  induction fuel as [|fuel IH]; intros seen T d seen' H; [discriminate|]. cbn [elab] in H.
  destruct (json_support E T) as [rj|] eqn:Hj.
  { destruct T as [| | | | | | | | | | |U| |i]; try discriminate H. injection H as <- <-. apply R_json. cbn in Hj. destruct (d_json (E i)); [discriminate|reflexivity]. }
  destruct (text_support E T) as [rt|] eqn:Ht.
  { destruct T as [| | | | | | | | | | |U| |i]; try discriminate H. injection H as <- <-. cbn in Hj, Ht. apply R_text.
    - destruct (d_json (E i)); [reflexivity|discriminate].
    - destruct (d_text (E i)); [discriminate|reflexivity]. }
  pose proof (supports_plain T Hj Ht) as P.
  assert (H' : match under E T with
      | TArr O _ => Some (DArr0, seen)
      | TArr n U => match elab fuel seen U with Some (d, seen) => Some (DArr n d, seen) | None => None end
      | TSlice U =>
          if unseenb seen U then
            match elab fuel seen U with
            | Some (d, seen) => if slice_elem_okb U d then Some (DSlice d, seen) else None
            | None => None
            end
          else None
      | TMap K V =>
          if unseenb seen V then
            if stringyb K && stringyb V then
              match under E K, under E V with
              | TStr, TStr => if plainb K && plainb V then Some (DMSS, seen) else None
              | _, _ => None
              end
            else match key_typeb K with
                 | Some (k, ks) => match elab fuel (ks ++ seen) V with Some (d, seen) => Some (DMap k d, seen) | None => None end
                 | None => None
                 end
          else None
      | TPtr U => if unseenb seen U then match elab fuel seen U with Some (d, seen) => Some (DPtr d, seen) | None => None end else None
      | TStruct _ z [] => if z =? 0 then Some (DEmpty, seen) else None
      | TStruct _ z fs =>
          match identity E T with
          | Some r =>
              match elab_fields (elab fuel) (r :: seen) fs with
              | Some (ds, seen) => Some (DStruct z ds, seen)
              | None => None
              end
          | None => None
          end
      | U => match scalar_of U with Some x => Some (DSc x, seen) | None => None end
      end = Some (d, seen')) by (destruct T; exact H).
  clear H. rename H' into H.
  destruct (under E T) as [| | |k|b| | | |[|n] U|U|K V|U|id z fs|] eqn:Eu; try discriminate H;
    try (cbn in H; injection H as <- <-; apply R_sc; [exact P|rewrite Eu; reflexivity]).
  - injection H as <- <-. eapply R_arr0; eassumption.
  - destruct (elab fuel seen U) as [[d1 s1]|] eqn:E1; [|discriminate]. injection H as <- <-. eapply R_arr; try eassumption; [lia|apply IH, E1].
  - destruct (unseenb seen U) eqn:Us; [|discriminate]. destruct (elab fuel seen U) as [[d1 s1]|] eqn:E1; [|discriminate].
    destruct (slice_elem_okb U d1) eqn:Ok1; [|discriminate]. injection H as <- <-.
    eapply R_slice; try eassumption; [apply unseenb_spec, Us|apply IH, E1|apply slice_elem_okb_spec, Ok1].
  - destruct (unseenb seen V) eqn:Us; [|discriminate]. destruct (stringyb K && stringyb V) eqn:Sk.
    + destruct (under E K) eqn:EK; try discriminate. destruct (under E V) eqn:EV; try discriminate.
      destruct (plainb K && plainb V) eqn:Pk; [|discriminate]. apply andb_prop in Pk as [P1 P2]. injection H as <- <-.
      eapply R_mss; try eassumption; apply plainb_spec; assumption.
    + destruct (key_typeb K) as [[k ks]|] eqn:Kt; [|discriminate]. destruct (elab fuel (ks ++ seen) V) as [[d1 s1]|] eqn:E1; [|discriminate].
      injection H as <- <-. eapply R_map; try eassumption; [apply unseenb_spec, Us| |apply key_typeb_spec, Kt|apply IH, E1].
      intros [S1 S2]. apply andb_false_iff in Sk as [Sk|Sk]; eapply stringyb_spec; eassumption.
  - destruct (unseenb seen U) eqn:Us; [|discriminate]. destruct (elab fuel seen U) as [[d1 s1]|] eqn:E1; [|discriminate]. injection H as <- <-.
    eapply R_ptr; try eassumption; [apply unseenb_spec, Us|apply IH, E1].
  - destruct fs as [|x0 fs0].
    + destruct (Z.eqb_spec z 0); [|discriminate]. injection H as <- <-. subst z. eapply R_empty; eassumption.
    + destruct (identity E T) as [r|] eqn:Ei; [|discriminate].
      destruct (elab_fields (elab fuel) (r :: seen) (x0 :: fs0)) as [[ds s1]|] eqn:Eg; [|discriminate].
      injection H as <- <-. eapply R_struct; try eassumption; [discriminate|].
      clear Eu. revert Eg. generalize (r :: seen). generalize (x0 :: fs0). clear x0 fs0 Ei r. intros fs. revert ds s1.
      induction fs as [|[f U] fs IHf]; intros ds s1 sn Eg; [injection Eg as <- <-; constructor|]. cbn [elab_fields] in Eg.
      pose proof (name_spec f) as En. destruct (field_name f) as [[name q]|]; [|apply F_skip; [exact En|apply IHf, Eg]].
      destruct (elab fuel sn U) as [[d1 s2]|] eqn:E1; [|discriminate].
      destruct (elab_fields (elab fuel) s2 fs) as [[ds' s3]|] eqn:Eg'; [|discriminate].
      destruct q.
      * destruct (quoted d1) as [d'|] eqn:Q.
        -- injection Eg as <- <-. eapply F_quoted; try eassumption; [apply IH, E1|apply IHf, Eg'].
        -- destruct disallow eqn:Dis; [discriminate|]. injection Eg as <- <-. eapply F_unquoted; try eassumption; [apply IH, E1|reflexivity|apply IHf, Eg'].
      * injection Eg as <- <-. eapply F_field; try eassumption; [apply IH, E1|apply IHf, Eg'].
Qed.
End Elaborate.

(** Layout, computed. *)
Fixpoint disjoint_slotsb (l : list (Z * Z)) : bool :=
  match l with
  | [] => true
  | x :: r => forallb (fun y => (fst x + snd x <=? fst y) || (fst y + snd y <=? fst x)) r && disjoint_slotsb r
  end.
Fixpoint layoutb (w64 : bool) (d : dt) : bool :=
  match d with
  | DText _ z | DJson _ z => 0 <=? z
  | DArr _ t | DSlice t | DMap _ t | DPtr t => layoutb w64 t
  | DStruct z fs =>
      forallb (fun x => (0 <=? snd (fst x)) && (snd (fst x) + dsize w64 (snd x) <=? z)) fs &&
      disjoint_slotsb (map (fun x => (snd (fst x), dsize w64 (snd x))) fs) && (0 <=? z) &&
      forallb (fun x => layoutb w64 (snd x)) fs
  | _ => true
  end.
Lemma disjoint_slotsb_spec l : disjoint_slotsb l = true -> disjoint_slots l.
Proof.
  induction l as [|x l IH]; intros H; [exact I|]. cbn in H. apply andb_prop in H as [H1 H2]. split; [|apply IH, H2].
  rewrite forallb_forall in H1. apply Forall_forall. intros y Hy. specialize (H1 y Hy). lia.
Qed.
Lemma layoutb_spec w64 d : layoutb w64 d = true -> layout w64 d.
Proof.
  induction d as [x|id z|id z| |n t IH| |t IH|k t IH| |t IH|z fs IH] using dt_ind'; cbn [layoutb layout]; intros H; try exact I; try lia; try (apply IH, H).
  apply andb_prop in H as [H H4]. apply andb_prop in H as [H H3]. apply andb_prop in H as [H1 H2].
  split; [|split; [apply disjoint_slotsb_spec, H2|split; [lia|]]].
  - rewrite forallb_forall in H1. apply Forall_forall. intros x Hx. specialize (H1 x Hx). lia.
  - clear H1 H2. induction fs as [|x fs IHf]; [exact I|]. cbn in H4. apply andb_prop in H4 as [H4 H5]. inversion IH; subst. split; [auto|apply IHf; assumption].
Qed.

(** A new decoder for a concrete type, and a zeroed destination. *)
Lemma new_decoder C E dis T d seen stk :
  sizes_ok (c_w64 C) E -> elab (c_w64 C) E dis 50 [] T = Some (d, seen) -> layoutb (c_w64 C) d = true ->
  append (c_w64 C) E dis 50 [] T = AOk stk -> decoder_for C E dis T d stk (dyn0 stk).
Proof.
  intros S R L A. split; [exact S|exists seen; apply elab_sound with (fuel := 50%nat), R|apply layoutb_spec, L|exists 50%nat; exact A|constructor].
Qed.
Definition plain_env : env := fun _ => Decl TOther 8 SNone SNone.
Lemma plain_env_sizes : sizes_ok true plain_env.
Proof. intros i. reflexivity. Qed.
Lemma world_rep d : layout true d -> rep true d (world (dsize true d)) dest (zero d) [] /\ own (world (dsize true d)) dest [].
Proof.
  intros L. split.
  - apply rep_zero; [exact L|]. intros x Hx. cbn. destruct (Z.leb_spec 0 x), (Z.ltb_spec x (dsize true d)); try lia. reflexivity.
  - split; [cbn; lia|]. split; [constructor|]. split; [intros b []|]. intros b [= <-]. cbn. lia.
Qed.

(** Sufficient conditions, computed, for [ctl_root] and [sound]. *)
Section Check.
Variables (C : cfg) (O : opts).
Let w64 := c_w64 C.
Lemma forallb_Forall {A} (f : A -> bool) (P : A -> Prop) l : (forall x, In x l -> f x = true -> P x) -> forallb f l = true -> Forall P l.
Proof. intros H F. rewrite forallb_forall in F. apply Forall_forall. auto. Qed.
Lemma nth_map_none {A B} (g : A -> B) fs j : nth_error fs j = None -> nth_error (map g fs) j = None.
Proof. intros H. apply nth_error_None. rewrite map_length. apply nth_error_None, H. Qed.
Definition someb {A} (o : option A) : bool := match o with Some _ => true | None => false end.
Lemma someb_spec {A} (o : option A) : someb o = true -> o <> None.
Proof. destruct o; discriminate. Qed.
Fixpoint ctl_topb (d : dt) (v : jv) : bool :=
  match d with DPtr t => match v with JNull _ => true | _ => ctl_topb t v end | _ => someb (lag_of C O d v) end.
Definition ctl_rootb (d : dt) (v : jv) : bool :=
  match d, v with
  | DStruct _ fs, JObj _ _ l =>
      someb (lags true (map (member_lag C O (map (fun x => fst (fst x)) fs) (map (fun x => lag_of C O (snd x)) fs)) l))
  | DMap _ t, JObj _ _ l => someb (lags true (map (fun x => lag_of C O t (snd x)) l))
  | _, _ => ctl_topb d v
  end.
Lemma ctl_topb_spec d : forall v, ctl_topb d v = true -> ctl_top C O d v.
Proof.
  induction d as [x|id z|id z| |n t IH| |t IH|k t IH| |t IH|z fs IH] using dt_ind'; intros v H; try (apply someb_spec, H).
  cbn in *. destruct v; try exact I; apply IH, H.
Qed.
Lemma ctl_rootb_spec d v : ctl_rootb d v = true -> ctl_root C O d v.
Proof.
  destruct d; try exact (ctl_topb_spec _ v); destruct v; try (apply ctl_topb_spec); cbn [ctl_rootb ctl_root]; apply someb_spec.
Qed.

Fixpoint pair_freeb (l : list sitem) : bool :=
  match l with
  | [] => true
  | IU _ _ _ _ hi :: (IU _ _ _ _ lo :: _) as r =>
      negb ((55296 <=? hi) && (hi <=? 56319) && (56320 <=? lo) && (lo <=? 57343)) && pair_freeb r
  | _ :: r => pair_freeb r
  end.
Lemma pair_freeb_spec l : pair_freeb l = true -> pair_free l.
Proof.
  induction l as [|x l IH]; [intros; exact I|]. cbn [pair_freeb pair_free]. destruct x; try exact IH. destruct l as [|[] l]; try exact IH.
  intros H. apply andb_prop in H as [H1 H2]. split; [lia|apply IH, H2].
Qed.
Definition plain_strb (r : bytes) : bool := pair_freeb (items r).
Lemma plain_strb_spec r : plain_strb r = true -> plain_str r.
Proof. apply pair_freeb_spec. Qed.
Definition int_soundb (k : nk) (r : bytes) : bool := negb (narrow C k) || in_rangeb (kind_of C k) (int_value r).
Lemma int_soundb_spec k r : int_soundb k r = true -> int_sound C k r.
Proof.
  unfold int_soundb, int_sound. intros H N (X & _). rewrite N in H. cbn in H. apply X. apply in_rangeb_spec in H. exact H.
Qed.
Definition quoted_soundb (r : bytes) : bool := is_num r || match JsonNum.ReadNumber r with Some (_, JsonNum.RErr) => true | _ => false end.
Lemma quoted_soundb_spec r : quoted_soundb r = true -> quoted_sound r.
Proof.
  unfold quoted_soundb. intros H. apply quoted_scan. revert H. destruct (is_num r); [auto|]. cbn. destruct (JsonNum.ReadNumber r) as [[t []]|]; try discriminate. eauto.
Qed.
Fixpoint plain_allb (v : jv) : bool :=
  match v with
  | JStr _ r => plain_strb r
  | JArr _ _ l => forallb plain_allb l
  | JObj _ _ l => forallb (fun x => plain_strb (snd (fst x)) && plain_allb (snd x)) l
  | _ => true
  end.
Lemma plain_allb_spec v : plain_allb v = true -> plain_all v.
Proof.
  induction v as [i|i b|i r|i r|i r|i j l IH|i j l IH] using jv_ind'; cbn [plain_allb plain_all]; intros H; try exact I; try (apply plain_strb_spec, H).
  - induction l as [|x l IHl]; [exact I|]. cbn in H. apply andb_prop in H as [H1 H2]. inversion IH; subst. split; [auto|apply IHl; assumption].
  - induction l as [|x l IHl]; [exact I|]. cbn in H. apply andb_prop in H as [H1 H2]. apply andb_prop in H1 as [H0 H1]. inversion IH; subst.
    split; [split; [apply plain_strb_spec, H0|auto]|apply IHl; assumption].
Qed.
Definition sound_scb (x : sc) (v : jv) : bool :=
  match x, v with
  | SStr, JStr _ r => plain_strb r
  | SNumber, JStr _ r => quoted_soundb r
  | SInt k, JInt _ r => int_soundb k r
  | SFloat _, JInt _ r => negb (bytes_eqb r [45; 48])
  | SAny, v => plain_allb v
  | SIntQ k, JStr _ r => quoted_soundb r && int_soundb k r
  | SFloatQ _, JStr _ r => quoted_soundb r
  | _, _ => true
  end.
Lemma sound_scb_spec x v : sound_scb x v = true -> sound_sc C x v.
Proof.
  destruct x; cbn [sound_scb sound_sc]; intros H; try exact I; try (apply plain_allb_spec, H); destruct v; try exact I.
  - apply plain_strb_spec, H.
  - apply quoted_soundb_spec, H.
  - apply int_soundb_spec, H.
  - intros ->. discriminate.
  - apply andb_prop in H as [H1 H2]. split; [apply quoted_soundb_spec, H1|apply int_soundb_spec, H2].
  - apply quoted_soundb_spec, H.
Qed.
Definition sound_keyb (k : dkey) (r : bytes) : bool :=
  match k with KeyStr | KeyText _ _ => plain_strb r | KeyInt k => quoted_soundb r && int_soundb k r end.
Lemma sound_keyb_spec k r : sound_keyb k r = true -> sound_key C k r.
Proof.
  destruct k; cbn; intros H; try (apply plain_strb_spec, H). apply andb_prop in H as [H1 H2]. split; [apply quoted_soundb_spec, H1|apply int_soundb_spec, H2].
Qed.
Fixpoint soundb (d : dt) (v : jv) {struct d} : bool :=
  match d with
  | DSc x => sound_scb x v
  | DText _ _ => match v with JStr _ r => plain_strb r | _ => true end
  | DArr n t => match v with JArr _ _ l => (n <=? length l)%nat && forallb (soundb t) (firstn n l) | _ => true end
  | DSlice DEmpty => match v with JArr _ _ l => forallb null_or_object l | JNull _ => false | _ => true end
  | DSlice t => match v with JArr _ _ l => forallb (soundb t) l | _ => true end
  | DMap k t => match v with JObj _ _ l => forallb (fun x => sound_keyb k (snd (fst x)) && soundb t (snd x)) l | _ => true end
  | DMSS => match v with
            | JObj _ _ l => forallb (fun x => plain_strb (snd (fst x)) && match snd x with JStr _ r => plain_strb r | _ => true end) l
            | _ => true end
  | DPtr t => match v with JNull _ => true | _ => soundb t v end
  | DStruct _ fs =>
      match v with
      | JObj _ _ l => forallb (fun x => (o_nounescape O || plain_strb (snd (fst x))) &&
          match field_for C O fs (snd (fst x)) with
          | Some j => match nth_error (map (fun x => soundb (snd x)) fs) j with Some P => P (snd x) | None => true end
          | None => true
          end) l
      | _ => true
      end
  | _ => true
  end.
Lemma soundb_spec d : forall v, soundb d v = true -> sound C O d v.
Proof.
  induction d as [x|id z|id z| |n t IH| |t IH|k t IH| |t IH|z fs IH] using dt_ind'; intros v H; try exact I.
  - apply sound_scb_spec, H.
  - cbn in *. destruct v; try exact I. apply plain_strb_spec, H.
  - cbn [soundb sound] in *. destruct v; try exact I. apply andb_prop in H as [H1 H2]. split; [apply Nat.leb_le, H1|]. eapply forallb_Forall; [|exact H2]. intros x _. apply IH.
  - assert (G : t <> DEmpty -> sound C O (DSlice t) v).
    { intros N. assert (H' : match v with JArr _ _ l => forallb (soundb t) l = true | _ => True end) by (destruct t; try congruence; destruct v; exact H || exact I).
      assert (G' : match v with JArr _ _ l => Forall (sound C O t) l | _ => True end).
      { destruct v; try exact I. eapply forallb_Forall; [|exact H']. intros x _. apply IH. }
      destruct t; try congruence; exact G'. }
    destruct t; try (apply G; discriminate). cbn in *. destruct v; try exact I; [discriminate|exact H].
  - cbn [soundb sound] in *. destruct v; try exact I. eapply forallb_Forall; [|exact H]. intros x _ Hx. apply andb_prop in Hx as [H1 H2]. split; [apply sound_keyb_spec, H1|apply IH, H2].
  - cbn [soundb sound] in *. destruct v; try exact I. eapply forallb_Forall; [|exact H]. intros x _ Hx. apply andb_prop in Hx as [H1 H2]. split; [apply plain_strb_spec, H1|].
    destruct (snd x); try exact I. apply plain_strb_spec, H2.
  - cbn [soundb sound] in *. destruct v; try exact I; apply IH, H.
  - cbn [soundb sound] in *. destruct v; try exact I. eapply forallb_Forall; [|exact H]. intros x _ Hx. apply andb_prop in Hx as [H1 H2]. split.
    + apply orb_prop in H1 as [H1|H1]; [left; exact H1|right; apply plain_strb_spec, H1].
    + destruct (field_for C O fs (snd (fst x))) as [jf|]; [|exact I]. destruct (nth_error fs jf) as [y|] eqn:Ey.
      * rewrite (map_nth_error (fun x => soundb (snd x)) jf fs Ey) in H2. rewrite (map_nth_error (fun x => sound C O (snd x)) jf fs Ey).
        rewrite Forall_forall in IH. apply IH; [apply (nth_error_In _ _ Ey)|exact H2].
      * rewrite (nth_map_none (fun x => sound C O (snd x)) _ _ Ey). exact I.
Qed.
End Check.

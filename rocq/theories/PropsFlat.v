(** C73: structs, arrays and pointers over members of one frame each (numbers, strings, booleans,
    any, specialised slices, map[string]string, types with unmarshalers, [0]T, struct{}), nested in
    any way, never corrupt memory, for every document and all options.

    An unknown member whose value contains an object leaves the loop in the wrong frame: a
    closing bracket of the skipped value ends the enclosing struct, that of an array even
    moves to the frame before (jscandec.go:2320-2335, 2567-2594); a pointer is not left after its
    value at all (2636-2671).  In types with lists of composite elements this corrupts memory
    (C16_refuted_unknown_array below, C16_refuted_out_of_bounds).  Here: in all types built of
    structs, arrays and pointers it does not, because every frame is unused in this call (nil
    destination), or aims at its own place in the destination or in memory allocated for a
    pointer, or at an element of the array before it ([place], [aim], [placed]); the loop is
    Machine.v (jscandec.go:714-2749). *)
From Coq Require Import Permutation.
From Verif Require Import Base NumSpec StrSpec Atoi JsonNum Unescape UnescapeProofs Lookup Types AppendType Token FloatLit Heap Machine General PropsGeneral Dt Dec Control Root Elab Value Dval Sep Refine Refine2 Refine3 Spec Typed SpecProofs Main Parse World Elaborate PropsDecode PropsStruct PropsRefuted PropsStrict Encodes PropsExact PropsSafe.
Open Scope nat_scope.

(** ** The types *)
Fixpoint simple (d : dt) : bool :=
  match d with
  | DSc _ | DText _ _ | DJson _ _ | DArr0 | DEmpty | DMSS => true
  | DSlice t => match fast_et t with Some _ => true | None => false end
  | DArr _ t => simple t
  | DStruct _ fs => forallb (fun x => simple (snd x)) fs
  | _ => false
  end.
(** The same with pointers anywhere. *)
Fixpoint boxed (d : dt) : bool :=
  match d with
  | DSc _ | DText _ _ | DJson _ _ | DArr0 | DEmpty | DMSS => true
  | DSlice t => match fast_et t with Some _ => true | None => false end
  | DArr _ t | DPtr t => boxed t
  | DStruct _ fs => forallb (fun x => boxed (snd x)) fs
  | _ => false
  end.
Definition composite (d : dt) : bool := match d with DStruct _ _ | DArr _ _ | DPtr _ => true | _ => false end.
(** A value up to what its pointers refer to. *)
Fixpoint cut (d : dt) : dt :=
  match d with
  | DPtr _ => DPtr DEmpty
  | DArr n t => DArr n (cut t)
  | DStruct z fs => DStruct z (map (fun x => (fst x, cut (snd x))) fs)
  | _ => d
  end.
Lemma cut_size w64 d : dsize w64 (cut d) = dsize w64 d.
Proof. induction d as [x|id z|id z| |n t IH| |t IH|k t IH| |t IH|z fs IH] using dt_ind'; cbn [cut dsize]; congruence. Qed.
Lemma cut_leaf d : composite d = false -> cut d = d.
Proof. destruct d; reflexivity || discriminate. Qed.
Lemma cut_layout w64 d : layout w64 d -> layout w64 (cut d).
Proof.
  induction d as [x|id z|id z| |n t IH| |t IH|k t IH| |t IH|z fs IH] using dt_ind'; intros L; try exact L; [exact (IH L)|exact I|].
  cbn [cut]. apply layout_struct in L as (L1 & L2 & L3 & L4). apply layout_struct. split; [|split; [|split; [exact L3|]]].
  - clear - L1. induction L1 as [|x l H _ IH]; constructor; [cbn [fst snd]; rewrite cut_size; exact H|exact IH].
  - rewrite map_map. erewrite map_ext; [exact L2|]. intros x. cbn [fst snd]. rewrite cut_size. reflexivity.
  - clear - L4 IH. induction IH as [|x l H _ IH]; cbn [map all_layout] in *; [exact I|]. destruct L4 as [L L4]. split; [exact (H L)|exact (IH L4)].
Qed.
Lemma cut_simple d : simple d = true -> cut d = d /\ boxed d = true.
Proof.
  induction d as [x|id z|id z| |n t IH| |t IH|k t IH| |t IH|z fs IH] using dt_ind'; intros S; try discriminate S; try (split; reflexivity || exact S).
  - cbn [cut simple boxed] in *. destruct (IH S) as [-> B]. split; [reflexivity|exact B].
  - cbn [cut simple boxed] in *. assert (Q : map (fun x => (fst x, cut (snd x))) fs = fs /\ forallb (fun x => boxed (snd x)) fs = true).
    { clear - IH S. induction IH as [|x l H _ IH]; cbn [map forallb] in *; [auto|]. apply andb_prop in S as [S1 S2]. destruct (H S1) as [E B], (IH S2) as [E' B'].
      rewrite E, E', B, B'. destruct x; auto. }
    destruct Q as [-> B]. auto.
Qed.
Lemma boxed_leaf d : boxed d = true -> composite d = false -> simple d = true.
Proof. destruct d; try discriminate; intros H _; exact H. Qed.
Definition is_struct (d : dt) : bool := match d with DStruct _ _ => true | _ => false end.

(** ** Positions in a document *)
(** What stands at token [k]. *)
Definition at_item (s : bytes) (k : nat) (r : list token) : Prop :=
  (exists v r', lexed s v /\ r = flat k v ++ r') \/
  (exists x r', key_lexed s x /\ r = Tok KKey (fst (fst x)) (fst (fst x) + length (snd (fst x)) + 2) 0 :: r') \/
  (exists j e n r', r = Tok KObjEnd j e n :: r' \/ r = Tok KArrEnd j e n :: r').
Lemma skipn_pass {A} (l r : list A) n : length l <= n -> skipn n (l ++ r) = skipn (n - length l) r.
Proof. intros H. rewrite skipn_app, skipn_all2 by exact H. reflexivity. Qed.
Lemma items s v : lexed s v -> forall b k rest, k < ntok v -> at_item s (b + k) (skipn k (flat b v ++ rest)).
Proof.
  induction v as [i|i x|i x|i x|i x|i j l IH|i j l IH] using jv_ind'; intros L b k rest Hk;
    (destruct k as [|k]; [left; eexists; exists rest; split; [exact L|]; rewrite Nat.add_0_r; reflexivity|]); try (cbn in Hk; lia).
  - rewrite ntok_arr in Hk. rewrite flat_arr. cbn [app skipn]. apply lexed_arr in L as (_ & _ & _ & L).
    rewrite <- app_assoc. cbn [app]. replace (b + S k) with (S b + k) by lia. assert (Hk' : k < S (ntoks l)) by lia. clear Hk.
    revert k Hk'. generalize (S b) as c. induction IH as [|x l Hx IH IHl]; intros c k Hk.
    + cbn in *. assert (k = 0) as -> by lia. cbn [skipn]. right. right. do 4 eexists. right. reflexivity.
    + apply Forall_cons_iff in L as [Lx L]. cbn [flats ntoks] in *. rewrite <- app_assoc.
      destruct (Nat.lt_ge_cases k (ntok x)) as [H|H]; [apply Hx; assumption|].
      rewrite skipn_pass by (rewrite flat_length; exact H). rewrite flat_length.
      replace (c + k) with (c + ntok x + (k - ntok x)) by lia. apply IHl; [exact L|lia].
  - rewrite ntok_obj in Hk. rewrite flat_obj. cbn [app skipn]. apply lexed_obj in L as (_ & _ & _ & L).
    rewrite <- app_assoc. cbn [app]. replace (b + S k) with (S b + k) by lia. assert (Hk' : k < S (ntokm l)) by lia. clear Hk.
    revert k Hk'. generalize (S b) as c. induction IH as [|x l Hx IH IHl]; intros c k Hk.
    + cbn in *. assert (k = 0) as -> by lia. cbn [skipn]. right. right. do 4 eexists. left. reflexivity.
    + apply Forall_cons_iff in L as [[Kx Lx] L]. cbn [flatm ntokm] in *. cbn [app]. destruct k as [|k].
      { right. left. exists x. eexists. split; [exact Kx|reflexivity]. }
      cbn [skipn]. rewrite <- app_assoc. replace (c + S k) with (S c + k) by lia.
      destruct (Nat.lt_ge_cases k (ntok (snd x))) as [H|H]; [apply Hx; assumption|].
      rewrite skipn_pass by (rewrite flat_length; exact H). rewrite flat_length.
      replace (S c + k) with (S c + ntok (snd x) + (k - ntok (snd x))) by lia. apply IHl; [exact L|lia].
Qed.

(** ** Nothing is written at nil *)
Section Nil.
Variables (C : cfg) (O : opts) (s : bytes).
Definition harmless (h : heap) (r : hres) : Prop := match r with HOk h' => h' = h | HErr _ _ h' => h' = h | HPan => True | HCor => False end.
Definition quiet (h : heap) (r : sres) : Prop := match r with Ok (h', _) => h' = h | Pan => True | Cor => False end.
Lemma quiet_sres i h r : quiet h r -> harmless h (sres_h i r).
Proof. destruct r as [[h' [e|]]| |]; intros H; exact H. Qed.
Lemma quiet_bind {A} h (r : res A) k : r <> Cor -> (forall x, quiet h (k x)) -> quiet h (rbind r k).
Proof. destruct r; cbn; intros N H; [apply H|exact I|congruence]. Qed.
Ltac cases := repeat (first [reflexivity|exact I|match goal with |- context [match ?x with _ => _ end] => destruct x end]).
Lemma nil_bool e b h : quiet h (bool_tok C e b None h).
Proof. destruct e; reflexivity || exact I. Qed.
Lemma nil_int e raw i h : quiet h (int_tok C e raw i None h).
Proof.
  destruct e; try reflexivity; try exact I; cbn [int_tok]; unfold int_of_tok; cases.
Qed.
Lemma nil_num e raw i h : quiet h (num_tok C e raw i None h).
Proof. destruct e; try reflexivity; try exact I; cbn [num_tok]; cases. Qed.
Lemma nil_str f tv i h : quiet h (str_tok C f tv i None h).
Proof.
  unfold str_tok. assert (U : unesc tv <> Cor) by (unfold unesc; destruct (Valid tv); discriminate).
  assert (US : unesc_str C (i + 1) tv <> Cor) by (unfold unesc_str; destruct (Valid tv); discriminate).
  assert (UI : user_id f <> Cor) by (unfold user_id; destruct (f_rt f) as [[]|]; discriminate).
  destruct (f_ty f); try reflexivity; try exact I;
    try (apply quiet_bind; [exact US|]; intros x; exact I).
  all: try (apply quiet_bind; [exact UI|]; intros id; apply quiet_bind; [exact U|]; intros tb;
    unfold load_user, store_user; destruct (f_size f <=? 0)%Z; [cbn [rbind]; destruct (c_ut C id [] tb) as [n e]; reflexivity|exact I]).
  all: unfold int_of_str; cases.
Qed.
Lemma nil_null f h : harmless h (hlift (null_tok C f None h) HOk).
Proof. destruct f; exact I || reflexivity. Qed.
Lemma nil_scalar f v h : harmless h (scalar_h C f v None h).
Proof.
  destruct v; cbn [scalar_h]; try reflexivity; try apply quiet_sres; [apply nil_null|apply nil_bool|apply nil_int|apply nil_num|apply nil_str].
Qed.
Lemma nil_leaf d v h : simple d = true -> composite d = false -> lexed s v -> harmless h (dech C O s d v None h).
Proof.
  intros Sm Cp L. destruct d as [x|id z|id z| |n t| |t|k t| |t|z fs]; try discriminate; cbn [dech].
  - destruct v; try apply nil_scalar; (destruct x; try reflexivity; unfold any_h; destruct (anyv _ _); [exact I|reflexivity]).
  - destruct v; try apply nil_scalar; reflexivity.
  - destruct (jraw_ok s v L) as [r E]. unfold json_h. rewrite E. cbn [hlift]. unfold load_user, store_user. destruct (z <=? 0)%Z; [|exact I]. cbn [hlift].
    destruct (c_uj C id [] r) as [n [e|]]; reflexivity.
  - destruct v; try apply nil_scalar; reflexivity.
  - destruct v; try apply nil_scalar; reflexivity.
  - cbn [simple] in Sm. destruct (fast_et t) as [e|] eqn:Fe; [|discriminate].
    destruct v as [| | | | |i j l|i j l]; try apply nil_scalar; try reflexivity. destruct e; try exact I; destruct l; exact I.
  - destruct v as [| | | | |i j l|i j l]; try apply nil_scalar; try reflexivity. destruct (mss_h C l []) as [m|[i' e]]; [exact I|reflexivity].
Qed.
End Nil.

Lemma padd0 p : padd p 0 = p.
Proof. destruct p as [[b o]|]; cbn; [rewrite Z.add_0_r|]; reflexivity. Qed.

(** ** Memory: the destination and the values behind pointers *)
(** A root is a value of type [t] at an address, with the frame whose values live there:
    the destination, and what was allocated for pointers.  Pointers are never followed, so
    that nothing is said about what they refer to. *)
Section Roots.
Variables (C : cfg) (h0 : heap) (d0 : dt) (a : addr) (F0 : list nat).
Notation w64 := (c_w64 C).
Notation rep := (rep (c_w64 C)).
Notation dsize := (dsize (c_w64 C)).
Definition root : Type := nat * dt * addr.
Definition blocks (r : root * list nat) : list nat := fst (snd (fst r)) :: snd r.
Definition held (h : heap) (r : root * list nat) : Prop :=
  layout w64 (snd (fst (fst r))) /\ own h (Some (snd (fst r))) (snd r) /\ exists g, rep (cut (snd (fst (fst r)))) h (Some (snd (fst r))) g (snd r).
Definition forest (h : heap) (l : list (root * list nat)) : Prop := Forall (held h) l /\ NoDup (flat_map blocks l).
Definition sound (h : heap) (K : list root) : Prop :=
  exists F l, K = (0, d0, a) :: map fst l /\ forest h (((0, d0, a), F) :: l) /\ only h0 h (Some a) (dsize d0) F0 (F ++ flat_map blocks l).

Lemma cellat_same h h' b o x : blk h' b = blk h b -> cellat h' (Some (b, o)) x = cellat h (Some (b, o)) x.
Proof. intros E. unfold cellat. rewrite E. reflexivity. Qed.
Lemma held_same h h' r : nxt h <= nxt h' -> (forall b, In b (blocks r) -> blk h' b = blk h b) -> held h r -> held h' r.
Proof.
  intros Nx Bk (Ly & (N & Nd & Ob & Op) & g & R). split; [exact Ly|]. split.
  - split; [lia|]. split; [exact Nd|]. split; [intros b Hb; destruct (Ob b Hb); split; [lia|assumption]|intros b Hb; specialize (Op b Hb); lia].
  - exists g. destruct (snd (fst r)) as [rb ro] eqn:Er. assert (Q : fst (snd (fst r)) = rb) by (rewrite Er; reflexivity).
    refine (rep_agree w64 _ (cut_layout _ _ Ly) _ _ _ _ _ _ R _). split.
    + intros x _. apply cellat_same. apply Bk. left. exact Q.
    + intros b Hb. apply Bk. right. exact Hb.
Qed.
Lemma held_lt h r b : held h r -> In b (blocks r) -> b < nxt h.
Proof. intros (_ & (N & _ & Ob & Op) & _) [<-|Hb]; [apply Op; destruct (snd (fst r)); reflexivity|apply Ob, Hb]. Qed.
Lemma forest_lt h l b : forest h l -> In b (flat_map blocks l) -> b < nxt h.
Proof. intros [H _] Hb. apply in_flat_map in Hb as (r & Hr & Hb). rewrite Forall_forall in H. exact (held_lt h r b (H r Hr) Hb). Qed.
(** One root changes. *)
Lemma forest_step h h' l1 l2 b t ra F F' g' : forest h (l1 ++ ((b, t, ra), F) :: l2) ->
  rep (cut t) h' (Some ra) g' F' -> own h' (Some ra) F' -> only h h' (Some ra) (dsize t) F F' ->
  forest h' (l1 ++ ((b, t, ra), F') :: l2).
Proof.
  intros [Hl Nd] R Ow (Nx & Bk & _ & _ & In').
  assert (Fl' : forall x, In x (flat_map blocks (l1 ++ l2)) -> x < nxt h).
  { intros x Hx. apply (forest_lt h (l1 ++ ((b, t, ra), F) :: l2)); [split; assumption|]. rewrite flat_map_app in *. cbn [flat_map]. apply in_app_or in Hx as [Hx|Hx]; apply in_or_app; [auto|right; apply in_or_app; auto]. }
  rewrite flat_map_app in Nd. cbn [flat_map] in Nd. rewrite !nodup_app in Nd. destruct Nd as (N1 & (N2 & N3 & N4) & N5).
  assert (Out : forall x, In x (flat_map blocks (l1 ++ l2)) -> ~ In x (fst ra :: F)).
  { intros x Hx Hy. rewrite flat_map_app in Hx. apply in_app_or in Hx as [Hx|Hx]; [apply (N5 x Hx), in_or_app; left; exact Hy|exact (N4 x Hy Hx)]. }
  assert (Same : forall r, In r (l1 ++ l2) -> held h r -> held h' r).
  { intros r Hr. apply held_same; [exact Nx|]. intros x Hx. assert (Hf : In x (flat_map blocks (l1 ++ l2))) by (apply in_flat_map; eauto).
    pose proof (Out x Hf) as No. apply Bk; [exact (Fl' x Hf)|intros Q; apply No; right; exact Q|]. destruct ra as [rb ro]. cbn [pblk]. intros [= ->]. apply No. left. reflexivity. }
  assert (Out' : forall x, In x (flat_map blocks (l1 ++ l2)) -> ~ In x (fst ra :: F')).
  { intros x Hx [Hy|Hy]; [apply (Out x Hx); left; exact Hy|]. destruct (In' x Hy) as [Q|Q]; [apply (Out x Hx); right; exact Q|specialize (Fl' x Hx); lia]. }
  apply Forall_app in Hl as [H1 H2]. apply Forall_cons_iff in H2 as [(Ly & _) H2]. split.
  - apply Forall_app. split; [|constructor].
    + rewrite Forall_forall in *. intros r Hr. apply Same; [apply in_or_app; auto|exact (H1 r Hr)].
    + split; [exact Ly|]. split; [exact Ow|]. exists g'. exact R.
    + rewrite Forall_forall in *. intros r Hr. apply Same; [apply in_or_app; auto|exact (H2 r Hr)].
  - rewrite flat_map_app in *. cbn [flat_map]. rewrite !nodup_app. split; [exact N1|]. split; [split; [|split; [exact N3|]]|].
    + unfold blocks. cbn [fst snd]. destruct Ow as (_ & Nd & Ob & _). constructor; [|exact Nd]. intros Q. destruct (Ob _ Q) as [_ P]. apply P. destruct ra. reflexivity.
    + intros x Hx Hy. apply (Out' x); [apply in_or_app; auto|exact Hx].
    + intros x Hx Hy. apply in_app_or in Hy as [Hy|Hy]; [apply (Out' x); [apply in_or_app; auto|exact Hy]|exact (N5 x Hx (in_or_app _ _ _ (or_intror Hy)))].
Qed.
Lemma sound_focus h K b t ra : sound h K -> In (b, t, ra) K -> exists g F, rep (cut t) h (Some ra) g F /\ own h (Some ra) F /\ layout w64 t /\
  forall h' g' F', rep (cut t) h' (Some ra) g' F' -> own h' (Some ra) F' -> only h h' (Some ra) (dsize t) F F' -> sound h' K.
Proof.
  intros (F & l & -> & Fo & On) Hin. destruct Hin as [E|Hin].
  - injection E as <- <- <-. pose proof Fo as [Hf Nd]. apply Forall_cons_iff in Hf as [(Ly & Ow & g & R) Hf]. cbn [fst snd] in *. exists g, F. split; [exact R|]. split; [exact Ow|]. split; [exact Ly|].
    intros h' g' F' R' Ow' On'. exists F', l. split; [reflexivity|]. split; [exact (forest_step h h' [] l 0 d0 a F F' g' Fo R' Ow' On')|].
    eapply only_trans; [exact On|]. destruct On' as (Nx & Bk & Cl & En & In'). split; [exact Nx|]. split; [|split; [exact Cl|split; [exact En|]]].
    + intros x Hx Nf Np. apply Bk; [exact Hx| |exact Np]. intros Q. apply Nf, in_or_app. left. exact Q.
    + intros x Hx. apply in_app_or in Hx as [Hx|Hx]; [destruct (In' x Hx); [left; apply in_or_app; auto|auto]|left; apply in_or_app; auto].
  - apply in_map_iff in Hin as ([r rF] & E & Hin). cbn [fst] in E. subst r. apply in_split in Hin as (l1 & l2 & ->).
    pose proof Fo as [Hf Nd]. assert (Hr : held h ((b, t, ra), rF)) by (rewrite Forall_forall in Hf; apply Hf; right; apply in_or_app; right; left; reflexivity).
    destruct Hr as (Ly & Ow & g & R). cbn [fst snd] in *. exists g, rF. split; [exact R|]. split; [exact Ow|]. split; [exact Ly|].
    intros h' g' F' R' Ow' On'. exists F, (l1 ++ ((b, t, ra), F') :: l2). split; [rewrite !map_app; reflexivity|].
    split; [exact (forest_step h h' (((0, d0, a), F) :: l1) l2 b t ra rF F' g' Fo R' Ow' On')|].
    eapply only_trans; [exact On|]. destruct On' as (Nx & Bk & Cl & En & In').
    assert (Dj : fst a <> fst ra /\ ~ In (fst a) rF).
    { cbn [flat_map blocks fst snd] in Nd. cbn [app] in Nd. apply NoDup_cons_iff in Nd as [Nd _]. rewrite flat_map_app in Nd. cbn [flat_map] in Nd. split.
      - intros E. apply Nd. apply in_or_app. right. apply in_or_app. right. apply in_or_app. left. left. symmetry. exact E.
      - intros E. apply Nd. apply in_or_app. right. apply in_or_app. right. apply in_or_app. left. right. exact E. }
    assert (Ba : blk h' (fst a) = blk h (fst a)).
    { apply Bk; [|apply Dj|destruct ra; cbn [pblk]; intros [= Q]; apply (proj1 Dj); symmetry; exact Q].
      apply (forest_lt h _ (fst a) Fo). left. reflexivity. }
    split; [exact Nx|]. split; [|split; [|split]].
    + intros x Hx Nf Np. apply Bk; [exact Hx| |].
      * intros Q. apply Nf, in_or_app. right. rewrite flat_map_app. apply in_or_app. right. apply in_or_app. left. right. exact Q.
      * destruct ra as [rb ro]. cbn [pblk]. intros [= ->]. apply Nf, in_or_app. right. rewrite flat_map_app. apply in_or_app. right. left. reflexivity.
    + intros x _. destruct a. apply cellat_same. exact Ba.
    + intros x. destruct a. rewrite (cellat_same h h' _ _ _ Ba). reflexivity.
    + intros x Hx. rewrite flat_map_app in *. apply in_app_or in Hx as [Hx|Hx]; [left; apply in_or_app; auto|]. apply in_app_or in Hx as [Hx|Hx].
      * left. apply in_or_app. right. apply in_or_app. auto.
      * cbn [flat_map] in *. apply in_app_or in Hx as [Hx|Hx].
        -- destruct Hx as [Hx|Hx]; [left; apply in_or_app; right; apply in_or_app; right; left; exact Hx|]. cbn [snd] in Hx.
           destruct (In' x Hx); [left; apply in_or_app; right; apply in_or_app; right; apply in_or_app; left; right; assumption|auto].
        -- left. apply in_or_app. right. apply in_or_app. right. apply in_or_app. auto.
Qed.
(** Memory for a pointer. *)
Lemma sound_new h K b t : sound h K -> layout w64 t -> (0 < dsize t)%Z -> exists na h', malloc h (dsize t) = (na, h') /\ sound h' (K ++ [(b, t, na)]).
Proof.
  intros (F & l & -> & Fo & On) Ly Sz. unfold malloc. destruct (Z.leb_spec (dsize t) 0); [lia|]. cbn [alloc_blk]. set (h' := Heap _ _). exists (nxt h, 0%Z), h'. split; [reflexivity|].
  assert (Bk : forall x, x < nxt h -> blk h' x = blk h x). { intros x Hx. cbn [h' blk]. destruct (Nat.eqb_spec x (nxt h)); [lia|reflexivity]. }
  exists F, (l ++ [((b, t, (nxt h, 0%Z)), [])]). split; [rewrite map_app; reflexivity|].
  assert (Nz : 0 < nxt h). { destruct Fo as [Hf _]. apply Forall_cons_iff in Hf as [(_ & (N & _) & _) _]. exact N. }
  assert (Lt := fun x => forest_lt h _ x Fo). destruct Fo as [Hf Nd]. split; [split|].
  - rewrite app_comm_cons. apply Forall_app. split.
    + rewrite Forall_forall in *. intros r Hr. apply (held_same h); [cbn [h' nxt]; lia| |exact (Hf r Hr)]. intros x Hx. apply Bk, Lt, in_flat_map. eauto.
    + constructor; [|constructor]. split; [exact Ly|]. cbn [fst snd]. split.
      * split; [cbn [h' nxt]; lia|]. split; [constructor|]. split; [intros x []|]. cbn [pblk h' nxt]. intros x [= <-]. lia.
      * exists (zero (cut t)). apply rep_zero; [apply cut_layout, Ly|]. rewrite cut_size. intros x Hx. cbn [cellat h' blk]. rewrite Nat.eqb_refl.
        replace ((0 <=? 0 + x)%Z && (0 + x <? dsize t)%Z) with true; [reflexivity|]. symmetry. apply andb_true_intro. split; [apply Z.leb_le|apply Z.ltb_lt]; lia.
  - rewrite app_comm_cons, flat_map_app. apply nodup_app. split; [exact Nd|]. split; [constructor; [intros []|constructor]|].
    intros x Hx [<-|[]]. cbn [fst snd] in Hx. specialize (Lt _ Hx). lia.
  - eapply only_trans; [exact On|]. split; [cbn [h' nxt]; lia|]. split; [|split; [|split]].
    + intros x Hx _ _. apply Bk, Hx.
    + intros x _. destruct a as [ab ao]. apply cellat_same, Bk, Lt. left. reflexivity.
    + intros x. destruct a as [ab ao]. rewrite (cellat_same h h'); [reflexivity|]. apply Bk, Lt. left. reflexivity.
    + intros x Hx. rewrite flat_map_app in Hx. apply in_app_or in Hx as [Hx|Hx]; [left; apply in_or_app; auto|]. apply in_app_or in Hx as [Hx|[<-|[]]]; [left; apply in_or_app; auto|right; cbn [fst snd]; lia].
Qed.
End Roots.
(** ** The loop *)
Section Loop.
Variables (C : cfg) (O : opts) (stk : list frame) (s : bytes) (toks : list token).
Let w64 := c_w64 C.
Notation step := (Machine.step C O stk s toks).
Notation reach := (Control.reach C O stk s toks).
Notation on_val_end := (Machine.on_val_end stk toks).
Notation dech := (Dec.dech C O s).
Notation fits := (fits w64 stk).
Notation rep := (rep w64).
Notation post := (Refine.post C).
Notation dyn_ok := (dyn_ok stk).
Notation linked := (linked stk).
Variables (h0 : heap) (d0 : dt) (a : addr) (F0 : list nat).
Hypothesis (Fit0 : fits 0 d0) (Len : length stk = dlen d0) (Root : linked 0 None 0 0) (Lay : layout w64 d0) (Sim : boxed d0 = true).
Hypothesis Items : forall k, k < length toks -> at_item s k (skipn k toks).
Notation sound := (sound C h0 d0 a F0).

(** Frame [j] is of type [d] and may aim at offset [o] of a root of type [tb] of frame [b]. *)
Inductive place : nat -> dt -> nat -> dt -> Z -> Prop :=
| pl_root : place 0 d0 0 d0 0%Z
| pl_ptr b tb i t o : place b tb i (DPtr t) o -> place (S i) t (S i) t 0%Z
| pl_field b tb i z fs o q y j : place b tb i (DStruct z fs) o -> nth_error fs q = Some y -> nth_error (field_idx (S i) fs) q = Some (fst (fst y), j) ->
    place b tb j (snd y) (o + snd (fst y))%Z
| pl_elem b tb i n t o k : place b tb i (DArr n t) o -> k < n -> place b tb (S i) t (o + Z.of_nat k * dsize w64 t)%Z.
Lemma place_fits b tb j d o : place b tb j d o -> fits j d /\ layout w64 d /\ boxed d = true.
Proof.
  induction 1 as [|b tb i t o Pl (Ft & Ly & Sm)|b tb i z fs o q y j Pl (Ft & Ly & Sm) Ny Nj|b tb i n t o k Pl (Ft & Ly & Sm) Hk]; [auto| | |].
  - cbn [Dt.fits] in Ft. destruct Ft as (_ & Ft & _). split; [exact Ft|]. split; [exact Ly|exact Sm].
  - apply fits_struct in Ft as [_ Ff]. destruct (field_nth C stk i fs (S i) q y Ff Ny) as (idx & Nf & Fy & _).
    assert (idx = j) as -> by congruence. split; [exact Fy|]. pose proof (nth_error_In _ _ Ny) as Iy. apply layout_struct in Ly as (_ & _ & _ & La).
    split; [exact (all_layout_in w64 fs y La Iy)|]. cbn [boxed] in Sm. rewrite forallb_forall in Sm. exact (Sm y Iy).
  - cbn [Dt.fits] in Ft. destruct Ft as (_ & _ & Ft & _). split; [exact Ft|]. split; [exact Ly|exact Sm].
Qed.
Lemma place_linked b tb i z fs o q y j : place b tb i (DStruct z fs) o -> nth_error fs q = Some y -> nth_error (field_idx (S i) fs) q = Some (fst (fst y), j) ->
  linked j (Some i) (snd (fst y)) 0.
Proof.
  intros Pl Ny Nj. apply place_fits in Pl as (Ft & _). apply fits_struct in Ft as [_ Ff]. destruct (field_nth C stk i fs (S i) q y Ff Ny) as (idx & Nf & _ & Ly & _).
  assert (idx = j) as -> by congruence. exact Ly.
Qed.
Lemma elem_linked b tb i n t o : place b tb i (DArr n t) o -> 0 < n /\ linked (S i) (Some i) 0 (Z.of_nat n).
Proof. intros Pl. apply place_fits in Pl as (Ft & _). cbn [Dt.fits] in Ft. destruct Ft as (_ & N & _ & L). auto. Qed.
Lemma ptr_linked b tb i t o : place b tb i (DPtr t) o -> linked (S i) (Some i) 0 0.
Proof. intros Pl. apply place_fits in Pl as (Ft & _). cbn [Dt.fits] in Ft. apply Ft. Qed.
Lemma linked_fun j p o c p' o' c' : linked j p o c -> linked j p' o' c' -> p = p' /\ o = o'.
Proof. intros (f & Hf & P & Q & _) (f' & Hf' & P' & Q' & _). rewrite Hf in Hf'. injection Hf' as <-. subst. auto. Qed.
Lemma field_idx_inj fs : forall k q q' n n' (j : nat), nth_error (field_idx k fs) q = Some (n, j) -> nth_error (field_idx k fs) q' = Some (n', j) -> q = q'.
Proof.
  induction fs as [|y r IH]; intros k q q' n n' j H H'; [destruct q; discriminate|]. cbn [field_idx] in *. pose proof (dlen_pos (snd y)).
  destruct q as [|q], q' as [|q']; cbn [nth_error] in *.
  - reflexivity.
  - injection H as _ <-. apply nth_error_In, (field_idx_ge C) in H'. cbn in H'. lia.
  - injection H' as _ <-. apply nth_error_In, (field_idx_ge C) in H. cbn in H. lia.
  - f_equal. eapply IH; eassumption.
Qed.
(** The parent of a frame. *)
Lemma place_inv b tb j d o : place b tb j d o ->
  (linked j None 0 0 /\ b = 0 /\ tb = d0 /\ d = d0) \/
  exists i b1 tb1 d1 o1, place b1 tb1 i d1 o1 /\ (exists off c, linked j (Some i) off c) /\
    match d1 with
    | DPtr t => j = S i /\ b = S i /\ tb = t /\ d = t
    | DStruct z fs => b = b1 /\ tb = tb1 /\ exists q y, nth_error fs q = Some y /\ nth_error (field_idx (S i) fs) q = Some (fst (fst y), j) /\ d = snd y
    | DArr n t => j = S i /\ b = b1 /\ tb = tb1 /\ d = t
    | _ => False
    end.
Proof.
  intros [|b1 tb1 i t o1 Pl|b1 tb1 i z fs o1 q y j1 Pl Ny Nj|b1 tb1 i n t o1 k Pl Hk].
  - left. auto.
  - right. exists i, b1, tb1, (DPtr t), o1. split; [exact Pl|]. split; [do 2 eexists; exact (ptr_linked _ _ _ _ _ Pl)|auto].
  - right. exists i, b1, tb1, (DStruct z fs), o1. split; [exact Pl|]. split; [do 2 eexists; exact (place_linked _ _ _ _ _ _ _ _ _ Pl Ny Nj)|]. split; [reflexivity|]. split; [reflexivity|]. exists q, y. auto.
  - right. exists i, b1, tb1, (DArr n t), o1. split; [exact Pl|]. split; [do 2 eexists; exact (proj2 (elem_linked _ _ _ _ _ _ Pl))|auto].
Qed.
(** The type of a frame is unique. *)
Lemma place_fun b tb j d o : place b tb j d o -> forall b' tb' d' o', place b' tb' j d' o' -> b' = b /\ tb' = tb /\ d' = d.
Proof.
  induction 1 as [|b tb i t o Pl IH|b tb i z fs o q y j Pl IH Ny Nj|b tb i n t o k Pl IH Hk]; intros b' tb' d' o' H; apply place_inv in H.
  - destruct H as [(_ & Q)|(i & b1 & tb1 & d1 & o1 & _ & (off & c & L) & _)]; [exact Q|]. destruct (linked_fun _ _ _ _ _ _ _ Root L). discriminate.
  - pose proof (ptr_linked _ _ _ _ _ Pl) as L1. destruct H as [(L & _)|(i' & b1 & tb1 & d1 & o1 & Pl' & (off & c & L) & M)]; destruct (linked_fun _ _ _ _ _ _ _ L1 L) as [Q _]; [discriminate|].
    injection Q as <-. destruct (IH _ _ _ _ Pl') as (-> & -> & ->). destruct M as (_ & -> & -> & ->). auto.
  - pose proof (place_linked _ _ _ _ _ _ _ _ _ Pl Ny Nj) as L1. destruct H as [(L & _)|(i' & b1 & tb1 & d1 & o1 & Pl' & (off & c & L) & M)]; destruct (linked_fun _ _ _ _ _ _ _ L1 L) as [Q _]; [discriminate|].
    injection Q as <-. destruct (IH _ _ _ _ Pl') as (-> & -> & ->). destruct M as (-> & -> & q' & y' & Ny' & Nj' & ->).
    assert (q' = q) as -> by (eapply field_idx_inj; eassumption). rewrite Ny in Ny'. injection Ny' as <-. auto.
  - pose proof (proj2 (elem_linked _ _ _ _ _ _ Pl)) as L1. destruct H as [(L & _)|(i' & b1 & tb1 & d1 & o1 & Pl' & (off & c & L) & M)]; destruct (linked_fun _ _ _ _ _ _ _ L1 L) as [Q _]; [discriminate|].
    injection Q as <-. destruct (IH _ _ _ _ Pl') as (-> & -> & ->). destruct M as (_ & -> & -> & ->). auto.
Qed.
(** Every frame has a place. *)
Lemma place_below d : forall b tb i o, place b tb i d o -> forall j, i <= j < i + dlen d -> exists b' tb' d' o', place b' tb' j d' o'.
Proof.
  induction d as [x|id z|id z| |n t IH| |t IH|k t IH| |t IH|z fs IH] using dt_ind'; intros b tb i o Pl j Hj;
    pose proof (place_fits _ _ _ _ _ Pl) as (_ & _ & Sm); try discriminate Sm;
    try (cbn [dlen] in Hj; assert (j = i) as -> by lia; eauto 6; fail).
  - destruct (Nat.eq_dec j i) as [->|]; [eauto 6|]. cbn [dlen] in Hj. destruct (elem_linked _ _ _ _ _ _ Pl) as [N _].
    apply (IH _ _ (S i) _ (pl_elem _ _ _ _ _ _ 0 Pl N)). lia.
  - cbn [boxed dlen] in *. destruct (fast_et t); [|discriminate]. assert (j = i) as -> by lia. eauto 6.
  - destruct (Nat.eq_dec j i) as [->|]; [eauto 6|]. cbn [dlen] in Hj. apply (IH _ _ (S i) _ (pl_ptr _ _ _ _ _ Pl)). lia.
  - destruct (Nat.eq_dec j i) as [->|]; [eauto 6|]. rewrite dlen_struct in Hj. rewrite Forall_forall in IH.
    assert (Q : forall l k, S i <= k -> (forall q y, nth_error l q = Some y -> exists q', nth_error fs q' = Some y /\ nth_error (field_idx (S i) fs) q' = nth_error (field_idx k l) q) ->
      k <= j < k + dlens l -> exists q y idx, nth_error fs q = Some y /\ nth_error (field_idx (S i) fs) q = Some (fst (fst y), idx) /\ idx <= j < idx + dlen (snd y)).
    { induction l as [|y l IHl]; intros k Hk Sub Hj'; cbn [dlens] in Hj'; [lia|].
      destruct (Nat.lt_ge_cases j (k + dlen (snd y))).
      - destruct (Sub 0 y eq_refl) as (q & N1 & N2). exists q, y, k. split; [exact N1|]. split; [exact N2|lia].
      - apply (IHl (k + dlen (snd y))); [lia| |lia]. intros q y' Hy. apply (Sub (S q) y'), Hy. }
    destruct (Q fs (S i)) as (q & y & idx & Ny & Nj & Hj'); [lia|eauto|lia|].
    apply (IH y (nth_error_In _ _ Ny) _ _ idx _ (pl_field _ _ _ _ _ _ _ _ _ Pl Ny Nj) j Hj').
Qed.
Lemma place_all j : j < length stk -> exists b tb d o, place b tb j d o.
Proof. rewrite Len. intros H. eapply place_below; [apply pl_root|lia]. Qed.
Lemma place_up b tb j d o : place b tb j d o -> exists f, nth_error stk j = Some f /\ f_ty f = dt_et d /\ f_size f = dsize w64 d /\
  (f_parent f = None \/
   (exists i z fs o', f_parent f = Some i /\ place b tb i (DStruct z fs) o') \/
   (exists i b' tb' o', j = S i /\ f_parent f = Some i /\ place b' tb' i (DPtr d) o') \/
   (exists i n o', j = S i /\ f_parent f = Some i /\ place b tb i (DArr n d) o' /\ f_cap f = Z.of_nat n)).
Proof.
  intros Pl. pose proof (place_fits _ _ _ _ _ Pl) as (Ft & _). destruct (fits_head C stk _ _ Ft) as (fields & f & Hf & T & Sz & _).
  exists f. split; [exact Hf|]. split; [exact T|]. split; [exact Sz|]. destruct Pl as [|b tb i t o Pl|b tb i z fs o q y j Pl Ny Nj|b tb i n t o k Pl Hk].
  - left. destruct Root as (f' & Hf' & P & _). congruence.
  - right. right. left. destruct (ptr_linked _ _ _ _ _ Pl) as (f' & Hf' & P & _). rewrite Hf in Hf'. injection Hf' as <-. exists i, b, tb, o. auto.
  - right. left. destruct (place_linked _ _ _ _ _ _ _ _ _ Pl Ny Nj) as (f' & Hf' & P & _). rewrite Hf in Hf'. injection Hf' as <-. exists i, z, fs, o. auto.
  - right. right. right. destruct (elem_linked _ _ _ _ _ _ Pl) as (_ & f' & Hf' & P & _ & Cp). rewrite Hf in Hf'. injection Hf' as <-. exists i, n, o. auto.
Qed.

(** The value at a place. *)
Lemma place_focus b tb j d o : place b tb j d o -> forall ra h g F, layout w64 tb -> rep (cut tb) h (Some ra) g F -> own h (Some ra) F ->
  exists gj Fj, rep (cut d) h (padd (Some ra) o) gj Fj /\ own h (padd (Some ra) o) Fj /\
    forall h' g', post (cut d) h (padd (Some ra) o) Fj h' g' -> exists g2, post (cut tb) h (Some ra) F h' g2.
Proof.
  induction 1 as [|b tb i t o Pl _|b tb i z fs o q y j Pl IH Ny Nj|b tb i n t o k Pl IH Hk]; intros ra h g F Lt R Ow.
  - exists g, F. rewrite padd0. split; [exact R|]. split; [exact Ow|]. intros h' g' H. exists g'. exact H.
  - exists g, F. rewrite padd0. split; [exact R|]. split; [exact Ow|]. intros h' g' H. exists g'. exact H.
  - destruct (IH ra h g F Lt R Ow) as (gi & Fi & Ri & Oi & Upi). pose proof (place_fits _ _ _ _ _ Pl) as (_ & Ly & _).
    apply cut_layout in Ly. cbn [cut] in *. assert (Ny' := map_nth_error (fun x => (fst x, cut (snd x))) q fs Ny).
    destruct Ri as (gs & -> & Ri). destruct (field_focus C z _ h _ gs Fi q _ Ly Ri Oi Ny') as (gj & Fj & _ & Rj & Oj & Up). cbn [fst snd] in *.
    replace (padd (Some ra) (o + snd (fst y))) with (padd (padd (Some ra) o) (snd (fst y))) by (destruct ra; cbn; f_equal; f_equal; lia).
    exists gj, Fj. split; [exact Rj|]. split; [exact Oj|]. intros h' g' H. destruct (Up h' g' H) as (F' & R' & Ow' & On').
    apply (Upi h' (VStruct (set_nth gs q g'))). exists F'. split; [|split; assumption]. exists (set_nth gs q g'). split; [reflexivity|exact R'].
  - destruct (IH ra h g F Lt R Ow) as (gi & Fi & Ri & Oi & Upi). pose proof (place_fits _ _ _ _ _ Pl) as (_ & Ly & _).
    apply cut_layout in Ly. cbn [cut] in *.
    destruct Ri as (gs & -> & Ri). destruct (slot_focus (mt w64 (cut t)) n h _ gs Fi k (nice_mt C (cut t) Ly) Ri Oi Hk) as (gj & Fj & _ & Rj & Oj & Up). cbn [mt m_size] in *.
    unfold w64 in *. rewrite cut_size in *.
    replace (padd (Some ra) (o + Z.of_nat k * dsize (c_w64 C) t)) with (padd (padd (Some ra) o) (Z.of_nat k * dsize (c_w64 C) t)) by (destruct ra; cbn; f_equal; f_equal; lia).
    exists gj, Fj. split; [exact Rj|]. split; [exact Oj|]. intros h' g' H. destruct (Up h' g' H) as (F' & R' & Ow' & On').
    apply (Upi h' (VArr (set_nth gs k g'))). exists F'. split; [|split; [exact Ow'|]].
    + exists (set_nth gs k g'). split; [reflexivity|]. rewrite cut_size. exact R'.
    + cbn [dsize]. rewrite cut_size. exact On'.
Qed.

(** ** The invariant *)
Definition intact (h : heap) : Prop := exists K, sound h K.
(** A frame is unused, aims at its place in a root, or at an element of the array before it. *)
Definition elem (stk : list frame) (j : nat) : Prop := exists f, nth_error stk j = Some f /\ elem_frame stk f.
Definition aim (K : list root) (j : nat) (x : dframe) : Prop :=
  d_dest x = None \/
  (~ elem stk j /\ exists b tb ra d o, In (b, tb, ra) K /\ place b tb j d o /\ padd (d_dest x) (d_off x) = padd (Some ra) o) \/
  (exists b tb ra i n t o k, In (b, tb, ra) K /\ j = S i /\ place b tb i (DArr n t) o /\ d_dest x = padd (Some ra) o /\ d_off x = (Z.of_nat k * dsize w64 t)%Z /\ k < n /\ (Z.of_nat k <= d_len x)%Z).
Definition placed (K : list root) (D : dyn) : Prop := dyn_ok D /\ d_dest (D 0) = Some a /\ forall j, j < length stk -> aim K j (D j).
Lemma aim_more K K' j x : incl K K' -> aim K j x -> aim K' j x.
Proof.
  intros I [Q|[(N & b & tb & ra & d & o & Hin & Q)|(b & tb & ra & i & n & t & o & k & Hin & Q)]]; [left; exact Q| |]; right; [left|right].
  - split; [exact N|]. exists b, tb, ra, d, o. split; [apply I, Hin|exact Q].
  - exists b, tb, ra, i, n, t, o, k. split; [apply I, Hin|exact Q].
Qed.
Lemma placed_more K K' D : incl K K' -> placed K D -> placed K' D.
Proof. intros I (Dk & E & Pd). split; [exact Dk|]. split; [exact E|]. intros j Hj. eapply aim_more; [exact I|exact (Pd j Hj)]. Qed.
Lemma place_lt b tb j d o : place b tb j d o -> j < length stk.
Proof. intros Pl. destruct (place_up _ _ _ _ _ Pl) as (f & Hf & _). assert (Q : nth_error stk j <> None) by congruence. apply nth_error_Some in Q. exact Q. Qed.
Lemma aims K D b tb j d o : placed K D -> place b tb j d o -> dst D j = None \/ exists ra o', In (b, tb, ra) K /\ place b tb j d o' /\ dst D j = padd (Some ra) o'.
Proof.
  intros (_ & _ & Pd) Pl. unfold dst. destruct (Pd j (place_lt _ _ _ _ _ Pl)) as [Q|[(_ & b' & tb' & ra & d' & o' & Hin & Pl' & Q)|(b' & tb' & ra & i & n & t & o' & k & Hin & -> & Pi & E1 & E2 & Hk & _)]].
  - left. rewrite Q. reflexivity.
  - right. destruct (place_fun _ _ _ _ _ Pl _ _ _ _ Pl') as (-> & -> & ->). exists ra, o'. auto.
  - right. pose proof (pl_elem _ _ _ _ _ _ k Pi Hk) as Pe. destruct (place_fun _ _ _ _ _ Pl _ _ _ _ Pe) as (-> & -> & ->). exists ra, (o' + Z.of_nat k * dsize w64 d)%Z.
    split; [exact Hin|]. split; [exact Pe|]. rewrite E1, E2. destruct ra; cbn; f_equal; f_equal; lia.
Qed.
Lemma elem_of b tb j d o : place b tb j d o -> elem stk j <-> exists i n t o', j = S i /\ place b tb i (DArr n t) o'.
Proof.
  intros Pl. split.
  - intros (f & Hf & p & fp & Pp & Hp & Ty). destruct (place_up _ _ _ _ _ Pl) as (f' & Hf' & _ & _ & P). rewrite Hf in Hf'. injection Hf' as <-.
    destruct P as [P|[(i & z & fs & o' & P & Pi)|[(i & b' & tb' & o' & -> & P & Pi)|(i & n & o' & -> & P & Pi & _)]]]; [congruence| | |eauto 10].
    + rewrite P in Pp. injection Pp as <-. destruct (place_up _ _ _ _ _ Pi) as (fi & Hi & Ti & _). rewrite Hp in Hi. injection Hi as <-. rewrite Ti in Ty. destruct Ty; discriminate.
    + rewrite P in Pp. injection Pp as <-. destruct (place_up _ _ _ _ _ Pi) as (fi & Hi & Ti & _). rewrite Hp in Hi. injection Hi as <-. rewrite Ti in Ty. destruct Ty; discriminate.
  - intros (i & n & t & o' & -> & Pi). destruct (elem_linked _ _ _ _ _ _ Pi) as (_ & f & Hf & P & _). destruct (place_up _ _ _ _ _ Pi) as (fi & Hi & Ti & _).
    exists f. split; [exact Hf|]. exists i, fi. split; [exact P|]. split; [exact Hi|]. left. exact Ti.
Qed.
Definition ended (x : st) : Prop :=
  (exists y, (y = x \/ reach x (Next y)) /\ length toks <= ti y /\ intact (hp y) /\ d_dest (dy y 0) = Some a) \/
  (exists i e y, reach x (Fail i e y) /\ intact (hp y)) \/
  reach x Panic.
Lemma ended_reach x x' : reach x (Next x') -> ended x' -> ended x.
Proof.
  intros R [(y & E & H)|[(i & e & y & E & H)|E]].
  - left. exists y. split; [|exact H]. right. destruct E as [->|E]; [exact R|eapply reach_then; eassumption].
  - right. left. exists i, e, y. split; [eapply reach_then; eassumption|exact H].
  - right. right. eapply reach_then; eassumption.
Qed.
Lemma sound_post K b tb j d o ra h : place b tb j d o -> In (b, tb, ra) K -> sound h K -> exists gj Fj, rep (cut d) h (padd (Some ra) o) gj Fj /\ own h (padd (Some ra) o) Fj /\
    forall h' g', post (cut d) h (padd (Some ra) o) Fj h' g' -> sound h' K.
Proof.
  intros Pl Hin So. destruct (sound_focus _ _ _ _ _ _ _ _ _ _ So Hin) as (g & F & R & Ow & Lt & Step).
  destruct (place_focus _ _ _ _ _ Pl ra h g F Lt R Ow) as (gj & Fj & Rj & Oj & Up). exists gj, Fj. split; [exact Rj|]. split; [exact Oj|].
  intros h' g' H. destruct (Up h' g' H) as (g2 & F2 & R2 & Ow2 & On2). unfold w64 in *. rewrite cut_size in On2. eapply Step; eassumption.
Qed.
(** The recursive decoder at a place. *)
Lemma value_sound K b tb j d o D h v : place b tb j d o -> composite d = false \/ scalar_jv v = true /\ no_ptr d = true -> placed K D -> sound h K -> lexed s v ->
  match dech d v (dst D j) h with HOk h' => sound h' K | HErr _ _ h' => sound h' K | HPan => True | HCor => False end.
Proof.
  intros Pl Cp Pd So L. pose proof (place_fits _ _ _ _ _ Pl) as (_ & Ly & Sm).
  assert (Ec : forall p, dech d v p h = dech (cut d) v p h).
  { intros p. destruct Cp as [Cp|[Sv Np]]; [rewrite cut_leaf by exact Cp; reflexivity|]. destruct (composite d) eqn:Cd; [|rewrite cut_leaf by exact Cd; reflexivity].
    destruct d; try discriminate; destruct v; try discriminate; cbn [cut Dec.dech]; unfold leaf; cbn [dt_et dsize]; rewrite ?cut_size; reflexivity. }
  destruct (aims K D b tb j d o Pd Pl) as [Q|(ra & o' & Hin & Pl' & Q)]; rewrite Q.
  - assert (H : harmless h (dech d v None h)).
    { destruct Cp as [Cp|[Sv Np]]; [exact (nil_leaf C O s d v h (boxed_leaf d Sm Cp) Cp L)|]. destruct (composite d) eqn:Cd; [|exact (nil_leaf C O s d v h (boxed_leaf d Sm Cd) Cd L)].
      destruct d; try discriminate; destruct v; try discriminate; apply nil_scalar. }
    destruct (dech d v None h); cbn [harmless] in H; subst; auto.
  - destruct (sound_post _ _ _ _ _ _ _ _ Pl' Hin So) as (gj & Fj & Rj & Oj & Up). rewrite Ec.
    pose proof (dech_good C O s (cut d) (cut_layout _ _ Ly) v h _ gj Fj L Rj Oj) as G.
    destruct (dval C O s (cut d) v gj) as [g'|idx e g'|]; cbn [gsim] in G.
    + destruct G as (h' & -> & G). eapply Up, G.
    + destruct G as (h' & -> & G). eapply Up, G.
    + rewrite G. exact I.
Qed.
(** Writing a pointer. *)
Lemma ptr_store K b tb j t o D h c : place b tb j (DPtr t) o -> placed K D -> sound h K -> c = CZero \/ (exists x, c = CPtr x) ->
  store h (dst D j) (wb w64) c = Pan \/ exists h', store h (dst D j) (wb w64) c = Ok h' /\ sound h' K.
Proof.
  intros Pl Pd So Hc. destruct (aims K D b tb j _ o Pd Pl) as [Q|(ra & o' & Hin & Pl' & Q)]; rewrite Q.
  - left. unfold store. pose proof (wb_pos w64). destruct (Z.leb_spec (wb w64) 0); [lia|]. reflexivity.
  - right. destruct (sound_post _ _ _ _ _ _ _ _ Pl' Hin So) as (gj & Fj & Rj & Oj & Up). cbn [cut Value.rep] in Rj. destruct Rj as (c0 & Hh & Rj).
    assert (Np : is_poison c0 = false /\ Fj = []).
    { destruct c0; try contradiction; [split; [reflexivity|apply Rj]|]. destruct Rj as (v & F' & _ & [-> _] & ->). cbn. auto. }
    destruct Np as [Np ->]. destruct (store_cell h _ (wb w64) c0 c (wb_pos w64) Hh Np) as (h' & E & Hh' & _ & _ & Ow' & On').
    exists h'. split; [exact E|]. destruct Hc as [->|[x ->]].
    + apply (Up h' (VPtr None)). exists []. split; [exists CZero; split; [exact Hh'|split; reflexivity]|]. split; [apply Ow', Oj|apply On', incl_refl].
    + apply (Up h' (VPtr (Some (VStruct [])))). exists []. split; [exists (CPtr x); split; [exact Hh'|]|split; [apply Ow', Oj|apply On', incl_refl]].
      exists (VStruct []), []. split; [reflexivity|]. split; [split; reflexivity|reflexivity].
Qed.

Definition A_ok (n : nat) : Prop := forall K b tb i d o D h k, place b tb i d o -> placed K D -> sound h K -> length toks - k <= n -> ended (St i k D h).
(** Changing the data of an element frame. *)
Lemma placed_elem K b tb i n t o D g : place b tb i (DArr n t) o -> placed K D -> (forall x, d_rs (g x) = d_rs x) -> aim K (S i) (g (D (S i))) -> placed K (upd_d D (S i) g).
Proof.
  intros Pl (Dk & E0 & Pd) Hg Ha. destruct (elem_linked _ _ _ _ _ _ Pl) as (N & f & Hf & P & _).
  assert (Pe := pl_elem _ _ _ _ _ _ 0 Pl N). pose proof (proj2 (elem_of _ _ _ _ _ Pe) ltac:(eauto 10)) as (f' & Hf' & Ef). rewrite Hf in Hf'. injection Hf' as <-.
  destruct (place_up _ _ _ _ _ Pe) as (f' & Hf' & T & _). rewrite Hf in Hf'. injection Hf' as <-.
  split; [|split].
  - eapply dyn_ok_elem; [exact Dk|exact Hf|exact Ef| |rewrite T; apply head_not_recur]. intros x Hx. rewrite Hg. exact Hx.
  - exact E0.
  - intros j Hj. unfold upd_d. destruct (Nat.eqb_spec j (S i)) as [->|]; [exact Ha|exact (Pd j Hj)].
Qed.
(** The end of a value. *)
Lemma up K b tb i d o k D h : place b tb i d o -> placed K D ->
  on_val_end (St i k D h) = Panic \/
  exists b' tb' j d' o' k' D', on_val_end (St i k D h) = Next (St j k' D' h) /\ place b' tb' j d' o' /\ placed K D' /\ k <= k'.
Proof.
  intros Pl Pd. destruct (place_up _ _ _ _ _ Pl) as (f & Hf & T & Sz & [P|[(j & z & fs & o' & P & Pj)|[(j & b' & tb' & o' & -> & P & Pj)|(j & n & o' & -> & P & Pj & Cp)]]]).
  - right. exists b, tb, i, d, o, k, D. split; [|split; [exact Pl|split; [exact Pd|lia]]]. unfold Machine.on_val_end. cbn [si]. unfold fr. rewrite Hf, P. reflexivity.
  - right. exists b, tb, j, (DStruct z fs), o', k, D. split; [|split; [exact Pj|split; [exact Pd|lia]]]. destruct (place_up _ _ _ _ _ Pj) as (fj & Hj & Tj & _).
    unfold Machine.on_val_end. cbn [si]. unfold fr. rewrite Hf, P, Hj, Tj. reflexivity.
  - right. exists b', tb', j, (DPtr d), o', k, D. split; [|split; [exact Pj|split; [exact Pd|lia]]]. destruct (place_up _ _ _ _ _ Pj) as (fj & Hj & Tj & _).
    unfold Machine.on_val_end. cbn [si]. unfold fr. rewrite Hf, P, Hj, Tj. reflexivity.
  - destruct (place_up _ _ _ _ _ Pj) as (fj & Hj & Tj & _).
    unfold Machine.on_val_end. cbn [si ti dy hp]. unfold fr. rewrite Hf, P, Hj, Tj, Cp, Sz. cbn [dt_et].
    pose proof (proj2 (proj2 Pd) (S j) (place_lt _ _ _ _ _ Pl)) as Am.
    assert (Pd1 : placed K (upd_d D (S j) (set_dlen (d_len (D (S j)) + 1)%Z))).
    { eapply placed_elem; [exact Pj|exact Pd|reflexivity|]. destruct Am as [Q|[(N & _)|(b2 & tb2 & ra & i & m & u & o2 & q & Hin & Ej & Pi & E1 & E2 & Hq & Hl)]].
      - left. exact Q.
      - destruct N. apply (elem_of _ _ _ _ _ Pl). eauto 10.
      - right. right. injection Ej as <-. exists b2, tb2, ra, j, m, u, o2, q. cbn [set_dlen d_dest d_off d_len]. repeat split; try assumption. lia. }
    destruct (_ <=? _)%Z eqn:Le.
    + destruct (skip_extra 1 _) as [m|]; [|left; reflexivity]. right. exists b, tb, (S j), d, o, (k + m), (upd_d D (S j) (set_dlen (d_len (D (S j)) + 1)%Z)).
      split; [reflexivity|]. split; [exact Pl|]. split; [exact Pd1|lia].
    + right. do 7 eexists. split; [reflexivity|]. split; [exact Pl|]. split; [|apply le_n].
      eapply placed_elem; [exact Pj|exact Pd1|reflexivity|]. unfold upd_d. rewrite Nat.eqb_refl.
      destruct Am as [Q|[(N & _)|(b2 & tb2 & ra & i & m & u & o2 & q & Hin & Ej & Pi & E1 & E2 & Hq & Hl)]].
      * left. exact Q.
      * destruct N. apply (elem_of _ _ _ _ _ Pl). eauto 10.
      * right. right. injection Ej as <-. destruct (place_fun _ _ _ _ _ Pj _ _ _ _ Pi) as (-> & -> & Q). injection Q as -> ->.
        exists b, tb, ra, j, n, d, o2, (S q). cbn [set_dlen set_doff d_dest d_off d_len]. apply Z.leb_gt in Le. repeat split; try assumption; lia.
Qed.
Lemma up_ended n K b tb i d o k k0 D h D0 h00 i0 : A_ok n -> place b tb i d o -> placed K D -> sound h K -> length toks - k <= n ->
  reach (St i0 k0 D0 h00) (on_val_end (St i k D h)) -> ended (St i0 k0 D0 h00).
Proof.
  intros A Pl Pd So Hk R. destruct (up K b tb i d o k D h Pl Pd) as [E|(b' & tb' & j & d' & o' & k' & D' & E & Pj & Pd' & Lk)]; rewrite E in R; [right; right; exact R|].
  eapply ended_reach; [exact R|]. eapply A; [exact Pj|exact Pd'|exact So|lia].
Qed.
Lemma placed_same K D D' : placed K D -> dyn_ok D' -> (forall j, D' j = D j) -> placed K D'.
Proof.
  intros (_ & E & Pd) Dk Q. split; [exact Dk|]. split; [rewrite Q; exact E|]. intros j Hj. rewrite Q. exact (Pd j Hj).
Qed.
Lemma failed K i k D h idx e : k < length toks -> sound h K -> step (St i k D h) = Fail idx e (St i k D h) -> ended (St i k D h).
Proof. intros Lt So E. right. left. do 3 eexists. split; [apply reach_one; [exact Lt|exact E]|exists K; exact So]. Qed.

(** A value at a frame without fields. *)
Lemma leaf_ended n K b tb i d o D h k v rest : A_ok n -> place b tb i d o -> composite d = false -> placed K D -> sound h K -> lexed s v ->
  skipn k toks = flat k v ++ rest -> length toks - k <= S n -> ended (St i k D h).
Proof.
  intros A Pl Cp Pd So L E Hn. pose proof (place_fits _ _ _ _ _ Pl) as (Ft & _ & Sm). pose proof (at_lt C _ _ _ _ E) as Lt. pose proof (ntok_pos v) as Np.
  assert (Lg : lag_of C O d v = Some On \/ lag_of C O d v = Some Early /\ 2 <= ntok v).
  { destruct d; try discriminate; cbn [lag_of]; auto.
    - destruct v; auto. rewrite ntok_obj. right. split; [reflexivity|lia].
    - cbn [boxed] in Sm. destruct (fast_et d); [|discriminate]. auto. }
  assert (D1 : dlen d = 1). { destruct d; try discriminate; try reflexivity. cbn [boxed dlen] in *. destruct (fast_et d); [reflexivity|discriminate]. }
  pose proof (value_sound K b tb i d o D h v Pl (or_introl Cp) Pd So L) as Iv. pose proof Pd as (Dk & _).
  assert (M : exists q, (q = On \/ q = Early /\ 2 <= ntok v) /\ lag_of C O d v = Some q) by (destruct Lg as [Lg|[Lg ?]]; eauto).
  clear Lg. destruct M as (q & Hq & Lg).
  pose proof (value_reach C O stk s toks d i k v q D h _ Ft Dk L Lg E) as R.
  destruct (dech d v (dst D i) h) as [h'|idx e h'| |]; cbn [ends] in R.
  - destruct R as (D' & R & Dk' & Ag). assert (Pd' : placed K D') by (eapply placed_same; [exact Pd|exact Dk'|]; intros j; apply Ag; lia).
    destruct Hq as [->|[-> H2]]; cbn [fin] in R; (eapply up_ended; [exact A|exact Pl|exact Pd'|exact Iv| |exact R]; lia).
  - destruct R as (y & R & <-). right. left. do 3 eexists. split; [exact R|exists K; exact Iv].
  - right. right. exact R.
  - destruct Iv.
Qed.
Lemma struct_frame b tb i z fs o : place b tb i (DStruct z fs) o -> exists f, nth_error stk i = Some f /\ f_ty f = EStruct /\ f_fields f = field_idx (S i) fs.
Proof. intros Pl. pose proof (place_fits _ _ _ _ _ Pl) as (Ft & _). apply fits_struct in Ft as [(f & Hf & T & _ & Ff & _) _]. exists f. auto. Qed.
(** A frame whose parent is a struct or a pointer is no element. *)
Lemma not_elem b tb j d o : place b tb j d o -> (forall i n t o', j = S i -> place b tb i (DArr n t) o' -> False) -> ~ elem stk j.
Proof. intros Pl H He. apply (elem_of _ _ _ _ _ Pl) in He as (i & n & t & o' & E & Pi). exact (H i n t o' E Pi). Qed.
Lemma field_not_elem b tb i z fs o q y j : place b tb i (DStruct z fs) o -> nth_error fs q = Some y -> nth_error (field_idx (S i) fs) q = Some (fst (fst y), j) -> ~ elem stk j.
Proof.
  intros Pl Ny Nj. apply (not_elem _ _ _ _ _ (pl_field _ _ _ _ _ _ _ _ _ Pl Ny Nj)). intros i' n t o' -> Pi. destruct (elem_linked _ _ _ _ _ _ Pi) as (_ & Lk).
  destruct (linked_fun _ _ _ _ _ _ _ Lk (place_linked _ _ _ _ _ _ _ _ _ Pl Ny Nj)) as [X _]. injection X as ->.
  destruct (place_fun _ _ _ _ _ Pl _ _ _ _ Pi) as (_ & _ & Q). discriminate.
Qed.
Lemma target_not_elem b tb i t o : place b tb i (DPtr t) o -> ~ elem stk (S i).
Proof.
  intros Pl. apply (not_elem _ _ _ _ _ (pl_ptr _ _ _ _ _ Pl)). intros i' n t' o' [= <-] Pi. destruct (place_fun _ _ _ _ _ Pl _ _ _ _ Pi) as (_ & _ & Q). discriminate.
Qed.
Lemma off_of D j d o b tb off c p : dyn_ok D -> place b tb j d o -> ~ elem stk j -> linked j p off c -> d_off (D j) = off.
Proof.
  intros Dk Pl Ne (f & Hf & _ & Q & _). destruct (place_up _ _ _ _ _ Pl) as (f' & Hf' & T & _). rewrite Hf in Hf'. injection Hf' as <-.
  destruct (Dk j f Hf) as [_ Of]; [rewrite T; apply head_not_recur|]. rewrite Of; [exact Q|]. intros He. apply Ne. exists f. auto.
Qed.
(** Entering a struct. *)
Lemma placed_enter K b tb i z fs o D : place b tb i (DStruct z fs) o -> placed K D -> placed K (set_dests D (field_idx (S i) fs) (dst D i)).
Proof.
  intros Pl Pd. pose proof (aims _ _ _ _ _ _ _ Pd Pl) as Hp. set (p := dst D i) in *. destruct Pd as (Dk & E0 & Pd).
  assert (Dk' := dyn_ok_dests stk (field_idx (S i) fs) p D Dk). split; [exact Dk'|].
  assert (N : forall j, existsb (fun f => Nat.eqb (snd f) j) (field_idx (S i) fs) = true -> exists q y, nth_error fs q = Some y /\ nth_error (field_idx (S i) fs) q = Some (fst (fst y), j)).
  { intros j. generalize (S i). clear. induction fs as [|y r IH]; intros m; cbn [field_idx existsb snd]; [discriminate|]. destruct (Nat.eqb_spec m j) as [->|]; cbn [orb].
    - intros _. exists 0, y. split; reflexivity.
    - intros H. destruct (IH _ H) as (q & y' & H1 & H2). exists (S q), y'. split; assumption. }
  split.
  - rewrite set_dests_spec. destruct (existsb _ _) eqn:Ex; [|exact E0]. apply existsb_exists in Ex as (f & Hb & Eb). apply Nat.eqb_eq in Eb. apply (field_idx_ge C) in Hb. lia.
  - intros j Hj. rewrite set_dests_spec. destruct (existsb _ _) eqn:Ex; [|exact (Pd j Hj)].
    destruct (N j Ex) as (q & y & Ny & Nj). pose proof (pl_field _ _ _ _ _ _ _ _ _ Pl Ny Nj) as Pj. pose proof (place_linked _ _ _ _ _ _ _ _ _ Pl Ny Nj) as Lk.
    pose proof (field_not_elem _ _ _ _ _ _ _ _ _ Pl Ny Nj) as Ne. pose proof (off_of _ _ _ _ _ _ _ _ _ Dk Pj Ne Lk) as Of.
    unfold aim. cbn [set_dest d_dest d_off]. destruct Hp as [Hp|(ra & o' & Hin & Pl' & Hp)]; [left; exact Hp|]. right. left. split; [exact Ne|].
    exists b, tb, ra, (snd y), (o' + snd (fst y))%Z. split; [exact Hin|]. split; [exact (pl_field _ _ _ _ _ _ _ _ _ Pl' Ny Nj)|]. rewrite Of, Hp. destruct ra; cbn; f_equal; f_equal; lia.
Qed.
Lemma leaf_et d : boxed d = true -> is_struct d = false -> match dt_et d with EStruct | EStructRecur | EMap | EMapRecur => False | _ => True end.
Proof.
  destruct d as [x|id z|id z| |m t| |t|kt t| |t|z fs]; try discriminate; cbn [boxed dt_et]; intros H _; try exact I.
  - destruct x; exact I.
  - destruct (fast_et t) as [e|] eqn:Fe; [|discriminate]. destruct t as [x| | | | | |t'| | | |]; try destruct x; cbn in Fe; try discriminate; injection Fe as <-; try exact I.
Qed.
Lemma member_ended n K b tb i d o D h k x rest : A_ok n -> place b tb i d o -> placed K D -> sound h K -> key_lexed s x ->
  skipn k toks = Tok KKey (fst (fst x)) (fst (fst x) + length (snd (fst x)) + 2) 0 :: rest -> length toks - k <= S n -> ended (St i k D h).
Proof.
  intros A Pl Pd So [K1 K2] E Hn. apply at_next in E as (Et & Lt & E). destruct (place_up _ _ _ _ _ Pl) as (f & Hf & T & _).
  pose proof (place_fits _ _ _ _ _ Pl) as (Ft & _ & Sm).
  destruct (is_struct d) eqn:Cp.
  - destruct d as [x'|id z|id z| |m t| |t|kt t| |t|z fs]; try discriminate. apply fits_struct in Ft as [(f' & Hf' & _ & _ & Ff & _) Fits].
    rewrite Hf in Hf'. injection Hf' as <-.
    assert (ST : step (St i k D h) =
      match pick (c_fold C) (o_nofold O) (map (fun x => fst (fst x)) fs) (key_of O (snd (fst x))) with
      | Some q => match nth_error (field_idx (S i) fs) q with
                  | Some b => Next (St (snd b) (S k) D h)
                  | None => Panic
                  end
      | None => if o_unknown O then Fail (fst (fst x)) EUnknownField (St i k D h)
                else match skip_unknown 0 (skipn (S k) toks) with
                     | None => Panic
                     | Some n => Next (St i (S k + n) D h)
                     end
      end).
    { unfold Machine.step. cbn [ti si]. rewrite Et. unfold fr. rewrite Hf. cbn [tk_ty]. unfold key_tok. rewrite T. cbn [dt_et].
      rewrite (body_ok C) by exact K1. cbn [lift]. rewrite unesc_ok by exact K2. cbn [lift]. rewrite Ff, lookup_pick, field_names.
      destruct (pick _ _ _ _) as [qq|] eqn:Pq; [|reflexivity].
      destruct (nth_error (field_idx (S i) fs) qq) as [bb|] eqn:Nq; [reflexivity|].
      apply Control.pick_lt in Pq. apply nth_error_None in Nq.
      rewrite <- (field_names (S i)), map_length in Pq. exfalso. exact (Nat.lt_irrefl _ (Nat.lt_le_trans _ _ _ Pq Nq)). }
    destruct (pick _ _ _ _) as [qf|] eqn:Pq.
    + pose proof (Control.pick_lt _ _ _ _ _ Pq) as Lq. rewrite map_length in Lq.
      destruct (nth_error fs qf) as [y|] eqn:Ny; [|apply nth_error_None in Ny; lia].
      destruct (field_nth C stk i fs (S i) qf y Fits Ny) as (idx & Nf & _). rewrite Nf in ST. cbn [snd] in ST.
      eapply ended_reach; [apply reach_one; [exact Lt|exact ST]|]. eapply A; [exact (pl_field _ _ _ _ _ _ _ _ _ Pl Ny Nf)|exact Pd|exact So|lia].
    + destruct (o_unknown O); [eapply failed; [exact Lt|exact So|exact ST]|].
      destruct (skip_unknown 0 _) as [m|]; [|right; right; apply reach_one; [exact Lt|exact ST]].
      eapply ended_reach; [apply reach_one; [exact Lt|exact ST]|]. eapply A; [exact Pl|exact Pd|exact So|lia].
  - apply (failed K i k D h (fst (fst x)) EUnexpected Lt So). unfold Machine.step. cbn [ti si]. rewrite Et. unfold fr. rewrite Hf. cbn [tk_ty]. unfold key_tok.
    pose proof (leaf_et d Sm Cp) as N. rewrite <- T in N. destruct (f_ty f); reflexivity || destruct N.
Qed.
(** Scalars. *)
Lemma scalar_ended n K b tb i d o D h k v rest : A_ok n -> place b tb i d o -> no_ptr d = true -> placed K D -> sound h K -> lexed s v -> scalar_jv v = true ->
  skipn k toks = flat k v ++ rest -> length toks - k <= S n -> ended (St i k D h).
Proof.
  intros A Pl Np Pd So L Sv E Hn. pose proof (place_fits _ _ _ _ _ Pl) as (Ft & _ & Sm). pose proof (at_lt C _ _ _ _ E) as Lt. pose proof (ntok_pos v) as Nv. pose proof Pd as (Dk & _).
  pose proof (value_sound K b tb i d o D h v Pl (or_intror (conj Sv Np)) Pd So L) as Iv.
  pose proof (scalar_case C O stk s toks i k v D h rest d 1 Np Ft Dk L Sv E) as R.
  destruct (dech d v (dst D i) h) as [h'|idx e h'| |]; cbn [ends] in R.
  - destruct R as (D' & R & Dk' & Ag). assert (Pd' : placed K D') by (eapply placed_same; [exact Pd|exact Dk'|]; intros j; apply Ag; lia).
    cbn [fin] in R. eapply up_ended; [exact A|exact Pl|exact Pd'|exact Iv| |exact R]. lia.
  - destruct R as (y & R & <-). right. left. do 3 eexists. split; [exact R|exists K; exact Iv].
  - right. right. exact R.
  - destruct Iv.
Qed.
Lemma struct_ended n K b tb i z fs o D h k v rest : A_ok n -> place b tb i (DStruct z fs) o -> placed K D -> sound h K -> lexed s v ->
  skipn k toks = flat k v ++ rest -> length toks - k <= S n -> ended (St i k D h).
Proof.
  intros A Pl Pd So L E Hn. destruct (scalar_jv v) eqn:Sv; [eapply scalar_ended; try eassumption; reflexivity|].
  pose proof (at_lt C _ _ _ _ E) as Lt. pose proof Pd as (Dk & _). destruct (struct_frame b tb i z fs o Pl) as (f & Hf & T & Ff).
  destruct v as [| | | | |ia ja l|ia ja l]; try discriminate.
  - pose proof (arr_err C O stk s toks i k D h f ia ja l 0 EStruct Hf T I Dk rest E) as (y & R & <-). right. left. do 3 eexists. split; [exact R|exists K; exact So].
  - pose proof (step_obj C O stk s toks i k D h f ia ja l rest Hf E) as ST. unfold obj_tok in ST. rewrite T in ST. cbn [dt_et tk_n hp dy si ti goto_ti with_dy] in ST.
    destruct l as [|x0 l0]; cbn [length Nat.eqb] in ST.
    + eapply up_ended with (k := k + 2); [exact A|exact Pl|exact Pd|exact So|lia|]. apply reach_one; [exact Lt|]. exact ST.
    + rewrite Ff in ST.
      eapply ended_reach; [apply reach_one; [exact Lt|exact ST]|].
      eapply A; [exact Pl|exact (placed_enter K b tb i z fs o D Pl Pd)|exact So|lia].
Qed.
Lemma array_ended n K b tb i m t o D h k v rest : A_ok n -> place b tb i (DArr m t) o -> placed K D -> sound h K -> lexed s v ->
  skipn k toks = flat k v ++ rest -> length toks - k <= S n -> ended (St i k D h).
Proof.
  intros A Pl Pd So L E Hn. destruct (scalar_jv v) eqn:Sv; [eapply scalar_ended; try eassumption; reflexivity|].
  pose proof (at_lt C _ _ _ _ E) as Lt. pose proof Pd as (Dk & _). destruct (place_up _ _ _ _ _ Pl) as (f & Hf & T & _).
  destruct v as [| | | | |ia ja l|ia ja l]; try discriminate.
  - pose proof (step_arr C O stk s toks i k D h f ia ja l rest Hf E) as ST. unfold arr_tok in ST. rewrite T in ST. cbn [dt_et tk_n hp dy si ti goto_ti] in ST.
    destruct l as [|v0 l0]; cbn [length Nat.ltb Nat.leb] in ST.
    + eapply up_ended with (k := k + 2); [exact A|exact Pl|exact Pd|exact So|lia|]. apply reach_one; [exact Lt|]. exact ST.
    + destruct (elem_linked _ _ _ _ _ _ Pl) as (N & fe & He & _). unfold fr in ST. rewrite He in ST.
      pose proof (pl_elem _ _ _ _ _ _ 0 Pl N) as Pe.
      eapply ended_reach; [apply reach_one; [exact Lt|exact ST]|].
      eapply A; [exact Pe| |exact So|lia]. eapply placed_elem; [exact Pl|exact Pd| |].
      * intros x. reflexivity.
      * destruct (aims _ _ _ _ _ _ _ Pd Pl) as [Q|(ra & o' & Hin & Pl' & Q)]; [left; exact Q|]. right. right. exists b, tb, ra, i, m, t, o', 0. cbn [d_dest d_off d_len].
        split; [exact Hin|]. split; [reflexivity|]. split; [exact Pl'|]. split; [exact Q|]. split; [reflexivity|]. split; [exact N|lia].
  - pose proof (obj_err C O stk s toks i k D h f ia ja l 0 EArray Hf T I Dk rest E) as (y & R & <-). right. left. do 3 eexists. split; [exact R|exists K; exact So].
Qed.
(** Values: a pointer passes the value on to what it refers to. *)
Lemma value_ended n d : A_ok n -> forall K b tb i o D h k v rest, place b tb i d o -> placed K D -> sound h K -> lexed s v ->
  skipn k toks = flat k v ++ rest -> length toks - k <= S n -> ended (St i k D h).
Proof.
  intros A. induction d as [x|id z|id z| |m t _| |t _|kt t _| |t IH|z fs _] using dt_ind'; intros K b tb i o D h k v rest Pl Pd So L E Hn;
    try (eapply leaf_ended; try eassumption; reflexivity).
  - eapply array_ended; eassumption.
  - pose proof (at_lt C _ _ _ _ E) as Lt. pose proof Pd as (Dk & E0 & Pa). destruct (place_up _ _ _ _ _ Pl) as (f & Hf & T & _).
    pose proof (pl_ptr _ _ _ _ _ Pl) as Pe. destruct (place_up _ _ _ _ _ Pe) as (fe & He & _ & Se & _).
    assert (Nu : match v with JNull _ => False | _ => True end \/ exists q, v = JNull q) by (destruct v; eauto).
    destruct Nu as [Nu|(q & ->)].
    + assert (ST : step (St i k D h) = on_ptr C stk (St i k D h)).
      { pose proof (nth_skipn0 toks k) as N0. rewrite E in N0. unfold Machine.step. cbn [ti si]. rewrite <- N0. unfold fr. rewrite Hf.
        destruct v as [| | | | |ia ja l|ia ja l]; try contradiction; try rewrite flat_arr; try rewrite flat_obj;
          cbn [flat app nth_error tk_ty]; try destruct b0; unfold arr_tok, obj_tok; rewrite T; reflexivity. }
      unfold on_ptr in ST. unfold fr in ST. cbn [si hp dy ti] in ST. rewrite He, Se in ST. unfold goto_si, with_hp in ST. cbn [si hp dy ti] in ST. fold w64 in ST.
      destruct (Z.eqb_spec (dsize w64 t) 0) as [Ez|Nz].
      * destruct (ptr_store K b tb i t o D h (CPtr (0%nat, 0%Z)) Pl Pd So ltac:(eauto)) as [Q|(h' & Q & So')]; rewrite Q in ST; cbn [lift] in ST.
        -- right. right. apply reach_one; [exact Lt|exact ST].
        -- eapply ended_reach; [apply reach_one; [exact Lt|exact ST]|]. eapply IH; eassumption.
      * pose proof (place_fits _ _ _ _ _ Pe) as (_ & Ly & _). pose proof (dsize_nonneg w64 t Ly) as Ps.
        destruct (sound_new C h0 d0 a F0 h K (S i) t So Ly ltac:(unfold w64 in *; lia)) as (na & h1 & Em & So1). fold w64 in Em. rewrite Em in ST. cbn beta iota in ST.
        set (K1 := K ++ [(S i, t, na)]) in *. assert (Inc : incl K K1) by (apply incl_appl, incl_refl).
        pose proof (placed_more _ _ _ Inc Pd) as Pd1.
        destruct (ptr_store K1 b tb i t o D h1 (CPtr na) Pl Pd1 So1 ltac:(eauto)) as [Q|(h' & Q & So')]; rewrite Q in ST; cbn [lift] in ST.
        -- right. right. apply reach_one; [exact Lt|exact ST].
        -- eapply ended_reach; [apply reach_one; [exact Lt|exact ST]|]. eapply (IH K1); [exact Pe| |exact So'|exact L|exact E|exact Hn].
           split; [apply dyn_ok_dest, Dk|]. split; [unfold upd_d; cbn [Nat.eqb]; exact E0|]. intros j Hj. unfold upd_d. destruct (Nat.eqb_spec j (S i)) as [->|]; [|exact (proj2 (proj2 Pd1) j Hj)].
           pose proof (target_not_elem _ _ _ _ _ Pl) as Ne. right. left. split; [exact Ne|]. exists (S i), t, na, t, 0%Z.
           split; [apply in_or_app; right; left; reflexivity|]. split; [exact Pe|]. cbn [set_dest d_dest d_off].
           rewrite (off_of _ _ _ _ _ _ _ _ _ Dk Pe Ne (ptr_linked _ _ _ _ _ Pl)). reflexivity.
    + assert (ST : step (St i k D h) = lift (null_tok C EPtr (dst D i) h) (fun h => on_val_end (St i (S k) D h))).
      { pose proof (nth_skipn0 toks k) as N0. rewrite E in N0. unfold Machine.step. cbn [ti si]. rewrite <- N0. unfold fr. rewrite Hf. cbn [flat app nth_error tk_ty]. rewrite T. reflexivity. }
      cbn [null_tok] in ST. fold w64 in ST.
      destruct (ptr_store K b tb i t o D h CZero Pl Pd So ltac:(auto)) as [Q|(h' & Q & So')]; rewrite Q in ST; cbn [lift] in ST.
      * right. right. apply reach_one; [exact Lt|exact ST].
      * eapply up_ended; [exact A|exact Pl|exact Pd|exact So'| |apply reach_one; [exact Lt|exact ST]]. lia.
  - eapply struct_ended; eassumption.
Qed.
Lemma A_all n : A_ok n.
Proof.
  induction n as [|n IH]; intros K b tb i d o D h k Pl Pd So Hn.
  { left. exists (St i k D h). split; [left; reflexivity|]. split; [cbn; lia|]. split; [exists K; exact So|apply Pd]. }
  destruct (le_lt_dec (length toks) k) as [Hk|Hk].
  { left. exists (St i k D h). split; [left; reflexivity|]. split; [exact Hk|]. split; [exists K; exact So|apply Pd]. }
  destruct (Items k Hk) as [(v & r & L & E)|[(x & r & L & E)|(j & e & m & r & [E|E])]].
  - eapply value_ended; eassumption.
  - eapply member_ended; eassumption.
  - destruct (place_up _ _ _ _ _ Pl) as (f & Hf & T & _). destruct (step_obj_end C O stk s toks i k D h f d j e m r Hf T (proj1 Pd) E) as [ST Lt].
    eapply up_ended; [exact IH|exact Pl|exact Pd|exact So| |apply reach_one; [exact Lt|exact ST]]. lia.
  - destruct (place_up _ _ _ _ _ Pl) as (f & Hf & T & _). destruct i as [|i].
    + right. right. apply reach_one; [exact Hk|]. apply at_next in E as (Et & _ & _). unfold Machine.step. cbn [ti si]. rewrite Et. unfold fr. rewrite Hf.
      cbn [tk_ty]. unfold arr_end_tok. cbn [goto_ti si ti dy hp]. pose proof (head_not_recur d). rewrite <- T in *. destruct (f_ty f); congruence || reflexivity.
    + assert (Hi : i < length stk) by (pose proof (nth_error_Some stk (S i)) as Q; rewrite Hf in Q; assert (S i < length stk) by (apply Q; discriminate); lia).
      destruct (place_all i Hi) as (b' & tb' & d' & o' & Pi).
      assert (NR : f_ty f <> EStructRecur) by (rewrite T; apply head_not_recur).
      pose proof (step_arr_end C O stk s toks i k D h f j e m r Hf NR E) as ST.
      eapply up_ended; [exact IH|exact Pi|exact Pd|exact So| |apply reach_one; [exact Hk|exact ST]]. lia.
Qed.
End Loop.

(** ** The value in memory without what its pointers refer to *)
Lemma perm_own h p F F' X : Permutation F (F' ++ X) -> own h p F -> own h p F'.
Proof.
  intros P (N & Nd & Ob & Op). split; [exact N|]. split; [|split; [|exact Op]].
  - apply (Permutation_NoDup P) in Nd. rewrite nodup_app in Nd. apply Nd.
  - intros b Hb. apply Ob. apply (Permutation_in b (Permutation_sym P)), in_or_app. left. exact Hb.
Qed.
Lemma cut_rep w64 d : layout w64 d -> forall h p g F, rep w64 d h p g F -> exists g' F' X, rep w64 (cut d) h p g' F' /\ Permutation F (F' ++ X).
Proof.
  induction d as [x|id z|id z| |n t IH| |t IH|k t IH| |t IH|z fs IH] using dt_ind'; intros L h p g F R;
    try (exists g, F, []; rewrite app_nil_r; split; [exact R|apply Permutation_refl]).
  - cbn [cut Value.rep] in *. destruct R as (gs & -> & R). rewrite cut_size.
    enough (Q : forall c n gs F, reps (slots (dsize w64 t) (rep w64 t) c n) h p gs F ->
      exists gs' F' X, reps (slots (dsize w64 t) (rep w64 (cut t)) c n) h p gs' F' /\ Permutation F (F' ++ X)).
    { destruct (Q 0 n gs F R) as (gs' & F' & X & R' & P). exists (VArr gs'), F', X. split; [exists gs'; auto|exact P]. }
    clear R gs F. cbn [layout] in L. intros c m. revert c. rename m into n0. clear n. rename n0 into n. induction n as [|n IHn]; intros c [|g gs] F R; cbn [slots reps fst snd] in *; try contradiction.
    + subst F. exists [], [], []. split; [reflexivity|constructor].
    + destruct R as (F1 & F2 & -> & R1 & R2). destruct (IH L _ _ _ _ R1) as (g' & F1' & X1 & R1' & P1). destruct (IHn _ _ _ R2) as (gs' & F2' & X2 & R2' & P2).
      exists (g' :: gs'), (F1' ++ F2'), (X1 ++ X2). split; [exists F1', F2'; auto|].
      rewrite P1, P2, <- !app_assoc. apply Permutation_app_head. rewrite !app_assoc. apply Permutation_app_tail, Permutation_app_comm.
  - cbn [cut Value.rep] in *. destruct R as (c & Hh & R). destruct c as [| | | | | | |ad| | | |]; try contradiction.
    + destruct R as [-> ->]. exists (VPtr None), [], []. split; [|constructor]. exists CZero. split; [exact Hh|auto].
    + destruct R as (v & F' & -> & _ & ->). eexists (VPtr (Some (VStruct []))), [], _. split; [|cbn [app]; apply Permutation_refl].
      exists (CPtr ad). split; [exact Hh|]. exists (VStruct []), []. split; [reflexivity|]. split; [split; reflexivity|reflexivity].
  - cbn [cut Value.rep] in *. destruct R as (gs & -> & R). apply layout_struct in L as (_ & _ & _ & La).
    enough (Q : exists gs' F' X, reps (map (fun x => (snd (fst x), rep w64 (snd x))) (map (fun x => (fst x, cut (snd x))) fs)) h p gs' F' /\ Permutation F (F' ++ X)).
    { destruct Q as (gs' & F' & X & R' & P). exists (VStruct gs'), F', X. split; [exists gs'; auto|exact P]. }
    revert gs F R. induction IH as [|x fs Hx IH IHl]; intros [|g gs] F R; cbn [map reps fst snd] in *; try contradiction.
    + subst F. exists [], [], []. split; [reflexivity|constructor].
    + destruct La as [Lx La]. destruct R as (F1 & F2 & -> & R1 & R2). destruct (Hx Lx _ _ _ _ R1) as (g' & F1' & X1 & R1' & P1). destruct (IHl La _ _ R2) as (gs' & F2' & X2 & R2' & P2).
      exists (g' :: gs'), (F1' ++ F2'), (X1 ++ X2). split; [exists F1', F2'; auto|].
      rewrite P1, P2, <- !app_assoc. apply Permutation_app_head. rewrite !app_assoc. apply Permutation_app_tail, Permutation_app_comm.
Qed.
Theorem variable_cut C d h a g F : layout (c_w64 C) d -> variable C d h a g F -> exists g' F', variable C (cut d) h a g' F' /\ incl F' F.
Proof.
  intros L [R Ow]. destruct (cut_rep _ _ L _ _ _ _ R) as (g' & F' & X & R' & P). exists g', F'. split; [split; [exact R'|eapply perm_own; eassumption]|].
  intros b Hb. apply (Permutation_in b (Permutation_sym P)), in_or_app. left. exact Hb.
Qed.

(** ** The call *)
Section Call.
Variables (C : cfg) (O : opts) (stk : list frame) (s : bytes) (d : dt) (v : jv).
Theorem decode_flat D a h g F : describes (c_w64 C) stk d -> rested stk D -> lexed s v -> boxed d = true ->
  layout (c_w64 C) d -> variable C (cut d) h a g F ->
  (exists i e D' h' g' F' X, Decode C O stk D s (TOk (flat 0 v)) (Some a) h = Ret i e D' h' /\
     variable C (cut d) h' a g' F' /\ only h h' (Some a) (dsize (c_w64 C) d) F (F' ++ X)) \/
  Decode C O stk D s (TOk (flat 0 v)) (Some a) h = DPanics.
Proof.
  intros (Len & Ft & Lk) ((Rs & Of) & Dn) L Sm Ly [R Ow].
  set (D0 := upd_d D 0 (set_dest (Some a))). set (toks := flat 0 v).
  assert (Dk0 : dyn_ok stk D0).
  { apply dyn_ok_dest. intros j f Hf N. split; [apply Rs|apply Of, Hf]. }
  assert (It : forall k, k < length toks -> at_item s k (skipn k toks)).
  { intros k Hk. unfold toks in *. rewrite flat_length in Hk. pose proof (items s v L 0 k [] Hk) as Q. rewrite app_nil_r in Q. exact Q. }
  assert (Pd : placed C stk d a [(0, d, a)] D0).
  { split; [exact Dk0|]. split; [reflexivity|]. intros j Hj. destruct j as [|j].
    - right. left. destruct Lk as (f & Hf & Pf & Qf & _). assert (Ne : ~ elem_frame stk f) by (intros (p & fp & P & _); congruence).
      split; [intros (f' & Hf' & He); rewrite Hf in Hf'; injection Hf' as <-; exact (Ne He)|].
      exists 0, d, a, d, 0%Z. split; [left; reflexivity|]. split; [apply pl_root|]. unfold D0, upd_d. cbn [Nat.eqb set_dest d_dest d_off]. rewrite (Of 0 f Hf Ne), Qf. reflexivity.
    - left. unfold D0, upd_d. cbn [Nat.eqb]. apply Dn. }
  assert (So : sound C h d a F h [(0, d, a)]).
  { exists F, []. split; [reflexivity|]. split.
    - split; [constructor; [|constructor]|].
      + split; [exact Ly|]. split; [exact Ow|]. exists g. exact R.
      + cbn [flat_map blocks fst snd]. rewrite app_nil_r. destruct Ow as (_ & Nd & Ob & _). constructor; [|exact Nd]. intros Q. destruct (Ob _ Q) as [_ P]. apply P. destruct a. reflexivity.
    - cbn [flat_map]. rewrite app_nil_r. apply only_refl. }
  assert (Out : forall h', intact C h d a F h' -> exists g' F' X, variable C (cut d) h' a g' F' /\ only h h' (Some a) (dsize (c_w64 C) d) F (F' ++ X)).
  { intros h' (K & F' & l & _ & [Hf _] & On). apply Forall_cons_iff in Hf as [(_ & Ow' & g' & R') _]. exists g', F', (flat_map blocks l). split; [split; assumption|exact On]. }
  pose proof (A_all C O stk s toks h d a F Ft Len Lk Ly Sm It (length toks) _ 0 d 0 d 0%Z D0 h 0 (pl_root C d) Pd So ltac:(lia)) as Fin.
  unfold Decode. fold D0. fold toks.
  destruct Fin as [(y & E & Ty & In & Ed)|[(i & e & y & E & In)|E]].
  - left. assert (Ry : run C O stk s toks (run_fuel stk toks) (St 0 0 D0 h) = RDone y).
    { assert (Ry : run C O stk s toks 0 y = RDone y).
      { cbn [run]. replace (ti y <? length toks) with false by (symmetry; apply Nat.ltb_ge; lia). reflexivity. }
      destruct E as [E|E].
      - subst y. apply run_fuel_enough with (n := 0); try discriminate; try reflexivity; [apply flat_ends|exact Ry].
      - apply reach_run in E as (n & E). specialize (E 0). cbn [cont] in E. rewrite Ry in E.
        apply run_fuel_enough in E; try discriminate; try reflexivity; [exact E|apply flat_ends]. }
    rewrite Ry, Ed, Nat.eqb_refl, Z.eqb_refl. cbn [andb].
    destruct (Out _ In) as (g' & F' & X & V & On). do 3 eexists. exists (hp y), g', F', X. auto.
  - left. apply reach_run in E as (n & E). specialize (E 0). cbn [cont] in E.
    apply run_fuel_enough in E; try discriminate; try reflexivity; [|apply flat_ends]. rewrite E.
    destruct (Out _ In) as (g' & F' & X & V & On). do 3 eexists. exists (hp y), g', F', X. auto.
  - right. apply reach_run in E as (n & E). specialize (E 0). cbn [cont] in E.
    apply run_fuel_enough in E; try discriminate; try reflexivity; [|apply flat_ends]. rewrite E. reflexivity.
Qed.
End Call.

(** ** C73 *)
(** With pointers, also below others and in arrays: the destination stays a value of its type
    ([cut]: up to what its pointers refer to); memory changes only there, in its blocks ([F]) and
    in what the call has allocated. *)
Theorem C73_with_pointers C O E dis T d stk D s v a h g F :
  decoder_for C E dis T d stk D -> boxed d = true -> json_text s v -> variable C (cut d) h a g F ->
  (exists r er D' h' g' F' X,
    Decode C O stk D s (TOk (flat 0 v)) (Some a) h = Ret r er D' h' /\
    variable C (cut d) h' a g' F' /\ only h h' (Some a) (dsize (c_w64 C) d) F (F' ++ X) /\
    decoder_for C E dis T d stk D') \/
  Decode C O stk D s (TOk (flat 0 v)) (Some a) h = DPanics.
Proof.
  intros Df Sm J V. pose proof (decoder_describes _ _ _ _ _ _ _ Df) as Ds. pose proof (used_rested _ _ _ _ Ds (df_used _ _ _ _ _ _ _ Df)) as Rd.
  destruct (decode_flat C O stk s d v D a h g F Ds Rd (json_text_lexed _ _ J) Sm (df_layout _ _ _ _ _ _ _ Df) V) as [(r & er & D' & h' & g' & F' & X & Q & V' & On')|Q]; [left|right; exact Q].
  exists r, er, D', h', g', F', X. split; [exact Q|]. split; [exact V'|]. split; [exact On'|].
  destruct Df as [D1 D2 D3 D4 D5]. constructor; try assumption. eapply u_call; eassumption.
Qed.
Lemma only_less h h' p n F F' X : only h h' p n F (F' ++ X) -> only h h' p n F F'.
Proof. intros (N & B & Cl & E & G). repeat split; try assumption; try apply E. intros b Hb. apply G, in_or_app. left. exact Hb. Qed.
Lemma only_more h h' p n F F' X : only h h' p n F F' -> only h h' p n (F ++ X) (F' ++ X).
Proof.
  intros (N & B & Cl & E & G). split; [exact N|]. split; [|split; [exact Cl|split; [exact E|]]].
  - intros b Hb Nf Np. apply B; [exact Hb| |exact Np]. intros Q. apply Nf, in_or_app. left. exact Q.
  - intros b Hb. apply in_app_or in Hb as [Hb|Hb]; [destruct (G b Hb); [left; apply in_or_app; left; assumption|right; assumption]|left; apply in_or_app; right; exact Hb].
Qed.
Lemma calls_app C O stk a l2 : forall l1 D h D' h', calls C O stk D a h l1 = Some (D', h') -> calls C O stk D a h (l1 ++ l2) = calls C O stk D' a h' l2.
Proof.
  induction l1 as [|[s v] l1 IH]; intros D h D' h' H; cbn [calls app] in *; [injection H as <- <-; reflexivity|].
  destruct (Decode _ _ _ _ _ _ _ _) as [r er D1 h1| | |]; try discriminate. apply IH, H.
Qed.
(** Any number of calls on any documents, up to the first panic. *)
Theorem C73_pointers_any_number_of_calls C O E dis T d stk a (l : list (bytes * jv)) : forall D h g F,
  decoder_for C E dis T d stk D -> boxed d = true -> Forall (fun x => json_text (fst x) (snd x)) l -> variable C (cut d) h a g F ->
  exists l1 l2 D' h' g' F' X, l = l1 ++ l2 /\ calls C O stk D a h l1 = Some (D', h') /\ variable C (cut d) h' a g' F' /\ only h h' (Some a) (dsize (c_w64 C) d) F (F' ++ X) /\
    match l2 with [] => True | x :: _ => Decode C O stk D' (fst x) (TOk (flat 0 (snd x))) (Some a) h' = DPanics end.
Proof.
  induction l as [|[s v] l IH]; intros D h g F Df Sm Js V.
  - exists [], [], D, h, g, F, []. split; [reflexivity|]. split; [reflexivity|]. split; [exact V|]. split; [rewrite app_nil_r; apply only_refl|exact I].
  - apply Forall_cons_iff in Js as [J Js]. cbn [fst snd] in J.
    destruct (C73_with_pointers C O E dis T d stk D s v a h g F Df Sm J V) as [(r & er & D1 & h1 & g1 & F1 & X1 & Q & V1 & Y1 & Df1)|Q].
    + destruct (IH D1 h1 g1 F1 Df1 Sm Js V1) as (l1 & l2 & D' & h' & g' & F' & X & -> & Q' & V' & Y' & P).
      exists ((s, v) :: l1), l2, D', h', g', F', (X ++ X1). split; [reflexivity|]. split; [cbn [calls]; rewrite Q; exact Q'|]. split; [exact V'|].
      split; [rewrite app_assoc; eapply only_trans; [exact Y1|apply only_more, Y']|exact P].
    + exists [], ((s, v) :: l), D, h, g, F, []. split; [reflexivity|]. split; [reflexivity|]. split; [exact V|]. split; [rewrite app_nil_r; apply only_refl|exact Q].
Qed.
(** Without pointers the destination stays a value of its type. *)
Theorem C73_structs_and_arrays C O E dis T d stk D s v a h g F :
  decoder_for C E dis T d stk D -> simple d = true -> json_text s v -> variable C d h a g F ->
  (exists r er D' h' g' F',
    Decode C O stk D s (TOk (flat 0 v)) (Some a) h = Ret r er D' h' /\
    variable C d h' a g' F' /\ only h h' (Some a) (dsize (c_w64 C) d) F F' /\
    decoder_for C E dis T d stk D') \/
  Decode C O stk D s (TOk (flat 0 v)) (Some a) h = DPanics.
Proof.
  intros Df Sm J V. destruct (cut_simple d Sm) as [Ec Bx]. pose proof (C73_with_pointers C O E dis T d stk D s v a h g F Df Bx J) as Q. rewrite Ec in Q.
  destruct (Q V) as [(r & er & D' & h' & g' & F' & X & Q1 & V' & On & Df')|Q1]; [left|right; exact Q1].
  exists r, er, D', h', g', F'. split; [exact Q1|]. split; [exact V'|]. split; [exact (only_less _ _ _ _ _ _ _ On)|exact Df'].
Qed.
(** Any number of calls on any documents, up to the first panic. *)
Theorem C73_any_number_of_calls C O E dis T d stk a (l : list (bytes * jv)) : forall D h g F,
  decoder_for C E dis T d stk D -> simple d = true -> Forall (fun x => json_text (fst x) (snd x)) l -> variable C d h a g F ->
  exists l1 l2 D' h' g' F', l = l1 ++ l2 /\ calls C O stk D a h l1 = Some (D', h') /\ variable C d h' a g' F' /\ only h h' (Some a) (dsize (c_w64 C) d) F F' /\
    match l2 with [] => True | x :: _ => Decode C O stk D' (fst x) (TOk (flat 0 (snd x))) (Some a) h' = DPanics end.
Proof.
  induction l as [|[s v] l IH]; intros D h g F Df Sm Js V.
  - exists [], [], D, h, g, F. split; [reflexivity|]. split; [reflexivity|]. split; [exact V|]. split; [apply only_refl|exact I].
  - apply Forall_cons_iff in Js as [J Js]. cbn [fst snd] in J.
    destruct (C73_structs_and_arrays C O E dis T d stk D s v a h g F Df Sm J V) as [(r & er & D1 & h1 & g1 & F1 & Q & V1 & Y1 & Df1)|Q].
    + destruct (IH D1 h1 g1 F1 Df1 Sm Js V1) as (l1 & l2 & D' & h' & g' & F' & -> & Q' & V' & Y' & P).
      exists ((s, v) :: l1), l2, D', h', g', F'. split; [reflexivity|]. split; [cbn [calls]; rewrite Q; exact Q'|]. split; [exact V'|]. split; [eapply only_trans; eassumption|exact P].
    + exists [], ((s, v) :: l), D, h, g, F. split; [reflexivity|]. split; [reflexivity|]. split; [exact V|]. split; [apply only_refl|exact Q].
Qed.

(** ** Cases *)
(** struct { A [2]struct{ X struct{ C int } }; N string; P struct{ Q struct{ Y int; Z []int8 } } } *)
Definition flat_ty : ty := TStruct 1 64 [(fld0 "A" 0, TArr 2 (TStruct 2 8 [(fld0 "X" 0, TStruct 3 8 [(fld0 "C" 0, tInt)])])); (fld0 "N" 16, TStr);
  (fld0 "P" 32, TStruct 4 32 [(fld0 "Q" 0, TStruct 5 32 [(fld0 "Y" 0, tInt); (fld0 "Z" 8, TSlice tInt8)])])]%Z.
Definition flat_dt : dt := Eval vm_compute in match elab true plain_env false 50 [] flat_ty with Some (d, _) => d | None => DEmpty end.
Definition flat_stk : list frame := Eval vm_compute in stack_of plain_env flat_ty.
(** In the first, the bracket after "u" leaves Q, P and the frame before P: Z is looked up in the root.
    In the second, the same within an element of A: 5 is refused.  The third panics: the bracket is read at the root. *)
Definition flat_text1 : bytes := bs "{""A"":[{""X"":{""C"":3}}],""P"":{""Q"":{""u"":[{""C"":1}],""Z"":[1]}},""N"":""n""}".
Definition flat_text2 : bytes := bs "{""A"":[{""u"":[[{}],5]},{""X"":{""C"":1}}],""N"":""n""}".
Definition flat_text3 : bytes := bs "{""P"":{""u"":[{}]},""N"":""n""}".
Definition flat_docs : list (bytes * jv) := [(flat_text1, tree_of flat_text1); (flat_text2, tree_of flat_text2); (bs "{""N"":""m""}", tree_of (bs "{""N"":""m""}"))].
Example C73_case :
  decoder_for wC plain_env false flat_ty flat_dt flat_stk (dyn0 flat_stk) /\ simple flat_dt = true /\
  Forall (fun x => json_text (fst x) (snd x)) flat_docs /\
  variable wC flat_dt (world (dsize true flat_dt)) (1%nat, 0%Z) (zero flat_dt) [] /\ any_document default_opts flat_dt = false /\
  (exists D' h' g' F', calls wC default_opts flat_stk (dyn0 flat_stk) (1%nat, 0%Z) (world (dsize true flat_dt)) flat_docs = Some (D', h') /\
     variable wC flat_dt h' (1%nat, 0%Z) g' F' /\ only (world (dsize true flat_dt)) h' (Some (1%nat, 0%Z)) (dsize true flat_dt) [] F') /\
  meaningful plain_env flat_ty flat_text3 /\ decode plain_env flat_ty flat_text3 = DPanics.
Proof.
  assert (Df : decoder_for wC plain_env false flat_ty flat_dt flat_stk (dyn0 flat_stk)) by (eapply new_decoder; [apply plain_env_sizes|vm_compute; reflexivity|vm_compute; reflexivity|vm_compute; reflexivity]).
  assert (Js : Forall (fun x => json_text (fst x) (snd x)) flat_docs).
  { repeat constructor; cbn [fst snd]; apply parse_sound; vm_compute; reflexivity. }
  assert (V : variable wC flat_dt (world (dsize true flat_dt)) (1%nat, 0%Z) (zero flat_dt) []).
  { exact (world_rep flat_dt (df_layout _ _ _ _ _ _ _ Df)). }
  split; [exact Df|]. split; [vm_compute; reflexivity|]. split; [exact Js|]. split; [exact V|]. split; [vm_compute; reflexivity|].
  split; [|split; [meaningful|run]].
  destruct (C73_any_number_of_calls wC default_opts plain_env false flat_ty flat_dt flat_stk (1%nat, 0%Z) flat_docs (dyn0 flat_stk) (world (dsize true flat_dt)) (zero flat_dt) [] Df ltac:(vm_compute; reflexivity) Js V)
    as (l1 & l2 & D' & h' & g' & F' & E & Q & V' & Y & P).
  assert (Ca : match calls wC default_opts flat_stk (dyn0 flat_stk) (1%nat, 0%Z) (world (dsize true flat_dt)) flat_docs with Some _ => true | None => false end = true) by (vm_compute; reflexivity).
  rewrite E, (calls_app _ _ _ _ l2 _ _ _ _ _ Q) in Ca. destruct l2 as [|[s v] l2].
  - rewrite app_nil_r in E. rewrite E. exists D', h', g', F'. auto.
  - cbn [calls fst snd] in P, Ca. rewrite P in Ca. discriminate.
Qed.
(** struct { A [2]*struct{ X *int; S *struct{ C int } }; N string; P **struct{ Q [1]int } } *)
Definition boxed_ty : ty := TStruct 1 40 [(fld0 "A" 0, TArr 2 (TPtr (TStruct 2 16 [(fld0 "X" 0, TPtr tInt); (fld0 "S" 8, TPtr (TStruct 3 8 [(fld0 "C" 0, tInt)]))])));
  (fld0 "N" 16, TStr); (fld0 "P" 32, TPtr (TPtr (TStruct 4 8 [(fld0 "Q" 0, TArr 1 tInt)])))]%Z.
Definition boxed_dt : dt := Eval vm_compute in match elab true plain_env false 50 [] boxed_ty with Some (d, _) => d | None => DEmpty end.
Definition boxed_stk : list frame := Eval vm_compute in stack_of plain_env boxed_ty.
(** A pointer is not left after its value (C25_refuted_struct), so that the first two are refused
    half-way; the last panics. *)
Definition boxed_docs : list (bytes * jv) := map (fun t => (t, tree_of t)) [bs "{""A"":[{""X"":1,""S"":{""C"":2}}],""N"":""n""}"; bs "{""A"":[{""S"":{""u"":{},""C"":3}},null],""P"":{""Q"":[1,2]},""N"":""m""}";
  bs "{""N"":""n"",""P"":{""Q"":[1,2]}}"; bs "{""P"":null,""N"":""k""}"].
Definition boxed_text : bytes := bs "{""u"":[{}],""P"":{""u"":[{}],""Q"":[7]}}".
Example C73_pointers_case :
  decoder_for wC plain_env false boxed_ty boxed_dt boxed_stk (dyn0 boxed_stk) /\ boxed boxed_dt = true /\ simple boxed_dt = false /\
  Forall (fun x => json_text (fst x) (snd x)) boxed_docs /\
  variable wC boxed_dt (world (dsize true boxed_dt)) (1%nat, 0%Z) (zero boxed_dt) [] /\
  variable wC (cut boxed_dt) (world (dsize true boxed_dt)) (1%nat, 0%Z) (zero (cut boxed_dt)) [] /\
  (exists D' h' g' F' X, calls wC default_opts boxed_stk (dyn0 boxed_stk) (1%nat, 0%Z) (world (dsize true boxed_dt)) boxed_docs = Some (D', h') /\
     variable wC (cut boxed_dt) h' (1%nat, 0%Z) g' F' /\ only (world (dsize true boxed_dt)) h' (Some (1%nat, 0%Z)) (dsize true boxed_dt) [] (F' ++ X)) /\
  meaningful plain_env boxed_ty boxed_text /\ decode plain_env boxed_ty boxed_text = DPanics.
Proof.
  assert (Df : decoder_for wC plain_env false boxed_ty boxed_dt boxed_stk (dyn0 boxed_stk)) by (eapply new_decoder; [apply plain_env_sizes|vm_compute; reflexivity|vm_compute; reflexivity|vm_compute; reflexivity]).
  assert (Js : Forall (fun x => json_text (fst x) (snd x)) boxed_docs).
  { repeat constructor; cbn [fst snd]; apply parse_sound; vm_compute; reflexivity. }
  assert (V : variable wC boxed_dt (world (dsize true boxed_dt)) (1%nat, 0%Z) (zero boxed_dt) []).
  { exact (world_rep boxed_dt (df_layout _ _ _ _ _ _ _ Df)). }
  assert (Vc : variable wC (cut boxed_dt) (world (dsize true boxed_dt)) (1%nat, 0%Z) (zero (cut boxed_dt)) []).
  { rewrite <- (cut_size true boxed_dt). apply world_rep. apply (cut_layout true), (df_layout _ _ _ _ _ _ _ Df). }
  split; [exact Df|]. split; [vm_compute; reflexivity|]. split; [vm_compute; reflexivity|]. split; [exact Js|]. split; [exact V|]. split; [exact Vc|].
  split; [|split; [meaningful|run]].
  destruct (C73_pointers_any_number_of_calls wC default_opts plain_env false boxed_ty boxed_dt boxed_stk (1%nat, 0%Z) boxed_docs (dyn0 boxed_stk) (world (dsize true boxed_dt)) (zero (cut boxed_dt)) [] Df ltac:(vm_compute; reflexivity) Js Vc)
    as (l1 & l2 & D' & h' & g' & F' & X & E & Q & V' & Y & P).
  assert (Ca : match calls wC default_opts boxed_stk (dyn0 boxed_stk) (1%nat, 0%Z) (world (dsize true boxed_dt)) boxed_docs with Some _ => true | None => false end = true) by (vm_compute; reflexivity).
  rewrite E, (calls_app _ _ _ _ l2 _ _ _ _ _ Q) in Ca. destruct l2 as [|[s v] l2].
  - rewrite app_nil_r in E. rewrite E. exists D', h', g', F', X. auto.
  - cbn [calls fst snd] in P, Ca. rewrite P in Ca. discriminate.
Qed.
(** C16: neither pointers nor structs in lists are needed for an unknown member to corrupt
    memory: struct { A [][]int; P struct{ Q struct{ C int } } }.  The "]" of the member "u"
    leaves P for the frame before it, that of the elements of A[i]: 5 is appended there.
    Without "A" in the document this frame is unused, and the call panics. *)
Definition T_lists := TStruct 1 32 [(fld0 "A" 0, TSlice (TSlice tInt)); (fld0 "P" 24, TStruct 2 8 [(fld0 "Q" 0, TStruct 3 8 [(fld0 "C" 0, tInt)])])]%Z.
Theorem C16_refuted_unknown_array :
  (meaningful noenv T_lists (bs "{""A"":[[1]],""P"":{""Q"":{""u"":[[{}],[5]]}}}") /\ decode noenv T_lists (bs "{""A"":[[1]],""P"":{""Q"":{""u"":[[{}],[5]]}}}") = DCorrupts) /\
  (meaningful noenv T_lists (bs "{""P"":{""Q"":{""u"":[[{}],[5]]}}}") /\ decode noenv T_lists (bs "{""P"":{""Q"":{""u"":[[{}],[5]]}}}") = DPanics).
Proof. split; (split; [meaningful|run]). Qed.

(** C30, C31, C32: NewDecoder on every Go type.

    [append w64 E disallow fuel [] T] models NewDecoder for type [T] with the option
    DisallowStringTagOptOnUnsupportedTypes = [disallow]: [AOk stk] success,
    [AErrStringTag] ErrStringTagOptionOnUnsupportedType, [AErrUnsupported] an unsupported
    type, [APanic] a panic, and [AFuel] for every [fuel]: it does not return. *)
From Verif Require Import Base NumSpec Lookup Types AppendType Token FloatLit Heap Machine Parse World Dt Elab Elaborate Frames Graph Layout.
Open Scope Z_scope.

(** NewDecoder returns [r]. *)
Definition returns (w64 : bool) (E : env) (disallow : bool) (T : ty) (r : ares) : Prop :=
  r <> AFuel /\ exists fuel, append w64 E disallow fuel [] T = r.
(** [r] is then the only outcome. *)
Lemma returns_one w64 E disallow T r r' : returns w64 E disallow T r -> returns w64 E disallow T r' -> r = r'.
Proof.
  intros [N (n & H)] [N' (n' & H')]. pose proof (append_fuel w64 E disallow n [] T n') as A. pose proof (append_fuel w64 E disallow n' [] T n) as A'.
  rewrite H in A. rewrite H' in A'. specialize (A N). specialize (A' N'). rewrite Nat.add_comm in A'. congruence.
Qed.
Definition diverges (w64 : bool) (E : env) (disallow : bool) (T : ty) : Prop :=
  forall fuel, append w64 E disallow fuel [] T = AFuel.

(** ** C32: the `string` option *)
Section StringTag.
Variables (w64 : bool) (E : env).
(** Without the option of the decoder there is no such error. *)
Theorem C32_allowed T : ~ returns w64 E false T AErrStringTag.
Proof. intros [_ (n & H)]. pose proof (append_cause w64 E false n [] T) as Q. rewrite H in Q. destruct Q as [Q _]. discriminate. Qed.
(** With it, the error is reported only if some field of some type that the decoder looks
    at has the `string` option and is not a string, bool, integer or float... *)
Theorem C32_error_justified T : returns w64 E true T AErrStringTag -> exists U, reaches w64 E T U /\ misquotes E U.
Proof. intros [_ (n & H)]. pose proof (append_cause w64 E true n [] T) as Q. rewrite H in Q. apply Q. Qed.
(** ... and no such type is accepted. *)
Theorem C32_no_misquote_accepted T U stk : coherent w64 E T -> reaches w64 E T U -> misquotes E U -> ~ returns w64 E true T (AOk stk).
Proof.
  intros Co R M [_ (n & H)]. apply append_app in H. destruct (app_closed w64 E true T stk Co H U R) as [N _]. apply N; [reflexivity|exact M].
Qed.
(** So: for a type without parts of unsupported kinds, on which NewDecoder returns. *)
Theorem C32_error_iff T r : coherent w64 E T -> (forall U, reaches w64 E T U -> ~ rejected E U) -> returns w64 E true T r ->
  (r = AErrStringTag <-> exists U, reaches w64 E T U /\ misquotes E U).
Proof.
  intros Co NR R. split.
  - intros ->. apply C32_error_justified, R.
  - intros (U & RU & M). destruct R as [N (n & H)]. pose proof (append_cause w64 E true n [] T) as Q. rewrite H in Q. destruct r as [stk| | | |].
    + exfalso. eapply (C32_no_misquote_accepted T U stk Co RU M). split; [discriminate|exists n; exact H].
    + destruct Q as (V & RV & J). exfalso. exact (NR V RV J).
    + reflexivity.
    + destruct Q as (V & RV & J). exfalso. exact (NR V RV J).
    + congruence.
Qed.
End StringTag.

(** ** C31: termination *)
Fixpoint subs (T : ty) : list ty :=
  T :: match T with
       | TArr _ U | TSlice U | TPtr U => subs U
       | TMap K V => subs K ++ subs V
       | TStruct _ _ fs => (fix go fs := match fs with [] => [] | x :: r => subs (snd x) ++ go r end) fs
       | _ => []
       end.
Fixpoint subs_fields (fs : list (fld * ty)) : list ty := match fs with [] => [] | x :: r => subs (snd x) ++ subs_fields r end.
Definition kids (T : ty) : list ty :=
  match T with
  | TArr _ U | TSlice U | TPtr U => [U]
  | TMap K V => [K; V]
  | TStruct _ _ fs => map snd fs
  | _ => []
  end.
Lemma subs_self T : In T (subs T).
Proof. destruct T; left; reflexivity. Qed.
Lemma subs_fields_in fs f U : In (f, U) fs -> forall V, In V (subs U) -> In V (subs_fields fs).
Proof. induction fs as [|x fs IH]; intros []; intros V HV; cbn; apply in_or_app; [subst x; left; exact HV|right; eapply IH; eassumption]. Qed.
Lemma subs_closed T : forall U V, In U (subs T) -> In V (kids U) -> In V (subs T).
Proof.
  assert (Step : forall T, (forall U V, In U (tl (subs T)) -> In V (kids U) -> In V (tl (subs T))) -> (forall V, In V (kids T) -> In V (tl (subs T))) ->
    forall U V, In U (subs T) -> In V (kids U) -> In V (subs T)).
  { intros X H1 H2 U V HU HV. assert (subs X = X :: tl (subs X)) as Ex by (destruct X; reflexivity). rewrite Ex in *. right. destruct HU as [<-|HU]; [apply H2, HV|eapply H1; eassumption]. }
  induction T as [| | | | | | | |n t IH|t IH|k v IHk IHv|t IH|id z fs IH|i] using ty_ind'; apply Step; cbn [subs tl kids]; try (intros; contradiction); try exact IH.
  - intros V [<-|[]]. apply subs_self.
  - intros V [<-|[]]. apply subs_self.
  - intros U V HU HV. apply in_app_or in HU as [HU|HU]; apply in_or_app; eauto.
  - intros V [<-|[<-|[]]]; apply in_or_app; auto using subs_self.
  - intros V [<-|[]]. apply subs_self.
  - change (forall U V, In U (subs_fields fs) -> In V (kids U) -> In V (subs_fields fs)). induction IH as [|x fs Hx _ IHf]; intros U V HU HV; [destruct HU|].
    cbn in *. apply in_app_or in HU as [HU|HU]; apply in_or_app; eauto.
  - change (forall V, In V (map snd fs) -> In V (subs_fields fs)). intros V HV. apply in_map_iff in HV as ([f U] & <- & HI). eapply subs_fields_in; [exact HI|apply subs_self].
Qed.

Section Termination.
Variables (w64 : bool) (E : env) (disallow : bool).
Lemma visits_kid T V : visits w64 E T V -> In V (kids (under E T)).
Proof.
  intros [n _ H|_ H _|W _ H _|K _ H _|_ H|f name q _ (id & z & l & H & I & _)]; rewrite H; cbn; auto. apply in_map_iff. exists (f, V). auto.
Qed.
(** A program has finitely many named types; [n] bounds those used by [T]. *)
Definition named_below (n : nat) (T : ty) : Prop := forall i, reaches w64 E T (TNamed i) -> (i < n)%nat.
Lemma reach_list n T : named_below n T -> exists L, forall U, reaches w64 E T U -> In U L.
Proof.
  intros B. exists (subs T ++ flat_map (fun i => subs (d_under (E i))) (seq 0 n)). intros U R.
  set (L := subs T ++ flat_map (fun i => subs (d_under (E i))) (seq 0 n)).
  assert (Cl : forall X Y, In X L -> In Y (kids X) -> In Y L).
  { intros X Y HX HY. unfold L in *. apply in_app_or in HX as [HX|HX]; apply in_or_app; [left; eapply subs_closed; eassumption|right].
    apply in_flat_map in HX as (i & Hi & HX). apply in_flat_map. exists i. split; [exact Hi|eapply subs_closed; eassumption]. }
  induction R as [|U V R IH Vi]; [apply in_or_app; left; apply subs_self|]. apply visits_kid in Vi.
  destruct U; cbn [under] in Vi; try (eapply Cl; [exact IH|exact Vi]). eapply Cl; [|exact Vi]. apply in_or_app. right. apply in_flat_map. exists id.
  split; [apply in_seq; specialize (B id R); lia|apply subs_self].
Qed.
Lemma finite_ids n T : named_below n T -> exists ids, forall U r, reaches w64 E T U -> identity E U = Some r -> In r ids.
Proof.
  intros B. destruct (reach_list n T B) as [L HL]. exists (flat_map (fun U => match identity E U with Some r => [r] | None => [] end) L).
  intros U r R I. apply in_flat_map. exists U. split; [apply HL, R|]. rewrite I. left. reflexivity.
Qed.

(** NewDecoder returns if every type it looks at is grounded: there is no infinite chain
    of types that does not pass, behind a pointer, slice or map, through a struct (of
    positive size).  In particular recursive structs are fine. *)
Theorem C31_terminates n T : named_below n T -> (forall U, reaches w64 E T U -> grounded w64 E U) -> exists r, returns w64 E disallow T r.
Proof.
  intros B G. destruct (finite_ids n T B) as [ids F]. destruct (grounded_settles w64 E disallow T ids F G) as [fuel H].
  exists (append w64 E disallow fuel [] T). split; [exact H|exists fuel; reflexivity].
Qed.
(** And only then, unless it finds an error first. *)
Theorem C31_accepted_grounded T stk : coherent w64 E T -> returns w64 E disallow T (AOk stk) -> forall U, reaches w64 E T U -> grounded w64 E U.
Proof.
  intros Co [_ (n & H)] U R. apply append_app in H. destruct (app_closed w64 E disallow T stk Co H U R) as (_ & a & b & Ap).
  destruct (app_grounded w64 E disallow) as [G _]. eapply G, Ap.
Qed.
Theorem C31_diverges T U : coherent w64 E T -> reaches w64 E T U -> ~ grounded w64 E U ->
  (forall V, reaches w64 E T V -> ~ rejected E V) -> (disallow = true -> forall V, reaches w64 E T V -> ~ misquotes E V) -> diverges w64 E disallow T.
Proof.
  intros Co R NG NR NM fuel. pose proof (append_cause w64 E disallow fuel [] T) as Q. destruct (append w64 E disallow fuel [] T) as [stk| | | |] eqn:H; [| | | |reflexivity]; exfalso.
  - apply NG. eapply C31_accepted_grounded; [exact Co|split; [|exists fuel; exact H]; discriminate|exact R].
  - destruct Q as (V & RV & J). exact (NR V RV J).
  - destruct Q as (D & V & RV & J). exact (NM D V RV J).
  - destruct Q as (V & RV & J). exact (NR V RV J).
Qed.
(** The exact condition for types without errors. *)
Theorem C31_returns_iff n T : coherent w64 E T -> named_below n T ->
  (forall V, reaches w64 E T V -> ~ rejected E V) -> (disallow = true -> forall V, reaches w64 E T V -> ~ misquotes E V) ->
  ((exists r, returns w64 E disallow T r) <-> forall U, reaches w64 E T U -> grounded w64 E U).
Proof.
  intros Co B NR NM. split; [|apply (C31_terminates n), B]. intros (r & N & fuel & H) U R.
  pose proof (append_cause w64 E disallow fuel [] T) as Q. rewrite H in Q. destruct r as [stk| | | |].
  - eapply C31_accepted_grounded; [exact Co|split; [exact N|exists fuel; exact H]|exact R].
  - destruct Q as (V & RV & J). destruct (NR V RV J).
  - destruct Q as (D & V & RV & J). destruct (NM D V RV J).
  - destruct Q as (V & RV & J). destruct (NR V RV J).
  - congruence.
Qed.
(** When NewDecoder fails or panics there is a type it cannot handle. *)
Theorem C31_errors_justified T r : returns w64 E disallow T r ->
  match r with
  | AErrUnsupported | APanic => exists U, reaches w64 E T U /\ rejected E U
  | _ => True
  end.
Proof. intros [_ (n & H)]. pose proof (append_cause w64 E disallow n [] T) as Q. rewrite H in Q. destruct r; exact I || exact Q. Qed.
End Termination.

(** ** C30: the frames *)
Section LayoutProps.
Variables (w64 : bool) (E : env) (disallow : bool).
(** Every type that NewDecoder accepts, recursive or not: the frames are laid out as the
    type says (Layout.v, [laid]), and the struct frames that recursive pointers, slices
    and maps refer to are laid out frames of exactly the element type. *)
Theorem C30_layout T stk : sizes_ok w64 E -> coherent w64 E T -> elements_plain w64 E T ->
  returns w64 E disallow T (AOk stk) ->
  laid w64 E stk None 0 0 false T 0 (length stk) /\
  forall t U, reaches w64 E T U -> target E stk t U -> exists par off cap q j, laid w64 E stk par off cap q U t j.
Proof.
  intros Sz Co El [_ (n & H)]. destruct (append_layout w64 E disallow T El Sz n stk H) as [L C]. split; [exact L|].
  intros t U R (f & r & Hf & Tf & Id & Rt). assert (Ht : (t < length stk)%nat) by (apply nth_error_Some; congruence).
  destruct (C t f ltac:(lia) Hf Tf) as (V & par & off & cap & q & j & RV & LV & IV).
  assert (U = V) as ->; [|exists par, off, cap, q, j; exact LV]. rewrite Rt in IV. clear - Id IV R RV Co.
  destruct U as [| | | | | | | | | | | |uid uz ul|ui]; cbn in Id; try discriminate; destruct V as [| | | | | | | | | | | |wid wz wl|wi]; cbn in IV; try discriminate.
  - assert (uid = wid) as -> by congruence. eapply Co; eassumption.
  - destruct (d_under (E wi)); congruence.
  - destruct (d_under (E ui)); congruence.
  - destruct (d_under (E ui)); try discriminate. destruct (d_under (E wi)); try discriminate. congruence.
Qed.

Variable stk : list frame.
Notation laid := (Layout.laid w64 E stk).
(** Consequences.  The frames form a tree whose parents precede their children. *)
Definition in_tree (lo hi : nat) (par : option nat) : Prop :=
  (lo < hi)%nat /\ (exists f, nth_error stk lo = Some f /\ f_parent f = par) /\
  forall k, (lo < k < hi)%nat -> exists f p, nth_error stk k = Some f /\ f_parent f = Some p /\ (lo <= p < k)%nat.
Lemma in_tree_one lo e par off cap sz more : frame_is stk lo e par off cap sz more -> in_tree lo (S lo) par.
Proof. intros (f & Hf & _ & P & _). split; [lia|]. split; [eauto|]. intros k Hk. lia. Qed.
Lemma in_tree_cons lo hi e par off cap sz more : frame_is stk lo e par off cap sz more -> in_tree (S lo) hi (Some lo) -> in_tree lo hi par.
Proof.
  intros (f & Hf & _ & P & _) (L & (g & Hg & Pg) & K). split; [lia|]. split; [eauto|]. intros k Hk. destruct (Nat.eq_dec k (S lo)) as [->|]; [exists g, lo; repeat split; auto|].
  destruct (K k ltac:(lia)) as (f' & p & H1 & H2 & H3). exists f', p. repeat split; auto; lia.
Qed.
Lemma laid_tree : (forall par off cap q T i j, laid par off cap q T i j -> in_tree i j par) /\
  (forall p l fs i j, laid_fields w64 E stk p l fs i j -> (p < i)%nat -> (i <= j)%nat /\ forall k, (i <= k < j)%nat -> exists f p', nth_error stk k = Some f /\ f_parent f = Some p' /\ (p <= p' < k)%nat).
Proof.
  apply laid_mut; intros; try (eapply in_tree_one; eassumption); try (eapply in_tree_cons; eassumption).
  - (* map *) destruct H as (L1 & (f1 & Hf1 & P1) & K1), H0 as (L2 & (f2 & Hf2 & P2) & K2). destruct f as (g & Hg & _ & Pg & _). split; [lia|]. split; [eauto|].
    intros m Hm. destruct (Nat.lt_ge_cases m j) as [Hl|Hl].
    + destruct (Nat.eq_dec m (S i)) as [->|]; [exists f1, i; repeat split; auto; lia|]. destruct (K1 m ltac:(lia)) as (x & p' & X1 & X2 & X3). exists x, p'. repeat split; auto; lia.
    + destruct (Nat.eq_dec m j) as [->|]; [exists f2, i; repeat split; auto; lia|]. destruct (K2 m ltac:(lia)) as (x & p' & X1 & X2 & X3). exists x, p'. repeat split; auto; lia.
  - (* struct *) destruct (H ltac:(lia)) as [L K]. destruct f as (g & Hg & _ & Pg & _). split; [lia|]. split; [eauto|]. intros m Hm. destruct (K m ltac:(lia)) as (x & p' & X1 & X2 & X3). exists x, p'. repeat split; auto; lia.
  - split; [lia|]. intros k Hk. lia.
  - auto.
  - destruct H as (L1 & (f1 & Hf1 & P1) & K1). destruct (H0 ltac:(lia)) as [L2 K2]. split; [lia|]. intros m Hm. destruct (Nat.lt_ge_cases m j) as [Hl|Hl].
    + destruct (Nat.eq_dec m i) as [->|]; [exists f1, p; repeat split; auto; lia|]. destruct (K1 m ltac:(lia)) as (x & p' & X1 & X2 & X3). exists x, p'. repeat split; auto; lia.
    + destruct (K2 m ltac:(lia)) as (x & p' & X1 & X2 & X3). exists x, p'. repeat split; auto; lia.
Qed.
(** The value frame of a map is two behind the map frame if the key is of a string or
    integer kind or has a text unmarshaler: Decode looks for it there. *)
Theorem C30_map_value_frame par off cap q T K V i j : plain E T -> under E T = TMap K V -> laid par off cap q T i j ->
  (calls_text E K (match K with TNamed k => RNamed k | _ => ROther end) \/ plain E K /\ (under E K = TStr \/ exists k, under E K = TInt k)) ->
  (exists f, nth_error stk i = Some f /\ f_ty f = EMap) -> laid (Some i) 0 0 false V (S (S i)) j.
Proof.
  intros Pl Un L Hk (f0 & Hf0 & Tf0).
  assert (One : forall par off cap q m, laid par off cap q K (S i) m -> m = S (S i)).
  { intros par' off' cap' q' m Lk. destruct Hk as [Hk|[Pk Hk]].
    - destruct K as [| | | | | | | | | | |t| |k]; cbn in Hk; try contradiction; [destruct t; try contradiction; destruct Hk as (_ & _ & X); discriminate|].
      destruct Hk as (J & X & _). inversion Lk; subst; try reflexivity; try (match goal with H : plain E _ |- _ => cbn in H; destruct H; congruence end).
    - inversion Lk; subst; try reflexivity; destruct Hk as [Hk|[k Hk]]; congruence. }
  assert (Fr : forall e sz more, frame_is stk i e par off cap sz more -> e = EMap).
  { intros e sz more (f & Hf & Tf & _). rewrite Hf0 in Hf. injection Hf as <-. congruence. }
  destruct L as [par off cap q T r i C F|par off cap q T r i C F|par off cap q T e i Sg F|par off cap q T n U i j P U' F L|par off cap q T U i j P U' N F L
    |par off cap q T U i P U' N F|par off cap q T U i j P U' F L|par off cap q T U i P U' F|par off cap q T K' V' i j k P U' N F L1 L2|par off cap q T K' V' i j P U' F L
    |par off cap q T r id z l e fs i j P U' N Id He F Lf]; try (apply Fr in F; discriminate).
  - destruct Sg as [_ Sg]. rewrite Un in Sg. destruct Sg as (_ & _ & ->). apply Fr in F. destruct q; discriminate.
  - rewrite Un in U'. injection U' as <- <-. apply One in L1. subst j. exact L2.
  - congruence.
Qed.
End LayoutProps.

Theorem C30_tree w64 E disallow T stk : sizes_ok w64 E -> coherent w64 E T -> elements_plain w64 E T ->
  returns w64 E disallow T (AOk stk) ->
  (exists f, nth_error stk 0 = Some f /\ f_parent f = None) /\
  forall k, (0 < k < length stk)%nat -> exists f p, nth_error stk k = Some f /\ f_parent f = Some p /\ (p < k)%nat.
Proof.
  intros Sz Co El R. destruct (C30_layout w64 E disallow T stk Sz Co El R) as [L _]. destruct (proj1 (laid_tree w64 E stk) _ _ _ _ _ _ _ L) as (_ & H & K). split; [exact H|].
  intros k Hk. destruct (K k Hk) as (f & p & H1 & H2 & H3). exists f, p. repeat split; auto; lia.
Qed.

(** ** Concrete types *)
Lemma reaches_in w64 E L T : In T L -> (forall X, In X L -> incl (kids (under E X)) L) -> forall U, reaches w64 E T U -> In U L.
Proof. intros H C U R. induction R as [|U V R IH Vi]; [exact H|]. eapply C; [exact IH|apply visits_kid with (w64 := w64), Vi]. Qed.
Ltac in_list H := cbn in H; repeat match type of H with _ \/ _ => destruct H as [H|H] end; [subst..|contradiction].

(** type Node struct { V int `json:",string"`; Next *Node; Kids []Node; M map[string]Node }
    type Bad struct { Next *Bad; B []int `json:"b,string"` }
    type Loop []Loop *)
Definition tStr := TStr.
Definition E_types : env := fun i =>
  match i with
  | 0%nat => Decl (TStruct 0 48 [(tagged "V" ",string" 0, tInt); (fld0 "Next" 8, TPtr (TNamed 0)); (fld0 "Kids" 16, TSlice (TNamed 0)); (fld0 "M" 40, TMap tStr (TNamed 0))]) 48 SNone SNone
  | 1%nat => Decl (TStruct 1 32 [(fld0 "Next" 0, TPtr (TNamed 1)); (tagged "B" "b,string" 8, TSlice tInt)]) 32 SNone SNone
  | 2%nat => Decl (TSlice (TNamed 2)) 24 SNone SNone
  | _ => Decl TOther 8 SNone SNone
  end.
Definition L_node : list ty := [TNamed 0; tInt; TPtr (TNamed 0); TSlice (TNamed 0); TMap tStr (TNamed 0); tStr].
Definition L_bad : list ty := [TNamed 1; TPtr (TNamed 1); TSlice tInt; tInt].
Definition L_loop : list ty := [TNamed 2].
Lemma node_reaches U : reaches true E_types (TNamed 0) U -> In U L_node.
Proof. apply reaches_in; [left; reflexivity|]. intros X HX V HV. in_list HX; cbn in HV |- *; intuition (subst; auto 10). Qed.
Lemma bad_reaches U : reaches true E_types (TNamed 1) U -> In U L_bad.
Proof. apply reaches_in; [left; reflexivity|]. intros X HX V HV. in_list HX; cbn in HV |- *; intuition (subst; auto 10). Qed.
Lemma loop_reaches U : reaches true E_types (TNamed 2) U -> In U L_loop.
Proof. apply reaches_in; [left; reflexivity|]. intros X HX V HV. in_list HX; cbn in HV |- *; intuition (subst; auto 10). Qed.
Lemma types_sizes : sizes_ok true E_types.
Proof. intros [|[|[|i]]]; reflexivity. Qed.
Lemma node_coherent : coherent true E_types (TNamed 0).
Proof. intros id z l z' l' H. apply node_reaches in H. cbn in H. intuition discriminate. Qed.
Lemma bad_coherent : coherent true E_types (TNamed 1).
Proof. intros id z l z' l' H. apply bad_reaches in H. cbn in H. intuition discriminate. Qed.
Lemma loop_coherent : coherent true E_types (TNamed 2).
Proof. intros id z l z' l' H. apply loop_reaches in H. cbn in H. intuition discriminate. Qed.
Lemma node_elements : elements_plain true E_types (TNamed 0).
Proof. intros U V H Pl Un _. apply node_reaches in H. in_list H; cbn in Un; destruct Un as [Un|[[K Un]|Un]]; try discriminate; injection Un as; subst; split; reflexivity. Qed.
Lemma node_grounded U : reaches true E_types (TNamed 0) U -> grounded true E_types U.
Proof.
  intros H. apply node_reaches in H.
  assert (G1 : grounded true E_types tInt) by (constructor; intros V D; apply direct_kids in D; contradiction).
  assert (G2 : grounded true E_types tStr) by (constructor; intros V D; apply direct_kids in D; contradiction).
  assert (Cu : forall (V : ty), (forall r, ~ cuttable true E_types (TNamed 0) r) -> False) by (intros V N; apply (N (RNamed 0)); split; reflexivity).
  assert (G3 : grounded true E_types (TPtr (TNamed 0))) by (constructor; intros V D; apply direct_kids in D; cbn in D; destruct D as [_ D]; destruct (Cu V D)).
  assert (G4 : grounded true E_types (TSlice (TNamed 0))) by (constructor; intros V D; apply direct_kids in D; cbn in D; destruct D as [_ D]; destruct (Cu V D)).
  assert (G5 : grounded true E_types (TMap tStr (TNamed 0))) by (constructor; intros V D; apply direct_kids in D; cbn in D; destruct D as [[->|[_ D]] _]; [exact G2|destruct (Cu V D)]).
  in_list H; try assumption. constructor. intros V D. apply direct_kids in D. cbn in D. destruct D as (f & nm & q & I & _). destruct I as [I|[I|[I|[I|[]]]]]; injection I as; subst; assumption.
Qed.
Example C31_case : (exists r, returns true E_types true (TNamed 0) r) /\ named_below true E_types 1 (TNamed 0) /\
  (forall U, reaches true E_types (TNamed 0) U -> grounded true E_types U).
Proof.
  assert (B : named_below true E_types 1 (TNamed 0)) by (intros i H; apply node_reaches in H; cbn in H; intuition (try discriminate); match goal with H : TNamed _ = TNamed _ |- _ => injection H as <-; lia end).
  split; [|split; [exact B|exact node_grounded]]. eapply C31_terminates; [exact B|exact node_grounded].
Qed.
(** type Loop []Loop: NewDecoder does not return, by the general criterion. *)
Example C31_diverges_case : diverges true E_types true (TNamed 2).
Proof.
  assert (D : direct true E_types (TNamed 2) (TNamed 2)).
  { apply d_slice; [split; reflexivity|reflexivity|cbn; auto|]. intros r [Id _]. discriminate. }
  eapply (C31_diverges true E_types true (TNamed 2) (TNamed 2)); [exact loop_coherent|constructor| | |].
  - assert (NG : forall X, grounded true E_types X -> X <> TNamed 2). { intros X G. induction G as [X _ IH]. intros ->. exact (IH _ D eq_refl). } intros G. exact (NG _ G eq_refl).
  - intros V H [_ R]. apply loop_reaches in H. in_list H. exact R.
  - intros _ V H (_ & f & U & nm & (id & z & l & Un & _) & _). apply loop_reaches in H. in_list H. discriminate.
Qed.
Example C32_case : coherent true E_types (TNamed 1) /\ returns true E_types true (TNamed 1) AErrStringTag /\
  (exists stk, returns true E_types false (TNamed 1) (AOk stk)) /\ (exists U, reaches true E_types (TNamed 1) U /\ misquotes E_types U).
Proof.
  split; [exact bad_coherent|]. split; [split; [discriminate|exists 10%nat; vm_compute; reflexivity]|]. split.
  - eexists. split; [|exists 10%nat; vm_compute; reflexivity]. discriminate.
  - apply (C32_error_justified true E_types). split; [discriminate|exists 10%nat; vm_compute; reflexivity].
Qed.
Example C30_case : sizes_ok true E_types /\ coherent true E_types (TNamed 0) /\ elements_plain true E_types (TNamed 0) /\
  (exists stk, returns true E_types true (TNamed 0) (AOk stk) /\ length stk = 6%nat /\
     exists f, nth_error stk 2 = Some f /\ f_ty f = EPtrRecur /\ f_off f = 8 /\ f_parent f = Some 0%nat /\ target E_types stk (f_recur f) (TNamed 0)).
Proof.
  split; [exact types_sizes|]. split; [exact node_coherent|]. split; [exact node_elements|].
  eexists. split; [split; [|exists 10%nat; vm_compute; reflexivity]; discriminate|]. split; [reflexivity|]. eexists. split; [reflexivity|]. repeat split.
  eexists _, (RNamed 0). repeat split.
Qed.

(** ** Confusion of structs with unmarshalers *)
(** type J struct { X int }, with an UnmarshalJSON method; struct { A J; B []J } *)
Definition E_conf : env := fun i =>
  match i with
  | 0%nat => Decl (TStruct 0 8 [(fld0 "X" 0, tInt)]) 8 SSome SNone
  | _ => Decl TOther 8 SNone SNone
  end.
Definition T_conf (withB : bool) := TStruct 1 32 ((fld0 "A" 0, TNamed 0) :: if withB then [(fld0 "B" 8, TSlice (TNamed 0))] else []).
(** The frame of A should be that of a JSON unmarshaler; it is once the field B is gone. *)
Theorem C30_refuted :
  (exists stk f, returns true E_conf false (T_conf true) (AOk stk) /\ nth_error stk 1 = Some f /\ f_ty f = EStructRecur /\ f_fields f = []) /\
  (exists stk f, returns true E_conf false (T_conf false) (AOk stk) /\ nth_error stk 1 = Some f /\ f_ty f = EJSON).
Proof.
  split; (eexists _, _; split; [split; [|exists 10%nat; vm_compute; reflexivity]; discriminate|]); (split; [reflexivity|]); repeat split.
Qed.
(** As a consequence neither A nor the elements of B are passed to UnmarshalJSON: the text
    {"A":{"X":1},"B":[{"X":2}]} leaves zeroes, without an error. *)
Theorem C36_refuted_confusion :
  let s := bs "{""A"":{""X"":1},""B"":[{""X"":2}]}" in
  meaningful E_conf (T_conf true) s /\
  obs (decode E_conf (T_conf true) s) [(1%nat, 0); (1%nat, 8); (2%nat, 0)] = Some (-1, None, [Some CZero; Some (CSlice (2%nat, 0) 1 1); Some CZero]) /\
  obs (decode E_conf (T_conf false) (bs "{""A"":{""X"":1}}")) [(1%nat, 0)] = Some (-1, None, [Some (CUser (bs "{""X"":1}"))]).
Proof. split; [meaningful|]. split; vm_compute; reflexivity. Qed.

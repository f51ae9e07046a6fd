(** NewDecoder explores the types it reaches: errors, completeness, termination. *)
From Verif Require Import Base Lookup Types AppendType Dt Elab Elaborate Frames.
Open Scope Z_scope.

Section Graph.
Variables (w64 : bool) (E : env) (disallow : bool).
Notation append := (AppendType.append w64 E disallow).
Notation visits := (Frames.visits w64 E).
Notation reaches := (Frames.reaches w64 E).
Notation app := (Frames.app w64 E disallow).
Notation app_fields := (Frames.app_fields w64 E disallow).
Notation fields_loop := (Elab.fields_loop w64 E disallow).

(** ** Errors have a cause *)
Definition cause (T : ty) (r : ares) : Prop :=
  match r with
  | AErrStringTag => disallow = true /\ exists U, reaches T U /\ misquotes E U
  | AErrUnsupported | APanic => exists U, reaches T U /\ rejected E U
  | _ => True
  end.
Lemma cause_child T U r : visits T U -> (forall stk, r <> AOk stk) -> cause U r -> cause T r.
Proof.
  intros V N. destruct r; cbn; try (intros; exact I).
  - intros (X & R & H). exists X. split; [eapply reaches_first; eassumption|exact H].
  - intros (D & X & R & H). split; [exact D|]. exists X. split; [eapply reaches_first; eassumption|exact H].
  - intros (X & R & H). exists X. split; [eapply reaches_first; eassumption|exact H].
Qed.
Lemma append_cause fuel : forall stk T, cause T (append fuel stk T).
Proof.
  induction fuel as [|fuel IH]; intros stk T; [exact I|]. cbn [AppendType.append].
  destruct (json_support E T) as [r|] eqn:Ej; [exact I|]. destruct (text_support E T) as [r|] eqn:Et; [exact I|].
  pose proof (supports_plain E T Ej Et) as Pl.
  assert (Ch : forall stk U (k : list frame -> ares), visits T U -> (forall stk, cause T (k stk)) -> cause T (match append fuel stk U with AOk stk' => k stk' | r => r end)).
  { intros stk0 U k V K. pose proof (IH stk0 U) as Q. destruct (append fuel stk0 U); try apply K; (eapply cause_child; [exact V|discriminate|exact Q]). }
  assert (Rj : match under E T with TOther | TIfaceM | TNamed _ => True | _ => False end -> exists U, reaches T U /\ rejected E U).
  { intros H. exists T. split; [constructor|split; assumption]. }
  destruct (under E T) as [| | |k|b| | | |n U|U|K V|U|id z l|i] eqn:Eu; try exact I; try (apply Rj; exact I).
  - destruct n as [|n]; [exact I|]. apply Ch; [eapply v_arr; eassumption|intros; exact I].
  - destruct (slice_fast w64 E U) eqn:Es; [exact I|]. apply slice_fast_none in Es. destruct (find_recur w64 E stk U); [exact I|].
    apply Ch; [apply v_slice; assumption|intros; exact I].
  - destruct (find_recur w64 E stk V) as [i|] eqn:Ef.
    + apply Ch; [eapply v_key; [exact Pl|exact Eu|]|intros; exact I]. intros [_ S].
      destruct (find_recur_some w64 E _ _ _ Ef) as (_ & r & _ & _ & I & _). clear - S I. destruct V; cbn in *; try discriminate; destruct S as [S|S]; cbn in S; try discriminate; rewrite S in I; discriminate.
    + destruct (kind_string E K && kind_string E V) eqn:Ek; [exact I|]. apply not_both in Ek.
      apply Ch; [eapply v_key; eassumption|]. intros s1. apply Ch; [eapply v_val; eassumption|intros; exact I].
  - destruct (find_recur w64 E stk U); [exact I|]. apply Ch; [apply v_ptr; assumption|intros; exact I].
  - destruct l as [|x l]; [exact I|].
    assert (G : forall l' p stk, (forall y, In y l' -> In y (x :: l)) -> cause T (fields_loop fuel p l' stk)).
    { clear stk. induction l' as [|[f U] l' IHl]; intros p stk Sub; [exact I|]. cbn [Elab.fields_loop].
      pose proof (name_spec f) as Nf. destruct (field_name f) as [[name q]|]; [|apply IHl; intros y Hy; apply Sub; right; exact Hy].
      assert (Hf : has_field E T f U name q) by (exists id, z, (x :: l); split; [exact Eu|split; [apply Sub; left; reflexivity|exact Nf]]).
      assert (V : visits T U) by (eapply v_field; eassumption).
      pose proof (IH stk U) as Q. destruct (append fuel stk U) as [stk1| | | |] eqn:E1; try (eapply cause_child; [exact V|discriminate|exact Q]).
      assert (Rest : forall p s, cause T (fields_loop fuel p l' s)) by (intros; apply IHl; intros y Hy; apply Sub; right; exact Hy).
      cbv zeta. destruct q; [|apply Rest]. rewrite upd_nth, Nat.eqb_refl. destruct (app_head w64 E disallow _ _ _ (append_app w64 E disallow _ _ _ _ E1)) as (c & Hc & Qc & _).
      rewrite upd_nth, Hc. assert (Tc : exists c', (if Nat.eqb p (length stk) then option_map (fun x => set_fields (f_fields x ++ [(name, length stk)]) x) (Some c) else Some c) = Some c' /\ f_ty c' = f_ty c).
      { destruct (Nat.eqb p (length stk)); eexists; split; reflexivity. }
      destruct Tc as (c' & -> & Tc). cbn [option_map set_parent set_off f_ty]. rewrite Tc. destruct (string_type (f_ty c)) eqn:Es; [apply Rest|].
      destruct disallow eqn:Ed; [|apply Rest]. cbn. split; [exact Ed|]. exists T. split; [constructor|]. split; [exact Pl|]. exists f, U, name. split; [exact Hf|].
      intros Qu. apply Qc in Qu. congruence. }
    apply (G (x :: l)). auto.
Qed.

(** ** Success means that everything reachable was explored *)
Definition rt_in (stk : list frame) (r : rtid) : Prop := exists f, In f stk /\ f_rt f = Some r.
Definition names (U : ty) (r : rtid) : Prop := identity E U = Some r \/ exists i, U = TNamed i /\ r = RNamed i.
Definition cuttable (U : ty) (r : rtid) : Prop := identity E U = Some r /\ 0 < tsize w64 E U.
(** The types [N] explored while the frames [stk] became [stk']. *)
Record explored (N : list ty) (stk stk' : list frame) : Prop := {
  ex_ok : disallow = true -> forall U, In U N -> ~ misquotes E U;
  ex_run : forall U, In U N -> exists a b, app a U b;
  ex_kids : forall U V, In U N -> visits U V -> In V N \/ exists r, cuttable V r /\ rt_in stk' r;
  ex_mono : forall r, rt_in stk r -> rt_in stk' r;
  ex_rt : forall r, rt_in stk' r -> rt_in stk r \/ r = ROther \/ (exists i, r = RPtrNamed i) \/ exists U, In U N /\ names U r }.

Lemma explored_nil stk : explored [] stk stk.
Proof. split; try (intros; contradiction); auto. Qed.
Lemma explored_app N1 N2 a b c : explored N1 a b -> explored N2 b c -> explored (N1 ++ N2) a c.
Proof.
  intros [O1 R1 K1 M1 T1] [O2 R2 K2 M2 T2]. split.
  - intros D U H. apply in_app_or in H as [H|H]; auto.
  - intros U H. apply in_app_or in H as [H|H]; auto.
  - intros U V H Hv. apply in_app_or in H as [H|H].
    + destruct (K1 U V H Hv) as [I|(r & C & I)]; [left; apply in_or_app; auto|right; eauto].
    + destruct (K2 U V H Hv) as [I|(r & C & I)]; [left; apply in_or_app; auto|right; eauto].
  - auto.
  - intros r H. destruct (T2 r H) as [I|[I|[I|(U & I & Nm)]]]; auto.
    + destruct (T1 r I) as [J|[J|[J|(U & J & Nm)]]]; auto. right. right. right. exists U. split; [apply in_or_app; auto|exact Nm].
    + right. right. right. exists U. split; [apply in_or_app; auto|exact Nm].
Qed.
Definition rt_same (a b : list frame) : Prop := forall r, rt_in a r <-> rt_in b r.
Lemma explored_same_r N a b b' : explored N a b -> rt_same b b' -> explored N a b'.
Proof.
  intros [O R K M T] S. split; auto.
  - intros U V H Hv. destruct (K U V H Hv) as [I|(r & C & I)]; [auto|]. right. exists r. split; [exact C|apply S, I].
  - intros r H. apply S, M, H.
  - intros r H. apply T, S, H.
Qed.
Lemma explored_same_l N a a' b : explored N a b -> rt_same a a' -> explored N a' b.
Proof.
  intros [O R K M T] S. split; auto.
  - intros r H. apply M, S, H.
  - intros r H. destruct (T r H) as [I|I]; [left; apply S, I|auto].
Qed.
Lemma rt_upd stk i g : (forall f, f_rt (g f) = f_rt f) -> rt_same stk (upd stk i g).
Proof.
  intros G r. split; intros (f & Hf & Rf).
  - apply In_nth_error in Hf as [j Hj]. pose proof (upd_nth stk i g j) as U. rewrite Hj in U. destruct (Nat.eqb i j).
    + exists (g f). split; [eapply nth_error_In, U|rewrite G; exact Rf].
    + exists f. split; [eapply nth_error_In, U|exact Rf].
  - apply In_nth_error in Hf as [j Hj]. rewrite upd_nth in Hj. destruct (Nat.eqb i j).
    + destruct (nth_error stk j) as [f0|] eqn:E0; [|discriminate]. injection Hj as <-. exists f0. split; [eapply nth_error_In, E0|]. rewrite <- G. exact Rf.
    + exists f. split; [eapply nth_error_In, Hj|exact Rf].
Qed.
Lemma rt_same_refl a : rt_same a a.
Proof. intros r. tauto. Qed.
Lemma rt_same_sym a b : rt_same a b -> rt_same b a.
Proof. intros H r. symmetry. apply H. Qed.
Lemma rt_same_trans a b c : rt_same a b -> rt_same b c -> rt_same a c.
Proof. intros H1 H2 r. rewrite (H1 r). apply H2. Qed.
Lemma rt_mark stk i : rt_same stk (mark stk i).
Proof. apply rt_upd. reflexivity. Qed.
Lemma rt_add stk f : f_rt f = None \/ f_rt f = Some ROther \/ (exists i, f_rt f = Some (RPtrNamed i)) ->
  explored [] stk (stk ++ [f]).
Proof.
  intros H. split; try (intros; contradiction).
  - intros r (g & Hg & Rg). exists g. split; [apply in_or_app; auto|exact Rg].
  - intros r (g & Hg & Rg). apply in_app_or in Hg as [Hg|[<-|[]]]; [left; exists g; auto|].
    destruct H as [H|[H|(i & H)]]; rewrite H in Rg; [discriminate| |]; injection Rg as <-; eauto.
Qed.

(** One more explored type. *)
Lemma explored_cons T N a b : explored N a b ->
  (disallow = true -> ~ misquotes E T) -> (exists a b, app a T b) ->
  (forall V, visits T V -> In V (T :: N) \/ exists r, cuttable V r /\ rt_in b r) -> explored (T :: N) a b.
Proof.
  intros [O R K M Ti] Ok Rn Kd. split; auto.
  - intros D U [<-|H]; auto.
  - intros U [<-|H]; auto.
  - intros U V [<-|H] Hv; [apply Kd, Hv|]. destruct (K U V H Hv) as [I|I]; [left; right; exact I|auto].
  - intros r H. destruct (Ti r H) as [I|[I|[I|(U & I & Nm)]]]; auto. right. right. right. exists U. split; [right; exact I|exact Nm].
Qed.

Lemma visits_kids T V : visits T V ->
  match under E T with
  | TArr (S _) U | TPtr U => V = U
  | TSlice U => V = U /\ ~ special_elem w64 E U
  | TMap K W => (V = K \/ V = W) /\ ~ (stringy E K /\ stringy E W)
  | TStruct _ _ l => exists f name q, In (f, V) l /\ known_as f name q
  | _ => False
  end.
Proof.
  intros [n _ H|_ H N|W _ H N|K _ H N|_ H|f name q _ (id & z & l & H & I & Kn)]; rewrite H; auto. eauto.
Qed.
Lemma visits_plain T V : visits T V -> plain E T.
Proof. intros []; assumption. Qed.
Lemma misquotes_struct T : misquotes E T -> match under E T with TStruct _ _ _ => True | _ => False end.
Proof. intros (_ & f & U & name & (id & z & l & H & _) & _). rewrite H. exact I. Qed.

Lemma leaf_explored stk T f : leafy w64 E T f -> explored [T] stk (stk ++ [f]).
Proof.
  intros H. assert (Rn : exists a b, app a T b) by (exists stk; eexists; apply a_leaf, H).
  assert (NV : forall V, ~ visits T V /\ ~ misquotes E T).
  { intros V. split.
    - intros Hv. pose proof (visits_plain T V Hv) as Pl. destruct (plain_support E T Pl) as [P1 P2]. apply visits_kids in Hv.
      destruct H as [(r & Hj & _)|[(r & _ & Ht & _)|(_ & H)]]; [congruence|congruence|].
      destruct H as [(U & _)|[(W & U & _)|[(W & e & U & S & _)|[(K & W & U & S1 & S2 & _)|[(id & z & U & _)|[(U & _)|[(U & _)|[(U & _)|[(k & U & _)|(b & U & _)]]]]]]]]];
        rewrite U in Hv; try contradiction.
      + destruct Hv as [_ Hv]. apply slice_fast_none in Hv. congruence.
      + destruct Hv as [_ Hv]. apply Hv. auto.
      + destruct Hv as (g & nm & q & [] & _).
    - intros (Pl & g & U & nm & (id & z & l & Hu & Hin & _) & _). destruct (plain_support E T Pl) as [P1 P2].
      destruct H as [(r & Hj & _)|[(r & _ & Ht & _)|(_ & H)]]; [congruence|congruence|].
      destruct H as [(Q & _)|[(W & Q & _)|[(W & e & Q & S & _)|[(K & W & Q & S1 & S2 & _)|[(id' & z' & Q & _)|[(Q & _)|[(Q & _)|[(Q & _)|[(k & Q & _)|(b & Q & _)]]]]]]]]];
        rewrite Q in Hu; try discriminate. injection Hu as -> -> <-. destruct Hin. }
  assert (F : (f_rt f = None \/ f_rt f = Some ROther \/ (exists i, f_rt f = Some (RPtrNamed i))) \/ exists i, T = TNamed i /\ f_rt f = Some (RNamed i)).
  { assert (S : forall r, (json_support E T = Some r \/ text_support E T = Some r) -> (exists i, r = RPtrNamed i) \/ exists i, T = TNamed i /\ r = RNamed i).
    { intros r [S|S].
      - destruct T as [| | | | | | | | | | |U| |i]; cbn in S; try discriminate.
        + destruct U; try discriminate. destruct (d_json (E id)); [discriminate|]. injection S as <-. left. eauto.
        + destruct (d_json (E i)); [discriminate|]. injection S as <-. right. eauto.
      - destruct T as [| | | | | | | | | | |U| |i]; cbn in S; try discriminate.
        + destruct U; try discriminate. destruct (d_text (E id)); [discriminate|]. injection S as <-. left. eauto.
        + destruct (d_text (E i)); [discriminate|]. injection S as <-. right. eauto. }
    destruct H as [(r & Hj & ->)|[(r & Hn & Hj & ->)|(_ & H)]].
    - destruct (S r (or_introl Hj)) as [(i & ->)|(i & -> & ->)]; cbn; [left; right; right; eauto|right; eauto].
    - destruct (S r (or_intror Hj)) as [(i & ->)|(i & -> & ->)]; cbn; [left; right; right; eauto|right; eauto].
    - left. destruct H as [(Q & ->)|[(W & Q & ->)|[(W & e & Q & S1 & ->)|[(K & W & Q & S1 & S2 & ->)|[(id' & z' & Q & ->)|[(Q & ->)|[(Q & ->)|[(Q & ->)|[(k & Q & ->)|(b & Q & ->)]]]]]]]]]; cbn; auto. }
  destruct F as [F|(i & Ti & F)].
  - apply explored_cons; [apply rt_add, F|intros _; apply (NV T)|exact Rn|]. intros V Hv. destruct (NV V) as [C _]. contradiction.
  - split.
    + intros _ U [<-|[]]. apply (NV T).
    + intros U [<-|[]]. exact Rn.
    + intros U V [<-|[]] Hv. destruct (NV V) as [C _]. contradiction.
    + intros r (g & Hg & Rg). exists g. split; [apply in_or_app; auto|exact Rg].
    + intros r (g & Hg & Rg). apply in_app_or in Hg as [Hg|[<-|[]]]; [left; exists g; auto|]. rewrite F in Rg. injection Rg as <-.
      right. right. right. exists T. split; [left; reflexivity|]. right. eauto.
Qed.

Lemma explored_child stk f N stk1 i g : f_rt f = None \/ f_rt f = Some ROther -> (forall x, f_rt (g x) = f_rt x) ->
  explored N (stk ++ [f]) stk1 -> explored N stk (upd stk1 i g).
Proof.
  intros H G X. change N with ([] ++ N). apply explored_app with (b := stk ++ [f]); [apply rt_add; destruct H; auto|]. eapply explored_same_r; [exact X|apply rt_upd, G].
Qed.
Lemma explored_cut stk stk' : (forall r, rt_in stk r -> rt_in stk' r) -> (forall r, rt_in stk' r -> rt_in stk r \/ r = ROther) -> explored [] stk stk'.
Proof. intros H1 H2. split; try (intros; contradiction); auto. intros r Hr. destruct (H2 r Hr); auto. Qed.
Lemma explored_mark stk i f : f_rt f = None -> explored [] stk (mark stk i ++ [f]).
Proof. intros H. eapply explored_same_l; [apply rt_add; auto|]. apply rt_same_sym, rt_mark. Qed.
Lemma cut_found stk U i x : find_recur w64 E stk U = Some i -> exists r, cuttable U r /\ rt_in (mark stk i ++ [x]) r.
Proof.
  intros H. destruct (find_recur_some w64 E _ _ _ H) as (f & r & Hf & Rf & Id & _ & Sz). exists r. split; [split; assumption|].
  assert (I : rt_in (mark stk i) r) by (apply rt_mark; exists f; split; [eapply nth_error_In, Hf|exact Rf]).
  destruct I as (g & Hg & Rg). exists g. split; [apply in_or_app; auto|exact Rg].
Qed.

Lemma explore :
  (forall stk T stk', app stk T stk' -> exists N, In T N /\ (forall U, In U N -> reaches T U) /\ explored N stk stk') /\
  (forall p stk l stk', app_fields p stk l stk' -> exists N, explored N stk stk' /\
     (forall f U name q, In (f, U) l -> known_as f name q -> In U N /\ (disallow = true -> q = true -> quotable E U)) /\
     (forall U, In U N -> exists f V name q, In (f, V) l /\ known_as f name q /\ reaches V U)).
Proof.
  assert (Rc : forall T U N, visits T U -> (forall X, In X N -> reaches U X) -> forall X, In X (T :: N) -> reaches T X).
  { intros T U N V H X [<-|I]; [constructor|]. eapply reaches_first; [exact V|apply H, I]. }
  assert (Nm : forall T, match under E T with TStruct _ _ _ => False | _ => True end -> disallow = true -> ~ misquotes E T).
  { intros T H _ M. apply misquotes_struct in M. destruct (under E T); contradiction. }
  apply app_mut.
  - intros stk T f H. exists [T]. split; [left; reflexivity|]. split; [intros U [<-|[]]; constructor|]. apply leaf_explored, H.
  - intros stk T n U stk1 Pl Un Ap (N & IT & R & X). assert (V : visits T U) by (eapply v_arr; eassumption).
    exists (T :: N). split; [left; reflexivity|]. split; [apply (Rc T U N V R)|]. apply explored_cons.
    + eapply explored_child; [| |exact X]; [left; reflexivity|reflexivity].
    + apply Nm. rewrite Un. exact I.
    + eexists _, _. eapply a_arr; eassumption.
    + intros W Hv. apply visits_kids in Hv. rewrite Un in Hv. subst W. left. right. exact IT.
  - intros stk T U i Pl Un Ns F. exists [T]. split; [left; reflexivity|]. split; [intros X [<-|[]]; constructor|]. apply explored_cons.
    + apply explored_mark. reflexivity.
    + apply Nm. rewrite Un. exact I.
    + eexists _, _. eapply a_slice_rec; eassumption.
    + intros W Hv. apply visits_kids in Hv. rewrite Un in Hv. destruct Hv as [-> _]. right. eapply cut_found, F.
  - intros stk T U stk1 Pl Un Ns F Ap (N & IT & R & X). assert (V : visits T U) by (apply v_slice; assumption).
    exists (T :: N). split; [left; reflexivity|]. split; [apply (Rc T U N V R)|]. apply explored_cons.
    + eapply explored_child; [| |exact X]; [left; reflexivity|reflexivity].
    + apply Nm. rewrite Un. exact I.
    + eexists _, _. eapply a_slice; eassumption.
    + intros W Hv. apply visits_kids in Hv. rewrite Un in Hv. destruct Hv as [-> _]. left. right. exact IT.
  - intros stk T K V i stk1 Pl Un F Ap (N & IT & R & X).
    assert (Ns : ~ (stringy E K /\ stringy E V)).
    { intros [_ S]. destruct (find_recur_some w64 E _ _ _ F) as (_ & r & _ & _ & I & _). clear - S I. destruct V; cbn in *; try discriminate; destruct S as [S|S]; cbn in S; try discriminate; rewrite S in I; discriminate. }
    assert (Vk : visits T K) by (eapply v_key; eassumption).
    exists (T :: N). split; [left; reflexivity|]. split; [apply (Rc T K N Vk R)|].
    assert (X' : explored N stk (upd stk1 (S (length stk)) (set_parent (length stk)))).
    { change N with ([] ++ N). eapply explored_app; [apply explored_mark|eapply explored_same_r; [exact X|apply rt_upd; reflexivity]]. reflexivity. }
    apply explored_cons; [exact X'| | |].
    + apply Nm. rewrite Un. exact I.
    + eexists _, _. eapply a_map_rec; eassumption.
    + intros W Hv. apply visits_kids in Hv. rewrite Un in Hv. destruct Hv as [[->| ->] _]; [left; right; exact IT|]. right.
      destruct (cut_found stk V i (set_recur i (set_vsize (tsize w64 E V) (mkfr EMapRecur (wb w64)))) F) as (r & C & I). exists r. split; [exact C|].
      apply (rt_upd stk1 (S (length stk)) (set_parent (length stk))); [reflexivity|]. apply (ex_mono _ _ _ X), I.
  - intros stk T K V stk1 stk2 Pl Un F Ns A1 (N1 & I1 & R1 & X1) A2 (N2 & I2 & R2 & X2).
    assert (Vk : visits T K) by (eapply v_key; eassumption). assert (Vv : visits T V) by (eapply v_val; eassumption).
    exists (T :: (N1 ++ N2)). split; [left; reflexivity|]. split.
    + intros X [<-|I]; [constructor|]. apply in_app_or in I as [I|I]; [eapply reaches_first; [exact Vk|apply R1, I]|eapply reaches_first; [exact Vv|apply R2, I]].
    + apply explored_cons.
      * eapply explored_app; [eapply explored_child; [| |exact X1]; [right; reflexivity|]|].
        2:{ eapply explored_same_r; [exact X2|apply rt_upd; reflexivity]. } reflexivity.
      * apply Nm. rewrite Un. exact I.
      * eexists _, _. eapply a_map; eassumption.
      * intros W Hv. apply visits_kids in Hv. rewrite Un in Hv. left. right. apply in_or_app. destruct Hv as [[->| ->] _]; auto.
  - intros stk T U i Pl Un F. exists [T]. split; [left; reflexivity|]. split; [intros X [<-|[]]; constructor|]. apply explored_cons.
    + apply explored_mark. reflexivity.
    + apply Nm. rewrite Un. exact I.
    + eexists _, _. eapply a_ptr_rec; eassumption.
    + intros W Hv. apply visits_kids in Hv. rewrite Un in Hv. subst W. right. eapply cut_found, F.
  - intros stk T U stk1 Pl Un F Ap (N & IT & R & X). assert (V : visits T U) by (apply v_ptr; assumption).
    exists (T :: N). split; [left; reflexivity|]. split; [apply (Rc T U N V R)|]. apply explored_cons.
    + eapply explored_child; [| |exact X]; [left; reflexivity|reflexivity].
    + apply Nm. rewrite Un. exact I.
    + eexists _, _. eapply a_ptr; eassumption.
    + intros W Hv. apply visits_kids in Hv. rewrite Un in Hv. subst W. left. right. exact IT.
  - intros stk T id z l stk1 Pl Un Nl Ap (N & X & Fl & R). exists (T :: N). split; [left; reflexivity|]. split.
    + intros U [<-|I]; [constructor|]. destruct (R U I) as (f & V & name & q & Hin & Kn & RV). eapply reaches_first; [|exact RV].
      eapply v_field; [exact Pl|]. exists id, z, l. split; [exact Un|split; eassumption].
    + assert (Id : exists r, identity E T = Some r).
      { destruct T; cbn in *; try discriminate; [eauto|]. rewrite Un. eauto. }
      destruct Id as (r & Id). assert (Rf : f_rt (struct_frame w64 E T) = Some r) by (unfold struct_frame; rewrite identity_struct_id, Id; reflexivity).
      destruct X as [O Rn K M Ti]. split.
      * intros D U [<-|I]; [|auto]. intros (_ & f & U & name & (id' & z' & l' & Hu & Hin & Kn) & NQ). rewrite Un in Hu. injection Hu as <- <- <-.
        destruct (Fl f U name true Hin Kn) as [_ Q]. apply NQ, Q; [exact D|reflexivity].
      * intros U [<-|I]; [|auto]. eexists _, _. eapply a_struct; eassumption.
      * intros U V [<-|I] Hv; [|destruct (K U V I Hv); auto; left; right; assumption].
        apply visits_kids in Hv. rewrite Un in Hv. destruct Hv as (f & name & q & Hin & Kn). left. right. apply (Fl f V name q Hin Kn).
      * intros q (f & Hf & Rq). apply M. exists f. split; [apply in_or_app; auto|exact Rq].
      * intros q Hq. destruct (Ti q Hq) as [(f & Hf & Rq)|[I|[I|(U & I & Nn)]]]; auto.
        -- apply in_app_or in Hf as [Hf|[<-|[]]]; [left; exists f; auto|]. right. right. right. exists T. split; [left; reflexivity|]. left. congruence.
        -- right. right. right. exists U. split; [right; exact I|exact Nn].
  - intros p stk. exists []. split; [apply explored_nil|]. split; [intros f U name q []|intros U []].
  - intros p stk f U l stk' Ig Ap (N & X & Fl & R). exists N. split; [exact X|]. split.
    + intros g V name q [[= <- <-]|I] Kn; [|eapply Fl; eassumption]. apply ignored_name in Ig. apply known_name in Kn. congruence.
    + intros V I. destruct (R V I) as (g & W & name & q & Hin & H). exists g, W, name, q. split; [right; exact Hin|exact H].
  - intros p stk f U l stk1 name q g stk' Kn Ap (N1 & I1 & R1 & X1) Hg Hq Af (N2 & X2 & Fl & R2).
    assert (G : forall x, f_rt (g x) = f_rt x) by (destruct Hg as [[-> _]|(_ & c & e & _ & _ & ->)]; reflexivity).
    exists (N1 ++ N2). split; [|split].
    + eapply explored_app; [exact X1|]. eapply explored_same_l; [exact X2|]. apply rt_same_sym.
      eapply rt_same_trans; [|apply rt_upd, G]. eapply rt_same_trans; [|apply rt_upd; reflexivity]. apply rt_upd. reflexivity.
    + intros g' V name' q' [[= <- <-]|I] Kn'.
      * split; [apply in_or_app; left; exact I1|]. intros D Q. assert (q = true) as ->.
        { apply known_name in Kn, Kn'. congruence. }
        destruct (Hq eq_refl D) as (c & e & Hc & Hs). destruct (app_head w64 E disallow _ _ _ Ap) as (c' & Hc' & Qc & _). rewrite Hc in Hc'. injection Hc' as <-.
        apply Qc. congruence.
      * destruct (Fl g' V name' q' I Kn') as [I2 Q2]. split; [apply in_or_app; auto|exact Q2].
    + intros V I. apply in_app_or in I as [I|I].
      * exists f, U, name, q. split; [left; reflexivity|]. split; [exact Kn|apply R1, I].
      * destruct (R2 V I) as (g' & W & name' & q' & Hin & H). exists g', W, name', q'. split; [right; exact Hin|exact H].
Qed.

(** Two struct types with the same identity are the same type. *)
Definition coherent (T : ty) : Prop :=
  forall id z l z' l', reaches T (TStruct id z l) -> reaches T (TStruct id z' l') -> TStruct id z l = TStruct id z' l'.

Theorem app_closed T stk : coherent T -> app [] T stk ->
  forall U, reaches T U -> (disallow = true -> ~ misquotes E U) /\ exists a b, app a U b.
Proof.
  intros Co Ap. destruct explore as [X _]. destruct (X _ _ _ Ap) as (N & IT & RN & [O Rn K M Ti]).
  assert (A : forall U, reaches T U -> In U N).
  { intros U R. induction R as [|U V R IH V1]; [exact IT|]. destruct (K U V IH V1) as [I|(r & (Id & Sz) & I)]; [exact I|].
    destruct (Ti r I) as [(f & [] & _)|[->|[(i & ->)|(W & IW & [Nm|(i & -> & ->)])]]].
    - apply identity_not_other in Id. congruence.
    - destruct V; cbn in Id; try discriminate. destruct (d_under (E id)); discriminate.
    - assert (V = W) as ->; [|exact IW]. pose proof (RN W IW) as RW. assert (RV : reaches T V) by (eapply r_step; [exact R|exact V1]).
      destruct V as [| | | | | | | | | | | |vid vz vl|vi]; cbn in Id; try discriminate; destruct W as [| | | | | | | | | | | |wid wz wl|wi]; cbn in Nm; try discriminate.
      + assert (vid = wid) as -> by congruence. eapply Co; eassumption.
      + destruct (d_under (E wi)); congruence.
      + destruct (d_under (E vi)); congruence.
      + destruct (d_under (E vi)); try discriminate. destruct (d_under (E wi)); try discriminate. congruence.
    - destruct V as [| | | | | | | | | | | |vid vz vl|vi]; cbn in Id; try discriminate. destruct (d_under (E vi)); try discriminate. injection Id as ->. exact IW. }
  intros U R. split; [intros D; apply O; auto|]. apply Rn, A, R.
Qed.

(** ** Termination *)
(** [direct T U]: NewDecoder always recurs from [T] to [U]; it does not if [U] is a
    struct (of positive size) behind a pointer, slice or map that it has met before. *)
Inductive direct (T U : ty) : Prop :=
| d_arr n : plain E T -> under E T = TArr (S n) U -> direct T U
| d_slice : plain E T -> under E T = TSlice U -> ~ special_elem w64 E U -> (forall r, ~ cuttable U r) -> direct T U
| d_key V : plain E T -> under E T = TMap U V -> ~ (stringy E U /\ stringy E V) -> direct T U
| d_val K : plain E T -> under E T = TMap K U -> ~ (stringy E K /\ stringy E U) -> (forall r, ~ cuttable U r) -> direct T U
| d_ptr : plain E T -> under E T = TPtr U -> (forall r, ~ cuttable U r) -> direct T U
| d_field f name q : plain E T -> has_field E T f U name q -> direct T U.
(** No infinite chain of [direct] steps starts at [T]. *)
Definition grounded (T : ty) : Prop := Acc (fun V U => direct U V) T.

Lemma direct_kids T V : direct T V ->
  match under E T with
  | TArr (S _) U => V = U
  | TPtr U | TSlice U => V = U /\ forall r, ~ cuttable U r
  | TMap K W => (V = K \/ V = W /\ forall r, ~ cuttable W r) /\ ~ (stringy E K /\ stringy E W)
  | TStruct _ _ l => exists f name q, In (f, V) l /\ known_as f name q
  | _ => False
  end.
Proof.
  intros [n _ H|_ H N C|W _ H N|K _ H N C|_ H C|f name q _ (id & z & l & H & I & Kn)]; rewrite H; auto. eauto.
Qed.
Lemma direct_visits T V : direct T V -> visits T V.
Proof.
  intros [n P H|P H N C|W P H N|K P H N C|P H C|f name q P H].
  - eapply v_arr; eassumption.
  - eapply v_slice; eassumption.
  - eapply v_key; eassumption.
  - eapply v_val; eassumption.
  - eapply v_ptr; eassumption.
  - eapply v_field; eassumption.
Qed.
Lemma leafy_no_visits T f : leafy w64 E T f -> forall V, ~ visits T V.
Proof.
  intros H V Hv. pose proof (visits_plain T V Hv) as Pl. destruct (plain_support E T Pl) as [P1 P2]. apply visits_kids in Hv.
  destruct H as [(r & Hj & _)|[(r & _ & Ht & _)|(_ & H)]]; [congruence|congruence|].
  destruct H as [(U & _)|[(W & U & _)|[(W & e & U & S & _)|[(K & W & U & S1 & S2 & _)|[(id & z & U & _)|[(U & _)|[(U & _)|[(U & _)|[(k & U & _)|(b & U & _)]]]]]]]]];
    rewrite U in Hv; try contradiction.
  - destruct Hv as [_ Hv]. apply slice_fast_none in Hv. congruence.
  - destruct Hv as [_ Hv]. apply Hv. auto.
  - destruct Hv as (g & nm & q & [] & _).
Qed.
Lemma found_cuttable stk U i : find_recur w64 E stk U = Some i -> exists r, cuttable U r.
Proof. intros F. destruct (find_recur_some w64 E _ _ _ F) as (f & r & _ & _ & Id & _ & Sz). exists r. split; assumption. Qed.

Lemma app_grounded :
  (forall stk T stk', app stk T stk' -> grounded T) /\
  (forall p stk l stk', app_fields p stk l stk' -> forall f U name q, In (f, U) l -> known_as f name q -> grounded U).
Proof.
  apply app_mut.
  - intros stk T f H. constructor. intros V D. apply direct_visits in D. exfalso. eapply leafy_no_visits; eassumption.
  - intros stk T n U stk1 Pl Un _ IH. constructor. intros V D. apply direct_kids in D. rewrite Un in D. subst V. exact IH.
  - intros stk T U i Pl Un Ns F. constructor. intros V D. apply direct_kids in D. rewrite Un in D. destruct D as [_ D].
    destruct (found_cuttable _ _ _ F) as [r C]. destruct (D r C).
  - intros stk T U stk1 Pl Un Ns F _ IH. constructor. intros V D. apply direct_kids in D. rewrite Un in D. destruct D as [-> _]. exact IH.
  - intros stk T K V i stk1 Pl Un F _ IH. constructor. intros W D. apply direct_kids in D. rewrite Un in D. destruct D as [[->|[_ D]] _]; [exact IH|].
    destruct (found_cuttable _ _ _ F) as [r C]. destruct (D r C).
  - intros stk T K V stk1 stk2 Pl Un F Ns _ IH1 _ IH2. constructor. intros W D. apply direct_kids in D. rewrite Un in D. destruct D as [[->|[-> _]] _]; assumption.
  - intros stk T U i Pl Un F. constructor. intros V D. apply direct_kids in D. rewrite Un in D. destruct D as [_ D].
    destruct (found_cuttable _ _ _ F) as [r C]. destruct (D r C).
  - intros stk T U stk1 Pl Un F _ IH. constructor. intros V D. apply direct_kids in D. rewrite Un in D. destruct D as [-> _]. exact IH.
  - intros stk T id z l stk1 Pl Un Nl _ IH. constructor. intros V D. apply direct_kids in D. rewrite Un in D. destruct D as (f & name & q & I & Kn). eapply IH; eassumption.
  - intros p stk f U name q [].
  - intros p stk f U l stk' Ig _ IH g V name q [[= <- <-]|I] Kn; [|eapply IH; eassumption]. apply ignored_name in Ig. apply known_name in Kn. congruence.
  - intros p stk f U l stk1 name q g stk' Kn _ IH1 _ _ _ IH2 g' V name' q' [[= <- <-]|I] Kn'; [exact IH1|eapply IH2; eassumption].
Qed.

Section Terminates.
Variables (T0 : ty) (ids : list rtid).
Hypothesis finite : forall U r, reaches T0 U -> identity E U = Some r -> In r ids.

Definition seenb (stk : list frame) (r : rtid) : bool :=
  existsb (fun f => match f_rt f with Some r' => rtid_eqb r' r | None => false end) stk.
Lemma rtid_eqb_eq a b : rtid_eqb a b = true -> a = b.
Proof. destruct a, b; cbn; try discriminate; intros H; apply Nat.eqb_eq in H; congruence. Qed.
Lemma seenb_spec stk r : r <> ROther -> seenb stk r = true <-> rt_in stk r.
Proof.
  intros N. unfold seenb. rewrite existsb_exists. split.
  - intros (f & Hf & H). exists f. split; [exact Hf|]. destruct (f_rt f) as [r'|]; [|discriminate]. apply rtid_eqb_eq in H. congruence.
  - intros (f & Hf & H). exists f. split; [exact Hf|]. rewrite H. apply rtid_refl, N.
Qed.
Definition owns (T : ty) (r : rtid) : bool := match identity E T with Some r' => rtid_eqb r' r | None => false end.
(** Structs not met yet. *)
Definition left_ (stk : list frame) (T : ty) : list rtid := filter (fun r => negb (seenb stk r || owns T r || match r with ROther => true | _ => false end)) ids.
Lemma filter_le {A} (f g : A -> bool) l : (forall x, In x l -> f x = true -> g x = true) -> (length (filter f l) <= length (filter g l))%nat.
Proof.
  induction l as [|x l IH]; intros H; [cbn; lia|]. cbn. assert (IH' := IH (fun y Hy => H y (or_intror Hy))). specialize (H x (or_introl eq_refl)).
  destruct (f x); [rewrite H by reflexivity; cbn; lia|]. destruct (g x); cbn; lia.
Qed.
Lemma filter_lt {A} (f g : A -> bool) l x : (forall x, In x l -> f x = true -> g x = true) -> In x l -> f x = false -> g x = true ->
  (length (filter f l) < length (filter g l))%nat.
Proof.
  induction l as [|y l IH]; intros H I F G; [destruct I|]. assert (H' : forall z, In z l -> f z = true -> g z = true) by (intros z Hz; apply H; right; exact Hz).
  pose proof (filter_le f g l H') as L. cbn. destruct I as [->|I].
  - rewrite F, G. cbn. lia.
  - specialize (IH H' I F G). specialize (H y (or_introl eq_refl)). destruct (f y); [rewrite H by reflexivity; cbn; lia|]. destruct (g y); cbn; lia.
Qed.
Lemma left_le a T b U : (forall r, rt_in a r -> rt_in b r) -> (forall r, identity E T = Some r -> rt_in b r \/ identity E U = Some r) -> (length (left_ b U) <= length (left_ a T))%nat.
Proof.
  intros M O. apply filter_le. intros r _ H. rewrite Bool.negb_true_iff in *. rewrite !Bool.orb_false_iff in *. destruct H as [[H1 H2] H3].
  assert (N : r <> ROther) by (intros ->; discriminate).
  repeat split; [| |exact H3].
  - destruct (seenb a r) eqn:S; [|reflexivity]. apply seenb_spec in S; [|exact N]. apply M, seenb_spec in S; [congruence|exact N].
  - destruct (owns T r) eqn:S; [|reflexivity]. unfold owns in S. destruct (identity E T) as [r'|] eqn:Id; [|discriminate]. apply rtid_eqb_eq in S. subst r'.
    destruct (O r eq_refl) as [I|I]; [apply seenb_spec in I; [congruence|exact N]|]. unfold owns in H2. rewrite I in H2. rewrite rtid_refl in H2 by exact N. discriminate.
Qed.
Lemma left_lt a T b U r : (forall r, rt_in a r -> rt_in b r) -> identity E T = None -> identity E U = Some r -> In r ids -> ~ rt_in a r -> (length (left_ b U) < length (left_ a T))%nat.
Proof.
  intros M IT IU I Na. pose proof (identity_not_other E U r IU) as N. apply filter_lt with (x := r); [|exact I| |].
  - intros q _ H. rewrite Bool.negb_true_iff in *. rewrite !Bool.orb_false_iff in *. destruct H as [[H1 H2] H3].
    assert (Nq : q <> ROther) by (intros ->; discriminate). repeat split; [|unfold owns; rewrite IT; reflexivity|exact H3].
    destruct (seenb a q) eqn:S; [|reflexivity]. apply seenb_spec in S; [|exact Nq]. apply M, seenb_spec in S; [congruence|exact Nq].
  - rewrite Bool.negb_false_iff. unfold owns. rewrite IU, rtid_refl by exact N. rewrite Bool.orb_true_r. reflexivity.
  - rewrite Bool.negb_true_iff, !Bool.orb_false_iff. repeat split; [|unfold owns; rewrite IT; reflexivity|destruct r; congruence].
    destruct (seenb a r) eqn:S; [|reflexivity]. apply seenb_spec in S; [contradiction|exact N].
Qed.

Definition settles (stk : list frame) (T : ty) : Prop := exists fuel, append fuel stk T <> AFuel.
Lemma append_le n m stk T : append n stk T <> AFuel -> (n <= m)%nat -> append m stk T = append n stk T.
Proof. intros H L. replace m with (n + (m - n))%nat by lia. apply append_fuel, H. Qed.
Lemma keeps_rt a b : keeps a b -> forall r, rt_in a r -> rt_in b r.
Proof.
  intros [_ K] r (f & Hf & Rf). apply In_nth_error in Hf as [j Hj]. destruct (K j f Hj) as (f' & Hf' & Kf). exists f'. split; [eapply nth_error_In, Hf'|].
  destruct Kf as [->|(-> & _)]; exact Rf.
Qed.
Lemma append_rt fuel stk T stk' : append fuel stk T = AOk stk' -> forall r, rt_in stk r -> rt_in stk' r.
Proof. intros H. apply append_app in H. destruct (app_keeps w64 E disallow) as [K _]. apply keeps_rt, (K _ _ _ H). Qed.
Lemma rt_more stk f : forall r, rt_in stk r -> rt_in (stk ++ [f]) r.
Proof. intros r (g & Hg & Rg). exists g. split; [apply in_or_app; auto|exact Rg]. Qed.
Lemma rt_mark_more stk i f : forall r, rt_in stk r -> rt_in (mark stk i ++ [f]) r.
Proof. intros r H. apply rt_more, rt_mark, H. Qed.
Lemma find_rt_none_not stk r : r <> ROther -> forall k, find_rt stk k r = None -> ~ rt_in stk r.
Proof.
  intros N. induction stk as [|f stk IH]; intros k H (g & Hg & Rg); [destruct Hg|]. cbn [find_rt] in H. destruct Hg as [<-|Hg].
  - rewrite Rg, rtid_refl in H by exact N. discriminate.
  - assert (H' : find_rt stk (S k) r = None) by (destruct (f_rt f) as [r'|]; [destruct (rtid_eqb r' r); [discriminate|]|]; exact H). apply (IH _ H'). exists g. auto.
Qed.
Lemma cuttable_dec U : (exists r, cuttable U r) \/ forall r, ~ cuttable U r.
Proof.
  unfold cuttable. destruct (identity E U) as [r|]; [|right; intros r [H _]; discriminate]. destruct (Z.ltb_spec 0 (tsize w64 E U)); [left; exists r; auto|right; intros q [_ H']; lia].
Qed.
Lemma not_found_cuttable stk U r : find_recur w64 E stk U = None -> cuttable U r -> ~ rt_in stk r.
Proof.
  unfold find_recur. rewrite identity_struct_id. intros F (Id & Sz). rewrite Id in F. destruct (Z.ltb_spec 0 (tsize w64 E U)); [|lia].
  eapply find_rt_none_not; [eapply identity_not_other, Id|exact F].
Qed.

Lemma settle k : forall T, (forall j, (j < k)%nat -> forall T, reaches T0 T -> grounded T -> forall stk, (length (left_ stk T) <= j)%nat -> settles stk T) ->
  (forall U, reaches T0 U -> grounded U) ->
  grounded T -> reaches T0 T -> forall stk, (length (left_ stk T) <= k)%nat -> settles stk T.
Proof.
  intros T Outer Gr A. induction A as [T _ Inner]. intros R stk Hk.
  destruct (json_support E T) as [r|] eqn:Ej; [exists 1%nat; cbn [AppendType.append]; rewrite Ej; discriminate|].
  destruct (text_support E T) as [r|] eqn:Et; [exists 1%nat; cbn [AppendType.append]; rewrite Ej, Et; discriminate|].
  pose proof (supports_plain E T Ej Et) as Pl.
  assert (One : (forall fuel, append (S fuel) stk T <> AFuel) -> settles stk T) by (intros H; exists 1%nat; apply (H 0%nat)).
  (* a child that is not a struct behind a pointer, slice or map *)
  assert (Dir : forall U s, direct T U -> (forall r, rt_in stk r -> rt_in s r) -> (forall r, identity E T = Some r -> rt_in s r) -> settles s U).
  { intros U s D M O. apply Inner; [exact D|eapply r_step; [exact R|apply direct_visits, D]|]. etransitivity; [|exact Hk]. apply left_le; [exact M|]. intros r Hr. left. apply O, Hr. }
  (* one that is *)
  assert (Cut : forall U s r, visits T U -> cuttable U r -> identity E T = None -> find_recur w64 E stk U = None -> (forall r, rt_in stk r -> rt_in s r) -> settles s U).
  { intros U s r V C IT F M. assert (RU : reaches T0 U) by (eapply r_step; [exact R|exact V]). pose proof (not_found_cuttable _ _ _ F C) as Nr. destruct C as [Id Sz].
    pose proof (left_lt stk T s U r M IT Id (finite U r RU Id) Nr) as Lt. eapply (Outer (length (left_ s U))); [lia|exact RU|apply Gr, RU|lia]. }
  destruct (under E T) as [| | |nk|b| | | |n U|U|K V|U|id z l|i] eqn:Eu;
    try (apply One; intros fuel; cbn [AppendType.append]; rewrite Ej, Et, Eu; discriminate).
  - (* array *) destruct n as [|n]; [apply One; intros fuel; cbn [AppendType.append]; rewrite Ej, Et, Eu; discriminate|].
    assert (Id : identity E T = None) by (destruct T; cbn in Eu |- *; try reflexivity; [discriminate|rewrite Eu; reflexivity]).
    destruct (Dir U (stk ++ [mkfr EArray (tsize w64 E T)])) as [n0 H0]; [eapply d_arr; eassumption|apply rt_more|congruence|].
    exists (S n0). cbn [AppendType.append]. rewrite Ej, Et, Eu. destruct (append n0 _ U); congruence || discriminate.
  - (* slice *) assert (Id : identity E T = None) by (destruct T; cbn in Eu |- *; try reflexivity; [discriminate|rewrite Eu; reflexivity]).
    destruct (slice_fast w64 E U) as [e|] eqn:Es; [apply One; intros fuel; cbn [AppendType.append]; rewrite Ej, Et, Eu, Es; discriminate|].
    destruct (find_recur w64 E stk U) as [i|] eqn:Ef; [apply One; intros fuel; cbn [AppendType.append]; rewrite Ej, Et, Eu, Es, Ef; discriminate|].
    pose proof (proj1 (slice_fast_none w64 E U) Es) as Ns.
    assert (St : settles (stk ++ [mkfr ESlice (3 * wb w64)]) U).
    { destruct (cuttable_dec U) as [[r C]|C]; [eapply Cut; [apply v_slice; eassumption|exact C|exact Id|exact Ef|apply rt_more]|].
      apply Dir; [apply d_slice; assumption|apply rt_more|congruence]. }
    destruct St as [n0 H0]. exists (S n0). cbn [AppendType.append]. rewrite Ej, Et, Eu, Es, Ef. destruct (append n0 _ U); congruence || discriminate.
  - (* map *) assert (Id : identity E T = None) by (destruct T; cbn in Eu |- *; try reflexivity; [discriminate|rewrite Eu; reflexivity]).
    destruct (find_recur w64 E stk V) as [i|] eqn:Ef.
    + destruct (found_cuttable _ _ _ Ef) as [r C].
      assert (Ns : ~ (stringy E K /\ stringy E V)).
      { intros [_ S]. destruct C as [I _]. clear - S I. destruct V; cbn in *; try discriminate; destruct S as [S|S]; cbn in S; try discriminate; rewrite S in I; discriminate. }
      destruct (Dir K (mark stk i ++ [set_recur i (set_vsize (tsize w64 E V) (mkfr EMapRecur (wb w64)))])) as [n0 H0]; [eapply d_key; eassumption|apply rt_mark_more|congruence|].
      exists (S n0). cbn [AppendType.append]. rewrite Ej, Et, Eu, Ef. destruct (append n0 _ K); congruence || discriminate.
    + destruct (kind_string E K && kind_string E V) eqn:Ek; [apply One; intros fuel; cbn [AppendType.append]; rewrite Ej, Et, Eu, Ef, Ek; discriminate|].
      pose proof (proj1 (not_both E K V) Ek) as Ns.
      destruct (Dir K (stk ++ [set_rt ROther (set_vsize (tsize w64 E V) (mkfr EMap (wb w64)))])) as [n0 H0]; [eapply d_key; eassumption|apply rt_more|congruence|].
      destruct (append n0 (stk ++ [set_rt ROther (set_vsize (tsize w64 E V) (mkfr EMap (wb w64)))]) K) as [s1| | | |] eqn:E1; try congruence.
      2-4: (exists (S n0); cbn [AppendType.append]; rewrite Ej, Et, Eu, Ef, Ek, E1; discriminate).
      set (s2 := upd s1 (length (stk ++ [set_rt ROther (set_vsize (tsize w64 E V) (mkfr EMap (wb w64)))])) (set_parent (length stk))).
      assert (M : forall r, rt_in stk r -> rt_in s2 r).
      { intros r Hr. apply (rt_upd s1); [reflexivity|]. eapply append_rt; [exact E1|apply rt_more, Hr]. }
      assert (St : settles s2 V).
      { destruct (cuttable_dec V) as [[r C]|C]; [eapply Cut; [eapply v_val; eassumption|exact C|exact Id|exact Ef|exact M]|].
        apply Dir; [eapply d_val; eassumption|exact M|congruence]. }
      destruct St as [n1 H1]. exists (S (Nat.max n0 n1)). cbn [AppendType.append]. rewrite Ej, Et, Eu, Ef, Ek.
      rewrite (append_le n0) by (rewrite ?E1; discriminate || lia). rewrite E1. fold s2. rewrite (append_le n1) by (exact H1 || lia). destruct (append n1 s2 V); congruence || discriminate.
  - (* pointer *) assert (Id : identity E T = None) by (destruct T; cbn in Eu |- *; try reflexivity; [discriminate|rewrite Eu; reflexivity]).
    destruct (find_recur w64 E stk U) as [i|] eqn:Ef; [apply One; intros fuel; cbn [AppendType.append]; rewrite Ej, Et, Eu, Ef; discriminate|].
    assert (St : settles (stk ++ [mkfr EPtr (wb w64)]) U).
    { destruct (cuttable_dec U) as [[r C]|C]; [eapply Cut; [apply v_ptr; eassumption|exact C|exact Id|exact Ef|apply rt_more]|].
      apply Dir; [apply d_ptr; assumption|apply rt_more|congruence]. }
    destruct St as [n0 H0]. exists (S n0). cbn [AppendType.append]. rewrite Ej, Et, Eu, Ef. destruct (append n0 _ U); congruence || discriminate.
  - (* struct *) destruct l as [|x l]; [apply One; intros fuel; cbn [AppendType.append]; rewrite Ej, Et, Eu; discriminate|].
    assert (G : forall l' p s, (forall y, In y l' -> In y (x :: l)) -> (forall r, rt_in (stk ++ [struct_frame w64 E T]) r -> rt_in s r) ->
      exists n, forall fuel, (n <= fuel)%nat -> fields_loop fuel p l' s <> AFuel).
    { induction l' as [|[f U] l' IHl]; intros p s Sub M; [exists 0%nat; intros; discriminate|].
      assert (Sub' : forall y, In y l' -> In y (x :: l)) by (intros y Hy; apply Sub; right; exact Hy).
      pose proof (name_spec f) as Nf. destruct (field_name f) as [[name q]|] eqn:En.
      2:{ destruct (IHl p s Sub' M) as [n H]. exists n. intros fuel Hf. cbn [Elab.fields_loop]. rewrite En. apply H, Hf. }
      assert (D : direct T U). { eapply d_field; [exact Pl|]. exists id, z, (x :: l). split; [exact Eu|]. split; [apply Sub; left; reflexivity|exact Nf]. }
      destruct (Dir U s D) as [n0 H0].
      { intros r Hr. apply M, rt_more, Hr. }
      { intros r Hr. apply M. exists (struct_frame w64 E T). split; [apply in_or_app; right; left; reflexivity|]. unfold struct_frame. rewrite identity_struct_id, Hr. reflexivity. }
      destruct (append n0 s U) as [s1| | | |] eqn:E1; try congruence.
      2-4: (exists n0; intros fuel Hf; cbn [Elab.fields_loop]; rewrite En, (append_le n0) by (rewrite ?E1; discriminate || lia); rewrite E1; discriminate).
      set (s2 := upd s1 p (fun x => set_fields (f_fields x ++ [(name, length s)]) x)).
      set (s3 := upd s2 (length s) (fun c => set_parent p (set_off (fd_off f) c))).
      assert (M3 : forall r, rt_in (stk ++ [struct_frame w64 E T]) r -> rt_in s3 r).
      { intros r Hr. apply (rt_upd s2); [reflexivity|]. apply (rt_upd s1); [reflexivity|]. eapply append_rt; [exact E1|apply M, Hr]. }
      destruct (IHl p s3 Sub' M3) as [n1 H1].
      assert (Go : forall n2 (r : nat -> ares), (forall fuel, (n2 <= fuel)%nat -> r fuel <> AFuel) ->
        (forall fuel, (n0 <= fuel)%nat -> fields_loop fuel p ((f, U) :: l') s = r fuel) -> exists n, forall fuel, (n <= fuel)%nat -> fields_loop fuel p ((f, U) :: l') s <> AFuel).
      { intros n2 r H2 Eq. exists (Nat.max n0 n2). intros fuel Hf. rewrite Eq by lia. apply H2. lia. }
      assert (Eq : forall fuel, (n0 <= fuel)%nat -> fields_loop fuel p ((f, U) :: l') s =
        if q then match nth_error s3 (length s) with
                  | Some c => match string_type (f_ty c) with
                              | Some e => fields_loop fuel p l' (upd s3 (length s) (set_ty e))
                              | None => if disallow then AErrStringTag else fields_loop fuel p l' s3
                              end
                  | None => APanic
                  end
        else fields_loop fuel p l' s3).
      { intros fuel Hf. cbn [Elab.fields_loop]. rewrite En, (append_le n0) by (rewrite ?E1; discriminate || lia). rewrite E1. reflexivity. }
      destruct q; [|eapply (Go n1); [exact H1|exact Eq]].
      destruct (nth_error s3 (length s)) as [c|]; [|eapply (Go 0%nat (fun _ => APanic)); [discriminate|exact Eq]].
      destruct (string_type (f_ty c)) as [e|].
      - destruct (IHl p (upd s3 (length s) (set_ty e)) Sub') as [n2 H2]; [intros r Hr; apply (rt_upd s3); [reflexivity|apply M3, Hr]|].
        eapply (Go n2); [exact H2|exact Eq].
      - destruct disallow; [eapply (Go 0%nat (fun _ => AErrStringTag)); [discriminate|exact Eq]|]. eapply (Go n1); [exact H1|exact Eq]. }
    destruct (G (x :: l) (length stk) (stk ++ [struct_frame w64 E T])) as [n H]; [auto|auto|].
    exists (S n). specialize (H n (le_n n)). cbn [AppendType.append]. rewrite Ej, Et, Eu. exact H.
Qed.

Theorem grounded_settles : (forall U, reaches T0 U -> grounded U) -> settles [] T0.
Proof.
  intros Gr. assert (A : forall k T, reaches T0 T -> grounded T -> forall stk, (length (left_ stk T) <= k)%nat -> settles stk T).
  { intros k. induction k as [k IH] using lt_wf_ind. intros T R G stk H. eapply settle; eauto. }
  eapply A; [apply r_refl|apply Gr, r_refl|apply le_n].
Qed.
End Terminates.
End Graph.

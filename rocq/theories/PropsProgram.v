(** C76: a program with many variables and many decoders.

    A program keeps any number of variables, of plain types and of types around recursive
    structs ([wt]; [WSub d] is a type without recursion), and any number of decoders, and
    decodes documents one after the other, into any variable with any decoder of its type,
    with any options, well formed or not.  A decoder of a type with recursive structs is
    replaced by a new one after a call that refused a well-formed document (it does not work
    any more: C28_refuted); otherwise decoders are kept.  Then what the program sees is what a program with a list of values in
    place of a memory would see: no call panics, corrupts memory or loops, every answer
    is the one for its document and its variable alone, no call changes another variable,
    and no two variables ever share memory. *)
From Verif Require Import Base NumSpec StrSpec Types AppendType Token FloatLit Heap Machine Dt Dec Control Root Elab Rec Value Dval Sep Refine Refine2 Refine3 Typed Spec SpecProofs Main Parse World Elaborate PropsStruct RecSpec RecRefine RecElab PropsRec Encodes PropsStrict Actual PropsExact PropsAnyLeaf RecActual PropsRecAny PropsDecode PropsSafe Mixed MixedElab MixedSpec MixedRefine MixedTyped PropsMixed PropsMixedStruct Accept PropsAccept AcceptRec PropsAcceptRec PropsFlat PropsTrees.
Open Scope Z_scope.

(** ** Programs *)
(** A decoder of the program: made with DisallowUnknownFields or not, for the Go type
    [k_go], which is the type [k_type] of the theorems; its frames. *)
Record kit := { k_disallow : bool; k_go : ty; k_type : wt; k_stk : list frame }.
(** A variable: its type and where it is. *)
Record var := { x_type : wt; x_at : addr }.
(** What the tokenizer makes of a text: a document, or an error at an index. *)
Inductive input := Well (v : jv) | Ill (i : nat) (c : nat).
(** A call: which decoder, which variable, the options and the text. *)
Record call := { y_kit : nat; y_var : nat; y_opts : opts; y_text : bytes; y_input : input }.
Definition tokens (x : input) : tokres := match x with Well v => TOk (flat 0 v) | Ill i c => TErr i c end.

(** After the call [y] with the error [e] the decoder is kept. *)
Definition kept (t : wt) (y : call) (e : option err) : bool :=
  match e, t, y_input y with
  | None, _, _ | _, WSub _, _ | _, _, Ill _ _ => true
  | _, _, _ => false
  end.
(** The program, with the memory [h] and the states [Ds] of its decoders: the answers of
    the calls and the memory at the end.  [None]: some call does not return. *)
Fixpoint execute (C : cfg) (ks : list kit) (xs : list var) (ys : list call) (Ds : list dyn) (h : heap) :
  option (list (Z * option err) * list dyn * heap) :=
  match ys with
  | [] => Some ([], Ds, h)
  | y :: ys =>
      match nth_error ks (y_kit y), nth_error Ds (y_kit y), nth_error xs (y_var y) with
      | Some k, Some D, Some x =>
          match Decode C (y_opts y) (k_stk k) D (y_text y) (tokens (y_input y)) (Some (x_at x)) h with
          | Ret i e D' h' =>
              let D' := if kept (k_type k) y e then D' else dyn0 (k_stk k) in
              match execute C ks xs ys (set_nth Ds (y_kit y) D') h' with
              | Some (rs, Ds', h'') => Some ((i, e) :: rs, Ds', h'')
              | None => None
              end
          | _ => None
          end
      | _, _, _ => None
      end
  end.

(** ** Specification: the same with values, without memory and without decoders. *)
(** One call: its answer and the new value of its variable. *)
Definition one (C : cfg) (t : wt) (y : call) (g : gval) : option (Z * option err * gval) :=
  match y_input y with
  | Ill i c => Some (Z.of_nat i, Some (ETok c), g)
  | Well v => match wactual C (y_opts y) (y_text y) t v g with
              | VOk g' => Some (-1, None, g')
              | VErr i e g' => Some (Z.of_nat i, Some e, g')
              | VPan => None
              end
  end.
Fixpoint values (C : cfg) (xs : list var) (ys : list call) (gs : list gval) : option (list (Z * option err) * list gval) :=
  match ys with
  | [] => Some ([], gs)
  | y :: ys =>
      match nth_error xs (y_var y), nth_error gs (y_var y) with
      | Some x, Some g =>
          match one C (x_type x) y g with
          | Some (r, g') =>
              match values C xs ys (set_nth gs (y_var y) g') with
              | Some (rs, gs') => Some (r :: rs, gs')
              | None => None
              end
          | None => None
          end
      | _, _ => None
      end
  end.

(** The documents: of the classes of C15 and C26, without empty strings for numbers
    (for the types of C53 and C62 every document: [every_document_within]). *)
Definition within (C : cfg) (O : opts) (t : wt) (v : jv) : Prop :=
  match t with
  | WSub d => ctl_root C O d v /\ no_empty_number C O d v
  | t => wlast C O true t v /\ wno_empty_number C O t v
  end.
(** The calls that a program may make. *)
Definition fair (C : cfg) (ks : list kit) (xs : list var) (y : call) : Prop :=
  exists k x, nth_error ks (y_kit y) = Some k /\ nth_error xs (y_var y) = Some x /\ k_type k = x_type x /\
    match y_input y with Well v => json_text (y_text y) v /\ within C (y_opts y) (x_type x) v | Ill _ _ => True end.
(** Types for which every document is allowed: the types of C53 and C62. *)
Definition every_document (C : cfg) (O : opts) (t : wt) : Prop :=
  match t with
  | WSub d => any_document O d = true /\ no_quoted_numbers d = true
  | t => wany C O t = true /\ wno_quoted_numbers t = true
  end.
(** A decoder that works: for a type without recursive structs any, for others one that is
    new or has only been used in calls that succeeded or met ill-formed texts. *)
Definition able (C : cfg) (E : env) (k : kit) (D : dyn) : Prop :=
  match k_type k with
  | WSub d => decoder_for C E (k_disallow k) (k_go k) d (k_stk k) D
  | t => wdecoder_for C E (k_disallow k) (k_go k) t (k_stk k) D
  end.
Definition ready (C : cfg) (E : env) (ks : list kit) (Ds : list dyn) : Prop :=
  length Ds = length ks /\
  forall j k D, nth_error ks j = Some k -> nth_error Ds j = Some D -> able C E k D.
(** There is a decoder for every variable. *)
Definition served (ks : list kit) (xs : list var) : Prop :=
  forall x, In x xs -> exists k, In k ks /\ k_type k = x_type x.
(** The memory holds the values [gs] in the variables [xs]; variable number [j] consists of
    its own block and the blocks [Fs j], and no block belongs to two variables. *)
Definition holds_all (C : cfg) (xs : list var) (h : heap) (gs : list gval) (Fs : nat -> list nat) : Prop :=
  length gs = length xs /\
  (forall j x g, nth_error xs j = Some x -> nth_error gs j = Some g -> wvariable C (x_type x) h (x_at x) g (Fs j)) /\
  (forall i j x y b, nth_error xs i = Some x -> nth_error xs j = Some y -> i <> j ->
     In b (fst (x_at x) :: Fs i) -> ~ In b (fst (x_at y) :: Fs j)).

(** ** Proofs *)
Lemma ready_new C E ks : (forall k, In k ks -> able C E k (dyn0 (k_stk k))) ->
  ready C E ks (map (fun k => dyn0 (k_stk k)) ks).
Proof.
  intros H. split; [apply map_length|]. intros j k D Hk HD. rewrite nth_error_map, Hk in HD. injection HD as <-.
  apply H, (nth_error_In _ _ Hk).
Qed.
Lemma able_new C E k D : able C E k D -> able C E k (dyn0 (k_stk k)).
Proof.
  unfold able. destruct (k_type k); intros [A1 A2 A3 A4 _]; constructor; try assumption; constructor.
Qed.
Lemma able_layout C E k D : able C E k D -> wlayout (c_w64 C) (k_type k).
Proof. unfold able. intros H. destruct (k_type k); [exact (df_layout _ _ _ _ _ _ _ H)|..]; exact (wdf_layout _ _ _ _ _ _ _ H). Qed.
Lemma able_ill C E k D O s i c a h r e D' h' : able C E k D ->
  Decode C O (k_stk k) D s (TErr i c) (Some a) h = Ret r e D' h' -> able C E k D'.
Proof.
  unfold able. intros H Q. destruct (k_type k); destruct H as [A1 A2 A3 A4 A5]; constructor; try assumption;
    [eapply u_call; [exact A5|exact Q]|..]; (eapply wu_ill; [exact A5|exact Q]).
Qed.
Lemma every_document_within C O t : every_document C O t -> forall v, within C O t v.
Proof.
  unfold every_document, within. intros H v. destruct t as [d|z fs|t|k t|t|z fs]; destruct H as [A N];
    [split; [exact (any_ctl C O d A v)|exact (no_quoted_nonempty C O d N v)]|..]; (split; [exact (wany_last C O _ A v)|exact (wno_quoted_nonempty C O _ N v)]).
Qed.
(** A well-formed document. *)
Lemma well_call C E k D O s v a h g F : able C E k D ->
  within C O (k_type k) v -> json_text s v -> wvariable C (k_type k) h a g F ->
  exists r er D' h' g' F',
    Decode C O (k_stk k) D s (TOk (flat 0 v)) (Some a) h = Ret r er D' h' /\
    wvariable C (k_type k) h' a g' F' /\ only h h' (Some a) (MixedSpec.tsize (c_w64 C) (k_type k)) F F' /\
    (er = None \/ (exists d, k_type k = WSub d) -> able C E k D') /\
    match wactual C O s (k_type k) v g with
    | VOk g1 => r = -1 /\ er = None /\ g' = g1
    | VErr i e g1 => r = Z.of_nat i /\ er = Some e /\ g' = g1
    | VPan => False
    end.
Proof.
  unfold able, within. intros Ab Cl J V.
  destruct (k_type k) as [d|z fs|t|kk t|t|z fs] eqn:Et.
  1:{ destruct Cl as [A N]. pose proof (characterised C O E _ _ d _ D s v a h g F Ab J A N V) as Q.
      assert (Nx : forall r er D' h', Decode C O (k_stk k) D s (TOk (flat 0 v)) (Some a) h = Ret r er D' h' -> decoder_for C E (k_disallow k) (k_go k) d (k_stk k) D').
      { intros r er D' h' Ed. destruct Ab as [A1 A2 A3 A4 A5]. constructor; try assumption. eapply u_call; [exact A5|exact Ed]. }
      change (wactual C O s (WSub d) v g) with (actual C O s d v g).
      destruct (actual C O s d v g) as [g1|i e g1|] eqn:Ea; [| |contradiction]; destruct Q as (D' & h' & F' & Q & V' & Y).
      - exists (-1), None, D', h', g1, F'. split; [exact Q|]. split; [exact V'|]. split; [exact Y|]. split; [intros _; exact (Nx _ _ _ _ Q)|auto].
      - exists (Z.of_nat i), (Some e), D', h', g1, F'. split; [exact Q|]. split; [exact V'|]. split; [exact Y|]. split; [intros _; exact (Nx _ _ _ _ Q)|auto]. }
  all: destruct Cl as [A N]; pose proof (wcharacterised C O E _ _ _ _ D s v a h g F Ab J A N V) as Q;
    match type of Q with match wactual _ _ _ ?t _ _ with _ => _ end => destruct (wactual C O s t v g) as [g1|i e g1|] end; [| |contradiction]; destruct Q as (D' & h' & F' & Q & V' & Y);
    [exists (-1), None, D', h', g1, F'|exists (Z.of_nat i), (Some e), D', h', g1, F'];
    (split; [exact Q|]); (split; [exact V'|]); (split; [exact Y|]); (split; [|auto]);
    [intros _; destruct Ab as [A1 A2 A3 A4 A5]; constructor; try assumption; eapply wu_ok; [exact A5|exact J|exact A|exact Q]
    |intros [H|(d & H)]; discriminate].
Qed.
(** A variable is not touched by changes elsewhere. *)
Lemma frame_wvariable C t h h' a g F p n F0 F1 : wlayout (c_w64 C) t ->
  wvariable C t h a g F -> only h h' (Some p) n F0 F1 ->
  (forall b, In b (fst a :: F) -> ~ In b (fst p :: F0)) -> wvariable C t h' a g F.
Proof.
  intros L [R Ow] (Nx & Bk & _) Sep.
  assert (Same : forall b, (b < nxt h)%nat -> In b (fst a :: F) -> blk h' b = blk h b).
  { intros b Hb Hi. apply Bk; [exact Hb| |].
    - intros Hn. apply (Sep b Hi). right. exact Hn.
    - destruct p as [pb po]. cbn [pblk]. intros Q. injection Q as <-. apply (Sep pb Hi). left. reflexivity. }
  destruct Ow as (O1 & O2 & O3 & O4). destruct a as [ab ao]. cbn [fst] in *.
  assert (Ha : (ab < nxt h)%nat) by (apply O4; reflexivity).
  split.
  - apply (nice_stable _ (nice_wmt (c_w64 C) t L) h (Some (ab, ao)) h' (Some (ab, ao)) g F R). split.
    + intros x _. apply cellat_same, Same; [exact Ha|left; reflexivity].
    + intros b Hb. apply Same; [apply O3, Hb|right; exact Hb].
  - split; [lia|]. split; [exact O2|]. split.
    + intros b Hb. destruct (O3 b Hb). split; [lia|assumption].
    + intros b Hb. specialize (O4 b Hb). lia.
Qed.
Lemma same_nth {A} (l : list A) j a b i x : nth_error l j = Some b -> nth_error (set_nth l j a) i = Some x ->
  (i = j /\ x = a) \/ (i <> j /\ nth_error l i = Some x).
Proof.
  intros Hb H. destruct (Nat.eq_dec i j) as [->|N].
  - left. rewrite (set_nth_same _ _ _ _ Hb) in H. injection H as <-. auto.
  - right. rewrite set_nth_other in H by congruence. auto.
Qed.

(** One call of the program. *)
Lemma one_call C E ks xs y Ds h gs Fs k D x g :
  served ks xs -> ready C E ks Ds -> holds_all C xs h gs Fs -> fair C ks xs y ->
  nth_error ks (y_kit y) = Some k -> nth_error Ds (y_kit y) = Some D ->
  nth_error xs (y_var y) = Some x -> nth_error gs (y_var y) = Some g ->
  exists i e D' h' g' Fs',
    Decode C (y_opts y) (k_stk k) D (y_text y) (tokens (y_input y)) (Some (x_at x)) h = Ret i e D' h' /\
    one C (x_type x) y g = Some (i, e, g') /\
    ready C E ks (set_nth Ds (y_kit y) (if kept (k_type k) y e then D' else dyn0 (k_stk k))) /\
    holds_all C xs h' (set_nth gs (y_var y) g') Fs'.
Proof.
  intros Sv [Rl Rd] (Hl & Hv & Hs) (k0 & x0 & Ek & Ex & Ty & Doc) Hk HD Hx Hg.
  rewrite Hk in Ek. injection Ek as <-. rewrite Hx in Ex. injection Ex as <-.
  pose proof (Rd _ _ _ Hk HD) as Df. pose proof (Hv _ _ _ Hx Hg) as V. rewrite <- Ty in V, Doc.
  assert (Rdy : forall D', able C E k D' -> ready C E ks (set_nth Ds (y_kit y) D')).
  { intros D' H. split; [rewrite set_nth_length; exact Rl|]. intros j k1 D1 H1 H2.
    destruct (same_nth _ _ _ _ _ _ HD H2) as [[-> ->]|[Nj H3]]; [rewrite Hk in H1; injection H1 as <-; exact H|exact (Rd _ _ _ H1 H3)]. }
  destruct (y_input y) as [v|i c] eqn:Ei.
  - destruct Doc as [Doc Cl]. destruct (well_call C E k D (y_opts y) (y_text y) v (x_at x) h g (Fs (y_var y)) Df Cl Doc V)
      as (r & er & D' & h' & g' & F' & Q & V' & On & Wd & Ac). rewrite Ty in V', On, Ac.
    exists r, er, D', h', g', (fun j => if Nat.eqb j (y_var y) then F' else Fs j).
    split; [exact Q|]. split.
    { unfold one. rewrite Ei. destruct (wactual C (y_opts y) (y_text y) (x_type x) v g) as [g1|i e g1|]; [| |contradiction]; destruct Ac as (-> & -> & ->); reflexivity. }
    split.
    { apply Rdy. unfold kept. rewrite Ei. destruct er as [er|]; [|exact (Wd (or_introl eq_refl))].
      destruct (k_type k) eqn:Et; try exact (able_new _ _ _ _ Df). apply Wd. right. eexists. reflexivity. }
    split; [rewrite set_nth_length; exact Hl|]. split.
    + intros j z gz H1 H2. destruct (Nat.eqb_spec j (y_var y)) as [->|Nj].
      * rewrite Hx in H1. injection H1 as <-. rewrite (set_nth_same _ _ _ _ Hg) in H2. injection H2 as <-. exact V'.
      * rewrite set_nth_other in H2 by congruence. pose proof (Hv _ _ _ H1 H2) as Vz.
        assert (Lz : wlayout (c_w64 C) (x_type z)).
        { destruct (Sv z (nth_error_In _ _ H1)) as (kz & Iz & <-). apply In_nth_error in Iz as (m & Em).
          destruct (nth_error Ds m) as [Dm|] eqn:Em2; [exact (able_layout _ _ _ _ (Rd _ _ _ Em Em2))|].
          apply nth_error_None in Em2. rewrite Rl in Em2. apply nth_error_None in Em2. congruence. }
        apply (frame_wvariable C _ h h' _ _ _ _ _ _ _ Lz Vz On). intros b. apply (Hs _ _ _ _ b H1 Hx Nj).
    + (* blocks of a variable are below [nxt h]; the new blocks of the call are not *)
      assert (Old : forall j z b, nth_error xs j = Some z -> In b (fst (x_at z) :: Fs j) -> (b < nxt h)%nat).
      { intros j z b H1 Hb. destruct (nth_error gs j) as [gz|] eqn:Gz.
        - destruct (Hv _ _ _ H1 Gz) as [_ (_ & _ & O3 & O4)]. destruct Hb as [<-|Hb]; [|apply O3, Hb].
          apply O4. destruct (x_at z). reflexivity.
        - apply nth_error_None in Gz. rewrite Hl in Gz. apply nth_error_None in Gz. congruence. }
      destruct On as (Nx & _ & _ & _ & Fn).
      assert (New : forall b, In b (fst (x_at x) :: F') -> In b (fst (x_at x) :: Fs (y_var y)) \/ (nxt h <= b)%nat).
      { intros b [<-|Hb]; [left; left; reflexivity|]. destruct (Fn b Hb) as [H|H]; [left; right; exact H|right; exact H]. }
      intros i j z w b Hz Hw Nij Hb Hc.
      destruct (Nat.eqb_spec i (y_var y)) as [->|Ni]; destruct (Nat.eqb_spec j (y_var y)) as [->|Nj]; [congruence| | |].
      * rewrite Hx in Hz. injection Hz as <-. pose proof (Old _ _ _ Hw Hc). destruct (New b Hb) as [H1|H1]; [|lia].
        exact (Hs _ _ _ _ b Hx Hw Nij H1 Hc).
      * rewrite Hx in Hw. injection Hw as <-. pose proof (Old _ _ _ Hz Hb). destruct (New b Hc) as [H1|H1]; [|lia].
        exact (Hs _ _ _ _ b Hz Hx Nij Hb H1).
      * exact (Hs _ _ _ _ b Hz Hw Nij Hb Hc).
  - exists (Z.of_nat i), (Some (ETok c)), (clear_dests (upd_d D 0 (set_dest (Some (x_at x))))), h, g, Fs.
    split; [reflexivity|]. split; [unfold one; rewrite Ei; reflexivity|].
    split.
    { assert (K : kept (k_type k) y (Some (ETok c)) = true) by (unfold kept; rewrite Ei; destruct (k_type k); reflexivity). rewrite K.
      apply Rdy, (able_ill C E k D (y_opts y) (y_text y) i c (x_at x) h (Z.of_nat i) (Some (ETok c)) _ h Df). reflexivity. }
    assert (Same : set_nth gs (y_var y) g = gs) by (apply Order.set_nth_id, Hg). rewrite Same.
    split; [exact Hl|]. split; [exact Hv|exact Hs].
Qed.

(** ** C76 *)
Theorem C76_program_is_values C E ks xs ys : served ks xs -> Forall (fair C ks xs) ys ->
  forall Ds h gs Fs, ready C E ks Ds -> holds_all C xs h gs Fs ->
  exists rs Ds' h' gs' Fs',
    execute C ks xs ys Ds h = Some (rs, Ds', h') /\ values C xs ys gs = Some (rs, gs') /\
    ready C E ks Ds' /\ holds_all C xs h' gs' Fs'.
Proof.
  intros Sv Fr. induction Fr as [|y ys Fy Fr IH]; intros Ds h gs Fs Rd Ho.
  { exists [], Ds, h, gs, Fs. cbn. auto. }
  pose proof Fy as (k & x & Hk & Hx & _).
  destruct (nth_error Ds (y_kit y)) as [D|] eqn:HD.
  2:{ apply nth_error_None in HD. rewrite (proj1 Rd) in HD. apply nth_error_None in HD. congruence. }
  destruct (nth_error gs (y_var y)) as [g|] eqn:Hg.
  2:{ apply nth_error_None in Hg. rewrite (proj1 Ho) in Hg. apply nth_error_None in Hg. congruence. }
  destruct (one_call C E ks xs y Ds h gs Fs k D x g Sv Rd Ho Fy Hk HD Hx Hg) as (i & e & D' & h' & g' & Fs' & Q & O1 & Rd' & Ho').
  destruct (IH _ _ _ _ Rd' Ho') as (rs & Ds' & h'' & gs' & Fs'' & X1 & X2 & X3 & X4).
  exists ((i, e) :: rs), Ds', h'', gs', Fs''. cbn [execute values]. rewrite Hk, HD, Hx, Hg, Q, O1, X1, X2. auto.
Qed.
(** Types for which every document is allowed. *)
Theorem C76_every_document C E ks xs ys : served ks xs ->
  Forall (fun y => exists k x, nth_error ks (y_kit y) = Some k /\ nth_error xs (y_var y) = Some x /\ k_type k = x_type x /\
    every_document C (y_opts y) (x_type x) /\
    match y_input y with Well v => json_text (y_text y) v | Ill _ _ => True end) ys ->
  forall Ds h gs Fs, ready C E ks Ds -> holds_all C xs h gs Fs ->
  exists rs Ds' h' gs' Fs',
    execute C ks xs ys Ds h = Some (rs, Ds', h') /\ values C xs ys gs = Some (rs, gs') /\
    ready C E ks Ds' /\ holds_all C xs h' gs' Fs'.
Proof.
  intros Sv Fr. apply (C76_program_is_values C E ks xs ys Sv). revert Fr. apply Forall_impl.
  intros y (k & x & H1 & H2 & H3 & H4 & H5). exists k, x. split; [exact H1|]. split; [exact H2|]. split; [exact H3|].
  destruct (y_input y); [|exact I]. split; [exact H5|apply every_document_within, H4].
Qed.
(** What becomes of one variable, and the answers of the calls that use it, are what they
    would be if the program made only these calls. *)
Definition uses (j : nat) (y : call) : bool := Nat.eqb (y_var y) j.
Definition answers_of (j : nat) (ys : list call) (rs : list (Z * option err)) : list (Z * option err) :=
  map snd (filter (fun x => uses j (fst x)) (combine ys rs)).
Lemma values_local C xs j ys : forall gs1 gs2 rs gs1', values C xs ys gs1 = Some (rs, gs1') ->
  nth_error gs1 j = nth_error gs2 j ->
  exists gs2', values C xs (filter (uses j) ys) gs2 = Some (answers_of j ys rs, gs2') /\ nth_error gs1' j = nth_error gs2' j.
Proof.
  induction ys as [|y ys IH]; intros gs1 gs2 rs gs1' V Eq.
  { injection V as <- <-. exists gs2. auto. }
  cbn [values] in V. destruct (nth_error xs (y_var y)) as [x|] eqn:Hx; [|discriminate].
  destruct (nth_error gs1 (y_var y)) as [g|] eqn:Hg; [|discriminate].
  destruct (one C (x_type x) y g) as [[r g']|] eqn:O1; [|discriminate].
  destruct (values C xs ys (set_nth gs1 (y_var y) g')) as [[rs' gs']|] eqn:V'; [|discriminate].
  injection V as <- <-. unfold answers_of. cbn [filter combine fst]. destruct (uses j y) eqn:U.
  - apply Nat.eqb_eq in U. cbn [values map snd]. rewrite Hx. rewrite U in *. rewrite <- Eq, Hg, O1.
    destruct (IH _ (set_nth gs2 j g') _ _ V') as (gs2' & W & Ez).
    { rewrite (set_nth_same _ _ _ _ Hg). rewrite Hg in Eq. symmetry in Eq. rewrite (set_nth_same _ _ _ _ Eq). reflexivity. }
    exists gs2'. rewrite W. auto.
  - apply Nat.eqb_neq in U. apply (IH _ gs2 _ _ V'). rewrite set_nth_other by congruence. exact Eq.
Qed.
Theorem C76_each_variable_alone C E ks xs ys Ds h gs Fs j : served ks xs -> Forall (fair C ks xs) ys ->
  ready C E ks Ds -> holds_all C xs h gs Fs -> (j < length xs)%nat ->
  exists rs Ds1 h1 gs1 Fs1 Ds2 h2 gs2 Fs2,
    execute C ks xs ys Ds h = Some (rs, Ds1, h1) /\ holds_all C xs h1 gs1 Fs1 /\
    execute C ks xs (filter (uses j) ys) Ds h = Some (answers_of j ys rs, Ds2, h2) /\ holds_all C xs h2 gs2 Fs2 /\
    nth_error gs1 j = nth_error gs2 j.
Proof.
  intros Sv Fr Rd Ho Hj.
  destruct (C76_program_is_values C E ks xs ys Sv Fr Ds h gs Fs Rd Ho) as (rs & Ds1 & h1 & gs1 & Fs1 & X1 & X2 & _ & X4).
  assert (Fr' : Forall (fair C ks xs) (filter (uses j) ys)).
  { apply Forall_forall. intros y Hy. apply filter_In in Hy as [Hy _]. exact (proj1 (Forall_forall _ _) Fr y Hy). }
  destruct (C76_program_is_values C E ks xs _ Sv Fr' Ds h gs Fs Rd Ho) as (rs2 & Ds2 & h2 & gs2 & Fs2 & Y1 & Y2 & _ & Y4).
  destruct (values_local C xs j ys gs gs rs gs1 X2 eq_refl) as (gs2' & W & Ez). rewrite W in Y2. injection Y2 as <- <-.
  exists rs, Ds1, h1, gs1, Fs1, Ds2, h2, gs2', Fs2. auto.
Qed.
(** It does not matter with which of two decoders of the type a call is made (say, decoders
    of two goroutines): the answers and the values are the same. *)
Definition same_call (y z : call) : Prop :=
  y_var y = y_var z /\ y_opts y = y_opts z /\ y_text y = y_text z /\ y_input y = y_input z.
Theorem C76_any_decoder C E ks ks' xs ys zs Ds Ds' h gs Fs : served ks xs -> served ks' xs -> 
  Forall (fair C ks xs) ys -> Forall (fair C ks' xs) zs -> Forall2 same_call ys zs ->
  ready C E ks Ds -> ready C E ks' Ds' -> holds_all C xs h gs Fs ->
  exists rs Ds1 h1 Fs1 Ds2 h2 Fs2 gs',
    execute C ks xs ys Ds h = Some (rs, Ds1, h1) /\ holds_all C xs h1 gs' Fs1 /\
    execute C ks' xs zs Ds' h = Some (rs, Ds2, h2) /\ holds_all C xs h2 gs' Fs2.
Proof.
  intros Sv Sv' Fr Fr' Sm Rd Rd' Ho.
  destruct (C76_program_is_values C E ks xs ys Sv Fr Ds h gs Fs Rd Ho) as (rs & Ds1 & h1 & gs1 & Fs1 & X1 & X2 & _ & X4).
  destruct (C76_program_is_values C E ks' xs zs Sv' Fr' Ds' h gs Fs Rd' Ho) as (rs2 & Ds2 & h2 & gs2 & Fs2 & Y1 & Y2 & _ & Y4).
  assert (Q : values C xs ys gs = values C xs zs gs).
  { clear - Sm. revert gs. induction Sm as [|y z ys zs (A1 & A2 & A3 & A4) Sm IH]; intros gs; [reflexivity|].
    cbn [values]. unfold one. rewrite A1, A2, A3, A4.
    destruct (nth_error xs (y_var z)); [|reflexivity]. destruct (nth_error gs (y_var z)); [|reflexivity].
    destruct (y_input z) as [v0|]; [destruct (wactual C (y_opts z) (y_text z) _ v0 _); try reflexivity|]; rewrite IH; reflexivity. }
  rewrite <- Q, X2 in Y2. injection Y2 as <- <-.
  exists rs, Ds1, h1, Fs1, Ds2, h2, Fs2, gs1. auto.
Qed.

(** ** The start of a program *)
(** Memory with one zeroed block for each variable. *)
Definition worlds (sizes : list Z) : heap :=
  Heap (S (length sizes)) (fun b => match b with
    | 0%nat => BMem 0 (fun _ => CZero)
    | S j => match nth_error sizes j with Some n => BMem n (fun _ => CZero) | None => BFree end
    end).
Fixpoint at_blocks (j : nat) (ts : list wt) : list var :=
  match ts with [] => [] | t :: ts => {| x_type := t; x_at := (j, 0) |} :: at_blocks (S j) ts end.
Lemma at_blocks_nth ts : forall j i, nth_error (at_blocks j ts) i = option_map (fun t => {| x_type := t; x_at := ((j + i)%nat, 0) |}) (nth_error ts i).
Proof.
  induction ts as [|t ts IH]; intros j [|i]; cbn; try reflexivity; [rewrite Nat.add_0_r; reflexivity|].
  rewrite IH. destruct (nth_error ts i); cbn; [|reflexivity]. do 2 f_equal. f_equal. lia.
Qed.
Lemma at_blocks_length ts : forall j, length (at_blocks j ts) = length ts.
Proof. induction ts as [|t ts IH]; intros j; cbn; [reflexivity|]. rewrite IH. reflexivity. Qed.
Definition start (C : cfg) (ts : list wt) : heap := worlds (map (fun t => MixedSpec.tsize (c_w64 C) t) ts).
Theorem C76_start C E ks ts : (forall k, In k ks -> able C E k (dyn0 (k_stk k))) ->
  served ks (at_blocks 1 ts) ->
  ready C E ks (map (fun k => dyn0 (k_stk k)) ks) /\
  holds_all C (at_blocks 1 ts) (start C ts) (map wzero ts) (fun _ => []).
Proof.
  intros H Sv. split; [apply ready_new, H|]. split; [rewrite map_length, at_blocks_length; reflexivity|]. split.
  - intros j x g Hx Hg. pose proof (nth_error_In _ _ Hx) as Ix. rewrite at_blocks_nth in Hx. rewrite nth_error_map in Hg.
    destruct (nth_error ts j) as [t|] eqn:Ht; [|discriminate]. cbn [option_map] in *. injection Hx as <-. injection Hg as <-. cbn [x_type x_at].
    destruct (Sv _ Ix) as (k & Ik & Ek). pose proof (able_layout _ _ _ _ (H _ Ik)) as Ly. rewrite Ek in Ly. cbn [x_type] in Ly.
    split.
    + apply (nice_zero _ (nice_wmt (c_w64 C) t Ly)). intros y Hy. cbn [m_size wmt] in Hy. cbn [cellat blk start worlds Nat.add]. rewrite nth_error_map, Ht. cbn [option_map].
      rewrite Z.add_0_l. destruct (Z.leb_spec 0 y), (Z.ltb_spec y (MixedSpec.tsize (c_w64 C) t)); try lia. reflexivity.
    + split; [cbn; lia|]. split; [constructor|]. split; [intros b []|]. intros b [= <-]. cbn [nxt start worlds Nat.add]. rewrite map_length.
      assert (j < length ts)%nat by (apply nth_error_Some; congruence). lia.
  - intros i j x y b Hx Hy N [<-|[]] [Q|[]]. rewrite at_blocks_nth in Hx, Hy.
    destruct (nth_error ts i), (nth_error ts j); try discriminate. injection Hx as <-. injection Hy as <-. cbn in Q. lia.
Qed.

(** Case: a program with a map of nodes behind a pointer, two nodes and a variable of the
    type of C53_case, with four decoders and ten calls.  Four of them fail: a wrong value of
    a node (the decoder is then replaced), an ill-formed text, and wrong values of the
    plain struct (its decoder is kept). *)
Definition prg_kits : list kit :=
  [ {| k_disallow := false; k_go := mapp_ty; k_type := mapp_wt; k_stk := mapp_stk |};
    {| k_disallow := false; k_go := TNamed 0; k_type := over_wt; k_stk := over_stk |};
    {| k_disallow := false; k_go := TNamed 0; k_type := over_wt; k_stk := over_stk |};
    {| k_disallow := false; k_go := safe_ty; k_type := WSub safe_dt; k_stk := safe_stk |} ].
Definition prg_types : list wt := [mapp_wt; over_wt; over_wt; WSub safe_dt].
Definition prg_call (k x : nat) (s : bytes) : call :=
  {| y_kit := k; y_var := x; y_opts := strict; y_text := s; y_input := match parse s with Some v => Well v | None => Ill 2 7 end |}.
Definition prg_calls : list call := Eval vm_compute in
  [ prg_call 1 1 over_old; prg_call 0 0 mapp_bad; prg_call 3 3 (bs "{""C"":""y"",""B"":[1,2,{}]}"); prg_call 2 2 over_new; prg_call 0 0 mapp_text;
    prg_call 1 1 (bs "{""V"":}"); prg_call 3 3 (bs "{""A"":null,""D"":0}"); prg_call 2 1 (bs "{""left"":null,""V"":9}"); prg_call 1 2 (bs "{""R"":null}");
    prg_call 3 3 (bs "{""B"":[4],""A"":-1}") ].
Lemma safe_decoder_doc : decoder_for wC E_doc false safe_ty safe_dt safe_stk (dyn0 safe_stk).
Proof.
  eapply new_decoder; [|vm_compute; reflexivity|vm_compute; reflexivity|vm_compute; reflexivity].
  intros [|[|[|[|i]]]]; reflexivity.
Qed.
Example C76_case :
  (forall k, In k prg_kits -> able wC E_doc k (dyn0 (k_stk k))) /\
  served prg_kits (at_blocks 1 prg_types) /\ Forall (fair wC prg_kits (at_blocks 1 prg_types)) prg_calls /\
  values wC (at_blocks 1 prg_types) prg_calls (map wzero prg_types) =
    Some ([(-1, None); (45, Some EUnexpected); (18, Some EUnexpected); (-1, None); (-1, None); (2, Some (ETok 7)); (10, Some EUnknownField); (-1, None); (-1, None); (-1, None)],
      [VPtr (Some (VMap (Some
         [(GStr [97], dnode (-1) (Some (dnode 44 None (Some (dnode 0 None None)))) None);
          (GStr [239; 191; 189; 239; 191; 189], dnode 2 None (Some (dnode 7 None None)))])));
       dnode 9 None (Some (dnode 4 None (Some (dnode 5 None None))));
       dnode 0 None None;
       VStruct [VInt (-1); VArr [VFloat (FN 4 0 false); VFloat (FN 2 0 false); VFloat (FN 0 0 false)]; VStr (bs "y")]]).
Proof.
  split.
  { intros k [<-|[<-|[<-|[<-|[]]]]]; [exact mapp_decoder|exact over_decoder|exact over_decoder|exact safe_decoder_doc]. }
  split.
  { intros x [<-|[<-|[<-|[<-|[]]]]]; eexists.
    - split; [left; reflexivity|reflexivity].
    - split; [right; left; reflexivity|reflexivity].
    - split; [right; left; reflexivity|reflexivity].
    - split; [right; right; right; left; reflexivity|reflexivity]. }
  split.
  { repeat (apply Forall_cons; [|]); try apply Forall_nil;
      (eexists; eexists; split; [reflexivity|]; split; [reflexivity|]; split; [reflexivity|]; 
       first [exact I|split; [apply parse_sound; vm_compute; reflexivity|apply every_document_within; split; reflexivity]]). }
  vm_compute. reflexivity.
Qed.
(** A call that skips unknown members is not of [every_document], but of [within]. *)
Example C76_case_unknown :
  every_document wC default_opts over_wt -> False.
Proof. intros [A _]. vm_compute in A. discriminate. Qed.
Example C76_case_within :
  fair wC prg_kits (at_blocks 1 prg_types) {| y_kit := 2; y_var := 1; y_opts := default_opts; y_text := over_new; y_input := Well over_new_doc |}.
Proof.
  do 2 eexists. split; [reflexivity|]. split; [reflexivity|]. split; [reflexivity|]. cbn [y_input y_text y_opts x_type].
  split; [apply parse_sound; vm_compute; reflexivity|]. split; [apply wlastb_spec; vm_compute; reflexivity|apply wno_quoted_nonempty; reflexivity].
Qed.

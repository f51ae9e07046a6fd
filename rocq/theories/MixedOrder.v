(** C44, C45 for types that contain recursive structs ([wt], Mixed.v): the order of members
    does not matter, and decoding again changes nothing. *)
From Coq Require Import Permutation.
From Verif Require Import Base NumSpec StrSpec JsonNum JsonNumProofs AtoiAny Types AppendType Token FloatLit Heap Machine Dt Dec Control Root Elab Rec Value Dval Sep Refine Refine2 Refine3 Typed Spec SpecProofs Main Parse World Elaborate RecSpec RecRefine RecElab PropsRec Encodes RoundTrip PropsRoundTrip Order RecOrder PropsStrict Actual PropsExact OrderActual PropsAnyLeaf RecActual PropsRecAny Mixed MixedElab MixedSpec MixedRefine MixedTyped PropsMixed.
Open Scope Z_scope.

(** ** Specification: no object of the document has two members for the same field or key *)
Section Unlike.
Variables (C : cfg) (O : opts).
Fixpoint wunlike (t : wt) (v : jv) {struct t} : Prop :=
  match t with
  | WSub d => act_unlike C O d v
  | WRec _ fs => act_runlike C O fs v
  | WSlice t => match v with JArr _ _ l => Forall (wunlike t) l | _ => True end
  | WMap k t => match v with JObj _ _ l => NoDup (act_map_keys C k l) /\ Forall (fun x => wunlike t (snd x)) l | _ => True end
  | WPtr t => wunlike t v
  | WStruct _ fs =>
      match v with
      | JObj _ _ l => NoDup (targets (act_field_for C O (wshape fs)) l) /\
          Forall (fun x => match act_field_for C O (wshape fs) (snd (fst x)) with
                           | Some j => match nth_error (map (fun x => wunlike (snd x)) fs) j with Some P => P (snd x) | None => True end
                           | None => True end) l
      | _ => True
      end
  end.
End Unlike.
(** No UnmarshalJSON methods; no user methods. *)
Fixpoint wno (P : dt -> bool) (t : wt) : bool :=
  match t with
  | WSub d => P d
  | WRec _ fs => forallb (fun x => match snd x with RSub d => P d | _ => true end) fs
  | WSlice t | WMap _ t | WPtr t => wno P t
  | WStruct _ fs => forallb (fun x => wno P (snd x)) fs
  end.
Definition wno_json : wt -> bool := wno no_json.
Definition wno_user : wt -> bool := wno no_user.

(** ** Proofs *)
Section Alike.
Variables (C : cfg) (O : opts).
Theorem wactual_reordered s s' t : wno_json t = true -> forall v v' g g1, reordered v v' -> wunlike C O t v -> wactual C O s t v g = VOk g1 ->
  exists g2, wactual C O s' t v' g = VOk g2 /\ same_value g1 g2.
Proof.
  unfold wactual. induction t as [d|z fs|t IH|k t IH|t IH|z fs IH] using wt_ind'; intros NJ v v' g g1 R U E; cbn [walk wunlike] in *.
  - exact (actual_reordered C O s s' d NJ v v' g g1 R U E).
  - exact (actual_rec_reordered C O fs s s' v v' g g1 NJ R U E).
  - inversion R; subst; try discriminate; try (exists g1; split; [exact E|apply same_refl]).
    eapply slicev_alike; [|exact E]. match goal with F : Forall2 reordered _ _ |- _ => eapply F2_with; [|exact U|exact F] end. cbn. intros x y Ux Rxy g0 g2. apply IH; assumption.
  - inversion R; subst; try discriminate; try (exists g1; split; [exact E|apply same_refl]).
    match goal with H : Permutation l _, H' : Forall2 _ _ l' |- _ => rename H into Pm; rename H' into Q end. destruct U as [N U].
    set (m0 := match g with VMap (Some m) => m | _ => [] end) in *.
    match type of E with vmap _ (act_entries C k ?F ?B ?Z l m0) = _ => destruct (act_entries C k F B Z l m0) as [m'| |] eqn:Em; try discriminate; injection E as <-;
      destruct (act_entries_perm C k F B Z l l1 Pm N m0 m' Em) as (m1 & E1 & P1 & _) end.
    match goal with |- exists g2, vmap _ (act_entries C k ?F' ?B ?Z l' m0) = _ /\ _ =>
      match type of E1 with act_entries _ _ ?F _ _ _ _ = _ => destruct (act_entries_alike C k F B Z F' l1 l') with (m := m0) (m2 := m0) (m' := m1) as (m2 & E2 & S2) end end.
    + eapply F2_with; [|eapply Permutation_Forall; [exact Pm|exact U]|exact Q]. cbn. intros x y Ux [Ek Rxy]. split; [exact Ek|]. intros g0 g2. apply IH; assumption.
    + eapply Permutation_NoDup; [apply Permutation_flat_map, Pm|exact N].
    + apply Forall2_entries_refl.
    + reflexivity.
    + exact E1.
    + rewrite E2. eexists. split; [reflexivity|]. econstructor; eassumption.
  - assert (X : forall v v', reordered v v' -> wunlike C O t v -> vmap (fun g => VPtr (Some g)) (walk O (actual C O s) (actual_rec C O s) (act_entries C) (act_field_for C O) t v (wzero t)) = VOk g1 ->
      exists g2, vmap (fun g => VPtr (Some g)) (walk O (actual C O s') (actual_rec C O s') (act_entries C) (act_field_for C O) t v' (wzero t)) = VOk g2 /\ same_value g1 g2).
    { intros w w' Rw Uw Ew. destruct (walk _ _ _ _ _ t w (wzero t)) as [a| |] eqn:Ea; try discriminate. injection Ew as <-.
      destruct (IH NJ _ _ _ _ Rw Uw Ea) as (b & -> & S). eexists. split; [reflexivity|]. constructor. exact S. }
    inversion R; subst; try (apply (X _ _ R U E)). exists g1. split; [exact E|apply same_refl].
  - inversion R; subst; try discriminate; try (exists g1; split; [exact E|apply same_refl]).
    match goal with H : Permutation l _, H' : Forall2 _ _ l' |- _ => rename H into P; rename H' into Q end. destruct U as [N U].
    destruct g as [| | | | | | |gs| | | |]; try discriminate.
    match type of E with vmap _ (ideal_members O ?S ?F l gs) = _ => destruct (ideal_members O S F l gs) as [gs'| |] eqn:Em; try discriminate; injection E as <-;
      pose proof (members_perm O S F l l1 P N gs gs' Em) as E1 end.
    match goal with |- exists g2, vmap _ (ideal_members O ?S ?F' l' gs) = _ /\ _ =>
      match type of E1 with ideal_members _ _ ?F _ _ = _ => destruct (members_alike O S F F' l1 l') with (gs := gs) (hs := gs) (gs' := gs') as (hs' & E2 & S2) end end.
    + eapply F2_with; [|eapply Permutation_Forall; [exact P|exact U]|exact Q]. cbn. intros x y Ux [Ek Rxy]. split; [exact Ek|]. intros jj f g0 g2 Ej Ef Ev. rewrite Ej in Ux.
      rewrite nth_error_map in Ef, Ux. rewrite nth_error_map. destruct (nth_error fs jj) as [q|] eqn:Eq; [|discriminate]. cbn in *. injection Ef as <-.
      unfold wno_json in NJ. cbn [wno] in NJ. rewrite forallb_forall in NJ. rewrite Forall_forall in IH.
      destruct (IH q (nth_error_In _ _ Eq) (NJ q (nth_error_In _ _ Eq)) _ _ _ _ Rxy Ux Ev) as (g3 & E3 & S3). eexists. exists g3. split; [reflexivity|]. split; [exact E3|exact S3].
    + eapply Permutation_NoDup; [apply Permutation_flat_map, P|exact N].
    + apply Forall2_same_refl.
    + reflexivity.
    + exact E1.
    + rewrite E2. eexists. split; [reflexivity|]. constructor. exact S2.
Qed.
Theorem wactual_again s t : wno_user t = true -> forall v g g1, wunlike C O t v -> wactual C O s t v g = VOk g1 -> wactual C O s t v g1 = VOk g1.
Proof.
  unfold wactual. induction t as [d|z fs|t IH|k t IH|t IH|z fs IH] using wt_ind'; intros NU v g g1 U E; cbn [walk wunlike] in *.
  - exact (actual_again C O s d NU v g g1 U E).
  - exact (actual_rec_again C O fs s v g g1 NU U E).
  - destruct v as [i|i b|i r|i r|i r|i j l|i j l]; try discriminate; [exact E|]. eapply slicev_again; [|exact E]. rewrite Forall_forall in U. intros x Hx g0 g2. apply IH; [exact NU|apply U, Hx].
  - destruct v as [i|i b|i r|i r|i r|i j l|i j l]; try discriminate; [exact E|]. destruct U as [N U].
    set (m0 := match g with VMap (Some m) => m | _ => [] end) in *.
    match type of E with vmap _ (act_entries C k ?F ?B ?Z l m0) = _ => destruct (act_entries C k F B Z l m0) as [m'| |] eqn:Em; try discriminate; injection E as <-;
      rewrite (act_entries_again C k F B Z l) with (m := m0); [reflexivity| |exact N|exact Em] end.
    rewrite Forall_forall in U. intros x Hx g0 g2. apply IH; [exact NU|apply U, Hx].
  - destruct v; try exact E; (match type of E with vmap _ ?X = _ => destruct X as [a| |] eqn:Ea; try discriminate end; injection E as <-; reflexivity).
  - destruct v as [i|i b|i r|i r|i r|i j l|i j l]; try discriminate; [reflexivity|]. destruct U as [N U].
    destruct g as [| | | | | | |gs| | | |]; try discriminate.
    match type of E with vmap _ (ideal_members O ?S ?F l gs) = _ => destruct (ideal_members O S F l gs) as [gs'| |] eqn:Em; try discriminate; injection E as <-;
      rewrite (members_again O S F l) with (gs := gs); [reflexivity| |exact N|exact Em] end.
    rewrite Forall_forall in U, IH. unfold wno_user in NU. cbn [wno] in NU. rewrite forallb_forall in NU. intros x Hx jj f g0 g2 Ej Ef Ev. specialize (U x Hx). rewrite Ej in U. rewrite nth_error_map in Ef, U.
    destruct (nth_error fs jj) as [q|] eqn:Eq; [|discriminate]. cbn in *. injection Ef as <-. apply nth_error_In in Eq. eapply (IH q Eq); [exact (NU q Eq)|exact U|exact Ev].
Qed.
Lemma wunlike_reordered t : forall v v', reordered v v' -> wunlike C O t v -> wunlike C O t v'.
Proof.
  induction t as [d|z fs|t IH|k t IH|t IH|z fs IH] using wt_ind'; intros v v' R U; cbn [wunlike] in *.
  - eapply act_unlike_reordered; eassumption.
  - intros n. eapply act_unlike_n_reordered; [exact R|apply U].
  - inversion R as [| | | | |i j l i' j' l' F E1 E2|]; subst; try exact I. clear - F IH U. induction F; constructor; inversion U; subst; eauto.
  - inversion R as [| | | | | |i j l l1 i' j' l' P Q E1 E2]; subst; try exact I. destruct U as [N U]. split.
    + unfold act_map_keys in *. rewrite <- (flat_keys (fun r => match act_key C k r with Some (inl key) => [key] | _ => [] end) l1 l' Q).
      eapply Permutation_NoDup; [apply Permutation_flat_map, P|exact N].
    + apply (Permutation_Forall P) in U. clear - IH U Q. induction Q as [|a b l1 l' [Ek R] Q IHq]; constructor; inversion U; subst; eauto.
  - eapply IH; eassumption.
  - inversion R as [| | | | | |i j l l1 i' j' l' P Q E1 E2]; subst; try exact I. destruct U as [N U]. split.
    + unfold targets in *. rewrite <- (flat_keys (fun r => match act_field_for C O (wshape fs) r with Some j => [j] | None => [] end) l1 l' Q).
      eapply Permutation_NoDup; [apply Permutation_flat_map, P|exact N].
    + apply (Permutation_Forall P) in U. clear - IH U Q. induction Q as [|x y l1 l' [Ek R] Q IHq]; constructor; inversion U as [|? ? Ux Ur]; subst; [|eauto].
      rewrite <- Ek. destruct (act_field_for C O (wshape fs) (snd (fst x))) as [q|]; [|exact I]. rewrite nth_error_map in *. destruct (nth_error fs q) as [p|] eqn:Ep; [|exact I].
      cbn [option_map] in *. rewrite Forall_forall in IH. exact (IH p (nth_error_In _ _ Ep) _ _ R Ux).
Qed.
End Alike.

(** ** Theorems *)
Theorem C44_mixed_partial C O E dis T t stk D1 D2 s1 s2 v1 v2 a1 a2 h1 h2 g F1 F2 :
  wno_json t = true -> wdecoder_for C E dis T t stk D1 -> wdecoder_for C E dis T t stk D2 ->
  json_text s1 v1 -> json_text s2 v2 -> reordered v1 v2 -> wunlike C O t v1 ->
  wlast C O true t v1 -> wlast C O true t v2 -> wno_empty_number C O t v1 -> wno_empty_number C O t v2 ->
  wvariable C t h1 a1 g F1 -> wvariable C t h2 a2 g F2 ->
  (exists D1' D2' h1' h2' g1 g2 F1' F2',
     Decode C O stk D1 s1 (TOk (flat 0 v1)) (Some a1) h1 = Ret (-1) None D1' h1' /\ wvariable C t h1' a1 g1 F1' /\
     Decode C O stk D2 s2 (TOk (flat 0 v2)) (Some a2) h2 = Ret (-1) None D2' h2' /\ wvariable C t h2' a2 g2 F2' /\
     same_value g1 g2) \/
  (exists D1' D2' h1' h2' i1 i2 e1 e2,
     Decode C O stk D1 s1 (TOk (flat 0 v1)) (Some a1) h1 = Ret i1 (Some e1) D1' h1' /\
     Decode C O stk D2 s2 (TOk (flat 0 v2)) (Some a2) h2 = Ret i2 (Some e2) D2' h2').
Proof.
  intros NJ Df1 Df2 J1 J2 R U C1 C2 S1 S2 V1 V2.
  pose proof (C26_mixed_characterised_partial C O E dis T t stk D1 s1 v1 a1 h1 g F1 Df1 J1 C1 V1) as Q1.
  pose proof (C26_mixed_characterised_partial C O E dis T t stk D2 s2 v2 a2 h2 g F2 Df2 J2 C2 V2) as Q2.
  pose proof (wactual_typed C O s1 t v1 g (json_text_lexed _ _ J1) S1 (wrep_typed C t _ _ _ _ (proj1 V1))) as N1.
  pose proof (wactual_typed C O s2 t v2 g (json_text_lexed _ _ J2) S2 (wrep_typed C t _ _ _ _ (proj1 V2))) as N2.
  destruct (wactual C O s1 t v1 g) as [g1|i1 e1 g1|] eqn:E1; [| |contradiction].
  - destruct (wactual_reordered C O s1 s2 t NJ v1 v2 g g1 R U E1) as (g2 & E2 & Sm). rewrite E2 in Q2.
    destruct Q1 as (D1' & h1' & F1' & Q1 & W1 & _), Q2 as (D2' & h2' & F2' & Q2 & W2 & _). left.
    exists D1', D2', h1', h2', g1, g2, F1', F2'. auto.
  - destruct (wactual C O s2 t v2 g) as [g2|i2 e2 g2|] eqn:E2; [| |contradiction].
    + exfalso. destruct (wactual_reordered C O s2 s1 t NJ v2 v1 g g2 (reordered_sym _ _ R) (wunlike_reordered C O t _ _ R U) E2) as (g3 & E3 & _). congruence.
    + destruct Q1 as (D1' & h1' & F1' & Q1 & _), Q2 as (D2' & h2' & F2' & Q2 & _). right.
      exists D1', D2', h1', h2'. do 4 eexists. split; [exact Q1|exact Q2].
Qed.
Theorem C44_mixed_every_document_partial C O E dis T t stk D1 D2 s1 s2 v1 v2 a1 a2 h1 h2 g F1 F2 :
  wno_json t = true -> wdecoder_for C E dis T t stk D1 -> wdecoder_for C E dis T t stk D2 -> wany C O t = true -> wno_quoted_numbers t = true ->
  json_text s1 v1 -> json_text s2 v2 -> reordered v1 v2 -> wunlike C O t v1 ->
  wvariable C t h1 a1 g F1 -> wvariable C t h2 a2 g F2 ->
  (exists D1' D2' h1' h2' g1 g2 F1' F2',
     Decode C O stk D1 s1 (TOk (flat 0 v1)) (Some a1) h1 = Ret (-1) None D1' h1' /\ wvariable C t h1' a1 g1 F1' /\
     Decode C O stk D2 s2 (TOk (flat 0 v2)) (Some a2) h2 = Ret (-1) None D2' h2' /\ wvariable C t h2' a2 g2 F2' /\
     same_value g1 g2) \/
  (exists D1' D2' h1' h2' i1 i2 e1 e2,
     Decode C O stk D1 s1 (TOk (flat 0 v1)) (Some a1) h1 = Ret i1 (Some e1) D1' h1' /\
     Decode C O stk D2 s2 (TOk (flat 0 v2)) (Some a2) h2 = Ret i2 (Some e2) D2' h2').
Proof.
  intros NJ Df1 Df2 A N J1 J2 R U V1 V2.
  exact (C44_mixed_partial C O E dis T t stk D1 D2 s1 s2 v1 v2 a1 a2 h1 h2 g F1 F2 NJ Df1 Df2 J1 J2 R U
    (wany_last C O t A v1) (wany_last C O t A v2) (wno_quoted_nonempty C O t N v1) (wno_quoted_nonempty C O t N v2) V1 V2).
Qed.
Theorem C45_mixed_partial C O E dis T t stk D s v a h g F D1 h1 :
  wno_user t = true -> wdecoder_for C E dis T t stk D -> json_text s v -> wunlike C O t v -> wlast C O true t v -> wvariable C t h a g F ->
  Decode C O stk D s (TOk (flat 0 v)) (Some a) h = Ret (-1) None D1 h1 ->
  exists g1 F1 D2 h2 F2, wvariable C t h1 a g1 F1 /\
    Decode C O stk D1 s (TOk (flat 0 v)) (Some a) h1 = Ret (-1) None D2 h2 /\ wvariable C t h2 a g1 F2.
Proof.
  intros NU Df J U Ct V Q0.
  pose proof (C26_mixed_characterised_partial C O E dis T t stk D s v a h g F Df J Ct V) as Q.
  destruct (wactual C O s t v g) as [g1|i e g1|] eqn:E1; [| |rewrite Q in Q0; discriminate]; destruct Q as (D' & h' & F' & Q & V' & _); rewrite Q in Q0; [|injection Q0; intros; discriminate].
  injection Q0 as <- <-.
  assert (Df' : wdecoder_for C E dis T t stk D').
  { destruct Df as [A1 A2 A3 A4 A5]. constructor; try assumption. eapply wu_ok; [exact A5|exact J|exact Ct|exact Q]. }
  pose proof (C26_mixed_characterised_partial C O E dis T t stk D' s v a h' g1 F' Df' J Ct V') as Q2.
  rewrite (wactual_again C O s t NU v g g1 U E1) in Q2. destruct Q2 as (D2 & h2 & F2 & Q2 & V2 & _). exists g1, F', D2, h2, F2. auto.
Qed.
Theorem C45_mixed_every_document_partial C O E dis T t stk D s v a h g F D1 h1 :
  wno_user t = true -> wany C O t = true -> wdecoder_for C E dis T t stk D -> json_text s v -> wunlike C O t v -> wvariable C t h a g F ->
  Decode C O stk D s (TOk (flat 0 v)) (Some a) h = Ret (-1) None D1 h1 ->
  exists g1 F1 D2 h2 F2, wvariable C t h1 a g1 F1 /\
    Decode C O stk D1 s (TOk (flat 0 v)) (Some a) h1 = Ret (-1) None D2 h2 /\ wvariable C t h2 a g1 F2.
Proof. intros NU A Df J U V. exact (C45_mixed_partial C O E dis T t stk D s v a h g F D1 h1 NU Df J U (wany_last C O t A v) V). Qed.

(** ** Cases: a pointer to a map of linked structs, every object's members reversed *)
Definition mapp_text' : bytes := bs "{""\ud83d\ude00"":{""V"":2,""R"":{""V"":7}},  ""a"":{""V"":-1,""left"":{""R"":{},""V"":300}}}".
Definition mapp_doc' : jv := Eval vm_compute in tree_of mapp_text'.
Lemma mapp_texts : json_text mapp_text mapp_doc /\ json_text mapp_text' mapp_doc'.
Proof. split; apply parse_sound; vm_compute; reflexivity. Qed.
Lemma mapp_reordered : reordered mapp_doc mapp_doc'.
Proof.
  unfold mapp_doc, mapp_doc'.
  repeat match goal with
  | |- reordered (JObj _ _ _) _ => eapply ro_obj; [apply Permutation_rev|cbn [rev app]]
  | |- reordered _ _ => constructor
  | |- Forall2 _ _ _ => constructor
  | |- _ /\ _ => split; [reflexivity|cbn [snd]]
  end.
Qed.
Lemma mapp_unlike : wunlike wC strict mapp_wt mapp_doc.
Proof.
  unfold mapp_wt, mapp_doc. cbn [wunlike].
  split; [match goal with |- NoDup ?l => let x := eval vm_compute in l in change l with x end; nodup|].
  repeat match goal with
  | |- act_runlike _ _ _ _ => cbn [snd]; let n := fresh "n" in intros n
  | |- act_unlike_n _ _ _ ?n _ => is_var n; destruct n as [|n]; [exact I|cbn [act_unlike_n act_sunlike]]
  | |- _ /\ _ => split
  | |- NoDup (targets ?f ?l) => let x := eval vm_compute in (targets f l) in change (targets f l) with x; nodup
  | |- Forall _ _ => constructor
  | |- True => exact I
  | |- (fun _ => _) _ => cbn beta; cbn [snd fst]
  | |- match act_field_for ?c ?o ?fs ?k with Some _ => _ | None => _ end =>
      let x := eval vm_compute in (act_field_for c o fs k) in change (act_field_for c o fs k) with x; cbn [nth_error doc_node snd fst act_kunlike act_unlike]
  | |- match _ with _ => _ end => progress cbn [snd fst]
  end.
Qed.
Example C44_mixed_case : exists D1 D2 h1 h2 g1 g2 F1 F2,
  Decode wC strict mapp_stk (dyn0 mapp_stk) mapp_text (TOk (flat 0 mapp_doc)) dest (world 8) = Ret (-1) None D1 h1 /\ wvariable wC mapp_wt h1 (1%nat, 0) g1 F1 /\
  Decode wC strict mapp_stk (dyn0 mapp_stk) mapp_text' (TOk (flat 0 mapp_doc')) dest (world 8) = Ret (-1) None D2 h2 /\ wvariable wC mapp_wt h2 (1%nat, 0) g2 F2 /\ same_value g1 g2.
Proof.
  destruct mapp_texts as [J1 J2].
  pose proof (wvariable_new _ _ _ _ _ _ _ (world 8) (1%nat, 0) mapp_decoder (world_zero 8) (world_own 8)) as V.
  destruct (C44_mixed_every_document_partial wC strict E_doc false mapp_ty mapp_wt mapp_stk (dyn0 mapp_stk) (dyn0 mapp_stk) mapp_text mapp_text' mapp_doc mapp_doc' (1%nat, 0) (1%nat, 0) (world 8) (world 8)
    (wzero mapp_wt) [] [] eq_refl mapp_decoder mapp_decoder eq_refl eq_refl J1 J2 mapp_reordered mapp_unlike V V) as [H|H]; [exact H|].
  exfalso. destruct H as (D1' & D2' & h1' & h2' & i1 & i2 & e1 & e2 & H & _).
  destruct C26_mixed_every_document_case as (_ & _ & D' & h' & F' & Q & _). change (Some ((1%nat, 0) : addr)) with dest in H. pose proof (eq_trans (eq_sym H) Q) as X. discriminate X.
Qed.
Example C45_mixed_case : exists D1 h1 g1 F1 D2 h2 F2,
  Decode wC strict mapp_stk (dyn0 mapp_stk) mapp_text (TOk (flat 0 mapp_doc)) dest (world 8) = Ret (-1) None D1 h1 /\ wvariable wC mapp_wt h1 (1%nat, 0) g1 F1 /\
  Decode wC strict mapp_stk D1 mapp_text (TOk (flat 0 mapp_doc)) dest h1 = Ret (-1) None D2 h2 /\ wvariable wC mapp_wt h2 (1%nat, 0) g1 F2.
Proof.
  destruct mapp_texts as [J1 _]. destruct C26_mixed_every_document_case as (_ & _ & D1 & h1 & F' & Q & _).
  pose proof (wvariable_new _ _ _ _ _ _ _ (world 8) (1%nat, 0) mapp_decoder (world_zero 8) (world_own 8)) as V.
  destruct (C45_mixed_every_document_partial wC strict E_doc false mapp_ty mapp_wt mapp_stk (dyn0 mapp_stk) mapp_text mapp_doc (1%nat, 0) (world 8) (wzero mapp_wt) [] D1 h1
    eq_refl eq_refl mapp_decoder J1 mapp_unlike V Q) as (g1 & F1 & D2 & h2 & F2 & V1 & Q2 & V2).
  exists D1, h1, g1, F1, D2, h2, F2. auto.
Qed.

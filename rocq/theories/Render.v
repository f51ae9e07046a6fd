(** Compact JSON text of a document tree, and the tree with the positions in that text. *)
From Verif Require Import Base NumSpec StrSpec Token Parse.
Open Scope nat_scope.

Fixpoint commas (l : list bytes) : bytes :=
  match l with [] => [] | x :: r => match r with [] => x | _ => x ++ 44%Z :: commas r end end.
Definition quote (r : bytes) : bytes := 34%Z :: r ++ [34%Z].
(** The text of a tree (its positions are ignored). *)
Fixpoint render (v : jv) : bytes :=
  match v with
  | JNull _ => bs "null"
  | JBool _ b => if b then bs "true" else bs "false"
  | JInt _ r | JNum _ r => r
  | JStr _ r => quote r
  | JArr _ _ l => 91%Z :: commas (map render l) ++ [93%Z]
  | JObj _ _ l => 123%Z :: commas (map (fun x => quote (snd (fst x)) ++ 58%Z :: render (snd x)) l) ++ [125%Z]
  end.
Definition render_member (x : (nat * bytes) * jv) : bytes := quote (snd (fst x)) ++ 58%Z :: render (snd x).
(** The same tree, placed at byte [k]. *)
Fixpoint place (k : nat) (v : jv) : jv :=
  match v with
  | JNull _ => JNull k
  | JBool _ b => JBool k b
  | JInt _ r => JInt k r
  | JNum _ r => JNum k r
  | JStr _ r => JStr k r
  | JArr _ _ l => JArr k (S k + length (commas (map render l)))
      ((fix go k l := match l with [] => [] | x :: r => place k x :: go (S (k + length (render x))) r end) (S k) l)
  | JObj _ _ l => JObj k (S k + length (commas (map render_member l)))
      ((fix go k l := match l with
        | [] => []
        | x :: r => ((k, snd (fst x)), place (k + length (snd (fst x)) + 3) (snd x)) :: go (S (k + length (render_member x))) r
        end) (S k) l)
  end.
Fixpoint places (k : nat) (l : list jv) : list jv := match l with [] => [] | x :: r => place k x :: places (S (k + length (render x))) r end.
Fixpoint placem (k : nat) (l : list ((nat * bytes) * jv)) : list ((nat * bytes) * jv) :=
  match l with
  | [] => []
  | x :: r => ((k, snd (fst x)), place (k + length (snd (fst x)) + 3) (snd x)) :: placem (S (k + length (render_member x))) r
  end.
Lemma place_arr k i j l : place k (JArr i j l) = JArr k (S k + length (commas (map render l))) (places (S k) l).
Proof. reflexivity. Qed.
Lemma place_obj k i j l : place k (JObj i j l) = JObj k (S k + length (commas (map render_member l))) (placem (S k) l).
Proof. reflexivity. Qed.
(** The lexemes follow the grammar. *)
Fixpoint wf (v : jv) : Prop :=
  match v with
  | JInt _ r => json_int r
  | JNum _ r => json_nonint r
  | JStr _ r => string_body r
  | JArr _ _ l => (fix go l := match l with [] => True | x :: r => wf x /\ go r end) l
  | JObj _ _ l => (fix go l := match l with [] => True | x :: r => (string_body (snd (fst x)) /\ wf (snd x)) /\ go r end) l
  | _ => True
  end.
Lemma wf_arr i j l : wf (JArr i j l) <-> Forall wf l.
Proof. cbn. induction l as [|x l IH]; [split; [constructor|tauto]|]. rewrite Forall_cons_iff. tauto. Qed.
Lemma wf_obj i j l : wf (JObj i j l) <-> Forall (fun x => string_body (snd (fst x)) /\ wf (snd x)) l.
Proof. cbn. induction l as [|x l IH]; [split; [constructor|tauto]|]. rewrite Forall_cons_iff. tauto. Qed.

Section Text.
Variable s : bytes.
Lemma ws_here i l : rest s i l -> ws s i i.
Proof. intros R. exists []. apply (rest_app s i [] l) in R as [R _]. repeat split; [exact R|cbn; lia|constructor]. Qed.
Lemma rest_next i a b : rest s i (a ++ b) -> rest s (i + length a) b.
Proof. apply rest_app. Qed.
Lemma rest_one i c r : rest s i (c :: r) -> rest s (S i) r.
Proof. apply rest_cons. Qed.

Definition rendered (v : jv) : Prop := forall i t, rest s i (render v ++ t) -> value s i (place i v) (i + length (render v)).
Lemma elements_render l : Forall rendered l -> l <> [] -> forall i t, rest s i (commas (map render l) ++ t) ->
  elements s i (places i l) (i + length (commas (map render l))).
Proof.
  induction 1 as [|x l Hx H IH]; intros N i t R; [congruence|]. destruct l as [|y l].
  - cbn [map commas places] in *. eapply e_one; [eapply ws_here, R|eapply Hx, R|eapply ws_here, rest_next, R].
  - change (commas (map render (x :: y :: l))) with (render x ++ 44%Z :: commas (map render (y :: l))) in *. rewrite <- app_assoc in R.
    pose proof (rest_next _ _ _ R) as R2. cbn [app] in R2. pose proof (rest_cons _ _ _ _ R2) as [Oc R3].
    change (places i (x :: y :: l)) with (place i x :: places (S (i + length (render x))) (y :: l)).
    replace (i + length (render x ++ 44%Z :: commas (map render (y :: l)))) with (S (i + length (render x)) + length (commas (map render (y :: l)))) by (rewrite app_length; cbn [length]; lia).
    eapply e_cons; [eapply ws_here, R|eapply Hx, R|eapply ws_here, R2|exact Oc|]. eapply IH; [congruence|exact R3].
Qed.
Lemma member_render x : string_body (snd (fst x)) -> rendered (snd x) -> forall i t, rest s i (render_member x ++ t) ->
  member s i ((i, snd (fst x)), place (i + length (snd (fst x)) + 3) (snd x)) (i + length (render_member x)).
Proof.
  intros B Hx i t R. unfold render_member in *. rewrite <- app_assoc in R. pose proof (rest_app _ _ _ _ R) as [O1 R1]. cbn [app] in R1.
  assert (L : i + length (quote (snd (fst x))) = i + length (snd (fst x)) + 2) by (unfold quote; cbn [length]; rewrite app_length; cbn; lia). rewrite L in R1.
  pose proof (rest_cons _ _ _ _ R1) as [O2 R2]. replace (S (i + length (snd (fst x)) + 2)) with (i + length (snd (fst x)) + 3) in R2 by lia.
  replace (i + length (quote (snd (fst x)) ++ 58%Z :: render (snd x))) with (i + length (snd (fst x)) + 3 + length (render (snd x))) by (rewrite app_length; cbn [length]; lia).
  eapply m_mem with (c := i + length (snd (fst x)) + 2) (d := i + length (snd (fst x)) + 3);
    [eapply ws_here, R|exact O1|exact B|eapply ws_here, R1|exact O2| |eapply Hx, R2|eapply ws_here, rest_next, R2].
  replace (S (i + length (snd (fst x)) + 2)) with (i + length (snd (fst x)) + 3) by lia. eapply ws_here, R2.
Qed.
Lemma members_render l : Forall (fun x => string_body (snd (fst x)) /\ rendered (snd x)) l -> l <> [] -> forall i t, rest s i (commas (map render_member l) ++ t) ->
  members s i (placem i l) (i + length (commas (map render_member l))).
Proof.
  induction 1 as [|x l [Bx Hx] H IH]; intros N i t R; [congruence|]. destruct l as [|y l].
  - cbn [map commas placem] in *. apply m_one. eapply member_render; eauto.
  - change (commas (map render_member (x :: y :: l))) with (render_member x ++ 44%Z :: commas (map render_member (y :: l))) in *. rewrite <- app_assoc in R.
    pose proof (rest_next _ _ _ R) as R2. cbn [app] in R2. pose proof (rest_cons _ _ _ _ R2) as [Oc R3].
    change (placem i (x :: y :: l)) with (((i, snd (fst x)), place (i + length (snd (fst x)) + 3) (snd x)) :: placem (S (i + length (render_member x))) (y :: l)).
    replace (i + length (render_member x ++ 44%Z :: commas (map render_member (y :: l)))) with (S (i + length (render_member x)) + length (commas (map render_member (y :: l)))) by (rewrite app_length; cbn [length]; lia).
    eapply m_cons; [eapply member_render; eauto|exact Oc|]. eapply IH; [congruence|exact R3].
Qed.
Lemma value_render v : wf v -> rendered v.
Proof.
  unfold rendered. induction v as [i0|i0 b|i0 r|i0 r|i0 r|i0 j0 l IH|i0 j0 l IH] using jv_ind'; intros W i t R.
  - apply v_null. apply rest_app in R. apply R.
  - destruct b; [apply v_true|apply v_false]; apply rest_app in R; apply R.
  - apply v_int; [apply rest_app in R; apply R|exact W].
  - apply v_num; [apply rest_app in R; apply R|exact W].
  - cbn [render place] in *. replace (i + length (quote r)) with (i + length r + 2) by (unfold quote; cbn [length]; rewrite app_length; cbn; lia).
    apply v_str; [apply rest_app in R; apply R|exact W].
  - apply wf_arr in W. rewrite place_arr. cbn [render] in *. cbn [app] in R. rewrite <- app_assoc in R.
    pose proof (rest_cons _ _ _ _ R) as [O1 R1]. pose proof (rest_next _ _ _ R1) as R2. cbn [app] in R2. pose proof (rest_cons _ _ _ _ R2) as [O2 _].
    replace (i + length (91%Z :: commas (map render l) ++ [93%Z])) with (S (S i + length (commas (map render l)))) by (cbn [length]; rewrite app_length; cbn; lia).
    destruct l as [|x l].
    + cbn [map commas length places placem] in *. rewrite Nat.add_0_r in *. apply v_arr0; [exact O1|eapply ws_here, R1|exact O2].
    + apply v_arr; [exact O1| |exact O2]. eapply elements_render; [|congruence|exact R1]. rewrite Forall_forall in *. intros y Hy i1 t1. apply IH; [exact Hy|apply W, Hy].
  - apply wf_obj in W. rewrite place_obj. cbn [render] in *. fold render_member in *. cbn [app] in R. rewrite <- app_assoc in R.
    pose proof (rest_cons _ _ _ _ R) as [O1 R1]. pose proof (rest_next _ _ _ R1) as R2. cbn [app] in R2. pose proof (rest_cons _ _ _ _ R2) as [O2 _].
    replace (i + length (123%Z :: commas (map render_member l) ++ [125%Z])) with (S (S i + length (commas (map render_member l)))) by (cbn [length]; rewrite app_length; cbn; lia).
    destruct l as [|x l].
    + cbn [map commas length places placem] in *. rewrite Nat.add_0_r in *. apply v_obj0; [exact O1|eapply ws_here, R1|exact O2].
    + apply v_obj; [exact O1| |exact O2]. eapply members_render; [|congruence|exact R1]. rewrite Forall_forall in *. intros y Hy. split; [apply W, Hy|]. intros i1 t1. apply IH; [exact Hy|apply W, Hy].
Qed.
End Text.

(** The rendered text is a JSON text with this tree. *)
Theorem render_text v : wf v -> json_text (render v) (place 0 v).
Proof.
  intros W. assert (R : rest (render v) 0 (render v ++ [])) by (split; [lia|rewrite app_nil_r; reflexivity]).
  exists 0, (length (render v)). split; [eapply ws_here, R|]. split; [exact (value_render _ v W 0 [] R)|].
  eapply ws_here. split; [lia|apply skipn_all].
Qed.

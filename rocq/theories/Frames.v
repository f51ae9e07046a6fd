(** The frames NewDecoder makes, for every Go type.

    [visits T U]: NewDecoder looks at [U] when it looks at [T].  It is a specification,
    written over the Go types only. *)
From Verif Require Import Base Lookup Types AppendType Dt Elab Elaborate.
Open Scope Z_scope.

Section Frames.
Variables (w64 : bool) (E : env) (disallow : bool).
Notation append := (AppendType.append w64 E disallow).

(** Element types for which there are specialised slices: []bool, []string, []int...,
    []float..., and slices of structs of size zero. *)
Definition special_elem (U : ty) : Prop :=
  match under E U with
  | TBool | TStr | TInt _ | TFloat _ => True
  | TStruct _ _ _ => tsize w64 E U < 1
  | _ => False
  end.
(** Type [T] has a field of type [U]; [q]: with the `string` option.  Ignored fields
    (tag -) do not count. *)
Definition has_field (T : ty) (f : fld) (U : ty) (name : bytes) (q : bool) : Prop :=
  exists id z l, under E T = TStruct id z l /\ In (f, U) l /\ known_as f name q.
Inductive visits (T U : ty) : Prop :=
| v_arr n : plain E T -> under E T = TArr (S n) U -> visits T U
| v_slice : plain E T -> under E T = TSlice U -> ~ special_elem U -> visits T U
| v_key V : plain E T -> under E T = TMap U V -> ~ (stringy E U /\ stringy E V) -> visits T U
| v_val K : plain E T -> under E T = TMap K U -> ~ (stringy E K /\ stringy E U) -> visits T U
| v_ptr : plain E T -> under E T = TPtr U -> visits T U
| v_field f name q : plain E T -> has_field T f U name q -> visits T U.
Inductive reaches (T : ty) : ty -> Prop :=
| r_refl : reaches T T
| r_step U V : reaches T U -> visits U V -> reaches T V.
(** Types with a meaning for the `string` option. *)
Definition quotable (U : ty) : Prop :=
  plain E U /\ match under E U with TBool | TStr | TInt _ | TFloat _ => True | _ => False end.
Definition misquotes (T : ty) : Prop :=
  plain E T /\ exists f U name, has_field T f U name true /\ ~ quotable U.
(** Kinds NewDecoder rejects. *)
Definition rejected (T : ty) : Prop :=
  plain E T /\ match under E T with TOther | TIfaceM | TNamed _ => True | _ => False end.

Lemma reaches_trans T U V : reaches T U -> reaches U V -> reaches T V.
Proof. intros H1 H2. induction H2; [exact H1|]. eapply r_step; eassumption. Qed.
Lemma reaches_first T U V : visits T U -> reaches U V -> reaches T V.
Proof. intros H. apply reaches_trans. eapply r_step; [apply r_refl|exact H]. Qed.

Lemma slice_fast_none U : slice_fast w64 E U = None <-> ~ special_elem U.
Proof.
  assert (T1 : forall e : et, Some e = None <-> ~ True) by (intros; split; [discriminate|intros H; destruct (H I)]).
  assert (T2 : @None et = None <-> ~ False) by (split; [intros _ []|reflexivity]).
  unfold slice_fast, special_elem. destruct (under E U); try apply T1; try apply T2.
  destruct (Z.ltb_spec (tsize w64 E U) 1); split; try discriminate; try reflexivity; intros H'; lia.
Qed.
Lemma kind_string_spec U : kind_string E U = true <-> stringy E U.
Proof. unfold kind_string, stringy. destruct (under E U); split; intros H; try discriminate; auto; destruct H; discriminate. Qed.
Lemma not_both K V : kind_string E K && kind_string E V = false <-> ~ (stringy E K /\ stringy E V).
Proof.
  rewrite <- !kind_string_spec. destruct (kind_string E K), (kind_string E V); cbn; (split; [intros H; try discriminate; intros [A B]; discriminate|]); intros H; try reflexivity.
  exfalso. apply H. auto.
Qed.

(** ** The result as a relation *)
Definition leafy (T : ty) (f : frame) : Prop :=
  (exists r, json_support E T = Some r /\ f = set_rt r (mkfr EJSON (tsize w64 E T))) \/
  (exists r, json_support E T = None /\ text_support E T = Some r /\ f = set_rt r (mkfr EText (tsize w64 E T))) \/
  plain E T /\
    ((under E T = TAny /\ f = mkfr EAny (2 * wb w64)) \/
     (exists U, under E T = TArr 0 U /\ f = mkfr EArray0 0) \/
     (exists U e, under E T = TSlice U /\ slice_fast w64 E U = Some e /\ f = mkfr e (3 * wb w64)) \/
     (exists K V, under E T = TMap K V /\ stringy E K /\ stringy E V /\ f = set_rt ROther (mkfr EMapSS (wb w64))) \/
     (exists id z, under E T = TStruct id z [] /\ f = mkfr EEmptyStruct (tsize w64 E T)) \/
     (under E T = TBool /\ f = mkfr EBool 1) \/ (under E T = TStr /\ f = mkfr EStr (2 * wb w64)) \/
     (under E T = TNumber /\ f = mkfr ENumber (2 * wb w64)) \/
     (exists k, under E T = TInt k /\ f = mkfr (EInt k) (wsize w64 (nk_w k))) \/
     (exists b, under E T = TFloat b /\ f = mkfr (EF b) (fsize b))).
Definition struct_frame (T : ty) : frame :=
  match struct_id E T with Some r => set_rt r (mkfr EStruct (tsize w64 E T)) | None => mkfr EStruct (tsize w64 E T) end.

Inductive app : list frame -> ty -> list frame -> Prop :=
| a_leaf stk T f : leafy T f -> app stk T (stk ++ [f])
| a_arr stk T n U stk1 : plain E T -> under E T = TArr (S n) U ->
    app (stk ++ [mkfr EArray (tsize w64 E T)]) U stk1 ->
    app stk T (upd stk1 (S (length stk)) (fun f => set_cap (Z.of_nat (S n)) (set_parent (length stk) f)))
| a_slice_rec stk T U i : plain E T -> under E T = TSlice U -> ~ special_elem U -> find_recur w64 E stk U = Some i ->
    app stk T (mark stk i ++ [set_recur i (mkfr ESliceRecur (3 * wb w64))])
| a_slice stk T U stk1 : plain E T -> under E T = TSlice U -> ~ special_elem U -> find_recur w64 E stk U = None ->
    app (stk ++ [mkfr ESlice (3 * wb w64)]) U stk1 -> app stk T (upd stk1 (S (length stk)) (set_parent (length stk)))
| a_map_rec stk T K V i stk1 : plain E T -> under E T = TMap K V -> find_recur w64 E stk V = Some i ->
    app (mark stk i ++ [set_recur i (set_vsize (tsize w64 E V) (mkfr EMapRecur (wb w64)))]) K stk1 ->
    app stk T (upd stk1 (S (length stk)) (set_parent (length stk)))
| a_map stk T K V stk1 stk2 : plain E T -> under E T = TMap K V -> find_recur w64 E stk V = None -> ~ (stringy E K /\ stringy E V) ->
    app (stk ++ [set_rt ROther (set_vsize (tsize w64 E V) (mkfr EMap (wb w64)))]) K stk1 ->
    app (upd stk1 (S (length stk)) (set_parent (length stk))) V stk2 ->
    app stk T (upd stk2 (length stk1) (set_parent (length stk)))
| a_ptr_rec stk T U i : plain E T -> under E T = TPtr U -> find_recur w64 E stk U = Some i ->
    app stk T (mark stk i ++ [set_recur i (mkfr EPtrRecur (wb w64))])
| a_ptr stk T U stk1 : plain E T -> under E T = TPtr U -> find_recur w64 E stk U = None ->
    app (stk ++ [mkfr EPtr (wb w64)]) U stk1 -> app stk T (upd stk1 (S (length stk)) (set_parent (length stk)))
| a_struct stk T id z l stk1 : plain E T -> under E T = TStruct id z l -> l <> [] ->
    app_fields (length stk) (stk ++ [struct_frame T]) l stk1 -> app stk T stk1
with app_fields : nat -> list frame -> list (fld * ty) -> list frame -> Prop :=
| af_nil p stk : app_fields p stk [] stk
| af_skip p stk f U l stk' : ignored f -> app_fields p stk l stk' -> app_fields p stk ((f, U) :: l) stk'
| af_field p stk f U l stk1 name q g stk' : known_as f name q -> app stk U stk1 ->
    (g = (fun c => c) /\ (q = true -> forall c, nth_error stk1 (length stk) = Some c -> string_type (f_ty c) = None) \/ (q = true /\ exists c e, nth_error stk1 (length stk) = Some c /\ string_type (f_ty c) = Some e /\ g = set_ty e)) ->
    (q = true -> disallow = true -> exists c e, nth_error stk1 (length stk) = Some c /\ string_type (f_ty c) = Some e) ->
    app_fields p (upd (upd (upd stk1 p (fun x => set_fields (f_fields x ++ [(name, length stk)]) x))
                           (length stk) (fun c => set_parent p (set_off (fd_off f) c))) (length stk) g) l stk' ->
    app_fields p stk ((f, U) :: l) stk'.
Scheme app_ind2 := Induction for app Sort Prop with app_fields_ind2 := Induction for app_fields Sort Prop.
Combined Scheme app_mut from app_ind2, app_fields_ind2.

Lemma upd_id {A} (l : list A) i : upd l i (fun c => c) = l.
Proof. revert i. induction l as [|x l IH]; intros [|i]; cbn; congruence. Qed.
Lemma mark_length stk i : length (mark stk i) = length stk.
Proof. apply upd_length. Qed.

Lemma append_app fuel : forall stk T stk', append fuel stk T = AOk stk' -> app stk T stk'.
Proof.
  induction fuel as [|fuel IH]; intros stk T stk' H; [discriminate|]. cbn [AppendType.append] in H.
  destruct (json_support E T) as [r|] eqn:Ej; [injection H as <-; apply a_leaf; left; eauto|].
  destruct (text_support E T) as [r|] eqn:Et; [injection H as <-; apply a_leaf; right; left; eauto|].
  pose proof (supports_plain E T Ej Et) as Pl.
  assert (Lf : forall f, leafy T f -> AOk (stk ++ [f]) = AOk stk' -> app stk T stk') by (intros f Hf [= <-]; apply a_leaf, Hf).
  assert (L1 : forall x : frame, length (stk ++ [x]) = S (length stk)) by (intros; rewrite app_length; cbn; lia).
  assert (L2 : forall i (x : frame), length (mark stk i ++ [x]) = S (length stk)) by (intros; rewrite app_length, mark_length; cbn; lia).
  destruct (under E T) as [| | |k|b| | | |n U|U|K V|U|id z l|i] eqn:Eu; try discriminate.
  1-6: (eapply Lf; [|exact H]; right; right; split; [exact Pl|]; eauto 20).
  - destruct n as [|n]; [eapply Lf; [|exact H]; right; right; split; [exact Pl|]; eauto 20|].
    destruct (append fuel _ U) as [stk1| | | |] eqn:E1; try discriminate. injection H as <-. rewrite L1. eapply a_arr; eauto.
  - destruct (slice_fast w64 E U) as [e|] eqn:Es; [eapply Lf; [|exact H]; right; right; split; [exact Pl|]; eauto 20|].
    pose proof (proj1 (slice_fast_none U) Es) as Ns.
    destruct (find_recur w64 E stk U) as [i|] eqn:Ef; [injection H as <-; eapply a_slice_rec; eauto|].
    destruct (append fuel _ U) as [stk1| | | |] eqn:E1; try discriminate. injection H as <-. rewrite L1. eapply a_slice; eauto.
  - destruct (find_recur w64 E stk V) as [i|] eqn:Ef.
    + destruct (append fuel _ K) as [stk1| | | |] eqn:E1; try discriminate. injection H as <-. rewrite L2. eapply a_map_rec; eauto.
    + destruct (kind_string E K && kind_string E V) eqn:Ek.
      * apply andb_prop in Ek as [K1 K2]. apply kind_string_spec in K1, K2. eapply Lf; [|exact H]. right; right; split; [exact Pl|]. do 3 right. left. eauto 10.
      * apply not_both in Ek. destruct (append fuel _ K) as [stk1| | | |] eqn:E1; try discriminate. rewrite L1 in H.
        destruct (append fuel _ V) as [stk2| | | |] eqn:E2; try discriminate. injection H as <-.
        rewrite upd_length. eapply a_map; eauto.
  - destruct (find_recur w64 E stk U) as [i|] eqn:Ef; [injection H as <-; eapply a_ptr_rec; eauto|].
    destruct (append fuel _ U) as [stk1| | | |] eqn:E1; try discriminate. injection H as <-. rewrite L1. eapply a_ptr; eauto.
  - destruct l as [|x l]; [eapply Lf; [|exact H]; right; right; split; [exact Pl|]; eauto 20|].
    eapply a_struct; [exact Pl|exact Eu|discriminate|].
    assert (G : forall l p stk stk', fields_loop w64 E disallow fuel p l stk = AOk stk' -> app_fields p stk l stk').
    { clear - IH. induction l as [|[f U] l IHl]; intros p stk stk' H; [injection H as <-; constructor|]. cbn [fields_loop] in H.
      pose proof (name_spec f) as Nf. destruct (field_name f) as [[name q]|]; [|apply af_skip; [exact Nf|apply IHl, H]].
      destruct (append fuel stk U) as [stk1| | | |] eqn:E1; try discriminate. cbv zeta in H. destruct q.
      - rewrite upd_nth, Nat.eqb_refl in H. destruct (nth_error (upd stk1 p _) (length stk)) as [c0|] eqn:Ec0; [|discriminate]. cbn [option_map set_parent set_off f_ty] in H.
        assert (exists c, nth_error stk1 (length stk) = Some c /\ f_ty c = f_ty c0) as (c & Hc & Tc).
        { rewrite upd_nth in Ec0. destruct (Nat.eqb p (length stk)); [|exists c0; auto]. destruct (nth_error stk1 (length stk)) as [c|]; [|discriminate]. injection Ec0 as <-. eauto. }
        destruct (string_type (f_ty c0)) as [e|] eqn:Es.
        + eapply af_field; [exact Nf|apply IH, E1|right; split; [reflexivity|]; exists c, e; split; [exact Hc|]; split; [congruence|reflexivity]| |apply IHl, H].
          intros _ _. exists c, e. split; [exact Hc|congruence].
        + destruct disallow eqn:Ed; [discriminate|]. eapply af_field; [exact Nf|apply IH, E1|left; split; [reflexivity|intros _ c1 Hc1; congruence]|intros _ Q; congruence|]. rewrite upd_id. apply IHl, H.
      - eapply af_field; [exact Nf|apply IH, E1|left; split; [reflexivity|discriminate]|intros Q; discriminate Q|]. rewrite upd_id. apply IHl, H. }
    apply G. exact H.
Qed.

(** ** What happens to earlier frames: a struct may be marked as recursive *)
Definition kept (f f' : frame) : Prop :=
  f' = f \/ (f' = set_ty EStructRecur f /\ exists r, f_rt f = Some r /\ r <> ROther).
Definition keeps (stk stk' : list frame) : Prop :=
  (length stk <= length stk')%nat /\ forall j f, nth_error stk j = Some f -> exists f', nth_error stk' j = Some f' /\ kept f f'.
(** ... and the fields of the struct at [p] are added. *)
Definition keeps_but (p : nat) (stk stk' : list frame) : Prop :=
  (length stk <= length stk')%nat /\ forall j f, nth_error stk j = Some f -> exists f', nth_error stk' j = Some f' /\
    (if Nat.eqb j p then exists l, kept (set_fields l f) f' else kept f f').

Lemma kept_refl f : kept f f.
Proof. left. reflexivity. Qed.
Lemma kept_trans a b c : kept a b -> kept b c -> kept a c.
Proof.
  intros [->|(-> & r & R & N)]; [auto|]. intros [->|(-> & r' & R' & N')]; right; (split; [reflexivity|]); eauto.
Qed.
Lemma kept_fields a b l : kept a b -> kept (set_fields l a) (set_fields l b).
Proof. intros [->|(-> & r & R & N)]; [left; reflexivity|]. right. split; [reflexivity|]. exists r. split; assumption. Qed.
Lemma keeps_refl stk : keeps stk stk.
Proof. split; [lia|]. intros j f H. exists f. split; [exact H|apply kept_refl]. Qed.
Lemma keeps_trans a b c : keeps a b -> keeps b c -> keeps a c.
Proof.
  intros [L1 H1] [L2 H2]. split; [lia|]. intros j f Hf. destruct (H1 j f Hf) as (f1 & Hf1 & K1). destruct (H2 j f1 Hf1) as (f2 & Hf2 & K2).
  exists f2. split; [exact Hf2|eapply kept_trans; eassumption].
Qed.
Lemma keeps_app stk l : keeps stk (stk ++ l).
Proof. split; [rewrite app_length; lia|]. intros j f Hf. exists f. split; [|apply kept_refl]. rewrite nth_error_app1; [exact Hf|]. apply nth_error_Some. congruence. Qed.
Lemma find_rt_some stk r : r <> ROther -> forall k i, find_rt stk k r = Some i -> (k <= i)%nat /\ exists f, nth_error stk (i - k) = Some f /\ f_rt f = Some r.
Proof.
  intros Nr. induction stk as [|f stk IH]; intros k i H; [discriminate|]. cbn [find_rt] in H.
  assert (Rec : find_rt stk (S k) r = Some i -> (k <= i)%nat /\ exists g, nth_error (f :: stk) (i - k) = Some g /\ f_rt g = Some r).
  { intros H'. destruct (IH _ _ H') as (L & g & Hg & Rg). split; [lia|]. exists g. replace (i - k)%nat with (S (i - S k))%nat by lia. split; assumption. }
  destruct (f_rt f) as [r'|] eqn:Er; [|apply Rec, H]. destruct (rtid_eqb r' r) eqn:Eq; [|apply Rec, H]. injection H as <-. split; [lia|].
  exists f. rewrite Nat.sub_diag. split; [reflexivity|]. rewrite Er. f_equal. destruct r', r; cbn in Eq; try discriminate; apply Nat.eqb_eq in Eq; congruence.
Qed.
Lemma find_recur_some stk U i : find_recur w64 E stk U = Some i ->
  exists f r, nth_error stk i = Some f /\ f_rt f = Some r /\ identity E U = Some r /\ r <> ROther /\ 0 < tsize w64 E U.
Proof.
  unfold find_recur. rewrite identity_struct_id. destruct (identity E U) as [r|] eqn:Ei; [|discriminate].
  destruct (Z.ltb_spec 0 (tsize w64 E U)); [|discriminate]. intros H'. pose proof (identity_not_other E U r Ei) as N.
  destruct (find_rt_some stk r N 0 i H') as (_ & f & Hf & Rf). rewrite Nat.sub_0_r in Hf. exists f, r. auto.
Qed.
Lemma keeps_mark stk i f r : nth_error stk i = Some f -> f_rt f = Some r -> r <> ROther -> keeps stk (mark stk i).
Proof.
  intros Hf Hr N. split; [rewrite mark_length; lia|]. intros j g Hg. unfold mark. rewrite upd_nth. destruct (Nat.eqb_spec i j) as [<-|Nj].
  - rewrite Hg. cbn. exists (set_ty EStructRecur g). split; [reflexivity|]. right. split; [reflexivity|]. exists r. split; congruence.
  - exists g. split; [exact Hg|apply kept_refl].
Qed.
Lemma keeps_mark_app stk U i x : find_recur w64 E stk U = Some i -> keeps stk (mark stk i ++ [x]).
Proof.
  intros H. destruct (find_recur_some _ _ _ H) as (f & r & Hf & Hr & _ & N & _). eapply keeps_trans; [eapply keeps_mark; eassumption|apply keeps_app].
Qed.
Lemma keeps_upd stk stk1 i g : keeps stk stk1 -> (length stk <= i)%nat -> keeps stk (upd stk1 i g).
Proof.
  intros [L H] Hi. split; [rewrite upd_length; exact L|]. intros j f Hf. assert (j < length stk)%nat by (apply nth_error_Some; congruence).
  rewrite upd_nth. destruct (Nat.eqb_spec i j); [lia|]. apply H, Hf.
Qed.
Lemma keeps_sub a b c : keeps (a ++ b) c -> keeps a c.
Proof. apply keeps_trans, keeps_app. Qed.

Lemma app_keeps :
  (forall stk T stk', app stk T stk' -> keeps stk stk' /\ (length stk < length stk')%nat) /\
  (forall p stk l stk', app_fields p stk l stk' -> (p < length stk)%nat -> keeps_but p stk stk').
Proof.
  apply app_mut.
  - intros stk T f _. split; [apply keeps_app|rewrite app_length; cbn; lia].
  - intros stk T n U stk1 _ _ _ [K L]. rewrite app_length in L. cbn in L. rewrite upd_length. split; [|lia].
    apply keeps_upd; [eapply keeps_sub, K|lia].
  - intros stk T U i _ _ _ H. split; [eapply keeps_mark_app, H|rewrite app_length, mark_length; cbn; lia].
  - intros stk T U stk1 _ _ _ _ _ [K L]. rewrite app_length in L. cbn in L. rewrite upd_length. split; [|lia].
    apply keeps_upd; [eapply keeps_sub, K|lia].
  - intros stk T K V i stk1 _ _ H _ [Kp L]. rewrite app_length, mark_length in L. cbn in L. rewrite upd_length. split; [|lia].
    apply keeps_upd; [|lia]. eapply keeps_trans; [eapply keeps_mark_app, H|exact Kp].
  - intros stk T K V stk1 stk2 _ _ _ _ _ [K1 L1] _ [K2 L2]. rewrite app_length in L1. cbn in L1. rewrite upd_length in *. split; [|lia].
    apply keeps_upd; [|lia]. eapply keeps_trans; [|exact K2]. apply keeps_upd; [eapply keeps_sub, K1|lia].
  - intros stk T U i _ _ H. split; [eapply keeps_mark_app, H|rewrite app_length, mark_length; cbn; lia].
  - intros stk T U stk1 _ _ _ _ [K L]. rewrite app_length in L. cbn in L. rewrite upd_length. split; [|lia].
    apply keeps_upd; [eapply keeps_sub, K|lia].
  - intros stk T id z l stk1 _ _ _ _ IH. rewrite app_length in IH. cbn in IH. destruct (IH ltac:(lia)) as [L K]. rewrite app_length in L. cbn in L.
    split; [|lia]. split; [lia|]. intros j f Hf. assert (j < length stk)%nat by (apply nth_error_Some; congruence).
    destruct (K j f) as (f' & Hf' & Kf); [rewrite nth_error_app1 by lia; exact Hf|]. destruct (Nat.eqb_spec j (length stk)); [lia|]. eauto.
  - intros p stk Hp. split; [lia|]. intros j f Hf. exists f. split; [exact Hf|]. destruct (Nat.eqb j p); [|apply kept_refl]. exists (f_fields f). destruct f; apply kept_refl.
  - intros p stk f U l stk' _ _ IH Hp. apply IH, Hp.
  - intros p stk f U l stk1 name q g stk' _ _ [K1 L1] Hg _ _ IH Hp. rewrite !upd_length in IH. destruct (IH ltac:(lia)) as [L2 K2]. rewrite !upd_length in L2.
    split; [lia|]. intros j c Hc. assert (j < length stk)%nat by (apply nth_error_Some; congruence).
    destruct K1 as [_ K1]. destruct (K1 j c Hc) as (c1 & Hc1 & Kc1).
    specialize (K2 j (if Nat.eqb p j then set_fields (f_fields c1 ++ [(name, length stk)]) c1 else c1)).
    rewrite !upd_nth in K2. destruct (Nat.eqb_spec (length stk) j); [lia|]. rewrite Hc1 in K2. rewrite (Nat.eqb_sym j p) in *.
    destruct (Nat.eqb p j); (destruct (K2 eq_refl) as (c2 & Hc2 & Kc2); exists c2; split; [exact Hc2|]).
    + destruct Kc2 as [l2 Kc2]. exists l2. eapply kept_trans; [apply kept_fields, Kc1|exact Kc2].
    + eapply kept_trans; eassumption.
Qed.

(** ** The first new frame *)
Lemma not_quotable T : ~ plain E T \/ match under E T with TBool | TStr | TInt _ | TFloat _ => False | _ => True end -> ~ quotable T.
Proof. intros [H|H] [P Q]; [exact (H P)|]. destruct (under E T); try contradiction. Qed.
Definition quotes (T : ty) (e : et) : Prop := string_type e <> None <-> quotable T.
Lemma quotes_no T e : string_type e = None -> ~ quotable T -> quotes T e.
Proof. intros H N. split; [congruence|contradiction]. Qed.
Lemma quotes_yes T e : string_type e <> None -> quotable T -> quotes T e.
Proof. intros H N. split; auto. Qed.
Lemma kept_quotes T f f' : quotes T (f_ty f) -> (forall r, f_rt f = Some r -> r <> ROther -> string_type (f_ty f) = None) -> kept f f' -> quotes T (f_ty f').
Proof.
  intros Q R [->|(-> & r & Hr & Nr)]; [exact Q|]. unfold quotes in *. rewrite (R r Hr Nr) in Q. cbn. exact Q.
Qed.
Lemma leafy_quotes T f : leafy T f -> quotes T (f_ty f) /\ f_parent f = None /\ f_off f = 0 /\ f_cap f = 0.
Proof.
  intros [(r & Hj & ->)|[(r & Hj & Ht & ->)|(Pl & H)]].
  - split; [|repeat split]. apply quotes_no; [reflexivity|]. apply not_quotable. left. intros Pl. destruct (plain_support E T Pl). congruence.
  - split; [|repeat split]. apply quotes_no; [reflexivity|]. apply not_quotable. left. intros Pl. destruct (plain_support E T Pl). congruence.
  - assert (QN : forall f', string_type (f_ty f') = None -> match under E T with TBool | TStr | TInt _ | TFloat _ => False | _ => True end -> quotes T (f_ty f')).
    { intros f' H1 H2. apply quotes_no; [exact H1|]. apply not_quotable. right. exact H2. }
    assert (QY : forall f', string_type (f_ty f') <> None -> match under E T with TBool | TStr | TInt _ | TFloat _ => True | _ => False end -> quotes T (f_ty f')).
    { intros f' H1 H2. apply quotes_yes; [exact H1|]. split; assumption. }
    destruct H as [(U & ->)|[(V & U & ->)|[(V & e & U & S & ->)|[(K & V & U & _ & _ & ->)|[(id & z & U & ->)|[(U & ->)|[(U & ->)|[(U & ->)|[(k & U & ->)|(b & U & ->)]]]]]]]]];
      (split; [|repeat split]); rewrite U in *; try (apply QN; [reflexivity|exact I]); try (apply QY; [discriminate|exact I]).
    apply QN; [|exact I]. clear - S. unfold slice_fast in S. destruct (under E V); try discriminate; try (injection S as <-; reflexivity).
    destruct (_ <? _); [|discriminate]. injection S as <-. reflexivity.
Qed.
(** Not yet linked to a parent. *)
Definition rootlike (f : frame) : Prop := f_parent f = None /\ f_off f = 0 /\ f_cap f = 0.
Lemma kept_rootlike f f' : rootlike f -> kept f f' -> rootlike f'.
Proof. intros R [->|(-> & _)]; exact R. Qed.
Lemma app_head stk T stk' : app stk T stk' -> exists c, nth_error stk' (length stk) = Some c /\ quotes T (f_ty c) /\ rootlike c.
Proof.
  assert (NthE : forall (l : list frame) x, nth_error (l ++ [x]) (length l) = Some x) by (intros; rewrite nth_error_app2, Nat.sub_diag by lia; reflexivity).
  assert (Nx : forall stk f stk1, keeps (stk ++ [f]) stk1 -> exists c, nth_error stk1 (length stk) = Some c /\ kept f c).
  { intros s0 f s1 [_ K]. apply K. rewrite nth_error_app2, Nat.sub_diag by lia. reflexivity. }
  assert (NU : forall (stk stk1 : list frame) g i, (length stk < i)%nat -> nth_error (upd stk1 i g) (length stk) = nth_error stk1 (length stk)).
  { intros s0 s1 g i Hi. rewrite upd_nth. destruct (Nat.eqb_spec i (length s0)); [lia|reflexivity]. }
  assert (Nq : forall T f c, match under E T with TBool | TStr | TInt _ | TFloat _ => False | _ => True end -> string_type (f_ty f) = None -> rootlike f -> kept f c -> quotes T (f_ty c) /\ rootlike c).
  { intros T0 f c H1 H2 H3 K. split; [|eapply kept_rootlike; eassumption]. eapply kept_quotes; [|intros; exact H2|exact K]. apply quotes_no; [exact H2|]. apply not_quotable. right. exact H1. }
  intros H. destruct H as [stk T f H|stk T n U stk1 Pl Un H|stk T U i Pl Un Ns F|stk T U stk1 Pl Un Ns F H|stk T K V i stk1 Pl Un F H|stk T K V stk1 stk2 Pl Un F Ns H1 H2|stk T U i Pl Un F|stk T U stk1 Pl Un F H|stk T id z l stk1 Pl Un Nl H].
  - exists f. split; [apply NthE|]. destruct (leafy_quotes T f H) as (Q & R). split; assumption.
  - rewrite NU by lia. destruct app_keeps as [AK _]. destruct (AK _ _ _ H) as [K _]. destruct (Nx _ _ _ K) as (c & Hc & Kc). exists c. split; [exact Hc|].
    eapply Nq; [rewrite Un; exact I| | |exact Kc]; repeat split.
  - exists (set_recur i (mkfr ESliceRecur (3 * wb w64))). rewrite <- (mark_length stk i), NthE. split; [reflexivity|].
    eapply Nq; [rewrite Un; exact I| | |apply kept_refl]; repeat split.
  - rewrite NU by lia. destruct app_keeps as [AK _]. destruct (AK _ _ _ H) as [K _]. destruct (Nx _ _ _ K) as (c & Hc & Kc). exists c. split; [exact Hc|].
    eapply Nq; [rewrite Un; exact I| | |exact Kc]; repeat split.
  - rewrite NU by lia. destruct app_keeps as [AK _]. destruct (AK _ _ _ H) as [Kp _]. destruct (Nx _ _ _ Kp) as (c & Hc & Kc). rewrite mark_length in Hc. exists c. split; [exact Hc|].
    eapply Nq; [rewrite Un; exact I| | |exact Kc]; repeat split.
  - destruct app_keeps as [AK _]. destruct (AK _ _ _ H1) as [K1 L1]. destruct (AK _ _ _ H2) as [K2 L2]. rewrite app_length in L1. cbn in L1. rewrite NU by lia.
    destruct (Nx _ _ _ K1) as (c & Hc & Kc). destruct K2 as [_ K2]. destruct (K2 (length stk) c) as (c' & Hc' & Kc'); [rewrite NU by lia; exact Hc|].
    exists c'. split; [exact Hc'|]. eapply Nq; [rewrite Un; exact I| | |exact (kept_trans _ _ _ Kc Kc')]; repeat split.
  - exists (set_recur i (mkfr EPtrRecur (wb w64))). rewrite <- (mark_length stk i), NthE. split; [reflexivity|].
    eapply Nq; [rewrite Un; exact I| | |apply kept_refl]; repeat split.
  - rewrite NU by lia. destruct app_keeps as [AK _]. destruct (AK _ _ _ H) as [K _]. destruct (Nx _ _ _ K) as (c & Hc & Kc). exists c. split; [exact Hc|].
    eapply Nq; [rewrite Un; exact I| | |exact Kc]; repeat split.
  - destruct app_keeps as [_ AK]. destruct (AK _ _ _ _ H) as [_ K]; [rewrite app_length; cbn; lia|].
    destruct (K (length stk) (struct_frame T)) as (c & Hc & Kc); [apply NthE|]. rewrite Nat.eqb_refl in Kc. destruct Kc as [l' Kc]. exists c. split; [exact Hc|].
    eapply Nq; [rewrite Un; exact I| | |exact Kc]; unfold struct_frame; destruct (struct_id E T); repeat split.
Qed.
End Frames.

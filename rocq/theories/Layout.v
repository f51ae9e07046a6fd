(** C30: the frames NewDecoder makes are laid out as Decode expects, for every Go type.

    [laid stk par off cap q T i j] is the specification: the frames [i..j-1] of [stk] are
    those of a value of type [T] whose parent frame is [par], at offset [off] of its
    parent struct, [cap] being the length of the array it is an element of, and [q]
    telling whether it is a field with the `string` option. *)
From Verif Require Import Base Lookup Types AppendType Dt Elab Elaborate Frames.
Open Scope Z_scope.

Section Layout.
Variables (w64 : bool) (E : env) (disallow : bool).
Notation append := (AppendType.append w64 E disallow).
Notation app := (Frames.app w64 E disallow).
Notation app_fields := (Frames.app_fields w64 E disallow).
Notation reaches := (Frames.reaches w64 E).
Notation visits := (Frames.visits w64 E).
Notation size := (tsize w64 E).
Let W := wb w64.

(** ** Specification *)
(** Types with unmarshalers. *)
Definition calls_json (T : ty) (r : rtid) : Prop :=
  match T with
  | TNamed i => d_json (E i) = SSome /\ r = RNamed i
  | TPtr (TNamed i) => d_json (E i) = SSome /\ r = RPtrNamed i
  | _ => False
  end.
Definition calls_text (T : ty) (r : rtid) : Prop :=
  match T with
  | TNamed i => d_json (E i) = SNone /\ d_text (E i) = SSome /\ r = RNamed i
  | TPtr (TNamed i) => d_json (E i) = SNone /\ d_text (E i) = SSome /\ r = RPtrNamed i
  | _ => False
  end.
(** Specialised slices. *)
Definition special_slice (U : ty) (e : et) : Prop :=
  match under E U with
  | TBool => e = ESliceBool | TStr => e = ESliceStr | TInt k => e = ESliceInt k | TFloat b => e = ESliceF b
  | TStruct _ _ _ => size U < 1 /\ e = ESliceEmpty
  | _ => False
  end.
(** Types with one frame, and its kind. *)
Definition single (T : ty) (e : et) : Prop :=
  plain E T /\
  match under E T with
  | TAny => e = EAny | TBool => e = EBool | TStr => e = EStr | TNumber => e = ENumber
  | TInt k => e = EInt k | TFloat b => e = EF b
  | TArr 0 _ => e = EArray0
  | TSlice U => special_slice U e
  | TMap K V => stringy E K /\ stringy E V /\ e = EMapSS
  | TStruct _ _ [] => e = EEmptyStruct
  | _ => False
  end.
(** The `string` option changes the kind of these. *)
Definition with_option (q : bool) (e : et) : et :=
  if q then match e with EStr => EStrS | EBool => EBoolS | EF b => EFS b | EInt k => EIntS k | _ => e end else e.

Section Stack.
Variable stk : list frame.
Definition frame_is (i : nat) (e : et) (par : option nat) (off cap sz : Z) (more : frame -> Prop) : Prop :=
  exists f, nth_error stk i = Some f /\ f_ty f = e /\ f_parent f = par /\ f_off f = off /\ f_cap f = cap /\ f_size f = sz /\ more f.
(** Frame [t] is the frame of struct type [U] and takes part in a recursion. *)
Definition target (t : nat) (U : ty) : Prop :=
  exists f r, nth_error stk t = Some f /\ f_ty f = EStructRecur /\ identity E U = Some r /\ f_rt f = Some r.

Inductive laid : option nat -> Z -> Z -> bool -> ty -> nat -> nat -> Prop :=
| l_json par off cap q T r i : calls_json T r ->
    frame_is i EJSON par off cap (size T) (fun f => f_rt f = Some r) -> laid par off cap q T i (S i)
| l_text par off cap q T r i : calls_text T r ->
    frame_is i EText par off cap (size T) (fun f => f_rt f = Some r) -> laid par off cap q T i (S i)
| l_single par off cap q T e i : single T e ->
    frame_is i (with_option q e) par off cap (size T) (fun f => f_fields f = []) -> laid par off cap q T i (S i)
| l_arr par off cap q T n U i j : plain E T -> under E T = TArr (S n) U ->
    frame_is i EArray par off cap (size T) (fun _ => True) ->
    laid (Some i) 0 (Z.of_nat (S n)) false U (S i) j -> laid par off cap q T i j
| l_slice par off cap q T U i j : plain E T -> under E T = TSlice U -> ~ special_elem w64 E U ->
    frame_is i ESlice par off cap (size T) (fun _ => True) ->
    laid (Some i) 0 0 false U (S i) j -> laid par off cap q T i j
| l_slice_rec par off cap q T U i : plain E T -> under E T = TSlice U -> ~ special_elem w64 E U ->
    frame_is i ESliceRecur par off cap (size T) (fun f => (f_recur f < i)%nat /\ target (f_recur f) U) ->
    laid par off cap q T i (S i)
| l_ptr par off cap q T U i j : plain E T -> under E T = TPtr U ->
    frame_is i EPtr par off cap (size T) (fun _ => True) ->
    laid (Some i) 0 0 false U (S i) j -> laid par off cap q T i j
| l_ptr_rec par off cap q T U i : plain E T -> under E T = TPtr U ->
    frame_is i EPtrRecur par off cap (size T) (fun f => (f_recur f < i)%nat /\ target (f_recur f) U) ->
    laid par off cap q T i (S i)
| l_map par off cap q T K V i j k : plain E T -> under E T = TMap K V -> ~ (stringy E K /\ stringy E V) ->
    frame_is i EMap par off cap (size T) (fun f => f_vsize f = size V) ->
    laid (Some i) 0 0 false K (S i) j -> laid (Some i) 0 0 false V j k -> laid par off cap q T i k
| l_map_rec par off cap q T K V i j : plain E T -> under E T = TMap K V ->
    frame_is i EMapRecur par off cap (size T) (fun f => f_vsize f = size V /\ (f_recur f < i)%nat /\ target (f_recur f) V) ->
    laid (Some i) 0 0 false K (S i) j -> laid par off cap q T i j
| l_struct par off cap q T r id z l e fs i j : plain E T -> under E T = TStruct id z l -> l <> [] -> identity E T = Some r ->
    e = EStruct \/ e = EStructRecur ->
    frame_is i e par off cap (size T) (fun f => f_fields f = fs /\ f_rt f = Some r) ->
    laid_fields i l fs (S i) j -> laid par off cap q T i j
with laid_fields : nat -> list (fld * ty) -> list field -> nat -> nat -> Prop :=
| lf_nil p i : laid_fields p [] [] i i
| lf_skip p f U l fs i j : ignored f -> laid_fields p l fs i j -> laid_fields p ((f, U) :: l) fs i j
| lf_field p f U name q l fs i j k : known_as f name q -> laid (Some p) (fd_off f) 0 q U i j ->
    laid_fields p l fs j k -> laid_fields p ((f, U) :: l) ((name, i) :: fs) i k.
Scheme laid_ind2 := Induction for laid Sort Prop with laid_fields_ind2 := Induction for laid_fields Sort Prop.
Combined Scheme laid_mut from laid_ind2, laid_fields_ind2.
End Stack.

(** No slices or maps of structs with unmarshalers (nor named types for pointers to
    them): NewDecoder may confuse such a struct with an earlier one of the same type. *)
Definition elements_plain (T : ty) : Prop :=
  forall U V, reaches T U -> plain E U -> (under E U = TSlice V \/ (exists K, under E U = TMap K V) \/ under E U = TPtr V) ->
    identity E V <> None -> plain E V.

(** ** Proof *)
Lemma calls_json_spec T r : json_support E T = Some r -> calls_json T r.
Proof.
  destruct T as [| | | | | | | | | | |t| |i]; cbn; try discriminate; [destruct t; try discriminate; destruct (d_json (E id))|destruct (d_json (E i))]; try discriminate; intros [= <-]; auto.
Qed.
Lemma calls_text_spec T r : json_support E T = None -> text_support E T = Some r -> calls_text T r.
Proof.
  destruct T as [| | | | | | | | | | |t| |i]; cbn; try discriminate; [destruct t; try discriminate; destruct (d_json (E id)), (d_text (E id))|destruct (d_json (E i)), (d_text (E i))]; try discriminate; intros _ [= <-]; auto.
Qed.
Definition link (par : option nat) (off cap : Z) (q : bool) (f : frame) : frame :=
  Fr (with_option q (f_ty f)) (f_size f) (f_fields f) (f_rt f) (f_vsize f) cap (f_recur f) par off.
Definition upto (a b : list frame) (lo hi : nat) : Prop :=
  forall j f, (lo <= j < hi)%nat -> nth_error a j = Some f -> exists f', nth_error b j = Some f' /\ kept f f'.
Definition placed (a fin : list frame) (n : nat) par off cap q : Prop :=
  exists f f', nth_error a n = Some f /\ nth_error fin n = Some f' /\ kept (link par off cap q f) f'.
(** Recursive frames stand for structs without unmarshalers. *)
Definition marks_plain (fin : list frame) : Prop :=
  forall f, In f fin -> f_ty f = EStructRecur -> exists U r, plain E U /\ identity E U = Some r /\ f_rt f = Some r.


Section Marks.
Variable T0 : ty.
Hypothesis elems : elements_plain T0.

Lemma marks_upd stk i g : (forall f, f_ty (g f) = EStructRecur -> f_ty f = EStructRecur /\ f_rt (g f) = f_rt f) -> marks_plain stk -> marks_plain (upd stk i g).
Proof.
  intros G M f Hf Tf. apply In_nth_error in Hf as [j Hj]. rewrite upd_nth in Hj. destruct (Nat.eqb i j).
  - destruct (nth_error stk j) as [f0|] eqn:E0; [|discriminate]. injection Hj as <-. destruct (G f0 Tf) as [T1 R1]. rewrite R1. eapply M; [eapply nth_error_In, E0|exact T1].
  - eapply M; [eapply nth_error_In, Hj|exact Tf].
Qed.
Lemma marks_parent stk i p : marks_plain stk -> marks_plain (upd stk i (set_parent p)).
Proof. apply marks_upd. auto. Qed.
Lemma marks_add stk f : f_ty f <> EStructRecur -> marks_plain stk -> marks_plain (stk ++ [f]).
Proof. intros N M g Hg Tg. apply in_app_or in Hg as [Hg|[<-|[]]]; [eapply M; eassumption|contradiction]. Qed.
Lemma marks_mark stk U i : find_recur w64 E stk U = Some i -> plain E U -> marks_plain stk -> marks_plain (mark stk i).
Proof.
  intros F Pl M f Hf Tf. destruct (find_recur_some w64 E _ _ _ F) as (f0 & r & Hf0 & Rf0 & Id & _). apply In_nth_error in Hf as [k Hj]. unfold mark in Hj. rewrite upd_nth in Hj.
  destruct (Nat.eqb_spec i k) as [Ek|Nj].
  - subst k. rewrite Hf0 in Hj. injection Hj as <-. exists U, r. repeat split; assumption.
  - eapply M; [eapply nth_error_In, Hj|exact Tf].
Qed.
Lemma found_identity stk U i : find_recur w64 E stk U = Some i -> identity E U <> None.
Proof. intros F. destruct (find_recur_some w64 E _ _ _ F) as (f0 & r & _ & _ & Id & _). congruence. Qed.
Lemma found_not_stringy stk K V i : find_recur w64 E stk V = Some i -> ~ (stringy E K /\ stringy E V).
Proof.
  intros F [_ S]. destruct (find_recur_some w64 E _ _ _ F) as (_ & r & _ & _ & I & _). clear - S I.
  destruct V; cbn in *; try discriminate; destruct S as [S|S]; cbn in S; try discriminate; rewrite S in I; discriminate.
Qed.
Lemma leafy_not_recur T f : leafy w64 E T f -> f_ty f <> EStructRecur.
Proof.
  intros [(r & _ & ->)|[(r & _ & _ & ->)|(_ & H)]]; try discriminate.
  destruct H as [(Q & ->)|[(V & Q & ->)|[(V & e & Q & S1 & ->)|[(K & V & Q & S1 & S2 & ->)|[(id' & z' & Q & ->)|[(Q & ->)|[(Q & ->)|[(Q & ->)|[(k & Q & ->)|(b & Q & ->)]]]]]]]]]; try discriminate.
  cbn. intros ->. unfold slice_fast in S1. destruct (under E V); try discriminate. destruct (_ <? _); discriminate.
Qed.
Lemma app_marks :
  (forall stk T stk', app stk T stk' -> reaches T0 T -> marks_plain stk -> marks_plain stk') /\
  (forall p stk l stk', app_fields p stk l stk' -> (forall f U name q, In (f, U) l -> known_as f name q -> reaches T0 U) -> marks_plain stk -> marks_plain stk').
Proof.
  apply app_mut.
  - intros stk T f Lf R M. apply marks_add; [eapply leafy_not_recur, Lf|exact M].
  - intros stk T n U stk1 Pl Un _ IH R M. apply marks_upd; [auto|]. apply IH; [eapply r_step; [exact R|eapply v_arr; eassumption]|]. apply marks_add; [discriminate|exact M].
  - intros stk T U i Pl Un Ns F R M. apply marks_add; [discriminate|]. eapply marks_mark; [exact F| |exact M]. eapply elems; [exact R|exact Pl|auto|eapply found_identity, F].
  - intros stk T U stk1 Pl Un Ns F _ IH R M. apply marks_parent. apply IH; [eapply r_step; [exact R|eapply v_slice; eassumption]|]. apply marks_add; [discriminate|exact M].
  - intros stk T K V i stk1 Pl Un F _ IH R M. apply marks_parent. apply IH; [eapply r_step; [exact R|eapply v_key; [exact Pl|exact Un|eapply found_not_stringy, F]]|].
    apply marks_add; [discriminate|]. eapply marks_mark; [exact F| |exact M]. eapply elems; [exact R|exact Pl|eauto|eapply found_identity, F].
  - intros stk T K V stk1 stk2 Pl Un F Ns _ IH1 _ IH2 R M. apply marks_parent. apply IH2; [eapply r_step; [exact R|eapply v_val; eassumption]|]. apply marks_parent.
    apply IH1; [eapply r_step; [exact R|eapply v_key; eassumption]|]. apply marks_add; [discriminate|exact M].
  - intros stk T U i Pl Un F R M. apply marks_add; [discriminate|]. eapply marks_mark; [exact F| |exact M]. eapply elems; [exact R|exact Pl|auto|eapply found_identity, F].
  - intros stk T U stk1 Pl Un F _ IH R M. apply marks_parent. apply IH; [eapply r_step; [exact R|eapply v_ptr; eassumption]|]. apply marks_add; [discriminate|exact M].
  - intros stk T id z l stk1 Pl Un Nl _ IH R M. apply IH.
    + intros f U name q I Kn. eapply r_step; [exact R|]. eapply v_field; [exact Pl|]. exists id, z, l. split; [exact Un|split; eassumption].
    + apply marks_add; [|exact M]. unfold struct_frame. destruct (struct_id E T); discriminate.
  - auto.
  - intros p stk f U l stk' _ _ IH R M. apply IH; [|exact M]. intros g V name q I. apply R. right. exact I.
  - intros p stk f U l stk1 name q g stk' Kn _ IH1 Hg _ _ IH2 R M. apply IH2; [intros g' V name' q' I; apply R; right; exact I|].
    apply marks_upd.
    { intros x Hx. destruct Hg as [[-> _]|(_ & c & e & _ & Hs & ->)]; [auto|]. cbn in Hx. subst e. destruct (f_ty c); discriminate. }
    apply marks_upd; [auto|]. apply marks_upd; [auto|]. apply IH1; [eapply R; [left; reflexivity|exact Kn]|exact M].
Qed.

(** [fin] comes after [a]. *)
Definition later (a fin : list frame) : Prop :=
  forall j f, nth_error a j = Some f -> exists f', nth_error fin j = Some f' /\ f_rt f' = f_rt f /\ (f_ty f = EStructRecur -> f_ty f' = EStructRecur).
Lemma keeps_later a b fin : keeps a b -> later b fin -> later a fin.
Proof.
  intros [_ K] L j f Hf. destruct (K j f Hf) as (f1 & Hf1 & Kf). destruct (L j f1 Hf1) as (f2 & Hf2 & R & T). exists f2. split; [exact Hf2|].
  destruct Kf as [->|(-> & _)]; split; auto.
Qed.
Lemma upd_later a i g fin : (forall f, f_rt (g f) = f_rt f /\ (f_ty f = EStructRecur -> f_ty (g f) = EStructRecur)) -> later (upd a i g) fin -> later a fin.
Proof.
  intros G L j f Hf. specialize (L j). rewrite upd_nth in L. destruct (Nat.eqb i j).
  - rewrite Hf in L. destruct (L _ eq_refl) as (f' & Hf' & R & T). destruct (G f) as [G1 G2]. exists f'. split; [exact Hf'|]. split; [congruence|auto].
  - apply L, Hf.
Qed.
Lemma app_later a b fin : later (a ++ b) fin -> later a fin.
Proof. intros L j f Hf. apply L. rewrite nth_error_app1; [exact Hf|]. apply nth_error_Some. congruence. Qed.
Definition unmarkable (f : frame) : Prop := f_rt f = None \/ f_rt f = Some ROther.
Lemma kept_eq f f' : unmarkable f -> kept f f' -> f' = f.
Proof. intros U [->|(-> & r & R & N)]; [reflexivity|]. destruct U; congruence. Qed.
Lemma placed_eq a fin n par off cap q f0 f : nth_error a n = Some f -> kept f0 f -> unmarkable f0 -> placed a fin n par off cap q ->
  nth_error fin n = Some (link par off cap q f0).
Proof.
  intros Hf K U (g & g' & Hg & Hg' & Kg). rewrite Hf in Hg. injection Hg as <-. rewrite (kept_eq _ _ U K) in Kg. rewrite Hg'. f_equal. apply (kept_eq (link par off cap q f0)); [exact U|exact Kg].
Qed.
Lemma upto_upd a b i g lo hi : upto (upd a i g) b lo hi -> (i < lo)%nat -> upto a b lo hi.
Proof. intros U L j f Hj Hf. apply U; [exact Hj|]. rewrite upd_nth. destruct (Nat.eqb_spec i j); [lia|exact Hf]. Qed.
Lemma upto_sub a b lo hi lo' hi' : upto a b lo hi -> (lo <= lo')%nat -> (hi' <= hi)%nat -> upto a b lo' hi'.
Proof. intros U H1 H2 j f Hj. apply U. lia. Qed.
Lemma keeps_upto a b fin lo hi : keeps a b -> upto b fin lo hi -> upto a fin lo hi.
Proof. intros [_ K] U j f Hj Hf. destruct (K j f Hf) as (f1 & Hf1 & K1). destruct (U j f1 Hj Hf1) as (f2 & Hf2 & K2). exists f2. split; [exact Hf2|eapply kept_trans; eassumption]. Qed.
(** Linking a child. *)
Lemma placed_child a b fin n par off cap g q : upto b fin n (S n) -> nth_error b n = option_map g (nth_error a n) ->
  (forall f, nth_error a n = Some f -> g f = link par off cap q f) -> (exists f, nth_error a n = Some f) -> placed a fin n par off cap q.
Proof.
  intros U Hb G (f & Hf). rewrite Hf in Hb. cbn in Hb. destruct (U n (g f)) as (f' & Hf' & K); [lia|exact Hb|]. exists f, f'. rewrite <- (G f Hf). auto.
Qed.

Definition covered (fin : list frame) (lo hi : nat) : Prop :=
  forall t f, (lo <= t < hi)%nat -> nth_error fin t = Some f -> f_ty f = EStructRecur ->
    exists U par off cap q j, reaches T0 U /\ laid fin par off cap q U t j /\ identity E U = f_rt f.
Lemma covered_head fin lo hi f : nth_error fin lo = Some f -> f_ty f <> EStructRecur -> covered fin (S lo) hi -> covered fin lo hi.
Proof. intros Hf N Co t g Ht Hg Tg. destruct (Nat.eq_dec t lo) as [->|]; [congruence|]. apply Co; [lia|exact Hg|exact Tg]. Qed.
Lemma covered_one fin lo f : nth_error fin lo = Some f -> f_ty f <> EStructRecur -> covered fin lo (S lo).
Proof. intros Hf N. eapply covered_head; [exact Hf|exact N|]. intros t g Ht. lia. Qed.
Lemma covered_app fin a b c : covered fin a b -> covered fin b c -> covered fin a c.
Proof. intros H1 H2 t f Ht. destruct (Nat.lt_ge_cases t b); [apply H1|apply H2]; lia. Qed.

Lemma unmarkable_leaf T f : leafy w64 E T f -> unmarkable f \/
  (exists r, json_support E T = Some r /\ f = set_rt r (mkfr EJSON (size T))) \/
  (exists r, json_support E T = None /\ text_support E T = Some r /\ f = set_rt r (mkfr EText (size T))).
Proof.
  intros [H|[H|(_ & H)]]; [auto|auto|]. left.
  destruct H as [(Q & ->)|[(V & Q & ->)|[(V & e & Q & S1 & ->)|[(K & V & Q & S1 & S2 & ->)|[(id' & z' & Q & ->)|[(Q & ->)|[(Q & ->)|[(Q & ->)|[(k & Q & ->)|(b & Q & ->)]]]]]]]]]; unfold unmarkable; cbn; auto.
Qed.
Lemma support_not_identity T r : json_support E T = Some r \/ text_support E T = Some r -> forall U, plain E U -> identity E U <> Some r.
Proof.
  intros H U Pl Id. assert (r <> ROther) by (eapply identity_not_other, Id).
  assert (R : exists i, r = RNamed i /\ (d_json (E i) = SSome \/ d_text (E i) = SSome) \/ r = RPtrNamed i).
  { destruct H as [H|H]; (destruct T as [| | | | | | | | | | |t| |i]; cbn in H; try discriminate; [destruct t; try discriminate|]).
    - exists id. destruct (d_json (E id)); [discriminate|]. right. congruence.
    - exists i. destruct (d_json (E i)) eqn:D; [discriminate|]. injection H as <-. auto.
    - exists id. destruct (d_text (E id)); [discriminate|]. right. congruence.
    - exists i. destruct (d_text (E i)) eqn:D; [discriminate|]. injection H as <-. auto. }
  destruct R as [i [[-> R]| ->]]; destruct U; cbn in Id; try discriminate; destruct (d_under (E id)); try discriminate.
  injection Id as ->. cbn in Pl. destruct Pl as [P1 P2], R as [R|R]; congruence.
Qed.
Lemma special_slice_spec U e : slice_fast w64 E U = Some e -> special_slice U e.
Proof.
  unfold slice_fast, special_slice. destruct (under E U); try discriminate; try (intros [= <-]; reflexivity).
  destruct (Z.ltb_spec (tsize w64 E U) 1); [|discriminate]. intros [= <-]. split; [assumption|reflexivity].
Qed.
Hypothesis sizes : sizes_ok w64 E.
Lemma leafy_single T f : leafy w64 E T f -> unmarkable f -> json_support E T = None -> text_support E T = None ->
  single T (f_ty f) /\ f_size f = size T /\ f_fields f = [].
Proof.
  intros H U Ej Et. rewrite (tsize_under w64 E T sizes). destruct H as [(r & H & _)|[(r & _ & H & _)|(Pl & H)]]; [congruence|congruence|]. unfold single.
  destruct H as [(Q & ->)|[(V & Q & ->)|[(V & e & Q & S1 & ->)|[(K & V & Q & S1 & S2 & ->)|[(id' & z' & Q & ->)|[(Q & ->)|[(Q & ->)|[(Q & ->)|[(k & Q & ->)|(b & Q & ->)]]]]]]]]];
    rewrite ?Q; cbn; auto using special_slice_spec.
  rewrite (tsize_under w64 E T sizes), Q. cbn. auto.
Qed.
Lemma with_option_recur q e : e <> EStructRecur -> with_option q e <> EStructRecur.
Proof. intros N. destruct q; [|exact N]. destruct e; cbn; congruence. Qed.

Lemma link_child n f c : rootlike f -> set_cap c (set_parent n f) = link (Some n) 0 c false f.
Proof. intros (R1 & R2 & R3). destruct f; cbn in *. subst. reflexivity. Qed.
Lemma link_child0 n f : rootlike f -> set_parent n f = link (Some n) 0 0 false f.
Proof. intros (R1 & R2 & R3). destruct f; cbn in *. subst. reflexivity. Qed.

Lemma nth_last {A} (l : list A) x : nth_error (l ++ [x]) (length l) = Some x.
Proof. rewrite nth_error_app2, Nat.sub_diag by lia. reflexivity. Qed.
Lemma nth_last_mark stk i x : nth_error (mark stk i ++ [x]) (length stk) = Some x.
Proof. rewrite <- (mark_length stk i). apply nth_last. Qed.
Lemma head_kept stk f0 stk1 : keeps (stk ++ [f0]) stk1 -> exists f, nth_error stk1 (length stk) = Some f /\ kept f0 f.
Proof. intros [_ K]. apply K. rewrite nth_error_app2, Nat.sub_diag by lia. reflexivity. Qed.
Lemma head_frame stk f0 stk1 b fin par off cap q : keeps (stk ++ [f0]) stk1 -> unmarkable f0 ->
  nth_error b (length stk) = nth_error stk1 (length stk) -> placed b fin (length stk) par off cap q ->
  nth_error fin (length stk) = Some (link par off cap q f0).
Proof.
  intros K U Hb P. destruct (head_kept _ _ _ K) as (f & Hf & Kf). eapply placed_eq; [rewrite Hb; exact Hf|exact Kf|exact U|exact P].
Qed.
Lemma upd_other {A} (l : list A) i g k : k <> i -> nth_error (upd l i g) k = nth_error l k.
Proof. intros N. rewrite upd_nth. destruct (Nat.eqb_spec i k); congruence. Qed.
Lemma upd_same {A} (l : list A) i g : nth_error (upd l i g) i = option_map g (nth_error l i).
Proof. rewrite upd_nth, Nat.eqb_refl. reflexivity. Qed.
Lemma target_later stk U i x fin : find_recur w64 E stk U = Some i -> later (mark stk i ++ [x]) fin -> (i < length stk)%nat /\ target fin i U.
Proof.
  intros F L. destruct (find_recur_some w64 E _ _ _ F) as (f & r & Hf & Rf & Id & _). assert (Hi : (i < length stk)%nat) by (apply nth_error_Some; congruence).
  split; [exact Hi|]. destruct (L i (set_ty EStructRecur f)) as (f' & Hf' & R & T).
  { rewrite nth_error_app1 by (rewrite mark_length; exact Hi). unfold mark. rewrite upd_same, Hf. reflexivity. }
  exists f', r. split; [exact Hf'|]. split; [apply T; reflexivity|]. split; [exact Id|]. rewrite R. exact Rf.
Qed.

Lemma layout :
  (forall stk T stk', app stk T stk' -> reaches T0 T -> forall fin par off cap q, marks_plain fin -> later stk' fin ->
     placed stk' fin (length stk) par off cap q -> upto stk' fin (S (length stk)) (length stk') ->
     laid fin par off cap q T (length stk) (length stk') /\ covered fin (length stk) (length stk')) /\
  (forall p stk l stk', app_fields p stk l stk' -> (forall f U name q, In (f, U) l -> known_as f name q -> reaches T0 U) -> (p < length stk)%nat ->
     forall fin, marks_plain fin -> later stk' fin -> upto stk' fin (length stk) (length stk') ->
     exists fs, (forall f f', nth_error stk p = Some f -> nth_error stk' p = Some f' -> f_fields f' = f_fields f ++ fs) /\
       laid_fields fin p l fs (length stk) (length stk') /\ covered fin (length stk) (length stk')).
Proof.
  destruct (app_keeps w64 E disallow) as [AK AF].
  assert (L1 : forall (s : list frame) x, length (s ++ [x]) = S (length s)) by (intros; rewrite app_length; cbn; lia).
  apply app_mut.
  - (* one frame *) intros stk T f Lf R fin par off cap q M La P U. rewrite L1.
    destruct (unmarkable_leaf T f Lf) as [Um|[(r & Ej & ->)|(r & Ej & Et & ->)]].
    + assert (Hn : nth_error fin (length stk) = Some (link par off cap q f)).
      { eapply placed_eq; [apply nth_last|apply kept_refl|exact Um|exact P]. }
      split; [|eapply covered_one; [exact Hn|apply with_option_recur; eapply leafy_not_recur, Lf]].
      destruct (json_support E T) as [r|] eqn:Ej.
      { destruct Lf as [(r' & Q & ->)|[(r' & Q & _)|(Pl & _)]]; [|congruence|destruct (plain_support E T Pl); congruence].
        destruct Um as [Um|Um]; cbn in Um; try discriminate. injection Um as ->. apply calls_json_spec in Q. clear Ej. rename Q into Ej. destruct T as [| | | | | | | | | | |t| |i]; cbn in Ej; try contradiction; [destruct t; try contradiction|]; destruct Ej; discriminate. }
      destruct (text_support E T) as [r|] eqn:Et.
      { destruct Lf as [(r' & Q & ->)|[(r' & _ & Q & ->)|(Pl & _)]]; [congruence| |destruct (plain_support E T Pl); congruence].
        destruct Um as [Um|Um]; cbn in Um; try discriminate. injection Um as ->. apply (calls_text_spec T _ Ej) in Q. clear Et. rename Q into Et. destruct T as [| | | | | | | | | | |t| |i]; cbn in Et; try contradiction; [destruct t; try contradiction|]; destruct Et as (_ & _ & ?); discriminate. }
      destruct (leafy_single T f Lf Um Ej Et) as (Sg & Sz & Fs). eapply l_single; [exact Sg|]. eexists. split; [exact Hn|]. repeat split; assumption.
    + destruct P as (g & g' & Hg & Hg' & K). rewrite nth_error_app2, Nat.sub_diag in Hg by lia. injection Hg as <-.
      assert (Eg : g' = link par off cap q (set_rt r (mkfr EJSON (size T)))).
      { destruct K as [->|(-> & _)]; [reflexivity|]. exfalso. destruct (M _ (nth_error_In _ _ Hg') eq_refl) as (V & r' & Pl & Id & Rt). cbn in Rt. injection Rt as <-.
        eapply support_not_identity; [left; exact Ej|exact Pl|exact Id]. }
      subst g'. assert (Hq : with_option q EJSON = EJSON) by (destruct q; reflexivity).
      split; [eapply l_json; [apply calls_json_spec, Ej|]; eexists; split; [exact Hg'|]; repeat split; exact Hq|eapply covered_one; [exact Hg'|cbn; rewrite Hq; discriminate]].
    + destruct P as (g & g' & Hg & Hg' & K). rewrite nth_error_app2, Nat.sub_diag in Hg by lia. injection Hg as <-.
      assert (Eg : g' = link par off cap q (set_rt r (mkfr EText (size T)))).
      { destruct K as [->|(-> & _)]; [reflexivity|]. exfalso. destruct (M _ (nth_error_In _ _ Hg') eq_refl) as (V & r' & Pl & Id & Rt). cbn in Rt. injection Rt as <-.
        eapply support_not_identity; [right; exact Et|exact Pl|exact Id]. }
      subst g'. assert (Hq : with_option q EText = EText) by (destruct q; reflexivity).
      split; [eapply l_text; [exact (calls_text_spec T r Ej Et)|]; eexists; split; [exact Hg'|]; repeat split; exact Hq|eapply covered_one; [exact Hg'|cbn; rewrite Hq; discriminate]].
  - (* array *) intros stk T n U stk1 Pl Un Ap IH R fin par off cap q M La P Up. rewrite upd_length in *.
    destruct (AK _ _ _ Ap) as [Kp Ln]. rewrite L1 in Ln. destruct (app_head w64 E disallow _ _ _ Ap) as (c & Hc & _ & Rc). rewrite L1 in Hc.
    assert (Hn : nth_error fin (length stk) = Some (link par off cap q (mkfr EArray (size T)))).
    { eapply head_frame; [exact Kp|left; reflexivity| |exact P]; apply upd_other; lia. }
    destruct (IH ltac:(eapply r_step; [exact R|eapply v_arr; eassumption]) fin (Some (length stk)) 0 (Z.of_nat (S n)) false M) as [Ll Cv].
    { eapply upd_later; [|exact La]. auto. }
    { rewrite L1. eapply placed_child; [eapply upto_sub; [exact Up|lia|lia]|apply upd_same| |eauto]. intros f Hf. rewrite Hc in Hf. injection Hf as <-. apply link_child, Rc. }
    { rewrite L1. intros j f Hj Hf. apply Up; [lia|]. rewrite upd_other by lia. exact Hf. }
    rewrite L1 in *. split; [|eapply covered_head; [exact Hn|destruct q; discriminate|exact Cv]].
    eapply l_arr; [exact Pl|exact Un| |exact Ll]. eexists. split; [exact Hn|]. repeat split. destruct q; reflexivity.
  - (* recursive slice *) intros stk T U i Pl Un Ns F R fin par off cap q M La P Up. rewrite L1, mark_length.
    destruct (target_later _ _ _ _ _ F La) as [Hi Tg].
    assert (Hn : nth_error fin (length stk) = Some (link par off cap q (set_recur i (mkfr ESliceRecur (3 * wb w64))))).
    { eapply placed_eq; [apply nth_last_mark|apply kept_refl|left; reflexivity|exact P]. }
    split; [|eapply covered_one; [exact Hn|destruct q; discriminate]].
    eapply l_slice_rec; [exact Pl|exact Un|exact Ns|]. eexists. split; [exact Hn|]. split; [destruct q; reflexivity|]. repeat split; try assumption. cbn. rewrite (tsize_under w64 E T sizes), Un. reflexivity.
  - (* slice *) intros stk T U stk1 Pl Un Ns F Ap IH R fin par off cap q M La P Up. rewrite upd_length in *.
    destruct (AK _ _ _ Ap) as [Kp Ln]. rewrite L1 in Ln. destruct (app_head w64 E disallow _ _ _ Ap) as (c & Hc & _ & Rc). rewrite L1 in Hc.
    assert (Hn : nth_error fin (length stk) = Some (link par off cap q (mkfr ESlice (3 * wb w64)))).
    { eapply head_frame; [exact Kp|left; reflexivity| |exact P]; apply upd_other; lia. }
    destruct (IH ltac:(eapply r_step; [exact R|eapply v_slice; eassumption]) fin (Some (length stk)) 0 0 false M) as [Ll Cv].
    { eapply upd_later; [|exact La]. auto. }
    { rewrite L1. eapply placed_child; [eapply upto_sub; [exact Up|lia|lia]|apply upd_same| |eauto]. intros f Hf. rewrite Hc in Hf. injection Hf as <-. apply link_child0, Rc. }
    { rewrite L1. intros j f Hj Hf. apply Up; [lia|]. rewrite upd_other by lia. exact Hf. }
    rewrite L1 in *. split; [|eapply covered_head; [exact Hn|destruct q; discriminate|exact Cv]].
    eapply l_slice; [exact Pl|exact Un|exact Ns| |exact Ll]. eexists. split; [exact Hn|]. split; [destruct q; reflexivity|]. repeat split. cbn. rewrite (tsize_under w64 E T sizes), Un. reflexivity.
  - (* recursive map *) intros stk T K V i stk1 Pl Un F Ap IH R fin par off cap q M La P Up. rewrite upd_length in *.
    destruct (AK _ _ _ Ap) as [Kp Ln]. rewrite L1, mark_length in Ln. destruct (app_head w64 E disallow _ _ _ Ap) as (c & Hc & _ & Rc). rewrite L1, mark_length in Hc.
    assert (La1 : later stk1 fin) by (eapply upd_later; [|exact La]; auto).
    destruct (target_later _ _ _ _ _ F (keeps_later _ _ _ Kp La1)) as [Hi Tg].
    assert (Hn : nth_error fin (length stk) = Some (link par off cap q (set_recur i (set_vsize (size V) (mkfr EMapRecur (wb w64)))))).
    { rewrite <- (mark_length stk i). eapply head_frame; [exact Kp|left; reflexivity| |rewrite mark_length; exact P]; apply upd_other; rewrite mark_length; lia. }
    destruct (IH ltac:(eapply r_step; [exact R|eapply v_key; [exact Pl|exact Un|eapply found_not_stringy, F]]) fin (Some (length stk)) 0 0 false M La1) as [Ll Cv].
    { rewrite L1, mark_length. eapply placed_child; [eapply upto_sub; [exact Up|lia|lia]|apply upd_same| |eauto]. intros f Hf. rewrite Hc in Hf. injection Hf as <-. apply link_child0, Rc. }
    { rewrite L1, mark_length. intros j f Hj Hf. apply Up; [lia|]. rewrite upd_other by lia. exact Hf. }
    rewrite L1, mark_length in *. split; [|eapply covered_head; [exact Hn|destruct q; discriminate|exact Cv]].
    eapply l_map_rec; [exact Pl|exact Un| |exact Ll]. eexists. split; [exact Hn|]. split; [destruct q; reflexivity|]. repeat split; try assumption. cbn. rewrite (tsize_under w64 E T sizes), Un. reflexivity.
  - (* map *) intros stk T K V stk1 stk2 Pl Un F Ns Ap1 IH1 Ap2 IH2 R fin par off cap q M La P Up. rewrite upd_length in *.
    destruct (AK _ _ _ Ap1) as [Kp1 Ln1]. rewrite L1 in Ln1. destruct (app_head w64 E disallow _ _ _ Ap1) as (c1 & Hc1 & _ & Rc1). rewrite L1 in Hc1.
    destruct (AK _ _ _ Ap2) as [Kp2 Ln2]. rewrite upd_length in Ln2. destruct (app_head w64 E disallow _ _ _ Ap2) as (c2 & Hc2 & _ & Rc2). rewrite upd_length in Hc2.
    assert (La2 : later stk2 fin) by (eapply upd_later; [|exact La]; auto).
    assert (La1' : later (upd stk1 (S (length stk)) (set_parent (length stk))) fin) by (eapply keeps_later; [exact Kp2|exact La2]).
    assert (La1 : later stk1 fin) by (eapply upd_later; [|exact La1']; auto).
    set (f0 := set_rt ROther (set_vsize (size V) (mkfr EMap (wb w64)))) in *.
    assert (Hn : nth_error fin (length stk) = Some (link par off cap q f0)).
    { destruct (head_kept _ _ _ Kp1) as (g & Hg & Kg). destruct Kp2 as [_ Kp2]. destruct (Kp2 (length stk) g) as (g2 & Hg2 & Kg2); [rewrite upd_other by lia; exact Hg|].
      eapply placed_eq; [|eapply kept_trans; [exact Kg|exact Kg2]|right; reflexivity|exact P]. rewrite upd_other by lia. exact Hg2. }
    assert (Up2 : upto (upd stk1 (S (length stk)) (set_parent (length stk))) fin (S (length stk)) (length stk1)).
    { eapply keeps_upto; [exact Kp2|]. intros j f Hj Hf. apply Up; [lia|]. rewrite upd_other by lia. exact Hf. }
    destruct (IH1 ltac:(eapply r_step; [exact R|eapply v_key; eassumption]) fin (Some (length stk)) 0 0 false M La1) as [Ll1 Cv1].
    { rewrite L1. eapply placed_child; [eapply upto_sub; [exact Up2|lia|lia]|apply upd_same| |eauto]. intros f Hf. rewrite Hc1 in Hf. injection Hf as <-. apply link_child0, Rc1. }
    { rewrite L1. intros j f Hj Hf. apply Up2; [lia|]. rewrite upd_other by lia. exact Hf. }
    destruct (IH2 ltac:(eapply r_step; [exact R|eapply v_val; eassumption]) fin (Some (length stk)) 0 0 false M La2) as [Ll2 Cv2].
    { rewrite ?upd_length. eapply placed_child; [eapply upto_sub; [exact Up|lia|lia]|apply upd_same| |eauto]. intros f Hf. rewrite Hc2 in Hf. injection Hf as <-. apply link_child0, Rc2. }
    { rewrite ?upd_length. intros j f Hj Hf. apply Up; [lia|]. rewrite upd_other by lia. exact Hf. }
    rewrite L1, ?upd_length in *. split; [|eapply covered_head; [exact Hn|destruct q; discriminate|eapply covered_app; eassumption]].
    eapply l_map; [exact Pl|exact Un|exact Ns| |exact Ll1|exact Ll2]. eexists. split; [exact Hn|]. split; [destruct q; reflexivity|]. repeat split. cbn. rewrite (tsize_under w64 E T sizes), Un. reflexivity.
  - (* recursive pointer *) intros stk T U i Pl Un F R fin par off cap q M La P Up. rewrite L1, mark_length.
    destruct (target_later _ _ _ _ _ F La) as [Hi Tg].
    assert (Hn : nth_error fin (length stk) = Some (link par off cap q (set_recur i (mkfr EPtrRecur (wb w64))))).
    { eapply placed_eq; [apply nth_last_mark|apply kept_refl|left; reflexivity|exact P]. }
    split; [|eapply covered_one; [exact Hn|destruct q; discriminate]].
    eapply l_ptr_rec; [exact Pl|exact Un|]. eexists. split; [exact Hn|]. split; [destruct q; reflexivity|]. repeat split; try assumption. cbn. rewrite (tsize_under w64 E T sizes), Un. reflexivity.
  - (* pointer *) intros stk T U stk1 Pl Un F Ap IH R fin par off cap q M La P Up. rewrite upd_length in *.
    destruct (AK _ _ _ Ap) as [Kp Ln]. rewrite L1 in Ln. destruct (app_head w64 E disallow _ _ _ Ap) as (c & Hc & _ & Rc). rewrite L1 in Hc.
    assert (Hn : nth_error fin (length stk) = Some (link par off cap q (mkfr EPtr (wb w64)))).
    { eapply head_frame; [exact Kp|left; reflexivity| |exact P]; apply upd_other; lia. }
    destruct (IH ltac:(eapply r_step; [exact R|eapply v_ptr; eassumption]) fin (Some (length stk)) 0 0 false M) as [Ll Cv].
    { eapply upd_later; [|exact La]. auto. }
    { rewrite L1. eapply placed_child; [eapply upto_sub; [exact Up|lia|lia]|apply upd_same| |eauto]. intros f Hf. rewrite Hc in Hf. injection Hf as <-. apply link_child0, Rc. }
    { rewrite L1. intros j f Hj Hf. apply Up; [lia|]. rewrite upd_other by lia. exact Hf. }
    rewrite L1 in *. split; [|eapply covered_head; [exact Hn|destruct q; discriminate|exact Cv]].
    eapply l_ptr; [exact Pl|exact Un| |exact Ll]. eexists. split; [exact Hn|]. split; [destruct q; reflexivity|]. repeat split. cbn. rewrite (tsize_under w64 E T sizes), Un. reflexivity.
  - (* struct *) intros stk T id z l stk1 Pl Un Nl Af IH R fin par off cap q M La P Up.
    assert (Rf : forall f U name q, In (f, U) l -> known_as f name q -> reaches T0 U).
    { intros f U name q' I Kn. eapply r_step; [exact R|]. eapply v_field; [exact Pl|]. exists id, z, l. split; [exact Un|split; eassumption]. }
    destruct (AF _ _ _ _ Af) as [Ln Kb]; [rewrite L1; lia|]. rewrite L1 in Ln.
    destruct (IH Rf ltac:(rewrite L1; lia) fin M La) as (fs & Fs & Ll & Cv); [rewrite L1; exact Up|]. rewrite L1 in *.
    assert (Id : exists r, identity E T = Some r).
    { destruct T; cbn in *; try discriminate; [eauto|]. rewrite Un. eauto. }
    destruct Id as (r & Id). assert (Sf : struct_frame w64 E T = set_rt r (mkfr EStruct (size T))) by (unfold struct_frame; rewrite identity_struct_id, Id; reflexivity).
    rewrite Sf in *. set (f0 := set_rt r (mkfr EStruct (size T))) in *.
    assert (H0 : nth_error (stk ++ [f0]) (length stk) = Some f0) by (rewrite nth_error_app2, Nat.sub_diag by lia; reflexivity).
    destruct (Kb (length stk) f0 H0) as (f1 & Hf1 & K1). rewrite Nat.eqb_refl in K1. destruct K1 as [l' K1].
    pose proof (Fs f0 f1 H0 Hf1) as Ff. cbn in Ff. destruct P as (g & g' & Hg & Hg' & Kg). rewrite Hf1 in Hg. injection Hg as <-.
    assert (Fr : f_rt f1 = Some r /\ f_size f1 = size T /\ (f_ty f1 = EStruct \/ f_ty f1 = EStructRecur)).
    { destruct K1 as [->|(-> & _)]; cbn; auto. }
    destruct Fr as (F1 & F2 & F3).
    assert (LL : laid fin par off cap q T (length stk) (length stk1)).
    { eapply l_struct with (e := f_ty g'); [exact Pl|exact Un|exact Nl|exact Id| |exists g'; split; [exact Hg'|]|exact Ll].
      - destruct Kg as [->|(-> & _)]; cbn; [|auto]. destruct F3 as [-> | ->]; destruct q; cbn; auto.
      - split; [reflexivity|]. destruct Kg as [->|(-> & _)]; cbn; rewrite ?F1, ?F2, ?Ff; auto 10. }
    split; [exact LL|]. intros t f Ht Hf Tf. destruct (Nat.eq_dec t (length stk)) as [->|]; [|apply Cv; [lia|exact Hf|exact Tf]].
    exists T, par, off, cap, q, (length stk1). split; [exact R|]. split; [exact LL|]. rewrite Id. rewrite Hg' in Hf. injection Hf as <-. destruct Kg as [->|(-> & _)]; cbn; congruence.
  - intros p stk R Hp fin M La Up. exists []. split; [|split; [constructor|intros t f Ht; lia]]. intros f f' H1 H2. rewrite H1 in H2. injection H2 as <-. rewrite app_nil_r. reflexivity.
  - intros p stk f U l stk' Ig Af IH R Hp fin M La Up. destruct (IH ltac:(intros g V name q I; apply R; right; exact I) Hp fin M La Up) as (fs & Fs & Ll & Cv).
    exists fs. split; [exact Fs|]. split; [apply lf_skip; assumption|exact Cv].
  - intros p stk f U l stk1 name q g stk' Kn Ap IH1 Hg Hq Af IH2 R Hp fin M La Up.
    destruct (AK _ _ _ Ap) as [Kp Ln]. destruct (app_head w64 E disallow _ _ _ Ap) as (c & Hc & _ & Rc).
    destruct (AF _ _ _ _ Af) as [Ln2 Kb]; [rewrite !upd_length; lia|]. rewrite !upd_length in Ln2.
    set (addf := fun x => set_fields (f_fields x ++ [(name, length stk)]) x) in *.
    set (lk := fun c => set_parent p (set_off (fd_off f) c)) in *.
    set (s3 := upd (upd (upd stk1 p addf) (length stk) lk) (length stk) g) in *.
    assert (S3 : length s3 = length stk1) by (unfold s3; rewrite !upd_length; reflexivity).
    assert (RtG : forall x, f_rt (g x) = f_rt x) by (destruct Hg as [[-> _]|(_ & c0 & e & _ & _ & ->)]; reflexivity).
    assert (La3 : later s3 fin).
    { intros j x Hx. destruct (Kb j x Hx) as (x1 & Hx1 & K1). destruct (La j x1 Hx1) as (x2 & Hx2 & R2 & T2). exists x2. split; [exact Hx2|].
      destruct (Nat.eqb j p); [destruct K1 as [l1 K1]|]; (destruct K1 as [->|(-> & _)]; cbn in *; split; auto). }
    assert (N3 : nth_error s3 (length stk) = option_map (fun x => g (lk x)) (nth_error stk1 (length stk))).
    { unfold s3. rewrite !upd_same. rewrite (upd_other stk1) by lia. destruct (nth_error stk1 (length stk)); reflexivity. }
    assert (Lt : later stk1 fin).
    { intros j x Hx. specialize (La3 j). unfold s3 in La3. rewrite !upd_nth in La3.
      destruct (Nat.eqb_spec (length stk) j) as [Ej|Nj]; [rewrite <- Ej in *; destruct (Nat.eqb_spec p (length stk)); [lia|]|]; [|destruct (Nat.eqb p j)]; rewrite Hx in La3; cbn in La3;
        (destruct (La3 _ eq_refl) as (x' & Hx' & Rx & Tx); exists x'; split; [exact Hx'|]); rewrite ?RtG in Rx; (split; [exact Rx|]); try exact Tx.
      intros Q. apply Tx. destruct Hg as [[-> _]|(_ & c0 & e & Hc0 & Hs & ->)]; [exact Q|]. exfalso. rewrite Hx in Hc0. injection Hc0 as <-. rewrite Q in Hs. discriminate. }
    assert (Up3 : upto s3 fin (length stk) (length stk1)).
    { intros j x Hj Hx. destruct (Kb j x Hx) as (x1 & Hx1 & K1). destruct (Nat.eqb_spec j p); [lia|]. destruct (Up j x1 ltac:(lia) Hx1) as (x2 & Hx2 & K2). exists x2. split; [exact Hx2|eapply kept_trans; eassumption]. }
    destruct (IH1 ltac:(eapply R; [left; reflexivity|exact Kn]) fin (Some p) (fd_off f) 0 q M Lt) as [Ll1 Cv1].
    { eapply placed_child; [eapply upto_sub; [exact Up3|lia|lia]|exact N3| |eauto]. intros x Hx. rewrite Hc in Hx. injection Hx as <-.
      destruct Rc as (R1 & R2 & R3). destruct Hg as [[-> Hn]|(-> & c0 & e & Hc0 & Hs & ->)].
      - assert (with_option q (f_ty c) = f_ty c). { destruct q; [|reflexivity]. specialize (Hn eq_refl c Hc). destruct (f_ty c); cbn in Hn |- *; congruence. }
        unfold link, lk, set_parent, set_off. cbn. rewrite H. destruct c; cbn in *. subst. reflexivity.
      - rewrite Hc in Hc0. injection Hc0 as <-. unfold link, lk, set_ty, set_parent, set_off. cbn. rewrite R3. f_equal. destruct (f_ty c); cbn in Hs; congruence. }
    { intros j x Hj Hx. apply Up3; [lia|]. unfold s3. rewrite !upd_other by lia. exact Hx. }
    destruct (IH2 ltac:(intros g' V name' q' I; apply R; right; exact I) ltac:(lia) fin M La ltac:(eapply upto_sub; [exact Up|lia|lia])) as (fs & Fs & Ll2 & Cv2).
    rewrite S3 in *. exists ((name, length stk) :: fs). split; [|split; [eapply lf_field; eassumption|eapply covered_app; eassumption]].
    intros x x' Hx Hx'. destruct Kp as [_ Kp]. destruct (Kp p x Hx) as (x1 & Hx1 & K1).
    assert (H3 : nth_error s3 p = Some (addf x1)). { unfold s3. rewrite !upd_other by lia. rewrite upd_same, Hx1. reflexivity. }
    rewrite (Fs _ _ H3 Hx'). unfold addf. cbn. rewrite <- app_assoc. cbn. f_equal. destruct K1 as [->|(-> & _)]; reflexivity.
Qed.

Theorem append_layout fuel stk : append fuel [] T0 = AOk stk ->
  laid stk None 0 0 false T0 0 (length stk) /\ covered stk 0 (length stk).
Proof.
  intros H. apply append_app in H. destruct layout as [La _]. destruct app_marks as [Ma _].
  assert (M : marks_plain stk) by (apply (Ma _ _ _ H); [constructor|intros f []]).
  destruct (app_head w64 E disallow _ _ _ H) as (c & Hc & _ & R1 & R2 & R3).
  apply (La _ _ _ H); [constructor|exact M| | |].
  - intros j f Hf. exists f. auto.
  - exists c, c. split; [exact Hc|]. split; [exact Hc|]. left. destruct c; cbn in *. subst. reflexivity.
  - intros j f _ Hf. exists f. split; [exact Hf|apply kept_refl].
Qed.
End Marks.
End Layout.

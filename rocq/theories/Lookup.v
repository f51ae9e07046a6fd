(** Model of the struct field lookup: jscandec.go:2751-2797 [fieldFrameIndexByName] and
    the inlined exact search of [Decode] (jscandec.go:2279-2308).

    A field is its name and the index of its frame.  [fold] models strings.EqualFold,
    which is not part of the repository: the theorems hold for every [fold].
    [None] models the constant noParentFrame. *)
From Verif Require Import Base.

Definition field := (bytes * nat)%type.

Section Lookup.
Variable fold : bytes -> bytes -> bool.

(** jscandec.go:2768-2772 and 2301-2306: the rest of the exact loop. *)
Fixpoint exact_tail (f : list field) (name : bytes) : option nat :=
  match f with
  | [] => None
  | a :: r => if bytes_eqb (fst a) name then Some (snd a) else exact_tail r name
  end.

(** jscandec.go:2754-2767 and 2283-2300: four fields at a time. *)
Fixpoint exact_loop (f : list field) (name : bytes) : option nat :=
  match f with
  | a0 :: a1 :: a2 :: a3 :: r =>
      if bytes_eqb (fst a0) name then Some (snd a0)
      else if bytes_eqb (fst a1) name then Some (snd a1)
      else if bytes_eqb (fst a2) name then Some (snd a2)
      else if bytes_eqb (fst a3) name then Some (snd a3)
      else exact_loop r name
  | _ => exact_tail f name
  end.

(** [len(f.Name) == len(name) && eq(f.Name, name)] *)
Definition ci (a : field) (name : bytes) : bool :=
  Nat.eqb (length (fst a)) (length name) && fold (fst a) name.

(** jscandec.go:2791-2795. *)
Fixpoint ci_tail (f : list field) (name : bytes) : option nat :=
  match f with
  | [] => None
  | a :: r => if ci a name then Some (snd a) else ci_tail r name
  end.

(** jscandec.go:2777-2790. *)
Fixpoint ci_loop (f : list field) (name : bytes) : option nat :=
  match f with
  | a0 :: a1 :: a2 :: a3 :: r =>
      if ci a0 name then Some (snd a0)
      else if ci a1 name then Some (snd a1)
      else if ci a2 name then Some (snd a2)
      else if ci a3 name then Some (snd a3)
      else ci_loop r name
  | _ => ci_tail f name
  end.

(** jscandec.go:2751-2797 [fieldFrameIndexByName]. *)
Definition fieldFrameIndexByName (fields : list field) (name : bytes) : option nat :=
  match exact_loop fields name with
  | Some i => Some i
  | None => ci_loop fields name
  end.

(** jscandec.go:2279-2311: selection by the option DisableCaseInsensitiveMatching. *)
Definition lookup_field (disable_ci : bool) (fields : list field) (name : bytes) : option nat :=
  if disable_ci then exact_loop fields name else fieldFrameIndexByName fields name.

(** ** Specification: the first field of the list satisfying a predicate *)
Definition first_such (P : field -> Prop) (fields : list field) (r : option nat) : Prop :=
  match r with
  | Some i => exists pre a post, fields = pre ++ a :: post /\ snd a = i /\ P a /\ Forall (fun x => ~ P x) pre
  | None => Forall (fun x => ~ P x) fields
  end.

Lemma exact_loop_tail name : forall n f, length f <= n -> exact_loop f name = exact_tail f name.
Proof.
  induction n as [n IH] using lt_wf_ind. intros f Hn.
  destruct f as [|a0 [|a1 [|a2 [|a3 r]]]]; try reflexivity. cbn [exact_loop exact_tail].
  destruct (bytes_eqb (fst a0) name); [reflexivity|]. destruct (bytes_eqb (fst a1) name); [reflexivity|].
  destruct (bytes_eqb (fst a2) name); [reflexivity|]. destruct (bytes_eqb (fst a3) name); [reflexivity|].
  cbn in Hn. apply (IH (length r)); lia.
Qed.

Lemma ci_loop_tail name : forall n f, length f <= n -> ci_loop f name = ci_tail f name.
Proof.
  induction n as [n IH] using lt_wf_ind. intros f Hn.
  destruct f as [|a0 [|a1 [|a2 [|a3 r]]]]; try reflexivity. cbn [ci_loop ci_tail].
  destruct (ci a0 name); [reflexivity|]. destruct (ci a1 name); [reflexivity|].
  destruct (ci a2 name); [reflexivity|]. destruct (ci a3 name); [reflexivity|].
  cbn in Hn. apply (IH (length r)); lia.
Qed.

Lemma exact_tail_spec name f : first_such (fun a => fst a = name) f (exact_tail f name).
Proof.
  induction f as [|a f IH]; cbn; [constructor|].
  destruct (bytes_eqb (fst a) name) eqn:E.
  - apply bytes_eqb_eq in E. exists [], a, f. repeat split; auto.
  - assert (N : fst a <> name) by (intros H; apply bytes_eqb_eq in H; congruence).
    destruct (exact_tail f name) as [i|]; cbn in *.
    + destruct IH as (pre & b & post & -> & Hi & Hb & Hp). exists (a :: pre), b, post. repeat split; auto.
    + constructor; assumption.
Qed.

Lemma ci_tail_spec name f : first_such (fun a => ci a name = true) f (ci_tail f name).
Proof.
  induction f as [|a f IH]; cbn; [constructor|].
  destruct (ci a name) eqn:E.
  - exists [], a, f. repeat split; auto.
  - assert (N : ci a name <> true) by congruence.
    destruct (ci_tail f name) as [i|]; cbn in *.
    + destruct IH as (pre & b & post & -> & Hi & Hb & Hp). exists (a :: pre), b, post. repeat split; auto.
    + constructor; assumption.
Qed.

(** The lookup rule. *)
Theorem lookup_spec dis fields name :
  (exists i, first_such (fun a => fst a = name) fields (Some i) /\ lookup_field dis fields name = Some i) \/
  (first_such (fun a => fst a = name) fields None /\
   if dis then lookup_field dis fields name = None
   else first_such (fun a => length (fst a) = length name /\ fold (fst a) name = true) fields
          (lookup_field dis fields name)).
Proof.
  unfold lookup_field, fieldFrameIndexByName.
  rewrite (exact_loop_tail name (length fields)) by lia. rewrite (ci_loop_tail name (length fields)) by lia.
  pose proof (exact_tail_spec name fields) as E. destruct (exact_tail fields name) as [i|].
  - left. exists i. split; [exact E|]. destruct dis; reflexivity.
  - right. split; [exact E|]. destruct dis; [reflexivity|].
    pose proof (ci_tail_spec name fields) as C. unfold first_such in *.
    assert (Q : forall a, ci a name = true <-> length (fst a) = length name /\ fold (fst a) name = true).
    { intros a. unfold ci. rewrite andb_true_iff, Nat.eqb_eq. tauto. }
    destruct (ci_tail fields name) as [i|].
    + destruct C as (pre & a & post & -> & Hi & Ha & Hp). exists pre, a, post. repeat split; try assumption.
      * apply Q, Ha. * apply Q, Ha.
      * eapply Forall_impl; [|exact Hp]. cbn. intros x Hx Hy. apply Hx, Q, Hy.
    + eapply Forall_impl; [|exact C]. cbn. intros x Hx Hy. apply Hx, Q, Hy.
Qed.

End Lookup.

(** The composition: for every supported type, every decoder history, every document and
    every previous content of the destination, Decode computes the ideal decoder of
    Spec.v (within the limits [ctl_root] and [sound], outside of which the code is
    defective, see PropsRefuted.v and PropsLeaf.v). *)
From Verif Require Import Base NumSpec Types AppendType Token FloatLit Heap Machine Dt Dec Control Root Elab Value Dval Sep Refine Refine2 Refine3 Spec Typed SpecProofs.
Open Scope Z_scope.

(** A decoder state reached from a new decoder by any calls of Decode, with any options,
    inputs (well-formed or not), destinations and memory, successful or not. *)
Inductive used (C : cfg) (stk : list frame) : dyn -> Prop :=
| u_new : used C stk (dyn0 stk)
| u_call O D s tk t h i e D' h' : used C stk D -> Decode C O stk D s tk t h = Ret i e D' h' -> used C stk D'.

Lemma used_rested C stk d D : describes (c_w64 C) stk d -> used C stk D -> rested stk D.
Proof.
  intros Ds U. induction U as [|O D s tk t h i e D' h' U IH E]; [apply rested_fresh|].
  exact (rested_decode C O (c_w64 C) stk d D s tk t h i e D' h' Ds IH E).
Qed.

(** [stk] is the frame list NewDecoder makes for the Go type [T], whose resolved form is
    [d], and [D] is the state of that decoder after some calls. *)
Record decoder_for (C : cfg) (E : env) (disallow : bool) (T : ty) (d : dt) (stk : list frame) (D : dyn) : Prop := {
  df_sizes : sizes_ok (c_w64 C) E;
  df_type : exists seen, resolves (c_w64 C) E disallow [] T d seen;
  df_layout : layout (c_w64 C) d;
  df_new : exists fuel, append (c_w64 C) E disallow fuel [] T = AOk stk;
  df_used : used C stk D }.

Lemma decoder_describes C E dis T d stk D : decoder_for C E dis T d stk D -> describes (c_w64 C) stk d.
Proof. intros [S (seen & R) _ (fuel & A) _]. exact (append_ok_describes _ _ _ _ _ _ _ _ S R A). Qed.

(** What a call left behind: the destination holds [g'], the memory of the value is
    [F'], and nothing else changed. *)
Definition stored (w64 : bool) (d : dt) (h : heap) (a : addr) (F : list nat) (h' : heap) (g' : gval) : Prop :=
  exists F', rep w64 d h' (Some a) g' F' /\ own h' (Some a) F' /\ only h h' (Some a) (dsize w64 d) F F'.
(** The call returned what the recursive decoder computes. *)
Definition returned (C : cfg) (d : dt) (h : heap) (a : addr) (F : list nat) (r : result) (q : vres gval) : Prop :=
  match q with
  | VOk g' => exists D' h', r = Ret (-1) None D' h' /\ stored (c_w64 C) d h a F h' g'
  | VErr i e g' => exists D' h', r = Ret (Z.of_nat i) (Some e) D' h' /\ stored (c_w64 C) d h a F h' g'
  | VPan => r = DPanics
  end.

Theorem decode_dval C O E dis T d stk D s v a h g F :
  decoder_for C E dis T d stk D -> json_text s v -> ctl_root C O d v ->
  rep (c_w64 C) d h (Some a) g F -> own h (Some a) F ->
  returned C d h a F (Decode C O stk D s (TOk (flat 0 v)) (Some a) h) (dval C O s d v g).
Proof.
  intros Df J Ct R Ow. pose proof (decoder_describes _ _ _ _ _ _ _ Df) as Ds.
  pose proof (used_rested _ _ _ _ Ds (df_used _ _ _ _ _ _ _ Df)) as Rd. pose proof (json_text_lexed _ _ J) as L.
  pose proof (decode_dech C O stk s v d D a h Ds Rd L Ct) as Q.
  pose proof (dech_good C O s d (df_layout _ _ _ _ _ _ _ Df) v h (Some a) g F L R Ow) as G.
  unfold returned. unfold gsim in G. destruct (dval C O s d v g) as [g'|i e g'|].
  - destruct G as (h' & E1 & G). rewrite E1 in Q. destruct Q as (D' & Q & _). exists D', h'. split; [exact Q|exact G].
  - destruct G as (h' & E1 & G). rewrite E1 in Q. destruct Q as (D' & Q & _). exists D', h'. split; [exact Q|exact G].
  - rewrite G in Q. exact Q.
Qed.

Theorem decode_ideal C O E dis T d stk D s v a h g F :
  decoder_for C E dis T d stk D -> json_text s v -> ctl_root C O d v -> sound C O d v ->
  rep (c_w64 C) d h (Some a) g F -> own h (Some a) F ->
  ideal C O s d v g <> VPan /\
  returned C d h a F (Decode C O stk D s (TOk (flat 0 v)) (Some a) h) (ideal C O s d v g).
Proof.
  intros Df J Ct S R Ow. pose proof (json_text_lexed _ _ J) as L. pose proof (rep_typed _ _ _ _ _ _ R) as Ty.
  pose proof (decode_dval C O E dis T d stk D s v a h g F Df J Ct R Ow) as Q.
  pose proof (dval_typed C O s d v g L (sound_nonempty C O s d v L S) Ty) as N.
  rewrite (dval_ideal C O s d v g L S Ty) in *. split; [|exact Q]. intros E1. rewrite E1 in N. exact N.
Qed.

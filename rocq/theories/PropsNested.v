(** C18, C25 below the root: unknown members whose value is an object, pointers inside
    structs, slices and maps.

    The general theorems hold for every document in the class [ctl_root] (Root.v,
    Control.v).  The lemmas [..._class] of this file name documents that are in it. *)
From Verif Require Import Base NumSpec StrSpec Types AppendType Token FloatLit Heap Machine Dt Dec Control Root Elab Value Dval Sep Refine Spec Typed SpecProofs Main Parse World Elaborate PropsDecode PropsStruct PropsSlice.
Open Scope Z_scope.

(** ** Documents the loop gets right *)
(** A member that is left on time: its value is in the plain class of its field (no
    non-null pointers, no struct{} objects inside); or its key is unknown and the value
    contains no object. *)
Definition plain_member (C : cfg) (O : opts) (fs : list ((bytes * Z) * dt)) (x : (nat * bytes) * jv) : Prop :=
  match field_for C O fs (snd (fst x)) with
  | Some q => forall y, nth_error fs q = Some y -> ctl C O (snd y) (snd x)
  | None => obj_free (snd x) = true
  end.
Definition object (v : jv) : Prop := match v with JObj _ _ _ => True | _ => False end.
Definition unknown_object (C : cfg) (O : opts) (fs : list ((bytes * Z) * dt)) (x : (nat * bytes) * jv) : Prop :=
  field_for C O fs (snd (fst x)) = None /\ object (snd x).

Section Class.
Variables (C : cfg) (O : opts).
Notation mlag fs := (member_lag C O (map (fun x : bytes * Z * dt => fst (fst x)) fs) (map (fun x : bytes * Z * dt => lag_of C O (snd x)) fs)).
Lemma member_key fs key : (o_nounescape O = true \/ plain_str key) -> string_body key ->
  pick (c_fold C) (o_nofold O) (map (fun x => fst (fst x)) fs) (key_of O key) = field_for C O fs key.
Proof.
  intros H B. rewrite field_for_pick by assumption. f_equal. unfold key_of, txt, unesc. destruct (o_nounescape O); [reflexivity|].
  destruct (Unescape.Valid key); reflexivity.
Qed.
Lemma plain_member_lag fs x : (o_nounescape O = true \/ plain_str (snd (fst x))) -> string_body (snd (fst x)) ->
  plain_member C O fs x -> mlag fs x = Some On.
Proof.
  intros H B P. unfold member_lag, plain_member in *. rewrite member_key by assumption. destruct (field_for C O fs (snd (fst x))) as [q|].
  - rewrite nth_error_map. destruct (nth_error fs q) as [y|]; [|reflexivity]. apply ctl_on, P. reflexivity.
  - rewrite P, orb_true_r. reflexivity.
Qed.
Lemma unknown_object_lag fs x : (o_nounescape O = true \/ plain_str (snd (fst x))) -> string_body (snd (fst x)) ->
  unknown_object C O fs x -> mlag fs x = Some On \/ mlag fs x = Some Early.
Proof.
  intros H B [P Ob]. unfold member_lag. rewrite member_key, P by assumption. destruct (o_unknown O || obj_free (snd x)); [auto|].
  destruct (snd x); try contradiction. auto.
Qed.
Lemma lags_harmless l : Forall (fun x => x = Some On \/ x = Some Early) l -> lags true l <> None.
Proof.
  induction 1 as [|x r Hx H IH]; [discriminate|]. destruct r; [destruct Hx as [-> | ->]; discriminate|].
  destruct Hx as [-> | ->]; exact IH.
Qed.
Lemma lags_last top l x : Forall (fun x => x = Some On) l -> lags top (l ++ [x]) = x.
Proof.
  induction 1 as [|y r -> H IH]; [apply lags_one|]. cbn [app]. cbn [lags]. destruct (r ++ [x]) eqn:E; [destruct r; discriminate|]. exact IH.
Qed.

(** The object that is the document, for a struct: members left on time, and unknown
    members with an object for a value. *)
Lemma root_struct_class z fs s i j l : lexed s (JObj i j l) -> sound C O (DStruct z fs) (JObj i j l) ->
  Forall (fun x => plain_member C O fs x \/ unknown_object C O fs x) l -> ctl_root C O (DStruct z fs) (JObj i j l).
Proof.
  intros L Sd P. cbn [ctl_root]. apply lags_harmless, Forall_map. apply lexed_obj in L as (_ & _ & _ & L). cbn [sound] in Sd.
  rewrite Forall_forall in *. intros x Hx. destruct (L x Hx) as [[_ B] _]. destruct (Sd x Hx) as [K _].
  destruct (P x Hx) as [Q|Q]; [left; apply plain_member_lag; assumption|apply unknown_object_lag; assumption].
Qed.
(** .. and, as the last member, a pointer. *)
Lemma root_last_pointer_class z fs s i j l ki key w q nm t : lexed s (JObj i j (l ++ [(ki, key, w)])) -> sound C O (DStruct z fs) (JObj i j (l ++ [(ki, key, w)])) ->
  Forall (plain_member C O fs) l -> field_for C O fs key = Some q -> nth_error fs q = Some (nm, DPtr t) ->
  0 < dsize (c_w64 C) t -> ctl C O t w ->
  ctl_root C O (DStruct z fs) (JObj i j (l ++ [(ki, key, w)])).
Proof.
  intros L Sd P Hf Hy Sz Cw. cbn [ctl_root]. apply lexed_obj in L as (_ & _ & _ & L). cbn [sound] in Sd.
  apply Forall_app in L as [L1 L2]. apply Forall_app in Sd as [S1 S2]. inversion L2 as [|? ? [[_ B] _] _]; subst. inversion S2 as [|? ? [K _] _]; subst. cbn [fst snd] in *.
  rewrite map_app. cbn [map]. rewrite lags_last.
  - unfold member_lag. cbn [fst snd]. rewrite member_key, Hf, nth_error_map, Hy by assumption. cbn [option_map snd lag_of].
    rewrite (ctl_on _ _ _ _ Cw). destruct (Z.eqb_spec (dsize (c_w64 C) t) 0); [lia|]. destruct w; discriminate.
  - apply Forall_map. rewrite Forall_forall in *. intros x Hx. destruct (L1 x Hx) as [[_ B'] _]. destruct (S1 x Hx) as [K' _]. apply plain_member_lag; auto.
Qed.
(** Arrays for a slice of pointers: all elements but the last are null. *)
Lemma slice_pointer_class t i j ks w : Forall (fun x => x = JNull (jidx x)) ks ->
  0 < dsize (c_w64 C) t -> ctl C O t w -> ctl_root C O (DSlice (DPtr t)) (JArr i j (ks ++ [w])).
Proof.
  intros P Sz Cw. cbn [ctl_root ctl_top lag_of fast_et]. rewrite map_app. cbn [map]. rewrite lags_last.
  - cbn [lag_of]. rewrite (ctl_on _ _ _ _ Cw). destruct (Z.eqb_spec (dsize (c_w64 C) t) 0); [lia|]. destruct w; discriminate.
  - apply Forall_map. eapply Forall_impl; [|exact P]. intros x ->. reflexivity.
Qed.
End Class.

(** ** C18 at the root *)
(** Unknown members of the object that is the document are ignored if their value is an
    object, whatever that object contains, or contains no object.  (Missing from C18: such
    objects inside an unknown array, and members of nested structs: C18_refuted,
    C17_refuted_unknown_member.) *)
Theorem C18_root_unknown_objects_partial C O E dis T z fs stk D1 D2 s s' i j l i' j' l' a h g F :
  decoder_for C E dis T (DStruct z fs) stk D1 -> decoder_for C E dis T (DStruct z fs) stk D2 -> o_unknown O = false ->
  json_text s (JObj i j l) -> json_text s' (JObj i' j' l') ->
  content C O s (DStruct z fs) (JObj i j l) = content C O s' (DStruct z fs) (JObj i' j' l') ->
  Forall (fun x => plain_member C O fs x \/ unknown_object C O fs x) l ->
  Forall (fun x => plain_member C O fs x \/ unknown_object C O fs x) l' ->
  sound C O (DStruct z fs) (JObj i j l) -> sound C O (DStruct z fs) (JObj i' j' l') -> variable C (DStruct z fs) h a g F ->
  exists g' er i1 i2 D1' D2' h1 h2 F1 F2,
    Decode C O stk D1 s (TOk (flat 0 (JObj i j l))) (Some a) h = Ret i1 er D1' h1 /\ variable C (DStruct z fs) h1 a g' F1 /\
    Decode C O stk D2 s' (TOk (flat 0 (JObj i' j' l'))) (Some a) h = Ret i2 er D2' h2 /\ variable C (DStruct z fs) h2 a g' F2.
Proof.
  intros Df Df' Un J J' Ec P P' S S' V. eapply C18_unknown_members_partial; try eassumption.
  - eapply root_struct_class; [exact (json_text_lexed _ _ J)|exact S|exact P].
  - eapply root_struct_class; [exact (json_text_lexed _ _ J')|exact S'|exact P'].
Qed.
Definition unk_text : bytes := bs "{""u"":{""A"":5,""x"":[{}]},""A"":-5,""w"":[1,[]],""B"":[""p""],""v"":{""B"":[[{""A"":{}}]]},""D"":""-2.50""}".
Definition unk_text2 : bytes := bs "{""A"":-5,""B"":[""p""],""D"":""-2.50""}".
Example C18_root_case :
  match tree_of unk_text, tree_of unk_text2, ex_dt with
  | JObj i j l, JObj i' j' l', DStruct z fs =>
      json_text unk_text (JObj i j l) /\ json_text unk_text2 (JObj i' j' l') /\
      content wC default_opts unk_text ex_dt (JObj i j l) = content wC default_opts unk_text2 ex_dt (JObj i' j' l') /\
      Forall (fun x => plain_member wC default_opts fs x \/ unknown_object wC default_opts fs x) l /\
      Forall (fun x => plain_member wC default_opts fs x \/ unknown_object wC default_opts fs x) l' /\
      sound wC default_opts ex_dt (JObj i j l) /\ sound wC default_opts ex_dt (JObj i' j' l')
  | _, _, _ => False
  end.
Proof.
  let a := eval vm_compute in (tree_of unk_text) in change (tree_of unk_text) with a.
  let a := eval vm_compute in (tree_of unk_text2) in change (tree_of unk_text2) with a.
  let a := eval vm_compute in ex_dt in change ex_dt with a. cbv beta iota.
  split; [apply parse_sound; vm_compute; reflexivity|]. split; [apply parse_sound; vm_compute; reflexivity|]. split; [vm_compute; reflexivity|].
  assert (Fl : forall fs x, (match field_for wC default_opts fs (snd (fst x)) with
            | Some q => match nth_error fs q with Some y => match snd y with DSc _ | DSlice (DSc SStr) => true | _ => false end | None => true end
            | None => match snd x with JObj _ _ _ => true | w => obj_free w end end = true) ->
            plain_member wC default_opts fs x \/ unknown_object wC default_opts fs x).
  { intros fs x. unfold plain_member, unknown_object. destruct (field_for _ _ _ _) as [q|].
    - intros H. left. intros y Hy. rewrite Hy in H. destruct (snd y) as [| | | | | |[[]| | | | | | | | | |]| | | |]; try discriminate; exact I.
    - intros H. destruct (snd x); try (left; exact H). right. split; [reflexivity|exact I]. }
  split; [repeat (apply Forall_cons; [apply Fl; vm_compute; reflexivity|]); apply Forall_nil|]. split; [repeat (apply Forall_cons; [apply Fl; vm_compute; reflexivity|]); apply Forall_nil|].
  split; apply soundb_spec; vm_compute; reflexivity.
Qed.

(** ** C25 below the root *)
(** What decoding [w] into a *T sets the pointer to. *)
Definition pointer_to (C : cfg) (O : opts) (s : bytes) (t : dt) (w : jv) (g : gval) : Prop :=
  match w with
  | JNull _ => g = VPtr None
  | _ => exists g', g = VPtr (Some g') /\ ideal C O s t w (zero t) = VOk g'
  end.
Lemma ideal_pointer C O s t w g0 g : ideal C O s (DPtr t) w g0 = VOk g -> pointer_to C O s t w g.
Proof.
  intros H. destruct w; cbn [ideal pointer_to] in *; try (injection H as <-; reflexivity);
    (destruct (ideal C O s t _ (zero t)) as [g'|? ? g'|]; cbn [vmap] in H; try discriminate H; injection H as <-; exists g'; auto).
Qed.
Lemma in_turn_pointer C O s t ws : forall g0 g, ws <> [] -> in_turn (ideal C O s (DPtr t)) ws g0 = VOk g -> pointer_to C O s t (last ws (JNull 0)) g.
Proof.
  induction ws as [|w ws IH]; intros g0 g Nn H; [congruence|]. cbn [in_turn] in H.
  destruct (ideal C O s (DPtr t) w g0) as [g1|? ? g1|] eqn:E; try discriminate H. destruct ws as [|w' ws].
  - cbn in H. injection H as <-. cbn [last]. eapply ideal_pointer, E.
  - apply IH in H; [exact H|discriminate].
Qed.

(** Pointers in a struct.  After a successful call, for every field of type *T: without a
    member for it the pointer is unchanged; otherwise it is nil or points to the decoding
    of the last member for it. *)
Theorem C25_struct_pointers_partial C O E dis T z fs stk D s i j l a h gs F :
  decoder_for C E dis T (DStruct z fs) stk D -> json_text s (JObj i j l) -> ctl_root C O (DStruct z fs) (JObj i j l) -> sound C O (DStruct z fs) (JObj i j l) ->
  variable C (DStruct z fs) h a (VStruct gs) F ->
  exists gs' r er D' h' F', Decode C O stk D s (TOk (flat 0 (JObj i j l))) (Some a) h = Ret r er D' h' /\
    variable C (DStruct z fs) h' a (VStruct gs') F' /\
    (er = None -> forall q nm t g, nth_error fs q = Some (nm, DPtr t) -> nth_error gs q = Some g ->
       exists g', nth_error gs' q = Some g' /\
         match assigned C O fs q l with [] => g' = g | ws => pointer_to C O s t (last ws (JNull 0)) g' end).
Proof.
  intros Df J Ct Sd V. destruct (C20_fields_partial C O E dis T z fs stk D s i j l a h gs F Df J Ct Sd V) as (gs' & r & er & D' & h' & F' & Q & V' & P).
  exists gs', r, er, D', h', F'. split; [exact Q|]. split; [exact V'|]. intros -> q nm t g Hq Hg. destruct P as (_ & P & _).
  destruct (P eq_refl q nm (DPtr t) g Hq Hg) as (g' & Hg' & I). exists g'. split; [exact Hg'|].
  destruct (assigned C O fs q l) as [|w ws]; [cbn in I; congruence|]. eapply in_turn_pointer; [discriminate|exact I].
Qed.
(** In a slice: every element. *)
Theorem C25_slice_pointers_partial C O E dis T t stk D s i j l a h g F :
  decoder_for C E dis T (DSlice (DPtr t)) stk D -> json_text s (JArr i j l) -> ctl_root C O (DSlice (DPtr t)) (JArr i j l) -> sound C O (DSlice (DPtr t)) (JArr i j l) ->
  variable C (DSlice (DPtr t)) h a g F ->
  exists r er D' h' F' g', Decode C O stk D s (TOk (flat 0 (JArr i j l))) (Some a) h = Ret r er D' h' /\ variable C (DSlice (DPtr t)) h' a g' F' /\
    (er = None -> exists vis hid, g' = VSlice (Some (vis, hid)) /\ length vis = length l /\
       forall k w, nth_error l k = Some w -> exists g1, nth_error vis k = Some g1 /\ pointer_to C O s t w g1).
Proof.
  intros Df J Ct Sd V. pose proof (C15_decode_is_ideal_partial C O E dis T _ stk D s _ a h _ F Df J Ct Sd V) as Q.
  destruct (ideal C O s (DSlice (DPtr t)) (JArr i j l) g) as [g'|n e g'|] eqn:Ei; [| |contradiction];
    destruct Q as (D' & h' & F' & Q & V' & _); eexists _, _, D', h', F', g'; (split; [exact Q|split; [exact V'|]]); [|discriminate].
  intros _. destruct (C21_slice_anywhere C O s (DPtr t) i j l g g' ltac:(discriminate) Ei) as (vis & hid & -> & Ln & _ & P).
  exists vis, hid. split; [reflexivity|]. split; [exact Ln|]. intros k w Hk. destruct (P k w Hk) as (g1 & H1 & H2). exists g1. split; [exact H1|]. eapply ideal_pointer, H2.
Qed.
(** In a map: the entry of every key that occurs. *)
Theorem C25_map_pointers_partial C O E dis T kt t stk D s i j l a h g F :
  decoder_for C E dis T (DMap kt (DPtr t)) stk D -> json_text s (JObj i j l) -> ctl_root C O (DMap kt (DPtr t)) (JObj i j l) -> sound C O (DMap kt (DPtr t)) (JObj i j l) ->
  variable C (DMap kt (DPtr t)) h a g F ->
  exists r er D' h' F' m', Decode C O stk D s (TOk (flat 0 (JObj i j l))) (Some a) h = Ret r er D' h' /\ variable C (DMap kt (DPtr t)) h' a (VMap (Some m')) F' /\
    (er = None -> forall key, match gives C kt l key with
       | [] => getk m' key = getk (entries_of g) key
       | ws => exists g1, getk m' key = Some g1 /\ pointer_to C O s t (last ws (JNull 0)) g1
       end).
Proof.
  intros Df J Ct Sd V. destruct (C23_entries_partial C O E dis T kt (DPtr t) stk D s i j l a h g F Df J Ct Sd V) as (m' & r & er & D' & h' & F' & Q & V' & P1 & P2).
  exists r, er, D', h', F', m'. split; [exact Q|]. split; [exact V'|]. intros -> key. specialize (P1 eq_refl key). specialize (P2 key).
  destruct (gives C kt l key) as [|w ws]; [auto|]. clear P2. revert P1. generalize (getk m' key) (getk (entries_of g) key). clear.
  revert w. induction ws as [|w' ws IH]; intros w new old H; cbn [entry is_struct] in H.
  - destruct (ideal C O s (DPtr t) w _) as [g1|? ? g1|] eqn:E1; try discriminate H. injection H as <-. exists g1. split; [reflexivity|]. cbn [last]. eapply ideal_pointer, E1.
  - destruct (ideal C O s (DPtr t) w _) as [g1|? ? g1|] eqn:E1; try discriminate H. exact (IH w' new (Some g1) H).
Qed.

(** Cases: a struct whose last member sets a pointer to a struct; [null,null,7] for []*int;
    a map whose last value is a pointer. *)
Definition np_ty : ty := TStruct 9 24 [(fld0 "A" 0, TPtr (TInt (NK true W64))); (fld0 "B" 8, TBool); (fld0 "P" 16, TPtr ex_ty)].
Definition np_dt : dt := Eval vm_compute in match elab true plain_env false 50 [] np_ty with Some (d, _) => d | None => DEmpty end.
Definition np_stk : list frame := Eval vm_compute in stack_of plain_env np_ty.
Definition np_text : bytes := bs "{""A"":null,""B"":true,""x"":{},""P"":{""A"":-5,""B"":[],""D"":""1.5""}}".
Example C25_struct_case :
  decoder_for wC plain_env false np_ty np_dt np_stk (dyn0 np_stk) /\ json_text np_text (tree_of np_text) /\
  ctl_root wC default_opts np_dt (tree_of np_text) /\ sound wC default_opts np_dt (tree_of np_text) /\
  exists D' h' F', Decode wC default_opts np_stk (dyn0 np_stk) np_text (TOk (flat 0 (tree_of np_text))) dest (world 24) = Ret (-1) None D' h' /\
    variable wC np_dt h' (1%nat, 0) (VStruct [VPtr None; VBool true;
      VPtr (Some (VStruct [VInt (-5); VSlice (Some ([], [])); VMap None; VFloat (FN 15 (-1) false)]))]) F'.
Proof.
  assert (Df : decoder_for wC plain_env false np_ty np_dt np_stk (dyn0 np_stk)) by (eapply new_decoder; [apply plain_env_sizes|vm_compute; reflexivity|vm_compute; reflexivity|vm_compute; reflexivity]).
  assert (J : json_text np_text (tree_of np_text)) by (apply parse_sound; vm_compute; reflexivity).
  assert (Ct : ctl_root wC default_opts np_dt (tree_of np_text)) by (apply ctl_rootb_spec; vm_compute; reflexivity).
  assert (Sd : sound wC default_opts np_dt (tree_of np_text)) by (apply soundb_spec; vm_compute; reflexivity).
  split; [exact Df|]. split; [exact J|]. split; [exact Ct|]. split; [exact Sd|].
  pose proof (world_rep np_dt (df_layout _ _ _ _ _ _ _ Df)) as V.
  pose proof (C15_decode_is_ideal_partial _ _ _ _ _ _ _ _ _ _ (1%nat, 0) _ _ [] Df J Ct Sd V) as Q.
  match type of Q with match ?X with _ => _ end => let y := eval vm_compute in X in replace X with y in Q by (vm_compute; reflexivity) end.
  destruct Q as (D' & h' & F' & Q & V' & _). exists D', h', F'. split; [exact Q|exact V'].
Qed.
Definition pi_dt : dt := DSlice (DPtr (DSc (SInt (NK true W64)))).
Definition pi_ty : ty := TSlice (TPtr (TInt (NK true W64))).
Definition pi_stk : list frame := Eval vm_compute in stack_of plain_env pi_ty.
Definition pm_dt : dt := DMap KeyStr (DPtr (DSc SStr)).
Definition pm_ty : ty := TMap TStr (TPtr TStr).
Definition pm_stk : list frame := Eval vm_compute in stack_of plain_env pm_ty.
Example C25_slice_map_case :
  (let s := bs "[null,null,7]" in decoder_for wC plain_env false pi_ty pi_dt pi_stk (dyn0 pi_stk) /\ json_text s (tree_of s) /\
   ctl_root wC default_opts pi_dt (tree_of s) /\ sound wC default_opts pi_dt (tree_of s) /\
   ideal wC default_opts s pi_dt (tree_of s) (zero pi_dt) = VOk (VSlice (Some ([VPtr None; VPtr None; VPtr (Some (VInt 7))], [])))) /\
  (let s := bs "{""a"":null,""b"":""x""}" in decoder_for wC plain_env false pm_ty pm_dt pm_stk (dyn0 pm_stk) /\ json_text s (tree_of s) /\
   ctl_root wC default_opts pm_dt (tree_of s) /\ sound wC default_opts pm_dt (tree_of s) /\
   ideal wC default_opts s pm_dt (tree_of s) (zero pm_dt) = VOk (VMap (Some [(GStr (bs "a"), VPtr None); (GStr (bs "b"), VPtr (Some (VStr (bs "x"))))]))).
Proof.
  cbn zeta. repeat match goal with |- _ /\ _ => split end;
    try (eapply new_decoder; [apply plain_env_sizes|vm_compute; reflexivity|vm_compute; reflexivity|vm_compute; reflexivity]);
    try (apply parse_sound; vm_compute; reflexivity); try (apply ctl_rootb_spec; vm_compute; reflexivity);
    try (apply soundb_spec; vm_compute; reflexivity); vm_compute; reflexivity.
Qed.

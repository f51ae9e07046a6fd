(** C65, C67: what can be relied upon without exception, of claims that fail in general
    (C37, C52). *)
From Verif Require Import Base NumSpec StrSpec JsonNum Lookup Types AppendType Token FloatLit Heap Machine Dt Dec Control Root Elab Value Dval Sep Refine Spec Typed SpecProofs Main Parse World Elaborate Graph Layout Frames PropsTypes PropsDecode PropsStruct PropsRefuted PropsQuoted PropsHistory PropsGeneral PropsRetained PropsTags Unmarshal.
Open Scope Z_scope.

(** ** C67: the members of a struct type, exactly *)
(** Specification.  The tag is split at its first comma; a first part "-" hides the field;
    otherwise the first part is its name or, if empty, the Go name; the option string is
    recognised only if it is all that follows the comma.  (Exported or not, and embedded
    or not, makes no difference.) *)
Fixpoint before_comma (tag : bytes) : bytes := match tag with [] => [] | c :: r => if c =? 44 then [] else c :: before_comma r end.
Fixpoint after_comma (tag : bytes) : option bytes := match tag with [] => None | c :: r => if c =? 44 then Some r else after_comma r end.
Definition code_name (f : fld) : option bytes :=
  let n := before_comma (fd_tag f) in
  if bytes_eqb n (bs "-") then None else Some (match n with [] => fd_name f | _ => n end).
Definition code_string (f : fld) : bool := match after_comma (fd_tag f) with Some o => bytes_eqb o (bs "string") | None => false end.
Definition code_members (fs : list (fld * ty)) : list (fld * ty) :=
  filter (fun x => match code_name (fst x) with Some _ => true | None => false end) fs.

Lemma split_comma tag n o : tag_parts tag n o -> before_comma tag = n /\ (match after_comma tag with Some r => r = o | None => o = [] end).
Proof.
  intros H. destruct H as [n Nn|n o Nn].
  - induction n as [|c n IH]; [split; reflexivity|]. cbn. destruct (Z.eqb_spec c 44) as [->|Nc]; [exfalso; apply Nn; left; reflexivity|].
    destruct IH as [-> Q]; [intros Q; apply Nn; right; exact Q|]. split; [reflexivity|exact Q].
  - induction n as [|c n IH]; [split; reflexivity|]. cbn. destruct (Z.eqb_spec c 44) as [->|Nc]; [exfalso; apply Nn; left; reflexivity|].
    destruct IH as [-> Q]; [intros Q; apply Nn; right; exact Q|]. split; [reflexivity|exact Q].
Qed.
Lemma known_code f name q : known_as f name q -> code_name f = Some name /\ code_string f = q.
Proof.
  intros (n & o & H & Nd & -> & Hq). destruct (split_comma _ _ _ H) as [Eb Ea]. unfold code_name, code_string. rewrite Eb.
  destruct (bytes_eqb_spec n (bs "-")) as [->|_]; [destruct (Nd eq_refl)|]. split; [reflexivity|].
  destruct (after_comma (fd_tag f)) as [r|]; [subst r|subst o].
  - destruct (bytes_eqb_spec o (bs "string")) as [E|E]; [symmetry; apply Hq, E|]. destruct q; [destruct (E (proj1 Hq eq_refl))|reflexivity].
  - destruct q; [discriminate (proj1 Hq eq_refl)|reflexivity].
Qed.
Lemma ignored_code f : ignored f -> code_name f = None.
Proof. intros (o & H). destruct (split_comma _ _ _ H) as [Eb _]. unfold code_name. rewrite Eb. reflexivity. Qed.

(** The member [m] (name and frame) of struct frame [p] is the field [x]: its name, its
    place, and for a type decoded by one frame the kind of that frame, which is the quoted
    one exactly if the option applies. *)
Definition member_is (w64 : bool) (E : env) (stk : list frame) (p : nat) (x : fld * ty) (m : bytes * nat) : Prop :=
  code_name (fst x) = Some (fst m) /\
  exists g, nth_error stk (snd m) = Some g /\ f_parent g = Some p /\ f_off g = fd_off (fst x) /\
    forall e, single w64 E (snd x) e -> f_ty g = with_option (code_string (fst x)) e.

Lemma single_one w64 E T e e' : single w64 E T e -> single w64 E T e' -> e = e'.
Proof.
  intros [_ H] [_ H']. destruct (under E T) as [| | |k|b| | | |n U|U|K V|U|id z l|i]; try congruence; try contradiction.
  - destruct n; [congruence|contradiction].
  - unfold special_slice in *. destruct (under E U); try congruence; try contradiction. destruct H as [_ ->], H' as [_ ->]. reflexivity.
  - destruct H as (_ & _ & ->), H' as (_ & _ & ->). reflexivity.
  - destruct l; [congruence|contradiction].
Qed.
Lemma special_spec w64 E U e : special_slice w64 E U e -> special_elem w64 E U.
Proof. unfold special_slice, special_elem. destruct (under E U); try tauto; intros [H _]; exact H. Qed.
Lemma calls_not_single w64 E T e : (exists r, calls_json E T r \/ calls_text E T r) -> single w64 E T e -> False.
Proof.
  intros (r & H) [Pl _]. destruct T as [| | | | | | | | | | |U| |i]; cbn in H; try tauto; [destruct U; cbn in H; try tauto|]; cbn in Pl; destruct Pl as [P1 P2]; destruct H as [(H & _)|(_ & H & _)]; congruence.
Qed.
(** The frame of a value: its place, and its kind if it is the only one. *)
Lemma laid_head w64 E stk par off cap q T i j : laid w64 E stk par off cap q T i j ->
  exists g, nth_error stk i = Some g /\ f_parent g = par /\ f_off g = off /\ forall e, single w64 E T e -> f_ty g = with_option q e.
Proof.
  assert (X : forall e sz more, frame_is stk i e par off cap sz more -> (forall e', single w64 E T e' -> e = with_option q e') ->
    exists g, nth_error stk i = Some g /\ f_parent g = par /\ f_off g = off /\ forall e', single w64 E T e' -> f_ty g = with_option q e').
  { intros e sz more (f & H1 & H2 & H3 & H4 & _) K. exists f. repeat split; try assumption. intros e' Hs. rewrite H2. apply K, Hs. }
  intros L. inversion L; subst; (eapply X; [eassumption|]; intros e' Hs).
  - exfalso. eapply calls_not_single; [exists r; left; eassumption|exact Hs].
  - exfalso. eapply calls_not_single; [exists r; right; eassumption|exact Hs].
  - f_equal. eapply single_one; eassumption.
  - exfalso. destruct Hs as [_ Hs]. rewrite H0 in Hs. exact Hs.
  - exfalso. destruct Hs as [_ Hs]. rewrite H0 in Hs. apply special_spec in Hs. contradiction.
  - exfalso. destruct Hs as [_ Hs]. rewrite H0 in Hs. apply special_spec in Hs. contradiction.
  - exfalso. destruct Hs as [_ Hs]. rewrite H0 in Hs. exact Hs.
  - exfalso. destruct Hs as [_ Hs]. rewrite H0 in Hs. exact Hs.
  - exfalso. destruct Hs as [_ Hs]. rewrite H0 in Hs. tauto.
  - exfalso. destruct Hs as [_ Hs]. rewrite H0 in Hs. destruct Hs as (_ & Hs & _).
    destruct H1 as (f & _ & _ & _ & _ & _ & _ & _ & _ & (g & r & _ & _ & Id & _)). unfold stringy, identity in *. destruct V; cbn in *; try discriminate; destruct Hs as [Hs|Hs]; try discriminate; rewrite Hs in Id; discriminate.
  - exfalso. destruct Hs as [_ Hs]. rewrite H0 in Hs. destruct l; [contradiction|exact Hs].
Qed.
Lemma laid_members w64 E stk p l ms i j : laid_fields w64 E stk p l ms i j -> Forall2 (member_is w64 E stk p) (code_members l) ms.
Proof.
  induction 1 as [p i|p f U l fs i j Ig _ IH|p f U name q l fs i j k Kn L _ IH]; unfold code_members; cbn [filter fst]; [constructor| |].
  - rewrite (ignored_code f Ig). exact IH.
  - destruct (known_code f name q Kn) as [Nm Q]. rewrite Nm. constructor; [|exact IH]. split; [exact Nm|].
    destruct (laid_head _ _ _ _ _ _ _ _ _ _ L) as (g & H1 & H2 & H3 & H4). exists g. cbn [fst snd]. repeat split; try assumption. rewrite Q. exact H4.
Qed.
Lemma laid_struct w64 E stk par off cap q T i j id z l : laid w64 E stk par off cap q T i j -> plain E T -> under E T = TStruct id z l -> l <> [] ->
  exists f, nth_error stk i = Some f /\ f_size f = tsize w64 E T /\ Forall2 (member_is w64 E stk i) (code_members l) (f_fields f).
Proof.
  intros L Pl Un Ln. inversion L; subst; try congruence.
  - exfalso. destruct T as [| | | | | | | | | | |U| |k]; cbn in Un; try discriminate; cbn in H; try contradiction. destruct H, Pl. congruence.
  - exfalso. destruct T as [| | | | | | | | | | |U| |k]; cbn in Un; try discriminate; cbn in H; try contradiction. destruct H as (_ & H & _), Pl. congruence.
  - exfalso. destruct H as [_ H]. rewrite Un in H. destruct l; [contradiction|exact H].
  - match goal with H : under E T = TStruct _ _ ?l', H' : laid_fields _ _ _ _ ?l' _ _ _ |- _ => rewrite Un in H; injection H as <- <- <- end.
    match goal with H : frame_is _ _ _ _ _ _ _ _ |- _ => destruct H as (f & Hf & _ & _ & _ & _ & Sz & Fs & _) end. exists f. rewrite Fs. repeat split; try assumption. eapply laid_members. eassumption.
Qed.

(** Every struct type, named or not, recursive or not, that NewDecoder accepts: the members
    of its frame are these, in the order of the fields, and each is stored at the place of
    its field. *)
Theorem C67_members w64 E disallow T stk id z l : sizes_ok w64 E -> coherent w64 E T -> elements_plain w64 E T ->
  returns w64 E disallow T (AOk stk) -> plain E T -> under E T = TStruct id z l -> l <> [] ->
  exists f, nth_error stk 0 = Some f /\ f_size f = tsize w64 E T /\ Forall2 (member_is w64 E stk 0) (code_members l) (f_fields f).
Proof. intros Sz Co El R Pl Un Ln. destruct (C30_layout w64 E disallow T stk Sz Co El R) as [L _]. eapply laid_struct; eassumption. Qed.

(** A document with one member whose key is the name of a field (and of no field before
    it): the member is decoded into that field, as its type (and the option) says, and all
    other fields keep their values. *)
Definition code_as (w64 : bool) (E : env) (dis : bool) (x : fld * ty) (y : (bytes * Z) * dt) : Prop :=
  code_name (fst x) = Some (fst (fst y)) /\ snd (fst y) = fd_off (fst x) /\
  exists before d after, resolves w64 E dis before (snd x) d after /\
    snd y = if code_string (fst x) then match quoted d with Some q => q | None => d end else d.
Lemma fields_code w64 E dis seen fs ds seen' : resolves_fields w64 E dis seen fs ds seen' -> Forall2 (code_as w64 E dis) (code_members fs) ds.
Proof.
  induction 1 as [|? ? ? ? ? ? H ? IHR|? ? ? ? ? ? ? ? ? H ? ? IHR|? ? ? ? ? ? ? ? ? ? H ? H1 ? IHR|? ? ? ? ? ? ? ? ? H ? H1 ? ? IHR]; [constructor| | | |]; unfold code_members; cbn [filter fst].
  - rewrite (ignored_code _ H). exact IHR.
  - destruct (known_code _ _ _ H) as [Nm S]. rewrite Nm. constructor; [|exact IHR]. split; [exact Nm|]. split; [reflexivity|]. eexists _, _, _. split; [eassumption|]. cbn. rewrite S. reflexivity.
  - destruct (known_code _ _ _ H) as [Nm S]. rewrite Nm. constructor; [|exact IHR]. split; [exact Nm|]. split; [reflexivity|]. eexists _, _, _. split; [eassumption|]. cbn. rewrite S, H1. reflexivity.
  - destruct (known_code _ _ _ H) as [Nm S]. rewrite Nm. constructor; [|exact IHR]. split; [exact Nm|]. split; [reflexivity|]. eexists _, _, _. split; [eassumption|]. cbn. rewrite S, H1. reflexivity.
Qed.
Theorem C67_types C E dis T z ds stk D id sz fs :
  decoder_for C E dis T (DStruct z ds) stk D -> under E T = TStruct id sz fs ->
  z = sz /\ Forall2 (code_as (c_w64 C) E dis) (code_members fs) ds.
Proof.
  intros Df U. destruct (df_type _ _ _ _ _ _ _ Df) as (seen & R). inversion R; subst; try congruence.
  match goal with H : under E T = TStruct _ _ ?fs', H2 : resolves_fields _ _ _ _ ?fs' _ _ |- _ => rewrite U in H; injection H as <- <- <-; split; [reflexivity|]; eapply fields_code; exact H2 end.
Qed.
Lemma code_names w64 E dis l ds : Forall2 (code_as w64 E dis) l ds -> map (fun x => Some (fst (fst x))) ds = map (fun x => code_name (fst x)) l.
Proof. induction 1 as [|x y l ds (N & _) _ IH]; [reflexivity|]. cbn [map]. rewrite N, IH. reflexivity. Qed.
Theorem C67_member C O E dis T z ds stk D id sz fs s i j ki key w q f U a h gs F :
  decoder_for C E dis T (DStruct z ds) stk D -> under E T = TStruct id sz fs ->
  json_text s (JObj i j [(ki, key, w)]) -> o_nounescape O = true \/ plain_str key ->
  nth_error (code_members fs) q = Some (f, U) -> code_name f = Some (key_text O key) ->
  (forall k x, (k < q)%nat -> nth_error (code_members fs) k = Some x -> code_name (fst x) <> Some (key_text O key)) ->
  variable C (DStruct z ds) h a (VStruct gs) F ->
  exists d g, nth_error ds q = Some ((key_text O key, fd_off f), d) /\ nth_error gs q = Some g /\
    (lag_of C O d w <> None -> sound C O d w ->
     match ideal C O s d w g with
     | VOk g' => exists D' h' F', Decode C O stk D s (TOk (flat 0 (JObj i j [(ki, key, w)]))) (Some a) h = Ret (-1) None D' h' /\
         variable C (DStruct z ds) h' a (VStruct (set_nth gs q g')) F'
     | VErr n e g' => exists D' h' F', Decode C O stk D s (TOk (flat 0 (JObj i j [(ki, key, w)]))) (Some a) h = Ret (Z.of_nat n) (Some e) D' h' /\
         variable C (DStruct z ds) h' a (VStruct (set_nth gs q g')) F'
     | VPan => False
     end).
Proof.
  intros Df Un J Hk Hq Hn Hb V. destruct (C67_types C E dis T z ds stk D id sz fs Df Un) as [_ Sn].
  pose proof (code_names _ _ _ _ _ Sn) as Nm. destruct (F2_nth _ _ _ Sn q _ Hq) as ([[n o] d] & Hd & N1 & N2 & _). cbn [fst snd] in N1, N2.
  assert (n = key_text O key) by congruence. subst n o.
  assert (Ff : field_for C O ds key = Some q).
  { unfold field_for, pick. rewrite (first_pos_exact _ _ q); [reflexivity| |].
    - rewrite nth_error_map, Hd. reflexivity.
    - intros k Lk Q. rewrite nth_error_map in Q. destruct (nth_error ds k) as [y|] eqn:Ey; [|discriminate]. injection Q as Q.
      assert (X : nth_error (map (fun x => code_name (fst x)) (code_members fs)) k = Some (Some (fst (fst y)))) by (rewrite <- Nm, nth_error_map, Ey; reflexivity).
      rewrite nth_error_map in X. destruct (nth_error (code_members fs) k) as [x|] eqn:Ex; [|discriminate]. injection X as X. apply (Hb k x Lk Ex). congruence. }
  assert (G : exists g, nth_error gs q = Some g).
  { destruct V as [R _]. pose proof (rep_typed _ _ _ _ _ _ R) as Ty. apply typed_struct in Ty as (gs' & [= <-] & Ty). clear - Ty Hd. revert gs q Hd Ty.
    induction ds as [|y ds IH]; intros gs [|q] Hd Ty; try discriminate; destruct gs as [|g gs]; cbn in Ty; try contradiction; [exists g; reflexivity|]. apply (IH gs q Hd). apply Ty. }
  destruct G as [g Hg]. exists d, g. split; [exact Hd|]. split; [exact Hg|]. intros Lg Sd.
  destruct (one_member C O E dis T z ds stk D s i j ki key w q _ a h gs F Df J Hk Ff Hd Lg Sd V) as (g' & Hg' & Q). cbn [snd] in Q.
  assert (g' = g) by congruence. subst g'. exact Q.
Qed.

(** Case: tags as in C52_refuted_*: `json:"-,"` hides the field, `json:",omitempty,string"`
    has no effect, secret is a member. *)
Definition odd_fields : list (fld * ty) :=
  [(tagged "A" "-," 0, tInt); (tagged "B" ",omitempty,string" 8, tInt); (tagged "C" "x,string" 16, tInt); (fld0 "secret" 24, tInt)].
Definition odd_ty : ty := TStruct 1 32 odd_fields.
Definition odd_stk : list frame := Eval vm_compute in stack_of plain_env odd_ty.
Definition odd_text : bytes := bs "{""secret"":7}".
Example C67_case :
  map (fun x => (code_name (fst x), code_string (fst x))) (code_members odd_fields) = [(Some (bs "B"), false); (Some (bs "x"), true); (Some (bs "secret"), false)] /\
  returns true plain_env true odd_ty (AOk odd_stk) /\ map fst (match odd_stk with f :: _ => f_fields f | [] => [] end) = [bs "B"; bs "x"; bs "secret"] /\
  map f_ty odd_stk = [EStruct; EInt (NK true WWord); EIntS (NK true WWord); EInt (NK true WWord)] /\
  obs (decode plain_env odd_ty odd_text) [(1%nat, 0); (1%nat, 24)] = Some (-1, None, [Some CZero; Some (CInt 7)]).
Proof.
  split; [vm_compute; reflexivity|]. split; [split; [discriminate|exists 50%nat; vm_compute; reflexivity]|].
  split; [vm_compute; reflexivity|]. split; vm_compute; reflexivity.
Qed.

(** ** C65: Unmarshal and decoders that are used again *)
Lemma seen_outcome r1 r2 : outcome_of r1 = outcome_of r2 -> seen r1 = seen r2.
Proof. destruct r1, r2; cbn; try discriminate; try reflexivity. intros [= -> -> ->]. reflexivity. Qed.
(** Unmarshal into a variable returns the error and leaves the memory that Decode on any
    decoder for the type of the variable, with whatever history, would, provided that the
    type is neither recursive nor contains arrays, and is not an interface type with a
    value in the variable (C37_refuted).  Every text and every tokenizer result. *)
Theorem C65_unmarshal C E T d stk D dynamic s tk a h fuel :
  decoder_for C E false T d stk D -> arrays d = false -> is_interface E T = false \/ dynamic = None ->
  append (c_w64 C) E false fuel [] T <> AFuel ->
  Unmarshal C E fuel T dynamic s tk (Some a) h = seen (Decode C default_opts stk D s tk (Some a) h).
Proof.
  intros Df A I Nf. rewrite (C37_unmarshal_partial C E fuel T dynamic s tk (Some a) h I). unfold NewDecoder_Decode.
  replace (typeof E T None) with T by (unfold typeof; destruct (is_interface E T); reflexivity).
  destruct (df_new _ _ _ _ _ _ _ Df) as [n Hn].
  assert (Eq : append (c_w64 C) E false fuel [] T = AOk stk) by (eapply returns_one; [split; [exact Nf|exists fuel; reflexivity]|split; [discriminate|exists n; exact Hn]]).
  rewrite Eq. apply seen_outcome. eapply C28_history_without_arrays; [|exact Df|exact A]. destruct Df as [S1 S2 S3 S4 S5]. split; try assumption. constructor.
Qed.
Example C65_case :
  decoder_for wC plain_env false hs_ty hs_dt hs_stk (dyn_after hs_first) /\ arrays hs_dt = false /\ is_interface plain_env hs_ty = false /\
  append true plain_env false 50 [] hs_ty <> AFuel.
Proof. split; [exact hs_decoder'|]. split; [reflexivity|]. split; [reflexivity|]. vm_compute. discriminate. Qed.

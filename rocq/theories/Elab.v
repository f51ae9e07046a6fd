(** From Go types to resolved types, and from NewDecoder to the frame list (property C30).

    [resolves E disallow seen T d seen'] relates a Go type [T] to its resolved form [d].
    It is a specification, written over the Go type only.  [seen] and [seen'] are the
    types with an identity (structs and types with unmarshalers) met before and after
    [T] in reading order: NewDecoder takes a struct type that is the element type of a
    slice, map or pointer and was met before for a recursion, rightly or not, and such
    types are outside this relation. *)
From Verif Require Import Base Lookup Types AppendType Dt Root.
Open Scope Z_scope.

Lemma nth_error_ext {A} (l : list A) : forall l', (forall j, nth_error l j = nth_error l' j) -> l = l'.
Proof.
  induction l as [|x l IH]; intros [|y l'] H; [reflexivity|specialize (H 0%nat); discriminate|specialize (H 0%nat); discriminate|].
  f_equal; [specialize (H 0%nat); cbn in H; congruence|]. apply IH. intros j. exact (H (S j)).
Qed.

Section Resolve.
Variables (w64 : bool) (E : env) (disallow : bool).

(** No unmarshaler methods on [T], nor, if it is a pointer, on what it points to. *)
Definition plain (T : ty) : Prop :=
  match T with
  | TNamed i | TPtr (TNamed i) => d_json (E i) = SNone /\ d_text (E i) = SNone
  | _ => True
  end.
Definition scalar_of (T : ty) : option sc :=
  match T with
  | TBool => Some SBool | TStr => Some SStr | TNumber => Some SNumber | TInt k => Some (SInt k)
  | TFloat b => Some (SFloat b) | TAny => Some SAny | _ => None
  end.
(** Identity of a struct type. *)
Definition identity (T : ty) : option rtid :=
  match T with
  | TStruct id _ _ => Some (RStruct id)
  | TNamed i => match under E T with TStruct _ _ _ => Some (RNamed i) | _ => None end
  | _ => None
  end.
Definition unseen (seen : list rtid) (T : ty) : Prop :=
  match identity T with Some r => ~ In r seen | None => True end.
(** Element types of slices whose unmarshaler or members the decoder would ignore. *)
Definition slice_elem_ok (T : ty) (d : dt) : Prop :=
  match d with
  | DText _ _ | DJson _ _ =>
      match under E T with
      | TBool | TStr | TInt _ | TFloat _ => False
      | TStruct _ _ _ => 0 < tsize w64 E T
      | _ => True
      end
  | DStruct z _ => 0 < z
  | _ => True
  end.
Definition stringy (T : ty) : Prop := under E T = TStr \/ under E T = TNumber.

(** The type of a struct field with the `string` tag option. *)
Definition quoted (d : dt) : option dt :=
  match d with
  | DSc SBool => Some (DSc SBoolQ) | DSc SStr => Some (DSc SStrQ)
  | DSc (SInt k) => Some (DSc (SIntQ k)) | DSc (SFloat b) => Some (DSc (SFloatQ b))
  | _ => None
  end.

(** Struct tags.  The json tag is a name, optionally followed by a comma and an option
    list.  A field whose tag name is - is ignored; a field without a tag name is known by
    its Go name; `string` is recognised only as the whole option list. *)
Inductive tag_parts : bytes -> bytes -> bytes -> Prop :=
| tag_name n : ~ In 44 n -> tag_parts n n []
| tag_options n o : ~ In 44 n -> tag_parts (n ++ 44 :: o) n o.
Definition ignored (f : fld) : Prop := exists o, tag_parts (fd_tag f) (bs "-") o.
Definition known_as (f : fld) (name : bytes) (q : bool) : Prop :=
  exists n o, tag_parts (fd_tag f) n o /\ n <> bs "-" /\ name = (match n with [] => fd_name f | _ => n end) /\
    (q = true <-> o = bs "string").

Inductive key_type : ty -> dkey -> list rtid -> Prop :=
| K_str T : plain T -> under E T = TStr -> key_type T KeyStr []
| K_int T k : plain T -> under E T = TInt k -> key_type T (KeyInt k) []
| K_text i : d_json (E i) = SNone -> d_text (E i) = SSome -> key_type (TNamed i) (KeyText i (d_size (E i))) [RNamed i].

Inductive resolves : list rtid -> ty -> dt -> list rtid -> Prop :=
| R_json seen i : d_json (E i) = SSome -> resolves seen (TNamed i) (DJson i (d_size (E i))) (RNamed i :: seen)
| R_text seen i : d_json (E i) = SNone -> d_text (E i) = SSome ->
    resolves seen (TNamed i) (DText i (d_size (E i))) (RNamed i :: seen)
| R_sc seen T x : plain T -> scalar_of (under E T) = Some x -> resolves seen T (DSc x) seen
| R_arr0 seen T U : plain T -> under E T = TArr 0 U -> resolves seen T DArr0 seen
| R_arr seen T n U d seen' : plain T -> under E T = TArr n U -> (0 < n)%nat ->
    resolves seen U d seen' -> resolves seen T (DArr n d) seen'
| R_empty seen T id : plain T -> under E T = TStruct id 0 [] -> resolves seen T DEmpty seen
| R_slice seen T U d seen' : plain T -> under E T = TSlice U -> unseen seen U ->
    resolves seen U d seen' -> slice_elem_ok U d -> resolves seen T (DSlice d) seen'
| R_map seen T K V k ks d seen' : plain T -> under E T = TMap K V -> unseen seen V ->
    ~ (stringy K /\ stringy V) -> key_type K k ks ->
    resolves (ks ++ seen) V d seen' -> resolves seen T (DMap k d) seen'
| R_mss seen T K V : plain T -> under E T = TMap K V -> plain K -> plain V -> under E K = TStr -> under E V = TStr ->
    resolves seen T DMSS seen
| R_ptr seen T U d seen' : plain T -> under E T = TPtr U -> unseen seen U ->
    resolves seen U d seen' -> resolves seen T (DPtr d) seen'
| R_struct seen T r id z fs ds seen' : plain T -> under E T = TStruct id z fs -> fs <> [] -> identity T = Some r ->
    resolves_fields (r :: seen) fs ds seen' -> resolves seen T (DStruct z ds) seen'
with resolves_fields : list rtid -> list (fld * ty) -> list ((bytes * Z) * dt) -> list rtid -> Prop :=
| F_nil seen : resolves_fields seen [] [] seen
| F_skip seen f T fs ds seen' : ignored f -> resolves_fields seen fs ds seen' ->
    resolves_fields seen ((f, T) :: fs) ds seen'
| F_field seen f T fs name d ds seen1 seen' : known_as f name false -> resolves seen T d seen1 ->
    resolves_fields seen1 fs ds seen' ->
    resolves_fields seen ((f, T) :: fs) (((name, fd_off f), d) :: ds) seen'
| F_quoted seen f T fs name d d' ds seen1 seen' : known_as f name true -> resolves seen T d seen1 ->
    quoted d = Some d' -> resolves_fields seen1 fs ds seen' ->
    resolves_fields seen ((f, T) :: fs) (((name, fd_off f), d') :: ds) seen'
| F_unquoted seen f T fs name d ds seen1 seen' : known_as f name true -> resolves seen T d seen1 ->
    quoted d = None -> disallow = false -> resolves_fields seen1 fs ds seen' ->
    resolves_fields seen ((f, T) :: fs) (((name, fd_off f), d) :: ds) seen'.

Scheme resolves_ind2 := Minimality for resolves Sort Prop
  with resolves_fields_ind2 := Minimality for resolves_fields Sort Prop.
Combined Scheme resolves_mut from resolves_ind2, resolves_fields_ind2.

(** [field_name] reads tags as specified. *)
Lemma bytes_eqb_spec a b : reflect (a = b) (bytes_eqb a b).
Proof. destruct (bytes_eqb a b) eqn:Eb; constructor; [apply bytes_eqb_eq, Eb|]. intros Q. apply bytes_eqb_eq in Q. congruence. Qed.
Lemma index_comma_none s : index_comma s = None <-> ~ In 44 s.
Proof.
  induction s as [|c s IH]; cbn [index_comma In]; [tauto|]. destruct (Z.eqb_spec c 44).
  - split; [discriminate|]. intros H. exfalso. apply H. left. exact e.
  - destruct (index_comma s); cbn [option_map]; split; try discriminate; try tauto.
    intros H. exfalso. destruct IH as [_ IH]. assert (Some n0 = None) by tauto. discriminate.
Qed.
Lemma index_comma_app n o : ~ In 44 n -> index_comma (n ++ 44 :: o) = Some (length n).
Proof.
  induction n as [|c n IH]; intros H; [reflexivity|]. cbn [app index_comma length]. destruct (Z.eqb_spec c 44); [exfalso; apply H; left; exact e|].
  rewrite IH; [reflexivity|]. intros I. apply H. right. exact I.
Qed.
Lemma index_comma_some s : forall k, index_comma s = Some k -> s = firstn k s ++ 44 :: skipn (S k) s /\ ~ In 44 (firstn k s).
Proof.
  induction s as [|c s IH]; intros k H; [discriminate|]. cbn [index_comma] in H. destruct (Z.eqb_spec c 44).
  - injection H as <-. cbn. subst c. split; [reflexivity|]. tauto.
  - destruct (index_comma s) as [j|]; [|discriminate]. injection H as <-. destruct (IH j eq_refl) as [I1 I2].
    change (skipn (S (S j)) (c :: s)) with (skipn (S j) s). cbn [firstn app]. split; [congruence|]. intros [Q|Q]; [congruence|]. exact (I2 Q).
Qed.
Lemma skipn_past (n o : bytes) : skipn (S (length n)) (n ++ 44 :: o) = o.
Proof. induction n as [|c n IH]; [reflexivity|]. exact IH. Qed.
Lemma field_name_parts f n o : tag_parts (fd_tag f) n o -> field_name f =
  if bytes_eqb n [] then Some (fd_name f, bytes_eqb o (bs "string"))
  else if bytes_eqb n (bs "-") then None else Some (n, bytes_eqb o (bs "string")).
Proof.
  intros H. unfold field_name. remember (fd_tag f) as tag eqn:Et. destruct H as [n H|n o H].
  - apply index_comma_none in H. destruct n as [|c n]; [reflexivity|]. rewrite H. reflexivity.
  - destruct (n ++ 44 :: o) as [|c r] eqn:Ea; [destruct n; discriminate|]. rewrite <- Ea. rewrite index_comma_app by exact H.
    rewrite firstn_app, firstn_all, Nat.sub_diag, skipn_past. cbn [firstn]. rewrite app_nil_r. reflexivity.
Qed.
Lemma ignored_name f : ignored f -> field_name f = None.
Proof. intros [o H]. rewrite (field_name_parts f _ _ H). reflexivity. Qed.
Lemma known_name f name q : known_as f name q -> field_name f = Some (name, q).
Proof.
  intros (n & o & H & Nd & -> & Q). rewrite (field_name_parts f _ _ H).
  replace (bytes_eqb o (bs "string")) with q.
  2:{ destruct (bytes_eqb_spec o (bs "string")); destruct q; try reflexivity; exfalso.
      - destruct Q as [_ Q]. specialize (Q e). discriminate.
      - destruct Q as [Q _]. exact (n0 (Q eq_refl)). }
  destruct (bytes_eqb_spec n []) as [->|Nn]; [reflexivity|]. destruct (bytes_eqb_spec n (bs "-")); [contradiction|]. destruct n; [contradiction|reflexivity].
Qed.
Lemma tag_parts_total s : exists n o, tag_parts s n o.
Proof.
  destruct (index_comma s) as [k|] eqn:Ek.
  - destruct (index_comma_some s k Ek) as [H1 H2]. rewrite H1. eexists _, _. apply tag_options. exact H2.
  - apply index_comma_none in Ek. exists s, []. apply tag_name. exact Ek.
Qed.
Lemma name_spec f : match field_name f with Some (name, q) => known_as f name q | None => ignored f end.
Proof.
  destruct (tag_parts_total (fd_tag f)) as (n & o & H). rewrite (field_name_parts f n o H).
  assert (Q : bytes_eqb o (bs "string") = true <-> o = bs "string") by (destruct (bytes_eqb_spec o (bs "string")); split; congruence).
  destruct (bytes_eqb_spec n []) as [->|Nn]; [exists [], o; split; [exact H|]; split; [discriminate|]; split; [reflexivity|exact Q]|].
  destruct (bytes_eqb_spec n (bs "-")) as [->|Nd]; [exists o; exact H|].
  exists n, o. split; [exact H|]. split; [exact Nd|]. split; [|exact Q]. destruct n; [contradiction|reflexivity].
Qed.

(** The sizes of named types are those of their underlying types. *)
Definition sizes_ok : Prop := forall i, d_size (E i) = tsize w64 E (d_under (E i)).
Lemma tsize_under T : sizes_ok -> tsize w64 E T = tsize w64 E (under E T).
Proof. intros H. destruct T; try reflexivity. cbn. apply H. Qed.

Lemma resolves_size : sizes_ok ->
  (forall seen T d seen', resolves seen T d seen' -> tsize w64 E T = dsize w64 d) /\
  (forall seen fs ds seen', resolves_fields seen fs ds seen' -> True).
Proof.
  intros S. apply resolves_mut; intros; try exact I; try reflexivity.
  all: match goal with |- tsize w64 E ?T = _ => rewrite (tsize_under T S) end.
  all: try match goal with H : under E _ = _ |- _ => rewrite H end; cbn [tsize dsize]; try congruence; try reflexivity.
  match goal with H : scalar_of ?u = Some _ |- _ => destruct u; cbn in H; try discriminate; injection H as <-; reflexivity end.
Qed.

(** ** Frames *)
Definition same_head (f f' : frame) : Prop :=
  f_ty f = f_ty f' /\ f_size f = f_size f' /\ f_fields f = f_fields f' /\ f_rt f = f_rt f' /\ f_vsize f = f_vsize f'.
Definition alike (stk stk' : list frame) (i n : nat) : Prop :=
  (forall j, (i < j < i + n)%nat -> nth_error stk j = nth_error stk' j) /\
  (forall f, nth_error stk i = Some f -> exists f', nth_error stk' i = Some f' /\ same_head f f').

Lemma head_alike stk stk' i n d l : alike stk stk' i n -> head_is w64 stk i d l -> head_is w64 stk' i d l.
Proof.
  intros [_ A] (f & Hf & T & S & F & R). destruct (A f Hf) as (f' & Hf' & T' & S' & F' & R' & V').
  exists f'. rewrite <- T', <- S', <- F'. repeat split; try assumption. destruct d; rewrite <- ?R', <- ?V'; exact R.
Qed.
Lemma linked_alike stk stk' i n j p o c : alike stk stk' i n -> (i < j < i + n)%nat -> linked stk j p o c -> linked stk' j p o c.
Proof. intros [A _] Hj (f & Hf & L). exists f. rewrite <- A by exact Hj. split; assumption. Qed.
Lemma alike_sub stk stk' i n j m : alike stk stk' i n -> (i < j)%nat -> (j + m <= i + n)%nat -> (0 < m)%nat -> alike stk stk' j m.
Proof.
  intros [A _] H1 H2 H3. split; [intros k Hk; apply A; lia|]. intros f Hf. exists f. rewrite <- A by lia.
  split; [exact Hf|]. repeat split.
Qed.

Lemma fits_alike d : forall stk stk' i, alike stk stk' i (dlen d) -> fits w64 stk i d -> fits w64 stk' i d.
Proof.
  induction d as [x|id z|id z| |n t IH| |t IH|k t IH| |t IH|z fs IH] using dt_ind'; intros stk stk' i A F;
    try (cbn [fits] in *; eapply head_alike; eassumption); pose proof dlen_pos as P.
  - cbn [fits dlen] in *. destruct F as (Hd & Hn & Ft & Lk). repeat split; [eapply head_alike; eassumption|exact Hn| |].
    + eapply IH; [|exact Ft]. eapply alike_sub; [exact A|lia|lia|apply P].
    + eapply linked_alike; [exact A|specialize (P t); lia|exact Lk].
  - cbn [fits dlen] in *. destruct (fast_et t); [eapply head_alike; eassumption|].
    destruct F as (Hd & Ft & Lk). repeat split; [eapply head_alike; eassumption| |].
    + eapply IH; [|exact Ft]. eapply alike_sub; [exact A|lia|lia|apply P].
    + eapply linked_alike; [exact A|specialize (P t); lia|exact Lk].
  - cbn [fits dlen] in *. destruct F as (Hd & Kf & Ft & Lk). repeat split; [eapply head_alike; eassumption| | |].
    + destruct Kf as (f & Hf & Kf). exists f. destruct A as [A _]. rewrite <- A by lia. split; assumption.
    + eapply IH; [|exact Ft]. eapply alike_sub; [exact A|lia|lia|apply P].
    + eapply linked_alike; [exact A|specialize (P t); lia|exact Lk].
  - cbn [fits dlen] in *. destruct F as (Hd & Ft & Lk). repeat split; [eapply head_alike; eassumption| |].
    + eapply IH; [|exact Ft]. eapply alike_sub; [exact A|lia|lia|apply P].
    + eapply linked_alike; [exact A|specialize (P t); lia|exact Lk].
  - apply fits_struct in F as [Hd F]. apply fits_struct. split; [eapply head_alike; eassumption|].
    rewrite dlen_struct in A.
    assert (G : forall k, (i < k)%nat -> (k + dlens fs <= i + S (dlens fs))%nat -> fits_fields w64 stk i k fs -> fits_fields w64 stk' i k fs).
    2:{ apply G; [lia|lia|exact F]. }
    clear F Hd. revert A. generalize (S (dlens fs)) as n. intros n A.
    induction IH as [|x fs Hx IH IHl]; intros k H1 H2 F; [exact I|]. cbn [fits_fields dlens] in *.
    destruct F as (Fx & Lk & Fr). pose proof (P (snd x)). repeat split.
    + eapply Hx; [|exact Fx]. eapply alike_sub; [exact A|lia|lia|apply P].
    + eapply linked_alike; [exact A|lia|exact Lk].
    + apply IHl; [lia|lia|exact Fr].
Qed.

(** ** The frames made by NewDecoder *)
Notation append := (AppendType.append w64 E disallow).
(** [stk'] is [stk] followed by the frames of [d]. *)
Definition extends (stk : list frame) (d : dt) (stk' : list frame) : Prop :=
  length stk' = (length stk + dlen d)%nat /\ (forall j, (j < length stk)%nat -> nth_error stk' j = nth_error stk j) /\
  fits w64 stk' (length stk) d /\ linked stk' (length stk) None 0 0.
Definition within (stk : list frame) (seen : list rtid) : Prop :=
  forall f r, In f stk -> f_rt f = Some r -> r = ROther \/ In r seen.
Definition built (stk : list frame) (T : ty) (d : dt) (seen' : list rtid) : Prop :=
  exists n stk', (forall fuel, (n <= fuel)%nat -> append fuel stk T = AOk stk') /\ extends stk d stk' /\ within stk' seen'.

Lemma find_rt_none stk seen r : within stk seen -> r <> ROther -> ~ In r seen -> forall i, find_rt stk i r = None.
Proof.
  intros Wi N S. induction stk as [|f stk IH]; intros i; [reflexivity|]. cbn [find_rt].
  assert (W' : within stk seen) by (intros g q Hg; apply Wi; right; exact Hg).
  destruct (f_rt f) as [r'|] eqn:Er; [|apply IH, W'].
  destruct (rtid_eqb r' r) eqn:Eq; [|apply IH, W']. exfalso.
  assert (r' = r) as -> by (destruct r', r; cbn in Eq; try discriminate; apply Nat.eqb_eq in Eq; congruence).
  destruct (Wi f r (or_introl eq_refl) Er); [congruence|contradiction].
Qed.
Lemma identity_struct_id T : struct_id E T = identity T.
Proof. destruct T; reflexivity. Qed.
Lemma identity_not_other T r : identity T = Some r -> r <> ROther.
Proof. destruct T; cbn; try discriminate; [|destruct (d_under (E id))]; try discriminate; intros [= <-]; discriminate. Qed.
Lemma find_recur_none stk seen T : within stk seen -> unseen seen T -> find_recur w64 E stk T = None.
Proof.
  intros Wi U. unfold find_recur. rewrite identity_struct_id. unfold unseen in U. destruct (identity T) as [r|] eqn:I; [|reflexivity].
  destruct (_ <? _); [|reflexivity]. eapply find_rt_none; eauto using identity_not_other.
Qed.
Lemma plain_support T : plain T -> json_support E T = None /\ text_support E T = None.
Proof.
  destruct T as [| | | | | | | | | | |t| |i]; cbn; try (split; reflexivity).
  - destruct t; try (split; reflexivity). intros [-> ->]. split; reflexivity.
  - intros [-> ->]. split; reflexivity.
Qed.

Lemma within_app stk f seen : within stk seen -> (forall r, f_rt f = Some r -> r = ROther \/ In r seen) -> within (stk ++ [f]) seen.
Proof. intros Wi Hf g r Hg. apply in_app_or in Hg as [Hg|[<-|[]]]; [apply Wi, Hg|apply Hf]. Qed.
Lemma within_upd stk i g seen : within stk seen -> (forall f, f_rt (g f) = f_rt f) -> within (upd stk i g) seen.
Proof.
  intros Wi Hg f r Hf. apply In_nth_error in Hf as [j Hj]. rewrite upd_nth in Hj.
  destruct (Nat.eqb i j); [|apply Wi; eapply nth_error_In; exact Hj].
  destruct (nth_error stk j) as [f0|] eqn:E0; [|discriminate]. injection Hj as <-. rewrite Hg. apply Wi. eapply nth_error_In, E0.
Qed.
Lemma within_more stk seen seen' : within stk seen -> (forall r, In r seen -> In r seen') -> within stk seen'.
Proof. intros Wi S f r Hf Hr. destruct (Wi f r Hf Hr); auto. Qed.

Lemma one_frame stk f d : dlen d = 1%nat -> f_parent f = None -> f_off f = 0 -> f_cap f = 0 ->
  (forall stk', nth_error stk' (length stk) = Some f -> fits w64 stk' (length stk) d) -> extends stk d (stk ++ [f]).
Proof.
  intros L P O K F. assert (N : nth_error (stk ++ [f]) (length stk) = Some f).
  { rewrite nth_error_app2, Nat.sub_diag by lia. reflexivity. }
  repeat split.
  - rewrite app_length. cbn. lia.
  - intros j Hj. apply nth_error_app1, Hj.
  - apply F, N.
  - exists f. repeat split; assumption.
Qed.

(** A frame followed by its only child. *)
Lemma with_child stk f d t stk1 link par off cap : dlen d = S (dlen t) ->
  f_parent f = None -> f_off f = 0 -> f_cap f = 0 ->
  extends (stk ++ [f]) t stk1 -> (forall g, same_head g (link g)) ->
  (forall g, f_parent g = None -> f_off g = 0 -> f_cap g = 0 -> f_parent (link g) = par /\ f_off (link g) = off /\ f_cap (link g) = cap) ->
  (forall stk', nth_error stk' (length stk) = Some f -> fits w64 stk' (S (length stk)) t ->
     linked stk' (S (length stk)) par off cap -> fits w64 stk' (length stk) d) ->
  extends stk d (upd stk1 (length (stk ++ [f])) link).
Proof.
  intros L P O K (Ln & Pre & Ft & Lk) Sh Lin F. rewrite app_length in *. cbn [length] in *. rewrite Nat.add_1_r in *.
  assert (N : nth_error (upd stk1 (S (length stk)) link) (length stk) = Some f).
  { rewrite upd_nth. destruct (Nat.eqb_spec (S (length stk)) (length stk)); [lia|]. rewrite Pre by lia.
    rewrite nth_error_app2, Nat.sub_diag by lia. reflexivity. }
  repeat split.
  - rewrite upd_length. lia.
  - intros j Hj. rewrite upd_nth. destruct (Nat.eqb_spec (S (length stk)) j); [lia|]. rewrite Pre by lia. apply nth_error_app1, Hj.
  - apply F; [exact N| |].
    + eapply fits_alike; [|exact Ft]. split.
      * intros j Hj. rewrite upd_nth. destruct (Nat.eqb_spec (S (length stk)) j); [lia|]. reflexivity.
      * intros g Hg. rewrite upd_nth, Nat.eqb_refl, Hg. exists (link g). split; [reflexivity|apply Sh].
    + destruct Lk as (g & Hg & Pg & Og & Cg). exists (link g). rewrite upd_nth, Nat.eqb_refl, Hg. split; [reflexivity|].
      apply Lin; assumption.
  - exists f. repeat split; assumption.
Qed.

(** The fields of a struct: [done] are the fields appended so far. *)
Definition fields_loop (fuel parent : nat) : list (fld * ty) -> list frame -> ares :=
  fix fields (fs : list (fld * ty)) (stk : list frame) : ares :=
    match fs with
    | [] => AOk stk
    | (f, ft) :: fs =>
        match field_name f with
        | None => fields fs stk
        | Some (name, optionString) =>
            let at_ := length stk in
            match append fuel stk ft with
            | AOk stk =>
                let stk := upd stk parent (fun p => set_fields (f_fields p ++ [(name, at_)]) p) in
                let stk := upd stk at_ (fun c => set_parent parent (set_off (fd_off f) c)) in
                if optionString then
                  match nth_error stk at_ with
                  | Some c =>
                      match string_type (f_ty c) with
                      | Some e => fields fs (upd stk at_ (set_ty e))
                      | None => if disallow then AErrStringTag else fields fs stk
                      end
                  | None => APanic
                  end
                else fields fs stk
            | r => r
            end
        end
    end.

Fixpoint fidx_end (i : nat) (fs : list ((bytes * Z) * dt)) : nat :=
  match fs with [] => i | x :: r => fidx_end (i + dlen (snd x)) r end.
Lemma fidx_end_dlens fs : forall i, fidx_end i fs = (i + dlens fs)%nat.
Proof. induction fs as [|x r IH]; intros i; cbn; [lia|]. rewrite IH. lia. Qed.
Lemma dlens_app a b : dlens (a ++ b) = (dlens a + dlens b)%nat.
Proof. induction a as [|x r IH]; cbn; [reflexivity|]. rewrite IH. lia. Qed.
Lemma field_idx_app a : forall i b, field_idx i (a ++ b) = field_idx i a ++ field_idx (i + dlens a) b.
Proof. induction a as [|x r IH]; intros i b; cbn; [rewrite Nat.add_0_r; reflexivity|]. rewrite IH. replace (i + dlen (snd x) + dlens r)%nat with (i + (dlen (snd x) + dlens r))%nat by lia. reflexivity. Qed.
Lemma fits_fields_app stk i a : forall k b, fits_fields w64 stk i k (a ++ b) <->
  fits_fields w64 stk i k a /\ fits_fields w64 stk i (k + dlens a) b.
Proof.
  induction a as [|x r IH]; intros k b; cbn; [rewrite Nat.add_0_r; tauto|]. rewrite IH.
  replace (k + dlen (snd x) + dlens r)%nat with (k + (dlen (snd x) + dlens r))%nat by lia. tauto.
Qed.
Lemma fits_fields_same stk stk' i fs : forall k, (forall j, (k <= j < k + dlens fs)%nat -> nth_error stk j = nth_error stk' j) ->
  fits_fields w64 stk i k fs -> fits_fields w64 stk' i k fs.
Proof.
  induction fs as [|x r IH]; intros k A F; [exact I|]. cbn [fits_fields dlens] in *. destruct F as (Fx & Lk & Fr).
  pose proof (dlen_pos (snd x)). repeat split.
  - eapply fits_alike; [|exact Fx]. split; [intros j Hj; apply A; lia|]. intros f Hf. exists f. rewrite <- A by lia. split; [exact Hf|repeat split].
  - destruct Lk as (f & Hf & Lk). exists f. rewrite <- A by lia. split; assumption.
  - apply IH; [intros j Hj; apply A; lia|exact Fr].
Qed.

(** State of the fields loop: the struct frame with the fields done, and their frames. *)
Definition partway (base : list frame) (f0 : frame) (done : list ((bytes * Z) * dt)) (stk : list frame) : Prop :=
  length stk = (S (length base) + dlens done)%nat /\
  (forall j, (j < length base)%nat -> nth_error stk j = nth_error base j) /\
  nth_error stk (length base) = Some (set_fields (field_idx (S (length base)) done) f0) /\
  fits_fields w64 stk (length base) (S (length base)) done.

Lemma partway_add base f0 done stk d stk1 d' name off g seen :
  partway base f0 done stk -> extends stk d stk1 -> within stk1 seen -> dlen d' = dlen d ->
  (forall c, f_rt (g c) = f_rt c /\ f_parent (g c) = Some (length base) /\ f_off (g c) = off /\ f_cap (g c) = f_cap c) ->
  (forall stk', fits w64 stk1 (length stk) d ->
     (forall j, (length stk < j < length stk + dlen d)%nat -> nth_error stk' j = nth_error stk1 j) ->
     (forall c, nth_error stk1 (length stk) = Some c -> nth_error stk' (length stk) = Some (g c)) -> fits w64 stk' (length stk) d') ->
  let stk2 := upd (upd stk1 (length base) (fun p => set_fields (f_fields p ++ [(name, length stk)]) p)) (length stk) g in
  partway base f0 (done ++ [((name, off), d')]) stk2 /\ within stk2 seen.
Proof.
  intros (Ln & Pre & Hf & Ff) (Ln1 & Pre1 & F1 & Lk1) Wi Dl Hg Hfit stk2. pose proof (dlen_pos d).
  assert (N2 : forall j, nth_error stk2 j = if Nat.eqb (length stk) j then option_map g (nth_error stk1 j)
    else if Nat.eqb (length base) j then option_map (fun p => set_fields (f_fields p ++ [(name, length stk)]) p) (nth_error stk1 j)
    else nth_error stk1 j).
  { intros j. unfold stk2. rewrite !upd_nth. destruct (Nat.eqb_spec (length stk) j), (Nat.eqb_spec (length base) j); try reflexivity. lia. }
  split.
  - unfold partway. rewrite dlens_app, field_idx_app, fits_fields_app. cbn [dlens fits_fields field_idx fst snd].
    repeat split.
    + unfold stk2. rewrite !upd_length. lia.
    + intros j Hj. rewrite N2. destruct (Nat.eqb_spec (length stk) j); [lia|]. destruct (Nat.eqb_spec (length base) j); [lia|].
      rewrite Pre1 by lia. apply Pre, Hj.
    + rewrite N2, Nat.eqb_refl. destruct (Nat.eqb_spec (length stk) (length base)); [lia|]. rewrite Pre1 by lia.
      rewrite Hf. cbn [option_map]. f_equal. rewrite Ln. reflexivity.
    + eapply fits_fields_same; [|exact Ff]. intros j Hj. rewrite N2.
      destruct (Nat.eqb_spec (length stk) j); [lia|]. destruct (Nat.eqb_spec (length base) j); [lia|]. symmetry. apply Pre1. lia.
    + rewrite <- Ln. apply Hfit; [exact F1| |].
      * intros j Hj. rewrite N2. destruct (Nat.eqb_spec (length stk) j); [lia|]. destruct (Nat.eqb_spec (length base) j); [lia|]. reflexivity.
      * intros c Hc. rewrite N2, Nat.eqb_refl, Hc. reflexivity.
    + rewrite <- Ln. destruct Lk1 as (c & Hc & _ & _ & Cc). exists (g c). rewrite N2, Nat.eqb_refl, Hc. split; [reflexivity|].
      destruct (Hg c) as (_ & Pg & Og & Cg). repeat split; congruence.
  - unfold stk2. apply within_upd; [|intros c; apply Hg]. apply within_upd; [exact Wi|reflexivity].
Qed.

Lemma quoted_head d d' : quoted d = Some d' -> string_type (dt_et d) = Some (dt_et d') /\ dlen d' = 1%nat /\ dlen d = 1%nat.
Proof. destruct d as [x| | | | | | | | | |]; try discriminate. destruct x; try discriminate; intros [= <-]; repeat split. Qed.
Lemma unquoted_head d : quoted d = None -> string_type (dt_et d) = None.
Proof.
  destruct d as [x| | | | | |t| | | |]; try reflexivity.
  - destruct x; try reflexivity; discriminate.
  - destruct t as [x| | | | | | | | | |]; try reflexivity. destruct x; reflexivity.
Qed.
Lemma fits_head_et stk i d : fits w64 stk i d -> exists f, nth_error stk i = Some f /\ f_ty f = dt_et d.
Proof.
  intros F. destruct d; try (destruct F as (f & Hf & T & _); eauto; fail);
    try (destruct F as ((f & Hf & T & _) & _); eauto; fail).
  cbn [fits] in F. destruct (fast_et d) eqn:Fe.
  - destruct F as (f & Hf & T & _). eauto.
  - destruct F as ((f & Hf & T & _) & _). eauto.
Qed.

Theorem resolves_built : sizes_ok ->
  (forall seen T d seen', resolves seen T d seen' -> forall stk, within stk seen -> built stk T d seen') /\
  (forall seen fs ds seen', resolves_fields seen fs ds seen' -> forall base f0 done stk, partway base f0 done stk -> within stk seen ->
     exists n stk', (forall fuel, (n <= fuel)%nat -> fields_loop fuel (length base) fs stk = AOk stk') /\
       partway base f0 (done ++ ds) stk' /\ within stk' seen').
Proof.
  intros Sz. pose proof (proj1 (resolves_size Sz)) as Rs. apply resolves_mut.
  - (* json *)
    intros seen i J stk Wi. exists 1%nat. eexists. split; [|split].
    + intros [|fuel] Hf; [lia|]. cbn [AppendType.append json_support]. rewrite J. reflexivity.
    + apply one_frame; try reflexivity. intros stk' N. eexists. split; [exact N|]. repeat split.
    + apply within_app; [eapply within_more; [exact Wi|intros; right; assumption]|]. intros r [= <-]. right. left. reflexivity.
  - (* text *)
    intros seen i J X stk Wi. exists 1%nat. eexists. split; [|split].
    + intros [|fuel] Hf; [lia|]. cbn [AppendType.append json_support text_support]. rewrite J, X. reflexivity.
    + apply one_frame; try reflexivity. intros stk' N. eexists. split; [exact N|]. repeat split.
    + apply within_app; [eapply within_more; [exact Wi|intros; right; assumption]|]. intros r [= <-]. right. left. reflexivity.
  - (* scalars *)
    intros seen T x Pl Sc stk Wi. destruct (plain_support T Pl) as [J X].
    exists 1%nat. exists (stk ++ [mkfr (sc_et x) (sc_size w64 x)]). split; [|split].
    + intros [|fuel] Hf; [lia|]. cbn [AppendType.append]. rewrite J, X.
      destruct (under E T); cbn in Sc; try discriminate; injection Sc as <-; reflexivity.
    + apply one_frame; try reflexivity. intros stk' N. eexists. split; [exact N|]. repeat split.
    + apply within_app; [exact Wi|discriminate].
  - (* [0]T *)
    intros seen T U Pl Un stk Wi. destruct (plain_support T Pl) as [J X]. exists 1%nat. eexists. split; [|split].
    + intros [|fuel] Hf; [lia|]. cbn [AppendType.append]. rewrite J, X, Un. reflexivity.
    + apply one_frame; try reflexivity. intros stk' N. eexists. split; [exact N|]. repeat split.
    + apply within_app; [exact Wi|discriminate].
  - (* arrays *)
    intros seen T n U d seen' Pl Un Hn RU IH stk Wi. destruct (plain_support T Pl) as [J X].
    destruct (IH (stk ++ [mkfr EArray (tsize w64 E T)])) as (m & stk1 & Ap & Ex & Wi1); [apply within_app; [exact Wi|discriminate]|].
    exists (S m). eexists. split; [|split].
    + intros [|fuel] Hf; [lia|]. cbn [AppendType.append]. rewrite J, X, Un. destruct n as [|n]; [lia|].
      rewrite Ap by lia. reflexivity.
    + eapply with_child with (par := Some (length stk)) (off := 0) (cap := Z.of_nat n); try exact Ex; try reflexivity.
      * intros g. repeat split.
      * intros g _ Og _. repeat split. exact Og.
      * intros stk' N Ft Lk. cbn [fits]. repeat split; try assumption. eexists. split; [exact N|]. repeat split.
        cbn [mkfr f_size]. rewrite (tsize_under T Sz), Un. cbn [tsize dsize]. rewrite (Rs _ _ _ _ RU). reflexivity.
    + apply within_upd; [exact Wi1|reflexivity].
  - (* struct{} *)
    intros seen T id Pl Un stk Wi. destruct (plain_support T Pl) as [J X]. exists 1%nat. eexists. split; [|split].
    + intros [|fuel] Hf; [lia|]. cbn [AppendType.append]. rewrite J, X, Un. reflexivity.
    + apply one_frame; try reflexivity. intros stk' N. eexists. split; [exact N|]. repeat split.
      cbn [mkfr f_size dsize]. rewrite (tsize_under T Sz), Un. reflexivity.
    + apply within_app; [exact Wi|discriminate].
  - (* slices *)
    intros seen T U d seen' Pl Un Us RU IH Ok stk Wi. destruct (plain_support T Pl) as [J X].
    assert (SF : slice_fast w64 E U = fast_et d /\ (forall e, fast_et d = Some e -> seen' = seen)).
    { pose proof (Rs _ _ _ _ RU) as Su. unfold slice_fast.
      inversion RU; subst; cbn [slice_elem_ok fast_et] in *;
        try match goal with H : under E U = _ |- _ => rewrite H end; try (split; [reflexivity|intros; discriminate]);
        try (split; [|intros; discriminate]).
      - cbn [under] in *. destruct (d_under (E i)); try reflexivity; try contradiction.
        destruct (Z.ltb_spec (tsize w64 E (TNamed i)) 1); [lia|reflexivity].
      - cbn [under] in *. destruct (d_under (E i)); try reflexivity; try contradiction.
        destruct (Z.ltb_spec (tsize w64 E (TNamed i)) 1); [lia|reflexivity].
      - destruct (under E U); cbn in *; try discriminate; match goal with H : Some _ = Some _ |- _ => injection H as <- end; split; try reflexivity; intros; reflexivity.
      - cbn [dsize] in Su. split; [|reflexivity]. rewrite Su. reflexivity.
      - rewrite Su. cbn [dsize]. destruct (Z.ltb_spec z 1); [lia|reflexivity]. }
    destruct SF as [SF Sn].
    destruct (fast_et d) as [e|] eqn:Fe.
    + exists 1%nat. eexists. split; [|split].
      * intros [|fuel] Hf; [lia|]. cbn [AppendType.append]. rewrite J, X, Un, SF. reflexivity.
      * apply one_frame; try reflexivity; [cbn; rewrite Fe; reflexivity|]. intros stk' N. cbn [fits]. rewrite Fe.
        eexists. split; [exact N|]. cbn [dt_et]. rewrite Fe. repeat split.
      * rewrite (Sn e eq_refl). apply within_app; [exact Wi|discriminate].
    + destruct (IH (stk ++ [mkfr ESlice (3 * wb w64)])) as (m & stk1 & Ap & Ex & Wi1); [apply within_app; [exact Wi|discriminate]|].
      exists (S m). eexists. split; [|split].
      * intros [|fuel] Hf; [lia|]. cbn [AppendType.append]. rewrite J, X, Un, SF, (find_recur_none stk seen U Wi Us).
        rewrite Ap by lia. reflexivity.
      * eapply with_child with (par := Some (length stk)) (off := 0) (cap := 0); try exact Ex; try reflexivity.
        -- cbn [dlen]. rewrite Fe. reflexivity.
        -- intros g. repeat split.
        -- intros g _ Og Cg. repeat split; assumption.
        -- intros stk' N Ft Lk. cbn [fits]. rewrite Fe. repeat split; try assumption. eexists. split; [exact N|].
           cbn [dt_et]. rewrite Fe. repeat split.
      * apply within_upd; [exact Wi1|reflexivity].
  - (* maps *)
    intros seen T K V k ks d seen' Pl Un Us Ns Kt RV IH stk Wi. destruct (plain_support T Pl) as [J X].
    set (f0 := set_rt ROther (set_vsize (tsize w64 E V) (mkfr EMap (wb w64)))).
    assert (KB : exists fk, (forall fuel, (1 <= fuel)%nat -> append fuel (stk ++ [f0]) K = AOk ((stk ++ [f0]) ++ [fk])) /\
      f_ty fk = dkey_et k /\ (match k with KeyText id _ => f_rt fk = Some (RNamed id) | _ => True end) /\
      (forall r, f_rt fk = Some r -> In r ks)).
    { inversion Kt as [K' PK UK|K' k' PK UK|i JK XK]; subst.
      - destruct (plain_support K PK) as [JK XK]. eexists. split; [|split; [|split]].
        + intros [|fuel] Hf; [lia|]. cbn [AppendType.append]. rewrite JK, XK, UK. reflexivity.
        + reflexivity.
        + exact I.
        + discriminate.
      - destruct (plain_support K PK) as [JK XK]. eexists. split; [|split; [|split]].
        + intros [|fuel] Hf; [lia|]. cbn [AppendType.append]. rewrite JK, XK, UK. reflexivity.
        + reflexivity.
        + exact I.
        + discriminate.
      - eexists. split; [|split; [|split]].
        + intros [|fuel] Hf; [lia|]. cbn [AppendType.append json_support text_support]. rewrite JK, XK. reflexivity.
        + reflexivity.
        + reflexivity.
        + intros r [= <-]. left. reflexivity. }
    destruct KB as (fk & ApK & Tk & Rk & Sk).
    set (fk' := set_parent (length stk) fk).
    assert (Lb : upd ((stk ++ [f0]) ++ [fk]) (length (stk ++ [f0])) (set_parent (length stk)) = (stk ++ [f0]) ++ [fk']).
    { rewrite <- (Nat.add_0_r (length (stk ++ [f0]))). rewrite upd_app_r. reflexivity. }
    assert (Wk : within ((stk ++ [f0]) ++ [fk']) (ks ++ seen)).
    { apply within_app.
      - apply within_app; [eapply within_more; [exact Wi|intros; apply in_or_app; right; assumption]|].
        intros r [= <-]. left. reflexivity.
      - intros r Hr. right. apply in_or_app. left. apply Sk. exact Hr. }
    destruct (IH _ Wk) as (m & stk2 & Ap & (Ln & Pre & Ft & Lk) & Wi2).
    exists (S (S m)). eexists. split; [|split].
    + intros [|fuel] Hf; [lia|]. cbn [AppendType.append]. rewrite J, X, Un, (find_recur_none stk seen V Wi Us).
      replace (kind_string E K && kind_string E V) with false.
      2:{ symmetry. apply andb_false_iff. unfold kind_string. unfold stringy in Ns.
          destruct (under E K), (under E V); try (left; reflexivity); try (right; reflexivity); exfalso; apply Ns; split; auto. }
      fold f0. rewrite ApK by lia. rewrite Lb. rewrite Ap by lia. reflexivity.
    + assert (L2 : length ((stk ++ [f0]) ++ [fk']) = S (S (length stk))) by (rewrite !app_length; cbn; lia).
      rewrite L2 in *.
      assert (N : forall j, (j < S (S (length stk)))%nat ->
        nth_error (upd stk2 (S (S (length stk))) (set_parent (length stk))) j = nth_error ((stk ++ [f0]) ++ [fk']) j).
      { intros j Hj. rewrite upd_nth. destruct (Nat.eqb_spec (S (S (length stk))) j); [lia|]. apply Pre, Hj. }
      assert (N0 : nth_error (upd stk2 (S (S (length stk))) (set_parent (length stk))) (length stk) = Some f0).
      { rewrite N by lia. rewrite nth_error_app1 by (rewrite app_length; cbn; lia).
        rewrite nth_error_app2, Nat.sub_diag by lia. reflexivity. }
      split; [|split; [|split]].
      * rewrite upd_length, Ln. cbn [dlen]. lia.
      * intros j Hj. rewrite N by lia. rewrite nth_error_app1 by (rewrite app_length; cbn; lia). apply nth_error_app1, Hj.
      * cbn [fits]. split; [|split; [|split]].
        -- exists f0. split; [exact N0|]. repeat split. cbn [f0 set_rt set_vsize f_vsize]. apply (Rs _ _ _ _ RV).
        -- exists fk'. split.
           ++ rewrite N by lia. rewrite nth_error_app2 by (rewrite app_length; cbn; lia).
              rewrite app_length. cbn [length]. replace (S (length stk) - (length stk + 1))%nat with 0%nat by lia. reflexivity.
           ++ split; [exact Tk|exact Rk].
        -- eapply fits_alike; [|exact Ft]. split.
           ++ intros j Hj. rewrite upd_nth. destruct (Nat.eqb_spec (S (S (length stk))) j); [lia|]. reflexivity.
           ++ intros g Hg. rewrite upd_nth, Nat.eqb_refl, Hg. eexists. split; [reflexivity|repeat split].
        -- destruct Lk as (g & Hg & Pg & Og & Cg). exists (set_parent (length stk) g). rewrite upd_nth, Nat.eqb_refl, Hg.
           repeat split; assumption.
      * exists f0. repeat split. exact N0.
    + apply within_upd; [exact Wi2|reflexivity].
  - (* map[string]string *)
    intros seen T K V Pl Un PK PV UK UV stk Wi. destruct (plain_support T Pl) as [J X].
    assert (FR : find_recur w64 E stk V = None).
    { unfold find_recur. replace (struct_id E V) with (@None rtid); [reflexivity|].
      unfold struct_id. destruct V; cbn in UV; try discriminate; try reflexivity. rewrite UV. reflexivity. }
    exists 1%nat. eexists. split; [|split].
    + intros [|fuel] Hf; [lia|]. cbn [AppendType.append]. rewrite J, X, Un, FR. unfold kind_string. rewrite UK, UV. reflexivity.
    + apply one_frame; try reflexivity. intros stk' N. eexists. split; [exact N|]. repeat split.
    + apply within_app; [exact Wi|]. intros r [= <-]. left. reflexivity.
  - (* pointers *)
    intros seen T U d seen' Pl Un Us RU IH stk Wi. destruct (plain_support T Pl) as [J X].
    destruct (IH (stk ++ [mkfr EPtr (wb w64)])) as (m & stk1 & Ap & Ex & Wi1); [apply within_app; [exact Wi|discriminate]|].
    exists (S m). eexists. split; [|split].
    + intros [|fuel] Hf; [lia|]. cbn [AppendType.append]. rewrite J, X, Un, (find_recur_none stk seen U Wi Us).
      rewrite Ap by lia. reflexivity.
    + eapply with_child with (par := Some (length stk)) (off := 0) (cap := 0); try exact Ex; try reflexivity.
      * intros g. repeat split.
      * intros g _ Og Cg. repeat split; assumption.
      * intros stk' N Ft Lk. cbn [fits]. repeat split; try assumption. eexists. split; [exact N|]. repeat split.
    + apply within_upd; [exact Wi1|reflexivity].
  - (* structs *)
    intros seen T r id z fs ds seen' Pl Un Ne Id RF IH stk Wi. destruct (plain_support T Pl) as [J X].
    set (f0 := set_rt r (mkfr EStruct (tsize w64 E T))).
    destruct (IH stk f0 [] (stk ++ [f0])) as (m & stk1 & Ap & (Ln & Pre & N & Ff) & Wi1).
    { repeat split.
      - rewrite app_length. cbn. lia.
      - intros j Hj. apply nth_error_app1, Hj.
      - rewrite nth_error_app2, Nat.sub_diag by lia. reflexivity. }
    { apply within_app; [eapply within_more; [exact Wi|intros; right; assumption]|]. intros q [= <-]. right. left. reflexivity. }
    exists (S m). exists stk1. split; [|split; [|exact Wi1]].
    + intros [|fuel] Hf; [lia|]. cbn [AppendType.append]. rewrite J, X, Un, identity_struct_id, Id. fold f0.
      destruct fs as [|x fs]; [congruence|]. apply (Ap fuel). lia.
    + cbn [app] in *. split; [|split; [|split]].
      * rewrite dlen_struct. lia.
      * exact Pre.
      * apply fits_struct. split; [|exact Ff]. eexists. split; [exact N|]. repeat split.
        cbn [set_fields f0 set_rt mkfr f_size dsize]. rewrite (tsize_under T Sz), Un. reflexivity.
      * eexists. split; [exact N|]. repeat split.
  - (* no more fields *)
    intros seen base f0 done stk P Wi. exists 0%nat, stk. rewrite app_nil_r. split; [intros fuel _; reflexivity|]. split; assumption.
  - (* ignored field *)
    intros seen f T fs ds seen' Fn RF IH base f0 done stk P Wi. destruct (IH base f0 done stk P Wi) as (n & stk' & Ap & Q).
    exists n, stk'. split; [|exact Q]. intros fuel Hf. cbn [fields_loop]. rewrite (ignored_name _ Fn). apply Ap, Hf.
  - (* field *)
    intros seen f T fs name d ds seen1 seen' Fn RT IHT RF IH base f0 done stk P Wi.
    destruct (IHT stk Wi) as (n1 & stk1 & Ap1 & Ex1 & Wi1).
    destruct (partway_add base f0 done stk d stk1 d name (fd_off f)
      (fun c => set_parent (length base) (set_off (fd_off f) c)) seen1 P Ex1 Wi1 eq_refl) as (P2 & Wi2).
    { intros c. repeat split. }
    { intros stk' F A B. eapply fits_alike; [|exact F]. split; [intros j Hj; symmetry; apply A, Hj|].
      intros c Hc. eexists. split; [apply B, Hc|]. repeat split. }
    destruct (IH base f0 _ _ P2 Wi2) as (n2 & stk3 & Ap2 & Q). rewrite <- app_assoc in Q. cbn [app] in Q.
    exists (n1 + n2)%nat, stk3. split; [|exact Q]. intros fuel Hf. cbn [fields_loop]. rewrite (known_name _ _ _ Fn).
    rewrite Ap1 by lia. apply Ap2. lia.
  - (* field with the string option *)
    intros seen f T fs name d d' ds seen1 seen' Fn RT IHT Qd RF IH base f0 done stk P Wi.
    destruct (quoted_head d d' Qd) as (Qe & Q1 & Q2).
    destruct (IHT stk Wi) as (n1 & stk1 & Ap1 & Ex1 & Wi1).
    assert (Ex1' := Ex1). destruct Ex1' as (Ln1 & Pre1 & F1 & _).
    destruct (fits_head_et _ _ _ F1) as (c & Hc & Tc).
    destruct (partway_add base f0 done stk d stk1 d' name (fd_off f)
      (fun c => set_ty (dt_et d') (set_parent (length base) (set_off (fd_off f) c))) seen1 P Ex1 Wi1 ltac:(congruence)) as (P2 & Wi2).
    { intros c'. repeat split. }
    { intros stk' F A B. clear - F A B Qd.
      destruct d as [x| | | | | | | | | |]; try discriminate; destruct x; try discriminate; injection Qd as <-;
      destruct F as (c & Hc & T & S & Fl & _); eexists; (split; [apply B, Hc|]); repeat split; cbn; assumption. }
    destruct (IH base f0 _ _ P2 Wi2) as (n2 & stk3 & Ap2 & Q). rewrite <- app_assoc in Q. cbn [app] in Q.
    exists (n1 + n2)%nat, stk3. split; [|exact Q]. intros fuel Hf. cbn [fields_loop]. rewrite (known_name _ _ _ Fn).
    rewrite Ap1 by lia. cbv zeta.
    assert (Nb : length stk <> length base) by (destruct P as (Lp & _); lia).
    rewrite !upd_nth, Nat.eqb_refl. destruct (Nat.eqb_spec (length base) (length stk)); [congruence|].
    rewrite Hc. cbn [option_map]. cbn [set_parent set_off f_ty]. rewrite Tc, Qe.
    rewrite <- (Ap2 fuel ltac:(lia)). f_equal.
    apply nth_error_ext. intros j. rewrite !upd_nth. destruct (Nat.eqb (length stk) j); [|reflexivity].
    destruct (Nat.eqb (length base) j); destruct (nth_error stk1 j); reflexivity.
  - (* string option ignored *)
    intros seen f T fs name d ds seen1 seen' Fn RT IHT Qd Da RF IH base f0 done stk P Wi.
    pose proof (unquoted_head d Qd) as Qe.
    destruct (IHT stk Wi) as (n1 & stk1 & Ap1 & Ex1 & Wi1).
    assert (Ex1' := Ex1). destruct Ex1' as (Ln1 & Pre1 & F1 & _).
    destruct (fits_head_et _ _ _ F1) as (c & Hc & Tc).
    destruct (partway_add base f0 done stk d stk1 d name (fd_off f)
      (fun c => set_parent (length base) (set_off (fd_off f) c)) seen1 P Ex1 Wi1 eq_refl) as (P2 & Wi2).
    { intros c'. repeat split. }
    { intros stk' F A B. eapply fits_alike; [|exact F]. split; [intros j Hj; symmetry; apply A, Hj|].
      intros c' Hc'. eexists. split; [apply B, Hc'|]. repeat split. }
    destruct (IH base f0 _ _ P2 Wi2) as (n2 & stk3 & Ap2 & Q). rewrite <- app_assoc in Q. cbn [app] in Q.
    exists (n1 + n2)%nat, stk3. split; [|exact Q]. intros fuel Hf. cbn [fields_loop]. rewrite (known_name _ _ _ Fn).
    rewrite Ap1 by lia. cbv zeta.
    assert (Nb : length stk <> length base) by (destruct P as (Lp & _); lia).
    rewrite !upd_nth, Nat.eqb_refl. destruct (Nat.eqb_spec (length base) (length stk)); [congruence|].
    rewrite Hc. cbn [option_map]. cbn [set_parent set_off f_ty]. rewrite Tc, Qe. rewrite Da. apply Ap2. lia.
Qed.
End Resolve.

(** For every type that resolves, NewDecoder succeeds and its frames describe the type. *)
Theorem append_describes w64 E disallow T d seen' :
  sizes_ok w64 E -> resolves w64 E disallow [] T d seen' ->
  exists n stk, describes w64 stk d /\
    forall fuel, (n <= fuel)%nat -> append w64 E disallow fuel [] T = AOk stk.
Proof.
  intros S R. destruct (proj1 (resolves_built w64 E disallow S) _ _ _ _ R []) as (n & stk & Ap & (Ln & _ & Ft & Lk) & _).
  { intros f r []. }
  exists n, stk. split; [|exact Ap]. split; [exact Ln|]. split; [exact Ft|exact Lk].
Qed.

(** More fuel does not change the outcome. *)
Lemma append_more w64 E disallow fuel : forall stk T, append w64 E disallow fuel stk T <> AFuel ->
  append w64 E disallow (S fuel) stk T = append w64 E disallow fuel stk T.
Proof.
  induction fuel as [|fuel IH]; intros stk T N; [exfalso; apply N; reflexivity|].
  assert (exists n, n = S fuel) as [n En] by eauto. replace (S (S fuel)) with (S n) by lia.
  assert (Ch : forall stk t link (k k' : list frame -> ares),
    match append w64 E disallow fuel stk t with AOk stk' => k (upd stk' (length stk) link) | r => r end <> AFuel ->
    (forall stk', k stk' <> AFuel -> k' stk' = k stk') ->
    match append w64 E disallow n stk t with AOk stk' => k' (upd stk' (length stk) link) | r => r end =
    match append w64 E disallow fuel stk t with AOk stk' => k (upd stk' (length stk) link) | r => r end).
  { intros stk0 t link k k' H Hk. subst n. rewrite IH.
    - destruct (append w64 E disallow fuel stk0 t); try reflexivity. apply Hk, H.
    - intros Q. rewrite Q in H. congruence. }
  cbn [append] in *. destruct (json_support E T); [reflexivity|]. destruct (text_support E T); [reflexivity|].
  destruct (under E T) as [| | | | | | | |m elem|elem|key elem|elem|id z fs|]; try reflexivity.
  - destruct m; [reflexivity|]. apply Ch; [exact N|reflexivity].
  - destruct (slice_fast w64 E elem); [reflexivity|]. destruct (find_recur w64 E stk elem); [reflexivity|].
    apply Ch; [exact N|reflexivity].
  - destruct (find_recur w64 E stk elem); [apply Ch; [exact N|reflexivity]|].
    destruct (_ && _); [reflexivity|].
    apply (Ch _ key _ (fun stk' => match append w64 E disallow fuel stk' elem with AOk stk'' => AOk (upd stk'' (length stk') (set_parent (length stk))) | r => r end)
                   (fun stk' => match append w64 E disallow n stk' elem with AOk stk'' => AOk (upd stk'' (length stk') (set_parent (length stk))) | r => r end)); [exact N|].
    intros stk' H. apply (Ch stk' elem (set_parent (length stk)) AOk AOk H). reflexivity.
  - destruct (find_recur w64 E stk elem); [reflexivity|]. apply Ch; [exact N|reflexivity].
  - destruct fs as [|x fs]; [reflexivity|].
    change (fields_loop w64 E disallow n (length stk) (x :: fs)
       (stk ++ [match struct_id E T with Some r => set_rt r (mkfr EStruct (tsize w64 E T)) | None => mkfr EStruct (tsize w64 E T) end]) =
       fields_loop w64 E disallow fuel (length stk) (x :: fs)
       (stk ++ [match struct_id E T with Some r => set_rt r (mkfr EStruct (tsize w64 E T)) | None => mkfr EStruct (tsize w64 E T) end])).
    change (fields_loop w64 E disallow fuel (length stk) (x :: fs)
       (stk ++ [match struct_id E T with Some r => set_rt r (mkfr EStruct (tsize w64 E T)) | None => mkfr EStruct (tsize w64 E T) end]) <> AFuel) in N.
    revert N. generalize (stk ++ [match struct_id E T with Some r => set_rt r (mkfr EStruct (tsize w64 E T)) | None => mkfr EStruct (tsize w64 E T) end]).
    generalize (x :: fs). clear Ch. intros l. induction l as [|[f ft] l IHl]; intros st N; [reflexivity|].
    cbn [fields_loop] in *. destruct (field_name f) as [[name opt]|]; [|apply IHl, N].
    replace (append w64 E disallow n st ft) with (append w64 E disallow fuel st ft).
    2:{ subst n. symmetry. apply IH. intros Q. rewrite Q in N. congruence. }
    destruct (append w64 E disallow fuel st ft); try reflexivity. cbv zeta in *.
    destruct opt; [|apply IHl, N]. destruct (nth_error _ _); [|reflexivity].
    destruct (string_type _); [apply IHl, N|]. destruct disallow; [reflexivity|apply IHl, N].
Qed.
Lemma append_fuel w64 E disallow fuel stk T k : append w64 E disallow fuel stk T <> AFuel ->
  append w64 E disallow (fuel + k) stk T = append w64 E disallow fuel stk T.
Proof.
  intros N. induction k as [|k IH]; [rewrite Nat.add_0_r; reflexivity|]. rewrite Nat.add_succ_r.
  rewrite append_more; [exact IH|]. rewrite IH. exact N.
Qed.

(** Whenever NewDecoder succeeds on a type that resolves, its frames describe the type. *)
Theorem append_ok_describes w64 E disallow T d seen' fuel stk :
  sizes_ok w64 E -> resolves w64 E disallow [] T d seen' ->
  append w64 E disallow fuel [] T = AOk stk -> describes w64 stk d.
Proof.
  intros S R H. destruct (append_describes _ _ _ _ _ _ S R) as (n & stk' & D & A).
  pose proof (append_fuel w64 E disallow fuel [] T n) as F. rewrite H in F. specialize (F ltac:(discriminate)).
  rewrite A in F by lia. injection F as ->. exact D.
Qed.

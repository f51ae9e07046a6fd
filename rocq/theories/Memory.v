(** What the memory model (Heap.v) detects and what it keeps: the statements C16 and all
    others about DCorrupts rest on.  Heap.v models the unsafe.Pointer accesses of
    jscandec.go (for example 748, 1034, 1371-1460) on Go's memory. *)
From Verif Require Import Base Types Heap.
Open Scope Z_scope.

(** Every access outside of the block, or to a block that is not plain memory, is detected. *)
Theorem store_outside h b o n v size cells : blk h b = BMem size cells -> ~ (0 <= o /\ o + n <= size) -> store h (Some (b, o)) n v = Cor.
Proof.
  intros Hb H. unfold store. rewrite Hb. destruct (Z.leb_spec 0 o), (Z.leb_spec (o + n) size); cbn [andb]; try reflexivity. tauto.
Qed.
Theorem load_outside h b o n size cells : blk h b = BMem size cells -> ~ (0 <= o /\ o + n <= size) -> load h (Some (b, o)) n = Cor.
Proof.
  intros Hb H. unfold load. rewrite Hb. destruct (Z.leb_spec 0 o), (Z.leb_spec (o + n) size); cbn [andb]; try reflexivity. tauto.
Qed.
Theorem clear_outside h b o n size cells : blk h b = BMem size cells -> 0 < n -> ~ (0 <= o /\ o + n <= size) -> clear h (Some (b, o)) n = Cor.
Proof.
  intros Hb Hn H. unfold clear. rewrite Hb. destruct (Z.leb_spec n 0); [lia|]. destruct (Z.leb_spec 0 o), (Z.leb_spec (o + n) size); cbn [andb]; try reflexivity. tauto.
Qed.
Theorem not_plain_memory h b o n v : match blk h b with BMem _ _ => False | _ => True end ->
  store h (Some (b, o)) n v = Cor /\ load h (Some (b, o)) n = Cor /\ (0 < n -> clear h (Some (b, o)) n = Cor).
Proof.
  intros H. unfold store, load, clear. destruct (Z.leb_spec n 0); destruct (blk h b); try destruct H; (split; [reflexivity|split; [reflexivity|]]); intros; try lia; reflexivity.
Qed.
(** Dereferencing nil panics. *)
Theorem nil_panics h n v : store h None n v = Pan /\ load h None n = Pan /\ (0 < n -> clear h None n = Pan).
Proof. unfold store, load, clear. destruct (Z.leb_spec n 0); repeat split; intros; try lia; reflexivity. Qed.

(** A store is read back, and touches nothing else. *)
Theorem store_load h b o n v h' : store h (Some (b, o)) n v = Ok h' -> v <> CPoison -> load h' (Some (b, o)) n = Ok v.
Proof.
  unfold store, load. destruct (blk h b) as [|size cells|] eqn:Hb; try discriminate. destruct (_ && _) eqn:Bd; [|discriminate]. intros [= <-] Nv.
  cbn [set_blk blk]. rewrite Nat.eqb_refl. apply andb_prop in Bd as [Bd _]. rewrite Bd. unfold put_cell. rewrite Z.eqb_refl. destruct v; try reflexivity. congruence.
Qed.
Theorem store_others h b o n v h' b' o' : store h (Some (b, o)) n v = Ok h' -> b' <> b \/ o' < o \/ (o + n <= o' /\ o' <> o) ->
  match blk h' b', blk h b' with BMem z c, BMem z' c' => z = z' /\ c o' = c' o' | x, y => x = y end.
Proof.
  unfold store. destruct (blk h b) as [|size cells|] eqn:Hb; try discriminate. destruct (_ && _) eqn:Bd; [|discriminate]. intros [= <-] H.
  cbn [set_blk blk]. destruct (Nat.eqb_spec b' b) as [->|N].
  - rewrite Hb. split; [reflexivity|]. unfold put_cell. destruct (Z.eqb_spec o' o) as [->|]; [destruct H as [H|[H|H]]; [congruence|lia|lia]|].
    destruct (Z.ltb_spec o o'), (Z.ltb_spec o' (o + n)); cbn [andb]; try reflexivity. destruct H as [H|[H|H]]; [congruence|lia|lia].
  - destruct (blk h b'); try reflexivity. split; reflexivity.
Qed.
(** An access that starts inside a value stored before is detected: values are read and
    written as a whole or not at all. *)
Theorem store_inside h b o n v h' o' n' v' : store h (Some (b, o)) n v = Ok h' -> o < o' < o + n ->
  load h' (Some (b, o')) n' = Cor /\ store h' (Some (b, o')) n' v' = Cor.
Proof.
  unfold store, load. destruct (blk h b) as [|size cells|] eqn:Hb; try discriminate. destruct (_ && _) eqn:Bd; [|discriminate]. intros [= <-] H.
  cbn [set_blk blk]. rewrite Nat.eqb_refl. unfold put_cell. destruct (Z.eqb_spec o' o); [lia|]. destruct (Z.ltb_spec o o'), (Z.ltb_spec o' (o + n)); try lia. cbn [andb is_poison negb].
  rewrite andb_false_r. split; reflexivity.
Qed.
(** New memory is fresh and zero; memory of size 0 is one shared address. *)
Theorem malloc_fresh h n : 0 < n -> exists h', malloc h n = ((nxt h, 0), h') /\ nxt h' = S (nxt h) /\ (exists c, blk h' (nxt h) = BMem n c /\ forall x, c x = CZero) /\
  forall b, b <> nxt h -> blk h' b = blk h b.
Proof.
  intros Hn. unfold malloc. destruct (Z.leb_spec n 0); [lia|]. cbn [alloc_blk]. eexists. split; [reflexivity|]. cbn [nxt blk]. split; [reflexivity|]. split.
  - rewrite Nat.eqb_refl. eexists. split; reflexivity.
  - intros b Hb. destruct (Nat.eqb_spec b (nxt h)); [contradiction|reflexivity].
Qed.
Theorem malloc_nothing h n : n <= 0 -> malloc h n = ((0%nat, 0), h).
Proof. intros Hn. unfold malloc. destruct (Z.leb_spec n 0); [reflexivity|lia]. Qed.
(** Clearing. *)
Theorem clear_zero h b o n h' x : clear h (Some (b, o)) n = Ok h' -> 0 < n ->
  match blk h' b, blk h b with
  | BMem z c, BMem z' c' => z = z' /\ c x = (if (o <=? x) && (x <? o + n) then CZero else c' x)
  | _, _ => False
  end /\ forall b', b' <> b -> blk h' b' = blk h b'.
Proof.
  intros H Hn. unfold clear in H. destruct (Z.leb_spec n 0); [lia|]. destruct (blk h b) as [|size cells|] eqn:Hb; try discriminate. destruct (_ && _) eqn:Bd in H; [|discriminate]. injection H as <-.
  cbn [set_blk blk]. rewrite Nat.eqb_refl. split; [split; reflexivity|]. intros b' N. destruct (Nat.eqb_spec b' b); [contradiction|reflexivity].
Qed.
(** Copying: the values are moved, the source is kept (also when the two overlap). *)
Theorem copy_moves h b o b' o' n h' x : copy h (Some (b, o)) (Some (b', o')) n = Ok h' -> 0 < n ->
  match blk h' b, blk h b, blk h b' with
  | BMem z c, BMem z1 c1, BMem z2 c2 => z = z1 /\ c x = (if (o <=? x) && (x <? o + n) then c2 (x - o + o') else c1 x) /\ 0 <= o /\ o + n <= z1 /\ 0 <= o' /\ o' + n <= z2
  | _, _, _ => False
  end /\ forall d, d <> b -> blk h' d = blk h d.
Proof.
  intros H Hn. unfold copy in H. destruct (Z.leb_spec n 0); [lia|]. destruct (blk h b) as [|size cells|] eqn:Hb; try discriminate. destruct (blk h b') as [|size' cells'|] eqn:Hb'; try discriminate.
  destruct (_ && _) eqn:Bd in H; [|discriminate]. injection H as <-. cbn [set_blk blk]. rewrite Nat.eqb_refl.
  apply andb_prop in Bd as [Bd B4]. apply andb_prop in Bd as [Bd B3]. apply andb_prop in Bd as [B1 B2]. apply Z.leb_le in B1, B2, B3, B4.
  split; [repeat split; lia|]. intros d N. destruct (Nat.eqb_spec d b); [contradiction|reflexivity].
Qed.
(** Map assignment: the cell of a key that is present stays where it is; a new key gets new
    zero memory; the other keys keep their cells. *)
Theorem mapassign_present h m l k b vsize : blk h m = BMap l -> find_key l k = Some b -> mapassign h (Some m) k vsize = Ok ((b, 0), h).
Proof. intros Hm Hk. unfold mapassign. rewrite Hm, Hk. reflexivity. Qed.
Lemma find_key_app l k k' b : find_key (l ++ [(k, b)]) k' = match find_key l k' with Some c => Some c | None => if mkey_eqb k k' then Some b else None end.
Proof. induction l as [|[k1 b1] l IH]; cbn [find_key app]; [reflexivity|]. destruct (mkey_eqb k1 k'); [reflexivity|exact IH]. Qed.
Theorem mapassign_new h m l k vsize : blk h m = BMap l -> m <> nxt h -> find_key l k = None ->
  exists h' l', mapassign h (Some m) k vsize = Ok ((nxt h, 0), h') /\ (exists c, blk h' (nxt h) = BMem vsize c /\ forall x, c x = CZero) /\
  blk h' m = BMap l' /\ map fst l' = map fst l ++ [k] /\ (forall k', find_key l k' <> None -> find_key l' k' = find_key l k') /\
  (forall b, b <> nxt h -> b <> m -> blk h' b = blk h b).
Proof.
  intros Hm Nm Hk. unfold mapassign. rewrite Hm, Hk. cbn [alloc_blk]. do 2 eexists. split; [reflexivity|]. cbn [set_blk blk].
  destruct (Nat.eqb_spec (nxt h) m) as [E|_]; [congruence|]. rewrite !Nat.eqb_refl. split; [eexists; split; reflexivity|]. split; [reflexivity|].
  split; [rewrite map_app; reflexivity|]. split.
  - intros k' H. rewrite find_key_app. destruct (find_key l k'); [reflexivity|congruence].
  - intros b H1 H2. destruct (Nat.eqb_spec b m); [contradiction|]. destruct (Nat.eqb_spec b (nxt h)); [contradiction|reflexivity].
Qed.
Theorem mapassign_nil h k vsize : mapassign h None k vsize = Pan.
Proof. reflexivity. Qed.
(** A case: an int16 at 4 of 8 bytes; the byte behind its start, and the byte behind the block. *)
Example memory_case : exists h', store (Heap 2 (fun b => match b with 1%nat => BMem 8 (fun _ => CZero) | _ => BFree end)) (Some (1%nat, 4)) 2 (CInt 7) = Ok h' /\
  load h' (Some (1%nat, 4)) 2 = Ok (CInt 7) /\ load h' (Some (1%nat, 6)) 2 = Ok CZero /\ load h' (Some (1%nat, 5)) 1 = Cor /\ store h' (Some (1%nat, 7)) 2 (CInt 1) = Cor /\
  load h' (Some (2%nat, 0)) 1 = Cor.
Proof. eexists. split; [reflexivity|]. repeat split; reflexivity. Qed.

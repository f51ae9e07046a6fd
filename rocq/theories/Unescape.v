(** Model of internal/unescape/unescape.go.

    [UPanic] models an out-of-range index, [UFuel] only says that the fuel of the
    Coq recursion was too small (proved impossible for the fuel used by [Valid]).
    Not modelled: whether the result shares memory with the input (the Go function
    copies in the []byte case); see the alias model of the decoder for that. *)
From Verif Require Import Base.
Open Scope Z_scope.

Inductive uout := UOk (b : bytes) | UPanic | UFuel.

(** unescape.go:108-117 [lutReplace]. *)
Definition lutReplace (c : byte) : byte :=
  if c =? 92 then 92 else if c =? 47 then 47 else if c =? 34 then 34
  else if c =? 98 then 8 else if c =? 102 then 12 else if c =? 110 then 10
  else if c =? 114 then 13 else if c =? 116 then 9 else 0.

(** unescape.go:119-124 [lut]. *)
Definition lut (c : byte) : Z :=
  if (48 <=? c) && (c <=? 57) then c - 48
  else if (65 <=? c) && (c <=? 70) then c - 55
  else if (97 <=? c) && (c <=? 102) then c - 87
  else 0.

(** Conversion [byte(r)]. *)
Definition tobyte (r : Z) : byte := Z.land r 255.

(** strings.IndexByte(s, '\\'). *)
Fixpoint index_bs (s : bytes) : option nat :=
  match s with
  | [] => None
  | c :: r => if c =? 92 then Some 0%nat else match index_bs r with Some i => Some (S i) | None => None end
  end.

(** unescape.go:66: [for i = 0; i < len(s) && s[i] != '\\'; i++ {}]. *)
Fixpoint scan_bs (s : bytes) : nat :=
  match s with
  | [] => 0%nat
  | c :: r => if c =? 92 then 0%nat else S (scan_bs r)
  end.

(** unescape.go:47-58: bytes appended for a \u escape with value [r]. *)
Definition u_bytes (r : Z) : bytes :=
  if r <=? 127 then [tobyte r]
  else if r <=? 2047 then
    [Z.lor 192 (tobyte (Z.shiftr r 6)); Z.lor 128 (Z.land (tobyte r) 63)]
  else if (r >? 1114111) || ((55296 <=? r) && (r <=? 57343)) then [239; 191; 189]
  else [Z.lor 224 (tobyte (Z.shiftr r 12)); Z.lor 128 (Z.land (tobyte (Z.shiftr r 6)) 63);
        Z.lor 128 (Z.land (tobyte r) 63)].

(** unescape.go:46-62: one escape sequence at the head of [s]; [None] = index panic. *)
Definition escape_one (buf s : bytes) : option (bytes * bytes) :=
  match s with
  | _ :: c :: r =>
      if c =? 117 then
        match r with
        | h1 :: h2 :: h3 :: h4 :: r' =>
            let v := Z.shiftl (lut h1) 12 + Z.shiftl (lut h2) 8 + Z.shiftl (lut h3) 4 + lut h4 in
            Some (buf ++ u_bytes v, r')
        | _ => None
        end
      else Some (buf ++ [lutReplace c], r)
  | _ => None
  end.

(** unescape.go:38-100: label ESCAPE_SEQUENCE, then the search for the next escape
    (lines 63-99) and the loop head (lines 39-44: append s[:i], stop if s is empty). *)
Fixpoint esc (fuel : nat) (buf s : bytes) : uout :=
  match fuel with
  | O => UFuel
  | S f =>
      match escape_one buf s with
      | None => UPanic
      | Some (buf, s) =>
          (* [continue] with the given i *)
          let continue (i : nat) :=
            match skipn i s with
            | [] => UOk (buf ++ firstn i s)
            | _ => esc f (buf ++ firstn i s) (skipn i s)
            end in
          match s with
          | c0 :: c1 :: c2 :: c3 :: c4 :: c5 :: c6 :: c7 :: r =>
              if c0 =? 92 then esc f buf s (* goto ESCAPE_SEQUENCE *)
              else if c1 =? 92 then continue 1%nat
              else if c2 =? 92 then continue 2%nat
              else if c3 =? 92 then continue 3%nat
              else if c4 =? 92 then continue 4%nat
              else if c5 =? 92 then continue 5%nat
              else if c6 =? 92 then continue 6%nat
              else if c7 =? 92 then continue 7%nat
              else match index_bs r with
                   | None => UOk (buf ++ s) (* break *)
                   | Some i => continue (i + 8)%nat
                   end
          | _ => continue (scan_bs s) (* len(s) < batchSize *)
          end
      end
  end.

(** unescape.go:12-106 [Valid]. *)
Definition Valid (str : bytes) : uout :=
  match index_bs str with
  | None => UOk str (* also covers the empty string, lines 14-16 *)
  | Some i => esc (S (length str)) (firstn i str) (skipn i str)
  end.

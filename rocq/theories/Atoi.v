(** Model of internal/atoi/atoi.go.

    The unrolled sums of the source, e.g. [d(0)*1e2 + d(1)*1e1 + d(2)], are
    transcribed case by case as tables of (index, power of ten) pairs; [ev]
    evaluates such a table left to right with the Go semantics, i.e. every
    multiplication and every addition is truncated to the width of the type.
    The result is [None] when the Go function would panic (index out of range),
    otherwise [Some (n, overflow)]. *)
From Verif Require Import Base.
Open Scope Z_scope.

Definition at_ (s : bytes) (i : nat) : byte := nth i s 0.

(** atoi.go:6, 29, 61, 88, 130, 183, 278, 424: [d := func(index int) T { return T(s[index] - '0') }].
    [s[index] - '0'] is byte arithmetic (mod 256), then converted to T. *)
Definition d (k : ikind) (s : bytes) (i : nat) : Z := wrap k ((at_ s i - 48) mod 256).

(** A term [d(i)*1e<e>]. *)
Definition term (k : ikind) (s : bytes) (t : nat * nat) : Z :=
  wrap k (d k s (fst t) * 10 ^ Z.of_nat (snd t)).

(** A left-associated sum of terms. *)
Definition ev (k : ikind) (s : bytes) (ts : list (nat * nat)) : Z :=
  fold_left (fun acc t => wrap k (acc + term k s t)) ts 0.

Definition ok (n : Z) : option (Z * bool) := Some (n, false).
Definition ovf : option (Z * bool) := Some (0, true).

(** atoi.go:5-24 [U8]. *)
Definition U8 (s : bytes) : option (Z * bool) :=
  match length s with
  | 1%nat => ok (ev U8k s [(0,0)]%nat) (* line 9 *)
  | 2%nat => ok (ev U8k s [(0,1); (1,0)]%nat) (* line 11 *)
  | 3%nat => (* lines 12-: first digit limit, then wrapped sum compared with its tail *)
      if (at_ s 0 - 48) mod 256 >? 2 then ovf else
      let p := ev U8k s [(1,1); (2,0)]%nat in
      let n := wrap U8k (p + term U8k s (0,2)%nat) in
      if n <=? p then ovf else ok n
  | _ => ovf
  end.

(** atoi.go:60-83 [U16]. *)
Definition U16 (s : bytes) : option (Z * bool) :=
  match length s with
  | 1%nat => ok (ev U16k s [(0,0)]%nat) (* line 64 *)
  | 2%nat => ok (ev U16k s [(0,1); (1,0)]%nat) (* line 66 *)
  | 3%nat => ok (ev U16k s [(0,2); (1,1); (2,0)]%nat) (* line 68 *)
  | 4%nat => ok (ev U16k s [(0,3); (1,2); (2,1); (3,0)]%nat) (* line 70 *)
  | 5%nat => (* lines 71-: first digit limit, then wrapped sum compared with its tail *)
      if (at_ s 0 - 48) mod 256 >? 6 then ovf else
      let p := ev U16k s [(1,3); (2,2); (3,1); (4,0)]%nat in
      let n := wrap U16k (p + term U16k s (0,4)%nat) in
      if n <=? p then ovf else ok n
  | _ => ovf
  end.

(** atoi.go:129-178 [U32]. *)
Definition U32 (s : bytes) : option (Z * bool) :=
  match length s with
  | 1%nat => ok (ev U32k s [(0,0)]%nat) (* line 133 *)
  | 2%nat => ok (ev U32k s [(0,1); (1,0)]%nat) (* line 135 *)
  | 3%nat => ok (ev U32k s [(0,2); (1,1); (2,0)]%nat) (* line 137 *)
  | 4%nat => ok (ev U32k s [(0,3); (1,2); (2,1); (3,0)]%nat) (* line 139 *)
  | 5%nat => ok (ev U32k s [(0,4); (1,3); (2,2); (3,1); (4,0)]%nat) (* line 141 *)
  | 6%nat => ok (ev U32k s [(0,5); (1,4); (2,3); (3,2); (4,1); (5,0)]%nat) (* line 145 *)
  | 7%nat => ok (ev U32k s [(0,6); (1,5); (2,4); (3,3); (4,2); (5,1); (6,0)]%nat) (* line 150 *)
  | 8%nat => ok (ev U32k s [(0,7); (1,6); (2,5); (3,4); (4,3); (5,2); (6,1); (7,0)]%nat) (* line 155 *)
  | 9%nat => ok (ev U32k s [(0,8); (1,7); (2,6); (3,5); (4,4); (5,3); (6,2); (7,1); (8,0)]%nat) (* line 161 *)
  | 10%nat => (* lines 162-: first digit limit, then wrapped sum compared with its tail *)
      if (at_ s 0 - 48) mod 256 >? 4 then ovf else
      let p := ev U32k s [(1,8); (2,7); (3,6); (4,5); (5,4); (6,3); (7,2); (8,1); (9,0)]%nat in
      let n := wrap U32k (p + term U32k s (0,9)%nat) in
      if n <=? p then ovf else ok n
  | _ => ovf
  end.

(** atoi.go:277-419 [U64]. *)
Definition U64 (s : bytes) : option (Z * bool) :=
  match length s with
  | 1%nat => ok (ev U64k s [(0,0)]%nat) (* lines 280-281 *)
  | 2%nat => ok (ev U64k s [(0,1); (1,0)]%nat) (* lines 282-283 *)
  | 3%nat => ok (ev U64k s [(0,2); (1,1); (2,0)]%nat) (* lines 284-286 *)
  | 4%nat => ok (ev U64k s [(0,3); (1,2); (2,1); (3,0)]%nat) (* lines 287-289 *)
  | 5%nat => ok (ev U64k s [(0,4); (1,3); (2,2); (3,1); (4,0)]%nat) (* lines 290-293 *)
  | 6%nat => ok (ev U64k s [(0,5); (1,4); (2,3); (3,2); (4,1); (5,0)]%nat) (* lines 294-297 *)
  | 7%nat => ok (ev U64k s [(0,6); (1,5); (2,4); (3,3); (4,2); (5,1); (6,0)]%nat) (* lines 298-302 *)
  | 8%nat => ok (ev U64k s [(0,7); (1,6); (2,5); (3,4); (4,3); (5,2); (6,1); (7,0)]%nat) (* lines 303-307 *)
  | 9%nat => ok (ev U64k s [(0,8); (1,7); (2,6); (3,5); (4,4); (5,3); (6,2); (7,1); (8,0)]%nat) (* lines 308-313 *)
  | 10%nat => ok (ev U64k s [(0,9); (1,8); (2,7); (3,6); (4,5); (5,4); (6,3); (7,2); (8,1); (9,0)]%nat) (* lines 314-319 *)
  | 11%nat => ok (ev U64k s [(0,10); (1,9); (2,8); (3,7); (4,6); (5,5); (6,4); (7,3); (8,2); (9,1); (10,0)]%nat) (* lines 320-326 *)
  | 12%nat => ok (ev U64k s [(0,11); (1,10); (2,9); (3,8); (4,7); (5,6); (6,5); (7,4); (8,3); (9,2); (10,1); (11,0)]%nat) (* lines 327-333 *)
  | 13%nat => ok (ev U64k s [(0,12); (1,11); (2,10); (3,9); (4,8); (5,7); (6,6); (7,5); (8,4); (9,3); (10,2); (11,1); (12,0)]%nat) (* lines 334-341 *)
  | 14%nat => ok (ev U64k s [(0,13); (1,12); (2,11); (3,10); (4,9); (5,8); (6,7); (7,6); (8,5); (9,4); (10,3); (11,2); (12,1); (13,0)]%nat) (* lines 342-349 *)
  | 15%nat => ok (ev U64k s [(0,14); (1,13); (2,12); (3,11); (4,10); (5,9); (6,8); (7,7); (8,6); (9,5); (10,4); (11,3); (12,2); (13,1); (14,0)]%nat) (* lines 350-358 *)
  | 16%nat => ok (ev U64k s [(0,15); (1,14); (2,13); (3,12); (4,11); (5,10); (6,9); (7,8); (8,7); (9,6); (10,5); (11,4); (12,3); (13,2); (14,1); (15,0)]%nat) (* lines 359-367 *)
  | 17%nat => ok (ev U64k s [(0,16); (1,15); (2,14); (3,13); (4,12); (5,11); (6,10); (7,9); (8,8); (9,7); (10,6); (11,5); (12,4); (13,3); (14,2); (15,1); (16,0)]%nat) (* lines 368-377 *)
  | 18%nat => ok (ev U64k s [(0,17); (1,16); (2,15); (3,14); (4,13); (5,12); (6,11); (7,10); (8,9); (9,8); (10,7); (11,6); (12,5); (13,4); (14,3); (15,2); (16,1); (17,0)]%nat) (* lines 378-387 *)
  | 19%nat => ok (ev U64k s [(0,18); (1,17); (2,16); (3,15); (4,14); (5,13); (6,12); (7,11); (8,10); (9,9); (10,8); (11,7); (12,6); (13,5); (14,4); (15,3); (16,2); (17,1); (18,0)]%nat) (* lines 388-398 *)
  | 20%nat => (* lines 399-416 *)
      if negb (at_ s 0 =? 49) then ovf else
      let n := ev U64k s [(1,18); (2,17); (3,16); (4,15); (5,14); (6,13); (7,12); (8,11); (9,10); (10,9); (11,8); (12,7); (13,6); (14,5); (15,4); (16,3); (17,2); (18,1); (19,0)]%nat in
      if n >? 8446744073709551615 then ovf else ok (wrap U64k (10000000000000000000 + n))
  | _ => ovf
  end.

(** atoi.go:28-56 [I8]; [s[0]] panics on empty input. *)
Definition I8 (s : bytes) : option (Z * bool) :=
  match s with
  | [] => None
  | c0 :: _ =>
  if c0 =? 45 then
    match length s with
    | 2%nat => ok (wrap I8k (- ev I8k s [(1,0)]%nat)) (* line 33 *)
    | 3%nat => ok (wrap I8k (- ev I8k s [(1,1); (2,0)]%nat)) (* line 35 *)
    | 4%nat => (* line 36: can overflow *)
        let n := wrap I8k (- ev I8k s [(1,2); (2,1); (3,0)]%nat) in
        if n >? 0 then ovf else ok n
    | _ => ovf
    end
  else
    match length s with
    | 1%nat => ok (ev I8k s [(0,0)]%nat) (* line 45 *)
    | 2%nat => ok (ev I8k s [(0,1); (1,0)]%nat) (* line 47 *)
    | 3%nat => (* line 48: can overflow *)
        let n := ev I8k s [(0,2); (1,1); (2,0)]%nat in
        if n <? 0 then ovf else ok n
    | _ => ovf
    end
  end.

(** atoi.go:87-125 [I16]; [s[0]] panics on empty input. *)
Definition I16 (s : bytes) : option (Z * bool) :=
  match s with
  | [] => None
  | c0 :: _ =>
  if c0 =? 45 then
    match length s with
    | 2%nat => ok (wrap I16k (- ev I16k s [(1,0)]%nat)) (* line 92 *)
    | 3%nat => ok (wrap I16k (- ev I16k s [(1,1); (2,0)]%nat)) (* line 94 *)
    | 4%nat => ok (wrap I16k (- ev I16k s [(1,2); (2,1); (3,0)]%nat)) (* line 96 *)
    | 5%nat => ok (wrap I16k (- ev I16k s [(1,3); (2,2); (3,1); (4,0)]%nat)) (* line 98 *)
    | 6%nat => (* line 99: can overflow *)
        let n := wrap I16k (- ev I16k s [(1,4); (2,3); (3,2); (4,1); (5,0)]%nat) in
        if n >? 0 then ovf else ok n
    | _ => ovf
    end
  else
    match length s with
    | 1%nat => ok (ev I16k s [(0,0)]%nat) (* line 109 *)
    | 2%nat => ok (ev I16k s [(0,1); (1,0)]%nat) (* line 111 *)
    | 3%nat => ok (ev I16k s [(0,2); (1,1); (2,0)]%nat) (* line 113 *)
    | 4%nat => ok (ev I16k s [(0,3); (1,2); (2,1); (3,0)]%nat) (* line 115 *)
    | 5%nat => (* line 116: can overflow *)
        let n := ev I16k s [(0,4); (1,3); (2,2); (3,1); (4,0)]%nat in
        if n <? 0 then ovf else ok n
    | _ => ovf
    end
  end.

(** atoi.go:182-273 [I32]; [s[0]] panics on empty input. *)
Definition I32 (s : bytes) : option (Z * bool) :=
  match s with
  | [] => None
  | c0 :: _ =>
  if c0 =? 45 then
    match length s with
    | 2%nat => ok (wrap I32k (- ev I32k s [(1,0)]%nat)) (* line 187 *)
    | 3%nat => ok (wrap I32k (- ev I32k s [(1,1); (2,0)]%nat)) (* line 189 *)
    | 4%nat => ok (wrap I32k (- ev I32k s [(1,2); (2,1); (3,0)]%nat)) (* line 191 *)
    | 5%nat => ok (wrap I32k (- ev I32k s [(1,3); (2,2); (3,1); (4,0)]%nat)) (* line 193 *)
    | 6%nat => ok (wrap I32k (- ev I32k s [(1,4); (2,3); (3,2); (4,1); (5,0)]%nat)) (* line 195 *)
    | 7%nat => ok (wrap I32k (- ev I32k s [(1,5); (2,4); (3,3); (4,2); (5,1); (6,0)]%nat)) (* line 199 *)
    | 8%nat => ok (wrap I32k (- ev I32k s [(1,6); (2,5); (3,4); (4,3); (5,2); (6,1); (7,0)]%nat)) (* line 204 *)
    | 9%nat => ok (wrap I32k (- ev I32k s [(1,7); (2,6); (3,5); (4,4); (5,3); (6,2); (7,1); (8,0)]%nat)) (* line 209 *)
    | 10%nat => ok (wrap I32k (- ev I32k s [(1,8); (2,7); (3,6); (4,5); (5,4); (6,3); (7,2); (8,1); (9,0)]%nat)) (* line 215 *)
    | 11%nat => (* line 216: can overflow *)
        let n := wrap I32k (- ev I32k s [(1,9); (2,8); (3,7); (4,6); (5,5); (6,4); (7,3); (8,2); (9,1); (10,0)]%nat) in
        if n >? 0 then ovf else ok n
    | _ => ovf
    end
  else
    match length s with
    | 1%nat => ok (ev I32k s [(0,0)]%nat) (* line 231 *)
    | 2%nat => ok (ev I32k s [(0,1); (1,0)]%nat) (* line 233 *)
    | 3%nat => ok (ev I32k s [(0,2); (1,1); (2,0)]%nat) (* line 235 *)
    | 4%nat => ok (ev I32k s [(0,3); (1,2); (2,1); (3,0)]%nat) (* line 237 *)
    | 5%nat => ok (ev I32k s [(0,4); (1,3); (2,2); (3,1); (4,0)]%nat) (* line 239 *)
    | 6%nat => ok (ev I32k s [(0,5); (1,4); (2,3); (3,2); (4,1); (5,0)]%nat) (* line 243 *)
    | 7%nat => ok (ev I32k s [(0,6); (1,5); (2,4); (3,3); (4,2); (5,1); (6,0)]%nat) (* line 248 *)
    | 8%nat => ok (ev I32k s [(0,7); (1,6); (2,5); (3,4); (4,3); (5,2); (6,1); (7,0)]%nat) (* line 253 *)
    | 9%nat => ok (ev I32k s [(0,8); (1,7); (2,6); (3,5); (4,4); (5,3); (6,2); (7,1); (8,0)]%nat) (* line 259 *)
    | 10%nat => (* line 260: can overflow *)
        let n := ev I32k s [(0,9); (1,8); (2,7); (3,6); (4,5); (5,4); (6,3); (7,2); (8,1); (9,0)]%nat in
        if n <? 0 then ovf else ok n
    | _ => ovf
    end
  end.

(** atoi.go:423-675 [I64]; [s[0]] panics on empty input. *)
Definition I64 (s : bytes) : option (Z * bool) :=
  match s with
  | [] => None
  | c0 :: _ =>
  if c0 =? 45 then
    match length s with
    | 2%nat => ok (wrap I64k (- ev I64k s [(1,0)]%nat)) (* line 428 *)
    | 3%nat => ok (wrap I64k (- ev I64k s [(1,1); (2,0)]%nat)) (* line 430 *)
    | 4%nat => ok (wrap I64k (- ev I64k s [(1,2); (2,1); (3,0)]%nat)) (* line 433 *)
    | 5%nat => ok (wrap I64k (- ev I64k s [(1,3); (2,2); (3,1); (4,0)]%nat)) (* line 436 *)
    | 6%nat => ok (wrap I64k (- ev I64k s [(1,4); (2,3); (3,2); (4,1); (5,0)]%nat)) (* line 440 *)
    | 7%nat => ok (wrap I64k (- ev I64k s [(1,5); (2,4); (3,3); (4,2); (5,1); (6,0)]%nat)) (* line 444 *)
    | 8%nat => ok (wrap I64k (- ev I64k s [(1,6); (2,5); (3,4); (4,3); (5,2); (6,1); (7,0)]%nat)) (* line 449 *)
    | 9%nat => ok (wrap I64k (- ev I64k s [(1,7); (2,6); (3,5); (4,4); (5,3); (6,2); (7,1); (8,0)]%nat)) (* line 454 *)
    | 10%nat => ok (wrap I64k (- ev I64k s [(1,8); (2,7); (3,6); (4,5); (5,4); (6,3); (7,2); (8,1); (9,0)]%nat)) (* line 460 *)
    | 11%nat => ok (wrap I64k (- ev I64k s [(1,9); (2,8); (3,7); (4,6); (5,5); (6,4); (7,3); (8,2); (9,1); (10,0)]%nat)) (* line 466 *)
    | 12%nat => ok (wrap I64k (- ev I64k s [(1,10); (2,9); (3,8); (4,7); (5,6); (6,5); (7,4); (8,3); (9,2); (10,1); (11,0)]%nat)) (* line 473 *)
    | 13%nat => ok (wrap I64k (- ev I64k s [(1,11); (2,10); (3,9); (4,8); (5,7); (6,6); (7,5); (8,4); (9,3); (10,2); (11,1); (12,0)]%nat)) (* line 480 *)
    | 14%nat => ok (wrap I64k (- ev I64k s [(1,12); (2,11); (3,10); (4,9); (5,8); (6,7); (7,6); (8,5); (9,4); (10,3); (11,2); (12,1); (13,0)]%nat)) (* line 488 *)
    | 15%nat => ok (wrap I64k (- ev I64k s [(1,13); (2,12); (3,11); (4,10); (5,9); (6,8); (7,7); (8,6); (9,5); (10,4); (11,3); (12,2); (13,1); (14,0)]%nat)) (* line 496 *)
    | 16%nat => ok (wrap I64k (- ev I64k s [(1,14); (2,13); (3,12); (4,11); (5,10); (6,9); (7,8); (8,7); (9,6); (10,5); (11,4); (12,3); (13,2); (14,1); (15,0)]%nat)) (* line 505 *)
    | 17%nat => ok (wrap I64k (- ev I64k s [(1,15); (2,14); (3,13); (4,12); (5,11); (6,10); (7,9); (8,8); (9,7); (10,6); (11,5); (12,4); (13,3); (14,2); (15,1); (16,0)]%nat)) (* line 514 *)
    | 18%nat => ok (wrap I64k (- ev I64k s [(1,16); (2,15); (3,14); (4,13); (5,12); (6,11); (7,10); (8,9); (9,8); (10,7); (11,6); (12,5); (13,4); (14,3); (15,2); (16,1); (17,0)]%nat)) (* line 524 *)
    | 19%nat => ok (wrap I64k (- ev I64k s [(1,17); (2,16); (3,15); (4,14); (5,13); (6,12); (7,11); (8,10); (9,9); (10,8); (11,7); (12,6); (13,5); (14,4); (15,3); (16,2); (17,1); (18,0)]%nat)) (* line 534 *)
    | 20%nat => (* line 535: can overflow *)
        let n := wrap I64k (- ev I64k s [(1,18); (2,17); (3,16); (4,15); (5,14); (6,13); (7,12); (8,11); (9,10); (10,9); (11,8); (12,7); (13,6); (14,5); (15,4); (16,3); (17,2); (18,1); (19,0)]%nat) in
        if n >? 0 then ovf else ok n
    | _ => ovf
    end
  else
    match length s with
    | 1%nat => ok (ev I64k s [(0,0)]%nat) (* line 550 *)
    | 2%nat => ok (ev I64k s [(0,1); (1,0)]%nat) (* line 552 *)
    | 3%nat => ok (ev I64k s [(0,2); (1,1); (2,0)]%nat) (* line 555 *)
    | 4%nat => ok (ev I64k s [(0,3); (1,2); (2,1); (3,0)]%nat) (* line 558 *)
    | 5%nat => ok (ev I64k s [(0,4); (1,3); (2,2); (3,1); (4,0)]%nat) (* line 562 *)
    | 6%nat => ok (ev I64k s [(0,5); (1,4); (2,3); (3,2); (4,1); (5,0)]%nat) (* line 566 *)
    | 7%nat => ok (ev I64k s [(0,6); (1,5); (2,4); (3,3); (4,2); (5,1); (6,0)]%nat) (* line 571 *)
    | 8%nat => ok (ev I64k s [(0,7); (1,6); (2,5); (3,4); (4,3); (5,2); (6,1); (7,0)]%nat) (* line 576 *)
    | 9%nat => ok (ev I64k s [(0,8); (1,7); (2,6); (3,5); (4,4); (5,3); (6,2); (7,1); (8,0)]%nat) (* line 582 *)
    | 10%nat => ok (ev I64k s [(0,9); (1,8); (2,7); (3,6); (4,5); (5,4); (6,3); (7,2); (8,1); (9,0)]%nat) (* line 588 *)
    | 11%nat => ok (ev I64k s [(0,10); (1,9); (2,8); (3,7); (4,6); (5,5); (6,4); (7,3); (8,2); (9,1); (10,0)]%nat) (* line 595 *)
    | 12%nat => ok (ev I64k s [(0,11); (1,10); (2,9); (3,8); (4,7); (5,6); (6,5); (7,4); (8,3); (9,2); (10,1); (11,0)]%nat) (* line 602 *)
    | 13%nat => ok (ev I64k s [(0,12); (1,11); (2,10); (3,9); (4,8); (5,7); (6,6); (7,5); (8,4); (9,3); (10,2); (11,1); (12,0)]%nat) (* line 610 *)
    | 14%nat => ok (ev I64k s [(0,13); (1,12); (2,11); (3,10); (4,9); (5,8); (6,7); (7,6); (8,5); (9,4); (10,3); (11,2); (12,1); (13,0)]%nat) (* line 618 *)
    | 15%nat => ok (ev I64k s [(0,14); (1,13); (2,12); (3,11); (4,10); (5,9); (6,8); (7,7); (8,6); (9,5); (10,4); (11,3); (12,2); (13,1); (14,0)]%nat) (* line 627 *)
    | 16%nat => ok (ev I64k s [(0,15); (1,14); (2,13); (3,12); (4,11); (5,10); (6,9); (7,8); (8,7); (9,6); (10,5); (11,4); (12,3); (13,2); (14,1); (15,0)]%nat) (* line 636 *)
    | 17%nat => ok (ev I64k s [(0,16); (1,15); (2,14); (3,13); (4,12); (5,11); (6,10); (7,9); (8,8); (9,7); (10,6); (11,5); (12,4); (13,3); (14,2); (15,1); (16,0)]%nat) (* line 646 *)
    | 18%nat => ok (ev I64k s [(0,17); (1,16); (2,15); (3,14); (4,13); (5,12); (6,11); (7,10); (8,9); (9,8); (10,7); (11,6); (12,5); (13,4); (14,3); (15,2); (16,1); (17,0)]%nat) (* line 656 *)
    | 19%nat => (* line 657: can overflow *)
        let n := ev I64k s [(0,18); (1,17); (2,16); (3,15); (4,14); (5,13); (6,12); (7,11); (8,10); (9,9); (10,8); (11,7); (12,6); (13,5); (14,4); (15,3); (16,2); (17,1); (18,0)]%nat in
        if n <? 0 then ovf else ok n
    | _ => ovf
    end
  end.

(* Model of the memory accesses of the hash function behind the cardinality sketches:
   /repo/src/mlio-py/mlio/contrib/insights/hll/xxhash.c.
   Model_insights has the hash as a function of the bytes of a string.  Here it is the program
   that walks over the memory of the string, on any machine.
   The paths below are relative to /repo/src/mlio-py/mlio/contrib/insights. *)
From Verif Require Import Common Model_insights.
Import List.
Local Open Scope N_scope.

(* hll/xxhash.c:81-109 and 243-265: what the code depends on: the byte order of the machine,
   XXH_REROLL, XXH_FORCE_ALIGN_CHECK and the address of the string. *)
Record machine := { m_little : bool; m_reroll : bool; m_check : bool; m_address : N }.

(* hll/xxhash.c:201-239 and 435: a pointer is its offset from the beginning of the string.
   Reading a byte outside the string is undefined. *)
Definition read8 (buf : list byte) (p : N) : res N :=
  match nth_error buf (N.to_nat p) with Some c => Ok c | None => UB end.

(* hll/xxhash.c:231-238 XXH_read32: four bytes in the order of the machine.  The two other
   versions (lines 204-225) read the same bytes. *)
Definition read32 (m : machine) (buf : list byte) (p : N) : res N :=
  let* a := read8 buf p in
  let* b := read8 buf (p + 1) in
  let* c := read8 buf (p + 2) in
  let* d := read8 buf (p + 3) in
  Ok (if m_little m then get32 a b c d else get32 d c b a).

(* hll/xxhash.c:298-303 XXH_swap32 *)
Definition swap32 (x : N) : N :=
  N.lor (N.lor (N.land (w32 (N.shiftl x 24)) 4278190080) (N.land (w32 (N.shiftl x 8)) 16711680))
        (N.lor (N.land (N.shiftr x 8) 65280) (N.land (N.shiftr x 24) 255)).

(* hll/xxhash.c:309 XXH_alignment *)
Inductive alignment := Aligned | Unaligned.

(* hll/xxhash.c:311-316 XXH_readLE32 *)
Definition read_le32 (m : machine) (buf : list byte) (p : N) : res N :=
  let* x := read32 m buf p in Ok (if m_little m then x else swap32 x).

(* hll/xxhash.c:325-335 XXH_readLE32_align.  Reading a word through a pointer that is not
   aligned is undefined. *)
Definition read_le32_align (m : machine) (al : alignment) (buf : list byte) (p : N) : res N :=
  match al with
  | Unaligned => read_le32 m buf p
  | Aligned =>
      if (m_address m + p) mod 4 =? 0
      then (let* x := read32 m buf p in Ok (if m_little m then x else swap32 x))
      else UB
  end.

(* The variables h32 and ptr of hll/xxhash.c:432. *)
Definition cursor := (N * N)%type.

(* hll/xxhash.c:434-436 PROCESS1 *)
Definition process1 (buf : list byte) (s : cursor) : res cursor :=
  let '(h, p) := s in
  let* a := read8 buf p in
  Ok (w32 (rotl32 (w32 (h + a * prime5)) 11 * prime1), p + 1).

(* hll/xxhash.c:438-441 PROCESS4 *)
Definition process4 (m : machine) (al : alignment) (buf : list byte) (s : cursor) : res cursor :=
  let '(h, p) := s in
  let* x := read_le32_align m al buf p in
  Ok (w32 (rotl32 (w32 (h + x * prime3)) 17 * prime4), p + 4).

(* hll/xxhash.c:444-455: the two loops of the compact version.  [n] bounds the iterations. *)
Fixpoint loop4 (n : nat) (m : machine) (al : alignment) (buf : list byte) (s : cursor) (len : N) : res (cursor * N) :=
  if 4 <=? len then
    match n with
    | O => Fuel
    | S n => let* s := process4 m al buf s in loop4 n m al buf s (len - 4)
    end
  else Ok (s, len).
Fixpoint loop1 (n : nat) (buf : list byte) (s : cursor) (len : N) : res cursor :=
  if 0 <? len then
    match n with
    | O => Fuel
    | S n => let* s := process1 buf s in loop1 n buf s (len - 1)
    end
  else Ok s.
Definition compact (m : machine) (al : alignment) (buf : list byte) (s : cursor) (len : N) : res N :=
  let* r := loop4 4 m al buf s (N.land len 15) in
  let* s := loop1 4 buf (fst r) (snd r) in
  Ok (xxh_avalanche (fst s)).

(* hll/xxhash.c:457-511: the jump table, with its cases that fall through. *)
Section Table.
  Context (m : machine) (al : alignment) (buf : list byte).
  (* hll/xxhash.c:466, 477, 489, 510: return XXH32_avalanche(h32) *)
  Definition finish (s : cursor) : res N := Ok (xxh_avalanche (fst s)).
  (* PROCESS4 and PROCESS1, then what follows. *)
  Definition four (k : cursor -> res N) (s : cursor) : res N := let* s := process4 m al buf s in k s.
  Definition one (k : cursor -> res N) (s : cursor) : res N := let* s := process1 buf s in k s.
  (* hll/xxhash.c:458-466 *)
  Definition case4 := four finish.
  Definition case8 := four case4.
  Definition case12 := four case8.
  (* hll/xxhash.c:468-477 *)
  Definition case5 := four (one finish).
  Definition case9 := four case5.
  Definition case13 := four case9.
  (* hll/xxhash.c:479-489 *)
  Definition case6 := four (one (one finish)).
  Definition case10 := four case6.
  Definition case14 := four case10.
  (* hll/xxhash.c:491-510 *)
  Definition case0 := finish.
  Definition case1 := one case0.
  Definition case2 := one case1.
  Definition case3 := one case2.
  Definition case7 := four case3.
  Definition case11 := four case7.
  Definition case15 := four case11.
  (* hll/xxhash.c:457 *)
  Definition table (s : cursor) (len : N) : res N :=
    (match N.to_nat (N.land len 15) with
     | 0 => case0 | 1 => case1 | 2 => case2 | 3 => case3 | 4 => case4 | 5 => case5
     | 6 => case6 | 7 => case7 | 8 => case8 | 9 => case9 | 10 => case10 | 11 => case11
     | 12 => case12 | 13 => case13 | 14 => case14 | _ => case15
     end%nat) s.
End Table.

(* hll/xxhash.c:431-515 XXH32_finalize *)
Definition finalize (m : machine) (al : alignment) (buf : list byte) (s : cursor) (len : N) : res N :=
  if m_reroll m then compact m al buf s len else table m al buf s len.

(* hll/xxhash.c:541-550: the loop over the blocks of 16 bytes: the four lanes and the pointer.
   [n] bounds the iterations.  The comparison of the pointer with the limit, bEnd - 15, is one
   of the offsets. *)
Definition lanes := (N * N * N * N)%type.
Fixpoint blocks (n : nat) (m : machine) (al : alignment) (buf : list byte) (limit : N) (v : lanes) (p : N)
  : res (lanes * N) :=
  match n with
  | O => Fuel
  | S n =>
      let '(v1, v2, v3, v4) := v in
      let* x1 := read_le32_align m al buf p in
      let* x2 := read_le32_align m al buf (p + 4) in
      let* x3 := read_le32_align m al buf (p + 8) in
      let* x4 := read_le32_align m al buf (p + 12) in
      let v := (xxh_round v1 x1, xxh_round v2 x2, xxh_round v3 x3, xxh_round v4 x4) in
      if p + 16 <? limit then blocks n m al buf limit v (p + 16) else Ok (v, p + 16)
  end.

(* hll/xxhash.c:517-562 XXH32_endian_align, without the lines that accept a null pointer,
   which are switched off (line 78).  size_t has 64 bits; (xxh_u32) len keeps 32 of them. *)
Definition endian_align (m : machine) (al : alignment) (buf : list byte) (seed : N) : res N :=
  let len := N.of_nat (length buf) in
  let* s :=
    if 16 <=? len then
      let limit := len - 15 in
      let v := (w32 (seed + prime1 + prime2), w32 (seed + prime2), w32 (seed + 0),
                w32 (seed + 4294967296 - prime1)) in
      let* r := blocks (length buf) m al buf limit v 0 in
      let '((v1, v2, v3, v4), p) := r in
      Ok (w32 (rotl32 v1 1 + rotl32 v2 7 + rotl32 v3 12 + rotl32 v4 18), p)
    else Ok (w32 (seed + prime5), 0) in
  finalize m al buf (w32 (fst s + w32 len), snd s) (N.land len 15).

(* hll/xxhash.c:564-587 XXH32 *)
Definition hash32 (m : machine) (buf : list byte) (seed : N) : res N :=
  if m_check m then
    if N.land (m_address m) 3 =? 0 then endian_align m Aligned buf seed
    else endian_align m Unaligned buf seed
  else endian_align m Unaligned buf seed.

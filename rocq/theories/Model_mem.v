(* Slices of memory blocks, and memory blocks that can be resized. *)
From Verif Require Import Common Model_strm.

(* ---------------- Slices ---------------- *)

Local Open Scope Z_scope.

(* include/mlio/memory/memory_slice.h:184-186 and memory_block.h:36-39.  Pointers are addresses; arithmetic on them wraps
   at 2^64 (that the language leaves pointers outside their block undefined is ignored). *)
Record slice := mk_slice { sl_beg : Z; sl_end : Z }.

Definition ptr_add (p d : Z) : Z := (p + d) mod 2 ^ 64.

(* include/mlio/memory/memory_slice.h:42-48: the slice of a whole block of n bytes at address [base]. *)
Definition whole (base : Z) (n : nat) : slice := mk_slice base (base + Z.of_nat n).

(* src/mlio/memory/memory_slice.cc:23-32 validate_range and memory_slice.h:119-139 subslice *)
Definition sl_range (s : slice) (first last : Z) : res slice :=
  if first >? last then Throw Invalid_argument
  else if (first <? sl_beg s) || (last >? sl_end s) then Throw Invalid_argument
  else Ok (mk_slice first last).

(* The operations.  Those on rvalues (memory_slice.h:94-97, 104-107, 114-117, 131-139, 146-149, 156-159, 166-169, 176-179)
   compute the same and keep the slice when they throw. *)
Inductive slop :=
| Sl_from (offset : N)                 (* 89-92 *)
| Sl_part (offset count : N)           (* 99-102 *)
| Sl_from_it (first : Z)               (* 109-112 *)
| Sl_range (first last : Z)            (* 119-129 *)
| Sl_first (count : N)                 (* 141-144 *)
| Sl_first_it (to : Z)                 (* 151-154 *)
| Sl_last (count : N)                  (* 161-164 *)
| Sl_last_it (from : Z).               (* 171-174 *)

Definition sl_step (s : slice) (o : slop) : res slice :=
  match o with
  | Sl_from offset => sl_range s (ptr_add (sl_beg s) (as_ssize offset)) (sl_end s)
  | Sl_part offset count =>
    sl_range s (ptr_add (sl_beg s) (as_ssize offset)) (ptr_add (sl_beg s) (as_ssize ((offset + count) mod 2 ^ 64)%N))
  | Sl_from_it first => sl_range s first (sl_end s)
  | Sl_range first last => sl_range s first last
  | Sl_first count => sl_range s (sl_beg s) (ptr_add (sl_beg s) (as_ssize count))
  | Sl_first_it to => sl_range s (sl_beg s) to
  | Sl_last count => sl_range s (ptr_add (sl_end s) (- as_ssize count)) (sl_end s)
  | Sl_last_it from => sl_range s from (sl_end s)
  end.

Fixpoint sl_run (s : slice) (ops : list slop) : res slice :=
  match ops with
  | [] => Ok s
  | o :: t => let* s1 := sl_step s o in sl_run s1 t
  end.

(* The bytes a slice of the block at [base] shows; reading outside the block is undefined.
   memory_slice.h:79-82 size: end - begin. *)
Definition sl_bytes (base : Z) (block : list byte) (s : slice) : res (list byte) :=
  if (sl_beg s <? base) || (sl_end s >? base + Z.of_nat (length block)) || (sl_end s <? sl_beg s) then UB
  else Ok (firstn (Z.to_nat (sl_end s - sl_beg s)) (skipn (Z.to_nat (sl_beg s - base)) block)).

(* ---------------- Blocks ---------------- *)

Local Close Scope Z_scope.
Local Open Scope nat_scope.

(* Content of n bytes: what is given, continued with zeros. *)
Definition fill (n : nat) (l : list byte) : list byte := firstn n (l ++ repeat 0%N n).

(* src/mlio/memory/heap_memory_block.cc:27-34 and 59-71: ::realloc keeps the common part; what follows is whatever was
   there ([junk]).  When it fails std::bad_alloc leaves the block as it is. *)
Definition heap_resize (data : list byte) (n : nat) (fails : bool) (junk : list byte) : res (list byte) :=
  if n =? 0 then Ok []
  else if fails then Throw Other_err
  else Ok (firstn n data ++ fill (n - length data) junk).

(* src/mlio/memory/file_backed_memory_block.cc: the temporary file and the size the block reports.  The mapping shows the
   file; what it shows beyond the end of the file is lost. *)
Record fblock := mk_fb { fb_file : list byte; fb_size : nat }.

(* 32-42 and 51-64 *)
Definition fb_make (n : nat) (fails : bool) : res fblock :=
  if fails then Throw System_err else Ok (mk_fb (fill n []) n).

(* 66-120 resize (Linux); ftruncate keeps the common part and continues with zeros.  [ftrunc] and [map] tell whether
   ::ftruncate and ::mmap or ::mremap fail.  Also returns the block after an exception. *)
Definition fb_resize (b : fblock) (n : nat) (ftrunc map : bool) : res unit * fblock :=
  if n =? fb_size b then (Ok tt, b)
  else if ftrunc then (Throw System_err, b)
  else
    let file := firstn n (fb_file b) ++ fill (n - length (fb_file b)) [] in
    if n =? 0 then (Ok tt, mk_fb file 0)
    else if map then (Throw System_err, mk_fb file (fb_size b))
    else (Ok tt, mk_fb file n).

(* The kinds of blocks an allocator returns.  src/mlio/memory/file_backed_memory_allocator.cc:62-64: a hybrid block is
   the one or the other inside. *)
Inductive block :=
| B_heap (data : list byte)
| B_file (f : fblock)
| B_hybrid_heap (data : list byte) (threshold : nat)
| B_hybrid_file (f : fblock) (threshold : nat).

(* What the system does during one call. *)
Record env := mk_env { e_alloc_fails : bool; e_junk : list byte; e_ftrunc_fails : bool; e_map_fails : bool }.

(* src/mlio/memory/file_backed_memory_allocator.cc:73-97 Hybrid_memory_block::resize.  Copying the old content to a block
   that is smaller writes outside of it. *)
Definition b_resize (b : block) (n : nat) (e : env) : res unit * block :=
  match b with
  | B_heap data =>
    match heap_resize data n (e_alloc_fails e) (e_junk e) with
    | Ok data' => (Ok tt, B_heap data')
    | Throw x => (Throw x, b)
    | UB => (UB, b)
    | Fuel => (Fuel, b)
    end
  | B_file f => let (r, f') := fb_resize f n (e_ftrunc_fails e) (e_map_fails e) in (r, B_file f')
  | B_hybrid_heap data threshold =>
    if threshold <? length data then
      match fb_make n (e_map_fails e) with
      | Ok f =>
        if n <? length data then (UB, b)
        else (Ok tt, B_hybrid_file (mk_fb (data ++ skipn (length data) (fb_file f)) (fb_size f)) threshold)
      | Throw x => (Throw x, b)
      | UB => (UB, b)
      | Fuel => (Fuel, b)
      end
    else
      match heap_resize data n (e_alloc_fails e) (e_junk e) with
      | Ok data' => (Ok tt, B_hybrid_heap data' threshold)
      | Throw x => (Throw x, b)
      | UB => (UB, b)
      | Fuel => (Fuel, b)
      end
  | B_hybrid_file f threshold => let (r, f') := fb_resize f n (e_ftrunc_fails e) (e_map_fails e) in (r, B_hybrid_file f' threshold)
  end.

(* heap_memory_allocator.cc:24-27 and file_backed_memory_allocator.cc:119-133; what a new heap block holds is arbitrary. *)
Inductive alloc := A_heap | A_file_backed (threshold : nat).
Definition b_allocate (a : alloc) (n : nat) (e : env) : res block :=
  match a with
  | A_heap => rmap B_heap (heap_resize [] n (e_alloc_fails e) (e_junk e))
  | A_file_backed threshold =>
    if threshold <? n then rmap B_file (fb_make n (e_map_fails e))
    else rmap (fun d => B_hybrid_heap d threshold) (heap_resize [] n (e_alloc_fails e) (e_junk e))
  end.

(* What a program sees of a block: its bytes. *)
Definition fb_bytes (f : fblock) : res (list byte) :=
  if length (fb_file f) <? fb_size f then UB else Ok (firstn (fb_size f) (fb_file f)).
Definition b_bytes (b : block) : res (list byte) :=
  match b with
  | B_heap data | B_hybrid_heap data _ => Ok data
  | B_file f | B_hybrid_file f _ => fb_bytes f
  end.

(* Writing a byte through data(). *)
Fixpoint upd_byte (n : nat) (x : byte) (l : list byte) : list byte :=
  match n, l with
  | _, [] => []
  | O, _ :: t => x :: t
  | S n', h :: t => h :: upd_byte n' x t
  end.
Definition b_write (b : block) (i : nat) (x : byte) : res unit * block :=
  match b_bytes b with
  | Ok data =>
    if i <? length data then
      (Ok tt, match b with
              | B_heap d => B_heap (upd_byte i x d)
              | B_hybrid_heap d t => B_hybrid_heap (upd_byte i x d) t
              | B_file f => B_file (mk_fb (upd_byte i x (fb_file f)) (fb_size f))
              | B_hybrid_file f t => B_hybrid_file (mk_fb (upd_byte i x (fb_file f)) (fb_size f)) t
              end)
    else (UB, b)
  | _ => (UB, b)
  end.

Inductive bop := Bo_resize (n : nat) (e : env) | Bo_write (i : nat) (x : byte).
Definition b_step (b : block) (o : bop) : res unit * block :=
  match o with Bo_resize n e => b_resize b n e | Bo_write i x => b_write b i x end.

(* A history: what every operation answers, and what is in the block after it. *)
Fixpoint b_run (b : block) (ops : list bop) : list (res unit * res (list byte)) :=
  match ops with
  | [] => []
  | o :: t => let (r, b1) := b_step b o in (r, b_bytes b1) :: b_run b1 t
  end.

(* src/mlio/memory/util.cc:27-45 resize_memory_block; a block that cannot be resized is only seen as its bytes. *)
Definition resize_block (old : block + list byte) (a : alloc) (n : nat) (e : env) : res block :=
  match old with
  | inl b => match b_resize b n e with (Ok _, b') => Ok b' | (Throw x, _) => Throw x | (UB, _) => UB | (Fuel, _) => Fuel end
  | inr bytes =>
    let* nb := b_allocate a n e in
    let* content := b_bytes nb in
    let c := Nat.min n (length bytes) in
    if length content <? c then UB
    else
      let content' := firstn c bytes ++ skipn c content in
      Ok (match nb with
          | B_heap _ => B_heap content'
          | B_hybrid_heap _ t => B_hybrid_heap content' t
          | B_file f => B_file (mk_fb (content' ++ skipn (fb_size f) (fb_file f)) (fb_size f))
          | B_hybrid_file f t => B_hybrid_file (mk_fb (content' ++ skipn (fb_size f) (fb_file f)) (fb_size f)) t
          end)
  end.

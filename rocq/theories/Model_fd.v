(* Descriptors, mappings and temporary files: who holds them and when they are given back. *)
From Verif Require Import Common.
From Coq Require Import ZArith.
Local Open Scope nat_scope.

(* The kernel's side.  [k_mine]: the descriptors MLIO's calls of open(2) and mkstemp(3) gave and close(2) has not taken back;
   [k_others]: those of the rest of the program, which runs in other threads; a new descriptor is any number that is not in use.  [k_maps]: MLIO's
   mappings, address and length.  [k_names]: the temporary files that have a name in /tmp.  [k_faults] counts calls of close(2) for a number that
   is not MLIO's, and of munmap(2) and mremap(2) for something that is not one of its mappings. *)
Record kernel := mk_kernel {
  k_mine : list nat; k_others : list nat; k_maps : list (nat * nat); k_names : list nat; k_faults : nat }.
Definition boot : kernel := mk_kernel [] [] [] [] 0.

Definition has (n : nat) (l : list nat) : bool := existsb (Nat.eqb n) l.
Fixpoint take (n : nat) (l : list nat) : list nat :=
  match l with [] => [] | m :: r => if m =? n then r else m :: take n r end.
Definition map_eqb (a b : nat * nat) : bool := (fst a =? fst b) && (snd a =? snd b).
Definition has_map (m : nat * nat) (l : list (nat * nat)) : bool := existsb (map_eqb m) l.
Fixpoint take_map (m : nat * nat) (l : list (nat * nat)) : list (nat * nat) :=
  match l with [] => [] | x :: r => if map_eqb x m then r else x :: take_map m r end.

(* What the other threads of the program do. *)
Inductive other := O_open (n : nat) | O_close (n : nat).
Definition k_other (k : kernel) (o : other) : kernel :=
  match o with
  | O_open n => if has n (k_mine k) || has n (k_others k) then k else mk_kernel (k_mine k) (n :: k_others k) (k_maps k) (k_names k) (k_faults k)
  | O_close n => mk_kernel (k_mine k) (take n (k_others k)) (k_maps k) (k_names k) (k_faults k)
  end.

(* The answer of a system call, and what the other threads do just before: None is a failure.  An answer the kernel cannot give, such as
   a descriptor in use, counts as a failure. *)
Record answer := mk_answer { a_before : list other; a_value : option nat }.
Definition before (a : answer) (k : kernel) : kernel := fold_left k_other (a_before a) k.

Definition sys_open (a : answer) (k0 : kernel) : Z * kernel :=
  let k := before a k0 in
  match a_value a with
  | Some n => if has n (k_mine k) || has n (k_others k) then (-1, k)%Z
              else (Z.of_nat n, mk_kernel (n :: k_mine k) (k_others k) (k_maps k) (k_names k) (k_faults k))
  | None => (-1, k)%Z
  end.
Definition sys_close (fd : Z) (k : kernel) : kernel :=
  let n := Z.to_nat fd in
  if (0 <=? fd)%Z && has n (k_mine k) then mk_kernel (take n (k_mine k)) (k_others k) (k_maps k) (k_names k) (k_faults k)
  else mk_kernel (k_mine k) (take n (k_others k)) (k_maps k) (k_names k) (S (k_faults k)).
Definition sys_mkstemp (a : answer) (name : nat) (k0 : kernel) : Z * kernel :=
  let (fd, k) := sys_open a k0 in
  if (fd =? -1)%Z then (fd, k) else (fd, mk_kernel (k_mine k) (k_others k) (k_maps k) (name :: k_names k) (k_faults k)).
Definition sys_unlink (a : answer) (name : nat) (k0 : kernel) : kernel :=
  let k := before a k0 in
  match a_value a with
  | Some _ => mk_kernel (k_mine k) (k_others k) (k_maps k) (take name (k_names k)) (k_faults k)
  | None => k
  end.
(* Calls that change nothing here: fstat, ftruncate, select. *)
Definition sys_ask (a : answer) (k : kernel) : option nat * kernel := (a_value a, before a k).
(* mmap(2) never gives the address 0 here; two mappings have different addresses. *)
Definition sys_mmap (a : answer) (size : nat) (k0 : kernel) : option nat * kernel :=
  let k := before a k0 in
  match a_value a with
  | Some (S n) => if has (S n) (map fst (k_maps k)) then (None, k)
                  else (Some (S n), mk_kernel (k_mine k) (k_others k) ((S n, size) :: k_maps k) (k_names k) (k_faults k))
  | _ => (None, k)
  end.
Definition sys_munmap (data size : nat) (k : kernel) : kernel :=
  if has_map (data, size) (k_maps k) then mk_kernel (k_mine k) (k_others k) (take_map (data, size) (k_maps k)) (k_names k) (k_faults k)
  else mk_kernel (k_mine k) (k_others k) (k_maps k) (k_names k) (S (k_faults k)).
Definition sys_mremap (a : answer) (data old new : nat) (k0 : kernel) : option nat * kernel :=
  let k := before a k0 in
  if has_map (data, old) (k_maps k) then
    let rest := take_map (data, old) (k_maps k) in
    match a_value a with
    | Some (S n) => if has (S n) (map fst rest) then (None, k)
                    else (Some (S n), mk_kernel (k_mine k) (k_others k) ((S n, new) :: rest) (k_names k) (k_faults k))
    | _ => (None, k)
    end
  else (None, mk_kernel (k_mine k) (k_others k) (k_maps k) (k_names k) (S (k_faults k))).

(* ---------------- include/mlio/detail/file_descriptor.h ---------------- *)

(* 71-80 close_fd: the new value of fd_ *)
Definition close_fd (fd : Z) (k : kernel) : Z * kernel :=
  if (fd =? -1)%Z then (fd, k) else ((-1)%Z, sys_close fd k).
(* 55-58 the destructor *)
Definition fd_destroy (fd : Z) (k : kernel) : kernel := snd (close_fd fd k).
(* 41-44 the move constructor: the new object and the other one *)
Definition fd_move (other : Z) : Z * Z := (other, (-1)%Z).
(* 46-53 the move assignment from another object, and from the object itself *)
Definition fd_assign (this other : Z) (k : kernel) : Z * Z * kernel :=
  let (_, k') := close_fd this k in (other, (-1)%Z, k').
Definition fd_assign_self (this : Z) (k : kernel) : Z * kernel :=
  let (fd, k') := close_fd this k in
  (* std::exchange(other.fd_, invalid_fd_) reads and writes the same member *)
  (fd, k').
(* fd_ = n and fd_ = {}: a temporary is made, moved from and destroyed. *)
Definition fd_set (this n : Z) (k : kernel) : Z * kernel :=
  let '(this', temporary, k') := fd_assign this n k in (this', fd_destroy temporary k').

(* A program with any number of these objects; [None]: destroyed. *)
Inductive fd_op :=
| F_default                      (* File_descriptor x{} *)
| F_open (a : answer)            (* File_descriptor x = ::open(...) *)
| F_move (i : nat)               (* File_descriptor x{std::move(i)} *)
| F_assign (i j : nat)           (* i = std::move(j) *)
| F_reset (i : nat)              (* i = {} *)
| F_destroy (i : nat)
| F_other (o : other).
Definition slots := list (option Z).
Fixpoint put {A} (l : list A) (i : nat) (x : A) : list A :=
  match l, i with [], _ => [] | _ :: r, O => x :: r | y :: r, S i' => y :: put r i' x end.
Definition at_slot {A} (l : list (option A)) (i : nat) : option A := match nth_error l i with Some (Some x) => Some x | _ => None end.

(* Operations on objects that do not exist are left out. *)
Definition fd_step (s : slots * kernel) (o : fd_op) : slots * kernel :=
  let (l, k) := s in
  match o with
  | F_default => (l ++ [Some (-1)%Z], k)
  | F_open a => let (fd, k') := sys_open a k in (l ++ [Some fd], k')
  | F_move i => match at_slot l i with Some fd => let (new, old) := fd_move fd in (put l i (Some old) ++ [Some new], k) | None => s end
  | F_assign i j =>
      match at_slot l i, at_slot l j with
      | Some x, Some y =>
          if i =? j then let (x', k') := fd_assign_self x k in (put l i (Some x'), k')
          else let '(x', y', k') := fd_assign x y k in (put (put l i (Some x')) j (Some y'), k')
      | _, _ => s
      end
  | F_reset i => match at_slot l i with Some x => let (x', k') := fd_set x (-1) k in (put l i (Some x'), k') | None => s end
  | F_destroy i => match at_slot l i with Some x => (put l i None, fd_destroy x k) | None => s end
  | F_other o => (l, k_other k o)
  end.
Definition fd_run (h : list fd_op) : slots * kernel := fold_left fd_step h ([], boot).

(* ---------------- the classes that use them ---------------- *)

(* [data]: None is the null pointer. *)
Inductive object :=
| Stream (fd : Z)                                        (* File_input_stream *)
| Pipe (fd : Z)                                          (* Sagemaker_pipe_input_stream *)
| Mapped (data : option nat) (size : nat)                (* File_mapped_memory_block *)
| Backed (fd : Z) (data : option nat) (size : nat).      (* File_backed_memory_block *)

(* src/mlio/streams/file_input_stream.cc:36-51.  posix_fadvise changes nothing here.  When the constructor throws the members
   are destroyed. *)
Definition new_stream (a : answer) (k : kernel) : res object * kernel :=
  let (n, k1) := sys_open a k in
  let (fd, k2) := fd_set (-1) n k1 in
  if (fd =? -1)%Z then (Throw System_err, fd_destroy fd k2) else (Ok (Stream fd), k2).

(* src/mlio/memory/file_mapped_memory_block.cc:37-75.  The local descriptor is destroyed at the end in any case. *)
Definition new_mapped (opened stat mapped : answer) (k : kernel) : res object * kernel :=
  let (fd, k1) := sys_open opened k in
  if (fd =? -1)%Z then (Throw System_err, fd_destroy fd k1)
  else
    match sys_ask stat k1 with
    | (None, k2) => (Throw System_err, fd_destroy fd k2)
    | (Some O, k2) => (Ok (Mapped None 0), fd_destroy fd k2)
    | (Some size, k2) =>
        match sys_mmap mapped size k2 with
        | (None, k3) => (Throw System_err, fd_destroy fd k3)
        | (Some p, k3) => (Ok (Mapped (Some p) size), fd_destroy fd k3)
        end
    end.

(* src/mlio/memory/file_backed_memory_block.cc:32-42 and 51-64; [name] is the name mkstemp chose. *)
Definition new_backed (name size : nat) (made truncated unlinked mapped : answer) (k : kernel) : res object * kernel :=
  let (n, k1) := sys_mkstemp made name k in
  let (fd, k2) := fd_set (-1) n k1 in
  if (fd =? -1)%Z then (Throw System_err, fd_destroy fd k2)
  else
    match sys_ask truncated k2 with
    | (None, k3) => (Throw System_err, fd_destroy fd k3)
    | (Some _, k3) =>
        let k4 := sys_unlink unlinked name k3 in
        if size =? 0 then (Ok (Backed fd None 0), k4)
        else
          match sys_mmap mapped size k4 with
          | (None, k5) => (Throw System_err, fd_destroy fd k5)
          | (Some p, k5) => (Ok (Backed fd (Some p) size), k5)
          end
    end.

(* 66-120 resize on Linux.  With size_ <> 0, data_ is not null. *)
Definition resize (fd : Z) (data : option nat) (size new : nat) (truncated mapped : answer) (k : kernel) : res unit * object * kernel :=
  let same := Backed fd data size in
  if new =? size then (Ok tt, same, k)
  else
    match sys_ask truncated k with
    | (None, k1) => (Throw System_err, same, k1)
    | (Some _, k1) =>
        if size =? 0 then
          match sys_mmap mapped new k1 with
          | (None, k2) => (Throw System_err, same, k2)
          | (Some p, k2) => (Ok tt, Backed fd (Some p) new, k2)
          end
        else
          match data with
          | None => (UB, same, k1)
          | Some p =>
              if new =? 0 then (Ok tt, Backed fd None 0, sys_munmap p size k1)
              else
                match sys_mremap mapped p size new k1 with
                | (None, k2) => (Throw System_err, same, k2)
                | (Some q, k2) => (Ok tt, Backed fd (Some q) new, k2)
                end
          end
    end.

(* src/mlio/streams/sagemaker_pipe_input_stream.cc:192-232 wait_for_data: an fd_set has room for the descriptors below 1024. *)
Definition wait_for_data (fd : Z) (ready : answer) (k : kernel) : res unit * kernel :=
  if (1024 <=? fd)%Z then (UB, k)
  else
    match sys_ask ready k with
    | (None, k1) | (Some O, k1) => (Throw System_err, k1)
    | (Some _, k1) => (Ok tt, k1)
    end.

(* 136-177 open_fifo, with the three attempts, and 246-256 make.  When it throws the stream is destroyed: 57-60 closes it. *)
Fixpoint open_fifo (attempts : list answer) (fd : Z) (ready : answer) (k : kernel) : res object * kernel :=
  match attempts with
  | [] => (Throw System_err, fd_destroy fd k)
  | a :: rest =>
      let (n, k1) := sys_open a k in
      let (fd', k2) := fd_set fd n k1 in
      if negb (fd' =? -1)%Z then
        match wait_for_data fd' ready k2 with
        | (Ok _, k3) => (Ok (Pipe fd'), k3)
        | (Throw e, k3) => (Throw e, let (fd'', k4) := fd_set fd' (-1) k3 in fd_destroy fd'' k4)
        | (UB, k3) => (UB, k3)
        | (Fuel, k3) => (Fuel, k3)
        end
      else open_fifo rest fd' ready k2
  end.
Definition new_pipe (a1 a2 a3 ready : answer) (k : kernel) : res object * kernel := open_fifo [a1; a2; a3] (-1) ready k.

(* Input streams: close(), and for pipes a read that has to wait for data (file_input_stream.cc:90-93, sagemaker_pipe_input_stream.cc:62-115;
   the reads themselves change nothing here). *)
Definition close_stream (fd : Z) (k : kernel) : Z * kernel := fd_set fd (-1) k.

(* The destructors: streams close their descriptor; file_mapped_memory_block.cc:44-49; file_backed_memory_block.cc:44-49 and then the
   destructor of fd_. *)
Definition destroy (o : object) (k : kernel) : kernel :=
  match o with
  | Stream fd => fd_destroy fd k
  | Pipe fd => let (fd', k') := fd_set fd (-1) k in fd_destroy fd' k'
  | Mapped data size => match data with Some p => sys_munmap p size k | None => k end
  | Backed fd data size => fd_destroy fd (match data with Some p => sys_munmap p size k | None => k end)
  end.

Inductive op :=
| New_stream (a : answer)
| New_pipe (a1 a2 a3 ready : answer)
| New_mapped (opened stat mapped : answer)
| New_backed (name size : nat) (made truncated unlinked mapped : answer)
| Resize (i new : nat) (truncated mapped : answer)
| Read_wait (i : nat) (ready : answer)
| Close (i : nat)
| Destroy (i : nat)
| Other (o : other).

Record state := mk_state { s_objects : list (option object); s_kernel : kernel }.
Definition start : state := mk_state [] boot.

(* A new object gets the next number; a constructor that throws makes none.  Operations on objects that do not exist, or not of
   their class, are left out. *)
Definition made (l : list (option object)) (r : res object * kernel) : res unit * state :=
  match r with
  | (Ok o, k) => (Ok tt, mk_state (l ++ [Some o]) k)
  | (Throw e, k) => (Throw e, mk_state l k)
  | (UB, k) => (UB, mk_state l k)
  | (Fuel, k) => (Fuel, mk_state l k)
  end.
Definition step (s : state) (o : op) : res unit * state :=
  let l := s_objects s in
  let k := s_kernel s in
  match o with
  | New_stream a => made l (new_stream a k)
  | New_pipe a1 a2 a3 ready => made l (new_pipe a1 a2 a3 ready k)
  | New_mapped a b c => made l (new_mapped a b c k)
  | New_backed name size a b c d => made l (new_backed name size a b c d k)
  | Resize i new a b =>
      match at_slot l i with
      | Some (Backed fd data size) => let '(r, x, k') := resize fd data size new a b k in (r, mk_state (put l i (Some x)) k')
      | _ => (Ok tt, s)
      end
  | Read_wait i ready =>
      match at_slot l i with
      | Some (Pipe fd) => if (fd =? -1)%Z then (Throw Stream_err, s) else let (r, k') := wait_for_data fd ready k in (r, mk_state l k')
      | _ => (Ok tt, s)
      end
  | Close i =>
      match at_slot l i with
      | Some (Stream fd) => let (fd', k') := close_stream fd k in (Ok tt, mk_state (put l i (Some (Stream fd'))) k')
      | Some (Pipe fd) => let (fd', k') := close_stream fd k in (Ok tt, mk_state (put l i (Some (Pipe fd'))) k')
      | _ => (Ok tt, s)
      end
  | Destroy i =>
      match at_slot l i with
      | Some x => (Ok tt, mk_state (put l i None) (destroy x k))
      | None => (Ok tt, s)
      end
  | Other o => (Ok tt, mk_state l (k_other k o))
  end.

(* A history goes on after exceptions, and ends with undefined behaviour. *)
Fixpoint run (h : list op) (s : state) : res state :=
  match h with
  | [] => Ok s
  | o :: h' => match step s o with (UB, _) => UB | (Fuel, _) => Fuel | (_, s') => run h' s' end
  end.

(* What the library keeps for the whole process: the allocator, whether it is initialized, and the AWS SDK with the S3 clients. *)
From Verif Require Import Common.

(* The allocators. src/mlio/init.cc:36 makes the default one; a program may install its own.
   Simplified: an allocator of the program is a number. *)
Inductive alloc := Default | Custom (n : nat).

(* A client of Amazon S3 as the process sees it: whether it still exists, and in which life of the SDK it was made.
   include/mlio/s3_client.h:39-69, the owner of a native client of the SDK. *)
Record client := mk_client { c_here : bool; c_life : nat }.

(* The state of the process.
   p_alloc: memory_allocator_, src/mlio/memory/memory_allocator.cc:25.
   p_inited: the static variable of src/mlio/init.cc:29.
   p_aws: aws_initialized, src/mlio/init_aws.cc:29.
   p_chain: chain_initialized, src/mlio/s3_client.cc:41.
   p_sdk, p_life: whether the SDK itself is initialized, and how many times it has been; not visible to the library. *)
Record proc := mk_proc { p_alloc : option alloc; p_inited : bool; p_aws : bool; p_chain : bool; p_sdk : bool; p_life : nat;
  p_clients : list client }.

(* The process when it starts: the initializers at the places above. *)
Definition fresh : proc := mk_proc None false false false false 0 [].

(* What a program can do. Set_allocator None is set_memory_allocator with a null pointer.
   Allocate is any of the calls of memory_allocator().allocate, for instance src/mlio/instance.cc:96 or
   src/mlio/record_readers/detail/default_chunk_reader.cc:67.
   Make_client: make_s3_client, src/mlio/s3_client.cc:184-210; the flag says whether no keys are given.
   Use_client: list_objects, read_object or read_object_size of the client with that number. Drop_client: its destruction. *)
Inductive op :=
| Initialize
| Set_allocator (a : option alloc)
| Allocate
| Initialize_aws
| Deallocate_aws
| Make_client (default_keys : bool)
| Use_client (k : nat)
| Drop_client (k : nat).

(* What can be seen of an operation: a warning, which allocator is asked, the calls of the SDK, its use by a client. *)
Inductive effect := Warned | Asked (a : alloc) | Sdk_init | Sdk_shutdown | Sdk_used.

(* src/mlio/init.cc:27-39. *)
Definition initialize (p : proc) : proc * list effect :=
  if p_inited p then (p, [Warned])
  else (mk_proc (Some Default) true (p_aws p) (p_chain p) (p_sdk p) (p_life p) (p_clients p), []).

(* src/mlio/memory/memory_allocator.cc:37-40. *)
Definition set_allocator (a : option alloc) (p : proc) : proc :=
  mk_proc a (p_inited p) (p_aws p) (p_chain p) (p_sdk p) (p_life p) (p_clients p).

(* src/mlio/memory/memory_allocator.cc:32-35: the pointer is dereferenced whether or not it is null. *)
Definition allocate (p : proc) : res (proc * list effect) :=
  match p_alloc p with None => UB | Some a => Ok (p, [Asked a]) end.

(* Aws::InitAPI. Trusted: the SDK must not be initialized twice. *)
Definition sdk_init (p : proc) : res proc :=
  if p_sdk p then UB else Ok (mk_proc (p_alloc p) (p_inited p) (p_aws p) (p_chain p) true (S (p_life p)) (p_clients p)).

(* Aws::ShutdownAPI. Trusted: the SDK must be initialized. *)
Definition sdk_shutdown (p : proc) : res proc :=
  if p_sdk p then Ok (mk_proc (p_alloc p) (p_inited p) (p_aws p) (p_chain p) false (p_life p) (p_clients p)) else UB.

(* The assignments at src/mlio/init_aws.cc:44 and 53. *)
Definition set_aws (b : bool) (p : proc) : proc :=
  mk_proc (p_alloc p) (p_inited p) b (p_chain p) (p_sdk p) (p_life p) (p_clients p).

(* src/mlio/init_aws.cc:34-45. *)
Definition initialize_aws (p : proc) : res (proc * list effect) :=
  if p_aws p then Ok (p, [Warned])
  else let* p' := sdk_init p in Ok (set_aws true p', [Sdk_init]).

(* src/mlio/init_aws.cc:47-54. *)
Definition deallocate_aws (p : proc) : res (proc * list effect) :=
  if p_aws p then let* p' := sdk_shutdown p in Ok (set_aws false p', [Sdk_shutdown])
  else Ok (set_aws false p, []).

(* src/mlio/s3_client.cc:43-56: the chain is made by the first call only, and is a local variable; the later ones dereference null. *)
Definition default_keys (p : proc) : res proc :=
  if p_chain p then UB
  else Ok (mk_proc (p_alloc p) (p_inited p) (p_aws p) true (p_sdk p) (p_life p) (p_clients p)).

(* src/mlio/s3_client.cc:184-210: the keys, then the native client. The library doesn't ask whether the SDK is initialized.
   Trusted: a client can only be made while it is. Simplified: no other failures. *)
Definition make_client (d : bool) (p : proc) : res (proc * list effect) :=
  if p_sdk p then
    let* p' := if d then default_keys p else Ok p in
    Ok (mk_proc (p_alloc p') (p_inited p') (p_aws p') (p_chain p') (p_sdk p') (p_life p') (p_clients p' ++ [mk_client true (p_life p')]), [Sdk_used])
  else UB.

(* Whether the client exists and the SDK it was made with still runs. Trusted: otherwise its use and its destruction are undefined. *)
Definition live (p : proc) (k : nat) : bool :=
  match nth_error (p_clients p) k with
  | Some c => c_here c && p_sdk p && Nat.eqb (c_life c) (p_life p)
  | None => false
  end.

(* src/mlio/s3_client.cc:107-182. *)
Definition use_client (k : nat) (p : proc) : res (proc * list effect) :=
  if live p k then Ok (p, [Sdk_used]) else UB.

(* The client at position k no longer exists. *)
Fixpoint gone (k : nat) (cs : list client) : list client :=
  match cs, k with
  | [], _ => []
  | c :: r, O => mk_client false (c_life c) :: r
  | c :: r, S k' => c :: gone k' r
  end.

(* src/mlio/s3_client.cc:105, the destructor. *)
Definition drop_client (k : nat) (p : proc) : res (proc * list effect) :=
  if live p k
  then Ok (mk_proc (p_alloc p) (p_inited p) (p_aws p) (p_chain p) (p_sdk p) (p_life p) (gone k (p_clients p)), [Sdk_used])
  else UB.

(* One operation. *)
Definition step (p : proc) (o : op) : res (proc * list effect) :=
  match o with
  | Initialize => Ok (initialize p)
  | Set_allocator a => Ok (set_allocator a p, [])
  | Allocate => allocate p
  | Initialize_aws => initialize_aws p
  | Deallocate_aws => deallocate_aws p
  | Make_client d => make_client d p
  | Use_client k => use_client k p
  | Drop_client k => drop_client k p
  end.

(* A program that runs in one thread: what each of its operations does, up to the first that is undefined, and the final state. *)
Fixpoint run (p : proc) (h : list op) : list (list effect) * res proc :=
  match h with
  | [] => ([], Ok p)
  | o :: r =>
    match step p o with
    | Ok (p', es) => let '(t, q) := run p' r in (es :: t, q)
    | Throw e => ([], Throw e)
    | UB => ([], UB)
    | Fuel => ([], Fuel)
    end
  end.

(* Threads that initialize and deallocate the SDK. src/mlio/init_aws.cc:36, 42, 44, 49, 50 and 53 are single steps: reading the flag,
   the call of the SDK, writing the flag. A thread is at one of them. *)
Inductive pc := At_init | At_init_call | At_init_set | At_free | At_free_call | At_free_set.

(* What the threads share: the flag, the calls of the SDK so far, and, with the lock of the Python interpreter, its holder.
   src/mlio-py/mlio/core/s3_client.cc:53-56: the functions are called with the lock held. *)
Record shared := mk_shared { h_flag : bool; h_calls : list effect; h_holder : option nat }.

(* One step of thread i at c: the state and where it is next, None if the call returns. *)
Definition micro (c : pc) (s : shared) : shared * option pc :=
  match c with
  | At_init => if h_flag s then (s, None) else (s, Some At_init_call)
  | At_init_call => (mk_shared (h_flag s) (h_calls s ++ [Sdk_init]) (h_holder s), Some At_init_set)
  | At_init_set => (mk_shared true (h_calls s) (h_holder s), None)
  | At_free => if h_flag s then (s, Some At_free_call) else (s, Some At_free_set)
  | At_free_call => (mk_shared (h_flag s) (h_calls s ++ [Sdk_shutdown]) (h_holder s), Some At_free_set)
  | At_free_set => (mk_shared false (h_calls s) (h_holder s), None)
  end.

(* A thread: where it is in its current call, if any, and the calls still to do: true for initialize_aws_sdk. *)
Definition thread := (option pc * list bool)%type.

(* The thread as it enters its next call. *)
Definition enter (t : thread) : thread :=
  match t with
  | (None, b :: r) => (Some (if b then At_init else At_free), r)
  | _ => t
  end.

(* Whether the lock lets thread i run: no lock, or nobody else holds it. *)
Definition may_run (gil : bool) (i : nat) (s : shared) : bool :=
  match h_holder s with Some j => negb gil || Nat.eqb i j | None => true end.

(* Replaces the element at position i. *)
Fixpoint set_nth {A} (i : nat) (x : A) (l : list A) : list A :=
  match l, i with
  | [], _ => []
  | _ :: r, O => x :: r
  | y :: r, S i' => y :: set_nth i' x r
  end.

(* The scheduler lets thread i take a step: nothing happens if it has nothing to do or has to wait.
   A call takes the lock with its first step and gives it back with its last. *)
Definition turn (gil : bool) (i : nat) (w : shared * list thread) : shared * list thread :=
  let '(s, ts) := w in
  match nth_error ts i with
  | None => w
  | Some t =>
    match enter t with
    | (None, _) => w
    | (Some c, r) =>
      if may_run gil i s then
        let '(s', n) := micro c s in
        (mk_shared (h_flag s') (h_calls s') (match n with Some _ => Some i | None => None end), set_nth i (n, r) ts)
      else w
    end
  end.

(* A schedule: which thread is next, again and again. *)
Definition play (gil : bool) (sched : list nat) (w : shared * list thread) : shared * list thread :=
  fold_left (fun w i => turn gil i w) sched w.

(* The threads at the start. *)
Definition threads (calls : list (list bool)) : shared * list thread := (mk_shared false [] None, map (pair None) calls).

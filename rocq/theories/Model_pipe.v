(* The streams over SageMaker pipe channels: acquiring and releasing a channel, and reading its FIFOs. *)
From Verif Require Import Common Model_strm.

Local Open Scope Z_scope.

Definition path := list byte.
Definition path_dec : forall a b : path, {a = b} + {a <> b} := list_eq_dec N.eq_dec.

(* ---------------- Channels ---------------- *)

(* Where a stream is in its life: constructed, its FIFO opened (or closed again), destroyed. *)
Inductive phase := Ph_made | Ph_ready | Ph_dead.

(* include/mlio/streams/sagemaker_pipe_input_stream.h:82-85.  The descriptor is reduced to whether it is open. *)
Record pstream := mk_ps { ps_path : path; ps_id : Z; ps_fd : bool; ps_phase : phase }.

(* What can be seen from outside: a stream was made with an explicit FIFO number; the FIFO of that number was opened. *)
Inductive pevent := Ev_start (p : path) (i : Z) | Ev_open (p : path) (i : Z).

(* streams/sagemaker_pipe_input_stream.cc:52 fifo_ids_ (an absent entry reads 0), the streams made so far, the data
   stores (data_stores/sagemaker_pipe.h:54-56: path and the FIFO number still to be used), and the trace. *)
Record pstate := mk_pstate {
  pp_chan : path -> Z;
  pp_streams : list pstream;
  pp_stores : list (path * option N);
  pp_trace : list pevent }.

Definition set_chan (c : path -> Z) (p : path) (v : Z) : path -> Z := fun q => if path_dec p q then v else c q.

Fixpoint set_nth {A} (n : nat) (x : A) (l : list A) : list A :=
  match n, l with
  | _, [] => []
  | O, _ :: t => x :: t
  | S n', h :: t => h :: set_nth n' x t
  end.

Definition pipe_start (stores : list (path * option N)) : pstate := mk_pstate (fun _ => 0) [] stores [].

(* The operations.  Opening a stream is not atomic: the constructor and the opening of the FIFO are separate steps, so
   that histories are the interleavings of several threads.  (The map itself is not guarded against concurrent
   insertion; that race is not modelled.) *)
Inductive pop :=
| P_acquire (p : path) (explicit : option N)      (* the constructor *)
| P_store (k : nat)                               (* the constructor, called from the k-th data store *)
| P_fifo (h : nat) (attempts : list bool) (ready : Z)
                                                  (* open_fifo: which of the ::open calls succeed, what ::select answers *)
| P_close (h : nat)
| P_destroy (h : nat).

Inductive pout := Po_stream (h : nat) | Po_done.

(* detail/path.cc:24-33 validate_file_path *)
Definition valid_path (p : path) : bool :=
  match rev p with [] => false | c :: _ => negb ((c =? 47)%N || (c =? 92)%N) end.

(* streams/sagemaker_pipe_input_stream.cc:117-134, the constructor *)
Definition p_acquire (s : pstate) (p : path) (explicit : option N) : res pout * pstate :=
  if negb (valid_path p) then (Throw Invalid_argument, s)
  else
    let id := pp_chan s p in
    let c := set_chan (pp_chan s) p (-1) in
    if id =? -1 then (Throw System_err, mk_pstate c (pp_streams s) (pp_stores s) (pp_trace s))
    else
      let id' := match explicit with Some e => as_ssize e | None => id end in
      let tr := match explicit with Some e => [Ev_start p (as_ssize e)] | None => [] end in
      (Ok (Po_stream (length (pp_streams s))),
       mk_pstate c (pp_streams s ++ [mk_ps p id' false Ph_made]) (pp_stores s) (pp_trace s ++ tr)).

(* data_stores/sagemaker_pipe.cc:45-56 open_read: the explicit number is handed over once, std::exchange. *)
Definition p_store (s : pstate) (k : nat) : res pout * pstate :=
  match nth_error (pp_stores s) k with
  | None => (UB, s)
  | Some (p, explicit) =>
    p_acquire (mk_pstate (pp_chan s) (pp_streams s) (set_nth k (p, None) (pp_stores s)) (pp_trace s)) p explicit
  end.

(* streams/sagemaker_pipe_input_stream.cc:110-115 close *)
Definition p_release (s : pstate) (h : nat) (st : pstream) (ph : phase) : pstate :=
  mk_pstate (set_chan (pp_chan s) (ps_path st) (ps_id st))
    (set_nth h (mk_ps (ps_path st) (ps_id st) false ph) (pp_streams s)) (pp_stores s) (pp_trace s).

(* streams/sagemaker_pipe_input_stream.cc:140-171: at most three attempts to open the FIFO. *)
Definition opens (attempts : list bool) : bool := existsb (fun b => b) (firstn 3 attempts).

(* streams/sagemaker_pipe_input_stream.cc:136-177 open_fifo and 192-232 wait_for_data, called from 247-256 make: when
   an exception leaves it, the stream is destroyed.  The number after the largest is undefined behaviour. *)
Definition p_fifo (s : pstate) (h : nat) (attempts : list bool) (ready : Z) : res pout * pstate :=
  match nth_error (pp_streams s) h with
  | Some st =>
    match ps_phase st with
    | Ph_made =>
      if opens attempts then
        if ps_id st =? 2 ^ 63 - 1 then (UB, s)
        else
          let st' := mk_ps (ps_path st) (ps_id st + 1) true Ph_ready in
          let s' := mk_pstate (pp_chan s) (set_nth h st' (pp_streams s)) (pp_stores s)
                      (pp_trace s ++ [Ev_open (ps_path st) (ps_id st)]) in
          if (ready =? 0) || (ready =? -1) then (Throw System_err, p_release s' h st' Ph_dead)
          else (Ok Po_done, s')
      else (Throw System_err, p_release s h st Ph_dead)
    | _ => (UB, s)
    end
  | None => (UB, s)
  end.

(* One operation.  What no program can do (using a stream that is not there) is UB and changes nothing.
   streams/sagemaker_pipe_input_stream.cc:57-60: the destructor closes. *)
Definition p_step (s : pstate) (o : pop) : res pout * pstate :=
  match o with
  | P_acquire p explicit => p_acquire s p explicit
  | P_store k => p_store s k
  | P_fifo h attempts ready => p_fifo s h attempts ready
  | P_close h =>
    match nth_error (pp_streams s) h with
    | Some st =>
      match ps_phase st with Ph_ready => (Ok Po_done, p_release s h st Ph_ready) | _ => (UB, s) end
    | None => (UB, s)
    end
  | P_destroy h =>
    match nth_error (pp_streams s) h with
    | Some st =>
      match ps_phase st with Ph_ready => (Ok Po_done, p_release s h st Ph_dead) | _ => (UB, s) end
    | None => (UB, s)
    end
  end.

Fixpoint p_run (s : pstate) (ops : list pop) : list (res pout) * pstate :=
  match ops with
  | [] => ([], s)
  | o :: t => let (r, s1) := p_step s o in let (rs, s2) := p_run s1 t in (r :: rs, s2)
  end.

(* ---------------- Reading ---------------- *)

(* An open FIFO: the bytes still to come, and how the system answers the next ::read calls: 0 is EAGAIN, n > 0 that up
   to n bytes are there; when the answers are used up everything is there.  (A read that fails otherwise is not
   modelled.) *)
Record pfifo := mk_fifo { ff_rest : list byte; ff_sched : list nat }.

Definition fifo_sys_read (f : pfifo) (n : nat) : option (list byte) * pfifo :=
  match ff_sched f with
  | O :: t => (None, mk_fifo (ff_rest f) t)
  | k :: t => let m := Nat.min k n in (Some (firstn m (ff_rest f)), mk_fifo (skipn m (ff_rest f)) t)
  | [] => (Some (firstn n (ff_rest f)), mk_fifo (skipn n (ff_rest f)) [])
  end.

(* streams/sagemaker_pipe_input_stream.cc:62-108 read: two further attempts, waiting (the answer of ::select is
   [wait]) before the second. *)
Definition fifo_read (f : pfifo) (n : nat) (wait : Z) : res (list byte) * pfifo :=
  if (n =? 0)%nat then (Ok [], f)
  else
    let (a1, f1) := fifo_sys_read f n in
    match a1 with
    | Some bytes => (Ok bytes, f1)
    | None =>
      let (a2, f2) := fifo_sys_read f1 n in
      match a2 with
      | Some bytes => (Ok bytes, f2)
      | None =>
        if (wait =? 0) || (wait =? -1) then (Throw System_err, f2)
        else
          let (a3, f3) := fifo_sys_read f2 n in
          match a3 with
          | Some bytes => (Ok bytes, f3)
          | None => (Throw System_err, f3)
          end
      end
    end.

Fixpoint fifo_reads (f : pfifo) (calls : list (nat * Z)) : list (res (list byte)) * pfifo :=
  match calls with
  | [] => ([], f)
  | (n, w) :: t => let (r, f1) := fifo_read f n w in let (rs, f2) := fifo_reads f1 t in (r :: rs, f2)
  end.

(* The global interpreter lock (GIL) of Python, the bindings of the data readers, and the background threads of a reader that
   call Python: log handlers, data stores and streams implemented in Python.

   A worker is a thread that takes part in the background work of one reader (its thread_ and the TBB workers that run
   nodes of its flow graph).  One Python thread uses one reader.  Simplified: what the background threads compute is left out; examples are
   counted, not kept; the two queues of the reader are one, of [cap] places; the mutex of the queues is held for single steps only; the order of examples is the concern of C25 to
   C30. *)
From Verif Require Import Common.

(* What a background thread does, at the granularity of its synchronisation:
   - compute (anything that needs no other thread),
   - put an example into the queue (src/mlio/parallel_data_reader.cc:244-270),
   - report a message (src/mlio/logger.cc:37-46 handle_message),
   - open a data store implemented in Python (src/mlio-py/mlio/core/data_store.cc:41-45),
   - read from a stream implemented in Python (src/mlio-py/mlio/core/stream.cc:55-73). *)
Inductive wop := W_compute | W_put | W_log | W_store | W_stream.

(* The steps of a call into Python. *)
Inductive rop :=
| R_acquire              (* py::gil_scoped_acquire *)
| R_release              (* the end of it; also py::gil_scoped_release *)
| R_python               (* use of the Python interpreter *)
| R_handler (g : nat).   (* use of the [g]-th log handler, a Python function *)

Record worker := mk_worker { w_frame : list rop; w_todo : list wop }.

(* src/mlio-py/mlio/core/logging.cc:47-53: the handler takes the GIL and calls the Python function. *)
Definition log_frame (g : nat) : list rop := [R_acquire; R_handler g; R_release].

(* src/mlio-py/mlio/core/data_store.cc:41-45 (PYBIND11_OVERLOAD_PURE takes the GIL). *)
Definition store_frame : list rop := [R_acquire; R_python; R_release].

(* src/mlio-py/mlio/core/stream.cc:55-73: Py_input_stream::read constructs a gil_scoped_release (named acq_gil), then a
   memory view, then calls the override under the GIL; in the end the GIL that was released is taken back. *)
Definition stream_frame : list rop :=
  [R_release; R_python; R_acquire; R_python; R_release; R_acquire].

(* The steps of the Python thread. *)
Inductive mop :=
| M_python               (* use of the interpreter: Python code, pybind11's casts *)
| M_release              (* py::gil_scoped_release *)
| M_acquire              (* the end of it *)
| M_start                (* parallel_data_reader.cc:147-157 ensure_pipeline_running *)
| M_take                 (* parallel_data_reader.cc:114-145: the next example, or the end *)
| M_cancel               (* parallel_data_reader.cc:74-90 *)
| M_join                 (* parallel_data_reader.cc:92 thread_.join(), 300-311 *)
| M_handler (b : bool).  (* logger.cc:70-73 set_log_message_handler, a Python function or nothing *)

(* What a Python program does with a reader.  [k]: the number of calls into Python (data stores) that are made by the
   calling thread, when the schema is inferred. *)
Inductive call :=
| Call_python                 (* anything else *)
| Call_read (k : nat)         (* read_example, peek_example, next(iterator) *)
| Call_schema (k : nat)       (* read_schema *)
| Call_reset                  (* reset *)
| Call_delete                 (* the reader is deleted *)
| Call_stream                 (* read(buf) of a stream implemented in C++ *)
| Call_py_stream              (* InputStream.read(buf) reaching a stream implemented in Python *)
| Call_set_handler            (* set_log_message_handler *)
| Call_clear_handler.         (* clear_log_message_handler *)

Fixpoint callbacks (k : nat) : list mop :=
  match k with O => [] | S k' => M_acquire :: M_python :: M_release :: callbacks k' end.

(* src/mlio-py/mlio/core/data_reader.cc:36-50 and 595-608: released by the call guards;
   data_reader.cc:609-612: reset has no call guard;
   src/mlio/csv_reader.cc:88-91, image_reader.cc:56-59, text_line_reader.cc:39-42, recordio_protobuf_reader.cc:112-118: destructors, run by
   Python's reference counting while the GIL is held;
   src/mlio-py/mlio/core/stream.cc:135-142 read_input_stream and 55-73;
   src/mlio-py/mlio/core/logging.cc:59-66, 83-85. *)
Definition program (c : call) : list mop :=
  match c with
  | Call_python => [M_python]
  | Call_read k => [M_release] ++ callbacks k ++ [M_start; M_take; M_acquire; M_python]
  | Call_schema k => [M_release] ++ callbacks k ++ [M_acquire; M_python]
  | Call_reset => [M_cancel; M_join; M_python]
  | Call_delete => [M_cancel; M_join]
  | Call_stream => [M_python; M_release; M_acquire; M_python]
  | Call_py_stream => [M_python; M_release; M_release; M_python; M_acquire; M_python]
  | Call_set_handler => [M_handler true; M_python]
  | Call_clear_handler => [M_handler false; M_python]
  end.

Inductive holder := Nobody | Main | Worker (i : nat).

Record state := mk_state
  { main : list mop;
    gil : holder;
    workers : list worker;              (* empty: the pipeline has not been started *)
    queue : nat;                        (* examples in the queue *)
    cancelled : bool;
    handler : option nat;               (* logger.cc:29 msg_handler_, numbered *)
    handlers : nat;                     (* the number of handlers so far *)
    epochs : list (list (list wop)) }.  (* what the workers will do in the epochs to come *)

Inductive outcome := Next (s : state) | Blocked | Crash.

Definition holds (h : holder) (i : nat) : bool := match h with Worker j => Nat.eqb i j | _ => false end.

Definition done (w : worker) : bool := match w_frame w, w_todo w with [], [] => true | _, _ => false end.

Fixpoint set_nth {A} (i : nat) (a : A) (l : list A) : list A :=
  match l, i with [], _ => [] | _ :: r, O => a :: r | x :: r, S i' => x :: set_nth i' a r end.

Definition with_gil (s : state) (g : holder) : state :=
  mk_state (main s) g (workers s) (queue s) (cancelled s) (handler s) (handlers s) (epochs s).
Definition with_queue (s : state) (n : nat) : state :=
  mk_state (main s) (gil s) (workers s) n (cancelled s) (handler s) (handlers s) (epochs s).
Definition with_main (s : state) (p : list mop) : state :=
  mk_state p (gil s) (workers s) (queue s) (cancelled s) (handler s) (handlers s) (epochs s).
Definition with_worker (s : state) (i : nat) (w : worker) : state :=
  mk_state (main s) (gil s) (set_nth i w (workers s)) (queue s) (cancelled s) (handler s) (handlers s) (epochs s).

(* A thread that gives up the GIL without holding it, or uses Python without holding it, ends the process or corrupts the
   interpreter (PyEval_SaveThread, PyGILState_Release; Python/C API).  Taking the GIL waits until nobody holds it. *)
Definition worker_step (cap : nat) (s : state) (i : nat) (w : worker) : outcome :=
  match w_frame w with
  | R_acquire :: f =>
    match gil s with
    | Nobody => Next (with_gil (with_worker s i (mk_worker f (w_todo w))) (Worker i))
    | Main => Blocked
    | Worker _ => Blocked
    end
  | R_release :: f =>
    if holds (gil s) i then Next (with_gil (with_worker s i (mk_worker f (w_todo w))) Nobody) else Crash
  | R_python :: f =>
    if holds (gil s) i then Next (with_worker s i (mk_worker f (w_todo w))) else Crash
  | R_handler g :: f =>
    (* The handler was destroyed by set_log_message_handler when another one has been set since. *)
    if holds (gil s) i && match handler s with Some g' => Nat.eqb g g' | None => false end
    then Next (with_worker s i (mk_worker f (w_todo w))) else Crash
  | [] =>
    match w_todo w with
    | [] => Blocked
    | W_compute :: t => Next (with_worker s i (mk_worker [] t))
    | W_put :: t =>
      if cancelled s then Next (with_worker s i (mk_worker [] t))
      else if queue s <? cap then Next (with_queue (with_worker s i (mk_worker [] t)) (S (queue s)))
      else Blocked
    | W_log :: t =>
      match handler s with
      | Some g => Next (with_worker s i (mk_worker (log_frame g) t))
      | None => Next (with_worker s i (mk_worker [] t))
      end
    | W_store :: t => Next (with_worker s i (mk_worker store_frame t))
    | W_stream :: t => Next (with_worker s i (mk_worker stream_frame t))
    end
  end.

Definition main_step (s : state) : outcome :=
  match main s with
  | [] => Blocked
  | M_python :: p => match gil s with Main => Next (with_main s p) | _ => Crash end
  | M_release :: p => match gil s with Main => Next (with_gil (with_main s p) Nobody) | _ => Crash end
  | M_acquire :: p =>
    match gil s with
    | Nobody => Next (with_gil (with_main s p) Main)
    | Main => Next (with_main s p)
    | Worker _ => Blocked
    end
  | M_start :: p =>
    match workers s, epochs s with
    | [], e :: r => Next (mk_state p (gil s) (map (mk_worker []) e) 0 false (handler s) (handlers s) r)
    | _, _ => Next (with_main s p)
    end
  | M_take :: p =>
    match queue s with
    | S n => Next (with_queue (with_main s p) n)
    | O => if forallb done (workers s) then Next (with_main s p) else Blocked
    end
  | M_cancel :: p =>
    Next (mk_state p (gil s) (workers s) 0 true (handler s) (handlers s) (epochs s))
  | M_join :: p =>
    if forallb done (workers s)
    then Next (mk_state p (gil s) [] 0 false (handler s) (handlers s) (epochs s))
    else Blocked
  | M_handler b :: p =>
    match gil s with
    | Main => Next (mk_state p (gil s) (workers s) (queue s) (cancelled s)
        (if b then Some (S (handlers s)) else None) (S (handlers s)) (epochs s))
    | _ => Crash
    end
  end.

(* The choices of the scheduler: a step of the Python thread or of a worker; a worker that notices the cancellation between
   two pieces of work and does not start the next one (tbb::task_group_context::cancel_group_execution). *)
Inductive choice := T_main | T_worker (i : nat) | T_quit (i : nat).

Definition step (cap : nat) (t : choice) (s : state) : outcome :=
  match t with
  | T_main => main_step s
  | T_worker i => match nth_error (workers s) i with Some w => worker_step cap s i w | None => Blocked end
  | T_quit i =>
    match nth_error (workers s) i with
    | Some w =>
      match w_frame w, w_todo w with
      | [], _ :: _ => if cancelled s then Next (with_worker s i (mk_worker [] [])) else Blocked
      | _, _ => Blocked
      end
    | None => Blocked
    end
  end.

(* A schedule; choosing a thread that has to wait changes nothing.  None: the process crashed. *)
Fixpoint run (cap : nat) (l : list choice) (s : state) : option state :=
  match l with
  | [] => Some s
  | t :: r =>
    match step cap t s with
    | Next s' => run cap r s'
    | Blocked => run cap r s
    | Crash => None
    end
  end.

(* The state at the start of a Python program. *)
Definition initial (calls : list call) (epochs : list (list (list wop))) : state :=
  mk_state (concat (map program calls)) Main [] 0 false None 0 epochs.

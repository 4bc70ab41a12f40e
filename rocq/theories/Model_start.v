(* Model of starting the background thread: /repo/src/mlio/detail/thread.h and its use in /repo/src/mlio/parallel_data_reader.cc (cc below).
   The readers of Model_par, with the answers of the system to the call of read_example that starts the thread. *)
From Verif Require Import Common Model_par.

(* A set of signals, as a number with a bit for each. *)
Definition mask := N.

(* What the system does when a thread is asked for: starts it; cannot change the mask of the calling thread; has no thread
   (std::thread's constructor throws); starts it but cannot change the mask again. *)
Inductive answer := Granted | No_block | No_thread | No_restore.

(* The calling thread's mask afterwards, and: the new thread, which has inherited the mask of its creator; an exception; the end of
   the process (std::terminate). *)
Inductive started := S_thread (worker : mask) | S_error (x : exn) | S_terminated.

(* src/mlio/detail/thread.h:32-53 start_thread; [all] is what sigfillset makes.  No_block: 37-40; No_thread: 42, the mask is not restored;
   No_restore: 45-48, the destructor of the std::thread, which was not joined, terminates the process. *)
Definition start_thread (all caller : mask) (a : answer) : mask * started :=
  match a with
  | Granted => (caller, S_thread all)
  | No_block => (caller, S_error System_err)
  | No_thread => (all, S_error System_err)
  | No_restore => (all, S_terminated)
  end.

Section Start.
  Context {B E : Type}.
  Context (decode : B -> dres E).
  Context (size_bytes : B -> nat).
  Context (src : nat -> list B) (src_end : nat -> option exn).
  Context (prefetch reads : nat).
  Context (all : mask).
  Let pstep := step decode size_bytes src src_end prefetch reads.

  (* The reader; the mask of the background thread if thread_ has one that was not joined; the mask of the client's thread. *)
  Record host := mk_host { h_par : @st E; h_thread : option mask; h_mask : mask }.
  Definition host_init (m : mask) : host := mk_host (init 0) None m.

  (* H_read a: the client calls read_example and the system answers [a] if it is asked for a thread. *)
  Inductive hact := H_read (a : answer) | H_act (a : action).

  (* The process goes on, or it was terminated. *)
  Inductive alive := Alive (h : host) | Terminated.

  (* The actions of the background thread and of the tasks it waits for. *)
  Definition background (a : action) : bool :=
    match a with
    | T_source | T_limit | T_decr | T_dstart _ | T_dfinish _ | T_forward | T_qstart | T_qsleep | T_qfinish | T_notify | T_done => true
    | _ => false
    end.

  (* cc:147-156 ensure_pipeline_running: state_ is set before the thread is started.  An exception leaves read_example. *)
  Definition refuse (s : @st E) (x : exn) : @st E :=
    mk_st (epoch s) (s_next s) (s_cached s) (s_end s) (l_count s) (l_decr s) (d_list s) (o_buf s) (o_next s) (q_pend s) (q_run s)
      (cancelled s) (failure s) running (fillq s) (readq s) (bytes s) (pc s) (log s ++ [O_error x]) (n_read s) (c_sleep s) (q_sleep s).

  Definition hstep (h : host) (a : hact) : option alive :=
    let '(mk_host s t m) := h in
    match a with
    (* cc:95-156 read_example_core and ensure_pipeline_running *)
    | H_read g =>
        match pc s, readq s, rstate s with
        | c_idle, [], not_started =>
            let (m', r) := start_thread all m g in
            match r with
            | S_thread w => option_map (fun s' => Alive (mk_host s' (Some w) m')) (pstep s A_read)
            | S_error x => Some (Alive (mk_host (refuse s x) t m'))
            | S_terminated => Some Terminated
            end
        | _, _, _ => option_map (fun s' => Alive (mk_host s' t m)) (pstep s A_read)
        end
    | H_act A_read => None
    (* cc:92 thread_.join(); joining no thread throws std::system_error, and stop is called by reset, which is noexcept (cc:300), and by
       destructors (csv_reader.cc:90, image_reader.cc:58, recordio_protobuf_reader.cc:117, text_line_reader.cc:41) *)
    | H_act C_join =>
        match pc s, t with
        | c_join, None => Some Terminated
        | _, _ => option_map (fun s' => Alive (mk_host s' None m)) (pstep s C_join)
        end
    | H_act a =>
        match t, background a with
        | None, true => None
        | _, _ => option_map (fun s' => Alive (mk_host s' t m)) (pstep s a)
        end
    end.

  Fixpoint hexec (h : host) (l : list hact) : option alive :=
    match l with
    | [] => Some (Alive h)
    | a :: l' =>
        match hstep h a with
        | Some (Alive h') => hexec h' l'
        | Some Terminated => match l' with [] => Some Terminated | _ => None end
        | None => None
        end
    end.
End Start.
Arguments host E : clear implicits.
Arguments Alive {E} h.
Arguments Terminated {E}.

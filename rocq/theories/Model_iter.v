(* Iterating over readers in Python: the iterator objects, what they keep alive, and calls from several Python threads.
   Paths below are under /repo/src.  The examples of a data reader and the records of a record reader are numbers here. *)
From Verif Require Import Common.
From Coq Require Import List Arith.
Import ListNotations.

Definition item := nat.

(* What a reader delivers when it is read from the start for the n-th time: items, and then the end of the data (None) or
   an error again and again.  That the pipeline behaves so is C115_readers. *)
Record dataset := mk_ds { ds_items : nat -> list item; ds_tail : nat -> option exn }.

(* The outcome of one call of a C++ reading function. *)
Inductive got := G_item (x : item) | G_end | G_error (x : exn).

(* read_example_core / read_record_core: mlio/parallel_data_reader.cc:95-145, and the record readers; `k` calls have
   delivered an item since the last reset. *)
Definition core_read (d : dataset) (epoch k : nat) : got * nat :=
  match nth_error (ds_items d epoch) k with
  | Some x => (G_item x, S k)
  | None => (match ds_tail d epoch with None => G_end | Some x => G_error x end, k)
  end.

(* A reader: Data_reader_base (mlio/data_reader_base.cc) or Record_reader_base (mlio/record_readers/record_reader_base.cc).
   r_data tells the two apart: only data readers can be reset (mlio-py/mlio/core/record_reader.cc:86-91). *)
Record reader := mk_reader { r_data : bool; r_ds : dataset; r_epoch : nat; r_count : nat; r_peeked : option item }.

(* mlio/data_reader_base.cc:25-31, mlio/record_readers/record_reader_base.cc:23-29. *)
Definition read_reader (r : reader) : got * reader :=
  match r_peeked r with
  | Some x => (G_item x, mk_reader (r_data r) (r_ds r) (r_epoch r) (r_count r) None)
  | None =>
      let (g, k) := core_read (r_ds r) (r_epoch r) (r_count r) in
      (g, mk_reader (r_data r) (r_ds r) (r_epoch r) k None)
  end.

(* mlio/data_reader_base.cc:33-39, mlio/record_readers/record_reader_base.cc:31-37.  The end of the data leaves the member
   null; an error leaves it as it was. *)
Definition peek_reader (r : reader) : got * reader :=
  match r_peeked r with
  | Some x => (G_item x, r)
  | None =>
      let (g, k) := core_read (r_ds r) (r_epoch r) (r_count r) in
      (g, mk_reader (r_data r) (r_ds r) (r_epoch r) k (match g with G_item x => Some x | _ => None end))
  end.

(* mlio/parallel_data_reader.cc:300-317 and mlio/data_reader_base.cc:41-44. *)
Definition reset_reader (r : reader) : reader := mk_reader (r_data r) (r_ds r) (S (r_epoch r)) 0 None.

(* ---------------- Python objects ---------------- *)

(* Py_data_iterator (mlio-py/mlio/core/data_reader.cc:30-56) and Py_record_iterator (record_reader.cc:28-54): the members
   reader_, a plain pointer to the C++ reader, and parent_, a reference to the Python object of the reader.  Both name the
   same object here: i_reader is what is dereferenced, i_parent what is kept alive. *)
Inductive obj := O_reader (r : reader) | O_iter (i_reader i_parent : nat).

(* A Python object with its reference count; None is an object that was destroyed. *)
Record cell := mk_cell { c_refs : nat; c_obj : obj }.
Definition heap := list (option cell).

Fixpoint put {A} (l : list A) (i : nat) (x : A) : list A :=
  match l, i with
  | [], _ => []
  | _ :: t, O => x :: t
  | a :: t, S j => a :: put t j x
  end.

Definition look (h : heap) (i : nat) : option cell := match nth_error h i with Some c => c | None => None end.

(* Py_INCREF: undefined for an object that was destroyed. *)
Definition incref (h : heap) (i : nat) : res heap :=
  match look h i with Some c => Ok (put h i (Some (mk_cell (S (c_refs c)) (c_obj c)))) | None => UB end.

(* Py_DECREF of an object that refers to no other. *)
Definition decref_leaf (h : heap) (i : nat) : res heap :=
  match look h i with
  | Some c => if c_refs c <=? 1 then Ok (put h i None) else Ok (put h i (Some (mk_cell (c_refs c - 1) (c_obj c))))
  | None => UB
  end.

(* Py_DECREF: an iterator that is destroyed gives back its reference to the reader (the destructor of py::object parent_,
   mlio-py/mlio/core/data_reader.cc:55, record_reader.cc:53). *)
Definition decref (h : heap) (i : nat) : res heap :=
  match look h i with
  | Some c =>
      match c_obj c with
      | O_reader _ => decref_leaf h i
      | O_iter _ p => if c_refs c <=? 1 then decref_leaf (put h i None) p else decref_leaf h i
      end
  | None => UB
  end.

(* The variables of the program. *)
Definition env := list (nat * nat).
Fixpoint get_var (e : env) (v : nat) : option nat :=
  match e with [] => None | (w, i) :: t => if w =? v then Some i else get_var t v end.
Fixpoint del_var (e : env) (v : nat) : env :=
  match e with [] => [] | (w, i) :: t => if w =? v then del_var t v else (w, i) :: del_var t v end.

Record state := mk_st { s_heap : heap; s_env : env }.
Definition st0 : state := mk_st [] [].

(* Statements of a Python program: v = a new reader; v = iter(w); v = w; next(v); v.read_example() (or read_record);
   v.peek_example() (or peek_record); v.reset(); del v. *)
Inductive stmt :=
| S_new (v : nat) (data : bool) (d : dataset) | S_iter (v w : nat) | S_copy (v w : nat) | S_next (v : nat)
| S_read (v : nat) | S_peek (v : nat) | S_reset (v : nat) | S_del (v : nat).

(* What the program sees: nothing, an item, None, StopIteration, an exception of the library, a NameError, a TypeError or
   AttributeError. *)
Inductive seen := V_nothing | V_item (x : item) | V_none | V_stop | V_raise (x : exn) | V_name_error | V_type_error.

(* v = object i, to which the program already has a new reference: the old value of v is given back. *)
Definition assign (h : heap) (e : env) (v i : nat) : res state :=
  match get_var e v with
  | Some j => let* h' := decref h j in Ok (mk_st h' ((v, i) :: del_var e v))
  | None => Ok (mk_st h ((v, i) :: e))
  end.

(* mlio-py/mlio/core/data_reader.cc:595-604, record_reader.cc:87-88: an empty pointer or optional is None in Python. *)
Definition as_value (g : got) : seen :=
  match g with G_item x => V_item x | G_end => V_none | G_error x => V_raise x end.

(* mlio-py/mlio/core/data_reader.cc:37-51, record_reader.cc:35-49. *)
Definition as_next (g : got) : seen :=
  match g with G_item x => V_item x | G_end => V_stop | G_error x => V_raise x end.

Definition set_reader (h : heap) (i refs : nat) (r : reader) : heap := put h i (Some (mk_cell refs (O_reader r))).

Definition step (s : state) (c : stmt) : res (state * seen) :=
  let h := s_heap s in let e := s_env s in
  let on_reader v (f : nat -> nat -> reader -> res (state * seen)) :=
    match get_var e v with
    | None => Ok (s, V_name_error)
    | Some i =>
        match look h i with
        | None => UB
        | Some c => match c_obj c with O_reader r => f i (c_refs c) r | O_iter _ _ => Ok (s, V_type_error) end
        end
    end in
  match c with
  | S_new v data d =>
      let* s' := assign (h ++ [Some (mk_cell 1 (O_reader (mk_reader data d 0 0 None)))]) e v (length h) in
      Ok (s', V_nothing)
  | S_copy v w =>
      match get_var e w with
      | None => Ok (s, V_name_error)
      | Some i => let* h' := incref h i in let* s' := assign h' e v i in Ok (s', V_nothing)
      end
  | S_iter v w =>
      match get_var e w with
      | None => Ok (s, V_name_error)
      | Some i =>
          match look h i with
          | None => UB
          | Some c =>
              match c_obj c with
              | O_reader _ =>
                  (* mlio-py/mlio/core/data_reader.cc:613-616, record_reader.cc:89-91: a new iterator, which takes a
                     reference to the reader's object *)
                  let* h1 := incref h i in
                  let* s' := assign (h1 ++ [Some (mk_cell 1 (O_iter i i))]) e v (length h1) in
                  Ok (s', V_nothing)
              | O_iter _ _ =>
                  (* mlio-py/mlio/core/data_reader.cc:308-311, record_reader.cc:80-83: the iterator itself; pybind11 finds
                     the Python object of the C++ object that is returned *)
                  let* h1 := incref h i in let* s' := assign h1 e v i in Ok (s', V_nothing)
              end
          end
      end
  | S_next v =>
      match get_var e v with
      | None => Ok (s, V_name_error)
      | Some i =>
          match look h i with
          | None => UB
          | Some c =>
              match c_obj c with
              | O_reader _ => Ok (s, V_type_error)
              | O_iter q _ =>
                  (* reader_ is dereferenced *)
                  match look h q with
                  | Some (mk_cell n (O_reader r)) =>
                      let (g, r') := read_reader r in Ok (mk_st (set_reader h q n r') e, as_next g)
                  | _ => UB
                  end
              end
          end
      end
  | S_read v =>
      on_reader v (fun i n r => let (g, r') := read_reader r in Ok (mk_st (set_reader h i n r') e, as_value g))
  | S_peek v =>
      on_reader v (fun i n r => let (g, r') := peek_reader r in Ok (mk_st (set_reader h i n r') e, as_value g))
  | S_reset v =>
      on_reader v (fun i n r =>
        if r_data r then Ok (mk_st (set_reader h i n (reset_reader r)) e, V_nothing) else Ok (s, V_type_error))
  | S_del v =>
      match get_var e v with
      | None => Ok (s, V_name_error)
      | Some i => let* h' := decref h i in Ok (mk_st h' (del_var e v), V_nothing)
      end
  end.

Fixpoint run (s : state) (p : list stmt) : res (state * list seen) :=
  match p with
  | [] => Ok (s, [])
  | c :: p' => let* a := step s c in let* b := run (fst a) p' in Ok (fst b, snd a :: snd b)
  end.

(* ---------------- Several Python threads ---------------- *)

(* __next__ and read_example release the GIL for the whole call (mlio-py/mlio/core/data_reader.cc:40-44, data_reader.cc:595-597), and
   the members peeked_example_ and read_queue_ have no lock: the calls of several threads interleave.  Every access is
   atomic here, which is more than C++ promises.  Where a thread is in read_example: *)
Inductive pc :=
| P_idle
| P_peeked                    (* about to test peeked_example_, mlio/data_reader_base.cc:27 *)
| P_exchange                  (* mlio/data_reader_base.cc:28 *)
| P_empty                     (* about to test read_queue_.empty(), mlio/parallel_data_reader.cc:114 *)
| P_swap                      (* waits and swaps under the lock, mlio/parallel_data_reader.cc:117-131 *)
| P_empty2                    (* mlio/parallel_data_reader.cc:136 *)
| P_front                     (* moves from the front, mlio/parallel_data_reader.cc:140 *)
| P_pop (x : option item)     (* mlio/parallel_data_reader.cc:142 *)
| P_return (x : option item).

(* t_queue: read_queue_, where None is a pointer that was moved from; t_fill: what successive swaps will bring, each what
   fill_queue_ holds then, nothing when the pipeline has stopped (it does not fail here); t_results: what the calls returned, in the order in which they returned. *)
Record tstate := mk_t {
  t_peeked : option item; t_queue : list (option item); t_fill : list (list (option item)); t_pcs : list pc;
  t_results : list (option item) }.

Definition set_pc (t : tstate) (i : nat) (p : pc) : tstate :=
  mk_t (t_peeked t) (t_queue t) (t_fill t) (put (t_pcs t) i p) (t_results t).

(* One step of thread i, which calls read_example again and again; front() and pop_front() of an empty queue are undefined. *)
Definition tstep (t : tstate) (i : nat) : res tstate :=
  match nth_error (t_pcs t) i with
  | None => Ok t
  | Some P_idle => Ok (set_pc t i P_peeked)
  | Some P_peeked => Ok (set_pc t i (match t_peeked t with Some _ => P_exchange | None => P_empty end))
  | Some P_exchange => Ok (mk_t None (t_queue t) (t_fill t) (put (t_pcs t) i (P_return (t_peeked t))) (t_results t))
  | Some P_empty => Ok (set_pc t i (match t_queue t with [] => P_swap | _ => P_front end))
  | Some P_swap =>
      let b := match t_fill t with [] => [] | b :: _ => b end in
      let f := match t_queue t with [] => tl (t_fill t) | q => q :: tl (t_fill t) end in
      Ok (mk_t (t_peeked t) b f (put (t_pcs t) i P_empty2) (t_results t))
  | Some P_empty2 => Ok (set_pc t i (match t_queue t with [] => P_return None | _ => P_front end))
  | Some P_front =>
      match t_queue t with
      | [] => UB
      | x :: q => Ok (mk_t (t_peeked t) (None :: q) (t_fill t) (put (t_pcs t) i (P_pop x)) (t_results t))
      end
  | Some (P_pop x) =>
      match t_queue t with
      | [] => UB
      | _ :: q => Ok (mk_t (t_peeked t) q (t_fill t) (put (t_pcs t) i (P_return x)) (t_results t))
      end
  | Some (P_return x) =>
      Ok (mk_t (t_peeked t) (t_queue t) (t_fill t) (put (t_pcs t) i P_idle) (t_results t ++ [x]))
  end.

Fixpoint trun (t : tstate) (sched : list nat) : res tstate :=
  match sched with [] => Ok t | i :: l => let* t' := tstep t i in trun t' l end.

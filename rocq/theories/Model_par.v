(* Model of the multi-threaded reader: /repo/src/mlio/parallel_data_reader.cc (cc below) and parallel_data_reader.h (h below).
   A state and the atomic actions of its threads; an execution is any sequence of enabled actions.

   Assumptions about TBB (flow graph): each node acts on its own messages only; source_node calls its body again when its last
   item was accepted; limiter_node passes at most its threshold of messages that have not been
   decremented; an unlimited multifunction_node runs any number of bodies at the same time;
   sequencer_node forwards 0, 1, 2, ...; a serial function_node queues its input and runs one body at a time;
   a cancelled context starts no more bodies, and those already running finish;
   the first exception cancels the context and is rethrown by wait_for_all, later ones are dropped; wait_for_all returns when nothing runs
   or can run; reset() returns the nodes to their initial state.
   Sections under queue_mutex_ are atomic, memory is sequentially consistent.  A notification wakes the thread that is blocked and is lost
   if none is; there are no spurious wake-ups (they would only repeat the test of the predicate).  A body counts as
   finished for the limiter before its notification, which allows more interleavings than the code.  That state_ is also read without the lock
   (cc:76, cc:149) is the subject of C62.  peek_example (data_reader_base.cc:25-44) is not modelled here. *)
From Verif Require Import Common.

(* decode(): an example, nothing (bad_example_handling = skip), or an exception *)
Inductive dres (E : Type) := D_example (e : E) | D_skip | D_fail (x : exn).
Arguments D_example {E} e.
Arguments D_skip {E}.
Arguments D_fail {E} x.

(* cc:191-201; [cores] is the number of processor cores *)
Definition graph_params (cores num_prefetched num_parallel : nat) : nat * nat :=
  let p := if num_prefetched =? 0 then cores else num_prefetched in
  (p, if (num_parallel =? 0) || (p <? num_parallel) then p else num_parallel).

Section Par.
  Context {B E : Type}.
  Context (decode : B -> dres E).
  Context (size_bytes : B -> nat).
  (* the instance batch reader: in each epoch, the batches it delivers, then end of data or an exception (Model_inst); they
     may differ between epochs (reshuffle_each_epoch); the index of a batch is its position *)
  Context (src : nat -> list B) (src_end : nat -> option exn).
  (* num_prefetched_examples and num_parallel_reads as computed by init_graph, see graph_params *)
  Context (prefetch reads : nat).

  (* h:73 *)
  Inductive run_state := not_started | running | stopped | faulted.
  (* where the client's thread is: outside; in read_condition_.wait; before fill_condition_.notify_one in read_example_core and in
     stop; in thread_.join; after join *)
  Inductive cpc := c_idle | c_wait | c_notify | c_notify_stop | c_join | c_joined.
  (* what read_example returns *)
  Inductive out := O_example (e : E) | O_end | O_error (x : exn).

  Record st := mk_st {
    epoch : nat;                        (* number of resets *)
    s_next : nat;                       (* source: batches read so far *)
    s_cached : bool;                    (* source: the last one has not been accepted yet *)
    s_end : bool;                       (* source: the body has returned false *)
    l_count : nat;                      (* limiter: messages under way *)
    l_decr : nat;                       (* decrement messages not yet received *)
    d_list : list (nat * bool);         (* decode: batch, body started *)
    o_buf : list (nat * option E);      (* sequencer *)
    o_next : nat;
    q_pend : list (option E);           (* queue node: input queue *)
    q_run : option (option E);          (* queue node: body in progress *)
    cancelled : bool;                   (* the task group context *)
    failure : option exn;               (* exception caught by the context, later exception_ptr_ *)
    rstate : run_state;
    fillq : list E;
    readq : list E;
    bytes : nat;                        (* num_bytes_read_ *)
    pc : cpc;
    log : list out;                     (* results of read_example since the last reset *)
    n_read : nat;                       (* calls of read_condition_.notify_one still to be made *)
    c_sleep : bool;                     (* the client's thread is blocked on read_condition_ *)
    q_sleep : bool }.                   (* the queue node's body is blocked on fill_condition_ *)

  Definition init (ep : nat) : st :=
    mk_st ep 0 false false 0 0 [] [] 0 [] None false None not_started [] [] 0 c_idle [] 0 false false.

  Inductive action :=
  | A_read          (* the client calls read_example *)
  | A_stop          (* the client calls stop (destructor) or reset *)
  | A_reset         (* the rest of reset *)
  | C_sleep         (* the client's thread finds nothing in read_example and blocks *)
  | C_wake          (* ... or leaves the wait *)
  | C_notify        (* the client's thread calls fill_condition_.notify_one *)
  | C_join          (* join returns *)
  | T_source        (* the source node's body *)
  | T_limit         (* the limiter accepts the source's item *)
  | T_decr          (* the limiter receives a decrement *)
  | T_dstart (i : nat)   (* the decode body starts on batch i *)
  | T_dfinish (i : nat)  (* ... and ends *)
  | T_forward       (* the sequencer forwards the next message *)
  | T_qstart        (* the queue node's body starts *)
  | T_qsleep        (* ... finds the fill queue full and blocks *)
  | T_qfinish       (* ... and ends, having got the lock and, for an example, found room *)
  | T_notify        (* a call of read_condition_.notify_one by the queue node's body or the background thread *)
  | T_done.         (* wait_for_all returns and the background thread sets the run state *)

  Fixpoint take_first {X} (f : X -> bool) (l : list X) : option (X * list X) :=
    match l with
    | [] => None
    | x :: r => if f x then Some (x, r)
                else match take_first f r with Some (y, r') => Some (y, x :: r') | None => None end
    end.

  (* the message sent for a batch: cc:227-236, a null example if decode returned none *)
  Definition message (d : dres E) : option E := match d with D_example e => Some e | _ => None end.

  Definition has {X} (f : X -> bool) (l : list X) : bool := existsb f l.

  (* nothing runs and nothing can run *)
  Definition quiet (s : st) : bool :=
    match q_run s with Some _ => false | None => true end &&
    negb (has snd (d_list s)) &&
    (cancelled s ||
     ((s_end s || s_cached s) && negb (s_cached s && (l_count s <? reads)) && (l_decr s =? 0) &&
      (length (d_list s) =? 0) && negb (has (fun m => fst m =? o_next s) (o_buf s)) && (length (q_pend s) =? 0))).

  Definition step (s : st) (a : action) : option st :=
    let '(mk_st ep nx ca en lc ld dl ob on qp qr cn fl rs fq rq by_ p lg nr cs qs) := s in
    match a with
    (* cc:95-115, 136-156 read_example_core, ensure_pipeline_running *)
    | A_read =>
        match p, rq with
        | c_idle, e :: rq' => Some (mk_st ep nx ca en lc ld dl ob on qp qr cn fl rs fq rq' by_ c_idle (lg ++ [O_example e]) nr cs qs)
        | c_idle, [] =>
            Some (mk_st ep nx ca en lc ld dl ob on qp qr cn fl
                    match rs with not_started => running | _ => rs end fq [] by_ c_wait lg nr false qs)
        | _, _ => None
        end
    (* cc:120-122 the predicate is false; unlocking and blocking are one step *)
    | C_sleep =>
        match p, rs, fq, cs with
        | c_wait, running, [], false => Some (mk_st ep nx ca en lc ld dl ob on qp qr cn fl rs fq rq by_ p lg nr true qs)
        | _, _, _, _ => None
        end
    (* cc:120-131, 136-144; the queues are swapped, the read queue being empty *)
    | C_wake =>
        match p, cs with
        | c_wait, false =>
            match rs, fq with
            | faulted, _ =>
                match fl with
                | Some x => Some (mk_st ep nx ca en lc ld dl ob on qp qr cn fl rs fq rq by_ c_idle (lg ++ [O_error x]) nr cs qs)
                | None => None
                end
            | running, [] => None
            | _, [] => Some (mk_st ep nx ca en lc ld dl ob on qp qr cn fl rs rq [] by_ c_notify (lg ++ [O_end]) nr cs qs)
            | _, e :: fq' => Some (mk_st ep nx ca en lc ld dl ob on qp qr cn fl rs rq fq' by_ c_notify (lg ++ [O_example e]) nr cs qs)
            end
        | _, _ => None
        end
    (* cc:133, 90 *)
    | C_notify =>
        match p with
        | c_notify => Some (mk_st ep nx ca en lc ld dl ob on qp qr cn fl rs fq rq by_ c_idle lg nr cs false)
        | c_notify_stop => Some (mk_st ep nx ca en lc ld dl ob on qp qr cn fl rs fq rq by_ c_join lg nr cs false)
        | _ => None
        end
    (* cc:74-88 stop up to the notification *)
    | A_stop =>
        match p with
        | c_idle =>
            match rs with
            | not_started => Some (mk_st ep nx ca en lc ld dl ob on qp qr cn fl rs fq rq by_ c_joined lg nr cs qs)
            | _ => Some (mk_st ep nx ca en lc ld dl ob on qp qr true fl rs [] [] by_ c_notify_stop lg nr cs qs)
            end
        | _ => None
        end
    (* cc:92; the background thread ends after its notification *)
    | C_join =>
        match p, rs, nr with
        | c_join, (stopped | faulted), 0 => Some (mk_st ep nx ca en lc ld dl ob on qp qr cn fl rs fq rq by_ c_joined lg nr cs qs)
        | _, _, _ => None
        end
    (* cc:300-317 reset after stop(); the queues are not touched *)
    | A_reset =>
        match p with
        | c_joined => Some (mk_st (S ep) 0 false false 0 0 [] [] 0 [] None false None not_started fq rq 0 c_idle [] nr cs qs)
        | _ => None
        end
    (* cc:206-218 source node; an exception of read_instance_batch cancels the graph *)
    | T_source =>
        match rs with
        | running =>
            if cn || ca || en then None
            else match nth_error (src ep) nx with
                 | Some _ => Some (mk_st ep (S nx) true en lc ld dl ob on qp qr cn fl rs fq rq by_ p lg nr cs qs)
                 | None =>
                     match src_end ep with
                     | None => Some (mk_st ep nx ca true lc ld dl ob on qp qr cn fl rs fq rq by_ p lg nr cs qs)
                     | Some x => Some (mk_st ep nx ca en lc ld dl ob on qp qr true (Some x) rs fq rq by_ p lg nr cs qs)
                     end
                 end
        | _ => None
        end
    (* cc:221, 269-270 limiter node and its edges *)
    | T_limit =>
        match rs with
        | running =>
            if negb cn && ca && (lc <? reads)
            then Some (mk_st ep nx false en (S lc) ld (dl ++ [(nx - 1, false)]) ob on qp qr cn fl rs fq rq by_ p lg nr cs qs)
            else None
        | _ => None
        end
    (* cc:273 edge from queue node to limit_node->decrement *)
    | T_decr =>
        match rs, ld with
        | running, S ld' =>
            if cn then None else Some (mk_st ep nx ca en (lc - 1) ld' dl ob on qp qr cn fl rs fq rq by_ p lg nr cs qs)
        | _, _ => None
        end
    (* cc:224-237 decode node *)
    | T_dstart i =>
        match rs with
        | running =>
            if cn then None
            else match take_first (fun m => (fst m =? i) && negb (snd m)) dl with
                 | Some (_, dl') => Some (mk_st ep nx ca en lc ld ((i, true) :: dl') ob on qp qr cn fl rs fq rq by_ p lg nr cs qs)
                 | None => None
                 end
        | _ => None
        end
    | T_dfinish i =>
        match rs with
        | running =>
            match take_first (fun m => (fst m =? i) && snd m) dl, nth_error (src ep) i with
            | Some (_, dl'), Some b =>
                match decode b with
                | D_fail x =>
                    Some (mk_st ep nx ca en lc ld dl' ob on qp qr true (if cn then fl else Some x) rs fq rq by_ p lg nr cs qs)
                | d =>
                    Some (mk_st ep nx ca en lc ld dl' (ob ++ [(i, message d)]) on qp qr cn fl rs fq rq
                            (by_ + match d with D_example _ => size_bytes b | _ => 0 end) p lg nr cs qs)
                end
            | _, _ => None
            end
        | _ => None
        end
    (* cc:240-242 sequencer node *)
    | T_forward =>
        match rs with
        | running =>
            if cn then None
            else match take_first (fun m => fst m =? on) ob with
                 | Some ((_, m), ob') => Some (mk_st ep nx ca en lc ld dl ob' (S on) (qp ++ [m]) qr cn fl rs fq rq by_ p lg nr cs qs)
                 | None => None
                 end
        | _ => None
        end
    (* cc:245-267 queue node *)
    | T_qstart =>
        match rs, qr, qp with
        | running, None, m :: qp' =>
            if cn then None else Some (mk_st ep nx ca en lc ld dl ob on qp' (Some m) cn fl rs fq rq by_ p lg nr cs qs)
        | _, _, _ => None
        end
    (* cc:255-257 the predicate is false *)
    | T_qsleep =>
        match rs, qr, qs with
        | running, Some (Some _), false =>
            if length fq <? prefetch then None
            else Some (mk_st ep nx ca en lc ld dl ob on qp qr cn fl rs fq rq by_ p lg nr cs true)
        | _, _, _ => None
        end
    (* cc:248-250, 255-264; the notification of cc:266 is T_notify *)
    | T_qfinish =>
        match rs, qr, qs with
        | running, Some None, _ => Some (mk_st ep nx ca en lc (S ld) dl ob on qp None cn fl rs fq rq by_ p lg nr cs qs)
        | running, Some (Some e), false =>
            if length fq <? prefetch
            then if cn then Some (mk_st ep nx ca en lc (S ld) dl ob on qp None cn fl rs fq rq by_ p lg nr cs qs)
                 else Some (mk_st ep nx ca en lc (S ld) dl ob on qp None cn fl rs (fq ++ [e]) rq by_ p lg (S nr) cs qs)
            else None
        | _, _, _ => None
        end
    (* cc:184, 266 *)
    | T_notify =>
        match nr with
        | S nr' => Some (mk_st ep nx ca en lc ld dl ob on qp qr cn fl rs fq rq by_ p lg nr' false qs)
        | 0 => None
        end
    (* cc:166-182 run_pipeline from wait_for_all; a body that has a notification to make is still running *)
    | T_done =>
        match rs with
        | running =>
            if quiet s && (nr =? 0)
            then Some (mk_st ep nx ca en lc ld dl ob on qp qr cn fl
                         match fl with Some _ => faulted | None => stopped end fq rq by_ p lg 1 cs qs)
            else None
        | _ => None
        end
    end.

  Fixpoint exec (s : st) (l : list action) : option st :=
    match l with
    | [] => Some s
    | a :: l' => match step s a with Some s' => exec s' l' | None => None end
    end.
End Par.

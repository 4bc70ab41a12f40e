(* Model of a whole data reader: the pipeline of Model_par with the instance batch reader of Model_inst behind its source node, in
   one state.  /repo/src/mlio/parallel_data_reader.cc (cc below), data_reader_base.cc.

   Model_par takes the batches of each epoch as given.  Here they are what the batch reader returns when the source node calls it,
   in the state in which the calls and resets so far have left it. *)
From Verif Require Import Common Model_rec Model_inst Model_par.

Section Whole.
  Context {A E : Type}.
  (* the instance reader made by the constructor (cc:64-72), batch_size and last_example_handling *)
  Context (M : machine A) (size : nat) (last : last_handling).
  Context (decode : batch A -> dres E) (size_bytes : batch A -> nat) (prefetch reads : nat).

  Record wst := mk_wst {
    w_par : @st E;                      (* the pipeline *)
    w_reader : nat * bstate M;          (* batch_reader_ and the reader_ in it *)
    w_read : list (batch A);            (* the batches read since the last reset *)
    w_schema : bool }.                  (* schema_ is set *)

  Inductive waction :=
  | W_schema (ok : bool)    (* the client's thread, in read_schema or read_example, looks at the first instance; ok: infer_schema returns *)
  | W_act (a : action).

  (* cc:64-72 *)
  Definition w_init : wst := mk_wst (init 0) (0, b_init M) [] false.

  (* A step of the pipeline when bs are the batches read so far and the next call returns x (None: end of data). *)
  Definition pstep (bs : list (batch A)) (x : option exn) : @st E -> action -> option st :=
    step decode size_bytes (fun _ => bs) (fun _ => x) prefetch reads.

  (* The action is not possible (Ok None), possible, or its effect is undefined. *)
  Definition wstep (w : wst) (a : waction) : res (option wst) :=
    let '(mk_wst s r bs sc) := w in
    match a with
    (* cc:97, 284-298 ensure_schema_inferred, read_schema: between two calls, while schema_ is not set; no call of read_example has
       got past cc:97 then, so the background thread does not run (w_schema is needed for A_read below) *)
    | W_schema ok =>
        match sc, pc s with
        | false, c_idle =>
            let (x, i') := b_peek M (snd r) in
            match x with
            | Ok _ => Ok (Some (mk_wst s (fst r, i') bs ok))
            | Throw _ => Ok (Some (mk_wst s (fst r, i') bs false))
            | UB => UB
            | Fuel => Fuel
            end
        | _, _ => Ok None
        end
    (* cc:206-218 the source node's body: cc:209 read_instance_batch *)
    | W_act T_source =>
        match pstep bs None s T_source with
        | None => Ok None
        | Some _ =>
            let (x, r') := m_core (batch_reader size last M) r in
            match x with
            | Ok (Some b) => Ok (option_map (fun s' => mk_wst s' r' (bs ++ [b]) sc) (pstep (bs ++ [b]) None s T_source))
            | Ok None => Ok (option_map (fun s' => mk_wst s' r' bs sc) (pstep bs None s T_source))
            | Throw e => Ok (option_map (fun s' => mk_wst s' r' bs sc) (pstep bs (Some e) s T_source))
            | UB => UB
            | Fuel => Fuel
            end
        end
    (* cc:95-97 read_example_core *)
    | W_act A_read => Ok (if sc then option_map (fun s' => mk_wst s' r bs sc) (pstep bs None s A_read) else None)
    (* cc:300-317 reset: cc:306 batch_reader_->reset() *)
    | W_act A_reset => Ok (option_map (fun s' => mk_wst s' (m_reset (batch_reader size last M) r) [] sc) (pstep bs None s A_reset))
    (* everything else does not touch the batch reader; a body of the decode node has one of the batches read *)
    | W_act a => Ok (option_map (fun s' => mk_wst s' r bs sc) (pstep bs None s a))
    end.

  (* A run; None if one of the actions was not possible. *)
  Fixpoint wexec (w : wst) (l : list waction) : res (option wst) :=
    match l with
    | [] => Ok (Some w)
    | a :: l' => let* o := wstep w a in match o with Some w' => wexec w' l' | None => Ok None end
    end.
End Whole.
Arguments wst {A} E M.
Arguments mk_wst {A E M} _ _ _ _.
Arguments w_init {A E} M.
Arguments w_par {A E M} _.
Arguments w_reader {A E M} _.
Arguments w_read {A E M} _.
Arguments w_schema {A E M} _.

(* Model of the instance readers: /repo/src/mlio/instance_readers/ and instance_batch_reader.cc. *)
From Verif Require Import Common Model_rec.

(* A reader object: its state after construction, read_..._core() and reset_core().  The state after a throwing
   call is part of the model. *)
Record machine (A : Type) := mk_machine {
  ms : Type;
  m_init : ms;
  m_core : ms -> res (option A) * ms;
  m_reset : ms -> ms }.
Arguments mk_machine {A} ms m_init m_core m_reset.
Arguments ms {A} m.
Arguments m_init {A} m.
Arguments m_core {A} m _.
Arguments m_reset {A} m _.

(* A non-item outcome at another type. *)
Definition cast_err {A B} (r : res A) (d : res B) : res B :=
  match r with Ok _ => d | Throw e => Throw e | UB => UB | Fuel => Fuel end.

(* ------------------------------------------------------------------ *)
(* Peeking: record_reader_base.cc:23-37, instance_reader_base.cc:22-44, data_reader_base.cc:25-44.
   The state is (peeked_..., state of the derived class). *)

Section Base.
  Context {A : Type} (M : machine A).
  Definition bstate : Type := option A * ms M.
  Definition b_init : bstate := (None, m_init M).

  (* read_record / read_instance / read_example *)
  Definition b_read (s : bstate) : res (option A) * bstate :=
    match fst s with
    | Some x => (Ok (Some x), (None, snd s))
    | None => let (r, s') := m_core M (snd s) in (r, (None, s'))
    end.

  (* peek_record / peek_instance / peek_example *)
  Definition b_peek (s : bstate) : res (option A) * bstate :=
    match fst s with
    | Some x => (Ok (Some x), s)
    | None =>
        let (r, s') := m_core M (snd s) in
        match r with
        | Ok p => (Ok p, (p, s'))
        | _ => (r, (None, s'))
        end
    end.

  (* reset *)
  Definition b_reset (s : bstate) : bstate := (None, m_reset M (snd s)).
End Base.
Arguments b_init {A} M.

(* A client's calls and what they return. *)
Inductive op := Read | Peek | Reset.
Fixpoint run {A} (M : machine A) (s : bstate M) (ops : list op) : list (res (option A)) * bstate M :=
  match ops with
  | [] => ([], s)
  | Read :: ops' => let (r, s1) := b_read M s in let (rs, s2) := run M s1 ops' in (r :: rs, s2)
  | Peek :: ops' => let (r, s1) := b_peek M s in let (rs, s2) := run M s1 ops' in (r :: rs, s2)
  | Reset :: ops' => run M (b_reset M s) ops'
  end.

(* ------------------------------------------------------------------ *)
(* Core_instance_reader                                                 *)

(* A data store and what the record reader factory makes of it: an exception, no record reader (the store is one
   instance, e.g. an image file), or a record reader that delivers some records and then ends or throws
   (Model_rec.records).  Simplification: a record reader that has thrown throws the same error
   when called again. *)
Record store := mk_store { sid : N; sopen : res (option (list rec * res unit)) }.

(* instance.h: Instance.  The bits of a whole-store instance are read on demand (Model_stream, C49). *)
Record instance := mk_instance { i_store : N; i_index : nat; i_bits : option (list byte) }.

(* core_instance_reader.h:55-62 *)
Record core := mk_core {
  c_iter : list store;
  c_store : option N;
  c_reader : option (list rec * res unit);
  c_inst : nat;
  c_rec : nat;
  c_bad : bool }.

(* Record_reader::read_record on such a record reader *)
Definition rr_read (rr : list rec * res unit) : res (option rec) * (list rec * res unit) :=
  match rr with
  | (r :: rs, e) => (Ok (Some r), (rs, e))
  | ([], e) => (cast_err e (Ok None), rr)
  end.

(* core_instance_reader.cc:196-235 init_next_record_reader *)
Definition init_next (s : core) : res bool * core :=
  match c_iter s with
  | [] => (Ok false, mk_core [] None None 0 0 (c_bad s))
  | d :: rest =>
      match sopen d with
      | Ok None => (Ok false, mk_core rest (Some (sid d)) None 0 0 (c_bad s))
      | Ok (Some rr) => (Ok true, mk_core rest (Some (sid d)) (Some rr) 0 0 (c_bad s))
      | e => (cast_err e UB, mk_core (c_iter s) (Some (sid d)) (c_reader s) 0 0 (c_bad s))
      end
  end.

(* core_instance_reader.cc:185-189: the while loop; at most one iteration per remaining store *)
Fixpoint rr_loop (fuel : nat) (s : core) : res (option rec) * core :=
  match fuel with
  | O => (Fuel, s)
  | S fuel' =>
      match c_reader s with
      | None => (UB, s)
      | Some rr =>
          let (r, rr') := rr_read rr in
          match r with
          | Ok (Some x) =>
              (r, mk_core (c_iter s) (c_store s) (Some rr') (c_inst s) (S (c_rec s)) (c_bad s))
          | Ok None =>
              let (b, s') := init_next s in
              match b with
              | Ok true => rr_loop fuel' s'
              | Ok false => (Ok None, s')
              | e => (cast_err e UB, s')
              end
          | e => (e, s)
          end
      end
  end.

(* core_instance_reader.cc:175-194 read_record *)
Definition core_read_record (s : core) : res (option rec) * core :=
  match c_reader s with
  | Some _ => rr_loop (length (c_iter s) + 1) s
  | None =>
      let (b, s') := init_next s in
      match b with
      | Ok true => rr_loop (length (c_iter s') + 1) s'
      | Ok false => (Ok None, s')
      | e => (cast_err e UB, s')
      end
  end.

(* core_instance_reader.cc:168-173 *)
Definition set_bad (s : core) : core :=
  mk_core (c_iter s) (c_store s) (c_reader s) (c_inst s) (c_rec s) true.

Definition reader_len (r : option (list rec * res unit)) : nat :=
  match r with Some rr => length (fst rr) | None => 0 end.
Definition store_len (d : store) : nat :=
  match sopen d with Ok r => reader_len r | _ => 0 end.
Definition records_left (s : core) : nat := reader_len (c_reader s) + list_sum (map store_len (c_iter s)).

(* core_instance_reader.cc:122-166 read_split_record_payload after the 'begin' record.
   Simplification: payloads are concatenated as they come instead of at the end. *)
Fixpoint split_loop (fuel : nat) (s : core) (acc : list byte) : res (list byte) * core :=
  match fuel with
  | O => (Fuel, s)
  | S fuel' =>
      let (r, s') := core_read_record s in
      match r with
      | Ok (Some x) =>
          if N.eqb (kind x) kMiddle then split_loop fuel' s' (acc ++ payload x)
          else if N.eqb (kind x) kEnd then (Ok (acc ++ payload x), s')
          else (Throw Corrupt_record, set_bad s')
      | Ok None => (Throw Corrupt_record, set_bad s')
      | e => (cast_err e UB, s')
      end
  end.

(* core_instance_reader.cc:104-120 read_record_payload *)
Definition read_payload (s : core) : res (option (list byte)) * core :=
  if c_bad s then (Throw Corrupt_record, s)
  else
    let (r, s') := core_read_record s in
    match r with
    | Ok None => (Ok None, s')
    | Ok (Some x) =>
        if N.eqb (kind x) kComplete then (Ok (Some (payload x)), s')
        else if N.eqb (kind x) kBegin then
          let (p, s2) := split_loop (records_left s' + 1) s' (payload x) in
          (rmap Some p, s2)
        else (Throw Corrupt_record, set_bad s')
    | e => (cast_err e UB, s')
    end.

(* core_instance_reader.cc:70-102 handle_errors: every handler dereferences store_; Data_reader_errors and
   unknown exceptions pass.  The wrapping in a Data_reader_error is not modelled. *)
Definition handled (e : exn) : bool :=
  match e with
  | Corrupt_record | Corrupt_header | Corrupt_footer | Record_too_large
  | Stream_err | Inflate_err | Not_supported | System_err => true
  | _ => false
  end.

(* core_instance_reader.cc:46-68 read_instance_core *)
Definition core_read (s : core) : res (option instance) * core :=
  let (p, s') := read_payload s in
  match p with
  | Throw e => (match c_store s' with
                | None => if handled e then UB else Throw e
                | Some _ => Throw e
                end, s')
  | UB => (UB, s')
  | Fuel => (Fuel, s')
  | Ok None =>
      match c_store s' with
      | Some d => (Ok (Some (mk_instance d 0 None)), s')
      | None => (Ok None, s')
      end
  | Ok (Some bits) =>
      match c_store s' with
      | None => (UB, s')
      | Some d =>
          (Ok (Some (mk_instance d (c_inst s') (Some bits))),
           mk_core (c_iter s') (c_store s') (c_reader s') (S (c_inst s')) (c_rec s') (c_bad s'))
      end
  end.

(* core_instance_reader.cc:39-44 and the member initialisers *)
Definition core_init (dataset : list store) : core := mk_core dataset None None 0 0 false.

(* core_instance_reader.cc:237-250 *)
Definition core_reset (dataset : list store) (s : core) : core := mk_core dataset None None 0 0 false.

Definition core_reader (dataset : list store) : machine instance :=
  mk_machine core (core_init dataset) core_read (core_reset dataset).

(* sampled_instance_reader.cc:66-67: static_cast<ptrdiff_t>(sample_ratio * static_cast<float>(n)) for a
   float32 ratio m / 2^e, 0 < m < 2^24, and n < 2^24: the exact product rounded to 24 bits, to nearest, ties to
   even; then truncated.  (A product below the normal range is a multiple of the least denormal and
   truncates to 0 either way.) *)
Definition round24 (p : N) : N :=
  let s := (N.size p - 24)%N in
  if (s =? 0)%N then p
  else
    let q := (p / 2 ^ s)%N in
    let r := (p mod 2 ^ s)%N in
    let h := (2 ^ (s - 1))%N in
    ((q + (if (h <? r) || ((h =? r) && N.odd q) then 1 else 0)) * 2 ^ s)%N.
Definition keep_of_ratio (m e : N) (n : nat) : nat := N.to_nat (round24 (m * N.of_nat n) / 2 ^ e).

(* a float32; f_fin neg m e is (-1)^neg * m / 2^e *)
Inductive f32 := f_nan | f_inf (neg : bool) | f_fin (neg : bool) (m e : N).

(* sampled_instance_reader.cc:30: ratio <= 0 || ratio >= 1; comparisons with NaN are false *)
Definition ratio_rejected (r : f32) : bool :=
  match r with
  | f_nan => false
  | f_inf _ => true
  | f_fin neg m e => (m =? 0)%N || neg || (2 ^ e <=? m)%N
  end.

(* cc:66-67 num_keep; converting NaN or an infinity is UB, and so is a position before the beginning *)
Definition num_keep (r : f32) (n : nat) : res nat :=
  match r with
  | f_fin false m e => Ok (keep_of_ratio m e n)
  | f_fin true m e => if keep_of_ratio m e n =? 0 then Ok 0 else UB
  | _ => UB
  end.


(* ------------------------------------------------------------------ *)
(* Filters                                                              *)

Section Filters.
  Context {A : Type}.

  (* The loops that read and discard n instances (ranged_instance_reader.cc:37-42, sharded_instance_reader.cc:49-54):
     Ok true = all skipped, Ok false = the inner reader ended. *)
  Fixpoint skip_inner (M : machine A) (n : nat) (s : bstate M) : res bool * bstate M :=
    match n with
    | O => (Ok true, s)
    | S n' =>
        let (r, s') := b_read M s in
        match r with
        | Ok (Some _) => skip_inner M n' s'
        | Ok None => (Ok false, s')
        | e => (cast_err e UB, s')
        end
    end.

  (* ranged_instance_reader.{h,cc}: (first_read_, num_instances_read_, inner_) *)
  Definition ranged (skip : nat) (take : option nat) (M : machine A) : machine A :=
    let st := (bool * nat * bstate M)%type in
    let stop (n : nat) := match take with None => false | Some t => n =? t end in (* cc:59-66 *)
    (* cc:45-56 *)
    let go (n : nat) (i : bstate M) : res (option A) * st :=
      if stop n then (Ok None, (false, n, i))
      else let (r, i') := b_read M i in
           (r, (false, match r with Ok (Some _) => S n | _ => n end, i')) in
    mk_machine st (true, 0, b_init M)
      (fun s => (* cc:32-57 *)
         let '(first, n, i) := s in
         if first then
           let (b, i') := skip_inner M skip i in
           match b with
           | Ok true => go n i'
           | Ok false => (Ok None, (false, n, i'))
           | e => (cast_err e UB, (false, n, i'))
           end
         else go n i)
      (fun s => (true, 0, b_reset M (snd s))). (* cc:68-75 *)

  (* sharded_instance_reader.{h,cc}: (first_read_, inner_) *)
  Definition sharded (index num : nat) (M : machine A) : machine A :=
    mk_machine (bool * bstate M) (true, b_init M)
      (fun s => (* cc:36-57 *)
         let (first, i) := s in
         let n := if first then index else num - 1 in
         let (b, i') := skip_inner M n i in
         match b with
         | Ok true => let (r, i2) := b_read M i' in (r, (false, i2))
         | Ok false => (Ok None, (false, i'))
         | e => (cast_err e UB, (false, i'))
         end)
      (fun s => (true, b_reset M (snd s))). (* cc:59-64 *)

  (* sampled_instance_reader.cc:56-63: read until the buffer holds [room] more instances *)
  Fixpoint fill_inner (M : machine A) (room : nat) (i : bstate M) (buf : list A)
    : res bool * list A * bstate M :=
    match room with
    | O => (Ok true, buf, i)
    | S room' =>
        let (r, i') := b_read M i in
        match r with
        | Ok (Some x) => fill_inner M room' i' (buf ++ [x])
        | Ok None => (Ok false, buf, i')
        | e => (cast_err e UB, buf, i')
        end
    end.

  (* sampled_instance_reader.{h,cc}: (buffer_, buffer_pos_ - buffer_.begin(), inner_).
     [keep n] is num_keep, cc:66-67.
     The buffer never reallocates (reserve(100), cc:34), so after an exception in the fill loop buffer_pos_
     is what it was before.  Erasing beyond the end and reading beyond the end are UB. *)
  Definition sampled (keep : nat -> res nat) (M : machine A) : machine A :=
    let st := (list A * nat * bstate M)%type in
    let pop (s : st) : res (option A) * st := (* cc:45-49 *)
      let '(buf, pos, i) := s in
      match buf with
      | [] => (Ok None, s)
      | _ => match nth_error buf pos with
             | Some x => (Ok (Some x), (buf, S pos, i))
             | None => (UB, s)
             end
      end in
    mk_machine st ([], 0, b_init M)
      (fun s => (* cc:39-50, 52-73 *)
         let '(buf, pos, i) := s in
         if pos =? length buf then
           let '(b, buf', i') := fill_inner M 100 i [] in
           match b with
           | Ok _ =>
               match buf' with
               | [] => pop ([], 0, i')
               | _ => match keep (length buf') with
                      | Ok k => if length buf' <? k then (UB, (buf', pos, i')) else pop (firstn k buf', 0, i')
                      | e => (cast_err e UB, (buf', pos, i'))
                      end
               end
           | e => (cast_err e UB, (buf', pos, i'))
           end
         else pop s)
      (fun s => ([], 0, b_reset M (snd s))). (* cc:75-82 *)
End Filters.

(* ------------------------------------------------------------------ *)
(* Shuffled_instance_reader                                             *)

Section Shuffle.
  Context {A : Type}.
  (* The random engine: [seeded] is mt_ after construction or seed(seed_); [draw w] is dist_(mt_) for
     dist_{0, w - 1}; [shuf] is std::shuffle.  Theorems assume only draw w < w and that shuf permutes.
     The distribution object is taken to be stateless (as in libstdc++ and libc++). *)
  Context {rng : Type} (seeded : rng) (draw : nat -> rng -> nat * rng) (shuf : list A -> rng -> list A * rng).
  (* std::numeric_limits<std::size_t>::max() *)
  Context (size_max : nat).

  (* shuffled_instance_reader.h:47-55: (buffer_, inner_has_instance_, mt_, inner_) *)
  Definition shst (M : machine A) : Type := list A * bool * rng * bstate M.

  (* shuffled_instance_reader.cc:75-89 fill_buffer_from_inner *)
  Fixpoint sh_fill (M : machine A) (room : nat) (s : shst M) : res unit * shst M :=
    let '(buf, has, g, i) := s in
    match room with
    | O => (Ok tt, s)
    | S room' =>
        if has then
          let (r, i') := b_read M i in
          match r with
          | Ok (Some x) => sh_fill M room' (buf ++ [x], has, g, i')
          | Ok None => let (buf', g') := shuf buf g in (Ok tt, (buf', false, g', i'))
          | e => (cast_err e UB, (buf, has, g, i'))
          end
        else (Ok tt, s)
    end.

  (* swap the last element into position k and drop the last (cc:91-104) *)
  Definition pop_at (k : nat) (buf : list A) : option (A * list A) :=
    match nth_error buf k, rev buf with
    | Some x, l :: r =>
        Some (x, if k =? length buf - 1 then rev r else firstn k (rev r) ++ l :: skipn (S k) (rev r))
    | _, _ => None
    end.

  (* shuffled_instance_reader.cc:28-119 *)
  Definition shuffled (window : nat) (reshuffle : bool) (M : machine A) : machine A :=
    let w := if window =? 0 then size_max else window in
    mk_machine (shst M) ([], true, seeded, b_init M)
      (fun s => (* cc:52-73 *)
         if window =? 1 then
           let '(buf, has, g, i) := s in
           let (r, i') := b_read M i in (r, (buf, has, g, i'))
         else
           let (u, s1) := sh_fill M (w - length (fst (fst (fst s)))) s in
           match u with
           | Ok _ =>
               let '(buf, has, g, i) := s1 in
               match buf with
               | [] => (Ok None, s1)
               | _ =>
                   if has then
                     let (k, g') := draw window g in
                     match pop_at k buf with
                     | Some (x, buf') => (Ok (Some x), (buf', has, g', i))
                     | None => (UB, s1)
                     end
                   else
                     match rev buf with
                     | x :: r => (Ok (Some x), (rev r, has, g, i))
                     | [] => (UB, s1)
                     end
               end
           | e => (cast_err e UB, s1)
           end)
      (fun s => (* cc:106-119 *)
         let '(buf, has, g, i) := s in
         ([], true, if reshuffle then g else seeded, b_reset M i)).
End Shuffle.

(* ------------------------------------------------------------------ *)
(* make_instance_reader and Instance_batch_reader                       *)

(* data_reader.h:84-136 *)
Inductive last_handling := last_none | last_drop | last_drop_warn | last_pad | last_pad_warn.
Record rd_params := mk_rd_params {
  p_skip : nat;
  p_take : option nat;
  p_shard_index : nat;
  p_num_shards : nat;
  p_ratio : option f32;
  p_shuffle : bool;
  p_window : nat;
  p_reshuffle : bool;
  p_batch : nat;
  p_last : last_handling }.

(* instance_reader.cc:31-55, including the checks in the constructors
   (sharded_instance_reader.cc:31-33, sampled_instance_reader.cc:30-32). *)
Definition make_instance_reader {rng} (seeded : rng) draw shuf size_max (p : rd_params) (dataset : list store)
  : res (machine instance) :=
  let r0 := core_reader dataset in
  let r1 := if (0 <? p_skip p) || match p_take p with Some _ => true | None => false end
            then ranged (p_skip p) (p_take p) r0 else r0 in
  let* r2 := if 1 <? p_num_shards p then
               if p_num_shards p <=? p_shard_index p then Throw Invalid_argument
               else Ok (sharded (p_shard_index p) (p_num_shards p) r1)
             else Ok r1 in
  let* r3 := match p_ratio p with
             | Some r => if ratio_rejected r then Throw Invalid_argument else Ok (sampled (num_keep r) r2)
             | None => Ok r2
             end in
  Ok (if p_shuffle p then shuffled seeded draw shuf size_max (p_window p) (p_reshuffle p) r3 else r3).

(* instance_batch.h *)
Record batch {A : Type} := mk_batch { ba_index : nat; ba_instances : list A; ba_size : nat }.
Arguments batch A : clear implicits.
Arguments mk_batch {A} _ _ _.

(* instance_batch_reader.cc:39-93.  State: (batch_idx_, reader_).  The constructor's check of batch_size is
   make_batch_reader. *)
Definition batch_reader {A} (size : nat) (last : last_handling) (M : machine A) : machine (batch A) :=
  mk_machine (nat * bstate M) (0, b_init M)
    (fun s =>
       let (idx, i) := s in
       let '(b, xs, i') := fill_inner M size i [] in
       match b with
       | Ok _ =>
           match xs with
           | [] => (Ok None, (idx, i'))
           | _ =>
               if negb (length xs =? size) && match last with last_drop | last_drop_warn => true | _ => false end
               then (Ok None, (idx, i'))
               else (Ok (Some (mk_batch idx xs (match last with last_pad => size | _ => length xs end))),
                     (S idx, i'))
           end
       | e => (cast_err e UB, (idx, i'))
       end)
    (fun s => (0, b_reset M (snd s))).
Definition make_batch_reader {A} (size : nat) (last : last_handling) (M : machine A) : res (machine (batch A)) :=
  if size =? 0 then Throw Invalid_argument else Ok (batch_reader size last M).

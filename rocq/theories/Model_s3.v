(* Reading S3 objects while others write them, and making clients. *)
From Verif Require Import Common.

(* ---------------- the service ---------------- *)

(* A text. *)
Definition text := list N.

(* One key of a bucket: its versions, the newest first, each with its version id.  Deleting an object puts a delete marker. *)
Inductive entry := Content (c : list byte) | Marker.
Definition object := list (text * entry).

(* The errors of the service that s3_client.cc:65-83 tells apart; [E_range] (416), [E_other] are two of the others. *)
Inductive s3_error := E_unavailable | E_denied | E_not_found | E_no_bucket | E_no_key | E_timeout | E_range | E_other.

Definition text_eqb (a b : text) : bool := if list_eq_dec N.eq_dec a b then true else false.

(* The bytes a request is about: those of the version asked for, of the newest one if none is. *)
Definition lookup (w : object) (v : text) : s3_error + list byte :=
  match v with
  | [] => match w with (_, Content c) :: _ => inr c | _ => inl E_no_key end
  | _ => match find (fun p => text_eqb (fst p) v) w with Some (_, Content c) => inr c | _ => inl E_other end
  end.

(* HEAD: the length.  [fault] is an error the service answers with instead. *)
Definition svc_head (w : object) (v : text) (fault : option s3_error) : s3_error + N :=
  match fault with
  | Some e => inl e
  | None => match lookup w v with inl e => inl e | inr c => inr (N.of_nat (length c)) end
  end.

(* GET with "Range: bytes=a-b".  The range includes b; a range that starts at or after the end is an error; a range with
   b < a is no range and is ignored (RFC 7233, 2.1). *)
Definition svc_get (w : object) (v : text) (a b : N) (fault : option s3_error) : s3_error + list byte :=
  match fault with
  | Some e => inl e
  | None =>
      match lookup w v with
      | inl e => inl e
      | inr c =>
          if (b <? a)%N then inr c
          else if (N.of_nat (length c) <=? a)%N then inl E_range
          else inr (firstn (N.to_nat (b - a + 1)) (skipn (N.to_nat a) c))
      end
  end.

(* ---------------- the client ---------------- *)

(* The std::errc values used by s3_client.cc and s3_input_stream.cc. *)
Inductive errc := host_unreachable | permission_denied | no_such_file_or_directory | timed_out | io_error | invalid_argument.

(* Outcomes of calls: a result, std::system_error with its code, Stream_error. *)
Inductive reply (A : Type) := R_ok (a : A) | R_system (e : errc) | R_stream_error.
Arguments R_ok {A} a.
Arguments R_system {A} e.
Arguments R_stream_error {A}.

(* s3_client.cc:61-86 throw_s3_error *)
Definition error_code (e : s3_error) : errc :=
  match e with
  | E_unavailable => host_unreachable
  | E_denied => permission_denied
  | E_not_found | E_no_bucket | E_no_key => no_such_file_or_directory
  | E_timeout => timed_out
  | _ => io_error
  end.

(* s3_client.cc:138-164 read_object with a destination of n bytes: the body of the answer; the range is computed in
   std::size_t. *)
Definition answer_body (w : object) (v : text) (offset n : N) (fault : option s3_error) : s3_error + list byte :=
  svc_get w v offset ((offset + n) mod 2 ^ 64) fault.
Definition read_object (w : object) (v : text) (offset n : N) (fault : option s3_error) : reply (list byte) :=
  match answer_body w v offset n fault with
  | inl e => R_system (error_code e)
  | inr body => R_ok (firstn (N.to_nat n) body)
  end.

(* s3_client.cc:166-182 read_object_size *)
Definition read_object_size (w : object) (v : text) (fault : option s3_error) : reply N :=
  match svc_head w v fault with inl e => R_system (error_code e) | inr n => R_ok n end.

(* ---------------- the stream ---------------- *)

(* include/mlio/streams/s3_input_stream.h:82-88, without client, bucket and key. *)
Record stream := mk_stream { x_version : text; x_size : N; x_pos : N; x_closed : bool }.

(* streams/s3_input_stream.cc:86-99 make, 71-74 fetch_size; the uri is well formed (C53). *)
Definition open_stream (w : object) (v : text) (fault : option s3_error) : reply stream :=
  match read_object_size w v fault with
  | R_ok n => R_ok (mk_stream v n 0 false)
  | R_system e => R_system e
  | R_stream_error => R_stream_error
  end.

(* What happens, in the order of time: calls of the reader, each with the error the service answers with, if any; and what
   others do to the object. *)
Inductive step :=
| C_read (n : N) (fault : option s3_error) | C_seek (p : N) | C_close | C_size | C_position
| W_put (id : text) (c : list byte) | W_delete (id : text) | W_remove (id : text).

Inductive out := O_bytes (bs : list byte) | O_number (n : N) | O_unit.

(* What others do.  A new version gets a version id that was not used before (otherwise the request is not one the service
   makes, and is ignored here). *)
Definition known (w : object) (id : text) : bool := existsb (fun p => text_eqb (fst p) id) w.
Definition put (w : object) (id : text) (e : entry) : object := if known w id then w else (id, e) :: w.
Definition world_step (s : step) (w : object) : object :=
  match s with
  | W_put id c => put w id (Content c)
  | W_delete id => put w id Marker
  | W_remove id => filter (fun p => negb (text_eqb (fst p) id)) w
  | _ => w
  end.

(* streams/s3_input_stream.cc:28-43 read, 45-54 seek, 56-59 close; s3_input_stream.h:50-58 size and position. *)
Definition call (s : step) (w : object) (x : stream) : option (reply out * stream) :=
  match s with
  | C_read n fault =>
      Some (if x_closed x then (R_stream_error, x)
            else if (n =? 0)%N || (x_pos x =? x_size x)%N then (R_ok (O_bytes []), x)
            else match read_object w (x_version x) (x_pos x) (N.min (x_size x - x_pos x) n) fault with
                 | R_ok bs => (R_ok (O_bytes bs), mk_stream (x_version x) (x_size x) (x_pos x + N.of_nat (length bs)) false)
                 | R_system e => (R_system e, x)
                 | R_stream_error => (R_stream_error, x)
                 end)
  | C_seek p =>
      Some (if x_closed x then (R_stream_error, x)
            else if (x_size x <? p)%N then (R_system invalid_argument, x)
            else (R_ok O_unit, mk_stream (x_version x) (x_size x) p false))
  | C_close => Some (R_ok O_unit, mk_stream (x_version x) (x_size x) (x_pos x) true)
  | C_size => Some (R_ok (O_number (x_size x)), x)
  | C_position => Some (R_ok (O_number (x_pos x)), x)
  | _ => None
  end.

(* A history: the answers to the calls. *)
Fixpoint run (l : list step) (w : object) (x : stream) : list (reply out) :=
  match l with
  | [] => []
  | s :: l' =>
      match call s w x with
      | Some (r, x') => r :: run l' w x'
      | None => run l' (world_step s w) x
      end
  end.

(* ---------------- making clients ---------------- *)

(* include/mlio/s3_client.h S3_client_options *)
Record client_options := mk_opts {
  o_access_key : text; o_secret_key : text; o_session_token : text; o_profile : text; o_region : text; o_https : bool }.

(* Aws::Auth::AWSCredentials and the part of Aws::Client::ClientConfiguration that is set.  [cfg_profile] is None for the
   default constructor; [cfg_region] is None if the region is left as that constructor finds it. *)
Record credentials := mk_cred { k_access : text; k_secret : text; k_token : text }.
Record config := mk_config { cfg_profile : option text; cfg_region : option text; cfg_https : bool }.

(* One call of make_s3_client: the options, what the provider chain would answer, and whether making the chain throws. *)
Record request := mk_request { q_options : client_options; q_found : credentials; q_throws : bool }.

(* s3_client.cc:41-56 get_default_aws_credentials.  [flag] is chain_initialized.  The local pointer is null unless this call
   is the one that sets it; an exception leaves the flag unset ([thread.once.callonce]). *)
Definition default_credentials (flag : bool) (q : request) : bool * res credentials :=
  if flag then (true, UB)
  else if q_throws q then (false, Throw Other_err)
  else (true, Ok (q_found q)).

Definition is_empty (t : text) : bool := match t with [] => true | _ => false end.

(* s3_client.cc:184-210 make_s3_client *)
Definition make_client (flag : bool) (q : request) : bool * res (credentials * config) :=
  let o := q_options q in
  let '(flag', cr) :=
    if is_empty (o_access_key o) && is_empty (o_secret_key o) then default_credentials flag q
    else (flag, Ok (mk_cred (o_access_key o) (o_secret_key o) (o_session_token o))) in
  (flag',
   let* c := cr in
   let p := if is_empty (o_profile o) then None else Some (o_profile o) in
   let r := if is_empty (o_region o) then None else Some (o_region o) in
   Ok (c, mk_config p r (o_https o))).

(* A process makes clients one after another; after undefined behaviour nothing is known. *)
Fixpoint make_clients (flag : bool) (l : list request) : list (res (credentials * config)) :=
  match l with
  | [] => []
  | q :: l' =>
      let '(flag', r) := make_client flag q in
      match r with UB => [UB] | _ => r :: make_clients flag' l' end
  end.

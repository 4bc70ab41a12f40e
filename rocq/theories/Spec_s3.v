(* What reading an S3 object means: a fixed content and a cursor. *)
From Verif Require Import Common Model_s3.

(* The code each service error is to be reported with. *)
Inductive reported : s3_error -> errc -> Prop :=
| rep_unavailable : reported E_unavailable host_unreachable
| rep_denied : reported E_denied permission_denied
| rep_resource : reported E_not_found no_such_file_or_directory
| rep_bucket : reported E_no_bucket no_such_file_or_directory
| rep_key : reported E_no_key no_such_file_or_directory
| rep_timeout : reported E_timeout timed_out
| rep_range : reported E_range io_error
| rep_other : reported E_other io_error.

(* The answers to the calls of a reader that sees one content, at position [pos]: a read gives the next bytes, as many as
   asked for and there are; a failed read gives the error and changes nothing. *)
Inductive sees (content : list byte) : N -> bool -> list step -> list (reply out) -> Prop :=
| sees_nil pos closed : sees content pos closed [] []
| sees_read pos n f l rs bs rest :
    f = None \/ n = 0%N \/ pos = N.of_nat (length content) ->
    skipn (N.to_nat pos) content = bs ++ rest -> (N.of_nat (length bs) <= n)%N -> ((N.of_nat (length bs) < n)%N -> rest = []) ->
    sees content (pos + N.of_nat (length bs)) false l rs ->
    sees content pos false (C_read n f :: l) (R_ok (O_bytes bs) :: rs)
| sees_fault pos n e c l rs :
    n <> 0%N -> pos <> N.of_nat (length content) -> reported e c ->
    sees content pos false l rs ->
    sees content pos false (C_read n (Some e) :: l) (R_system c :: rs)
| sees_closed_read pos n f l rs :
    sees content pos true l rs -> sees content pos true (C_read n f :: l) (R_stream_error :: rs)
| sees_seek pos p l rs :
    (p <= N.of_nat (length content))%N ->
    sees content p false l rs -> sees content pos false (C_seek p :: l) (R_ok O_unit :: rs)
| sees_far pos p l rs :
    (N.of_nat (length content) < p)%N ->
    sees content pos false l rs -> sees content pos false (C_seek p :: l) (R_system invalid_argument :: rs)
| sees_closed_seek pos p l rs :
    sees content pos true l rs -> sees content pos true (C_seek p :: l) (R_stream_error :: rs)
| sees_close pos closed l rs :
    sees content pos true l rs -> sees content pos closed (C_close :: l) (R_ok O_unit :: rs)
| sees_size pos closed l rs :
    sees content pos closed l rs -> sees content pos closed (C_size :: l) (R_ok (O_number (N.of_nat (length content))) :: rs)
| sees_position pos closed l rs :
    sees content pos closed l rs -> sees content pos closed (C_position :: l) (R_ok (O_number pos) :: rs)
| sees_put pos closed id c l rs : sees content pos closed l rs -> sees content pos closed (W_put id c :: l) rs
| sees_delete pos closed id l rs : sees content pos closed l rs -> sees content pos closed (W_delete id :: l) rs
| sees_remove pos closed id l rs : sees content pos closed l rs -> sees content pos closed (W_remove id :: l) rs.

(* Version [v] of the object has this content. *)
Definition version (w : object) (v : text) (content : list byte) : Prop :=
  v <> [] /\ In (v, Content content) w /\ NoDup (map fst w).

(* The newest version, with id [v], has this content. *)
Definition newest (w : object) (v : text) (content : list byte) : Prop :=
  NoDup (map fst w) /\ exists older, w = (v, Content content) :: older.

(* Nobody writes the object, and nobody removes version [v]. *)
Definition quiet (v : text) (s : step) : Prop :=
  match s with W_put _ _ | W_delete _ => False | W_remove id => id <> v | _ => True end.

(* A request for a client without keys. *)
Definition without_keys (q : request) : Prop := o_access_key (q_options q) = [] /\ o_secret_key (q_options q) = [].
Definition keys_given (q : request) (c : credentials) : Prop :=
  ~ without_keys q /\
  c = mk_cred (o_access_key (q_options q)) (o_secret_key (q_options q)) (o_session_token (q_options q)).

(* A client as it is to be: with the keys given or, without any, those found; profile and region if given; the scheme. *)
Definition given (t : text) (o : option text) : Prop := (t = [] /\ o = None) \/ (t <> [] /\ o = Some t).
Definition proper_client (q : request) (k : credentials * config) : Prop :=
  (keys_given q (fst k) \/ (without_keys q /\ fst k = q_found q)) /\
  given (o_profile (q_options q)) (cfg_profile (snd k)) /\ given (o_region (q_options q)) (cfg_region (snd k)) /\
  cfg_https (snd k) = o_https (q_options q).

(* What is behind the batches of a parallel reader, and what a dataset of text files holds. *)
From Verif Require Import Common Model_rec Spec_rec Model_inst Spec_inst Model_par Spec_par Model_text.

(* The state in which the background thread starts to read the batches of an epoch: a new reader, or one that has been
   reset, whatever it did before; its first instance may have been looked at for the schema. *)
Inductive epoch_start {A} (M : machine A) : nat -> nat * bstate M -> Prop :=
| es_first n : epoch_start M 0 (0, snd (run M (b_init M) (repeat Peek n)))
| es_later e s n : epoch_start M (S e) (0, snd (run M (b_reset M s) (repeat Peek n))).

(* In every epoch, the batches and the end that the background thread sees are those of the batch reader. *)
Definition fed_by {A} (M : machine A) (size : nat) (last : last_handling)
    (src : nat -> list (batch A)) (src_end : nat -> option exn) : Prop :=
  forall e, exists st, epoch_start M e st /\
    reads_as (batch_reader size last M) (None, st) (src e)
      (match src_end e with None => Ok tt | Some x => Throw x end).

(* pad_warn does not pad (C22). *)
Definition effective (l : last_handling) : last_handling := match l with last_pad_warn => last_none | _ => l end.

(* Text that is read correctly (cf. C04 to C06): CR LF only when it is read from memory. *)
Definition text_ok (f : text_file) : Prop :=
  (0 < tf_chunk f)%N /\ (tf_in_memory f = true \/ ~ contains [CR; LF] (tf_text f)).

(* The lines of a file: behind a byte order mark, if there is one; there is none inside (cf. C10). *)
Definition has_lines (f : text_file) (lines : list (list byte)) : Prop :=
  exists mark ls last, tf_text f = mark ++ render_lines ls last /\ (mark = [] \/ mark = utf8_bom) /\
    ~ contains utf8_bom (render_lines ls last) /\
    Forall (fun l => no_eol (fst l)) ls /\ no_eol last /\ eols_ok ls last /\
    lines = lines_of ls last.

(* The instances of the files: each line with the id of its file and its number there. *)
Definition text_instances (fls : list (text_file * list (list byte))) : list instance :=
  concat (map (fun fl => numbered (tf_id (fst fl)) (snd fl)) fls).

(* The lines in an example, without the padding. *)
Definition example_lines (e : text_example) : list (list byte) :=
  firstn (length (te_values e) - te_padding e) (te_values e).

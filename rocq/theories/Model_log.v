(* Logging: the threshold in the library, the one of the Python logger "mlio", and what becomes of a message. *)
From Verif Require Import Common.

(* include/mlio/logging.h:26 Log_level *)
Inductive level := Off | Warning | Info | Debug.
Definition rank (l : level) : nat := match l with Off => 0 | Warning => 1 | Info => 2 | Debug => 3 end.

(* src/mlio/logger.cc:63-66 is_enabled_for *)
Definition is_enabled_for (threshold l : level) : bool := rank l <=? rank threshold.

(* src/mlio-py/mlio/__init__.py:142-150 _map_log_level: logging.NOTSET, WARNING, INFO, DEBUG *)
Definition map_log_level (l : level) : nat := match l with Off => 0 | Warning => 30 | Info => 20 | Debug => 10 end.

(* logging.Logger.isEnabledFor: a logger whose level is NOTSET has that of its parent, here the root logger. *)
Definition py_enabled (own root l : nat) : bool := (if own =? 0 then root else own) <=? l.

(* PyUnicode_DecodeUTF8 in strict mode, which pybind11 uses for std::string_view: whether the bytes are UTF-8 (table 3-7 of the
   Unicode standard). *)
Definition within (a b c : byte) : bool := ((a <=? c) && (c <=? b))%N.
Fixpoint is_utf8 (s : list byte) : bool :=
  match s with
  | [] => true
  | b0 :: r0 =>
      if (b0 <? 128)%N then is_utf8 r0
      else
        match r0 with
        | b1 :: r1 =>
            if within 194 223 b0 then within 128 191 b1 && is_utf8 r1
            else
              match r1 with
              | b2 :: r2 =>
                  if within 224 239 b0
                  then within (if (b0 =? 224)%N then 160 else 128) (if (b0 =? 237)%N then 159 else 191) b1 && within 128 191 b2 && is_utf8 r2
                  else
                    match r2 with
                    | b3 :: r3 =>
                        within 240 244 b0 && within (if (b0 =? 240)%N then 144 else 128) (if (b0 =? 244)%N then 143 else 191) b1 &&
                        within 128 191 b2 && within 128 191 b3 && is_utf8 r3
                    | [] => false
                    end
              | [] => false
              end
        | [] => false
        end
  end.

(* What happens, in any order of threads.  The Python thread sets the level in two steps; threads of readers log in two: the test of the
   threshold, and the call of the handler, which waits for the GIL.  A message that a reader writes only if it warns about bad
   instances names the reader. *)
Inductive event :=
| Set_begin (l : level)                      (* __init__.py:175: the threshold of the library *)
| Set_end                                    (* __init__.py:177: the level of the Python logger *)
| New_reader (k : nat) (warns : bool)        (* a reader is made, with the parameter warn_bad_instances *)
| Log_begin (i : nat) (by_ : option nat) (l : level) (text : list byte)
| Log_end (i : nat).

Record state := mk_state {
  s_core : level;                            (* logger.cc:31 level_ *)
  s_py : nat;                                (* the level of the Python logger *)
  s_setting : option level;                  (* set_log_level is between its two statements *)
  s_warns : list (nat * bool);               (* warn_bad_instances_ of the readers *)
  s_pending : list (nat * (level * list byte));
  s_shown : list (nat * (nat * list byte)) }. (* what the handlers of the Python logger got, last first *)

(* src/mlio-py/mlio/__init__.py:181, and logger.cc:31 before *)
Definition at_import : state := mk_state Warning 30 None [] [] [].

Fixpoint find {A} (k : nat) (l : list (nat * A)) : option A :=
  match l with [] => None | (j, a) :: r => if j =? k then Some a else find k r end.
Definition drop {A} (k : nat) (l : list (nat * A)) : list (nat * A) := filter (fun p => negb (fst p =? k)) l.

(* - src/mlio/data_reader_base.cc:46-52: the reader remembers whether warnings were enabled when it was made, and
     csv_reader.cc:622, image_reader.cc:213 and recordio_protobuf_reader.cc:426 ask it.
   - src/mlio/logger.h:37-42 log, logger.cc:37-46 handle_message, src/mlio-py/mlio/core/logging.cc:47-53,
     src/mlio-py/mlio/__init__.py:153-154: an exception, here of the conversion of the text, is swallowed. *)
Definition step (root : nat) (s : state) (e : event) : state :=
  match e with
  | Set_begin l =>
      match s_setting s with
      | Some _ => s
      | None => mk_state l (s_py s) (Some l) (s_warns s) (s_pending s) (s_shown s)
      end
  | Set_end =>
      match s_setting s with
      | Some l => mk_state (s_core s) (map_log_level l) None (s_warns s) (s_pending s) (s_shown s)
      | None => s
      end
  | New_reader k warns =>
      mk_state (s_core s) (s_py s) (s_setting s) ((k, warns && is_enabled_for (s_core s) Warning) :: s_warns s) (s_pending s) (s_shown s)
  | Log_begin i by_ l text =>
      let wanted := match by_ with None => true | Some k => match find k (s_warns s) with Some b => b | None => false end end in
      if wanted && is_enabled_for (s_core s) l
      then mk_state (s_core s) (s_py s) (s_setting s) (s_warns s) ((i, (l, text)) :: s_pending s) (s_shown s)
      else s
  | Log_end i =>
      match find i (s_pending s) with
      | None => s
      | Some (l, text) =>
          let shown := if is_utf8 text && py_enabled (s_py s) root (map_log_level l) then (i, (map_log_level l, text)) :: s_shown s else s_shown s in
          mk_state (s_core s) (s_py s) (s_setting s) (s_warns s) (drop i (s_pending s)) shown
      end
  end.
Definition run (root : nat) (h : list event) (s : state) : state := fold_left (step root) h s.

(* What the documentation of logging promises (doc/python/logging.md). *)
From Verif Require Import Common Model_log.
Local Open Scope N_scope.

(* The threshold OFF lets nothing pass, WARNING warnings, INFO also information, DEBUG all. *)
Definition passes (threshold l : level) : Prop :=
  match threshold, l with
  | Warning, Warning => True
  | Info, (Warning | Info) => True
  | Debug, (Warning | Info | Debug) => True
  | _, _ => False
  end.

(* The thresholds in force after a history: the last one that has been set, and during a call of set_log_level also the new one.
   In the beginning it is WARNING. *)
Fixpoint forced (last : level) (setting : option level) (h : list event) : level * option level :=
  match h with
  | [] => (last, setting)
  | Set_begin l :: h' => forced last (match setting with Some l' => Some l' | None => Some l end) h'
  | Set_end :: h' => forced (match setting with Some l => l | None => last end) None h'
  | _ :: h' => forced last setting h'
  end.
Definition in_force (h : list event) (l : level) : Prop :=
  let (last, setting) := forced Warning None h in l = last \/ setting = Some l.

(* The history begins with [before], then message [i] is logged, and is finished after [during]. *)
Definition fresh (i : nat) (h : list event) : Prop := forall by_ l t, ~ In (Log_begin i by_ l t) h.
Definition begins (during : list event) (h : list event) : Prop := exists rest, during = (h ++ rest)%list.

(* Reader [k] is made in the history, warns, and warnings passed then; it is made once. *)
Definition warns_since (k : nat) (h : list event) : Prop :=
  exists h1 h2, h = (h1 ++ New_reader k true :: h2)%list /\ (forall w, ~ In (New_reader k w) h2) /\ (forall l, in_force h1 l -> passes l Warning).

(* The UTF-8 encoding of Unicode scalar values. *)
Definition scalar (c : N) : Prop := c < 55296 \/ 57344 <= c < 1114112.
Definition encode (c : N) : list byte :=
  if c <? 128 then [c]
  else if c <? 2048 then [192 + c / 64; 128 + c mod 64]
  else if c <? 65536 then [224 + c / 4096; 128 + c / 64 mod 64; 128 + c mod 64]
  else [240 + c / 262144; 128 + c / 4096 mod 64; 128 + c / 64 mod 64; 128 + c mod 64].
Definition text_of (s : list byte) (cs : list N) : Prop := Forall scalar cs /\ s = concat (map encode cs).

(* logging.WARNING, logging.INFO and logging.DEBUG *)
Definition python_level (l : level) : nat := match l with Warning => 30 | Info => 20 | Debug => 10 | Off => 0 end.

(* What the log has of message [i]. *)
Definition entries (i : nat) (s : state) : list (nat * list byte) := map snd (filter (fun p => (fst p =? i)%nat) (s_shown s)).

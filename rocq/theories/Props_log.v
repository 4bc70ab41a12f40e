(* Logging: C105. *)
From Verif Require Import Common Model_log Spec_log Proof_log.
From Coq Require Import Lia.

(* C105. A message appears in the log of Python exactly once, with its level and its text, if it passes every threshold that is in
   force while it is logged, whatever the other threads do meanwhile and whatever the level of the root logger; messages about
   bad instances come from a reader that warns and was made while warnings passed. *)
Theorem C105_shown : forall root before during after i by_ l text,
  l <> Off -> fresh i before -> fresh i during -> ~ In (Log_end i) during -> fresh i after ->
  (match by_ with None => True | Some k => warns_since k before end) ->
  (forall d, begins during d -> forall th, in_force (before ++ Log_begin i by_ l text :: d) th -> passes th l) ->
  (exists cs, text_of text cs) ->
  entries i (run root (before ++ Log_begin i by_ l text :: during ++ Log_end i :: after) at_import) = [(python_level l, text)].
Proof. intros root before during after i by_ l text L A B C D W P U. apply message_shown; auto. now apply utf8_iff. Qed.
Print Assumptions C105_shown.

(* C105. It never appears if it passes none of them. *)
Theorem C105_hidden : forall root before during after i by_ l text,
  l <> Off -> fresh i before -> fresh i during -> fresh i after ->
  (forall d, begins during d -> forall th, in_force (before ++ Log_begin i by_ l text :: d) th -> ~ passes th l) ->
  entries i (run root (before ++ Log_begin i by_ l text :: during ++ Log_end i :: after) at_import) = [].
Proof. intros root before during after i by_ l text L A B D P. now apply message_hidden. Qed.
Print Assumptions C105_hidden.

(* C105 fails for messages whose text is not UTF-8: they are lost without a trace. *)
Theorem C105_text_refuted : forall root before during after i by_ l text,
  fresh i before -> fresh i during -> ~ In (Log_end i) during -> fresh i after ->
  ~ (exists cs, text_of text cs) ->
  entries i (run root (before ++ Log_begin i by_ l text :: during ++ Log_end i :: after) at_import) = [].
Proof.
  intros root before during after i by_ l text A B C D U. apply message_lost; auto.
  destruct (is_utf8 text) eqn:E; [|reflexivity]. exfalso. apply U. now apply utf8_iff.
Qed.
Print Assumptions C105_text_refuted.

(* C105 fails for readers made while warnings are off: they never warn about bad instances, whatever the level is set to later. *)
Theorem C105_late_refuted : forall root h1 h2 during after i k w l text,
  fresh i (h1 ++ New_reader k w :: h2) -> fresh i during -> fresh i after ->
  (forall w', ~ In (New_reader k w') h2) -> (forall th, in_force h1 th -> ~ passes th Warning) ->
  entries i (run root ((h1 ++ New_reader k w :: h2) ++ Log_begin i (Some k) l text :: during ++ Log_end i :: after) at_import) = [].
Proof. exact late_lost. Qed.
Print Assumptions C105_late_refuted.

(* "é" as UTF-8, and cut in the middle *)
Example C105_case :
  let h := [New_reader 0 true; Log_begin 1 (Some 0) Warning [195; 169]%N; Log_begin 2 None Info [97]%N; Set_begin Debug; Log_end 2;
            Log_begin 3 None Debug [98]%N; Log_end 1; Set_end; Log_begin 4 None Debug [195]%N; Log_end 4; Log_end 3] in
  let s := run 0 h at_import in
  s_shown s = [(3, (10, [98]%N)); (1, (30, [195; 169]%N))] /\
  in_force [Set_begin Debug] Warning /\ in_force [Set_begin Debug] Debug /\ ~ in_force [Set_begin Debug; Set_end] Warning /\
  warns_since 0 [New_reader 0 true] /\ text_of [195; 169]%N [233]%N /\ is_utf8 [195]%N = false.
Proof.
  cbv zeta. split; [reflexivity|]. split; [left; reflexivity|]. split; [right; reflexivity|]. split; [intros [H|H]; discriminate|].
  split.
  - exists [], []. split; [reflexivity|]. split; [intros w []|]. intros l [->|H]; [exact I|discriminate].
  - split; [|reflexivity]. split; [|reflexivity]. constructor; [left; lia|constructor].
Qed.
Example C105_late_case :
  let h1 := [Set_begin Off; Set_end] in let h2 := [Set_begin Warning; Set_end] in
  (forall th, in_force h1 th -> ~ passes th Warning) /\
  s_shown (run 0 (h1 ++ New_reader 0 true :: h2 ++ [Log_begin 1 (Some 0) Warning [97]%N; Log_end 1]) at_import) = [] /\
  s_shown (run 0 (h1 ++ h2 ++ [New_reader 0 true; Log_begin 1 (Some 0) Warning [97]%N; Log_end 1]) at_import) = [(1, (30, [97]%N))].
Proof. cbv zeta. split; [|split; reflexivity]. intros th [->|H]; [intros []|discriminate H]. Qed.

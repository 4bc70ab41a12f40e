From Verif Require Import Common Model_log Spec_log.
From Coq Require Import Lia ZArith ZifyN Zify.
Ltac Zify.zify_post_hook ::= Z.to_euclidean_division_equations.

(* ---------------- UTF-8 ---------------- *)

Lemma encode_utf8 c s : scalar c -> is_utf8 (encode c ++ s) = is_utf8 s.
Proof.
  intros S. unfold scalar in S. unfold encode.
  destruct (N.ltb_spec c 128) as [H|H]; [cbn [app is_utf8]; now rewrite (proj2 (N.ltb_lt _ _) H)|].
  destruct (N.ltb_spec c 2048) as [H2|H2]; [|destruct (N.ltb_spec c 65536) as [H3|H3]]; cbn [app is_utf8]; unfold within.
  - replace (192 + c / 64 <? 128)%N with false by lia. replace ((194 <=? 192 + c / 64) && (192 + c / 64 <=? 223))%N with true by lia.
    replace ((128 <=? 128 + c mod 64) && (128 + c mod 64 <=? 191))%N with true by lia. reflexivity.
  - replace (224 + c / 4096 <? 128)%N with false by lia. replace ((194 <=? 224 + c / 4096) && (224 + c / 4096 <=? 223))%N with false by lia.
    replace ((224 <=? 224 + c / 4096) && (224 + c / 4096 <=? 239))%N with true by lia.
    replace ((128 <=? 128 + c mod 64) && (128 + c mod 64 <=? 191))%N with true by lia.
    set (d := (224 + c / 4096)%N). set (m := (128 + c / 64 mod 64)%N).
    destruct (N.eqb_spec d 224), (N.eqb_spec d 237);
      match goal with |- context [((?x <=? m) && (m <=? ?y))%N] => replace ((x <=? m) && (m <=? y))%N with true by (unfold d, m in *; lia) end; reflexivity.
  - replace (240 + c / 262144 <? 128)%N with false by lia. replace ((194 <=? 240 + c / 262144) && (240 + c / 262144 <=? 223))%N with false by lia.
    replace ((224 <=? 240 + c / 262144) && (240 + c / 262144 <=? 239))%N with false by lia.
    replace ((240 <=? 240 + c / 262144) && (240 + c / 262144 <=? 244))%N with true by lia.
    replace ((128 <=? 128 + c mod 64) && (128 + c mod 64 <=? 191))%N with true by lia.
    replace ((128 <=? 128 + c / 64 mod 64) && (128 + c / 64 mod 64 <=? 191))%N with true by lia.
    set (d := (240 + c / 262144)%N). set (m := (128 + c / 4096 mod 64)%N).
    destruct (N.eqb_spec d 240), (N.eqb_spec d 244);
      match goal with |- context [((?x <=? m) && (m <=? ?y))%N] => replace ((x <=? m) && (m <=? y))%N with true by (unfold d, m in *; lia) end; reflexivity.
Qed.

Lemma decode_one b s : is_utf8 (b :: s) = true -> exists c rest, scalar c /\ b :: s = encode c ++ rest /\ is_utf8 rest = true.
Proof.
  cbn [is_utf8]. destruct (N.ltb_spec b 128) as [H|H].
  { intros U. exists b, s. unfold scalar, encode. rewrite (proj2 (N.ltb_lt _ _) H). repeat split; auto. left. lia. }
  destruct s as [|b1 r1]; [discriminate|]. unfold within. destruct ((194 <=? b) && (b <=? 223))%N eqn:A.
  { intros U. apply Bool.andb_true_iff in U. destruct U as [B U]. exists ((b - 192) * 64 + (b1 - 128))%N, r1. unfold scalar, encode.
    replace ((b - 192) * 64 + (b1 - 128) <? 128)%N with false by lia. replace ((b - 192) * 64 + (b1 - 128) <? 2048)%N with true by lia.
    split; [lia|]. split; [|exact U]. cbn [app]. repeat f_equal; lia. }
  destruct r1 as [|b2 r2]; [discriminate|]. destruct ((224 <=? b) && (b <=? 239))%N eqn:B.
  { intros U. apply Bool.andb_true_iff in U. destruct U as [C U]. exists ((b - 224) * 4096 + (b1 - 128) * 64 + (b2 - 128))%N, r2.
    assert (D : (128 <= b1 <= 191 /\ 128 <= b2 <= 191 /\ (b = 224 -> 160 <= b1) /\ (b = 237 -> b1 <= 159))%N).
    { destruct (N.eqb_spec b 224), (N.eqb_spec b 237); lia. }
    clear C. set (c := ((b - 224) * 4096 + (b1 - 128) * 64 + (b2 - 128))%N). unfold scalar, encode.
    assert (2048 <= c < 65536)%N by (unfold c; lia).
    replace (c <? 128)%N with false by lia. replace (c <? 2048)%N with false by lia. replace (c <? 65536)%N with true by lia.
    split; [unfold c; lia|]. split; [|exact U]. cbn [app]. unfold c. repeat f_equal; lia. }
  destruct r2 as [|b3 r3]; [discriminate|].
  intros U. apply Bool.andb_true_iff in U. destruct U as [C U]. exists ((b - 240) * 262144 + (b1 - 128) * 4096 + (b2 - 128) * 64 + (b3 - 128))%N, r3.
  assert (D : (240 <= b <= 244 /\ 128 <= b1 <= 191 /\ 128 <= b2 <= 191 /\ 128 <= b3 <= 191 /\ (b = 240 -> 144 <= b1) /\ (b = 244 -> b1 <= 143))%N).
  { destruct (N.eqb_spec b 240), (N.eqb_spec b 244); lia. }
  clear C A B. set (c := ((b - 240) * 262144 + (b1 - 128) * 4096 + (b2 - 128) * 64 + (b3 - 128))%N). unfold scalar, encode.
  assert (65536 <= c < 1114112)%N by (unfold c; lia).
  replace (c <? 128)%N with false by lia. replace (c <? 2048)%N with false by lia. replace (c <? 65536)%N with false by lia.
  split; [lia|]. split; [|exact U]. cbn [app]. unfold c. repeat f_equal; lia.
Qed.

Lemma encode_long c : 1 <= length (encode c).
Proof. unfold encode. repeat destruct (_ <? _)%N; cbn; lia. Qed.

Lemma utf8_iff s : is_utf8 s = true <-> exists cs, text_of s cs.
Proof.
  split.
  - assert (G : forall n s, length s <= n -> is_utf8 s = true -> exists cs, text_of s cs).
    { clear s. induction n as [|n IH]; intros s L U.
      - destruct s; [|cbn in L; lia]. exists []. split; constructor.
      - destruct s as [|b s]; [exists []; split; constructor|]. destruct (decode_one b s U) as (c & rest & S & E & U').
        destruct (IH rest) as (cs & F & R); [|exact U'|].
        + pose proof (encode_long c). rewrite E, app_length in L. lia.
        + exists (c :: cs). split; [constructor; assumption|]. cbn. now rewrite E, R. }
    apply (G (length s) s (Nat.le_refl _)).
  - intros (cs & F & ->). induction F as [|c cs S F IH]; [reflexivity|]. cbn [map concat]. rewrite encode_utf8; assumption.
Qed.

(* ---------------- thresholds ---------------- *)

Lemma forced_app h1 : forall last setting h2, forced last setting (h1 ++ h2) = let (l, s) := forced last setting h1 in forced l s h2.
Proof.
  induction h1 as [|e h1 IH]; intros last setting h2; [reflexivity|]. destruct e; cbn [app forced]; apply IH.
Qed.
Lemma run_app root h1 h2 s : run root (h1 ++ h2) s = run root h2 (run root h1 s).
Proof. apply fold_left_app. Qed.

Definition agrees (s : state) (f : level * option level) : Prop :=
  s_setting s = snd f /\ s_core s = (match snd f with Some l => l | None => fst f end) /\ s_py s = map_log_level (fst f).
Lemma agrees_run root h : forall s last setting, agrees s (last, setting) -> agrees (run root h s) (forced last setting h).
Proof.
  induction h as [|e h IH]; intros s last setting A; [exact A|]. cbn [run fold_left]. fold (run root h (step root s e)).
  destruct A as (A1 & A2 & A3). cbn [fst snd] in *.
  destruct e as [l| |k w|i b l t|i]; cbn [step forced].
  - apply IH. rewrite A1. destruct setting as [l'|]; repeat split; cbn; auto.
  - apply IH. rewrite A1. destruct setting as [l'|]; repeat split; cbn; auto. 
  - apply IH. repeat split; auto.
  - apply IH. destruct (_ && _); repeat split; auto.
  - apply IH. destruct (find i _) as [[l t]|]; repeat split; auto.
Qed.
Lemma agrees_import root h : agrees (run root h at_import) (forced Warning None h).
Proof. apply agrees_run. repeat split. Qed.
Lemma core_forced root h : in_force h (s_core (run root h at_import)).
Proof.
  unfold in_force. destruct (agrees_import root h) as (_ & C & _). destruct (forced Warning None h) as [last [l|]]; cbn [fst snd] in *; rewrite C; auto.
Qed.
Lemma py_forced root h : exists l, in_force h l /\ s_py (run root h at_import) = map_log_level l.
Proof.
  unfold in_force. destruct (agrees_import root h) as (_ & _ & P). destruct (forced Warning None h) as [last o]; cbn [fst snd] in *. exists last. auto.
Qed.
Lemma passes_enabled th l : passes th l -> is_enabled_for th l = true.
Proof. destruct th, l; cbn; tauto. Qed.
Lemma passes_not th l : l <> Off -> ~ passes th l -> is_enabled_for th l = false.
Proof. destruct th, l; cbn; tauto. Qed.
Lemma passes_py th l root : passes th l -> py_enabled (map_log_level th) root (map_log_level l) = true.
Proof. destruct th, l; cbn; tauto. Qed.

(* ---------------- messages ---------------- *)

Lemma find_drop {A} i j (l : list (nat * A)) : i <> j -> find i (drop j l) = find i l.
Proof.
  intros D. induction l as [|[k a] l IH]; [reflexivity|]. cbn [drop filter find fst]. destruct (Nat.eqb_spec k j) as [->|K]; cbn [negb].
  - destruct (Nat.eqb_spec j i); [congruence|]. exact IH.
  - cbn [find]. destruct (k =? i); [reflexivity|exact IH].
Qed.
Lemma find_dropped {A} i (l : list (nat * A)) : find i (drop i l) = None.
Proof.
  induction l as [|[k a] l IH]; [reflexivity|]. cbn [drop filter fst]. destruct (Nat.eqb_spec k i) as [->|K]; cbn [negb]; [exact IH|].
  cbn [find]. destruct (Nat.eqb_spec k i); [contradiction|exact IH].
Qed.

Definition quiet (i : nat) (h : list event) : Prop := fresh i h /\ ~ In (Log_end i) h.

(* Events of other messages leave message [i] alone. *)
Lemma quiet_step root i s e : quiet i [e] -> find i (s_pending (step root s e)) = find i (s_pending s) /\ entries i (step root s e) = entries i s.
Proof.
  intros [F N]. destruct e as [l| |k w|j b l t|j]; cbn [step]; try (destruct (s_setting s); split; reflexivity); try (split; reflexivity).
  - destruct (_ && _); [|split; reflexivity]. cbn [s_pending find]. split; [|reflexivity]. destruct (Nat.eqb_spec j i) as [->|]; [|reflexivity].
    exfalso. apply (F b l t). now left.
  - destruct (find j (s_pending s)) as [[l t]|]; [|split; reflexivity]. assert (D : i <> j) by (intros ->; apply N; now left).
    cbn [s_pending]. split; [apply find_drop; exact D|]. unfold entries. cbn [s_shown]. destruct (_ && _); [|reflexivity]. cbn [filter fst].
    destruct (Nat.eqb_spec j i); [congruence|reflexivity].
Qed.
Lemma quiet_cons i e h : quiet i (e :: h) -> quiet i [e] /\ quiet i h.
Proof.
  intros [F N]. split; split.
  - intros b l t [E|[]]. apply (F b l t). now left.
  - intros [E|[]]. apply N. now left.
  - intros b l t I. apply (F b l t). now right.
  - intros I. apply N. now right.
Qed.
Lemma quiet_run root i h : forall s, quiet i h -> find i (s_pending (run root h s)) = find i (s_pending s) /\ entries i (run root h s) = entries i s.
Proof.
  induction h as [|e h IH]; intros s Q; [split; reflexivity|]. apply quiet_cons in Q. destruct Q as [Q1 Q2]. cbn [run fold_left].
  fold (run root h (step root s e)). destruct (IH (step root s e) Q2) as [A B]. destruct (quiet_step root i s e Q1) as [C D]. split; congruence.
Qed.
(* Nothing is shown of a message that never was logged. *)
Lemma fresh_run root i h : forall s, fresh i h -> find i (s_pending s) = None ->
  find i (s_pending (run root h s)) = None /\ entries i (run root h s) = entries i s.
Proof.
  induction h as [|e h IH]; intros s F P; [split; auto|]. cbn [run fold_left]. fold (run root h (step root s e)).
  assert (F1 : fresh i h) by (intros b l t I; apply (F b l t); now right).
  assert (G : find i (s_pending (step root s e)) = None /\ entries i (step root s e) = entries i s).
  { assert (C : e = Log_end i \/ quiet i [e]).
    { destruct e as [l| |k w|j b l t|j]; try (right; split; [intros b' l' t' [E|[]]; discriminate|intros [E|[]]; discriminate]).
      - right. split; [|intros [E|[]]; discriminate]. intros b' l' t' [E|[]]. apply (F b' l' t'). left. exact E.
      - destruct (Nat.eq_dec j i) as [->|D]; [now left|right]. split; [intros b' l' t' [E|[]]; discriminate|].
        intros [E|[]]. injection E as E. contradiction. }
    destruct C as [->|Q].
    - cbn [step]. rewrite P. split; [exact P|reflexivity].
    - destruct (quiet_step root i s e Q) as [A B]. split; [congruence|exact B]. }
  destruct G as [G1 G2]. destruct (IH _ F1 G1) as [A B]. split; congruence.
Qed.

Lemma find_warns root h : forall s k, (forall w, ~ In (New_reader k w) h) -> find k (s_warns (run root h s)) = find k (s_warns s).
Proof.
  induction h as [|e h IH]; intros s k N; [reflexivity|]. cbn [run fold_left]. fold (run root h (step root s e)).
  rewrite IH by (intros w I; apply (N w); now right). destruct e as [l| |j w|j b l t|j]; cbn [step].
  - destruct (s_setting s); reflexivity.
  - destruct (s_setting s); reflexivity.
  - cbn [s_warns find]. destruct (Nat.eqb_spec j k) as [->|]; [|reflexivity]. exfalso. apply (N w). now left.
  - destruct (_ && _); reflexivity.
  - destruct (find j _) as [[l t]|]; reflexivity.
Qed.

Lemma warns_wanted root k h : warns_since k h -> find k (s_warns (run root h at_import)) = Some true.
Proof.
  intros (h1 & h2 & -> & N & P). rewrite run_app. cbn [run fold_left]. fold (run root h1 at_import).
  change (fold_left (step root) h2 ?x) with (run root h2 x). rewrite find_warns by exact N. cbn [step s_warns find]. rewrite Nat.eqb_refl.
  now rewrite (passes_enabled _ _ (P _ (core_forced root h1))).
Qed.

Section Message.
  Variables (root : nat) (before during after : list event) (i : nat) (by_ : option nat) (l : level) (text : list byte).
  Hypothesis (L : l <> Off) (F1 : fresh i before) (F2 : fresh i during) (N : ~ In (Log_end i) during) (F3 : fresh i after).
  Let h := before ++ Log_begin i by_ l text :: during ++ Log_end i :: after.

  Lemma start : find i (s_pending (run root before at_import)) = None /\ entries i (run root before at_import) = [].
  Proof. destruct (fresh_run root i before at_import F1 eq_refl) as [A B]. split; [exact A|]. rewrite B. reflexivity. Qed.

  Lemma ended : forall s, find i (s_pending s) = None -> entries i (run root after s) = entries i s.
  Proof. intros s P. apply (fresh_run root i after s F3 P). Qed.

  Lemma split_run s0 : run root h s0 =
    run root after (step root (run root during (step root (run root before s0) (Log_begin i by_ l text))) (Log_end i)).
  Proof. unfold h. rewrite run_app. cbn [run fold_left]. change (fold_left (step root) ?x ?y) with (run root x y). rewrite run_app. reflexivity. Qed.

  Lemma message_shown :
    (match by_ with None => True | Some k => warns_since k before end) ->
    (forall d, begins during d -> forall th, in_force (before ++ Log_begin i by_ l text :: d) th -> passes th l) ->
    is_utf8 text = true ->
    entries i (run root h at_import) = [(python_level l, text)].
  Proof.
    intros W P U. rewrite split_run. destruct start as [S1 S2].
    assert (E : step root (run root before at_import) (Log_begin i by_ l text) =
      let s := run root before at_import in mk_state (s_core s) (s_py s) (s_setting s) (s_warns s) ((i, (l, text)) :: s_pending s) (s_shown s)).
    { cbn [step]. assert (C : is_enabled_for (s_core (run root before at_import)) l = true).
      { apply passes_enabled. apply (P []); [exists during; reflexivity|]. pose proof (core_forced root before) as C.
        unfold in_force in *. rewrite forced_app. destruct (forced Warning None before) as [a b]. exact C. }
      rewrite C. destruct by_ as [k|]; [rewrite (warns_wanted root k before W)|]; reflexivity. }
    set (s1 := step root (run root before at_import) (Log_begin i by_ l text)) in *.
    destruct (quiet_run root i during s1 (conj F2 N)) as [Q1 Q2].
    assert (D : exists th, passes th l /\ s_py (run root during s1) = map_log_level th).
    { destruct (py_forced root (before ++ Log_begin i by_ l text :: during)) as (th & I & Y). exists th. split.
      - apply (P during); [exists []; now rewrite app_nil_r|exact I].
      - rewrite run_app in Y. exact Y. }
    destruct D as (th & T & Y). set (s2 := run root during s1) in *.
    assert (P2 : find i (s_pending s2) = Some (l, text)). { rewrite Q1, E. cbn [s_pending find]. now rewrite Nat.eqb_refl. }
    assert (E2 : entries i s2 = []). { rewrite Q2, E. exact S2. }
    rewrite ended.
    - cbn [step]. rewrite P2, U, Y, (passes_py th l root T). unfold entries in *. cbn [s_shown andb filter fst]. rewrite Nat.eqb_refl.
      cbn [map snd]. rewrite E2. destruct l; reflexivity.
    - cbn [step]. rewrite P2. cbn [s_pending]. apply find_dropped.
  Qed.

  Lemma message_hidden :
    (forall d, begins during d -> forall th, in_force (before ++ Log_begin i by_ l text :: d) th -> ~ passes th l) ->
    entries i (run root h at_import) = [].
  Proof.
    intros P. rewrite split_run. destruct start as [S1 S2].
    assert (E : step root (run root before at_import) (Log_begin i by_ l text) = run root before at_import).
    { cbn [step]. assert (C : is_enabled_for (s_core (run root before at_import)) l = false).
      { apply passes_not; [exact L|]. apply (P []); [exists during; reflexivity|]. pose proof (core_forced root before) as C.
        unfold in_force in *. rewrite forced_app. destruct (forced Warning None before) as [a b]. exact C. }
      rewrite C, Bool.andb_false_r. reflexivity. }
    rewrite E. destruct (fresh_run root i during _ F2 S1) as [Q1 Q2]. rewrite ended.
    - cbn [step]. rewrite Q1. now rewrite Q2.
    - cbn [step]. rewrite Q1. exact Q1.
  Qed.

  Lemma message_lost : is_utf8 text = false -> entries i (run root h at_import) = [].
  Proof.
    intros U. rewrite split_run. destruct start as [S1 S2].
    set (s1 := step root (run root before at_import) (Log_begin i by_ l text)).
    assert (A : (find i (s_pending s1) = None \/ find i (s_pending s1) = Some (l, text)) /\ entries i s1 = []).
    { unfold s1. cbn [step]. destruct (_ && _); [|auto]. cbn [s_pending find]. rewrite Nat.eqb_refl. auto. }
    clearbody s1. destruct A as [A1 A2]. destruct (quiet_run root i during s1 (conj F2 N)) as [Q1 Q2]. rewrite <- Q1 in A1. rewrite <- Q2 in A2.
    clear Q1 Q2. set (s2 := run root during s1) in *. clearbody s2. rewrite ended.
    - cbn [step]. destruct A1 as [-> | ->]; [exact A2|]. rewrite U. exact A2.
    - cbn [step]. destruct A1 as [A1|A1]; rewrite A1; [exact A1|]. cbn [s_pending]. apply find_dropped.
  Qed.
End Message.


Lemma late_lost root h1 h2 during after i k w l text :
  fresh i (h1 ++ New_reader k w :: h2) -> fresh i during -> fresh i after ->
  (forall w', ~ In (New_reader k w') h2) -> (forall th, in_force h1 th -> ~ passes th Warning) ->
  entries i (run root ((h1 ++ New_reader k w :: h2) ++ Log_begin i (Some k) l text :: during ++ Log_end i :: after) at_import) = [].
Proof.
  intros F1 F2 F3 N P. rewrite run_app.
  assert (W : find k (s_warns (run root (h1 ++ New_reader k w :: h2) at_import)) = Some false).
  { rewrite run_app. cbn [run fold_left]. fold (run root h1 at_import). change (fold_left (step root) h2 ?x) with (run root h2 x).
    rewrite find_warns by exact N. cbn [step s_warns find]. rewrite Nat.eqb_refl.
    rewrite (passes_not _ Warning ltac:(discriminate) (P _ (core_forced root h1))). now rewrite Bool.andb_false_r. }
  destruct (fresh_run root i _ at_import F1 eq_refl) as [A B].
  set (s := run root (h1 ++ New_reader k w :: h2) at_import) in *. clearbody s. cbn [run fold_left step]. rewrite W. cbn [andb].
  change (fold_left (step root) ?x ?y) with (run root x y).
  destruct (fresh_run root i (during ++ Log_end i :: after) s) as [_ C].
  - intros b' l' t' I. apply in_app_iff in I. destruct I as [I|[I|I]]; [exact (F2 _ _ _ I)|discriminate|exact (F3 _ _ _ I)].
  - exact A.
  - rewrite C, B. reflexivity.
Qed.

(* Properties C01, C02, C03: splitting a CSV row into fields. *)
From Verif Require Import Common Model_csvtok Spec_csvtok Proof_csvtok.

(* C01: whatever way fields are written (verbatim where allowed, or quoted), reading the row
   returns exactly the fields. *)
Theorem C01_csv_round_trip : forall (delim quote : byte) (fs : list (list byte * bool)),
  delim <> quote -> fs <> [] -> Forall (writable delim quote) fs ->
  tokenize delim quote None (render_row delim quote fs)
  = Ok (map (fun fq => (fst fq, false)) fs).
Proof. exact tokenize_render. Qed.
Print Assumptions C01_csv_round_trip.

(* a,"x,""y",,"" with delimiter 44 and quote 34 *)
Example C01_example :
  let fs := [([97], false); ([120; 44; 34; 121], true); ([], false); ([], true)]%N in
  44%N <> 34%N /\ fs <> [] /\ Forall (writable 44 34) fs /\
  render_row 44 34 fs = [97; 44; 34; 120; 44; 34; 34; 121; 34; 44; 44; 34; 34]%N.
Proof.
  split; [discriminate|]. split; [discriminate|]. split; [|reflexivity].
  repeat apply Forall_cons; try apply Forall_nil; unfold writable, verbatim_ok; cbn; intuition discriminate.
Qed.

(* C02: the reader accepts exactly the grammar ... *)
Theorem C02_csv_accepts_grammar : forall (delim quote : byte) t vs,
  tokenize delim quote None t = Ok (map (fun v => (v, false)) vs) <-> Row delim quote t vs.
Proof. exact tokenize_iff_row. Qed.
Print Assumptions C02_csv_accepts_grammar.

(* ... reports a corrupt record exactly for rows ending inside a quoted field ... *)
Theorem C02_csv_rejects_unclosed : forall (delim quote : byte) t,
  tokenize delim quote None t = Throw Corrupt_record <-> Unclosed delim quote t.
Proof. exact tokenize_iff_unclosed. Qed.
Print Assumptions C02_csv_rejects_unclosed.

(* ... and nothing else can happen: no other error, no undefined behaviour, no divergence,
   and there is always at least one field. *)
Theorem C02_csv_total : forall (delim quote : byte) t,
  (exists vs, vs <> [] /\ tokenize delim quote None t = Ok (map (fun v => (v, false)) vs)
              /\ Row delim quote t vs) \/
  (tokenize delim quote None t = Throw Corrupt_record /\ Unclosed delim quote t).
Proof. exact tokenize_cases. Qed.
Print Assumptions C02_csv_total.

(* Decoding uses one tokenizer for many rows: whatever it was doing before, after reset() it gives the fields a new one gives. *)
Theorem C02_csv_reset : forall (delim quote : byte) max t text,
  tok_all delim quote max (length text + 2) (tok_reset t text) = tokenize delim quote max text.
Proof. intros. unfold tokenize. rewrite Nat.add_comm. reflexivity. Qed.
Print Assumptions C02_csv_reset.

Example C02_csv_reset_case :
  match tok_next 44%N 34%N None (tok_new [97; 98]%N) with
  | Ok (true, t) => t_finished t = true /\
      tok_all 44%N 34%N None 5 (tok_reset t [99; 44; 100]%N) = Ok [([99]%N, false); ([100]%N, false)]
  | _ => False
  end.
Proof. vm_compute. auto. Qed.

Example C02_example_row : Row 44 34 [34; 97; 34; 98; 44]%N [[97; 98]; []]%N.
Proof.
  apply (R_cons 44 34 [34; 97; 34; 98]%N [97; 98]%N [] [[]]%N).
  - apply (F_quoted 44 34 [97]%N [97]%N [98]%N); [discriminate| |].
    + constructor; [discriminate|constructor].
    + split; cbn; intuition discriminate.
  - constructor. constructor. split; [intros []|discriminate].
Qed.
Example C02_example_unclosed : Unclosed 44 34 [97; 44; 34; 98; 34; 34]%N.
Proof.
  apply (U_cons 44 34 [97]%N [97]%N).
  - constructor. split; cbn; intuition discriminate.
  - apply (U_last 44 34 [98; 34; 34]%N [98; 34]%N); [discriminate|].
    apply QB_char; [discriminate|]. apply QB_quote. apply QB_nil.
Qed.

(* C03: with a maximum field length the fields are the unlimited ones, cut to
   the limit and flagged iff longer; fields and field boundaries are otherwise the same, and so are errors. *)
Theorem C03_csv_field_limit : forall (delim quote : byte) (m : nat) t,
  (forall fs, tokenize delim quote None t = Ok fs ->
     tokenize delim quote (Some m) t
     = Ok (map (fun f => (firstn m (fst f), m <? length (fst f))) fs)) /\
  (forall e, tokenize delim quote None t = Throw e ->
     tokenize delim quote (Some m) t = Throw e).
Proof. exact tokenize_limit. Qed.
Print Assumptions C03_csv_field_limit.

Example C03_example : (* 34 = quote; row: abc,"d,e" with limit 2 *)
  tokenize 44 34 (Some 2) [97; 98; 99; 44; 34; 100; 44; 34]%N
  = Ok [([97; 98], true); ([100; 44], false)]%N.
Proof. vm_compute. reflexivity. Qed.

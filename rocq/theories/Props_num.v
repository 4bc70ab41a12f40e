From Verif Require Import Common Model_num Spec_num Proof_num.
Local Open Scope Z_scope.

Definition txt_12 : list byte := [32; 43; 49; 50; 10]%N.                          (* " +12\n" *)
Definition txt_m129 : list byte := [45; 49; 50; 57]%N.                            (* "-129" *)
Definition txt_max : list byte := [50; 49; 52; 55; 52; 56; 51; 54; 52; 55]%N.     (* "2147483647" *)

Lemma written_ex (w sg ds w' : list byte) neg : Forall space w -> sign_text sg neg -> ds <> [] ->
  Forall is_digit ds -> Forall space w' -> written (w ++ sg ++ ds ++ w') neg (with_sign neg (value ds)).
Proof. intros. exists w, sg, ds, w'. auto 8. Qed.

Ltac wr w sg ds w' neg :=
  apply (written_ex w sg ds w' neg);
  [ repeat constructor; unfold space; lia
  | unfold sign_text; auto
  | discriminate
  | repeat constructor; unfold is_digit; lia
  | repeat constructor; unfold space; lia ].

(* ---------------- C38 ---------------- *)

(* A text is accepted with value z exactly when it is a decimal integer that denotes z, z is
   in the range of the type, and, for the unsigned types, there is no minus sign. *)
Theorem C38_accepts_exactly : forall t base s z,
  try_parse_int t base s = P_ok z <->
  in_range t z /\ exists neg, written s neg z /\ (signed t = false -> neg = false).
Proof. exact int_exact. Qed.
Print Assumptions C38_accepts_exactly.

Example C38_case_accepts : try_parse_int i8 10 txt_12 = P_ok 12 /\ written txt_12 false 12 /\ in_range i8 12.
Proof.
  split; [reflexivity|]. split; [|cbn; lia].
  wr [32%N] [43%N] [49%N; 50%N] [10%N] false.
Qed.

(* A decimal integer outside the range is reported as an overflow. *)
Theorem C38_overflow : forall t base s neg z,
  written s neg z -> ~ in_range t z -> try_parse_int t base s = P_overflowed.
Proof. exact int_overflow. Qed.
Print Assumptions C38_overflow.

Example C38_case_overflow : written txt_m129 true (-129) /\ ~ in_range i8 (-129).
Proof.
  split; [|cbn; lia]. wr (@nil byte) [45%N] [49%N; 50%N; 57%N] (@nil byte) true.
Qed.

(* A text denotes at most one integer. *)
Theorem C38_unambiguous : forall s neg z neg' z',
  written s neg z -> written s neg' z' -> neg = neg' /\ z = z'.
Proof. exact written_unique. Qed.
Print Assumptions C38_unambiguous.

(* Malformed text is never accepted. *)
Theorem C38_malformed_rejected : forall t base s z, malformed s -> try_parse_int t base s <> P_ok z.
Proof. intros t base s z M H. apply int_exact in H. destruct H as (_ & neg & W & _). exact (M _ _ W). Qed.
Print Assumptions C38_malformed_rejected.

Example C38_case_malformed : malformed [97; 98; 99]%N.
Proof.
  intros neg z W. assert (H : in_range i64 z \/ ~ in_range i64 z) by (cbn; lia). destruct H as [H|H].
  - assert (K : try_parse_int i64 10 [97; 98; 99]%N = P_ok z)
      by (apply int_exact; split; [exact H|]; exists neg; split; [exact W|discriminate]).
    discriminate.
  - apply (int_overflow i64 10) in W; [discriminate|exact H].
Qed.

(* Malformed text with digits at its beginning is reported as a failure if these digits denote
   a number strictly between the ends of the range of the type used for the conversion.
   Missing: the other malformed texts, for which the statement is false (next theorems). *)
Theorem C38_malformed_fails_partial : forall t base w sg neg ds r,
  Forall space w -> sign_text sg neg -> Forall is_digit ds -> ds <> [] ->
  ~ starts_with_digit r -> ~ Forall space r -> inside t (with_sign neg (value ds)) ->
  try_parse_int t base (w ++ sg ++ ds ++ r) = P_failed.
Proof. exact int_malformed. Qed.
Print Assumptions C38_malformed_fails_partial.

Example C38_case_fails : try_parse_int u8 10 ([32%N] ++ [] ++ [49%N] ++ [120%N]) = P_failed /\ inside u8 1.
Proof. split; [reflexivity|cbn; lia]. Qed.

(* For the signed types the same holds for text without digits at its beginning. *)
Theorem C38_no_number_fails_partial : forall t base w sg neg r,
  signed t = true -> Forall space w -> sign_text sg neg -> ~ starts_with_digit r ->
  (sg = [] -> r = [] \/ exists c n, r = c :: n /\ ~ space c /\ no_sign c) ->
  try_parse_int t base (w ++ sg ++ r) = P_failed.
Proof. exact int_no_digits. Qed.
Print Assumptions C38_no_number_fails_partial.

Example C38_case_no_number : try_parse_int i16 10 ([32%N] ++ [45%N] ++ [97%N]) = P_failed.
Proof. reflexivity. Qed.

(* The text "abc" is no number, and yet an overflow for an unsigned type. *)
Theorem C38_malformed_is_failure_refuted : exists t base s,
  malformed s /\ signed t = false /\ try_parse_int t base s = P_overflowed.
Proof. exists u32, 10, [97; 98; 99]%N. split; [exact C38_case_malformed|]. split; reflexivity. Qed.
Print Assumptions C38_malformed_is_failure_refuted.

(* The text "2147483647x" is no number, and an overflow for a signed type. *)
Theorem C38_malformed_signed_refuted : exists t base s,
  malformed s /\ signed t = true /\ try_parse_int t base s = P_overflowed.
Proof.
  exists i32, 10, (txt_max ++ [120%N]). split; [|split; reflexivity].
  intros neg z W. assert (H : in_range i64 z \/ ~ in_range i64 z) by (cbn; lia). destruct H as [H|H].
  - assert (K : try_parse_int i64 10 (txt_max ++ [120%N]) = P_ok z)
      by (apply int_exact; split; [exact H|]; exists neg; split; [exact W|discriminate]).
    discriminate.
  - apply (int_overflow i64 10) in W; [discriminate|exact H].
Qed.
Print Assumptions C38_malformed_signed_refuted.

(* "-0" denotes zero, which every type contains; the unsigned types reject it. *)
Theorem C38_in_range_accepted_refuted : exists t base s neg z,
  written s neg z /\ in_range t z /\ try_parse_int t base s = P_overflowed.
Proof.
  exists u8, 10, [45; 48]%N, true, 0. split; [|split; [cbn; lia|reflexivity]].
  wr (@nil byte) [45%N] [48%N] (@nil byte) true.
Qed.
Print Assumptions C38_in_range_accepted_refuted.

(* ---------------- C39 ---------------- *)

(* Inference always gives a type, and the parser of that type accepts the inspected cell,
   whatever spellings of NaN and whatever base are configured. *)
Theorem C39_inferred_type_parses : forall F atof atod is_inf qnan (s : list byte) nans base,
  exists d v, infer_data_type F atod is_inf qnan s = Ok d /\
              parse_cell F atof atod is_inf qnan d nans base s = Ok (P_ok v).
Proof. intros. apply infer_parses. Qed.
Print Assumptions C39_inferred_type_parses.

(* A decimal integer is inferred as int64 if it fits and as uint64 if only that fits. *)
Theorem C39_integers : forall F (atod : list byte -> option F) is_inf qnan s neg z, written s neg z ->
  (in_range i64 z -> infer_data_type F atod is_inf qnan s = Ok (D_int i64)) /\
  (~ in_range i64 z -> in_range u64 z -> infer_data_type F atod is_inf qnan s = Ok (D_int u64)).
Proof. intros. eapply infer_int; eassumption. Qed.
Print Assumptions C39_integers.

Definition txt_2_63 : list byte :=
  [57; 50; 50; 51; 51; 55; 50; 48; 51; 54; 56; 53; 52; 55; 55; 53; 56; 48; 56]%N. (* 2^63 *)
Example C39_case :
  written txt_2_63 false 9223372036854775808 /\
  infer_data_type nat (fun _ => Some 0%nat) (fun _ => false) 0%nat txt_2_63 = Ok (D_int u64).
Proof.
  split; [|reflexivity]. change 9223372036854775808 with (with_sign false (value txt_2_63)).
  change txt_2_63 with ([] ++ [] ++ txt_2_63 ++ []) at 1. apply written_ex;
  [ constructor | left; auto | discriminate | repeat constructor; unfold is_digit; lia | constructor ].
Qed.

(* ---------------- C64 ---------------- *)

(* The base in the parser options has no effect. *)
Theorem C64_base_is_used_refuted :
  (forall t base base' s, try_parse_int t base s = try_parse_int t base' s) /\
  exists t base s z, value_in base 0 s = z /\ in_range t z /\ try_parse_int t base s <> P_ok z.
Proof.
  split; [reflexivity|]. exists i32, 16, [49; 48]%N, 16. split; [reflexivity|]. split; [cbn; lia|discriminate].
Qed.
Print Assumptions C64_base_is_used_refuted.

(* ---------------- C65 ---------------- *)

(* Parsing a cell is well defined if there are no NaN spellings or all bytes are below 128. *)
Theorem C65_defined_partial : forall F atof atod is_inf qnan d nans base (s : list byte),
  nans = [] \/ Forall (fun c : byte => c < 128)%N s ->
  exists r, parse_cell F atof atod is_inf qnan d nans base s = Ok r.
Proof. intros. apply cell_defined. assumption. Qed.
Print Assumptions C65_defined_partial.

Example C65_case : parse_cell nat (fun _ => None) (fun _ => None) (fun _ => false) 7%nat D_float32 [[110; 97]%N] 10
   [32; 110; 97; 32]%N = Ok (P_ok (V_float nat 7%nat)).
Proof. reflexivity. Qed.

(* With a NaN spelling, a cell that begins with a byte beyond 127 is undefined behaviour. *)
Theorem C65_defined_refuted : forall F atof atod is_inf qnan, atod [195%N; 169%N] = None ->
  exists d nans base s, parse_cell F atof atod is_inf qnan d nans base s = UB.
Proof.
  intros F atof atod is_inf qnan H. exists D_float64, [[110; 97]%N], 10, [195; 169]%N.
  cbn. unfold try_parse_float. rewrite H. reflexivity.
Qed.
Print Assumptions C65_defined_refuted.

(* A NaN spelling surrounded by white space is NaN unless it reads as a number. *)
Theorem C65_nan_spelling : forall F atof atod is_inf qnan d nans base s n w w',
  d = D_float32 \/ d = D_float64 ->
  (if match d with D_float32 => true | _ => false end then atof else atod) s = None ->
  In n nans -> s = w ++ n ++ w' -> Forall space w -> Forall space w' ->
  Forall (fun c : byte => c < 128)%N s ->
  (forall c, hd_error n = Some c -> ~ space c) -> (forall c, hd_error (rev n) = Some c -> ~ space c) ->
  parse_cell F atof atod is_inf qnan d nans base s = Ok (P_ok (V_float F qnan)).
Proof.
  intros. eapply nan_spelling; eauto using drop_space_hd.
Qed.
Print Assumptions C65_nan_spelling.

(* Nothing else is NaN: a value of a floating-point column is the number the text says, or NaN for one of the spellings. *)
Theorem C65_nan_only : forall F atof atod is_inf qnan d nans base s v,
  d = D_float32 \/ d = D_float64 ->
  parse_cell F atof atod is_inf qnan d nans base s = Ok (P_ok v) ->
  let conv := if match d with D_float32 => true | _ => false end then atof else atod in
  (exists x, conv s = Some x /\ is_inf x = false /\ v = V_float F x) \/
  (conv s = None /\ v = V_float F qnan /\ exists n w w', In n nans /\ s = w ++ n ++ w' /\ Forall space w /\ Forall space w').
Proof. exact float_values. Qed.
Print Assumptions C65_nan_only.

Example C65_nan_only_case :
  let conv := fun s => match s with [49]%N => Some 1%Z | _ => None end in
  parse_cell Z conv conv (fun _ => false) 99%Z D_float32 [[110; 97]; [63]]%N 10 [32; 63]%N = Ok (P_ok (V_float Z 99)) /\
  parse_cell Z conv conv (fun _ => false) 99%Z D_float32 [[110; 97]; [63]]%N 10 [49]%N = Ok (P_ok (V_float Z 1)) /\
  parse_cell Z conv conv (fun _ => false) 99%Z D_float32 [[110; 97]; [63]]%N 10 [110; 98]%N = Ok P_failed.
Proof. repeat split. Qed.

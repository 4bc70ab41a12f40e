(* Model of the estimate of the cardinality sketches:
   /repo/src/mlio-py/mlio/contrib/insights/{hll/hyperloglog.cc, column_statistics.h}.
   The sketches themselves are in Model_insights.
   The paths below are relative to /repo/src/mlio-py/mlio/contrib/insights. *)
From Verif Require Import Common Model_insights.
From Coq Require Import QArith Qround.
Import List.
Local Open Scope Q_scope.

(* The arithmetic of double: the result of an operation is the exact result rounded by
   [f_round]; [f_log] is the log of the C library for a positive argument.  Only finite values
   are represented. *)
Record arithmetic := { f_round : Q -> Q; f_log : Q -> Q }.

Section Estimate.
  Context (F : arithmetic).
  Let rnd := f_round F.

  (* hll/hyperloglog.cc:35 m_ *)
  Definition registers (b : N) : Q := inject_Z (2 ^ Z.of_N b).

  (* hll/hyperloglog.cc:41-56 alpha_mm_.  The literals are rounded, too. *)
  Definition alpha (b : N) : Q :=
    if (b =? 4)%N then rnd (673 # 1000)
    else if (b =? 5)%N then rnd (697 # 1000)
    else if (b =? 6)%N then rnd (709 # 1000)
    else rnd (rnd (7213 # 10000) / rnd (1 + rnd (rnd (1079 # 1000) / registers b))).
  Definition alpha_mm (b : N) : Q := rnd (rnd (alpha b * registers b) * registers b).

  (* hll/hyperloglog.cc:80 1 << M_[i], on int: undefined from 32 on; for 31 it is the smallest
     int. *)
  Definition shifted (r : N) : res Z :=
    if (r <? 31)%N then Ok (2 ^ Z.of_N r)%Z
    else if (r =? 31)%N then Ok (- 2 ^ 31)%Z
    else UB.

  (* hll/hyperloglog.cc:78-81: the loop over the registers *)
  Fixpoint sum_regs (l : list N) (sum : Q) : res Q :=
    match l with
    | [] => Ok sum
    | r :: l =>
        let* k := shifted r in
        sum_regs l (rnd (sum + rnd (1 / inject_Z k)))
    end.

  (* hll/hyperloglog.cc:84-89 *)
  Definition zeros (l : list N) : Z := Z.of_nat (length (filter (N.eqb 0) l)).

  (* hll/hyperloglog.cc:75-98 estimate.  None is an infinity or not a number: after a division
     by a sum of zero the logarithm in line 95 is taken of minus infinity. *)
  Definition estimate (h : hll) : res (option Q) :=
    let m := registers (h_bits h) in
    let* sum := sum_regs (h_regs h) 0 in
    if Qeq_bool sum 0 then Ok None
    else
      let e := rnd (alpha_mm (h_bits h) / sum) in
      if Qle_bool e (rnd ((5 # 2) * m)) then
        if (zeros (h_regs h) =? 0)%Z then Ok (Some e)
        else Ok (Some (rnd (m * f_log F (rnd (m / inject_Z (zeros (h_regs h)))))))
      else if negb (Qle_bool e (rnd (rnd (1 # 30) * 4294967296))) then
        let y := rnd (1 - rnd (e / 4294967296)) in
        if Qle_bool y 0 then Ok None else Ok (Some (rnd (- 4294967296 * f_log F y)))
      else Ok (Some e).

  (* std::round: halves away from zero *)
  Definition round_half (q : Q) : Z :=
    if Qle_bool 0 q then Qfloor (q + (1 # 2)) else Qceiling (q - (1 # 2)).

  (* column_statistics.h:44-47 estimate_string_cardinality and 62-65
     estimate_string_vocab_cardinality: the conversion to std::size_t is undefined for values
     outside its range. *)
  Definition cardinality (h : hll) : res N :=
    let* e := estimate h in
    match e with
    | None => UB
    | Some q =>
        let z := round_half q in
        if (0 <=? z)%Z && (z <? 2 ^ 64)%Z then Ok (Z.to_N z) else UB
    end.
End Estimate.

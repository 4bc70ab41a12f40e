(* What is assumed of the arithmetic of the machine, and what the estimate is supposed to be. *)
From Verif Require Import Common Model_insights Spec_insights Model_est.
From Coq Require Import QArith Qabs.
Import List.
Local Open Scope Q_scope.

(* Rounding is monotone, leaves the numbers alone that have at most 53 significant bits, and is
   accurate to a relative error of 2^-53 otherwise; underflow begins far below 2^-1000.
   The logarithm of the C library lies between 1 - 1/x and x - 1, as the logarithm does, up to
   a relative error of 2^-50. *)
Definition small : Q := 1 # (2 ^ 50).
Record sane (F : arithmetic) : Prop := {
  s_mono : forall a b, a <= b -> f_round F a <= f_round F b;
  s_exact : forall n k, (Z.abs n <= 2 ^ 53)%Z -> (0 <= k <= 1000)%Z ->
    f_round F (inject_Z n / inject_Z (2 ^ k)) == inject_Z n / inject_Z (2 ^ k) /\
    f_round F (inject_Z (n * 2 ^ k)) == inject_Z (n * 2 ^ k);
  s_close : forall a, 1 / inject_Z (2 ^ 1000) <= a <= inject_Z (2 ^ 1000) ->
    Qabs (f_round F a - a) <= a / inject_Z (2 ^ 53);
  s_log_above : forall x, 1 <= x -> (1 - 1 / x) * (1 - small) <= f_log F x <= (x - 1) * (1 + small);
  s_log_below : forall x, 0 < x <= 1 -> (1 - 1 / x) * (1 + small) <= f_log F x <= (x - 1) * (1 - small)
}.

(* The sum of 2^-r over the registers. *)
Fixpoint exact_sum (l : list N) : Q :=
  match l with
  | [] => 0
  | r :: l => 1 / inject_Z (2 ^ Z.of_N r) + exact_sum l
  end.

(* The buckets that the strings fall into, without repetition. *)
Definition used (b : N) (l : list (list byte)) : list N :=
  nodup N.eq_dec (map (fun s => bucket b (xxh32 s)) l).

(* The different strings of a list. *)
Definition string_dec (s t : list byte) : {s = t} + {s <> t} := list_eq_dec N.eq_dec s t.
Definition distinct (l : list (list byte)) : list (list byte) := nodup string_dec l.

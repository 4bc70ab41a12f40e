(* Model of the column statistics of mlio.contrib.insights.
   /repo/src/mlio-py/mlio/contrib/insights/{column_analyzer.cc, column_statistics.h, utils.cc,
   module.cc, hll/hyperloglog.cc, hll/hyperloglog.h, hll/xxhash.c}.
   The paths below are relative to that directory. *)
From Verif Require Import Common Model_num.
From Coq Require Import QArith Qround Qabs.
Import List.
Local Open Scope N_scope.

(* ---- hll/xxhash.c: the 32 bit hash ---- *)

(* Unsigned 32 bit arithmetic. *)
Definition w32 (n : N) : N := n mod 4294967296.

(* hll/xxhash.c:289 XXH_rotl32 *)
Definition rotl32 (x r : N) : N := N.lor (w32 (N.shiftl x r)) (N.shiftr x (32 - r)).

(* hll/xxhash.c:349-358 *)
Definition prime1 : N := 2654435761.
Definition prime2 : N := 2246822519.
Definition prime3 : N := 3266489917.
Definition prime4 : N := 668265263.
Definition prime5 : N := 374761393.

(* hll/xxhash.c:430 XXH_get32bits: a little endian word *)
Definition get32 (a b c d : byte) : N := a + 256 * (b + 256 * (c + 256 * d)).

(* hll/xxhash.c:360-366 XXH32_round *)
Definition xxh_round (acc input : N) : N :=
  w32 (rotl32 (w32 (acc + input * prime2)) 13 * prime1).

(* hll/xxhash.c:418-427 XXH32_avalanche *)
Definition xxh_avalanche (h : N) : N :=
  let h := w32 (N.lxor h (N.shiftr h 15) * prime2) in
  let h := w32 (N.lxor h (N.shiftr h 13) * prime3) in
  N.lxor h (N.shiftr h 16).

(* hll/xxhash.c:432-513 XXH32_finalize.  The two versions selected by XXH_REROLL do the same
   steps. *)
Fixpoint xxh_finalize1 (h : N) (s : list byte) : N :=
  match s with
  | [] => xxh_avalanche h
  | a :: r => xxh_finalize1 (w32 (rotl32 (w32 (h + a * prime5)) 11 * prime1)) r
  end.
Fixpoint xxh_finalize (h : N) (s : list byte) : N :=
  match s with
  | a :: b :: c :: d :: r =>
      xxh_finalize (w32 (rotl32 (w32 (h + get32 a b c d * prime3)) 17 * prime4)) r
  | _ => xxh_finalize1 h s
  end.

(* hll/xxhash.c:535-554: the blocks of 16 bytes.  The result is the sum of the rotated lanes
   and the rest of the input. *)
Fixpoint xxh_blocks (v1 v2 v3 v4 : N) (s : list byte) : N * list byte :=
  match s with
  | a0 :: a1 :: a2 :: a3 :: b0 :: b1 :: b2 :: b3 ::
    c0 :: c1 :: c2 :: c3 :: d0 :: d1 :: d2 :: d3 :: r =>
      xxh_blocks (xxh_round v1 (get32 a0 a1 a2 a3)) (xxh_round v2 (get32 b0 b1 b2 b3))
                 (xxh_round v3 (get32 c0 c1 c2 c3)) (xxh_round v4 (get32 d0 d1 d2 d3)) r
  | _ => (w32 (rotl32 v1 1 + rotl32 v2 7 + rotl32 v3 12 + rotl32 v4 18), s)
  end.

(* hll/xxhash.c:517-562 XXH32_endian_align and 564-587 XXH32, for the seed
   HLL_HASH_SEED = 0 (hll/hyperloglog.h:71). *)
Definition xxh32 (s : list byte) : N :=
  let len := N.of_nat (length s) in
  let '(h, r) :=
    if 16 <=? len
    then xxh_blocks (w32 (prime1 + prime2)) prime2 0 (w32 (4294967296 - prime1)) s
    else (prime5, s) in
  xxh_finalize (w32 (h + w32 len)) r.

(* ---- hll/hyperloglog.{h,cc} ---- *)

(* hll/hyperloglog.h:44-69 _GET_CLZ has two versions: with __builtin_clz, for compilers that
   have __has_builtin, and with a loop.  The MSVC version is not modelled. *)
Inductive clz_version := Clz_builtin | Clz_loop.

(* hll/hyperloglog.h:59-64: [n] is the number of iterations left, b - v + 1 *)
Fixpoint clz_loop (n : nat) (v x : N) : N :=
  match n with
  | O => v
  | S n => if N.testbit x 31 then v else clz_loop n (v + 1) (w32 (N.shiftl x 1))
  end.

(* hll/hyperloglog.h:46 and 50-66.  __builtin_clz(0) is undefined. *)
Definition get_clz (version : clz_version) (x b : N) : res N :=
  match version with
  | Clz_builtin => if x =? 0 then UB else Ok (N.min b (31 - N.log2 x) + 1)
  | Clz_loop => Ok (clz_loop (N.to_nat b) 1 x)
  end.

(* hll/hyperloglog.h:97-105: the register bit width and the registers; m_ is the number of
   registers. *)
Record hll := { h_bits : N; h_regs : list N }.

(* hll/hyperloglog.cc:35-57 constructor.  The bit width is checked after 1 << b, which is
   undefined from 32 on.  alpha_mm_ is not modelled. *)
Definition hll_make (b : N) : res hll :=
  if 32 <=? b then UB
  else if (b <? 4) || (30 <? b) then Throw Invalid_argument
  else Ok {| h_bits := b; h_regs := repeat 0 (N.to_nat (2 ^ b)) |}.

(* An assignment to an element of a vector. *)
Fixpoint set_reg (l : list N) (i : nat) (v : N) : list N :=
  match l, i with
  | [], _ => []
  | _ :: r, O => v :: r
  | x :: r, S i => x :: set_reg r i v
  end.

(* hll/hyperloglog.cc:59-73 add *)
Definition hll_add (version : clz_version) (h : hll) (s : list byte) : res hll :=
  let hash := xxh32 s in
  let index := N.to_nat (N.shiftr hash (32 - h_bits h)) in
  let* rank := get_clz version (w32 (N.shiftl hash (h_bits h))) (32 - h_bits h) in
  match nth_error (h_regs h) index with
  | None => UB
  | Some m =>
      if m <? rank
      then Ok {| h_bits := h_bits h; h_regs := set_reg (h_regs h) index rank |}
      else Ok h
  end.

(* hll/hyperloglog.cc:107-111: the loop of merge *)
Fixpoint merge_regs (m other : list N) : list N :=
  match m, other with
  | a :: m, b :: other => (if a <? b then N.lor a b else a) :: merge_regs m other
  | _, _ => m
  end.

(* hll/hyperloglog.cc:100-112 merge *)
Definition hll_merge (h other : hll) : res hll :=
  if Nat.eqb (length (h_regs h)) (length (h_regs other))
  then Ok {| h_bits := h_bits h; h_regs := merge_regs (h_regs h) (h_regs other) |}
  else Throw Invalid_argument.

(* hll/hyperloglog.cc:114-117 clear *)
Definition hll_clear (h : hll) : hll :=
  {| h_bits := h_bits h; h_regs := map (fun _ => 0) (h_regs h) |}.

(* A sequence of calls of add. *)
Fixpoint hll_add_all (version : clz_version) (h : hll) (l : list (list byte)) : res hll :=
  match l with
  | [] => Ok h
  | s :: r => let* h := hll_add version h s in hll_add_all version h r
  end.

(* ---- Numbers ---- *)

(* double, with exact arithmetic: rounding, the overflow of finite operations and the sign of
   zero are not modelled. *)
Inductive dbl := Fin (q : Q) | Inf (negative : bool) | NaN.

Definition q_neg (q : Q) : bool := negb (Qle_bool 0 q).
Definition q_lt (a b : Q) : bool := negb (Qle_bool b a).

(* operators +, -, *, / and < on doubles *)
Definition dneg (a : dbl) : dbl :=
  match a with Fin q => Fin (- q) | Inf s => Inf (negb s) | NaN => NaN end.
Definition dadd (a b : dbl) : dbl :=
  match a, b with
  | Fin p, Fin q => Fin (p + q)
  | Fin _, Inf s | Inf s, Fin _ => Inf s
  | Inf s, Inf t => if Bool.eqb s t then Inf s else NaN
  | _, _ => NaN
  end.
Definition dsub (a b : dbl) : dbl := dadd a (dneg b).
Definition dmul (a b : dbl) : dbl :=
  match a, b with
  | Fin p, Fin q => Fin (p * q)
  | Fin p, Inf s | Inf s, Fin p => if Qeq_bool p 0 then NaN else Inf (xorb (q_neg p) s)
  | Inf s, Inf t => Inf (xorb s t)
  | _, _ => NaN
  end.
Definition ddiv (a b : dbl) : dbl :=
  match a, b with
  | Fin p, Fin q =>
      if Qeq_bool q 0 then (if Qeq_bool p 0 then NaN else Inf (q_neg p)) else Fin (p / q)
  | Fin _, Inf _ => Fin 0
  | Inf s, Fin q => Inf (xorb (q_neg q) s)
  | _, _ => NaN
  end.
Definition dlt (a b : dbl) : bool :=
  match a, b with
  | Fin p, Fin q => q_lt p q
  | Inf true, Fin _ | Inf true, Inf false | Fin _, Inf false => true
  | _, _ => false
  end.
(* std::isnan, std::isinf *)
Definition is_nan (a : dbl) : bool := match a with NaN => true | _ => false end.
Definition is_inf (a : dbl) : bool := match a with Inf _ => true | _ => false end.
(* static_cast<double>(std::size_t) *)
Definition of_size (n : N) : dbl := Fin (inject_Z (Z.of_N n)).
(* std::round: halves are rounded away from zero *)
Definition q_round (q : Q) : Z :=
  if Qle_bool 0 q then Qfloor (q + (1 # 2)) else (- Qfloor (- q + (1 # 2)))%Z.

(* ---- utils.cc and mlio/util/string.cc ---- *)

(* src/mlio/util/string.cc:62-69 is_whitespace_only; std::isspace of a negative char is
   undefined. *)
Fixpoint is_whitespace_only (s : list byte) : res bool :=
  match s with
  | [] => Ok true
  | c :: r => if 128 <=? c then UB else if is_space c then is_whitespace_only r else Ok false
  end.

(* std::tolower in the "C" locale *)
Definition tolower (c : byte) : byte := if (65 <=? c) && (c <=? 90) then c + 32 else c.

(* utils.cc:31-34: the comparison of two characters; std::tolower of a negative char is
   undefined. *)
Definition same_char (c1 c2 : byte) : res bool :=
  if c1 =? c2 then Ok true
  else if (128 <=? c1) || (128 <=? c2) then UB
  else Ok (tolower c1 =? tolower c2).

(* utils.cc:31 std::equal, for two sequences of the same length *)
Fixpoint equal_chars (a b : list byte) : res bool :=
  match a, b with
  | x :: a, y :: b =>
      let* e := same_char x y in if e then equal_chars a b else Ok false
  | _, _ => Ok true
  end.

(* utils.cc:29-38: the loop of match_nan_values *)
Fixpoint match_any (needles : list (list byte)) (s : list byte) : res bool :=
  match needles with
  | [] => Ok false
  | n :: r =>
      let* e := if Nat.eqb (length n) (length s) then equal_chars n s else Ok false in
      if e then Ok true else match_any r s
  end.

(* utils.cc:25-39 match_nan_values *)
Definition match_nan_values (s : list byte) (needles : list (list byte)) : res bool :=
  let* t := trim s in match_any needles t.

(* column_analyzer.cc:89-92: the strings that std::getline(iss, token, ' ') reads.  [acc] is
   the current token, reversed. *)
Fixpoint getlines (acc s : list byte) : list (list byte) :=
  match s with
  | [] => match acc with [] => [] | _ => [rev acc] end
  | c :: r => if c =? 32 then rev acc :: getlines [] r else getlines (c :: acc) r
  end.

(* ---- column_statistics.h and column_analyzer.cc ---- *)

(* std::numeric_limits<std::size_t>::max() *)
Definition size_max : N := 18446744073709551615.

(* column_statistics.h:31-95 Column_analysis.  The counters are unbounded (they are
   std::size_t and, in the map of captured values, int); the unordered map of captured values
   is a list in order of insertion. *)
Record column := {
  c_name : list byte;
  c_rows : N; c_numeric : N; c_nan : N; c_finite : N; c_int : N;
  c_mean : dbl; c_min : dbl; c_max : dbl;
  c_min_len : N; c_min_len_ne : N; c_max_len : N;
  c_empty : N; c_blank : N; c_null : N; c_words : N;
  c_avg_len : dbl;
  c_captured : list (list byte * N); c_overflowed : bool;
  c_example : list byte;
  c_card : hll; c_vocab : hll;
  c_sample : list Q }.

(* column_statistics.h:35 *)
Definition cardinality_bits : N := 16.

(* column_statistics.h:38-42, 67-94: the constructor *)
Definition new_column (name : list byte) : res column :=
  let* card := hll_make cardinality_bits in
  let* vocab := hll_make cardinality_bits in
  Ok {| c_name := name;
        c_rows := 0; c_numeric := 0; c_nan := 0; c_finite := 0; c_int := 0;
        c_mean := Fin 0; c_min := NaN; c_max := NaN;
        c_min_len := size_max; c_min_len_ne := size_max; c_max_len := 0;
        c_empty := 0; c_blank := 0; c_null := 0; c_words := 0;
        c_avg_len := Fin 0;
        c_captured := []; c_overflowed := false;
        c_example := [];
        c_card := card; c_vocab := vocab;
        c_sample := [] |}.

(* column_analyzer.cc:28 *)
Definition max_sample_size : N := 10000.

(* column_analyzer.cc:56-59: the variables of one call of analyze *)
Record sums := { s_sum : dbl; s_count : N; s_cells : N; s_length : N }.
Definition no_sums : sums := {| s_sum := Fin 0; s_count := 0; s_cells := 0; s_length := 0 |}.

(* column_analyzer.cc:62-67: every cell *)
Definition on_row (c : column) (cell : list byte) : column :=
  {| c_name := c_name c;
     c_rows := c_rows c + 1; c_numeric := c_numeric c; c_nan := c_nan c;
     c_finite := c_finite c; c_int := c_int c;
     c_mean := c_mean c; c_min := c_min c; c_max := c_max c;
     c_min_len := c_min_len c; c_min_len_ne := c_min_len_ne c; c_max_len := c_max_len c;
     c_empty := c_empty c; c_blank := c_blank c; c_null := c_null c; c_words := c_words c;
     c_avg_len := c_avg_len c;
     c_captured := c_captured c; c_overflowed := c_overflowed c;
     c_example := if c_rows c =? 0 then cell else c_example c;
     c_card := c_card c; c_vocab := c_vocab c; c_sample := c_sample c |}.

(* column_analyzer.cc:70-71 *)
Definition on_empty (c : column) : column :=
  {| c_name := c_name c;
     c_rows := c_rows c; c_numeric := c_numeric c; c_nan := c_nan c;
     c_finite := c_finite c; c_int := c_int c;
     c_mean := c_mean c; c_min := c_min c; c_max := c_max c;
     c_min_len := c_min_len c; c_min_len_ne := c_min_len_ne c; c_max_len := c_max_len c;
     c_empty := c_empty c + 1; c_blank := c_blank c; c_null := c_null c;
     c_words := c_words c;
     c_avg_len := c_avg_len c;
     c_captured := c_captured c; c_overflowed := c_overflowed c;
     c_example := c_example c;
     c_card := c_card c; c_vocab := c_vocab c; c_sample := c_sample c |}.

(* column_analyzer.cc:77-92 for a cell that is not empty: its length and its words *)
Definition on_text (version : clz_version) (c : column) (cell : list byte) : res column :=
  let size := N.of_nat (length cell) in
  let* card := hll_add version (c_card c) cell in
  let tokens := getlines [] cell in
  let* vocab := hll_add_all version (c_vocab c) tokens in
  Ok {| c_name := c_name c;
        c_rows := c_rows c; c_numeric := c_numeric c; c_nan := c_nan c;
        c_finite := c_finite c; c_int := c_int c;
        c_mean := c_mean c; c_min := c_min c; c_max := c_max c;
        c_min_len := N.min (c_min_len c) size;
        c_min_len_ne := N.min (c_min_len_ne c) size;
        c_max_len := N.max (c_max_len c) size;
        c_empty := c_empty c; c_blank := c_blank c; c_null := c_null c;
        c_words := c_words c + N.of_nat (length tokens);
        c_avg_len := c_avg_len c;
        c_captured := c_captured c; c_overflowed := c_overflowed c;
        c_example := c_example c;
        c_card := card; c_vocab := vocab; c_sample := c_sample c |}.

(* column_analyzer.cc:94-95 *)
Definition on_blank (c : column) : column :=
  {| c_name := c_name c;
     c_rows := c_rows c; c_numeric := c_numeric c; c_nan := c_nan c;
     c_finite := c_finite c; c_int := c_int c;
     c_mean := c_mean c; c_min := c_min c; c_max := c_max c;
     c_min_len := c_min_len c; c_min_len_ne := c_min_len_ne c; c_max_len := c_max_len c;
     c_empty := c_empty c; c_blank := c_blank c + 1; c_null := c_null c;
     c_words := c_words c;
     c_avg_len := c_avg_len c;
     c_captured := c_captured c; c_overflowed := c_overflowed c;
     c_example := c_example c;
     c_card := c_card c; c_vocab := c_vocab c; c_sample := c_sample c |}.

(* column_analyzer.cc:101-103 *)
Definition on_null_like (c : column) : column :=
  {| c_name := c_name c;
     c_rows := c_rows c; c_numeric := c_numeric c; c_nan := c_nan c;
     c_finite := c_finite c; c_int := c_int c;
     c_mean := c_mean c; c_min := c_min c; c_max := c_max c;
     c_min_len := c_min_len c; c_min_len_ne := c_min_len_ne c; c_max_len := c_max_len c;
     c_empty := c_empty c; c_blank := c_blank c; c_null := c_null c + 1;
     c_words := c_words c;
     c_avg_len := c_avg_len c;
     c_captured := c_captured c; c_overflowed := c_overflowed c;
     c_example := c_example c;
     c_card := c_card c; c_vocab := c_vocab c; c_sample := c_sample c |}.

(* column_analyzer.cc:107-110: a cell that is not a number *)
Definition on_nan (c : column) : column :=
  {| c_name := c_name c;
     c_rows := c_rows c; c_numeric := c_numeric c; c_nan := c_nan c + 1;
     c_finite := c_finite c; c_int := c_int c;
     c_mean := c_mean c; c_min := c_min c; c_max := c_max c;
     c_min_len := c_min_len c; c_min_len_ne := c_min_len_ne c; c_max_len := c_max_len c;
     c_empty := c_empty c; c_blank := c_blank c; c_null := c_null c;
     c_words := c_words c;
     c_avg_len := c_avg_len c;
     c_captured := c_captured c; c_overflowed := c_overflowed c;
     c_example := c_example c;
     c_card := c_card c; c_vocab := c_vocab c; c_sample := c_sample c |}.

(* column_analyzer.cc:111-136: a number [v] that is not NaN.  What line 113 excludes, an
   infinite number, only increments numeric_count. *)
Definition on_number (c : column) (v : dbl) : column :=
  match v with
  | Fin q =>
      {| c_name := c_name c;
         c_rows := c_rows c; c_numeric := c_numeric c + 1; c_nan := c_nan c;
         c_finite := c_finite c + 1;
         c_int := if Qle_bool (Qabs (inject_Z (q_round q) - q)) (1 # 100000)
                  then c_int c + 1 else c_int c;
         c_mean := c_mean c;
         c_min := if is_nan (c_min c) || dlt v (c_min c) then v else c_min c;
         c_max := if is_nan (c_max c) || dlt (c_max c) v then v else c_max c;
         c_min_len := c_min_len c; c_min_len_ne := c_min_len_ne c;
         c_max_len := c_max_len c;
         c_empty := c_empty c; c_blank := c_blank c; c_null := c_null c;
         c_words := c_words c;
         c_avg_len := c_avg_len c;
         c_captured := c_captured c; c_overflowed := c_overflowed c;
         c_example := c_example c;
         c_card := c_card c; c_vocab := c_vocab c;
         c_sample := if N.of_nat (length (c_sample c)) <? max_sample_size
                     then c_sample c ++ [q] else c_sample c |}
  | _ =>
      {| c_name := c_name c;
         c_rows := c_rows c; c_numeric := c_numeric c + 1; c_nan := c_nan c;
         c_finite := c_finite c; c_int := c_int c;
         c_mean := c_mean c; c_min := c_min c; c_max := c_max c;
         c_min_len := c_min_len c; c_min_len_ne := c_min_len_ne c;
         c_max_len := c_max_len c;
         c_empty := c_empty c; c_blank := c_blank c; c_null := c_null c;
         c_words := c_words c;
         c_avg_len := c_avg_len c;
         c_captured := c_captured c; c_overflowed := c_overflowed c;
         c_example := c_example c;
         c_card := c_card c; c_vocab := c_vocab c; c_sample := c_sample c |}
  end.

(* std::unordered_map::operator[] followed by ++ *)
Fixpoint count_value (m : list (list byte * N)) (s : list byte) : list (list byte * N) :=
  match m with
  | [] => [(s, 1)]
  | (k, n) :: r => if list_eq_dec N.eq_dec k s then (k, n + 1) :: r else (k, n) :: count_value r s
  end.
(* std::unordered_map::find *)
Definition has_value (m : list (list byte * N)) (s : list byte) : bool :=
  existsb (fun e => if list_eq_dec N.eq_dec (fst e) s then true else false) m.

Definition with_captured (c : column) (m : list (list byte * N)) (o : bool) : column :=
  {| c_name := c_name c;
     c_rows := c_rows c; c_numeric := c_numeric c; c_nan := c_nan c;
     c_finite := c_finite c; c_int := c_int c;
     c_mean := c_mean c; c_min := c_min c; c_max := c_max c;
     c_min_len := c_min_len c; c_min_len_ne := c_min_len_ne c; c_max_len := c_max_len c;
     c_empty := c_empty c; c_blank := c_blank c; c_null := c_null c;
     c_words := c_words c;
     c_avg_len := c_avg_len c;
     c_captured := m; c_overflowed := o;
     c_example := c_example c;
     c_card := c_card c; c_vocab := c_vocab c; c_sample := c_sample c |}.

(* column_analyzer.cc:138-152: capturing a value *)
Definition on_capture (capture : bool) (max_capture : N) (c : column) (cell : list byte)
    : column :=
  if capture && negb (c_overflowed c) then
    if N.of_nat (length (c_captured c)) <? max_capture
    then with_captured c (count_value (c_captured c) cell) (c_overflowed c)
    else if negb (has_value (c_captured c) cell)
    then with_captured c (c_captured c) true
    else c
  else c.

Definition with_means (c : column) (mean avg : dbl) : column :=
  {| c_name := c_name c;
     c_rows := c_rows c; c_numeric := c_numeric c; c_nan := c_nan c;
     c_finite := c_finite c; c_int := c_int c;
     c_mean := mean; c_min := c_min c; c_max := c_max c;
     c_min_len := c_min_len c; c_min_len_ne := c_min_len_ne c; c_max_len := c_max_len c;
     c_empty := c_empty c; c_blank := c_blank c; c_null := c_null c;
     c_words := c_words c;
     c_avg_len := avg;
     c_captured := c_captured c; c_overflowed := c_overflowed c;
     c_example := c_example c;
     c_card := c_card c; c_vocab := c_vocab c; c_sample := c_sample c |}.

(* column_analyzer.cc:155-165: the means after the cells of one example *)
Definition update_means (c : column) (s : sums) : column :=
  let ncc := of_size (s_count s) in
  let nfc := of_size (c_finite c) in
  let numeric_mean := ddiv (s_sum s) ncc in
  let scc := of_size (s_cells s) in
  let rows := of_size (c_rows c) in
  let string_avg := ddiv (of_size (s_length s)) scc in
  with_means c
    (dadd (c_mean c) (ddiv (dmul (dsub numeric_mean (c_mean c)) ncc) nfc))
    (dadd (c_avg_len c) (ddiv (dmul (dsub string_avg (c_avg_len c)) scc) rows)).

Section Analyze.
  (* absl::SimpleAtod, not part of /repo: None when it returns false. *)
  Context (atod : list byte -> option dbl).
  Context (version : clz_version).
  (* The arguments of analyze_dataset: the NaN spellings, the columns to capture, and how many
     values to capture. *)
  Context (null_like : list (list byte)) (capture_columns : list N) (max_capture : N).

  (* column_analyzer.cc:61-153: the body of the loop over the cells *)
  Definition analyze_cell (capture : bool) (c : column) (s : sums) (cell : list byte)
      : res (column * sums) :=
    let c := on_row c cell in
    match cell with
    | [] => Ok (on_empty c, s)
    | _ =>
        let* c := on_text version c cell in
        let s := {| s_sum := s_sum s; s_count := s_count s;
                    s_cells := s_cells s + 1;
                    s_length := s_length s + N.of_nat (length cell) |} in
        let* blank := is_whitespace_only cell in
        if blank then Ok (on_blank c, s)
        else
          let* null := match_nan_values cell null_like in
          let c := if null then on_null_like c else c in
          let* r := try_parse_float dbl is_inf NaN atod [] cell in
          let '(c, s) :=
            match r with
            | P_ok NaN => (on_nan c, s)
            | P_ok v =>
                (on_number c v,
                 match v with
                 | Fin q => {| s_sum := dadd (s_sum s) v; s_count := s_count s + 1;
                               s_cells := s_cells s; s_length := s_length s |}
                 | _ => s
                 end)
            | _ => (on_nan c, s)
            end in
          Ok (on_capture capture max_capture c cell, s)
    end.

  (* column_analyzer.cc:61-153: the loop over the cells *)
  Fixpoint analyze_cells (capture : bool) (c : column) (s : sums) (cells : list (list byte))
      : res (column * sums) :=
    match cells with
    | [] => Ok (c, s)
    | cell :: r =>
        let* p := analyze_cell capture c s cell in
        analyze_cells capture (fst p) (snd p) r
    end.

  (* column_analyzer.cc:44-166: one feature of an example *)
  Definition analyze_column (idx : N) (c : column) (cells : list (list byte)) : res column :=
    let capture := existsb (N.eqb idx) capture_columns in
    let* p := analyze_cells capture c no_sums cells in
    Ok (update_means (fst p) (snd p)).

  (* column_analyzer.cc:40-167 analyze: the features of an example, from [idx] on.  The vector
     of columns is indexed without a check. *)
  Fixpoint analyze (idx : N) (columns : list column) (features : list (list (list byte)))
      {struct features} : res (list column) :=
    match features with
    | [] => Ok columns
    | cells :: features =>
        match columns with
        | [] => UB
        | c :: columns =>
            let* c := analyze_column idx c cells in
            let* columns := analyze (idx + 1) columns features in
            Ok (c :: columns)
        end
    end.

  (* An attribute of the schema of an example and the example itself: its attributes and the
     cells of its features. *)
  Record attribute := { a_name : list byte; a_sparse : bool; a_string : bool }.
  Record example := { e_attrs : list attribute; e_features : list (list (list byte)) }.

  (* module.cc:56-62: the loop over the attributes.  The exception is a std::runtime_error. *)
  Fixpoint make_columns (attrs : list attribute) : res (list column) :=
    match attrs with
    | [] => Ok []
    | a :: r =>
        if a_sparse a || negb (a_string a) then Throw Other_err
        else let* c := new_column (a_name a) in
             let* cs := make_columns r in
             Ok (c :: cs)
    end.

  (* module.cc:69-71: the loop over the examples *)
  Fixpoint analyze_examples (columns : list column) (l : list example) : res (list column) :=
    match l with
    | [] => Ok columns
    | e :: r =>
        let* columns := analyze 0 columns (e_features e) in
        analyze_examples columns r
    end.

  (* module.cc:76-83: the final clean-up of the placeholders *)
  Definition clean (c : column) : column :=
    {| c_name := c_name c;
       c_rows := c_rows c; c_numeric := c_numeric c; c_nan := c_nan c;
       c_finite := c_finite c; c_int := c_int c;
       c_mean := c_mean c; c_min := c_min c; c_max := c_max c;
       c_min_len := if c_min_len c =? size_max then 0 else c_min_len c;
       c_min_len_ne := if c_min_len_ne c =? size_max then 0 else c_min_len_ne c;
       c_max_len := c_max_len c;
       c_empty := c_empty c; c_blank := c_blank c; c_null := c_null c;
       c_words := c_words c;
       c_avg_len := c_avg_len c;
       c_captured := c_captured c; c_overflowed := c_overflowed c;
       c_example := c_example c;
       c_card := c_card c; c_vocab := c_vocab c; c_sample := c_sample c |}.

  (* module.cc:41-86 analyze_dataset.  The reader is the list of the examples that it delivers;
     peek_example returns the first of them.  Without an example it throws
     pybind11::stop_iteration. *)
  Definition analyze_dataset (l : list example) : res (list column) :=
    match l with
    | [] => Throw Other_err
    | e :: _ =>
        let* columns := make_columns (e_attrs e) in
        let* columns := analyze_examples columns l in
        Ok (map clean columns)
    end.
End Analyze.

(* module.cc:99-112: the integers that a Python user sees under the names numeric_count and
   numeric_finite_count; both are read from the same member. *)
Definition shown_numeric_count (c : column) : N := c_numeric c.
Definition shown_numeric_finite_count (c : column) : N := c_numeric c.

(* column_statistics.h:49-60 estimate_median_approx.  std::nth_element is a full sort here. *)
Fixpoint insert_q (x : Q) (l : list Q) : list Q :=
  match l with
  | [] => [x]
  | y :: r => if Qle_bool x y then x :: l else y :: insert_q x r
  end.
Definition sort_q (l : list Q) : list Q := fold_right insert_q [] l.
Definition median_approx (c : column) : dbl :=
  match c_sample c with
  | [] => NaN
  | l => Fin (nth (Nat.div (length l) 2) (sort_q l) 0%Q)
  end.

(* What the cardinality sketches and the column statistics are supposed to be.
   Everything is stated about the column of cells as a whole. *)
From Verif Require Import Common Model_num Model_insights.
From Coq Require Import QArith Qabs.
Import List.
Local Open Scope N_scope.

(* ---- Sketches ---- *)

(* A 32 bit hash is divided into a bucket number, its first [b] bits, and a tail.  The rank is
   the position of the first one in the tail, counted from 1; 33 - b if there is none. *)
Definition bucket (b h : N) : N := h / 2 ^ (32 - b).
Definition is_rank (b h r : N) : Prop :=
  1 <= r <= 33 - b /\
  (forall k, 1 <= k < r -> N.testbit h (32 - b - k) = false) /\
  (r <= 32 - b -> N.testbit h (32 - b - r) = true).

(* The sketch of a collection of strings: the register of every bucket is the largest rank in
   it, or 0. *)
Definition is_register (b : N) (l : list (list byte)) (i v : N) : Prop :=
  (forall s r, In s l -> bucket b (xxh32 s) = i -> is_rank b (xxh32 s) r -> r <= v) /\
  (v = 0 \/ exists s, In s l /\ bucket b (xxh32 s) = i /\ is_rank b (xxh32 s) v).
Definition is_sketch (b : N) (l : list (list byte)) (h : hll) : Prop :=
  h_bits h = b /\ length (h_regs h) = N.to_nat (2 ^ b) /\
  forall i, i < 2 ^ b -> is_register b l i (nth (N.to_nat i) (h_regs h) 0).

(* The strings whose tail is all zeros. *)
Definition zero_tail (b : N) (s : list byte) : Prop := xxh32 s mod 2 ^ (32 - b) = 0.

(* ---- Cells ---- *)

Definition is_empty (cell : list byte) : bool := match cell with [] => true | _ => false end.
Definition is_blank (cell : list byte) : bool := negb (is_empty cell) && forallb is_space cell.
(* The cells that hold something besides white space. *)
Definition is_plain (cell : list byte) : bool := negb (forallb is_space cell).

Definition count {A : Type} (p : A -> bool) (l : list A) : N := N.of_nat (length (filter p l)).

Definition bytes_eqb (a b : list byte) : bool := if list_eq_dec N.eq_dec a b then true else false.

(* A plain cell that, without the surrounding white space, is one of the given strings up to
   the case of its letters. *)
Definition lower (c : byte) : byte := if (65 <=? c) && (c <=? 90) then c + 32 else c.
Definition is_null_like (nulls : list (list byte)) (cell : list byte) : bool :=
  is_plain cell &&
  existsb (fun n => bytes_eqb (map lower n) (map lower (strip cell))) nulls.

(* The finite numbers of a column, in order. *)
Definition number (atod : list byte -> option dbl) (cell : list byte) : list Q :=
  if is_plain cell then match atod cell with Some (Fin q) => [q] | _ => [] end else [].
Definition numbers (atod : list byte -> option dbl) (col : list (list byte)) : list Q :=
  flat_map (number atod) col.

Definition near_integer (q : Q) : Prop :=
  exists z : Z, (Qabs (inject_Z z - q) <= 1 # 100000)%Q.
(* [n] of the numbers of [l] satisfy [P]. *)
Inductive counts {A : Type} (P : A -> Prop) : list A -> N -> Prop :=
| counts_nil : counts P [] 0
| counts_yes x l n : P x -> counts P l n -> counts P (x :: l) (n + 1)
| counts_no x l n : ~ P x -> counts P l n -> counts P (x :: l) n.

Definition sum_q (l : list Q) : Q := fold_right Qplus 0%Q l.

Definition is_min (l : list Q) (v : dbl) : Prop :=
  (l = [] /\ v = NaN) \/
  exists q, v = Fin q /\ In q l /\ forall x, In x l -> (q <= x)%Q.
Definition is_max (l : list Q) (v : dbl) : Prop :=
  (l = [] /\ v = NaN) \/
  exists q, v = Fin q /\ In q l /\ forall x, In x l -> (x <= q)%Q.

(* ---- Lengths and words ---- *)

Definition lengths (col : list (list byte)) : list N := map (fun c => N.of_nat (length c)) col.
Definition least (l : list N) (n : N) : Prop := In n l /\ forall x, In x l -> n <= x.
Definition greatest (l : list N) (n : N) : Prop := In n l /\ forall x, In x l -> x <= n.
Definition total (l : list N) : N := fold_right N.add 0 l.

(* The words of a cell: it is cut at every space, and nothing follows a final space. *)
Definition is_words (cell : list byte) (ws : list (list byte)) : Prop :=
  Forall (fun w => ~ In 32 w) ws /\
  (concat (map (fun w => w ++ [32]) ws) = cell \/
   cell <> [] /\ last cell 0 <> 32 /\ concat (map (fun w => w ++ [32]) ws) = cell ++ [32]).

(* ---- Captured values ---- *)

(* The distinct elements of a list, in order of their first occurrence. *)
Fixpoint distinct (l : list (list byte)) : list (list byte) :=
  match l with
  | [] => []
  | x :: r => x :: filter (fun y => negb (bytes_eqb x y)) (distinct r)
  end.
Fixpoint assoc (m : list (list byte * N)) (s : list byte) : option N :=
  match m with
  | [] => None
  | (k, n) :: r => if bytes_eqb k s then Some n else assoc r s
  end.

(* ---- Datasets ---- *)

(* The cells of a column of a dataset, example by example, and all together. *)
Definition batches (j : nat) (l : list example) : list (list (list byte)) :=
  map (fun e => nth j (e_features e) []) l.
Definition column_of (j : nat) (l : list example) : list (list byte) := concat (batches j l).

Definition ascii (s : list byte) : Prop := Forall (fun c : byte => c < 128) s.

(* Every example has as many features as the first one has attributes. *)
Definition regular (l : list example) : Prop :=
  match l with
  | [] => True
  | e :: _ => Forall (fun x => length (e_features x) = length (e_attrs e)) l
  end.

(* A column whose attribute insights accepts. *)
Definition dense_strings (e : example) : Prop :=
  Forall (fun a => a_sparse a = false /\ a_string a = true) (e_attrs e).

(* The first elements of a list, up to the one that brings the number of distinct elements
   to [max]; all of them if there are fewer. *)
Definition until_full (max : N) (l p : list (list byte)) : Prop :=
  exists r, l = p ++ r /\
  (r = [] \/ N.of_nat (length (distinct p)) = max) /\
  (forall p' x q, p = p' ++ x :: q -> N.of_nat (length (distinct p')) < max).

(* Under which compilers a cell is hashed without undefined behaviour: with __builtin_clz
   neither the cell nor one of its words may have a tail of zeros. *)
Definition safe (version : clz_version) (cell : list byte) : Prop :=
  version = Clz_builtin ->
  (cell <> [] -> ~ zero_tail cardinality_bits cell) /\
  (forall ws w, is_words cell ws -> In w ws -> ~ zero_tail cardinality_bits w).

(* What a client of an instance reader observes, and what the filters should do. *)
From Coq Require Import Permutation.
From Verif Require Import Common Model_rec Model_inst.

(* The results of n successive read calls. *)
Definition outputs {A} (M : machine A) (s : bstate M) (n : nat) : list (res (option A)) :=
  fst (run M s (repeat Read n)).

(* Reading delivers the items xs, one after the other; then, if [last] is Ok tt, end of data on every further call, and
   otherwise the error [last] on the next call. *)
Definition reads_as {A} (M : machine A) (s : bstate M) (xs : list A) (last : res unit) : Prop :=
  match last with
  | Ok _ => forall n, outputs M s n = firstn n (map (fun x => Ok (Some x)) xs ++ repeat (Ok None) n)
  | e => outputs M s (S (length xs)) = map (fun x => Ok (Some x)) xs ++ [cast_err e UB]
  end.

(* The same, and an error is repeated on every further call. *)
Definition reads_as_sticky {A} (M : machine A) (s : bstate M) (xs : list A) (last : res (option A)) : Prop :=
  forall n, outputs M s n = firstn n (map (fun x => Ok (Some x)) xs ++ repeat last n).

(* What peek and read calls should return when the items are xs: both return the first item, only read removes
   it.  After an error nothing more is said. *)
Fixpoint answers {A} (xs : list A) (last : res unit) (ops : list op) : list (res (option A)) :=
  match ops with
  | [] => []
  | Reset :: _ => []
  | o :: ops' =>
      match xs with
      | x :: xs' => Ok (Some x) :: answers (match o with Read => xs' | _ => xs end) last ops'
      | [] => match last with
              | Ok _ => Ok None :: answers [] last ops'
              | e => [cast_err e UB]
              end
      end
  end.

(* ---------------- stores ---------------- *)

(* The records of a store as instances: a complete record, or begin, middle ..., end. *)
Inductive groups : list rec -> list (list byte) -> Prop :=
| g_nil : groups [] []
| g_one r rs ps : kind r = kComplete -> groups rs ps -> groups (r :: rs) (payload r :: ps)
| g_split b ms e rs ps :
    kind b = kBegin -> Forall (fun m => kind m = kMiddle) ms -> kind e = kEnd -> groups rs ps ->
    groups (b :: ms ++ e :: rs) (concat (map payload (b :: ms ++ [e])) :: ps).

(* A sequence of records that no record can make part of a proper one. *)
Inductive broken : list rec -> Prop :=
| br_start r rs : kind r <> kComplete -> kind r <> kBegin -> broken (r :: rs)
| br_inside b ms r rs :
    kind b = kBegin -> Forall (fun m => kind m = kMiddle) ms -> kind r <> kMiddle -> kind r <> kEnd ->
    broken (b :: ms ++ r :: rs).

(* A split record without its end. *)
Definition truncated (rs : list rec) : Prop :=
  exists b ms, rs = b :: ms /\ kind b = kBegin /\ Forall (fun m => kind m = kMiddle) ms.

(* The instances of one store, numbered from 0. *)
Definition numbered (d : N) (ps : list (list byte)) : list instance :=
  map (fun ip => mk_instance d (fst ip) (Some (snd ip))) (combine (seq 0 (length ps)) ps).
Definition store_instances (d : store) (is : list instance) : Prop :=
  (sopen d = Ok None /\ is = [mk_instance (sid d) 0 None]) \/
  (exists rs ps, sopen d = Ok (Some (rs, Ok tt)) /\ groups rs ps /\ is = numbered (sid d) ps).

(* ---------------- filters ---------------- *)

Definition range_of {A} (skip : nat) (take : option nat) (xs : list A) : list A :=
  match take with None => skipn skip xs | Some t => firstn t (skipn skip xs) end.
(* The range is complete before the inner sequence ends. *)
Definition range_full {A} (skip : nat) (take : option nat) (xs : list A) : bool :=
  match take with None => false | Some t => skip + t <=? length xs end.

Definition shard_of {A} (index num : nat) (xs : list A) : list A :=
  map snd (filter (fun px => fst px mod num =? index) (combine (seq 0 (length xs)) xs)).

(* Blocks of one hundred; of each block, and of the last incomplete one, the first [keep (size)]. *)
Inductive sample_of {A} (keep : nat -> nat) : list A -> list A -> Prop :=
| sa_last b : length b < 100 -> sample_of keep b (firstn (keep (length b)) b)
| sa_block b xs ys : length b = 100 -> sample_of keep xs ys -> sample_of keep (b ++ xs) (firstn (keep 100) b ++ ys).

(* No element of ys is more than w - 1 places ahead of its place in xs: the first j elements of ys are
   among the first j + (w - 1) of xs. *)
Definition displaced {A} (w : nat) (xs ys : list A) : Prop :=
  forall j, exists others, Permutation (firstn j ys ++ others) (firstn (j + (w - 1)) xs).

(* ---------------- batches ---------------- *)

(* Full batches numbered from k; then the incomplete last one, if any and not to be dropped. *)
Inductive batches_of {A} (size : nat) (last : last_handling) : nat -> list A -> list (batch A) -> Prop :=
| ba_none k : batches_of size last k [] []
| ba_drop k xs : xs <> [] -> length xs < size -> last = last_drop \/ last = last_drop_warn ->
    batches_of size last k xs []
| ba_last k xs reported : xs <> [] -> length xs < size -> last <> last_drop -> last <> last_drop_warn ->
    reported = (match last with last_pad | last_pad_warn => size | _ => length xs end) ->
    batches_of size last k xs [mk_batch k xs reported]
| ba_full k xs ys bs : length xs = size -> batches_of size last (S k) ys bs ->
    batches_of size last k (xs ++ ys) (mk_batch k xs size :: bs).

(* ---------------- the whole reader ---------------- *)

(* Range, then shard, then sample. *)
Definition selected (p : rd_params) (xs ys : list instance) : Prop :=
  let a := range_of (p_skip p) (p_take p) xs in
  let b := if 1 <? p_num_shards p then shard_of (p_shard_index p) (p_num_shards p) a else a in
  match p_ratio p with None => ys = b | Some r => exists keep, (forall n, n <= 100 -> num_keep r n = Ok (keep n)) /\ sample_of keep b ys end.

(* Then the order in which they come out. *)
Definition ordered (p : rd_params) (ys zs : list instance) : Prop :=
  if p_shuffle p then Permutation zs ys /\ (0 < p_window p -> displaced (p_window p) ys zs) else zs = ys.

(* A number that has the 24 bits of significand of a float32 (so not NaN). *)
Definition float_ratio (r : f32) : Prop :=
  match r with f_nan => False | f_inf _ => True | f_fin _ m _ => (m < 2 ^ 24)%N end.

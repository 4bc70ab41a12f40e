(* Slices as lists of bytes; what resizing leaves alone. *)
From Verif Require Import Common Model_mem.

(* The address and the bytes a slice operation selects from the slice that shows the bytes l from address [at_] on;
   None: there are no such bytes. *)
Definition cut (at_ : Z) (l : list byte) (o : slop) : option (Z * list byte) :=
  let size := N.of_nat (length l) in
  let part i n :=
    if (i + n <=? size)%N then Some ((at_ + Z.of_N i)%Z, firstn (N.to_nat n) (skipn (N.to_nat i) l)) else None in
  let range a b :=
    if ((at_ <=? a) && (a <=? b))%Z then part (Z.to_N (a - at_)) (Z.to_N (b - a)) else None in
  match o with
  | Sl_from i => if (i <=? size)%N then part i (size - i)%N else None
  | Sl_part i n => part i n
  | Sl_first n => part 0%N n
  | Sl_last n => if (n <=? size)%N then part (size - n)%N n else None
  | Sl_from_it a | Sl_last_it a => range a (at_ + Z.of_N size)%Z
  | Sl_range a b => range a b
  | Sl_first_it b => range at_ b
  end.
Fixpoint cuts (at_ : Z) (l : list byte) (ops : list slop) : option (Z * list byte) :=
  match ops with
  | [] => Some (at_, l)
  | o :: t => match cut at_ l o with Some (a, l') => cuts a l' t | None => None end
  end.

(* Arguments a program can pass. *)
Definition word (n : N) : Prop := (n < 2 ^ 64)%N.
Definition slop_ok (o : slop) : Prop :=
  match o with
  | Sl_from i => word i
  | Sl_part i n => word i /\ word n
  | Sl_first n | Sl_last n => word n
  | _ => True
  end.

(* The first bytes that both contents have are the same. *)
Definition kept (old new : list byte) : Prop :=
  let c := Nat.min (length old) (length new) in firstn c new = firstn c old.

(* What a history of a block with content [l] shows: a resize gives the size and keeps the bytes or, if it throws, changes
   nothing; a write changes the one byte. *)
Fixpoint faithful (l : list byte) (ops : list bop) (outs : list (res unit * res (list byte))) : Prop :=
  match ops, outs with
  | [], [] => True
  | Bo_resize n _ :: ops', (r, now) :: outs' =>
    match r, now with
    | Ok _, Ok l' => length l' = n /\ kept l l' /\ faithful l' ops' outs'
    | Throw _, Ok l' => l' = l /\ faithful l' ops' outs'
    | _, _ => False
    end
  | Bo_write i x :: ops', (r, now) :: outs' =>
    match r, now with
    | Ok _, Ok l' => length l' = length l /\ (forall j, nth j l' 0%N = if (j =? i)%nat then x else nth j l 0%N) /\ faithful l' ops' outs'
    | _, _ => False
    end
  | _, _ => False
  end.

(* A block's current bytes and whether they are on the heap of a block that moves to a file above the threshold. *)
Definition on_heap (b : block) : option nat := match b with B_hybrid_heap _ t => Some t | _ => None end.

(* The histories considered: bytes are written inside the block; a block whose bytes are on the heap and exceed the
   threshold is not made smaller; making a block smaller does not fail in the mapping of its file. *)
Fixpoint gentle (b : block) (ops : list bop) : Prop :=
  match ops with
  | [] => True
  | o :: t =>
    (forall l, b_bytes b = Ok l ->
       match o with
       | Bo_write i _ => i < length l
       | Bo_resize n e => (forall th, on_heap b = Some th -> th < length l -> length l <= n) /\ (e_map_fails e = true -> length l <= n)
       end) /\ gentle (snd (b_step b o)) t
  end.

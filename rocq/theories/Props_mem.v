(* Slices of memory blocks and memory blocks that are resized. *)
From Verif Require Import Common Model_strm Model_mem Spec_mem Proof_mem.

(* C51. Every chain of slice operations with any arguments, on a block in the lower half of the address space, selects
   the bytes that the same operations select from the list of its bytes, inside the block; it throws when there are none. *)
Theorem C51_slices : forall base block ops,
  (0 < base)%Z -> (base + Z.of_nat (length block) <= 2 ^ 63)%Z -> Forall slop_ok ops ->
  match sl_run (whole base (length block)) ops, cuts base block ops with
  | Ok s, Some (a, l) =>
    sl_beg s = a /\ sl_bytes base block s = Ok l /\ (base <= sl_beg s <= sl_end s)%Z /\ (sl_end s <= base + Z.of_nat (length block))%Z
  | Throw e, None => e = Invalid_argument
  | _, _ => False
  end.
Proof. exact C51_l. Qed.
Print Assumptions C51_slices.

Example C51_case :
  let block := [1; 2; 3; 4; 5; 6; 7]%N in
  let ops := [Sl_from 1; Sl_last 5; Sl_part 1 3; Sl_range 1003 1006]%N in
  Forall slop_ok ops /\
  sl_run (whole 1000 7) ops = Ok (mk_slice 1003 1006) /\ cuts 1000 block ops = Some (1003%Z, [4; 5; 6]%N) /\
  sl_run (whole 1000 7) [Sl_part 2 (2 ^ 64 - 1)]%N = Throw Invalid_argument /\
  sl_run (whole 1000 7) [Sl_last (2 ^ 64 - 1)]%N = Throw Invalid_argument /\
  sl_run (whole 1000 7) [Sl_from (2 ^ 64 - 1)]%N = Throw Invalid_argument.
Proof.
  cbv zeta. split; [|repeat split; vm_compute; reflexivity].
  repeat (constructor; [try (split); vm_compute; try reflexivity; exact I|]). constructor.
Qed.

(* C52. In every history of writes and resizes of an allocated block - unless a block that is still on the heap above
   the threshold is made smaller, or the file of a block that is made smaller cannot be mapped - each resize keeps the
   common bytes, or fails and changes nothing; nothing is written elsewhere. *)
Theorem C52_resize_partial : forall a n e b l ops,
  b_allocate a n e = Ok b -> b_bytes b = Ok l -> gentle b ops -> length l = n /\ faithful l ops (b_run b ops).
Proof. exact C52_faithful_l. Qed.
Print Assumptions C52_resize_partial.

Definition fine : env := mk_env false [7; 7; 7]%N false false.

(* A block with threshold 2 grows on the heap, moves to a file, and shrinks there. *)
Example C52_case :
  let ops := [Bo_write 0 1%N; Bo_write 1 2%N; Bo_resize 1 fine; Bo_resize 3 fine; Bo_resize 5 (mk_env false [] false true); Bo_resize 5 fine;
              Bo_write 4 9%N; Bo_resize 1 fine; Bo_resize 2 fine] in
  exists b, b_allocate (A_file_backed 2) 2 fine = Ok b /\ b_bytes b = Ok [7; 7]%N /\ gentle b ops /\
  b_run b ops = [(Ok tt, Ok [1; 7]%N); (Ok tt, Ok [1; 2]%N); (Ok tt, Ok [1]%N); (Ok tt, Ok [1; 7; 7]%N); (Throw System_err, Ok [1; 7; 7]%N);
                 (Ok tt, Ok [1; 7; 7; 0; 0]%N); (Ok tt, Ok [1; 7; 7; 0; 9]%N); (Ok tt, Ok [1]%N); (Ok tt, Ok [1; 0]%N)].
Proof.
  cbv zeta. eexists. split; [reflexivity|]. split; [reflexivity|]. split; [|vm_compute; reflexivity].
  repeat (split; [let E := fresh in intros l E; vm_compute in E; injection E as <-; cbn;
    first [lia|split; [intros th T; first [discriminate T|injection T as <-; lia]|first [discriminate|lia]]]|]). exact I.
Qed.

(* C52. A block that cannot be resized is replaced by one with the common bytes. *)
Theorem C52_replaced : forall bytes a n e,
  (forall b, resize_block (inr bytes) a n e = Ok b -> exists l, b_bytes b = Ok l /\ length l = n /\ kept bytes l) /\
  resize_block (inr bytes) a n e <> UB /\ resize_block (inr bytes) a n e <> Fuel.
Proof. intros bytes a n e. split; [apply C52_copy_l|apply C52_copy_defined_l]. Qed.
Print Assumptions C52_replaced.

Example C52_replaced_case :
  rmap b_bytes (resize_block (inr [1; 2; 3]%N) (A_file_backed 4) 2 fine) = Ok (Ok [1; 2]%N) /\
  rmap b_bytes (resize_block (inr [1; 2; 3]%N) (A_file_backed 4) 5 fine) = Ok (Ok [1; 2; 3; 0; 0]%N) /\
  rmap b_bytes (resize_block (inr [1; 2; 3]%N) A_heap 5 (mk_env true [] false false)) = Throw Other_err.
Proof. repeat split. Qed.

(* C52. A block that grew on the heap beyond the threshold writes outside of its new memory when it is made smaller. *)
Theorem C52_shrink_refuted : exists threshold n1 n2 n3 b,
  b_allocate (A_file_backed threshold) n1 fine = Ok b /\
  map fst (b_run b [Bo_resize n2 fine; Bo_resize n3 fine]) = [Ok tt; UB] /\ n3 < n2.
Proof. exists 2, 2, 5, 3. eexists. split; [reflexivity|]. split; [vm_compute; reflexivity|lia]. Qed.
Print Assumptions C52_shrink_refuted.

(* C52. If the smaller file cannot be mapped the block still reports its old size, but its last bytes are gone. *)
Theorem C52_unmapped_refuted : exists n1 n2 b,
  b_allocate (A_file_backed 0) n1 fine = Ok b /\ n2 < n1 /\
  b_run b [Bo_resize n2 (mk_env false [] false true)] = [(Throw System_err, UB)].
Proof. exists 5, 3. eexists. split; [reflexivity|]. split; [lia|vm_compute; reflexivity]. Qed.
Print Assumptions C52_unmapped_refuted.

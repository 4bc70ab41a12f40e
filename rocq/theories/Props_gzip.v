(* The stream that decompresses gzip and zlib content: C46. *)
From Verif Require Import Common Model_rec Model_gzip Spec_gzip Proof_gzip.

(* In all theorems the decoder is arbitrary; [checksummed] says that the last byte of a member carries no data (it is a byte
   of the checksum). *)
Definition checksummed {St} (z_step : St -> byte -> list byte * znext St) : Prop :=
  forall s c o, z_step s c = (o, Z_fin) -> o = [].
Definition gzip_reads {St} z_init z_step z_stops ns (content : list byte) sched : list (res (N * list byte)) :=
  g_reads St z_init z_step z_stops ns (g_open St z_init (mk_stream content sched)).

(* A toy format: 1 begins a member, 2 is followed by a byte of data, 3 ends the member. *)
Definition toy (s : nat) (c : byte) : list byte * znext nat :=
  match s, c with
  | 0, 1%N => ([], Z_go 1)
  | 1, 2%N => ([], Z_go 2)
  | 1, 3%N => ([], Z_fin)
  | 2, _ => ([c], Z_go 1)
  | _, _ => ([], Z_bad)
  end.
Definition toy_stops (s : nat) : bool := false.
Lemma toy_checksummed : checksummed toy.
Proof.
  intros [|[|[|s]]] c o; unfold toy; cbn; [| |congruence|congruence]; destruct c as [|[[p|p| ]|[p|p| ]| ]]; congruence.
Qed.

(* Every content is complete, truncated or corrupt. *)
Theorem C46_kinds : forall St z_init z_step content, exists data,
  compressed St z_init z_step content data \/ truncated St z_init z_step content data \/ corrupt St z_init z_step content data.
Proof. exact content_kind. Qed.
Print Assumptions C46_kinds.

(* Whatever the sizes of the reads and of the pieces the source delivers, what the client has received is a prefix of the
   decompressed content; errors are permanent, and there are none if the content is complete. *)
Theorem C46_prefix : forall St z_init z_step z_stops, checksummed z_step -> forall content data sched ns, Forall usual ns ->
  compressed St z_init z_step content data \/ truncated St z_init z_step content data \/ corrupt St z_init z_step content data ->
  exists ns1 ns2 rs1, ns = ns1 ++ ns2 /\
    gzip_reads z_init z_step z_stops ns content sched = rs1 ++ repeat (Throw Inflate_err) (length ns2) /\
    Forall2 served ns1 rs1 /\ prefix_of (received rs1) data /\ (compressed St z_init z_step content data -> ns2 = []).
Proof. exact received_l. Qed.
Print Assumptions C46_prefix.

(* A client that goes on reading (also after an empty read) receives everything. *)
Theorem C46_everything_partial : forall St z_init z_step z_stops, checksummed z_step -> forall content data sched ns, Forall usual ns ->
  compressed St z_init z_step content data -> length content + length data <= length ns ->
  Forall2 served ns (gzip_reads z_init z_step z_stops ns content sched) /\ received (gzip_reads z_init z_step z_stops ns content sched) = data.
Proof. exact complete_l. Qed.
Print Assumptions C46_everything_partial.

(* It is told if the content is truncated or corrupt. *)
Theorem C46_reported_partial : forall St z_init z_step z_stops, checksummed z_step -> forall content data sched ns, Forall usual ns ->
  truncated St z_init z_step content data \/ corrupt St z_init z_step content data -> length content + length data < length ns ->
  exists rs, gzip_reads z_init z_step z_stops ns content sched = rs ++ [Throw Inflate_err].
Proof. exact reported_l. Qed.
Print Assumptions C46_reported_partial.

(* If the content is a single member that the source delivers in one piece, an empty read means that everything has been
   received. *)
Theorem C46_single_partial : forall St z_init z_step z_stops, checksummed z_step -> forall content data ns i, Forall usual ns ->
  decodes St z_step z_init content data Z_fin -> (N.of_nat (length content) <= 512 * 1024)%N ->
  nth_error (gzip_reads z_init z_step z_stops ns content []) i = Some (Ok (0%N, [])) ->
  received (firstn i (gzip_reads z_init z_step z_stops ns content [])) = data.
Proof. exact single_l. Qed.
Print Assumptions C46_single_partial.

Lemma toy_case : compressed nat 0 toy [1; 2; 7; 2; 8; 3; 1; 2; 9; 3]%N [7; 8; 9]%N /\ decodes nat toy 0 [1; 2; 7; 2; 8; 3]%N [7; 8]%N Z_fin.
Proof.
  assert (M : decodes nat toy 0 [1; 2; 7; 2; 8; 3]%N [7; 8]%N Z_fin).
  { apply (D_more _ _ 0 1%N [] 1 _ [7; 8]%N); [reflexivity|]. apply (D_more _ _ 1 2%N [] 2 _ [7; 8]%N); [reflexivity|].
    apply (D_more _ _ 2 7%N [7%N] 1 _ [8%N]); [reflexivity|]. apply (D_more _ _ 1 2%N [] 2 _ [8%N]); [reflexivity|].
    apply (D_more _ _ 2 8%N [8%N] 1 _ []); [reflexivity|]. apply D_last; [reflexivity|discriminate]. }
  split; [|exact M]. apply (C_member _ _ _ [1; 2; 7; 2; 8; 3]%N [7; 8]%N [1; 2; 9; 3]%N [9%N] M).
  apply (C_member _ _ _ [1; 2; 9; 3]%N [9%N] [] []); [|constructor].
  apply (D_more _ _ 0 1%N [] 1 _ [9%N]); [reflexivity|]. apply (D_more _ _ 1 2%N [] 2 _ [9%N]); [reflexivity|].
  apply (D_more _ _ 2 9%N [9%N] 1 _ []); [reflexivity|]. apply D_last; [reflexivity|discriminate].
Qed.
Example C46_case :
  checksummed toy /\ compressed nat 0 toy [1; 2; 7; 2; 8; 3; 1; 2; 9; 3]%N [7; 8; 9]%N /\ Forall usual [1; 5; 1; 5; 5]%N /\
  gzip_reads 0 toy toy_stops [1; 5; 1; 5; 5]%N [1; 2; 7; 2; 8; 3; 1; 2; 9; 3]%N [] =
    [Ok (1, [7]); Ok (1, [8]); Ok (1, [9]); Ok (0, []); Ok (0, [])]%N /\
  gzip_reads 0 toy toy_stops [1; 5; 1; 5]%N [1; 2; 7; 2; 8]%N [] =
    [Ok (1%N, [7]%N); Throw Inflate_err; Throw Inflate_err; Throw Inflate_err].
Proof.
  split; [exact toy_checksummed|]. split; [apply toy_case|]. split; [repeat constructor|]. split; vm_compute; reflexivity.
Qed.
Example C46_truncated_case : truncated nat 0 toy [1; 2; 7; 2; 8]%N [7; 8]%N /\ corrupt nat 0 toy [1; 2; 7; 9; 9]%N [7]%N.
Proof.
  split.
  - exists [], [], [1; 2; 7; 2; 8]%N, [7; 8]%N, 1. split; [constructor|]. split; [discriminate|]. split; [|auto].
    apply (D_more _ _ 0 1%N [] 1 _ [7; 8]%N); [reflexivity|]. apply (D_more _ _ 1 2%N [] 2 _ [7; 8]%N); [reflexivity|].
    apply (D_more _ _ 2 7%N [7%N] 1 _ [8%N]); [reflexivity|]. apply (D_more _ _ 1 2%N [] 2 _ [8%N]); [reflexivity|].
    apply (D_more _ _ 2 8%N [8%N] 1 _ []); [reflexivity|]. constructor.
  - exists [], [], [1; 2; 7; 9]%N, [7]%N, [9%N]. split; [constructor|]. split; [|auto].
    apply (D_more _ _ 0 1%N [] 1 _ [7]%N); [reflexivity|]. apply (D_more _ _ 1 2%N [] 2 _ [7]%N); [reflexivity|].
    apply (D_more _ _ 2 7%N [7%N] 1 _ []); [reflexivity|]. apply D_last; [reflexivity|discriminate].
Qed.

(* But in general an empty read does not mean the end.  If the first piece the source delivers carries no data (a gzip header
   does not), the first read is empty. *)
Theorem C46_header_refuted : forall St z_init z_step z_stops h rest s n, usual n ->
  h <> [] -> decodes St z_step z_init h [] (Z_go s) -> (N.of_nat (length h) <= 512 * 1024)%N ->
  exists sched, gzip_reads z_init z_step z_stops [n] (h ++ rest) sched = [Ok (0%N, [])].
Proof.
  intros St z_init z_step z_stops h rest s n U NE D L. exists [length h].
  destruct (silent_read St z_init z_step z_stops h rest [] n s U NE D L) as [g' E]. unfold gzip_reads. cbn [g_reads]. rewrite E. reflexivity.
Qed.
Print Assumptions C46_header_refuted.

(* Also without short reads: if the file begins with a member without data, the first read is empty. *)
Theorem C46_empty_member_refuted : forall St z_init z_step z_stops m rest n, usual n ->
  decodes St z_step z_init m [] Z_fin -> (N.of_nat (length (m ++ rest)) <= 512 * 1024)%N ->
  gzip_reads z_init z_step z_stops [n] (m ++ rest) [] = [Ok (0%N, [])].
Proof.
  intros St z_init z_step z_stops m rest n U D L. destruct (empty_member_read St z_init z_step z_stops m rest n U D L) as [g' E].
  unfold gzip_reads. cbn [g_reads]. rewrite E. reflexivity.
Qed.
Print Assumptions C46_empty_member_refuted.

Example C46_refuted_case :
  decodes nat toy 0 [1%N] [] (Z_go 1) /\ gzip_reads 0 toy toy_stops [9; 9]%N [1; 2; 7; 3]%N [1] = [Ok (0, []); Ok (1, [7])]%N /\
  decodes nat toy 0 [1; 3]%N [] Z_fin /\ gzip_reads 0 toy toy_stops [9; 9]%N [1; 3; 1; 2; 7; 3]%N [] = [Ok (0, []); Ok (1, [7])]%N.
Proof.
  split; [apply (D_more _ _ 0 1%N [] 1 _ []); [reflexivity|constructor]|]. split; [vm_compute; reflexivity|].
  split; [|vm_compute; reflexivity]. apply (D_more _ _ 0 1%N [] 1 _ []); [reflexivity|]. apply D_last; [reflexivity|discriminate].
Qed.

(* A destination of 2^32 bytes or more: the read claims to have delivered bytes it has not written. *)
Theorem C46_huge_destination_refuted : exists content data n count bs,
  compressed nat 0 toy content data /\ gzip_reads 0 toy toy_stops [n] content [] = [Ok (count, bs)] /\ (N.of_nat (length bs) < count)%N.
Proof.
  exists [1; 2; 7; 2; 8; 3; 1; 2; 9; 3]%N, [7; 8; 9]%N, (2 ^ 32 + 9)%N, (2 ^ 32 + 2)%N, [7; 8]%N.
  split; [apply toy_case|]. split; [vm_compute|]; reflexivity.
Qed.
Print Assumptions C46_huge_destination_refuted.

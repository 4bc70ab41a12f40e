(* RecordIO-protobuf files read to the end: C77. *)
From Coq Require Import Permutation.
From Verif Require Import Common Model_rec Spec_rec Model_inst Spec_inst Model_par Spec_par Model_text Spec_text Props_text
  Model_tsr Model_csv Model_pb Spec_pb Proof_pb_props Props_pb Model_csvfile Spec_csvfile Proof_csvfile Props_csvfile Model_pbfile Spec_pbfile Proof_pbfile.

(* In all theorems: any interleaving of the threads, any epoch, any options; see Spec_pbfile.pb_reading. *)

(* If all instances are good: once end of data has been reported, or more calls have returned than there are instances, the
   examples hold the messages of consecutive batches of the selected instances, each message once and one per row. *)
Theorem C77_good : forall V (vzero : V) parse (rng : Type) (seeded : rng) draw shuf size_max p h sc fls dec M src src_end
    bytes cores np pr prefetch reads s,
  pb_reading V vzero parse seeded draw shuf size_max p h sc fls dec M src src_end ->
  graph_params cores np pr = (prefetch, reads) -> 1 <= cores ->
  reachable dec bytes src src_end prefetch reads s ->
  Forall (fun b => good V sc (parse b)) (concat (map snd fls)) ->
  In O_end (log s) \/ length (concat (map snd fls)) < length (log s) ->
  exists bs, file_batches p fls bs /\
    Forall2 (fun e b => exists ms, messages V parse b = map Some ms /\ Forall (fits V sc) ms /\ example_of V sc (ba_size b) e ms)
      (delivered (log s)) bs.
Proof. intros. eapply pb_good; eassumption. Qed.
Print Assumptions C77_good.

(* If bad instances are errors and end of data has been reported, then the instances of all batches were good. *)
Theorem C77_error : forall V (vzero : V) parse (rng : Type) (seeded : rng) draw shuf size_max p sc fls dec M src src_end
    bytes cores np pr prefetch reads s,
  pb_reading V vzero parse seeded draw shuf size_max p B_error sc fls dec M src src_end ->
  graph_params cores np pr = (prefetch, reads) -> 1 <= cores ->
  reachable dec bytes src src_end prefetch reads s -> In O_end (log s) ->
  exists bs, file_batches p fls bs /\
    Forall2 (fun e b => exists ms, messages V parse b = map Some ms /\ Forall (fits V sc) ms /\ example_of V sc (ba_size b) e ms)
      (delivered (log s)) bs.
Proof. intros. eapply pb_error; try eassumption; reflexivity. Qed.
Print Assumptions C77_error.

(* If batches with bad instances are skipped: the examples are those of the other batches. *)
Theorem C77_skip : forall V (vzero : V) parse (rng : Type) (seeded : rng) draw shuf size_max p h sc fls dec M src src_end
    bytes cores np pr prefetch reads s,
  pb_reading V vzero parse seeded draw shuf size_max p h sc fls dec M src src_end ->
  graph_params cores np pr = (prefetch, reads) -> 1 <= cores ->
  reachable dec bytes src src_end prefetch reads s ->
  h = B_skip \/ h = B_skip_warn -> In O_end (log s) \/ length (concat (map snd fls)) < length (log s) ->
  exists bs cs, file_batches p fls bs /\ spared (fun i => ~ good V sc (parse (bits i))) bs cs /\
    Forall2 (fun e b => exists ms, messages V parse b = map Some ms /\ Forall (fits V sc) ms /\ example_of V sc (ba_size b) e ms)
      (delivered (log s)) cs.
Proof. intros. eapply pb_skip; eassumption. Qed.
Print Assumptions C77_skip.

(* If bad instances are padded: the examples hold the good instances of their batches, and the others are counted as padding,
   provided that the features are dense or the faults are found early (otherwise C42 refutes it). *)
Theorem C77_pad_partial : forall V (vzero : V) parse (rng : Type) (seeded : rng) draw shuf size_max p h sc fls dec M src src_end
    bytes cores np pr prefetch reads s,
  pb_reading V vzero parse seeded draw shuf size_max p h sc fls dec M src src_end ->
  graph_params cores np pr = (prefetch, reads) -> 1 <= cores ->
  reachable dec bytes src src_end prefetch reads s ->
  h_pad h = true ->
  has_sparse sc = false \/ Forall (fun b => good V sc (parse b) \/ found_early V sc (parse b)) (concat (map snd fls)) ->
  In O_end (log s) \/ length (concat (map snd fls)) < length (log s) ->
  exists bs, file_batches p fls bs /\
    Forall2 (fun e b => exists ms, goods V sc (messages V parse b) ms /\ example_of V sc (ba_size b) e ms) (delivered (log s)) bs.
Proof. intros. eapply pb_pad; eassumption. Qed.
Print Assumptions C77_pad_partial.

(* ---------------- a case ---------------- *)

(* The bytes 1 and 2 are the messages m_1 and m_2 of Props_pb.  The first file holds both, the second one split over two records; the second
   file holds the byte c. *)
Definition toy_parse (b : list byte) : option (message Z) :=
  match b with [1%N] => Some m_1 | [2%N] => Some m_2 | _ => None end.
Definition rio (rs : list (rec * list byte)) : list byte :=
  flat_map (fun x => rio_encode1 (kind (fst x)) (payload (fst x)) (snd x)) rs.
Definition rio_1 : list (rec * list byte) :=
  [(mk_rec [1%N] kComplete, [0; 0; 0]%N); (mk_rec [] kBegin, []); (mk_rec [2%N] kEnd, [0; 0; 0]%N)].
Definition rio_2 (c : byte) : list (rec * list byte) := [(mk_rec [c] kComplete, [0; 0; 0]%N)].
Definition pb_fls (c : byte) : list (text_file * list (list byte)) :=
  [(mk_text_file 7 (rio rio_1) false [3; 1] 5%N, [[1]; [2]]%N); (mk_text_file 8 (rio (rio_2 c)) true [] 64%N, [[c]])].
Definition pb_batches (c : byte) : list (batch Model_inst.instance) :=
  [mk_batch 0 [ins 7 0 [1%N]; ins 7 1 [2%N]] 2; mk_batch 1 [ins 8 0 [c]] 2].
Definition pb_dec (h : beh) (b : batch Model_inst.instance) : dres (example (feature Z)) :=
  dres_of (serial_outcome Z 0%Z h (ba_size b) s_3 (messages Z toy_parse b)).

Lemma pb_case h c : c = 1%N \/ c = 9%N ->
  exists M, pb_reading Z 0%Z toy_parse 0 the_draw the_shuf 1000 the_params h s_3 (pb_fls c) (pb_dec h) M (fun _ => pb_batches c) (fun _ => None).
Proof.
  intro Hc.
  assert (HF : Forall (fun fl => recordio_file (fst fl) (snd fl)) (pb_fls c)).
  { constructor; [|constructor; [|constructor]]; cbn [fst snd]; (split; [reflexivity|]).
    - exists rio_1. split; [reflexivity|]. split; [repeat constructor; vm_compute; auto|]. cbn [map fst rio_1].
      apply (g_one (mk_rec [1%N] kComplete)); [reflexivity|].
      apply (g_split (mk_rec [] kBegin) [] (mk_rec [2%N] kEnd) []); [reflexivity|constructor|reflexivity|constructor].
    - exists (rio_2 c). split; [reflexivity|]. split; [repeat constructor; vm_compute; auto|]. cbn [map fst rio_2].
      apply (g_one (mk_rec [c] kComplete)); [reflexivity|constructor]. }
  eexists. split; [exact HF|]. split.
  { cbn [pb_fls map snd concat app]. constructor; [exact m_1_clean|]. constructor; [exact m_2_clean|].
    constructor; [destruct Hc; subst c; [exact m_1_clean|intros m E; discriminate]|constructor]. }
  split; [apply (usable_smaller 3); [cbn; lia|exact s_3_usable]|]. split; [reflexivity|].
  split; [discriminate|]. split; [intros w g Hw; exact Hw|]. split; [intros; apply Permutation_refl|].
  split; [apply Nat.ltb_lt; reflexivity|]. split; [cbn; lia|]. split.
  - eapply (fed_plain 0 the_draw the_shuf 1000 the_params _ _ _ _ (recordio_stores (pb_fls c) HF));
      [reflexivity|reflexivity|reflexivity|cbn; lia|reflexivity|reflexivity|intros w g Hw; exact Hw|intros; apply Permutation_refl| |cbn; lia|discriminate|].
    + apply Nat.ltb_lt. reflexivity.
    + cbn [map concat app]. apply (ba_full 2 last_pad 0 [_; _] [_]); [reflexivity|].
      apply ba_last; [discriminate|cbn; lia|discriminate|discriminate|reflexivity].
  - intros ep b Hb. eexists. split; [|reflexivity]. apply db_computes; reflexivity.
Qed.

(* All instances good; the example of a bad one with skipping. *)
Example C77_case :
  (exists M s, pb_reading Z 0%Z toy_parse 0 the_draw the_shuf 1000 the_params B_error s_3 (pb_fls 1%N) (pb_dec B_error) M
      (fun _ => pb_batches 1%N) (fun _ => None) /\
    reachable (pb_dec B_error) (fun _ => 1) (fun _ => pb_batches 1%N) (fun _ => None) 2 2 s /\
    In O_end (log s) /\ map e_padding (delivered (log s)) = [0; 1]%Z /\
    map (fun e => nth_error (e_features e) 0) (delivered (log s)) =
      [Some (F_dense Z [2; 2] [1; 2; 3; 4]); Some (F_dense Z [2; 2] [1; 2; 0; 0])]%Z) /\
  Forall (fun b => good Z s_3 (toy_parse b)) (concat (map snd (pb_fls 1%N))) /\
  (exists M, pb_reading Z 0%Z toy_parse 0 the_draw the_shuf 1000 the_params B_skip s_3 (pb_fls 9%N) (pb_dec B_skip) M
      (fun _ => pb_batches 9%N) (fun _ => None)) /\
  map e_padding (sequential (pb_dec B_skip) (pb_batches 9%N)) = [0]%Z /\
  map e_padding (sequential (pb_dec B_pad) (pb_batches 9%N)) = [0; 2]%Z /\
  Forall (fun b => good Z s_3 (toy_parse b) \/ found_early Z s_3 (toy_parse b)) (concat (map snd (pb_fls 9%N))).
Proof.
  split; [|split; [|split; [|split; [|split]]]].
  - destruct (pb_case B_error 1%N (or_introl eq_refl)) as (M & HM). exists M. eexists. split; [exact HM|].
    split; [exists csv_run; vm_compute; reflexivity|]. split; [cbn; auto|]. split; reflexivity.
  - cbn [pb_fls map snd concat app]. repeat (apply Forall_cons; [eexists; split; [reflexivity|]; auto using m_1_fits, m_2_fits|]). constructor.
  - exact (pb_case B_skip 9%N (or_intror eq_refl)).
  - vm_compute. reflexivity.
  - vm_compute. reflexivity.
  - cbn [pb_fls map snd concat app]. do 2 (apply Forall_cons; [left; eexists; split; [reflexivity|]; auto using m_1_fits, m_2_fits|]).
    constructor; [|constructor]. right. intros m E. discriminate.
Qed.

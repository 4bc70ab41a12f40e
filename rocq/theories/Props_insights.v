(* C56, C57: cardinality sketches and column statistics of mlio.contrib.insights. *)
From Verif Require Import Common Model_num Model_insights Spec_insights Proof_insights
  Proof_insights2 Proof_insights3 Proof_insights4 Proof_insights5 Proof_insights6.
From Coq Require Import QArith Qabs Lqa.
From Coq Require String.
Import String.StringSyntax.
Import List.
Local Open Scope N_scope.

(* ---- C56: sketches ---- *)

(* The registers of a sketch are the largest ranks of the strings added to it. *)
Theorem C56_sketch : forall version b h0 l h,
  hll_make b = Ok h0 -> hll_add_all version h0 l = Ok h -> is_sketch b l h.
Proof.
  intros version b h0 l h M A. apply make_sketch in M. destruct M as [B M].
  exact (sketch_add_all version b B l [] h0 h M A).
Qed.
Print Assumptions C56_sketch.

(* The sketch depends only on the set of the strings: not on their order, on how often they
   occur, nor on the compiler. *)
Theorem C56_set : forall version version' b h0 l l' h h',
  hll_make b = Ok h0 -> (forall s, In s l <-> In s l') ->
  hll_add_all version h0 l = Ok h -> hll_add_all version' h0 l' = Ok h' -> h = h'.
Proof.
  intros version version' b h0 l l' h h' M S A A'. apply make_sketch in M. destruct M as [B M].
  apply (sketch_unique b l').
  - exact B.
  - apply (sketch_same b l); auto. exact (sketch_add_all version b B l [] h0 h M A).
  - exact (sketch_add_all version' b B l' [] h0 h' M A').
Qed.
Print Assumptions C56_set.

Example C56_set_case : exists h,
  (let* h0 := hll_make 4 in hll_add_all Clz_builtin h0 [lit "a"; lit "u"; lit "b"]) = Ok h /\
  (let* h0 := hll_make 4 in
   hll_add_all Clz_loop h0 [lit "b"; lit "u"; lit "u"; lit "a"; lit "b"]) = Ok h /\
  nth 5 (h_regs h) 0 = 2 /\ nth 10 (h_regs h) 0 = 3 /\ nth 0 (h_regs h) 0 = 0.
Proof. eexists. vm_compute. repeat split. Qed.

(* Which widths are accepted. *)
Theorem C56_width : forall b,
  (4 <= b <= 30 -> exists h, hll_make b = Ok h) /\
  (b < 4 \/ b = 31 -> hll_make b = Throw Invalid_argument).
Proof.
  intro b. split.
  - intro B. now apply make_ok.
  - intro B. unfold hll_make. replace (32 <=? b) with false by lia.
    replace ((b <? 4) || (30 <? b)) with true by lia. reflexivity.
Qed.
Print Assumptions C56_width.

(* With the loop version every string can be added; with __builtin_clz the result is undefined
   exactly if the hash of some string ends in 32 - b zeros. *)
Theorem C56_defined_partial : forall b h0 l, hll_make b = Ok h0 ->
  (exists h, hll_add_all Clz_loop h0 l = Ok h) /\
  ((forall s, In s l -> ~ zero_tail b s) -> exists h, hll_add_all Clz_builtin h0 l = Ok h) /\
  ((exists s, In s l /\ zero_tail b s) -> hll_add_all Clz_builtin h0 l = UB).
Proof.
  intros b h0 l M. apply make_sketch in M. destruct M as [B M]. split; [|split].
  - apply (add_all_ok Clz_loop b B l [] h0 M). discriminate.
  - intro H. apply (add_all_ok Clz_builtin b B l [] h0 M). auto.
  - intro H. exact (add_all_ub b B l [] h0 M H).
Qed.
Print Assumptions C56_defined_partial.

(* There are such strings, for the width 16 that the column analyzer uses. *)
Theorem C56_defined_refuted :
  zero_tail cardinality_bits (lit "46288") /\
  (let* h0 := hll_make cardinality_bits in hll_add Clz_builtin h0 (lit "46288")) = UB.
Proof. split; vm_compute; reflexivity. Qed.
Print Assumptions C56_defined_refuted.

(* Merging two sketches: every register is at least what it should be, and it is exact where
   the register of the target is 0 or already the larger one.  The missing case is refuted
   below. *)
Theorem C56_merge_partial : forall b l l' h h' m,
  4 <= b <= 30 -> is_sketch b l h -> is_sketch b l' h' -> hll_merge h h' = Ok m ->
  (forall i v, i < 2 ^ b -> is_register b (l ++ l') i v -> v <= nth (N.to_nat i) (h_regs m) 0) /\
  ((forall i, i < 2 ^ b -> nth (N.to_nat i) (h_regs h) 0 = 0 \/
     nth (N.to_nat i) (h_regs h') 0 <= nth (N.to_nat i) (h_regs h) 0) ->
   is_sketch b (l ++ l') m).
Proof.
  intros b l l' h h' m B (A1 & A2 & A3) (C1 & C2 & C3) E. unfold hll_merge in E.
  destruct (Nat.eqb_spec (length (h_regs h)) (length (h_regs h'))) as [L|L]; [|discriminate].
  injection E as <-. cbn [h_regs].
  split.
  - intros i v I V. specialize (A3 i I). specialize (C3 i I).
    rewrite (register_unique b _ _ _ _ B V (register_app _ _ _ _ _ _ A3 C3)).
    rewrite merge_regs_nth by exact L. cbv zeta.
    destruct (N.ltb_spec (nth (N.to_nat i) (h_regs h) 0) (nth (N.to_nat i) (h_regs h') 0)) as [K|K].
    + pose proof (lor_ge (nth (N.to_nat i) (h_regs h) 0) (nth (N.to_nat i) (h_regs h') 0)). lia.
    + lia.
  - intro H. split; [exact A1|]. cbn [h_regs]. split; [now rewrite merge_regs_length|].
    intros i I. rewrite merge_regs_nth by exact L. cbv zeta.
    specialize (A3 i I). specialize (C3 i I). pose proof (register_app _ _ _ _ _ _ A3 C3) as R.
    destruct (H i I) as [Z|Z].
    + rewrite Z in *. destruct (N.ltb_spec 0 (nth (N.to_nat i) (h_regs h') 0)) as [K|K].
      * rewrite N.lor_0_l. rewrite N.max_r in R by lia. exact R.
      * rewrite N.max_l in R by lia. exact R.
    + replace (_ <? _) with false by (symmetry; apply N.ltb_ge; exact Z).
      rewrite N.max_l in R by lia. exact R.
Qed.
Print Assumptions C56_merge_partial.

Example C56_merge_case : exists h h' m,
  (let* h0 := hll_make 4 in hll_add_all Clz_loop h0 [lit "a"; lit "b"]) = Ok h /\
  (let* h0 := hll_make 4 in hll_add_all Clz_loop h0 [lit "u"; lit "h"]) = Ok h' /\
  hll_merge h h' = Ok m /\
  (let* h0 := hll_make 4 in
   hll_add_all Clz_loop h0 [lit "a"; lit "b"; lit "u"; lit "h"]) = Ok m.
Proof. eexists _, _, _. repeat split; vm_compute; reflexivity. Qed.

(* Sketches of different widths are not merged. *)
Theorem C56_merge_width : forall b b' l l' h h',
  is_sketch b l h -> is_sketch b' l' h' ->
  (hll_merge h h' = Throw Invalid_argument <-> b <> b') /\
  ((exists m, hll_merge h h' = Ok m) <-> b = b').
Proof.
  intros b b' l l' h h' (_ & L & _) (_ & L' & _). unfold hll_merge. rewrite L, L'.
  assert (P : b <> b' -> N.to_nat (2 ^ b) <> N.to_nat (2 ^ b')).
  { intros D E. apply D. apply N2Nat.inj in E.
    apply (N.pow_inj_r 2) in E; auto. lia. }
  destruct (Nat.eqb_spec (N.to_nat (2 ^ b)) (N.to_nat (2 ^ b'))) as [E|E].
  - assert (D : b = b') by (destruct (N.eq_dec b b'); auto; now apply P in E).
    split; split; intro H; try discriminate; try contradiction; eauto.
  - assert (D : b <> b') by (intros ->; auto).
    split; split; intro H; auto; try contradiction. destruct H; discriminate.
Qed.
Print Assumptions C56_merge_width.

(* In general merging is wrong: "u" has rank 1 and "a" has rank 2 in the same bucket, and the
   merged register is 1 | 2 = 3. *)
Theorem C56_merge_refuted : exists h h' m s,
  (let* h0 := hll_make 4 in hll_add_all Clz_loop h0 [lit "u"]) = Ok h /\
  (let* h0 := hll_make 4 in hll_add_all Clz_loop h0 [lit "a"]) = Ok h' /\
  hll_merge h h' = Ok m /\
  (let* h0 := hll_make 4 in hll_add_all Clz_loop h0 [lit "u"; lit "a"]) = Ok s /\
  nth 5 (h_regs s) 0 = 2 /\ nth 5 (h_regs m) 0 = 3 /\ hll_merge h' h = Ok s.
Proof. eexists _, _, _, _. repeat split; vm_compute; reflexivity. Qed.
Print Assumptions C56_merge_refuted.

(* A cleared sketch is the sketch of nothing. *)
Theorem C56_clear : forall b l h, is_sketch b l h -> is_sketch b [] (hll_clear h).
Proof.
  intros b l h (A & L & _). split; [exact A|]. cbn [hll_clear h_regs].
  split; [now rewrite map_length|]. intros i I. split.
  - intros s r [].
  - left. clear. generalize (N.to_nat i). induction (h_regs h); intros [|n]; cbn; auto.
Qed.
Print Assumptions C56_clear.

(* ---- C57: statistics ---- *)

(* The counters of a column are those of its cells, whatever the examples. *)
Theorem C57_counts : forall atod version nulls caps max l cols j c,
  regular l ->
  analyze_dataset atod version nulls caps max l = Ok cols -> nth_error cols j = Some c ->
  let col := column_of j l in
  c_rows c = N.of_nat (length col) /\
  c_empty c = count is_empty col /\
  c_blank c = count is_blank col /\
  c_null c = count (is_null_like nulls) col /\
  shown_numeric_count c = N.of_nat (length (numbers atod col)) /\
  shown_numeric_finite_count c = N.of_nat (length (numbers atod col)) /\
  c_nan c + N.of_nat (length (numbers atod col)) = count is_plain col /\
  counts near_integer (numbers atod col) (c_int c) /\
  c_example c = hd [] col.
Proof.
  intros atod version nulls caps max l cols j c R E J.
  destruct (dataset_inv _ _ _ _ _ l cols j c R E J) as (c1 & [] & ->). cbv zeta.
  unfold shown_numeric_count, shown_numeric_finite_count.
  cbn [clean c_rows c_empty c_blank c_null c_numeric c_nan c_int c_example].
  repeat split; assumption.
Qed.
Print Assumptions C57_counts.

Definition C57_case_batches : list (list (list byte)) :=
  [[lit "1"; lit ""; lit " NA "]; [lit "4"; lit "inf"; lit "  "; lit ".5"]].
Example C57_case : regular (toy C57_case_batches) /\
  match analyze_dataset toy_atod Clz_builtin [lit "na"] [0] 2 (toy C57_case_batches) with
  | Ok [c] =>
      (c_rows c, c_empty c, c_blank c, c_null c, shown_numeric_count c, c_nan c, c_int c) =
      (7, 1, 1, 1, 3, 2, 2) /\
      (c_min c, c_max c) = (Fin (5 # 10), Fin 4) /\
      (c_min_len_ne c, c_max_len c, c_words c) = (1, 4, 8) /\
      map snd (c_captured c) = [1; 1] /\ c_overflowed c = true
  | _ => False
  end.
Proof. split; [apply toy_regular|]. vm_compute. repeat split. Qed.

(* The columns are those of the schema of the first example. *)
Theorem C57_columns : forall atod version nulls caps max l cols,
  regular l -> analyze_dataset atod version nulls caps max l = Ok cols ->
  exists e r, l = e :: r /\ map c_name cols = map a_name (e_attrs e).
Proof.
  intros atod version nulls caps max l cols R E.
  destruct (dataset_run _ _ _ _ _ _ _ R E) as (e & r & -> & L & H). exists e, r. split; auto.
  apply nth_ext with (d := []) (d' := []); [now rewrite !map_length|].
  intros n Ln. rewrite map_length in Ln.
  destruct (nth_error cols n) as [c|] eqn:J; [|apply nth_error_None in J; lia].
  destruct (H n c J) as (a & c0 & c1 & A & N0 & Rn & ->).
  destruct (inv_new atod nulls caps max (N.of_nat n) _ _ N0) as (I0 & Na & _).
  destruct (run_inv _ _ _ _ _ _ _ _ _ _ I0 Rn) as (_ & Nb).
  assert (X : nth_error (map c_name cols) n = Some (a_name a)).
  { rewrite nth_error_map, J. cbn. congruence. }
  assert (Y : nth_error (map a_name (e_attrs e)) n = Some (a_name a)).
  { rewrite nth_error_map, A. reflexivity. }
  apply nth_error_nth with (d := []) in X. apply nth_error_nth with (d := []) in Y. congruence.
Qed.
Print Assumptions C57_columns.

(* Without examples, or with an attribute that is not a dense string tensor, there is no
   result. *)
Theorem C57_rejects : forall atod version nulls caps max e r,
  analyze_dataset atod version nulls caps max [] = Throw Other_err /\
  (~ dense_strings e -> analyze_dataset atod version nulls caps max (e :: r) = Throw Other_err).
Proof.
  intros atod version nulls caps max e r. split; [reflexivity|]. intro D. cbn [analyze_dataset].
  enough (H : make_columns (e_attrs e) = Throw Other_err) by now rewrite H.
  unfold dense_strings in D. induction (e_attrs e) as [|a l IH]; [destruct D; constructor|].
  cbn [make_columns]. destruct (a_sparse a) eqn:A; [reflexivity|].
  destruct (a_string a) eqn:B; [|reflexivity]. cbn [orb negb].
  unfold new_column. destruct (make_ok cardinality_bits bits16) as (h & ->). cbn [bind].
  rewrite IH; [reflexivity|]. intro F. apply D. constructor; auto.
Qed.
Print Assumptions C57_rejects.

(* A dataset of ASCII strings is analyzed without undefined behaviour, if with __builtin_clz no
   cell and no word is hashed to a tail of zeros. *)
Theorem C57_defined_partial : forall atod version nulls caps max e r,
  regular (e :: r) -> dense_strings e -> Forall ascii nulls ->
  Forall (fun e => Forall (Forall (fun x => ascii x /\ safe version x)) (e_features e)) (e :: r) ->
  exists cols, analyze_dataset atod version nulls caps max (e :: r) = Ok cols.
Proof.
  intros atod version nulls caps max e r R D An F. apply dataset_ok; auto.
  apply (Forall_impl _ (P := fun e => Forall (Forall (fun x => ascii x /\ safe version x)) (e_features e))); auto.
  intros e' F1. apply (Forall_impl _ (P := Forall (fun x => ascii x /\ safe version x))); auto.
  intros b F2. apply (Forall_impl _ (P := fun x => ascii x /\ safe version x)); auto.
  intros x [A S]. split; auto. now apply safe_hashable.
Qed.
Print Assumptions C57_defined_partial.

(* Otherwise it may be undefined: a column with the value 46288, or with a character that is
   not ASCII. *)
Theorem C57_defined_refuted : forall atod caps max,
  analyze_dataset atod Clz_builtin [] caps max (toy [[lit "46288"]]) = UB /\
  analyze_dataset atod Clz_loop [] caps max (toy [[[195; 169]]]) = UB.
Proof. intros. split; vm_compute; reflexivity. Qed.
Print Assumptions C57_defined_refuted.

(* The smallest and largest number. *)
Theorem C57_extremes : forall atod version nulls caps max l cols j c,
  regular l ->
  analyze_dataset atod version nulls caps max l = Ok cols -> nth_error cols j = Some c ->
  is_min (numbers atod (column_of j l)) (c_min c) /\
  is_max (numbers atod (column_of j l)) (c_max c).
Proof.
  intros atod version nulls caps max l cols j c R E J.
  destruct (dataset_inv _ _ _ _ _ l cols j c R E J) as (c1 & [] & ->).
  split; assumption.
Qed.
Print Assumptions C57_extremes.

(* The approximate median: at most half of the first 10000 numbers are smaller, and more than
   half are not larger. *)
Theorem C57_median : forall atod version nulls caps max l cols j c,
  regular l ->
  analyze_dataset atod version nulls caps max l = Ok cols -> nth_error cols j = Some c ->
  let sample := firstn (N.to_nat 10000) (numbers atod (column_of j l)) in
  let half := N.of_nat (length sample / 2) in
  (sample = [] -> median_approx c = NaN) /\
  (sample <> [] -> exists q, median_approx c = Fin q /\ In q sample /\
     (exists n, counts (fun x => (x < q)%Q) sample n /\ n <= half) /\
     (exists n, counts (fun x => (x <= q)%Q) sample n /\ half < n)).
Proof.
  intros atod version nulls caps max l cols j c R E J.
  destruct (dataset_inv _ _ _ _ _ l cols j c R E J) as (c1 & [] & ->). cbv zeta.
  unfold median_approx. cbn [clean c_sample]. rewrite i_sample. unfold max_sample_size.
  set (s := firstn (N.to_nat 10000) (numbers atod (column_of j l))). clearbody s. split.
  - intros ->. reflexivity.
  - intro Ne. pose proof (median_spec s Ne) as M. cbv zeta in M.
    destruct s as [|x s]; [contradiction|]. eexists. split; [reflexivity|]. exact M.
Qed.
Print Assumptions C57_median.

(* The largest length. *)
Theorem C57_max_length : forall atod version nulls caps max l cols j c,
  regular l ->
  analyze_dataset atod version nulls caps max l = Ok cols -> nth_error cols j = Some c ->
  (column_of j l = [] /\ c_max_len c = 0 \/ greatest (lengths (column_of j l)) (c_max_len c)).
Proof. intros until c. apply dataset_max_len. Qed.
Print Assumptions C57_max_length.

(* The smallest length of the cells that are not empty; 0 if there are none. *)
Theorem C57_min_length_not_empty : forall atod version nulls caps max l cols j c,
  regular l ->
  analyze_dataset atod version nulls caps max l = Ok cols -> nth_error cols j = Some c ->
  (forall cell, In cell (column_of j l) -> N.of_nat (length cell) < size_max) ->
  let texts := filter (fun x => negb (is_empty x)) (column_of j l) in
  (texts = [] /\ c_min_len_ne c = 0 \/ least (lengths texts) (c_min_len_ne c)).
Proof. intros atod version nulls caps max l cols j c R E J B. eapply dataset_min_len; eauto. Qed.
Print Assumptions C57_min_length_not_empty.

(* The smallest length, for columns without empty cells. *)
Theorem C57_min_length_partial : forall atod version nulls caps max l cols j c,
  regular l ->
  analyze_dataset atod version nulls caps max l = Ok cols -> nth_error cols j = Some c ->
  (forall cell, In cell (column_of j l) -> N.of_nat (length cell) < size_max) ->
  column_of j l <> [] -> (forall cell, In cell (column_of j l) -> cell <> []) ->
  least (lengths (column_of j l)) (c_min_len c).
Proof.
  intros atod version nulls caps max l cols j c R E J B Ne Full.
  destruct (dataset_min_len _ _ _ _ _ _ _ _ _ R E J B) as [-> H]. cbv zeta in H.
  replace (filter (fun x => negb (is_empty x)) (column_of j l)) with (column_of j l) in H.
  - destruct H as [[H _]|H]; [contradiction|exact H].
  - clear - Full. induction (column_of j l) as [|x t IH]; auto. cbn [filter].
    destruct x as [|y x]; [destruct (Full [] (or_introl eq_refl)); auto|].
    cbn [is_empty negb]. f_equal. apply IH. intros cell I. apply Full. now right.
Qed.
Print Assumptions C57_min_length_partial.

(* Empty cells are not taken into account, although 0 is the smallest length. *)
Theorem C57_min_length_refuted : forall version, exists c,
  analyze_dataset toy_atod version [] [] 0 (toy [[lit "abc"; lit ""]]) = Ok [c] /\
  c_min_len c = 3 /\ least (lengths (column_of 0 (toy [[lit "abc"; lit ""]]))) 0.
Proof.
  intro version.
  destruct (toy_ok toy_atod version [] 0 [[lit "abc"; lit ""]]) as (c & E); [discriminate|vm_compute; reflexivity|].
  exists c. split; [exact E|]. rewrite toy_column.
  destruct (dataset_min_len _ _ _ _ _ _ _ 0%nat c (toy_regular _) E eq_refl) as [-> H].
  - rewrite toy_column. intros cell [ <- |[ <- |[]]]; vm_compute; reflexivity.
  - rewrite toy_column in H. cbn in H. split.
    + destruct H as [[H _]|[[H|[]] _]]; [discriminate|congruence].
    + split; [right; left; reflexivity|]. intros x I. lia.
Qed.
Print Assumptions C57_min_length_refuted.

(* The words, and the two sketches: of the cells that are not empty, and of all the words. *)
Theorem C57_words : forall atod version nulls caps max l cols j c,
  regular l ->
  analyze_dataset atod version nulls caps max l = Ok cols -> nth_error cols j = Some c ->
  exists words, Forall2 is_words (column_of j l) words /\
  c_words c = N.of_nat (length (concat words)) /\
  is_sketch 16 (concat words) (c_vocab c) /\
  is_sketch 16 (filter (fun x => negb (is_empty x)) (column_of j l)) (c_card c).
Proof.
  intros atod version nulls caps max l cols j c R E J.
  destruct (dataset_inv _ _ _ _ _ l cols j c R E J) as (c1 & [] & ->).
  exists (map (getlines []) (column_of j l)). split; [apply forall2_words|].
  rewrite <- tokens_concat. split; [exact i_words|]. split; [exact i_vocab|exact i_card].
Qed.
Print Assumptions C57_words.

(* The words of a cell are unique. *)
Theorem C57_words_unique : forall cell, exists! ws, is_words cell ws.
Proof.
  intro cell. exists (getlines [] cell). split; [apply getlines_words|].
  intros ws H. eapply words_unique; eauto. apply getlines_words.
Qed.
Print Assumptions C57_words_unique.

Example C57_words_case :
  is_words (lit "a  bc ") [lit "a"; lit ""; lit "bc"] /\ is_words (lit "a b") [lit "a"; lit "b"].
Proof.
  split; (split; [repeat constructor; intros H; repeat destruct H as [H|H]; try discriminate; auto|]).
  - left. reflexivity.
  - right. repeat split; discriminate.
Qed.

(* The captured values are the first distinct plain cells, and the overflow flag says whether
   there are more. *)
Theorem C57_captured : forall atod version nulls caps max l cols j c,
  regular l ->
  analyze_dataset atod version nulls caps max l = Ok cols -> nth_error cols j = Some c ->
  let plain := filter is_plain (column_of j l) in
  (In (N.of_nat j) caps ->
   map fst (c_captured c) = firstn (N.to_nat max) (distinct plain) /\
   c_overflowed c = (max <? N.of_nat (length (distinct plain))) /\
   exists p, until_full max plain p /\
     forall v n, assoc (c_captured c) v = Some n <-> (In v p /\ n = count (bytes_eqb v) p)) /\
  (~ In (N.of_nat j) caps -> c_captured c = [] /\ c_overflowed c = false).
Proof.
  intros atod version nulls caps max l cols j c R E J.
  destruct (dataset_inv _ _ _ _ _ l cols j c R E J) as (c1 & [] & ->). cbv zeta.
  cbn [clean c_captured c_overflowed]. split; intro C.
  - replace (existsb (N.eqb (N.of_nat j)) caps) with true in i_captured.
    + destruct i_captured as (K & O & p & P & V). split; [exact K|]. split; [exact O|].
      exists p. split; [now apply prefix_until|]. intros v n. rewrite V.
      destruct (mem v p) eqn:M.
      * apply mem_in in M. split; [intros [= <-]; auto|]. intros [_ ->]. reflexivity.
      * apply mem_false in M. split; [discriminate|]. intros [I _]. contradiction.
    + symmetry. apply existsb_exists. exists (N.of_nat j). split; auto. apply N.eqb_refl.
  - replace (existsb (N.eqb (N.of_nat j)) caps) with false in i_captured; [exact i_captured|].
    symmetry. destruct (existsb _ _) eqn:X; auto. apply existsb_exists in X.
    destruct X as (x & I & Q). apply N.eqb_eq in Q. subst x. contradiction.
Qed.
Print Assumptions C57_captured.

(* If there are fewer distinct values than can be captured, their numbers of occurrences are
   exact. *)
Theorem C57_frequencies_partial : forall atod version nulls caps max l cols j c,
  regular l ->
  analyze_dataset atod version nulls caps max l = Ok cols -> nth_error cols j = Some c ->
  In (N.of_nat j) caps ->
  let plain := filter is_plain (column_of j l) in
  N.of_nat (length (distinct plain)) < max ->
  forall v n, assoc (c_captured c) v = Some n <-> (In v plain /\ n = count (bytes_eqb v) plain).
Proof.
  intros atod version nulls caps max l cols j c R E J C plain L v n.
  destruct (C57_captured _ _ _ _ _ _ _ _ _ R E J) as [H _]. cbv zeta in H. fold plain in H.
  destruct (H C) as (_ & _ & p & (r & P & [-> |Q] & _) & V).
  - rewrite app_nil_r in P. now rewrite P.
  - exfalso. pose proof (ndistinct_app p r) as D. rewrite <- P in D. unfold ndistinct in D. lia.
Qed.
Print Assumptions C57_frequencies_partial.

(* Once as many values are captured as requested, their further occurrences are not counted,
   although the flag does not report an overflow. *)
Theorem C57_frequencies_refuted : forall version, exists c,
  analyze_dataset toy_atod version [] [0] 1 (toy [[lit "a"; lit "a"; lit "a"]]) = Ok [c] /\
  c_overflowed c = false /\ assoc (c_captured c) (lit "a") = Some 1 /\
  count (bytes_eqb (lit "a")) (column_of 0 (toy [[lit "a"; lit "a"; lit "a"]])) = 3.
Proof.
  intro version.
  destruct (toy_ok toy_atod version [0] 1 [[lit "a"; lit "a"; lit "a"]]) as (c & E); [discriminate|vm_compute; reflexivity|].
  exists c. split; [exact E|].
  destruct (C57_captured _ _ _ _ _ _ _ 0%nat c (toy_regular _) E eq_refl) as [H _].
  rewrite toy_column in *. destruct (H (or_introl eq_refl)) as (_ & O & p & (r & P & Q & F) & V).
  split; [rewrite O; reflexivity|]. split; [|reflexivity].
  apply V. change (filter is_plain (concat [[lit "a"; lit "a"; lit "a"]])) with [lit "a"; lit "a"; lit "a"] in P.
  destruct p as [|x p].
  { exfalso. destruct Q as [-> |Q]; [discriminate|]. cbn in Q. lia. }
  injection P as <- P. split; [now left|].
  destruct p as [|y p]; [reflexivity|].
  exfalso. specialize (F [lit "a"] y p eq_refl). cbn in F. lia.
Qed.
Print Assumptions C57_frequencies_refuted.

(* The mean: it is the mean of the numbers if every example contains a number, and NaN if some
   example contains none. *)
Theorem C57_mean_partial : forall atod version nulls caps max l cols j c,
  regular l ->
  analyze_dataset atod version nulls caps max l = Ok cols -> nth_error cols j = Some c ->
  (Forall (fun b => numbers atod b <> []) (batches j l) ->
   exists m, c_mean c = Fin m /\
     (m * inject_Z (Z.of_nat (length (numbers atod (column_of j l)))) ==
      sum_q (numbers atod (column_of j l)))%Q) /\
  (forall b, In b (batches j l) -> numbers atod b = [] -> c_mean c = NaN).
Proof. intros until c. apply dataset_mean. Qed.
Print Assumptions C57_mean_partial.

Example C57_mean_case : forall version, exists c m,
  analyze_dataset toy_atod version [] [] 0 (toy [[lit "1"; lit "x"]; [lit "3"; lit "4"]]) = Ok [c] /\
  c_mean c = Fin m /\ (m == 8 # 3)%Q.
Proof.
  intro version.
  destruct (toy_ok toy_atod version [] 0 [[lit "1"; lit "x"]; [lit "3"; lit "4"]]) as (c & E);
    [discriminate|vm_compute; reflexivity|].
  destruct (C57_mean_partial _ _ _ _ _ _ _ 0%nat c (toy_regular _) E eq_refl) as [H _].
  rewrite toy_batches, toy_column in H. destruct H as (m & M & Q).
  - repeat constructor; discriminate.
  - exists c, m. repeat split; auto. cbn in Q. unfold inject_Z in Q. lra.
Qed.

(* So the mean of a column depends on how it is divided into examples. *)
Theorem C57_mean_refuted : forall version, exists c c' m,
  analyze_dataset toy_atod version [] [] 0 (toy [[lit "1"; lit "x"]]) = Ok [c] /\
  analyze_dataset toy_atod version [] [] 0 (toy [[lit "1"]; [lit "x"]]) = Ok [c'] /\
  c_mean c = Fin m /\ (m == 1)%Q /\ c_mean c' = NaN.
Proof.
  intro version.
  destruct (toy_ok toy_atod version [] 0 [[lit "1"; lit "x"]]) as (c & E); [discriminate|vm_compute; reflexivity|].
  destruct (toy_ok toy_atod version [] 0 [[lit "1"]; [lit "x"]]) as (c' & E'); [discriminate|vm_compute; reflexivity|].
  destruct (C57_mean_partial _ _ _ _ _ _ _ 0%nat c (toy_regular _) E eq_refl) as [H _].
  destruct (C57_mean_partial _ _ _ _ _ _ _ 0%nat c' (toy_regular _) E' eq_refl) as [_ H'].
  rewrite toy_batches, toy_column in H. rewrite toy_batches in H'.
  destruct H as (m & M & Q); [repeat constructor; discriminate|].
  exists c, c', m. repeat split; auto.
  - cbn in Q. unfold inject_Z in Q. lra.
  - apply (H' [lit "x"]); [right; left; reflexivity|reflexivity].
Qed.
Print Assumptions C57_mean_refuted.

(* The average length: it is the total length divided by the number of rows if the first example
   has a cell that is not empty and no later example has an empty cell; NaN if some example
   consists of empty cells. *)
Theorem C57_avg_length_partial : forall atod version nulls caps max l cols j c,
  regular l ->
  analyze_dataset atod version nulls caps max l = Ok cols -> nth_error cols j = Some c ->
  ((match batches j l with
    | [] => True
    | b :: r => (exists x, In x b /\ x <> []) /\
                Forall (fun b => b <> [] /\ Forall (fun x => x <> []) b) r
    end) ->
   exists m, c_avg_len c = Fin m /\
     (m * inject_Z (Z.of_nat (length (column_of j l))) ==
      inject_Z (Z.of_N (total (lengths (column_of j l)))))%Q) /\
  (forall b, In b (batches j l) -> Forall (fun x => x = []) b -> c_avg_len c = NaN).
Proof. intros until c. apply dataset_avg. Qed.
Print Assumptions C57_avg_length_partial.

(* In general it is neither the average over all cells, nor over the cells that are not
   empty. *)
Theorem C57_avg_length_refuted :
  match analyze_dataset toy_atod Clz_builtin [] [] 0
          (toy [[lit "ab"; lit ""]; [lit "ab"; lit ""]]) with
  | Ok [c] => match c_avg_len c with Fin q => (q == 5 # 4)%Q | _ => False end
  | _ => False
  end /\
  match analyze_dataset toy_atod Clz_builtin [] [] 0 (toy [[lit "ab"]; [lit ""]]) with
  | Ok [c] => c_avg_len c = NaN
  | _ => False
  end.
Proof. split; vm_compute; reflexivity. Qed.
Print Assumptions C57_avg_length_refuted.

(* All statistics but the two means are the same for every division of the columns into
   examples. *)
Theorem C57_batching : forall atod version nulls caps max l l' cols cols' j c c',
  regular l -> regular l' ->
  analyze_dataset atod version nulls caps max l = Ok cols -> nth_error cols j = Some c ->
  analyze_dataset atod version nulls caps max l' = Ok cols' -> nth_error cols' j = Some c' ->
  c_name c = c_name c' -> column_of j l = column_of j l' ->
  with_means c NaN NaN = with_means c' NaN NaN.
Proof. intros until c'. apply dataset_core. Qed.
Print Assumptions C57_batching.

Example C57_batching_case :
  column_of 0 (toy [[lit "1"; lit "x"]; []]) = column_of 0 (toy [[lit "1"]; [lit "x"]]) /\
  forall version,
  (exists c, analyze_dataset toy_atod version [] [] 0 (toy [[lit "1"; lit "x"]; []]) = Ok [c]) /\
  (exists c, analyze_dataset toy_atod version [] [] 0 (toy [[lit "1"]; [lit "x"]]) = Ok [c]).
Proof.
  split; [reflexivity|]. intro version.
  split; (apply toy_ok; [discriminate|vm_compute; reflexivity]).
Qed.

(* The hash agrees with the published test values of XXH32. *)
Example C56_hash_values :
  map xxh32 [lit ""; lit "a"; lit "abc"; lit "Nobody inspects the spammish repetition"] =
  [0x02CC5D05; 0x550D7456; 0x32D153FF; 0xE2293B2F].
Proof. vm_compute. reflexivity. Qed.

(* The cells of [C57_case] meet the hypotheses of [C57_defined_partial]. *)
Example C57_defined_case :
  Forall (fun e => Forall (Forall (fun x => ascii x /\ safe Clz_loop x)) (e_features e))
    (toy C57_case_batches) /\
  Forall dense_strings (toy C57_case_batches).
Proof.
  split; repeat constructor; try discriminate; try (vm_compute; reflexivity).
Qed.

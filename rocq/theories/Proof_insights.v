(* Proofs about the cardinality sketches. *)
From Verif Require Import Common Model_num Model_insights Spec_insights.
Import List.
Local Open Scope N_scope.

Lemma lxor_lt n a b : a < 2 ^ n -> b < 2 ^ n -> N.lxor a b < 2 ^ n.
Proof.
  intros A B. destruct (N.eq_dec (N.lxor a b) 0) as [-> |Z]; [lia|].
  apply N.log2_lt_pow2; [lia|].
  eapply N.le_lt_trans; [apply N.log2_lxor|].
  apply N.max_lub_lt.
  - destruct (N.eq_dec a 0) as [-> |Za].
    + destruct (N.eq_dec b 0) as [-> |Zb]; [now rewrite N.lxor_0_l in Z|].
      cbn. assert (N.log2 b < n) by (apply N.log2_lt_pow2; lia). lia.
    + apply N.log2_lt_pow2; lia.
  - destruct (N.eq_dec b 0) as [-> |Zb].
    + destruct (N.eq_dec a 0) as [-> |Za]; [now rewrite N.lxor_0_l in Z|].
      cbn. assert (N.log2 a < n) by (apply N.log2_lt_pow2; lia). lia.
    + apply N.log2_lt_pow2; lia.
Qed.

Lemma shiftr_le a n : N.shiftr a n <= a.
Proof.
  rewrite N.shiftr_div_pow2. apply N.div_le_upper_bound; [apply N.pow_nonzero; lia|].
  pose proof (N.pow_nonzero 2 n). nia.
Qed.

Lemma w32_lt a : w32 a < 2 ^ 32.
Proof. unfold w32. change (2 ^ 32) with 4294967296. apply N.mod_lt. lia. Qed.

Lemma avalanche_lt h : xxh_avalanche h < 2 ^ 32.
Proof.
  unfold xxh_avalanche. cbv zeta. set (x := w32 (_ * prime3)).
  pose proof (w32_lt (N.lxor (w32 (N.lxor h (N.shiftr h 15) * prime2))
     (N.shiftr (w32 (N.lxor h (N.shiftr h 15) * prime2)) 13) * prime3)).
  fold x in H. apply lxor_lt; auto. pose proof (shiftr_le x 16). lia.
Qed.

Lemma finalize1_lt s : forall h, xxh_finalize1 h s < 2 ^ 32.
Proof. induction s; intro h; cbn [xxh_finalize1]; [apply avalanche_lt|apply IHs]. Qed.

Lemma finalize_lt n : forall s, (length s < n)%nat -> forall h, xxh_finalize h s < 2 ^ 32.
Proof.
  induction n as [|n IH]; intros s L h; [lia|].
  destruct s as [|a [|b [|c [|d r]]]]; try apply finalize1_lt.
  cbn [xxh_finalize]. apply IH. cbn [length] in L. lia.
Qed.

Lemma xxh32_lt s : xxh32 s < 2 ^ 32.
Proof.
  unfold xxh32. cbv zeta. destruct (if 16 <=? _ then _ else _) as [h r].
  apply (finalize_lt (S (length r))). lia.
Qed.

(* ---- Ranks ---- *)

Lemma w32_bits x k : N.testbit (w32 x) k = N.testbit x k && (k <? 32).
Proof.
  unfold w32. change 4294967296 with (2 ^ 32).
  destruct (N.ltb_spec k 32).
  - rewrite N.mod_pow2_bits_low; [|lia]. now rewrite andb_true_r.
  - rewrite N.mod_pow2_bits_high; [|lia]. now rewrite andb_false_r.
Qed.

Lemma shl_bits x n k : N.testbit (w32 (N.shiftl x n)) k =
  (n <=? k) && (k <? 32) && N.testbit x (k - n).
Proof.
  rewrite w32_bits. destruct (N.leb_spec n k).
  - rewrite N.shiftl_spec_high; [|lia|lia]. cbn [andb].
    destruct (N.testbit x (k - n)), (k <? 32); reflexivity.
  - rewrite N.shiftl_spec_low; [|lia]. reflexivity.
Qed.

Lemma clz_loop_spec n : (n <= 32)%nat -> forall v y,
  let r := clz_loop n v y in
  v <= r <= v + N.of_nat n /\
  (forall k, v <= k < r -> N.testbit y (31 - (k - v)) = false) /\
  (r < v + N.of_nat n -> N.testbit y (31 - (r - v)) = true).
Proof.
  induction n as [|n IH]; intros L v y; cbn [clz_loop]; cbv zeta.
  - repeat split; try lia.
  - destruct (N.testbit y 31) eqn:T.
    + repeat split; try lia.
      intros _. replace (31 - (v - v)) with 31 by lia. auto.
    + destruct (IH ltac:(lia) (v + 1) (w32 (N.shiftl y 1))) as (A & B & C).
      set (r := clz_loop n (v + 1) (w32 (N.shiftl y 1))) in *.
      repeat split; try lia.
      * intros k K. destruct (N.eq_dec k v) as [-> |D].
        -- replace (31 - (v - v)) with 31 by lia. auto.
        -- specialize (B k ltac:(lia)). rewrite shl_bits in B.
           replace (1 <=? 31 - (k - (v + 1))) with true in B by lia.
           replace (31 - (k - (v + 1)) <? 32) with true in B by lia.
           cbn [andb] in B. rewrite <- B. f_equal. lia.
      * intro K. specialize (C ltac:(lia)). rewrite shl_bits in C.
        replace (1 <=? 31 - (r - (v + 1))) with true in C by lia.
        replace (31 - (r - (v + 1)) <? 32) with true in C by lia.
        cbn [andb] in C. rewrite <- C. f_equal. lia.
Qed.

Definition bits_ok (b : N) : Prop := 4 <= b <= 30.

Lemma log2_tail b h : bits_ok b -> h < 2 ^ 32 -> w32 (N.shiftl h b) <> 0 ->
  b <= N.log2 (w32 (N.shiftl h b)) <= 31.
Proof.
  intros B H X. set (x := w32 (N.shiftl h b)) in *.
  pose proof (N.bit_log2 x X) as T.
  unfold x in T at 1. rewrite shl_bits in T.
  apply andb_prop in T. destruct T as [T _]. apply andb_prop in T. destruct T. lia.
Qed.

Lemma get_clz_rank version b h r : bits_ok b -> h < 2 ^ 32 ->
  get_clz version (w32 (N.shiftl h b)) (32 - b) = Ok r -> is_rank b h r.
Proof.
  intros B Hh E. unfold bits_ok in B. destruct version; cbn [get_clz] in E.
  - destruct (N.eqb_spec (w32 (N.shiftl h b)) 0) as [|X]; [discriminate|].
    pose proof (log2_tail b h B Hh X) as Lg.
    set (x := w32 (N.shiftl h b)) in *. set (l := N.log2 x) in *.
    assert (Er : N.min (32 - b) (31 - l) + 1 = r) by congruence.
    replace (N.min (32 - b) (31 - l) + 1) with (32 - l) in Er by lia. subst r. clear E.
    repeat split; try lia.
    + intros k K. pose proof (N.bits_above_log2 x (32 - k) ltac:(fold l; lia)) as T.
      unfold x in T. rewrite shl_bits in T.
      replace (b <=? 32 - k) with true in T by lia.
      replace (32 - k <? 32) with true in T by lia. cbn [andb] in T.
      rewrite <- T. f_equal. lia.
    + intros K. pose proof (N.bit_log2 x X) as T. fold l in T.
      unfold x in T at 1. rewrite shl_bits in T.
      apply andb_prop in T. destruct T as [_ T]. rewrite <- T. f_equal. lia.
  - injection E as <-.
    destruct (clz_loop_spec (N.to_nat (32 - b)) ltac:(lia) 1 (w32 (N.shiftl h b))) as (A & C & D).
    set (r := clz_loop _ 1 _) in *.
    repeat split; try lia.
    + intros k K. specialize (C k ltac:(lia)). rewrite shl_bits in C.
      replace (b <=? 31 - (k - 1)) with true in C by lia.
      replace (31 - (k - 1) <? 32) with true in C by lia. cbn [andb] in C.
      rewrite <- C. f_equal. lia.
    + intros K. specialize (D ltac:(lia)). rewrite shl_bits in D.
      apply andb_prop in D. destruct D as [_ D]. rewrite <- D. f_equal. lia.
Qed.

Lemma rank_unique b h r r' : bits_ok b -> is_rank b h r -> is_rank b h r' -> r = r'.
Proof.
  unfold bits_ok. intros B (A1 & A2 & A3) (C1 & C2 & C3).
  destruct (N.lt_trichotomy r r') as [L|[L|L]]; auto.
  - rewrite (C2 r ltac:(lia)) in A3. specialize (A3 ltac:(lia)). discriminate.
  - rewrite (A2 r' ltac:(lia)) in C3. specialize (C3 ltac:(lia)). discriminate.
Qed.

Lemma tail_zero b h : bits_ok b -> h < 2 ^ 32 ->
  (w32 (N.shiftl h b) = 0 <-> h mod 2 ^ (32 - b) = 0).
Proof.
  unfold bits_ok. intros B H. unfold w32. rewrite N.shiftl_mul_pow2.
  replace 4294967296 with (2 ^ (32 - b) * 2 ^ b)
    by (rewrite <- N.pow_add_r; replace (32 - b + b) with 32 by lia; reflexivity).
  rewrite N.mul_mod_distr_r by (apply N.pow_nonzero; lia).
  pose proof (N.pow_nonzero 2 b ltac:(lia)). split; intro E; [nia|rewrite E; reflexivity].
Qed.

Lemma get_clz_builtin b h : bits_ok b -> h < 2 ^ 32 -> h mod 2 ^ (32 - b) <> 0 ->
  exists r, get_clz Clz_builtin (w32 (N.shiftl h b)) (32 - b) = Ok r.
Proof.
  intros B H Z. cbn [get_clz]. destruct (N.eqb_spec (w32 (N.shiftl h b)) 0) as [E|E].
  - apply tail_zero in E; auto. contradiction.
  - eauto.
Qed.

(* ---- Registers ---- *)

Lemma set_reg_length l : forall i v, length (set_reg l i v) = length l.
Proof. induction l; intros [|i] v; cbn; auto. Qed.

Lemma set_reg_same l : forall i v d, (i < length l)%nat -> nth i (set_reg l i v) d = v.
Proof. induction l; intros [|i] v d L; cbn in *; try lia; auto. apply IHl. lia. Qed.

Lemma set_reg_other l : forall i j v d, i <> j -> nth j (set_reg l i v) d = nth j l d.
Proof. induction l; intros [|i] [|j] v d N; cbn; auto; try lia. Qed.

Lemma bucket_lt b h : bits_ok b -> h < 2 ^ 32 -> bucket b h < 2 ^ b.
Proof.
  unfold bits_ok, bucket. intros B H. apply N.div_lt_upper_bound.
  - apply N.pow_nonzero. lia.
  - rewrite <- N.pow_add_r. replace (32 - b + b) with 32 by lia. auto.
Qed.

Lemma is_register_weaken b l l' i v : (forall s, In s l <-> In s l') ->
  is_register b l i v -> is_register b l' i v.
Proof.
  intros E [A B]. split.
  - intros s r I. apply A. now apply E.
  - destruct B as [B|(s & I & J)]; auto. right. exists s. split; auto. now apply E.
Qed.

Lemma sketch_add version b l h s h' : bits_ok b ->
  is_sketch b l h -> hll_add version h s = Ok h' -> is_sketch b (l ++ [s]) h'.
Proof.
  intros B (Hb & Hl & Hr) E. unfold hll_add in E. cbv zeta in E. rewrite Hb in E.
  pose proof (xxh32_lt s) as Hs. set (hash := xxh32 s) in *.
  destruct (get_clz version (w32 (N.shiftl hash b)) (32 - b)) as [rank| | |] eqn:G;
    cbn [bind] in E; try discriminate.
  apply get_clz_rank in G; auto.
  rewrite N.shiftr_div_pow2 in E. change (hash / 2 ^ (32 - b)) with (bucket b hash) in E.
  pose proof (bucket_lt b hash B Hs) as Hk.
  destruct (nth_error (h_regs h) (N.to_nat (bucket b hash))) as [m|] eqn:M; [|discriminate].
  apply nth_error_nth with (d := 0) in M.
  assert (Old : forall i, i < 2 ^ b -> bucket b hash <> i ->
     is_register b (l ++ [s]) i (nth (N.to_nat i) (h_regs h) 0)).
  { intros i I D. destruct (Hr i I) as [R1 R2]. split.
    - intros s' r J K. apply in_app_or in J. destruct J as [J|[J|[]]].
      + now apply R1.
      + subst s'. now destruct (D K).
    - destruct R2 as [R2|(s' & J & K)]; auto. right. exists s'. split; auto. apply in_or_app. auto. }
  assert (Here : forall v, rank <= v -> m <= v -> (v = m \/ v = rank) ->
     is_register b (l ++ [s]) (bucket b hash) v).
  { intros v V1 V2 V3. destruct (Hr (bucket b hash) Hk) as [R1 R2]. rewrite M in R1, R2. split.
    - intros s' r J K Kr. apply in_app_or in J. destruct J as [J|[J|[]]].
      + specialize (R1 s' r J K Kr). lia.
      + subst s'. fold hash in Kr. rewrite (rank_unique b hash r rank B Kr G). auto.
    - destruct V3 as [-> | ->].
      + destruct R2 as [R2|(s' & J & K)]; auto. right. exists s'. split; auto.
        apply in_or_app. auto.
      + right. exists s. repeat split; auto; try apply G. apply in_or_app. right. now left. }
  destruct (N.ltb_spec m rank) as [C|C]; injection E as <-.
  - split; [reflexivity|]. cbn [h_regs h_bits]. split; [rewrite set_reg_length; auto|].
    intros i I. destruct (N.eq_dec (bucket b hash) i) as [ <- |D].
    + rewrite set_reg_same by lia. apply Here; auto; lia.
    + rewrite set_reg_other by lia. now apply Old.
  - split; auto. split; auto. intros i I. destruct (N.eq_dec (bucket b hash) i) as [ <- |D].
    + rewrite M. apply Here; auto; lia.
    + now apply Old.
Qed.

Lemma sketch_add_all version b : bits_ok b -> forall r l h h',
  is_sketch b l h -> hll_add_all version h r = Ok h' -> is_sketch b (l ++ r) h'.
Proof.
  intros B. induction r as [|s r IH]; intros l h h' S E; cbn [hll_add_all] in E.
  - injection E as <-. now rewrite app_nil_r.
  - destruct (hll_add version h s) as [h1| | |] eqn:A; cbn [bind] in E; try discriminate.
    apply (sketch_add version b l h s h1 B S) in A.
    replace (l ++ s :: r) with ((l ++ [s]) ++ r) by now rewrite <- app_assoc.
    eapply IH; eauto.
Qed.

Lemma make_sketch b h : hll_make b = Ok h -> bits_ok b /\ is_sketch b [] h.
Proof.
  unfold hll_make. destruct (N.leb_spec 32 b); [discriminate|].
  destruct (N.ltb_spec b 4); [discriminate|]. destruct (N.ltb_spec 30 b); [discriminate|].
  intros [= <-]. split; [split; lia|]. split; [reflexivity|]. cbn [h_regs].
  split; [now rewrite repeat_length|]. intros i I. split.
  - intros s r [].
  - left. apply nth_repeat.
Qed.

Lemma make_ok b : bits_ok b -> exists h, hll_make b = Ok h.
Proof.
  unfold bits_ok, hll_make. intro B. replace (32 <=? b) with false by lia.
  replace ((b <? 4) || (30 <? b)) with false by lia. eauto.
Qed.

Lemma register_unique b l i v w : bits_ok b ->
  is_register b l i v -> is_register b l i w -> v = w.
Proof.
  intros B [A1 A2] [C1 C2].
  assert (v <= w) by (destruct A2 as [-> |(s & I & K & R)]; [lia|eapply C1; eauto]).
  assert (w <= v) by (destruct C2 as [-> |(s & I & K & R)]; [lia|eapply A1; eauto]).
  lia.
Qed.

Lemma sketch_unique b l h h' : bits_ok b -> is_sketch b l h -> is_sketch b l h' -> h = h'.
Proof.
  intros B (A1 & A2 & A3) (C1 & C2 & C3). destruct h as [bh rh], h' as [bh' rh'].
  cbn [h_bits h_regs] in *. subst. f_equal.
  apply nth_ext with (d := 0) (d' := 0); [congruence|].
  intros n L. rewrite A2 in L.
  specialize (A3 (N.of_nat n) ltac:(lia)). specialize (C3 (N.of_nat n) ltac:(lia)).
  rewrite Nat2N.id in A3, C3. eapply register_unique; eauto.
Qed.

Lemma sketch_same b l l' h : (forall s, In s l <-> In s l') -> is_sketch b l h -> is_sketch b l' h.
Proof.
  intros E (A & B & C). split; auto. split; auto. intros i I.
  eapply is_register_weaken; eauto.
Qed.

(* Which calls of add are defined. *)
Lemma add_ok version b l h s : bits_ok b -> is_sketch b l h ->
  (version = Clz_builtin -> ~ zero_tail b s) -> exists h', hll_add version h s = Ok h'.
Proof.
  intros B (Hb & Hl & _) Z. unfold hll_add. cbv zeta. rewrite Hb.
  pose proof (xxh32_lt s) as Hs.
  assert (exists r, get_clz version (w32 (N.shiftl (xxh32 s) b)) (32 - b) = Ok r) as [r ->].
  { destruct version; [|cbn; eauto]. apply get_clz_builtin; [auto|auto|now apply Z]. }
  cbn [bind]. rewrite N.shiftr_div_pow2.
  pose proof (bucket_lt b (xxh32 s) B Hs) as K. unfold bucket in K.
  destruct (nth_error (h_regs h) _) eqn:E.
  - destruct (n <? r); eauto.
  - apply nth_error_None in E. lia.
Qed.

Lemma add_ub b l h s : bits_ok b -> is_sketch b l h -> zero_tail b s ->
  hll_add Clz_builtin h s = UB.
Proof.
  intros B (Hb & Hl & _) Z. unfold hll_add. cbv zeta. rewrite Hb. cbn [get_clz].
  replace (w32 (N.shiftl (xxh32 s) b)) with 0
    by (symmetry; apply tail_zero; auto; apply xxh32_lt).
  reflexivity.
Qed.

Lemma add_all_ok version b : bits_ok b -> forall r l h, is_sketch b l h ->
  (version = Clz_builtin -> forall s, In s r -> ~ zero_tail b s) ->
  exists h', hll_add_all version h r = Ok h'.
Proof.
  intros B. induction r as [|s r IH]; intros l h S Z; cbn [hll_add_all]; eauto.
  destruct (add_ok version b l h s B S) as [h1 E].
  { intro V. apply Z; auto. now left. }
  rewrite E. cbn [bind]. eapply IH.
  - eapply sketch_add; eauto.
  - intros V x I. apply Z; auto. now right.
Qed.

Lemma add_all_ub b : bits_ok b -> forall r l h, is_sketch b l h ->
  (exists s, In s r /\ zero_tail b s) -> hll_add_all Clz_builtin h r = UB.
Proof.
  intros B. induction r as [|s r IH]; intros l h S (x & I & Z); [destruct I|].
  cbn [hll_add_all].
  destruct (N.eq_dec (xxh32 s mod 2 ^ (32 - b)) 0) as [Z'|Z'].
  - now rewrite (add_ub b l h s B S Z').
  - destruct I as [-> |I]; [contradiction|].
    destruct (add_ok Clz_builtin b l h s B S) as [h1 E]; [intros _; exact Z'|].
    rewrite E. cbn [bind]. eapply IH; [eapply sketch_add; eauto|]. eauto.
Qed.

(* ---- Merge ---- *)

Lemma merge_regs_length m : forall o, length (merge_regs m o) = length m.
Proof. induction m; intros [|b o]; cbn; auto. Qed.

Lemma merge_regs_nth m : forall o i, length m = length o ->
  nth i (merge_regs m o) 0 =
  let a := nth i m 0 in let b := nth i o 0 in if a <? b then N.lor a b else a.
Proof.
  induction m as [|a m IH]; intros [|b o] i L; cbn in L; try lia.
  - destruct i; reflexivity.
  - destruct i; cbn [merge_regs nth]; auto.
Qed.

Lemma lor_ge a b : b <= N.lor a b.
Proof.
  rewrite N.lor_comm.
  destruct (N.le_gt_cases b (N.lor b a)) as [|L]; auto. exfalso.
  assert (E : N.ldiff b (N.lor b a) = 0).
  { apply N.bits_inj. intro k. rewrite N.ldiff_spec, N.lor_spec, N.bits_0.
    destruct (N.testbit b k); reflexivity. }
  apply N.ldiff_le in E. lia.
Qed.

Lemma register_app b l l' i v w : 
  is_register b l i v -> is_register b l' i w -> is_register b (l ++ l') i (N.max v w).
Proof.
  intros [A1 A2] [C1 C2]. split.
  - intros s r I K R. apply in_app_or in I. destruct I as [I|I].
    + specialize (A1 s r I K R). lia.
    + specialize (C1 s r I K R). lia.
  - destruct (N.max_spec v w) as [[L ->]|[L ->]].
    + destruct C2 as [C2|(s & I & K)]; auto. right. exists s. split; auto. apply in_or_app. auto.
    + destruct A2 as [A2|(s & I & K)]; auto. right. exists s. split; auto. apply in_or_app. auto.
Qed.

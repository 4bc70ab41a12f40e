From Verif Require Import Common Model_rec Model_strm Model_disk Spec_disk.
From Coq Require Import ZArith Lia.

Lemma skipn_nth {A} (b : A) n : forall i l, nth_error l i = Some b -> firstn (S n) (skipn i l) = b :: firstn n (skipn (S i) l).
Proof.
  induction i as [|i IH]; intros [|x l] H; try discriminate; cbn in H.
  - injection H as ->. reflexivity.
  - change (skipn (S i) (x :: l)) with (skipn i l). change (skipn (S (S i)) (x :: l)) with (skipn (S i) l). apply IH. exact H.
Qed.

Lemma touch_in page file : forall n i, i + n <= length file -> touch page file i n = Some (firstn n (skipn i file)).
Proof.
  induction n as [|n IH]; intros i H; cbn [touch]; [reflexivity|].
  destruct (nth_error file i) as [b|] eqn:E; [|apply nth_error_None in E; lia].
  rewrite IH by lia. f_equal. symmetry. apply skipn_nth. exact E.
Qed.

Lemma firstn_self {A} (l : list A) k : firstn (length (firstn k l)) l = firstn k l.
Proof. rewrite firstn_length. destruct (le_lt_dec k (length l)); [f_equal; lia|]. rewrite Nat.min_r by lia. rewrite firstn_all. symmetry. apply firstn_all2. lia. Qed.

Lemma piece_touch page src extra i k : let bs := firstn k (skipn i src) in touch page (src ++ extra) i (length bs) = Some bs.
Proof.
  intros bs. destruct (le_lt_dec i (length src)) as [I|I].
  - assert (L : length bs <= length src - i). { unfold bs. rewrite firstn_length, skipn_length. lia. }
    rewrite touch_in by (rewrite app_length; lia). f_equal. rewrite skipn_app. replace (i - length src) with 0 by lia. cbn [skipn].
    rewrite firstn_app, skipn_length. replace (length bs - (length src - i)) with 0 by lia. cbn [firstn]. rewrite app_nil_r.
    unfold bs. apply firstn_self.
  - unfold bs. rewrite skipn_all2 by lia. rewrite firstn_nil. reflexivity.
Qed.

(* What the slices of a mapping show is what they showed when they were made. *)
Definition faithful (file : list byte) (sl : nat * nat) (bs : list byte) : Prop :=
  exists src extra k, file = src ++ extra /\ bs = firstn k (skipn (fst sl) src) /\ snd sl = length bs.

Lemma faithful_grow file sl bs more : faithful file sl bs -> faithful (file ++ more) sl bs.
Proof. intros (src & extra & k & -> & A & B). exists src, (extra ++ more), k. rewrite app_assoc. auto. Qed.

Lemma faithful_touch page file i n bs : faithful file (i, n) bs -> touch page file i n = Some bs.
Proof. intros (src & extra & k & -> & -> & C). cbn [fst snd] in *. rewrite C. apply piece_touch. Qed.

Lemma Forall2_nth {A B} (R : A -> B -> Prop) l l' k : Forall2 R l l' ->
  match nth_error l k, nth_error l' k with Some a, Some b => R a b | None, None => True | _, _ => False end.
Proof. intros F. revert k. induction F; intros [|k]; cbn; auto. apply IHF. Qed.

(* One read of the memory stream: the bytes are at its position, which is in the source. *)
Lemma ms_read_bytes m n bs m' : ms_read m n = Ok (bs, m') -> exists k, bs = firstn k (skipn (Z.to_nat (ms_pos m)) (ms_source m)).
Proof.
  unfold ms_read. destruct (ms_closed m); [discriminate|]. destruct (n =? 0)%N; [intros H; injection H as <- <-; exists 0; reflexivity|].
  destruct (_ || _); [discriminate|]. intros H. injection H as <- <-. eexists. reflexivity.
Qed.
Lemma ms_slice_bytes m n bs m' : ms_read_slice m n = Ok (bs, m') -> exists k, bs = firstn k (skipn (Z.to_nat (ms_pos m)) (ms_source m)).
Proof.
  unfold ms_read_slice. destruct (ms_closed m); [discriminate|]. destruct (n =? 0)%N; [intros H; injection H as <- <-; exists 0; reflexivity|].
  destruct (_ || _); [discriminate|]. intros H. injection H as <- <-. eexists. reflexivity.
Qed.

Lemma ms_read_source m n bs m' : ms_read m n = Ok (bs, m') -> ms_source m' = ms_source m.
Proof.
  unfold ms_read. destruct (ms_closed m); [discriminate|]. destruct (n =? 0)%N; [intros H; injection H as <- <-; reflexivity|].
  destruct (_ || _); [discriminate|]. intros H. injection H as <- <-. reflexivity.
Qed.
Lemma ms_slice_source m n bs m' : ms_read_slice m n = Ok (bs, m') -> ms_source m' = ms_source m.
Proof.
  unfold ms_read_slice. destruct (ms_closed m); [discriminate|]. destruct (n =? 0)%N; [intros H; injection H as <- <-; reflexivity|].
  destruct (_ || _); [discriminate|]. intros H. injection H as <- <-. reflexivity.
Qed.

Lemma mapped_run page l : forall file m slices shown,
  Forall growing l -> (exists extra, file = ms_source m ++ extra) -> Forall2 (faithful file) slices shown ->
  run_mapped page file m slices l = expected (A_memory m) shown l.
Proof.
  induction l as [|a l IH]; intros file m slices shown G X F; cbn [run_mapped expected]; [reflexivity|].
  inversion G as [|? ? Ga G']; subst. destruct a as [c|o|k].
  - destruct c; try contradiction; cbn [changed].
    + apply IH; auto.
      * destruct X as [extra ->]. exists (extra ++ bs). now rewrite app_assoc.
      * clear - F. induction F; constructor; auto using faithful_grow.
    + apply IH; auto.
  - destruct X as [extra ->]. destruct o; cbn [a_do a_read a_read_slice a_seek a_close].
    + destruct (ms_read m n) as [[bs m']| | |] eqn:E; cbn [bind].
      * destruct (ms_read_bytes _ _ _ _ E) as [k K]. rewrite K at 1. rewrite piece_touch. rewrite <- K. f_equal.
        apply IH; auto. exists extra. f_equal. symmetry. apply (ms_read_source _ _ _ _ E).
      * f_equal. apply IH; eauto.
      * f_equal. apply IH; eauto.
      * f_equal. apply IH; eauto.
    + destruct (ms_read_slice m n) as [[bs m']| | |] eqn:E; cbn [bind].
      * destruct (ms_slice_bytes _ _ _ _ E) as [k K]. f_equal. apply IH; auto.
        { exists extra. f_equal. symmetry. apply (ms_slice_source _ _ _ _ E). }
        apply Forall2_app; [exact F|]. constructor; [|constructor]. exists (ms_source m), extra, k. auto.
      * f_equal. apply IH; eauto.
      * f_equal. apply IH; eauto.
      * f_equal. apply IH; eauto.
    + unfold ms_seek. destruct (ms_closed m); cbn [bind]; f_equal; apply IH; eauto.
    + f_equal. apply IH; auto. cbn. exists (ms_source m ++ extra). reflexivity.
    + f_equal. apply IH; eauto.
    + f_equal. apply IH; eauto.
  - pose proof (Forall2_nth _ _ _ k F) as K. destruct (nth_error slices k) as [[i n]|], (nth_error shown k) as [bs|]; try contradiction.
    + rewrite (faithful_touch _ _ _ _ _ K). f_equal. apply IH; auto.
    + f_equal. apply IH; auto.
Qed.

(* ---------------- through a descriptor ---------------- *)

Lemma with_same f : with_file f (fs_content f) = f.
Proof. destruct f; reflexivity. Qed.

Lemma streamed_run l : forall f copies, Forall unchanging l -> run_streamed f copies l = expected (A_file f) copies l.
Proof.
  induction l as [|a l IH]; intros f copies G; cbn [run_streamed expected]; [reflexivity|].
  inversion G as [|? ? Ga G']; subst. destruct a as [c|o|k].
  - destruct c; try contradiction. cbn [changed]. rewrite with_same. apply IH; auto.
  - destruct o; cbn [a_do a_read a_read_slice a_seek a_close].
    + destruct (fs_read f n) as [[bs f']| | |]; cbn [bind]; f_equal; apply IH; auto.
    + destruct (fs_read f n) as [[bs f']| | |]; cbn [bind]; f_equal; apply IH; auto.
    + destruct (fs_seek f p) as [f'| | |]; cbn [bind]; f_equal; apply IH; auto.
    + f_equal. apply IH; auto.
    + f_equal. apply IH; auto.
    + f_equal. apply IH; auto.
  - f_equal. apply IH; auto.
Qed.

(* A read of an open file: the next bytes, and none only if there are none. *)
Lemma fs_read_next f n : fs_closed f = false -> exists bs f', fs_read f n = Ok (bs, f') /\ fs_closed f' = false /\
  fs_content f' = fs_content f /\ fs_pos f' = (fs_pos f + N.of_nat (length bs))%N /\
  bs = firstn (length bs) (skipn (N.to_nat (fs_pos f)) (fs_content f)) /\
  ((0 < n)%N -> bs = [] -> length (fs_content f) <= N.to_nat (fs_pos f)).
Proof.
  intros C. unfold fs_read. rewrite C. destruct (N.eqb_spec n 0) as [Z|Z].
  - exists [], f. cbn. repeat split; auto; [lia|]. lia.
  - unfold stream_read. cbn [s_rest s_sched]. eexists _, _. split; [reflexivity|]. cbn. split; [reflexivity|]. split; [reflexivity|].
    split; [reflexivity|]. split; [symmetry; apply firstn_self|]. intros _ E. apply (f_equal (@length _)) in E. cbn [length] in E.
    rewrite firstn_length, skipn_length in E. destruct (fs_sched f) as [|[|?] ?]; lia.
Qed.

Lemma reading_run l : forall f, Forall growing l -> Forall reading l -> fs_closed f = false ->
  N.to_nat (fs_pos f) <= length (fs_content f) ->
  exists k, delivered (run_streamed f [] l) = firstn k (skipn (N.to_nat (fs_pos f)) (file_after (fs_content f) l)) /\
    N.to_nat (fs_pos f) + k <= length (file_after (fs_content f) l) /\ k = length (delivered (run_streamed f [] l)).
Proof.
  induction l as [|a l IH]; intros f G R C P; cbn [run_streamed file_after delivered].
  - exists 0. split; [reflexivity|]. split; [lia|reflexivity].
  - inversion G as [|? ? Ga G']; inversion R as [|? ? Ra R']; subst. destruct a as [c|o|k]; [| |contradiction].
    + apply (IH (with_file f (changed (fs_content f) c))); auto. cbn. destruct c; try contradiction; cbn; [rewrite app_length; lia|exact P].
    + destruct o; try contradiction. cbn [a_do a_read]. destruct (fs_read_next f n C) as (bs & f' & -> & C' & E & Q & B & _). cbn [bind delivered].
      assert (LB : length bs <= length (fs_content f) - N.to_nat (fs_pos f)).
      { rewrite B. rewrite firstn_length, skipn_length. lia. }
      destruct (IH f' G' R' C') as (k & D & L & K); [rewrite E, Q; lia|]. rewrite E, Q in *.
      exists (length bs + k). rewrite D at 1. split; [|split; [lia|rewrite app_length; lia]].
      assert (PF : exists more, file_after (fs_content f) l = fs_content f ++ more).
      { clear - G'. revert G'. generalize (fs_content f). induction l as [|a l IHl]; intros file G'; cbn; [exists []; now rewrite app_nil_r|].
        inversion G'; subst. destruct a as [c| |]; auto. destruct c; try contradiction; cbn [changed]; auto.
        destruct (IHl (file ++ bs)) as [more ->]; auto. exists (bs ++ more). now rewrite app_assoc. }
      destruct PF as [more PF]. rewrite PF in *. set (p := N.to_nat (fs_pos f)) in *.
      replace (N.to_nat (fs_pos f + N.of_nat (length bs))) with (p + length bs) by (unfold p; lia).
      rewrite <- (firstn_skipn (length bs) (skipn p (fs_content f ++ more))) at 1.
      assert (X : firstn (length bs) (skipn p (fs_content f ++ more)) = bs).
      { rewrite B at 2. rewrite skipn_app, firstn_app, skipn_length. replace (length bs - (length (fs_content f) - p)) with 0 by lia.
        cbn [firstn]. now rewrite app_nil_r. }
      rewrite X. rewrite firstn_app. rewrite (firstn_all2 bs) by lia. f_equal. replace (length bs + k - length bs) with k by lia. f_equal.
      clearbody p. clear. generalize (fs_content f ++ more). intros l0. revert p. induction l0 as [|x l0 IH]; intros p; [now rewrite !skipn_nil|].
      destruct p as [|p]; [reflexivity|]. cbn. apply IH.
Qed.

Lemma run_streamed_app l1 : forall f copies, Forall growing l1 -> Forall reading l1 -> fs_closed f = false ->
  N.to_nat (fs_pos f) <= length (fs_content f) -> forall l2,
  exists f', run_streamed f copies (l1 ++ l2) = run_streamed f copies l1 ++ run_streamed f' copies l2 /\ fs_closed f' = false /\
    fs_content f' = file_after (fs_content f) l1 /\ N.to_nat (fs_pos f') <= length (fs_content f') /\
    N.to_nat (fs_pos f') = N.to_nat (fs_pos f) + length (delivered (run_streamed f copies l1)).
Proof.
  induction l1 as [|a l IH]; intros f copies G R C P l2; cbn [app run_streamed].
  - exists f. cbn [file_after delivered length]. repeat split; auto; lia.
  - inversion G as [|? ? Ga G']; inversion R as [|? ? Ra R']; subst. destruct a as [c|o|k]; [| |contradiction].
    + destruct (IH (with_file f (changed (fs_content f) c)) copies G' R' C) with (l2 := l2) as (f' & A & B & D & E & F).
      { cbn. destruct c; try contradiction; cbn; [rewrite app_length; lia|exact P]. }
      exists f'. auto.
    + destruct o; try contradiction. cbn [a_do a_read]. destruct (fs_read_next f n C) as (bs & f1 & -> & C' & E & Q & B & _). cbn [bind delivered].
      assert (LB : length bs <= length (fs_content f) - N.to_nat (fs_pos f)).
      { rewrite B. rewrite firstn_length, skipn_length. lia. }
      destruct (IH f1 copies G' R' C') with (l2 := l2) as (f' & X1 & X2 & X3 & X4 & X5); [rewrite E, Q; lia|].
      exists f'. rewrite X1. cbn [app file_after]. rewrite E in X3. repeat split; auto. rewrite app_length. lia.
Qed.

Lemma drained l f n : Forall growing l -> Forall reading l -> fs_closed f = false -> fs_pos f = 0%N -> (0 < n)%N ->
  last (run_streamed f [] (l ++ [Call (S_read n)])) Crash = Answer (Ok (Out_bytes [])) ->
  delivered (run_streamed f [] l) = file_after (fs_content f) l.
Proof.
  intros G R C P N H. destruct (run_streamed_app l f [] G R C ltac:(rewrite P; cbn; lia) [Call (S_read n)]) as (f' & E & C' & K & L & Q).
  rewrite E in H. cbn [run_streamed a_do a_read] in H. destruct (fs_read_next f' n C') as (bs & f2 & X & _ & _ & _ & _ & Z). rewrite X in H.
  cbn [bind] in H. rewrite last_last in H. injection H as ->. specialize (Z N eq_refl).
  destruct (reading_run l f G R C) as (k & D & L' & KK); [rewrite P; cbn; lia|]. rewrite P in *. cbn [N.to_nat skipn] in *. rewrite D.
  apply firstn_all2. rewrite <- K. lia.
Qed.

(* Copies are never changed. *)
Lemma copies_app l1 : forall f copies, exists f' more, forall l2,
  run_streamed f copies (l1 ++ l2) = run_streamed f copies l1 ++ run_streamed f' (copies ++ more) l2.
Proof.
  induction l1 as [|a l IH]; intros f copies; cbn [app run_streamed].
  - exists f, []. intros l2. now rewrite app_nil_r.
  - destruct a as [c|o|k].
    + apply IH.
    + destruct (a_do o (A_file f)) as [r a']. destruct o.
      1,3,4,5,6: destruct (IH (match a' with A_file f' => f' | _ => f end) copies) as (f' & more & E); exists f', more; intros l2; rewrite E; reflexivity.
      destruct r as [[bs| |]| | |].
      2,3,4,5,6: destruct (IH (match a' with A_file f' => f' | _ => f end) copies) as (f' & more & E); exists f', more; intros l2; rewrite E; reflexivity.
      destruct (IH (match a' with A_file f' => f' | _ => f end) (copies ++ [bs])) as (f' & more & E). exists f', ([bs] ++ more).
      intros l2. rewrite E. now rewrite app_assoc.
    + destruct (IH f copies) as (f' & more & E). exists f', more. intros l2. rewrite E. reflexivity.
Qed.

Lemma copies_run f l1 l2 k bs :
  last (run_streamed f [] (l1 ++ [Look k])) Crash = Bytes bs -> last (run_streamed f [] (l1 ++ l2 ++ [Look k])) Crash = Bytes bs.
Proof.
  destruct (copies_app l1 f []) as (f1 & c1 & E). rewrite !E. cbn [run_streamed app]. rewrite last_last.
  destruct (nth_error c1 k) as [b|] eqn:K; [|discriminate]. intros H. injection H as ->.
  destruct (copies_app l2 f1 c1) as (f2 & c2 & E2). rewrite E2. cbn [run_streamed]. rewrite app_assoc, last_last.
  rewrite nth_error_app1 by (apply nth_error_Some; congruence). now rewrite K.
Qed.

(* ---------------- the mapping of a file that was changed ---------------- *)

Lemma touch_none page file : forall n i j, i <= j < i + n -> nth_error file j = None -> in_pages page (length file) j = false ->
  touch page file i n = None.
Proof.
  induction n as [|n IH]; intros i j H N P; [lia|]. cbn [touch]. destruct (Nat.eq_dec i j) as [->|D].
  - rewrite N, P. reflexivity.
  - rewrite (IH (S i) j) by (auto; lia). clear. destruct (nth_error file i); [reflexivity|]. destruct (in_pages _ _ i); reflexivity.
Qed.

Lemma touch_zeros page file : forall n i, length file <= i -> (forall j, i <= j < i + n -> in_pages page (length file) j = true) ->
  touch page file i n = Some (repeat 0%N n).
Proof.
  induction n as [|n IH]; intros i L P; cbn [touch repeat]; [reflexivity|].
  rewrite (proj2 (nth_error_None file i)) by lia. rewrite P by lia. rewrite IH; [reflexivity|lia|]. intros j H. apply P. lia.
Qed.

Lemma touch_app page file : forall n m i a b, touch page file i n = Some a -> touch page file (i + n) m = Some b ->
  touch page file i (n + m) = Some (a ++ b).
Proof.
  induction n as [|n IH]; intros m i a b A B; cbn [touch plus] in *.
  - injection A as <-. now rewrite Nat.add_0_r in B.
  - destruct (match nth_error file i with Some _ => _ | None => _ end) as [c|]; [|discriminate].
    destruct (touch page file (S i) n) as [a'|] eqn:E; [|discriminate]. injection A as <-.
    rewrite (IH m (S i) a' b E); [reflexivity|]. now rewrite <- plus_n_Sm in B.
Qed.

Lemma read_all file : (N.of_nat (length file) < 2 ^ 63)%N -> file <> [] ->
  ms_read (ms_open file) (N.of_nat (length file)) = Ok (file, mk_mstream file (Z.of_nat (length file)) false).
Proof.
  intros S E. unfold ms_read, ms_open, ms_advance, as_ssize. cbn [ms_closed ms_pos ms_source].
  destruct (N.eqb_spec (N.of_nat (length file)) 0) as [Z|Z]; [destruct file; [contradiction|cbn in Z; lia]|].
  rewrite (proj2 (N.ltb_lt _ _) S). replace (Z.min (0 + Z.of_N (N.of_nat (length file))) (Z.of_nat (length file))) with (Z.of_nat (length file)) by lia.
  rewrite (proj2 (Z.ltb_ge (Z.of_nat (length file)) 0)) by lia. cbn [orb Z.ltb Z.compare].
  replace (Z.to_nat (Z.of_nat (length file) - 0)) with (length file) by lia. cbn [Z.to_nat skipn]. now rewrite firstn_all.
Qed.
Lemma slice_all file : (N.of_nat (length file) < 2 ^ 63)%N -> file <> [] ->
  ms_read_slice (ms_open file) (N.of_nat (length file)) = Ok (file, mk_mstream file (Z.of_nat (length file)) false).
Proof.
  intros S E. pose proof (read_all file S E) as R. unfold ms_read, ms_read_slice in *. cbn [ms_closed ms_pos ms_open] in *.
  destruct (N.of_nat (length file) =? 0)%N; [exact R|]. rewrite Bool.orb_comm. cbn [ms_source ms_open] in *.
  destruct (_ || _); [discriminate|exact R].
Qed.

Lemma truncated_crash page file k : 0 < page -> k + page <= length file -> (N.of_nat (length file) < 2 ^ 63)%N ->
  run_mapped page file (ms_open file) [] [Change (Truncate k); Call (S_read (N.of_nat (length file)))] = [Crash].
Proof.
  intros P K S. cbn [run_mapped a_do a_read]. rewrite read_all; [|exact S|intros ->; cbn in K; lia]. cbn [bind changed ms_pos ms_open]. change (Z.to_nat 0) with 0.
  assert (L : length (firstn k file) = k) by (rewrite firstn_length; lia).
  rewrite (touch_none page (firstn k file) (length file) 0 (length file - 1)); [reflexivity|lia|apply nth_error_None; lia|].
  unfold in_pages. rewrite L. apply Nat.ltb_ge. apply Nat.div_le_mono; lia.
Qed.

Lemma truncated_zeros page file k : k < length file -> length file <= page -> 0 < k -> (N.of_nat (length file) < 2 ^ 63)%N ->
  run_mapped page file (ms_open file) [] [Change (Truncate k); Call (S_read (N.of_nat (length file)))] =
    [Answer (Ok (Out_bytes (firstn k file ++ repeat 0%N (length file - k))))].
Proof.
  intros K P Z S. cbn [run_mapped a_do a_read]. rewrite read_all; [|exact S|intros ->; cbn in K; lia]. cbn [bind changed ms_pos ms_open]. change (Z.to_nat 0) with 0.
  assert (L : length (firstn k file) = k) by (rewrite firstn_length; lia).
  replace (length file) with (k + (length file - k)) at 1 by lia.
  rewrite (touch_app page (firstn k file) k (length file - k) 0 (firstn k file) (repeat 0%N (length file - k))); [reflexivity| |].
  - rewrite touch_in by lia. cbn [skipn]. f_equal. apply firstn_all2. lia.
  - apply touch_zeros; [lia|]. intros j J. unfold in_pages. rewrite L. apply Nat.ltb_lt. rewrite (Nat.div_small j) by lia.
    apply Nat.div_str_pos. lia.
Qed.

Lemma overwritten_slice page file bs : bs <> firstn (length bs) file -> length bs <= length file -> (N.of_nat (length file) < 2 ^ 63)%N ->
  exists before after, before <> after /\
  run_mapped page file (ms_open file) [] [Call (S_read_slice (N.of_nat (length file))); Look 0; Change (Overwrite 0 bs); Look 0] =
    [Handle (length file); Bytes before; Bytes after].
Proof.
  intros D L S. assert (E : file <> []). { intros ->. destruct bs; [apply D; reflexivity|cbn in L; lia]. }
  exists file, (bs ++ skipn (length bs) file). split.
  - intros X. apply D. rewrite X. rewrite firstn_app, Nat.sub_diag, firstn_all. cbn. now rewrite app_nil_r.
  - cbn [run_mapped a_do a_read_slice]. rewrite slice_all by auto. cbn [bind ms_pos ms_open]. change (Z.to_nat 0) with 0. cbn [app nth_error changed firstn plus].
    rewrite touch_in by lia. cbn [skipn]. rewrite firstn_all.
    rewrite touch_in by (rewrite app_length, skipn_length; lia). cbn [skipn]. rewrite firstn_all2; [reflexivity|].
    rewrite app_length, skipn_length. lia.
Qed.

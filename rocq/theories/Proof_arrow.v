From Verif Require Import Common Model_rec Model_strm Spec_strm Proof_strm Model_pyerr Model_arrow Spec_arrow.
From Coq Require Import ZArith Lia.
Local Open Scope Z_scope.

Lemma to_size_small n : 0 <= n < 2 ^ 64 -> to_size n = Z.to_N n.
Proof. intros H. unfold to_size. rewrite Z.mod_small by lia. reflexivity. Qed.

Lemma to_int64_small n : (n < 2 ^ 63)%N -> to_int64 n = Z.of_N n.
Proof. intros H. unfold to_int64. apply N.ltb_lt in H. rewrite H. reflexivity. Qed.

Lemma pow64 : 2 ^ 64 = 2 * 2 ^ 63. Proof. reflexivity. Qed.
Lemma pow63 : Z.of_N (2 ^ 63) = 2 ^ 63. Proof. reflexivity. Qed.

(* The cursor of the file. *)
Definition cur (c : cursor) : option Z := if c_closed c then None else Some (Z.of_N (c_pos c)).

Lemma closed_cursor k content a c : at_cursor k content a c -> a_closed a = c_closed c.
Proof. intros [_ H]. destruct k, a; try contradiction; cbn; tauto. Qed.

Lemma part_len content p n : 0 <= p <= Z.of_nat (length content) -> 0 <= n ->
  Z.of_nat (length (part content p n)) = Z.min n (Z.of_nat (length content) - p).
Proof. intros Hp Hn. unfold part. rewrite firstn_length, skipn_length. lia. Qed.

Lemma read_delivers k content c n r c' o : c_closed c = false -> (c_pos c <= N.of_nat (length content))%N ->
  0 <= n -> o = S_read (Z.to_N n) \/ o = S_read_slice (Z.to_N n) ->
  answers k content o c r c' -> c_closed c' = false /\ delivers k content (Z.of_N (c_pos c)) n (boundary r) (Z.of_N (c_pos c')).
Proof.
  intros Hc Hp Hn Ho A.
  assert (A' : answers k content (S_read (Z.to_N n)) c r c') by (destruct Ho as [-> | ->]; exact A). clear A Ho.
  cbn [answers] in A'. rewrite Hc in A'. destruct A' as (bs & -> & Eb & Lb & Nb & Fb & ->). cbn [boundary c_pos c_closed].
  split; [reflexivity|].
  assert (Ep : part content (Z.of_N (c_pos c)) (Z.of_nat (length bs)) = bs).
  { unfold part. rewrite Nat2Z.id. rewrite <- N_nat_Z, Nat2Z.id. symmetry. exact Eb. }
  exists (Z.of_nat (length bs)). rewrite Ep. split; [lia|]. split; [reflexivity|]. split; [lia|].
  assert (Ln : Z.of_nat (length (part content (Z.of_N (c_pos c)) n)) = Z.min n (Z.of_nat (length content) - Z.of_N (c_pos c)))
    by (apply part_len; lia).
  split.
  - intros K. specialize (Fb K). rewrite <- Ep. clear Ep Eb Nb.
    assert (Z.of_nat (length bs) = n \/ Z.of_nat (length content) - Z.of_N (c_pos c) <= Z.of_nat (length bs) <= n) as [-> |L] by lia.
    + reflexivity.
    + unfold part. rewrite !firstn_all2; auto; rewrite skipn_length; lia.
  - assert (Z : part content (Z.of_N (c_pos c)) n = [] <-> Z.min n (Z.of_nat (length content) - Z.of_N (c_pos c)) = 0).
    { rewrite <- Ln. destruct (part content (Z.of_N (c_pos c)) n); cbn; split; intros; try discriminate; auto; lia. }
    rewrite Z, Nb. lia.
Qed.

Lemma f_step k content o a c :
  (N.of_nat (length content) < 2 ^ 63)%N -> sensible content o -> at_cursor k content a c ->
  exists r a' c', f_do o a = (r, a') /\ file_answers k content o (cur c) r (cur c') /\ at_cursor k content a' c'.
Proof.
  intros Hs Hm Ha. pose proof (closed_cursor _ _ _ _ Ha) as EC. pose proof pow64 as P64. pose proof pow63 as P63.
  assert (CLOSE : exists a' c', f_do F_close a = (Done, a') /\ c_closed c' = true /\ at_cursor k content a' c').
  { destruct (step_ok k content S_close a c Hs I Ha) as (r & a' & c' & E & A & _ & Ha'). cbn in E. injection E as <- <-.
    destruct A as [_ ->]. exists (a_close a), (mk_cursor (c_pos c) true). auto. }
  destruct o; cbn [sensible] in Hm; try (destruct CLOSE as (a' & c' & E & C & A); exists Done, a', c'; split; [exact E|];
    split; [|exact A]; unfold cur; rewrite C; cbn; auto; fail);
  unfold cur; cbn [f_do]; destruct (c_closed c) eqn:CC;
  try (unfold checked; rewrite EC; exists (Error St_invalid), a, c; rewrite CC; split; [reflexivity|split; [split; reflexivity|exact Ha]]; fail).
  - rewrite to_size_small by lia. unfold checked. rewrite EC.
    destruct (step_ok k content (S_read (Z.to_N n)) a c Hs ltac:(cbn; lia) Ha) as (r & a' & c' & E & A & _ & Ha'). rewrite E.
    exists (boundary r), a', c'. split; [reflexivity|]. split; [|exact Ha'].
    destruct (read_delivers k content c n r c' _ CC (proj1 Ha) (proj1 Hm) (or_introl eq_refl) A) as [C' D].
    rewrite C'. cbn. eauto.
  - rewrite to_size_small by lia. unfold checked. rewrite EC.
    destruct (step_ok k content (S_read_slice (Z.to_N n)) a c Hs ltac:(cbn; lia) Ha) as (r & a' & c' & E & A & _ & Ha'). rewrite E.
    exists (boundary r), a', c'. split; [reflexivity|]. split; [|exact Ha'].
    destruct (read_delivers k content c n r c' _ CC (proj1 Ha) (proj1 Hm) (or_intror eq_refl) A) as [C' D].
    rewrite C'. cbn. eauto.
  - rewrite to_size_small by lia. unfold checked. rewrite EC.
    destruct (step_ok k content (S_seek (Z.to_N p)) a c Hs ltac:(cbn; lia) Ha) as (r & a' & c' & E & A & _ & Ha'). rewrite E.
    exists (boundary r), a', c'. split; [reflexivity|]. split; [|exact Ha']. cbn [answers] in A. rewrite CC in A. cbn [file_answers].
    destruct (N.leb_spec (Z.to_N p) (N.of_nat (length content))), (Z.leb_spec p (Z.of_nat (length content))); try lia.
    + destruct A as [-> ->]. cbn. split; [reflexivity|]. f_equal. lia.
    + destruct k; destruct A as [-> ->]; cbn; rewrite ?CC; (split; [reflexivity|]); f_equal; lia.
  - unfold checked. rewrite EC.
    destruct (step_ok k content S_position a c Hs I Ha) as (r & a' & c' & E & A & _ & Ha'). rewrite E.
    exists (boundary r), a', c'. split; [reflexivity|]. split; [|exact Ha']. cbn [answers] in A. rewrite CC in A. destruct A as [-> A].
    rewrite CC. cbn. assert (r = Ok (Out_number (c_pos c))) by (destruct k; exact A). subst r. cbn.
    rewrite to_int64_small by (destruct Ha; lia). auto.
  - unfold checked. rewrite EC.
    destruct (step_ok k content S_size a c Hs I Ha) as (r & a' & c' & E & A & _ & Ha'). rewrite E.
    exists (boundary r), a', c'. split; [reflexivity|]. split; [|exact Ha']. cbn [answers] in A. rewrite CC in A. destruct A as [-> A].
    rewrite CC. cbn. assert (r = Ok (Out_number (N.of_nat (length content)))) by (destruct k; exact A). subst r. cbn.
    rewrite to_int64_small by lia. split; [|reflexivity]. f_equal. lia.
  - rewrite !to_size_small by lia. unfold checked at 1. rewrite EC.
    destruct (step_ok k content (S_seek (Z.to_N p)) a c Hs ltac:(cbn; lia) Ha) as (r & a' & c' & E & A & _ & Ha'). rewrite E.
    cbn [answers] in A. rewrite CC in A. cbn [file_answers].
    assert (NEXT : c_closed c' = false -> exists r2 a2 c2, checked (S_read (Z.to_N n)) a' = (r2, a2) /\ at_cursor k content a2 c2 /\
      c_closed c2 = false /\ delivers k content (Z.of_N (c_pos c')) n r2 (Z.of_N (c_pos c2))).
    { intros CC'. unfold checked. rewrite (closed_cursor _ _ _ _ Ha'), CC'.
      destruct (step_ok k content (S_read (Z.to_N n)) a' c' Hs ltac:(cbn; lia) Ha') as (r2 & a2 & c2 & E2 & A2 & _ & Ha2). rewrite E2.
      exists (boundary r2), a2, c2. split; [reflexivity|]. split; [exact Ha2|].
      destruct Hm as (H1 & H2 & H3 & H4).
      exact (read_delivers k content c' n r2 c2 _ CC' (proj1 Ha') H3 (or_introl eq_refl) A2). }
    destruct (N.leb_spec (Z.to_N p) (N.of_nat (length content))), (Z.leb_spec p (Z.of_nat (length content))); try lia.
    + destruct A as [-> ->]. cbn [boundary]. destruct (NEXT eq_refl) as (r2 & a2 & c2 & E2 & Ha2 & C2 & D). cbn [c_pos] in D.
      exists r2, a2, c2. rewrite C2. split; [exact E2|]. split; [|exact Ha2]. exists (Z.of_N (c_pos c2)).
      rewrite Z2N.id in D by lia. auto.
    + assert (REST : k <> K_s3 -> r = Ok Out_unit /\ c' = mk_cursor (N.of_nat (length content)) false)
        by (destruct k; intros; tauto).
      assert (K : k = K_s3 \/ k <> K_s3) by (destruct k; auto; right; discriminate). destruct K as [->|K].
      * destruct A as [-> ->]. cbn. exists (Error St_unknown), a', c. rewrite CC. split; [reflexivity|]. split; [split; reflexivity|exact Ha'].
      * destruct (REST K) as [-> ->]. cbn [boundary]. destruct (NEXT eq_refl) as (r2 & a2 & c2 & E2 & Ha2 & C2 & D).
        exists r2, a2, c2. rewrite C2. split; [exact E2|]. split; [|exact Ha2].
        destruct D as (m & Lm & -> & Eq & _ & _). cbn [c_pos] in *.
        assert (Z0 : part content (Z.of_N (N.of_nat (length content))) m = []).
        { unfold part. rewrite skipn_all2 by lia. apply firstn_nil. }
        rewrite Z0 in *. cbn in Eq. destruct k; try contradiction; (split; [reflexivity|]); f_equal; lia.
Qed.

Lemma f_history k content ops : forall a c,
  (N.of_nat (length content) < 2 ^ 63)%N -> Forall (sensible content) ops -> at_cursor k content a c ->
  file_history k content ops (cur c) (f_run ops a).
Proof.
  induction ops as [|o ops IH]; intros a c Hs Hm Ha; cbn [f_run]; [constructor|].
  inversion Hm as [|? ? Hm1 Hm2]; subst. destruct (f_step k content o a c Hs Hm1 Ha) as (r & a' & c' & E & A & Ha').
  rewrite E. econstructor; eauto.
Qed.

Lemma opened_cursor k content sched : at_cursor k content (opened k content sched) (mk_cursor 0 false).
Proof. split; [cbn; lia|]. destruct k; cbn; repeat split; auto. Qed.

(* The state after some calls. *)
Fixpoint f_after (ops : list fop) (a : astream) : astream :=
  match ops with [] => a | o :: r => f_after r (snd (f_do o a)) end.

Lemma f_run_app ops1 ops2 : forall a, f_run (ops1 ++ ops2) a = f_run ops1 a ++ f_run ops2 (f_after ops1 a).
Proof.
  induction ops1 as [|o r IH]; intros a; cbn; auto. destruct (f_do o a) as [x a'] eqn:E. cbn. rewrite IH. reflexivity.
Qed.

Lemma f_after_cursor k content ops : forall a c,
  (N.of_nat (length content) < 2 ^ 63)%N -> Forall (sensible content) ops -> ~ In F_close ops -> at_cursor k content a c ->
  c_closed c = false -> exists c', at_cursor k content (f_after ops a) c' /\ c_closed c' = false.
Proof.
  induction ops as [|o ops IH]; intros a c Hs Hm Nc Ha Hc; cbn [f_after]; [eauto|].
  inversion Hm as [|? ? Hm1 Hm2]; subst. destruct (f_step k content o a c Hs Hm1 Ha) as (r & a' & c' & E & A & Ha').
  rewrite E. cbn [snd]. apply IH with (c := c'); auto.
  - intro; apply Nc; right; auto.
  - unfold cur in A. rewrite Hc in A. destruct (c_closed c') eqn:C'; auto. exfalso.
    assert (No : o <> F_close) by (intro; subst; apply Nc; left; auto).
    destruct o; cbn in A; try congruence;
      repeat match type of A with
      | exists _, _ => destruct A as (? & ? & A); discriminate
      | (if ?b then _ else _) => destruct b
      | match k with _ => _ end => destruct k
      end; try (destruct A as (? & ? & A); discriminate); destruct A; discriminate.
Qed.

Lemma read_at_exact k content sched ops p n :
  k <> K_file -> (N.of_nat (length content) < 2 ^ 63)%N -> Forall (sensible content) (ops ++ [F_read_at p n]) ->
  ~ In F_close ops -> p <= Z.of_nat (length content) ->
  exists rs, f_run (ops ++ [F_read_at p n]) (opened k content sched) = rs ++ [Bytes (part content p n)] /\ length rs = length ops.
Proof.
  intros K Hs Hm Nc Hp. apply Forall_app in Hm. destruct Hm as [Hm1 Hm2]. inversion Hm2 as [|? ? S1 _]; subst.
  rewrite f_run_app. exists (f_run ops (opened k content sched)). split.
  - f_equal. destruct (f_after_cursor k content ops _ _ Hs Hm1 Nc (opened_cursor k content sched) eq_refl) as (c & Ha & Hc).
    destruct (f_step k content _ _ _ Hs S1 Ha) as (r & a' & c' & E & A & _). cbn [f_run]. rewrite E. f_equal.
    unfold cur in A. rewrite Hc in A. cbn [file_answers] in A. rewrite (proj2 (Z.leb_le _ _) Hp) in A.
    destruct A as (q & (m & _ & -> & _ & F & _) & _). rewrite (F K). reflexivity.
  - clear. generalize (opened k content sched). induction ops as [|o ops IH]; intros a; cbn; auto. destruct (f_do o a). cbn. auto.
Qed.

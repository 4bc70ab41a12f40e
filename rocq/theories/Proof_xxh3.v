(* Changing one word of a string permutes its hash. *)
From Verif Require Import Common Model_insights Model_xxh Spec_xxh Proof_xxh Proof_xxh2.
From Coq Require Import Lia.
Import List.
Local Open Scope N_scope.

Lemma finalize1_perm s : perm (fun h => xxh_finalize1 h s).
Proof.
  induction s as [|a s IH]; [exact perm_avalanche|].
  exact (perm_comp _ _ (perm_step1 a) IH).
Qed.

(* Strings in steps of four bytes. *)
Lemma four_ind (P : list byte -> Prop) :
  P [] -> (forall a, P [a]) -> (forall a b, P [a; b]) -> (forall a b c, P [a; b; c]) ->
  (forall a b c d s, P s -> P (a :: b :: c :: d :: s)) -> forall s, P s.
Proof.
  intros H0 H1 H2 H3 H4. fix IH 1. intros [|a [|b [|c [|d s]]]];
    [exact H0|apply H1|apply H2|apply H3|apply H4; apply IH].
Qed.

Lemma finalize_perm s : perm (fun h => xxh_finalize h s).
Proof.
  induction s as [|a|a b|a b c|a b c d s IH] using four_ind.
  - exact (finalize1_perm []).
  - exact (finalize1_perm [a]).
  - exact (finalize1_perm [a; b]).
  - exact (finalize1_perm [a; b; c]).
  - exact (perm_comp _ _ (perm_step4 (get32 a b c d)) IH).
Qed.

Lemma finalize_word h q : perm (fun x => xxh_finalize h (bytes4 x ++ q)).
Proof.
  apply (perm_ext (fun x => xxh_finalize (step4 h x) q)).
  - intros x _. cbn [bytes4 app xxh_finalize]. rewrite get_bytes4. reflexivity.
  - exact (perm_comp _ _ (perm_step4_in h) (finalize_perm q)).
Qed.

Lemma quarters (p : list byte) a b c d : (length (a :: b :: c :: d :: p) mod 4 = length p mod 4)%nat.
Proof.
  cbn [length]. replace (S (S (S (S (length p))))) with (length p + 1 * 4)%nat by lia. apply Nat.mod_add. lia.
Qed.

Lemma finalize_word_at p : (length p mod 4 = 0)%nat -> forall h q, perm (fun x => xxh_finalize h (p ++ bytes4 x ++ q)).
Proof.
  induction p as [|a|a b|a b c|a b c d p IH] using four_ind; try discriminate.
  - intros _ h q. exact (finalize_word h q).
  - rewrite quarters. intros M h q. exact (IH M _ q).
Qed.

(* ---- the blocks ---- *)

(* The hash from the lanes on. *)
Definition onward (l : N) (v1 v2 v3 v4 : N) (s : list byte) : N :=
  let '(h, r) := xxh_blocks v1 v2 v3 v4 s in xxh_finalize (w32 (h + l)) r.

Lemma onward_few l v1 v2 v3 v4 s : (length s < 16)%nat ->
  onward l v1 v2 v3 v4 s = xxh_finalize (w32 (joined (v1, v2, v3, v4) + l)) s.
Proof. intro L. unfold onward. rewrite blocks_few by exact L. reflexivity. Qed.

Lemma onward_16 l v1 v2 v3 v4 a0 a1 a2 a3 b0 b1 b2 b3 c0 c1 c2 c3 d0 d1 d2 d3 s :
  onward l v1 v2 v3 v4 (a0 :: a1 :: a2 :: a3 :: b0 :: b1 :: b2 :: b3 :: c0 :: c1 :: c2 :: c3 :: d0 :: d1 :: d2 :: d3 :: s) =
  onward l (xxh_round v1 (get32 a0 a1 a2 a3)) (xxh_round v2 (get32 b0 b1 b2 b3))
           (xxh_round v3 (get32 c0 c1 c2 c3)) (xxh_round v4 (get32 d0 d1 d2 d3)) s.
Proof. reflexivity. Qed.

(* Strings in steps of sixteen bytes. *)
Lemma block_cases (s : list byte) : (length s < 16)%nat \/
  exists a0 a1 a2 a3 b0 b1 b2 b3 c0 c1 c2 c3 d0 d1 d2 d3 r,
    s = a0 :: a1 :: a2 :: a3 :: b0 :: b1 :: b2 :: b3 :: c0 :: c1 :: c2 :: c3 :: d0 :: d1 :: d2 :: d3 :: r.
Proof.
  destruct (Nat.lt_ge_cases (length s) 16) as [L | L]; [left; exact L|right].
  do 16 (destruct s as [|? s]; [cbn [length] in L; lia|]). repeat eexists.
Qed.
Lemma block_ind (P : list byte -> Prop) :
  (forall s, (length s < 16)%nat -> P s) ->
  (forall a0 a1 a2 a3 b0 b1 b2 b3 c0 c1 c2 c3 d0 d1 d2 d3 s, P s ->
     P (a0 :: a1 :: a2 :: a3 :: b0 :: b1 :: b2 :: b3 :: c0 :: c1 :: c2 :: c3 :: d0 :: d1 :: d2 :: d3 :: s)) ->
  forall s, P s.
Proof.
  intros H0 H1 s. remember (length s) as n eqn:E. revert s E. induction n as [n IH] using lt_wf_ind. intros s E.
  destruct (block_cases s) as [L | [a0 [a1 [a2 [a3 [b0 [b1 [b2 [b3 [c0 [c1 [c2 [c3 [d0 [d1 [d2 [d3 [r ->]]]]]]]]]]]]]]]]]].
  - apply H0. exact L.
  - apply H1. apply (IH (length r)); [cbn [length] in E; lia|reflexivity].
Qed.

(* The sum of the rotated lanes, as a function of one of them. *)
Lemma perm_lane r a l : 0 < r -> r < 32 -> perm (fun v => w32 (w32 (rotl32 v r + a) + l)).
Proof.
  intros P R. exact (perm_comp _ _ (perm_comp _ _ (perm_rotl r P R) (perm_add a)) (perm_add l)).
Qed.

Lemma onward_1 l s : forall v2 v3 v4, perm (fun v => onward l v v2 v3 v4 s).
Proof.
  induction s as [s L | a0 a1 a2 a3 b0 b1 b2 b3 c0 c1 c2 c3 d0 d1 d2 d3 s IH] using block_ind; intros v2 v3 v4.
  - apply (perm_ext (fun v => xxh_finalize (w32 (w32 (rotl32 v 1 + (rotl32 v2 7 + rotl32 v3 12 + rotl32 v4 18)) + l)) s)).
    + intros v _. rewrite onward_few by exact L. unfold joined. rewrite !N.add_assoc. reflexivity.
    + exact (perm_comp _ _ (perm_lane 1 _ l ltac:(lia) ltac:(lia)) (finalize_perm s)).
  - exact (perm_comp _ _ (perm_round (get32 a0 a1 a2 a3)) (IH _ _ _)).
Qed.
Lemma onward_2 l s : forall v1 v3 v4, perm (fun v => onward l v1 v v3 v4 s).
Proof.
  induction s as [s L | a0 a1 a2 a3 b0 b1 b2 b3 c0 c1 c2 c3 d0 d1 d2 d3 s IH] using block_ind; intros v1 v3 v4.
  - apply (perm_ext (fun v => xxh_finalize (w32 (w32 (rotl32 v 7 + (rotl32 v1 1 + rotl32 v3 12 + rotl32 v4 18)) + l)) s)).
    + intros v _. rewrite onward_few by exact L. unfold joined. do 4 f_equal. lia.
    + exact (perm_comp _ _ (perm_lane 7 _ l ltac:(lia) ltac:(lia)) (finalize_perm s)).
  - exact (perm_comp _ _ (perm_round (get32 b0 b1 b2 b3)) (IH _ _ _)).
Qed.
Lemma onward_3 l s : forall v1 v2 v4, perm (fun v => onward l v1 v2 v v4 s).
Proof.
  induction s as [s L | a0 a1 a2 a3 b0 b1 b2 b3 c0 c1 c2 c3 d0 d1 d2 d3 s IH] using block_ind; intros v1 v2 v4.
  - apply (perm_ext (fun v => xxh_finalize (w32 (w32 (rotl32 v 12 + (rotl32 v1 1 + rotl32 v2 7 + rotl32 v4 18)) + l)) s)).
    + intros v _. rewrite onward_few by exact L. unfold joined. do 4 f_equal. lia.
    + exact (perm_comp _ _ (perm_lane 12 _ l ltac:(lia) ltac:(lia)) (finalize_perm s)).
  - exact (perm_comp _ _ (perm_round (get32 c0 c1 c2 c3)) (IH _ _ _)).
Qed.
Lemma onward_4 l s : forall v1 v2 v3, perm (fun v => onward l v1 v2 v3 v s).
Proof.
  induction s as [s L | a0 a1 a2 a3 b0 b1 b2 b3 c0 c1 c2 c3 d0 d1 d2 d3 s IH] using block_ind; intros v1 v2 v3.
  - apply (perm_ext (fun v => xxh_finalize (w32 (w32 (rotl32 v 18 + (rotl32 v1 1 + rotl32 v2 7 + rotl32 v3 12)) + l)) s)).
    + intros v _. rewrite onward_few by exact L. unfold joined. do 4 f_equal. lia.
    + exact (perm_comp _ _ (perm_lane 18 _ l ltac:(lia) ltac:(lia)) (finalize_perm s)).
  - exact (perm_comp _ _ (perm_round (get32 d0 d1 d2 d3)) (IH _ _ _)).
Qed.

(* A word in a block that is not complete belongs to the tail. *)
Lemma onward_tail l v1 v2 v3 v4 p q : (length p mod 4 = 0)%nat -> (length p + 4 + length q < 16)%nat ->
  perm (fun x => onward l v1 v2 v3 v4 (p ++ bytes4 x ++ q)).
Proof.
  intros M L. apply (perm_ext (fun x => xxh_finalize (w32 (joined (v1, v2, v3, v4) + l)) (p ++ bytes4 x ++ q))).
  - intros x _. rewrite onward_few; [reflexivity|]. rewrite !app_length. cbn [bytes4 length]. lia.
  - apply finalize_word_at. exact M.
Qed.

Ltac take1 q L := destruct q as [|? q]; [exfalso; cbn [length] in L; lia|].

Lemma onward_word l p : (length p mod 4 = 0)%nat -> forall v1 v2 v3 v4 q,
  perm (fun x => onward l v1 v2 v3 v4 (p ++ bytes4 x ++ q)).
Proof.
  induction p as [p L | a0 a1 a2 a3 b0 b1 b2 b3 c0 c1 c2 c3 d0 d1 d2 d3 p IH] using block_ind;
    intros M v1 v2 v3 v4 q.
  - destruct (Nat.lt_ge_cases (length p + 4 + length q) 16) as [S | S].
    { apply onward_tail; assumption. }
    do 4 (destruct p as [|? p]; [
      cbn [length] in S;
      first [ do 12 take1 q S;
              refine (perm_ext (fun x => onward l (xxh_round v1 x) _ _ _ q) _ _ (perm_comp _ _ (perm_round_in v1) (onward_1 l q _ _ _)));
              intros x _; cbn [bytes4 app]; rewrite onward_16, get_bytes4; reflexivity
            | do 8 take1 q S;
              refine (perm_ext (fun x => onward l _ (xxh_round v2 x) _ _ q) _ _ (perm_comp _ _ (perm_round_in v2) (onward_2 l q _ _ _)));
              intros x _; cbn [bytes4 app]; rewrite onward_16, get_bytes4; reflexivity
            | do 4 take1 q S;
              refine (perm_ext (fun x => onward l _ _ (xxh_round v3 x) _ q) _ _ (perm_comp _ _ (perm_round_in v3) (onward_3 l q _ _ _)));
              intros x _; cbn [bytes4 app]; rewrite onward_16, get_bytes4; reflexivity
            | refine (perm_ext (fun x => onward l _ _ _ (xxh_round v4 x) q) _ _ (perm_comp _ _ (perm_round_in v4) (onward_4 l q _ _ _)));
              intros x _; cbn [bytes4 app]; rewrite onward_16, get_bytes4; reflexivity ]
      |destruct p as [|? p]; [discriminate|]; destruct p as [|? p]; [discriminate|]; destruct p as [|? p]; [discriminate|]]).
    cbn [length] in L. lia.
  - assert (M' : (length p mod 4 = 0)%nat).
    { rewrite !quarters in M. exact M. }
    exact (IH M' _ _ _ _ q).
Qed.

(* ---- the whole hash ---- *)

Lemma xxh32_word p q : (length p mod 4 = 0)%nat -> perm (fun x => xxh32 (p ++ bytes4 x ++ q)).
Proof.
  intro M. set (n := N.of_nat (length p + 4 + length q)).
  assert (E : forall x, N.of_nat (length (p ++ bytes4 x ++ q)) = n).
  { intro x. rewrite !app_length. cbn [bytes4 length]. unfold n. lia. }
  destruct (16 <=? n) eqn:B.
  - apply (perm_ext (fun x => onward (w32 n) (w32 (prime1 + prime2)) prime2 0 (w32 (4294967296 - prime1)) (p ++ bytes4 x ++ q))).
    + intros x _. unfold xxh32. rewrite E, B. reflexivity.
    + apply onward_word. exact M.
  - apply (perm_ext (fun x => xxh_finalize (w32 (prime5 + w32 n)) (p ++ bytes4 x ++ q))).
    + intros x _. unfold xxh32. rewrite E, B. reflexivity.
    + apply finalize_word_at. exact M.
Qed.

(* ---- a byte of the tail ---- *)

Lemma finalize1_byte p : forall h q, perm (fun a => xxh_finalize1 h (p ++ a :: q)).
Proof.
  induction p as [|c p IH]; intros h q.
  - exact (perm_comp _ _ (perm_step1_in h) (finalize1_perm q)).
  - exact (IH _ q).
Qed.

Lemma finalize_byte p : (length p mod 4 = 0)%nat -> forall p1 q, (length p1 + length q < 3)%nat ->
  forall h, perm (fun a => xxh_finalize h (p ++ p1 ++ a :: q)).
Proof.
  induction p as [|a|a b|a b c|a b c d p IH] using four_ind; try discriminate.
  - intros _ p1 q L h. apply (perm_ext (fun a => xxh_finalize1 h (p1 ++ a :: q))).
    + intros a _. symmetry. apply finalize_few. rewrite app_length. cbn [length]. lia.
    + apply finalize1_byte.
  - rewrite quarters. intros M p1 q L h. exact (IH M p1 q L _).
Qed.

Lemma mod4_few n k : (n mod 4 = 0 -> n < 16 -> k < 4 -> n + k < 16)%nat.
Proof. intros M N K. pose proof (Nat.div_mod n 4 ltac:(lia)). lia. Qed.

Lemma onward_byte l p : (length p mod 4 = 0)%nat -> forall p1 q, (length p1 + length q < 3)%nat ->
  forall v1 v2 v3 v4, perm (fun a => onward l v1 v2 v3 v4 (p ++ p1 ++ a :: q)).
Proof.
  induction p as [p L | a0 a1 a2 a3 b0 b1 b2 b3 c0 c1 c2 c3 d0 d1 d2 d3 p IH] using block_ind;
    intros M p1 q F v1 v2 v3 v4.
  - apply (perm_ext (fun a => xxh_finalize (w32 (joined (v1, v2, v3, v4) + l)) (p ++ p1 ++ a :: q))).
    + intros a _. symmetry. apply onward_few. rewrite !app_length. cbn [length].
      apply mod4_few; [exact M|exact L|lia].
    + apply finalize_byte; assumption.
  - assert (M' : (length p mod 4 = 0)%nat) by (rewrite !quarters in M; exact M).
    exact (IH M' p1 q F _ _ _ _).
Qed.

Lemma xxh32_tail p p1 q : (length p mod 4 = 0)%nat -> (length p1 + length q < 3)%nat ->
  perm (fun a => xxh32 (p ++ p1 ++ a :: q)).
Proof.
  intros M F. set (n := N.of_nat (length p + (length p1 + S (length q)))).
  assert (E : forall x, N.of_nat (length (p ++ p1 ++ x :: q)) = n).
  { intro x. rewrite !app_length. reflexivity. }
  destruct (16 <=? n) eqn:B.
  - apply (perm_ext (fun x => onward (w32 n) (w32 (prime1 + prime2)) prime2 0 (w32 (4294967296 - prime1)) (p ++ p1 ++ x :: q))).
    + intros x _. unfold xxh32. rewrite E, B. reflexivity.
    + apply onward_byte; assumption.
  - apply (perm_ext (fun x => xxh_finalize (w32 (prime5 + w32 n)) (p ++ p1 ++ x :: q))).
    + intros x _. unfold xxh32. rewrite E, B. reflexivity.
    + apply finalize_byte; assumption.
Qed.

(* ---- consequences ---- *)

Lemma perm_inj f x y : perm f -> word x -> word y -> f x = f y -> x = y.
Proof.
  intros [g [F _]] X Y E. rewrite <- (proj2 (F x X)), <- (proj2 (F y Y)), E. reflexivity.
Qed.

Lemma four_bytes s : bytes s -> length s = 4%nat -> exists x, word x /\ s = bytes4 x.
Proof.
  intros B L. destruct s as [|a [|b [|c [|d [|e s]]]]]; try discriminate.
  unfold bytes in B. inversion B as [|? ? A B1]; subst. inversion B1 as [|? ? Bb B2]; subst.
  inversion B2 as [|? ? C B3]; subst. inversion B3 as [|? ? D _]; subst.
  destruct (bytes4_get a b c d A Bb C D) as [W E]. exists (get32 a b c d). split; [exact W|symmetry; exact E].
Qed.

Lemma word_unique p q s t : (length p mod 4 = 0)%nat -> bytes s -> bytes t -> length s = 4%nat -> length t = 4%nat ->
  xxh32 (p ++ s ++ q) = xxh32 (p ++ t ++ q) -> s = t.
Proof.
  intros M S T LS LT E. destruct (four_bytes s S LS) as [x [X ->]]. destruct (four_bytes t T LT) as [y [Y ->]].
  f_equal. exact (perm_inj _ x y (xxh32_word p q M) X Y E).
Qed.

Lemma byte_word a : a < 256 -> word a.
Proof. unfold word. lia. Qed.

Lemma byte_unique p q a b : bytes p -> bytes q -> a < 256 -> b < 256 ->
  xxh32 (p ++ a :: q) = xxh32 (p ++ b :: q) -> a = b.
Proof.
  intros P Q A B E. set (n := (length p - length p mod 4)%nat).
  pose proof (Nat.div_mod (length p) 4 ltac:(lia)) as D.
  pose proof (Nat.mod_upper_bound (length p) 4 ltac:(lia)) as U.
  assert (N : (n mod 4 = 0)%nat).
  { replace n with (length p / 4 * 4)%nat by (unfold n; lia). apply Nat.mod_mul. lia. }
  assert (L0 : length (firstn n p) = n) by (rewrite firstn_length; unfold n; lia).
  assert (L1 : length (skipn n p) = (length p mod 4)%nat) by (rewrite skipn_length; unfold n; lia).
  rewrite <- (firstn_skipn n p) in E, P. rewrite <- !app_assoc in E.
  apply Forall_app in P. destruct P as [P0 P1].
  set (p0 := firstn n p) in *. set (p1 := skipn n p) in *.
  assert (M0 : (length p0 mod 4 = 0)%nat) by (rewrite L0; exact N). clearbody p0 p1. clear N.
  destruct (Nat.lt_ge_cases (length p1 + length q) 3) as [S | S].
  - apply (perm_inj _ a b (xxh32_tail p0 p1 q M0 S)); [apply byte_word; exact A|apply byte_word; exact B|exact E].
  - set (k := (3 - length p1)%nat).
    rewrite <- (firstn_skipn k q) in E, Q. apply Forall_app in Q. destruct Q as [Q0 Q1].
    assert (K : length (firstn k q) = k) by (rewrite firstn_length; unfold k; lia).
    set (q0 := firstn k q) in *. set (q1 := skipn k q) in *.
    assert (R : forall c, p0 ++ p1 ++ c :: q0 ++ q1 = p0 ++ (p1 ++ c :: q0) ++ q1).
    { intro c. rewrite <- (app_assoc p1). reflexivity. }
    rewrite !R in E. apply word_unique in E.
    + apply app_inv_head in E. inversion E. reflexivity.
    + exact M0.
    + apply Forall_app. split; [exact P1|]. constructor; [exact A|exact Q0].
    + apply Forall_app. split; [exact P1|]. constructor; [exact B|exact Q0].
    + rewrite app_length. cbn [length]. rewrite K. unfold k. lia.
    + rewrite app_length. cbn [length]. rewrite K. unfold k. lia.
Qed.

Lemma word_exists p q h : (length p mod 4 = 0)%nat -> word h ->
  exists s, bytes s /\ length s = 4%nat /\ xxh32 (p ++ s ++ q) = h.
Proof.
  intros M H. destruct (xxh32_word p q M) as [g [_ G]]. destruct (G h H) as [W E].
  exists (bytes4 (g h)). split; [apply bytes4_bytes; exact W|]. split; [reflexivity|exact E].
Qed.

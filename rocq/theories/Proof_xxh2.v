(* Every step of the hash can be undone. *)
From Verif Require Import Common Model_insights Model_xxh Spec_xxh Proof_xxh.
From Coq Require Import Lia.
Import List.
Local Open Scope N_scope.

(* ---- permutations of the words ---- *)

Definition perm (f : N -> N) : Prop :=
  exists g, (forall x, word x -> word (f x) /\ g (f x) = x) /\
            (forall y, word y -> word (g y) /\ f (g y) = y).

Lemma perm_ext f f' : (forall x, word x -> f x = f' x) -> perm f -> perm f'.
Proof.
  intros E [g [F G]]. exists g. split.
  - intros x X. rewrite <- E by exact X. apply F. exact X.
  - intros y Y. destruct (G y Y) as [W Q]. split; [exact W|]. rewrite <- E by exact W. exact Q.
Qed.
Lemma perm_comp f f' : perm f -> perm f' -> perm (fun x => f' (f x)).
Proof.
  intros [g [F G]] [g' [F' G']]. exists (fun y => g (g' y)). split.
  - intros x X. destruct (F x X) as [W Q]. destruct (F' _ W) as [W' Q']. split; [exact W'|]. rewrite Q'. exact Q.
  - intros y Y. destruct (G' y Y) as [W Q]. destruct (G _ W) as [W' Q']. split; [exact W'|]. rewrite Q'. exact Q.
Qed.
Lemma perm_id : perm (fun x => x).
Proof. exists (fun x => x). split; auto. Qed.

Lemma w32_word x : word (w32 x).
Proof. apply N.mod_lt. discriminate. Qed.
Lemma w32_id x : word x -> w32 x = x.
Proof. apply N.mod_small. Qed.

Lemma perm_add a : perm (fun x => w32 (x + a)).
Proof.
  exists (fun y => w32 (y + (4294967296 - w32 a))). pose proof (w32_word a) as A. unfold word in A. split.
  - intros x X. split; [apply w32_word|]. unfold w32, word in *.
    rewrite N.add_mod_idemp_l by lia.
    pose proof (N.div_mod a 4294967296 ltac:(lia)) as D.
    replace (x + a + (4294967296 - a mod 4294967296)) with (x + (a / 4294967296 + 1) * 4294967296) by lia.
    rewrite N.mod_add by lia. apply N.mod_small. exact X.
  - intros y Y. split; [apply w32_word|]. unfold w32, word in *.
    rewrite N.add_mod_idemp_l by lia.
    pose proof (N.div_mod a 4294967296 ltac:(lia)) as D.
    replace (y + (4294967296 - a mod 4294967296) + a) with (y + (a / 4294967296 + 1) * 4294967296) by lia.
    rewrite N.mod_add by lia. apply N.mod_small. exact Y.
Qed.

Lemma perm_mul p q : w32 (p * q) = 1 -> perm (fun x => w32 (x * p)).
Proof.
  intro E. exists (fun y => w32 (y * q)). unfold w32, word in *. split.
  - intros x X. split; [apply N.mod_lt; lia|]. rewrite N.mul_mod_idemp_l by lia.
    rewrite <- N.mul_assoc, <- N.mul_mod_idemp_r, E by lia. rewrite N.mul_1_r. apply N.mod_small. exact X.
  - intros y Y. split; [apply N.mod_lt; lia|]. rewrite N.mul_mod_idemp_l by lia.
    rewrite <- N.mul_assoc, (N.mul_comm q p), <- N.mul_mod_idemp_r, E by lia. rewrite N.mul_1_r. apply N.mod_small. exact Y.
Qed.
Lemma perm_mul1 : perm (fun x => w32 (x * prime1)).
Proof. apply (perm_mul prime1 244002641). reflexivity. Qed.
Lemma perm_mul2 : perm (fun x => w32 (x * prime2)).
Proof. apply (perm_mul prime2 3066638151). reflexivity. Qed.
Lemma perm_mul3 : perm (fun x => w32 (x * prime3)).
Proof. apply (perm_mul prime3 2828982549). reflexivity. Qed.
Lemma perm_mul4 : perm (fun x => w32 (x * prime4)).
Proof. apply (perm_mul prime4 2701016015). reflexivity. Qed.
Lemma perm_mul5 : perm (fun x => w32 (x * prime5)).
Proof. apply (perm_mul prime5 2923004241). reflexivity. Qed.

Lemma w32_bit x i : N.testbit (w32 x) i = (i <? 32) && N.testbit x i.
Proof.
  unfold w32. change 4294967296 with (2 ^ 32). destruct (N.ltb_spec i 32) as [L | L]; cbn [andb].
  - apply N.mod_pow2_bits_low. exact L.
  - apply N.mod_pow2_bits_high. exact L.
Qed.
Lemma shl_bit x k i : N.testbit (N.shiftl x k) i = (k <=? i) && N.testbit x (i - k).
Proof.
  destruct (N.leb_spec k i) as [L | L]; cbn [andb].
  - apply N.shiftl_spec_high'. exact L.
  - apply N.shiftl_spec_low. exact L.
Qed.
Lemma word_bit x i : word x -> 32 <= i -> N.testbit x i = false.
Proof.
  intros W I. rewrite <- (w32_id x W), w32_bit. replace (i <? 32) with false by lia. reflexivity.
Qed.
Lemma bits_word x : (forall i, 32 <= i -> N.testbit x i = false) -> word x.
Proof.
  intro H. replace x with (w32 x); [apply w32_word|]. apply N.bits_inj. intro i. rewrite w32_bit.
  destruct (N.ltb_spec i 32) as [L | L]; [reflexivity|]. rewrite (H i L). reflexivity.
Qed.

Lemma rotl_bit x r i : word x -> r < 32 -> i < 32 ->
  N.testbit (rotl32 x r) i = N.testbit x (if i <? r then i + 32 - r else i - r).
Proof.
  intros W R I. unfold rotl32. rewrite N.lor_spec, w32_bit, shl_bit, N.shiftr_spec'.
  replace (i <? 32) with true by lia. cbn [andb].
  destruct (N.ltb_spec i r) as [L | L].
  - replace (r <=? i) with false by lia. cbn [andb orb]. f_equal. lia.
  - replace (r <=? i) with true by lia. cbn [andb].
    rewrite (word_bit x (i + (32 - r)) W) by lia. apply Bool.orb_false_r.
Qed.
Lemma rotl_word x r : word x -> word (rotl32 x r).
Proof.
  intro W. apply bits_word. intros i I. unfold rotl32. rewrite N.lor_spec, w32_bit, N.shiftr_spec'.
  replace (i <? 32) with false by lia. apply word_bit; [exact W|lia].
Qed.
Lemma rotl_back x r : word x -> 0 < r -> r < 32 -> rotl32 (rotl32 x r) (32 - r) = x.
Proof.
  intros W P R. apply N.bits_inj. intro i.
  destruct (N.lt_ge_cases i 32) as [I | I].
  - rewrite rotl_bit by (try apply rotl_word; assumption || lia).
    destruct (N.ltb_spec i (32 - r)) as [L | L].
    + rewrite rotl_bit by (assumption || lia). replace (i + 32 - (32 - r) <? r) with false by lia. f_equal. lia.
    + rewrite rotl_bit by (assumption || lia). replace (i - (32 - r) <? r) with true by lia. f_equal. lia.
  - rewrite !word_bit; try reflexivity; try assumption. apply rotl_word. apply rotl_word. exact W.
Qed.
Lemma perm_rotl r : 0 < r -> r < 32 -> perm (fun x => rotl32 x r).
Proof.
  intros P R. exists (fun y => rotl32 y (32 - r)). split.
  - intros x X. split; [apply rotl_word; exact X|]. apply rotl_back; assumption.
  - intros y Y. split; [apply rotl_word; exact Y|].
    replace r with (32 - (32 - r)) at 2 by lia. apply rotl_back; [exact Y|lia|lia].
Qed.

(* x ^ (x >> k), for more than a quarter of the bits. *)
Definition fold (k x : N) : N := N.lxor x (N.shiftr x k).
Definition unfold_ (k y : N) : N := N.lxor (N.lxor y (N.shiftr y k)) (N.shiftr y (2 * k)).
Lemma shr_word x k : word x -> word (N.shiftr x k).
Proof. intro W. apply bits_word. intros i I. rewrite N.shiftr_spec'. apply word_bit; [exact W|lia]. Qed.
Lemma lxor_word x y : word x -> word y -> word (N.lxor x y).
Proof. intros X Y. apply bits_word. intros i I. rewrite N.lxor_spec, !word_bit by assumption. reflexivity. Qed.
Lemma perm_fold k : 11 <= k -> perm (fold k).
Proof.
  intro K. exists (unfold_ k).
  assert (Z : forall x i, word x -> N.testbit x (i + k + k + k) = false) by (intros x i W; apply word_bit; [exact W|lia]).
  assert (T : forall x i, N.testbit (N.shiftr x (2 * k)) i = N.testbit x (i + k + k)) by (intros x i; rewrite N.shiftr_spec'; f_equal; lia).
  split.
  - intros x X. split; [apply lxor_word; [exact X|apply shr_word; exact X]|].
    apply N.bits_inj. intro i. unfold unfold_, fold. rewrite !N.lxor_spec, T, !N.shiftr_spec', !N.lxor_spec, !N.shiftr_spec'.
    rewrite (Z x i X). destruct (N.testbit x i), (N.testbit x (i + k)), (N.testbit x (i + k + k)); reflexivity.
  - intros y Y. split; [repeat apply lxor_word; try apply shr_word; exact Y|].
    apply N.bits_inj. intro i. unfold unfold_, fold. rewrite !N.lxor_spec, T, !N.shiftr_spec', !N.lxor_spec, T, !N.shiftr_spec'.
    rewrite (Z y i Y). destruct (N.testbit y i), (N.testbit y (i + k)), (N.testbit y (i + k + k)); reflexivity.
Qed.

(* ---- the steps ---- *)

Lemma perm_step1 a : perm (fun h => step1 h a).
Proof.
  exact (perm_comp _ _ (perm_comp _ _ (perm_add (a * prime5)) (perm_rotl 11 ltac:(lia) ltac:(lia))) perm_mul1).
Qed.
Lemma perm_step4 x : perm (fun h => step4 h x).
Proof.
  exact (perm_comp _ _ (perm_comp _ _ (perm_add (x * prime3)) (perm_rotl 17 ltac:(lia) ltac:(lia))) perm_mul4).
Qed.
Lemma perm_round x : perm (fun v => xxh_round v x).
Proof.
  exact (perm_comp _ _ (perm_comp _ _ (perm_add (x * prime2)) (perm_rotl 13 ltac:(lia) ltac:(lia))) perm_mul1).
Qed.

(* A word enters the sum multiplied by a prime. *)
Lemma perm_term h p : perm (fun x => w32 (x * p)) -> perm (fun x => w32 (h + x * p)).
Proof.
  intro P. apply (perm_ext (fun x => w32 (w32 (x * p) + h))).
  - intros x _. unfold w32. rewrite N.add_mod_idemp_l by lia. f_equal. lia.
  - exact (perm_comp _ _ P (perm_add h)).
Qed.
Lemma perm_step1_in h : perm (fun a => step1 h a).
Proof.
  exact (perm_comp _ _ (perm_comp _ _ (perm_term h _ perm_mul5) (perm_rotl 11 ltac:(lia) ltac:(lia))) perm_mul1).
Qed.
Lemma perm_step4_in h : perm (fun x => step4 h x).
Proof.
  exact (perm_comp _ _ (perm_comp _ _ (perm_term h _ perm_mul3) (perm_rotl 17 ltac:(lia) ltac:(lia))) perm_mul4).
Qed.
Lemma perm_round_in v : perm (fun x => xxh_round v x).
Proof.
  exact (perm_comp _ _ (perm_comp _ _ (perm_term v _ perm_mul2) (perm_rotl 13 ltac:(lia) ltac:(lia))) perm_mul1).
Qed.
Lemma perm_avalanche : perm xxh_avalanche.
Proof.
  exact (perm_comp _ _ (perm_comp _ _ (perm_comp _ _ (perm_comp _ _ (perm_fold 15 ltac:(lia)) perm_mul2)
    (perm_fold 13 ltac:(lia))) perm_mul3) (perm_fold 16 ltac:(lia))).
Qed.

(* ---- words and bytes ---- *)

Definition bytes4 (x : N) : list byte := [x mod 256; x / 256 mod 256; x / 65536 mod 256; x / 16777216].
Lemma bytes4_bytes x : word x -> bytes (bytes4 x).
Proof.
  intro W. unfold bytes, bytes4. repeat constructor; try (apply N.mod_lt; lia).
  apply N.div_lt_upper_bound; [lia|exact W].
Qed.
Lemma get_bytes4 x : get32 (x mod 256) (x / 256 mod 256) (x / 65536 mod 256) (x / 16777216) = x.
Proof.
  unfold get32. replace 65536 with (256 * 256) by reflexivity. replace 16777216 with (256 * 256 * 256) by reflexivity.
  rewrite <- !N.div_div by lia.
  pose proof (N.div_mod x 256 ltac:(lia)). pose proof (N.div_mod (x / 256) 256 ltac:(lia)).
  pose proof (N.div_mod (x / 256 / 256) 256 ltac:(lia)). lia.
Qed.
Lemma bytes4_get a b c d : a < 256 -> b < 256 -> c < 256 -> d < 256 ->
  word (get32 a b c d) /\ bytes4 (get32 a b c d) = [a; b; c; d].
Proof.
  intros A B C D. unfold word, bytes4, get32. split; [lia|].
  assert (Q : forall u v, u < 256 -> (u + 256 * v) / 256 = v /\ (u + 256 * v) mod 256 = u).
  { intros u v U. rewrite (N.mul_comm 256 v). rewrite N.div_add, N.mod_add by lia.
    rewrite N.div_small, N.mod_small by exact U. split; reflexivity. }
  replace 65536 with (256 * 256) by reflexivity. replace 16777216 with (256 * 256 * 256) by reflexivity.
  rewrite <- !N.div_div by lia.
  rewrite (proj1 (Q a (b + 256 * (c + 256 * d)) A)), (proj2 (Q a (b + 256 * (c + 256 * d)) A)).
  rewrite (proj1 (Q b (c + 256 * d) B)), (proj2 (Q b (c + 256 * d) B)).
  rewrite (proj1 (Q c d C)), (proj2 (Q c d C)). reflexivity.
Qed.

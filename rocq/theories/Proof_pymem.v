(* Reference counts of the buffers: the invariant. *)
From Verif Require Import Common Model_pymem Spec_pymem.
From Coq Require Import Lia.
Import List.
Local Open Scope nat_scope.

(* ---- lists ---- *)

Definition num (b : bool) : nat := if b then 1 else 0.
Fixpoint count {A : Type} (p : A -> bool) (l : list A) : nat :=
  match l with [] => 0 | a :: l => num (p a) + count p l end.

Lemma count_app {A} (p : A -> bool) l a : count p (l ++ [a]) = count p l + num (p a).
Proof. induction l as [|b l IH]; cbn [app count]; [lia|]. rewrite IH. lia. Qed.
Lemma count_upd {A} (p : A -> bool) l i a b : nth_error l i = Some a ->
  count p (upd i b l) + num (p a) = count p l + num (p b).
Proof.
  revert i. induction l as [|c l IH]; intros [|i] E; cbn [nth_error] in E; try discriminate.
  - injection E as ->. cbn [upd count]. lia.
  - cbn [upd count]. specialize (IH i E). lia.
Qed.
Lemma count_ext {A} (p q : A -> bool) l : (forall a, In a l -> p a = q a) -> count p l = count q l.
Proof.
  induction l as [|a l IH]; intro H; [reflexivity|]. cbn [count]. rewrite (H a (or_introl eq_refl)), IH; [reflexivity|].
  intros b I. apply H. right. exact I.
Qed.
Lemma count_pos {A} (p : A -> bool) l : 0 < count p l -> exists i a, nth_error l i = Some a /\ p a = true.
Proof.
  induction l as [|a l IH]; cbn [count]; [lia|]. intro H. destruct (p a) eqn:E.
  - exists 0, a. auto.
  - cbn [num] in H. destruct (IH H) as [i [b [N P]]]. exists (S i), b. auto.
Qed.
Lemma count_in {A} (p : A -> bool) l i a : nth_error l i = Some a -> p a = true -> 0 < count p l.
Proof.
  revert i. induction l as [|b l IH]; intros [|i] E P; cbn [nth_error] in E; try discriminate; cbn [count].
  - injection E as ->. rewrite P. cbn [num]. lia.
  - specialize (IH i E P). lia.
Qed.

Lemma upd_length {A} i (a : A) l : length (upd i a l) = length l.
Proof. revert i. induction l as [|b l IH]; intros [|i]; cbn [upd length]; auto. Qed.
Lemma upd_same {A} i (a b : A) l : nth_error l i = Some b -> nth_error (upd i a l) i = Some a.
Proof. revert i. induction l as [|c l IH]; intros [|i] E; try discriminate; cbn [upd nth_error]; auto. Qed.
Lemma upd_other {A} i j (a : A) l : j <> i -> nth_error (upd i a l) j = nth_error l j.
Proof.
  revert i j. induction l as [|c l IH]; intros [|i] [|j] N; cbn [upd nth_error]; try reflexivity; try lia.
  apply IH. lia.
Qed.
Lemma upd_inv {A} i j (a b c : A) l : nth_error l i = Some b -> nth_error (upd i a l) j = Some c ->
  (j = i /\ c = a) \/ (j <> i /\ nth_error l j = Some c).
Proof.
  intros E N. destruct (Nat.eq_dec j i) as [-> | D].
  - left. rewrite (upd_same i a b l E) in N. injection N as <-. auto.
  - right. rewrite upd_other in N by exact D. auto.
Qed.
Lemma map_upd {A B} (f : A -> B) i a l : map f (upd i a l) = upd i (f a) (map f l).
Proof. revert i. induction l as [|c l IH]; intros [|i]; cbn [upd map]; auto. f_equal. apply IH. Qed.
Lemma upd_id {A} i (a : A) l : nth_error l i = Some a -> upd i a l = l.
Proof. revert i. induction l as [|c l IH]; intros [|i] E; try discriminate; cbn [upd]; cbn in E; [congruence|]. f_equal. auto. Qed.
Lemma app_inv_nth {A} (l : list A) a j c : nth_error (l ++ [a]) j = Some c ->
  (j = length l /\ c = a) \/ (j < length l /\ nth_error l j = Some c).
Proof.
  intro N. destruct (Nat.lt_ge_cases j (length l)) as [L | L].
  - right. rewrite nth_error_app1 in N by exact L. auto.
  - left. rewrite nth_error_app2 in N by exact L. destruct (j - length l) as [|d] eqn:E.
    + cbn in N. injection N as <-. split; [lia|reflexivity].
    + destruct d; discriminate.
Qed.
Lemma nth_some {A} (l : list A) i a : nth_error l i = Some a -> i < length l.
Proof. intro E. apply nth_error_Some. congruence. Qed.
Lemma nth_mapped {A B} (f : A -> B) l i a : nth_error l i = Some a -> nth_error (map f l) i = Some (f a).
Proof. intro E. rewrite nth_error_map, E. reflexivity. Qed.
Lemma nth_last {A} (l : list A) a : nth_error (l ++ [a]) (length l) = Some a.
Proof. rewrite nth_error_app2, Nat.sub_diag by lia. reflexivity. Qed.

(* ---- the invariant ---- *)

Definition shape (k : block) : nat * nat := (k_owner k, k_len k).
Definition shapes (s : state) := map shape (blocks s).
Definition kinds (s : state) := map o_kind (objects s).

Definition good (sh : list (nat * nat)) (ks : list kind) (k : kind) : Prop :=
  match k with
  | K_store b => exists p, nth_error sh b = Some p
  | K_stream None _ => True
  | K_stream (Some b) pos => exists p, nth_error sh b = Some p /\ pos <= snd p
  | K_slice None _ _ => True
  | K_slice (Some b) off len => exists p, nth_error sh b = Some p /\ off + len <= snd p
  | K_view sl => exists b off len, nth_error ks sl = Some (K_slice b off len)
  end.
Definition block_of (k : kind) : option nat :=
  match k with K_store b => Some b | K_stream b _ => b | K_slice b _ _ => b | K_view _ => None end.
Definition is_block (b : nat) (k : option nat) : bool := match k with Some b' => b' =? b | None => false end.
Definition holds (b : nat) (o : object) : bool := (0 <? o_refs o) && is_block b (block_of (o_kind o)).
Definition slice_of_view (k : kind) : option nat := match k with K_view sl => Some sl | _ => None end.
Definition views (i : nat) (o : object) : bool := o_named o && is_block i (slice_of_view (o_kind o)).
Definition uses (i : nat) (k : block) : bool := (0 <? k_refs k) && (k_owner k =? i).
Definition pend (x : option nat) (b : nat) : nat := num (is_block b x).

(* [x] is a block of which one more pointer exists, [y] a slice object of which one more
   reference exists. *)
Record inv (x y : option nat) (s : state) : Prop := mk_inv {
  i_good : forall i o, nth_error (objects s) i = Some o -> good (shapes s) (kinds s) (o_kind o);
  i_refs : forall i o, nth_error (objects s) i = Some o ->
    o_refs o = num (o_named o) + count (views i) (objects s) + pend y i;
  i_block : forall b k, nth_error (blocks s) b = Some k -> k_refs k = count (holds b) (objects s) + pend x b;
  i_owner : forall i w, nth_error (owners s) i = Some w -> w_exports w = count (uses i) (blocks s);
  i_place : forall b k, nth_error (blocks s) b = Some k -> exists w, nth_error (owners s) (k_owner k) = Some w /\
    (0 < k_refs k -> w_moved w = k_moved k /\ length (w_bytes w) = k_len k);
  i_pend : forall i, y = Some i -> exists b off len, nth_error (kinds s) i = Some (K_slice b off len)
}.

(* Only slices have views. *)
Lemma views_slice x y s i o : inv x y s -> nth_error (objects s) i = Some o ->
  (forall b off len, o_kind o <> K_slice b off len) -> count (views i) (objects s) = 0 /\ pend y i = 0.
Proof.
  intros I N D.
  assert (V : forall b off len, nth_error (kinds s) i <> Some (K_slice b off len)).
  { intros b off len E. unfold kinds in E. rewrite (nth_mapped _ _ _ _ N) in E. injection E as E. exact (D _ _ _ E). }
  split.
  - destruct (count (views i) (objects s)) eqn:C; [reflexivity|].
    destruct (count_pos (views i) (objects s)) as [j [v [J P]]]; [lia|].
    unfold views in P. apply andb_prop in P. destruct P as [_ P].
    pose proof (i_good _ _ _ I j v J) as G. destruct (o_kind v); try discriminate. cbn in P, G.
    apply Nat.eqb_eq in P. subst slice. destruct G as [b [off [len G]]]. destruct (V b off len G).
  - unfold pend, is_block. destruct y as [j|]; [|reflexivity]. destruct (Nat.eqb_spec j i) as [-> | _]; [|reflexivity].
    destruct (i_pend _ _ _ I i eq_refl) as [b [off [len G]]]. destruct (V b off len G).
Qed.

Lemma named_refs x y s i o : inv x y s -> nth_error (objects s) i = Some o -> o_named o = true -> 0 < o_refs o.
Proof. intros I N M. rewrite (i_refs _ _ _ I i o N), M. cbn [num]. lia. Qed.

Lemma held x y s i o b : inv x y s -> nth_error (objects s) i = Some o -> 0 < o_refs o -> block_of (o_kind o) = Some b ->
  exists k, nth_error (blocks s) b = Some k /\ 0 < k_refs k.
Proof.
  intros I N R B. pose proof (i_good _ _ _ I i o N) as G.
  assert (X : exists p, nth_error (shapes s) b = Some p).
  { destruct (o_kind o) as [b'|[b'|] pos|[b'|] off len|sl]; cbn in B; try discriminate; injection B as ->; cbn in G.
    - exact G.
    - destruct G as [p [P _]]. exists p. exact P.
    - destruct G as [p [P _]]. exists p. exact P. }
  destruct X as [p P]. unfold shapes in P. rewrite nth_error_map in P.
  destruct (nth_error (blocks s) b) as [k|] eqn:K; [|discriminate]. exists k. split; [reflexivity|].
  rewrite (i_block _ _ _ I b k K).
  assert (H : holds b o = true).
  { unfold holds. rewrite B. cbn [is_block]. rewrite Nat.eqb_refl. destruct (Nat.ltb_spec 0 (o_refs o)); [reflexivity|lia]. }
  pose proof (count_in (holds b) _ i o N H). lia.
Qed.

Lemma block_owner x y s b k : inv x y s -> nth_error (blocks s) b = Some k -> 0 < k_refs k ->
  exists w, nth_error (owners s) (k_owner k) = Some w /\ w_moved w = k_moved k /\ length (w_bytes w) = k_len k /\ 0 < w_exports w.
Proof.
  intros I K R. destruct (i_place _ _ _ I b k K) as [w [W P]]. destruct (P R) as [M L].
  exists w. split; [exact W|]. split; [exact M|]. split; [exact L|].
  rewrite (i_owner _ _ _ I _ _ W). apply (count_in (uses (k_owner k)) _ b k K).
  unfold uses. rewrite Nat.eqb_refl. destruct (Nat.ltb_spec 0 (k_refs k)); [reflexivity|lia].
Qed.

(* ---- reference counts ---- *)

(* Nothing that the program can see. *)
Definition cell_of (w : owner) : cell := mk_cell (w_bytes w) (w_fixed w) (w_named w).
Definition unseen (s s' : state) : Prop :=
  map cell_of (owners s') = map cell_of (owners s) /\ shapes s' = shapes s /\ objects s' = objects s.

Lemma shapes_block s b k n : nth_error (blocks s) b = Some k ->
  map shape (upd b (mk_block (k_owner k) (k_moved k) (k_len k) n) (blocks s)) = map shape (blocks s).
Proof.
  intro K. rewrite map_upd. apply upd_id. rewrite nth_error_map, K. reflexivity.
Qed.

Lemma hold_ok y s b k : inv None y s -> nth_error (blocks s) b = Some k -> 0 < k_refs k ->
  exists s', hold s b = Ok s' /\ inv (Some b) y s' /\ unseen s s'.
Proof.
  intros I K R. unfold hold. rewrite K. replace (k_refs k =? 0) with false by (symmetry; apply Nat.eqb_neq; lia).
  set (k' := mk_block (k_owner k) (k_moved k) (k_len k) (S (k_refs k))).
  exists (with_block s b k'). split; [reflexivity|].
  assert (SH : shapes (with_block s b k') = shapes s) by exact (shapes_block s b k _ K).
  split.
  - constructor.
    + intros i o N. rewrite SH. exact (i_good _ _ _ I i o N).
    + exact (i_refs _ _ _ I).
    + intros b' k1 N. cbn [with_block blocks objects] in N |- *. destruct (upd_inv _ _ _ _ _ _ K N) as [[-> ->] | [D M]].
      * cbn [k_refs k']. rewrite (i_block _ _ _ I b k K). unfold pend. cbn [is_block]. rewrite Nat.eqb_refl. cbn. lia.
      * rewrite (i_block _ _ _ I b' k1 M). unfold pend. cbn [is_block].
        replace (b =? b') with false by (symmetry; apply Nat.eqb_neq; congruence). reflexivity.
    + intros i w N. cbn [with_block blocks]. pose proof (count_upd (uses i) _ b k k' K) as C.
      rewrite (i_owner _ _ _ I i w N). replace (uses i k') with (uses i k) in C; [lia|].
      unfold uses. cbn [k_refs k_owner k']. replace (0 <? k_refs k) with true by (symmetry; apply Nat.ltb_lt; lia). reflexivity.
    + intros b' k1 N. cbn [with_block blocks owners] in N |- *. destruct (upd_inv _ _ _ _ _ _ K N) as [[-> ->] | [D M]].
      * destruct (i_place _ _ _ I b k K) as [w [W P]]. exists w. split; [exact W|]. intros _. exact (P R).
      * exact (i_place _ _ _ I b' k1 M).
    + exact (i_pend _ _ _ I).
  - split; [reflexivity|]. split; [exact SH|reflexivity].
Qed.

Lemma release_ok y s b : inv (Some b) y s -> (exists p, nth_error (shapes s) b = Some p) ->
  exists s', release s b = Ok s' /\ inv None y s' /\ unseen s s'.
Proof.
  intros I [p P]. unfold shapes in P. rewrite nth_error_map in P.
  destruct (nth_error (blocks s) b) as [k|] eqn:K; [|discriminate].
  pose proof (i_block _ _ _ I b k K) as R. unfold pend in R. cbn [is_block] in R. rewrite Nat.eqb_refl in R. cbn [num] in R.
  unfold release. rewrite K. destruct (k_refs k) as [|n] eqn:KR; [lia|].
  set (k' := mk_block (k_owner k) (k_moved k) (k_len k) n).
  assert (SH : shapes (with_block s b k') = shapes s) by exact (shapes_block s b k _ K).
  assert (BL : forall b' k1, nth_error (upd b k' (blocks s)) b' = Some k1 -> k_refs k1 = count (holds b') (objects s) + pend None b').
  { intros b' k1 N. destruct (upd_inv _ _ _ _ _ _ K N) as [[-> ->] | [D M]].
    - cbn [k_refs k' pend is_block num]. unfold pend. cbn. lia.
    - rewrite (i_block _ _ _ I b' k1 M). unfold pend. cbn [is_block].
      replace (b =? b') with false by (symmetry; apply Nat.eqb_neq; congruence). reflexivity. }
  destruct n as [|n].
  - destruct (block_owner _ _ _ b k I K ltac:(lia)) as [w [W [M [L E]]]].
    cbn [with_block owners]. rewrite W. destruct (w_exports w) as [|e] eqn:WE; [lia|].
    set (w' := mk_owner (w_bytes w) (w_fixed w) (w_named w) e (w_moved w)).
    eexists. split; [reflexivity|]. split.
    + constructor; cbn [with_owner with_block owners blocks objects].
      * intros i o N. pose proof (i_good _ _ _ I i o N) as G. change (shapes _) with (shapes (with_block s b k')). rewrite SH. exact G.
      * exact (i_refs _ _ _ I).
      * exact BL.
      * intros i w1 N. pose proof (count_upd (uses i) _ b k k' K) as C. unfold uses in C at 2 4. cbn [k_refs k_owner k'] in C.
        rewrite KR in C. cbn [Nat.ltb Nat.leb andb num] in C.
        destruct (upd_inv _ _ _ _ _ _ W N) as [[-> ->] | [D N']].
        -- cbn [w_exports w']. pose proof (i_owner _ _ _ I _ _ W). rewrite Nat.eqb_refl in C. cbn [num] in C. lia.
        -- rewrite (i_owner _ _ _ I i w1 N'). replace (k_owner k =? i) with false in C by (symmetry; apply Nat.eqb_neq; congruence).
           cbn [num] in C. lia.
      * intros b' k1 N. destruct (upd_inv _ _ _ _ _ _ K N) as [[-> ->] | [D N']].
        -- exists w'. split; [exact (upd_same _ _ _ _ W)|]. cbn [k_refs k']. lia.
        -- destruct (i_place _ _ _ I b' k1 N') as [w1 [W1 P1]].
           destruct (Nat.eq_dec (k_owner k1) (k_owner k)) as [EQ | NE].
           ++ rewrite EQ in W1 |- *. rewrite W in W1. injection W1 as <-. exists w'. split; [exact (upd_same _ _ _ _ W)|exact P1].
           ++ exists w1. split; [rewrite upd_other by exact NE; exact W1|exact P1].
      * exact (i_pend _ _ _ I).
    + split; [|split; [exact SH|reflexivity]]. cbn [with_owner with_block owners]. rewrite map_upd. apply upd_id.
      rewrite nth_error_map, W. reflexivity.
  - eexists. split; [reflexivity|]. split.
    + constructor; cbn [with_block owners blocks objects].
      * intros i o N. rewrite SH. exact (i_good _ _ _ I i o N).
      * exact (i_refs _ _ _ I).
      * exact BL.
      * intros i w1 N. pose proof (count_upd (uses i) _ b k k' K) as C. unfold uses in C at 2 4. cbn [k_refs k_owner k'] in C.
        rewrite KR in C. rewrite (i_owner _ _ _ I i w1 N). cbn [Nat.ltb Nat.leb andb] in C. lia.
      * intros b' k1 N. destruct (upd_inv _ _ _ _ _ _ K N) as [[-> ->] | [D N']].
        -- destruct (i_place _ _ _ I b k K) as [w [W P1]]. exists w. split; [exact W|]. intros _. apply P1. lia.
        -- exact (i_place _ _ _ I b' k1 N').
      * exact (i_pend _ _ _ I).
    + split; [reflexivity|]. split; [exact SH|reflexivity].
Qed.

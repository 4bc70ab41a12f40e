From Verif Require Import Common Model_fd Spec_fd.
From Coq Require Import ZArith Permutation.
Local Open Scope nat_scope.

(* ---------- lists ---------- *)
Lemma has_in n l : has n l = true <-> In n l.
Proof. unfold has. rewrite existsb_exists. split; [intros (x & H & E); apply Nat.eqb_eq in E; now subst|intro H; exists n; split; [exact H|apply Nat.eqb_refl]]. Qed.
Lemma has_not n l : has n l = false <-> ~ In n l.
Proof. rewrite <- has_in. destruct (has n l); intuition congruence. Qed.
Lemma take_perm n l : In n l -> Permutation l (n :: take n l).
Proof.
  induction l as [|m l IH]; intro H; [destruct H|]. cbn [take]. destruct (Nat.eqb_spec m n) as [E|E]; [subst; reflexivity|].
  destruct H as [H|H]; [congruence|]. rewrite (IH H) at 1. apply perm_swap.
Qed.
Lemma take_in n m l : In m (take n l) -> In m l.
Proof. induction l as [|x l IH]; cbn; [auto|]. destruct (x =? n); cbn; intuition. Qed.
Lemma map_eqb_eq a b : map_eqb a b = true <-> a = b.
Proof.
  destruct a as [a1 a2], b as [b1 b2]. unfold map_eqb. cbn. rewrite andb_true_iff, !Nat.eqb_eq. split; [intros [-> ->]; auto|intro H; inversion H; auto].
Qed.
Lemma has_map_in m l : has_map m l = true <-> In m l.
Proof. unfold has_map. rewrite existsb_exists. split; [intros (x & H & E); apply map_eqb_eq in E; now subst|intro H; exists m; split; [exact H|now apply map_eqb_eq]]. Qed.
Lemma take_map_perm m l : In m l -> Permutation l (m :: take_map m l).
Proof.
  induction l as [|x l IH]; intro H; [destruct H|]. cbn [take_map]. destruct (map_eqb x m) eqn:E; [apply map_eqb_eq in E; subst; reflexivity|].
  destruct H as [H|H]; [subst; rewrite (proj2 (map_eqb_eq m m) eq_refl) in E; discriminate|]. rewrite (IH H) at 1. apply perm_swap.
Qed.

Lemma put_rest {A B} (f : A -> list B) (l : list A) : forall i y, nth_error l i = Some y ->
  exists rest, Permutation (flat_map f l) (f y ++ rest) /\ forall x, Permutation (flat_map f (put l i x)) (f x ++ rest).
Proof.
  induction l as [|z l IH]; intros [|i] y H; cbn in H; try discriminate.
  - injection H as ->. exists (flat_map f l). split; [reflexivity|]. intro x. reflexivity.
  - destruct (IH i y H) as (rest & P & Q). exists (f z ++ rest). cbn [flat_map put]. split; [|intro x].
    + rewrite P. rewrite !app_assoc. apply Permutation_app_tail, Permutation_app_comm.
    + rewrite (Q x). rewrite !app_assoc. apply Permutation_app_tail, Permutation_app_comm.
Qed.
Lemma put_same {A} (l : list A) : forall i y, nth_error l i = Some y -> put l i y = l.
Proof. induction l as [|z l IH]; intros [|i] y H; cbn in *; try discriminate; [congruence|]. now rewrite (IH i y H). Qed.
Lemma put_nth {A} (l : list A) : forall i j x, i <> j -> nth_error (put l i x) j = nth_error l j.
Proof. induction l as [|z l IH]; intros [|i] [|j] x H; cbn; try reflexivity; try lia. apply IH. lia. Qed.
Lemma put_forall {A} (P : A -> Prop) l : forall i x, Forall P l -> P x -> Forall P (put l i x).
Proof. induction l as [|z l IH]; intros [|i] x F H; cbn; inversion F; subst; constructor; auto. Qed.
Lemma at_slot_nth {A} (l : list (option A)) i x : at_slot l i = Some x -> nth_error l i = Some (Some x).
Proof. unfold at_slot. destruct (nth_error l i) as [[y|]|]; congruence. Qed.

(* ---------- the kernel ---------- *)
Lemma acc_perm k hs hs' ms ms' : accounts k hs ms -> Permutation hs hs' -> Permutation ms ms' -> accounts k hs' ms'.
Proof. intros (A & B & C & D & E) P Q. split; [now rewrite <- P|]. split; [exact B|]. split; [now rewrite <- Q|]. auto. Qed.

Lemma acc_other k o hs ms : accounts k hs ms -> accounts (k_other k o) hs ms.
Proof.
  intros (A & B & C & D & E & G). destruct o as [n|n]; cbn [k_other].
  - destruct (has n (k_mine k) || has n (k_others k)) eqn:Eh; [repeat split; auto|]. apply orb_false_iff in Eh. destruct Eh as [H1 H2].
    apply has_not in H1, H2. repeat split; cbn; auto. intros m Hm [Hx|Hx]; [congruence|]. exact (G m Hm Hx).
  - repeat split; cbn; auto. intros m Hm Hx. apply take_in in Hx. exact (G m Hm Hx).
Qed.
Lemma acc_before a k hs ms : accounts k hs ms -> accounts (before a k) hs ms.
Proof. unfold before. revert k. induction (a_before a) as [|o l IH]; intros k H; cbn; [exact H|]. apply IH, acc_other, H. Qed.

Definition proper (fd : Z) : Prop := (-1 <= fd)%Z.
Lemma fds_nat n : fds (Z.of_nat n) = [n].
Proof. unfold fds. destruct (Z.eqb_spec (Z.of_nat n) (-1)); [lia|]. now rewrite Nat2Z.id. Qed.

Lemma acc_open a k hs ms fd k' : sys_open a k = (fd, k') -> accounts k hs ms -> proper fd /\ accounts k' (fds fd ++ hs) ms.
Proof.
  unfold sys_open. intros E H. apply (acc_before a) in H. destruct (a_value a) as [n|]; [|inversion E; subst; split; [unfold proper; lia|exact H]].
  destruct (has n (k_mine (before a k)) || has n (k_others (before a k))) eqn:Eh; [inversion E; subst; split; [unfold proper; lia|exact H]|].
  inversion E; subst. split; [unfold proper; lia|]. apply orb_false_iff in Eh. destruct Eh as [H1 H2]. apply has_not in H1, H2.
  rewrite fds_nat. destruct H as (A & B & C & D & F & G). repeat split; cbn; auto.
  - constructor; assumption.
  - intros m [Hm|Hm]; [congruence|auto].
Qed.

Lemma acc_close n k hs ms : accounts k (n :: hs) ms -> accounts (sys_close (Z.of_nat n) k) hs ms.
Proof.
  intros (A & B & C & D & F & G). unfold sys_close. rewrite Nat2Z.id. destruct (Z.leb_spec 0 (Z.of_nat n)); [|lia]. cbn [andb].
  assert (I : In n (k_mine k)) by (apply (Permutation_in _ (Permutation_sym A)); left; reflexivity).
  rewrite (proj2 (has_in _ _) I). pose proof (take_perm _ _ I) as P.
  assert (N : NoDup (n :: take n (k_mine k))) by (eapply Permutation_NoDup; [exact P|exact B]). inversion N; subst.
  repeat split; cbn; auto.
  - apply (Permutation_cons_inv (a := n)). now rewrite <- P.
  - intros m Hm. apply G. eapply take_in, Hm.
Qed.

Lemma acc_destroy fd k hs ms : proper fd -> accounts k (fds fd ++ hs) ms -> accounts (fd_destroy fd k) hs ms.
Proof.
  unfold proper, fd_destroy, close_fd, fds. intros P H. destruct (Z.eqb_spec fd (-1)) as [E|E]; [exact H|]. cbn [snd].
  rewrite <- (Z2Nat.id fd) by lia. apply acc_close. exact H.
Qed.

Lemma destroy_none k : fd_destroy (-1) k = k.
Proof. reflexivity. Qed.

Lemma fd_set_eq this n k : fd_set this n k = (n, fd_destroy this k).
Proof. unfold fd_set, fd_assign, fd_destroy. destruct (close_fd this k). reflexivity. Qed.

Lemma acc_mmap a size k hs ms r k' : sys_mmap a size k = (r, k') -> accounts k hs ms ->
  match r with Some p => accounts k' hs ((p, size) :: ms) | None => accounts k' hs ms end.
Proof.
  unfold sys_mmap. intros E H. apply (acc_before a) in H.
  destruct (a_value a) as [[|n]|]; try (inversion E; subst; exact H).
  destruct (has (S n) (map fst (k_maps (before a k)))) eqn:Eh; inversion E; subst; [exact H|].
  apply has_not in Eh. destruct H as (A & B & C & D & F & G). repeat split; cbn; auto. constructor; assumption.
Qed.

Lemma acc_munmap p size k hs ms : accounts k hs ((p, size) :: ms) -> accounts (sys_munmap p size k) hs ms.
Proof.
  intros (A & B & C & D & F & G). unfold sys_munmap.
  assert (I : In (p, size) (k_maps k)) by (apply (Permutation_in _ (Permutation_sym C)); left; reflexivity).
  rewrite (proj2 (has_map_in _ _) I). pose proof (take_map_perm _ _ I) as P. repeat split; cbn; auto.
  - apply (Permutation_cons_inv (a := (p, size))). now rewrite <- P.
  - pose proof (Permutation_NoDup (Permutation_map fst P) D) as N. now inversion N.
Qed.

Lemma acc_mremap a p old new k hs ms r k' : sys_mremap a p old new k = (r, k') -> accounts k hs ((p, old) :: ms) ->
  match r with Some q => accounts k' hs ((q, new) :: ms) | None => accounts k' hs ((p, old) :: ms) end.
Proof.
  unfold sys_mremap. intros E H. apply (acc_before a) in H. pose proof H as (A & B & C & D & F & G).
  assert (I : In (p, old) (k_maps (before a k))) by (apply (Permutation_in _ (Permutation_sym C)); left; reflexivity).
  rewrite (proj2 (has_map_in _ _) I) in E. pose proof (take_map_perm _ _ I) as P.
  destruct (a_value a) as [[|n]|]; try (inversion E; subst; exact H).
  destruct (has (S n) (map fst (take_map (p, old) (k_maps (before a k))))) eqn:Eh; inversion E; subst; [exact H|].
  apply has_not in Eh. pose proof (Permutation_NoDup (Permutation_map fst P) D) as N. repeat split; cbn; auto.
  - apply perm_skip. apply (Permutation_cons_inv (a := (p, old))). now rewrite <- P.
  - constructor; [exact Eh|]. now inversion N.
Qed.

Lemma acc_ask a k hs ms r k' : sys_ask a k = (r, k') -> accounts k hs ms -> accounts k' hs ms.
Proof. unfold sys_ask. intros E H. inversion E; subst. apply acc_before, H. Qed.
Lemma acc_mkstemp a name k hs ms fd k' : sys_mkstemp a name k = (fd, k') -> accounts k hs ms -> proper fd /\ accounts k' (fds fd ++ hs) ms.
Proof.
  unfold sys_mkstemp. destruct (sys_open a k) as [fd1 k1] eqn:Eo. intros E H. destruct (acc_open _ _ _ _ _ _ Eo H) as [P (A & B & C & D & F & G)].
  destruct (fd1 =? -1)%Z; inversion E; subst; (split; [exact P|]); repeat split; cbn; auto.
Qed.
Lemma acc_unlink a name k hs ms : accounts k hs ms -> accounts (sys_unlink a name k) hs ms.
Proof. unfold sys_unlink. intro H. apply (acc_before a) in H. destruct H as (A & B & C & D & F & G). destruct (a_value a); repeat split; cbn; auto. Qed.

(* ---------- File_descriptor ---------- *)
Definition slot_ok (x : option Z) : Prop := match x with Some fd => proper fd | None => True end.
Definition fd_inv (s : slots * kernel) : Prop := Forall slot_ok (fst s) /\ accounts (snd s) (flat_map of_slot (fst s)) [].

Lemma slot_at l i fd : Forall slot_ok l -> at_slot l i = Some fd -> proper fd.
Proof. intros F H. apply at_slot_nth in H. apply nth_error_In in H. rewrite Forall_forall in F. exact (F _ H). Qed.

Lemma fd_step_inv s o : fd_inv s -> fd_inv (fd_step s o).
Proof.
  destruct s as [l k]. intros [F A]. cbn [fst snd] in *. destruct o as [|a|i|i j|i|i|o]; cbn [fd_step].
  - split; cbn [fst snd]; [apply Forall_app; split; [exact F|repeat constructor; unfold slot_ok, proper; lia]|].
    rewrite flat_map_app. cbn. now rewrite app_nil_r.
  - destruct (sys_open a k) as [fd k'] eqn:E. destruct (acc_open _ _ _ _ _ _ E A) as [P A']. split; cbn [fst snd].
    + apply Forall_app. split; [exact F|]. repeat constructor. exact P.
    + rewrite flat_map_app. cbn. rewrite app_nil_r. eapply acc_perm; [exact A'|apply Permutation_app_comm|reflexivity].
  - destruct (at_slot l i) as [fd|] eqn:E; [|split; assumption]. cbn [fd_move]. pose proof (slot_at _ _ _ F E) as P. apply at_slot_nth in E.
    destruct (put_rest of_slot l i _ E) as (rest & P1 & P2). split; cbn [fst snd].
    + apply Forall_app. split; [apply put_forall; [exact F|unfold slot_ok, proper; lia]|repeat constructor; exact P].
    + rewrite flat_map_app. cbn [flat_map of_slot]. rewrite app_nil_r.
      eapply acc_perm; [exact A| |reflexivity]. rewrite P1, (P2 (Some (-1)%Z)). cbn. apply Permutation_app_comm.
  - destruct (at_slot l i) as [x|] eqn:Ei; [|split; assumption]. destruct (at_slot l j) as [y|] eqn:Ej; [|split; assumption].
    pose proof (slot_at _ _ _ F Ei) as Px. pose proof (slot_at _ _ _ F Ej) as Py. apply at_slot_nth in Ei, Ej.
    destruct (put_rest of_slot l i _ Ei) as (rest & P1 & P2).
    assert (D : accounts (fd_destroy x k) rest []) by (apply acc_destroy; [exact Px|eapply acc_perm; [exact A|exact P1|reflexivity]]).
    destruct (Nat.eqb_spec i j) as [->|Hn].
    + unfold fd_assign_self. destruct (close_fd x k) as [x' k'] eqn:Ec.
      assert (X : x' = (-1)%Z) by (unfold close_fd in Ec; destruct (Z.eqb_spec x (-1)); inversion Ec; subst; reflexivity).
      assert (K : fd_destroy x k = k') by (unfold fd_destroy; now rewrite Ec). subst.
      split; cbn [fst snd]; [apply put_forall; [exact F|unfold slot_ok, proper; lia]|]. eapply acc_perm; [exact D| |reflexivity]. rewrite (P2 (Some (-1)%Z)). reflexivity.
    + unfold fd_assign. destruct (close_fd x k) as [x' k'] eqn:Ec.
      assert (K : fd_destroy x k = k') by (unfold fd_destroy; now rewrite Ec). subst.
      split; cbn [fst snd]; [apply put_forall; [apply put_forall; [exact F|exact Py]|unfold slot_ok, proper; lia]|].
      assert (Ej' : nth_error (put l i (Some y)) j = Some (Some y)) by (rewrite put_nth by exact Hn; exact Ej).
      destruct (put_rest of_slot _ j _ Ej') as (rest2 & Q1 & Q2).
      eapply acc_perm; [exact D| |reflexivity]. rewrite (Q2 (Some (-1)%Z)). cbn [of_slot]. change (fds (-1) ++ rest2) with rest2.
      apply (Permutation_app_inv_l (of_slot (Some y))). rewrite <- Q1. symmetry. apply P2.
  - destruct (at_slot l i) as [x|] eqn:Ei; [|split; assumption]. pose proof (slot_at _ _ _ F Ei) as Px. apply at_slot_nth in Ei.
    destruct (put_rest of_slot l i _ Ei) as (rest & P1 & P2). rewrite fd_set_eq. split; cbn [fst snd].
    + apply put_forall; [exact F|unfold slot_ok, proper; lia].
    + eapply acc_perm; [apply acc_destroy; [exact Px|eapply acc_perm; [exact A|exact P1|reflexivity]]| |reflexivity]. rewrite (P2 (Some (-1)%Z)). reflexivity.
  - destruct (at_slot l i) as [x|] eqn:Ei; [|split; assumption]. pose proof (slot_at _ _ _ F Ei) as Px. apply at_slot_nth in Ei.
    destruct (put_rest of_slot l i _ Ei) as (rest & P1 & P2). split; cbn [fst snd].
    + apply put_forall; [exact F|exact I].
    + eapply acc_perm; [apply acc_destroy; [exact Px|eapply acc_perm; [exact A|exact P1|reflexivity]]| |reflexivity]. rewrite (P2 None). reflexivity.
  - split; cbn [fst snd]; [exact F|]. apply acc_other, A.
Qed.

Lemma boot_accounts : accounts boot [] [].
Proof. repeat split; cbn; auto; constructor. Qed.
Lemma fd_run_inv h : fd_inv (fd_run h).
Proof.
  unfold fd_run. assert (G : fd_inv ([], boot)) by (split; [constructor|exact boot_accounts]). revert G. generalize (@nil (option Z), boot).
  induction h as [|o h IH]; intros s G; cbn; [exact G|]. apply IH, fd_step_inv, G.
Qed.

(* ---------- the classes ---------- *)
Definition fine (x : option object) : Prop :=
  match x with
  | None | Some (Mapped _ _) => True
  | Some (Stream fd) => proper fd
  | Some (Pipe fd) => (-1 <= fd < 1024)%Z
  | Some (Backed fd data size) => proper fd /\ (size <> 0 -> data <> None) /\ (size = 0 -> data = None)
  end.
Definition outcome (hs : list nat) (ms : list (nat * nat)) (r : res object * kernel) : Prop :=
  match r with
  | (Ok o, k) => fine (Some o) /\ accounts k (held (Some o) ++ hs) (mapped (Some o) ++ ms)
  | (Throw _, k) => accounts k hs ms
  | _ => False
  end.

Lemma new_stream_ok a k hs ms : accounts k hs ms -> outcome hs ms (new_stream a k).
Proof.
  intro H. unfold new_stream. destruct (sys_open a k) as [n k1] eqn:E. destruct (acc_open _ _ _ _ _ _ E H) as [P A]. rewrite fd_set_eq, destroy_none.
  destruct (n =? -1)%Z eqn:En; cbn [outcome]; [apply acc_destroy; assumption|]. split; [exact P|exact A].
Qed.

Lemma new_mapped_ok a b c k hs ms : accounts k hs ms -> outcome hs ms (new_mapped a b c k).
Proof.
  intro H. unfold new_mapped. destruct (sys_open a k) as [n k1] eqn:E. destruct (acc_open _ _ _ _ _ _ E H) as [P A].
  destruct (n =? -1)%Z; cbn [outcome]; [now apply acc_destroy|].
  destruct (sys_ask b k1) as [r k2] eqn:Eb. pose proof (acc_ask _ _ _ _ _ _ Eb A) as A2.
  destruct r as [[|size]|]; cbn [outcome]; try (now apply acc_destroy).
  - split; [exact I|]. cbn. now apply acc_destroy.
  - destruct (sys_mmap c (S size) k2) as [r k3] eqn:Ec. pose proof (acc_mmap _ _ _ _ _ _ _ Ec A2) as A3.
    destruct r as [p|]; cbn [outcome]; [split; [exact I|]; cbn; now apply acc_destroy|now apply acc_destroy].
Qed.

Lemma new_backed_ok name size a b c d k hs ms : accounts k hs ms -> outcome hs ms (new_backed name size a b c d k).
Proof.
  intro H. unfold new_backed. destruct (sys_mkstemp a name k) as [n k1] eqn:E. destruct (acc_mkstemp _ _ _ _ _ _ _ E H) as [P A].
  rewrite fd_set_eq, destroy_none. destruct (n =? -1)%Z; cbn [outcome]; [now apply acc_destroy|].
  destruct (sys_ask b k1) as [r k2] eqn:Eb. pose proof (acc_ask _ _ _ _ _ _ Eb A) as A2.
  destruct r as [x|]; cbn [outcome]; [|now apply acc_destroy]. pose proof (acc_unlink c name _ _ _ A2) as A3.
  destruct (Nat.eqb_spec size 0) as [Hs|Hs]; [cbn; split; [repeat split; [exact P|intro X; congruence]|exact A3]|].
  destruct (sys_mmap d size (sys_unlink c name k2)) as [r k3] eqn:Ec. pose proof (acc_mmap _ _ _ _ _ _ _ Ec A3) as A4.
  destruct r as [p|]; cbn; [split; [repeat split; [exact P|discriminate|intro X; congruence]|exact A4]|now apply acc_destroy].
Qed.

Lemma open_value a k fd k' : sys_open a k = (fd, k') -> low a -> (fd < 1024)%Z.
Proof.
  unfold sys_open, low. intros E L. destruct (a_value a) as [n|]; [|inversion E; lia].
  destruct (_ || _); inversion E; [lia|]. specialize (L n eq_refl). lia.
Qed.

Lemma open_fifo_ok l ready : Forall low l -> forall k hs ms, accounts k hs ms -> outcome hs ms (open_fifo l (-1) ready k).
Proof.
  induction 1 as [|a l La F IH]; intros k hs ms H; cbn [open_fifo]; [exact H|].
  destruct (sys_open a k) as [n k1] eqn:E. destruct (acc_open _ _ _ _ _ _ E H) as [P A]. rewrite fd_set_eq, destroy_none.
  pose proof (open_value _ _ _ _ E La) as L. destruct (Z.eqb_spec n (-1)) as [En|En]; cbn [negb].
  - subst n. apply IH. exact A.
  - unfold wait_for_data. destruct (Z.leb_spec 1024 n); [lia|]. destruct (sys_ask ready k1) as [r k2] eqn:Er.
    pose proof (acc_ask _ _ _ _ _ _ Er A) as A2. destruct r as [[|x]|]; cbn [outcome]; rewrite ?fd_set_eq; cbn [outcome];
      try (rewrite destroy_none; now apply acc_destroy).
    split; [split; [exact P|lia]|exact A2].
Qed.

Lemma resize_ok fd data size new a b k hs ms : fine (Some (Backed fd data size)) ->
  accounts k (fds fd ++ hs) (mapped (Some (Backed fd data size)) ++ ms) ->
  let '(r, x, k') := resize fd data size new a b k in
  r <> UB /\ r <> Fuel /\ fine (Some x) /\ accounts k' (held (Some x) ++ hs) (mapped (Some x) ++ ms) /\ (r <> Ok tt -> x = Backed fd data size).
Proof.
  intros Fi A. unfold resize. destruct (Nat.eqb_spec new size) as [Hn|Hn]; [repeat split; try discriminate; try apply Fi; try apply A|].
  destruct (sys_ask a k) as [r k1] eqn:Ea. pose proof (acc_ask _ _ _ _ _ _ Ea A) as A1.
  destruct r as [x|]; [|split; [discriminate|]; split; [discriminate|]; split; [exact Fi|]; split; [exact A1|reflexivity]].
  destruct Fi as (P & F1 & F2). destruct (Nat.eqb_spec size 0) as [Hs|Hs].
  - specialize (F2 Hs). subst. destruct (sys_mmap b new k1) as [r k2] eqn:Eb. pose proof (acc_mmap _ _ _ _ _ _ _ Eb A1) as A2.
    destruct r as [p|].
    + split; [discriminate|]; split; [discriminate|]. split; [cbn; repeat split; [exact P|discriminate|intro; congruence]|]. split; [exact A2|congruence].
    + split; [discriminate|]; split; [discriminate|]. split; [cbn; repeat split; [exact P|congruence]|]. split; [exact A2|reflexivity].
  - destruct data as [p|]; [|exfalso; exact (F1 Hs eq_refl)]. destruct (Nat.eqb_spec new 0) as [Hz|Hz].
    + split; [discriminate|]; split; [discriminate|]. split; [cbn; repeat split; [exact P|congruence]|]. split; [cbn; apply acc_munmap; exact A1|congruence].
    + destruct (sys_mremap b p size new k1) as [r k2] eqn:Eb. pose proof (acc_mremap _ _ _ _ _ _ _ _ _ Eb A1) as A2.
      destruct r as [q|]; (split; [discriminate|]; split; [discriminate|]).
      * split; [cbn; repeat split; [exact P|discriminate|congruence]|]. split; [exact A2|congruence].
      * split; [cbn; repeat split; [exact P|discriminate|congruence]|]. split; [exact A2|reflexivity].
Qed.

Definition inv (s : state) : Prop :=
  Forall fine (s_objects s) /\ accounts (s_kernel s) (flat_map held (s_objects s)) (flat_map mapped (s_objects s)).

Definition good (p : res unit * state) (l : list (option object)) : Prop :=
  inv (snd p) /\ fst p <> UB /\ fst p <> Fuel /\ (fst p <> Ok tt -> s_objects (snd p) = l).

Lemma made_good l r : Forall fine l -> outcome (flat_map held l) (flat_map mapped l) r -> good (made l r) l.
Proof.
  intros F O. destruct r as [[o|e| |] k]; cbn [outcome made] in *; try contradiction; unfold good, inv; cbn [fst snd s_objects s_kernel].
  - destruct O as [Fi A]. split; [|split; [discriminate|split; [discriminate|congruence]]]. split; [apply Forall_app; auto|].
    rewrite !flat_map_app. cbn [flat_map]. rewrite !app_nil_r. eapply acc_perm; [exact A|apply Permutation_app_comm|apply Permutation_app_comm].
  - split; [split; assumption|]. split; [discriminate|]. split; [discriminate|reflexivity].
Qed.

Lemma put_inv l k i x y hs ms : Forall fine l -> nth_error l i = Some x -> fine y ->
  (forall h m, accounts k (held x ++ h) (mapped x ++ m) -> accounts hs (held y ++ h) (mapped y ++ m)) ->
  accounts k (flat_map held l) (flat_map mapped l) -> ms = put l i y -> Forall fine ms /\ accounts hs (flat_map held ms) (flat_map mapped ms).
Proof.
  intros F E Fy H A ->. destruct (put_rest held l i _ E) as (h & P1 & P2), (put_rest mapped l i _ E) as (m & Q1 & Q2).
  split; [now apply put_forall|]. eapply acc_perm; [apply (H h m); eapply acc_perm; [exact A|exact P1|exact Q1]|symmetry; apply P2|symmetry; apply Q2].
Qed.

Lemma fine_at l i x : Forall fine l -> at_slot l i = Some x -> fine (Some x).
Proof. intros F H. apply at_slot_nth in H. apply nth_error_In in H. rewrite Forall_forall in F. exact (F _ H). Qed.

Lemma step_good s o : inv s -> low_pipes o -> good (step s o) (s_objects s).
Proof.
  destruct s as [l k]. intros [F A] L. cbn [s_objects s_kernel] in *.
  assert (Same : good (Ok tt, mk_state l k) l) by (split; [split; assumption|]; repeat split; try discriminate; congruence).
  destruct o as [a|a1 a2 a3 ready|a b c|name size a b c d|i new a b|i ready|i|i|o]; cbn [step s_objects s_kernel].
  - apply made_good; [exact F|now apply new_stream_ok].
  - apply made_good; [exact F|]. apply open_fifo_ok; [|exact A]. destruct L as (L1 & L2 & L3). auto.
  - apply made_good; [exact F|now apply new_mapped_ok].
  - apply made_good; [exact F|now apply new_backed_ok].
  - destruct (at_slot l i) as [[fd|fd|data size|fd data size]|] eqn:E; try exact Same.
    pose proof (fine_at _ _ _ F E) as Fi. pose proof (at_slot_nth _ _ _ E) as En.
    destruct (put_rest held l i _ En) as (h & P1 & P2), (put_rest mapped l i _ En) as (m & Q1 & Q2).
    assert (A' : accounts k (fds fd ++ h) (mapped (Some (Backed fd data size)) ++ m)) by (eapply acc_perm; [exact A|exact P1|exact Q1]).
    pose proof (resize_ok fd data size new a b k h m Fi A') as R. destruct (resize fd data size new a b k) as [[r x] k'].
    destruct R as (R1 & R2 & R3 & R4 & R5). split; [split; cbn [snd s_objects s_kernel]|].
    + now apply put_forall.
    + eapply acc_perm; [exact R4|symmetry; apply P2|symmetry; apply Q2].
    + cbn [fst snd s_objects]. repeat split; [exact R1|exact R2|]. intro N. rewrite (R5 N). now apply put_same.
  - destruct (at_slot l i) as [[fd|fd|data size|fd data size]|] eqn:E; try exact Same.
    pose proof (fine_at _ _ _ F E) as Fi. cbn in Fi. destruct (fd =? -1)%Z; [split; [split; assumption|]; repeat split; try discriminate; congruence|].
    unfold wait_for_data. destruct (Z.leb_spec 1024 fd); [lia|]. destruct (sys_ask ready k) as [r k'] eqn:Er.
    pose proof (acc_ask _ _ _ _ _ _ Er A) as A2. destruct r as [[|x]|]; (split; [split; assumption|]; repeat split; try discriminate; congruence).
  - destruct (at_slot l i) as [[fd|fd|data size|fd data size]|] eqn:E; try exact Same; unfold close_stream; rewrite fd_set_eq;
      pose proof (fine_at _ _ _ F E) as Fi; (split; [|repeat split; try discriminate; cbn; congruence]);
      (eapply put_inv; [exact F|exact (at_slot_nth _ _ _ E)| | |exact A|reflexivity]).
    + cbn. unfold proper. lia.
    + intros h m Hx. cbn [held mapped app] in *. now apply acc_destroy.
    + cbn. lia.
    + intros h m Hx. cbn [held mapped app] in *. apply acc_destroy; [exact (proj1 Fi)|exact Hx].
  - destruct (at_slot l i) as [x|] eqn:E; [|exact Same]. pose proof (fine_at _ _ _ F E) as Fi.
    split; [|repeat split; try discriminate; cbn; congruence].
    apply (put_inv l k i (Some x) None (destroy x k) (put l i None)); [exact F|exact (at_slot_nth _ _ _ E)|exact I| |exact A|reflexivity]. intros h m Hx.
    destruct x as [fd|fd|data size|fd data size]; cbn [held mapped destroy app] in *.
    + now apply acc_destroy.
    + rewrite fd_set_eq. rewrite destroy_none. apply acc_destroy; [exact (proj1 Fi)|exact Hx].
    + destruct data; [now apply acc_munmap|exact Hx].
    + apply acc_destroy; [exact (proj1 Fi)|]. destruct data; [now apply acc_munmap|exact Hx].
  - split; [split; [exact F|]|repeat split; try discriminate; cbn; congruence]. cbn [snd s_objects s_kernel]. now apply acc_other.
Qed.

Lemma run_inv h : forall s, inv s -> Forall low_pipes h -> exists s', run h s = Ok s' /\ inv s'.
Proof.
  induction h as [|o h IH]; intros s I F; cbn [run]; [eauto|]. inversion F; subst.
  destruct (step_good s o I) as (J & N1 & N2 & _); [assumption|]. destruct (step s o) as [[u|e| |] s']; cbn [fst snd] in *; try congruence; apply IH; assumption.
Qed.
Lemma start_inv : inv start.
Proof. split; [constructor|exact boot_accounts]. Qed.

Lemma run_app h1 : forall h2 s s', run h1 s = Ok s' -> run (h1 ++ h2) s = run h2 s'.
Proof.
  induction h1 as [|o h1 IH]; intros h2 s s' E; cbn [run app] in *; [congruence|].
  destruct (step s o) as [[u|e| |] s1]; try discriminate; apply IH, E.
Qed.

Lemma destroy_all_run n : forall s, n = length (s_objects s) -> inv s ->
  exists s', run (map Destroy (seq 0 n)) s = Ok s' /\ Forall (fun x => x = None) (s_objects s') /\ inv s'.
Proof.
  assert (P : forall {A} (l : list A) i x, length (put l i x) = length l).
  { intros A l. induction l as [|y l IH]; intros [|i] x; cbn; auto. }
  assert (G : forall m s i, i + m = length (s_objects s) -> inv s -> (forall j, j < i -> nth_error (s_objects s) j = Some None) ->
    exists s', run (map Destroy (seq i m)) s = Ok s' /\ Forall (fun x => x = None) (s_objects s') /\ inv s').
  { induction m as [|m IH]; intros s i L J N; cbn [seq map run].
    - exists s. split; [reflexivity|]. split; [|exact J]. apply Forall_forall. intros x Hx. apply In_nth_error in Hx. destruct Hx as (j & Hj).
      assert (j < length (s_objects s)) by (apply nth_error_Some; congruence). rewrite (N j) in Hj by lia. congruence.
    - destruct (step_good s (Destroy i) J I) as (J' & N1 & N2 & _). remember (step s (Destroy i)) as p eqn:Ep. destruct p as [r s1]. cbn [fst snd] in *.
      assert (Q : s_objects s1 = put (s_objects s) i None).
      { cbn [step] in Ep. destruct (at_slot (s_objects s) i) as [x|] eqn:Ex; inversion Ep; subst; [reflexivity|].
        symmetry. apply put_same. unfold at_slot in Ex. destruct (nth_error (s_objects s) i) as [[y|]|] eqn:En; try discriminate; [reflexivity|].
        apply nth_error_None in En. lia. }
      assert (K : exists s', run (map Destroy (seq (S i) m)) s1 = Ok s' /\ Forall (fun x => x = None) (s_objects s') /\ inv s').
      { apply IH; [rewrite Q, P; lia|exact J'|]. intros j Hj. rewrite Q. destruct (Nat.eq_dec j i) as [->|D].
        - clear - L. assert (H : i < length (s_objects s)) by lia. revert H. generalize (s_objects s) i. clear.
          intro l. induction l as [|y l IH]; intros [|j] H; cbn in *; try lia; [reflexivity|]. apply IH. lia.
        - rewrite put_nth by lia. apply N. lia. }
      destruct r; try congruence; exact K. }
  intros s -> J. apply G; [reflexivity|exact J|lia].
Qed.

(* ---------- names of temporary files ---------- *)
Lemma names_before a k : k_names (before a k) = k_names k.
Proof.
  unfold before. revert k. induction (a_before a) as [|o l IH]; intro k; cbn; [reflexivity|]. rewrite IH. destruct o; cbn; [destruct (_ || _)|]; reflexivity.
Qed.
Lemma names_close fd k : k_names (sys_close fd k) = k_names k.
Proof. unfold sys_close. destruct (_ && _); reflexivity. Qed.
Lemma names_destroy fd k : k_names (fd_destroy fd k) = k_names k.
Proof. unfold fd_destroy, close_fd. destruct (fd =? -1)%Z; cbn; [reflexivity|apply names_close]. Qed.
Lemma names_open a k fd k' : sys_open a k = (fd, k') -> k_names k' = k_names k.
Proof. unfold sys_open. rewrite <- (names_before a k). destruct (a_value a); [destruct (_ || _)|]; intro E; inversion E; reflexivity. Qed.
Lemma names_ask a k r k' : sys_ask a k = (r, k') -> k_names k' = k_names k.
Proof. unfold sys_ask. intro E. inversion E. apply names_before. Qed.
Lemma names_mmap a n k r k' : sys_mmap a n k = (r, k') -> k_names k' = k_names k.
Proof. unfold sys_mmap. rewrite <- (names_before a k). destruct (a_value a) as [[|x]|]; [|destruct (has _ _)|]; intro E; inversion E; reflexivity. Qed.
Lemma names_munmap p n k : k_names (sys_munmap p n k) = k_names k.
Proof. unfold sys_munmap. destruct (has_map _ _); reflexivity. Qed.
Lemma names_mremap a p n m k r k' : sys_mremap a p n m k = (r, k') -> k_names k' = k_names k.
Proof.
  unfold sys_mremap. rewrite <- (names_before a k). destruct (has_map _ _); [destruct (a_value a) as [[|x]|]; [|destruct (has _ _)|]|]; intro E; inversion E; reflexivity.
Qed.
Lemma names_kother k o : k_names (k_other k o) = k_names k.
Proof. destruct o; cbn; [destruct (_ || _)|]; reflexivity. Qed.

Lemma names_fifo l fd ready : forall k, k_names (snd (open_fifo l fd ready k)) = k_names k.
Proof.
  revert fd. induction l as [|a l IH]; intros fd k; cbn [open_fifo]; [apply names_destroy|].
  destruct (sys_open a k) as [n k1] eqn:E. pose proof (names_open _ _ _ _ E) as N. rewrite fd_set_eq.
  destruct (negb (n =? -1)%Z); [|rewrite IH, names_destroy; exact N].
  unfold wait_for_data. destruct (1024 <=? n)%Z; [cbn; rewrite names_destroy; exact N|].
  destruct (sys_ask ready (fd_destroy fd k1)) as [r k2] eqn:Er. pose proof (names_ask _ _ _ _ Er) as N2. rewrite names_destroy in N2.
  destruct r as [[|x]|]; rewrite ?fd_set_eq; cbn [snd]; rewrite ?names_destroy; congruence.
Qed.

Lemma names_made l r : k_names (s_kernel (snd (made l r))) = k_names (snd r).
Proof. destruct r as [[| | |] k]; reflexivity. Qed.

Lemma names_backed name size a b c d k : works b -> works c -> ~ In name (k_names k) ->
  k_names (snd (new_backed name size a b c d k)) = k_names k.
Proof.
  intros Wb Wc Hn. unfold new_backed, sys_mkstemp. destruct (sys_open a k) as [n k1] eqn:E. pose proof (names_open _ _ _ _ E) as N.
  destruct (n =? -1)%Z eqn:Ez; rewrite fd_set_eq, destroy_none, Ez; [cbn; rewrite names_destroy; exact N|].
  unfold sys_ask. unfold works in *. destruct (a_value b) as [x|]; [|congruence].
  assert (U : forall k0, k_names k0 = name :: k_names k -> k_names (sys_unlink c name k0) = k_names k).
  { intros k0 H. unfold sys_unlink. destruct (a_value c); [|congruence]. cbn. rewrite names_before, H. cbn. now rewrite Nat.eqb_refl. }
  set (k2 := before b _). assert (N2 : k_names k2 = name :: k_names k) by (unfold k2; rewrite names_before; cbn; congruence).
  specialize (U k2 N2). destruct (size =? 0); [exact U|].
  destruct (sys_mmap d size (sys_unlink c name k2)) as [r k3] eqn:Em. pose proof (names_mmap _ _ _ _ _ Em) as N3.
  destruct r; cbn [snd]; rewrite ?names_destroy; congruence.
Qed.

Lemma step_names s o : prepared o -> k_names (s_kernel s) = [] -> k_names (s_kernel (snd (step s o))) = [].
Proof.
  destruct s as [l k]. intros P N. cbn [s_kernel] in N. destruct o as [a|a1 a2 a3 ready|a b c|name size a b c d|i new a b|i ready|i|i|o]; cbn [step s_objects s_kernel].
  - rewrite names_made. unfold new_stream. destruct (sys_open a k) as [n k1] eqn:E. pose proof (names_open _ _ _ _ E). rewrite fd_set_eq, destroy_none.
    destruct (n =? -1)%Z; cbn; rewrite ?names_destroy; congruence.
  - rewrite names_made. unfold new_pipe. rewrite names_fifo. exact N.
  - rewrite names_made. unfold new_mapped. destruct (sys_open a k) as [n k1] eqn:E. pose proof (names_open _ _ _ _ E).
    destruct (n =? -1)%Z; [cbn; rewrite names_destroy; congruence|].
    destruct (sys_ask b k1) as [r k2] eqn:Eb. pose proof (names_ask _ _ _ _ Eb). destruct r as [[|x]|]; try (cbn; rewrite names_destroy; congruence).
    destruct (sys_mmap c (S x) k2) as [r k3] eqn:Em. pose proof (names_mmap _ _ _ _ _ Em). destruct r; cbn; rewrite names_destroy; congruence.
  - rewrite names_made. destruct P. rewrite names_backed; auto. rewrite N. auto.
  - destruct (at_slot l i) as [[fd|fd|data size|fd data size]|]; try exact N.
    assert (R : k_names (snd (resize fd data size new a b k)) = k_names k).
    { unfold resize. destruct (new =? size); [reflexivity|]. destruct (sys_ask a k) as [r k1] eqn:Ea. pose proof (names_ask _ _ _ _ Ea).
      destruct r as [x|]; [|assumption]. destruct (size =? 0).
      - destruct (sys_mmap b new k1) as [r k2] eqn:Em. pose proof (names_mmap _ _ _ _ _ Em). destruct r; cbn; congruence.
      - destruct data as [q|]; [|assumption]. destruct (new =? 0); [cbn; rewrite names_munmap; assumption|].
        destruct (sys_mremap b q size new k1) as [r k2] eqn:Em. pose proof (names_mremap _ _ _ _ _ _ _ Em). destruct r; cbn; congruence. }
    destruct (resize fd data size new a b k) as [[r x] k']. cbn in *. congruence.
  - destruct (at_slot l i) as [[fd|fd|data size|fd data size]|]; try exact N. destruct (fd =? -1)%Z; [exact N|].
    unfold wait_for_data. destruct (1024 <=? fd)%Z; [exact N|]. destruct (sys_ask ready k) as [r k1] eqn:Ea. pose proof (names_ask _ _ _ _ Ea).
    destruct r as [[|x]|]; cbn; congruence.
  - destruct (at_slot l i) as [[fd|fd|data size|fd data size]|]; try exact N; unfold close_stream; rewrite fd_set_eq; cbn; rewrite names_destroy; exact N.
  - destruct (at_slot l i) as [[fd|fd|data size|fd data size]|]; try exact N; cbn; rewrite ?fd_set_eq, ?names_destroy; try exact N;
      destruct data; rewrite ?names_munmap; exact N.
  - cbn. now rewrite names_kother.
Qed.

Lemma run_names h : forall s s', Forall prepared h -> k_names (s_kernel s) = [] -> run h s = Ok s' -> k_names (s_kernel s') = [].
Proof.
  induction h as [|o h IH]; intros s s' F N E; cbn [run] in E; [congruence|]. inversion F; subst.
  pose proof (step_names s o ltac:(assumption) N) as N1. destruct (step s o) as [[u|e| |] s1]; try discriminate; cbn [snd] in N1; eapply IH; eauto.
Qed.

(* C112: values that differ are counted as different, as far as the hash allows it. *)
From Verif Require Import Common Model_num Model_insights Spec_insights Model_xxh Spec_xxh Proof_xxh Proof_xxh2 Proof_xxh3.
From Verif Require Import Proof_insights6.
From Coq Require Import Lia.
From Coq Require String.
Import String.StringSyntax.
Import List.
Local Open Scope N_scope.

(* The hash of a string is defined, whatever the length of the string, the place of the string
   in memory, the byte order of the machine and the way the code was compiled: no byte outside
   the string is read and no word through a misaligned pointer.  It is always the same. *)
Theorem C112_machine : forall m s, bytes s -> hash32 m s 0 = Ok (xxh32 s).
Proof. exact hash32_ok. Qed.
Print Assumptions C112_machine.

Definition big : machine := {| m_little := false; m_reroll := true; m_check := true; m_address := 4096 |}.
Definition odd_place : machine := {| m_little := true; m_reroll := false; m_check := true; m_address := 4099 |}.

(* The published test vectors. *)
Example C112_case_vectors :
  xxh32 (lit "") = 46947589 /\ xxh32 (lit "a") = 1426945110 /\ xxh32 (lit "abc") = 852579327 /\
  xxh32 (lit "Nobody inspects the spammish repetition") = 3794352943.
Proof. vm_compute. repeat split; reflexivity. Qed.
Example C112_case_machine :
  hash32 big (lit "Nobody inspects the spammish repetition") 0 = Ok 3794352943 /\
  hash32 odd_place (lit "Nobody inspects the spammish repetition") 0 = Ok 3794352943.
Proof. vm_compute. split; reflexivity. Qed.

(* Two values that differ in one byte only never have the same hash. *)
Theorem C112_byte : forall p q a b, bytes p -> bytes q -> a < 256 -> b < 256 -> a <> b ->
  xxh32 (p ++ a :: q) <> xxh32 (p ++ b :: q).
Proof. intros p q a b P Q A B D E. exact (D (byte_unique p q a b P Q A B E)). Qed.
Print Assumptions C112_byte.

Example C112_case_byte : lit "customer-0000017" = lit "customer-000001" ++ [55] /\
  lit "customer-0000018" = lit "customer-000001" ++ [56] /\
  xxh32 (lit "customer-0000017") <> xxh32 (lit "customer-0000018").
Proof. vm_compute. repeat split; try reflexivity. discriminate. Qed.

(* Nor do two values of the same length that differ inside one of their words of four bytes.
   And the four bytes can be chosen so that the hash is any given number, in exactly one way. *)
Theorem C112_word : forall p q h, (length p mod 4 = 0)%nat -> word h ->
  exists s, (bytes s /\ length s = 4%nat /\ xxh32 (p ++ s ++ q) = h) /\
  forall t, bytes t -> length t = 4%nat -> xxh32 (p ++ t ++ q) = h -> t = s.
Proof.
  intros p q h M H. destruct (word_exists p q h M H) as [s [B [L E]]].
  exists s. split; [split; [exact B|split; [exact L|exact E]]|].
  intros t T LT ET. apply (word_unique p q t s M T B LT L). rewrite E. exact ET.
Qed.
Print Assumptions C112_word.

(* Values of four bytes: different values have different hashes. *)
Theorem C112_four : forall l, NoDup l -> (forall s, In s l -> bytes s /\ length s = 4%nat) ->
  NoDup (map xxh32 l).
Proof.
  intros l D H. induction D as [|s l N D IH]; [constructor|]. cbn [map]. constructor.
  - intro I. apply in_map_iff in I. destruct I as [t [E I]].
    destruct (H s (or_introl eq_refl)) as [BS LS]. destruct (H t (or_intror I)) as [BT LT].
    assert (t = s) as ->; [|exact (N I)].
    apply (word_unique [] [] t s); try assumption; [reflexivity|]. cbn [app]. rewrite !app_nil_r. exact E.
  - apply IH. intros t I. apply H. right. exact I.
Qed.
Print Assumptions C112_four.

Example C112_case_four : NoDup (map xxh32 [lit "1998"; lit "1999"; lit "2000"; lit "2001"]).
Proof.
  apply C112_four.
  - repeat constructor; cbn; intuition discriminate.
  - intros s I. cbn in I. repeat (destruct I as [<- | I]; [split; [repeat constructor|reflexivity]|]). destruct I.
Qed.

(* But values of any two shapes can be made that no sketch tells apart ... *)
Theorem C112_confused_refuted : forall p q t, (length p mod 4 = 0)%nat ->
  exists s, bytes s /\ length s = 4%nat /\
  forall version h, hll_add version h (p ++ s ++ q) = hll_add version h t.
Proof.
  intros p q t M.
  assert (W : word (xxh32 t)).
  { unfold xxh32. destruct (if 16 <=? _ then _ else _) as [h r]. destruct (finalize_perm r) as [g [F _]].
    apply F. apply w32_word. }
  destruct (word_exists p q _ M W) as [s [B [L E]]]. exists s. split; [exact B|]. split; [exact L|].
  intros version h. unfold hll_add. rewrite E. reflexivity.
Qed.
Print Assumptions C112_confused_refuted.

(* ... and every text can be given four bytes that make adding it to any sketch undefined if
   the leading zeros are counted with __builtin_clz. *)
Theorem C112_undefined_refuted : forall p q, (length p mod 4 = 0)%nat ->
  exists s, bytes s /\ length s = 4%nat /\ forall h, hll_add Clz_builtin h (p ++ s ++ q) = UB.
Proof.
  intros p q M. destruct (word_exists p q 0 M) as [s [B [L E]]]; [reflexivity|].
  exists s. split; [exact B|]. split; [exact L|]. intro h. unfold hll_add. rewrite E, N.shiftl_0_l. reflexivity.
Qed.
Print Assumptions C112_undefined_refuted.

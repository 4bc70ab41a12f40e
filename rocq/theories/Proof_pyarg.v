(* Proofs for area pyarg. *)
From Coq Require Import String List NArith ZArith Bool Lia.
From Verif Require Import Common Model_pyarg Spec_pyarg.
Import ListNotations.
Local Open Scope Z_scope.
Local Open Scope list_scope.

(* ---- Calls ---- *)
Lemma some_inj {A} (a b : A) : Some a = Some b -> a = b.
Proof. congruence. Qed.
Lemma obind_some {A B} (m : option A) (k : A -> option B) y : obind m k = Some y <-> exists x, m = Some x /\ k x = Some y.
Proof. destruct m; cbn; split; intro H; try (destruct H as (x & E & H)); try discriminate; [eauto|inversion E; subst; auto]. Qed.

Lemma index_nth name : forall names i, NoDup names -> (index name names = Some i <-> nth_error names i = Some name).
Proof.
  induction names as [|n names IH]; intros i Nd; cbn [index]; [split; [discriminate|destruct i; discriminate]|].
  inversion Nd as [|? ? Ni Nd']; subst. destruct (String.eqb_spec name n) as [->|Ne].
  - destruct i as [|i]; cbn; [tauto|]. split; [discriminate|]. intro E. apply nth_error_In in E. contradiction.
  - destruct (index name names) as [k|] eqn:Ix; cbn [option_map].
    + destruct i as [|i]; cbn; [split; [discriminate|congruence]|]. rewrite <- (IH i Nd'). split; intro E; inversion E; subst; auto.
    + destruct i as [|i]; cbn; [split; [discriminate|congruence]|]. rewrite <- (IH i Nd'). split; discriminate.
Qed.
Lemma index_in name : forall names, In name names -> exists i, index name names = Some i.
Proof.
  induction names as [|n names IH]; intros I; [destruct I|]. cbn. destruct (String.eqb_spec name n); [eauto|].
  destruct I as [->|I]; [congruence|]. destruct (IH I) as (i & ->). cbn. eauto.
Qed.
Lemma assoc_in name v : forall kw, NoDup (map fst kw) -> (assoc name kw = Some v <-> In (name, v) kw).
Proof.
  induction kw as [|(n, w) kw IH]; intro Nd; cbn; [split; [discriminate|tauto]|]. inversion Nd as [|? ? Ni Nd']; subst.
  destruct (String.eqb_spec name n) as [->|Ne].
  - split; intro H; [inversion H; auto|]. destruct H as [H|H]; [inversion H; auto|]. exfalso. apply Ni. apply in_map_iff. exists (n, v). auto.
  - rewrite (IH Nd'). split; [auto|]. intros [H|H]; [congruence|auto].
Qed.

Lemma fits_proper names c : fits names c = true <-> proper names c.
Proof.
  unfold fits, proper. rewrite andb_true_iff, Nat.leb_le, forallb_forall. split; intros (L & H); split; auto.
  - intros name v I. specialize (H _ I). cbn [fst] in H. apply existsb_exists in H as (n & In' & E). apply String.eqb_eq in E as <-.
    apply In_nth_error in In' as (j & E). exists (List.length (c_pos c) + j)%nat. split; [|lia].
    rewrite <- (firstn_skipn (List.length (c_pos c)) names). rewrite nth_error_app2; rewrite firstn_length, Nat.min_l by lia; [|lia].
    replace (_ + j - _)%nat with j by lia. exact E.
  - intros (name, v) I. destruct (H _ _ I) as (i & E & Li). apply existsb_exists. exists name. split; [|apply String.eqb_refl].
    rewrite <- (firstn_skipn (List.length (c_pos c)) names) in E. rewrite nth_error_app2 in E by (rewrite firstn_length; lia).
    apply nth_error_In in E. exact E.
Qed.

Lemma given_passed names c name v : NoDup names -> python_call c -> proper names c ->
  (given names c name = Some v <-> passed names c name v).
Proof.
  intros Nd Py (L & Kw). unfold given, passed. destruct (index name names) as [i|] eqn:Ix.
  - pose proof (proj1 (index_nth name names i Nd) Ix) as En. destruct (nth_error (c_pos c) i) as [w|] eqn:Ep.
    + split; intro H.
      * inversion H; subst. left. eauto.
      * destruct H as [(j & Ej & Vj)|H].
        -- apply (index_nth name names j Nd) in Ej. congruence.
        -- destruct (Kw _ _ H) as (j & Ej & Lj). apply (index_nth name names j Nd) in Ej. rewrite Ix in Ej. inversion Ej; subst.
           apply nth_error_None in Lj. congruence.
    + rewrite (assoc_in name v (c_kw c) Py). split; [auto|]. intros [(j & Ej & Vj)|H]; [|auto].
      apply (index_nth name names j Nd) in Ej. congruence.
  - split; [discriminate|]. intros [(j & Ej & Vj)|H].
    + apply (index_nth name names j Nd) in Ej. congruence.
    + destruct (Kw _ _ H) as (j & Ej & Lj). apply (index_nth name names j Nd) in Ej. congruence.
Qed.

(* ---- Values ---- *)
Lemma all_some {A} (cast : pv -> option A) (R : pv -> A -> Prop) : (forall v a, cast v = Some a <-> R v a) ->
  forall l r, c_all cast l = Some r <-> Forall2 R l r.
Proof.
  intro H. induction l as [|v l IH]; intro r; cbn [c_all].
  - split; intro E; [inversion E; constructor|inversion E; reflexivity].
  - rewrite obind_some. split.
    + intros (a & E & K). apply obind_some in K as (t & Et & K). inversion K; subst. constructor; [apply H; auto|apply IH; auto].
    + intro E. inversion E as [|? a ? t Ra Rt]; subst. exists a. split; [apply H; auto|]. apply obind_some. exists t. split; [apply IH; auto|reflexivity].
Qed.
Lemma pairs_some {A B} (ca : pv -> option A) (cb : pv -> option B) (R : pv -> A -> Prop) (S : pv -> B -> Prop) :
  (forall v a, ca v = Some a <-> R v a) -> (forall v b, cb v = Some b <-> S v b) ->
  forall l r, c_pairs ca cb l = Some r <-> Forall2 (fun v t => R (fst v) (fst t) /\ S (snd v) (snd t)) l r.
Proof.
  intros HA HB. induction l as [|(x, y) l IH]; intro r; cbn [c_pairs].
  - split; intro E; [inversion E; constructor|inversion E; reflexivity].
  - rewrite obind_some. split.
    + intros (a & E & K). apply obind_some in K as (b & Eb & K). apply obind_some in K as (t & Et & K). inversion K; subst.
      constructor; [cbn; split; [apply HA|apply HB]; auto|apply IH; auto].
    + intro E. inversion E as [|? (a, b) ? t (Ra & Rb) Rt]; subst. cbn in Ra, Rb. exists a. split; [apply HA; auto|].
      apply obind_some. exists b. split; [apply HB; auto|]. apply obind_some. exists t. split; [apply IH; auto|reflexivity].
Qed.
Lemma opt_some {A} (cast : pv -> option A) (R : pv -> A -> Prop) : (forall v a, cast v = Some a <-> R v a) ->
  forall v o, c_opt cast v = Some o <-> maybe R v o.
Proof.
  intros H v o. assert (D : v = PNone \/ v <> PNone) by (destruct v; auto; right; discriminate). destruct D as [->|N].
  - cbn. split; intro E; [inversion E; reflexivity|]. destruct o; [destruct E; congruence|reflexivity].
  - assert (c_opt cast v = option_map Some (cast v)) as -> by (destruct v; auto; congruence). destruct o as [a|]; cbn.
    + rewrite <- H. destruct (cast v); cbn; split; intro E; try discriminate; [inversion E; auto|destruct E as (_ & E); inversion E; auto|destruct E; discriminate].
    + destruct (cast v); cbn; split; try discriminate; congruence.
Qed.

Lemma as_int_some v z : as_int v = Some z <-> integer v z.
Proof.
  unfold integer, number. split.
  - destruct v; unfold as_int; intro E; try discriminate; apply some_inj in E; subst; eauto 6.
  - intros [[-> | (b & -> & ->)]|(e & -> & ->)]; reflexivity.
Qed.
Lemma size_some v n : c_size v = Some n <-> size v n.
Proof.
  unfold c_size, size. rewrite obind_some. split.
  - intros (z & E & H). apply as_int_some in E. destruct (0 <=? z) eqn:A; [|discriminate]. destruct (z <? 2 ^ 64) eqn:B; [|discriminate].
    cbn [andb] in H. inversion H; subst. apply Z.leb_le in A. apply Z.ltb_lt in B. rewrite Z2N.id by lia. split; auto.
    change (2 ^ 64)%N with (Z.to_N (2 ^ 64)). apply Z2N.inj_lt; lia.
  - intros (E & L). apply as_int_some in E. exists (Z.of_N n). split; auto.
    assert (0 <=? Z.of_N n = true) as -> by (apply Z.leb_le; lia).
    assert (Z.of_N n <? 2 ^ 64 = true) as ->. { apply Z.ltb_lt. change (2 ^ 64) with (Z.of_N (2 ^ 64)). apply N2Z.inj_lt. exact L. }
    cbn [andb]. rewrite N2Z.id. reflexivity.
Qed.
Lemma int_some v z : c_int v = Some z <-> integer v z /\ - 2 ^ 31 <= z < 2 ^ 31.
Proof.
  unfold c_int. rewrite obind_some. split.
  - intros (y & E & H). apply as_int_some in E. destruct (_ && _) eqn:A; [|discriminate]. inversion H; subst.
    apply andb_true_iff in A as (A & B). apply Z.leb_le in A. apply Z.ltb_lt in B. auto.
  - intros (E & A & B). apply as_int_some in E. exists z. split; auto. apply Z.leb_le in A. apply Z.ltb_lt in B. rewrite A, B. reflexivity.
Qed.
Lemma bool_some v b : c_bool v = Some b <-> truth v b.
Proof.
  split.
  - assert (Inj : forall x y : bool, Some x = Some y -> x = y) by congruence.
    destruct v; unfold c_bool; intro E; try discriminate E; apply Inj in E; subst b; try (constructor; fail).
    + destruct (Z.eqb_spec z 0) as [->|]; cbn [negb]; constructor; auto.
    + destruct (N.eqb_spec (d mod 2 ^ 63)%N 0); cbn [negb]; constructor; auto.
    + destruct (Z.eqb_spec days 0) as [->|], (Z.eqb_spec seconds 0) as [->|], (Z.eqb_spec micros 0) as [->|]; cbn [negb andb]; constructor; lia.
  - intro T. destruct T; cbn [c_bool]; auto.
    + apply Z.eqb_neq in H. rewrite H. reflexivity.
    + apply N.eqb_eq in H. rewrite H. reflexivity.
    + apply N.eqb_neq in H. rewrite H. reflexivity.
    + destruct (Z.eqb_spec d 0), (Z.eqb_spec s 0), (Z.eqb_spec us 0); cbn [negb andb]; auto; exfalso; auto.
Qed.

Ltac euclid := Z.to_euclidean_division_equations.
Lemma char_some c bs : utf8_char c = Some bs <-> char_bytes c bs.
Proof.
  split.
  - unfold utf8_char. destruct (N.ltb_spec c 128) as [A|A]; [intro E; inversion E; constructor; auto|].
    destruct (N.ltb_spec c 2048) as [B|B].
    { intro E; inversion E. replace c with (64 * (c / 64) + c mod 64)%N at 1 by (symmetry; apply N.div_mod; lia).
      pose proof (N.mod_lt c 64 ltac:(lia)). pose proof (N.div_mod c 64 ltac:(lia)). constructor; lia. }
    destruct (N.leb_spec 55296 c) as [D|D], (N.ltb_spec c 57344) as [E|E]; cbn [andb]; try discriminate.
    all: destruct (N.ltb_spec c 65536) as [G|G]; try lia.
    all: try (intro Q; inversion Q; subst bs;
      pose proof (N.mod_lt c 64 ltac:(lia)); pose proof (N.mod_lt (c / 64) 64 ltac:(lia));
      assert (S3 : (c = 4096 * (c / 4096) + 64 * (c / 64 mod 64) + c mod 64)%N)
        by (pose proof (N.div_mod c 64 ltac:(lia)); pose proof (N.div_mod (c / 64) 64 ltac:(lia)); rewrite N.div_div in * by lia; change (64 * 64)%N with 4096%N in *; lia);
      rewrite S3 at 1; constructor; lia).
    destruct (N.ltb_spec c 1114112) as [H|H]; [|discriminate]. intro Q; inversion Q; subst bs.
    pose proof (N.mod_lt c 64 ltac:(lia)); pose proof (N.mod_lt (c / 64) 64 ltac:(lia)); pose proof (N.mod_lt (c / 4096) 64 ltac:(lia)).
    assert (S4 : (c = 262144 * (c / 262144) + 4096 * (c / 4096 mod 64) + 64 * (c / 64 mod 64) + c mod 64)%N).
    { pose proof (N.div_mod c 64 ltac:(lia)); pose proof (N.div_mod (c / 64) 64 ltac:(lia)); pose proof (N.div_mod (c / 4096) 64 ltac:(lia)).
      rewrite !N.div_div in * by lia. change (64 * 64)%N with 4096%N in *. change (4096 * 64)%N with 262144%N in *. lia. }
    rewrite S4 at 1. constructor; lia.
  - intro C. destruct C as [c L|a b B R|a b d B D R Ns|a b d e B D E R]; unfold utf8_char.
    + apply N.ltb_lt in L. rewrite L. reflexivity.
    + destruct (N.ltb_spec (64 * a + b) 128); [lia|]. destruct (N.ltb_spec (64 * a + b) 2048); [|lia].
      rewrite (N.add_comm (64 * a)), (N.mul_comm 64). rewrite N.div_add, N.mod_add by lia. rewrite N.div_small, N.mod_small by lia. reflexivity.
    + set (c := (4096 * a + 64 * b + d)%N) in *. assert (M : (c mod 64 = d)%N) by (unfold c; replace (4096 * a + 64 * b + d)%N with (d + (64 * a + b) * 64)%N by lia; rewrite N.mod_add, N.mod_small by lia; auto).
      assert (Q : (c / 64 = 64 * a + b)%N) by (unfold c; replace (4096 * a + 64 * b + d)%N with (d + (64 * a + b) * 64)%N by lia; rewrite N.div_add, N.div_small by lia; lia).
      assert (M2 : (c / 64 mod 64 = b)%N) by (rewrite Q; replace (64 * a + b)%N with (b + a * 64)%N by lia; rewrite N.mod_add, N.mod_small by lia; auto).
      assert (Q2 : (c / 4096 = a)%N) by (change 4096%N with (64 * 64)%N; rewrite <- N.div_div by lia; rewrite Q; replace (64 * a + b)%N with (b + a * 64)%N by lia; rewrite N.div_add, N.div_small by lia; lia).
      rewrite M, M2, Q2. destruct (N.ltb_spec c 128); [lia|]. destruct (N.ltb_spec c 2048); [lia|].
      destruct (N.leb_spec 55296 c), (N.ltb_spec c 57344); cbn [andb]; try lia; destruct (N.ltb_spec c 65536); try lia; reflexivity.
    + set (c := (262144 * a + 4096 * b + 64 * d + e)%N) in *.
      assert (M : (c mod 64 = e)%N) by (unfold c; replace (262144 * a + 4096 * b + 64 * d + e)%N with (e + (4096 * a + 64 * b + d) * 64)%N by lia; rewrite N.mod_add, N.mod_small by lia; auto).
      assert (Q : (c / 64 = 4096 * a + 64 * b + d)%N) by (unfold c; replace (262144 * a + 4096 * b + 64 * d + e)%N with (e + (4096 * a + 64 * b + d) * 64)%N by lia; rewrite N.div_add, N.div_small by lia; lia).
      assert (M2 : (c / 64 mod 64 = d)%N) by (rewrite Q; replace (4096 * a + 64 * b + d)%N with (d + (64 * a + b) * 64)%N by lia; rewrite N.mod_add, N.mod_small by lia; auto).
      assert (Q2 : (c / 4096 = 64 * a + b)%N) by (change 4096%N with (64 * 64)%N; rewrite <- N.div_div by lia; rewrite Q; replace (4096 * a + 64 * b + d)%N with (d + (64 * a + b) * 64)%N by lia; rewrite N.div_add, N.div_small by lia; lia).
      assert (M3 : (c / 4096 mod 64 = b)%N) by (rewrite Q2; replace (64 * a + b)%N with (b + a * 64)%N by lia; rewrite N.mod_add, N.mod_small by lia; auto).
      assert (Q3 : (c / 262144 = a)%N) by (change 262144%N with (4096 * 64)%N; rewrite <- N.div_div by lia; rewrite Q2; replace (64 * a + b)%N with (b + a * 64)%N by lia; rewrite N.div_add, N.div_small by lia; lia).
      rewrite M, M2, M3, Q3. destruct (N.ltb_spec c 128); [lia|]. destruct (N.ltb_spec c 2048); [lia|].
      destruct (N.leb_spec 55296 c), (N.ltb_spec c 57344); cbn [andb]; try lia; destruct (N.ltb_spec c 65536); try lia;
        destruct (N.ltb_spec c 1114112); try lia; reflexivity.
Qed.
Lemma utf8_some : forall cs s, utf8 cs = Some s <-> exists bss, s = List.concat bss /\ Forall2 char_bytes cs bss.
Proof.
  induction cs as [|c cs IH]; intro s; cbn [utf8].
  - split; [intro E; inversion E; exists []; auto|]. intros (bss & -> & F). inversion F. reflexivity.
  - rewrite obind_some. split.
    + intros (b & E & K). apply obind_some in K as (bs & Es & K). inversion K; subst. apply IH in Es as (bss & -> & Fo).
      exists (b :: bss). split; auto. constructor; auto. apply char_some; auto.
    + intros (bss & -> & Fo). inversion Fo as [|? b ? bss' Cb Fb]; subst. exists b. split; [apply char_some; auto|].
      apply obind_some. exists (List.concat bss'). split; [apply IH; eauto|reflexivity].
Qed.
Lemma str_some v s : c_str v = Some s <-> text v s.
Proof.
  split.
  - destruct v; cbn [c_str]; intro E; try discriminate; [|inversion E; constructor]. apply utf8_some in E as (bss & -> & Fo). constructor; auto.
  - intro T. destruct T; cbn [c_str]; [|reflexivity]. apply utf8_some. eauto.
Qed.
Lemma char_bytes_cons c bs : char_bytes c bs -> exists b r, bs = b :: r.
Proof. intro C. destruct C; eauto. Qed.
Lemma character_some v c : c_char v = Some c <-> character v c.
Proof.
  unfold c_char. rewrite obind_some. split.
  - intros (s & E & H). destruct v; cbn [c_str] in E; try discriminate.
    + apply utf8_some in E as (bss & -> & Fo). destruct Fo as [|x b cs bss Cb Fo]; [discriminate|].
      destruct Fo as [|y b' cs bss Cb' Fo].
      * cbn [List.concat] in H. rewrite app_nil_r in H. destruct Cb as [x L|a b B R|a b d B D R Ns|a b d e B D E R]; try discriminate.
        -- inversion H; subst. constructor. lia.
        -- destruct (_ && _) eqn:Q; [|discriminate]. apply andb_true_iff in Q as (Q1 & Q2). apply N.leb_le in Q1. apply N.ltb_lt in Q2. apply some_inj in H. subst c.
           replace ((192 + a - 192) * 64 + (128 + b) mod 64)%N with (64 * a + b)%N.
           2:{ replace (128 + b)%N with (b + 2 * 64)%N by lia. rewrite N.mod_add, N.mod_small by lia. lia. }
           constructor. lia.
      * exfalso. destruct (char_bytes_cons _ _ Cb') as (p & q & ->). destruct Cb as [x L|a b B R|a b d B D R Ns|a b d e B D E R]; cbn [List.concat app] in H; try discriminate.
        destruct (q ++ List.concat bss)%list; [|discriminate].
        destruct (N.leb_spec 192 x); [lia|]. cbn [andb] in H. discriminate.
    + inversion E; subst. destruct s as [|b0 [|b1 [|]]]; try discriminate; [inversion H; constructor|].
      destruct (_ && _) eqn:Q; [|discriminate]. apply andb_true_iff in Q as (Q1 & Q2). apply N.leb_le in Q1. apply N.ltb_lt in Q2. apply some_inj in H. subst c.
      replace b0 with (192 + (b0 - 192))%N at 1 by lia. constructor. lia.
  - intro C. destruct C as [c L|b|a b L].
    + destruct (N.ltb_spec c 128) as [A|A].
      * exists [c]. split; [|reflexivity]. cbn [c_str]. apply utf8_some. exists [[c]]. split; auto. constructor; [constructor; auto|constructor].
      * exists [192 + c / 64; 128 + c mod 64]%N. pose proof (N.div_mod c 64 ltac:(lia)). pose proof (N.mod_lt c 64 ltac:(lia)). split.
        -- cbn [c_str]. apply utf8_some. exists [[192 + c / 64; 128 + c mod 64]%N]. split; auto. constructor; [|constructor]. apply char_some. unfold utf8_char.
           apply N.ltb_ge in A. rewrite A. assert (c <? 2048 = true)%N as -> by (apply N.ltb_lt; lia). reflexivity.
        -- assert (c / 64 < 4)%N by lia. assert (192 <=? 192 + c / 64 = true)%N as -> by (apply N.leb_le; lia). assert (192 + c / 64 <? 196 = true)%N as -> by (apply N.ltb_lt; lia).
           cbn [andb]. f_equal. replace (128 + c mod 64)%N with (c mod 64 + 2 * 64)%N by lia. rewrite N.mod_add, N.mod_mod by lia. lia.
    + exists [b]. split; reflexivity.
    + exists [192 + a; b]%N. split; [reflexivity|]. assert (192 <=? 192 + a = true)%N as -> by (apply N.leb_le; lia). assert (192 + a <? 196 = true)%N as -> by (apply N.ltb_lt; lia).
      cbn [andb]. f_equal. lia.
Qed.

Section Values.
  Context {F : Type} (narrow : N -> F) (float_of : Z -> option F).
  Notation stands := (stands narrow float_of).
  Notation c_float := (c_float F narrow float_of).
  Notation ratio := (ratio narrow float_of).

  Lemma float_some v x : c_float v = Some x <-> ratio v x.
  Proof.
    unfold ratio, number. split.
    - destruct v; cbn; intro E; try discriminate; [right; exists (if b then 1 else 0)|right; exists z|left; exists d; inversion E]; eauto.
    - intros [(d & -> & ->)|(z & [-> | (b & -> & ->)] & E)]; cbn; auto.
  Qed.
  Lemma enum_type v d : c_dtype v = Some d <-> typ v d.
  Proof. unfold typ. split; [destruct v as [| | | | | | | | |[]| | | | | |]; cbn; congruence|intros ->; reflexivity]. Qed.

  Ltac byc L := intros; split; [intro; constructor; apply L; assumption|let S := fresh in intro S; inversion S; subst; apply L; assumption].
  Tactic Notation "byk" ident(E) ident(e) := let S := fresh in intros v x; split; [destruct v as [| | | | | | | | |e| | | | | |]; cbn; intro E; try discriminate|intro S; inversion S; subst; cbn].

  Lemma m_size v x : c_size v = Some x <-> stands v (V_size x).
  Proof. byc size_some. Qed.
  Lemma m_osize v x : c_opt c_size v = Some x <-> stands v (V_osize x).
  Proof. byc (opt_some c_size size size_some). Qed.
  Lemma m_bool v x : c_bool v = Some x <-> stands v (V_bool x).
  Proof. byc bool_some. Qed.
  Lemma m_oratio v x : c_opt c_float v = Some x <-> stands v (V_oratio x).
  Proof. byc (opt_some c_float ratio float_some). Qed.
  Lemma m_str v x : c_str v = Some x <-> stands v (V_str x).
  Proof. byc str_some. Qed.
  Lemma m_ostr v x : c_opt c_str v = Some x <-> stands v (V_ostr x).
  Proof. byc (opt_some c_str text str_some). Qed.
  Lemma m_otype v x : c_opt c_dtype v = Some x <-> stands v (V_otype x).
  Proof. byc (opt_some c_dtype typ enum_type). Qed.
  Lemma m_char v x : c_char v = Some x <-> stands v (V_char x).
  Proof. byc character_some. Qed.
  Lemma m_ochar v x : c_opt c_char v = Some x <-> stands v (V_ochar x).
  Proof. byc (opt_some c_char character character_some). Qed.
  Lemma m_int v x : c_int v = Some x <-> stands v (V_int x).
  Proof.
    split; [intro E; apply int_some in E as (A & B); constructor; auto|intro S; inversion S; subst; apply int_some; auto].
  Qed.
  Lemma m_last : forall v x, c_last v = Some x <-> stands v (V_last x).
  Proof. byk E e; [destruct e; inversion E; constructor|reflexivity]. Qed.
  Lemma m_bad : forall v x, c_bad v = Some x <-> stands v (V_bad x).
  Proof. byk E e; [destruct e; inversion E; constructor|reflexivity]. Qed.
  Lemma m_mfl : forall v x, c_mfl v = Some x <-> stands v (V_mfl x).
  Proof. byk E e; [destruct e; inversion E; constructor|reflexivity]. Qed.
  Lemma m_frame : forall v x, c_frame v = Some x <-> stands v (V_frame x).
  Proof. byk E e; [destruct e; inversion E; constructor|reflexivity]. Qed.
  Lemma m_comp : forall v x, c_comp v = Some x <-> stands v (V_comp x).
  Proof. byk E e; [destruct e; inversion E; constructor|reflexivity]. Qed.
  Lemma m_buffer : forall v x, c_buffer v = Some x <-> stands v (V_buffer x).
  Proof. byk E e; [inversion E; constructor|reflexivity]. Qed.
  Lemma m_client : forall v x, c_client v = Some x <-> stands v (V_client x).
  Proof. byk E e; try reflexivity; inversion E; constructor. Qed.
  Lemma m_oparser : forall v q, c_oparser v = Some q <-> stands v (V_parser q).
  Proof. byk E e; try reflexivity; inversion E; constructor. Qed.
  Lemma store_some v k : c_store v = Some k <-> match k with Some k => v = PStore k | None => v = PNone end.
  Proof. destruct v, k; cbn; split; intro E; congruence. Qed.
  Lemma m_stores v x : c_list c_store v = Some x <-> stands v (V_stores x).
  Proof.
    split; [destruct v; cbn; intro E; try discriminate|intro S; inversion S; subst; cbn].
    - constructor. eapply all_some in E; [exact E|exact store_some].
    - eapply all_some; [exact store_some|assumption].
  Qed.
  Lemma m_strs v x : c_list c_str v = Some x <-> stands v (V_strs x).
  Proof.
    split; [destruct v; cbn; intro E; try discriminate|intro S; inversion S; subst; cbn].
    - constructor. eapply all_some in E; [exact E|exact str_some].
    - eapply all_some; [exact str_some|assumption].
  Qed.
  Lemma m_strset v x : c_set c_str v = Some x <-> stands v (V_strset x).
  Proof.
    split; [destruct v; cbn; intro E; try discriminate|intro S; inversion S; subst; cbn].
    - constructor. eapply all_some in E; [exact E|exact str_some].
    - eapply all_some; [exact str_some|assumption].
  Qed.
  Lemma m_sizes v x : c_list c_size v = Some x <-> stands v (V_sizes x).
  Proof.
    split; [destruct v; cbn; intro E; try discriminate|intro S; inversion S; subst; cbn].
    - constructor. eapply all_some in E; [exact E|exact size_some].
    - eapply all_some; [exact size_some|assumption].
  Qed.
  Lemma m_sizeset v x : c_set c_size v = Some x <-> stands v (V_sizeset x).
  Proof.
    split; [destruct v; cbn; intro E; try discriminate|intro S; inversion S; subst; cbn].
    - constructor. eapply all_some in E; [exact E|exact size_some].
    - eapply all_some; [exact size_some|assumption].
  Qed.
  Lemma m_types v x : c_map c_str c_dtype v = Some x <-> stands v (V_types x).
  Proof.
    split; [destruct v; cbn; intro E; try discriminate|intro S; inversion S; subst; cbn].
    - constructor. eapply pairs_some in E; [exact E|exact str_some|exact enum_type].
    - eapply pairs_some; [exact str_some|exact enum_type|assumption].
  Qed.
  Lemma m_itypes v x : c_map c_size c_dtype v = Some x <-> stands v (V_itypes x).
  Proof.
    split; [destruct v; cbn; intro E; try discriminate|intro S; inversion S; subst; cbn].
    - constructor. eapply pairs_some in E; [exact E|exact size_some|exact enum_type].
    - eapply pairs_some; [exact size_some|exact enum_type|assumption].
  Qed.

  (* ---- Arguments ---- *)
  Section Arg.
    Context (names : list string) (c : call) (Nd : NoDup names) (Py : python_call c) (Pr : proper names c).
    Lemma not_passed name : given names c name = None -> forall v, ~ passed names c name v.
    Proof. intros G v P. apply (given_passed names c name v Nd Py Pr) in P. congruence. Qed.
    Lemma arg_optional {A} (cast : pv -> option A) (V : A -> fval F) name dflt d :
      (forall v x, passed names c name v -> (cast v = Some x <-> stands v (V x))) -> cast dflt = Some d ->
      forall x, arg cast names c name (Some dflt) = Some x <->
        (forall v, passed names c name v -> stands v (V x)) /\ ((forall v, ~ passed names c name v) -> x = d).
    Proof.
      intros M D x. unfold arg. destruct (given names c name) as [v|] eqn:G.
      - pose proof (proj1 (given_passed names c name v Nd Py Pr) G) as P. rewrite (M v x P). split.
        + intro S. split; [|intro N; exfalso; exact (N v P)]. intros w Pw. apply (given_passed names c name w Nd Py Pr) in Pw. congruence.
        + intros (S & _). auto.
      - pose proof (not_passed name G) as N. rewrite D. split.
        + intro E. split; [intros v P; exfalso; exact (N v P)|congruence].
        + intros (_ & E). rewrite (E N). reflexivity.
    Qed.
    Lemma arg_required {A} (cast : pv -> option A) (V : A -> fval F) name :
      (forall v x, passed names c name v -> (cast v = Some x <-> stands v (V x))) ->
      forall x, arg cast names c name None = Some x <->
        (exists v, passed names c name v) /\ (forall v, passed names c name v -> stands v (V x)).
    Proof.
      intros M x. unfold arg. destruct (given names c name) as [v|] eqn:G.
      - pose proof (proj1 (given_passed names c name v Nd Py Pr) G) as P. rewrite (M v x P). split.
        + intro S. split; [eauto|]. intros w Pw. apply (given_passed names c name w Nd Py Pr) in Pw. congruence.
        + intros (_ & S). auto.
      - pose proof (not_passed name G) as N. split; [discriminate|]. intros ((v & P) & _). exfalso. exact (N v P).
    Qed.
  End Arg.
End Values.

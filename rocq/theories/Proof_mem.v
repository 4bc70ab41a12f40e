From Verif Require Import Common Model_strm Model_mem Spec_mem.

Local Open Scope Z_scope.

Lemma as_ssize_mod : forall p n, (p + as_ssize n) mod 2 ^ 64 = (p + Z.of_N n) mod 2 ^ 64.
Proof.
  intros p n. unfold as_ssize. destruct (n <? 2 ^ 63)%N; auto.
  replace (p + (Z.of_N n - 2 ^ 64)) with (p + Z.of_N n + (-1) * 2 ^ 64) by lia. apply Z.mod_add. lia.
Qed.
Lemma as_ssize_mod_neg : forall p n, (p + - as_ssize n) mod 2 ^ 64 = (p - Z.of_N n) mod 2 ^ 64.
Proof.
  intros p n. unfold as_ssize. destruct (n <? 2 ^ 63)%N; [f_equal; lia|].
  replace (p + - (Z.of_N n - 2 ^ 64)) with (p - Z.of_N n + 1 * 2 ^ 64) by lia. apply Z.mod_add. lia.
Qed.
Lemma wrap_up : forall p k, 0 < p <= 2 ^ 63 -> 0 <= k < 2 ^ 64 ->
  (p + k) mod 2 ^ 64 = if p + k <? 2 ^ 64 then p + k else p + k - 2 ^ 64.
Proof.
  intros p k Hp Hk. destruct (p + k <? 2 ^ 64) eqn:Q; [apply Z.mod_small; lia|].
  replace (p + k) with (p + k - 2 ^ 64 + 1 * 2 ^ 64) at 1 by lia. rewrite Z.mod_add by lia. apply Z.mod_small. lia.
Qed.
Lemma wrap_down : forall p k, 0 < p <= 2 ^ 63 -> 0 <= k < 2 ^ 64 ->
  (p - k) mod 2 ^ 64 = if k <=? p then p - k else p - k + 2 ^ 64.
Proof.
  intros p k Hp Hk. destruct (k <=? p) eqn:Q; [apply Z.mod_small; lia|].
  replace (p - k) with (p - k + 2 ^ 64 + (-1) * 2 ^ 64) at 1 by lia. rewrite Z.mod_add by lia. apply Z.mod_small. lia.
Qed.

(* A slice shows the bytes l of the block. *)
Definition shows (base : Z) (block : list byte) (s : slice) (l : list byte) : Prop :=
  base <= sl_beg s /\ sl_beg s <= sl_end s /\ sl_end s <= base + Z.of_nat (length block) /\
  l = firstn (Z.to_nat (sl_end s - sl_beg s)) (skipn (Z.to_nat (sl_beg s - base)) block).

Lemma shows_len : forall base block s l, shows base block s l -> Z.of_nat (length l) = sl_end s - sl_beg s.
Proof. intros base block s l (A & B & C & ->). rewrite firstn_length, skipn_length. lia. Qed.

Lemma skipn_add : forall A (l : list A) a b, skipn a (skipn b l) = skipn (b + a) l.
Proof. intros A l a b. revert l. induction b; intros [|x l]; cbn; auto. apply skipn_nil. Qed.

Lemma range_shows : forall base block s l a b, shows base block s l -> sl_beg s <= a -> a <= b -> b <= sl_end s ->
  shows base block (mk_slice a b) (firstn (Z.to_nat (b - a)) (skipn (Z.to_nat (a - sl_beg s)) l)).
Proof.
  intros base block s l a b (A & B & C & ->) H1 H2 H3. unfold shows. cbn [sl_beg sl_end].
  split; [lia|]. split; [lia|]. split; [lia|].
  rewrite skipn_firstn_comm, skipn_add, firstn_firstn. f_equal; [lia|]. f_equal. lia.
Qed.

Definition agree (base : Z) (block : list byte) (r : res slice) (sp : option (Z * list byte)) : Prop :=
  match r with
  | Ok s => exists l, sp = Some (sl_beg s, l) /\ shows base block s l
  | Throw e => e = Invalid_argument /\ sp = None
  | _ => False
  end.

Lemma range_agree : forall base block s l a b, shows base block s l ->
  agree base block (sl_range s a b)
    (if (sl_beg s <=? a) && (a <=? b) then
       if (Z.to_N (a - sl_beg s) + Z.to_N (b - a) <=? N.of_nat (length l))%N
       then Some (sl_beg s + Z.of_N (Z.to_N (a - sl_beg s)), firstn (N.to_nat (Z.to_N (b - a))) (skipn (N.to_nat (Z.to_N (a - sl_beg s))) l))
       else None
     else None).
Proof.
  intros base block s l a b H. pose proof (shows_len _ _ _ _ H) as L. unfold sl_range.
  destruct (a >? b) eqn:Q1.
  - destruct (sl_beg s <=? a) eqn:Q2; cbn; [|split; auto]. destruct (a <=? b) eqn:Q3; [lia|]. split; auto.
  - destruct ((a <? sl_beg s) || (b >? sl_end s)) eqn:Q2.
    + destruct ((sl_beg s <=? a) && (a <=? b)) eqn:Q3; [|split; auto].
      destruct (Z.to_N (a - sl_beg s) + Z.to_N (b - a) <=? N.of_nat (length l))%N eqn:Q4; [lia|]. split; auto.
    + assert ((sl_beg s <=? a) && (a <=? b) = true) as -> by lia.
      assert ((Z.to_N (a - sl_beg s) + Z.to_N (b - a) <=? N.of_nat (length l))%N = true) as -> by lia.
      exists (firstn (N.to_nat (Z.to_N (b - a))) (skipn (N.to_nat (Z.to_N (a - sl_beg s))) l)). cbn [sl_beg]. split.
      * f_equal. f_equal. lia.
      * replace (N.to_nat (Z.to_N (b - a))) with (Z.to_nat (b - a)) by lia.
        replace (N.to_nat (Z.to_N (a - sl_beg s))) with (Z.to_nat (a - sl_beg s)) by lia. apply range_shows; auto; lia.
Qed.

(* The same answer when no such range exists on either side. *)
Lemma agree_none : forall base block s a b, (b < a \/ a < sl_beg s \/ sl_end s < b) -> agree base block (sl_range s a b) None.
Proof.
  intros base block s a b H. unfold sl_range. destruct (a >? b) eqn:Q1; [split; auto|].
  destruct ((a <? sl_beg s) || (b >? sl_end s)) eqn:Q2; [split; auto|lia].
Qed.

Lemma part_agree : forall base block s l a b i n, shows base block s l -> (i + n <= N.of_nat (length l))%N ->
  a = sl_beg s + Z.of_N i -> b = sl_beg s + Z.of_N (i + n) ->
  agree base block (sl_range s a b) (Some (sl_beg s + Z.of_N i, firstn (N.to_nat n) (skipn (N.to_nat i) l))).
Proof.
  intros base block s l a b i n H L -> ->. pose proof (range_agree base block s l (sl_beg s + Z.of_N i) (sl_beg s + Z.of_N (i + n)) H) as R.
  assert ((sl_beg s <=? sl_beg s + Z.of_N i) && (sl_beg s + Z.of_N i <=? sl_beg s + Z.of_N (i + n)) = true) as Q by lia. rewrite Q in R.
  replace (Z.to_N (sl_beg s + Z.of_N i - sl_beg s)) with i in R by lia.
  replace (Z.to_N (sl_beg s + Z.of_N (i + n) - (sl_beg s + Z.of_N i))) with n in R by lia.
  assert ((i + n <=? N.of_nat (length l))%N = true) as Q' by lia. rewrite Q' in R. exact R.
Qed.

Lemma step_agree : forall base block s l o, 0 < base -> base + Z.of_nat (length block) <= 2 ^ 63 -> shows base block s l -> slop_ok o ->
  agree base block (sl_step s o) (cut (sl_beg s) l o).
Proof.
  intros base block s l o B0 B1 H Ho. pose proof (shows_len _ _ _ _ H) as L. assert (H' := H). destruct H' as (A & B & C & _).
  destruct o as [i|i n|a|a b|n|b|n|a]; cbn [sl_step cut slop_ok] in *; unfold word in *.
  - unfold ptr_add. rewrite as_ssize_mod, wrap_up by lia. destruct (i <=? N.of_nat (length l))%N eqn:Q.
    + assert ((i + (N.of_nat (length l) - i) <=? N.of_nat (length l))%N = true) as -> by lia.
      apply part_agree; auto; try lia. destruct (_ <? _) eqn:W; lia.
    + apply agree_none. destruct (_ <? _) eqn:W; lia.
  - destruct Ho as [Hi Hn]. unfold ptr_add. rewrite !as_ssize_mod, N2Z.inj_mod, Zplus_mod_idemp_r, N2Z.inj_add.
    change (Z.of_N (2 ^ 64)) with (2 ^ 64).
    rewrite wrap_up by lia. rewrite Z.add_assoc.
    destruct (i + n <=? N.of_nat (length l))%N eqn:Q.
    + rewrite Z.mod_small by lia. apply part_agree; auto; try lia. destruct (_ <? _) eqn:W; lia.
    + apply agree_none. destruct (sl_beg s + Z.of_N i <? 2 ^ 64) eqn:W; [|lia].
      destruct (sl_beg s + Z.of_N i + Z.of_N n <? 2 ^ 64) eqn:W2.
      * rewrite Z.mod_small by lia. lia.
      * replace (sl_beg s + Z.of_N i + Z.of_N n) with (sl_beg s + Z.of_N i + Z.of_N n - 2 ^ 64 + 1 * 2 ^ 64) by lia.
        rewrite Z.mod_add by lia. rewrite Z.mod_small by lia. lia.
  - replace (sl_beg s + Z.of_N (N.of_nat (length l))) with (sl_end s) by lia. apply range_agree; auto.
  - apply range_agree; auto.
  - unfold ptr_add. rewrite as_ssize_mod, wrap_up by lia. destruct (0 + n <=? N.of_nat (length l))%N eqn:Q.
    + apply (part_agree base block s l _ _ 0%N n); auto; try lia. destruct (_ <? _) eqn:W; lia.
    + apply agree_none. destruct (_ <? _) eqn:W; lia.
  - apply range_agree; auto.
  - unfold ptr_add. rewrite as_ssize_mod_neg, wrap_down by lia. destruct (n <=? N.of_nat (length l))%N eqn:Q.
    + assert ((N.of_nat (length l) - n + n <=? N.of_nat (length l))%N = true) as -> by lia.
      apply part_agree; auto; try lia. destruct (_ <=? _) eqn:W; lia.
    + apply agree_none. destruct (_ <=? _) eqn:W; lia.
  - replace (sl_beg s + Z.of_N (N.of_nat (length l))) with (sl_end s) by lia. apply range_agree; auto.
Qed.

Lemma run_agree : forall base block ops s l, 0 < base -> base + Z.of_nat (length block) <= 2 ^ 63 -> Forall slop_ok ops ->
  shows base block s l -> agree base block (sl_run s ops) (cuts (sl_beg s) l ops).
Proof.
  intros base block. induction ops as [|o ops IH]; intros s l B0 B1 F H; cbn [sl_run cuts].
  - exists l. auto.
  - inversion F as [|? ? F1 F2]; subst. pose proof (step_agree _ _ _ _ _ B0 B1 H F1) as R. unfold agree in R.
    destruct (sl_step s o) as [s1|e| |]; cbn [bind]; try contradiction.
    + destruct R as (l1 & E & H1). rewrite E. apply IH; auto.
    + destruct R as [-> E]. rewrite E. split; auto.
Qed.

Lemma C51_l : forall base block ops, 0 < base -> base + Z.of_nat (length block) <= 2 ^ 63 -> Forall slop_ok ops ->
  match sl_run (whole base (length block)) ops, cuts base block ops with
  | Ok s, Some (a, l) => sl_beg s = a /\ sl_bytes base block s = Ok l /\ base <= sl_beg s <= sl_end s /\ sl_end s <= base + Z.of_nat (length block)
  | Throw e, None => e = Invalid_argument
  | _, _ => False
  end.
Proof.
  intros base block ops B0 B1 F.
  assert (W : shows base block (whole base (length block)) block).
  { unfold shows, whole. cbn. split; [lia|]. split; [lia|]. split; [lia|]. rewrite Z.sub_diag. cbn. rewrite firstn_all2 by lia. reflexivity. }
  pose proof (run_agree _ _ _ _ _ B0 B1 F W) as R. unfold agree in R. cbn [whole sl_beg] in R.
  destruct (sl_run (whole base (length block)) ops) as [s|e| |]; try contradiction.
  - destruct R as (l & -> & A & B & C & E). split; auto. split; [|lia]. unfold sl_bytes.
    assert ((sl_beg s <? base) || (sl_end s >? base + Z.of_nat (length block)) || (sl_end s <? sl_beg s) = false) as -> by lia. congruence.
  - destruct R as [-> ->]. reflexivity.
Qed.

(* ---------------- Blocks ---------------- *)

Local Close Scope Z_scope.
Local Open Scope nat_scope.

Lemma fill_len : forall n l, length (fill n l) = n.
Proof. intros. unfold fill. rewrite firstn_length, app_length, repeat_length. lia. Qed.

Definition sane_b (b : block) (l : list byte) : Prop :=
  match b with
  | B_heap d | B_hybrid_heap d _ => d = l
  | B_file f | B_hybrid_file f _ => fb_size f <= length (fb_file f) /\ l = firstn (fb_size f) (fb_file f)
  end.

Lemma sane_bytes : forall b l, sane_b b l -> b_bytes b = Ok l.
Proof.
  intros [d|f|d t|f t] l H; cbn in *; try congruence; unfold fb_bytes; destruct H as [A ->];
    (destruct (length (fb_file f) <? fb_size f) eqn:Q; [apply Nat.ltb_lt in Q; lia|reflexivity]).
Qed.

Lemma heap_ok : forall d n fails junk,
  match heap_resize d n fails junk with
  | Ok d' => length d' = n /\ kept d d'
  | Throw _ => True
  | _ => False
  end.
Proof.
  intros d n fails junk. unfold heap_resize. destruct (n =? 0) eqn:Q; [apply Nat.eqb_eq in Q; subst; split; auto; unfold kept; cbn; rewrite Nat.min_0_r; reflexivity|].
  destruct fails; auto.
  assert (L : length (firstn n d ++ fill (n - length d) junk) = n) by (rewrite app_length, firstn_length, fill_len; lia).
  split; auto. unfold kept. cbv zeta. rewrite L. rewrite firstn_app, firstn_length, firstn_firstn.
  replace (Nat.min (length d) n - Nat.min n (length d)) with 0 by lia. cbn. rewrite app_nil_r. f_equal. lia.
Qed.

Lemma fb_ok : forall f n ft mp r f', fb_size f <= length (fb_file f) -> fb_resize f n ft mp = (r, f') ->
  (mp = true -> fb_size f <= n) ->
  fb_size f' <= length (fb_file f') /\
  let l := firstn (fb_size f) (fb_file f) in let l' := firstn (fb_size f') (fb_file f') in
  match r with Ok _ => length l' = n /\ kept l l' | Throw _ => l' = l | _ => False end.
Proof.
  intros f n ft mp r f' S0 H M. unfold fb_resize in H.
  destruct (n =? fb_size f) eqn:Q.
  { apply Nat.eqb_eq in Q. injection H as <- <-. split; auto. cbv zeta. rewrite firstn_length. split; [lia|]. reflexivity. }
  destruct ft. { injection H as <- <-. auto. }
  set (file := firstn n (fb_file f) ++ fill (n - length (fb_file f)) []) in *.
  assert (LF : length file = n) by (unfold file; rewrite app_length, firstn_length, fill_len; lia).
  assert (PF : forall c, c <= n -> c <= length (fb_file f) -> firstn c file = firstn c (fb_file f)).
  { intros c C1 C2. unfold file. rewrite firstn_app, firstn_length, firstn_firstn.
    replace (c - Nat.min n (length (fb_file f))) with 0 by lia. cbn. rewrite app_nil_r. f_equal. lia. }
  destruct (n =? 0) eqn:Q0.
  { apply Nat.eqb_eq in Q0. injection H as <- <-. cbn [fb_size fb_file]. split; [lia|]. cbv zeta. split; [cbn; auto|]. unfold kept. cbn. rewrite Nat.min_0_r. reflexivity. }
  destruct mp.
  - specialize (M eq_refl). injection H as <- <-. cbn [fb_size fb_file]. split; [lia|]. cbv zeta. apply PF; lia.
  - injection H as <- <-. cbn [fb_size fb_file]. split; [lia|]. cbv zeta. rewrite firstn_length, LF. split; [lia|].
    unfold kept. cbv zeta. rewrite !firstn_length, LF, !firstn_firstn.
    replace (Nat.min (Nat.min (Nat.min (fb_size f) (length (fb_file f))) (Nat.min n n)) n) with (Nat.min (fb_size f) n) by lia.
    replace (Nat.min (Nat.min (Nat.min (fb_size f) (length (fb_file f))) (Nat.min n n)) (fb_size f)) with (Nat.min (fb_size f) n) by lia.
    apply PF; lia.
Qed.

Lemma upd_byte_len : forall l i x, length (upd_byte i x l) = length l.
Proof. induction l; intros [|i] x; cbn; auto. Qed.
Lemma upd_byte_nth : forall l i x j, i < length l -> nth j (upd_byte i x l) 0%N = if j =? i then x else nth j l 0%N.
Proof.
  induction l as [|a l IH]; intros [|i] x j L; cbn in L; try lia; destruct j as [|j]; cbn; auto. apply IH. lia.
Qed.
Lemma upd_byte_firstn : forall l i x n, firstn n (upd_byte i x l) = upd_byte i x (firstn n l).
Proof. induction l as [|a l IH]; intros [|i] x [|n]; cbn; auto. f_equal; auto. Qed.

Lemma step_faithful : forall b l o r b1, sane_b b l -> b_step b o = (r, b1) ->
  match o with
  | Bo_write i _ => i < length l
  | Bo_resize n e => (forall th, on_heap b = Some th -> th < length l -> length l <= n) /\ (e_map_fails e = true -> length l <= n)
  end ->
  exists l', sane_b b1 l' /\
  match o with
  | Bo_resize n _ => match r with Ok _ => length l' = n /\ kept l l' | Throw _ => l' = l | _ => False end
  | Bo_write i x => match r with Ok _ => length l' = length l /\ (forall j, nth j l' 0%N = if (j =? i)%nat then x else nth j l 0%N) | _ => False end
  end.
Proof.
  intros b l [n e|i x] r b1 Hs H G; cbn [b_step] in H.
  - destruct G as [G1 G2]. destruct b as [d|f|d t|f t]; cbn [b_resize sane_b on_heap] in *.
    + subst d. pose proof (heap_ok l n (e_alloc_fails e) (e_junk e)) as K. destruct (heap_resize _ _ _ _) as [d'|x| |]; try contradiction; injection H as <- <-; cbn; eauto.
    + destruct Hs as [S0 ->]. destruct (fb_resize f n _ _) as [r0 f'] eqn:E. injection H as <- <-.
      assert (L0 : length (firstn (fb_size f) (fb_file f)) = fb_size f) by (rewrite firstn_length; lia). rewrite L0 in G2.
      destruct (fb_ok _ _ _ _ _ _ S0 E G2) as [S1 K]. exists (firstn (fb_size f') (fb_file f')). cbn. auto.
    + subst d. destruct (t <? length l) eqn:Q.
      * apply Nat.ltb_lt in Q. specialize (G1 t eq_refl Q). unfold fb_make in H. destruct (e_map_fails e); [injection H as <- <-; cbn; eauto|].
        destruct (n <? length l) eqn:Q2; [apply Nat.ltb_lt in Q2; lia|]. injection H as <- <-. cbn [fb_file fb_size sane_b].
        assert (LL : length (l ++ skipn (length l) (fill n [])) = n) by (rewrite app_length, skipn_length, fill_len; lia).
        exists (l ++ skipn (length l) (fill n [])). split; [split; [lia|rewrite firstn_all2 by lia; reflexivity]|].
        split; [exact LL|]. unfold kept. cbv zeta. rewrite LL. rewrite firstn_app.
        replace (Nat.min (length l) n - length l) with 0 by lia. cbn. apply app_nil_r.
      * pose proof (heap_ok l n (e_alloc_fails e) (e_junk e)) as K. destruct (heap_resize _ _ _ _) as [d'|x| |]; try contradiction; injection H as <- <-; cbn; eauto.
    + destruct Hs as [S0 ->]. destruct (fb_resize f n _ _) as [r0 f'] eqn:E. injection H as <- <-.
      assert (L0 : length (firstn (fb_size f) (fb_file f)) = fb_size f) by (rewrite firstn_length; lia). rewrite L0 in G2.
      destruct (fb_ok _ _ _ _ _ _ S0 E G2) as [S1 K]. exists (firstn (fb_size f') (fb_file f')). cbn. auto.
  - unfold b_write in H. rewrite (sane_bytes _ _ Hs) in H. assert (Q : (i <? length l) = true) by (apply Nat.ltb_lt; auto). rewrite Q in H.
    injection H as <- <-. exists (upd_byte i x l). split.
    + destruct b as [d|f|d t|f t]; cbn in *; try congruence; destruct Hs as [A ->]; rewrite upd_byte_len, upd_byte_firstn; auto.
    + split; [apply upd_byte_len|]. intros j. apply upd_byte_nth; auto.
Qed.

Lemma run_faithful : forall ops b l, sane_b b l -> gentle b ops -> faithful l ops (b_run b ops).
Proof.
  induction ops as [|o ops IH]; intros b l Hs G; cbn [b_run faithful]; auto. destruct G as [G1 G2].
  destruct (b_step b o) as [r b1] eqn:E. cbn [snd] in G2. specialize (G1 l (sane_bytes _ _ Hs)).
  destruct (step_faithful _ _ _ _ _ Hs E G1) as (l' & S1 & K). rewrite (sane_bytes _ _ S1).
  destruct o as [n e|i x]; destruct r; try contradiction.
  - destruct K as [K1 K2]. split; [exact K1|]. split; [exact K2|]. apply IH; auto.
  - split; [exact K|]. apply IH; auto.
  - destruct K as [K1 K2]. split; [exact K1|]. split; [exact K2|]. apply IH; auto.
Qed.

Lemma allocate_sane : forall a n e b, b_allocate a n e = Ok b -> exists l, sane_b b l /\ length l = n.
Proof.
  intros a n e b H. pose proof (heap_ok [] n (e_alloc_fails e) (e_junk e)) as K. destruct a as [|t]; cbn [b_allocate] in H.
  - destruct (heap_resize _ _ _ _) as [d| | |]; cbn in H; try discriminate. injection H as <-. exists d. split; [reflexivity|apply K].
  - destruct (t <? n).
    + unfold fb_make in H. destruct (e_map_fails e); cbn in H; try discriminate. injection H as <-. exists (fill n []). cbn.
      rewrite fill_len. split; [split; [lia|]|auto]. rewrite firstn_all2; auto. rewrite fill_len. lia.
    + destruct (heap_resize _ _ _ _) as [d| | |]; cbn in H; try discriminate. injection H as <-. exists d. split; [reflexivity|apply K].
Qed.

Lemma C52_faithful_l : forall a n e b l ops, b_allocate a n e = Ok b -> b_bytes b = Ok l -> gentle b ops ->
  length l = n /\ faithful l ops (b_run b ops).
Proof.
  intros a n e b l ops H B G. destruct (allocate_sane _ _ _ _ H) as (l' & S0 & L). rewrite (sane_bytes _ _ S0) in B. injection B as <-.
  split; auto. apply run_faithful; auto.
Qed.

(* Growing is always gentle. *)
Definition grows_op (b : block) (o : bop) : Prop :=
  forall l, b_bytes b = Ok l -> match o with Bo_write i _ => i < length l | Bo_resize n _ => length l <= n end.
Fixpoint grows (b : block) (ops : list bop) : Prop :=
  match ops with [] => True | o :: t => grows_op b o /\ grows (snd (b_step b o)) t end.
Lemma grows_gentle : forall ops b, grows b ops -> gentle b ops.
Proof.
  induction ops as [|o ops IH]; intros b H; cbn; auto. destruct H as [H1 H2]. split; auto. intros l E. specialize (H1 l E). destruct o; auto.
Qed.

Lemma C52_copy_l : forall bytes a n e b, resize_block (inr bytes) a n e = Ok b ->
  exists l, b_bytes b = Ok l /\ length l = n /\ kept bytes l.
Proof.
  intros bytes a n e b H. cbn [resize_block] in H. destruct (b_allocate a n e) as [nb| | |] eqn:E; cbn [bind] in H; try discriminate.
  destruct (allocate_sane _ _ _ _ E) as (l & S0 & L). rewrite (sane_bytes _ _ S0) in H. cbn [bind] in H.
  set (c := Nat.min n (length bytes)) in *. destruct (length l <? c) eqn:Q; [discriminate|]. apply Nat.ltb_ge in Q.
  assert (LC : length (firstn c bytes ++ skipn c l) = n) by (rewrite app_length, firstn_length, skipn_length; lia).
  assert (KC : kept bytes (firstn c bytes ++ skipn c l)).
  { unfold kept. cbv zeta. rewrite LC. rewrite firstn_app, firstn_length, firstn_firstn.
    replace (Nat.min (length bytes) n - Nat.min c (length bytes)) with 0 by lia. cbn. rewrite app_nil_r. f_equal. lia. }
  exists (firstn c bytes ++ skipn c l). split; [|auto].
  destruct nb as [d|f|d t|f t]; injection H as <-; cbn; auto; cbn in S0; destruct S0 as [A ->]; unfold fb_bytes; cbn [fb_file fb_size];
    rewrite firstn_length in L; rewrite app_length, LC, skipn_length;
    (destruct (_ <? _) eqn:Q2; [apply Nat.ltb_lt in Q2; lia|]);
    rewrite firstn_app, LC; replace (fb_size f - n) with 0 by lia; rewrite firstn_O, app_nil_r, firstn_all2 by lia; reflexivity.
Qed.

Lemma C52_copy_defined_l : forall bytes a n e, resize_block (inr bytes) a n e <> UB /\ resize_block (inr bytes) a n e <> Fuel.
Proof.
  intros bytes a n e. cbn [resize_block].
  assert (N : b_allocate a n e <> UB /\ b_allocate a n e <> Fuel).
  { pose proof (heap_ok [] n (e_alloc_fails e) (e_junk e)) as K. destruct a as [|t]; cbn [b_allocate]; [|destruct (t <? n); [unfold fb_make; destruct (e_map_fails e); cbn; split; discriminate|]];
      destruct (heap_resize _ _ _ _); cbn; try contradiction; split; discriminate. }
  destruct (b_allocate a n e) as [nb| | |] eqn:E; cbn [bind]; try (split; discriminate); try (destruct N; congruence).
  destruct (allocate_sane _ _ _ _ E) as (l & S0 & L). rewrite (sane_bytes _ _ S0). cbn [bind].
  destruct (length l <? Nat.min n (length bytes)) eqn:Q; [apply Nat.ltb_lt in Q; lia|]. split; discriminate.
Qed.

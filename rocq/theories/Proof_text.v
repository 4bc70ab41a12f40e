From Coq Require Import Permutation.
From Verif Require Import Common Model_rec Spec_rec Proof_rec_props Proof_rec_bom Model_inst Spec_inst Proof_inst Proof_inst_filters Proof_inst_shuffle
  Proof_inst_core Proof_inst_props Model_par Spec_par Proof_par Proof_par_props Model_text Spec_text.

(* ---------------- what a reader delivers is determined ---------------- *)

Lemma yields_unique {A} (M : machine A) s xs e : yields M s xs e -> forall xs' e', yields M s xs' e' -> xs = xs' /\ e = e'.
Proof.
  intro H. induction H as [s Hs|s e s' He E|s x s' xs e E Hy IH]; intros xs' e' H'.
  - destruct (stuck_step _ _ _ Hs) as (s1 & E1 & _). pose proof (yields_read _ _ _ _ H') as HR.
    destruct xs' as [|y ys].
    + destruct HR as (s2 & E2 & _). rewrite E1 in E2. split; [reflexivity|]. destruct e' as [[]|x| |]; cbn in E2; congruence.
    + destruct HR as (s2 & E2 & _). rewrite E1 in E2. discriminate.
  - pose proof (yields_read _ _ _ _ H') as HR. destruct xs' as [|y ys].
    + destruct HR as (s2 & E2 & _). rewrite E in E2. split; [reflexivity|].
      destruct e as [[]|x| |]; [destruct (He tt eq_refl)|..]; destruct e' as [[]|x'| |]; cbn in E2; congruence.
    + destruct HR as (s2 & E2 & _). rewrite E in E2. destruct e as [[]|x| |]; [destruct (He tt eq_refl)|..]; discriminate.
  - pose proof (yields_read _ _ _ _ H') as HR. destruct xs' as [|y ys].
    + destruct HR as (s2 & E2 & _). rewrite E in E2. destruct e' as [[]|x'| |]; discriminate.
    + destruct HR as (s2 & E2 & H2). rewrite E in E2. injection E2 as <- <-. destruct (IH _ _ H2) as [-> ->]. auto.
Qed.

Lemma yields_peeks {A} (M : machine A) xs n : forall s, yields M s xs (Ok tt) -> yields M (snd (run M s (repeat Peek n))) xs (Ok tt).
Proof.
  induction n as [|n IH]; intros s H; [exact H|]. cbn [repeat run].
  pose proof (yields_peek _ _ _ _ H) as HP.
  assert (exists r s', b_peek M s = (r, s') /\ yields M s' xs (Ok tt)) as (r & s' & E & H').
  { destruct xs as [|x xs]; destruct HP as (s' & E & HP); eauto. }
  rewrite E. specialize (IH s' H'). destruct (run M s' (repeat Peek n)). exact IH.
Qed.

Lemma pad_warn_same {A} size (M : machine A) : batch_reader size last_pad_warn M = batch_reader size last_none M.
Proof. reflexivity. Qed.

Lemma batches_from {A} (M : machine A) size last xs i bs e :
  0 < size -> yields M i xs (Ok tt) -> yields (batch_reader size last M) (None, (0, i)) bs e ->
  batches_of size (effective last) 0 xs bs /\ e = Ok tt.
Proof.
  intros Hs Hi HB.
  assert (G : forall l, l <> last_pad_warn -> yields (batch_reader size l M) (None, (0, i)) bs e ->
    batches_of size l 0 xs bs /\ e = Ok tt).
  { clear last HB. intros l Hl HB. destruct (batches_of_total size l Hs (S (length xs)) 0 xs (le_n _)) as (bs' & Hb).
    pose proof (batch_ok M size l Hs 0 xs bs' Hl Hb i Hi) as HY.
    destruct (yields_unique _ _ _ _ HB _ _ HY) as [-> ->]. auto. }
  destruct last; (apply G; [discriminate|exact HB]).
Qed.

(* ---------------- the pipeline ---------------- *)

Lemma fed_batches {rng} (seeded : rng) draw shuf size_max p ds iss M src src_end :
  Forall2 store_instances ds iss -> make_instance_reader seeded draw shuf size_max p ds = Ok M ->
  (forall r, p_ratio p = Some r -> float_ratio r) ->
  (forall w g, 0 < w -> fst (draw w g) < w) -> (forall l g, Permutation (fst (shuf l g)) l) ->
  length (concat iss) < size_max -> 0 < p_batch p -> fed_by M (p_batch p) (p_last p) src src_end ->
  forall ep, src_end ep = None /\ exists ys zs, selected p (concat iss) ys /\ ordered p ys zs /\
    batches_of (p_batch p) (effective (p_last p)) 0 zs (src ep).
Proof.
  intros HF HM Hr Hd Hp Hm Hb Hfed ep. destruct (Hfed ep) as (st & Hst & HR). apply yields_iff in HR.
  assert (exists ys zs, selected p (concat iss) ys /\ ordered p ys zs /\ fst st = 0 /\ yields M (snd st) zs (Ok tt))
    as (ys & zs & H1 & H2 & H3 & H4).
  { destruct Hst as [n|e s n].
    - destruct (reader_ok_init seeded draw shuf size_max p ds iss M HF HM Hr Hd Hp Hm) as (ys & zs & H1 & H2 & H3).
      exists ys, zs. split; [exact H1|]. split; [exact H2|]. split; [reflexivity|]. cbn [snd]. apply yields_peeks, yields_iff. exact H3.
    - destruct (reader_ok seeded draw shuf size_max p ds iss M s HF HM Hr Hd Hp Hm) as (ys & zs & H1 & H2 & H3).
      exists ys, zs. split; [exact H1|]. split; [exact H2|]. split; [reflexivity|]. cbn [snd]. apply yields_peeks, yields_iff. exact H3. }
  destruct st as [k i]. cbn in H3, H4. subst k.
  destruct (batches_from M _ _ zs i (src ep) _ Hb H4 HR) as [HB E].
  split; [destruct (src_end ep); [discriminate|reflexivity]|]. eauto.
Qed.

Lemma delivered_examples {E} (es : list E) n : delivered (map O_example es ++ repeat O_end n) = es.
Proof. induction es as [|e es IH]; cbn; [induction n; auto|]. now rewrite IH. Qed.

Lemma pipeline {rng} (seeded : rng) draw shuf size_max p ds iss M src src_end
  {E} (decode : batch instance -> dres E) bytes cores np pr prefetch reads s :
  Forall2 store_instances ds iss -> make_instance_reader seeded draw shuf size_max p ds = Ok M ->
  (forall r, p_ratio p = Some r -> float_ratio r) ->
  (forall w g, 0 < w -> fst (draw w g) < w) -> (forall l g, Permutation (fst (shuf l g)) l) ->
  length (concat iss) < size_max -> 0 < p_batch p -> fed_by M (p_batch p) (p_last p) src src_end ->
  graph_params cores np pr = (prefetch, reads) -> 1 <= cores ->
  reachable decode bytes src src_end prefetch reads s -> In O_end (log s) ->
  exists ys zs bs n, selected p (concat iss) ys /\ ordered p ys zs /\
    batches_of (p_batch p) (effective (p_last p)) 0 zs bs /\ bs = src (epoch s) /\
    Forall (decodable decode) bs /\
    log s = map O_example (sequential decode bs) ++ repeat O_end (S n) /\ delivered (log s) = sequential decode bs.
Proof.
  intros HF HM Hr Hd Hp Hm Hb Hfed HG HC HR HE.
  destruct (fed_batches seeded draw shuf size_max p ds iss M src src_end HF HM Hr Hd Hp Hm Hb Hfed (epoch s))
    as (_ & ys & zs & H1 & H2 & H3).
  edestruct @end_ok as ((n & H4) & H5 & _); eauto.
  exists ys, zs, (src (epoch s)), n. rewrite H4, delivered_examples. auto 10.
Qed.

(* ---------------- every call ---------------- *)

Lemma log_cases {E} (l : list (@out E)) :
  In O_end l \/ (exists x, In (O_error x) l) \/ length l = length (delivered l).
Proof.
  induction l as [|[e| |x] l IH]; [right; right; reflexivity|..].
  - destruct IH as [IH|[[x IH]|IH]]; [left; right; exact IH|right; left; exists x; right; exact IH|].
    right. right. cbn. now rewrite IH.
  - left. left. reflexivity.
  - right. left. exists x. left. reflexivity.
Qed.

Lemma enough_calls {B E} (decode : B -> dres E) bytes src src_end cores np pr prefetch reads s :
  graph_params cores np pr = (prefetch, reads) -> 1 <= cores ->
  reachable decode bytes src src_end prefetch reads s ->
  Forall (decodable decode) (src (epoch s)) -> src_end (epoch s) = None ->
  length (sequential decode (src (epoch s))) < length (log s) -> In O_end (log s).
Proof.
  intros HG HC HR HD HE HL. destruct (log_cases (log s)) as [H|[[x H]|H]]; [exact H|exfalso..].
  - edestruct @error_ok as (_ & [Hs|(b & Hb & Hx)]); eauto; [congruence|].
    rewrite Forall_forall in HD. exact (HD b Hb x Hx).
  - edestruct @order_ok as (rest & Hr); eauto. rewrite <- Hr, app_length in HL. lia.
Qed.

Lemma sequential_len {B E} (decode : B -> dres E) bs : length (sequential decode bs) <= length bs.
Proof. induction bs as [|b bs IH]; [apply le_n|]. cbn. destruct (decode b); cbn; lia. Qed.

Lemma concat_nonempty {A} (ls : list (list A)) : Forall (fun l => l <> []) ls -> length ls <= length (concat ls).
Proof. induction 1 as [|l ls Hl HF IH]; [apply le_n|]. cbn. rewrite app_length. destruct l; [congruence|cbn; lia]. Qed.

Lemma batches_len {A} size last k (xs : list A) bs : 0 < size -> batches_of size last k xs bs -> length bs <= length xs.
Proof.
  intros Hs H. destruct (batches_meaning _ _ _ _ _ Hs H) as ((rest & E & _) & _ & HN & _).
  rewrite <- E, app_length. pose proof (concat_nonempty (map ba_instances bs)) as HL. rewrite map_length in HL.
  rewrite Forall_map in HL. specialize (HL HN). lia.
Qed.

Lemma run_read {A} (M : machine A) s r s1 ops : b_read M s = (r, s1) -> fst (run M s (Read :: ops)) = r :: fst (run M s1 ops).
Proof. intro H. cbn [run]. rewrite H. destruct (run M s1 ops). reflexivity. Qed.
Lemma run_peek {A} (M : machine A) s r s1 ops : b_peek M s = (r, s1) -> fst (run M s (Peek :: ops)) = r :: fst (run M s1 ops).
Proof. intro H. cbn [run]. rewrite H. destruct (run M s1 ops). reflexivity. Qed.

Lemma replay_ends {E} (l0 : list (@out E)) n : forall ops,
  ~ In UB (fst (run (replay l0) (None, repeat O_end n) ops)) -> Forall (fun o => o <> Reset) ops ->
  fst (run (replay l0) (None, repeat O_end n) ops) = answers [] (Ok tt) ops.
Proof.
  induction n as [|n IH]; intros [|o ops] HU HF; try reflexivity; inversion HF as [|? ? Ho HF']; subst.
  - exfalso. apply HU. destruct o; [..|congruence].
    + rewrite (run_read (replay l0) (None, repeat O_end 0) UB (None, []) ops eq_refl). left. reflexivity.
    + rewrite (run_peek (replay l0) (None, repeat O_end 0) UB (None, []) ops eq_refl). left. reflexivity.
  - destruct o; [..|congruence].
    + rewrite (run_read (replay l0) (None, repeat O_end (S n)) (Ok None) (None, repeat O_end n) ops eq_refl) in *. cbn [answers]. rewrite IH; auto.
      intro HI. apply HU. right. exact HI.
    + rewrite (run_peek (replay l0) (None, repeat O_end (S n)) (Ok None) (None, repeat O_end n) ops eq_refl) in *. cbn [answers]. rewrite IH; auto.
      intro HI. apply HU. right. exact HI.
Qed.

Lemma replay_answers {E} (l0 : list (@out E)) n : forall ops es (pk : option E),
  ~ In UB (fst (run (replay l0) (pk, map O_example es ++ repeat O_end n) ops)) -> Forall (fun o => o <> Reset) ops ->
  fst (run (replay l0) (pk, map O_example es ++ repeat O_end n) ops)
  = answers (match pk with Some x => x :: es | None => es end) (Ok tt) ops.
Proof.
  induction ops as [|o ops IH]; intros es pk HU HF; [reflexivity|]. inversion HF as [|? ? Ho HF']; subst.
  destruct pk as [x|]; [|destruct es as [|e es]].
  - destruct o; [..|congruence].
    + rewrite (run_read (replay l0) (Some x, map O_example es ++ repeat O_end n) (Ok (Some x)) (None, map O_example es ++ repeat O_end n) ops eq_refl) in *.
      cbn [answers]. rewrite IH; auto. intro HI. apply HU. right. exact HI.
    + rewrite (run_peek (replay l0) (Some x, map O_example es ++ repeat O_end n) (Ok (Some x)) (Some x, map O_example es ++ repeat O_end n) ops eq_refl) in *.
      cbn [answers]. rewrite IH; auto. intro HI. apply HU. right. exact HI.
  - apply (replay_ends l0 n (o :: ops)); [exact HU|exact HF].
  - destruct o; [..|congruence].
    + rewrite (run_read (replay l0) (None, map O_example (e :: es) ++ repeat O_end n) (Ok (Some e)) (None, map O_example es ++ repeat O_end n) ops eq_refl) in *.
      cbn [answers]. rewrite IH; auto. intro HI. apply HU. right. exact HI.
    + rewrite (run_peek (replay l0) (None, map O_example (e :: es) ++ repeat O_end n) (Ok (Some e)) (Some e, map O_example es ++ repeat O_end n) ops eq_refl) in *.
      cbn [answers]. rewrite IH; auto. intro HI. apply HU. right. exact HI.
Qed.

Lemma peek_log {B E} (decode : B -> dres E) bytes src src_end cores np pr prefetch reads s ops :
  graph_params cores np pr = (prefetch, reads) -> 1 <= cores ->
  reachable decode bytes src src_end prefetch reads s -> In O_end (log s) -> Forall (fun o => o <> Reset) ops ->
  let M := replay (log s) in ~ In UB (fst (run M (b_init M) ops)) ->
  fst (run M (b_init M) ops) = answers (sequential decode (src (epoch s))) (Ok tt) ops.
Proof.
  intros HG HC HR HE HF M HU. edestruct @end_ok as ((n & H4) & _); eauto.
  pose proof (replay_answers (log s) (S n) ops (sequential decode (src (epoch s))) None) as HA.
  rewrite <- H4 in HA. apply HA; [exact HU|exact HF].
Qed.

(* ---------------- text files ---------------- *)

Lemma text_records f lines : text_ok f -> has_lines f lines ->
  sopen (text_store f) = Ok (Some (map (fun l => mk_rec l kComplete) lines, Ok tt)).
Proof.
  intros (Hc & Hm) (mark & ls & last & E & Hmk & Hb & H1 & H2 & H3 & ->). unfold text_store. cbn [sopen]. do 2 f_equal. rewrite E in *.
  destruct (only_leading mark _ Hmk Hb) as [B1 B2]. destruct (not_contains_lines _ _ Hb) as [B3 B4].
  assert (HT : forall sched size, records (text_line_decode false) true sched size (mark ++ render_lines ls last)
    = (map (fun l => mk_rec l kComplete) (lines_of ls last), Ok tt)).
  { intros. assert (HK : forall l, filter (fun l => negb (false && blank l)) l = l).
    { clear. induction l as [|l t IH]; [reflexivity|]. cbn [filter andb negb]. cbn [andb negb] in IH. now rewrite IH. }
    destruct Hmk as [-> | ->]; [rewrite app_nil_l, C04_lines by assumption|rewrite C10_partial by assumption]; now rewrite HK. }
  destruct Hm as [-> |Hm]; [apply HT|].
  rewrite (C05_text false _ (tf_in_memory f) true (tf_reads f) [] (tf_chunk f) (tf_chunk f)) by assumption. apply HT.
Qed.

Lemma groups_complete ls : groups (map (fun l => mk_rec l kComplete) ls) ls.
Proof. induction ls as [|l ls IH]; [constructor|]. cbn. apply (g_one (mk_rec l kComplete)); [reflexivity|exact IH]. Qed.

Lemma text_stores fls : Forall (fun fl => text_ok (fst fl) /\ has_lines (fst fl) (snd fl)) fls ->
  Forall2 store_instances (map (fun fl => text_store (fst fl)) fls) (map (fun fl => numbered (tf_id (fst fl)) (snd fl)) fls).
Proof.
  induction 1 as [|[f ls] fls [H1 H2] HF IH]; [constructor|]. cbn [map fst snd]. constructor; [|exact IH].
  right. exists (map (fun l => mk_rec l kComplete) ls), ls. split; [apply text_records; assumption|].
  split; [apply groups_complete|reflexivity].
Qed.

Lemma store_rows_ok rows : forall pre post, length rows <= length post ->
  store_rows (pre ++ post) (length pre) rows = Ok (pre ++ rows ++ skipn (length rows) post).
Proof.
  induction rows as [|r rows IH]; intros pre post H; [reflexivity|]. cbn [store_rows length] in *.
  destruct post as [|x post]; [cbn in H; lia|]. rewrite app_length. cbn [length] in *.
  destruct (Nat.ltb_spec (length pre) (length pre + S (length post))); [|lia].
  rewrite firstn_app, Nat.sub_diag, firstn_all. cbn [firstn]. rewrite app_nil_r.
  rewrite skipn_app. rewrite (skipn_all2 pre) by lia. replace (S (length pre) - length pre) with 1 by lia. cbn [skipn app].
  replace (pre ++ r :: post) with ((pre ++ [r]) ++ post) by (now rewrite <- app_assoc).
  replace (S (length pre)) with (length (pre ++ [r])) by (rewrite app_length; cbn; lia).
  rewrite IH by lia. rewrite <- app_assoc. reflexivity.
Qed.

Lemma text_decode_ok b : length (ba_instances b) <= ba_size b ->
  text_decode b = Ok (Some (mk_text_example
    (map bits (ba_instances b) ++ repeat [] (ba_size b - length (ba_instances b)))
    (ba_size b - length (ba_instances b)))).
Proof.
  intro H. unfold text_decode. pose proof (store_rows_ok (map bits (ba_instances b)) [] (repeat [] (ba_size b))) as HS.
  cbn [app length] in HS. rewrite map_length, repeat_length in HS. rewrite HS by exact H. cbn [bind]. do 4 f_equal.
  clear HS. revert H. generalize (length (ba_instances b)) as n, (ba_size b) as m. induction n as [|n IH]; intros m H.
  - cbn. now rewrite Nat.sub_0_r.
  - destruct m as [|m]; [lia|]. cbn. apply IH. lia.
Qed.

Lemma text_example_lines rows k : example_lines (mk_text_example (rows ++ repeat [] k) k) = rows.
Proof.
  unfold example_lines. cbn [te_values te_padding]. rewrite app_length, repeat_length.
  replace (length rows + k - k) with (length rows + 0) by lia. rewrite firstn_app_2. cbn. apply app_nil_r.
Qed.

Lemma batches_sizes {A} size last k (xs : list A) bs : batches_of size last k xs bs ->
  Forall (fun b => length (ba_instances b) <= ba_size b) bs.
Proof.
  induction 1 as [k|k xs Hne Hl Hd|k xs r Hne Hl H1 H2 Hr|k xs ys bs Hl HB IH]; constructor; cbn; auto; try lia.
  subst r. destruct last; lia.
Qed.

Definition text_of (b : batch instance) : text_example :=
  mk_text_example (map bits (ba_instances b) ++ repeat [] (ba_size b - length (ba_instances b)))
    (ba_size b - length (ba_instances b)).

Lemma text_sequential bs : Forall (fun b => length (ba_instances b) <= ba_size b) bs ->
  sequential (fun b => dres_of (text_decode b)) bs = map text_of bs.
Proof.
  induction 1 as [|b bs Hb HF IH]; [reflexivity|]. cbn [sequential map]. rewrite (text_decode_ok b Hb). cbn [dres_of].
  now rewrite IH.
Qed.

Lemma text_of_lines b : example_lines (text_of b) = map bits (ba_instances b).
Proof. apply text_example_lines. Qed.

Lemma text_of_lines_all bs : concat (map example_lines (map text_of bs)) = map bits (concat (map ba_instances bs)).
Proof. induction bs as [|b bs IH]; [reflexivity|]. cbn [map concat]. now rewrite text_of_lines, IH, map_app. Qed.

Lemma text_of_size b : length (ba_instances b) <= ba_size b -> length (te_values (text_of b)) = ba_size b.
Proof. intro H. cbn. rewrite app_length, map_length, repeat_length. lia. Qed.

Lemma map_removelast {A B} (f : A -> B) l : map f (removelast l) = removelast (map f l).
Proof. induction l as [|a [|b l] IH]; [reflexivity..|]. cbn [map removelast] in *. now rewrite IH. Qed.

Lemma Forall_map_iff {A B} (f : A -> B) (P : B -> Prop) l : Forall (fun a => P (f a)) l -> Forall P (map f l).
Proof. induction 1; constructor; auto. Qed.

Lemma text_end {rng} (seeded : rng) draw shuf size_max p fls M src src_end bytes cores np pr prefetch reads s :
  Forall (fun fl => text_ok (fst fl) /\ has_lines (fst fl) (snd fl)) fls ->
  make_instance_reader seeded draw shuf size_max p (map (fun fl => text_store (fst fl)) fls) = Ok M ->
  (forall r, p_ratio p = Some r -> float_ratio r) ->
  (forall w g, 0 < w -> fst (draw w g) < w) -> (forall l g, Permutation (fst (shuf l g)) l) ->
  length (text_instances fls) < size_max -> 0 < p_batch p -> fed_by M (p_batch p) (p_last p) src src_end ->
  graph_params cores np pr = (prefetch, reads) -> 1 <= cores ->
  reachable (fun b => dres_of (text_decode b)) bytes src src_end prefetch reads s ->
  In O_end (log s) \/ length (text_instances fls) < length (log s) ->
  exists ys zs rest, selected p (text_instances fls) ys /\ ordered p ys zs /\
    concat (map example_lines (delivered (log s))) ++ rest = map bits zs /\
    length rest < p_batch p /\ (rest = [] \/ p_last p = last_drop \/ p_last p = last_drop_warn) /\
    Forall (fun e => example_lines e <> []) (delivered (log s)) /\
    Forall (fun e => length (te_values e) = p_batch p /\ te_padding e = 0) (removelast (delivered (log s))) /\
    (p_last p = last_pad -> Forall (fun e => length (te_values e) = p_batch p) (delivered (log s))) /\
    Forall (fun b => text_decode b <> UB) (src (epoch s)).
Proof.
  intros HF HM Hr Hd Hp Hm Hb Hfed HG HC HR HE0.
  assert (HE : In O_end (log s)).
  { destruct HE0 as [H|H]; [exact H|].
    destruct (fed_batches seeded draw shuf size_max p _ _ M src src_end (text_stores fls HF) HM Hr Hd Hp Hm Hb Hfed (epoch s))
      as (Hend & ys & zs & H1 & H2 & H3).
    eapply enough_calls; eauto.
    - eapply Forall_impl; [|exact (batches_sizes _ _ _ _ _ H3)]. cbv beta. intros b Hbb x Hx. rewrite (text_decode_ok b Hbb) in Hx. discriminate.
    - pose proof (sequential_len (fun b => dres_of (text_decode b)) (src (epoch s))) as L1.
      pose proof (batches_len _ _ _ _ _ Hb H3) as L2. assert (L3 : length ys <= length (text_instances fls)) by (exact (selected_len seeded draw shuf size_max p _ _ H1)).
      assert (L4 : length zs = length ys).
      { unfold ordered in H2. destruct (p_shuffle p); [apply Permutation_length, H2|congruence]. }
      lia. }
  destruct (pipeline seeded draw shuf size_max p _ _ M src src_end _ bytes cores np pr prefetch reads s
    (text_stores fls HF) HM Hr Hd Hp Hm Hb Hfed HG HC HR HE) as (ys & zs & bs & n & H1 & H2 & H3 & H4 & H5 & H6 & H7).
  pose proof (batches_sizes _ _ _ _ _ H3) as HS.
  destruct (batches_meaning _ _ _ _ _ Hb H3) as ((rest & R1 & R2 & R3) & _).
  destruct (batches_meaning _ _ _ _ _ Hb H3) as (_ & _ & M1 & M2 & M3).
  exists ys, zs, (map bits rest). split; [exact H1|]. split; [exact H2|].
  rewrite H7, (text_sequential bs HS), text_of_lines_all, <- map_app, R1. split; [reflexivity|].
  rewrite map_length. split; [exact R2|]. split; [|split; [|split; [|split]]].
  - destruct R3 as [-> |R3]; [left; reflexivity|right]. destruct (p_last p); cbn in R3; destruct R3; auto; discriminate.
  - apply Forall_map_iff. eapply Forall_impl; [|exact M1]. cbv beta. intros b Hbb. rewrite text_of_lines.
    destruct (ba_instances b); [congruence|discriminate].
  - rewrite <- map_removelast. apply Forall_map_iff. eapply Forall_impl; [|exact M2]. cbn. intros b [B1 B2].
    rewrite app_length, map_length, repeat_length, B1, B2. lia.
  - intro Hl. rewrite Hl in M3. apply Forall_map_iff.
    specialize (M3 (or_introl eq_refl)). rewrite Forall_forall in *. intros b Hi. rewrite text_of_size by auto. auto.
  - rewrite <- H4. eapply Forall_impl; [|exact HS]. cbn. intros b Hbb. rewrite (text_decode_ok b Hbb). discriminate.
Qed.

(* ---------------- there are such runs ---------------- *)

Lemma fed_exists {rng} (seeded : rng) draw shuf size_max p ds iss M :
  Forall2 store_instances ds iss -> make_instance_reader seeded draw shuf size_max p ds = Ok M ->
  (forall r, p_ratio p = Some r -> float_ratio r) ->
  (forall w g, 0 < w -> fst (draw w g) < w) -> (forall l g, Permutation (fst (shuf l g)) l) ->
  length (concat iss) < size_max -> 0 < p_batch p ->
  exists src, fed_by M (p_batch p) (p_last p) src (fun _ => None).
Proof.
  intros HF HM Hr Hd Hp Hm Hb.
  assert (G : forall i zs, yields M i zs (Ok tt) -> exists bs, yields (batch_reader (p_batch p) (p_last p) M) (None, (0, i)) bs (Ok tt)).
  { intros i zs Hi.
    assert (G : forall l, l <> last_pad_warn -> exists bs, yields (batch_reader (p_batch p) l M) (None, (0, i)) bs (Ok tt)).
    { intros l Hl. destruct (batches_of_total (p_batch p) l Hb (S (length zs)) 0 zs (le_n _)) as (bs' & HB).
      exists bs'. exact (batch_ok M _ l Hb 0 zs bs' Hl HB i Hi). }
    destruct (p_last p); try (apply G; discriminate). exact (G last_none ltac:(discriminate)). }
  destruct (reader_ok_init seeded draw shuf size_max p ds iss M HF HM Hr Hd Hp Hm) as (y0 & z0 & _ & _ & H0).
  destruct (reader_ok seeded draw shuf size_max p ds iss M (b_init M) HF HM Hr Hd Hp Hm) as (y1 & z1 & _ & _ & H1).
  apply yields_iff in H0, H1. destruct (G _ _ H0) as (bs0 & B0). destruct (G _ _ H1) as (bs1 & B1).
  exists (fun e => match e with 0 => bs0 | S _ => bs1 end). intros [|e].
  - eexists. split; [exact (es_first M 0)|]. apply yields_iff. exact B0.
  - eexists. split; [exact (es_later M e (b_init M) 0)|]. apply yields_iff. exact B1.
Qed.

Lemma bits_numbered d ps : map bits (numbered d ps) = ps.
Proof.
  unfold numbered. rewrite map_map. cbn [bits i_bits fst snd]. generalize 0.
  induction ps as [|q ps IH]; intro k; [reflexivity|]. cbn. f_equal. apply IH.
Qed.
Lemma bits_instances fls : map bits (text_instances fls) = concat (map snd fls).
Proof.
  unfold text_instances. induction fls as [|[f ls] fls IH]; [reflexivity|]. cbn [map concat fst snd].
  now rewrite map_app, bits_numbered, IH.
Qed.

Lemma text_all {rng} (seeded : rng) draw shuf size_max p fls M src src_end bytes cores np pr prefetch reads s :
  Forall (fun fl => text_ok (fst fl) /\ has_lines (fst fl) (snd fl)) fls ->
  make_instance_reader seeded draw shuf size_max p (map (fun fl => text_store (fst fl)) fls) = Ok M ->
  p_skip p = 0 -> p_take p = None -> p_num_shards p <= 1 -> p_ratio p = None -> p_shuffle p = false ->
  p_last p <> last_drop -> p_last p <> last_drop_warn ->
  (forall w g, 0 < w -> fst (draw w g) < w) -> (forall l g, Permutation (fst (shuf l g)) l) ->
  length (text_instances fls) < size_max -> 0 < p_batch p -> fed_by M (p_batch p) (p_last p) src src_end ->
  graph_params cores np pr = (prefetch, reads) -> 1 <= cores ->
  reachable (fun b => dres_of (text_decode b)) bytes src src_end prefetch reads s -> In O_end (log s) ->
  concat (map example_lines (delivered (log s))) = concat (map snd fls).
Proof.
  intros HF HM H1 H2 H3 H4 H5 H6 H7 Hd Hp Hm Hb Hfed HG HC HR HE.
  assert (Hr : forall r, p_ratio p = Some r -> float_ratio r) by (rewrite H4; discriminate).
  destruct (text_end seeded draw shuf size_max p fls M src src_end bytes cores np pr prefetch reads s
    HF HM Hr Hd Hp Hm Hb Hfed HG HC HR (or_introl HE)) as (ys & zs & rest & S1 & S2 & S3 & _ & S4 & _).
  unfold ordered in S2. rewrite H5 in S2. subst zs. unfold selected, range_of in S1.
  destruct (Nat.ltb_spec 1 (p_num_shards p)); [lia|]. rewrite H4, H1, H2 in S1. cbn in S1. subst ys.
  destruct S4 as [-> |[S4|S4]]; [|congruence..]. rewrite app_nil_r in S3. rewrite S3. apply bits_instances.
Qed.

From Coq Require Import ListDec.
From Verif Require Import Common Model_num Model_tsr Spec_tsr.
Local Open Scope Z_scope.

(* ---------- volumes ---------- *)

Lemma volume_pos shape : 1 <= volume (map (Z.max 1) shape).
Proof.
  induction shape as [|d l IH]; [cbn; lia|]. unfold volume in *. cbn [map fold_right].
  assert (1 <= Z.max 1 d) by lia. generalize dependent (Z.max 1 d). generalize dependent (fold_right Z.mul 1 (map (Z.max 1) l)).
  intros. nia.
Qed.
Lemma volume_le shape : Forall (fun d => 0 <= d) shape -> 0 <= volume shape <= volume (map (Z.max 1) shape).
Proof.
  induction 1 as [|d l Hd H IH]; [cbn; lia|].
  pose proof (volume_pos l). unfold volume in *. cbn [map fold_right].
  assert (0 <= d <= Z.max 1 d) by lia. generalize dependent (Z.max 1 d). generalize dependent (fold_right Z.mul 1 (map (Z.max 1) l)).
  generalize dependent (fold_right Z.mul 1 l). clear. intros. nia.
Qed.
Lemma volume_cons d l : volume (d :: l) = d * volume l. Proof. reflexivity. Qed.
Lemma reasonable_tl d l : reasonable (d :: l) -> reasonable l /\ 0 <= d < 2 ^ 63.
Proof.
  intros [A B]. inversion A; subst. rewrite map_cons, volume_cons in B.
  pose proof (volume_pos l). assert (M : 1 <= Z.max 1 d /\ d <= Z.max 1 d) by lia.
  generalize dependent (Z.max 1 d). intros m B M. split; [split; auto; nia|nia].
Qed.
Lemma reasonable_volume l : reasonable l -> 0 <= volume l < 2 ^ 63.
Proof. intros [A B]. pose proof (volume_le _ A). lia. Qed.
Lemma reasonable_cons_volume d l : reasonable (d :: l) -> d * volume l < 2 ^ 63 /\ Z.max 1 d * volume l < 2 ^ 63.
Proof.
  intros [A B]. inversion A; subst. rewrite map_cons, volume_cons in B.
  pose proof (volume_le _ H2). assert (M : 0 <= d <= Z.max 1 d /\ 1 <= Z.max 1 d) by lia.
  generalize dependent (Z.max 1 d). intros m B M. nia.
Qed.

(* The strides of the standard layout. *)
Fixpoint std_strides (shape : list Z) : list Z :=
  match shape with [] => [] | _ :: rest => volume rest :: std_strides rest end.
Lemma std_strides_length shape : length (std_strides shape) = length shape.
Proof. induction shape; cbn; congruence. Qed.

Lemma as_ssize_small d : d < 2 ^ 63 -> as_ssize d = d.
Proof. intros H. unfold as_ssize. destruct (d <? 2 ^ 63) eqn:E; lia. Qed.
Lemma as_size_small d : 0 <= d < 2 ^ 64 -> as_size d = d.
Proof. intros H. unfold as_size. apply Z.mod_small. lia. Qed.

Lemma default_strides_ok shape : reasonable shape -> default_strides shape = Ok (std_strides shape).
Proof.
  induction shape as [|d l IH]; intros R; [reflexivity|].
  destruct (reasonable_tl _ _ R) as [Rl Hd]. specialize (IH Rl).
  destruct l as [|e l']; [reflexivity|].
  change (default_strides (d :: e :: l')) with
    (let* ss := default_strides (e :: l') in let p := hd 1 ss * as_ssize e in if in_ssize p then Ok (p :: ss) else UB).
  rewrite IH. cbn [bind std_strides hd].
  destruct (reasonable_tl _ _ Rl) as [_ He]. rewrite (as_ssize_small e) by lia.
  pose proof (reasonable_cons_volume _ _ Rl). destruct (reasonable_tl _ _ Rl) as [Rl' _].
  pose proof (reasonable_volume _ Rl').
  assert (in_ssize (volume l' * e) = true) as -> by (unfold in_ssize; nia).
  rewrite volume_cons. do 2 f_equal. lia.
Qed.

(* ---------- validate_data_size ---------- *)

Lemma last_index_mod shape : forall strides last,
  length strides = length shape -> Forall (fun s => - 2 ^ 63 < s < 2 ^ 63) strides ->
  last_index shape strides last = Ok (as_size (last + reach shape strides)) \/
  (shape = [] /\ last_index shape strides last = Ok last).
Proof.
  induction shape as [|d l IH]; intros strides last L F; [right; auto|left].
  destruct strides as [|s ss]; [discriminate|]. inversion F; subst. cbn [last_index].
  destruct (s =? - 2 ^ 63) eqn:E; [lia|].
  assert (C : as_size (last + as_size (d - 1) * as_size (Z.abs s)) = as_size (last + (d - 1) * Z.abs s)).
  { unfold as_size. rewrite <- (Z.add_mod_idemp_r last ((d - 1) * Z.abs s)), (Z.mul_mod (d - 1) (Z.abs s)), Z.add_mod_idemp_r by lia. reflexivity. }
  rewrite C.
  destruct (IH ss (as_size (last + (d - 1) * Z.abs s)) ltac:(cbn in L; lia) H2) as [-> | [-> ->]].
  - cbn [reach]. f_equal. unfold as_size. rewrite Z.add_mod_idemp_l by lia. f_equal. lia.
  - cbn [reach]. destruct ss; f_equal; f_equal; lia.
Qed.

Lemma validate_ok shape strides size : shape <> [] ->
  length strides = length shape -> Forall (fun s => - 2 ^ 63 < s < 2 ^ 63) strides ->
  validate_data_size shape strides size =
    if as_size (reach shape strides + 1) >? size then Throw Invalid_argument else Ok tt.
Proof.
  intros N L F. unfold validate_data_size. destruct shape as [|d l]; [congruence|].
  destruct (last_index_mod _ _ 0 L F) as [-> | [? _]]; [|discriminate].
  cbn [bind]. rewrite Z.add_0_l.
  replace (as_size (as_size (reach (d :: l) strides) + 1)) with (as_size (reach (d :: l) strides + 1)); auto.
  unfold as_size. now rewrite Z.add_mod_idemp_l by lia.
Qed.

Lemma std_strides_bounds shape : reasonable shape -> Forall (fun s => 0 <= s < 2 ^ 63) (std_strides shape).
Proof.
  induction shape as [|d l IH]; intros R; [constructor|]. destruct (reasonable_tl _ _ R) as [Rl _].
  cbn. constructor; auto. now apply reasonable_volume.
Qed.
Lemma reach_std shape : reasonable shape -> reach shape (std_strides shape) = volume shape - 1.
Proof.
  induction shape as [|d l IH]; intros R; [reflexivity|]. destruct (reasonable_tl _ _ R) as [Rl _].
  cbn [std_strides reach]. rewrite IH by auto. rewrite volume_cons.
  pose proof (reasonable_volume _ Rl). rewrite Z.abs_eq by lia. lia.
Qed.

Lemma dense_default shape size : reasonable shape -> shape <> [] ->
  dense_tensor shape size [] = if volume shape <=? size then Ok (std_strides shape) else Throw Invalid_argument.
Proof.
  intros R N. unfold dense_tensor, tensor_strides. rewrite default_strides_ok by auto. cbn [bind].
  rewrite validate_ok; auto.
  - rewrite reach_std by auto. rewrite Z.sub_add. pose proof (reasonable_volume _ R). rewrite as_size_small by lia.
    rewrite Z.gtb_ltb. destruct (size <? volume shape) eqn:E, (volume shape <=? size) eqn:E'; try lia; reflexivity.
  - apply std_strides_length.
  - eapply Forall_impl; [|apply std_strides_bounds; auto]. cbn. lia.
Qed.

(* ---------- places ---------- *)

Lemma place_std shape : forall idx, in_range shape idx ->
  0 <= place (std_strides shape) idx < volume shape.
Proof.
  induction shape as [|d l IH]; intros idx H; inversion H; subst; [cbn; lia|].
  cbn [std_strides place]. rewrite volume_cons. specialize (IH _ H4). nia.
Qed.
Lemma place_inj shape : forall a b, in_range shape a -> in_range shape b ->
  place (std_strides shape) a = place (std_strides shape) b -> a = b.
Proof.
  induction shape as [|d l IH]; intros a b A B E; inversion A; inversion B; subst; [reflexivity|].
  cbn [std_strides place] in E.
  pose proof (place_std _ _ H3). pose proof (place_std _ _ H8).
  assert (y = y0) by nia. subst. f_equal. apply IH; auto. nia.
Qed.
Lemma place_onto shape : reasonable shape -> forall n, 0 <= n < volume shape ->
  exists idx, in_range shape idx /\ place (std_strides shape) idx = n.
Proof.
  induction shape as [|d l IH]; intros R n H.
  - exists []. split; [constructor|]. cbn in *. lia.
  - destruct (reasonable_tl _ _ R) as [Rl Hd]. rewrite volume_cons in H.
    pose proof (reasonable_volume _ Rl).
    assert (0 < volume l) by nia.
    pose proof (Z.mod_pos_bound n (volume l) ltac:(lia)).
    destruct (IH Rl (n mod volume l) ltac:(lia)) as (t & T1 & T2).
    exists (n / volume l :: t). split.
    + constructor; auto. split; [apply Z.div_pos; lia|]. apply Z.div_lt_upper_bound; nia.
    + cbn [std_strides place]. rewrite T2. pose proof (Z.div_mod n (volume l) ltac:(lia)). lia.
Qed.

Lemma row_major_acc shape : forall idx acc, in_range shape idx ->
  fold_left (fun acc di => acc * fst di + snd di) (combine shape idx) acc = acc * volume shape + place (std_strides shape) idx.
Proof.
  induction shape as [|d l IH]; intros idx acc H; inversion H; subst; [cbn; lia|].
  cbn [combine fold_left fst snd std_strides place]. rewrite IH by auto. rewrite volume_cons. lia.
Qed.
Lemma row_major_place shape idx : in_range shape idx -> row_major shape idx = place (std_strides shape) idx.
Proof. intros H. unfold row_major. rewrite row_major_acc by auto. lia. Qed.

(* C40: standard layout. *)
Lemma dense_standard shape size : reasonable shape -> shape <> [] ->
  (volume shape <= size -> exists ss, dense_tensor shape size [] = Ok ss /\
     (forall idx, in_range shape idx -> place ss idx = row_major shape idx /\ 0 <= place ss idx < size) /\
     (forall a b, in_range shape a -> in_range shape b -> place ss a = place ss b -> a = b) /\
     (forall n, 0 <= n < volume shape -> exists idx, in_range shape idx /\ place ss idx = n)) /\
  (size < volume shape -> dense_tensor shape size [] = Throw Invalid_argument).
Proof.
  intros R N. rewrite dense_default by auto. split; intros H.
  - assert (volume shape <=? size = true) as -> by lia. eexists; split; [reflexivity|]. repeat split.
    + now rewrite row_major_place.
    + now apply place_std.
    + pose proof (place_std _ _ H0). lia.
    + apply place_inj.
    + now apply place_onto.
  - assert (volume shape <=? size = false) as -> by lia. reflexivity.
Qed.

(* C40: given strides. *)
Lemma reach_nonneg shape strides : Forall (fun d => 1 <= d) shape -> 0 <= reach shape strides.
Proof. intros H. revert strides. induction H; intros [|s ss]; cbn; try lia. specialize (IHForall ss). nia. Qed.
Lemma place_reach_pos shape : forall strides idx, in_range shape idx -> Forall (fun s => 0 <= s) strides ->
  0 <= place strides idx <= reach shape strides.
Proof.
  induction shape as [|d l IH]; intros strides idx H F; inversion H; subst; [destruct strides; cbn; lia|].
  destruct strides as [|s ss]; [cbn; lia|]. inversion F; subst. cbn [place reach]. specialize (IH ss _ H4 H5).
  rewrite Z.abs_eq by lia. nia.
Qed.
Lemma place_diff shape : forall strides a b, in_range shape a -> in_range shape b ->
  place strides a - place strides b <= reach shape strides.
Proof.
  induction shape as [|d l IH]; intros strides a b A B; inversion A; inversion B; subst; [destruct strides; cbn; lia|].
  destruct strides as [|s ss]; [cbn; lia|]. cbn [place reach]. specialize (IH ss _ _ H3 H8).
  assert ((y - y0) * s <= (d - 1) * Z.abs s) by nia. nia.
Qed.

Lemma dense_strided shape size strides ss : shape <> [] -> Forall (fun d => 1 <= d) shape ->
  Forall (fun s => - 2 ^ 63 < s < 2 ^ 63) strides -> reach shape strides + 1 < 2 ^ 64 ->
  strides <> [] -> dense_tensor shape size strides = Ok ss ->
  ss = strides /\
  (forall a b, in_range shape a -> in_range shape b -> Z.abs (place ss a - place ss b) < size) /\
  (Forall (fun s => 0 <= s) strides -> forall idx, in_range shape idx -> 0 <= place ss idx < size).
Proof.
  intros N D F B NS H. unfold dense_tensor, tensor_strides in H.
  destruct strides as [|s0 ss0]; [congruence|]. set (st := s0 :: ss0) in *.
  destruct (Nat.eqb (length st) (length shape)) eqn:E; [|discriminate]. apply Nat.eqb_eq in E.
  cbn [bind] in H. rewrite (validate_ok _ _ size N E F) in H.
  pose proof (reach_nonneg shape st D). rewrite as_size_small in H by lia.
  destruct (reach shape st + 1 >? size) eqn:G; [discriminate|]. cbn [bind] in H. injection H as <-.
  repeat split; intros.
  - pose proof (place_diff _ st _ _ H H1). pose proof (place_diff _ st _ _ H1 H). lia.
  - now apply (place_reach_pos shape st idx).
  - pose proof (place_reach_pos shape st idx H1 H). lia.
Qed.

Lemma strided_accepts shape size strides : shape <> [] -> Forall (fun d => 1 <= d) shape ->
  Forall (fun s => - 2 ^ 63 < s < 2 ^ 63) strides -> reach shape strides + 1 < 2 ^ 64 ->
  strides <> [] -> length strides = length shape ->
  dense_tensor shape size strides = if reach shape strides <? size then Ok strides else Throw Invalid_argument.
Proof.
  intros N D F B NS L. unfold dense_tensor, tensor_strides.
  destruct strides as [|s0 ss0]; [congruence|]. set (st := s0 :: ss0) in *.
  assert (Nat.eqb (length st) (length shape) = true) as -> by now apply Nat.eqb_eq.
  cbn [bind]. rewrite (validate_ok _ _ size N L F).
  pose proof (reach_nonneg shape st D). rewrite as_size_small by lia.
  destruct (reach shape st + 1 >? size) eqn:G, (reach shape st <? size) eqn:G'; try lia; reflexivity.
Qed.

(* ---------- COO builder ---------- *)

Lemma positive_volume dims : positive dims -> 1 <= volume dims.
Proof. induction 1; cbn; [lia|]. unfold volume in *. cbn. nia. Qed.

(* The index of a key. *)
Fixpoint digits (dims : list Z) (k : Z) : list Z :=
  match dims with [] => [] | _ :: rest => k / volume rest :: digits rest (k mod volume rest) end.
Lemma digits_length dims : forall k, length (digits dims k) = length dims.
Proof. induction dims; intros; cbn; auto. Qed.
Lemma digits_in_range dims : positive dims -> forall k, 0 <= k < volume dims -> in_range dims (digits dims k).
Proof.
  induction 1 as [|d l Hd P IH]; intros k H; [constructor|].
  pose proof (positive_volume _ P). rewrite volume_cons in H.
  pose proof (Z.mod_pos_bound k (volume l) ltac:(lia)). cbn. constructor.
  - split; [apply Z.div_pos; lia|apply Z.div_lt_upper_bound; nia].
  - apply IH. lia.
Qed.
Lemma digits_place dims : positive dims -> forall k, 0 <= k < volume dims -> place (std_strides dims) (digits dims k) = k.
Proof.
  induction 1 as [|d l Hd P IH]; intros k H; [cbn in *; lia|].
  pose proof (positive_volume _ P). pose proof (Z.mod_pos_bound k (volume l) ltac:(lia)).
  cbn. rewrite IH by lia. pose proof (Z.div_mod k (volume l) ltac:(lia)). lia.
Qed.
Lemma digits_row_major dims : positive dims -> forall k, 0 <= k < volume dims -> row_major dims (digits dims k) = k.
Proof. intros P k H. rewrite row_major_place by now apply digits_in_range. now apply digits_place. Qed.

Definition snoc_col (c : list Z) (x : Z) := c ++ [x].
Definition push (cs : list (list Z)) (idx : list Z) : list (list Z) := map (fun cx => fst cx ++ [snd cx]) (combine cs idx).
Lemma push_cons c cs x idx : push (c :: cs) (x :: idx) = (c ++ [x]) :: push cs idx. Proof. reflexivity. Qed.
Lemma push_length cs idx : length cs = length idx -> length (push cs idx) = length cs.
Proof. intros H. unfold push. rewrite map_length, combine_length. lia. Qed.

Lemma append_key_ok dims : positive dims -> reasonable dims -> forall cs k, length cs = length dims -> 0 <= k ->
  (k < volume dims -> append_key dims (std_strides dims) cs k = Ok (push cs (digits dims k), true)) /\
  (dims <> [] -> volume dims <= k -> append_key dims (std_strides dims) cs k = Ok (cs, false)).
Proof.
  induction 1 as [|d l Hd P IH]; intros R cs k L Hk.
  - destruct cs; [|discriminate]. split; [reflexivity|congruence].
  - destruct (reasonable_tl _ _ R) as [Rl _]. pose proof (positive_volume _ P). pose proof (reasonable_volume _ Rl).
    destruct cs as [|c cs]; [discriminate|]. cbn [length] in L. rewrite volume_cons.
    cbn [append_key std_strides]. rewrite as_size_small by lia.
    destruct (volume l =? 0) eqn:E; [lia|].
    pose proof (Z.mod_pos_bound k (volume l) ltac:(lia)). pose proof (Z.div_mod k (volume l) ltac:(lia)).
    destruct (IH Rl cs (k mod volume l) ltac:(lia) ltac:(lia)) as [A _]. split.
    + intros K. assert (k / volume l < d) by (apply Z.div_lt_upper_bound; nia).
      destruct (k / volume l >=? d) eqn:G; [lia|]. rewrite A by lia. cbn [bind]. cbn [digits]. now rewrite push_cons.
    + intros _ K. assert (d <= k / volume l) by (apply Z.div_le_lower_bound; nia).
      destruct (k / volume l >=? d) eqn:G; [reflexivity|lia].
Qed.

Definition push_all (cs : list (list Z)) (idxs : list (list Z)) : list (list Z) := fold_left push idxs cs.

Lemma append_keys_ok dims row : positive dims -> reasonable dims -> dims <> [] -> forall keys rows cs, length cs = length dims ->
  Forall (fun k => 0 <= k) keys ->
  (Forall (fun k => k < volume dims) keys ->
     append_keys dims (std_strides dims) row rows cs keys =
       Ok (rows ++ repeat row (length keys), push_all cs (map (digits dims) keys), true)) /\
  (Exists (fun k => volume dims <= k) keys ->
     exists rows' cs', append_keys dims (std_strides dims) row rows cs keys = Ok (rows', cs', false)).
Proof.
  intros P R N. induction keys as [|k keys IH]; intros rows cs L F.
  - split; [intros _; cbn; now rewrite app_nil_r|intros H; inversion H].
  - inversion F; subst. destruct (append_key_ok dims P R cs k L H1) as [A B]. cbn [append_keys].
    split.
    + intros G. inversion G; subst. rewrite A by auto. cbn [bind].
      assert (L' : length (push cs (digits dims k)) = length dims).
      { rewrite push_length; auto. now rewrite digits_length. }
      destruct (IH (rows ++ [row]) (push cs (digits dims k)) L' H2) as [C _]. rewrite C by auto.
      cbn [length repeat map push_all fold_left]. rewrite <- app_assoc. reflexivity.
    + intros G. destruct (Z_lt_le_dec k (volume dims)) as [K|K].
      * rewrite A by auto. cbn [bind].
        assert (L' : length (push cs (digits dims k)) = length dims).
        { rewrite push_length; auto. now rewrite digits_length. }
        destruct (IH (rows ++ [row]) (push cs (digits dims k)) L' H2) as [_ C]. apply C.
        inversion G; subst; auto. lia.
      * rewrite B by auto. cbn [bind]. eauto.
Qed.

(* ---------- columns ---------- *)

Lemma columns_nil n : columns n (repeat [] n) [].
Proof.
  split; [apply repeat_length|]. intros j c H. apply nth_error_In, repeat_spec in H. now subst.
Qed.
Lemma nth_push : forall cs idx j c, length cs = length idx -> nth_error (push cs idx) j = Some c ->
  exists c0, nth_error cs j = Some c0 /\ c = c0 ++ [nth j idx 0].
Proof.
  induction cs as [|c0 cs IH]; intros [|x idx] j c L H; try discriminate.
  - destruct j; discriminate.
  - rewrite push_cons in H. destruct j as [|j]; cbn in *.
    + injection H as <-. eauto.
    + apply IH; auto.
Qed.
Lemma columns_push n cs idxs idx : columns n cs idxs -> length idx = n -> columns n (push cs idx) (idxs ++ [idx]).
Proof.
  intros [A B] L. split; [rewrite push_length; lia|]. intros j c H.
  destruct (nth_push cs idx j c ltac:(lia) H) as (c0 & H0 & ->). rewrite (B _ _ H0), map_app. reflexivity.
Qed.
Lemma columns_push_all n more : forall cs idxs, columns n cs idxs -> Forall (fun i => length i = n) more ->
  columns n (push_all cs more) (idxs ++ more).
Proof.
  induction more as [|i more IH]; intros cs idxs C F; [now rewrite app_nil_r|].
  inversion F; subst. cbn [push_all fold_left].
  replace (idxs ++ i :: more) with ((idxs ++ [i]) ++ more) by (now rewrite <- app_assoc).
  apply IH; auto. apply columns_push; auto.
Qed.
Lemma columns_length n cs idxs : columns n cs idxs -> Forall (fun c => length c = length idxs) cs.
Proof.
  intros [A B]. apply Forall_forall. intros c H. apply In_nth_error in H. destruct H as [j H].
  rewrite (B _ _ H). apply map_length.
Qed.
Lemma columns_head n rows cs idxs : columns n cs idxs -> length rows = length idxs ->
  columns (S n) (rows :: cs) (map (fun ri => fst ri :: snd ri) (combine rows idxs)).
Proof.
  intros [A B] L. split; [cbn; lia|]. intros [|j] c H; cbn in H.
  - injection H as <-. rewrite map_map. cbn. clear -L. revert idxs L.
    induction rows; intros [|i idxs] L; cbn in *; try lia; auto. f_equal. apply IHrows. lia.
  - rewrite (B _ _ H), map_map. cbn. clear -L. revert idxs L.
    induction rows; intros [|i idxs] L; cbn in *; try lia; auto. f_equal. apply IHrows. lia.
Qed.

(* ---------- the builder as a sequence of rows ---------- *)

(* What the builder contains after the rows [rs]. *)
Definition builder_of (dims : list Z) {V} (rs : list (sparse_row V)) (b : builder V) : Prop :=
  b_data b = map snd (entries 0 rs) /\
  b_rows b = map (fun e => fst (fst e)) (entries 0 rs) /\
  columns (length dims) (b_coords b) (map (fun e => digits dims (snd (fst e))) (entries 0 rs)) /\
  b_row b = Z.of_nat (length rs).

Lemma entries_app V : forall (a : list (sparse_row V)) b i, entries i (a ++ b) = entries i a ++ entries (i + Z.of_nat (length a)) b.
Proof.
  induction a as [|r a IH]; intros b i; cbn [entries app length]; [f_equal; lia|].
  rewrite IH, <- app_assoc. do 3 f_equal. lia.
Qed.

Lemma new_builder_of dims V : builder_of dims ([] : list (sparse_row V)) (new_builder (length dims)).
Proof. repeat split; cbn; auto; apply columns_nil. Qed.

Lemma append_of dims batch s0 V (rs : list (sparse_row V)) b (r : sparse_row V) :
  positive dims -> reasonable dims -> dims <> [] -> builder_of dims rs b -> Forall (fun kv => 0 <= fst kv) r ->
  Z.of_nat (length rs) + 1 < 2 ^ 64 ->
  (good_sparse dims r ->
     exists b', append (batch :: dims) (s0 :: std_strides dims) b (map snd r) (map fst r) = Ok (b', true) /\
       builder_of dims (rs ++ [r]) b') /\
  (~ good_sparse dims r ->
     exists b', append (batch :: dims) (s0 :: std_strides dims) b (map snd r) (map fst r) = Ok (b', false)).
Proof.
  intros P R N (B1 & B2 & B3 & B4) F Lim. unfold append. cbn [tl].
  assert (Fk : Forall (fun k => 0 <= k) (map fst r)).
  { rewrite Forall_map. exact F. }
  destruct (append_keys_ok dims (b_row b) P R N (map fst r) (b_rows b) (b_coords b) (proj1 B3) Fk) as [A C].
  split.
  - intros G. assert (G' : Forall (fun k => k < volume dims) (map fst r)).
    { rewrite Forall_map. eapply Forall_impl; [|exact G]. cbn; intros; lia. }
    rewrite (A G'). cbn [bind]. eexists; split; [reflexivity|].
    assert (E : entries 0 (rs ++ [r]) = entries 0 rs ++ map (fun kv => (Z.of_nat (length rs), fst kv, snd kv)) r).
    { rewrite entries_app. cbn [entries]. rewrite app_nil_r. reflexivity. }
    unfold builder_of. rewrite E. cbn [b_data b_rows b_coords b_row]. refine (conj _ (conj _ (conj _ _))).
    + rewrite map_app, B1, map_map. cbn. reflexivity.
    + rewrite map_app, B2, map_map. cbn. f_equal. rewrite B4, map_length. clear. induction r; cbn; auto. now f_equal.
    + rewrite map_app.
      replace (map (fun e : Z * Z * V => digits dims (snd (fst e))) (map (fun kv : Z * V => (Z.of_nat (length rs), fst kv, snd kv)) r))
        with (map (digits dims) (map fst r)) by (rewrite !map_map; reflexivity).
      apply columns_push_all; auto. rewrite Forall_map. apply Forall_forall. intros. apply digits_length.
    + rewrite app_length. cbn. rewrite B4. rewrite as_size_small by lia. lia.
  - intros G. assert (G' : Exists (fun k => volume dims <= k) (map fst r)).
    { rewrite Exists_map. apply neg_Forall_Exists_neg in G.
      - clear -F G. induction G; inversion F; subst; [left; cbn in *; lia|right; auto].
      - intros [k v]. cbn. destruct (Z_le_dec 0 k), (Z_lt_dec k (volume dims)); [left|right|right|right]; lia. }
    destruct (C G') as (rows' & cs' & ->). cbn [bind]. eauto.
Qed.

Lemma build_of dims batch n V (rs : list (sparse_row V)) b :
  positive dims -> reasonable (n :: dims) -> dims <> [] -> Forall (good_sparse dims) rs -> builder_of dims rs b ->
  exists o, build (batch :: dims) n b = Ok o /\ o_shape o = n :: dims /\
    holds_entries dims (o_data o) (o_coords o) (entries 0 rs).
Proof.
  intros P R N G (B1 & B2 & B3 & B4). unfold build. cbn [tl].
  unfold coo_tensor, tensor_strides. rewrite default_strides_ok by auto. cbn [bind].
  set (idxs := map (fun e => digits dims (snd (fst e))) (entries 0 rs)) in *.
  assert (L : length (b_rows b) = length idxs) by (unfold idxs; rewrite B2, !map_length; auto).
  pose proof (columns_head _ _ _ _ B3 L) as C.
  assert (E1 : negb (Nat.eqb (length (n :: dims)) (length (map (@length Z) (b_rows b :: b_coords b)))) = false).
  { rewrite map_length. cbn [length]. destruct B3 as [B3 _]. rewrite B3. now rewrite Nat.eqb_refl. }
  rewrite E1.
  assert (E2 : forallb (Nat.eqb (length (b_data b))) (map (@length Z) (b_rows b :: b_coords b)) = true).
  { apply forallb_forall. intros m H. apply in_map_iff in H. destruct H as (c & <- & H). apply Nat.eqb_eq.
    pose proof (columns_length _ _ _ C) as CL. rewrite Forall_forall in CL. rewrite (CL _ H).
    rewrite map_length, combine_length, L. unfold idxs. rewrite B1, !map_length. lia. }
  rewrite E2. cbn [bind]. eexists; split; [reflexivity|]. cbn. split; [reflexivity|]. split; [exact B1|].
  eexists; split; [exact C|]. rewrite B2. unfold idxs.
  assert (F : Forall (fun e => 0 <= snd (fst e) < volume dims) (entries 0 rs)).
  { clear -G. enough (X : forall i, Forall (fun e => 0 <= snd (fst e) < volume dims) (entries i rs)) by apply X. induction G as [|r rs' Hr _ IH]; intros i; cbn; [constructor|]. apply Forall_app. split; auto.
    rewrite Forall_map. exact Hr. }
  clear -F P. induction F as [|e es He _ IH]; cbn; [constructor|]. constructor; auto.
  eexists; split; [reflexivity|]. split; [now apply digits_in_range|now apply digits_row_major].
Qed.

(* C41: one append. *)
Lemma append_coordinates V dims batch s0 (b : builder V) values keys idxs :
  positive dims -> reasonable dims -> dims <> [] -> Forall (fun k => 0 <= k) keys ->
  columns (length dims) (b_coords b) idxs ->
  (Forall (fun k => k < volume dims) keys ->
     exists b' new, append (batch :: dims) (s0 :: std_strides dims) b values keys = Ok (b', true) /\
       b_data b' = b_data b ++ values /\ b_rows b' = b_rows b ++ repeat (b_row b) (length keys) /\
       b_row b' = (b_row b + 1) mod 2 ^ 64 /\
       columns (length dims) (b_coords b') (idxs ++ new) /\
       Forall2 (fun k idx => in_range dims idx /\ row_major dims idx = k) keys new) /\
  (Exists (fun k => volume dims <= k) keys ->
     exists b', append (batch :: dims) (s0 :: std_strides dims) b values keys = Ok (b', false) /\ b_row b' = b_row b).
Proof.
  intros P R N F C. unfold append. cbn [tl].
  destruct (append_keys_ok dims (b_row b) P R N keys (b_rows b) (b_coords b) (proj1 C) F) as [A B]. split.
  - intros G. rewrite (A G). cbn [bind]. do 2 eexists. split; [reflexivity|]. cbn. refine (conj eq_refl (conj eq_refl (conj eq_refl (conj _ _)))).
    + apply columns_push_all; eauto. rewrite Forall_map. apply Forall_forall. intros. apply digits_length.
    + clear A B C. induction keys; constructor; inversion F; inversion G; subst; auto. split.
      * now apply digits_in_range.
      * now apply digits_row_major.
  - intros G. destruct (B G) as (? & ? & ->). cbn [bind]. eexists. split; reflexivity.
Qed.

(* ---------- schemas ---------- *)

Lemma bytes_eqb_eq a b : bytes_eqb a b = true <-> a = b.
Proof. unfold bytes_eqb. destruct (list_eq_dec N.eq_dec a b); split; congruence. Qed.
Lemma bytes_eqb_refl a : bytes_eqb a a = true. Proof. now apply bytes_eqb_eq. Qed.
Lemma find_name_app name m1 m2 : find_name name (m1 ++ m2) = match find_name name m1 with Some i => Some i | None => find_name name m2 end.
Proof. induction m1 as [|[n i] m1 IH]; cbn; auto. destruct (bytes_eqb name n); auto. Qed.
Definition indexed (names : list (list byte)) (m : list (list byte * nat)) : Prop :=
  NoDup names /\ forall name i, find_name name m = Some i <-> nth_error names i = Some name.
Lemma nth_error_snoc {A} (l : list A) x i y : nth_error (l ++ [x]) i = Some y <-> nth_error l i = Some y \/ (i = length l /\ y = x).
Proof.
  destruct (Nat.lt_ge_cases i (length l)) as [H|H].
  - rewrite nth_error_app1 by auto. split; [auto|]. intros [?|[? _]]; auto. lia.
  - rewrite nth_error_app2 by auto. rewrite (proj2 (nth_error_None l i) H). split.
    + intros E. destruct (i - length l)%nat as [|[|]] eqn:D; cbn in E; try discriminate. injection E as <-. right. split; [lia|auto].
    + intros [E|[-> ->]]; [discriminate|]. now rewrite Nat.sub_diag.
Qed.
Lemma indexed_snoc names m name : indexed names m -> ~ In name names -> indexed (names ++ [name]) (m ++ [(name, length names)]).
Proof.
  intros [A B] H. split.
  - clear B. induction names as [|n names IH]; cbn; [constructor; [intros []|constructor]|].
    inversion A; subst. constructor.
    + rewrite in_app_iff. intros [?|[?|[]]]; [auto|]. subst. apply H. now left.
    + apply IH; auto. intros ?. apply H. now right.
  - intros nm i. rewrite find_name_app, nth_error_snoc. specialize (B nm). destruct (find_name nm m) as [j|] eqn:E.
    + split.
      * intros X. injection X as <-. left. now apply B.
      * intros [X|[-> ->]]; [now apply B|]. exfalso. apply H. apply nth_error_In with j. now apply B.
    + cbn. destruct (bytes_eqb nm name) eqn:Q.
      * apply bytes_eqb_eq in Q. subst. split.
        -- intros X. injection X as <-. auto.
        -- intros [X|[-> _]]; auto. exfalso. apply H. eapply nth_error_In; eauto.
      * split; [discriminate|]. intros [X|[-> ->]].
        -- apply B in X. discriminate.
        -- rewrite bytes_eqb_refl in Q. discriminate.
Qed.
Lemma index_names_ok attrs : forall names m, indexed names m ->
  (NoDup (names ++ map a_name attrs) ->
     exists m', index_names attrs (length names) m = Ok m' /\ indexed (names ++ map a_name attrs) m') /\
  (~ NoDup (names ++ map a_name attrs) -> index_names attrs (length names) m = Throw Invalid_argument).
Proof.
  induction attrs as [|a attrs IH]; intros names m I; cbn [map index_names].
  - rewrite app_nil_r. split; [eauto|]. intros H. destruct H. apply I.
  - destruct (find_name (a_name a) m) as [j|] eqn:E.
    + split; [|reflexivity]. intros H. exfalso. apply NoDup_remove_2 in H. apply H. rewrite in_app_iff. left.
      apply I in E. eapply nth_error_In; eauto.
    + assert (NI : ~ In (a_name a) names).
      { intros H. apply In_nth_error in H. destruct H as [i H]. apply I in H. congruence. }
      pose proof (indexed_snoc _ _ _ I NI) as I'.
      destruct (IH _ _ I') as [A B]. rewrite app_length in A, B. cbn in A, B. rewrite Nat.add_1_r in A, B.
      rewrite <- app_assoc in A, B. cbn in A, B. split; auto.
Qed.
Lemma indexed_nil : indexed [] [].
Proof. split; [constructor|]. intros name i. cbn. destruct i; split; discriminate. Qed.
Lemma schema_lookup attrs s : new_schema attrs = Ok s ->
  s_attributes s = attrs /\ NoDup (map a_name attrs) /\
  forall name i, get_index s name = Some i <-> exists a, nth_error attrs i = Some a /\ a_name a = name.
Proof.
  unfold new_schema. intros H. destruct (index_names_ok attrs [] [] indexed_nil) as [A B]. cbn [app length] in A, B.
  destruct (index_names attrs 0 []) as [m| | |] eqn:E; try discriminate. cbn [bind] in H. injection H as <-. cbn.
  assert (D : NoDup (map a_name attrs)).
  { destruct (NoDup_dec (list_eq_dec N.eq_dec) (map a_name attrs)) as [D|D]; auto. specialize (B D). discriminate. }
  destruct (A D) as (m' & E' & I). injection E' as <-. split; [auto|]. split; auto.
  intros name i. unfold get_index. cbn. rewrite (proj2 I), nth_error_map.
  destruct (nth_error attrs i) as [a|]; cbn; split.
  - intros X. injection X as <-. eauto.
  - intros (a' & X & <-). now injection X as <-.
  - discriminate.
  - intros (a' & X & _). discriminate.
Qed.
Lemma schema_made attrs : (exists s, new_schema attrs = Ok s) <-> NoDup (map a_name attrs).
Proof.
  unfold new_schema. destruct (index_names_ok attrs [] [] indexed_nil) as [A B]. cbn [app length] in A, B. split.
  - intros [s H]. destruct (NoDup_dec (list_eq_dec N.eq_dec) (map a_name attrs)) as [D|D]; auto.
    rewrite (B D) in H. discriminate.
  - intros D. destruct (A D) as (m & -> & _). cbn. eauto.
Qed.
Lemma schema_rejected attrs : ~ NoDup (map a_name attrs) -> new_schema attrs = Throw Invalid_argument.
Proof.
  intros D. unfold new_schema. destruct (index_names_ok attrs [] [] indexed_nil) as [_ B]. cbn [app length] in B.
  now rewrite (B D).
Qed.

Lemma find_feature_spec T attrs s (fs : list T) e name : new_schema attrs = Ok s -> new_example s fs = Ok e ->
  length fs = length attrs /\
  (forall i a t, nth_error attrs i = Some a -> nth_error fs i = Some t -> a_name a = name -> find_feature e name = Ok (Some t)) /\
  (~ In name (map a_name attrs) -> find_feature e name = Ok None) /\
  (exists o, find_feature e name = Ok o).
Proof.
  intros S E. destruct (schema_lookup _ _ S) as (SA & D & G). unfold new_example in E. rewrite SA in E.
  destruct (Nat.eqb (length attrs) (length fs)) eqn:L; [|discriminate]. apply Nat.eqb_eq in L. injection E as <-.
  unfold find_feature. cbn. split; [auto|]. repeat split.
  - intros i a t H1 H2 H3. rewrite (proj2 (G name i)) by eauto. now rewrite H2.
  - intros H. destruct (get_index s name) as [i|] eqn:Q; auto. apply G in Q. destruct Q as (a & Q & <-).
    exfalso. apply H. apply in_map. eapply nth_error_In; eauto.
  - destruct (get_index s name) as [i|] eqn:Q; [|eauto]. apply G in Q. destruct Q as (a & Q & _).
    destruct (nth_error fs i) eqn:Z; [eauto|]. apply nth_error_None in Z.
    assert (i < length attrs)%nat by (apply nth_error_Some; congruence). lia.
Qed.

Lemma zs_eqb_eq a b : zs_eqb a b = true <-> a = b.
Proof. unfold zs_eqb. destruct (list_eq_dec Z.eq_dec a b); split; congruence. Qed.
Lemma dtype_eqb_eq a b : dtype_eqb a b = true <-> a = b.
Proof. destruct a as [| | | |t|], b as [| | | |u|]; cbn; try (split; congruence). destruct t, u; cbn; split; congruence. Qed.
Lemma attribute_eqb_eq a b : attribute_eqb a b = true <-> a = b.
Proof.
  destruct a as [n t sh st sp], b as [n' t' sh' st' sp']. unfold attribute_eqb. cbn.
  rewrite !andb_true_iff, bytes_eqb_eq, dtype_eqb_eq, Bool.eqb_true_iff, !zs_eqb_eq. split.
  - intros ((((-> & ->) & ->) & ->) & ->). reflexivity.
  - intros E. injection E. intros. subst. auto.
Qed.
Lemma schema_eqb_eq a b : schema_eqb a b = true <-> s_attributes a = s_attributes b.
Proof.
  unfold schema_eqb. generalize (s_attributes b). generalize (s_attributes a).
  induction l as [|x l IH]; intros [|y l']; cbn; try (split; congruence).
  rewrite andb_true_iff, attribute_eqb_eq, IH. split; [intros [-> ->]; auto|]. intros E. injection E. auto.
Qed.

Lemma csr_never shape data indices indptr ss : csr_tensor shape data indices indptr <> Ok ss.
Proof.
  unfold csr_tensor. destruct (tensor_strides shape []); cbn [bind]; try discriminate.
  destruct (Nat.ltb 2 (length shape)); [discriminate|]. destruct (negb (Nat.eqb data indices)); discriminate.
Qed.

(* ---------- with the attribute ---------- *)

Lemma new_attribute_std name t shape sp a : reasonable shape -> new_attribute name t shape [] sp = Ok a ->
  a = mk_attribute name t shape (std_strides shape) sp.
Proof.
  intros R H. unfold new_attribute, tensor_strides in H. rewrite default_strides_ok in H by auto. now injection H as <-.
Qed.
Lemma attribute_coordinates V name t batch dims sp a (b : builder V) values keys idxs :
  positive dims -> dims <> [] -> reasonable (batch :: dims) -> new_attribute name t (batch :: dims) [] sp = Ok a ->
  Forall (fun k => 0 <= k) keys -> columns (length dims) (b_coords b) idxs ->
  (Forall (fun k => k < volume dims) keys ->
     exists b' new, append (a_shape a) (a_strides a) b values keys = Ok (b', true) /\
       b_data b' = b_data b ++ values /\ b_rows b' = b_rows b ++ repeat (b_row b) (length keys) /\
       b_row b' = (b_row b + 1) mod 2 ^ 64 /\
       columns (length dims) (b_coords b') (idxs ++ new) /\
       Forall2 (fun k idx => in_range dims idx /\ row_major dims idx = k) keys new) /\
  (Exists (fun k => volume dims <= k) keys ->
     exists b', append (a_shape a) (a_strides a) b values keys = Ok (b', false) /\ b_row b' = b_row b).
Proof.
  intros P N R H F C. rewrite (new_attribute_std _ _ _ _ _ R H). cbn [a_shape a_strides std_strides].
  destruct (reasonable_tl _ _ R) as [Rl _]. now apply append_coordinates.
Qed.

Lemma good_sparse_dec dims V (r : sparse_row V) : {good_sparse dims r} + {~ good_sparse dims r}.
Proof.
  apply Forall_dec. intros [k v]. cbn. destruct (Z_le_dec 0 k), (Z_lt_dec k (volume dims)); [left|right|right|right]; lia.
Qed.
Lemma appended_of V name t batch dims sp a (b : builder V) rs :
  positive dims -> dims <> [] -> reasonable (batch :: dims) -> new_attribute name t (batch :: dims) [] sp = Ok a ->
  Forall (Forall (fun kv => 0 <= fst kv)) rs -> Z.of_nat (length rs) < 2 ^ 64 ->
  appended a (new_builder (length dims)) rs b -> Forall (good_sparse dims) rs /\ builder_of dims rs b.
Proof.
  intros P N R H F L A. rewrite (new_attribute_std _ _ _ _ _ R H) in A. destruct (reasonable_tl _ _ R) as [Rl _].
  induction A as [|rs r b1 b2 A IH E]; [split; [constructor|apply new_builder_of]|].
  apply Forall_app in F. destruct F as [F Fr]. inversion Fr; subst. rewrite app_length, Nat2Z.inj_add in L.
  assert (L' : Z.of_nat (@length (sparse_row V) rs) + 1 < 2 ^ 64) by exact L. clear L.
  assert (L'' : Z.of_nat (@length (sparse_row V) rs) < 2 ^ 64) by lia.
  destruct (IH F L'') as [G B]. cbn [a_shape a_strides std_strides] in E.
  destruct (append_of dims batch (volume dims) V rs b1 r P Rl N B H2 ltac:(lia)) as [X Y].
  destruct (good_sparse_dec dims V r) as [D|D].
  - destruct (X D) as (b' & E' & B'). rewrite E in E'. injection E' as <-. split; auto. apply Forall_app. auto.
  - destruct (Y D) as (b' & E'). rewrite E in E'. discriminate.
Qed.
Lemma built_entries V name t batch n dims sp a (b : builder V) rs :
  positive dims -> dims <> [] -> reasonable (batch :: dims) -> reasonable (n :: dims) ->
  new_attribute name t (batch :: dims) [] sp = Ok a ->
  Forall (Forall (fun kv => 0 <= fst kv)) rs -> Z.of_nat (length rs) < 2 ^ 64 ->
  appended a (new_builder (length dims)) rs b ->
  exists o, build (a_shape a) n b = Ok o /\ o_shape o = n :: dims /\ holds_entries dims (o_data o) (o_coords o) (entries 0 rs).
Proof.
  intros P N R R' H F L A. destruct (appended_of _ _ _ _ _ _ _ _ _ P N R H F L A) as [G B].
  rewrite (new_attribute_std _ _ _ _ _ R H). cbn [a_shape]. now apply build_of.
Qed.

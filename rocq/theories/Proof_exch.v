(* Proofs about buffers and NumPy arrays. *)
From Verif Require Import Common Model_num Model_tsr Spec_tsr Proof_tsr Model_exch Spec_exch.
Local Open Scope Z_scope.

Lemma bytes_at_ok mem p k : 0 <= p -> 0 <= k -> p + k <= Z.of_nat (length mem) ->
  bytes_at mem p k = Some (firstn (Z.to_nat k) (skipn (Z.to_nat p) mem)) /\
  Z.of_nat (length (firstn (Z.to_nat k) (skipn (Z.to_nat p) mem))) = k.
Proof.
  intros A B C. split.
  - unfold bytes_at. destruct (0 <=? p) eqn:E1; [|lia]. destruct (p + k <=? Z.of_nat (length mem)) eqn:E2; [reflexivity|lia].
  - rewrite firstn_length, skipn_length. lia.
Qed.

Lemma items_at_ok mem k : 0 <= k -> forall n p, 0 <= p -> p + Z.of_nat n * k <= Z.of_nat (length mem) ->
  exists l, items_at mem p k n = Some l /\ length l = n /\ Forall (fun x => Z.of_nat (length x) = k) l /\
    forall i, 0 <= i < Z.of_nat n -> nth_error l (Z.to_nat i) = bytes_at mem (p + i * k) k.
Proof.
  intros K. induction n as [|n IH]; intros p P L.
  - exists []. cbn. repeat split; auto; lia.
  - destruct (IH (p + k)) as [l [E [Ln [F H]]]]; [lia|lia|].
    destruct (bytes_at_ok mem p k P K) as [E1 L1]; [nia|].
    exists (firstn (Z.to_nat k) (skipn (Z.to_nat p) mem) :: l).
    cbn [items_at]. rewrite E1, E. split; [reflexivity|]. split; [cbn; lia|]. split; [constructor; assumption|].
    intros i Hi. destruct (Z.eq_dec i 0) as [->|N].
    + cbn [Z.to_nat nth_error]. rewrite <- E1. f_equal. lia.
    + replace (Z.to_nat i) with (S (Z.to_nat (i - 1))) by lia. cbn [nth_error]. rewrite H by lia. f_equal. lia.
Qed.

Lemma concat_len k : 0 <= k -> forall l : list (list byte), Forall (fun x => Z.of_nat (length x) = k) l ->
  Z.of_nat (length (concat l)) = Z.of_nat (length l) * k.
Proof.
  intros K. induction 1 as [|x l Hx Hl IH]; [reflexivity|]. cbn [concat]. rewrite app_length. cbn [length]. lia.
Qed.

Lemma concat_item k : 0 <= k -> forall l : list (list byte), Forall (fun x => Z.of_nat (length x) = k) l ->
  forall i, 0 <= i < Z.of_nat (length l) -> bytes_at (concat l) (i * k) k = nth_error l (Z.to_nat i).
Proof.
  intros K. induction 1 as [|x l Hx Hl IH]; intros i Hi; [cbn in Hi; lia|].
  pose proof (concat_len k K l Hl) as CL. cbn [length] in Hi.
  destruct (bytes_at_ok (concat (x :: l)) (i * k) k) as [E _]; [nia|lia| |].
  { cbn [concat]. rewrite app_length. nia. }
  rewrite E. clear E. destruct (Z.eq_dec i 0) as [->|N].
  - cbn [Z.mul Z.to_nat skipn nth_error concat]. rewrite firstn_app.
    replace (Z.to_nat k - length x)%nat with 0%nat by lia. cbn [firstn]. rewrite app_nil_r, firstn_all2 by lia; reflexivity.
  - replace (Z.to_nat i) with (S (Z.to_nat (i - 1))) by lia. cbn [nth_error]. rewrite <- IH by lia.
    destruct (bytes_at_ok (concat l) ((i - 1) * k) k) as [E _]; [nia|lia|nia|]. rewrite E. f_equal. f_equal.
    cbn [concat]. rewrite skipn_app, skipn_all2 by nia. cbn [app]. f_equal. nia.
Qed.

Lemma place_scale k ss : forall idx, place (map (fun s => k * s) ss) idx = k * place ss idx.
Proof.
  induction ss as [|s ss IH]; intros [|i idx]; cbn [map place]; rewrite ?IH; lia.
Qed.
Lemma place_div k ss : 0 < k -> Forall (fun s => 0 <= s < 2 ^ 63 /\ (k | s)) ss -> forall idx,
  place ss idx = k * place (map (fun s => s / k) ss) idx.
Proof.
  intros K. induction 1 as [|s ss [Hs [q Q]] F IH]; intros [|i idx]; cbn [map place]; try reflexivity;
  try lia. rewrite (IH idx). subst s. rewrite Z.div_mul by lia. lia.
Qed.
Lemma reach_div k : 0 < k -> forall ss shape, Forall (fun s => 0 <= s < 2 ^ 63 /\ (k | s)) ss ->
  reach shape ss = k * reach shape (map (fun s => s / k) ss).
Proof.
  intros K ss shape F. revert shape. induction F as [|s ss [Hs [q Q]] F IH]; intros [|d shape]; cbn [map reach]; try lia.
  rewrite IH. subst s. rewrite Z.div_mul by lia. nia.
Qed.

(* ---------------- types ---------------- *)

Ltac codes := repeat match goal with
  | |- context [N.eqb ?c ?n] => destruct (N.eqb_spec c n); [subst|]
  end.

Lemma code_type_kind c item dt : code_data_type c item = Some dt -> char_kind c = Some (type_kind dt) /\ item_size dt = item.
Proof.
  unfold code_data_type. intros H.
  repeat match type of H with
  | (if N.eqb c ?n then _ else _) = _ => destruct (N.eqb_spec c n); [subst c|]
  | (if item =? ?n then Some ?x else ?r) = _ =>
      destruct (Z.eqb_spec item n); [injection H as <-; subst item; split; reflexivity|]
  | None = Some _ => discriminate H
  end.
Qed.

Lemma type_of_format b dt : get_data_type b = Some dt ->
  format_kind (i_format b) = Some (type_kind dt) /\ item_size dt = i_item b.
Proof.
  unfold get_data_type. destruct (i_format b) as [|p [|c [|]]]; try discriminate.
  - intros H. apply code_type_kind in H. exact H.
  - destruct (N.eqb_spec p 64) as [->|A]; [|destruct (N.eqb_spec p 61) as [->|B]]; cbn [orb]; try discriminate;
      intros H; apply code_type_kind in H; exact H.
Qed.

Lemma export_kind dt : dt <> D_size -> format_kind (export_format dt) = Some (type_kind dt).
Proof. destruct dt as [| | | |[]|]; intros H; try reflexivity. congruence. Qed.

Lemma export_size dt : In (item_size dt) (format_sizes (export_format dt)).
Proof. destruct dt as [| | | |[]|]; left; reflexivity. Qed.

Lemma code_type_complete c n k : char_kind c = Some k -> In n (char_sizes c) -> c <> 110%N ->
  exists dt, code_data_type c n = Some dt /\ type_kind dt = k.
Proof.
  unfold char_kind. intros K I N.
  assert (C : In c [101; 102; 100; 98; 104; 105; 108; 113; 66; 72; 73; 76; 81; 78; 79]%N).
  { destruct (existsb (N.eqb c) [101; 102; 100]%N) eqn:E1.
    { apply existsb_exists in E1. destruct E1 as [x [X Y]]. apply N.eqb_eq in Y. subst x. cbn in X |- *. tauto. }
    destruct (existsb (N.eqb c) [98; 104; 105; 108; 113; 110]%N) eqn:E2.
    { apply existsb_exists in E2. destruct E2 as [x [X Y]]. apply N.eqb_eq in Y. subst x. cbn in X |- *. intuition congruence. }
    destruct (existsb (N.eqb c) [66; 72; 73; 76; 81; 78]%N) eqn:E3.
    { apply existsb_exists in E3. destruct E3 as [x [X Y]]. apply N.eqb_eq in Y. subst x. cbn in X |- *. tauto. }
    destruct (N.eqb_spec c 79) as [E|]; [subst c; cbn; tauto|discriminate]. }
  clear N. cbn [In] in C.
  repeat (destruct C as [<-|C]; [cbn in K, I; injection K as <-;
    repeat (destruct I as [<-|I]; [eexists; split; reflexivity|]); contradiction|]). contradiction.
Qed.

Lemma type_of_format_complete b k : format_kind (i_format b) = Some k -> In (i_item b) (format_sizes (i_format b)) ->
  last (i_format b) 0%N <> 110%N -> exists dt, get_data_type b = Some dt /\ type_kind dt = k.
Proof.
  unfold format_kind, format_sizes, get_data_type. destruct (i_format b) as [|p [|c [|]]]; try discriminate; cbn [last]; intros K I N.
  - apply code_type_complete; assumption.
  - replace ((p =? 64) || (p =? 61))%N with (existsb (N.eqb p) [64; 61]%N) by (cbn [existsb]; rewrite Bool.orb_false_r; reflexivity).
    destruct (existsb (N.eqb p) [64; 61]%N); [|discriminate]. apply code_type_complete; assumption.
Qed.

Lemma item_size_pos dt : 0 < item_size dt.
Proof. destruct dt as [| | | |[]|]; reflexivity. Qed.

Lemma item_size_le dt : item_size dt <= 8.
Proof. destruct dt as [| | | |[]|]; cbn; lia. Qed.

(* ---------------- arrays from buffers ---------------- *)

Definition made (mem : list byte) (b : info) (cpy : bool) (dt : dtype) (a : array) : Prop :=
  array_size a = volume (i_shape b) /\ proper_array mem dt a /\
  (forall later n, (cpy = true \/ length later = length mem) -> 0 <= n < volume (i_shape b) ->
     array_item later a n = bytes_at (if cpy then mem else later) (i_ptr b + n * i_item b) (i_item b)).

Lemma make_array_ok mem writable b cpy dt :
  get_data_type b = Some dt -> (cpy = true \/ (writable = true /\ dt <> D_string)) -> 0 <= volume (i_shape b) ->
  0 <= i_ptr b -> i_ptr b + volume (i_shape b) * i_item b <= Z.of_nat (length mem) ->
  exists a, make_device_array mem writable b cpy = Ok (dt, a) /\ made mem b cpy dt a.
Proof.
  intros G W V P L. destruct (type_of_format b dt G) as [_ I]. pose proof (item_size_pos dt) as IP.
  unfold make_device_array. rewrite G. change (i_size b) with (volume (i_shape b)). destruct cpy.
  - cbn [negb andb]. destruct (items_at_ok mem (i_item b) ltac:(lia) (Z.to_nat (volume (i_shape b))) (i_ptr b) P) as [l [E [Ln [F H]]]]; [nia|].
    rewrite E. eexists. split; [reflexivity|]. split; [cbn [array_size]; lia|]. split; [cbn [proper_array]; rewrite I; exact F|].
    intros later n _ Hn. cbn [array_item]. destruct (n <? 0) eqn:E0; [lia|]. apply H. lia.
  - destruct W as [W|[-> NS]]; [discriminate|]. cbn [negb andb].
    assert (M : made mem b false dt (Shared (i_ptr b) (i_item b) (Z.to_nat (volume (i_shape b))))).
    { split; [cbn [array_size]; lia|]. split; [cbn [proper_array]; repeat split; nia|].
      intros later n _ Hn. cbn [array_item]. destruct (0 <=? n) eqn:E0; [|lia].
      destruct (n <? Z.of_nat (Z.to_nat (volume (i_shape b)))) eqn:E1; [reflexivity|lia]. }
    destruct dt; try (eexists; split; [reflexivity|exact M]). congruence.
Qed.

(* The buffer of a tensor shows the items of the tensor. *)
Lemma buffer_shows mem t : proper_tensor mem t -> forall later,
  length later = length mem \/ (exists l, t_array t = Owned l) ->
  let '(m, b) := tensor_to_buffer later t in
  i_shape b = t_shape t /\ i_item b = item_size (t_type t) /\ i_format b = export_format (t_type t) /\
  forall idx, in_range (t_shape t) idx -> item_of m b idx = tensor_item later t idx /\ tensor_item later t idx <> None.
Proof.
  intros [PA [Pos [Len [NN R]]]] later HL. pose proof (item_size_pos (t_type t)) as IP.
  unfold tensor_to_buffer, tensor_item. destruct (t_array t) as [l|p k size] eqn:EA; cbn [i_shape i_item i_format].
  - repeat split; auto; intros; pose proof (place_reach_pos _ _ _ H NN) as PR; cbn [array_size] in R;
      unfold item_of; cbn [i_ptr i_strides i_item array_item proper_array] in *.
    + rewrite place_scale. destruct (place (t_strides t) idx <? 0) eqn:E0; [lia|].
      rewrite <- (concat_item (item_size (t_type t)) ltac:(lia) l PA) by lia. f_equal. lia.
    + destruct (place (t_strides t) idx <? 0) eqn:E0; [lia|]. intros C. apply nth_error_None in C. lia.
  - destruct HL as [HL|[l Hl]]; [|discriminate]. cbn [array_size proper_array] in *. destruct PA as [-> [P0 P1]].
    repeat split; auto; intros; pose proof (place_reach_pos _ _ _ H NN) as PR;
      unfold item_of; cbn [i_ptr i_strides i_item array_item].
    + rewrite place_scale. destruct (0 <=? place (t_strides t) idx) eqn:E0; [|lia].
      destruct (place (t_strides t) idx <? Z.of_nat size) eqn:E1; [|lia]. cbn [andb]. f_equal. lia.
    + destruct (0 <=? place (t_strides t) idx) eqn:E0; [|lia].
      destruct (place (t_strides t) idx <? Z.of_nat size) eqn:E1; [|lia]. cbn [andb].
      destruct (bytes_at_ok later (p + place (t_strides t) idx * item_size (t_type t)) (item_size (t_type t))) as [E _]; [nia|lia|nia|].
      rewrite E. discriminate.
Qed.

(* ---------------- NumPy arrays ---------------- *)

Lemma compact_accepted mem b : compact mem b -> forall n, n = volume (i_shape b) ->
  dense_tensor (i_shape b) n (map (fun s => s / i_item b) (i_strides b)) = Ok (map (fun s => s / i_item b) (i_strides b)).
Proof.
  intros [Pos [Len [St [Re [It [P0 [P1 V]]]]]]] n ->.
  destruct (i_shape b) as [|d shape] eqn:ES.
  - destruct (i_strides b); [reflexivity|discriminate].
  - pose proof (positive_volume _ Pos) as VP.
    rewrite (reach_div _ It _ _ St) in Re.
    assert (Rn : 0 <= reach (d :: shape) (map (fun s => s / i_item b) (i_strides b))) by (apply reach_nonneg; exact Pos).
    rewrite strided_accepts.
    + destruct (reach (d :: shape) (map (fun s => s / i_item b) (i_strides b)) <? volume (d :: shape)) eqn:E; [reflexivity|nia].
    + discriminate.
    + exact Pos.
    + apply Forall_map. eapply Forall_impl; [|exact St]. intros s [Hs _]. cbn beta.
      assert (0 <= s / i_item b) by (apply Z.div_pos; lia).
      assert (s / i_item b <= s) by (apply Z.div_le_upper_bound; nia). lia.
    + nia.
    + destruct (i_strides b); [discriminate|discriminate].
    + rewrite map_length. exact Len.
Qed.

Lemma numpy_compact mem writable b cpy dt later :
  get_data_type b = Some dt -> dt <> D_size -> (cpy = true \/ (writable = true /\ dt <> D_string)) ->
  i_item b = 8 -> compact mem b -> length later = length mem ->
  exists t, numpy_to_tensor mem writable b cpy = Ok t /\
    let '(m, b') := tensor_to_buffer later t in same (if cpy then mem else later) b m b'.
Proof.
  intros G NS W I8 C HL. pose proof C as [Pos [Len [St [Re [It [P0 [P1 V]]]]]]].
  pose proof (positive_volume _ Pos) as VP.
  destruct (type_of_format b dt G) as [K I].
  destruct (make_array_ok mem writable b cpy dt G W ltac:(lia) P0 P1) as [a [E [SZ [PA H]]]].
  unfold numpy_to_tensor, is_object. rewrite G.
  assert (negb cpy && match dt with D_string => true | _ => false end = false) as ->.
  { destruct W as [->|[_ N]]; [reflexivity|]. destruct cpy; [reflexivity|]. destruct dt; congruence || reflexivity. }
  unfold make_dense_tensor. rewrite E. cbn [bind].
  pose proof (compact_accepted mem b C (array_size a) SZ) as A. rewrite I8 in A. rewrite A. cbn [bind].
  eexists. split; [reflexivity|].
  set (t := mk_tensor dt (i_shape b) (map (fun s => s / 8) (i_strides b)) a).
  assert (PT : proper_tensor mem t).
  { split; [exact PA|]. split; [exact Pos|]. split; [cbn; rewrite map_length; exact Len|]. split.
    - cbn [t t_strides]. apply Forall_map. eapply Forall_impl; [|exact St]. intros s [Hs _]. cbn beta. apply Z.div_pos; lia.
    - cbn [t t_shape t_strides t_array]. rewrite (reach_div _ It _ _ St), I8 in Re. rewrite SZ. nia. }
  pose proof (buffer_shows mem t PT later (or_introl HL)) as B.
  destruct (tensor_to_buffer later t) as [m b']. destruct B as [B1 [B2 [B3 B4]]].
  split; [exact B1|]. split; [cbn [t t_type] in B2; lia|]. split.
  - rewrite B3, K. apply export_kind. exact NS.
  - intros idx Hi. destruct (B4 idx Hi) as [X Y]. rewrite X in *. unfold tensor_item in *. cbn [t t_array t_strides] in *.
    assert (St8 : Forall (fun s => 0 <= s < 2 ^ 63 /\ (8 | s)) (i_strides b)) by (rewrite <- I8; exact St).
    pose proof (place_div 8 (i_strides b) ltac:(lia) St8 idx) as D.
    assert (NNs : Forall (fun s => 0 <= s) (map (fun s => s / 8) (i_strides b))) by apply PT.
    pose proof (place_reach_pos _ _ _ Hi NNs) as PR.
    assert (RR : reach (i_shape b) (map (fun s => s / 8) (i_strides b)) < volume (i_shape b)).
    { rewrite (reach_div _ It _ _ St), I8 in Re. nia. }
    rewrite H in * by (auto; lia). unfold item_of. rewrite D, I8 in *.
    rewrite (Z.mul_comm 8). split; [reflexivity|exact Y].
Qed.

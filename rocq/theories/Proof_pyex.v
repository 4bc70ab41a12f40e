From Verif Require Import Common Model_num Model_tsr Spec_tsr Proof_tsr Model_pyex Spec_pyex.
From Coq Require Import ZArith Lia.
Local Open Scope Z_scope.

Lemma combine_fst {A B} (a : list A) (b : list B) : length a = length b -> map fst (combine a b) = a.
Proof. revert b. induction a as [|x a IH]; intros [|y b] H; cbn in *; try discriminate; [reflexivity|]. rewrite IH by lia. reflexivity. Qed.
Lemma combine_snd {A B} (a : list A) (b : list B) : length a = length b -> map snd (combine a b) = b.
Proof. revert b. induction a as [|x a IH]; intros [|y b] H; cbn in *; try discriminate; [reflexivity|]. rewrite IH by lia. reflexivity. Qed.

Section Look.
  Context {T : Type} (attrs : list attribute) (s : schema) (fs : list T) (e : example T).
  Hypothesis S : new_schema attrs = Ok s.
  Hypothesis E : new_example s fs = Ok e.

  Definition named : list (list byte * T) := combine (map a_name attrs) fs.

  Lemma shape_of_example : e = mk_example s fs 0 /\ length attrs = length fs /\ s_attributes s = attrs.
  Proof.
    destruct (schema_lookup _ _ S) as (SA & _). unfold new_example in E. rewrite SA in E.
    destruct (Nat.eqb (length attrs) (length fs)) eqn:Q; [|discriminate]. apply Nat.eqb_eq in Q. injection E as <-. auto.
  Qed.
  Lemma named_length : length named = length fs.
  Proof. destruct shape_of_example as (_ & Q & _). unfold named. rewrite combine_length, map_length. lia. Qed.
  Lemma named_fst : map fst named = map a_name attrs.
  Proof. destruct shape_of_example as (_ & Q & _). apply combine_fst. rewrite map_length. exact Q. Qed.
  Lemma named_snd : map snd named = fs.
  Proof. destruct shape_of_example as (_ & Q & _). apply combine_snd. rewrite map_length. exact Q. Qed.
  Lemma named_nth k n t : nth_error named k = Some (n, t) <-> (exists a, nth_error attrs k = Some a /\ a_name a = n) /\ nth_error fs k = Some t.
  Proof.
    unfold named. clear S E. revert k fs. induction attrs as [|a l IH]; intros [|k] [|t' l']; cbn; split; intros H;
      try discriminate; try (destruct H as [H H']; try destruct H as (? & H & _); discriminate).
    - injection H as <- <-. split; [exists a; auto|reflexivity].
    - destruct H as [(a' & H & <-) H']. injection H as ->. injection H' as ->. reflexivity.
    - apply IH in H. exact H.
    - apply IH. exact H.
  Qed.

  Lemma found n : In n (map a_name attrs) -> exists k t, get_index s n = Some k /\ nth_error named k = Some (n, t) /\ nth_error fs k = Some t.
  Proof.
    intros I. destruct (schema_lookup _ _ S) as (_ & _ & G). destruct shape_of_example as (_ & Q & _).
    apply in_map_iff in I. destruct I as (a & <- & I). apply In_nth_error in I. destruct I as [k I].
    assert (k < length fs)%nat by (rewrite <- Q; apply nth_error_Some; congruence).
    destruct (nth_error fs k) as [t|] eqn:F; [|apply nth_error_None in F; lia]. exists k, t.
    split; [apply G; eauto|]. split; [|exact F]. apply named_nth. eauto.
  Qed.
  Lemma missing n : ~ In n (map a_name attrs) -> get_index s n = None.
  Proof.
    intros N. destruct (schema_lookup _ _ S) as (_ & _ & G). destruct (get_index s n) as [k|] eqn:Q; [|reflexivity].
    apply G in Q. destruct Q as (a & Q & <-). destruct N. apply in_map. eapply nth_error_In; eauto.
  Qed.

  Lemma zip_named : zip_text attrs fs = Some named.
  Proof.
    destruct shape_of_example as (_ & Q & _). unfold named. clear - Q. revert Q. generalize fs. induction attrs as [|a l IH]; intros [|t l'] H; cbn in *; try discriminate; [reflexivity|].
    rewrite IH by lia. reflexivity.
  Qed.

  Lemma look_ok o : looks_only o -> exists v, py_do o e = (v, e) /\ expected named o v.
  Proof.
    intros H. pose proof named_length as NL. pose proof named_fst as NF. pose proof named_snd as NS. pose proof found as FO.
    pose proof missing as MI. pose proof zip_named as ZN.
    destruct shape_of_example as (EE & Q & SA). rewrite EE. destruct o; cbn [looks_only] in H; try contradiction; cbn [py_do expected];
      eexists; (split; [reflexivity|]); unfold find_feature; cbn [e_schema e_features]; rewrite ?NL, ?NF, ?NS, ?SA.
    - reflexivity.
    - destruct (in_dec (list_eq_dec N.eq_dec) n (map a_name attrs)) as [I|N].
      + destruct (FO n I) as (k & t & -> & A & ->). left. exists t. split; [|reflexivity]. eapply nth_error_In; eauto.
      + rewrite (MI n N). right. auto.
    - unfold as_index. destruct (Z.leb_spec 0 i), (Z.ltb_spec i (2 ^ 64)); cbn [andb];
        try (right; right; split; [lia|reflexivity]).
      destruct (Z.leb_spec (Z.of_nat (length fs)) i); [right; left; split; [lia|reflexivity]|]. left. split; [lia|].
      assert (K : (Z.to_nat i < length fs)%nat) by lia. destruct (nth_error fs (Z.to_nat i)) as [t|] eqn:F; [|apply nth_error_None in F; lia].
      destruct (nth_error attrs (Z.to_nat i)) as [a|] eqn:F'; [|apply nth_error_None in F'; lia].
      exists (a_name a), t. split; [|reflexivity]. apply named_nth. eauto.
    - destruct (in_dec (list_eq_dec N.eq_dec) n (map a_name attrs)) as [I|N].
      + destruct (FO n I) as (k & t & -> & _). left. auto.
      + rewrite (MI n N). right. auto.
    - unfold as_index. destruct (Z.leb_spec 0 i), (Z.ltb_spec i (2 ^ 64)); cbn [andb];
        try (right; right; split; [lia|reflexivity]).
      destruct (Z.ltb_spec i (Z.of_nat (length fs))); [left|right; left]; (split; [lia|reflexivity]).
    - reflexivity.
    - destruct (in_dec (list_eq_dec N.eq_dec) n (map a_name attrs)) as [I|N].
      + destruct (FO n I) as (k & t & -> & A & _). left. eauto.
      + rewrite (MI n N). right. auto.
    - reflexivity.
    - rewrite ZN. reflexivity.
  Qed.

  Lemma looks_ok ops : Forall looks_only ops -> Forall2 (expected named) ops (py_run ops e).
  Proof.
    induction 1 as [|o ops H F IH]; cbn [py_run]; [constructor|]. destruct (look_ok o H) as (v & -> & X). constructor; auto.
  Qed.
End Look.

(* ---------------- pandas ---------------- *)

Lemma numbers_length n : forall from, length (numbers from n) = n.
Proof. induction n; intros; cbn; auto. Qed.
Lemma numbers_nth n : forall from i, (i < n)%nat -> nth_error (numbers from n) i = Some (from + Z.of_nat i).
Proof.
  induction n as [|n IH]; intros from i H; [lia|]. destruct i; cbn [numbers nth_error]; [f_equal; lia|].
  rewrite IH by lia. f_equal. lia.
Qed.

Lemma flat_map_blocks {A B} (f : A -> list B) k l : (forall x, In x l -> length (f x) = k) ->
  length (flat_map f l) = (length l * k)%nat /\
  forall i x r, nth_error l i = Some x -> (r < k)%nat -> nth_error (flat_map f l) (i * k + r) = nth_error (f x) r.
Proof.
  induction l as [|y l IH]; intros H; cbn [flat_map length].
  - split; [reflexivity|]. intros [|i] x r E; discriminate.
  - destruct IH as [IH1 IH2]; [intros; apply H; right; assumption|]. assert (Hy : length (f y) = k) by (apply H; left; reflexivity).
    split; [rewrite app_length; lia|]. intros [|i] x r E R; cbn [nth_error] in E.
    + injection E as ->. cbn [Nat.mul Nat.add]. apply nth_error_app1. lia.
    + rewrite nth_error_app2 by lia. rewrite <- (IH2 i x r E R). f_equal. lia.
Qed.

Lemma volume_nonneg shape : Forall (fun d => 0 <= d) shape -> 0 <= volume shape.
Proof. induction 1; [cbn; lia|]. rewrite volume_cons. nia. Qed.

Lemma indices_length shape : Forall (fun d => 0 <= d) shape -> Z.of_nat (length (indices_of shape)) = volume shape.
Proof.
  induction 1 as [|d shape H F IH]; [reflexivity|]. cbn [indices_of].
  destruct (flat_map_blocks (fun i => map (cons i) (indices_of shape)) (length (indices_of shape)) (numbers 0 (Z.to_nat d))) as [E _].
  { intros x _. apply map_length. }
  rewrite E, numbers_length, volume_cons. rewrite Nat2Z.inj_mul, IH. rewrite Z2Nat.id by lia. reflexivity.
Qed.

Lemma indices_nth shape : Forall (fun d => 0 <= d) shape -> forall idx, in_range shape idx ->
  nth_error (indices_of shape) (Z.to_nat (place (std_strides shape) idx)) = Some idx.
Proof.
  induction 1 as [|d shape H F IH]; intros idx R; inversion R as [|? i ? idx' Hi R']; subst; [reflexivity|].
  cbn [indices_of std_strides place].
  destruct (flat_map_blocks (fun i => map (cons i) (indices_of shape)) (length (indices_of shape)) (numbers 0 (Z.to_nat d))) as [_ B].
  { intros x _. apply map_length. }
  pose proof (place_std _ _ R') as P. pose proof (indices_length shape F) as LI.
  replace (Z.to_nat (i * volume shape + place (std_strides shape) idx')) with
    (Z.to_nat i * length (indices_of shape) + Z.to_nat (place (std_strides shape) idx'))%nat by nia.
  rewrite (B (Z.to_nat i) (0 + Z.of_nat (Z.to_nat i))); [|apply numbers_nth; lia|lia].
  rewrite nth_error_map, (IH idx' R'). cbn. f_equal. f_equal. lia.
Qed.

Lemma flatten_holds {V} shape (item : list Z -> V) : Forall (fun d => 0 <= d) shape -> column_holds (flatten shape item) shape item.
Proof.
  intros F. split.
  - unfold flatten. rewrite map_length. apply indices_length. exact F.
  - intros idx R. unfold flatten. rewrite nth_error_map, row_major_place by exact R. rewrite indices_nth by assumption. reflexivity.
Qed.

Lemma dict_new {V} k (v : list V) d : ~ In k (map fst d) -> dict_set k v d = d ++ [(k, v)].
Proof.
  induction d as [|[k' v'] d IH]; intros N; cbn [dict_set app]; [reflexivity|]. cbn in N.
  unfold bytes_eqb. destruct (list_eq_dec N.eq_dec k k') as [-> |D]; [destruct N; auto|]. rewrite IH by tauto. reflexivity.
Qed.

Definition flat {V} (f : feature V) : list V := match f with Dense shape item => flatten shape item | Sparse => [] end.

Lemma columns_ok {V} : forall attrs (fs : list (feature V)) d, length attrs = length fs -> Forall (fun f => f <> Sparse) fs ->
  NoDup (map fst d ++ map a_name attrs) ->
  columns_of attrs fs d = Ok (d ++ combine (map a_name attrs) (map flat fs)).
Proof.
  induction attrs as [|a attrs IH]; intros [|f fs] d L F N; cbn in L; try discriminate.
  - cbn. rewrite app_nil_r. reflexivity.
  - inversion F as [|? ? Ff F']; subst. destruct f as [shape item|]; [|congruence]. cbn [columns_of map combine flat].
    assert (NI : ~ In (a_name a) (map fst d)).
    { cbn [map] in N. apply NoDup_remove_2 in N. intro I. apply N. apply in_or_app. auto. }
    rewrite dict_new by exact NI. rewrite IH; [rewrite <- app_assoc; reflexivity|lia|exact F'|].
    rewrite map_app. cbn [map fst]. rewrite <- app_assoc. exact N.
Qed.

Lemma columns_sparse {V} : forall attrs (fs : list (feature V)) d, length attrs = length fs -> In Sparse fs ->
  columns_of attrs fs d = Throw Invalid_argument.
Proof.
  induction attrs as [|a attrs IH]; intros [|f fs] d L I; cbn in L; try discriminate; [destruct I|].
  cbn [columns_of]. destruct f as [shape item|]; [|reflexivity]. destruct I as [E|I]; [discriminate|]. apply IH; [lia|exact I].
Qed.

Section Frames.
  Context {V : Type} (attrs : list attribute) (s : schema) (fs : list (feature V)) (e : example (feature V)).
  Hypothesis S : new_schema attrs = Ok s.
  Hypothesis E : new_example s fs = Ok e.

  Lemma to_pandas_dense : Forall (fun f => f <> Sparse) fs ->
    to_pandas e = data_frame (combine (map a_name attrs) (map flat fs)).
  Proof.
    intros F. destruct (shape_of_example attrs s fs e S E) as (-> & L & SA). unfold to_pandas. cbn [e_schema e_features]. rewrite SA.
    destruct (schema_lookup _ _ S) as (_ & D & _). rewrite (columns_ok attrs fs [] L F D). reflexivity.
  Qed.

  Lemma to_pandas_sparse : In Sparse fs -> to_pandas e = Throw Invalid_argument.
  Proof.
    intros I. destruct (shape_of_example attrs s fs e S E) as (-> & L & SA). unfold to_pandas. cbn [e_schema e_features]. rewrite SA.
    rewrite (columns_sparse attrs fs [] L I). reflexivity.
  Qed.

  Lemma flat_size f : (forall shape item, f = Dense shape item -> Forall (fun d => 0 <= d) shape) -> f <> Sparse ->
    exists shape item, f = @Dense V shape item /\ column_holds (flat f) shape item.
  Proof. intros H N. destruct f as [shape item|]; [|congruence]. exists shape, item. split; [reflexivity|]. apply flatten_holds. eauto. Qed.

  Lemma pandas_ok k : Forall (dense_of k) fs ->
    exists frame, to_pandas e = Ok frame /\ map fst frame = map a_name attrs /\
      Forall2 (fun f c => exists shape item, f = Dense shape item /\ column_holds (snd c) shape item) fs frame.
  Proof.
    intros F. assert (NS : Forall (fun f => f <> Sparse) fs).
    { eapply Forall_impl; [|exact F]. intros f (sh & it & -> & _). discriminate. }
    rewrite (to_pandas_dense NS). destruct (shape_of_example attrs s fs e S E) as (_ & L & _).
    set (d := combine (map a_name attrs) (map flat fs)).
    assert (LN : forall c, In c d -> Z.of_nat (length (snd c)) = k).
    { intros [n c] I. apply in_combine_r in I. apply in_map_iff in I. destruct I as (f & <- & I).
      apply (proj1 (Forall_forall _ _) F) in I. destruct I as (sh & it & -> & P & <-). cbn. apply (flatten_holds sh it P). }
    exists d. split; [|split].
    - unfold data_frame. destruct d as [|[n c] d']; [reflexivity|].
      assert (A : forallb (fun kc : list byte * list V => Nat.eqb (length (snd kc)) (length c)) d' = true).
      { apply forallb_forall. intros x I. apply Nat.eqb_eq. apply Nat2Z.inj. rewrite (LN x) by (right; exact I).
        symmetry. apply (LN (n, c)). left. reflexivity. }
      rewrite A. reflexivity.
    - apply combine_fst. rewrite !map_length. exact L.
    - subst d. clear - F L. revert F L. generalize fs. induction attrs as [|a l IH]; intros [|f fs'] F L; cbn in *; try discriminate; [constructor|].
      inversion F as [|? ? (sh & it & -> & P & Q) F']; subst. constructor; [|apply IH; [exact F'|lia]].
      exists sh, it. split; [reflexivity|]. cbn. apply flatten_holds. exact P.
  Qed.

  Lemma pandas_lengths j k f g vf vg : Forall (fun f => exists v : Z, dense_of v f) fs ->
    nth_error fs j = Some f -> nth_error fs k = Some g -> dense_of vf f -> dense_of vg g -> vf <> vg ->
    to_pandas e = Throw Invalid_argument.
  Proof.
    intros F J K Df Dg N. assert (NS : Forall (fun f => f <> Sparse) fs).
    { eapply Forall_impl; [|exact F]. intros h (v & sh & it & -> & _). discriminate. }
    rewrite (to_pandas_dense NS). destruct (shape_of_example attrs s fs e S E) as (_ & L & _).
    assert (SZ : forall v (h : feature V), dense_of v h -> Z.of_nat (length (flat h)) = v).
    { intros v h (sh & it & -> & P & <-). cbn. apply (flatten_holds sh it P). }
    assert (IN : forall i h, nth_error fs i = Some h -> exists n, In (n, flat h) (combine (map a_name attrs) (map flat fs))).
    { intros i h Hi. assert (i < length attrs)%nat by (rewrite L; apply nth_error_Some; congruence).
      destruct (nth_error attrs i) as [a|] eqn:A; [|apply nth_error_None in A; lia]. exists (a_name a).
      clear - A Hi. revert i A Hi. generalize fs. induction attrs as [|a' l IH]; intros [|h' l'] [|i] A Hi; cbn in *; try discriminate.
      - injection A as ->. injection Hi as ->. left. reflexivity.
      - right. eapply IH; eauto. }
    destruct (IN j f J) as [n1 I1], (IN k g K) as [n2 I2]. pose proof (SZ _ _ Df) as Z1. pose proof (SZ _ _ Dg) as Z2.
    unfold data_frame. destruct (combine (map a_name attrs) (map flat fs)) as [|[n c] d]; [destruct I1|].
    destruct (forallb _ d) eqn:A; [|reflexivity]. exfalso.
    assert (B : forall n' c', In (n', c') ((n, c) :: d) -> length c' = length c).
    { intros n' c' [X|I]; [injection X as _ ->; reflexivity|].
      pose proof (proj1 (forallb_forall _ _) A _ I) as Q. apply Nat.eqb_eq in Q. exact Q. }
    apply B in I1. apply B in I2. lia.
  Qed.
End Frames.

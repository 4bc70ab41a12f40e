From Verif Require Import Common Model_num Model_tsr Spec_tsr Proof_tsr Model_csv Proof_csv Model_pb Spec_pb Proof_pb Proof_pb_props Model_report Model_pbreport Spec_pbreport.
From Coq Require String.
Import String.StringSyntax.
Local Open Scope string_scope.
Local Open Scope list_scope.
Local Open Scope Z_scope.

(* ---------- the texts ---------- *)
Lemma dec_is n : dec n = numeral n.
Proof. reflexivity. Qed.
Lemma joined_is ds : joined ds = listed ds.
Proof.
  destruct ds as [|d ds]; [reflexivity|]. revert d. induction ds as [|e ds IH]; intro d; [cbn; now rewrite app_nil_r|].
  change (joined (d :: e :: ds)) with (dec d ++ tx ", " ++ joined (e :: ds)). rewrite IH. unfold listed. cbn [map concat].
  rewrite dec_is, <- !app_assoc. reflexivity.
Qed.
Lemma type_is dt : type_text dt = type_name dt.
Proof. destruct dt; try reflexivity; match goal with t : ity |- _ => destruct t end; reflexivity. Qed.

(* What the code says: as it should, except that it confuses sparse and dense. *)
Definition spoken (store : str) (nr : nat) (q : problem) : str :=
  sentence store nr (match q with Density name b => Density name (negb b) | _ => q end).

Ltac text := unfold format, spoken, sentence, count; cbn -[dec numeral joined listed type_text type_name Z.of_nat];
  rewrite ?joined_is, ?type_is, ?dec_is; cbn -[dec numeral joined listed type_text type_name Z.of_nat];
  repeat first [rewrite <- app_assoc | progress (cbn [app])]; reflexivity.

Section Texts.
  Context (store : str) (nr : nat).
  Lemma corrupt_is : corrupt store nr = spoken store nr Corrupt.
  Proof. unfold corrupt. text. Qed.
  Lemma unknown_is n : unknown store nr n = spoken store nr (Unknown n).
  Proof. unfold unknown. text. Qed.
  Lemma unexpected_is n : unexpected store nr n = spoken store nr (Untyped n).
  Proof. unfold unexpected. text. Qed.
  Lemma mistyped_is n a b : mistyped store nr n a b = spoken store nr (Mistyped n a b).
  Proof. unfold mistyped. text. Qed.
  Lemma misdense_is n b : misdense store nr n b = spoken store nr (Density n (negb b)).
  Proof. unfold misdense. destruct b; text. Qed.
  Lemma misshaped_is V n (t : ptensor V) sh : misshaped V store nr n t sh = spoken store nr (Misshaped n (value_shape V t) (tl sh)).
  Proof.
    unfold misshaped, value_shape. destruct (t_shape V t) as [|d ds].
    - unfold format, spoken, sentence, count. cbn -[dec numeral joined listed type_text type_name Z.of_nat]. rewrite joined_is.
      change (listed [Z.of_nat (length (t_values V t))]) with (numeral (Z.of_nat (length (t_values V t))) ++ []). rewrite app_nil_r, ?dec_is. repeat first [rewrite <- app_assoc | progress (cbn [app])]; reflexivity.
    - text.
  Qed.
  Lemma misfilled_is n k sh : misfilled store nr n k sh = spoken store nr (Misfilled n k (tl sh)).
  Proof. unfold misfilled. text. Qed.
  Lemma unpaired_is n a b : unpaired store nr n a b = spoken store nr (Unpaired n a b).
  Proof. unfold unpaired. text. Qed.
  Lemma misplaced_is n : misplaced store nr n = spoken store nr (Bad_keys n).
  Proof. unfold misplaced. text. Qed.
  Lemma miscounted_is a b : miscounted store nr a b = spoken store nr (Number a b).
  Proof. unfold miscounted. text. Qed.
End Texts.
Lemma skipped_is b : skipped_text b = skipped_sentence b.
Proof. unfold skipped_text, skipped_sentence. text. Qed.
Lemma padded_is b n : padded_text b n = padded_sentence b n.
Proof. unfold padded_text, padded_sentence. text. Qed.

(* ---------- what is returned does not depend on what is said ---------- *)
Definition returns {A : Type} (x : said A) : res A := snd (fst x).
Lemma returns_andthen {A B} (x : said A) (k : A -> said B) : returns (andthen x k) = bind (returns x) (fun a => returns (k a)).
Proof. destruct x as [[ws r] e]. destruct r as [a|t| |]; cbn; try reflexivity. destruct (k a) as [[? ?] ?]. reflexivity. Qed.

Section Returns.
  Context (V : Type) (warn err : bool) (s : schema) (store : str).
  Lemma complain_returns {A} m (a : A) : returns (complain warn err m a) = bad err a.
  Proof. reflexivity. Qed.
  Lemma tensor_returns nr idx a dt t : returns (tensor_says V warn err store nr idx a dt t) = check_tensor V err idx a dt t.
  Proof.
    unfold tensor_says, check_tensor. repeat match goal with |- returns (if ?b then _ else _) = _ => destruct b; try apply complain_returns; try reflexivity end.
  Qed.
  Lemma feature_returns nr name v : returns (feature_says V warn err s store nr name v) = check_feature V err s name v.
  Proof.
    unfold feature_says, check_feature. destruct (get_index s name) as [idx|]; [|apply complain_returns].
    destruct (nth_error _ idx) as [a|]; [|reflexivity]. destruct v; try apply tensor_returns; apply complain_returns.
  Qed.
  Lemma perform_returns nr row x st : returns (perform_says V warn err s store nr row x st) = perform V err s row x st.
  Proof.
    destruct x as [idx vs|idx vs ks]; [reflexivity|]. cbn [perform_says perform].
    destruct (nth_error st idx) as [[d|b]|]; try reflexivity. destruct (nth_error _ idx) as [a|]; try reflexivity.
    rewrite returns_andthen. cbn [silent returns fst snd]. destruct (append _ _ _ _ _) as [[b' ok]|t| |]; cbn [bind]; try reflexivity.
    destruct ok; reflexivity.
  Qed.
  Lemma features_returns nr row es : forall st, returns (features_say V warn err s store nr row es st) = decode_features V err s row es st.
  Proof.
    induction es as [|[name v] es IH]; intro st; [reflexivity|]. cbn [features_say decode_features].
    rewrite returns_andthen, feature_returns. destruct (check_feature _ _ _ _ _) as [[x|]|t| |]; cbn [bind]; try reflexivity.
    rewrite returns_andthen, perform_returns. destruct (perform _ _ _ _ _ _) as [[st' ok]|t| |]; cbn [bind]; try reflexivity.
    destruct ok; [apply IH|reflexivity].
  Qed.
  Lemma instance_returns nr row i st : returns (instance_says V warn err s store nr row i st) = decode_instance V err s row i st.
  Proof.
    destruct i as [m|]; [|reflexivity]. cbn [instance_says decode_instance]. rewrite returns_andthen, features_returns.
    destruct (decode_features _ _ _ _ _ _) as [[st' ok]|t| |]; cbn [bind]; try reflexivity. destruct ok; [|reflexivity].
    destruct (Nat.eqb _ _); reflexivity.
  Qed.
End Returns.

Lemma serial_returns V warn h s store is : forall row st,
  returns (serial_says V warn h s store is row st) = decode_serial V h s (map snd is) row st.
Proof.
  induction is as [|[nr i] is IH]; intros row st; [reflexivity|]. cbn [serial_says map snd decode_serial].
  rewrite returns_andthen, instance_returns. destruct (decode_instance _ _ _ _ _ _) as [[st' ok]|t| |]; cbn [bind]; try reflexivity.
  destruct ok; [apply IH|]. destruct (h_skip h); [reflexivity|]. destruct (h_pad h); [apply IH|reflexivity].
Qed.

Section Verdicts.
  Context (V : Type) (warn : bool) (h : beh) (s : schema) (store : str).
  Definition verdict_of (x : list str * verdict * option str) : verdict := snd (fst x).
  Lemma entries_verdict nr row es : verdict_of (entries_say V warn h s store nr es) = snd (instance_writes V h s row es).
  Proof.
    induction es as [|[name v] es IH]; [reflexivity|]. cbn [entries_say instance_writes].
    pose proof (feature_returns V warn (h_error h) s store nr name v) as E. unfold returns in E.
    destruct (feature_says V warn (h_error h) s store nr name v) as [[ws r] e]. cbn [fst snd] in E. rewrite <- E.
    destruct r as [[[idx vs|idx vs ks]|]|t| |]; try reflexivity. destruct (entries_say _ _ _ _ _ _ _) as [[ws' o] e'].
    destruct (instance_writes _ _ _ _ _) as [w o']. exact IH.
  Qed.
  Lemma run_verdict nr row i : verdict_of (run_says V warn h s store nr i) = snd (instance_run V h s row i).
  Proof.
    destruct i as [m|]; [|reflexivity]. cbn [run_says instance_run]. pose proof (entries_verdict nr row (m_entries V m)) as E.
    unfold verdict_of in E. destruct (entries_say _ _ _ _ _ _ _) as [[ws o] e], (instance_writes _ _ _ _ _) as [w o']. cbn [fst snd] in E. subst o'.
    destruct o; try reflexivity. destruct (Nat.eqb _ _); reflexivity.
  Qed.
  (* The rows are the positions in the batch; they do not matter here. *)
  Lemma worker_verdict is : forall rows, length rows = length is ->
    verdict_of (worker_says V warn h s store is) = snd (pb_worker V h s (combine rows (map snd is))).
  Proof.
    induction is as [|[nr i] is IH]; intros [|row rows] L; try discriminate; [reflexivity|]. cbn [worker_says map snd combine pb_worker].
    pose proof (run_verdict nr row i) as E. unfold verdict_of in E.
    destruct (run_says _ _ _ _ _ _ _) as [[ws o] e], (instance_run _ _ _ _ _) as [w o']. cbn [fst snd] in E. subst o'.
    destruct o; try reflexivity. injection L as L. specialize (IH rows L). unfold verdict_of in IH.
    destruct (worker_says _ _ _ _ _ _) as [[ws' o] e'], (pb_worker _ _ _ _) as [w' o']. exact IH.
  Qed.
End Verdicts.

(* ---------- a feature ---------- *)
Section Feature.
  Context (V : Type) (warn err : bool) (s : schema) (store : str) (size : nat).
  Hypothesis US : usable_schema size s.
  Notation attrs := (s_attributes s).
  Notation feature_says := (Model_pbreport.feature_says V warn err s store).
  Notation tensor_says := (Model_pbreport.tensor_says V warn err store).

  Lemma feature_tensor nr a v dt t : In a attrs -> tensor_of V v = Some (dt, t) ->
    exists idx, get_index s (a_name a) = Some idx /\ nth_error attrs idx = Some a /\ feature_says nr (a_name a) v = tensor_says nr idx a dt t.
  Proof.
    intros I T. destruct (index_of size s US a I) as (idx & G & N). exists idx. repeat split; auto. unfold Model_pbreport.feature_says. rewrite G, N.
    destruct v; cbn in T; try discriminate; injection T as <- <-; reflexivity.
  Qed.
  Lemma feature_unknown nr name v : ~ In name (map a_name attrs) -> feature_says nr name v = complain warn err (spoken store nr (Unknown name)) None.
  Proof. intro N. unfold Model_pbreport.feature_says. rewrite (unknown_name size s US name N), unknown_is. reflexivity. Qed.

  Lemma dtype_eqb_refl d : dtype_eqb d d = true.
  Proof. now apply dtype_eqb_eq. Qed.
  Lemma sparse_agrees a t : (a_sparse a = true <-> tensor_sparse V t) -> Bool.eqb (is_sparse V t) (a_sparse a) = true.
  Proof.
    intro H. apply eqb_true_iff. pose proof (is_sparse_spec V t) as S. destruct (is_sparse V t), (a_sparse a); try reflexivity.
    - symmetry. apply H, S. reflexivity.
    - apply S, H. reflexivity.
  Qed.
  Lemma stride a : In a attrs -> hd 0 (a_strides a) = volume (tl (a_shape a)).
  Proof. intro I. destruct (attr_usable size s US a I) as (batch & U & _). destruct (usable_inv _ _ U) as (_ & _ & _ & _ & -> & _). reflexivity. Qed.
  Lemma shape_agrees a t : In a attrs -> shape_fits V a t -> shape_equals V a t = true.
  Proof. intros I. destruct (attr_usable size s US a I) as (batch & U & _). apply (shape_equals_spec V batch a t U). Qed.

  Lemma feature_fault nr a v q : In a attrs -> Fault V a v q -> (forall n, q <> Bad_keys n) ->
    feature_says nr (a_name a) v = complain warn err (spoken store nr q) None.
  Proof.
    intros I F NK. destruct F as [T|dt t T D|t T S1 S2|t T S1 S2|t T S F|t T S1 S2 F L|t T S1 S2 F L|F S N]; [..|exfalso; eapply NK; reflexivity].
    { unfold Model_pbreport.feature_says. destruct (index_of size s US a I) as (idx & -> & ->). rewrite <- unexpected_is. destruct v; try discriminate; reflexivity. }
    all: destruct (feature_tensor nr a v _ t I T) as (idx & _ & _ & ->); unfold Model_pbreport.tensor_says.
    { destruct (dtype_eqb (a_type a) dt) eqn:E; [apply dtype_eqb_eq in E; congruence|]. cbn [negb]. now rewrite mistyped_is. }
    all: rewrite dtype_eqb_refl; cbn [negb].
    1,2: assert (E : Bool.eqb (is_sparse V t) (a_sparse a) = false)
      by (rewrite S1; pose proof (is_sparse_spec V t) as X; destruct (is_sparse V t); try reflexivity; exfalso; intuition congruence).
    1,2: rewrite E; cbn [negb]; rewrite misdense_is, S1; reflexivity.
    { rewrite (sparse_agrees a t S). cbn [negb]. destruct (attr_usable size s US a I) as (batch & U & _).
      destruct (shape_equals V a t) eqn:E; [apply (shape_equals_spec V batch a t U) in E; contradiction|]. cbn [negb]. now rewrite misshaped_is. }
    - rewrite sparse_agrees by (rewrite S2; intuition congruence). rewrite (shape_agrees a t I F), S2. cbn [negb].
      rewrite (stride a I). destruct (volume (tl (a_shape a)) =? Z.of_nat (length (t_values V t))) eqn:E; [apply Z.eqb_eq in E; congruence|].
      now rewrite misfilled_is.
    - rewrite sparse_agrees by (rewrite S2; intuition congruence). rewrite (shape_agrees a t I F), S2. cbn [negb].
      destruct (Nat.eqb (length (t_keys V t)) (length (t_values V t))) eqn:E; [apply Nat.eqb_eq in E; congruence|]. now rewrite unpaired_is.
  Qed.
  Lemma feature_framed nr a v : In a attrs -> framed V a v ->
    exists idx t, nth_error attrs idx = Some a /\ tensor_of V v = Some (a_type a, t) /\ feature_says nr (a_name a) v = silent (Ok (Some (the_action V idx a t))).
  Proof.
    intros I (t & T & S & F & K & L). destruct (feature_tensor nr a v _ t I T) as (idx & _ & N & E). exists idx, t. repeat split; auto.
    rewrite E. unfold Model_pbreport.tensor_says, the_action. rewrite dtype_eqb_refl, (sparse_agrees a t S), (shape_agrees a t I F). cbn [negb].
    destruct (a_sparse a) eqn:Sa.
    - rewrite (proj2 (Nat.eqb_eq _ _) (K eq_refl)). reflexivity.
    - rewrite (stride a I), (L eq_refl), Z.eqb_refl. reflexivity.
  Qed.

  (* ---------- the tensors ---------- *)
  Definition fit_store (a : attribute) (x : Model_pb.store V) : Prop :=
    match x with
    | S_dense _ d => a_sparse a = false /\ length d = (size * vol a)%nat
    | S_coo _ b => a_sparse a = true /\ length (b_coords b) = length (tl (a_shape a))
    end.
  Definition shaped (st : list (Model_pb.store V)) : Prop := Forall2 fit_store attrs st.

  Lemma append_key_length ds : forall ss cs k cs' ok, append_key ds ss cs k = Ok (cs', ok) -> length cs' = length cs.
  Proof.
    induction ds as [|d ds IH]; intros [|x ss] [|c cs] k cs' ok H; cbn [append_key] in H; try (inversion H; subst; reflexivity).
    destruct (as_size x =? 0); [discriminate|]. destruct (_ >=? d); [inversion H; reflexivity|].
    destruct (append_key ds ss cs _) as [[c2 ok2]|t| |] eqn:E; cbn [bind] in H; try discriminate. inversion H; subst. cbn [length]. f_equal. eapply IH, E.
  Qed.
  Lemma append_keys_length ds ss row ks : forall rows cs rows' cs' ok, append_keys ds ss row rows cs ks = Ok (rows', cs', ok) -> length cs' = length cs.
  Proof.
    induction ks as [|k ks IH]; intros rows cs rows' cs' ok H; cbn [append_keys] in H; [inversion H; reflexivity|].
    destruct (append_key ds ss cs k) as [[c2 ok2]|t| |] eqn:E; cbn [bind] in H; try discriminate. apply append_key_length in E.
    destruct ok2; [|inversion H; subst; exact E]. rewrite <- E. eapply IH, H.
  Qed.
  Lemma append_length shp ss (b b' : builder V) vs ks ok : append shp ss b vs ks = Ok (b', ok) -> length (b_coords b') = length (b_coords b).
  Proof.
    unfold append. destruct (append_keys _ _ _ _ _ _) as [[[r c] ok2]|t| |] eqn:E; cbn [bind]; intro H; try discriminate.
    inversion H; subst. cbn [b_coords]. eapply append_keys_length, E.
  Qed.

  Lemma replace_shaped st idx a x : shaped st -> nth_error attrs idx = Some a -> fit_store a x -> shaped (replace idx x st).
  Proof. intros H N F. refine (Forall2_replace fit_store fit_store attrs st idx x H _ _); [auto|]. intros b E. rewrite N in E. inversion E; subst. exact F. Qed.

  Lemma perform_fine nr row a v idx t st : shaped st -> (row < size)%nat -> In a attrs -> nth_error attrs idx = Some a ->
    tensor_of V v = Some (a_type a, t) -> framed V a v -> Forall (fun k => 0 <= k) (t_keys V t) ->
    exists st', shaped st' /\ perform_says V warn err s store nr row (the_action V idx a t) st =
      if a_sparse a then
        if Forall_dec (fun k => k < volume (tl (a_shape a))) (fun k => Z_lt_dec k (volume (tl (a_shape a)))) (t_keys V t)
        then silent (Ok (st', true)) else complain warn err (spoken store nr (Bad_keys (a_name a))) (st', false)
      else silent (Ok (st', true)).
  Proof.
    intros H R I N T (t' & T' & S & F & K & L) NN. rewrite T in T'. inversion T'; subst t'. clear T'.
    destruct (Forall2_nth _ _ _ _ _ H N) as (x & X & FX). unfold the_action.
    destruct (attr_usable size s US a I) as (batch & U & _). destruct (usable_inv _ _ U) as (SH & NE & RE & PO & ST & _).
    destruct (a_sparse a) eqn:Sa; destruct x as [d|b]; destruct FX as [FX1 FX2]; try congruence.
    - specialize (PO eq_refl). cbn [perform_says]. rewrite X, N, SH, ST.
      destruct (append_keys_ok (dims a) (b_row b) PO RE NE (t_keys V t) (b_rows b) (b_coords b) FX2 NN) as [A B].
      change (tl (batch :: dims a)) with (dims a). 
      destruct (Forall_dec (fun k => k < volume (dims a)) _ (t_keys V t)) as [D|D].
      + assert (E : exists b', append (batch :: dims a) (volume (dims a) :: std_strides (dims a)) b (t_values V t) (t_keys V t) = Ok (b', true)).
        { unfold append. cbn [tl]. rewrite (A D). cbn [bind]. eauto. }
        destruct E as (b' & E). rewrite E. exists (replace idx (S_coo V b') st). split; [|reflexivity].
        apply (replace_shaped _ _ a); auto. split; [exact Sa|]. rewrite (append_length _ _ _ _ _ _ _ E). exact FX2.
      + assert (E : exists b', append (batch :: dims a) (volume (dims a) :: std_strides (dims a)) b (t_values V t) (t_keys V t) = Ok (b', false)).
        { apply neg_Forall_Exists_neg in D; [|intro; apply Z_lt_dec].
          destruct B as (r' & c' & B); [eapply Exists_impl; [|exact D]; cbn beta; intros; lia|].
          unfold append. cbn [tl]. rewrite B. cbn [bind]. eauto. }
        destruct E as (b' & E). rewrite E. exists (replace idx (S_coo V b') st). split.
        * apply (replace_shaped _ _ a); auto. split; [exact Sa|]. rewrite (append_length _ _ _ _ _ _ _ E). exact FX2.
        * cbn [andthen silent]. rewrite <- misplaced_is. unfold complain. destruct warn; reflexivity.
    - cbn [perform_says perform]. rewrite X. assert (Lv : length (t_values V t) = vol a) by (unfold vol; pose proof (L eq_refl) as Z; unfold dims; lia).
      assert (B : (row * length (t_values V t) + length (t_values V t) <= length d)%nat) by (rewrite FX2, Lv; nia).
      rewrite copy_n_ok by exact B. cbn [bind]. exists (replace idx (S_dense V (overlay V d (row * length (t_values V t)) (t_values V t))) st).
      split; [|reflexivity]. apply (replace_shaped _ _ a); auto. split; [exact Sa|]. rewrite overlay_length by exact B. exact FX2.
  Qed.
End Feature.

Lemma andthen_silent {A B} (a : A) (k : A -> said B) : andthen (silent (Ok a)) k = k a.
Proof. cbn. destruct (k a) as [[? ?] ?]. reflexivity. Qed.
Lemma andthen_complain {A B} warn err m (a : A) (b : B) (k : A -> said B) : k a = silent (Ok b) -> andthen (complain warn err m a) k = complain warn err m b.
Proof. intro E. unfold complain, andthen. destruct err; [reflexivity|]. rewrite E. cbn. rewrite app_nil_r. reflexivity. Qed.

Section Instance.
  Context (V : Type) (warn err : bool) (s : schema) (store : str) (size : nat).
  Hypothesis US : usable_schema size s.
  Notation attrs := (s_attributes s).
  Notation shaped := (shaped V s size).

  Definition outcome {A} (nr : nat) (q : option problem) (good bad : A) : said A :=
    match q with None => silent (Ok good) | Some q => complain warn err (spoken store nr q) bad end.

  Lemma features_tell nr row es q : (row < size)%nat -> Tells V s es q ->
    (forall name v dt t, In (name, v) es -> tensor_of V v = Some (dt, t) -> Forall (fun k => 0 <= k) (t_keys V t)) ->
    forall st, shaped st -> exists st', shaped st' /\ features_say V warn err s store nr row es st = outcome nr q (st', true) (st', false).
  Proof.
    intros R T. induction T as [|name v rest N|name v rest a q I E F|name v rest a q I E C T IH]; intros NN st H.
    - exists st. auto.
    - exists st. split; auto. cbn [features_say]. rewrite (feature_unknown V warn err s store size US nr name v N). now apply andthen_complain.
    - subst name. assert (D : (exists n, q = Bad_keys n) \/ forall n, q <> Bad_keys n) by (destruct q; eauto; right; discriminate).
      destruct D as [(n & ->)|D].
      + inversion F as [| | | | | | |FR S NC]; subst n. cbn [features_say].
        destruct (feature_framed V warn err s store size US nr a v I FR) as (idx & t & NA & TT & ->). rewrite andthen_silent.
        destruct (perform_fine V warn err s store size US nr row a v idx t st H R I NA TT FR (NN _ _ _ _ (or_introl eq_refl) TT)) as (st' & H' & E).
        exists st'. split; auto. rewrite E, S. destruct (Forall_dec _ _ _) as [G|G].
        * exfalso. apply NC. split; auto. intros _ dt t' T'. rewrite TT in T'. inversion T'; subst. exact G.
        * cbn [outcome]. now apply andthen_complain.
      + exists st. split; auto. cbn [features_say]. rewrite (feature_fault V warn err s store size US nr a v q I F D). now apply andthen_complain.
    - subst name. destruct C as [FR C]. cbn [features_say].
      destruct (feature_framed V warn err s store size US nr a v I FR) as (idx & t & NA & TT & ->). rewrite andthen_silent.
      destruct (perform_fine V warn err s store size US nr row a v idx t st H R I NA TT FR (NN _ _ _ _ (or_introl eq_refl) TT)) as (st' & H' & E).
      assert (E2 : perform_says V warn err s store nr row (the_action V idx a t) st = silent (Ok (st', true))).
      { rewrite E. destruct (a_sparse a) eqn:S; [|reflexivity]. destruct (Forall_dec _ _ _) as [G|G]; [reflexivity|].
        exfalso. apply G, (C eq_refl _ _ TT). }
      rewrite E2, andthen_silent. apply IH; auto. intros. eapply NN; [right|]; eauto.
  Qed.

  Lemma instance_tells nr row i q st : (row < size)%nat -> unsigned_keys V i -> tells V s i q -> shaped st ->
    exists st', shaped st' /\ instance_says V warn err s store nr row i st = outcome nr q (st', true) (st', false).
  Proof.
    intros R U T H. destruct T as [|m q T|m T L|m T L].
    - exists st. split; auto. cbn [instance_says outcome]. now rewrite corrupt_is.
    - destruct (features_tell nr row _ _ R T (fun n v dt t => U m n v dt t eq_refl) st H) as (st' & H' & E). exists st'. split; auto.
      cbn [instance_says]. rewrite E. cbn [outcome]. now apply andthen_complain.
    - destruct (features_tell nr row _ _ R T (fun n v dt t => U m n v dt t eq_refl) st H) as (st' & H' & E). exists st'. split; auto.
      cbn [instance_says]. rewrite E. cbn [outcome]. rewrite andthen_silent, (proj2 (Nat.eqb_neq _ _) L), miscounted_is. reflexivity.
    - destruct (features_tell nr row _ _ R T (fun n v dt t => U m n v dt t eq_refl) st H) as (st' & H' & E). exists st'. split; auto.
      cbn [instance_says]. rewrite E. cbn [outcome]. rewrite andthen_silent, (proj2 (Nat.eqb_eq _ _) L). reflexivity.
  Qed.

  (* ---------- the problems ---------- *)
  Lemma fault_exists a v : In a attrs -> conforms V a v \/ exists q, Fault V a v q.
  Proof.
    intro I. destruct (tensor_of V v) as [[dt t]|] eqn:T; [|right; eexists; now apply F_untyped].
    destruct (dtype_eqb dt (a_type a)) eqn:D.
    2:{ right. eexists. eapply F_type; eauto. intros ->. rewrite dtype_eqb_refl in D. discriminate. }
    apply dtype_eqb_eq in D. subst dt. pose proof (is_sparse_spec V t) as SP.
    assert (DS : tensor_sparse V t \/ ~ tensor_sparse V t) by (destruct (is_sparse V t); [left; now apply SP|right; intro X; apply SP in X; discriminate]).
    destruct (attr_usable size s US a I) as (batch & U & _). pose proof (shape_equals_spec V batch a t U) as SH.
    assert (DF : shape_fits V a t \/ ~ shape_fits V a t) by (destruct (shape_equals V a t); [left; now apply SH|right; intro X; apply SH in X; discriminate]).
    destruct DS as [DS|DS], (a_sparse a) eqn:S.
    - destruct DF as [DF|DF]; [|right; eexists; eapply F_shape; eauto; rewrite S; tauto].
      destruct (Nat.eq_dec (length (t_keys V t)) (length (t_values V t))) as [K|K]; [|right; eexists; eapply F_unpaired; eauto].
      assert (FR : framed V a v) by (exists t; repeat split; auto; intro X; congruence).
      destruct (keys_dec (volume (tl (a_shape a))) (t_keys V t)) as [G|G].
      + left. split; auto. intros _ dt t' T'. rewrite T in T'. inversion T'; subst. exact G.
      + right. eexists. apply F_keys; auto. intros [_ C]. apply G, (C S _ _ T).
    - right. eexists. eapply F_sparse; eauto.
    - right. eexists. eapply F_dense; eauto.
    - destruct DF as [DF|DF]; [|right; eexists; eapply F_shape; eauto; rewrite S; split; [discriminate|tauto]].
      destruct (Z.eq_dec (Z.of_nat (length (t_values V t))) (volume (tl (a_shape a)))) as [K|K]; [|right; eexists; eapply F_filled; eauto].
      left. split; [|rewrite S; discriminate]. exists t. rewrite S. repeat split; auto; try discriminate; try tauto.
  Qed.
  Lemma fault_wrong a v q : Fault V a v q -> ~ conforms V a v.
  Proof.
    intros F [(t' & T' & S' & F' & K' & L') C]. destruct F as [T|dt t T D|t T S1 S2|t T S1 S2|t T S F|t T S1 S2 F L|t T S1 S2 F L|F S N];
      try (rewrite T in T'; inversion T'; subst; clear T'); try congruence.
    - apply S' in S2. congruence.
    - apply S' in S1. contradiction.
    - apply L, L', S2.
    - apply L, K', S2.
    - apply N. split; auto.
  Qed.
  Lemma Tells_exists es : exists q, Tells V s es q.
  Proof.
    induction es as [|[name v] es (q & IH)]; [exists None; constructor|].
    destruct (in_dec (list_eq_dec N.eq_dec) name (map a_name attrs)) as [I|I]; [|eexists; now apply T_unknown].
    apply in_map_iff in I. destruct I as (a & E & I). destruct (fault_exists a v I) as [C|(q' & F)].
    - exists q. eapply T_fine; eauto.
    - exists (Some q'). eapply T_fault; eauto.
  Qed.
  Lemma Tells_ok es q : Tells V s es q -> (q = None <-> Forall (entry_ok V s) es).
  Proof.
    induction 1 as [|name v rest N|name v rest a q I E F|name v rest a q I E C T IH].
    - split; auto.
    - split; [discriminate|]. intro H. inversion H as [|x y (a & I & E & _)]; subst. exfalso. apply N. cbn in E. rewrite <- E. now apply in_map.
    - split; [discriminate|]. intro H. inversion H as [|x y (b & IB & EB & C)]; subst. exfalso. cbn in EB, C.
      rewrite (same_attr attrs b a (attr_names size s US) IB I EB) in C. exact (fault_wrong _ _ _ F C).
    - rewrite IH. split; intro H; [constructor; auto; exists a; auto|now inversion H].
  Qed.
  Lemma tells_exists i : exists q, tells V s i q.
  Proof.
    destruct i as [m|]; [|eexists; constructor]. destruct (Tells_exists (m_entries V m)) as ([q|] & T); [exists (Some q); apply I_feature, T|].
    destruct (Nat.eq_dec (length (m_entries V m)) (length attrs)); eexists; [apply I_good|apply I_number]; auto.
  Qed.
  Lemma tells_good i q : clean V i -> tells V s i q -> (q = None <-> good V s i).
  Proof.
    intros C T. destruct T as [|m q T|m T L|m T L].
    - split; [discriminate|]. intros (m & E & _). discriminate.
    - split; [discriminate|]. intros (m' & E & F). inversion E; subst m'. apply (fits_entries V size s US m (C m eq_refl)) in F.
      apply (Tells_ok _ _ T). apply F.
    - split; [discriminate|]. intros (m' & E & F). inversion E; subst m'. apply (fits_entries V size s US m (C m eq_refl)) in F. exfalso. apply L, F.
    - split; auto. intros _. exists m. split; auto. apply (fits_entries V size s US m (C m eq_refl)). split; auto. apply (Tells_ok _ _ T). reflexivity.
  Qed.
End Instance.

(* ---------- batches ---------- *)
Section Batch.
  Context (V : Type) (warn : bool) (h : beh) (s : schema) (store : str) (size : nat).
  Hypothesis US : usable_schema size s.
  Notation shaped := (shaped V s size).
  Notation told := (fun (ni : nat * instance V) q => unsigned_keys V (snd ni) /\ tells V s (snd ni) q).

  (* What is logged about an instance, by the code. *)
  Definition spoke (nq : nat * option problem) : list str :=
    match snd nq with Some q => if warn then [spoken store (fst nq) q] else [] | None => [] end.
  Definition spokes (is : list (nat * instance V)) (qs : list (option problem)) : list str := concat (map spoke (combine (map fst is) qs)).

  Lemma spoken_true nr q : not_density (Some q) -> spoken store nr q = sentence store nr q.
  Proof. intro N. destruct q; try reflexivity. exfalso. eapply N. reflexivity. Qed.
  Lemma spokes_true is qs : Forall not_density qs -> spokes is qs = concat (map (fun nq => logged warn store (fst nq) (snd nq)) (combine (map fst is) qs)).
  Proof.
    unfold spokes. intro F. f_equal. apply map_ext_in. intros [n q] I. unfold spoke, logged. cbn [fst snd].
    apply in_combine_r in I. rewrite Forall_forall in F. specialize (F _ I). destruct q as [q|]; [|reflexivity]. now rewrite spoken_true.
  Qed.

  Lemma serial_good is qs : Forall2 told is qs -> Forall (fun q => faulty q = false) qs -> forall rest row st,
    (row + length is <= size)%nat -> shaped st ->
    exists st', shaped st' /\ serial_says V warn h s store (is ++ rest) row st = serial_says V warn h s store rest (row + length is) st'.
  Proof.
    induction 1 as [|[nr i] q is qs [U T] H IH]; intros F rest row st L S.
    - exists st. split; auto. cbn [app length]. now rewrite Nat.add_0_r.
    - inversion F as [|x y Fq Fr]; subst. destruct q as [q|]; [discriminate|]. cbn [length fst snd] in *.
      destruct (instance_tells V warn (h_error h) s store size US nr row i None st ltac:(lia) U T S) as (st1 & S1 & E1).
      destruct (IH Fr rest (Datatypes.S row) st1 ltac:(lia) S1) as (st2 & S2 & E2). exists st2. split; auto.
      cbn [app serial_says]. rewrite E1. cbn [outcome]. rewrite andthen_silent, E2. f_equal. lia.
  Qed.

  Lemma serial_padded is qs : h_pad h = true -> Forall2 told is qs -> forall row st, (row + length is <= size)%nat -> shaped st ->
    exists st', shaped st' /\ serial_says V warn h s store is row st =
      (spokes is qs, Ok (Some ((row + length is - length (filter faulty qs))%nat, st')), None).
  Proof.
    intros P. induction 1 as [|[nr i] q is qs [U T] H IH]; intros row st L S.
    - exists st. split; auto. cbn. rewrite Nat.add_0_r, Nat.sub_0_r. reflexivity.
    - cbn [length fst snd] in *.
      destruct (instance_tells V warn (h_error h) s store size US nr row i q st ltac:(lia) U T S) as (st1 & S1 & E1).
      assert (LL : (length (filter faulty qs) <= length is)%nat).
      { clear - H. induction H as [|x y l m _ H IH]; cbn; [lia|]. destruct (faulty y); cbn; lia. }
      assert (HE : h_error h = false) by (destruct h; try discriminate; reflexivity).
      assert (HS : h_skip h = false) by (destruct h; try discriminate; reflexivity).
      destruct q as [q|]; cbn [serial_says]; rewrite E1; cbn [outcome].
      + destruct (IH row st1 ltac:(lia) S1) as (st2 & S2 & E2). exists st2. split; auto.
        unfold complain. rewrite HE. cbn [andthen]. rewrite HS, P, E2. cbn [filter faulty length]. unfold spokes. cbn [map combine concat fst].
        unfold spoke at 1. cbn [fst snd]. do 4 f_equal. f_equal. lia.
      + destruct (IH (Datatypes.S row) st1 ltac:(lia) S1) as (st2 & S2 & E2). exists st2. split; auto.
        rewrite andthen_silent, E2. cbn [filter faulty]. unfold spokes. cbn [map combine concat fst]. unfold spoke at 2. cbn [fst snd app]. do 4 f_equal. f_equal. lia.
  Qed.

  Lemma serial_stopped pre qs nr i q rest st : h_pad h = false -> Forall2 told pre qs -> Forall (fun q => faulty q = false) qs ->
    unsigned_keys V i -> tells V s i (Some q) -> (length pre < size)%nat -> shaped st ->
    serial_says V warn h s store (pre ++ (nr, i) :: rest) 0 st =
      ((if warn then [spoken store nr q] else []),
       (if h_error h then Throw Invalid_instance else Ok None), if h_error h then Some (spoken store nr q) else None).
  Proof.
    intros P H F U T L S. destruct (serial_good pre qs H F ((nr, i) :: rest) 0 st ltac:(lia) S) as (st1 & S1 & ->). cbn [serial_says].
    destruct (instance_tells V warn (h_error h) s store size US nr (0 + length pre) i (Some q) st1 ltac:(lia) U T S1) as (st2 & S2 & ->).
    cbn [outcome]. unfold complain. destruct h; cbn [h_error h_skip h_pad] in *; try discriminate; cbn [andthen silent]; try reflexivity; now rewrite app_nil_r.
  Qed.

  (* ---------- the parallel decoder ---------- *)
  Hypothesis ND : has_sparse s = false.
  Lemma dense a : In a (s_attributes s) -> a_sparse a = false.
  Proof.
    intro I. unfold has_sparse in ND. destruct (a_sparse a) eqn:E; auto.
    assert (existsb a_sparse (s_attributes s) = true) by (apply existsb_exists; eauto). congruence.
  Qed.
  Definition run_outcome (nr : nat) (q : option problem) : list str * verdict * option str :=
    match q with None => ([], V_good, None) | Some q => refuse warn h (spoken store nr q) end.
  Lemma entries_tell nr es q : Tells V s es q -> entries_say V warn h s store nr es = run_outcome nr q.
  Proof.
    induction 1 as [|name v rest N|name v rest a q I E F|name v rest a q I E C T IH]; cbn [entries_say]; [reflexivity|..].
    - rewrite (feature_unknown V warn (h_error h) s store size US nr name v N). unfold complain, run_outcome, refuse, bad_verdict. destruct (h_error h); reflexivity.
    - subst name. rewrite (feature_fault V warn (h_error h) s store size US nr a v q I F).
      + unfold complain, run_outcome, refuse, bad_verdict. destruct (h_error h); reflexivity.
      + intros n ->. inversion F as [| | | | | | |FR S NC]. rewrite (dense a I) in S. discriminate.
    - subst name. destruct (feature_framed V warn (h_error h) s store size US nr a v I (proj1 C)) as (idx & t & NA & TT & ->).
      unfold silent, the_action. rewrite (dense a I), IH. destruct (run_outcome nr q) as [[? ?] ?]. reflexivity.
  Qed.
  Lemma run_tells nr i q : tells V s i q -> run_says V warn h s store nr i = run_outcome nr q.
  Proof.
    intro T. destruct T as [|m q T|m T L|m T L]; cbn [run_says].
    - now rewrite corrupt_is.
    - rewrite (entries_tell nr _ _ T). unfold run_outcome, refuse, bad_verdict. destruct (h_error h); reflexivity.
    - rewrite (entries_tell nr _ _ T). cbn [run_outcome]. rewrite (proj2 (Nat.eqb_neq _ _) L), miscounted_is. unfold refuse. destruct warn; reflexivity.
    - rewrite (entries_tell nr _ _ T). cbn [run_outcome]. rewrite (proj2 (Nat.eqb_eq _ _) L). reflexivity.
  Qed.
  Lemma worker_good pre qs rest : Forall2 (fun ni q => tells V s (snd ni) q) pre qs -> Forall (fun q => faulty q = false) qs ->
    worker_says V warn h s store (pre ++ rest) = worker_says V warn h s store rest.
  Proof.
    induction 1 as [|[nr i] q is qs T H IH]; intros F; [reflexivity|]. inversion F; subst. destruct q as [q|]; [discriminate|].
    cbn [app worker_says]. rewrite (run_tells nr i None T). cbn [run_outcome]. rewrite (IH (Forall_inv_tail F)). destruct (worker_says V warn h s store rest) as [[? ?] ?]. reflexivity.
  Qed.
  Lemma worker_stopped pre qs nr i q rest : h_pad h = false -> Forall2 (fun ni q => tells V s (snd ni) q) pre qs -> Forall (fun q => faulty q = false) qs ->
    tells V s i (Some q) -> worker_says V warn h s store (pre ++ (nr, i) :: rest) =
      ((if warn then [spoken store nr q] else []), (if h_error h then V_throw Invalid_instance else V_bad), if h_error h then Some (spoken store nr q) else None).
  Proof.
    intros P H F T. rewrite (worker_good pre qs _ H F). cbn [worker_says]. rewrite (run_tells nr i _ T). cbn [run_outcome refuse].
    unfold refuse, bad_verdict. destruct h; try discriminate; reflexivity.
  Qed.
End Batch.

Lemma init_shaped V (vzero : V) size s st : usable_schema size s -> init_stores V vzero (Z.of_nat size) (s_attributes s) = Ok st -> shaped V s size st.
Proof.
  intros US E. destruct (init_ok V vzero size s US) as (st' & E' & OK). rewrite E in E'. inversion E'; subst st'. clear - OK.
  unfold shaped. induction OK as [|a x l m K OK IH]; constructor; auto. destruct x as [d|b]; cbn in K |- *.
  - split; apply K.
  - destruct K as (K1 & (_ & _ & (K2 & _) & _) & _). split; auto.
Qed.

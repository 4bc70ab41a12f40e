(* Proofs about names: listing files. *)
From Verif Require Import Common Model_names Spec_names Proof_names Proof_names2 Proof_names3.
From Coq Require Import Permutation Sorted.

Fixpoint entry_induction (P : entry -> Prop)
  (Hf : forall n k, P (E_file n k)) (Hd : forall n es, Forall P es -> P (E_dir n es))
  (Hl : forall n, P (E_loop n)) (Hg : forall n, P (E_dangling n)) (Hu : forall n, P (E_unreadable n)) (Hn : forall n, P (E_unknown n))
  (e : entry) {struct e} : P e :=
  match e with
  | E_file n k => Hf n k
  | E_dir n es =>
      Hd n es ((fix all (l : list entry) : Forall P l :=
                  match l with
                  | [] => Forall_nil P
                  | x :: r => Forall_cons x (entry_induction P Hf Hd Hl Hg Hu Hn x) (all r)
                  end) es)
  | E_loop n => Hl n
  | E_dangling n => Hg n
  | E_unreadable n => Hu n
  | E_unknown n => Hn n
  end.

Lemma proper_dir : forall n es, proper (E_dir n es) <-> c_string n /\ NoDup (map entry_name es) /\ Forall proper es.
Proof.
  intros n es. cbn [proper entry_name].
  assert (A : (fix all (l : list entry) : Prop := match l with [] => True | x :: r => proper x /\ all r end) es <-> Forall proper es).
  { induction es as [|x r IH]; [split; [constructor|trivial]|]. rewrite IH. split; [intros [H1 H2]; constructor; trivial|intros H; inversion H; auto]. }
  rewrite A. tauto.
Qed.

Lemma proper_name : forall e, proper e -> c_string (entry_name e).
Proof. intros [n k|n es|n|n|n|n]; cbn; tauto. Qed.

(* ---------------- the walk ---------------- *)

(* The visits of a list of entries in one directory. *)
Fixpoint walks (path : str) (es : list entry) : list visit :=
  match es with
  | [] => []
  | e :: r => walk (join path (entry_name e)) e ++ walks path r
  end.

Lemma walk_dir : forall path n es,
  walk path (E_dir n es) = mk_visit FTS_D path Special :: walks path es ++ [mk_visit FTS_DP path Special].
Proof. intros path n es. cbn [walk]. f_equal. f_equal. induction es as [|e r IH]; [reflexivity|]. cbn [walks]. rewrite <- IH. reflexivity. Qed.

(* What a visit does to a listing. *)
Definition is_file (v : visit) : bool := match v_info v, v_kind v with FTS_F, Regular | FTS_F, Block => true | _, _ => false end.
Definition is_bad (v : visit) : bool := match v_info v with FTS_DNR | FTS_NS => true | _ => false end.
Definition file_paths (vs : list visit) : list str := map v_path (filter is_file vs).

Lemma file_paths_app : forall a b, file_paths (a ++ b) = file_paths a ++ file_paths b.
Proof. intros a b. unfold file_paths. rewrite filter_app, map_app. reflexivity. Qed.

Lemma walk_files : forall e path,
  file_paths (walk path e) = map (fun names => fold_left join (tl names) path) (regular_files e) /\
  existsb is_bad (walk path e) = negb (readable e).
Proof.
  induction e as [n k|n es IH|n|n|n|n] using entry_induction; intros path; try (split; reflexivity).
  - destruct k; split; reflexivity.
  - rewrite walk_dir. cbn [regular_files readable]. rewrite map_map. cbn [tl].
    change (mk_visit FTS_D path Special :: walks path es ++ [mk_visit FTS_DP path Special])
      with ([mk_visit FTS_D path Special] ++ walks path es ++ [mk_visit FTS_DP path Special]).
    rewrite !file_paths_app, !existsb_app. change (file_paths [mk_visit FTS_D path Special]) with (@nil str).
    change (file_paths [mk_visit FTS_DP path Special]) with (@nil str). cbn [existsb is_bad v_info orb app]. rewrite app_nil_r, orb_false_r.
    induction IH as [|e es H F IH]; [split; reflexivity|]. cbn [walks flat_map forallb].
    rewrite file_paths_app, existsb_app, map_app, negb_andb. destruct (H (join path (entry_name e))) as [H1 H2]. destruct IH as [IH1 IH2].
    rewrite H1, H2, IH1, IH2. split; [|reflexivity]. f_equal. apply map_ext_in. intros names I.
    destruct e as [m k|m es'|m|m|m|m]; cbn in I; try destruct I; try (destruct k; cbn in I); try (destruct I as [<-|[]]; reflexivity).
    + destruct I. + destruct I.
    + apply in_map_iff in I. destruct I as [r [<- _]]. reflexivity.
Qed.

Lemma regular_first : forall e names, In names (regular_files e) -> exists r, names = entry_name e :: r.
Proof.
  intros [n k|n es|n|n|n|n] names I; cbn in I; try (destruct I; fail).
  - destruct k; cbn in I; try (destruct I; fail). destruct I as [<-|[]]. exists []. reflexivity.
  - apply in_map_iff in I. destruct I as [r [<- _]]. exists r. reflexivity.
Qed.

Lemma roots_files : forall es,
  file_paths (flat_map (fun e => walk (entry_name e) e) es) = map path_of (flat_map regular_files es) /\
  existsb is_bad (flat_map (fun e => walk (entry_name e) e) es) = negb (forallb readable es).
Proof.
  induction es as [|e es [IH1 IH2]]; [split; reflexivity|]. cbn [flat_map forallb]. rewrite file_paths_app, existsb_app, map_app, negb_andb.
  destruct (walk_files e (entry_name e)) as [H1 H2]. rewrite H1, H2, IH1, IH2. split; [|reflexivity]. f_equal.
  apply map_ext_in. intros names I. apply regular_first in I. destruct I as [r ->]. reflexivity.
Qed.

(* ---------------- the loop ---------------- *)

Definition ends_like_directory (p : str) : Prop := last p 0%N = 47%N \/ last p 0%N = 92%N.

Lemma make_file_cases : forall o p,
  (p <> [] /\ ~ ends_like_directory p /\ make_file p (o_compression o) = Ok (store_of o p)) \/
  ((p = [] \/ ends_like_directory p) /\ make_file p (o_compression o) = Throw Invalid_argument).
Proof.
  intros o p. unfold make_file, validate_file_path, ends_like_directory. destruct p as [|c p]; [right; split; [left; reflexivity|reflexivity]|].
  remember (c :: p) as q eqn:Q. destruct (N.eqb_spec (last q 0%N) 47); [right; auto|]. destruct (N.eqb_spec (last q 0%N) 92); [right; auto|].
  left. split; [subst; discriminate|]. split; [tauto|]. cbn [orb bind]. rewrite store_settle. reflexivity.
Qed.

Definition fine_path (o : options) (p : str) : Prop :=
  pattern_ok o p /\ (wanted o p = true -> p <> [] /\ ~ ends_like_directory p).

Lemma list_visits_spec : forall o vs acc,
  (existsb is_bad vs = false /\ Forall (fine_path o) (file_paths vs) /\
   list_visits o vs acc = Ok (acc ++ map (store_of o) (filter (wanted o) (file_paths vs)))) \/
  ((existsb is_bad vs = true \/ ~ Forall (fine_path o) (file_paths vs)) /\ exists e, list_visits o vs acc = Throw e).
Proof.
  intros o vs. induction vs as [|v vs IH]; intros acc.
  - left. split; [reflexivity|]. split; [constructor|]. cbn. rewrite app_nil_r. reflexivity.
  - assert (SKIP : is_bad v = false -> is_file v = false -> list_visits o (v :: vs) acc = list_visits o vs acc ->
       (existsb is_bad (v :: vs) = false /\ Forall (fine_path o) (file_paths (v :: vs)) /\
        list_visits o (v :: vs) acc = Ok (acc ++ map (store_of o) (filter (wanted o) (file_paths (v :: vs))))) \/
       ((existsb is_bad (v :: vs) = true \/ ~ Forall (fine_path o) (file_paths (v :: vs))) /\ exists e, list_visits o (v :: vs) acc = Throw e)).
    { intros B F ->. unfold file_paths. cbn [existsb filter]. rewrite B, F. apply IH. }
    assert (BAD : is_bad v = true -> (exists e, list_visits o (v :: vs) acc = Throw e) ->
       (existsb is_bad (v :: vs) = true \/ ~ Forall (fine_path o) (file_paths (v :: vs))) /\ exists e, list_visits o (v :: vs) acc = Throw e).
    { intros B E. split; [left; cbn [existsb]; rewrite B; reflexivity|exact E]. }
    assert (FILE : is_bad v = false -> is_file v = true ->
       list_visits o (v :: vs) acc = (let* sel := selected o (v_path v) in
              if sel : bool then let* st := make_file (v_path v) (o_compression o) in list_visits o vs (acc ++ [st]) else list_visits o vs acc) ->
       (existsb is_bad (v :: vs) = false /\ Forall (fine_path o) (file_paths (v :: vs)) /\
        list_visits o (v :: vs) acc = Ok (acc ++ map (store_of o) (filter (wanted o) (file_paths (v :: vs))))) \/
       ((existsb is_bad (v :: vs) = true \/ ~ Forall (fine_path o) (file_paths (v :: vs))) /\ exists e, list_visits o (v :: vs) acc = Throw e)).
    { intros B F ->. unfold file_paths. cbn [existsb filter]. rewrite B, F. cbn [orb map filter].
      destruct (selected_cases o (v_path v)) as [[P E]|[P E]]; rewrite E; cbn [bind].
      2: { right. split; [right|eauto]. intros H. inversion H as [|x y [H1 _] H2]; subst. tauto. }
      destruct (wanted o (v_path v)) eqn:W.
      - destruct (make_file_cases o (v_path v)) as [[M1 [M2 M3]]|[M1 M2]].
        + rewrite M3. cbn [bind]. destruct (IH (acc ++ [store_of o (v_path v)])) as [[H1 [H2 H3]]|[H1 H2]].
          * left. split; [exact H1|]. split; [constructor; [split; auto|exact H2]|]. rewrite H3. rewrite <- app_assoc. reflexivity.
          * right. split; [|exact H2]. destruct H1 as [H1|H1]; [left; exact H1|right]. intros H. inversion H; tauto.
        + rewrite M2. cbn [bind]. right. split; [right|eauto]. intros H. inversion H as [|x y [_ H1] H2]; subst. specialize (H1 W). tauto.
      - destruct (IH acc) as [[H1 [H2 H3]]|[H1 H2]].
        + left. split; [exact H1|]. split; [constructor; [split; [exact P|congruence]|exact H2]|]. exact H3.
        + right. split; [|exact H2]. destruct H1 as [H1|H1]; [left; exact H1|right]. intros H. inversion H; tauto. }
    destruct v as [i p k]. destruct i; try (apply SKIP; reflexivity); try (right; apply BAD; [reflexivity|eexists; reflexivity]).
    destruct k; [apply FILE; reflexivity|apply FILE; reflexivity|apply SKIP; reflexivity].
Qed.

(* ---------------- sorting the tree ---------------- *)

Lemma sorted_tree_name : forall sort sg e, entry_name (sorted_tree sort sg e) = entry_name e.
Proof. intros sort sg [n k|n es|n|n|n|n]; reflexivity. Qed.

Lemma flat_map_perm : forall A B (f : A -> list B) l l', Permutation l l' -> Permutation (flat_map f l) (flat_map f l').
Proof.
  intros A B f l l' P. induction P as [|x l l' P IH|x y l|l l' l'' P1 IH1 P2 IH2]; cbn; try reflexivity.
  - apply Permutation_app_head. exact IH.
  - rewrite !app_assoc. apply Permutation_app_tail, Permutation_app_comm.
  - etransitivity; eassumption.
Qed.

Lemma forallb_perm : forall A (f : A -> bool) l l', Permutation l l' -> forallb f l = forallb f l'.
Proof.
  intros A f l l' P. induction P as [|x l l' P IH|x y l|l l' l'' P1 IH1 P2 IH2]; cbn [forallb].
  - reflexivity.
  - rewrite IH. reflexivity.
  - destruct (f x), (f y); reflexivity.
  - congruence.
Qed.

Definition tree_sorted (sg : bool) (l : list (list str)) : Prop := StronglySorted (fun a b => ~ strictly_before sg b a) l.

Lemma tree_sorted_spec : forall sg l, tree_sorted sg l <-> tree_ordered sg l.
Proof. intros sg l. unfold tree_sorted, tree_ordered. symmetry. apply (splits_sorted _ (fun a b => ~ strictly_before sg b a)). Qed.

Lemma before_cons : forall sg n a b, strictly_before sg (n :: a) (n :: b) -> c_string n -> strictly_before sg a b.
Proof.
  intros sg n a b [p [x [a' [y [b' [E1 [E2 L]]]]]]] C. destruct p as [|m p]; cbn [app] in *.
  - assert (x = y) by congruence. assert (x = n) by congruence. subst y x. rewrite C53_refl_l in L by trivial. discriminate.
  - exists p, x, a', y, b'. split; [congruence|]. split; [congruence|exact L].
Qed.

Lemma app_sorted : forall A (R : A -> A -> Prop) l1 l2, StronglySorted R l1 -> StronglySorted R l2 ->
  (forall a b, In a l1 -> In b l2 -> R a b) -> StronglySorted R (l1 ++ l2).
Proof.
  intros A R l1 l2 S1 S2 H. induction S1 as [|x l1 S1 IH F]; [exact S2|]. cbn. constructor.
  - apply IH. intros a b X Y. apply H; [right; trivial|trivial].
  - rewrite Forall_forall in *. intros y Y. apply in_app_or in Y. destruct Y as [Y|Y]; [auto|]. apply H; [left; reflexivity|trivial].
Qed.

(* Entries in order, with different names and ordered contents, have ordered contents together. *)
Lemma entries_sorted : forall sg es, StronglySorted (fun a b => name_less sg b a = false) es ->
  NoDup (map entry_name es) -> Forall (fun e => tree_sorted sg (regular_files e)) es -> tree_sorted sg (flat_map regular_files es).
Proof.
  intros sg es S. induction S as [|e es S IH F]; intros N T; cbn [flat_map]; [constructor|].
  inversion N as [|x l N1 N2]; subst. inversion T as [|x l T1 T2]; subst.
  apply app_sorted; [exact T1|apply IH; trivial|].
  intros a b A B [p [x [b' [y [a' [E1 [E2 L]]]]]]]. apply regular_first in A. destruct A as [ra ->].
  apply in_flat_map in B. destruct B as [e' [B1 B2]]. apply regular_first in B2. destruct B2 as [rb ->].
  destruct p as [|m p].
  - cbn [app] in *. assert (X : x = entry_name e') by congruence. assert (Y : y = entry_name e) by congruence. subst x y.
    rewrite Forall_forall in F. specialize (F e' B1). unfold name_less in F. rewrite L in F. discriminate.
  - cbn [app] in *. assert (X : entry_name e = entry_name e') by congruence. apply N1. rewrite X. apply in_map. exact B1.
Qed.

Lemma map_cons_sorted : forall sg n l, c_string n -> tree_sorted sg l -> tree_sorted sg (map (cons n) l).
Proof.
  intros sg n l C S. apply sorted_map. eapply sorted_in; [|exact S]. intros a b _ _ H1 H2. apply H1. eapply before_cons; eassumption.
Qed.

Lemma sort_entries : forall (sort : (entry -> entry -> bool) -> list entry -> list entry) sg es, sorts sort -> Forall proper es ->
  Permutation (sort (name_less sg) es) es /\ StronglySorted (fun a b => name_less sg b a = false) (sort (name_less sg) es).
Proof.
  intros sort sg es S P.
  assert (W : strict_weak_on (name_less sg) es).
  { apply (natural_strict_weak entry entry_name sg es). eapply Forall_impl; [|exact P]. apply proper_name. }
  destruct (S _ _ W) as [H1 H2]. split; [exact H1|]. apply (splits_sorted _ (fun a b => name_less sg b a = false)). exact H2.
Qed.

Lemma sorted_tree_spec : forall (sort : (entry -> entry -> bool) -> list entry -> list entry) sg e, sorts sort -> proper e ->
  proper (sorted_tree sort sg e) /\ readable (sorted_tree sort sg e) = readable e /\
  Permutation (regular_files (sorted_tree sort sg e)) (regular_files e) /\ tree_sorted sg (regular_files (sorted_tree sort sg e)).
Proof.
  intros sort sg e S. induction e as [n k|n es IH|n|n|n|n] using entry_induction; intros P;
    try (split; [exact P|split; [reflexivity|split; [reflexivity|constructor]]]; fail).
  - split; [exact P|]. split; [reflexivity|]. split; [reflexivity|]. destruct k; cbn; repeat constructor.
  - apply proper_dir in P. destruct P as [C [N P]].
    assert (Q : forall es, Forall proper es -> Forall (fun e => proper e ->
        proper (sorted_tree sort sg e) /\ readable (sorted_tree sort sg e) = readable e /\
        Permutation (regular_files (sorted_tree sort sg e)) (regular_files e) /\ tree_sorted sg (regular_files (sorted_tree sort sg e))) es ->
        Forall proper (map (sorted_tree sort sg) es) /\ forallb readable (map (sorted_tree sort sg) es) = forallb readable es /\
        Permutation (flat_map regular_files (map (sorted_tree sort sg) es)) (flat_map regular_files es) /\
        Forall (fun e => tree_sorted sg (regular_files e)) (map (sorted_tree sort sg) es)).
    { intros l F G. induction F as [|x l X F IHF]; [split; [constructor|split; [reflexivity|split; [reflexivity|constructor]]]|].
      inversion G as [|y z G1 G2]; subst. destruct (G1 X) as [A1 [A2 [A3 A4]]]. destruct (IHF G2) as [B1 [B2 [B3 B4]]].
      cbn [map flat_map forallb]. split; [constructor; trivial|]. split; [rewrite A2, B2; reflexivity|].
      split; [apply Permutation_app; trivial|constructor; trivial]. }
    destruct (Q es P IH) as [Q1 [Q2 [Q3 Q4]]]. clear Q IH.
    destruct (sort_entries sort sg (map (sorted_tree sort sg) es) S Q1) as [R1 R2].
    assert (NM : map entry_name (map (sorted_tree sort sg) es) = map entry_name es).
    { rewrite map_map. apply map_ext. intros e. apply sorted_tree_name. }
    cbn [sorted_tree].
    assert (NS : NoDup (map entry_name (sort (name_less sg) (map (sorted_tree sort sg) es)))).
    { eapply Permutation_NoDup; [apply Permutation_map, Permutation_sym, R1|]. rewrite NM. exact N. }
    split; [|split; [|split]].
    + apply proper_dir. split; [exact C|]. split; [exact NS|]. eapply Permutation_Forall; [apply Permutation_sym, R1|exact Q1].
    + cbn [readable]. rewrite <- Q2. apply forallb_perm. exact R1.
    + cbn [regular_files]. apply Permutation_map. etransitivity; [apply flat_map_perm; exact R1|exact Q3].
    + cbn [regular_files]. apply map_cons_sorted; [exact C|]. apply entries_sorted; [exact R2|exact NS|].
      eapply Permutation_Forall; [apply Permutation_sym, R1|exact Q4].
Qed.

Lemma roots_spec : forall (sort : (entry -> entry -> bool) -> list entry -> list entry) sg roots, sorts sort -> Forall proper roots ->
  NoDup (map entry_name roots) ->
  let es := sort (name_less sg) (map (sorted_tree sort sg) roots) in
  forallb readable es = forallb readable roots /\
  Permutation (flat_map regular_files es) (flat_map regular_files roots) /\ tree_ordered sg (flat_map regular_files es).
Proof.
  intros sort sg roots S P N. cbv zeta.
  assert (PD : proper (E_dir [] roots)). { apply proper_dir. split; [constructor|]. split; trivial. }
  destruct (sorted_tree_spec sort sg (E_dir [] roots) S PD) as [_ [H1 [H2 H3]]]. cbn [sorted_tree regular_files readable] in *.
  split; [exact H1|].
  assert (ML : forall l, map (@tl str) (map (cons []) l) = l). { intros l. rewrite map_map. rewrite <- (map_id l) at 2. apply map_ext. reflexivity. }
  split.
  - apply (Permutation_map (@tl str)) in H2. rewrite !ML in H2. exact H2.
  - apply tree_sorted_spec. unfold tree_sorted in *. apply sorted_map in H3. eapply sorted_in; [|exact H3].
    intros a b _ _ H [p [x [a' [y [b' [E1 [E2 L]]]]]]]. apply H. exists ([] :: p), x, a', y, b'. rewrite E1, E2. auto.
Qed.

Lemma C71_l : forall (sort : (entry -> entry -> bool) -> list entry -> list entry) sg o roots, sorts sort -> Forall proper roots ->
  NoDup (map entry_name roots) ->
  exists cs, Permutation cs (flat_map regular_files roots) /\ tree_ordered sg cs /\
  ((~ In [] (map entry_name roots) /\ forallb readable roots = true /\ Forall (fun c => fine_path o (path_of c)) cs /\
    list_files sort sg o roots = Ok (map (fun c => store_of o (path_of c)) (filter (fun c => wanted o (path_of c)) cs))) \/
   ((In [] (map entry_name roots) \/ forallb readable roots = false \/ ~ Forall (fun c => fine_path o (path_of c)) cs) /\
    exists e, list_files sort sg o roots = Throw e)).
Proof.
  intros sort sg o roots S P N. destruct (roots_spec sort sg roots S P N) as [H1 [H2 H3]]. cbv zeta in *.
  remember (sort (name_less sg) (map (sorted_tree sort sg) roots)) as es eqn:E.
  exists (flat_map regular_files es). split; [exact H2|]. split; [exact H3|].
  unfold list_files.
  destruct (existsb (fun e => match entry_name e with [] => true | _ => false end) roots) eqn:X.
  - right. split; [left|eauto]. apply existsb_exists in X. destruct X as [e [X1 X2]]. apply in_map_iff. exists e.
    split; [destruct (entry_name e); [reflexivity|discriminate]|exact X1].
  - assert (NX : ~ In [] (map entry_name roots)).
    { intros I. apply in_map_iff in I. destruct I as [e [I1 I2]].
      assert (T : existsb (fun e => match entry_name e with [] => true | _ => false end) roots = true).
      { apply existsb_exists. exists e. rewrite I1. auto. } congruence. }
    unfold fts_sequence. rewrite <- E. destruct (roots_files es) as [F1 F2].
    destruct (list_visits_spec o (flat_map (fun e => walk (entry_name e) e) es) []) as [[A1 [A2 A3]]|[A1 A2]].
    + left. split; [exact NX|]. rewrite F2, negb_false_iff in A1. split; [congruence|]. rewrite F1 in A2, A3. split.
      * apply (proj1 (Forall_map _ _ _)) in A2. exact A2.
      * rewrite A3. cbn [app]. f_equal. clear. induction (flat_map regular_files es) as [|c l IH]; [reflexivity|]. cbn [map filter].
        destruct (wanted o (path_of c)); cbn [map]; rewrite IH; reflexivity.
    + right. split; [|exact A2]. right. destruct A1 as [A1|A1].
      * left. rewrite F2, negb_true_iff in A1. congruence.
      * right. intros H. apply A1. rewrite F1. apply Forall_map. exact H.
Qed.

(* ---------------- paths ---------------- *)

Lemma join_name path n : path <> [] -> join path n = (if (last path 0 =? slash)%N then path else path ++ [slash]) ++ n.
Proof. intro H. unfold join. destruct path as [|c path]; [congruence|]. destruct (_ =? _)%N; [reflexivity|]. now rewrite <- app_assoc. Qed.

Lemma last_name (path n : str) : n <> [] -> ~ In slash n -> (last (path ++ n) 0 =? slash)%N = false.
Proof.
  intros H HI. destruct (exists_last H) as (m & c & ->). rewrite app_assoc, last_last. apply N.eqb_neq. intros ->.
  apply HI. apply in_or_app. right. left. reflexivity.
Qed.

Lemma path_text root n names : root <> [] -> Forall (fun n => n <> [] /\ ~ In slash n) (n :: names) ->
  path_of (root :: n :: names) =
    (if (last root 0 =? slash)%N then root else root ++ [slash]) ++ n ++ flat_map (fun m => [slash] ++ m) names.
Proof.
  intros Hr HF. cbn [path_of fold_left]. rewrite join_name by exact Hr. set (p := if _ : bool then root else _).
  inversion HF as [|? ? [H1 H2] HF']; subst. clear HF. rewrite app_assoc. clearbody p.
  assert (Hl : (last (p ++ n) 0 =? slash)%N = false) by (apply last_name; assumption).
  assert (Hne : p ++ n <> []) by (destruct p; [exact H1|discriminate]).
  revert Hl Hne. generalize (p ++ n) as q. clear p n H1 H2 Hr. induction HF' as [|m names [H1 H2] HF IH]; intros q Hl Hne.
  - now rewrite app_nil_r.
  - cbn [fold_left flat_map]. rewrite join_name, Hl by exact Hne. rewrite IH.
    + now rewrite <- !app_assoc.
    + apply last_name; assumption.
    + destruct q; [congruence|discriminate].
Qed.

(* The core instance reader: stores, split records and framing errors. *)
From Verif Require Import Common Model_rec Model_inst Spec_inst Proof_inst Proof_inst_filters.

(* reading xs leads from s to s' *)
Inductive delivers {A} (M : machine A) : bstate M -> list A -> bstate M -> Prop :=
| d_nil s : delivers M s [] s
| d_cons s x s1 xs s2 : b_read M s = (Ok (Some x), s1) -> delivers M s1 xs s2 -> delivers M s (x :: xs) s2.

Lemma delivers_app {A} (M : machine A) s xs s1 ys s2 : delivers M s xs s1 -> delivers M s1 ys s2 -> delivers M s (xs ++ ys) s2.
Proof. induction 1; intro H2; [exact H2|]. cbn. econstructor; eauto. Qed.

Lemma delivers_yields {A} (M : machine A) s xs s1 ys e : delivers M s xs s1 -> yields M s1 ys e -> yields M s (xs ++ ys) e.
Proof. induction 1; intro H2; [exact H2|]. cbn. econstructor; eauto. Qed.

Lemma delivers_sticky {A} (M : machine A) s xs s1 ys l : delivers M s xs s1 -> reads_as_sticky M s1 ys l ->
  reads_as_sticky M s (xs ++ ys) l.
Proof. induction 1; intro H2; [exact H2|]. cbn. eapply sticky_cons; eauto. Qed.

Lemma b_read_same {A} (M : machine A) s s' : m_core M s = m_core M s' -> b_read M (None, s) = b_read M (None, s').
Proof. intro E. cbn. rewrite E. reflexivity. Qed.

Lemma sticky_same {A} (M : machine A) s s' xs l : m_core M s = m_core M s' -> reads_as_sticky M (None, s') xs l ->
  reads_as_sticky M (None, s) xs l.
Proof.
  intros E H n. rewrite <- (H n). destruct n as [|n]; [reflexivity|].
  destruct (b_read M (None, s')) as [r s2] eqn:E2. rewrite (outputs_S M (None, s') n r s2 E2).
  rewrite <- (b_read_same M s s' E) in E2. apply (outputs_S M (None, s) n r s2 E2).
Qed.

(* ---------------- inside a store ---------------- *)

Definition inside (d : N) (ds : list store) (rs : list rec) (e : res unit) (k c : nat) : core :=
  mk_core ds (Some d) (Some (rs, e)) k c false.

Lemma read_one d ds r rs e k c :
  core_read_record (inside d ds (r :: rs) e k c) = (Ok (Some r), inside d ds rs e k (S c)).
Proof.
  unfold core_read_record, inside. cbn [c_reader c_iter]. replace (length ds + 1) with (S (length ds)) by lia. reflexivity.
Qed.

Lemma read_err d ds e k c : (forall u, e <> Ok u) ->
  core_read_record (inside d ds [] e k c) = (cast_err e UB, inside d ds [] e k c).
Proof.
  intro He. unfold core_read_record, inside. cbn [c_reader c_iter]. replace (length ds + 1) with (S (length ds)) by lia.
  destruct e as [u| | |]; [destruct (He u eq_refl)|..]; reflexivity.
Qed.

Lemma split_mid d ds e k rest : forall ms fuel c acc, Forall (fun m => kind m = kMiddle) ms -> length ms <= fuel ->
  split_loop fuel (inside d ds (ms ++ rest) e k c) acc =
  split_loop (fuel - length ms) (inside d ds rest e k (length ms + c)) (acc ++ concat (map payload ms)).
Proof.
  induction ms as [|m ms IH]; intros fuel c acc HF Hl.
  - cbn [app length map concat]. rewrite app_nil_r, Nat.sub_0_r. reflexivity.
  - inversion HF as [|? ? Hm HF']; subst. destruct fuel as [|fuel]; [cbn in Hl; lia|].
    cbn [app split_loop]. rewrite read_one, Hm, N.eqb_refl. cbn [length] in Hl. rewrite IH by (auto; lia).
    cbn [length map concat Nat.sub]. rewrite <- app_assoc. f_equal. f_equal. lia.
Qed.

Lemma kind_neq (a b : N) : a <> b -> (a =? b)%N = false.
Proof. intro H. now apply N.eqb_neq. Qed.

Lemma core_complete d ds r rs e k c : kind r = kComplete ->
  core_read (inside d ds (r :: rs) e k c) =
  (Ok (Some (mk_instance d k (Some (payload r)))), inside d ds rs e (S k) (S c)).
Proof.
  intro Hk. unfold core_read, read_payload. cbn [c_bad inside]. fold (inside d ds (r :: rs) e k c). rewrite read_one, Hk.
  reflexivity.
Qed.

Lemma core_split d ds b ms en rs e k c : kind b = kBegin -> Forall (fun m => kind m = kMiddle) ms -> kind en = kEnd ->
  core_read (inside d ds (b :: ms ++ en :: rs) e k c) =
  (Ok (Some (mk_instance d k (Some (concat (map payload (b :: ms ++ [en])))))), inside d ds rs e (S k) (S (length ms + S c))).
Proof.
  intros Hb Hm He. unfold core_read, read_payload. cbn [c_bad inside].
  fold (inside d ds (b :: ms ++ en :: rs) e k c). rewrite read_one, Hb.
  change (kBegin =? kComplete)%N with false. rewrite N.eqb_refl.
  set (fuel := records_left _ + 1).
  assert (Hf : length ms + 1 < fuel).
  { subst fuel. unfold records_left, inside. cbn [c_reader reader_len fst]. rewrite app_length. cbn [length]. lia. }
  rewrite (split_mid d ds e k (en :: rs) ms fuel (S c) (payload b) Hm ltac:(lia)).
  destruct (fuel - length ms) as [|f] eqn:Ef; [lia|]. cbn [split_loop]. rewrite read_one, He.
  change (kEnd =? kMiddle)%N with false. rewrite N.eqb_refl. cbn [rmap].
  cbn [c_store inside]. rewrite map_cons, map_app. cbn [map concat]. rewrite concat_app. cbn [concat].
  rewrite app_nil_r, <- app_assoc. reflexivity.
Qed.

Definition numbered_from (d : N) (k : nat) (ps : list (list byte)) : list instance :=
  map (fun ip => mk_instance d (fst ip) (Some (snd ip))) (combine (seq k (length ps)) ps).

Lemma store_delivers ds0 d ds e rest rs ps : groups rs ps -> forall k c,
  exists c', delivers (core_reader ds0) (None, inside d ds (rs ++ rest) e k c) (numbered_from d k ps)
               (None, inside d ds rest e (length ps + k) c').
Proof.
  induction 1 as [|r rs ps Hk HG IH|b ms en rs ps Hb Hm He HG IH]; intros k c.
  - exists c. constructor.
  - destruct (IH (S k) (S c)) as (c' & Hd). exists c'. cbn [app].
    replace (length (payload r :: ps) + k) with (length ps + S k) by (cbn; lia).
    change (numbered_from d k (payload r :: ps)) with
      (mk_instance d k (Some (payload r)) :: numbered_from d (S k) ps).
    econstructor; [|exact Hd]. apply b_read_core. cbn [m_core core_reader]. apply core_complete. exact Hk.
  - destruct (IH (S k) (S (length ms + S c))) as (c' & Hd). exists c'. cbn [app].
    set (p := concat _). replace (length (p :: ps) + k) with (length ps + S k) by (cbn; lia).
    change (numbered_from d k (p :: ps)) with (mk_instance d k (Some p) :: numbered_from d (S k) ps).
    econstructor; [|exact Hd]. apply b_read_core. cbn [m_core core_reader]. rewrite <- app_assoc. cbn [app].
    apply core_split; assumption.
Qed.

(* ---------------- between stores ---------------- *)

Definition fresh (ds : list store) (s : core) : Prop :=
  c_iter s = ds /\ c_bad s = false /\ (c_reader s = None \/ c_reader s = Some ([], Ok tt)).

(* the next store, if any, can be opened *)
Definition opens (ds : list store) : Prop :=
  match ds with d :: _ => exists r, sopen d = Ok r | [] => True end.

Lemma fresh_read ds s : fresh ds s -> opens ds -> core_read_record s = core_read_record (core_init ds).
Proof.
  intros (Hi & Hb & Hr) Ho. destruct s as [it st rd ki kr bad]. cbn in Hi, Hb, Hr. subst it bad.
  destruct Hr as [-> | ->].
  - unfold core_read_record, core_init. cbn [c_reader]. unfold init_next. cbn [c_iter]. destruct ds as [|d ds]; [reflexivity|].
    destruct Ho as [r Ho]. cbn. rewrite Ho. destruct r; reflexivity.
  - unfold core_read_record, core_init. cbn [c_reader c_iter]. unfold init_next. cbn [c_iter].
    destruct ds as [|d ds]; [reflexivity|]. cbn [length Nat.add rr_loop c_reader rr_read cast_err].
    destruct Ho as [r Ho]. unfold init_next. cbn [c_iter c_bad]. rewrite Ho. destruct r; reflexivity.
Qed.

Lemma fresh_core' ds s : fresh ds s -> opens ds -> core_read s = core_read (core_init ds).
Proof.
  intros Hf Ho. unfold core_read, read_payload. pose proof Hf as (_ & -> & _). rewrite (fresh_read ds s Hf Ho). reflexivity.
Qed.

Lemma fresh_init ds : fresh ds (core_init ds).
Proof. repeat split. left. reflexivity. Qed.

Lemma fresh_inside d ds k c : fresh ds (inside d ds [] (Ok tt) k c).
Proof. repeat split. right. reflexivity. Qed.

(* opening a store with records *)
Lemma enter_store d ds rs e : sopen d = Ok (Some (rs, e)) ->
  core_read (core_init (d :: ds)) = core_read (inside (sid d) ds rs e 0 0).
Proof.
  intro E.
  assert (Er : core_read_record (core_init (d :: ds)) = core_read_record (inside (sid d) ds rs e 0 0)).
  { unfold core_read_record, core_init, inside, init_next. cbn [c_reader c_iter]. rewrite E. reflexivity. }
  unfold core_read, read_payload. rewrite Er. reflexivity.
Qed.

Lemma delivers_same {A} (M : machine A) s s' x xs s2 : m_core M s = m_core M s' -> delivers M (None, s') (x :: xs) s2 ->
  delivers M (None, s) (x :: xs) s2.
Proof.
  intros E H. inversion H as [|? ? s1 ? ? E1 H1]; subst. econstructor; [|exact H1].
  rewrite (b_read_same M s s' E). exact E1.
Qed.

(* all stores read: behaves like a newly opened rest *)
Definition like {A} (M : machine A) (s s' : ms M) : Prop := m_core M s = m_core M s'.

Lemma stores_deliver ds0 pre iss : Forall2 store_instances pre iss -> forall post s, opens post -> fresh (pre ++ post) s ->
  exists s', delivers (core_reader ds0) (None, s) (concat iss) (None, s') /\
    core_read s' = core_read (core_init post).
Proof.
  induction 1 as [|d is pre iss Hd HF IH]; intros post s Ho Hs.
  - exists s. split; [constructor|]. apply fresh_core'; assumption.
  - cbn [concat app] in *. assert (Hod : opens (d :: pre ++ post)).
    { destruct Hd as [[Eo _]|(rs & ps & Eo & _)]; eexists; exact Eo. }
    pose proof (fresh_core' _ _ Hs Hod) as Ec. destruct Hd as [[Eo ->]|(rs & ps & Eo & HG & ->)].
    + destruct (IH post (mk_core (pre ++ post) (Some (sid d)) None 0 0 false) Ho) as (s' & Hd & E').
      { repeat split. left. reflexivity. }
      exists s'. split; [|exact E']. cbn [app]. econstructor; [|exact Hd]. apply b_read_core. cbn [m_core core_reader].
      rewrite Ec. unfold core_read, read_payload, core_init, core_read_record, init_next. cbn. rewrite Eo. reflexivity.
    + destruct (store_delivers ds0 (sid d) (pre ++ post) (Ok tt) [] rs ps HG 0 0) as (c' & Hd). rewrite app_nil_r in Hd.
      destruct (IH post _ Ho (fresh_inside (sid d) (pre ++ post) (length ps + 0) c')) as (s' & Hd' & E').
      pose proof (enter_store d (pre ++ post) rs (Ok tt) Eo) as Ee.
      change (numbered_from (sid d) 0 ps) with (numbered (sid d) ps) in Hd.
      pose proof (delivers_app _ _ _ _ _ _ Hd Hd') as Hall.
      destruct (numbered (sid d) ps ++ concat iss) as [|x xs] eqn:El.
      * exists s. split; [constructor|]. inversion Hall; subst.
        rewrite Ec, Ee. exact E'.
      * exists s'. split; [|exact E']. eapply delivers_same; [|exact Hall]. cbn [m_core core_reader]. rewrite Ec, Ee. reflexivity.
Qed.

Lemma core_end ds0 s : core_read s = core_read (core_init []) -> yields (core_reader ds0) (None, s) [] (Ok tt).
Proof.
  intro E. apply (y_end_inv (core_reader ds0) (fun s => core_read s = core_read (core_init []))); [exact E|].
  intros s1 E1. cbn [m_core core_reader]. rewrite E1. eexists. split; reflexivity.
Qed.

Lemma stores_ok ds iss : Forall2 store_instances ds iss -> yields (core_reader ds) (b_init (core_reader ds)) (concat iss) (Ok tt).
Proof.
  intro HF. destruct (stores_deliver ds ds iss HF [] (core_init ds) I) as (s' & Hd & E).
  { rewrite app_nil_r. apply fresh_init. }
  rewrite <- (app_nil_r (concat iss)). eapply delivers_yields; [exact Hd|]. apply core_end. exact E.
Qed.

(* ---------------- framing errors ---------------- *)

Lemma bad_sticky ds0 s d : c_bad s = true -> c_store s = Some d ->
  stuck (core_reader ds0) (Throw Corrupt_record) (None, s).
Proof.
  intros Hb Hs. exists (fun b => b = (None, s)). split; [reflexivity|]. intros b ->. exists (None, s). split; [|reflexivity].
  apply b_read_core. cbn [m_core core_reader]. unfold core_read, read_payload. rewrite Hb, Hs. reflexivity.
Qed.

Lemma broken_read rs : broken rs -> forall d ds e k c,
  exists s', core_read (inside d ds rs e k c) = (Throw Corrupt_record, s') /\ c_bad s' = true /\ c_store s' = Some d.
Proof.
  intros [r rs' H1 H2|b ms r rs' Hb Hm H1 H2] d ds e k c; unfold core_read, read_payload; cbn [c_bad inside].
  - fold (inside d ds (r :: rs') e k c). rewrite read_one, (kind_neq _ _ H1), (kind_neq _ _ H2).
    eexists. split; [reflexivity|]. split; reflexivity.
  - fold (inside d ds (b :: ms ++ r :: rs') e k c). rewrite read_one, Hb.
    change (kBegin =? kComplete)%N with false. rewrite N.eqb_refl. set (fuel := records_left _ + 1).
    assert (Hf : length ms + 1 < fuel).
    { subst fuel. unfold records_left, inside. cbn [c_reader reader_len fst]. rewrite app_length. cbn [length]. lia. }
    rewrite (split_mid d ds e k (r :: rs') ms fuel (S c) (payload b) Hm ltac:(lia)).
    destruct (fuel - length ms) as [|f] eqn:Ef; [lia|]. cbn [split_loop].
    rewrite read_one, (kind_neq _ _ H1), (kind_neq _ _ H2). eexists. split; [reflexivity|]. split; reflexivity.
Qed.

Lemma sticky_read {A} (M : machine A) s s' l : m_core M s = (l, s') -> stuck M l (None, s') ->
  (forall x, l <> Ok (Some x)) -> stuck M l (None, s).
Proof.
  intros E (P & H1 & H2) _. exists (fun b => b = (None, s) \/ P b). split; [auto|].
  intros b [-> |Hb].
  - exists (None, s'). split; [apply b_read_core; exact E|auto].
  - destruct (H2 b Hb) as (b' & Eb & Hb'). exists b'. auto.
Qed.

Lemma framing_error pre iss d post rs ps bad e :
  Forall2 store_instances pre iss -> sopen d = Ok (Some (rs ++ bad, e)) -> groups rs ps -> broken bad ->
  reads_as_sticky (core_reader (pre ++ d :: post)) (b_init (core_reader (pre ++ d :: post)))
    (concat iss ++ numbered (sid d) ps) (Throw Corrupt_record).
Proof.
  intros HF Eo HG HB. set (ds0 := pre ++ d :: post).
  destruct (stores_deliver ds0 pre iss HF (d :: post) (core_init ds0) (ex_intro _ _ Eo) (fresh_init _)) as (s' & Hd & E).
  eapply delivers_sticky; [exact Hd|]. eapply sticky_same.
  { cbn [m_core core_reader]. rewrite E. apply enter_store. exact Eo. }
  destruct (store_delivers ds0 (sid d) post e bad rs ps HG 0 0) as (c' & Hd').
  change (numbered_from (sid d) 0 ps) with (numbered (sid d) ps) in Hd'.
  rewrite <- (app_nil_r (numbered (sid d) ps)). eapply delivers_sticky; [exact Hd'|].
  apply (proj2 (sticky_nil _ _ _)).
  destruct (broken_read bad HB (sid d) post e (length ps + 0) c') as (s2 & E2 & Hb & Hs).
  eapply sticky_read; [exact E2| |discriminate]. eapply bad_sticky; eassumption.
Qed.

(* an error of the record reader itself *)
Lemma reader_error pre iss d post rs ps e :
  Forall2 store_instances pre iss -> sopen d = Ok (Some (rs, e)) -> groups rs ps -> (forall u, e <> Ok u) ->
  reads_as_sticky (core_reader (pre ++ d :: post)) (b_init (core_reader (pre ++ d :: post)))
    (concat iss ++ numbered (sid d) ps) (cast_err e UB).
Proof.
  intros HF Eo HG He. set (ds0 := pre ++ d :: post).
  destruct (stores_deliver ds0 pre iss HF (d :: post) (core_init ds0) (ex_intro _ _ Eo) (fresh_init _)) as (s' & Hd & E).
  eapply delivers_sticky; [exact Hd|]. eapply sticky_same.
  { cbn [m_core core_reader]. rewrite E. apply enter_store. exact Eo. }
  destruct (store_delivers ds0 (sid d) post e [] rs ps HG 0 0) as (c' & Hd'). rewrite app_nil_r in Hd'.
  change (numbered_from (sid d) 0 ps) with (numbered (sid d) ps) in Hd'.
  rewrite <- (app_nil_r (numbered (sid d) ps)). eapply delivers_sticky; [exact Hd'|].
  apply (proj2 (sticky_nil _ _ _)).
  exists (fun b => b = (None, inside (sid d) post [] e (length ps + 0) c')). split; [reflexivity|].
  intros b ->. eexists. split; [|reflexivity]. apply b_read_core. cbn [m_core core_reader].
  unfold core_read, read_payload. cbn [c_bad inside]. fold (inside (sid d) post [] e (length ps + 0) c').
  rewrite (read_err _ _ _ _ _ He). destruct e as [u| | |]; [destruct (He u eq_refl)|..]; reflexivity.
Qed.

(* every sequence of records is made of proper ones, possibly followed by something broken or cut off *)
Lemma middles rs : Forall (fun m => kind m = kMiddle) rs \/
  exists ms r rest, rs = ms ++ r :: rest /\ Forall (fun m => kind m = kMiddle) ms /\ kind r <> kMiddle.
Proof.
  induction rs as [|r rs IH]; [left; constructor|]. destruct (N.eq_dec (kind r) kMiddle) as [E|E].
  - destruct IH as [IH|(ms & r' & rest & -> & HF & Hr)]; [left; auto|]. right. exists (r :: ms), r', rest. auto.
  - right. exists [], r, rs. auto.
Qed.

Lemma classify : forall n rs, length rs < n -> exists good bad ps, rs = good ++ bad /\ groups good ps /\
  (bad = [] \/ broken bad \/ truncated bad).
Proof.
  induction n as [|n IH]; intros rs Hn; [lia|]. destruct rs as [|r rs].
  - exists [], [], []. repeat split; auto. constructor.
  - destruct (N.eq_dec (kind r) kComplete) as [E|E].
    + destruct (IH rs) as (g & b & ps & -> & HG & Hb); [cbn in Hn; lia|]. exists (r :: g), b, (payload r :: ps).
      repeat split; auto. constructor; auto.
    + destruct (N.eq_dec (kind r) kBegin) as [E2|E2].
      * destruct (middles rs) as [HF|(ms & x & rest & -> & HF & Hx)].
        -- exists [], (r :: rs), []. repeat split; [constructor|]. right. right. exists r, rs. auto.
        -- destruct (N.eq_dec (kind x) kEnd) as [Ex|Ex].
           ++ destruct (IH rest) as (g & b & ps & -> & HG & Hb); [cbn in Hn; rewrite app_length in Hn; cbn in Hn; lia|].
              exists (r :: ms ++ x :: g), b, (concat (map payload (r :: ms ++ [x])) :: ps).
              repeat split; auto; [cbn; now rewrite <- app_assoc|]. constructor; auto.
           ++ exists [], (r :: ms ++ x :: rest), []. repeat split; [constructor|]. right. left. apply br_inside; auto.
      * exists [], (r :: rs), []. repeat split; [constructor|]. right. left. apply br_start; auto.
Qed.

(* A split record cut off by the end of the dataset: the handler that should report it dereferences a null store. *)
Lemma truncated_end pre iss d rs ps bad :
  Forall2 store_instances pre iss -> sopen d = Ok (Some (rs ++ bad, Ok tt)) -> groups rs ps -> truncated bad ->
  reads_as (core_reader (pre ++ [d])) (b_init (core_reader (pre ++ [d]))) (concat iss ++ numbered (sid d) ps) UB.
Proof.
  intros HF Eo HG (b & ms & -> & Hb & Hm). set (ds0 := pre ++ [d]). apply yields_iff.
  destruct (stores_deliver ds0 pre iss HF [d] (core_init ds0) (ex_intro _ _ Eo) (fresh_init _)) as (s' & Hd & E).
  eapply delivers_yields; [exact Hd|]. eapply first_step.
  { cbn [m_core core_reader]. rewrite E. apply enter_store. exact Eo. }
  destruct (store_delivers ds0 (sid d) [] (Ok tt) (b :: ms) rs ps HG 0 0) as (c' & Hd').
  change (numbered_from (sid d) 0 ps) with (numbered (sid d) ps) in Hd'.
  rewrite <- (app_nil_r (numbered (sid d) ps)). eapply delivers_yields; [exact Hd'|].
  eapply y_err; [discriminate|]. apply b_read_core. cbn [m_core core_reader cast_err].
  unfold core_read, read_payload. cbn [c_bad inside]. fold (inside (sid d) [] (b :: ms) (Ok tt) (length ps + 0) c').
  rewrite read_one, Hb. change (kBegin =? kComplete)%N with false. rewrite N.eqb_refl. set (fuel := records_left _ + 1).
  assert (Hf : length ms < fuel).
  { subst fuel. unfold records_left, inside. cbn [c_reader reader_len fst]. lia. }
  pose proof (split_mid (sid d) [] (Ok tt) (length ps + 0) [] ms fuel (S c') (payload b) Hm ltac:(lia)) as HS.
  rewrite app_nil_r in HS. rewrite HS. destruct (fuel - length ms) as [|f] eqn:Ef; [lia|]. cbn. reflexivity.
Qed.

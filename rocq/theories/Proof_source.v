(* What the streams deliver. *)
From Verif Require Import Common Model_rec Model_gzip Spec_gzip Proof_rec Proof_gzip Model_utf8 Spec_utf8 Proof_utf8 Model_source Spec_source.

(* ---------------- feeding in general ---------------- *)
Section Feeds.
  Variable Src : Type.
  Variable rd : Src -> N -> res (list byte) * Src.
  Notation feeds := (feeds Src rd).
  Lemma feeds_step lim s data f n : feeds lim s data f -> (0 < n < lim)%N ->
    match rd s n with
    | (Ok bs, s') => (N.of_nat (length bs) <= n)%N /\ (exists data', data = bs ++ data' /\ feeds lim s' data' f) /\ (bs = [] -> data = [] /\ f = Ends)
    | (Throw x, _) => exists P, f = Fails P /\ P x
    | _ => False
    end.
  Proof.
    intros (I & H & K) Hn. pose proof (K s data n H Hn) as Q. destruct (rd s n) as [[bs|x| |] s']; auto.
    destruct Q as (L & (data' & E & H') & Z). split; [exact L|]. split; [|exact Z]. exists data'. split; [exact E|]. exists I. auto.
  Qed.
  Lemma feeds_less lim lim' s data f : (lim' <= lim)%N -> feeds lim s data f -> feeds lim' s data f.
  Proof. intros L (I & H & K). exists I. split; [exact H|]. intros s1 d1 n H1 Hn. apply K; auto. lia. Qed.
End Feeds.

(* ---------------- a stream ---------------- *)
Lemma plain_feeds lim content sched : feeds stream plain_rd lim (mk_stream content sched) content Ends.
Proof.
  exists (fun s d => s_rest s = d). split; [reflexivity|]. intros s d n <- Hn. unfold plain_rd.
  pose proof (stream_read_shape s n) as Sp. destruct (stream_read s n) as [bs s']. destruct Sp as (E & L & Em).
  split; [exact L|]. split; [exists (s_rest s'); auto|]. intros Z. split; [|reflexivity]. apply Em; auto. lia.
Qed.

(* ---------------- decompression ---------------- *)
Section Gzip.
  Variable Z : Type.
  Variable z_init : Z.
  Variable z_step : Z -> byte -> list byte * znext Z.
  Variable z_stops : Z -> bool.
  Hypothesis eager : eager Z z_step z_stops.
  Hypothesis checked : checked Z z_step.
  Notation decodes := (decodes Z z_step).
  Notation lively := (lively Z z_init z_step).
  Notation mk_z := (mk_z Z).

  Definition code (e : znext Z) : zret := match e with Z_go _ => ZR_ok | Z_fin => ZR_end | Z_bad => ZR_data end.
  Lemma loop_part m : forall s o e rest p room out inp' z' r,
    decodes s m o e -> (forall s', e = Z_go s' -> rest = []) -> z_loop Z z_step z_stops (m ++ rest) (mk_z p (Z_go s)) room = (out, inp', z', r) ->
    (out = p ++ o /\ inp' = rest /\ z' = mk_z [] e /\ r = code e /\ (N.of_nat (length out) <= room)%N) \/
    (r = ZR_ok /\ N.of_nat (length out) = room /\ exists p' s' m' o', z' = mk_z p' (Z_go s') /\ inp' = m' ++ rest /\ decodes s' m' o' e /\
       p ++ o = out ++ p' ++ o' /\ (p' <> [] \/ z_stops s' = true \/ m' = [])) \/
    (e = Z_bad /\ r = ZR_ok /\ N.of_nat (length out) = room /\ exists p', z' = mk_z p' Z_bad /\ inp' = rest /\ p' <> [] /\ p ++ o = out ++ p').
  Proof.
    induction m as [|c m IH]; intros s o e rest p room out inp' z' r D R.
    - inversion D; subst. rewrite (R s eq_refl). cbn [app z_loop z_pend z_next]. set (k := Nat.min _ _).
      assert (K1 : (N.of_nat (length (firstn k p)) <= room)%N) by (rewrite firstn_length; lia).
      pose proof (firstn_skipn k p) as K2. destruct (skipn k p) as [|b q] eqn:Sk.
      + rewrite app_nil_r in K2. rewrite K2 in *. destruct ((room - N.of_nat k =? 0)%N && z_stops s)%bool; intros [= <- <- <- <-]; left; rewrite app_nil_r; auto.
      + intros [= <- <- <- <-]. right. left. split; [reflexivity|]. split.
        * rewrite firstn_length. destruct (Nat.eq_dec k (length p)) as [X|]; [rewrite X, skipn_all in Sk; discriminate|]. lia.
        * exists (b :: q), s, [], []. cbn [app]. rewrite !app_nil_r. rewrite K2. refine (conj eq_refl (conj eq_refl (conj (D_nil _ _ _) (conj eq_refl _)))). left. discriminate.
    - cbn [app z_loop z_pend z_next]. set (k := Nat.min _ _).
      assert (K1 : (N.of_nat (length (firstn k p)) <= room)%N) by (rewrite firstn_length; lia).
      pose proof (firstn_skipn k p) as K2. destruct (skipn k p) as [|b q] eqn:Sk.
      + rewrite app_nil_r in K2. rewrite K2 in *. assert (Ek : k = length p). { apply (f_equal (@length byte)) in Sk. rewrite skipn_length in Sk. cbn in Sk. lia. }
        destruct ((room - N.of_nat k =? 0)%N && z_stops s)%bool eqn:B.
        * intros [= <- <- <- <-]. right. left. apply andb_true_iff in B. destruct B as [B B']. apply N.eqb_eq in B. split; [reflexivity|]. split; [lia|].
          exists [], s, (c :: m), o. cbn. repeat split; auto.
        * destruct (z_step s c) as [o1 nx] eqn:E. destruct (z_loop Z z_step z_stops (m ++ rest) (mk_z o1 nx) (room - N.of_nat k)%N) as [[[out2 inp2] z2] r2] eqn:L.
          intros [= <- <- <- <-]. inversion D as [|? ? ? ? E1 G1|? ? ? s1 ? os1 ? E1 D1]; subst.
          -- rewrite E in E1. injection E1 as -> ->. destruct e as [s'| |]; [now destruct (G1 s')| |].
             ++ rewrite (checked _ _ _ E) in *. assert (LL : z_loop Z z_step z_stops rest (mk_z [] Z_fin) (room - N.of_nat k) = ([], rest, mk_z [] Z_fin, ZR_end)).
                { destruct rest; cbn; rewrite ?N.min_0_r; reflexivity. }
                cbn [app] in L. rewrite LL in L. injection L as <- <- <- <-. left. rewrite app_nil_r. auto.
             ++ cbn [app] in L. revert L. destruct rest as [|c' rest']; cbn [z_loop z_pend z_next]; set (k2 := Nat.min _ _);
                pose proof (firstn_skipn k2 o) as K3; destruct (skipn k2 o) as [|b2 q2] eqn:Sk2; intros [= <- <- <- <-].
                all: assert (L2 : (N.of_nat (length (firstn k2 o)) <= room - N.of_nat k)%N) by (rewrite firstn_length; lia).
                all: try (rewrite app_nil_r in K3; rewrite K3 in *; left; repeat split; auto; rewrite app_length; lia).
                all: right; right; split; [reflexivity|]; split; [reflexivity|]; split; [|exists (b2 :: q2); repeat split; auto; try discriminate; rewrite <- app_assoc, K3; reflexivity].
                all: rewrite app_length, firstn_length; assert (k2 <> length o) by (intros X; rewrite X, skipn_all in Sk2; discriminate); lia.
          -- rewrite E in E1. injection E1 as -> ->.
             destruct (IH _ _ _ _ _ _ _ _ _ _ D1 R L) as [(-> & -> & -> & -> & Q)|[(-> & Q & p' & s' & m' & o' & -> & -> & D' & EQ & G)|(-> & -> & Q & p' & -> & -> & G & EQ)]].
             ++ left. repeat split; auto. rewrite app_length. lia.
             ++ right. left. split; [reflexivity|]. split; [rewrite app_length; lia|]. exists p', s', m', o'. repeat split; auto.
                rewrite <- app_assoc. f_equal. exact EQ.
             ++ right. right. split; [reflexivity|]. split; [reflexivity|]. split; [rewrite app_length; lia|]. exists p'. repeat split; auto.
                rewrite <- app_assoc. f_equal. exact EQ.
      + intros [= <- <- <- <-]. right. left. split; [reflexivity|]. split.
        * rewrite firstn_length. destruct (Nat.eq_dec k (length p)) as [X|]; [rewrite X, skipn_all in Sk; discriminate|]. lia.
        * exists (b :: q), s, (c :: m), o. refine (conj eq_refl (conj eq_refl (conj D (conj _ _)))); [|left; discriminate]. rewrite app_assoc, K2. reflexivity.
  Qed.
  Lemma decodes_stops s m o e : decodes s m o e -> m <> [] -> z_stops s = true -> o <> [].
  Proof.
    intros D N S. inversion D as [|? ? ? ? E|? ? ? ? ? ? ? E]; subst; [congruence| |]; pose proof (eager _ c S) as G; rewrite E in G; cbn in G; auto.
    destruct o0; [congruence|discriminate].
  Qed.

  (* From the state [s] the rest of the piece is (the rest of) a member or of the piece. *)
  Definition cont (ok : Prop) (s : Z) (buf : list byte) (bs : list (list byte)) (o data : list byte) (f : fate) : Prop :=
    (exists s', decodes s buf o (Z_go s') /\ lively s' false [] bs data f /\ ok) \/
    (exists m b, buf = m ++ b /\ decodes s m o Z_fin /\ lively z_init true b bs data f /\ ok) \/
    (exists m b, buf = m ++ b /\ decodes s m o Z_bad /\ data = [] /\ f = Fails (eq Inflate_err)).
  Lemma lively_cont s fresh buf bs data f : lively s fresh buf bs data f -> buf <> [] ->
    exists o d, data = o ++ d /\ cont (o <> [] \/ d = [] /\ f = Ends) s buf bs o d f.
  Proof.
    intros L N. destruct L as [|s|s fresh b bs data f Nb L|s fresh b o s' bs data f Nb D G L|s fresh m o b bs data f D G L|s fresh m o b bs D]; try congruence.
    - exists o, data. split; [reflexivity|]. left; eauto.
    - exists o, data. split; [reflexivity|]. right; left; eauto 7.
    - exists o, []. split; [now rewrite app_nil_r|]. right; right; eauto 8.
  Qed.
  Lemma cont_weaken (A B : Prop) s buf bs o d f : (A -> B) -> cont A s buf bs o d f -> cont B s buf bs o d f.
  Proof. intros H [(s' & D & L & G)|[(m & b & E & D & L & G)|C]]; [left; eauto|right; left; eauto 8|right; right; exact C]. Qed.

  Definition ginv (g : gstream Z) (data : list byte) (f : fate) : Prop := exists bs, pieces (g_inner Z g) bs /\
    match i_state Z (g_inflater Z g) with
    | ZR_end => i_stream Z (g_inflater Z g) = z_new Z z_init /\ lively z_init true (g_buf Z g) bs data f
    | ZR_ok =>
        (exists p s o d, i_stream Z (g_inflater Z g) = mk_z p (Z_go s) /\ data = p ++ o ++ d /\ cont True s (g_buf Z g) bs o d f /\
           (p <> [] \/ z_stops s = true \/ g_buf Z g = [])) \/
        (exists p, p <> [] /\ i_stream Z (g_inflater Z g) = mk_z p Z_bad /\ f = Fails (eq Inflate_err) /\ data = p)
    | _ => False
    end.

  Lemma lively_nil s fresh bs data f : lively s fresh [] bs data f ->
    (bs = [] /\ data = [] /\ ((s = z_init /\ fresh = true /\ f = Ends) \/ (fresh = false /\ f = Fails (eq Inflate_err)))) \/
    (exists b bs', bs = b :: bs' /\ b <> [] /\ lively s fresh b bs' data f).
  Proof.
    intros L. remember [] as buf eqn:E. destruct L as [|s|s fresh b bs data f Nb L|s fresh b o s' bs data f Nb D G L|s fresh m o b bs data f D G L|s fresh m o b bs D];
      try congruence; auto 8.
    - right. eauto.
    - apply app_eq_nil in E. destruct E as [-> _]. inversion D.
    - apply app_eq_nil in E. destruct E as [-> _]. inversion D.
  Qed.
  Lemma decodes_go_nil s o e : decodes s [] o e -> o = [] /\ e = Z_go s.
  Proof. intros D. inversion D. auto. Qed.

  (* A read from a buffer that is not empty. *)
  Lemma gdeliver inner i buf n bs p s o d f : usual n -> buf <> [] -> validate_state (i_state Z i) = Ok tt -> i_stream Z i = mk_z p (Z_go s) ->
    pieces inner bs -> cont (p <> [] \/ o <> [] \/ d = [] /\ f = Ends) s buf bs o d f ->
    match g_deliver Z z_init z_step z_stops (mk_g Z inner i buf) n with
    | (Ok (k, out), g') => k = N.of_nat (length out) /\ (N.of_nat (length out) <= n)%N /\ (exists data', p ++ o ++ d = out ++ data' /\ ginv g' data' f) /\
        (out = [] -> p ++ o ++ d = [] /\ f = Ends)
    | (Throw x, _) => x = Inflate_err /\ f = Fails (eq Inflate_err)
    | _ => False
    end.
  Proof.
    intros U NE V Si P C. unfold g_deliver. cbn [Model_gzip.g_inflater Model_gzip.g_buf Model_gzip.g_inner]. unfold i_inflate. rewrite V, Si.
    rewrite N.mod_small by apply U. unfold z_inflate.
    destruct (z_loop Z z_step z_stops buf (mk_z p (Z_go s)) n) as [[[out inp'] z'] r] eqn:L. unfold usual in U.
    assert (Hnz : forall l : list byte, N.of_nat (length l) = n -> (length l =? 0)%nat = false) by (intros l Hl; apply Nat.eqb_neq; lia).
    assert (PART : forall e rest m (Hb : buf = m ++ rest), (forall s', e = Z_go s' -> rest = []) -> decodes s m o e ->
      (forall s' m' o', decodes s' m' o' e -> cont True s' (m' ++ rest) bs o' d f) ->
      r = ZR_ok -> N.of_nat (length out) = n -> forall p' s' m' o', z' = mk_z p' (Z_go s') -> inp' = m' ++ rest -> decodes s' m' o' e ->
      p ++ o = out ++ p' ++ o' -> (p' <> [] \/ z_stops s' = true \/ m' = []) ->
      let r' := if (length out =? 0)%nat && (length inp' =? length buf)%nat then ZR_buf else ZR_ok in
      match (let (r0, i0) := match validate_state r' with
                | Ok _ => (Ok (out, inp', (n - N.of_nat (length out))%N), mk_inflater Z (match r' with ZR_end => z_new Z z_init | _ => z' end) r')
                | Throw e0 => (Throw e0, mk_inflater Z z' r') | UB => (UB, mk_inflater Z z' r') | Fuel => (Fuel, i) end in
             match r0 with
             | Ok (out0, inp0, unused) => (Ok ((n - unused)%N, out0), mk_g Z inner i0 inp0)
             | Throw e0 => (Throw e0, mk_g Z inner i0 buf) | UB => (UB, mk_g Z inner i0 buf) | Fuel => (Fuel, mk_g Z inner i0 buf) end) with
      | (Ok (k, out0), g') => k = N.of_nat (length out0) /\ (N.of_nat (length out0) <= n)%N /\ (exists data', p ++ o ++ d = out0 ++ data' /\ ginv g' data' f) /\
          (out0 = [] -> p ++ o ++ d = [] /\ f = Ends)
      | (Throw x, _) => x = Inflate_err /\ f = Fails (eq Inflate_err)
      | _ => False
      end).
    { intros e rest m Hb He D Hc -> Q p' s' m' o' -> -> D' EQ K. cbv zeta. rewrite (Hnz out Q). cbn [andb validate_state].
      split; [lia|]. split; [lia|]. split.
      - exists (p' ++ o' ++ d). split; [rewrite app_assoc, EQ, <- !app_assoc; reflexivity|]. exists bs. split; [exact P|]. cbn [i_state Model_gzip.g_inflater i_stream Model_gzip.g_buf].
        left. exists p', s', o', d. split; [reflexivity|]. split; [reflexivity|]. split; [apply Hc; exact D'|].
        destruct K as [K|[K|K]]; auto. subst m'. destruct (decodes_go_nil _ _ _ D') as [_ ->]. rewrite (He _ eq_refl). auto.
      - intros ->. cbn in Q. lia. }
    destruct C as [(s1 & D & Lv & G)|[(m & b & Eb & D & Lv & G)|(m & b & Eb & D & Ed & Ef)]].
    - assert (L' : z_loop Z z_step z_stops (buf ++ []) (mk_z p (Z_go s)) n = (out, inp', z', r)) by (rewrite app_nil_r; exact L).
      destruct (loop_part _ _ _ _ [] _ _ _ _ _ _ D (fun _ _ => eq_refl) L') as [(-> & -> & -> & -> & Q)|[(Er & Q & p' & s' & m' & o' & Ez & Ei & D' & EQ & K)|(X & _)]]; [| |discriminate].
      + cbn [code]. destruct buf as [|c buf]; [congruence|]. replace (length (@nil byte) =? length (c :: buf))%nat with false by reflexivity. rewrite andb_false_r. cbn [validate_state].
        split; [lia|]. split; [exact Q|]. split.
        * exists d. split; [now rewrite <- app_assoc|]. exists bs. split; [exact P|]. cbn. left. exists [], s1, [], d. split; [reflexivity|]. split; [reflexivity|].
          split; [left; exists s1; exact (conj (D_nil _ _ _) (conj Lv I))|auto].
        * intros Z0. apply app_eq_nil in Z0. destruct Z0 as [-> ->]. cbn [app]. destruct G as [G|[G|[-> ->]]]; try congruence; auto.
      + subst r. apply (PART (Z_go s1) [] buf (eq_sym (app_nil_r buf)) (fun _ _ => eq_refl) D) with (p' := p') (s' := s') (m' := m') (o' := o'); auto.
        intros s2 m2 o2 D2. left. exists s1. rewrite app_nil_r. auto.
    - subst buf. destruct (loop_part _ _ _ _ b _ _ _ _ _ _ D (fun s' X => ltac:(discriminate)) L) as [(-> & -> & -> & -> & Q)|[(Er & Q & p' & s' & m' & o' & Ez & Ei & D' & EQ & K)|(X & _)]]; [| |discriminate].
      + cbn [code validate_state]. split; [lia|]. split; [exact Q|]. split.
        * exists d. split; [now rewrite <- app_assoc|]. exists bs. split; [exact P|]. cbn. auto.
        * intros Z0. apply app_eq_nil in Z0. destruct Z0 as [-> ->]. cbn [app]. destruct G as [G|[G|[-> ->]]]; try congruence; auto.
      + subst r. apply (PART Z_fin b m eq_refl (fun s' X => ltac:(discriminate)) D) with (p' := p') (s' := s') (m' := m') (o' := o'); auto.
        intros s2 m2 o2 D2. right. left. exists m2, b. exact (conj eq_refl (conj D2 (conj Lv I))).
    - subst buf d f. destruct (loop_part _ _ _ _ b _ _ _ _ _ _ D (fun s' X => ltac:(discriminate)) L) as [(-> & -> & -> & -> & Q)|[(Er & Q & p' & s' & m' & o' & Ez & Ei & D' & EQ & K)|(_ & -> & Q & p' & -> & -> & Np & EQ)]].
      + cbn [code validate_state]. auto.
      + subst r. apply (PART Z_bad b m eq_refl (fun s' X => ltac:(discriminate)) D) with (p' := p') (s' := s') (m' := m') (o' := o'); auto.
        intros s2 m2 o2 D2. right. right. exists m2, b. auto.
      + rewrite (Hnz out Q). cbn [andb validate_state]. split; [lia|]. split; [lia|]. split.
        * exists p'. rewrite app_nil_r. split; [exact EQ|]. exists bs. split; [exact P|]. cbn. right. exists p'. auto.
        * intros ->. cbn in Q. lia.
  Qed.

  Lemma gread g n data f : usual n -> ginv g data f ->
    match g_read Z z_init z_step z_stops g n with
    | (Ok (k, out), g') => k = N.of_nat (length out) /\ (N.of_nat (length out) <= n)%N /\ (exists data', data = out ++ data' /\ ginv g' data' f) /\
        (out = [] -> data = [] /\ f = Ends)
    | (Throw x, _) => x = Inflate_err /\ f = Fails (eq Inflate_err)
    | _ => False
    end.
  Proof.
    intros U (bs & P & I). destruct g as [inner i buf]. cbn [Model_gzip.g_inner Model_gzip.g_inflater Model_gzip.g_buf] in *. unfold g_read. cbn [Model_gzip.g_inner Model_gzip.g_inflater Model_gzip.g_buf].
    assert (Z0 : (n =? 0)%N = false) by (apply N.eqb_neq; unfold usual in U; lia). rewrite Z0.
    assert (BAD : forall p buf1 inner1 bs1, p <> [] -> i_state Z i = ZR_ok -> i_stream Z i = mk_z p Z_bad -> f = Fails (eq Inflate_err) -> data = p -> buf1 <> [] -> pieces inner1 bs1 ->
      match g_deliver Z z_init z_step z_stops (mk_g Z inner1 i buf1) n with
      | (Ok (k, out), g') => k = N.of_nat (length out) /\ (N.of_nat (length out) <= n)%N /\ (exists data', data = out ++ data' /\ ginv g' data' f) /\ (out = [] -> data = [] /\ f = Ends)
      | (Throw x, _) => x = Inflate_err /\ f = Fails (eq Inflate_err)
      | _ => False
      end).
    { intros p buf1 inner1 bs1 Np Es Ei -> -> Nb P1. unfold g_deliver. cbn [Model_gzip.g_inflater Model_gzip.g_buf Model_gzip.g_inner]. unfold i_inflate. rewrite Es, Ei. cbn [validate_state].
      rewrite N.mod_small by apply U. unfold z_inflate. unfold usual in U.
      assert (LL : z_loop Z z_step z_stops buf1 (mk_z p Z_bad) n =
        let k := Nat.min (N.to_nat (N.min n (N.of_nat (length p)))) (length p) in
        match skipn k p with [] => (firstn k p, buf1, mk_z [] Z_bad, ZR_data) | q => (firstn k p, buf1, mk_z q Z_bad, ZR_ok) end).
      { destruct buf1; cbn; destruct (skipn _ p); reflexivity. }
      rewrite LL. cbv zeta. set (k := Nat.min _ _). pose proof (firstn_skipn k p) as K2. destruct (skipn k p) as [|b q] eqn:Sk; [cbn; auto|].
      assert (Lk : N.of_nat (length (firstn k p)) = n).
      { rewrite firstn_length. destruct (Nat.eq_dec k (length p)) as [X|]; [rewrite X, skipn_all in Sk; discriminate|]. lia. }
      replace (length (firstn k p) =? 0)%nat with false by (symmetry; apply Nat.eqb_neq; lia). cbn [andb validate_state].
      split; [lia|]. split; [lia|]. split.
      - exists (b :: q). split; [now symmetry|]. exists bs1. split; [exact P1|]. cbn. right. exists (b :: q). repeat split; auto; try discriminate.
      - intros E. rewrite E in Lk. cbn in Lk. lia. }
    assert (LIVE : forall buf1 inner1 bs1 fresh p s d, validate_state (i_state Z i) = Ok tt -> i_stream Z i = mk_z p (Z_go s) -> data = p ++ d -> buf1 <> [] -> pieces inner1 bs1 -> lively s fresh buf1 bs1 d f ->
      match g_deliver Z z_init z_step z_stops (mk_g Z inner1 i buf1) n with
      | (Ok (k, out), g') => k = N.of_nat (length out) /\ (N.of_nat (length out) <= n)%N /\ (exists data', data = out ++ data' /\ ginv g' data' f) /\ (out = [] -> data = [] /\ f = Ends)
      | (Throw x, _) => x = Inflate_err /\ f = Fails (eq Inflate_err)
      | _ => False
      end).
    { intros buf1 inner1 bs1 fresh p s d V Es -> Nb P1 L. destruct (lively_cont _ _ _ _ _ _ L Nb) as (o & d1 & -> & C).
      apply (gdeliver inner1 i buf1 n bs1 p s o d1 f U Nb V Es P1). eapply cont_weaken; [|exact C]. tauto. }
    destruct buf as [|c buf].
    - pose proof (stream_read_shape inner g_block) as Sp. destruct (stream_read inner g_block) as [bs1 inner1] eqn:Er. destruct Sp as (E & Lb & Em).
      destruct P as [inner P|inner b inner' bs Eb Nb P].
      + rewrite P in E. destruct bs1; [|discriminate]. unfold i_eof.
        destruct (i_state Z i) eqn:Es; try contradiction.
        * split; [reflexivity|]. destruct I as [(p & s & o & d & Ei & -> & C & G)|(p & Np & Ei & -> & ->)]; [|reflexivity].
          destruct C as [(s' & D & L & _)|[(m & b & Eb & D & _)|(m & b & Eb & D & -> & ->)]]; [| |reflexivity].
          -- destruct (lively_nil _ _ _ _ _ L) as [(_ & _ & [(_ & X & _)|(_ & X)])|(b & bs' & X & _)]; try discriminate. exact X.
          -- symmetry in Eb. apply app_eq_nil in Eb. destruct Eb as [-> _]. inversion D.
        * destruct I as [Ei L]. destruct (lively_nil _ _ _ _ _ L) as [(_ & -> & [(_ & _ & ->)|(X & _)])|(b & bs' & X & _)]; try discriminate.
          split; [reflexivity|]. split; [cbn; lia|]. split; [|auto]. exists []. split; [reflexivity|]. exists []. cbn. rewrite Es. split; [constructor; symmetry; exact E|]. split; [exact Ei|constructor].
      + change (512 * 1024)%N with g_block in Eb. rewrite Er in Eb. injection Eb as -> ->. destruct b as [|c b]; [congruence|].
        destruct (i_state Z i) eqn:Es; try contradiction.
        * destruct I as [(p & s & o & d & Ei & -> & C & G)|(p & Np & Ei & Ef & Ed)]; [|apply (BAD p _ _ bs); auto].
          destruct C as [(s' & D & L & _)|[(m & b' & Eb & D & _)|(m & b' & Eb & D & _)]].
          -- destruct (decodes_go_nil _ _ _ D) as [-> X]. injection X as ->.
             destruct (lively_nil _ _ _ _ _ L) as [(X & _)|(b' & bs' & X & Nb' & L')]; [discriminate|]. injection X as <- <-.
             apply (LIVE _ _ bs false p s d); auto.
          -- symmetry in Eb. apply app_eq_nil in Eb. destruct Eb as [-> _]. inversion D.
          -- symmetry in Eb. apply app_eq_nil in Eb. destruct Eb as [-> _]. inversion D.
        * destruct I as [Ei L]. destruct (lively_nil _ _ _ _ _ L) as [(X & _)|(b' & bs' & X & Nb' & L')]; [discriminate|]. injection X as <- <-.
          apply (LIVE _ _ bs true [] z_init data); auto.
    - destruct (i_state Z i) eqn:Es; try contradiction.
      + destruct I as [(p & s & o & d & Ei & -> & C & G)|(p & Np & Ei & Ef & Ed)]; [|apply (BAD p _ _ bs); auto; discriminate].
        apply (gdeliver inner i (c :: buf) n bs p s o d f U ltac:(discriminate)); auto; [now rewrite Es|].
        destruct G as [G|[G|G]]; [eapply cont_weaken; [|exact C]; auto| |discriminate].
        destruct C as [(s' & D & L & _)|[(m & b' & Eb & D & L & _)|C]]; [left; exists s'|right; left; exists m, b'|right; right; exact C].
        * refine (conj D (conj L _)). right. left. eapply decodes_stops; eauto. discriminate.
        * refine (conj Eb (conj D (conj L _))). right. left. eapply decodes_stops; eauto. intros ->. inversion D.
      + destruct I as [Ei L]. apply (LIVE _ _ bs true [] z_init data); auto. discriminate.
  Qed.

  (* A compressed file all of whose pieces carry data. *)
  Lemma lively_feeds lim content sched data f : (lim <= 2 ^ 32)%N -> lively_file Z z_init z_step content sched data f ->
    feeds (gstream Z) (gzip_rd z_init z_step z_stops) lim (g_open Z z_init (mk_stream content sched)) data f.
  Proof.
    intros Hl (bs & P & L). exists (fun g d => ginv g d f). split.
    - exists bs. split; [exact P|]. cbn. auto.
    - intros g d n I Hn. unfold gzip_rd. assert (U : usual n) by (unfold usual; lia). pose proof (gread g n d f U I) as G.
      destruct (g_read Z z_init z_step z_stops g n) as [[[k out]|x| |] g']; cbn [bind]; auto.
      + destruct G as (-> & G). cbn [fst snd]. rewrite N.eqb_refl. exact G.
      + destruct G as [-> ->]. eauto.
  Qed.
End Gzip.

(* The records read from a stream of any kind. *)
From Verif Require Import Common Model_rec Proof_rec Model_source Spec_source Proof_source Proof_source2.

Lemma core_more D f : forall r x, read_record_core D f r = x -> x <> Fuel -> forall f', f <= f' -> read_record_core D f' r = x.
Proof.
  induction f as [|f IH]; intros r x E NF f' L; [cbn in E; congruence|]. destruct f' as [|f']; [lia|]. cbn [read_record_core] in *.
  destruct (D (sr_chunk r) (negb (cr_is_eof (sr_cr r)))) as [[[record chunk] hint]|e| |]; cbn [bind] in *; auto.
  destruct record; [exact E|]. destruct (cr_read _ chunk) as [[chunk' cr']|e| |]; cbn [bind] in *; auto.
  destruct chunk'; [exact E|]. apply IH; auto. lia.
Qed.
Lemma all_more D f : forall r, snd (read_all D f r) <> Fuel -> forall f', f <= f' -> read_all D f' r = read_all D f r.
Proof.
  induction f as [|f IH]; intros r NF f' L; [cbn in NF; congruence|]. destruct f' as [|f']; [lia|]. cbn [read_all] in *.
  destruct (read_record D r) as [[[x|] r']|e| |]; auto. rewrite (IH r'); auto; [|lia].
  destruct (read_all D f r') as [xs e]. exact NF.
Qed.
Lemma double_until_le fuel : forall next value, (double_until fuel next value <= N.max next (2 * value))%N.
Proof.
  induction fuel as [|fuel IH]; intros next value; cbn [double_until]; [lia|]. destruct (N.ltb_spec next value); [|lia]. specialize (IH (2 * next)%N value). lia.
Qed.

Section More.
  Variable Src : Type.
  Variable rd : Src -> N -> res (list byte) * Src.
  Variable D : decoder.
  Variable fuel : nat.
  Lemma sread_more f1 : forall c chunk, sread_record Src rd D fuel f1 c chunk <> Fuel -> forall f2, f1 <= f2 ->
    sread_record Src rd D fuel f2 c chunk = sread_record Src rd D fuel f1 c chunk.
  Proof.
    induction f1 as [|f1 IH]; intros c chunk NF f2 L; [cbn in NF; congruence|]. destruct f2 as [|f2]; [lia|]. cbn [sread_record] in *.
    destruct (D chunk (negb (sc_eof _ c))) as [[[record chunk1] hint]|e| |]; cbn [bind] in *; auto.
    destruct record; [reflexivity|]. destruct (schunk_read _ _ _ _ chunk1) as [[chunk2 c2]|e| |]; cbn [bind] in *; auto.
    destruct chunk2; [reflexivity|]. apply IH; auto. lia.
  Qed.
  Lemma sall_more f1 : forall c chunk, snd (sread_all Src rd D fuel f1 c chunk) <> Fuel -> forall f2, f1 <= f2 ->
    sread_all Src rd D fuel f2 c chunk = sread_all Src rd D fuel f1 c chunk.
  Proof.
    induction f1 as [|f1 IH]; intros c chunk NF f2 L; [cbn in NF; congruence|]. destruct f2 as [|f2]; [lia|]. cbn [sread_all] in *.
    destruct (sread_record _ _ _ _ _ c chunk) as [[[[x|] c'] chunk']|e| |]; auto. rewrite (IH c' chunk'); auto; [|lia].
    destruct (sread_all _ _ _ _ f1 c' chunk') as [xs e]. exact NF.
  Qed.
End More.

Section Records.
  Variable Src : Type.
  Variable rd : Src -> N -> res (list byte) * Src.
  Variable lim : N.
  Variable f : fate.
  Notation feeds s data := (feeds Src rd lim s data f).
  Variable D : decoder.
  Hypothesis HD : tame D.
  Variable H : N.
  Hypothesis HH : hints_within H D.
  (* the largest chunk *)
  Variable B : N.
  Variable N0 : nat.
  Hypothesis BH : (2 * H <= B)%N.
  Hypothesis BN : (2 * N.of_nat N0 <= B)%N.
  Hypothesis BL : (B < lim)%N.
  Variable fuel : nat.
  Hypothesis FU : N0 + 3 <= fuel.
  Notation schunk := (schunk Src).

  Definition conv (c : schunk) (data : list byte) (sched : list nat) : dchunk :=
    mk_dchunk (mk_stream data sched) (sc_next _ c) (sc_block _ c) (sc_eof _ c).
  Definition J (c : schunk) (chunk data : list byte) : Prop :=
    length chunk + length data <= N0 /\ (0 < sc_next _ c)%N /\ (sc_next _ c <= B)%N /\ (sc_eof _ c = true -> data = [] /\ f = Ends) /\
    (sc_eof _ c = false -> match sc_block _ c with None => chunk = [] | Some b => (b <= sc_next _ c)%N /\ (N.of_nat (length chunk) <= b)%N end).

  Lemma sim_chunk c left data : J c left data -> feeds (sc_stream _ c) data -> sc_eof _ c = false ->
    (exists chunk c' data' sch, schunk_read Src rd fuel c left = Ok (chunk, c') /\ feeds (sc_stream _ c') data' /\ J c' chunk data' /\ left ++ data = chunk ++ data' /\
       (chunk = [] -> f = Ends) /\ (sc_eof _ c' = true \/ length data' < length data) /\
       forall sched, dchunk_read (conv c data (sch ++ sched)) left = Ok (chunk, conv c' data' sched)) \/
    (exists x P, schunk_read Src rd fuel c left = Throw x /\ f = Fails P /\ P x).
  Proof.
    intros (Jn & Jp & Jb & _ & Jk) F E. specialize (Jk E). unfold schunk_read, dchunk_read. cbn [conv cr_eof cr_block cr_next cr_stream]. rewrite E.
    set (ll := N.of_nat (length left)).
    set (next := match sc_block _ c with Some b => if (b =? ll)%N && (b =? sc_next _ c)%N then (2 * sc_next _ c)%N else sc_next _ c | None => sc_next _ c end).
    assert (Hnext : (ll < next)%N /\ (sc_next _ c <= next)%N /\ (next <= B)%N).
    { subst next. destruct (sc_block _ c) as [b|].
      - destruct Jk as [Hb1 Hb2]. fold ll in Hb2. destruct (N.eqb_spec b ll), (N.eqb_spec b (sc_next _ c)); cbn [andb]; subst ll; lia.
      - subst left. subst ll. cbn. lia. }
    destruct Hnext as (Hn1 & Hn2 & Hn3). replace (next <? ll)%N with false by lia.
    destruct (sim_fill Src rd lim f fuel (sc_stream _ c) data (next - ll) left F ltac:(lia)) as [(acc & s' & eof & data' & sch & Ef & F' & L' & Ze & S')|[(x & P & Ef & Hx)|(_ & X)]]; [| |lia].
    - left. rewrite Ef. cbn [bind]. exists acc. eexists. exists data', sch. split; [reflexivity|]. split; [exact F'|].
      destruct (fill_spec fuel (mk_stream data (sch ++ [])) (next - ll) left ltac:(cbn; lia)) as (s2 & E2 & Es2). rewrite S' in E2. cbn [s_rest] in *.
      injection E2 as Ea E2 Ee. subst s2. cbn [s_rest] in Es2.
      assert (Sp : left ++ data = acc ++ data'). { rewrite Ea, Es2, <- app_assoc, firstn_skipn. reflexivity. }
      assert (Sl : length left + length data = length acc + length data') by (rewrite <- !app_length, Sp; reflexivity).
      split; [|split; [exact Sp|split; [|split]]].
      + split; [lia|]. cbn [sc_next sc_eof sc_block]. split; [lia|]. split; [exact Hn3|]. split.
        * intros ->. split; [|auto]. symmetry in Ee. apply N.ltb_lt in Ee. rewrite Es2. apply skipn_all2. lia.
        * intros ->. split; [lia|]. rewrite Ea, app_length, firstn_length. subst ll. lia.
      + intros X. apply Ze. rewrite X in Ea. symmetry in Ea. apply app_eq_nil in Ea. destruct Ea as [Ea1 Ea2]. rewrite Ee. apply N.ltb_lt.
        apply (f_equal (@length byte)) in Ea2. rewrite firstn_length in Ea2. cbn in Ea2. lia.
      + cbn [sc_eof]. destruct eof; [auto|right]. symmetry in Ee. apply N.ltb_ge in Ee. rewrite Es2, skipn_length. lia.
      + intros sched. cbn [conv cr_stream s_rest]. rewrite (fill_fuel _ fuel) by (cbn; lia). rewrite S'. reflexivity.
    - right. exists x, P. rewrite Ef. auto.
  Qed.

  Lemma J_hint c chunk data h : J c chunk data -> (h <= H)%N -> J (schunk_hint Src c h) chunk data.
  Proof.
    intros (J1 & J2 & J3 & J4 & J5) Lh. unfold schunk_hint. pose proof (double_until_ge (N.size_nat h) (sc_next _ c) h). pose proof (double_until_le (N.size_nat h) (sc_next _ c) h).
    repeat split; cbn [sc_next sc_eof sc_block]; auto; try lia.
    - apply J4; auto.
    - apply J4; auto.
    - intros E. specialize (J5 E). destruct (sc_block _ c); [|exact J5]. lia.
  Qed.
  Lemma J_rest c taken rest data : J c (taken ++ rest) data -> J c rest data.
  Proof.
    intros (J1 & J2 & J3 & J4 & J5). rewrite app_length in *. split; [lia|]. split; [exact J2|]. split; [exact J3|]. split; [exact J4|].
    intros E. specialize (J5 E). destruct (sc_block _ c); [lia|]. apply app_eq_nil in J5. apply J5.
  Qed.

  Lemma sim_record fuel1 : forall c chunk data, J c chunk data -> feeds (sc_stream _ c) data ->
    (exists r c' chunk' data' sch, sread_record Src rd D fuel fuel1 c chunk = Ok (r, c', chunk') /\ feeds (sc_stream _ c') data' /\ (r = None -> f = Ends) /\
       (r <> None -> J c' chunk' data' /\ length chunk' + length data' < length chunk + length data) /\
       forall sched, read_record_core D fuel1 (mk_sreader (CR_default (conv c data (sch ++ sched))) chunk) = Ok (r, mk_sreader (CR_default (conv c' data' sched)) chunk')) \/
    (exists x P, sread_record Src rd D fuel fuel1 c chunk = Throw x /\ f = Fails P /\ P x) \/
    (exists sch, forall sched, fails_as (sread_record Src rd D fuel fuel1 c chunk) (read_record_core D fuel1 (mk_sreader (CR_default (conv c data (sch ++ sched))) chunk))).
  Proof.
    induction fuel1 as [|fuel1 IH]; intros c chunk data Jc F; [right; right; exists []; intros; exact I|].
    cbn [sread_record read_record_core sr_chunk sr_cr cr_is_eof conv cr_eof].
    destruct (D chunk (negb (sc_eof _ c))) as [[[record chunk1] hint]|e| |] eqn:Ed; cbn [bind]; try (right; right; exists []; intros; first [exact I|reflexivity]).
    set (c1 := match hint with Some h => schunk_hint Src c h | None => c end).
    destruct (HD _ _ _ _ _ Ed) as [[taken Et] Hlt].
    assert (J1 : J c1 chunk1 data /\ sc_stream _ c1 = sc_stream _ c /\ sc_eof _ c1 = sc_eof _ c).
    { subst c1. rewrite Et in Jc. pose proof (J_rest _ _ _ _ Jc) as Jr. destruct hint as [h|]; [|auto]. split; [|auto]. apply J_hint; auto. exact (HH _ _ _ _ _ Ed). }
    destruct J1 as (J1 & Es & Ee).
    assert (Cv : forall d sched, match hint with Some h => cr_hint (CR_default (conv c d sched)) h | None => CR_default (conv c d sched) end = CR_default (conv c1 d sched)).
    { intros. subst c1. destruct hint; reflexivity. }
    destruct record as [x|].
    - left. exists (Some x), c1, chunk1, data, []. split; [reflexivity|]. rewrite Es. split; [exact F|]. split; [discriminate|]. split.
      + intros _. split; [exact J1|]. specialize (Hlt ltac:(discriminate)). lia.
      + intros sched. cbn [app]. rewrite <- Cv. reflexivity.
    - destruct (sc_eof _ c) eqn:Eof.
      + unfold schunk_read. rewrite Ee. cbn [bind]. left. exists None, c1, [], data, []. split; [reflexivity|]. rewrite Es. split; [exact F|].
        destruct Jc as (_ & _ & _ & J4 & _). split; [intros _; apply J4; exact Eof|]. split; [congruence|]. intros sched. cbn [app].
        fold (conv c data sched). rewrite Cv. cbn [cr_read]. unfold dchunk_read. cbn [conv cr_eof]. rewrite Ee. reflexivity.
      + rewrite <- Es in F. destruct (sim_chunk c1 chunk1 data J1 F Ee) as [(chunk2 & c2 & data2 & sch & Er & F2 & J2 & Sp & Z & Pg & S2)|(x & P & Er & Hx)].
        2:{ right. left. exists x, P. rewrite Er. auto. }
        rewrite Er. cbn [bind]. assert (Sl : length chunk1 + length data = length chunk2 + length data2) by (rewrite <- !app_length, Sp; reflexivity).
        assert (Lc : length chunk1 <= length chunk) by (rewrite Et, app_length; lia).
        destruct chunk2 as [|b chunk2].
        * left. exists None, c2, [], data2, sch. split; [reflexivity|]. split; [exact F2|]. split; [auto|]. split; [congruence|].
          intros sched.
          rewrite Cv. cbn [cr_read]. rewrite S2. reflexivity.
        * destruct (IH c2 (b :: chunk2) data2 J2 F2) as [(r & c3 & chunk3 & data3 & sch3 & E3 & F3 & Z3 & K3 & S3)|[K|(sch3 & K)]].
          -- left. exists r, c3, chunk3, data3, (sch ++ sch3). split; [exact E3|]. split; [exact F3|]. split; [exact Z3|]. split.
             ++ intros Nr. destruct (K3 Nr). split; auto. lia.
             ++ intros sched. rewrite <- app_assoc, Cv. cbn [cr_read]. rewrite S2. cbn [bind fst snd]. apply S3.
          -- right. left. exact K.
          -- right. right. exists (sch ++ sch3). intros sched. rewrite <- app_assoc, Cv. cbn [cr_read]. rewrite S2. cbn [bind fst snd]. apply K.
  Qed.

  Hypothesis HF : forall chunk b, D chunk b <> Fuel.
  Lemma sread_nofuel fuel1 : forall c chunk data, J c chunk data -> feeds (sc_stream _ c) data -> (if sc_eof _ c then 0 else length data + 1) < fuel1 ->
    sread_record Src rd D fuel fuel1 c chunk <> Fuel.
  Proof.
    induction fuel1 as [|fuel1 IH]; intros c chunk data Jc F L; [lia|]. cbn [sread_record].
    destruct (D chunk (negb (sc_eof _ c))) as [[[record chunk1] hint]|e| |] eqn:Ed; cbn [bind]; try discriminate; [|exfalso; eapply HF; eauto].
    set (c1 := match hint with Some h => schunk_hint Src c h | None => c end).
    destruct (HD _ _ _ _ _ Ed) as [[taken Et] Hlt].
    assert (J1 : J c1 chunk1 data /\ sc_stream _ c1 = sc_stream _ c /\ sc_eof _ c1 = sc_eof _ c).
    { subst c1. rewrite Et in Jc. pose proof (J_rest _ _ _ _ Jc) as Jr. destruct hint as [h|]; [|auto]. split; [|auto]. apply J_hint; auto. exact (HH _ _ _ _ _ Ed). }
    destruct J1 as (J1 & Es & Ee). destruct record; [discriminate|]. destruct (sc_eof _ c) eqn:Eof.
    - unfold schunk_read. rewrite Ee. discriminate.
    - rewrite <- Es in F. destruct (sim_chunk c1 chunk1 data J1 F Ee) as [(chunk2 & c2 & data2 & sch & Er & F2 & J2 & Sp & Z & Pg & S2)|(x & P & Er & Hx)]; rewrite Er; cbn [bind]; [|discriminate].
      destruct chunk2; [discriminate|]. apply (IH c2 _ data2); auto. destruct (sc_eof _ c2); [lia|]. destruct Pg; [discriminate|lia].
  Qed.
  Lemma sim_all fuel1 : forall c chunk data, J c chunk data -> feeds (sc_stream _ c) data -> length chunk + length data < fuel1 ->
    exists xs ys e e' sched, sread_all Src rd D fuel fuel1 c chunk = (xs, e) /\ e <> Fuel /\
      read_all D fuel1 (mk_sreader (CR_default (conv c data sched)) chunk) = (xs ++ ys, e') /\
      ((ys = [] /\ e = e' /\ (e = Ok tt -> f = Ends)) \/ exists P x, f = Fails P /\ P x /\ e = Throw x).
  Proof.
    induction fuel1 as [|fuel1 IH]; intros c chunk data Jc F L; [lia|]. cbn [sread_all read_all]. unfold read_record. cbn [sr_cr conv cr_bytes_left cr_stream s_rest].
    assert (Ln : length data <= N0) by (destruct Jc; lia).
    assert (NF : sread_record Src rd D fuel (length data + 3) c chunk <> Fuel) by (apply (sread_nofuel _ c chunk data); auto; destruct (sc_eof _ c); lia).
    rewrite (sread_more Src rd D fuel (length data + 3)) by (auto; lia).
    destruct (sim_record (length data + 3) c chunk data Jc F) as [(r & c' & chunk' & data' & sch & E & F' & Z & K & S)|[(x & P & E & Ef & Hx)|(sch & S)]].
    - rewrite E. destruct r as [x|].
      + destruct (K ltac:(discriminate)) as [J' L']. destruct (IH c' chunk' data' J' F' ltac:(lia)) as (xs & ys & e & e' & sched & E1 & N1 & E2 & Q).
        exists (x :: xs), ys, e, e', (sch ++ sched). rewrite E1. split; [reflexivity|]. split; [exact N1|]. split; [|exact Q]. rewrite S, E2. reflexivity.
      + exists [], [], (Ok tt), (Ok tt), (sch ++ []). split; [reflexivity|]. split; [discriminate|]. split; [rewrite S; reflexivity|]. left. auto.
    - rewrite E. destruct (read_all D (Datatypes.S fuel1) (mk_sreader (CR_default (conv c data [])) chunk)) as [ys e'] eqn:Er. exists [], ys, (Throw x), e', [].
      split; [reflexivity|]. split; [discriminate|]. split; [exact Er|]. right. exists P, x. auto.
    - specialize (S []). exists [], [].
      destruct (sread_record _ _ _ _ _ c chunk) as [[[? ?] ?]|x| |]; destruct (read_record_core _ _ _) as [[? ?]|y| |] eqn:Er; cbn in S; try contradiction; try congruence.
      + subst y. exists (Throw x), (Throw x), (sch ++ []). split; [reflexivity|]. split; [discriminate|]. split; [rewrite Er; reflexivity|]. left. repeat split; discriminate.
      + exists UB, UB, (sch ++ []). split; [reflexivity|]. split; [discriminate|]. split; [rewrite Er; reflexivity|]. left. repeat split; discriminate.
  Qed.
End Records.

Definition fuelless (D : decoder) : Prop := forall chunk b, D chunk b <> Fuel.

Lemma source_records Src rd lim f s data D H size fuel :
  feeds Src rd lim s data f -> tame D -> hints_within H D -> fuelless D ->
  (0 < size)%N -> (size < lim)%N -> (2 * H < lim)%N -> (2 * N.of_nat (length data) < lim)%N -> length data + 3 <= fuel ->
  exists sched xs ys e e', srecords Src rd D fuel size s = (xs, e) /\ records D false sched size data = (xs ++ ys, e') /\
    ((ys = [] /\ e = e' /\ (e = Ok tt -> f = Ends)) \/ exists P x, f = Fails P /\ P x /\ e = Throw x).
Proof.
  intros F T HH HF S0 S1 S2 S3 FU. set (B := N.max size (N.max (2 * H) (2 * N.of_nat (length data)))).
  destruct (sim_all Src rd lim f D T H HH B (length data) ltac:(lia) ltac:(lia) ltac:(lia) fuel FU HF (length data + 1) (mk_schunk Src s size None false) [] data) as (xs & ys & e & e' & sched & E & NF & E2 & Q).
  - repeat split; cbn; try lia; try discriminate; auto.
  - exact F.
  - cbn. lia.
  - exists sched, xs, ys, e, e'. split; [|split; [exact E2|exact Q]]. unfold srecords. rewrite (sall_more Src rd D fuel (length data + 1)); [exact E| |lia]. rewrite E. exact NF.
Qed.

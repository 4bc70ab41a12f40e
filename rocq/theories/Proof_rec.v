(* Record splitting: the record sequence does not depend on how the bytes arrive. *)
From Verif Require Import Common Model_rec.

Definition suffix_of (rest p : list byte) : Prop := exists c, p = c ++ rest.

Lemma suffix_refl p : suffix_of p p.
Proof. exists []. reflexivity. Qed.
Lemma suffix_trans a b c : suffix_of a b -> suffix_of b c -> suffix_of a c.
Proof. intros [x ->] [y ->]. exists (y ++ x). now rewrite app_assoc. Qed.
Lemma suffix_app a b s : suffix_of a b -> suffix_of (a ++ s) (b ++ s).
Proof. intros [x ->]. exists x. now rewrite app_assoc. Qed.
Lemma suffix_len a b : suffix_of a b -> length a <= length b.
Proof. intros [x ->]. rewrite app_length. lia. Qed.
Lemma suffix_skipn k p : suffix_of (skipn k p) p.
Proof. exists (firstn k p). now rewrite firstn_skipn. Qed.
Lemma suffix_nil p : suffix_of [] p.
Proof. exists p. now rewrite app_nil_r. Qed.

Lemma skipn_app_le {A} k (p s : list A) : k <= length p -> skipn k (p ++ s) = skipn k p ++ s.
Proof. intro H. rewrite skipn_app. replace (k - length p) with 0 by lia. reflexivity. Qed.
Lemma firstn_app_le {A} k (p s : list A) : k <= length p -> firstn k (p ++ s) = firstn k p.
Proof. intro H. rewrite firstn_app. replace (k - length p) with 0 by lia. cbn. now rewrite app_nil_r. Qed.

Lemma skipn_add {A} a b (l : list A) : skipn a (skipn b l) = skipn (b + a) l.
Proof. revert l; induction b as [|b IH]; intro l; [reflexivity|]. destruct l; [now rewrite !skipn_nil|]. apply IH. Qed.

(* Outcome of a decoder without the size hint. *)
Definition strip_hint (d : res decoded) : res (option rec * list byte) :=
  rmap (fun x => (fst (fst x), snd (fst x))) d.

(* Same record and equivalent rest, or both nothing, or the same exception. *)
Definition oeq (norm : list byte -> list byte) (a b : res (option rec * list byte)) : Prop :=
  match a, b with
  | Ok (Some x, r), Ok (Some y, q) => x = y /\ norm r = norm q
  | Ok (None, _), Ok (None, _) => True
  | Throw e, Throw e' => e = e'
  | UB, UB => True
  | Fuel, Fuel => True
  | _, _ => False
  end.

Lemma oeq_refl norm a : oeq norm a a.
Proof. destruct a as [[[x|] r]|e| |]; cbn; auto. Qed.
Lemma oeq_sym norm a b : oeq norm a b -> oeq norm b a.
Proof.
  destruct a as [[[x|] r]|e| |], b as [[[y|] q]|e'| |]; cbn; try tauto; try congruence.
  intros [-> ->]; auto.
Qed.
Lemma oeq_trans norm a b c : oeq norm a b -> oeq norm b c -> oeq norm a c.
Proof.
  destruct a as [[[x|] r]|e| |], b as [[[y|] q]|e'| |], c as [[[z|] t]|e''| |]; cbn; try tauto; try congruence.
  intros [-> ->] [-> ->]; auto.
Qed.

(* What streaming needs to know about a decoder, for contents satisfying G.  Contents with the
   same [norm] are interchangeable. *)
Record stable (D : decoder) (G : list byte -> Prop) (norm : list byte -> list byte) : Prop := {
  st_empty : forall b, D [] b = Ok (None, [], None);
  st_norm : forall a b, G a -> G b -> norm a = norm b ->
      oeq norm (strip_hint (D a false)) (strip_hint (D b false));
  st_some : forall p s r rest h, G (p ++ s) -> D p true = Ok (Some r, rest, h) ->
      oeq norm (strip_hint (D (p ++ s) false)) (Ok (Some r, rest ++ s));
  st_none : forall p s rest h, G (p ++ s) -> D p true = Ok (None, rest, h) ->
      oeq norm (strip_hint (D (p ++ s) false)) (strip_hint (D (rest ++ s) false));
  st_throw : forall p s e, G (p ++ s) -> D p true = Throw e -> D (p ++ s) false = Throw e;
  st_safe : forall p b, D p b <> UB /\ D p b <> Fuel;
  st_rest : forall p b r rest h, D p b = Ok (r, rest, h) ->
      suffix_of rest p /\ (r <> None -> length rest < length p);
  st_good : forall p s r rest h, G (p ++ s) -> D p true = Ok (r, rest, h) -> G (rest ++ s);
  st_good' : forall p r rest h, G p -> D p false = Ok (r, rest, h) -> G rest }.

(* ---------------- fill ---------------- *)

Lemma stream_read_spec s n :
  let '(bs, s') := stream_read s n in
  exists k, bs = firstn k (s_rest s) /\ s_rest s' = skipn k (s_rest s) /\
            (N.of_nat k <= n)%N /\ k <= length (s_rest s) /\
            (s_rest s <> [] -> (0 < n)%N -> 0 < k).
Proof.
  unfold stream_read.
  set (avail := N.to_nat (N.min n (N.of_nat (length (s_rest s))))).
  set (want := match s_sched s with [] => avail | k :: _ => Nat.max 1 k end).
  exists (Nat.min want avail). cbn.
  assert (Ha : (N.of_nat avail <= n)%N /\ avail <= length (s_rest s)) by (subst avail; lia).
  repeat split; try reflexivity; try lia.
  intros Hne Hn. assert (0 < avail) by (subst avail; destruct (s_rest s); cbn in *; [congruence|lia]).
  assert (0 < want) by (subst want; destruct (s_sched s); lia). lia.
Qed.

Lemma fill_spec fuel : forall s room acc, length (s_rest s) < fuel ->
  exists s', fill fuel s room acc
      = Ok (acc ++ firstn (N.to_nat room) (s_rest s), s',
            (N.of_nat (length (s_rest s)) <? room)%N) /\
      s_rest s' = skipn (N.to_nat room) (s_rest s).
Proof.
  induction fuel as [|fuel IH]; intros s room acc Hf; [lia|].
  cbn [fill]. destruct (N.eqb_spec room 0) as [->|Hr].
  - exists s. cbn. rewrite app_nil_r. split; [|reflexivity].
    replace (N.of_nat (length (s_rest s)) <? 0)%N with false by lia. reflexivity.
  - pose proof (stream_read_spec s room) as Hs.
    destruct (stream_read s room) as [bs s1]. destruct Hs as (k & -> & Hs1 & Hkn & Hkl & Hk0).
    destruct (s_rest s) as [|c cs] eqn:Hcs.
    + rewrite firstn_nil. exists s1. cbn. rewrite firstn_nil, app_nil_r, skipn_nil.
      replace (0 <? room)%N with true by lia. rewrite Hs1, skipn_nil. auto.
    + assert (Hk : 0 < k) by (apply Hk0; [discriminate|lia]).
      destruct k as [|k]; [lia|].
      rewrite <- Hcs in *. set (bs := firstn (S k) (s_rest s)).
      assert (Hbs : length bs = S k) by (subst bs; rewrite firstn_length; lia).
      assert (Hm : match bs with
              | [] => Ok (acc, s1, true)
              | _ :: _ => fill fuel s1 (room - N.of_nat (length bs)) (acc ++ bs)
              end = fill fuel s1 (room - N.of_nat (length bs)) (acc ++ bs)).
      { destruct bs; [cbn in Hbs; lia|reflexivity]. }
      rewrite Hm. rewrite Hbs.
      destruct (IH s1 (room - N.of_nat (S k))%N (acc ++ bs)) as (s2 & Hfill & Hs2).
      { rewrite Hs1, skipn_length. lia. }
      exists s2. rewrite Hfill. rewrite Hs1 in *. split.
      * f_equal. f_equal; [f_equal|].
        -- rewrite <- app_assoc. f_equal. subst bs.
           replace (N.to_nat room) with (S k + N.to_nat (room - N.of_nat (S k))) by lia.
           rewrite <- (firstn_skipn (S k) (s_rest s)) at 3.
           rewrite firstn_app. rewrite firstn_length.
           replace (Nat.min (S k) (length (s_rest s))) with (S k) by lia.
           rewrite firstn_firstn.
           replace (Nat.min (S k + N.to_nat (room - N.of_nat (S k))) (S k)) with (S k) by lia.
           f_equal. f_equal. lia.
        -- rewrite skipn_length. lia.
      * rewrite Hs2, skipn_add. f_equal. lia.
Qed.

Lemma double_until_ge fuel : forall next value, (next <= double_until fuel next value)%N.
Proof.
  induction fuel as [|f IH]; intros next value; cbn [double_until]; [lia|].
  destruct (N.ltb_spec next value); [|lia]. specialize (IH (2 * next)%N value). lia.
Qed.

Lemma double_until_enough fuel : forall next value,
  (0 < next)%N -> (value <= next * 2 ^ N.of_nat fuel)%N -> (value <= double_until fuel next value)%N.
Proof.
  induction fuel as [|f IH]; intros next value Hn Hv; cbn [double_until].
  - cbn in Hv. lia.
  - destruct (N.ltb_spec next value) as [Hlt|Hge]; [|lia].
    apply IH; [lia|]. rewrite Nat2N.inj_succ, N.pow_succ_r' in Hv. lia.
Qed.

Lemma pos_size_bound p : (N.pos p < 2 ^ N.of_nat (Pos.size_nat p))%N.
Proof.
  induction p as [p IH|p IH|]; cbn [Pos.size_nat]; rewrite ?Nat2N.inj_succ, ?N.pow_succ_r'; try lia.
Qed.
Lemma size_nat_bound value : (value <= 2 ^ N.of_nat (N.size_nat value))%N.
Proof. destruct value as [|p]; [cbn; lia|]. pose proof (pos_size_bound p). cbn [N.size_nat]. lia. Qed.

(* The while loop of set_chunk_size_hint ends with a size of at least the requested one. *)
Lemma hint_spec c v : (0 < cr_next c)%N ->
  (v <= cr_next (dchunk_hint c v))%N /\ (cr_next c <= cr_next (dchunk_hint c v))%N.
Proof.
  intro H. unfold dchunk_hint. cbn. split; [|apply double_until_ge].
  apply double_until_enough; [exact H|]. pose proof (size_nat_bound v).
  assert (1 <= cr_next c)%N by lia.
  apply N.le_trans with (1 * 2 ^ N.of_nat (N.size_nat v))%N; [lia|].
  apply N.mul_le_mono_r. exact H1.
Qed.

(* ---------------- the invariant of streaming ---------------- *)

(* The reader has [chunk] in its buffer and the stream still holds the bytes [srest];
   together they are [total]. *)
Definition Inv (G : list byte -> Prop) (r : sreader) (total : list byte) : Prop :=
  G total /\
  match sr_cr r with
  | CR_memory m => if m then total = sr_chunk r else sr_chunk r = [] /\ total = m
  | CR_default d =>
      total = sr_chunk r ++ s_rest (cr_stream d) /\
      (0 < cr_next d)%N /\
      (cr_eof d = true -> s_rest (cr_stream d) = []) /\
      (cr_eof d = false ->
         match cr_block d with
         | None => sr_chunk r = []
         | Some b => (b <= cr_next d)%N /\ (N.of_nat (length (sr_chunk r)) <= b)%N
         end)
  end.

Definition measure (r : sreader) : nat :=
  if cr_is_eof (sr_cr r) then 1 else cr_bytes_left (sr_cr r) + 2.

Definition step_ok (D : decoder) (G : list byte -> Prop) (norm : list byte -> list byte) (total : list byte)
  (out : res (option rec * sreader)) : Prop :=
  match out with
  | Ok (Some x, r') => exists rest, Inv G r' rest /\ length rest < length total /\
      oeq norm (strip_hint (D total false)) (Ok (Some x, rest))
  | Ok (None, _) => exists rest, strip_hint (D total false) = Ok (None, rest)
  | Throw e => strip_hint (D total false) = Throw e
  | UB => False
  | Fuel => False
  end.

Lemma dchunk_read_spec d leftover :
  cr_eof d = false -> (0 < cr_next d)%N ->
  match cr_block d with
  | None => leftover = []
  | Some b => (b <= cr_next d)%N /\ (N.of_nat (length leftover) <= b)%N
  end ->
  exists room d', (0 < room)%N /\
    dchunk_read d leftover =
      Ok (leftover ++ firstn (N.to_nat room) (s_rest (cr_stream d)), d') /\
    s_rest (cr_stream d') = skipn (N.to_nat room) (s_rest (cr_stream d)) /\
    cr_eof d' = (N.of_nat (length (s_rest (cr_stream d))) <? room)%N /\
    (cr_next d <= cr_next d')%N /\
    (cr_eof d' = false -> cr_block d' = Some (cr_next d') /\
       (N.of_nat (length leftover) + room = cr_next d')%N) /\
    (cr_eof d' = true -> cr_block d' = None).
Proof.
  intros He Hn Hb. unfold dchunk_read. rewrite He.
  set (ll := N.of_nat (length leftover)).
  set (next := match cr_block d with
      | Some b => if (b =? ll)%N && (b =? cr_next d)%N then (2 * cr_next d)%N else cr_next d
      | None => cr_next d end).
  assert (Hnext : (ll < next)%N /\ (cr_next d <= next)%N).
  { subst next. destruct (cr_block d) as [b|].
    - destruct Hb as [Hb1 Hb2]. fold ll in Hb2.
      destruct (N.eqb_spec b ll), (N.eqb_spec b (cr_next d)); cbn [andb]; lia.
    - subst leftover. subst ll. cbn. lia. }
  destruct Hnext as [Hn1 Hn2].
  replace (next <? ll)%N with false by lia.
  destruct (fill_spec (length (s_rest (cr_stream d)) + 2) (cr_stream d) (next - ll) leftover) as (s' & Hf & Hs').
  { lia. }
  rewrite Hf. cbn [bind].
  eexists (next - ll)%N, _. split; [lia|]. split; [reflexivity|]. cbn.
  split; [exact Hs'|]. split; [reflexivity|]. split; [exact Hn2|]. split.
  - intros ->. split; [reflexivity|]. lia.
  - intros ->. reflexivity.
Qed.

Lemma dchunk_read_eof d leftover : cr_eof d = true -> dchunk_read d leftover = Ok ([], d).
Proof. intro H. unfold dchunk_read. now rewrite H. Qed.

Lemma step_ok_oeq D G norm total total' out :
  oeq norm (strip_hint (D total false)) (strip_hint (D total' false)) ->
  length total' <= length total ->
  step_ok D G norm total' out -> step_ok D G norm total out.
Proof.
  intros Ho Hl. unfold step_ok. destruct out as [[[x|] r']|e| |]; auto.
  - intros (rest & HI & Hlt & Hr). exists rest. split; [exact HI|]. split; [lia|].
    eapply oeq_trans; eassumption.
  - intros (rest & Hr). rewrite Hr in Ho.
    destruct (strip_hint (D total false)) as [[[y|] q]|e'| |]; cbn in Ho; try tauto. eexists; reflexivity.
  - intros Hr. rewrite Hr in Ho.
    destruct (strip_hint (D total false)) as [[[y|] q]|e'| |]; cbn in Ho; try tauto. congruence.
Qed.

Lemma read_record_core_default D G norm (HD : stable D G norm) fuel : forall d chunk total,
  Inv G (mk_sreader (CR_default d) chunk) total ->
  measure (mk_sreader (CR_default d) chunk) <= fuel ->
  step_ok D G norm total (read_record_core D fuel (mk_sreader (CR_default d) chunk)).
Proof.
  induction fuel as [|fuel IH]; intros d chunk total HI Hm.
  { unfold measure in Hm. destruct (cr_is_eof _); lia. }
  destruct HI as [HG (Htot & Hnext & Heof & Hblk)]. cbn [sr_cr sr_chunk cr_stream] in *.
  cbn [read_record_core sr_chunk sr_cr cr_is_eof].
  destruct (cr_eof d) eqn:He.
  - (* end of stream known *)
    rewrite (Heof eq_refl), app_nil_r in Htot. subst total. cbn [negb].
    pose proof (st_safe D G norm HD chunk false) as [Hub Hfu].
    destruct (D chunk false) as [[[[x|] rest] h]|e| |] eqn:HDc; try congruence.
    + cbn. exists rest. rewrite HDc. cbn.
      pose proof (st_rest D G norm HD _ _ _ _ _ HDc) as [_ Hlt].
      split; [|split; [apply Hlt; discriminate|auto]].
      split.
      * eapply (st_good' D G norm HD); eassumption.
      * destruct h as [h|]; cbn.
        -- rewrite (Heof eq_refl). split; [now rewrite app_nil_r|].
           split; [pose proof (hint_spec d h Hnext) as Hh; cbn in Hh; lia|]. split; [auto|].
           rewrite He; discriminate.
        -- rewrite (Heof eq_refl). split; [now rewrite app_nil_r|]. split; [exact Hnext|]. split; [auto|].
           rewrite He; discriminate.
    + cbn. destruct h as [h|]; cbn [cr_hint cr_read]; rewrite dchunk_read_eof by (cbn; exact He);
        cbn; rewrite HDc; cbn; eexists; reflexivity.
    + cbn. rewrite HDc. reflexivity.
  - specialize (Hblk eq_refl). cbn [negb].
    pose proof (st_safe D G norm HD chunk true) as [Hub Hfu].
    destruct (D chunk true) as [[[[x|] rest] h]|e| |] eqn:HDc; try congruence.
    + subst total. cbn.
      pose proof (st_rest D G norm HD _ _ _ _ _ HDc) as [Hsuf Hlt]. apply suffix_len in Hsuf.
      exists (rest ++ s_rest (cr_stream d)).
      split; [|split; [rewrite !app_length; specialize (Hlt ltac:(discriminate)); lia
                      |exact (st_some D G norm HD _ _ _ _ _ HG HDc)]].
      split.
      * eapply (st_good D G norm HD); [exact HG|exact HDc].
      * assert (Hgen : forall d', cr_stream d' = cr_stream d -> (cr_next d <= cr_next d')%N ->
          cr_block d' = cr_block d -> cr_eof d' = cr_eof d ->
          rest ++ s_rest (cr_stream d) = rest ++ s_rest (cr_stream d') /\ (0 < cr_next d')%N /\
          (cr_eof d' = true -> s_rest (cr_stream d') = []) /\
          (cr_eof d' = false -> match cr_block d' with
             | Some b => (b <= cr_next d')%N /\ (N.of_nat (length rest) <= b)%N
             | None => rest = [] end)).
        { intros d' E1 E2 E3 E4. rewrite E1, E3, E4, He. split; [reflexivity|]. split; [lia|].
          split; [discriminate|]. intros _. destruct (cr_block d) as [b|]; [lia|].
          subst chunk. destruct rest; [reflexivity|cbn in Hsuf; lia]. }
        destruct h as [h|]; cbn [sr_cr sr_chunk cr_hint].
        -- apply Hgen; try reflexivity. pose proof (hint_spec d h Hnext); lia.
        -- apply Hgen; reflexivity.
    + (* no record in the chunk *)
      set (d1 := match h with Some h => dchunk_hint d h | None => d end).
      assert (E1 : cr_stream d1 = cr_stream d) by (subst d1; destruct h; reflexivity).
      assert (E2 : (cr_next d <= cr_next d1)%N).
      { subst d1. destruct h as [h|]; [pose proof (hint_spec d h Hnext); lia|lia]. }
      assert (E3 : cr_block d1 = cr_block d) by (subst d1; destruct h; reflexivity).
      assert (E4 : cr_eof d1 = false) by (subst d1; destruct h; exact He).
      assert (Ecr : match h with Some h0 => cr_hint (CR_default d) h0 | None => CR_default d end = CR_default d1).
      { subst d1. destruct h; reflexivity. }
      cbn [bind]. rewrite Ecr. cbn [cr_read].
      pose proof (st_rest D G norm HD _ _ _ _ _ HDc) as [Hsuf _]. pose proof (suffix_len _ _ Hsuf) as Hlen.
      destruct (dchunk_read_spec d1 rest E4) as (room & d2 & Hroom & Hrd & Hs2 & He2 & Hn2 & Hnf & Hf).
      { lia. }
      { rewrite E3. destruct (cr_block d) as [b|]; [lia|]. subst chunk.
        destruct rest; [reflexivity|cbn in Hlen; lia]. }
      rewrite Hrd. cbn [bind fst snd]. rewrite E1 in *.
      subst total.
      apply step_ok_oeq with (total' := rest ++ s_rest (cr_stream d));
        [exact (st_none D G norm HD _ _ _ _ HG HDc)|rewrite !app_length; lia|].
      set (chunk2 := rest ++ firstn (N.to_nat room) (s_rest (cr_stream d))) in *.
      assert (Htot2 : rest ++ s_rest (cr_stream d) = chunk2 ++ s_rest (cr_stream d2)).
      { subst chunk2. rewrite Hs2, <- app_assoc, firstn_skipn. reflexivity. }
      assert (HInv2 : Inv G (mk_sreader (CR_default d2) chunk2) (rest ++ s_rest (cr_stream d))).
      { split; [eapply (st_good D G norm HD); [exact HG|exact HDc]|]. cbn.
        split; [exact Htot2|]. split; [lia|]. split.
        - intro Hee. rewrite Hee in He2. rewrite Hs2. apply skipn_all2. lia.
        - intro Hee. destruct (Hnf Hee) as [-> Hsz]. split; [lia|].
          subst chunk2. rewrite app_length, firstn_length. lia. }
      destruct chunk2 as [|c chunk2'] eqn:Hc2.
      * (* nothing left at all *)
        destruct rest; [|discriminate]. cbn in Hc2.
        assert (Hz : s_rest (cr_stream d) = []).
        { destruct (s_rest (cr_stream d)); [reflexivity|].
          destruct (N.to_nat room) eqn:Hr; [lia|]. discriminate. }
        rewrite Hz. cbn. rewrite (st_empty D G norm HD). cbn. eexists; reflexivity.
      * rewrite <- Hc2 in *.
        apply (IH d2 chunk2 (rest ++ s_rest (cr_stream d))); [exact HInv2|].
        unfold measure in *. cbn [sr_cr cr_is_eof cr_bytes_left] in *. rewrite He in Hm. rewrite He2.
        destruct (N.ltb_spec (N.of_nat (length (s_rest (cr_stream d)))) room) as [Hlt|Hge]; [lia|].
        rewrite Hs2, skipn_length. lia.
    + subst total. cbn. rewrite (st_throw D G norm HD _ _ _ HG HDc). reflexivity.
Qed.

Lemma read_record_ok D G norm (HD : stable D G norm) r total :
  Inv G r total -> step_ok D G norm total (read_record D r).
Proof.
  destruct r as [[d|m] chunk]; intro HI.
  - apply read_record_core_default; [exact HD|exact HI|].
    unfold measure. cbn. destruct (cr_eof d); lia.
  - destruct HI as [HG HI]. cbn in HI.
    assert (Hmem : forall fuel chunk, G chunk -> 0 < fuel ->
       step_ok D G norm chunk (read_record_core D fuel (mk_sreader (CR_memory []) chunk))).
    { intros [|fuel] ck HGc Hf; [lia|].
      cbn [read_record_core sr_chunk sr_cr cr_is_eof negb].
      pose proof (st_safe D G norm HD ck false) as [Hub Hfu].
      destruct (D ck false) as [[[[x|] rest] h]|e| |] eqn:HDc; try congruence.
      - cbn. exists rest. rewrite HDc. cbn.
        pose proof (st_rest D G norm HD _ _ _ _ _ HDc) as [_ Hlt].
        split; [|split; [apply Hlt; discriminate|auto]]. split.
        + eapply (st_good' D G norm HD); eassumption.
        + destruct h; reflexivity.
      - cbn. destruct h; cbn; rewrite HDc; cbn; eexists; reflexivity.
      - cbn. rewrite HDc. reflexivity. }
    destruct m as [|c m].
    + subst total. unfold read_record. apply Hmem; [exact HG|lia].
    + destruct HI as [-> ->]. unfold read_record.
      replace (cr_bytes_left _ + 3) with (S (length m + 3)) by (cbn; lia).
      cbn [read_record_core sr_chunk sr_cr]. rewrite (st_empty D G norm HD). cbn [bind cr_read].
      apply Hmem; [exact HG|lia].
Qed.

Lemma Inv_good G r total : Inv G r total -> G total.
Proof. intros [H _]; exact H. Qed.

(* The outcome of a call, with some rest the reader's state stands for. *)
Lemma step_ok_inv D G norm total out :
  step_ok D G norm total out ->
  exists o, oeq norm (strip_hint (D total false)) o /\
    match out, o with
    | Ok (Some x, r'), Ok (Some y, rest) => x = y /\ Inv G r' rest /\ length rest < length total
    | Ok (None, _), Ok (None, _) => True
    | Throw e, Throw e' => e = e'
    | _, _ => False
    end.
Proof.
  unfold step_ok. destruct out as [[[x|] r']|e| |]; try contradiction.
  - intros (rest & HI & Hl & Ho). exists (Ok (Some x, rest)). auto.
  - intros (rest & Hr). exists (Ok (None, rest)). rewrite Hr. cbn. auto.
  - intros Hr. exists (Throw e). rewrite Hr. cbn. auto.
Qed.

Lemma read_all_det D G norm (HD : stable D G norm) fuel : forall r1 r2 t1 t2,
  length t1 < fuel -> length t2 < fuel -> norm t1 = norm t2 ->
  Inv G r1 t1 -> Inv G r2 t2 -> read_all D fuel r1 = read_all D fuel r2.
Proof.
  induction fuel as [|fuel IH]; intros r1 r2 t1 t2 Hf1 Hf2 Hn H1 H2; [lia|].
  cbn [read_all].
  destruct (step_ok_inv _ _ _ _ _ (read_record_ok D G norm HD _ _ H1)) as (o1 & O1 & S1).
  destruct (step_ok_inv _ _ _ _ _ (read_record_ok D G norm HD _ _ H2)) as (o2 & O2 & S2).
  pose proof (st_norm D G norm HD _ _ (Inv_good _ _ _ H1) (Inv_good _ _ _ H2) Hn) as Ho.
  assert (O : oeq norm o1 o2) by (eapply oeq_trans; [apply oeq_sym; exact O1|]; eapply oeq_trans; [exact Ho|exact O2]).
  clear O1 O2 Ho.
  destruct (read_record D r1) as [[[x|] r1']|e| |], o1 as [[[x'|] q1]|e1| |]; try contradiction;
  destruct (read_record D r2) as [[[y|] r2']|e'| |], o2 as [[[y'|] q2]|e2| |]; try contradiction;
    cbn in O; try contradiction; try congruence.
  destruct S1 as (-> & I1 & L1), S2 as (-> & I2 & L2), O as [-> O].
  rewrite (IH r1' r2' q1 q2); [reflexivity|lia|lia|exact O|exact I1|exact I2].
Qed.

Lemma Inv_init (G : list byte -> Prop) zc content sched size :
  (0 < size)%N -> G content ->
  Inv G (mk_sreader (make_chunk_reader zc content sched size) []) content.
Proof.
  intros Hs HG. split; [exact HG|]. destruct zc; cbn.
  - destruct content; auto.
  - split; [reflexivity|]. split; [exact Hs|]. split; [discriminate|]. reflexivity.
Qed.

(* The generic result: buffer size, short reads and zero copy do not matter. *)
Lemma records_independent D G norm (HD : stable D G norm) zc zc' sched sched' size size' content :
  (0 < size)%N -> (0 < size')%N -> G content ->
  records D zc sched size content = records D zc' sched' size' content.
Proof.
  intros H1 H2 HG. unfold records.
  eapply (read_all_det D G norm HD); [| | |apply Inv_init; eassumption|apply Inv_init; eassumption]; try lia.
  reflexivity.
Qed.

(* In memory reading, unrolled. *)
Fixpoint mem_all (D : decoder) (fuel : nat) (xs : list byte) : list rec * res unit :=
  match fuel with
  | O => ([], Fuel)
  | S fuel' =>
      match strip_hint (D xs false) with
      | Ok (Some x, rest) => let (ys, e) := mem_all D fuel' rest in (x :: ys, e)
      | Ok (None, _) => ([], Ok tt)
      | Throw e => ([], Throw e)
      | UB => ([], UB)
      | Fuel => ([], Fuel)
      end
  end.

Lemma read_all_mem D G norm (HD : stable D G norm) fuel : forall r total t,
  Inv G r total -> G t -> norm total = norm t -> read_all D fuel r = mem_all D fuel t.
Proof.
  induction fuel as [|fuel IH]; intros r total t HI HG Hn; [reflexivity|].
  cbn [read_all mem_all].
  destruct (step_ok_inv _ _ _ _ _ (read_record_ok D G norm HD _ _ HI)) as (o1 & O1 & S1).
  pose proof (st_norm D G norm HD _ _ (Inv_good _ _ _ HI) HG Hn) as Ho.
  assert (O : oeq norm o1 (strip_hint (D t false))) by (eapply oeq_trans; [apply oeq_sym; exact O1|exact Ho]).
  clear O1 Ho.
  destruct (D t false) as [[[[y|] q] h]|e'| |] eqn:HDt; cbn [strip_hint rmap fst snd] in *;
  destruct (read_record D r) as [[[x|] r1']|e| |], o1 as [[[x'|] q1]|e1| |]; try contradiction;
    cbn in O; try contradiction; cbn; try congruence.
  destruct S1 as (-> & I1 & L1), O as [-> O].
  rewrite (IH r1' q1 q); [reflexivity|exact I1| |exact O].
  eapply (st_good' D G norm HD); eassumption.
Qed.

Lemma records_mem D G norm (HD : stable D G norm) zc sched size content :
  (0 < size)%N -> G content ->
  records D zc sched size content = mem_all D (length content + 1) content.
Proof.
  intros Hs HG. unfold records. eapply read_all_mem; [exact HD| |exact HG|reflexivity]. apply Inv_init; assumption.
Qed.

Lemma mem_all_safe D G norm (HD : stable D G norm) fuel : forall total,
  length total < fuel ->
  snd (mem_all D fuel total) <> UB /\ snd (mem_all D fuel total) <> Fuel.
Proof.
  induction fuel as [|fuel IH]; intros total Hf; [lia|].
  cbn [mem_all]. pose proof (st_safe D G norm HD total false) as [? ?].
  destruct (D total false) as [[[[x|] rest] h]|e| |] eqn:HDt; cbn; try congruence; try (split; discriminate).
  pose proof (st_rest D G norm HD _ _ _ _ _ HDt) as [_ Hlt]. specialize (Hlt ltac:(discriminate)).
  specialize (IH rest ltac:(lia)). destruct (mem_all D fuel rest) as [xs e]. exact IH.
Qed.

Lemma records_safe D G norm (HD : stable D G norm) zc sched size content :
  (0 < size)%N -> G content ->
  snd (records D zc sched size content) <> UB /\ snd (records D zc sched size content) <> Fuel.
Proof.
  intros Hs HG. erewrite records_mem by eassumption. eapply mem_all_safe; [eassumption|lia].
Qed.

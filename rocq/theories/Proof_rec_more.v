(* RecordIO and Parquet against their formats; chunk reader; line length; text totality. *)
From Verif Require Import Common Model_csvtok Model_rec Spec_csvtok Spec_rec Proof_csvtok Proof_rec Proof_rec_text Proof_rec_bin Proof_rec_spec.

Ltac Zify.zify_post_hook ::= Z.to_euclidean_division_equations.

(* ---------------- every text consists of lines ---------------- *)

Lemma first_eol xs : no_eol xs \/ exists l c rest, no_eol l /\ (c = LF \/ c = CR) /\ xs = l ++ c :: rest.
Proof.
  induction xs as [|c xs IH]; [left; split; intros []|].
  destruct (N.eq_dec c LF) as [->|H1]; [right; exists [], LF, xs; repeat split; auto; intros []|].
  destruct (N.eq_dec c CR) as [->|H2]; [right; exists [], CR, xs; repeat split; auto; intros []|].
  destruct IH as [IH|(l & d & rest & Hl & Hd & ->)].
  - left. unfold no_eol in *. cbn. intuition congruence.
  - right. exists (c :: l), d, rest. repeat split; auto; unfold no_eol in *; cbn; intuition congruence.
Qed.

Lemma every_text_has_lines : forall n xs, length xs <= n -> exists ls last,
  xs = render_lines ls last /\ Forall (fun l => no_eol (fst l)) ls /\ no_eol last /\ eols_ok ls last.
Proof.
  induction n as [n IH] using lt_wf_ind; intros xs Hn.
  destruct (first_eol xs) as [H|(l & c & rest & Hl & Hc & ->)].
  { exists [], xs. cbn. repeat split; auto; apply H. }
  assert (Hstep : forall e rest', length rest' < n -> (e = eol_cr -> hd_error rest' <> Some LF) ->
     exists ls last, l ++ eol_bytes e ++ rest' = render_lines ls last /\
       Forall (fun l => no_eol (fst l)) ls /\ no_eol last /\ eols_ok ls last).
  { intros e rest' Hlt He. destruct (IH (length rest') Hlt rest' (le_n _)) as (ls & last & -> & H1 & H2 & H3).
    exists ((l, e) :: ls), last. split; [unfold render_lines; cbn [flat_map fst snd]; now rewrite <- !app_assoc|].
    split; [constructor; auto|]. split; [exact H2|]. split; auto. }
  rewrite app_length in Hn. cbn [length] in Hn.
  destruct Hc as [-> | ->].
  - apply (Hstep eol_lf rest); [lia|discriminate].
  - destruct rest as [|d rest'].
    + apply (Hstep eol_cr []); [cbn in *; lia|discriminate].
    + destruct (N.eq_dec d LF) as [->|Hd].
      * apply (Hstep eol_crlf rest'); [cbn in *; lia|discriminate].
      * apply (Hstep eol_cr (d :: rest')); [cbn in *; lia|]. intros _ E. cbn in E. congruence.
Qed.

(* ---------------- rows ---------------- *)

Lemma line_field_field d q t v : Line_field d q t v -> Field d q t v.
Proof. intros [f H _|b w tl H1 H2 H3 _]; [apply F_plain|apply F_quoted]; assumption. Qed.
Lemma line_row_row d q t vs : Line_row d q t vs -> Row d q t vs.
Proof.
  intro H. induction H as [t v H|t v rest vs H _ IH].
  - apply R_last. now apply line_field_field.
  - apply R_cons; [now apply line_field_field|exact IH].
Qed.

(* ---------------- RecordIO ---------------- *)

Lemma u32_le32 n : (n < 2 ^ 32)%N ->
  u32 (n mod 256) ((n / 256) mod 256) ((n / 65536) mod 256) ((n / 16777216) mod 256) = n.
Proof. intro H. unfold u32. change (2 ^ 32)%N with 4294967296%N in H. lia. Qed.

Lemma le32_u32 a b c d : is_byte a -> is_byte b -> is_byte c -> is_byte d ->
  le32 (u32 a b c d) = [a; b; c; d].
Proof.
  unfold is_byte, le32, u32. intros Ha Hb Hc Hd.
  assert (E1 : ((a + 256 * b + 65536 * c + 16777216 * d) mod 256 = a)%N) by lia.
  assert (E2 : (((a + 256 * b + 65536 * c + 16777216 * d) / 256) mod 256 = b)%N) by lia.
  assert (E3 : (((a + 256 * b + 65536 * c + 16777216 * d) / 65536) mod 256 = c)%N) by lia.
  assert (E4 : (((a + 256 * b + 65536 * c + 16777216 * d) / 16777216) mod 256 = d)%N) by lia.
  now rewrite E1, E2, E3, E4.
Qed.

Lemma u32_bound a b c d : is_byte a -> is_byte b -> is_byte c -> is_byte d -> (u32 a b c d < 2 ^ 32)%N.
Proof. unfold is_byte, u32. intros. change (2 ^ 32)%N with 4294967296%N. lia. Qed.

Lemma header_kind_div n : header_kind n = ((n / 2 ^ 29) mod 8)%N.
Proof. unfold header_kind. change 7%N with (N.ones 3). rewrite N.land_ones, N.shiftr_div_pow2. reflexivity. Qed.
Lemma header_size_mod n : header_payload_size n = (n mod 2 ^ 29)%N.
Proof.
  unfold header_payload_size. change (N.shiftl 1 29 - 1)%N with (N.ones 29).
  rewrite N.land_ones. reflexivity.
Qed.

Lemma rio_decode_encode kind pl pad rest : rio_wf kind pl pad ->
  recordio_decode (rio_encode1 kind pl pad ++ rest) false = Ok (Some (mk_rec pl kind), rest, None).
Proof.
  intros (Hk & Hl & Hp & Ha).
  assert (Hd : (kind * 2 ^ 29 + N.of_nat (length pl) < 2 ^ 32)%N).
  { change (2 ^ 29)%N with 536870912%N in *. change (2 ^ 32)%N with 4294967296%N. lia. }
  set (data := (kind * 2 ^ 29 + N.of_nat (length pl))%N) in *.
  assert (Hlen : length (rio_encode1 kind pl pad) = 8 + length pl + length pad).
  { unfold rio_encode1. rewrite !app_length. reflexivity. }
  destruct (recordio_decode_long (rio_encode1 kind pl pad ++ rest) false) as (m & d & Hm & Hdd & ->).
  { rewrite app_length. lia. }
  assert (Em : m = recordio_magic) by (injection Hm as <-; reflexivity).
  assert (Ed : d = data).
  { unfold rio_encode1 in Hdd. fold data in Hdd. cbn in Hdd. injection Hdd as <-. apply u32_le32. exact Hd. }
  clear Hm Hdd. subst m d. rewrite N.eqb_refl. cbn [negb]. cbn zeta.
  assert (Eps : header_payload_size data = N.of_nat (length pl)).
  { rewrite header_size_mod. subst data. change (2 ^ 29)%N with 536870912%N in *. lia. }
  assert (Ek : header_kind data = kind).
  { rewrite header_kind_div. subst data. change (2 ^ 29)%N with 536870912%N in *. lia. }
  assert (Eal : align (header_payload_size data) 4 = N.of_nat (length pl + length pad)).
  { rewrite Eps, align_spec.
    assert (exists q, length pl + length pad = 4 * q).
    { exists ((length pl + length pad) / 4). pose proof (Nat.div_mod (length pl + length pad) 4). lia. }
    destruct H as [q Hq]. assert (((N.of_nat (length pl) + 3) / 4 = N.of_nat q)%N) by lia. lia. }
  rewrite Eal, Ek, Eps.
  replace (N.of_nat (length (rio_encode1 kind pl pad ++ rest)) <? 8 + N.of_nat (length pl + length pad))%N
    with false by (rewrite app_length; lia).
  replace (N.to_nat (8 + N.of_nat (length pl + length pad))) with (length (rio_encode1 kind pl pad)) by lia.
  rewrite (skipn_app (length (rio_encode1 kind pl pad))), skipn_all, Nat.sub_diag. cbn [app skipn].
  replace (N.to_nat (N.of_nat (length pl))) with (length pl) by lia.
  unfold rio_encode1. rewrite <- !app_assoc. cbn [rio_magic le32 app skipn].
  rewrite firstn_app, Nat.sub_diag, firstn_all, app_nil_r. reflexivity.
Qed.

Lemma load32_bytes xs i v : Forall is_byte xs -> load32 xs i = Some v ->
  exists a b c d, skipn i xs = a :: b :: c :: d :: skipn (i + 4) xs /\ v = u32 a b c d /\
     is_byte a /\ is_byte b /\ is_byte c /\ is_byte d.
Proof.
  intros HF H. unfold load32 in H.
  destruct (skipn i xs) as [|a [|b [|c [|d t]]]] eqn:E; try discriminate. injection H as <-.
  assert (HF2 : Forall is_byte (a :: b :: c :: d :: t)).
  { rewrite <- E. rewrite <- (firstn_skipn i xs) in HF. apply Forall_app in HF. apply HF. }
  exists a, b, c, d. repeat (inversion HF2 as [|? ? ? HF3]; subst; clear HF2; rename HF3 into HF2).
  repeat split; auto. replace (skipn (i + 4) xs) with t; [reflexivity|].
  rewrite Nat.add_comm, Nat.add_comm. rewrite <- skipn_add, E. reflexivity.
Qed.

(* Whatever is decoded re-encodes to the bytes consumed. *)
Lemma rio_decode_sound xs r rest h : Forall is_byte xs ->
  recordio_decode xs false = Ok (Some r, rest, h) ->
  exists pad, rio_wf (kind r) (payload r) pad /\ xs = rio_encode1 (kind r) (payload r) pad ++ rest.
Proof.
  intros HF H. destruct xs as [|x0 xs0]; [discriminate|]. set (xs := x0 :: xs0) in *.
  destruct (Nat.ltb_spec (length xs) 8) as [Hl|Hl].
  { rewrite recordio_decode_short in H by (discriminate || lia). discriminate. }
  destruct (recordio_decode_long xs false Hl) as (m & d & Hm & Hd & E). rewrite E in H. clear E.
  destruct (N.eqb_spec m recordio_magic) as [->|]; [|discriminate]. cbn [negb] in H. cbn zeta in H.
  destruct (N.ltb_spec (N.of_nat (length xs)) (8 + align (header_payload_size d) 4)) as [|Hge]; [discriminate|].
  assert (Er : r = mk_rec (firstn (N.to_nat (header_payload_size d)) (skipn 8 xs)) (header_kind d)) by congruence.
  assert (Et : rest = skipn (N.to_nat (8 + align (header_payload_size d) 4)) xs) by congruence.
  clear H. subst r rest. cbn [kind payload].
  destruct (load32_bytes xs 0 _ HF Hm) as (a & b & c & e & E1 & Em & ? & ? & ? & ?).
  destruct (load32_bytes xs 4 _ HF Hd) as (a' & b' & c' & e' & E2 & Ed & ? & ? & ? & ?).
  cbn [skipn] in E1. change (0 + 4) with 4 in E1. rewrite E2 in E1. change (4 + 4) with 8 in E1.
  assert (Emag : [a; b; c; e] = rio_magic).
  { rewrite <- (le32_u32 a b c e) by assumption. rewrite <- Em. reflexivity. }
  injection Emag as -> -> -> ->.
  assert (Ebound : (d < 2 ^ 32)%N) by (rewrite Ed; apply u32_bound; assumption).
  set (n := N.to_nat (header_payload_size d)) in *.
  set (sz := align (header_payload_size d) 4) in *.
  assert (Hsz : (header_payload_size d <= sz < header_payload_size d + 4)%N /\ (sz mod 4 = 0)%N).
  { subst sz. rewrite align_spec. generalize (header_payload_size d). intro k. lia. }
  assert (Hsk : length (skipn 8 xs) = length xs - 8) by apply skipn_length.
  exists (firstn (N.to_nat sz - n) (skipn n (skipn 8 xs))).
  assert (Hpl : length (firstn n (skipn 8 xs)) = n) by (rewrite firstn_length; lia).
  assert (Hpad : length (firstn (N.to_nat sz - n) (skipn n (skipn 8 xs))) = N.to_nat sz - n).
  { rewrite firstn_length, skipn_length. lia. }
  split.
  - repeat split.
    + rewrite header_kind_div. apply N.mod_lt. discriminate.
    + rewrite Hpl. subst n. rewrite N2Nat.id, header_size_mod. apply N.mod_lt. discriminate.
    + rewrite Hpad. lia.
    + rewrite Hpl, Hpad. replace (n + (N.to_nat sz - n)) with (N.to_nat sz) by lia. lia.
  - rewrite E1 at 1. unfold rio_encode1. rewrite Hpl.
    assert (Ehd : (header_kind d * 2 ^ 29 + N.of_nat n = d)%N).
    { subst n. rewrite N2Nat.id, header_kind_div, header_size_mod.
      change (2 ^ 29)%N with 536870912%N. change (2 ^ 32)%N with 4294967296%N in Ebound. lia. }
    assert (Etail : skipn 8 xs = firstn n (skipn 8 xs) ++ firstn (N.to_nat sz - n) (skipn n (skipn 8 xs))
                     ++ skipn (N.to_nat (8 + sz)) xs).
    { replace (N.to_nat (8 + sz)) with (8 + N.to_nat sz) by lia. rewrite <- (skipn_add (N.to_nat sz)).
      rewrite <- (firstn_skipn n (skipn 8 xs)) at 1. f_equal.
      rewrite <- (firstn_skipn (N.to_nat sz - n) (skipn n (skipn 8 xs))) at 1. f_equal.
      rewrite skipn_add. f_equal. lia. }
    rewrite Ehd, Ed, le32_u32 by assumption. rewrite <- !app_assoc. rewrite <- Etail. reflexivity.
Qed.

Lemma rio_decode_fail xs : recordio_decode xs false = Throw Corrupt_header \/
  (xs = [] /\ recordio_decode xs false = Ok (None, [], None)) \/
  exists r rest, recordio_decode xs false = Ok (Some r, rest, None).
Proof.
  destruct xs as [|c xs]; [right; left; auto|]. destruct (Nat.ltb_spec (length (c :: xs)) 8) as [Hl|Hl].
  - left. rewrite recordio_decode_short by (discriminate || lia). reflexivity.
  - destruct (recordio_decode_long (c :: xs) false Hl) as (m & d & _ & _ & ->).
    destruct (negb _); [left; reflexivity|]. cbn zeta. destruct (N.ltb _ _); [left; reflexivity|].
    right. right. eauto.
Qed.

Definition rio_item (r : rec) (pad : list byte) : list byte := rio_encode1 (kind r) (payload r) pad.

Lemma rio_mem_round_trip rs : forall fuel tl out,
  length rs < fuel -> (forall f, 0 < f -> mem_all recordio_decode f tl = out) ->
  Forall (fun x => rio_wf (kind (fst x)) (payload (fst x)) (snd x)) rs ->
  mem_all recordio_decode fuel (flat_map (fun x => rio_item (fst x) (snd x)) rs ++ tl)
  = (map fst rs ++ fst out, snd out).
Proof.
  induction rs as [|[r pad] rs IH]; intros fuel tl out Hf Ho HF.
  - cbn. rewrite Ho by lia. destruct out; reflexivity.
  - destruct fuel as [|fuel]; [cbn in Hf; lia|]. inversion HF as [|? ? H1 H2]; subst. cbn [fst snd] in H1.
    cbn [flat_map fst snd map]. rewrite <- app_assoc. cbn [mem_all]. unfold rio_item at 1.
    rewrite rio_decode_encode by exact H1. cbn [strip_hint rmap bind fst snd].
    rewrite (IH fuel tl out) by (cbn in Hf; try lia; assumption). destruct r; reflexivity.
Qed.

Lemma rio_encode_long r pad : 8 <= length (rio_item r pad).
Proof. unfold rio_item, rio_encode1. rewrite !app_length. cbn. lia. Qed.

Lemma rio_flat_long rs : length rs <= length (flat_map (fun x => rio_item (fst x) (snd x)) rs).
Proof.
  induction rs as [|[r pad] rs IH]; [cbn; lia|]. cbn [flat_map length fst snd]. rewrite app_length.
  pose proof (rio_encode_long r pad). lia.
Qed.

Lemma rio_round_trip rs zc sched size : (0 < size)%N ->
  Forall (fun x => rio_wf (kind (fst x)) (payload (fst x)) (snd x)) rs ->
  records recordio_decode zc sched size (flat_map (fun x => rio_item (fst x) (snd x)) rs)
  = (map fst rs, Ok tt).
Proof.
  intros Hs HF. rewrite (records_mem _ _ _ recordio_stable) by auto.
  pose proof (rio_mem_round_trip rs (length (flat_map (fun x => rio_item (fst x) (snd x)) rs) + 1) [] ([], Ok tt)) as H.
  rewrite app_nil_r in H. cbn [fst snd] in H. rewrite app_nil_r in H. apply H; [|intros [|f] Hf; [lia|reflexivity]|exact HF].
  pose proof (rio_flat_long rs). lia.
Qed.

Lemma rio_arbitrary_mem : forall fuel xs, length xs < fuel -> Forall is_byte xs ->
  exists rs tl e, mem_all recordio_decode fuel xs = (map fst rs, e) /\
    xs = flat_map (fun x => rio_item (fst x) (snd x)) rs ++ tl /\
    Forall (fun x => rio_wf (kind (fst x)) (payload (fst x)) (snd x)) rs /\
    ((e = Ok tt /\ tl = []) \/
     (e = Throw Corrupt_header /\ tl <> [] /\
      ~ exists k pl pad rest, rio_wf k pl pad /\ tl = rio_encode1 k pl pad ++ rest)).
Proof.
  induction fuel as [|fuel IH]; intros xs Hf HF; [lia|]. cbn [mem_all].
  destruct (rio_decode_fail xs) as [E|[[-> E]|(r & rest & E)]]; rewrite E; cbn [strip_hint rmap bind fst snd].
  - exists [], xs, (Throw Corrupt_header). repeat split; auto. right. repeat split; auto.
    + intros ->. discriminate.
    + intros (k & pl & pad & rest & Hw & ->). rewrite rio_decode_encode in E by exact Hw. discriminate.
  - exists [], [], (Ok tt). repeat split; auto.
  - destruct (rio_decode_sound xs r rest None HF E) as (pad & Hw & Ex).
    pose proof (rio_encode_long r pad) as Hlong. fold (rio_item r pad) in Ex.
    assert (Hlt : length rest < length xs) by (rewrite Ex, app_length; lia).
    destruct (IH rest) as (rs & tl & e & E2 & E3 & E4 & E5).
    { lia. }
    { rewrite Ex in HF. apply Forall_app in HF. apply HF. }
    exists ((r, pad) :: rs), tl, e. rewrite E2. repeat split; auto.
    rewrite Ex, E3. cbn [flat_map fst snd]. now rewrite app_assoc.
Qed.

(* ---------------- Parquet ---------------- *)

Lemma is_magic_iff xs pos b : Forall is_byte xs -> is_magic_number xs pos = Ok b ->
  (b = true <-> exists rest, skipn pos xs = par1 ++ rest).
Proof.
  intros HF. unfold is_magic_number. destruct (load32 xs pos) as [m|] eqn:E; [|discriminate].
  intro H. injection H as <-. destruct (load32_bytes xs pos m HF E) as (a & b & c & d & E1 & -> & ? & ? & ? & ?).
  rewrite N.eqb_eq. split.
  - intro Hu. assert (El : [a; b; c; d] = par1).
    { rewrite <- (le32_u32 a b c d) by assumption. rewrite Hu. reflexivity. }
    injection El as -> -> -> ->. exists (skipn (pos + 4) xs). exact E1.
  - intros [rest Hr]. rewrite Hr in E1. injection E1 as <- <- <- <- _. reflexivity.
Qed.

Lemma existsb_In b l : existsb (N.eqb b) l = true <-> In b l.
Proof.
  rewrite existsb_exists. split.
  - intros (x & H1 & H2). apply N.eqb_eq in H2. now subst.
  - intro H. exists b. split; [exact H|apply N.eqb_refl].
Qed.

(* a footer at pos, in terms of what precedes *)
Lemma is_footer_iff xs pos : Forall is_byte xs -> 8 <= pos -> pos + 4 <= length xs ->
  (is_footer xs pos = Ok true <->
   exists pre meta, firstn pos xs = pre ++ meta ++ le32 (N.of_nat (length meta)) /\ 4 <= length pre /\
     (9 <= N.of_nat (length meta) < 2 ^ 32)%N /\ (exists m : list byte, meta = m ++ [0%N]) /\
     (exists (b : byte) (m : list byte), meta = b :: m /\ In b [21; 41; 54; 73; 89; 104; 121]%N)).
Proof.
  intros HF H8 Hl. set (me := pos - 4).
  destruct (load32_some xs me) as [sz Hsz]; [lia|].
  destruct (load32_bytes xs me sz HF Hsz) as (a & b & c & d & E1 & Esz & ? & ? & ? & ?).
  assert (Efp : firstn pos xs = firstn me xs ++ le32 sz).
  { replace pos with (me + 4) by lia. rewrite <- (firstn_skipn me xs) at 1.
    rewrite firstn_app. rewrite firstn_length. replace (Nat.min me (length xs)) with me by lia.
    rewrite firstn_firstn. replace (Nat.min (me + 4) me) with me by lia. f_equal.
    replace (me + 4 - me) with 4 by lia. rewrite E1, Esz, le32_u32 by assumption. reflexivity. }
  assert (Hszb : (sz < 2 ^ 32)%N) by (rewrite Esz; apply u32_bound; assumption).
  unfold is_footer. destruct (Nat.ltb_spec pos 4); [lia|]. fold me. rewrite Hsz.
  assert (Hlm : length (firstn me xs) = me) by (rewrite firstn_length; lia).
  split.
  - destruct (N.ltb_spec sz 9) as [|H9]; [discriminate|].
    destruct (N.ltb_spec (N.of_nat me) (4 + sz)) as [|H4]; [discriminate|].
    destruct (load8 xs (me - 1)) as [sf|] eqn:Esf; [|discriminate].
    destruct (N.eqb_spec sf 0) as [->|]; [|discriminate]. cbn [negb].
    destruct (load8 xs (me - N.to_nat sz)) as [b0|] eqn:Eb0; [|discriminate].
    intro Hb. injection Hb as Hb. apply existsb_In in Hb.
    set (n := N.to_nat sz) in *.
    exists (firstn (me - n) xs), (skipn (me - n) (firstn me xs)).
    assert (Hlmeta : length (skipn (me - n) (firstn me xs)) = n) by (rewrite skipn_length; lia).
    rewrite Hlmeta.
    assert (Esplit : firstn (me - n) xs ++ skipn (me - n) (firstn me xs) = firstn me xs).
    { rewrite <- (firstn_skipn (me - n) (firstn me xs)) at 2. f_equal.
      rewrite firstn_firstn. f_equal. lia. }
    split; [rewrite app_assoc, Esplit, Efp; unfold n; rewrite N2Nat.id; reflexivity|].
    split; [rewrite firstn_length; lia|]. split; [lia|]. split.
    + exists (skipn (me - n) (firstn (me - 1) xs)).
      assert (E : firstn me xs = firstn (me - 1) xs ++ [0%N]).
      { unfold load8 in Esf. apply nth_error_split in Esf as (l1 & l2 & Ex & Hl1).
        rewrite Ex. replace me with (length l1 + 1) at 1 by lia. rewrite <- Hl1.
        rewrite firstn_app, firstn_all2 by lia. replace (length l1 + 1 - length l1) with 1 by lia.
        rewrite firstn_app, Nat.sub_diag, firstn_all. cbn. now rewrite app_nil_r. }
      rewrite E, skipn_app. rewrite firstn_length. f_equal.
      replace (me - n - Nat.min (me - 1) (length xs)) with 0 by lia. reflexivity.
    + unfold load8 in Eb0. apply nth_error_split in Eb0 as (l1 & l2 & Ex & Hl1).
      exists b0, (firstn (n - 1) l2). split; [|exact Hb].
      rewrite Ex, <- Hl1. rewrite firstn_app. rewrite firstn_all2 by lia.
      rewrite skipn_app, skipn_all, Nat.sub_diag. cbn [app].
      replace (me - length l1) with (S (n - 1)) by lia. reflexivity.
  - intros (pre & meta & Ep & Hpre & H9 & [m0 Em] & (b0 & m1 & Em1 & Hb)).
    rewrite Efp, app_assoc in Ep.
    assert (Elen : length (le32 sz) = length (le32 (N.of_nat (length meta)))) by reflexivity.
    assert (Esep : firstn me xs = pre ++ meta /\ le32 sz = le32 (N.of_nat (length meta))).
    { apply app_inj_tail_iff || idtac.
      assert (HL : length (firstn me xs) = length (pre ++ meta)).
      { apply (f_equal (@length byte)) in Ep. rewrite !app_length in Ep. rewrite app_length. rewrite Elen in Ep. lia. }
      revert HL Ep. generalize (firstn me xs) (pre ++ meta). clear.
      intros l1 l2 HL Ep. split.
      - apply (f_equal (firstn (length l1))) in Ep. rewrite firstn_app, Nat.sub_diag, firstn_all in Ep.
        rewrite HL, firstn_app, Nat.sub_diag, firstn_all in Ep. rewrite !firstn_O, !app_nil_r in Ep. exact Ep.
      - apply (f_equal (skipn (length l1))) in Ep. rewrite skipn_app, Nat.sub_diag, skipn_all in Ep.
        rewrite HL, skipn_app, Nat.sub_diag, skipn_all in Ep. exact Ep. }
    destruct Esep as [Epm Ele].
    assert (Hlen : length pre + length meta = me) by (rewrite <- Hlm, Epm, app_length; reflexivity).
    assert (Hsz2 : sz = N.of_nat (length meta)).
    { rewrite <- (u32_le32 sz Hszb), <- (u32_le32 (N.of_nat (length meta))) by lia.
      unfold le32 in Ele. injection Ele as -> -> -> ->. reflexivity. }
    destruct (N.ltb_spec sz 9); [lia|].
    destruct (N.ltb_spec (N.of_nat me) (4 + sz)); [lia|].
    assert (Hn1 : forall i, i < me -> load8 xs i = nth_error (pre ++ meta) i).
    { intros i Hi. rewrite <- Epm. unfold load8. rewrite <- (firstn_skipn me xs) at 1.
      apply nth_error_app1. lia. }
    rewrite !Hn1 by lia.
    assert (Hm0 : length pre + length m0 + 1 = me) by (rewrite Em, app_length in Hlen; cbn in Hlen; lia).
    assert (En : nth_error (pre ++ meta) (me - 1) = Some 0%N).
    { rewrite Em, app_assoc, nth_error_app2. 2:{ rewrite app_length. lia. }
      replace (me - 1 - length (pre ++ m0)) with 0 by (rewrite app_length; lia). reflexivity. }
    rewrite En.
    rewrite N.eqb_refl. cbn [negb].
    rewrite nth_error_app2 by lia. replace (me - N.to_nat sz - length pre) with 0 by lia.
    rewrite Em1. cbn [nth_error]. f_equal. apply existsb_In. exact Hb.
Qed.

Lemma Forall_firstn {A} (P : A -> Prop) n l : Forall P l -> Forall P (firstn n l).
Proof. intro H. rewrite <- (firstn_skipn n l) in H. apply Forall_app in H. apply H. Qed.

(* a prefix of xs of length e is framed iff the decoder's tests succeed *)
Lemma framed_iff xs e : Forall is_byte xs -> is_magic_number xs 0 = Ok true -> 12 <= e -> e <= length xs ->
  (framed (firstn e xs) <-> is_magic_number xs (e - 4) = Ok true /\ is_footer xs (e - 4) = Ok true).
Proof.
  intros HF H0 He Hl.
  assert (Hle : length (firstn e xs) = e) by (rewrite firstn_length; lia).
  destruct (is_magic_ok xs (e - 4)) as [m Hm]; [lia|].
  assert (Hsplit : firstn e xs = firstn (e - 4) xs ++ firstn 4 (skipn (e - 4) xs)).
  { rewrite <- (firstn_skipn (e - 4) (firstn e xs)) at 1. rewrite firstn_firstn.
    replace (Nat.min (e - 4) e) with (e - 4) by lia. f_equal. rewrite skipn_firstn_comm. f_equal. lia. }
  split.
  - intros (body & meta & sz & Ef & -> & H9 & Hm0 & Hb).
    assert (Eq : firstn (e - 4) xs = par1 ++ body ++ meta ++ le32 (N.of_nat (length meta)) /\
                 firstn 4 (skipn (e - 4) xs) = par1).
    { rewrite Hsplit in Ef. rewrite !app_assoc in Ef.
      assert (HL : length (firstn (e - 4) xs) = length (((par1 ++ body) ++ meta) ++ le32 (N.of_nat (length meta)))).
      { apply (f_equal (@length byte)) in Ef. rewrite (app_length _ par1), app_length in Ef.
        rewrite (firstn_length 4), skipn_length in Ef. cbn [par1 length] in Ef. lia. }
      rewrite !app_assoc. revert HL Ef. generalize (firstn (e - 4) xs) (((par1 ++ body) ++ meta) ++ le32 (N.of_nat (length meta))).
      generalize (firstn 4 (skipn (e - 4) xs)). clear. intros l3 l1 l2 HL Ef. split.
      - apply (f_equal (firstn (length l1))) in Ef. rewrite firstn_app, Nat.sub_diag, firstn_all in Ef.
        rewrite HL, firstn_app, Nat.sub_diag, firstn_all in Ef. rewrite !firstn_O, !app_nil_r in Ef. exact Ef.
      - apply (f_equal (skipn (length l1))) in Ef. rewrite skipn_app, Nat.sub_diag, skipn_all in Ef.
        rewrite HL, skipn_app, Nat.sub_diag, skipn_all in Ef. exact Ef. }
    destruct Eq as [E1 E2]. split.
    + rewrite Hm. f_equal. apply (is_magic_iff xs (e - 4) m HF Hm).
      exists (skipn 4 (skipn (e - 4) xs)). rewrite <- E2. now rewrite firstn_skipn.
    + apply is_footer_iff; [exact HF|lia|lia|]. exists (par1 ++ body), meta.
      split; [rewrite E1; now rewrite <- app_assoc|]. split; [cbn; lia|]. auto.
  - intros [Hm1 Hf]. apply is_footer_iff in Hf; [|exact HF|lia|lia].
    destruct Hf as (pre & meta & E1 & Hp & H9 & Hm0 & Hb).
    destruct (proj1 (is_magic_iff xs (e - 4) true HF Hm1) eq_refl) as [r2 E2].
    destruct (proj1 (is_magic_iff xs 0 true HF H0) eq_refl) as [r0 E0]. cbn [skipn] in E0.
    assert (Epre : pre = par1 ++ skipn 4 pre).
    { rewrite <- (firstn_skipn 4 pre) at 1. f_equal.
      transitivity (firstn 4 (firstn (e - 4) xs)).
      - rewrite E1. rewrite firstn_app. replace (4 - length pre) with 0 by lia. cbn [firstn]. now rewrite app_nil_r.
      - rewrite firstn_firstn. replace (Nat.min 4 (e - 4)) with 4 by lia. rewrite E0. reflexivity. }
    exists (skipn 4 pre), meta, (N.of_nat (length meta)).
    split; [|repeat split; auto; lia].
    rewrite Hsplit, E1, E2. rewrite Epre at 1. cbn [par1 app firstn]. rewrite <- !app_assoc. reflexivity.
Qed.

Lemma framed_long f : framed f -> 21 <= length f.
Proof.
  intros (body & meta & sz & -> & -> & H & _). rewrite !app_length. cbn. lia.
Qed.

Lemma parquet_scan_first xs : forall n pos, 8 <= pos -> pos + n + 3 = length xs ->
  match parquet_scan xs n pos with
  | Ok (Some e) => pos + 4 <= e <= length xs /\ is_magic_number xs (e - 4) = Ok true /\ is_footer xs (e - 4) = Ok true /\
      (forall e', pos + 4 <= e' < e -> ~ (is_magic_number xs (e' - 4) = Ok true /\ is_footer xs (e' - 4) = Ok true))
  | Ok None => forall e', pos + 4 <= e' <= length xs ->
       ~ (is_magic_number xs (e' - 4) = Ok true /\ is_footer xs (e' - 4) = Ok true)
  | _ => False
  end.
Proof.
  induction n as [|n IH]; intros pos H8 Hl; cbn [parquet_scan].
  - intros e' He'. lia.
  - destruct (is_magic_ok xs pos) as [m Em]; [lia|]. rewrite Em. cbn [bind].
    destruct (is_footer_ok xs pos H8) as [f Ef]; [lia|].
    specialize (IH (S pos) ltac:(lia) ltac:(lia)).
    assert (Hr : (m && f = false) -> match parquet_scan xs n (S pos) with
      | Ok (Some e) => pos + 4 <= e <= length xs /\ is_magic_number xs (e - 4) = Ok true /\ is_footer xs (e - 4) = Ok true /\
          (forall e', pos + 4 <= e' < e -> ~ (is_magic_number xs (e' - 4) = Ok true /\ is_footer xs (e' - 4) = Ok true))
      | Ok None => forall e', pos + 4 <= e' <= length xs ->
           ~ (is_magic_number xs (e' - 4) = Ok true /\ is_footer xs (e' - 4) = Ok true)
      | _ => False end).
    { intro Hmf.
      assert (Hx : ~ (is_magic_number xs pos = Ok true /\ is_footer xs pos = Ok true)).
      { rewrite Em, Ef. intros [H1 H2]. injection H1 as ->. injection H2 as ->. discriminate. }
      destruct (parquet_scan xs n (S pos)) as [[e|]| | |]; auto.
      - destruct IH as (I1 & I2 & I3 & I4). split; [lia|]. split; [exact I2|]. split; [exact I3|].
        intros e' He'. destruct (Nat.eq_dec e' (pos + 4)) as [->|]; [|apply I4; lia].
        replace (pos + 4 - 4) with pos by lia. exact Hx.
      - intros e' He'. destruct (Nat.eq_dec e' (pos + 4)) as [->|]; [|apply IH; lia].
        replace (pos + 4 - 4) with pos by lia. exact Hx. }
    destruct m; [|apply Hr; reflexivity]. rewrite Ef. cbn [bind].
    destruct f; [|apply Hr; reflexivity].
    replace (pos + 4 - 4) with pos by lia. repeat split; auto; try lia. all: intros; lia.
Qed.

(* The decoder on a complete buffer. *)
Lemma parquet_decode_spec xs : Forall is_byte xs ->
  match parquet_decode xs false with
  | Ok (Some r, rest, h) => kind r = kComplete /\ h = None /\ xs = payload r ++ rest /\ framed (payload r) /\
      (forall f g, xs = f ++ g -> framed f -> length (payload r) <= length f)
  | Ok (None, rest, _) => xs = [] /\ rest = []
  | Throw Corrupt_header => xs <> [] /\ ~ starts_with par1 xs
  | Throw Corrupt_footer => starts_with par1 xs /\ ~ exists f g, xs = f ++ g /\ framed f
  | _ => False
  end.
Proof.
  intro HF. destruct xs as [|c xs0]; [cbn; auto|]. rewrite parquet_unfold by discriminate.
  set (xs := c :: xs0) in *. assert (Hne : xs <> []) by discriminate.
  destruct (Nat.ltb_spec (length xs) 4) as [H4|H4].
  { split; [exact Hne|]. intros [t E]. rewrite E, app_length in H4. cbn in H4. lia. }
  destruct (is_magic_ok xs 0) as [m Em]; [lia|]. pose proof (is_magic_iff xs 0 m HF Em) as Hmi.
  rewrite Em. cbn [bind]. destruct m; cbn [negb].
  2:{ split; [exact Hne|]. intros [t E]. assert (false = true); [|discriminate]. apply Hmi. exists t. exact E. }
  assert (Hst : starts_with par1 xs) by (apply Hmi; reflexivity).
  destruct (Nat.ltb_spec (length xs) 12) as [H12|H12].
  { split; [exact Hst|]. intros (f & g & E & Hf). apply framed_long in Hf. rewrite E, app_length in H12. lia. }
  pose proof (parquet_scan_first xs (length xs - 11) 8 ltac:(lia) ltac:(lia)) as HS.
  assert (Hfr : forall f g, xs = f ++ g -> framed f -> 12 <= length f <= length xs /\
     is_magic_number xs (length f - 4) = Ok true /\ is_footer xs (length f - 4) = Ok true).
  { intros f g E Hf. pose proof (framed_long f Hf) as Hlf.
    assert (Hle : length f <= length xs) by (rewrite E, app_length; lia).
    split; [lia|]. apply framed_iff; [exact HF|exact Em|lia|lia|].
    rewrite E, firstn_app, firstn_all, Nat.sub_diag. cbn. now rewrite app_nil_r. }
  destruct (parquet_scan xs (length xs - 11) 8) as [[e|]| | |]; cbn [bind]; try contradiction.
  - destruct HS as (He & H1 & H2 & H3). cbn [payload kind].
    split; [reflexivity|]. split; [reflexivity|]. split; [symmetry; apply firstn_skipn|].
    split; [apply framed_iff; auto; lia|].
    intros f g E Hf. destruct (Hfr f g E Hf) as (Hb1 & Hb2 & Hb3). rewrite firstn_length.
    destruct (Nat.le_gt_cases e (length f)) as [|Hlt]; [lia|]. exfalso.
    apply (H3 (length f)); [lia|auto].
  - split; [exact Hst|]. intros (f & g & E & Hf). destruct (Hfr f g E Hf) as (Hb1 & Hb2 & Hb3).
    apply (HS (length f)); [lia|auto].
Qed.

Lemma parquet_mem : forall fuel xs, length xs < fuel -> Forall is_byte xs ->
  exists fs tl e, mem_all parquet_decode fuel xs = (map (fun f => mk_rec f kComplete) fs, e) /\
    par_files xs fs tl /\
    ((e = Ok tt /\ tl = []) \/
     (e = Throw Corrupt_header /\ tl <> [] /\ ~ starts_with par1 tl) \/
     (e = Throw Corrupt_footer /\ starts_with par1 tl /\ ~ exists f g, tl = f ++ g /\ framed f)).
Proof.
  induction fuel as [|fuel IH]; intros xs Hf HF; [lia|]. cbn [mem_all].
  pose proof (parquet_decode_spec xs HF) as HD.
  destruct (parquet_decode xs false) as [[[[r|] rest] h]|e| |] eqn:E; cbn [strip_hint rmap bind fst snd]; try contradiction.
  - destruct HD as (Hk & _ & Ex & Hfr & Hmin). pose proof (framed_long _ Hfr) as Hlong.
    destruct (IH rest) as (fs & tl & e & E1 & E2 & E3).
    { rewrite Ex, app_length in Hf. lia. }
    { rewrite Ex in HF. apply Forall_app in HF. apply HF. }
    exists (payload r :: fs), tl, e. rewrite E1. split; [destruct r; cbn in *; now subst|]. split; [|exact E3].
    rewrite Ex. constructor; [|exact E2]. split; [exact Hfr|]. rewrite <- Ex. exact Hmin.
  - destruct HD as [-> ->]. exists [], [], (Ok tt). split; [reflexivity|]. split; [constructor|auto].
  - exists [], xs, (Throw e). split; [reflexivity|]. split; [constructor|].
    destruct e; try contradiction; auto.
Qed.

(* ---------------- chunk reader ---------------- *)

(* the state of the chunk reader between two calls with leftover [left] *)
Definition chunk_inv (d : dchunk) (left : list byte) : Prop :=
  (0 < cr_next d)%N /\ (cr_eof d = true -> s_rest (cr_stream d) = []) /\
  (cr_eof d = false -> match cr_block d with
     | None => left = []
     | Some b => (b <= cr_next d)%N /\ (N.of_nat (length left) <= b)%N
     end).

Lemma drive_ok choose : forall n d left acc,
  chunk_inv d left ->
  exists acc' left' d' stopped,
    drive choose n d left acc = Ok (acc', left', d', stopped) /\
    acc' ++ left' ++ s_rest (cr_stream d') = acc ++ left ++ s_rest (cr_stream d) /\
    (stopped = true -> s_rest (cr_stream d') = []) /\
    length (s_rest (cr_stream d')) <= length (s_rest (cr_stream d)) /\
    (stopped = false -> n + (if cr_eof d then 1 else 0) <=
       length (s_rest (cr_stream d)) - length (s_rest (cr_stream d')) + (if cr_eof d' then 1 else 0)).
Proof.
  induction n as [|n IH]; intros d left acc (Hn & He & Hb); cbn [drive].
  { exists acc, left, d, false. repeat split; auto; try discriminate. intros _. lia. }
  destruct (cr_eof d) eqn:Ee.
  { rewrite dchunk_read_eof by exact Ee. cbn [bind].
    exists acc, left, d, true. repeat split; auto. discriminate. }
  destruct (dchunk_read_spec d left Ee Hn (Hb eq_refl)) as (room & d1 & Hr & E & Hs & Heof & Hn1 & Hf1 & Hf2).
  rewrite E. cbn [bind].
  set (chunk := left ++ firstn (N.to_nat room) (s_rest (cr_stream d))) in *.
  assert (Hsplit : left ++ s_rest (cr_stream d) = chunk ++ s_rest (cr_stream d1)).
  { subst chunk. rewrite Hs, <- app_assoc, firstn_skipn. reflexivity. }
  destruct chunk as [|c chunk'] eqn:Ec.
  { destruct left; [|discriminate]. cbn [app] in *. exists acc, [], d1, true. cbn [app]. rewrite Hsplit.
    repeat split; auto; try discriminate.
    intros _. destruct (s_rest (cr_stream d)) eqn:Er.
    - rewrite Hs. apply skipn_nil.
    - destruct (N.to_nat room) eqn:En; [lia|]. cbn in Ec. discriminate. }
  rewrite <- Ec in *. clear c chunk' Ec. cbn zeta.
  set (k := Nat.min (choose chunk) (length chunk)).
  assert (Hlen1 : length (s_rest (cr_stream d1)) = length (s_rest (cr_stream d)) - N.to_nat room) by (rewrite Hs; apply skipn_length).
  destruct (IH d1 (skipn k chunk) (acc ++ firstn k chunk)) as (acc' & left' & d' & st & E2 & E3 & E4 & E5 & E6).
  { split; [lia|]. split.
    - intro Hx. rewrite Hx in Heof. rewrite Hs. apply skipn_all2. lia.
    - intro Hx. destruct (Hf1 Hx) as [-> Hsz]. split; [lia|]. rewrite skipn_length.
      subst chunk. rewrite app_length, firstn_length. lia. }
  exists acc', left', d', st. split; [exact E2|]. split.
  - rewrite E3. rewrite <- (firstn_skipn k chunk) in Hsplit. rewrite <- !app_assoc in *. now rewrite Hsplit.
  - split; [exact E4|]. split; [lia|]. intro Hst. specialize (E6 Hst).
    destruct (cr_eof d1) eqn:E1; destruct (cr_eof d'); lia.
Qed.

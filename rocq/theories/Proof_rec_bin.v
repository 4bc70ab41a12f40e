(* Stability of the RecordIO and Parquet decoders. *)
From Verif Require Import Common Model_rec Proof_rec.

Lemma load32_bound p i v : load32 p i = Some v -> i + 4 <= length p.
Proof.
  unfold load32. pose proof (skipn_length i p) as H.
  destruct (skipn i p) as [|a [|b [|c [|d t]]]]; try discriminate. cbn in H. lia.
Qed.
Lemma load32_some p i : i + 4 <= length p -> exists v, load32 p i = Some v.
Proof.
  unfold load32. pose proof (skipn_length i p) as H. intro Hl.
  destruct (skipn i p) as [|a [|b [|c [|d t]]]]; cbn in H; try lia. eexists; reflexivity.
Qed.
Lemma load32_app p s i : i + 4 <= length p -> load32 (p ++ s) i = load32 p i.
Proof.
  intro Hl. unfold load32. rewrite skipn_app_le by lia. pose proof (skipn_length i p) as H.
  destruct (skipn i p) as [|a [|b [|c [|d t]]]]; cbn in H; try lia. reflexivity.
Qed.
Lemma load8_app p s i : i < length p -> load8 (p ++ s) i = load8 p i.
Proof. intro H. unfold load8. apply nth_error_app1. exact H. Qed.
Lemma load8_some p i : i < length p -> exists v, load8 p i = Some v.
Proof.
  intro H. unfold load8. destruct (nth_error p i) eqn:E; [eexists; reflexivity|].
  apply nth_error_None in E. lia.
Qed.

Lemma align_spec n : align n 4 = (4 * ((n + 3) / 4))%N.
Proof.
  unfold align. replace (n + 4 - 1)%N with (n + 3)%N by lia.
  change (4 - 1)%N with (N.ones 2). rewrite N.ldiff_ones_r, N.shiftl_mul_pow2, N.shiftr_div_pow2.
  change (2 ^ 2)%N with 4%N. lia.
Qed.
Lemma align_ge n : (n <= align n 4)%N.
Proof. rewrite align_spec. pose proof (N.div_mod (n + 3) 4 ltac:(lia)). pose proof (N.mod_lt (n + 3) 4 ltac:(lia)). lia. Qed.

Lemma header_cases p :
  (length p < 8 /\ decode_recordio_header p = Ok None) \/
  (8 <= length p /\ exists m d, load32 p 0 = Some m /\ load32 p 4 = Some d /\
     decode_recordio_header p = if negb (N.eqb m recordio_magic) then Throw Corrupt_header else Ok (Some d)).
Proof.
  unfold decode_recordio_header.
  destruct (Nat.ltb_spec (length p / 4) 2) as [H|H].
  - left. split; [|reflexivity]. pose proof (Nat.div_mod (length p) 4 ltac:(lia)).
    pose proof (Nat.mod_upper_bound (length p) 4 ltac:(lia)). lia.
  - right. assert (Hl : 8 <= length p).
    { pose proof (Nat.div_mod (length p) 4 ltac:(lia)). lia. }
    split; [exact Hl|]. destruct (load32_some p 0) as [m Hm]; [lia|]. destruct (load32_some p 4) as [d Hd]; [lia|].
    exists m, d. rewrite Hm, Hd. auto.
Qed.

Lemma header_app p s : 8 <= length p -> decode_recordio_header (p ++ s) = decode_recordio_header p.
Proof.
  intro H. destruct (header_cases p) as [[? _]|(_ & m & d & Hm & Hd & E)]; [lia|]. rewrite E.
  destruct (header_cases (p ++ s)) as [[Hs _]|(_ & m' & d' & Hm' & Hd' & E')]; [rewrite app_length in Hs; lia|].
  rewrite load32_app in Hm' by lia. rewrite load32_app in Hd' by lia. rewrite E'. rewrite Hm in Hm'. rewrite Hd in Hd'. injection Hm' as <-. injection Hd' as <-. reflexivity.
Qed.

(* The decoder in terms of the header, for nonempty chunks. *)
Lemma recordio_decode_short p b : p <> [] -> length p < 8 ->
  recordio_decode p b = if b then Ok (None, p, None) else Throw Corrupt_header.
Proof.
  intros Hp Hl. unfold recordio_decode. destruct p as [|c p]; [congruence|].
  destruct (header_cases (c :: p)) as [[_ ->]|[? _]]; [|lia]. reflexivity.
Qed.
Lemma recordio_decode_long p b : 8 <= length p ->
  exists m d, load32 p 0 = Some m /\ load32 p 4 = Some d /\
  recordio_decode p b =
    if negb (N.eqb m recordio_magic) then Throw Corrupt_header else
    let record_size := (8 + align (header_payload_size d) 4)%N in
    if (N.of_nat (length p) <? record_size)%N then
      if b then Ok (None, p, Some record_size) else Throw Corrupt_header
    else Ok (Some (mk_rec (firstn (N.to_nat (header_payload_size d)) (skipn 8 p)) (header_kind d)),
             skipn (N.to_nat record_size) p, None).
Proof.
  intro Hl. unfold recordio_decode. destruct p as [|c p]; [cbn in Hl; lia|].
  destruct (header_cases (c :: p)) as [[? _]|(_ & m & d & Hm & Hd & ->)]; [lia|].
  exists m, d. split; [exact Hm|]. split; [exact Hd|].
  destruct (negb (N.eqb m recordio_magic)); reflexivity.
Qed.

Lemma recordio_stable : stable recordio_decode (fun _ => True) (fun x => x).
Proof.
  assert (Happ : forall p s, 8 <= length p ->
     match recordio_decode p true with
     | Ok (Some r, rest, _) => recordio_decode (p ++ s) false = Ok (Some r, rest ++ s, None)
     | Ok (None, rest, _) => rest = p
     | Throw e => recordio_decode (p ++ s) false = Throw e
     | _ => False
     end).
  { intros p s Hl. destruct (recordio_decode_long p true Hl) as (m & d & Hm & Hd & ->).
    assert (Hl2 : 8 <= length (p ++ s)) by (rewrite app_length; lia).
    destruct (recordio_decode_long (p ++ s) false Hl2) as (m' & d' & Hm' & Hd' & ->).
    rewrite load32_app in Hm', Hd' by lia. rewrite Hm in Hm'. rewrite Hd in Hd'.
    injection Hm' as <-. injection Hd' as <-.
    destruct (negb (N.eqb m recordio_magic)); [reflexivity|]. cbn zeta.
    pose proof (align_ge (header_payload_size d)) as Hal.
    set (sz := align (header_payload_size d) 4) in *.
    destruct (N.ltb_spec (N.of_nat (length p)) (8 + sz)) as [|Hge]; [reflexivity|].
    replace (N.of_nat (length (p ++ s)) <? 8 + sz)%N with false by (rewrite app_length; lia).
    rewrite (skipn_app_le 8) by lia.
    rewrite firstn_app_le by (rewrite skipn_length; lia).
    rewrite skipn_app_le by lia. reflexivity. }
  assert (Hshort : forall p, length p < 8 -> recordio_decode p true = Ok (None, p, None)).
  { intros p Hl. destruct p as [|c p]; [reflexivity|]. now rewrite recordio_decode_short. }
  assert (Hcase : forall p : list byte, length p < 8 \/ 8 <= length p) by (intro; lia).
  constructor; auto.
  - intros a b _ _ ->. apply oeq_refl.
  - intros p s r rest h _ H. destruct (Hcase p) as [Hl|Hl]; [rewrite Hshort in H by exact Hl; discriminate|].
    specialize (Happ p s Hl). rewrite H in Happ. rewrite Happ. cbn. auto.
  - intros p s rest h _ H. destruct (Hcase p) as [Hl|Hl].
    + rewrite Hshort in H by exact Hl. injection H as <- <-. apply oeq_refl.
    + specialize (Happ p s Hl). rewrite H in Happ. subst rest. apply oeq_refl.
  - intros p s e _ H. destruct (Hcase p) as [Hl|Hl]; [rewrite Hshort in H by exact Hl; discriminate|].
    specialize (Happ p s Hl). rewrite H in Happ. exact Happ.
  - intros p b. destruct p as [|c p]; [destruct b; split; discriminate|].
    destruct (Hcase (c :: p)) as [Hl|Hl].
    + rewrite recordio_decode_short by (discriminate || exact Hl). destruct b; split; discriminate.
    + destruct (recordio_decode_long (c :: p) b Hl) as (m & d & _ & _ & ->).
      destruct (negb _); [split; discriminate|]. cbn zeta. destruct (N.ltb _ _); [destruct b|]; split; discriminate.
  - intros p b r rest h H. destruct p as [|c p].
    { cbn in H. injection H as <- <- <-. split; [apply suffix_refl|congruence]. }
    destruct (Hcase (c :: p)) as [Hl|Hl].
    + rewrite recordio_decode_short in H by (discriminate || exact Hl).
      destruct b; [injection H as <- <- <-|discriminate]. split; [apply suffix_refl|congruence].
    + destruct (recordio_decode_long (c :: p) b Hl) as (m & d & _ & _ & E). rewrite E in H. clear E.
      destruct (negb _); [discriminate|]. cbn zeta in H.
      set (xs := c :: p) in *.
      destruct (N.ltb_spec (N.of_nat (length xs)) (8 + align (header_payload_size d) 4)).
      * destruct b; [injection H as <- <- <-|discriminate]. split; [apply suffix_refl|congruence].
      * assert (E : rest = skipn (N.to_nat (8 + align (header_payload_size d) 4)) xs) by congruence.
        rewrite E. split; [apply suffix_skipn|]. intros _. rewrite skipn_length. lia.
Qed.

(* ---------------- Parquet ---------------- *)

Lemma is_magic_app p s pos : pos + 4 <= length p -> is_magic_number (p ++ s) pos = is_magic_number p pos.
Proof. intro H. unfold is_magic_number. now rewrite load32_app. Qed.
Lemma is_magic_ok p pos : pos + 4 <= length p -> exists b, is_magic_number p pos = Ok b.
Proof. intro H. unfold is_magic_number. destruct (load32_some p pos H) as [v ->]. eexists; reflexivity. Qed.

Lemma is_footer_app p s pos : 8 <= pos -> pos + 4 <= length p -> is_footer (p ++ s) pos = is_footer p pos.
Proof.
  intros H8 H. unfold is_footer. destruct (Nat.ltb_spec pos 4); [lia|].
  rewrite load32_app by lia. destruct (load32 p (pos - 4)) as [sz|]; [|reflexivity].
  destruct (sz <? 9)%N; [reflexivity|].
  destruct (N.ltb_spec (N.of_nat (pos - 4)) (4 + sz)); [reflexivity|].
  rewrite !load8_app by lia. reflexivity.
Qed.
Lemma is_footer_ok p pos : 8 <= pos -> pos + 4 <= length p -> exists b, is_footer p pos = Ok b.
Proof.
  intros H8 H. unfold is_footer. destruct (Nat.ltb_spec pos 4); [lia|].
  destruct (load32_some p (pos - 4)) as [sz ->]; [lia|].
  destruct (N.ltb_spec sz 9); [eexists; reflexivity|].
  destruct (N.ltb_spec (N.of_nat (pos - 4)) (4 + sz)); [eexists; reflexivity|].
  destruct (load8_some p (pos - 4 - 1)) as [sf ->]; [lia|]. destruct (negb _); [eexists; reflexivity|].
  destruct (load8_some p (pos - 4 - N.to_nat sz)) as [b ->]; [lia|]. eexists; reflexivity.
Qed.

Lemma parquet_scan_ok p : forall n pos, 8 <= pos -> pos + n + 3 <= length p ->
  match parquet_scan p n pos with
  | Ok (Some e) => pos + 4 <= e <= pos + n + 3
  | Ok None => True
  | _ => False
  end.
Proof.
  induction n as [|n IH]; intros pos H8 H; cbn [parquet_scan]; [exact I|].
  destruct (is_magic_ok p pos) as [m ->]; [lia|]. cbn [bind].
  assert (Hr : match parquet_scan p n (S pos) with
    | Ok (Some e) => pos + 4 <= e <= pos + S n + 3 | Ok None => True | _ => False end).
  { specialize (IH (S pos) ltac:(lia) ltac:(lia)). destruct (parquet_scan p n (S pos)) as [[e|]| | |]; auto. lia. }
  destruct m; [|exact Hr].
  destruct (is_footer_ok p pos H8) as [f ->]; [lia|]. cbn [bind]. destruct f; [lia|exact Hr].
Qed.

Lemma parquet_scan_app p s k : forall n pos, 8 <= pos -> pos + n + 3 <= length p ->
  parquet_scan (p ++ s) (n + k) pos =
  match parquet_scan p n pos with
  | Ok None => parquet_scan (p ++ s) k (pos + n)
  | o => o
  end.
Proof.
  induction n as [|n IH]; intros pos H8 H; cbn [parquet_scan Nat.add].
  - f_equal. lia.
  - rewrite is_magic_app, is_footer_app by lia.
    rewrite IH by lia. replace (S pos + n) with (pos + S n) by lia.
    destruct (is_magic_ok p pos) as [m ->]; [lia|]. cbn [bind].
    destruct m; [|reflexivity]. destruct (is_footer_ok p pos H8) as [f ->]; [lia|]. cbn [bind].
    destruct f; reflexivity.
Qed.

Lemma parquet_unfold p b : p <> [] ->
  parquet_decode p b =
        if length p <? 4 then
          if b then Ok (None, p, None) else Throw Corrupt_header
        else
          let* m := is_magic_number p 0 in
          if negb m then Throw Corrupt_header
          else if length p <? 12 then
            if b then Ok (None, p, None) else Throw Corrupt_footer
          else
            let* f := parquet_scan p (length p - 11) 8 in
            match f with
            | Some e => Ok (Some (mk_rec (firstn e p) kComplete), skipn e p, None)
            | None => if b then Ok (None, p, None) else Throw Corrupt_footer
            end.
Proof. destruct p; [congruence|reflexivity]. Qed.

Lemma parquet_stable : stable parquet_decode (fun _ => True) (fun x => x).
Proof.
  assert (Hrest : forall p b r rest h, parquet_decode p b = Ok (r, rest, h) ->
      suffix_of rest p /\ (r <> None -> length rest < length p) /\ (r = None -> rest = p) /\ h = None).
  { intros p b r rest h H. destruct p as [|c p].
    { cbn in H. injection H as <- <- <-. repeat split; try apply suffix_refl; congruence. }
    rewrite parquet_unfold in H by discriminate. set (xs := c :: p) in *.
    destruct (Nat.ltb_spec (length xs) 4).
    { destruct b; [injection H as <- <- <-|discriminate]. repeat split; try apply suffix_refl; congruence. }
    destruct (is_magic_ok xs 0) as [m Em]; [lia|]. rewrite Em in H. cbn [bind] in H.
    destruct m; [|discriminate]. cbn [negb] in H.
    destruct (Nat.ltb_spec (length xs) 12).
    { destruct b; [injection H as <- <- <-|discriminate]. repeat split; try apply suffix_refl; congruence. }
    pose proof (parquet_scan_ok xs (length xs - 11) 8 ltac:(lia) ltac:(lia)) as HS.
    destruct (parquet_scan xs (length xs - 11) 8) as [[e|]| | |]; cbn [bind] in H; try discriminate.
    - injection H as <- <- <-. split; [apply suffix_skipn|]. split; [intros _; rewrite skipn_length; lia|].
      split; congruence.
    - destruct b; [injection H as <- <- <-|discriminate]. repeat split; try apply suffix_refl; congruence. }
  assert (Happ : forall p s, match parquet_decode p true with
     | Ok (Some r, rest, _) => parquet_decode (p ++ s) false = Ok (Some r, rest ++ s, None)
     | Ok (None, rest, _) => True
     | Throw e => parquet_decode (p ++ s) false = Throw e
     | _ => False
     end).
  { intros p s. destruct p as [|c p]; [exact I|].
    rewrite parquet_unfold by discriminate.
    rewrite (parquet_unfold ((c :: p) ++ s)) by discriminate. set (xs := c :: p) in *.
    rewrite app_length.
    destruct (Nat.ltb_spec (length xs) 4); [exact I|].
    destruct (Nat.ltb_spec (length xs + length s) 4); [lia|].
    rewrite is_magic_app by lia.
    destruct (is_magic_ok xs 0) as [m Em]; [lia|]. rewrite Em. cbn [bind].
    destruct m; [|reflexivity]. cbn [negb].
    destruct (Nat.ltb_spec (length xs) 12); [exact I|].
    destruct (Nat.ltb_spec (length xs + length s) 12); [lia|].
    replace (length xs + length s - 11) with ((length xs - 11) + length s) by lia.
    rewrite parquet_scan_app by lia.
    pose proof (parquet_scan_ok xs (length xs - 11) 8 ltac:(lia) ltac:(lia)) as HS.
    destruct (parquet_scan xs (length xs - 11) 8) as [[e|]| | |]; cbn [bind]; try contradiction; [|exact I].
    rewrite firstn_app_le, skipn_app_le by lia. reflexivity. }
  constructor; auto.
  - intros a b _ _ ->. apply oeq_refl.
  - intros p s r rest h _ H. specialize (Happ p s). rewrite H in Happ. rewrite Happ. cbn. auto.
  - intros p s rest h _ H. destruct (Hrest _ _ _ _ _ H) as (_ & _ & E & _). rewrite E by reflexivity. apply oeq_refl.
  - intros p s e _ H. specialize (Happ p s). rewrite H in Happ. exact Happ.
  - intros p b. destruct p as [|c p]; [split; discriminate|].
    rewrite parquet_unfold by discriminate. set (xs := c :: p) in *.
    destruct (Nat.ltb_spec (length xs) 4); [destruct b; split; discriminate|].
    destruct (is_magic_ok xs 0) as [m Em]; [lia|]. rewrite Em. cbn [bind].
    destruct m; cbn [negb]; [|split; discriminate].
    destruct (Nat.ltb_spec (length xs) 12); [destruct b; split; discriminate|].
    pose proof (parquet_scan_ok xs (length xs - 11) 8 ltac:(lia) ltac:(lia)) as HS.
    destruct (parquet_scan xs (length xs - 11) 8) as [[e|]| | |]; cbn [bind]; try contradiction; try (split; discriminate).
    destruct b; split; discriminate.
  - intros p b r rest h H. destruct (Hrest _ _ _ _ _ H) as (? & ? & _). auto.
Qed.

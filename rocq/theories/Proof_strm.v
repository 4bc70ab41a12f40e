(* Streams behave like a cursor over their content. *)
From Verif Require Import Common Model_rec Proof_rec Model_strm Spec_strm.
From Coq Require Import ZArith.

Lemma as_ssize_small n : (n < 2 ^ 63)%N -> as_ssize n = Z.of_N n.
Proof. intro H. unfold as_ssize. now rewrite (proj2 (N.ltb_lt _ _) H). Qed.

(* ---------------- reading a piece ---------------- *)
Lemma piece (content : list byte) p n :
  (p <= N.of_nat (length content))%N ->
  let bs := firstn n (skipn (N.to_nat p) content) in
  bs = firstn (length bs) (skipn (N.to_nat p) content) /\
  N.of_nat (length bs) = N.min (N.of_nat n) (N.of_nat (length content) - p).
Proof.
  intros Hp bs.
  assert (Hl : length bs = Nat.min n (length content - N.to_nat p)) by (unfold bs; now rewrite firstn_length, skipn_length).
  split; [|lia]. rewrite Hl. unfold bs.
  destruct (Nat.le_ge_cases n (length content - N.to_nat p)).
  - now replace (Nat.min n (length content - N.to_nat p)) with n by lia.
  - replace (Nat.min n (length content - N.to_nat p)) with (length content - N.to_nat p) by lia.
    rewrite !firstn_all2; rewrite ?skipn_length; auto.
Qed.

Lemma nil_len {A} (l : list A) : l = [] <-> N.of_nat (length l) = 0%N.
Proof. destruct l; cbn; split; intro; try congruence; lia. Qed.

(* An answer to a read. *)
Lemma read_answer k content c n bs :
  c_closed c = false -> (c_pos c <= N.of_nat (length content))%N ->
  bs = firstn (length bs) (skipn (N.to_nat (c_pos c)) content) ->
  (N.of_nat (length bs) <= n)%N ->
  (k <> K_file -> N.of_nat (length bs) = N.min n (N.of_nat (length content) - c_pos c)) ->
  (bs = [] <-> n = 0%N \/ c_pos c = N.of_nat (length content)) ->
  forall o, o = S_read n \/ o = S_read_slice n ->
  answers k content o c (Ok (Out_bytes bs)) (mk_cursor (c_pos c + N.of_nat (length bs)) false) /\
  (c_pos c + N.of_nat (length bs) <= N.of_nat (length content))%N.
Proof.
  intros Hc Hp Hb Hn Hk Hz o Ho. split.
  - destruct Ho as [-> | ->]; cbn [answers]; rewrite Hc; exists bs; repeat split; auto; apply Hz; auto.
  - assert (Hl : length bs <= length (skipn (N.to_nat (c_pos c)) content)).
    { rewrite Hb at 1. rewrite firstn_length. lia. }
    rewrite skipn_length in Hl. lia.
Qed.

(* ---------------- the relation between a stream and its cursor ---------------- *)
Definition at_cursor (k : kind_of_stream) (content : list byte) (a : astream) (c : cursor) : Prop :=
  (c_pos c <= N.of_nat (length content))%N /\
  match k, a with
  | K_memory, A_memory m => ms_closed m = c_closed c /\ ms_pos m = Z.of_N (c_pos c) /\ (c_closed c = false -> ms_source m = content)
  | K_s3, A_s3 s => s3_closed s = c_closed c /\ s3_pos s = c_pos c /\ s3_size s = N.of_nat (length content) /\ s3_object s = content
  | K_file, A_file f => fs_closed f = c_closed c /\ fs_pos f = c_pos c /\ fs_content f = content /\
      (fs_size f = 0%N \/ fs_size f = N.of_nat (length content))
  | _, _ => False
  end.

Lemma fs_size_ok k content a f c : at_cursor k content a c -> a = A_file f -> fs_get_size f = N.of_nat (length content).
Proof.
  intros [_ H] ->. destruct k; try contradiction. destruct H as (_ & _ & Hc & Hs). unfold fs_get_size. rewrite Hc.
  destruct (N.eqb_spec (fs_size f) 0); [reflexivity|]. destruct Hs; [contradiction|assumption].
Qed.

Lemma mem_read_ok content m c n :
  (N.of_nat (length content) + n < 2 ^ 63)%N ->
  at_cursor K_memory content (A_memory m) c -> c_closed c = false ->
  exists bs, ms_read m n = Ok (bs, mk_mstream content (Z.of_N (c_pos c + N.of_nat (length bs))) false) /\
    ms_read_slice m n = Ok (bs, mk_mstream content (Z.of_N (c_pos c + N.of_nat (length bs))) false) /\
    bs = firstn (length bs) (skipn (N.to_nat (c_pos c)) content) /\
    N.of_nat (length bs) = N.min n (N.of_nat (length content) - c_pos c).
Proof.
  intros Hn (Hp & Hc & Hpos & Hs) Ho. specialize (Hs Ho). unfold ms_read, ms_read_slice. rewrite Hc, Ho.
  destruct m as [src pos cl]. cbn [ms_source ms_pos ms_closed] in *. subst src pos cl.
  destruct (N.eqb_spec n 0) as [-> |Hn0].
  - exists []. cbn [length]. rewrite N.add_0_r. rewrite Ho. repeat split; lia.
  - cbn [ms_source ms_pos]. unfold ms_advance. cbn [ms_source ms_pos]. rewrite as_ssize_small by lia.
    set (pos := Z.min (Z.of_N (c_pos c) + Z.of_N n) (Z.of_nat (length content))).
    replace (Z.of_N (c_pos c) <? 0)%Z with false by (symmetry; apply Z.ltb_ge; lia).
    replace (pos <? Z.of_N (c_pos c))%Z with false by (symmetry; apply Z.ltb_ge; lia). cbn [orb].
    replace (Z.to_nat (Z.of_N (c_pos c))) with (N.to_nat (c_pos c)) by lia.
    set (k := Z.to_nat (pos - Z.of_N (c_pos c))).
    destruct (piece content (c_pos c) k Hp) as [Hb Hl].
    exists (firstn k (skipn (N.to_nat (c_pos c)) content)).
    assert (Hk : N.of_nat k = N.min n (N.of_nat (length content) - c_pos c)) by (subst k pos; lia).
    replace (Z.of_N (c_pos c + N.of_nat (length (firstn k (skipn (N.to_nat (c_pos c)) content))))) with pos by (rewrite Hl; subst pos; lia).
    split; [reflexivity|]. split; [reflexivity|]. split; [exact Hb|]. rewrite Hl. lia.
Qed.

Lemma s3_read_ok content s c n :
  (N.of_nat (length content) + n < 2 ^ 63)%N ->
  at_cursor K_s3 content (A_s3 s) c -> c_closed c = false ->
  exists bs, s3_read s n = Ok (bs, mk_s3 content (N.of_nat (length content)) (c_pos c + N.of_nat (length bs)) false) /\
    bs = firstn (length bs) (skipn (N.to_nat (c_pos c)) content) /\
    N.of_nat (length bs) = N.min n (N.of_nat (length content) - c_pos c).
Proof.
  intros Hn (Hp & Hc & Hpos & Hsz & Hob) Ho. unfold s3_read. rewrite Hc, Ho.
  destruct s as [ob sz pos cl]. cbn [s3_object s3_size s3_pos s3_closed] in *. subst ob sz pos cl.
  destruct (N.eqb_spec n 0) as [-> |Hn0]; cbn [orb].
  { exists []. cbn [length]. rewrite N.add_0_r, Ho. repeat split; lia. }
  destruct (N.eqb_spec (c_pos c) (N.of_nat (length content))) as [E|E].
  { exists []. cbn [length]. rewrite N.add_0_r, Ho. repeat split; lia. }
  unfold s3_read_object, s3_get.
  set (n' := N.min (N.of_nat (length content) - c_pos c) n).
  replace (N.of_nat (length content) <=? c_pos c)%N with false by (symmetry; apply N.leb_gt; lia). cbn [bind].
  assert (E64 : (2 ^ 64 = 2 * 2 ^ 63)%N) by reflexivity.
  rewrite N.mod_small by lia. rewrite firstn_firstn.
  replace (Nat.min (N.to_nat n') (N.to_nat (c_pos c + n' + 1 - c_pos c))) with (N.to_nat n') by lia.
  destruct (piece content (c_pos c) (N.to_nat n') Hp) as [Hb Hl].
  eexists. split; [reflexivity|]. split; [exact Hb|]. rewrite Hl. lia.
Qed.

Lemma fs_read_ok content f c n :
  at_cursor K_file content (A_file f) c -> c_closed c = false ->
  exists bs sched, fs_read f n = Ok (bs, mk_fs content (c_pos c + N.of_nat (length bs)) sched (fs_size f) false) /\
    bs = firstn (length bs) (skipn (N.to_nat (c_pos c)) content) /\
    (N.of_nat (length bs) <= n)%N /\ (bs = [] <-> n = 0%N \/ c_pos c = N.of_nat (length content)).
Proof.
  intros (Hp & Hc & Hpos & Hob & Hs) Ho. unfold fs_read. rewrite Hc, Ho.
  destruct f as [ct pos sched sz cl]. cbn [fs_content fs_pos fs_sched fs_size fs_closed] in *. subst ct pos cl.
  destruct (N.eqb_spec n 0) as [-> |Hn0].
  { exists [], sched. cbn [length]. rewrite N.add_0_r, Ho. repeat split; auto; lia. }
  unfold stream_read. cbn [s_rest s_sched].
  set (avail := N.to_nat (N.min n (N.of_nat (length (skipn (N.to_nat (c_pos c)) content))))).
  set (want := match sched with [] => avail | k :: _ => Nat.max 1 k end).
  destruct (piece content (c_pos c) (Nat.min want avail) Hp) as [Hb Hl].
  eexists _, _. split; [reflexivity|]. split; [exact Hb|].
  assert (Ha : N.of_nat avail = N.min n (N.of_nat (length content) - c_pos c)) by (subst avail; rewrite skipn_length; lia).
  split; [rewrite Hl; lia|]. rewrite nil_len, Hl.
  assert (Hw : avail <> 0 -> want <> 0) by (subst want; destruct sched; lia).
  split; [|lia]. intro Hz. destruct (N.eq_dec (c_pos c) (N.of_nat (length content))); [tauto|].
  exfalso. assert (avail <> 0) by lia. specialize (Hw H). lia.
Qed.

Lemma step_ok k content o a c :
  (N.of_nat (length content) < 2 ^ 63)%N -> moderate content o -> at_cursor k content a c ->
  exists r a' c', a_do o a = (r, a') /\ answers k content o c r c' /\ (c_pos c' <= N.of_nat (length content))%N /\ at_cursor k content a' c'.
Proof.
  intros Hsize Hm Ha. pose proof Ha as Ha0. destruct Ha as [Hp Ha].
  assert (E64 : (2 ^ 64 = 2 * 2 ^ 63)%Z) by reflexivity.
  destruct k, a as [m|s|f]; try contradiction.
  - (* memory *)
    destruct o as [n|n|p| | |]; cbn [a_do a_read a_read_slice a_seek a_size a_position a_close].
    1, 2: destruct (c_closed c) eqn:Ecl;
      [ destruct Ha as (Hc & _); unfold ms_read, ms_read_slice; rewrite Hc; cbn [bind];
        eexists _, _, c; split; [reflexivity|]; cbn [answers]; rewrite Ecl; auto
      | destruct (mem_read_ok content m c n Hm Ha0 Ecl) as (bs & E1 & E2 & Hb & Hl); rewrite ?E1, ?E2; cbn [bind];
        destruct (read_answer K_memory content c n bs Ecl Hp Hb ltac:(lia) ltac:(intros _; exact Hl)) with (o := S_read n) as [A1 A2];
          [rewrite nil_len; lia|auto|];
        eexists _, _, _; split; [reflexivity|]; split; [exact A1|]; split; [exact A2|];
        split; [exact A2|cbn; auto] ].
    + destruct Ha as (Hc & Hpos & Hs). unfold ms_seek. rewrite Hc. cbn [answers moderate] in *.
      destruct (c_closed c) eqn:Ecl.
      * eexists _, _, c. split; [reflexivity|]. auto.
      * cbn [bind]. unfold ms_advance. cbn [ms_pos ms_source]. rewrite (Hs eq_refl), as_ssize_small by lia.
        destruct (N.leb_spec p (N.of_nat (length content))) as [Hle|Hgt];
          eexists _, _, _; (split; [reflexivity|]); (split; [split; reflexivity|]); cbn [c_pos];
          (split; [lia|]); (split; [cbn [c_pos]; lia|]); cbn; repeat split; auto; lia.
    + destruct Ha as (Hc & Hpos & Hs). eexists _, _, _. split; [reflexivity|]. cbn [answers]. split; [auto|].
      split; [exact Hp|]. split; [exact Hp|]. cbn. repeat split; auto. discriminate.
    + eexists _, _, c. split; [reflexivity|]. split; [|auto]. cbn [answers]. split; [reflexivity|].
      destruct Ha as (Hc & Hpos & Hs). unfold ms_size. rewrite Hc. destruct (c_closed c); [reflexivity|]. now rewrite (Hs eq_refl).
    + eexists _, _, c. split; [reflexivity|]. split; [|auto]. cbn [answers]. split; [reflexivity|].
      destruct Ha as (Hc & Hpos & Hs). unfold ms_position. rewrite Hc. destruct (c_closed c); [reflexivity|].
      cbn [rmap bind]. rewrite Hpos. rewrite Z.mod_small.
      * now rewrite N2Z.id.
      * split; [lia|]. apply (Z.le_lt_trans _ (Z.of_nat (length content))); [lia|]. rewrite E64. lia.
  - (* S3 *)
    destruct o as [n|n|p| | |]; cbn [a_do a_read a_read_slice a_seek a_size a_position a_close].
    1, 2: destruct (c_closed c) eqn:Ecl;
      [ destruct Ha as (Hc & _); unfold s3_read; rewrite Hc; cbn [bind];
        eexists _, _, c; split; [reflexivity|]; cbn [answers]; rewrite Ecl; auto
      | destruct (s3_read_ok content s c n Hm Ha0 Ecl) as (bs & E1 & Hb & Hl); rewrite ?E1; cbn [bind];
        destruct (read_answer K_s3 content c n bs Ecl Hp Hb ltac:(lia) ltac:(intros _; exact Hl)) with (o := S_read n) as [A1 A2];
          [rewrite nil_len; lia|auto|];
        eexists _, _, _; split; [reflexivity|]; split; [exact A1|]; split; [exact A2|];
        split; [exact A2|cbn; auto] ].
    + destruct Ha as (Hc & Hpos & Hs & Hob). unfold s3_seek. rewrite Hc, Hs. cbn [answers moderate] in *.
      destruct (c_closed c) eqn:Ecl.
      * eexists _, _, c. split; [reflexivity|]. auto.
      * destruct (N.leb_spec p (N.of_nat (length content))) as [Hle|Hgt].
        -- replace (N.of_nat (length content) <? p)%N with false by (symmetry; apply N.ltb_ge; lia). cbn [bind].
           eexists _, _, _; (split; [reflexivity|]); (split; [split; reflexivity|]); cbn [c_pos];
             (split; [lia|]); (split; [cbn [c_pos]; lia|]); cbn; repeat split; auto.
        -- replace (N.of_nat (length content) <? p)%N with true by (symmetry; apply N.ltb_lt; lia). cbn [bind].
           eexists _, _, c. split; [reflexivity|]. auto.
    + destruct Ha as (Hc & Hpos & Hs & Hob). eexists _, _, _. split; [reflexivity|]. cbn [answers]. split; [auto|].
      split; [exact Hp|]. split; [exact Hp|]. cbn. repeat split; auto.
    + eexists _, _, c. split; [reflexivity|]. split; [|auto]. cbn [answers]. split; [reflexivity|].
      destruct Ha as (Hc & Hpos & Hs & Hob). cbn. now rewrite Hs.
    + eexists _, _, c. split; [reflexivity|]. split; [|auto]. cbn [answers]. split; [reflexivity|].
      destruct Ha as (Hc & Hpos & Hs & Hob). cbn. now rewrite Hpos.
  - (* file *)
    destruct o as [n|n|p| | |]; cbn [a_do a_read a_read_slice a_seek a_size a_position a_close].
    1, 2: destruct (c_closed c) eqn:Ecl;
      [ destruct Ha as (Hc & _); unfold fs_read; rewrite Hc; cbn [bind];
        eexists _, _, c; split; [reflexivity|]; cbn [answers]; rewrite Ecl; auto
      | destruct (fs_read_ok content f c n Ha0 Ecl) as (bs & sched & E1 & Hb & Hl & Hz); rewrite ?E1; cbn [bind];
        destruct (read_answer K_file content c n bs Ecl Hp Hb Hl ltac:(congruence) Hz) with (o := S_read n) as [A1 A2]; [auto|];
        eexists _, _, _; split; [reflexivity|]; split; [exact A1|]; split; [exact A2|];
        split; [exact A2|cbn; repeat split; auto; tauto] ].
    + pose proof (fs_size_ok _ _ _ f c Ha0 eq_refl) as Hfs.
      destruct Ha as (Hc & Hpos & Hob & Hs). unfold fs_seek. rewrite Hc, Hfs, Hob. cbn [answers moderate] in *.
      destruct (c_closed c) eqn:Ecl.
      * eexists _, _, c. split; [reflexivity|]. auto.
      * cbn [bind]. destruct (N.leb_spec p (N.of_nat (length content))) as [Hle|Hgt];
          eexists _, _, _; (split; [reflexivity|]); (split; [split; reflexivity|]); cbn [c_pos];
          (split; [lia|]); (split; [cbn [c_pos]; lia|]); cbn; repeat split; auto; lia.
    + destruct Ha as (Hc & Hpos & Hs & Hob). eexists _, _, _. split; [reflexivity|]. cbn [answers]. split; [auto|].
      split; [exact Hp|]. split; [exact Hp|]. cbn. repeat split; auto.
    + pose proof (fs_size_ok _ _ _ f c Ha0 eq_refl) as Hfs.
      eexists _, _, c. split; [reflexivity|]. split; [|auto]. cbn [answers]. split; [reflexivity|].
      destruct Ha as (Hc & Hpos & Hob & Hs). rewrite Hc. destruct (c_closed c); [reflexivity|]. cbn. now rewrite Hfs.
    + eexists _, _, c. split; [reflexivity|]. split; [|auto]. cbn [answers]. split; [reflexivity|].
      destruct Ha as (Hc & Hpos & Hob & Hs). rewrite Hc. destruct (c_closed c); [reflexivity|]. cbn. now rewrite Hpos.
Qed.

Lemma run_history k content ops : forall a c,
  (N.of_nat (length content) < 2 ^ 63)%N -> Forall (moderate content) ops -> at_cursor k content a c -> history k content ops c (a_run ops a).
Proof.
  induction ops as [|o ops IH]; intros a c Hs Hm Ha; cbn [a_run]; [constructor|].
  inversion Hm as [|? ? Hm1 Hm2]; subst.
  destruct (step_ok k content o a c Hs Hm1 Ha) as (r & a' & c' & E & A1 & A2 & A3). rewrite E. econstructor; eauto.
Qed.

Lemma C45_cursor_l : forall k content sched ops,
  (N.of_nat (length content) < 2 ^ 63)%N -> Forall (moderate content) ops ->
  history k content ops (mk_cursor 0 false) (a_run ops (opened k content sched)).
Proof.
  intros k content sched ops Hs Hm. apply run_history; auto. split; [cbn; lia|].
  destruct k; cbn; repeat split; auto.
Qed.

Lemma C45_far_l : exists content,
  a_run [S_seek (2 ^ 63); S_position; S_read 1] (opened K_memory content []) = [Ok Out_unit; Ok (Out_number (2 ^ 63)); UB].
Proof. exists [65%N]. vm_compute. reflexivity. Qed.

(* ---------------- reading a whole stream ---------------- *)
Lemma read_stream_ok : forall fuel s size held,
  (N.of_nat (length held) < size)%N -> length (s_rest s) < fuel ->
  read_stream fuel s size held = Ok (held ++ s_rest s).
Proof.
  induction fuel as [|fuel IH]; intros s size held Hh Hf; [lia|]. cbn [read_stream].
  destruct (fill_spec (length (s_rest s) + 2) s (size - N.of_nat (length held)) held ltac:(lia)) as (s' & E & Es).
  rewrite E. cbn [bind]. set (room := (size - N.of_nat (length held))%N) in *.
  destruct (N.ltb_spec (N.of_nat (length (s_rest s))) room) as [Hlt|Hge].
  - rewrite firstn_all2 by lia. reflexivity.
  - rewrite IH.
    + rewrite Es, <- app_assoc, firstn_skipn. reflexivity.
    + rewrite app_length, firstn_length. lia.
    + rewrite Es, skipn_length. lia.
Qed.

Lemma C49_whole_l : forall zero_copy seekable first_block content sched fuel,
  (0 < first_block)%N -> zero_copy = true \/ seekable = false \/ content <> [] -> length content < fuel ->
  load_bits fuel zero_copy seekable first_block content sched = Ok content.
Proof.
  intros zc sk fb content sched fuel Hfb Hc Hf. unfold load_bits. destruct zc; [reflexivity|].
  rewrite read_stream_ok; cbn [s_rest length]; auto.
  destruct sk; [|lia]. destruct content; [destruct Hc as [|[|]]; congruence|]. cbn [length]. lia.
Qed.

Lemma read_stream_empty : forall fuel sched, read_stream fuel (mk_stream [] sched) 0 [] = Fuel.
Proof. induction fuel as [|fuel IH]; intro sched; [reflexivity|]. cbn [read_stream s_rest length]. cbn. apply IH. Qed.

Lemma C49_empty_l : exists content sched, forall first_block fuel, load_bits fuel false true first_block content sched = Fuel.
Proof. exists [], []. intros fb fuel. apply read_stream_empty. Qed.

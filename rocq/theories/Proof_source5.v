(* Compressed files in one piece, and files that begin with a piece without data. *)
From Verif Require Import Common Model_rec Proof_rec Model_gzip Spec_gzip Proof_gzip Model_names Model_source Spec_source.

Section Gzip.
  Variable Z : Type.
  Variable z_init : Z.
  Variable z_step : Z -> byte -> list byte * znext Z.
  Notation decodes := (decodes Z z_step).
  Notation lively := (lively Z z_init z_step).

  Lemma members_lively ms tl o f : Forall (fun m => decodes z_init (fst m) (snd m) Z_fin /\ snd m <> []) ms ->
    lively z_init true tl [] o f -> lively z_init true (flat_map fst ms ++ tl) [] (flat_map snd ms ++ o) f.
  Proof.
    intros H L. induction H as [|[m d] ms [H1 H2] _ IH]; [exact L|]. cbn [flat_map fst snd] in *. rewrite <- !app_assoc. eapply L_member; eauto.
  Qed.
  Lemma one_piece content : (N.of_nat (length content) <= 512 * 1024)%N -> content <> [] -> pieces (mk_stream content []) [content].
  Proof.
    intros L N. eapply (P_cons _ content (mk_stream [] [])); auto; [|constructor; reflexivity]. unfold stream_read. cbn [s_rest s_sched tl].
    rewrite Nat.min_id. replace (N.to_nat _) with (length content) by lia. rewrite firstn_all, skipn_all. reflexivity.
  Qed.
  Lemma one_piece_lively content data f : (N.of_nat (length content) <= 512 * 1024)%N -> lively z_init true content [] data f ->
    (content = [] -> data = [] /\ f = Ends) -> lively_file Z z_init z_step content [] data f.
  Proof.
    intros L H E. destruct content as [|c content].
    - destruct (E eq_refl) as [-> ->]. exists []. split; [constructor; reflexivity|]. constructor.
    - exists [c :: content]. split; [apply one_piece; auto; discriminate|]. apply L_piece; [discriminate|exact H].
  Qed.

  Variable z_stops : Z -> bool.
  (* If the first read is empty, there are no records. *)
  Lemma first_empty D size fuel s : (0 < size)%N -> 2 <= fuel -> D [] true = Ok (None, [], None) ->
    (exists g', g_read Z z_init z_step z_stops (g_open Z z_init s) size = (Ok (0%N, []), g')) ->
    srecords (gstream Z) (gzip_rd z_init z_step z_stops) D fuel size (g_open Z z_init s) = ([], Ok tt).
  Proof.
    intros S F E [g' G]. destruct fuel as [|[|fuel]]; try lia. unfold srecords. cbn [sread_all sread_record sc_eof negb]. rewrite E. cbn [bind].
    unfold schunk_read. cbn [sc_eof sc_block sc_next sc_stream length]. replace (size <? N.of_nat 0)%N with false by lia. cbn [sfill]. replace (size - N.of_nat 0)%N with size by lia.
    destruct (N.eqb_spec size 0) as [X|X]; [lia|]. unfold gzip_rd. rewrite G. cbn. reflexivity.
  Qed.
End Gzip.

(* What readers deliver from data stores that are compressed or in some encoding: C79, C80. *)
From Verif Require Import Common Model_rec Spec_rec Model_gzip Spec_gzip Proof_gzip Props_gzip Model_utf8 Spec_utf8 Props_utf8 Model_names Model_source Spec_source
  Proof_rec_bin Proof_source Proof_source2 Proof_source3 Proof_source4 Proof_source5.

Definition binary {Z} (z_init : Z) z_step z_stops := store_records Z z_init z_step z_stops recordio_decode.

(* A store that is not compressed has the records of its bytes, however it is read. *)
Theorem C79_plain : forall Z (z_init : Z) z_step z_stops comp content sched seekable zero_copy size fuel, comp = Co_none \/ comp = Co_infer ->
  (0 < size)%N -> length content + 3 <= fuel ->
  binary z_init z_step z_stops fuel size (mk_dstore comp content sched seekable zero_copy) = whole recordio_decode content.
Proof.
  intros. destruct (stable_tame _ _ _ recordio_stable). eapply plain_store; eauto; [apply rio_hints|apply rio_steady].
Qed.
Print Assumptions C79_plain.

(* A gzip store has the records of what it decompresses to, if every piece in which its bytes arrive carries data.  If it is truncated or
   corrupt, they are followed by an error. *)
Theorem C79_gzip_partial : forall Z (z_init : Z) z_step z_stops, eager Z z_step z_stops -> checked Z z_step ->
  forall content sched data f seekable zero_copy size fuel, lively_file Z z_init z_step content sched data f ->
  (0 < size < 2 ^ 32)%N -> (N.of_nat (length data) < 2 ^ 31)%N -> length data + 3 <= fuel ->
  delivered f (binary z_init z_step z_stops fuel size (mk_dstore Co_gzip content sched seekable zero_copy)) (whole recordio_decode data).
Proof.
  intros Z z_init z_step z_stops He Hc content sched data f sk zc size fuel L S0 S1 FU. destruct (stable_tame _ _ _ recordio_stable) as [T F].
  apply (gzip_store Z z_init z_step z_stops He Hc recordio_decode (2 ^ 30)); auto; [apply rio_hints|apply rio_steady|reflexivity|].
  change (2 ^ 31)%N with 2147483648%N in S1. change (2 ^ 32)%N with 4294967296%N. lia.
Qed.
Print Assumptions C79_gzip_partial.

(* Files for which this is so: at most 512 KiB that arrive at once, a sequence of members none of which is empty, and then the end ... *)
Theorem C79_complete_file : forall Z (z_init : Z) z_step ms, (N.of_nat (length (flat_map fst ms)) <= 512 * 1024)%N ->
  Forall (fun m => decodes Z z_step z_init (fst m) (snd m) Z_fin /\ snd m <> []) ms ->
  lively_file Z z_init z_step (flat_map fst ms) [] (flat_map snd ms) Ends.
Proof.
  intros Z z_init z_step ms L H. apply one_piece_lively; [exact L| |].
  - rewrite <- (app_nil_r (flat_map fst ms)), <- (app_nil_r (flat_map snd ms)). apply members_lively; [exact H|constructor].
  - intros E. destruct H as [|[m d] ms [D _] _]; [auto|]. cbn in *. apply app_eq_nil in E. destruct E as [-> _]. inversion D.
Qed.
Print Assumptions C79_complete_file.
(* ... or the beginning of another member that yields data ... *)
Theorem C79_truncated_file : forall Z (z_init : Z) z_step ms m o s, (N.of_nat (length (flat_map fst ms ++ m)) <= 512 * 1024)%N ->
  Forall (fun m => decodes Z z_step z_init (fst m) (snd m) Z_fin /\ snd m <> []) ms -> decodes Z z_step z_init m o (Z_go s) -> o <> [] ->
  lively_file Z z_init z_step (flat_map fst ms ++ m) [] (flat_map snd ms ++ o) (Fails (eq Inflate_err)).
Proof.
  intros Z z_init z_step ms m o s L H D No. assert (Nm : m <> []) by (intros ->; inversion D; subst; congruence). apply one_piece_lively; [exact L| |].
  - apply members_lively; [exact H|]. rewrite <- (app_nil_r o). eapply L_part; eauto. constructor.
  - intros E. apply app_eq_nil in E. destruct E. contradiction.
Qed.
Print Assumptions C79_truncated_file.
(* ... or one that turns out to be corrupt. *)
Theorem C79_corrupt_file : forall Z (z_init : Z) z_step ms m o rest, (N.of_nat (length (flat_map fst ms ++ m ++ rest)) <= 512 * 1024)%N ->
  Forall (fun m => decodes Z z_step z_init (fst m) (snd m) Z_fin /\ snd m <> []) ms -> decodes Z z_step z_init m o Z_bad ->
  lively_file Z z_init z_step (flat_map fst ms ++ m ++ rest) [] (flat_map snd ms ++ o) (Fails (eq Inflate_err)).
Proof.
  intros Z z_init z_step ms m o rest L H D. apply one_piece_lively; [exact L| |].
  - apply members_lively; [exact H|]. apply L_corrupt. exact D.
  - intros E. apply app_eq_nil in E. destruct E as [_ E]. apply app_eq_nil in E. destruct E as [-> _]. inversion D.
Qed.
Print Assumptions C79_corrupt_file.

(* A toy gzip file with one RecordIO record. *)
Definition toy_gz (data : list byte) : list byte := (1 :: flat_map (fun b => [2; b]) data ++ [3])%N.
Lemma toy_gz_decodes data : decodes nat toy 0 (toy_gz data) data Z_fin.
Proof.
  apply (D_more _ _ 0 1%N [] 1 _ data); [reflexivity|]. induction data as [|b data IH]; [apply D_last; [reflexivity|discriminate]|].
  cbn [flat_map app]. apply (D_more _ _ 1 2%N [] 2 _ (b :: data)); [reflexivity|]. apply (D_more _ _ 2 b [b] 1 _ data); [reflexivity|exact IH].
Qed.
Lemma toy_eager : eager nat toy toy_stops.
Proof. intros s c. discriminate. Qed.
Definition one_record : list byte := rio_encode1 0 [65; 66; 67; 68]%N [].
Example C79_case :
  eager nat toy toy_stops /\ checked nat toy /\ lively_file nat 0 toy (toy_gz one_record ++ toy_gz one_record) [] (one_record ++ one_record) Ends /\
  lively_file nat 0 toy (toy_gz one_record ++ [1; 2; 7; 3; 9])%N [] (one_record ++ [7])%N (Fails (eq Inflate_err)) /\
  whole recordio_decode (one_record ++ one_record) = ([mk_rec [65; 66; 67; 68] 0; mk_rec [65; 66; 67; 68] 0]%N, Ok tt) /\
  binary 0 toy toy_stops 99 7 (mk_dstore Co_gzip (toy_gz one_record ++ toy_gz one_record) [] false false)
    = ([mk_rec [65; 66; 67; 68] 0; mk_rec [65; 66; 67; 68] 0]%N, Ok tt) /\
  binary 0 toy toy_stops 99 12 (mk_dstore Co_gzip (toy_gz one_record ++ [1; 2; 7; 3; 9])%N [] false false)
    = ([mk_rec [65; 66; 67; 68] 0]%N, Throw Inflate_err) /\
  binary 0 toy toy_stops 99 7 (mk_dstore Co_none (one_record ++ one_record) [3; 1] true true)
    = ([mk_rec [65; 66; 67; 68] 0; mk_rec [65; 66; 67; 68] 0]%N, Ok tt).
Proof.
  split; [exact toy_eager|]. split; [exact toy_checksummed|]. split; [|split; [|split; [|split; [|split]]]].
  - pose proof (C79_complete_file nat 0 toy [(toy_gz one_record, one_record); (toy_gz one_record, one_record)]) as H. cbn [flat_map fst snd] in H.
    rewrite !app_nil_r in H. apply H; [vm_compute; discriminate|]. repeat (constructor; [split; [apply toy_gz_decodes|discriminate]|]). constructor.
  - pose proof (C79_corrupt_file nat 0 toy [(toy_gz one_record, one_record); ([1; 2; 7; 3], [7])]%N [9]%N [] []) as H. cbn [flat_map fst snd] in H.
    rewrite !app_nil_r, <- !app_assoc in H. apply H; [vm_compute; discriminate| |apply D_last; [reflexivity|discriminate]].
    constructor; [split; [apply toy_gz_decodes|discriminate]|]. constructor; [split; [exact (toy_gz_decodes [7%N])|discriminate]|]. constructor.
  - vm_compute. reflexivity.
  - vm_compute. reflexivity.
  - vm_compute. reflexivity.
  - vm_compute. reflexivity.
Qed.

(* Stores with other compressions are refused. *)
Theorem C79_unsupported : forall Z (z_init : Z) z_step z_stops comp content sched seekable zero_copy size fuel, comp = Co_bzip2 \/ comp = Co_zip ->
  binary z_init z_step z_stops fuel size (mk_dstore comp content sched seekable zero_copy) = ([], Throw Not_supported).
Proof. intros. destruct H as [-> | ->]; reflexivity. Qed.
Print Assumptions C79_unsupported.
Example C79_unsupported_case : binary 0 toy toy_stops 99 7 (mk_dstore Co_zip one_record [] true true) = ([], Throw Not_supported).
Proof. reflexivity. Qed.

(* But in general records are lost.  A file that begins with an empty member has no records, whatever follows ... *)
Theorem C79_empty_member_refuted : forall Z (z_init : Z) z_step z_stops m rest seekable zero_copy size fuel, (0 < size < 2 ^ 32)%N -> 2 <= fuel ->
  decodes Z z_step z_init m [] Z_fin -> (N.of_nat (length (m ++ rest)) <= 512 * 1024)%N ->
  binary z_init z_step z_stops fuel size (mk_dstore Co_gzip (m ++ rest) [] seekable zero_copy) = ([], Ok tt).
Proof.
  intros. unfold binary. cbn [store_records d_comp d_bytes d_sched]. apply first_empty; auto; [lia|]. apply empty_member_read; auto.
Qed.
Print Assumptions C79_empty_member_refuted.
(* ... and so has every file if the first read of the file returns no more than the header. *)
Theorem C79_header_refuted : forall Z (z_init : Z) z_step z_stops h rest s seekable zero_copy size fuel, (0 < size < 2 ^ 32)%N -> 2 <= fuel ->
  h <> [] -> decodes Z z_step z_init h [] (Z_go s) -> (N.of_nat (length h) <= 512 * 1024)%N ->
  exists sched, binary z_init z_step z_stops fuel size (mk_dstore Co_gzip (h ++ rest) sched seekable zero_copy) = ([], Ok tt).
Proof.
  intros. exists [length h]. unfold binary. cbn [store_records d_comp d_bytes d_sched]. apply first_empty; auto; [lia|]. eapply silent_read; eauto.
Qed.
Print Assumptions C79_header_refuted.
Example C79_refuted_case :
  decodes nat toy 0 (toy_gz []) [] Z_fin /\ compressed nat 0 toy (toy_gz [] ++ toy_gz one_record) one_record /\
  whole recordio_decode one_record = ([mk_rec [65; 66; 67; 68] 0]%N, Ok tt) /\
  binary 0 toy toy_stops 99 7 (mk_dstore Co_gzip (toy_gz [] ++ toy_gz one_record) [] false false) = ([], Ok tt) /\
  decodes nat toy 0 [1]%N [] (Z_go 1).
Proof.
  split; [apply toy_gz_decodes|]. split.
  - pose proof (C_member _ _ _ _ _ _ _ (toy_gz_decodes []) (C_member _ _ _ _ _ _ _ (toy_gz_decodes one_record) (C_end nat 0 toy))) as H. rewrite !app_nil_r in H. exact H.
  - split; [vm_compute; reflexivity|]. split; [vm_compute; reflexivity|]. apply (D_more _ _ 0 1%N [] 1 _ []); [reflexivity|constructor].
Qed.

(* ---------------- C80 ---------------- *)
(* Text: the records are those of the content in UTF-8.  Text that ends within a character or becomes invalid is reported after some of the
   records before that place. *)
Theorem C80_plain : forall Z (z_init : Z) z_step z_stops St iconv_open cv default, converter St cv ->
  forall D comp content sched seekable zero_copy given out t size fuel, comp = Co_none \/ comp = Co_infer -> given <> Some E_latin1 ->
  in_utf8 St iconv_open cv (effective given content) content out t ->
  seekable = true \/ given <> None \/ effective given content = E_utf8 \/ 4 < length content ->
  text_format D out -> (0 < size)%N -> length out + 3 <= fuel ->
  delivered (outcome Ends t) (text_records Z z_init z_step z_stops St iconv_open cv default D fuel size given (mk_dstore comp content sched seekable zero_copy)) (whole D out).
Proof. intros. apply plain_text; auto. Qed.
Print Assumptions C80_plain.

Theorem C80_gzip_partial : forall Z (z_init : Z) z_step z_stops, eager Z z_step z_stops -> checked Z z_step ->
  forall St iconv_open cv default, converter St cv ->
  forall D content sched data f seekable zero_copy given out t size fuel, lively_file Z z_init z_step content sched data f -> given <> Some E_latin1 ->
  in_utf8 St iconv_open cv (effective given data) data out t -> given <> None \/ effective given data = E_utf8 \/ 4 < length data ->
  text_format D out -> (0 < size < 2 ^ 32)%N -> (N.of_nat (length out) < 2 ^ 31)%N -> length data + length out + 3 <= fuel ->
  delivered (outcome f t) (text_records Z z_init z_step z_stops St iconv_open cv default D fuel size given (mk_dstore Co_gzip content sched seekable zero_copy)) (whole D out).
Proof.
  intros. apply gzip_text with (data := data); auto. change (2 ^ 31)%N with 2147483648%N in *. change (2 ^ 32)%N with 4294967296%N. lia.
Qed.
Print Assumptions C80_gzip_partial.

Theorem C80_unsupported : forall Z (z_init : Z) z_step z_stops St iconv_open cv default D comp content sched seekable zero_copy given size fuel, comp = Co_bzip2 \/ comp = Co_zip ->
  text_records Z z_init z_step z_stops St iconv_open cv default D fuel size given (mk_dstore comp content sched seekable zero_copy) = ([], Throw Not_supported).
Proof. intros. destruct H as [-> | ->]; reflexivity. Qed.
Print Assumptions C80_unsupported.

(* UTF-16 with a byte order mark: "A", LF, "é"; compressed and not; and with half a character at the end. *)
Definition wide2 : list byte := [255; 254; 65; 0; 10; 0; 233; 0]%N.
Definition narrow2 : list byte := [239; 187; 191; 65; 10; 195; 169]%N.
Lemma wide2_ok : in_utf8 nat toy_open toy_cv E_utf16_le wide2 narrow2 T_complete.
Proof.
  exists 0. split; [reflexivity|]. unfold wide2.
  eapply (V_unit _ _ _ _ _ 2 [239; 187; 191]%N 0 [65; 10; 195; 169]%N); [discriminate|reflexivity|]. cbn [skipn].
  eapply (V_unit _ _ _ _ _ 2 [65]%N 0 [10; 195; 169]%N); [discriminate|reflexivity|]. cbn [skipn].
  eapply (V_unit _ _ _ _ _ 2 [10]%N 0 [195; 169]%N); [discriminate|reflexivity|]. cbn [skipn].
  eapply (V_unit _ _ _ _ _ 2 [195; 169]%N 0 []); [discriminate|reflexivity|]. constructor.
Qed.
Lemma wide2_bad : in_utf8 nat toy_open toy_cv E_utf16_le (wide2 ++ [66])%N narrow2 T_incomplete.
Proof.
  exists 0. split; [reflexivity|]. unfold wide2.
  eapply (V_unit _ _ _ _ _ 2 [239; 187; 191]%N 0 [65; 10; 195; 169]%N); [discriminate|reflexivity|]. cbn [skipn].
  eapply (V_unit _ _ _ _ _ 2 [65]%N 0 [10; 195; 169]%N); [discriminate|reflexivity|]. cbn [skipn].
  eapply (V_unit _ _ _ _ _ 2 [10]%N 0 [195; 169]%N); [discriminate|reflexivity|]. cbn [skipn].
  eapply (V_unit _ _ _ _ _ 2 [195; 169]%N 0 []); [discriminate|reflexivity|]. constructor; [discriminate|reflexivity].
Qed.
Lemma narrow2_format : text_format (text_line_decode false) narrow2.
Proof.
  constructor; [split|].
  - intros ys E. injection E as <-. intros (a & b & E). repeat (destruct a as [|? a]; [discriminate E|]; injection E as _ E). destruct a; discriminate E.
  - intros N. exfalso. apply N. eexists. reflexivity.
  - right. intros (a & b & E). repeat (destruct a as [|? a]; [discriminate E|]; injection E as _ E). destruct a; discriminate E.
Qed.
Definition toy_lines := text_records nat 0 toy toy_stops nat toy_open toy_cv 7 (text_line_decode false) 99.
Example C80_case :
  converter nat toy_cv /\ effective None wide2 = E_utf16_le /\ in_utf8 nat toy_open toy_cv E_utf16_le wide2 narrow2 T_complete /\
  in_utf8 nat toy_open toy_cv E_utf16_le (wide2 ++ [66])%N narrow2 T_incomplete /\ text_format (text_line_decode false) narrow2 /\
  lively_file nat 0 toy (toy_gz wide2) [] wide2 Ends /\
  whole (text_line_decode false) narrow2 = ([mk_rec [65] 0; mk_rec [195; 169] 0]%N, Ok tt) /\
  toy_lines 4%N None (mk_dstore Co_none wide2 [1; 2] false false) = ([mk_rec [65] 0; mk_rec [195; 169] 0]%N, Ok tt) /\
  toy_lines 4%N None (mk_dstore Co_gzip (toy_gz wide2) [] false false) = ([mk_rec [65] 0; mk_rec [195; 169] 0]%N, Ok tt) /\
  toy_lines 4%N None (mk_dstore Co_none (wide2 ++ [66])%N [] true false) = ([mk_rec [65] 0]%N, Throw Stream_err) /\
  toy_lines 4%N None (mk_dstore Co_zip wide2 [] true false) = ([], Throw Not_supported).
Proof.
  split; [exact toy_converter|]. split; [reflexivity|]. split; [exact wide2_ok|]. split; [exact wide2_bad|]. split; [exact narrow2_format|].
  split.
  - pose proof (C79_complete_file nat 0 toy [(toy_gz wide2, wide2)]) as H. cbn [flat_map fst snd] in H.
    rewrite !app_nil_r in H. apply H; [vm_compute; discriminate|]. constructor; [split; [apply toy_gz_decodes|discriminate]|]. constructor.
  - repeat split; vm_compute; reflexivity.
Qed.

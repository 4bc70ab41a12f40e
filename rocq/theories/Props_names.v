(* C53, C54, C55, C70, C71: names, and listings of files and objects. *)
From Verif Require Import Common Model_names Spec_names Proof_names Proof_names2 Proof_names3 Proof_names4.
From Coq Require Import Permutation String Ascii.
Import List.

(* Strings written as literals. *)
Fixpoint lit (s : string) : str :=
  match s with EmptyString => [] | String c r => N_of_ascii c :: lit r end.

(* ---------------- C53 ---------------- *)

(* C53. The order of names is a total preorder, whatever the signedness of char. *)
Theorem C53_total_preorder : forall sg a b c, c_string a -> c_string b -> c_string c ->
  strnatcmp sg a a = Eq /\
  strnatcmp sg b a = CompOpp (strnatcmp sg a b) /\
  (strnatcmp sg a b <> Gt -> strnatcmp sg b c <> Gt -> strnatcmp sg a c <> Gt).
Proof.
  intros sg a b c A B C. split; [apply C53_refl_l; trivial|]. split; [apply C53_opp_l; trivial|apply C53_trans_l; trivial].
Qed.
Print Assumptions C53_total_preorder.

Ltac c_str_tac := repeat constructor; vm_compute; reflexivity.

Example C53_total_preorder_case :
  c_string (lit "part-9 b") /\ c_string (lit "part-10a") /\ c_string (lit "part-10 b") /\
  strnatcmp true (lit "part-9 b") (lit "part-10a") = Lt /\ strnatcmp true (lit "part-10a") (lit "part-10 b") = Lt.
Proof. split; [c_str_tac|]. split; [c_str_tac|]. split; [c_str_tac|]. split; vm_compute; reflexivity. Qed.

(* C53. Names that differ first in a number without needless zeros are ordered by the numbers. *)
Theorem C53_numbers_partial : forall sg p x s y t, c_string (p ++ x ++ s) -> c_string (p ++ y ++ t) ->
  number x -> number y -> ~ ends_with_digit p -> ~ starts_with_digit s -> ~ starts_with_digit t ->
  (value x < value y)%N ->
  strnatcmp sg (p ++ x ++ s) (p ++ y ++ t) = Lt /\ strnatcmp sg (p ++ y ++ t) (p ++ x ++ s) = Gt.
Proof.
  intros sg p x s y t A B X Y P S T V. pose proof (C53_number_l sg p x s y t A B X Y P S T V) as H. split; [exact H|].
  rewrite (C53_opp_l sg (p ++ x ++ s)) by trivial. rewrite H. reflexivity.
Qed.
Print Assumptions C53_numbers_partial.

Lemma lit_number : forall x, x <> [] -> forallb is_digit x = true -> (hd 0%N x =? 48)%N = false -> number x.
Proof.
  intros x N F H. split; [exact N|]. split.
  - apply Forall_forall. intros c C. rewrite forallb_forall in F. apply is_digit_spec. auto.
  - intros E. apply N.eqb_neq in H. congruence.
Qed.

Example C53_numbers_case : number (lit "9") /\ number (lit "10") /\ (value (lit "9") < value (lit "10"))%N /\
  ~ ends_with_digit (lit "file") /\ ~ starts_with_digit (lit ".csv") /\
  strnatcmp false (lit "file9.csv") (lit "file10.csv") = Lt.
Proof.
  split; [apply lit_number; [discriminate|reflexivity..]|]. split; [apply lit_number; [discriminate|reflexivity..]|].
  split; [reflexivity|]. split.
  - intros [r [c [E D]]]. change (lit "file") with (lit "fil" ++ [101%N]) in E. apply app_inj_tail in E. destruct E as [_ <-].
    unfold digit in D. lia.
  - split; [|vm_compute; reflexivity]. intros [c [r [E D]]]. injection E as <- _. unfold digit in D. lia.
Qed.

(* C53. With a leading zero the order is not that of the numbers. *)
Theorem C53_leading_zero_refuted : exists x y, Forall digit x /\ Forall digit y /\ (value x < value y)%N /\
  forall sg, strnatcmp sg x y = Gt.
Proof.
  exists (lit "9"), (lit "010"). split; [repeat constructor; vm_compute; discriminate|]. split; [repeat constructor; vm_compute; discriminate|].
  split; [reflexivity|]. intros [|]; reflexivity.
Qed.
Print Assumptions C53_leading_zero_refuted.

(* C53. Otherwise the first different characters decide, also if one of the names ends there. *)
Theorem C53_first_difference : forall sg p x s y t, c_string (p ++ x :: s) -> c_string (p ++ y :: t) ->
  ~ white x -> ~ white y -> x <> y -> ~ (digit x /\ digit y) -> ~ ends_with_digit p \/ (~ digit x /\ ~ digit y) ->
  strnatcmp sg (p ++ x :: s) (p ++ y :: t) = Z.compare (char_value sg x) (char_value sg y).
Proof. exact C53_difference_l. Qed.
Print Assumptions C53_first_difference.

Theorem C53_prefix : forall sg p y t, c_string (p ++ y :: t) -> ~ white y -> ~ (ends_with_digit p /\ digit y) ->
  strnatcmp sg p (p ++ y :: t) = Z.compare 0 (char_value sg y).
Proof. exact C53_prefix_l. Qed.
Print Assumptions C53_prefix.

Example C53_prefix_case : strnatcmp true (lit "a1") (lit "a1x") = Lt /\ strnatcmp true (lit "a") (lit "a" ++ [195%N]) = Gt /\
  strnatcmp false (lit "a") (lit "a" ++ [195%N]) = Lt /\ strnatcmp true (lit "a1b") (lit "a1-") = Gt.
Proof. repeat split; vm_compute; reflexivity. Qed.

(* C53. Only names with the same words tie: they differ at most in white space, and no white space parts digits in one only. *)
Theorem C53_ties : forall sg a b, c_string a -> c_string b ->
  (strnatcmp sg a b = Eq <-> words a = words b) /\
  (strnatcmp sg a b = Eq -> filter (fun c => negb (is_space c)) a = filter (fun c => negb (is_space c)) b).
Proof.
  intros sg a b A B. split; [apply C53_eq_l; trivial|]. intros H. apply C53_eq_l in H; trivial. rewrite <- !words_spell. congruence.
Qed.
Print Assumptions C53_ties.

Example C53_ties_case : strnatcmp true (lit "a b 1") (lit "ab1") = Eq /\ words (lit "a b 1") = words (lit "ab1") /\
  words (lit "1 2") <> words (lit "12") /\ strnatcmp true (lit "1 2") (lit "12") = Lt.
Proof. split; [reflexivity|]. split; [reflexivity|]. split; [discriminate|reflexivity]. Qed.

(* ---------------- C54 ---------------- *)

(* C54. A URI with a bucket and a key is split into them, any other string is refused. *)
Theorem C54_split : forall uri,
  (exists b k, b <> [] /\ ~ In slash b /\ k <> [] /\ uri = s3_prefix ++ b ++ [slash] ++ k /\ split_bucket_key uri = Ok (b, k)) \/
  ((forall b k, b <> [] -> ~ In slash b -> k <> [] -> uri <> s3_prefix ++ b ++ [slash] ++ k) /\
   split_bucket_key uri = Throw Invalid_argument).
Proof. exact C54_key_l. Qed.
Print Assumptions C54_split.

(* C54. The parts are unique: no URI has two buckets or two keys. *)
Theorem C54_unique : forall b k b' k', ~ In slash b -> ~ In slash b' ->
  s3_prefix ++ b ++ [slash] ++ k = s3_prefix ++ b' ++ [slash] ++ k' -> b = b' /\ k = k'.
Proof.
  intros b k b' k' N N' E. apply app_inv_head in E. pose proof (find_first_app slash b k N) as F. pose proof (find_first_app slash b' k' N') as F'.
  cbn [app] in E. rewrite E in F. rewrite F in F'. injection F' as L.
  clear F N N'. revert b' L E. induction b as [|c b IH]; intros [|c' b'] L E; try discriminate.
  - injection E as ->. auto.
  - injection E as -> E. injection L as L. destruct (IH b' L E) as [-> ->]. auto.
Qed.
Print Assumptions C54_unique.

(* C54. For listings the key is a prefix, which may be missing. *)
Theorem C54_prefix : forall b k, b <> [] -> ~ In slash b ->
  split_bucket_prefix (s3_prefix ++ b) = Ok (b, []) /\ split_bucket_prefix (s3_prefix ++ b ++ [slash] ++ k) = Ok (b, k).
Proof. intros b k B N. split; [apply split_bucket; trivial|apply split_parts; trivial]. Qed.
Print Assumptions C54_prefix.

Example C54_case : split_bucket_key (lit "s3://bucket/a/b") = Ok (lit "bucket", lit "a/b") /\
  split_bucket_key (lit "s3://bucket/") = Throw Invalid_argument /\ split_bucket_key (lit "s3:///k") = Throw Invalid_argument /\
  split_bucket_key (lit "http://b/k") = Throw Invalid_argument /\ split_bucket_prefix (lit "s3://bucket") = Ok (lit "bucket", []).
Proof. repeat split. Qed.

(* ---------------- C55 ---------------- *)

(* C55. The compression is inferred from the suffix, exactly. *)
Theorem C55_infer : forall p,
  (infer_compression p = Co_gzip <-> ends_in dot_gz p) /\
  (infer_compression p = Co_bzip2 <-> ends_in dot_bz2 p) /\
  (infer_compression p = Co_zip <-> ends_in dot_zip p) /\
  (infer_compression p = Co_none <-> ~ ends_in dot_gz p /\ ~ ends_in dot_bz2 p /\ ~ ends_in dot_zip p).
Proof.
  intros p. destruct (C55_infer_l p) as [H1 [H2 [H3 H4]]]. split; [exact H1|]. split; [exact H2|]. split; [exact H3|].
  rewrite <- H1, <- H2, <- H3. split; [intros ->; repeat split; discriminate|].
  intros [N1 [N2 N3]]. destruct (infer_compression p); congruence.
Qed.
Print Assumptions C55_infer.

Example C55_case : ends_in dot_gz (lit "x.csv.gz") /\ infer_compression (lit "x.csv.gz") = Co_gzip /\
  infer_compression (lit "x.bz2") = Co_bzip2 /\ infer_compression (lit "x.zip") = Co_zip /\ infer_compression (lit ".zip") = Co_none /\
  infer_compression (lit "x.gzip") = Co_none.
Proof. split; [exists (lit "x.csv"); split; [discriminate|reflexivity]|]. repeat split. Qed.

(* C55. What a store made with an inferred compression delivers: a file ending in .gz is decompressed, one ending in .bz2 or .zip
   is refused, all others are delivered as they are; a compression given by the user is not overridden. *)
Theorem C55_open : forall p c s, make_file p c = Ok s \/ make_s3_object p c = Ok s ->
  (c = Co_infer -> (ends_in dot_gz p -> open_read s = Ok Gunzipped) /\
                   (ends_in dot_bz2 p \/ ends_in dot_zip p -> open_read s = Throw Not_supported) /\
                   (~ ends_in dot_gz p -> ~ ends_in dot_bz2 p -> ~ ends_in dot_zip p -> open_read s = Ok As_stored)) /\
  (c = Co_none -> open_read s = Ok As_stored) /\ (c = Co_gzip -> open_read s = Ok Gunzipped).
Proof.
  intros p c s H. assert (E : s = mk_store p (settle p c)).
  { destruct H as [H|H]; [unfold make_file in H; destruct (validate_file_path p)|unfold make_s3_object in H; destruct (validate_s3_object_uri p)];
      cbn [bind] in H; try discriminate; injection H as <-; reflexivity. }
  subst s. destruct (C55_infer p) as [H1 [H2 [H3 H4]]]. split; [|split; intros ->; reflexivity].
  intros ->. unfold open_read. cbn [st_compression settle]. split; [|split].
  - intros G. apply H1 in G. rewrite G. reflexivity.
  - intros [G|G]; [apply H2 in G|apply H3 in G]; rewrite G; reflexivity.
  - intros G1 G2 G3. rewrite (proj2 H4) by auto. reflexivity.
Qed.
Print Assumptions C55_open.

Example C55_open_case : make_file (lit "d/x.gz") Co_infer = Ok (mk_store (lit "d/x.gz") Co_gzip) /\
  make_s3_object (lit "s3://b/x.gz") Co_none = Ok (mk_store (lit "s3://b/x.gz") Co_none).
Proof. split; reflexivity. Qed.

(* ---------------- C70 ---------------- *)

(* C70. If the service lists some keys for each URI, on whatever pages, the result has exactly the wanted objects, in natural
   order. *)
Theorem C70_complete : forall sort sg fuel o sv uris ls,
  sorts sort -> Forall2 (listed sv fuel) uris ls ->
  Forall (Forall is_byte) (concat ls) -> Forall (pattern_ok o) (concat ls) ->
  (forall b, ~ In slash b -> ~ In (s3_prefix ++ b ++ [slash]) (concat ls)) ->
  exists l, list_s3_objects sort sg fuel o sv uris = Ok (map (store_of o) l) /\
            Permutation l (filter (wanted o) (concat ls)) /\ naturally_ordered sg (map c_str l).
Proof. exact C70_complete_l. Qed.
Print Assumptions C70_complete.

(* C70. A result is never partial: the service listed the keys of each URI to the end. *)
Theorem C70_sound : forall sort sg fuel o sv uris stores,
  sorts sort -> list_s3_objects sort sg fuel o sv uris = Ok stores ->
  exists ls l, Forall2 (listed sv fuel) uris ls /\ stores = map (store_of o) l /\
    (Forall (Forall is_byte) (concat ls) -> Permutation l (filter (wanted o) (concat ls)) /\ naturally_ordered sg (map c_str l)).
Proof. exact C70_sound_l. Qed.
Print Assumptions C70_sound.

(* C70. If no two of the objects tie, the result does not depend on the pages, on the order of keys and URIs or on the sort. *)
Theorem C70_same : forall sort1 sort2 sg fuel1 fuel2 o sv1 sv2 uris1 uris2 ls1 ls2 r1 r2,
  sorts sort1 -> sorts sort2 -> Forall2 (listed sv1 fuel1) uris1 ls1 -> Forall2 (listed sv2 fuel2) uris2 ls2 ->
  Forall c_string (concat ls1) -> Permutation (concat ls1) (concat ls2) ->
  (forall a b, In a (concat ls1) -> In b (concat ls1) -> words a = words b -> a = b) ->
  list_s3_objects sort1 sg fuel1 o sv1 uris1 = Ok r1 -> list_s3_objects sort2 sg fuel2 o sv2 uris2 = Ok r2 -> r1 = r2.
Proof. exact C70_same_l. Qed.
Print Assumptions C70_same.

(* A service with a bucket of three objects on two pages. *)
Definition a_service : service := fun bucket prefix token =>
  if str_eqb bucket (lit "bucket") then
    match prefix, token with
    | Some _, None => A_page [lit "d/10.gz"; lit "d/x"] (Some (lit "t"))
    | Some _, Some _ => A_page [lit "d/9.gz"] None
    | None, _ => A_page [] None
    end
  else A_error.
Definition no_x : options := mk_options None (Some (fun u => negb (last u 0 =? 120)%N)) Co_infer.

Example C70_case :
  let keys := [lit "s3://bucket/d/10.gz"; lit "s3://bucket/d/x"; lit "s3://bucket/d/9.gz"] in
  sorts (@isort str) /\ Forall2 (listed a_service 5) [lit "s3://bucket/d/"] [keys] /\
  list_s3_objects isort true 5 no_x a_service [lit "s3://bucket/d/"] =
    Ok [mk_store (lit "s3://bucket/d/9.gz") Co_gzip; mk_store (lit "s3://bucket/d/10.gz") Co_gzip] /\
  list_s3_objects isort true 5 no_x a_service [lit "s3://bucket/d/"; lit "s3://other"] = Throw System_err.
Proof.
  split; [apply isort_sorts|]. split.
  - constructor; [|constructor]. apply (Listed_prefix a_service 5 (lit "bucket") (lit "d/") 2 [lit "d/10.gz"; lit "d/x"; lit "d/9.gz"]).
    + discriminate. + vm_compute. intuition discriminate. + discriminate. + lia.
    + apply (Serves_more _ _ _ _ [lit "d/10.gz"; lit "d/x"] (lit "t") 1 [lit "d/9.gz"]); [reflexivity|]. apply Serves_last. reflexivity.
  - split; vm_compute; reflexivity.
Qed.

(* ---------------- C71 ---------------- *)

(* C71. A listing of files either fails, because of a path that cannot be examined or used, or it has exactly the wanted regular
   files under the given paths, each once; in each directory they come in natural order of the entries. *)
Theorem C71_listed_partial : forall (sort : (entry -> entry -> bool) -> list entry -> list entry) sg o roots,
  sorts sort -> Forall proper roots -> NoDup (map entry_name roots) ->
  exists files, Permutation files (flat_map regular_files roots) /\ tree_ordered sg files /\
  ((~ In [] (map entry_name roots) /\ forallb readable roots = true /\
    Forall (fun f => pattern_ok o (path_of f) /\ (wanted o (path_of f) = true -> presentable (path_of f))) files /\
    list_files sort sg o roots = Ok (map (fun f => store_of o (path_of f)) (filter (fun f => wanted o (path_of f)) files))) \/
   ((In [] (map entry_name roots) \/ forallb readable roots = false \/
     ~ Forall (fun f => pattern_ok o (path_of f) /\ (wanted o (path_of f) = true -> presentable (path_of f))) files) /\
    exists e, list_files sort sg o roots = Throw e)).
Proof.
  intros sort sg o roots S P N. destruct (C71_l sort sg o roots S P N) as [cs [H1 [H2 H3]]]. exists cs. split; [exact H1|]. split; [exact H2|].
  assert (Q : forall c, fine_path o (path_of c) <-> (pattern_ok o (path_of c) /\ (wanted o (path_of c) = true -> presentable (path_of c)))).
  { intros c. unfold fine_path, presentable, ends_like_directory, slash. tauto. }
  assert (QF : Forall (fun c => fine_path o (path_of c)) cs <->
     Forall (fun f => pattern_ok o (path_of f) /\ (wanted o (path_of f) = true -> presentable (path_of f))) cs).
  { split; apply Forall_impl; intros c; apply Q. }
  rewrite <- QF. exact H3.
Qed.
Print Assumptions C71_listed_partial.

(* C71. The path of a file is the given path and the names on the way, with one slash between any two. *)
Theorem C71_paths : forall root n names, root <> [] -> Forall (fun n => n <> [] /\ ~ In slash n) (n :: names) ->
  path_of (root :: n :: names) =
    (if (last root 0 =? slash)%N then root else root ++ [slash]) ++ n ++ flat_map (fun m => [slash] ++ m) names.
Proof. exact path_text. Qed.
Print Assumptions C71_paths.
Example C71_paths_case : path_of [lit "data/"; lit "f2"; lit "b.gz"] = lit "data/f2/b.gz" /\ path_of [lit "data"; lit "f2"; lit "b.gz"] = lit "data/f2/b.gz".
Proof. split; reflexivity. Qed.

Definition a_tree : entry :=
  E_dir (lit "data") [E_file (lit "f10") Regular; E_dir (lit "f2") [E_file (lit "b.gz") Regular; E_file (lit "sock") Special];
                      E_file (lit "f1") Regular; E_dangling (lit "e")].
Definition everything : options := mk_options None None Co_infer.

Example C71_case : proper a_tree /\ readable a_tree = true /\
  list_files isort true everything [a_tree; E_file (lit "a") Regular] =
  Ok [mk_store (lit "a") Co_none; mk_store (lit "data/f1") Co_none; mk_store (lit "data/f2/b.gz") Co_gzip; mk_store (lit "data/f10") Co_none].
Proof.
  split; [|split; vm_compute; reflexivity].
  repeat first [apply proper_dir; split; [c_str_tac|split; [vm_compute; repeat constructor; cbn; intuition discriminate|]]
               |constructor|split; [c_str_tac|exact I]].
Qed.

(* C71. One file whose name ends in a backslash makes the whole listing fail. *)
Theorem C71_backslash_refuted : exists roots, Forall (fun e => proper e /\ readable e = true) roots /\ NoDup (map entry_name roots) /\
  forall sg, list_files isort sg everything roots = Throw Invalid_argument.
Proof.
  exists [E_dir (lit "d") [E_file (lit "a") Regular; E_file (lit "b" ++ [92%N]) Regular]]. split.
  - constructor; [|constructor]. split; [|reflexivity]. apply proper_dir. split; [c_str_tac|]. split; [|repeat constructor; vm_compute; reflexivity].
    vm_compute. repeat constructor; cbn; intuition discriminate.
  - split; [repeat constructor; cbn; tauto|]. intros [|]; vm_compute; reflexivity.
Qed.
Print Assumptions C71_backslash_refuted.

(* C71. Block devices are not listed, although the code sets out to list them. *)
Theorem C71_block_refuted : forall sg, list_files isort sg everything [E_file (lit "/dev/sda") Block] = Ok [].
Proof. intros [|]; vm_compute; reflexivity. Qed.
Print Assumptions C71_block_refuted.

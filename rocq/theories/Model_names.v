(* Names of files and S3 objects: natural order, URIs, suffixes; listing files and objects. *)
From Verif Require Import Common.

(* A std::string or the characters before the terminating zero of a C string. *)
Definition str := list byte.

(* ---------------- third-party/natsort ---------------- *)

(* third-party/natsort/strnatcmp.c:41-52 nat_isdigit, nat_isspace in the "C" locale. *)
Definition is_digit (c : byte) : bool := (48 <=? c)%N && (c <=? 57)%N.
Definition is_space (c : byte) : bool := ((9 <=? c)%N && (c <=? 13)%N) || (c =? 32)%N.

(* The value of a char; [sg] tells whether char is signed on the platform. *)
Definition char_value (sg : bool) (c : byte) : Z :=
  if sg && (128 <=? c)%N then (Z.of_N c - 256)%Z else Z.of_N c.

(* The character a pointer into a C string points to: the list is what is left of it, the terminator is zero. *)
Definition peek_char (s : str) : byte := match s with [] => 0%N | c :: _ => c end.

(* third-party/natsort/strnatcmp.c:62-89 compare_right.  The three results -1, 0, +1 are Lt, Eq, Gt.  The test of line 84 is
   never met by digits and is left out. *)
Fixpoint compare_right (sg : bool) (a b : str) (bias : comparison) : comparison :=
  match a, b with
  | ca :: a', cb :: b' =>
      if negb (is_digit ca) && negb (is_digit cb) then bias
      else if negb (is_digit ca) then Lt
      else if negb (is_digit cb) then Gt
      else
        let bias' :=
          if (char_value sg ca <? char_value sg cb)%Z then (match bias with Eq => Lt | _ => bias end)
          else if (char_value sg cb <? char_value sg ca)%Z then (match bias with Eq => Gt | _ => bias end)
          else bias in
        compare_right sg a' b' bias'
  | _, _ =>
      if negb (is_digit (peek_char a)) && negb (is_digit (peek_char b)) then bias
      else if negb (is_digit (peek_char a)) then Lt
      else Gt
  end.

(* third-party/natsort/strnatcmp.c:92-111 compare_left *)
Fixpoint compare_left (sg : bool) (a b : str) : comparison :=
  match a, b with
  | ca :: a', cb :: b' =>
      if negb (is_digit ca) && negb (is_digit cb) then Eq
      else if negb (is_digit ca) then Lt
      else if negb (is_digit cb) then Gt
      else if (char_value sg ca <? char_value sg cb)%Z then Lt
      else if (char_value sg cb <? char_value sg ca)%Z then Gt
      else compare_left sg a' b'
  | _, _ =>
      if negb (is_digit (peek_char a)) && negb (is_digit (peek_char b)) then Eq
      else if negb (is_digit (peek_char a)) then Lt
      else Gt
  end.

(* third-party/natsort/strnatcmp.c:129-130: skip the spaces of the second string. *)
Fixpoint skip_spaces (s : str) : str :=
  match s with
  | c :: r => if is_space c then skip_spaces r else s
  | [] => []
  end.

(* third-party/natsort/strnatcmp.c:133-143: the comparison of two runs of digits, zero if one is not a run of digits. *)
Definition compare_runs (sg : bool) (a b : str) : comparison :=
  let ca := peek_char a in
  let cb := peek_char b in
  if is_digit ca && is_digit cb then
    if (ca =? 48)%N || (cb =? 48)%N then compare_left sg a b else compare_right sg a b Eq
  else Eq.

(* third-party/natsort/strnatcmp.c:114-164 strnatcmp0 with fold_case = 0, and 167-170.  The strings contain no zero. *)
Fixpoint strnatcmp (sg : bool) (a b : str) {struct a} : comparison :=
  match a with
  | [] =>
      let cb := peek_char (skip_spaces b) in
      if (0 <? char_value sg cb)%Z then Lt else if (char_value sg cb <? 0)%Z then Gt else Eq
  | ca :: a' =>
      if is_space ca then strnatcmp sg a' b
      else
        let b := skip_spaces b in
        match compare_runs sg a b with
        | Eq =>
            let cb := peek_char b in
            if (char_value sg ca <? char_value sg cb)%Z then Lt
            else if (char_value sg cb <? char_value sg ca)%Z then Gt
            else strnatcmp sg a' (tl b)
        | r => r
        end
  end.

(* std::string::c_str as a C string: the characters before the first zero. *)
Fixpoint c_str (s : str) : str :=
  match s with
  | c :: r => if (c =? 0)%N then [] else c :: c_str r
  | [] => []
  end.

(* ---------------- S3 URIs ---------------- *)

(* The five characters of "s3://". *)
Definition s3_scheme : str := [115; 51; 58; 47; 47]%N.
Definition slash : byte := 47%N.

Fixpoint str_eqb (a b : str) : bool :=
  match a, b with
  | [], [] => true
  | x :: a', y :: b' => (x =? y)%N && str_eqb a' b'
  | _, _ => false
  end.

(* std::string_view::find_first_of with one character; None is npos. *)
Fixpoint find_first (c : byte) (s : str) : option nat :=
  match s with
  | [] => None
  | x :: r => if (x =? c)%N then Some 0 else option_map S (find_first c r)
  end.

(* detail/s3_utils.cc:24-50 split_s3_uri_to_bucket_and_prefix *)
Definition split_bucket_prefix (uri : str) : res (str * str) :=
  match uri with
  | [] => Throw Invalid_argument
  | _ =>
      if (length uri <? 5) || negb (str_eqb (firstn 5 uri) s3_scheme) then Throw Invalid_argument
      else
        let uri := skipn 5 uri in
        match uri with
        | [] => Throw Invalid_argument
        | _ =>
            match find_first slash uri with
            | None => Ok (uri, [])
            | Some 0 => Throw Invalid_argument
            | Some pos => Ok (firstn pos uri, skipn (pos + 1) uri)
            end
        end
  end.

(* detail/s3_utils.cc:52-61 split_s3_uri_to_bucket_and_key, and 63-66 validate_s3_object_uri *)
Definition split_bucket_key (uri : str) : res (str * str) :=
  let* (b, p) := split_bucket_prefix uri in
  match p with
  | [] => Throw Invalid_argument
  | _ => Ok (b, p)
  end.
Definition validate_s3_object_uri (uri : str) : res unit := rmap (fun _ => tt) (split_bucket_key uri).

(* ---------------- paths and compression ---------------- *)

(* detail/path.cc:24-33 validate_file_path *)
Definition validate_file_path (path : str) : res unit :=
  match path with
  | [] => Throw Invalid_argument
  | _ => let c := last path 0%N in if (c =? 47)%N || (c =? 92)%N then Throw Invalid_argument else Ok tt
  end.

(* include/mlio/data_stores/compression.h Compression *)
Inductive compression : Set := Co_none | Co_infer | Co_gzip | Co_bzip2 | Co_zip.

(* data_stores/detail/util.cc:24-46 infer_compression.  [at_back k] is path[len - k]. *)
Definition infer_compression (path : str) : compression :=
  let len := length path in
  let at_back k := nth (len - k) path 0%N in
  if (3 <? len) && (at_back 3%nat =? 46)%N then
    if (at_back 2%nat =? 103)%N && (at_back 1%nat =? 122)%N then Co_gzip else Co_none
  else if (4 <? len) && (at_back 4%nat =? 46)%N then
    if (at_back 3%nat =? 98)%N && (at_back 2%nat =? 122)%N && (at_back 1%nat =? 50)%N then Co_bzip2
    else if (at_back 3%nat =? 122)%N && (at_back 2%nat =? 105)%N && (at_back 1%nat =? 112)%N then Co_zip
    else Co_none
  else Co_none.

(* A data store as a listing makes it: its path or URI and its compression.
   data_stores/file.cc:33-41 File::File, data_stores/s3_object.cc:36-50 S3_object::S3_object. *)
Record store := mk_store { st_id : str; st_compression : compression }.
Definition settle (id : str) (c : compression) : compression :=
  match c with Co_infer => infer_compression id | _ => c end.
Definition make_file (path : str) (c : compression) : res store :=
  let* _ := validate_file_path path in Ok (mk_store path (settle path c)).
Definition make_s3_object (uri : str) (c : compression) : res store :=
  let* _ := validate_s3_object_uri uri in Ok (mk_store uri (settle uri c)).

(* data_stores/compression.cc:28-45 make_inflate_stream called by open_read (file.cc:56-59, s3_object.cc:60-63): how the bytes of
   the store reach the caller.  The case labels cover the enumeration. *)
Inductive delivery : Set := As_stored | Gunzipped.
Definition open_read (s : store) : res delivery :=
  match st_compression s with
  | Co_none | Co_infer => Ok As_stored
  | Co_gzip => Ok Gunzipped
  | Co_bzip2 | Co_zip => Throw Not_supported
  end.

(* ---------------- listing S3 objects ---------------- *)

(* fnmatch(3): its three kinds of results. *)
Inductive verdict : Set := Matches | No_match | Bad_pattern.

(* File_list_options and S3_object_list_options.  [o_pattern] is None if the pattern is empty, otherwise fnmatch with it;
   [o_predicate] is None if there is no callback. *)
Record options := mk_options {
  o_pattern : option (str -> verdict); o_predicate : option (str -> bool); o_compression : compression }.

(* data_stores/s3_object.cc:96-114 and data_stores/file_list.cc:115-132: pattern and predicate.  fnmatch sees the C string. *)
Definition selected (o : options) (name : str) : res bool :=
  let* m := match o_pattern o with
            | None => Ok true
            | Some f => match f (c_str name) with Matches => Ok true | No_match => Ok false | Bad_pattern => Throw Invalid_argument end
            end in
  if m then match o_predicate o with None => Ok true | Some f => Ok (f name) end else Ok false.

(* What ListObjectsV2 answers: an error, or the keys of a page and, if the answer is truncated, the continuation token. *)
Inductive answer : Type :=
| A_error
| A_page (keys : list str) (next : option str).
(* The service: the answer to a request with bucket, prefix and continuation token. *)
Definition service := str -> option str -> option str -> answer.

(* The loop over keys of s3_client.cc:127-129 with the callback of s3_object.cc:95-117. *)
Fixpoint take_keys (o : options) (base : str) (keys : list str) (acc : list str) : res (list str) :=
  match keys with
  | [] => Ok acc
  | k :: r =>
      let uri := base ++ k in
      let* sel := selected o uri in
      take_keys o base r (if sel then acc ++ [uri] else acc)
  end.

(* s3_client.cc:121-135: the loop over pages.  [fuel] bounds the number of pages. *)
Fixpoint list_pages (fuel : nat) (o : options) (sv : service) (bucket : str) (prefix token : option str) (base : str)
         (acc : list str) : res (list str) :=
  match fuel with
  | 0 => Fuel
  | S fuel =>
      match sv bucket prefix token with
      | A_error => Throw System_err
      | A_page keys next =>
          let* acc := take_keys o base keys acc in
          match next with
          | None => Ok acc
          | Some t => list_pages fuel o sv bucket prefix (Some t) base acc
          end
      end
  end.

(* s3_client.cc:107-136 S3_client::list_objects and data_stores/s3_object.cc:88-118 *)
Definition list_bucket (fuel : nat) (o : options) (sv : service) (uri : str) (acc : list str) : res (list str) :=
  let* (bucket, prefix) := split_bucket_prefix uri in
  list_pages fuel o sv bucket (match prefix with [] => None | _ => Some prefix end) None
             (s3_scheme ++ bucket ++ [slash]) acc.

Fixpoint list_buckets (fuel : nat) (o : options) (sv : service) (uris : list str) (acc : list str) : res (list str) :=
  match uris with
  | [] => Ok acc
  | u :: r => let* acc := list_bucket fuel o sv u acc in list_buckets fuel o sv r acc
  end.

Fixpoint mmap {A B : Type} (f : A -> res B) (l : list A) : res (list B) :=
  match l with
  | [] => Ok []
  | x :: r => let* y := f x in let* ys := mmap f r in Ok (y :: ys)
  end.

(* data_stores/s3_object.cc:133-135: the comparison given to std::sort. *)
Definition uri_less (sg : bool) (a b : str) : bool :=
  match strnatcmp sg (c_str a) (c_str b) with Lt => true | _ => false end.

(* data_stores/s3_object.cc:123-147 list_s3_objects.  [sort] is std::sort. *)
Definition list_s3_objects (sort : (str -> str -> bool) -> list str -> list str) (sg : bool) (fuel : nat) (o : options)
           (sv : service) (uris : list str) : res (list store) :=
  let* l := list_buckets fuel o sv uris [] in
  mmap (fun u => make_s3_object u (o_compression o)) (sort (uri_less sg) l).

(* ---------------- listing files ---------------- *)

(* An entry of a directory tree as fts(3) sees it with FTS_LOGICAL: files by what they are after following links, directories
   with their entries, and what cannot be examined.  [Loop] is a directory that is its own ancestor (FTS_DC), [Dangling] a link
   to nothing (FTS_SLNONE). *)
Inductive kind : Set := Regular | Block | Special.
Inductive entry : Type :=
| E_file (name : str) (k : kind)
| E_dir (name : str) (entries : list entry)
| E_loop (name : str)
| E_dangling (name : str)
| E_unreadable (name : str)        (* FTS_DNR *)
| E_unknown (name : str).          (* FTS_NS, FTS_ERR *)
Definition entry_name (e : entry) : str :=
  match e with
  | E_file n _ | E_dir n _ | E_loop n | E_dangling n | E_unreadable n | E_unknown n => n
  end.

(* The constants of fts_info that fts_read returns. *)
Inductive fts_info : Set := FTS_D | FTS_DP | FTS_F | FTS_DEFAULT | FTS_DC | FTS_SLNONE | FTS_DNR | FTS_NS.

(* fts(3) appends a name to the path of its directory, with one slash. *)
Definition join (path name : str) : str :=
  match path with
  | [] => name
  | _ => if (last path 0%N =? slash)%N then path ++ name else path ++ [slash] ++ name
  end.

(* One return of fts_read: what, where, and the kind by st_mode. *)
Record visit := mk_visit { v_info : fts_info; v_path : str; v_kind : kind }.

(* file_list.cc:66-69 natural_sort *)
Definition name_less (sg : bool) (a b : entry) : bool :=
  match strnatcmp sg (entry_name a) (entry_name b) with Lt => true | _ => false end.

(* fts(3) sorts the entries of a directory when it reads it, with the comparison of file_list.cc:78; sorting the whole tree first
   gives the same sequence. *)
Fixpoint sorted_tree (sort : (entry -> entry -> bool) -> list entry -> list entry) (sg : bool) (e : entry) : entry :=
  match e with
  | E_dir n es => E_dir n (sort (name_less sg) (map (sorted_tree sort sg) es))
  | _ => e
  end.

(* fts(3): the sequence of returns of fts_read for an entry with the given path: a directory, its entries in the order of the
   comparison, the directory again.  A directory that cannot be read is returned before and then as FTS_DNR. *)
Fixpoint walk (path : str) (e : entry) : list visit :=
  match e with
  | E_file _ Regular => [mk_visit FTS_F path Regular]
  | E_file _ k => [mk_visit FTS_DEFAULT path k]
  | E_dir _ es =>
      mk_visit FTS_D path Special ::
      (fix walks (es : list entry) : list visit :=
         match es with
         | [] => []
         | e :: r => walk (join path (entry_name e)) e ++ walks r
         end) es
      ++ [mk_visit FTS_DP path Special]
  | E_loop _ => [mk_visit FTS_DC path Special]
  | E_dangling _ => [mk_visit FTS_SLNONE path Special]
  | E_unreadable _ => [mk_visit FTS_D path Special; mk_visit FTS_DNR path Special]
  | E_unknown _ => [mk_visit FTS_NS path Special]
  end.

(* file_list.cc:71-84 make_fts: the roots are sorted too; their names are the given paths. *)
Definition fts_sequence (sort : (entry -> entry -> bool) -> list entry -> list entry) (sg : bool) (roots : list entry) : list visit :=
  flat_map (fun e => walk (entry_name e) e) (sort (name_less sg) (map (sorted_tree sort sg) roots)).


(* file_list.cc:99-137: the loop of list_files. *)
Fixpoint list_visits (o : options) (vs : list visit) (acc : list store) : res (list store) :=
  match vs with
  | [] => Ok acc
  | v :: r =>
      match v_info v with
      | FTS_DNR | FTS_NS => Throw System_err
      | FTS_F =>
          match v_kind v with
          | Regular | Block =>
              let* sel := selected o (v_path v) in
              if sel : bool then
                let* st := make_file (v_path v) (o_compression o) in
                list_visits o r (acc ++ [st])
              else list_visits o r acc
          | Special => list_visits o r acc
          end
      | _ => list_visits o r acc
      end
  end.

(* file_list.cc:89-144 list_files.  An empty path makes fts_open fail.  [roots] are the trees at the given paths, each with its
   path as its name.  fts_read sets errno to zero at the end of the traversal. *)
Definition list_files (sort : (entry -> entry -> bool) -> list entry -> list entry) (sg : bool) (o : options)
           (roots : list entry) : res (list store) :=
  if existsb (fun e => match entry_name e with [] => true | _ => false end) roots then Throw System_err
  else list_visits o (fts_sequence sort sg roots) [].

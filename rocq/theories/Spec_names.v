(* What the order of names, the parts of a URI, the kinds of compression and listings should be. *)
From Verif Require Import Common Model_names.
From Coq Require Import Permutation Sorted.

(* A C string: characters other than zero. *)
Definition c_string (s : str) : Prop := Forall (fun c => (0 < c < 256)%N) s.

(* ---------------- natural order ---------------- *)

Definition digit (c : byte) : Prop := (48 <= c <= 57)%N.
Definition white (c : byte) : Prop := (9 <= c <= 13)%N \/ c = 32%N.
(* A non-empty string of digits that does not begin with a needless zero, and its value. *)
Definition number (x : str) : Prop := x <> [] /\ Forall digit x /\ (hd 0%N x = 48%N -> length x = 1).
Definition value (x : str) : N := fold_left (fun v c => 10 * v + (c - 48))%N x 0%N.
Definition starts_with_digit (s : str) : Prop := exists c r, s = c :: r /\ digit c.
Definition ends_with_digit (s : str) : Prop := exists r c, s = r ++ [c] /\ digit c.

(* The words of a name: runs of digits, and other characters, without white space. *)
Inductive word : Type :=
| W_run (digits : str)
| W_char (c : byte).
Fixpoint words (s : str) : list word :=
  match s with
  | [] => []
  | c :: r =>
      if is_space c then words r
      else if is_digit c then
        if is_digit (peek_char r) then
          match words r with
          | W_run d :: w => W_run (c :: d) :: w
          | w => W_run [c] :: w
          end
        else W_run [c] :: words r
      else W_char c :: words r
  end.

(* ---------------- sorting ---------------- *)

Definition in_order {A : Type} (less : A -> A -> bool) (l : list A) : Prop :=
  forall l1 a l2 b l3, l = l1 ++ a :: l2 ++ b :: l3 -> less b a = false.
(* What std::sort and qsort demand of a comparison on the elements of the list, and what they then do. *)
Definition strict_weak_on {A : Type} (less : A -> A -> bool) (l : list A) : Prop :=
  (forall a, In a l -> less a a = false) /\
  (forall a b c, In a l -> In b l -> In c l -> less a b = true -> less b c = true -> less a c = true) /\
  (forall a b c, In a l -> In b l -> In c l ->
                 less a b = false -> less b a = false -> less b c = false -> less c b = false ->
                 less a c = false /\ less c a = false).
Definition sorts {A : Type} (sort : (A -> A -> bool) -> list A -> list A) : Prop :=
  forall less l, strict_weak_on less l -> Permutation (sort less l) l /\ in_order less (sort less l).

(* ---------------- URIs and suffixes ---------------- *)

(* s3:// *)
Definition s3_prefix : str := [115; 51; 58; 47; 47]%N.
Definition dot_gz : str := [46; 103; 122]%N.
Definition dot_bz2 : str := [46; 98; 122; 50]%N.
Definition dot_zip : str := [46; 122; 105; 112]%N.
Definition ends_in (suffix path : str) : Prop := exists stem, stem <> [] /\ path = stem ++ suffix.

(* ---------------- listings ---------------- *)

(* A name the user asked for; a name whose pattern fnmatch refuses. *)
Definition wanted (o : options) (name : str) : bool :=
  match o_pattern o with
  | None => true
  | Some f => match f (c_str name) with Matches => true | _ => false end
  end && match o_predicate o with None => true | Some f => f name end.
Definition pattern_ok (o : options) (name : str) : Prop :=
  forall f, o_pattern o = Some f -> f (c_str name) <> Bad_pattern.

(* The service lists [keys] for a bucket and a prefix, on [n] pages chained by continuation tokens. *)
Inductive serves (sv : service) (bucket : str) (prefix : option str) : option str -> nat -> list str -> Prop :=
| Serves_last : forall token keys,
    sv bucket prefix token = A_page keys None -> serves sv bucket prefix token 1 keys
| Serves_more : forall token keys next n rest,
    sv bucket prefix token = A_page keys (Some next) -> serves sv bucket prefix (Some next) n rest ->
    serves sv bucket prefix token (S n) (keys ++ rest).

(* What has to be listed for a URI s3://bucket or s3://bucket/prefix: a URI for each key the service knows. *)
Inductive listed (sv : service) (fuel : nat) : str -> list str -> Prop :=
| Listed_bucket : forall bucket n keys,
    bucket <> [] -> ~ In slash bucket -> n <= fuel -> serves sv bucket None None n keys ->
    listed sv fuel (s3_prefix ++ bucket) (map (fun k => s3_prefix ++ bucket ++ [slash] ++ k) keys)
| Listed_bucket_slash : forall bucket n keys,
    bucket <> [] -> ~ In slash bucket -> n <= fuel -> serves sv bucket None None n keys ->
    listed sv fuel (s3_prefix ++ bucket ++ [slash]) (map (fun k => s3_prefix ++ bucket ++ [slash] ++ k) keys)
| Listed_prefix : forall bucket prefix n keys,
    bucket <> [] -> ~ In slash bucket -> prefix <> [] -> n <= fuel -> serves sv bucket (Some prefix) None n keys ->
    listed sv fuel (s3_prefix ++ bucket ++ [slash] ++ prefix) (map (fun k => s3_prefix ++ bucket ++ [slash] ++ k) keys).

(* Nowhere does a later name come before an earlier one in the natural order. *)
Definition naturally_ordered (sg : bool) (l : list str) : Prop :=
  forall l1 a l2 b l3, l = l1 ++ a :: l2 ++ b :: l3 -> strnatcmp sg b a <> Lt.
(* The store of a listed name. *)
Definition store_of (o : options) (name : str) : store :=
  mk_store name (match o_compression o with Co_infer => infer_compression name | c => c end).

(* A file of a tree is given by the names on the way to it. *)
Fixpoint regular_files (e : entry) : list (list str) :=
  match e with
  | E_file n Regular => [[n]]
  | E_dir n es => map (cons n) (flat_map regular_files es)
  | _ => []
  end.
(* Its path. *)
Definition path_of (names : list str) : str :=
  match names with
  | [] => []
  | root :: r => fold_left join r root
  end.
(* At the first place where two ways part, the first takes the smaller name. *)
Definition strictly_before (sg : bool) (a b : list str) : Prop :=
  exists p x a' y b', a = p ++ x :: a' /\ b = p ++ y :: b' /\ strnatcmp sg x y = Lt.
Definition tree_ordered (sg : bool) (l : list (list str)) : Prop :=
  forall l1 a l2 b l3, l = l1 ++ a :: l2 ++ b :: l3 -> ~ strictly_before sg b a.

(* A directory tree as a file system has it: the names are C strings, and different in each directory. *)
Fixpoint proper (e : entry) : Prop :=
  c_string (entry_name e) /\
  match e with
  | E_dir _ es => NoDup (map entry_name es) /\ (fix all (l : list entry) : Prop := match l with [] => True | x :: r => proper x /\ all r end) es
  | _ => True
  end.
(* Every directory and entry can be examined. *)
Fixpoint readable (e : entry) : bool :=
  match e with
  | E_dir _ es => forallb readable es
  | E_unreadable _ | E_unknown _ => false
  | _ => true
  end.

(* A path that does not look like the path of a directory. *)
Definition presentable (p : str) : Prop := p <> [] /\ last p 0%N <> slash /\ last p 0%N <> 92%N.

(* What the decoded example and the schema of a CSV dataset should be. *)
From Verif Require Import Common Spec_csvtok Model_num Model_csv.
From Coq Require Import Sorted.

(* Element [i] of tensor [k]. *)
Definition elem {A : Type} (T : list (list A)) (k i : nat) : option A :=
  match nth_error T k with Some a => nth_error a i | None => None end.

(* A field cut to the maximum length, and whether something was cut off. *)
Definition limit (m : option nat) (v : list byte) : list byte * bool :=
  match m with
  | None => (v, false)
  | Some n => (firstn n v, n <? length v)
  end.

Section Spec.
  Context (F : Type) (atof atod : list byte -> option F) (is_inf : F -> bool) (qnan : F).
  Context (p : csv_params).

  (* The fields of a row by the grammar of CSV (Spec_csvtok), each cut to the maximum length. *)
  Definition fields_of (text : list byte) (fs : list (list byte * bool)) : Prop :=
    exists vs, Row (p_delim p) (p_quote p) text vs /\ fs = map (limit (p_maxlen p)) vs.
  (* The row is complete: no quoted field is left open. *)
  Definition closed (text : list byte) : Prop := exists fs, fields_of text fs.

  (* The cells of the row can be compared with the NaN values without undefined behaviour: there are none, or
     the row is ASCII text (cf. C65). *)
  Definition comparable (text : list byte) : Prop := p_nans p = [] \/ Forall (fun c : byte => (c < 128)%N) text.

  (* [Good cols fs vs]: there are as many fields as columns, and vs are the parsed values of the used ones. *)
  Inductive Good : list col -> list (list byte * bool) -> list (Model_num.val F) -> Prop :=
  | G_nil : Good [] [] []
  | G_ignored c cols f fs vs :
      c_ignore c = true -> Good cols fs vs -> Good (c :: cols) (f :: fs) vs
  | G_used c cols f fs v vs :
      c_ignore c = false ->
      ~ (snd f = true /\ p_mfl p = treat_as_bad) ->
      parse_cell F atof atod is_inf qnan (c_type c) (p_nans p) (p_base p) (fst f) = Ok (P_ok v) ->
      Good cols fs vs -> Good (c :: cols) (f :: fs) (v :: vs).

  Definition good_row (cols : list col) (text : list byte) (vs : list (Model_num.val F)) : Prop :=
    exists fs, fields_of text fs /\ Good cols fs vs.
  Definition bad_row (cols : list col) (text : list byte) : Prop :=
    closed text /\ forall vs, ~ good_row cols text vs.

  (* The values of the good rows, in order; the bad rows are left out. *)
  Inductive Select (cols : list col) : list (list byte) -> list (list (Model_num.val F)) -> Prop :=
  | S_nil : Select cols [] []
  | S_good r rs vs vss : good_row cols r vs -> Select cols rs vss -> Select cols (r :: rs) (vs :: vss)
  | S_bad r rs vss : bad_row cols r -> Select cols rs vss -> Select cols (r :: rs) vss.

  (* Row i of the example holds the values vss[i], for all i. *)
  Definition holds (cols : list col) (T : list (list (Model_num.val F))) (vss : list (list (Model_num.val F))) : Prop :=
    length T = length (filter (fun c => negb (c_ignore c)) cols) /\
    forall i vs, nth_error vss i = Some vs -> forall k, k < length T -> elem T k i = nth_error vs k.

  (* A column takes part. *)
  Definition selected (j : nat) (name : str) : Prop :=
    (p_use_index p = [] \/ In j (p_use_index p)) /\ (p_use_names p = [] \/ In name (p_use_names p)).

  (* [l] lists, in order, the positions of the selected columns among [names]. *)
  Definition selection (names : list str) (l : list nat) : Prop :=
    StronglySorted lt l /\
    forall j, In j l <-> exists n, nth_error names j = Some n /\ selected j n.

  (* The type of a column without override. *)
  Definition plain_type (s : str) (d : dtype) : Prop :=
    p_default p = Some d \/ (p_default p = None /\ infer_data_type F atod is_inf qnan s = Ok d).

  (* The type of column j with name n: an override by name (if no earlier column has the same name) takes
     precedence over one by index, and that over the plain type. *)
  Definition column_type (names : list str) (j : nat) (n : str) (plain d : dtype) : Prop :=
    (In (n, d) (p_types p) /\ ~ In n (firstn j names)) \/
    ((~ In n (map fst (p_types p)) \/ In n (firstn j names)) /\
     (In (j, d) (p_types_index p) \/ (~ In j (map fst (p_types_index p)) /\ d = plain))).

  (* Every override addresses a column. *)
  Definition overrides_addressed (names : list str) : Prop :=
    (forall j, In j (map fst (p_types_index p)) -> j < length names) /\
    (forall n, In n (map fst (p_types p)) -> In n names).
  (* The overrides are maps: no key twice. *)
  Definition overrides_are_maps : Prop := NoDup (map fst (p_types_index p)) /\ NoDup (map fst (p_types p)).

  (* The names of the columns: the given ones, or else 1, 2, ... with the prefix. *)
  Definition names_for (given : list str) (n : nat) : list str :=
    match given with [] => map (fun i => p_prefix p ++ to_string i) (seq 1 n) | _ => given end.

  (* A reader that has not tried to infer its schema. *)
  Definition fresh (r : reader) : Prop := r_types r = [] /\ r_ignores r = [].

  (* The attributes describe columns with these names and these plain types; [l] lists the
     positions of the columns that have an attribute, and [cols] is what rows are decoded with. *)
  Definition describes (names : list str) (plain : nat -> dtype -> Prop) (l : list nat)
      (attrs : list attr) (cols : list col) : Prop :=
    overrides_addressed names /\
    selection names l /\
    length attrs = length l /\
    length cols = length names /\
    (forall k j, nth_error l k = Some j ->
       exists n a t d,
         nth_error names j = Some n /\ nth_error attrs k = Some (a, d) /\
         (p_dedupe p = false -> a = n) /\
         plain j t /\ column_type names j n t d /\
         nth_error cols j = Some (mk_col d false)) /\
    (forall j, j < length names -> ~ In j l -> exists d, nth_error cols j = Some (mk_col d true)).

  (* The elements of a list at the given positions. *)
  Definition at_positions {A : Type} (xs : list A) (l : list nat) (ys : list A) : Prop :=
    Forall2 (fun j y => nth_error xs j = Some y) l ys.
End Spec.

(* Each name is kept if no earlier feature has got it, and extended otherwise; the results differ from each other. *)
Definition renamed (used outs : list str) : Prop :=
  length outs = length used /\ NoDup outs /\
  forall k n a, nth_error used k = Some n -> nth_error outs k = Some a ->
    (~ In n (firstn k outs) -> a = n) /\
    (In n (firstn k outs) -> exists c suffix, a = n ++ c :: suffix).

(* x, x_1, x_2, ... *)
Definition copy_name (x : str) (i : nat) : str := match i with O => x | _ => x ++ [95%N] ++ to_string i end.

(* The rows of a store without errors. *)
Definition ok_rows (texts : list str) : list row := map Ok texts.

(* What is left of store number j after its header has been removed. *)
Definition without_header (p : csv_params) (j : nat) (texts : list str) : list str :=
  match p_header p with
  | None => texts
  | Some h => if p_single p && negb (j =? 0) then texts else skipn (S h) texts
  end.
Fixpoint without_headers (p : csv_params) (j : nat) (stores : list (list str)) : list (list str) :=
  match stores with
  | [] => []
  | s :: rest => without_header p j s :: without_headers p (S j) rest
  end.

(* The store has a header row, and it is complete. *)
Definition proper (p : csv_params) (h : nat) (texts : list str) : Prop :=
  exists (header : str) fs, nth_error texts h = Some header /\ fields_of p header fs.

(* What a reader may have done so far: [session r j out] means that it is in state r, that j stores have been
   opened in the current epoch, and that their rows to read are out.  An epoch may be left at any time. *)
Section Session.
  Context (F : Type) (atod : list byte -> option F) (is_inf : F -> bool) (qnan : F).
  Context (p : csv_params) (stores : list (list str)).
  Inductive session : reader -> nat -> list (list row) -> Prop :=
  | Ss_new : session (new_reader p) 0 []
  | Ss_open r j out texts r' rows :
      session r j out -> nth_error stores j = Some texts ->
      open_store p r (ok_rows texts) = (r', Ok rows) -> session r' (S j) (out ++ [rows])
  | Ss_schema r j out inst :
      session r j out -> inst = None \/ 0 < j ->
      session (fst (infer_schema F atod is_inf qnan p r inst)) j out
  | Ss_reset r j out : session r j out -> session (csv_reset r) 0 [].
End Session.

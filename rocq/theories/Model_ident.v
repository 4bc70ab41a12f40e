(* Equality and hash values of schemas, data stores and devices. *)
From Verif Require Import Common Model_num Model_tsr Model_names.
From Coq Require Import ZArith.

(* ---------------- hash values ---------------- *)

(* std::size_t has 64 bits. *)
Definition word (n : N) : N := (n mod 2 ^ 64)%N.

(* include/mlio/util/hash.h:27-33 hash_combine; [h] is the std::hash of the value. *)
Definition hash_combine (seed h : N) : N :=
  N.lxor seed (word (h + 2654435769 + word (N.shiftl seed 6) + N.shiftr seed 2)).

(* include/mlio/util/hash.h:35-42 hash_range over the std::hash values of the elements. *)
Fixpoint hash_range (seed : N) (hs : list N) : N :=
  match hs with
  | [] => seed
  | h :: hs' => hash_range (hash_combine seed h) hs'
  end.

Section Hashes.
  (* std::hash of the C++ library; size_t and ssize_t both appear as numbers. *)
  Variable h_string : list byte -> N.
  Variable h_type : dtype -> N.
  Variable h_bool : bool -> N.
  Variable h_number : Z -> N.

  (* src/mlio/schema.cc:109-121 std::hash<Attribute>. *)
  Definition attribute_hash (a : attribute) : N :=
    let seed := hash_combine 0 (h_string (a_name a)) in
    let seed := hash_combine seed (h_type (a_type a)) in
    let seed := hash_combine seed (h_bool (a_sparse a)) in
    let seed := hash_range seed (map h_number (a_shape a)) in
    hash_range seed (map h_number (a_strides a)).

  (* include/mlio/schema.h:147-154 std::hash<Schema>. *)
  Definition schema_hash (s : schema) : N := hash_range 0 (map attribute_hash (s_attributes s)).

  (* include/mlio/device.h:34-118: a device is its kind's name and a number; equality. *)
  Record device := mk_device { d_kind : list byte; d_id : Z }.
  Definition device_eqb (a b : device) : bool := bytes_eqb (d_kind a) (d_kind b) && Z.eqb (d_id a) (d_id b).

  (* include/mlio/device.h:123-141 std::hash<Device_kind>, std::hash<Device>. *)
  Definition device_hash (d : device) : N :=
    hash_combine (hash_combine 0 (h_string (d_kind d))) (h_number (d_id d)).
End Hashes.

(* ---------------- data stores ---------------- *)

(* fmt's presentation type x: lower-case hexadecimal digits; a 64-bit number has at most 16. *)
Definition hex_digit (d : N) : byte := (if d <? 10 then 48 + d else 87 + d)%N.
Fixpoint hex_loop (fuel : nat) (n : N) (acc : str) : str :=
  match fuel with
  | 0 => acc
  | S fuel' => let acc' := hex_digit (n mod 16) :: acc in if (n / 16 =? 0)%N then acc' else hex_loop fuel' (n / 16) acc'
  end.
Definition hex (n : N) : str := hex_loop 16 n [].

(* fmt's {:p} of a pointer and {:#04x} of a number: a prefix 0x, and zeros behind it up to four characters in all. *)
Definition format_pointer (n : N) : str := [48; 120]%N ++ hex n.
Definition format_size (n : N) : str := [48; 120]%N ++ (if length (hex n) <? 2 then 48%N :: hex n else hex n).

(* The data stores: data_stores/file.h, data_stores/in_memory_store.h, data_stores/s3_object.h, data_stores/sagemaker_pipe.h.  A
   store written in Python (src/mlio-py/mlio/core/data_store.cc:31-39 Py_data_store) is a number. *)
Inductive dstore :=
| S_file (path : str) (mapped : bool) (c : compression)
| S_memory (address size : N) (c : compression)
| S_object (uri version : str) (c : compression)
| S_pipe (path : str) (fifo : option N) (c : compression)
| S_python (k : nat).

(* The constructors: src/mlio/data_stores/file.cc:33-41, in_memory_store.cc:30-36, s3_object.cc:36-50, sagemaker_pipe.cc:31-43. *)
Definition new_file (path : str) (mapped : bool) (c : compression) : res dstore :=
  let* _ := validate_file_path path in Ok (S_file path mapped (settle path c)).
Definition new_memory (address size : N) (c : compression) : res dstore :=
  match c with Co_infer => Throw Not_supported | _ => Ok (S_memory address size c) end.
Definition new_object (uri version : str) (c : compression) : res dstore :=
  let* _ := validate_s3_object_uri uri in Ok (S_object uri version (settle uri c)).
Definition new_pipe (path : str) (fifo : option N) (c : compression) : res dstore :=
  let* _ := validate_file_path path in
  match c with Co_infer => Throw Not_supported | _ => Ok (S_pipe path fifo c) end.

(* What the names stand for: files, memory, objects (the latest version if none is given), channels, and the result of the method id
   of stores written in Python, None if it raises an exception. *)
Record world := mk_world {
  w_file : str -> list byte;
  w_memory : N -> N -> list byte;
  w_object : str -> option str -> list byte;
  w_pipe : str -> list byte;
  w_id : nat -> option str
}.

(* data_store.h:54 id: a reference to a string of the store, or to the one string in which pybind11's PYBIND11_OVERLOAD_PURE keeps the
   last result of all methods id written in Python (a static caster, data_store.cc:56-65). *)
Inductive reference := Own (s : str) | Shared.

(* The identifiers: file.h:54-57, in_memory_store.cc:52-60, s3_object.cc:66-77, sagemaker_pipe.h:48-51, data_store.cc:56-65.  The
   second component is the shared string afterwards; None: an exception in id ends the process (std::terminate). *)
Definition id_of (w : world) (s : dstore) (shared : str) : option (reference * str) :=
  match s with
  | S_file path _ _ => Some (Own path, shared)
  | S_memory address size _ => Some (Own (format_pointer address ++ [43%N] ++ format_size size), shared)
  | S_object uri version _ => Some (Own (match version with [] => uri | _ => uri ++ [64%N] ++ version end), shared)
  | S_pipe path _ _ => Some (Own path, shared)
  | S_python k => match w_id w k with Some i => Some (Shared, i) | None => None end
  end.
Definition deref (r : reference) (shared : str) : str := match r with Own s => s | Shared => shared end.

(* data_store.h:57-61: operator==; both references are taken before the strings are compared. *)
Definition store_eq (w : world) (a b : dstore) : option bool :=
  match id_of w a [] with
  | None => None
  | Some (r, shared) =>
    match id_of w b shared with
    | None => None
    | Some (q, shared') => Some (bytes_eqb (deref r shared') (deref q shared'))
    end
  end.

(* data_store.h:82-88 std::hash<Data_store>. *)
Definition store_hash (h_string : list byte -> N) (w : world) (s : dstore) : option N :=
  match id_of w s [] with
  | None => None
  | Some (r, shared) => Some (h_string (deref r shared))
  end.

(* What open_read delivers in the end: file.cc:43-60, in_memory_store.cc:38-50, s3_object.cc:52-64, sagemaker_pipe.cc:45-57;
   [gunzip] is the stream of data_stores/compression.cc:28-45.  Stores written in Python are not described. *)
Definition contents (gunzip : list byte -> res (list byte)) (w : world) (s : dstore) : res (list byte) :=
  let through c bytes :=
    match open_read (mk_store [] c) with
    | Ok As_stored => Ok bytes
    | Ok Gunzipped => gunzip bytes
    | Throw e => Throw e
    | UB => UB
    | Fuel => Fuel
    end in
  match s with
  | S_file path _ c => through c (w_file w path)
  | S_memory address size c => through c (w_memory w address size)
  | S_object uri version c => through c (w_object w uri (match version with [] => None | _ => Some version end))
  | S_pipe path _ c => through c (w_pipe w path)
  | S_python _ => UB
  end.

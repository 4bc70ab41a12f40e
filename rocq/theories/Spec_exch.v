(* What a buffer, a tensor and a DLPack tensor mean: items at indices. *)
From Verif Require Import Common Model_num Model_tsr Spec_tsr Model_exch.
Local Open Scope Z_scope.

(* The item of a buffer at an index (Python's buffer protocol: the sum of index times stride, in bytes). *)
Definition item_of (mem : list byte) (b : info) (idx : list Z) : option (list byte) :=
  bytes_at mem (i_ptr b + place (i_strides b) idx) (i_item b).

(* A buffer as Python gives it: every item is in memory. *)
Definition readable (mem : list byte) (b : info) : Prop :=
  length (i_strides b) = length (i_shape b) /\ forall idx, in_range (i_shape b) idx -> item_of mem b idx <> None.

(* The kinds of items, by the struct module's format characters (native byte order only). *)
Inductive kind := Floating | Signed | Unsigned | Objects.
Definition char_kind (c : N) : option kind :=
  if existsb (N.eqb c) [101; 102; 100]%N then Some Floating                  (* e f d *)
  else if existsb (N.eqb c) [98; 104; 105; 108; 113; 110]%N then Some Signed  (* b h i l q n *)
  else if existsb (N.eqb c) [66; 72; 73; 76; 81; 78]%N then Some Unsigned     (* B H I L Q N *)
  else if (c =? 79)%N then Some Objects                                      (* O *)
  else None.
Definition format_kind (f : list N) : option kind :=
  match f with
  | [c] => char_kind c
  | [p; c] => if existsb (N.eqb p) [64; 61]%N then char_kind c else None  (* @ = *)
  | _ => None
  end.

(* The sizes that the items of a format character may have: the native one, and for l and L also the standard one, of 4 bytes. *)
Definition char_sizes (c : N) : list Z :=
  let one_of := existsb (N.eqb c) in
  if one_of [98; 66]%N then [1]                          (* b B *)
  else if one_of [101; 104; 72]%N then [2]               (* e h H *)
  else if one_of [102; 105; 73]%N then [4]               (* f i I *)
  else if one_of [108; 76]%N then [8; 4]                 (* l L *)
  else if one_of [100; 113; 81; 110; 78; 79]%N then [8]  (* d q Q n N O *)
  else [].
Definition format_sizes (f : list N) : list Z := char_sizes (last f 0%N).

(* The kind of a data type. *)
Definition type_kind (dt : dtype) : kind :=
  match dt with
  | D_float16 | D_float32 | D_float64 => Floating
  | D_int (i8 | i16 | i32 | i64) => Signed
  | D_int (u8 | u16 | u32 | u64) | D_size => Unsigned
  | D_string => Objects
  end.

(* Two buffers show the same: dimensions, kind and size of the items, and every item. *)
Definition same (mem : list byte) (b : info) (mem' : list byte) (b' : info) : Prop :=
  i_shape b' = i_shape b /\ i_item b' = i_item b /\ format_kind (i_format b') = format_kind (i_format b) /\
  forall idx, in_range (i_shape b) idx -> item_of mem' b' idx = item_of mem b idx /\ item_of mem b idx <> None.

(* An array whose items fill a block of memory without gaps, in any order of the dimensions (row-major, column-major, ...):
   the last item is within the first [volume] places. *)
Definition compact (mem : list byte) (b : info) : Prop :=
  positive (i_shape b) /\ length (i_strides b) = length (i_shape b) /\
  Forall (fun s => 0 <= s < 2 ^ 63 /\ (i_item b | s)) (i_strides b) /\
  reach (i_shape b) (i_strides b) < volume (i_shape b) * i_item b /\
  0 < i_item b /\ 0 <= i_ptr b /\ i_ptr b + volume (i_shape b) * i_item b <= Z.of_nat (length mem) /\
  volume (i_shape b) * i_item b < 2 ^ 63.

(* Row-major: the item at an index is as many items after the first as its row-major position says. *)
Definition row_major_buffer (mem : list byte) (b : info) : Prop :=
  positive (i_shape b) /\ 0 < i_item b /\ 0 <= i_ptr b /\
  (forall idx, in_range (i_shape b) idx -> place (i_strides b) idx = row_major (i_shape b) idx * i_item b) /\
  i_ptr b + volume (i_shape b) * i_item b <= Z.of_nat (length mem).

(* The n-th item of an array. *)
Definition array_item (mem : list byte) (a : array) (n : Z) : option (list byte) :=
  match a with
  | Owned l => if n <? 0 then None else nth_error l (Z.to_nat n)
  | Shared p k size => if (0 <=? n) && (n <? Z.of_nat size) then bytes_at mem (p + n * k) k else None
  end.

(* The item of a tensor at an index. *)
Definition tensor_item (mem : list byte) (t : tensor) (idx : list Z) : option (list byte) :=
  array_item mem (t_array t) (place (t_strides t) idx).

(* A tensor whose items have the size of its type and which the constructor accepts. *)
Definition proper_array (mem : list byte) (dt : dtype) (a : array) : Prop :=
  match a with
  | Owned l => Forall (fun x => Z.of_nat (length x) = item_size dt) l
  | Shared p k size => k = item_size dt /\ 0 <= p /\ p + Z.of_nat size * k <= Z.of_nat (length mem)
  end.
Definition proper_tensor (mem : list byte) (t : tensor) : Prop :=
  proper_array mem (t_type t) (t_array t) /\ positive (t_shape t) /\ length (t_strides t) = length (t_shape t) /\
  Forall (fun s => 0 <= s) (t_strides t) /\ reach (t_shape t) (t_strides t) < array_size (t_array t).

(* What a user of a DLPack tensor sees: dimensions, and the item at an index (dlpack.h: strides are counted in items). *)
Definition dl_dims (d : dl_tensor) : list Z := match d_shape d with Some l => l | None => [] end.
Definition dl_item (base : list byte) (start : Z) (d : dl_tensor) (idx : list Z) : option (list byte) :=
  let size := d_bits d * d_lanes d / 8 in
  bytes_at base (start + d_offset d + place (match d_strides d with Some l => l | None => [] end) idx * size) size.
Definition dl_kind (c : dl_code) : kind := match c with kDLInt => Signed | kDLUInt => Unsigned | kDLFloat => Floating end.

(* An export still needs the tensor: its capsule was not taken by a consumer and exists, or a consumer has it and has not
   called the deleter. *)
Definition needs (e : export) : Prop := (x_named e = true /\ x_capsule e = true) \/ (x_named e = false /\ x_deleted e = false).

(* The same, told by what happened: how many exports have succeeded so far, and whether the k-th of them is over. *)
Definition exported (events : list life_event) : nat :=
  length (filter (fun ev => match ev with L_export false => true | _ => false end) events).
Definition over (events : list life_event) (k : nat) : Prop :=
  (In (L_take k) events /\ In (L_done k) events) \/ (~ In (L_take k) events /\ In (L_collect k) events).

(* The bytes of the characters of a Python object, if it has any: those of bytes themselves, and the UTF-8 form of a string. *)
Definition characters (o : pyobj) : option (list byte) :=
  match o with Py_str u => u | Py_bytes b => Some b | Py_other => None end.

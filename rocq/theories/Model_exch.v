(* Exchanging tensors with Python: buffers, NumPy, DLPack. *)
From Verif Require Import Common Model_num Model_tsr.
Local Open Scope Z_scope.

(* ---------------- buffers ---------------- *)

(* pybind11::buffer_info: a place in memory, the size of an item, its struct format, the dimensions, and the strides in
   bytes.  A pointer is an offset into a block of bytes. *)
Record info := mk_info { i_ptr : Z; i_item : Z; i_format : list N; i_shape : list Z; i_strides : list Z }.
(* pybind11 computes the number of items from the dimensions. *)
Definition i_size (b : info) : Z := fold_right Z.mul 1 (i_shape b).

(* The [k] bytes at [p]; None if they are not all in the block. *)
Definition bytes_at (mem : list byte) (p k : Z) : option (list byte) :=
  if (0 <=? p) && (p + k <=? Z.of_nat (length mem)) then Some (firstn (Z.to_nat k) (skipn (Z.to_nat p) mem)) else None.

(* [n] items of [k] bytes, one after the other. *)
Fixpoint items_at (mem : list byte) (p k : Z) (n : nat) : option (list (list byte)) :=
  match n with
  | O => Some []
  | S n' =>
      match bytes_at mem p k, items_at mem (p + k) k n' with
      | Some x, Some l => Some (x :: l)
      | _, _ => None
      end
  end.

(* sizeof(data_type_t<dt>); for strings, of the PyObject pointer shown to Python. *)
Definition item_size (dt : dtype) : Z :=
  match dt with
  | D_size | D_float64 | D_string => 8
  | D_float16 => 2
  | D_float32 => 4
  | D_int t => bits t / 8
  end.

(* mlio-py/mlio/core/py_buffer.cc:131-219: the switch over the format character. *)
Definition code_data_type (c : N) (item : Z) : option dtype :=
  let is n := N.eqb c n in
  let only n (dt : dtype) := if item =? n then Some dt else None in
  (if is 78%N then only 8 D_size                                     (* N *)
   else if is 101%N then only 2 D_float16                            (* e *)
   else if is 102%N then only 4 D_float32                            (* f *)
   else if is 100%N then only 8 D_float64                            (* d *)
   else if is 98%N then only 1 (D_int i8)                            (* b *)
   else if is 104%N then only 2 (D_int i16)                          (* h *)
   else if is 105%N then only 4 (D_int i32)                          (* i *)
   else if is 108%N then                                             (* l *)
     (if item =? 4 then Some (D_int i32) else if item =? 8 then Some (D_int i64) else None)
   else if is 113%N then only 8 (D_int i64)                          (* q *)
   else if is 66%N then only 1 (D_int u8)                            (* B *)
   else if is 72%N then only 2 (D_int u16)                           (* H *)
   else if is 73%N then only 4 (D_int u32)                           (* I *)
   else if is 76%N then                                              (* L *)
     (if item =? 4 then Some (D_int u32) else if item =? 8 then Some (D_int u64) else None)
   else if is 81%N then only 8 (D_int u64)                           (* Q *)
   else if is 79%N then only 8 D_string                              (* O *)
   else None).

(* mlio-py/mlio/core/py_buffer.cc:112-130 get_data_type: an optional '@' or '=' and one character. *)
Definition get_data_type (b : info) : option dtype :=
  match i_format b with
  | [c] => code_data_type c (i_item b)
  | [p; c] => if ((p =? 64) || (p =? 61))%N then code_data_type c (i_item b) else None
  | _ => None
  end.

(* A Device_array made from a buffer: a copy of the items (a std::vector), or the memory of the buffer itself
   (Py_buffer_container). *)
Inductive array := Owned (items : list (list byte)) | Shared (ptr item : Z) (size : nat).
Definition array_size (a : array) : Z :=
  match a with Owned l => Z.of_nat (length l) | Shared _ _ n => Z.of_nat n end.

(* mlio-py/mlio/core/py_buffer.cc:222-244 Make_cpu_array_op and 278-290 make_device_array.  The strides of the buffer are
   not looked at.  [writable] is whether the exporter gives writable memory; without copying, that is requested.  Arrays of
   objects: see below; here copying them yields the pointers. *)
Definition make_device_array (mem : list byte) (writable : bool) (b : info) (cpy : bool) : res (dtype * array) :=
  if negb cpy && negb writable then Throw Other_err
  else
    match get_data_type b with
    | None => Throw Invalid_argument
    | Some dt =>
        let size := Z.to_nat (i_size b) in
        if cpy then match items_at mem (i_ptr b) (i_item b) size with Some l => Ok (dt, Owned l) | None => UB end
        else match dt with D_string => Throw Invalid_argument | _ => Ok (dt, Shared (i_ptr b) (i_item b) size) end
    end.

(* A Dense_tensor. *)
Record tensor := mk_tensor { t_type : dtype; t_shape : list Z; t_strides : list Z; t_array : array }.

(* mlio-py/mlio/core/tensor.cc:37-51 make_dense_tensor; no strides are an empty vector. *)
Definition make_dense_tensor (mem : list byte) (writable : bool) (shape : list Z) (b : info) (strides : option (list Z)) (cpy : bool)
  : res tensor :=
  let* (dt, a) := make_device_array mem writable b cpy in
  let* ss := dense_tensor shape (array_size a) (match strides with Some s => s | None => [] end) in
  Ok (mk_tensor dt shape ss a).

(* mlio-py/mlio/integ/numpy.py:41-52 as_tensor (copy=False) and 55-61 to_tensor.  Python's // rounds down. *)
Definition is_object (b : info) : bool := match get_data_type b with Some D_string => true | _ => false end.
Definition numpy_to_tensor (mem : list byte) (writable : bool) (b : info) (cpy : bool) : res tensor :=
  if negb cpy && is_object b then Throw Invalid_argument
  else make_dense_tensor mem writable (i_shape b) b (Some (map (fun s => s / 8) (i_strides b))) cpy.

(* mlio-py/mlio/core/py_device_array.cc:75-134: the format of each data type, on a 64-bit system. *)
Definition export_format (dt : dtype) : list N :=
  match dt with
  | D_size => [113]
  | D_float16 => [101]
  | D_float32 => [102]
  | D_float64 => [100]
  | D_int i8 => [98]
  | D_int i16 => [104]
  | D_int i32 => [105]
  | D_int i64 => [113]
  | D_int u8 => [66]
  | D_int u16 => [72]
  | D_int u32 => [73]
  | D_int u64 => [81]
  | D_string => [79]
  end%N.

(* mlio-py/mlio/core/tensor.cc:68-90 to_py_buffer: the buffer a tensor shows, with the memory it points into.  [mem] is the
   memory a shared array points into. *)
Definition tensor_to_buffer (mem : list byte) (t : tensor) : list byte * info :=
  let item := item_size (t_type t) in
  let strides := map (fun s => item * s) (t_strides t) in
  match t_array t with
  | Owned l => (concat l, mk_info 0 item (export_format (t_type t)) (t_shape t) strides)
  | Shared p _ _ => (mem, mk_info p item (export_format (t_type t)) (t_shape t) strides)
  end.

(* ---------------- DLPack ---------------- *)

(* dlpack.h DLDataType, DLTensor; the pointer to the data is that of the array. *)
Inductive dl_code := kDLInt | kDLUInt | kDLFloat.
Record dl_tensor := mk_dl {
  d_code : dl_code; d_bits : Z; d_lanes : Z; d_ndim : Z; d_shape : option (list Z); d_strides : option (list Z); d_offset : Z }.

(* src/mlio/integ/dlpack.cc:60-93 as_dl_data_type *)
Definition as_dl_data_type (dt : dtype) : res (dl_code * Z) :=
  match dt with
  | D_size => Ok (kDLUInt, 8 * item_size D_size)
  | D_float16 => Ok (kDLFloat, 8 * item_size D_float16)
  | D_float32 => Ok (kDLFloat, 8 * item_size D_float32)
  | D_float64 => Ok (kDLFloat, 8 * item_size D_float64)
  | D_int t => Ok (if signed t then kDLInt else kDLUInt, 8 * item_size (D_int t))
  | D_string => Throw Not_supported
  end.

(* src/mlio/integ/dlpack.cc:97-124 cast_shape, cast_strides: the same memory, read as int64. *)
Definition cast_vector (f : Z -> Z) (l : list Z) : option (list Z) := match l with [] => None | _ => Some (map f l) end.

(* static_cast<int> of a size *)
Definition to_int (n : Z) : Z := let m := n mod 2 ^ 32 in if m <? 2 ^ 31 then m else m - 2 ^ 32.

(* src/mlio/integ/dlpack.cc:134-190 as_dlpack; DLPACK_VERSION is 0x10 (mlio-py/mlio/integ/dlpack.py:17). *)
Inductive any_tensor := Dense (t : tensor) | Sparse.
Definition as_dlpack (x : any_tensor) (version : Z) : res dl_tensor :=
  if negb (version =? 16) then Throw Not_supported
  else
    match x with
    | Sparse => Throw Invalid_argument
    | Dense t =>
        let* (code, nbits) := as_dl_data_type (t_type t) in
        Ok (mk_dl code nbits 1 (to_int (Z.of_nat (length (t_shape t)))) (cast_vector as_ssize (t_shape t))
                  (cast_vector (fun s => s) (t_strides t)) 0)
    end.

(* ---------------- who keeps a tensor ---------------- *)

(* One export: whether the capsule is still there, whether its name is still "dltensor", whether the managed tensor was
   deleted. *)
Record export := mk_export { x_capsule : bool; x_named : bool; x_deleted : bool }.

(* The tensor: whether Python holds it, the reference count, whether it was freed; the exports. *)
Record life := mk_life { l_holder : bool; l_count : nat; l_freed : bool; l_exports : list export }.
Definition born : life := mk_life true 1 false [].

(* What happens, in this order: Python drops its tensor; an export (which may fail, for strings); a consumer takes the
   managed tensor and renames the capsule; a capsule is collected; a consumer calls the deleter. *)
Inductive life_event := L_drop | L_export (fails : bool) | L_take (k : nat) | L_collect (k : nat) | L_done (k : nat).

(* include/mlio/intrusive_ref_counter.h:62-67 intrusive_ptr_dec_ref: the last reference frees the tensor. *)
Definition dec (s : life) : res life :=
  match l_count s with
  | O => UB
  | S n => if l_freed s then UB else Ok (mk_life (l_holder s) n (Nat.eqb n 0) (l_exports s))
  end.
Definition inc (s : life) : res life :=
  if l_freed s then UB else Ok (mk_life (l_holder s) (S (l_count s)) false (l_exports s)).

Fixpoint set_nth {A : Type} (k : nat) (x : A) (l : list A) : list A :=
  match k, l with
  | O, _ :: l' => x :: l'
  | S k', y :: l' => y :: set_nth k' x l'
  | _, [] => []
  end.
Definition with_export (s : life) (k : nat) (e : export) : life :=
  mk_life (l_holder s) (l_count s) (l_freed s) (set_nth k e (l_exports s)).

(* src/mlio/integ/dlpack.cc:163-167, the deleter: deleting the context releases its reference.  Deleting it twice is
   undefined. *)
Definition deleter (s : life) (k : nat) (e : export) : res life :=
  if x_deleted e then UB else dec (with_export s k (mk_export (x_capsule e) (x_named e) true)).

(* mlio-py/mlio/core/integ.cc:28-45 to_dlpack_capsule and its destructor; src/mlio/integ/dlpack.cc:147-170: the context
   takes a reference first, and gives it back if the data type is refused.  None: not an event that can happen. *)
Definition life_step (s : life) (ev : life_event) : option (res life) :=
  match ev with
  | L_drop => if l_holder s then Some (dec (mk_life false (l_count s) (l_freed s) (l_exports s))) else None
  | L_export fails =>
      if l_holder s then
        Some (let* s1 := inc s in
              if fails then dec s1
              else Ok (mk_life (l_holder s1) (l_count s1) (l_freed s1) (l_exports s1 ++ [mk_export true true false])))
      else None
  | L_take k =>
      match nth_error (l_exports s) k with
      | Some e => if x_capsule e && x_named e then Some (Ok (with_export s k (mk_export true false (x_deleted e)))) else None
      | None => None
      end
  | L_collect k =>
      match nth_error (l_exports s) k with
      | Some e =>
          if x_capsule e then
            let e' := mk_export false (x_named e) (x_deleted e) in
            let s' := with_export s k e' in
            Some (if x_named e then deleter s' k e' else Ok s')
          else None
      | None => None
      end
  | L_done k =>
      match nth_error (l_exports s) k with
      | Some e => if negb (x_named e) && negb (x_deleted e) then Some (deleter s k e) else None
      | None => None
      end
  end.

(* A history of events that can happen. *)
Fixpoint life_run (s : life) (l : list life_event) : option (res life) :=
  match l with
  | [] => Some (Ok s)
  | ev :: l' =>
      match life_step s ev with
      | Some (Ok s') => life_run s' l'
      | Some r => Some r
      | None => None
      end
  end.

(* ---------------- strings ---------------- *)

(* Python objects: a str, with its UTF-8 form if it has one; bytes; anything else. *)
Inductive pyobj := Py_str (utf8 : option (list byte)) | Py_bytes (b : list byte) | Py_other.

(* pybind11's conversion of an object to std::string. *)
Definition cast_string (o : pyobj) : res (list byte) :=
  match o with
  | Py_str (Some b) => Ok b
  | Py_bytes b => Ok b
  | _ => Throw Other_err
  end.

(* mlio-py/mlio/core/py_buffer.cc:246-274: an array of strings from the objects of a buffer. *)
Fixpoint make_string_list (objs : list pyobj) : res (list (list byte)) :=
  match objs with
  | [] => Ok []
  | o :: objs' => let* s := cast_string o in let* l := make_string_list objs' in Ok (s :: l)
  end.
Definition make_string_array (objs : list pyobj) (cpy : bool) : res (list (list byte)) :=
  if cpy then make_string_list objs else Throw Invalid_argument.

Section Strings.
  (* Whether a byte string is valid UTF-8. *)
  Variable valid : list byte -> bool.

  (* pybind11::str of a std::string. *)
  Definition make_str (s : list byte) : option pyobj := if valid s then Some (Py_str (Some s)) else None.

  (* mlio-py/mlio/core/py_device_array.cc:49-60: the loop; the objects made before the first failure stay. *)
  Fixpoint fill (strings : list (list byte)) : list pyobj * bool :=
    match strings with
    | [] => ([], true)
    | s :: rest =>
        match make_str s with
        | None => ([], false)
        | Some o => let '(os, ok) := fill rest in (o :: os, ok)
        end
    end.

  (* py_device_array.h:72-74: the strings of the tensor and string_buf_. *)
  Record string_view := mk_view { v_strings : list (list byte); v_buf : list pyobj }.

  (* One use of the buffer: py_device_array.cc:36-64 data and 68-139 to_py_buffer; the user then reads as many objects as the
     array has strings.  Reading beyond string_buf_ is undefined; a null pointer comes with a Python error. *)
  Definition look (v : string_view) : res (list pyobj) * string_view :=
    let '(buf, ok) := match v_buf v with [] => fill (v_strings v) | b => (b, true) end in
    let v' := mk_view (v_strings v) buf in
    if negb ok then (Throw Other_err, v')
    else (if (length buf <? length (v_strings v))%nat then UB else Ok (firstn (length (v_strings v)) buf), v').

  (* Using the buffer [n] times. *)
  Fixpoint looks (n : nat) (v : string_view) : list (res (list pyobj)) :=
    match n with
    | O => []
    | S n' => let '(r, v') := look v in match r with UB => [UB] | _ => r :: looks n' v' end
    end.
End Strings.

(* What a Python programmer expects of buffers, stores, streams, slices and views: every object
   is a place in the memory of a bytes or bytearray object, memory is never freed, and nobody
   counts references.  A bytearray cannot change its size while the program has a name for
   something that shows its memory. *)
From Verif Require Import Common Model_pymem.
Import List.
Local Open Scope nat_scope.

Record cell := mk_cell { c_bytes : list byte; c_fixed : bool; c_named : bool }.
Inductive role := R_store | R_stream (pos : nat) | R_slice | R_view.
(* A place is a cell, an offset and a length; a closed stream and an empty slice have none. *)
Definition place := (nat * nat * nat)%type.
Record thing := mk_thing { t_role : role; t_place : option place; t_named : bool }.
Record world := mk_world { cells : list cell; things : list thing }.
Definition empty_world : world := mk_world [] [].

Definition shows (c : nat) (t : thing) : bool :=
  t_named t && match t_place t with Some (c', _, _) => c' =? c | None => false end.
Definition used (w : world) (c : nat) : bool := existsb (shows c) (things w).

Definition the_cell (w : world) (c : nat) : option cell :=
  match nth_error (cells w) c with Some x => if c_named x then Some x else None | None => None end.
Definition the_thing (w : world) (i : nat) : option (role * option place) :=
  match nth_error (things w) i with Some t => if t_named t then Some (t_role t, t_place t) else None | None => None end.

Definition content (w : world) (c : nat) : list byte :=
  match nth_error (cells w) c with Some x => c_bytes x | None => [] end.
Definition at_place (w : world) (p : place) : list byte :=
  let '(c, off, len) := p in firstn len (skipn off (content w c)).

Definition write (w : world) (c off : nat) (d : list byte) : world :=
  match nth_error (cells w) c with
  | Some x => mk_world (upd c (mk_cell (patch (c_bytes x) off d) (c_fixed x) (c_named x)) (cells w)) (things w)
  | None => w
  end.
Definition add (w : world) (r : role) (p : option place) : world :=
  mk_world (cells w) (things w ++ [mk_thing r p true]).
Definition become (w : world) (i : nat) (r : role) (p : option place) (named : bool) : world :=
  mk_world (cells w) (upd i (mk_thing r p named) (things w)).

(* Reading from a stream into [room] bytes at [off] of the cell [c]. *)
Definition transfer (w : world) (i : nat) (src : place) (pos c off room : nat) : world * answer :=
  let '(c0, off0, len) := src in
  let last := Nat.min (pos + room) len in
  if room =? 0 then (w, Number 0)
  else (become (write w c off (at_place w (c0, off0 + pos, last - pos))) i (R_stream last) (Some src) true,
        Number (last - pos)).

Definition expect (w : world) (a : op) : world * answer :=
  match a with
  | New_owner fixed l => (mk_world (cells w ++ [mk_cell l fixed true]) (things w), Done)
  | Del_owner c =>
      match the_cell w c with
      | Some x => (mk_world (upd c (mk_cell (c_bytes x) (c_fixed x) false) (cells w)) (things w), Done)
      | None => (w, Error)
      end
  | Value c => match the_cell w c with Some x => (w, Bytes (c_bytes x)) | None => (w, Error) end
  | Put c j v =>
      match the_cell w c with
      | Some x => if c_fixed x || (length (c_bytes x) <=? j) then (w, Error) else (write w c j [v], Done)
      | None => (w, Error)
      end
  | Resize c l =>
      match the_cell w c with
      | Some x => if c_fixed x || used w c then (w, Error)
                  else (mk_world (upd c (mk_cell l false true) (cells w)) (things w), Done)
      | None => (w, Error)
      end
  | New_store c =>
      match the_cell w c with
      | Some x => (add w R_store (Some (c, 0, length (c_bytes x))), Done)
      | None => (w, Error)
      end
  | Open i =>
      match the_thing w i with
      | Some (R_store, p) => (add w (R_stream 0) p, Done)
      | _ => (w, Error)
      end
  | Read i n =>
      match the_thing w i with
      | Some (R_stream pos, Some (c, off, len)) =>
          let last := Nat.min (pos + n) len in
          if n =? 0 then (add w R_slice None, Done)
          else (add (become w i (R_stream last) (Some (c, off, len)) true) R_slice (Some (c, off + pos, last - pos)), Done)
      | _ => (w, Error)
      end
  | Read_into i c =>
      match the_thing w i, the_cell w c with
      | Some (R_stream pos, Some src), Some x =>
          if c_fixed x then (w, Error) else transfer w i src pos c 0 (length (c_bytes x))
      | _, _ => (w, Error)
      end
  | Read_view i v =>
      match the_thing w i, the_thing w v with
      | Some (R_stream pos, Some src), Some (R_view, p) =>
          match p with
          | Some (c, off, len) => transfer w i src pos c off len
          | None => (w, Number 0)
          end
      | _, _ => (w, Error)
      end
  | Seek i p =>
      match the_thing w i with
      | Some (R_stream _, Some (c, off, len)) => (become w i (R_stream (Nat.min p len)) (Some (c, off, len)) true, Done)
      | _ => (w, Error)
      end
  | Close i =>
      match the_thing w i with
      | Some (R_stream pos, _) => (become w i (R_stream pos) None true, Done)
      | _ => (w, Error)
      end
  | View i =>
      match the_thing w i with
      | Some (R_slice, p) => (add w R_view p, Done)
      | _ => (w, Error)
      end
  | Look v =>
      match the_thing w v with
      | Some (R_view, Some p) => (w, Bytes (at_place w p))
      | Some (R_view, None) => (w, Bytes [])
      | _ => (w, Error)
      end
  | Set_view v j x =>
      match the_thing w v with
      | Some (R_view, Some (c, off, len)) => if j <? len then (write w c (off + j) [x], Done) else (w, Error)
      | _ => (w, Error)
      end
  | Del i =>
      match the_thing w i with
      | Some (r, p) => (become w i r p false, Done)
      | None => (w, Error)
      end
  end.

Fixpoint expect_all (w : world) (p : list op) : world * list answer :=
  match p with
  | [] => (w, [])
  | a :: p => let '(w, x) := expect w a in let '(w, l) := expect_all w p in (w, x :: l)
  end.

(* A program that changes no bytes object: it writes through no view of one. *)
Definition writes_view (a : op) : bool :=
  match a with Read_view _ _ | Set_view _ _ _ => true | _ => false end.

(* A copy onto the memory it comes from, the case that std::copy leaves undefined: the
   destination begins inside the bytes to be read. *)
Definition overlaps (w : world) (a : op) : bool :=
  let clash i dst :=
    match the_thing w i with
    | Some (R_stream pos, Some (c, off, len)) =>
        let '(c', off', room) := dst in
        (c =? c') && (off + pos <=? off') && (off' <? off + Nat.min (pos + room) len)
    | _ => false
    end in
  match a with
  | Read_into i c =>
      match the_cell w c with Some x => negb (c_fixed x) && clash i (c, 0, length (c_bytes x)) | None => false end
  | Read_view i v =>
      match the_thing w v with Some (R_view, Some p) => clash i p | _ => false end
  | _ => false
  end.
(* Some step of the program does that. *)
Fixpoint overlapping (w : world) (p : list op) : bool :=
  match p with
  | [] => false
  | a :: p => overlaps w a || overlapping (fst (expect w a)) p
  end.

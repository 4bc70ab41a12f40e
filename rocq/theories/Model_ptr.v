(* Intrusive pointers and the reference counts of the objects they point to. *)
From Verif Require Import Common.

(* An object: its reference count (include/mlio/intrusive_ref_counter.h:71; that a count wraps at 2^64 is not modelled),
   how often it was deleted, and the intrusive pointers it has as members. *)
Record obj := mk_obj { o_cnt : nat; o_dels : nat; o_fields : list (option nat) }.
Definition heap := list obj.
Definition o_alive (b : obj) : bool := o_dels b =? 0.

(* Where a pointer is: a variable, or a member of an object. *)
Inductive slot := Root (r : nat) | Field (o k : nat).

(* The variables (None: not constructed or destroyed), the raw pointers that own a count after release(), the objects. *)
Record rstate := mk_rs { r_roots : list (option (option nat)); r_raws : list (option nat); r_heap : heap }.

Fixpoint upd {A} (n : nat) (x : A) (l : list A) : list A :=
  match n, l with
  | _, [] => []
  | O, _ :: t => x :: t
  | S n', h :: t => h :: upd n' x t
  end.

Definition targets (l : list (option nat)) : list nat :=
  flat_map (fun x => match x with Some o => [o] | None => [] end) l.

(* include/mlio/intrusive_ptr.h:176-181, intrusive_ref_counter.h:53-57.  Touching an object that was deleted is undefined. *)
Definition inc_ref (h : heap) (v : option nat) : res heap :=
  match v with
  | None => Ok h
  | Some o =>
    match nth_error h o with
    | Some b => if o_alive b then Ok (upd o (mk_obj (S (o_cnt b)) 0 (o_fields b)) h) else UB
    | None => UB
    end
  end.

(* One decrement, intrusive_ref_counter.h:59-65: fetch_sub, and deletion if the count was 1.  Answers the references
   that deletion gives up: a destructor destroys the members (other effects of destructors are not modelled).  To
   decrement a count of 0 would wrap; it is taken as undefined. *)
Definition dec_one (h : heap) (o : nat) : res (heap * list nat) :=
  match nth_error h o with
  | Some b =>
    if o_alive b then
      match o_cnt b with
      | O => UB
      | S O => Ok (upd o (mk_obj 0 (S (o_dels b)) (o_fields b)) h, targets (o_fields b))
      | S c => Ok (upd o (mk_obj c (o_dels b) (o_fields b)) h, [])
      end
    else UB
  | None => UB
  end.

(* The decrements that are due, one after the other, members of deleted objects first. *)
Fixpoint dec_all (fuel : nat) (h : heap) (todo : list nat) : res heap :=
  match todo with
  | [] => Ok h
  | o :: t =>
    match fuel with
    | O => Fuel
    | S f => let* (h1, more) := dec_one h o in dec_all f h1 (more ++ t)
    end
  end.

Fixpoint total (h : heap) : nat := match h with [] => 0 | b :: t => o_cnt b + total t end.

(* include/mlio/intrusive_ptr.h:183-188 *)
Definition dec_ref (h : heap) (v : option nat) : res heap := dec_all (total h) h (targets [v]).

(* Reading and writing a pointer; a variable that is not there and a member of a deleted object are undefined. *)
Definition get_slot (s : rstate) (x : slot) : res (option nat) :=
  match x with
  | Root r => match nth_error (r_roots s) r with Some (Some v) => Ok v | _ => UB end
  | Field o k =>
    match nth_error (r_heap s) o with
    | Some b => if o_alive b then match nth_error (o_fields b) k with Some v => Ok v | None => UB end else UB
    | None => UB
    end
  end.
Definition put_slot (s : rstate) (x : slot) (v : option nat) : res rstate :=
  match x with
  | Root r =>
    match nth_error (r_roots s) r with
    | Some (Some _) => Ok (mk_rs (upd r (Some v) (r_roots s)) (r_raws s) (r_heap s))
    | _ => UB
    end
  | Field o k =>
    match nth_error (r_heap s) o with
    | Some b =>
      if o_alive b then
        if k <? length (o_fields b) then
          Ok (mk_rs (r_roots s) (r_raws s) (upd o (mk_obj (o_cnt b) (o_dels b) (upd k v (o_fields b))) (r_heap s)))
        else UB
      else UB
    | None => UB
    end
  end.
Definition with_heap (s : rstate) (h : heap) : rstate := mk_rs (r_roots s) (r_raws s) h.
Definition new_root (s : rstate) (v : option nat) : rstate := mk_rs (r_roots s ++ [Some v]) (r_raws s) (r_heap s).

Definition opt_eqb (a b : option nat) : bool :=
  match a, b with Some x, Some y => x =? y | None, None => true | _, _ => false end.

(* include/mlio/intrusive_ptr.h:71-78 and 156-167 copy_assign *)
Definition copy_assign (s : rstate) (d x : slot) : res rstate :=
  let* v := get_slot s x in
  let* old := get_slot s d in
  if opt_eqb old v then Ok s
  else
    let* h1 := dec_ref (r_heap s) old in
    let* s2 := put_slot (with_heap s h1) d v in
    let* h3 := inc_ref (r_heap s2) v in
    Ok (with_heap s2 h3).

(* include/mlio/intrusive_ptr.h:104-111 and 169-174 move_assign *)
Definition move_assign (s : rstate) (d x : slot) : res rstate :=
  let* v := get_slot s x in
  let* old := get_slot s d in
  let* h1 := dec_ref (r_heap s) old in
  let* s2 := put_slot (with_heap s h1) d v in
  put_slot s2 x None.

Inductive rop :=
| R_make (fields : nat)        (* make_intrusive into a new variable, intrusive_ptr.h:236-241; the members are null *)
| R_null                       (* a new null pointer, 35-39 *)
| R_copy (x : slot)            (* copy construction of a variable, 48-60 *)
| R_move (x : slot)            (* move construction of a variable, 90-102 *)
| R_assign (d x : slot)        (* 71-88 *)
| R_move_assign (d x : slot)   (* 104-123 *)
| R_reset (d : slot)           (* = nullptr, 62-69 *)
| R_destroy (r : nat)          (* the destructor of a variable, 125-128 *)
| R_release (d : slot)         (* release() into a new raw pointer, 130-133 *)
| R_adopt (i : nat) (inc : bool)   (* wrap_intrusive of a raw pointer, 41-46 and 243-248; without counting it is used up *)
| R_use (x : slot).            (* operator-> and operator*, 145-153, and access to the object *)

Definition r_step (s : rstate) (o : rop) : res rstate :=
  match o with
  | R_make n =>
    let* h1 := inc_ref (r_heap s ++ [mk_obj 0 0 (repeat None n)]) (Some (length (r_heap s))) in
    Ok (new_root (with_heap s h1) (Some (length (r_heap s))))
  | R_null => Ok (new_root s None)
  | R_copy x =>
    let* v := get_slot s x in
    let* h1 := inc_ref (r_heap s) v in
    Ok (new_root (with_heap s h1) v)
  | R_move x =>
    let* v := get_slot s x in
    let* s1 := put_slot s x None in
    Ok (new_root s1 v)
  | R_assign d x => copy_assign s d x
  | R_move_assign d x => move_assign s d x
  | R_reset d =>
    let* old := get_slot s d in
    let* h1 := dec_ref (r_heap s) old in
    put_slot (with_heap s h1) d None
  | R_destroy r =>
    let* old := get_slot s (Root r) in
    let* h1 := dec_ref (r_heap s) old in
    Ok (mk_rs (upd r None (r_roots s)) (r_raws s) h1)
  | R_release d =>
    let* v := get_slot s d in
    let* s1 := put_slot s d None in
    Ok (mk_rs (r_roots s1) (r_raws s1 ++ [v]) (r_heap s1))
  | R_adopt i inc =>
    match nth_error (r_raws s) i with
    | None => UB
    | Some v =>
      if inc then
        let* h1 := inc_ref (r_heap s) v in
        Ok (new_root (with_heap s h1) v)
      else Ok (new_root (mk_rs (r_roots s) (upd i None (r_raws s)) (r_heap s)) v)
    end
  | R_use x =>
    let* v := get_slot s x in
    match v with
    | Some o =>
      match nth_error (r_heap s) o with Some b => if o_alive b then Ok s else UB | None => UB end
    | None => UB
    end
  end.

Fixpoint r_run (s : rstate) (ops : list rop) : res rstate :=
  match ops with
  | [] => Ok s
  | o :: t => let* s1 := r_step s o in r_run s1 t
  end.

Definition r_start : rstate := mk_rs [] [] [].

(* ---------------- Several threads ---------------- *)

(* The same operations cut at the accesses to the shared counts, to be interleaved: an assignment is K_drop of the old
   value (nobody else looks at the pointer meanwhile), the decrements that entails as K_work, one by one and in any
   order, and then K_copy or K_move into the pointer, which is null.  The list holds the decrements that are due. *)
Inductive kop :=
| K_null
| K_make (d : slot) (fields : nat)
| K_copy (d x : slot)
| K_move (d x : slot)
| K_drop (d : slot)
| K_work (i : nat).

Record kstate := mk_ks { k_state : rstate; k_due : list nat }.

Fixpoint del {A} (n : nat) (l : list A) : list A :=
  match n, l with
  | _, [] => []
  | O, _ :: t => t
  | S n', h :: t => h :: del n' t
  end.

Definition k_step (k : kstate) (o : kop) : res kstate :=
  let s := k_state k in
  match o with
  | K_null => Ok (mk_ks (new_root s None) (k_due k))
  | K_make d n =>
    let v := Some (length (r_heap s)) in
    let* h1 := inc_ref (r_heap s ++ [mk_obj 0 0 (repeat None n)]) v in
    let* s2 := put_slot (with_heap s h1) d v in
    Ok (mk_ks s2 (k_due k))
  | K_copy d x =>
    let* v := get_slot s x in
    let* s1 := put_slot s d v in
    let* h2 := inc_ref (r_heap s1) v in
    Ok (mk_ks (with_heap s1 h2) (k_due k))
  | K_move d x =>
    let* v := get_slot s x in
    let* s1 := put_slot s d v in
    let* s2 := put_slot s1 x None in
    Ok (mk_ks s2 (k_due k))
  | K_drop d =>
    let* v := get_slot s d in
    let* s1 := put_slot s d None in
    Ok (mk_ks s1 (targets [v] ++ k_due k))
  | K_work i =>
    match nth_error (k_due k) i with
    | None => UB
    | Some o =>
      let* (h1, more) := dec_one (r_heap s) o in
      Ok (mk_ks (with_heap s h1) (more ++ del i (k_due k)))
    end
  end.

Fixpoint k_run (k : kstate) (ops : list kop) : res kstate :=
  match ops with
  | [] => Ok k
  | o :: t => let* k1 := k_step k o in k_run k1 t
  end.

Definition k_start : kstate := mk_ks r_start [].

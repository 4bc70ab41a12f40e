(* The state of the process, read off what the program has done so far: h is always the operations before the one in question. *)
From Verif Require Import Common Model_proc.

(* The SDK is up: it has been initialized and not been deallocated since. *)
Definition up (h : list op) : Prop := exists a b, h = a ++ Initialize_aws :: b /\ ~ In Deallocate_aws b.

(* The number of clients made. *)
Definition is_make (o : op) : bool := match o with Make_client _ => true | _ => false end.
Definition made (h : list op) : nat := length (filter is_make h).

(* Client k, counted from 0, exists and can be used: made, and neither dropped nor the SDK deallocated since. *)
Definition usable (h : list op) (k : nat) : Prop :=
  exists a d b, h = a ++ Make_client d :: b /\ made a = k /\ ~ In Deallocate_aws b /\ ~ In (Drop_client k) b.

(* An operation installs an allocator: set_memory_allocator always, initialize the first time. *)
Inductive installs (h : list op) : op -> option alloc -> Prop :=
| I_set a : installs h (Set_allocator a) a
| I_first : ~ In Initialize h -> installs h Initialize (Some Default).

(* The allocator in use is the one installed last. *)
Definition in_use (h : list op) (a : option alloc) : Prop :=
  exists x o y, h = x ++ o :: y /\ installs x o a /\
    forall y1 o' y2 a', y = y1 ++ o' :: y2 -> ~ installs (x ++ o :: y1) o' a'.

(* What a program may do. *)
Inductive allowed (h : list op) : op -> Prop :=
| A_initialize : allowed h Initialize
| A_set a : allowed h (Set_allocator a)
| A_allocate a : in_use h (Some a) -> allowed h Allocate
| A_init_aws : allowed h Initialize_aws
| A_free_aws : allowed h Deallocate_aws
| A_make d : up h -> (d = true -> ~ In (Make_client true) h) -> allowed h (Make_client d)
| A_use k : usable h k -> allowed h (Use_client k)
| A_drop k : usable h k -> allowed h (Drop_client k).

(* What the operation does then. *)
Inductive does (h : list op) : op -> list effect -> Prop :=
| D_first : ~ In Initialize h -> does h Initialize []
| D_again : In Initialize h -> does h Initialize [Warned]
| D_set a : does h (Set_allocator a) []
| D_allocate a : in_use h (Some a) -> does h Allocate [Asked a]
| D_init_aws : ~ up h -> does h Initialize_aws [Sdk_init]
| D_init_aws_again : up h -> does h Initialize_aws [Warned]
| D_free_aws : up h -> does h Deallocate_aws [Sdk_shutdown]
| D_free_aws_again : ~ up h -> does h Deallocate_aws []
| D_make d : does h (Make_client d) [Sdk_used]
| D_use k : does h (Use_client k) [Sdk_used]
| D_drop k : does h (Drop_client k) [Sdk_used].

(* The calls of the SDK among the effects, and that they are right: initialized and shut down in turn, starting with the former. *)
Definition is_call (e : effect) : bool := match e with Sdk_init | Sdk_shutdown => true | _ => false end.
Inductive in_turn : bool -> list effect -> Prop :=
| T_end b : in_turn b []
| T_init r : in_turn true r -> in_turn false (Sdk_init :: r)
| T_shutdown r : in_turn false r -> in_turn true (Sdk_shutdown :: r).

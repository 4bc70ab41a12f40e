(* Compressed content and what a client receives. *)
From Verif Require Import Common Model_gzip.

Section Spec.
  Variable St : Type.
  Variable z_init : St.
  Variable z_step : St -> byte -> list byte * znext St.

  (* From the state [s] the bytes [cs] of a member decode to [out], and what follows is [e]. *)
  Inductive decodes : St -> list byte -> list byte -> znext St -> Prop :=
  | D_nil s : decodes s [] [] (Z_go s)
  | D_last s c o e : z_step s c = (o, e) -> (forall s', e <> Z_go s') -> decodes s [c] o e
  | D_more s c o s' cs os e : z_step s c = (o, Z_go s') -> decodes s' cs os e -> decodes s (c :: cs) (o ++ os) e.

  (* A sequence of complete members: compressed content and its decompression. *)
  Inductive compressed : list byte -> list byte -> Prop :=
  | C_end : compressed [] []
  | C_member m o cs os : decodes z_init m o Z_fin -> compressed cs os -> compressed (m ++ cs) (o ++ os).

  (* Complete members, then the beginning of one more. *)
  Definition truncated (content data : list byte) : Prop := exists cs os m o s,
    compressed cs os /\ m <> [] /\ decodes z_init m o (Z_go s) /\ content = cs ++ m /\ data = os ++ o.
  (* Complete members, then one that turns out to be invalid. *)
  Definition corrupt (content data : list byte) : Prop := exists cs os m o rest,
    compressed cs os /\ decodes z_init m o Z_bad /\ content = cs ++ m ++ rest /\ data = os ++ o.
End Spec.

(* What the client has received: the bytes of the reads that succeeded. *)
Fixpoint received (rs : list (res (N * list byte))) : list byte :=
  match rs with
  | Ok (_, bs) :: rs' => bs ++ received rs'
  | _ :: rs' => received rs'
  | [] => []
  end.
Definition prefix_of (a b : list byte) : Prop := exists c, b = a ++ c.
(* A read returned as many bytes as it says, at most [n]. *)
Definition served (n : N) (r : res (N * list byte)) : Prop :=
  exists bs, r = Ok (N.of_nat (length bs), bs) /\ (N.of_nat (length bs) <= n)%N.
(* Destinations that are not empty and have less than 2^32 bytes. *)
Definition usual (n : N) : Prop := (0 < n < 2 ^ 32)%N.

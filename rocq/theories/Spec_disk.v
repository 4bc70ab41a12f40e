(* What reading a local file promises while others change it. *)
From Verif Require Import Common Model_rec Model_strm Model_disk.

(* Others only append to the file, or put another file at its path. *)
Definition growing (a : act) : Prop := match a with Change (Append _) | Change Replace => True | Change _ => False | _ => True end.
Definition unchanging (a : act) : Prop := match a with Change Replace => True | Change _ => False | _ => True end.

(* What a stream over a content that never changes shows (C45 says what that is); slices keep their bytes. *)
Fixpoint expected (a : astream) (slices : list (list byte)) (l : list act) : list sight :=
  match l with
  | [] => []
  | Change _ :: l' => expected a slices l'
  | Look k :: l' => (match nth_error slices k with Some bs => Bytes bs | None => No_slice end) :: expected a slices l'
  | Call o :: l' =>
      let '(r, a') := a_do o a in
      match o, r with
      | S_read_slice _, Ok (Out_bytes bs) => Handle (length bs) :: expected a' (slices ++ [bs]) l'
      | _, _ => Answer r :: expected a' slices l'
      end
  end.

(* Only reading from the beginning to the end. *)
Definition reading (a : act) : Prop := match a with Change _ | Call (S_read _) => True | _ => False end.

(* The file after a history, and the bytes a history of reads has delivered. *)
Fixpoint file_after (file : list byte) (l : list act) : list byte :=
  match l with [] => file | Change c :: l' => file_after (changed file c) l' | _ :: l' => file_after file l' end.
Fixpoint delivered (s : list sight) : list byte :=
  match s with [] => [] | Answer (Ok (Out_bytes bs)) :: s' => bs ++ delivered s' | _ :: s' => delivered s' end.

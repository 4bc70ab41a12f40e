(* The stream that converts text to UTF-8: C47. *)
From Verif Require Import Common Model_rec Proof_rec Model_utf8 Spec_utf8 Proof_utf8.

(* A converter for the examples: Latin-1, and two bytes per character (little endian, no surrogates) for all other encodings. *)
Definition utf8_of (c : N) : list byte := 
  if (c <? 128)%N then [c] else if (c <? 2048)%N then [192 + c / 64; 128 + c mod 64]%N
  else [224 + c / 4096; 128 + c / 64 mod 64; 128 + c mod 64]%N.
Definition toy_cv (e : encoding) (s : nat) (inp : list byte) : cres nat :=
  match e, inp with
  | E_latin1, a :: _ => Cv_unit 1 (utf8_of a) s
  | _, [] => Cv_incomplete
  | _, [_] => Cv_incomplete
  | _, a :: b :: _ => if (b <? 216)%N || (223 <? b)%N then Cv_unit 2 (utf8_of (a + 256 * b)) s else Cv_invalid
  end.
Definition toy_open (e : encoding) : option nat := Some 0.
Lemma toy_converter : converter nat toy_cv.
Proof.
  intros e s inp N. destruct inp as [|a [|b inp]]; [congruence| |].
  - destruct e; cbn; try reflexivity. split; [lia|]. unfold utf8_of. split; [destruct (a <? 128)%N, (a <? 2048)%N; cbn; lia|reflexivity].
  - assert (L : length (utf8_of (a + 256 * b)) <= 4 /\ length (utf8_of a) <= 4) by (unfold utf8_of; destruct (_ <? 128)%N, (_ <? 2048)%N, (a <? 128)%N, (a <? 2048)%N; cbn; lia).
    destruct e; cbn [toy_cv app]; try (destruct (_ || _)%bool); try reflexivity; (split; [cbn; lia|]); (split; [lia|reflexivity]).
Qed.

(* A stream can be made whenever the platform has a converter for the encoding. *)
Theorem C47_made : forall St iconv_open default src given,
  iconv_open (effective given (i_content src)) <> None -> exists m, make_utf8_stream St iconv_open default src given = Ok m.
Proof. exact made_l. Qed.
Print Assumptions C47_made.

(* Every text has a conversion, up to its end or to where it becomes invalid. *)
Theorem C47_total : forall St cv, converter St cv -> forall e s content, exists out t, converts St cv e s content out t.
Proof. intros St cv G e s content. exact (converts_total St (fun _ => None) cv G e (length content) s content (le_n _)). Qed.
Print Assumptions C47_total.

(* The stream delivers the conversion of the whole content (in the given encoding or the one declared by the byte order mark),
   for every converter, every schedule of the source and all read sizes - except for Latin-1, and for short text from a source that
   cannot seek. *)
Theorem C47_delivered : forall St iconv_open cv, converter St cv -> forall default src given out t m ns, given <> Some E_latin1 ->
  in_utf8 St iconv_open cv (effective given (i_content src)) (i_content src) out t ->
  i_seekable src = true \/ given <> None \/ effective given (i_content src) = E_utf8 \/ 4 < length (i_content src) ->
  make_utf8_stream St iconv_open default src given = Ok m -> Forall (fun n => 0 < n) ns -> delivers out t ns (m_reads St cv ns m).
Proof. exact delivered_l. Qed.
Print Assumptions C47_delivered.

Definition wide : list byte := [255; 254; 65; 0; 233; 0; 66; 0]%N.
Example C47_case :
  converter nat toy_cv /\ effective None wide = E_utf16_le /\
  in_utf8 nat toy_open toy_cv E_utf16_le wide [239; 187; 191; 65; 195; 169; 66]%N T_complete /\
  (exists m, make_utf8_stream nat toy_open 7 (mk_source wide false [1; 1; 3; 1]) None = Ok m /\
     m_reads nat toy_cv [1; 2; 2; 2; 9; 9] m =
       [Ok [239%N]; Ok [187; 191]%N; Ok [65]%N; Ok [195; 169]%N; Ok [66]%N; Ok []]) /\
  (exists m, make_utf8_stream nat toy_open 7 (mk_source [65; 0; 233; 0; 66]%N true []) (Some E_utf16_le) = Ok m /\
     m_reads nat toy_cv [2; 2; 9] m = [Ok [65%N; 195%N]; Ok [169%N]; Throw Stream_err]).
Proof.
  split; [exact toy_converter|]. split; [reflexivity|]. split; [|split].
  - exists 0. split; [reflexivity|]. unfold wide.
    eapply (V_unit _ _ _ _ _ 2 [239; 187; 191]%N 0 [65; 195; 169; 66]%N); [discriminate|reflexivity|]. cbn [skipn].
    eapply (V_unit _ _ _ _ _ 2 [65]%N 0 [195; 169; 66]%N); [discriminate|reflexivity|]. cbn [skipn].
    eapply (V_unit _ _ _ _ _ 2 [195; 169]%N 0 [66]%N); [discriminate|reflexivity|]. cbn [skipn].
    eapply (V_unit _ _ _ _ _ 2 [66]%N 0 []); [discriminate|reflexivity|]. constructor.
  - eexists. split; [reflexivity|]. vm_compute. reflexivity.
  - eexists. split; [reflexivity|]. vm_compute. reflexivity.
Qed.

(* Short text (at most 4 bytes, hence a byte order mark and at most one character of UTF-16) from a source that cannot seek: the
   first read fails. *)
Theorem C47_short_refuted : forall St iconv_open cv default content sched m n, declared content <> E_utf8 -> length content <= 4 -> 0 < n ->
  make_utf8_stream St iconv_open default (mk_source content false sched) None = Ok m -> m_reads St cv [n] m = [Throw Stream_err].
Proof. exact short_l. Qed.
Print Assumptions C47_short_refuted.

Example C47_short_case : exists m,
  declared [255; 254; 65; 0]%N = E_utf16_le /\ in_utf8 nat toy_open toy_cv E_utf16_le [255; 254; 65; 0]%N [239; 187; 191; 65]%N T_complete /\
  make_utf8_stream nat toy_open 7 (mk_source [255; 254; 65; 0]%N false []) None = Ok m.
Proof.
  eexists. split; [reflexivity|]. split; [|reflexivity]. exists 0. split; [reflexivity|].
  eapply (V_unit _ _ _ _ _ 2 [239; 187; 191]%N 0 [65]%N); [discriminate|reflexivity|]. cbn [skipn].
  eapply (V_unit _ _ _ _ _ 2 [65]%N 0 []); [discriminate|reflexivity|]. constructor.
Qed.

(* Text declared as Latin-1 is not converted. *)
Theorem C47_latin1_refuted : exists content out m, in_utf8 nat toy_open toy_cv E_latin1 content out T_complete /\
  make_utf8_stream nat toy_open 0 (mk_source content true []) (Some E_latin1) = Ok m /\ m_reads nat toy_cv [9; 9] m = [Ok content; Ok []] /\ out <> content.
Proof.
  exists [233%N], [195; 169]%N, (M_same nat (mk_stream [233%N] [])). refine (conj _ (conj eq_refl (conj eq_refl _))); [|discriminate].
  exists 0. split; [reflexivity|]. eapply (V_unit _ _ _ _ _ 1 [195; 169]%N 0 []); [discriminate|reflexivity|]. constructor.
Qed.
Print Assumptions C47_latin1_refuted.

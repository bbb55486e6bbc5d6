(** C11, C12: src/data/base64.c *)
From Verif Require Import CBase Base64Model Base64Spec Base64Proof.

(** C11: for every byte string of at least two bytes (and below 768 MiB, where the int sizes are
    exact) the encoder produces exactly the RFC 4648 text, terminated, and decoding the produced buffer
    gives back the bytes and their number. *)
Theorem C11_base64_round_trip :
  forall src out plain : list Z,
  2 <= zlen src < 805306365 -> Forall is_byte src ->
  lcu_base64_encode_buf_size (zlen src) <= zlen out ->
  lcu_base64_decode_buf_size (zlen (b64_encode src)) <= zlen plain ->
  exists rest tl,
    lcu_base64_encode out src (zlen src) =
      Ret (b64_encode src ++ 0 :: rest, zlen (b64_encode src) + 1) /\
    lcu_base64_decode plain (b64_encode src ++ 0 :: rest) = Ret (src ++ 0 :: tl, zlen src).
Proof. exact roundtrip_lemma. Qed.
Print Assumptions C11_base64_round_trip.

(** C11, decoder alone: RFC 4648 text of every byte string, also of 0 or 1 bytes, decodes to that string. *)
Theorem C11_base64_decodes_rfc4648 :
  forall src plain rest : list Z, zlen src < 805306365 -> Forall is_byte src ->
  lcu_base64_decode_buf_size (zlen (b64_encode src)) <= zlen plain ->
  exists tl, lcu_base64_decode plain (b64_encode src ++ 0 :: rest) = Ret (src ++ 0 :: tl, zlen src).
Proof. exact roundtrip_rfc. Qed.
Print Assumptions C11_base64_decodes_rfc4648.

(** The encoder refuses every input of zero or one byte although RFC 4648 encodes them. *)
Theorem C11_short_input_refuted :
  forall src out : list Z, zlen src < 2 -> lcu_base64_encode out src (zlen src) = Ret (out, -1).
Proof. exact short_refused. Qed.
Print Assumptions C11_short_input_refuted.

(** C12, encoder: with a buffer of the announced size (or larger) it writes exactly the announced number
    of bytes, terminator included, and returns that number. *)
Theorem C12_encode_buf_size_exact :
  forall src out : list Z, 2 <= zlen src -> zlen src < 1610612730 -> Forall is_byte src ->
  lcu_base64_encode_buf_size (zlen src) <= zlen out ->
  lcu_base64_encode_buf_size (zlen src) = zlen (b64_encode src) + 1 /\
  exists rest, zlen rest = zlen out - (zlen (b64_encode src) + 1) /\
  lcu_base64_encode out src (zlen src) =
    Ret (b64_encode src ++ [0] ++ rest, lcu_base64_encode_buf_size (zlen src)).
Proof. exact encode_lemma. Qed.
Print Assumptions C12_encode_buf_size_exact.

(** C12, decoder: for any terminated byte string s whatsoever, followed by anything, a buffer of
    base64_decode_buf_size(strlen s) bytes suffices; the result is what the leading alphabet characters
    of s describe, whatever follows the terminator (no read past it), and no out-of-bounds access happens. *)
Theorem C12_decode_buf_size_sufficient :
  forall s rest out : list Z, Forall is_byte s -> zlen s < 1073741824 ->
  lcu_base64_decode_buf_size (zlen s) <= zlen out ->
  exists tl, zlen tl = zlen out - (zlen (digits_bytes (b64_digits s)) + 1) /\
   lcu_base64_decode out (s ++ 0 :: rest) =
     Ret (digits_bytes (b64_digits s) ++ 0 :: tl, zlen (digits_bytes (b64_digits s))).
Proof. exact decode_lemma. Qed.
Print Assumptions C12_decode_buf_size_sufficient.

(** "foobar!": encoding is "Zm9vYmFyIQ=="; a malformed text with a lone trailing digit *)
Example C11_case :
  let src := [102;111;111;98;97;114;33] in
  b64_encode src = [90;109;57;118;89;109;70;121;73;81;61;61] /\
  2 <= zlen src < 805306365 /\ Forall is_byte src /\
  lcu_base64_encode_buf_size (zlen src) = 13 /\ lcu_base64_decode_buf_size (zlen (b64_encode src)) = 10 /\
  lcu_base64_decode (repeat 7 10) ([90;109;57;118;89] ++ 0 :: [55]) = Ret ([102;111;111;0;7;7;7;7;7;7], 3).
Proof.
  cbv zeta. repeat match goal with |- _ /\ _ => split end; try (vm_compute; congruence).
  repeat constructor; vm_compute; congruence.
Qed.

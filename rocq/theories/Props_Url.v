(** C24, C25: src/net/url_encoder_decoder.c *)
From Verif Require Import CBase UrlModel UrlSpec UrlProof.

(** C24: with the recommended buffers (3*n+1 and n+1 bytes) encoding then decoding gives back the bytes,
    for every non-empty byte string (any bytes, NUL included). *)
Theorem C24_url_round_trip :
  forall src out1 out2 : list Z, Forall is_byte src -> 1 <= zlen src < 715827882 ->
  3 * zlen src + 1 <= zlen out1 < 9223372036854775808 -> zlen src + 1 <= zlen out2 <= 2147483648 ->
  exists enc rest1 rest2,
    enc = url_enc src /\ lcu_url_encode out1 (zlen out1) src (zlen src) = Ret (enc ++ 0 :: rest1, zlen enc) /\
    lcu_url_decode out2 (zlen out2) (enc ++ 0 :: rest1) (zlen enc) = Ret (src ++ 0 :: rest2, zlen src, zlen enc).
Proof. exact url_round_trip. Qed.
Print Assumptions C24_url_round_trip.

(** C25, encoder: [out] is the output buffer of the given size, [beyond] whatever follows it in memory,
    [suf] whatever follows the input. Success exactly when the text and its terminator fit; otherwise -2 or
    -3; in both cases [beyond] is untouched and nothing outside [src] is read. *)
Theorem C25_url_encode_fits :
  forall src suf out beyond : list Z,
  Forall is_byte src -> 1 <= zlen src -> 2 <= zlen out -> zlen out < 9223372036854775808 -> zlen (url_enc src) < 2147483648 ->
  (zlen (url_enc src) + 1 <= zlen out ->
   exists rest, zlen rest = zlen out - (zlen (url_enc src) + 1) /\
    lcu_url_encode (out ++ beyond) (zlen out) (src ++ suf) (zlen src) =
     Ret (url_enc src ++ 0 :: rest ++ beyond, zlen (url_enc src))) /\
  (zlen out < zlen (url_enc src) + 1 ->
   exists out' code, zlen out' = zlen out /\ (code = -2 \/ code = -3) /\
    lcu_url_encode (out ++ beyond) (zlen out) (src ++ suf) (zlen src) = Ret (out' ++ beyond, code)).
Proof. exact encode_url_lemma. Qed.
Print Assumptions C25_url_encode_fits.

(** C25, decoder: for every input string, valid or not, and every output size. *)
Theorem C25_url_decode_in_bounds :
  forall src suf out beyond : list Z,
  Forall is_byte src -> 1 <= zlen src < 9223372036854775808 -> 2 <= zlen out <= 2147483648 ->
  match url_dec (zlen out - 1) src with
  | Some (d, k) => zlen d + 1 <= zlen out /\ exists rest, zlen rest = zlen out - (zlen d + 1) /\
     lcu_url_decode (out ++ beyond) (zlen out) (src ++ suf) (zlen src) = Ret (d ++ 0 :: rest ++ beyond, zlen d, k)
  | None => exists out', zlen out' = zlen out /\
     lcu_url_decode (out ++ beyond) (zlen out) (src ++ suf) (zlen src) = Ret (out' ++ beyond, -2, 0)
  end.
Proof. exact decode_url_lemma. Qed.
Print Assumptions C25_url_decode_in_bounds.

(** C25: empty input or an output of fewer than two bytes is refused with -1 and nothing is written. *)
Theorem C25_url_bad_arguments :
  forall (src out : list Z) (osize : Z), zlen src < 1 \/ osize < 2 ->
  lcu_url_encode out osize src (zlen src) = Ret (out, -1) /\
  lcu_url_decode out osize src (zlen src) = Ret (out, -1, 0).
Proof. exact (fun src out osize H => conj (encode_url_args src out osize H) (decode_url_args src out osize H)). Qed.
Print Assumptions C25_url_bad_arguments.

(** "a b/" encodes to "a+b%2F" *)
Example C24_case :
  let src := [97;32;98;47] in
  Forall is_byte src /\ url_enc src = [97;43;98;37;50;70] /\
  lcu_url_encode (repeat 9 13) 13 src 4 = Ret ([97;43;98;37;50;70;0] ++ repeat 9 6, 6) /\
  lcu_url_encode (repeat 9 6) 6 src 4 = Ret ([97;43;98;9;9;9], -2) /\
  url_dec 3 [37;52;49;37;52] = Some ([65], 3).
Proof. cbv zeta. split; [repeat constructor; vm_compute; congruence|]. vm_compute. repeat split; reflexivity. Qed.

(** C19 - C22: src/mem/strings.c *)
From Verif Require Import CBase CStr StringsModel StringsSpec StringsProof StringsProof2.

(** C19, strlcpy: [dst] is the memory at the destination (at least [size] bytes), [t] the source text.
    The result is the longest prefix that fits with its terminator, nothing else of [dst] changes, and the
    return value is the source length. *)
Theorem C19_strlcpy :
  forall (t rs dst : list Z) (size : Z), text t -> 0 <= size <= zlen dst ->
  strlcpy dst (t ++ 0 :: rs) size =
    Ret (if size =? 0 then dst
         else ztake (size - 1) t ++ 0 :: zdrop (zlen (ztake (size - 1) t) + 1) dst, zlen t).
Proof. exact strlcpy_lemma. Qed.
Print Assumptions C19_strlcpy.

(** C19, strlcat onto a destination holding text [p]: the longest fitting prefix of [t] is appended; bytes
    past the new terminator keep their values; the return value is the untruncated length. *)
Theorem C19_strlcat :
  forall (p q t rs : list Z) (size : Z), text p -> text t -> zlen p < size <= zlen (p ++ 0 :: q) ->
  strlcat (p ++ 0 :: q) (t ++ 0 :: rs) size =
    Ret ((p ++ ztake (size - 1 - zlen p) t) ++ 0 :: zdrop (zlen (ztake (size - 1 - zlen p) t)) q, zlen p + zlen t).
Proof. exact strlcat_lemma. Qed.
Print Assumptions C19_strlcat.

(** C19, strlcat when the destination is not terminated within [size]: nothing is written. *)
Theorem C19_strlcat_unterminated :
  forall (p o t rs : list Z) (size : Z), text p -> text t -> size = zlen p ->
  strlcat (p ++ o) (t ++ 0 :: rs) size = Ret (p ++ o, size + zlen t).
Proof. exact strlcat_full. Qed.
Print Assumptions C19_strlcat_unterminated.

(** C19: truncation is reported exactly by a return value >= size (strlcpy). *)
Theorem C19_truncation_exact :
  forall (t rs dst : list Z) (size : Z), text t -> 1 <= size <= zlen dst ->
  exists m n, strlcpy dst (t ++ 0 :: rs) size = Ret (m, n) /\ (n < size <-> ztake (zlen t + 1) m = t ++ [0]).
Proof.
  exact (fun t rs dst size T H => truncation_exact t rs dst size T H).
Qed.
Print Assumptions C19_truncation_exact.

(** C20: the result is the unique leftmost non-overlapping replacement, in a buffer of exactly its length
    plus one; None (NULL) exactly when the allocation fails. *)
Theorem C20_strreplace :
  forall (malloc : Z -> option (list Z)) (o p r : list Z) (fuel : nat),
  (forall k b, malloc k = Some b -> zlen b = k) -> p <> [] -> zlen o <= Z.of_nat fuel ->
  (forall out, replaced p r o out -> zlen out + 1 < two64) ->
  exists out, replaced p r o out /\ (forall out', replaced p r o out' -> out' = out) /\
    strreplace malloc fuel o p r =
      Ret (match malloc (zlen out + 1) with Some _ => Some (out ++ [0]) | None => None end).
Proof. exact strreplace_lemma. Qed.
Print Assumptions C20_strreplace.

(** Outside C20's precondition: with an empty pattern the call never ends, whatever the text. *)
Theorem C20_empty_pattern_never_returns :
  forall (malloc : Z -> option (list Z)) (o r : list Z) (fuel : nat), strreplace malloc fuel o [] r = NoFuel.
Proof. exact strreplace_empty. Qed.
Print Assumptions C20_empty_pattern_never_returns.

(** C21, strsplit: the stored pointers are, in order, the first [cap] maximal delimiter-free pieces. *)
Theorem C21_strsplit :
  forall (s r d : list Z) (cap : Z), text s ->
  exists buf' toks, strsplit (s ++ 0 :: r) d cap = Ret (buf', toks) /\
    zlen buf' = zlen (s ++ 0 :: r) /\
    Forall2 (fun t p => cstr_at buf' t = Ret p) toks (ztake cap (pieces d s)).
Proof. exact strsplit_lemma. Qed.
Print Assumptions C21_strsplit.

(** C21, strtrim: exactly the leading and trailing bytes of the set are removed, in place. *)
Theorem C21_strtrim :
  forall t r set : list Z, text t ->
  exists rest, zlen rest = zlen t - zlen (trimmed set t) /\
    strtrim (t ++ 0 :: r) set = Ret (trimmed set t ++ 0 :: rest ++ r).
Proof. exact strtrim_lemma. Qed.
Print Assumptions C21_strtrim.

(** C21, UTF-8 counting. *)
Theorem C21_strnutf8len :
  forall (t r : list Z) (maxc : Z), text t -> Forall is_byte t ->
  strnutf8len (t ++ 0 :: r) maxc = Ret (code_points (ztake maxc t)).
Proof. exact strnutf8len_lemma. Qed.
Print Assumptions C21_strnutf8len.
Theorem C21_strutf8len :
  forall t r : list Z, text t -> Forall is_byte t -> strutf8len (t ++ 0 :: r) = Ret (code_points t).
Proof. exact strutf8len_lemma. Qed.
Print Assumptions C21_strutf8len.

(** Refutes "strnutf8len reads only the first n bytes": on a buffer of n non-NUL bytes it reads one byte past. *)
Theorem C21_strnutf8len_overread_refuted :
  forall t : list Z, text t -> Forall is_byte t -> strnutf8len t (zlen t) = Ub.
Proof. exact utf8_unterminated. Qed.
Print Assumptions C21_strnutf8len_overread_refuted.

(** C22 where it holds: a buffer of at least 3n+2 bytes gets the full dump. *)
Theorem C22_char2hex :
  forall chars suf out beyond : list Z, 3 * zlen chars + 2 <= zlen out -> zlen out < two64 ->
  exists rest, zlen rest = zlen out - 3 * zlen chars - 1 /\
  str_char2hex (out ++ beyond) (zlen out) (chars ++ suf) (zlen chars) =
    Ret (hex_text chars ++ 0 :: rest ++ beyond, 3 * zlen chars).
Proof. exact char2hex_ok. Qed.
Print Assumptions C22_char2hex.

(** With the documented size 3n+1 the last hex digit is dropped although the full length is returned. *)
Theorem C22_documented_size_refuted :
  forall (chars : list Z) (c : Z) (suf beyond out : list Z),
  zlen out = 3 * zlen (chars ++ [c]) + 1 -> zlen out < two64 ->
  exists last,
  str_char2hex (out ++ beyond) (zlen out) (chars ++ c :: suf) (zlen (chars ++ [c])) =
    Ret (hex_text chars ++ [32; hexl (c / 16); 0; last] ++ beyond, 3 * zlen (chars ++ [c])).
Proof. exact char2hex_documented_size. Qed.
Print Assumptions C22_documented_size_refuted.

(** Refutes "never writes outside the capacity": with any capacity between 6 and 3n, the call writes outside. *)
Theorem C22_truncation_overflows_refuted :
  forall chars out : list Z, 6 <= zlen out -> zlen out <= 3 * zlen chars -> zlen chars < 1000000000000000000 ->
  str_char2hex out (zlen out) chars (zlen chars) = Ub.
Proof. exact char2hex_overflow. Qed.
Print Assumptions C22_truncation_overflows_refuted.

(** The remaining capacities: 0..2 with a dump that does not fit writes outside too; 3..5 is safe but yields only the
    beginning of the notice, and the returned length is that of the whole notice. *)
Theorem C22_tiny_capacity_overflows_refuted :
  forall chars out : list Z, zlen out <= 2 -> zlen out <= 3 * zlen chars -> zlen chars < 1000000000000000000 ->
  str_char2hex out (zlen out) chars (zlen chars) = Ub.
Proof. exact char2hex_0_2. Qed.
Print Assumptions C22_tiny_capacity_overflows_refuted.
Theorem C22_tiny_capacity :
  forall chars out beyond : list Z, 3 <= zlen out <= 5 -> zlen out <= 3 * zlen chars -> zlen chars < 1000000000000000000 ->
  exists last, str_char2hex (out ++ beyond) (zlen out) chars (zlen chars) =
    Ret (ztake (zlen out - 2) [104;101;120] ++ 0 :: last :: beyond, 16 + zlen (decimal (zlen chars))).
Proof. exact char2hex_tiny. Qed.
Print Assumptions C22_tiny_capacity.

Example C19_case : text [97;98;99] /\ strlcpy [9;9;9;9] [97;98;99;0] 3 = Ret ([97;98;0;9], 3) /\
  strlcat [97;0;9;9;9] [98;99;100;0] 4 = Ret ([97;98;99;0;9], 4).
Proof. split; [repeat constructor; lia|split; reflexivity]. Qed.
Example C20_case : strreplace (fun k => Some (repeat 9 (Z.to_nat k))) 10 [97;98;97;98;99] [97;98] [120] = Ret (Some [120;120;99;0]).
Proof. reflexivity. Qed.
Example C21_case : pieces [44] [44;97;44;44;98;99] = [[97];[98;99]] /\ trimmed [32] [32;97;32;98;32] = [97;32;98] /\
  strsplit [44;97;44;44;98;99;0] [44] 5 = Ret ([44;97;0;44;98;99;0], [1;4]) /\
  strtrim [32;97;32;98;32;0] [32] = Ret [97;32;98;0;32;0] /\ strnutf8len [228;189;160;0] 9 = Ret 1.
Proof. vm_compute. repeat split; reflexivity. Qed.
Example C22_case : str_char2hex (repeat 9 8) 8 [1;171] 2 = Ret ([32;48;49;32;97;98;0;9], 6) /\ hex_text [1;171] = [32;48;49;32;97;98] /\
  str_char2hex (repeat 9 6) 6 [1;171] 2 = Ub.
Proof. split; [|split]; [vm_compute; reflexivity..|]. apply (C22_truncation_overflows_refuted [1;171] (repeat 9 6)); vm_compute; congruence. Qed.

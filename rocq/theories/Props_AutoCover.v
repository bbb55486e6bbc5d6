(** C09: autocover_buffer.c *)
From Verif Require Import CBase RingBuffer2Model AutoCoverModel AutoCoverSpec RingBuffer2Proof AutoCoverProof AutoCoverProof2.

(** C09, total: through every history of writes (none larger than the buffer), reads and queries at ANY
    positions the buffer shows its caller exactly what the stream specification [ac_exact_step] says:
    the bytes of the stream from the aliased position on, -4 or -3. *)
Theorem C09_autocover_exact :
  forall (A : Type) (calloc : Z -> option (list A)) (n : Z) (ops : list (acop A)),
  (forall k b, calloc k = Some b -> zlen b = k) -> 3 <= n <= 1073741824 ->
  exists k, 1 <= k <= 30 /\ 2 ^ (k - 1) < n <= 2 ^ k /\
  (calloc (24 + 2 ^ k) <> None -> Forall (ac_ok_op (2 ^ k)) ops ->
   exists b b', ac_create true calloc n = Ret (Some b) /\
     ac_run b ops = Ret (b', snd (ac_exact_run (2 ^ k) (mk_stream [] 0) ops))).
Proof. exact @ac_create_exact. Qed.
Print Assumptions C09_autocover_exact.

(** For positions among the last cap-1 written that specification is the documented one: the bytes
    written at positions p..p+n-1, NOT_ENOUGH when not all are written, COVERED when overwritten or
    consumed. *)
Theorem C09_recent_answers :
  forall (A : Type) (s : stream A) (cap p : Z), 0 < cap -> zlen (st_all s) - cap < p < zlen (st_all s) ->
  ac_answer cap s p = if p <? st_lo s then -3 else zlen (st_all s) - p.
Proof. exact @answer_recent. Qed.
Print Assumptions C09_recent_answers.
Theorem C09_autocover_recent_positions :
  forall (A : Type) (calloc : Z -> option (list A)) (n : Z) (ops : list (acop A)),
  (forall k b, calloc k = Some b -> zlen b = k) -> 3 <= n <= 1073741824 ->
  exists k, 1 <= k <= 30 /\ 2 ^ (k - 1) < n <= 2 ^ k /\
  (calloc (24 + 2 ^ k) <> None -> ac_valid_run (2 ^ k) (mk_stream [] 0) ops ->
   exists b b', ac_create true calloc n = Ret (Some b) /\
     ac_run b ops = Ret (b', snd (ac_spec_run (2 ^ k) (mk_stream [] 0) ops))).
Proof. exact @ac_create_lemma. Qed.
Print Assumptions C09_autocover_recent_positions.

(** A position overwritten long ago is not reported as COVERED: it aliases a newer position. *)
Theorem C09_covered_position_refuted :
  ac_run ac_demo [AWrite [1;2;3;4] 4; AWrite [5;6;7;8] 4; ARead 0 [0;0] 2] =
  Ret (mk_acb (mk_rb true 8 6 4 [5;6;7;8]) 4, [(4,None);(4,None);(2,Some [5;6])]).
Proof. exact ac_alias_witness. Qed.
Print Assumptions C09_covered_position_refuted.

(** The position just past the newest byte is answered COVERED, NOT_ENOUGH or with old data,
    depending on the layout. *)
Theorem C09_end_position_refuted :
  (exists b, ac_run ac_demo [AWrite [1;2] 2; ARead 2 [0] 1] = Ret (b, [(2,None);(-3,Some [0])])) /\
  (exists b, ac_run ac_demo [AWrite [1;2;3] 3; ARead 2 [0] 1; AWrite [4;5] 2; ARead 5 [0] 1] =
             Ret (b, [(3,None);(1,Some [3]);(2,None);(-4,Some [0])])) /\
  (exists b, ac_run ac_demo [AWrite [1;2;3;4] 4; ARead 4 [0] 1] = Ret (b, [(4,None);(1,Some [1])])).
Proof. exact ac_end_witness. Qed.
Print Assumptions C09_end_position_refuted.

(** A write larger than the capacity aborts the program (in every reachable state). *)
Theorem C09_oversized_write_aborts :
  forall (A : Type) (b : acb A) (s : stream A) (src : list A) (n : Z),
  ac_inv b s -> rb_size (ac_ring b) < n < two32 -> n <= zlen src ->
  ac_write b (Some src) n = Abrt.
Proof. exact @ac_write_too_big. Qed.
Print Assumptions C09_oversized_write_aborts.

Example C09_case :
  let ops := [AWrite [1;2;3] 3; ARead 1 [0;0] 1; AWrite [4;5;6] 3; AAvail 3; ARead 3 [9;9] 2; ARead 4 [9] 1; ARead 5 [7;7;7] 3] in
  ac_valid_run 4 (mk_stream [] 0) ops /\
  snd (ac_spec_run 4 (mk_stream [] 0) ops) =
   [(3,None);(1,Some [2;0]);(3,None);(3,None);(2,Some [4;5]);(-3,Some [9]);(-4,Some [7;7;7])] /\
  ac_inv ac_demo (mk_stream [] 0).
Proof.
  cbv zeta. split; [vm_compute; repeat split; congruence|]. split; [vm_compute; reflexivity|].
  split; [|vm_compute; repeat split; congruence].
  split; [exists 2; vm_compute; repeat split; congruence|vm_compute; repeat split; congruence].
Qed.

(** positions outside the recent ones: an old one aliases, the end position gives -3 or 0 *)
Example C09_exact_case :
  let ops := [AWrite [1;2;3] 3; AAvail 3; ARead 1 [0;0] 1; AWrite [4;5;6] 3; AAvail 6; ARead (-1) [9;9] 2; AAvail 2] in
  Forall (ac_ok_op 4) ops /\
  snd (ac_exact_run 4 (mk_stream [] 0) ops) =
   [(3,None);(-3,None);(1,Some [2;0]);(3,None);(4,None);(2,Some [4;5]);(-3,None)].
Proof. cbv zeta. split; [repeat constructor; vm_compute; congruence|vm_compute; reflexivity]. Qed.

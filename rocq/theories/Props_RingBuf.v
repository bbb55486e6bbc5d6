(** C01, C02: ring_buf.c *)
From Verif Require Import CBase RingBufModel RingBufSpec RingBufProof.

(** C01 + C02. On every block large enough for the control structure (40 bytes) and 3 data bytes,
    every history of calls returns normally (no access outside the block) and shows its caller
    exactly what the bounded all-or-nothing FIFO of capacity size-1 would show. *)
Theorem C01_ring_buf_is_bounded_fifo :
  forall (A : Type) (m : list A) (ops : list (op A)),
  43 <= zlen m < 9223372036854775808 -> Forall valid_op ops ->
  exists h, create_with_mem (Some m) (zlen m) = Ret (Some h) /\
  exists h', run h ops = Ret (h', snd (spec_run (zlen m - 40 - 1) [] ops)) /\
             zlen (rg_mem h') = zlen m - 40.
Proof. exact @ring_buf_fifo_lemma. Qed.
Print Assumptions C01_ring_buf_is_bounded_fifo.

Example C01_case :
  let m := repeat 0 44 in (* 4 data bytes, so capacity 3 *)
  let ops := [OWrite [1;2;3] 3; ORead (Some [9;9;9]) 2; OWrite [4;5] 2; OAvailRead; OWrite [6] 1;
              OPeek (Some [9;9;9;9]) 3; ODiscard 1; ORead (Some [8;8]) 2; OAvailWrite] in
  43 <= zlen m < 9223372036854775808 /\ Forall valid_op ops /\
  snd (spec_run (zlen m - 40 - 1) [] ops) =
   [(3, None); (2, Some [1;2;9]); (2, None); (3, None); (0, None); (3, Some [3;4;5;9]); (1, None);
    (2, Some [4;5]); (3, None)].
Proof.
  cbv zeta. split; [vm_compute; split; congruence|]. split; [|vm_compute; reflexivity].
  repeat constructor; vm_compute; congruence.
Qed.

(** C02: which blocks are accepted. *)
Theorem C02_ring_buf_create_with_mem_accepts :
  forall (A : Type) (m : list A), zlen m < 9223372036854775808 ->
  create_with_mem (Some m) (zlen m) =
  if zlen m <? 43 then Ret None
  else Ret (Some (mk_ring false (zdrop 40 m) (zlen m - 40) 0 0)).
Proof. exact @create_with_mem_cases. Qed.
Print Assumptions C02_ring_buf_create_with_mem_accepts.

(** C02: ring_buf_create - sizes below 3 and allocation failure give no handle; every other size
    gives a FIFO of capacity size-1. *)
Theorem C02_ring_buf_create :
  forall (A : Type) (malloc : Z -> option (list A)) (size : Z),
  (forall n b, malloc n = Some b -> zlen b = n) ->
  0 <= size < 9223372036854775808 - 40 ->
  (size < 3 -> create malloc size = Ret None) /\
  (3 <= size -> malloc (size + 40) = None -> create malloc size = Ret None) /\
  (3 <= size -> malloc (size + 40) <> None ->
     forall ops, Forall valid_op ops ->
     exists h h', create malloc size = Ret (Some h) /\ run h ops = Ret (h', snd (spec_run (size - 1) [] ops))).
Proof. exact @ring_buf_create_lemma. Qed.
Print Assumptions C02_ring_buf_create.

Example C02_case : (* a malloc meeting the hypothesis *)
  forall n b, (fun k => if k <? 0 then None else Some (repeat 0 (Z.to_nat k))) n = Some b -> zlen b = n.
Proof.
  intros n b; cbn beta. destruct (n <? 0) eqn:E; [discriminate|]. intro H; injection H as <-.
  rewrite zlen_repeat; lia.
Qed.

(** C75: the tracked allocator (lcu_malloc, lcu_calloc, lcu_realloc, lcu_free, the leak check) used by any number of threads. *)
From Verif Require Import CBase CStr AllocModel AlMtModel AlMtSpec AlMtProof6 AlMtProof5.

(** C75: while callers keep the rules (AlMtModel.allowed), no step of any thread, in any schedule, is undefined or aborts. *)
Theorem C75_no_fault : forall (s : st) (t : nat) (ch : choice) (o : outcome st), reach fits s -> fits s ch -> tick t ch s = Go o -> exists s', o = Ret s'.
Proof. exact no_fault. Qed.
Print Assumptions C75_no_fault.

(** C75: at any moment the pointers that callers hold are distinct, each has its block with both canaries in place, and is in the tracker's map with its size. *)
Theorem C75_held_blocks : forall s : st, reach fits s ->
  NoDup (map fst (held s)) /\
  forall p n, List.In (p, n) (held s) -> 8 < p /\ (exists u, block_of s p n u) /\ exists e, List.In (p, e) (tmap s) /\ recs s e = Some (mk_rec ALLOCTOR_ID n false p).
Proof. intros s R. split; [exact (held_nodup s R)|]. intros p n. exact (held_block s p n R). Qed.
Print Assumptions C75_held_blocks.

(** C75: nothing but the program's own write changes the bytes of a held block. *)
Theorem C75_undisturbed : forall (s : st) (t : nat) (ch : choice) (s' : st) (p n : Z) (u : list Z),
  reach fits s -> fits s ch -> tick t ch s = Go (Ret s') -> List.In (p, n) (held s) -> block_of s p n u ->
  match ch with CWrite p' off bytes => block_of s' p n (if p' =? p then zwrite off bytes u else u) | _ => block_of s' p n u end.
Proof. exact undisturbed. Qed.
Print Assumptions C75_undisturbed.

(** C75: whatever the other threads do between its steps, lcu_realloc of a held pointer keeps the contents: on return the caller holds either
    the old block with its n bytes or a larger new one that begins with them. *)
Theorem C75_realloc_keeps : forall (s0 : st) (t : nat) (p n : Z) (u : list Z) (size : Z) (s1 s s' : st),
  reach fits s0 -> List.In (p, n) (held s0) -> block_of s0 p n u -> allowed s0 (CRealloc p size) -> 0 < size ->
  tick t (CCall (CRealloc p size)) s0 = Go (Ret s1) -> during t s1 s -> pcs s t <> Idle -> tick t CGo s = Go (Ret s') -> pcs s' t = Idle ->
  exists p' n' u', List.In (p', n') (held s') /\ block_of s' p' n' u' /\ n <= n' /\ ztake n u' = u /\ (p' = p -> n' = n).
Proof. exact realloc_keeps. Qed.
Print Assumptions C75_realloc_keeps.

(** C75: when no call is running, the map, the records and the C library's blocks are exactly those of the held pointers: nothing leaks. *)
Theorem C75_quiet : forall s : st, reach fits s -> (forall u, pcs s u = Idle) ->
  lock s = None /\ Permutation (map fst (tmap s)) (map fst (held s)) /\
  (forall a b, heap s a = Some b -> exists n, List.In (a + 8, n) (held s)) /\
  (forall e r, recs s e = Some r -> exists p n, List.In (p, n) (held s) /\ List.In (p, e) (tmap s) /\ r = mk_rec ALLOCTOR_ID n false p).
Proof. exact quiet. Qed.
Print Assumptions C75_quiet.

(** C75: every finished leak check reported each pointer at most once, with its size, all that were held all the time, none that was not live
    when it was called, and the sum of the reported sizes, even when other threads freed meanwhile. *)
Theorem C75_reports : forall s : st, reach fits s -> Forall report_ok (done s).
Proof. exact reports. Qed.
Print Assumptions C75_reports.

(** C75: a thread inside a call can go on, or the thread in the leak check can. *)
Theorem C75_progress : forall (s : st) (u : nat), reach fits s -> pcs s u <> Idle ->
  exists t ch s', pcs s t <> Idle /\ (t = u \/ lock s = Some t) /\ fits s ch /\ tick t ch s = Go (Ret s').
Proof. exact progress. Qed.
Print Assumptions C75_progress.

(** Refutes that the leak check may run while another thread allocates: the record is in the map before its pointer is set, so the check looks
    for canaries next to NULL; or the canaries are not written yet, so it aborts. *)
Theorem C75_leak_check_during_malloc_refuted :
  (exists s, reach overlap s /\ tick 1 CGo s = Go Ub) /\ (exists s, reach overlap s /\ tick 1 CGo s = Go Abrt).
Proof. exact (conj leak_ub leak_abrt). Qed.
Print Assumptions C75_leak_check_during_malloc_refuted.

(** Refutes that a double free is always caught: two threads that free the same pointer at the same time make one of them use the record
    after it was freed. *)
Theorem C75_double_free_refuted : exists s, reach twice s /\ tick 1 CGo s = Go Ub.
Proof. exact twice_ub. Qed.
Print Assumptions C75_double_free_refuted.

(** a run within the rules: two threads allocate at the same time, one resizes and frees while the other checks for leaks *)
Example C75_example : exists s, reach fits s /\ held s = [(2008, 4)] /\ done s = [mk_report [(2008, 4); (5008, 2098)] [(2008, 4)] [(5008, 2098); (2008, 4)] 2102].
Proof.
  assert (X : match play 0 good_run2 boot with Some s => held s = [(2008, 4)] /\ done s = [mk_report [(2008, 4); (5008, 2098)] [(2008, 4)] [(5008, 2098); (2008, 4)] 2102] | None => False end) by (vm_compute; auto).
  destruct (play 0 good_run2 boot) as [s|] eqn:P; [|contradiction]. exists s. split; [|exact X]. exact (proj1 (play_reach 0 good_run2 boot s (r_boot _) (fun u _ => eq_refl) P)).
Qed.

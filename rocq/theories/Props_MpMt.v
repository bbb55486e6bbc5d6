(** C77: src/mem/mplite.c with the lock of mplite_setlock, used by several threads *)
From Verif Require Import CBase SeqLib MpliteModel MpliteSpec MpliteProof5 MpliteProof6 Props_Mplite MpMtModel MpMtSpec MpMtProof MpMtProof4 MpMtProof5 MpMtProof6 MpMtProof7 MpMtProof8.

(** C77: no schedule of callers that keep to the rules reads or writes outside the pool or its tables, fails an ASSERT, or overflows an int. *)
Theorem C77_no_fault :
  forall (buf : list Z) (size min : Z) (h0 : mp) (s : st) (t : nat) (ch : choice), pool buf size min h0 -> reach true h0 s -> allowed s ch -> ~ faults true t ch s.
Proof.
  intros buf size min h0 s t ch P R AL (o & T & N). destruct (pool_cinv _ _ _ _ P) as (_ & _ & k & CI & _). destruct (inv_reach k h0 s CI R) as (hl & I). destruct (inv_tick _ _ _ _ _ _ _ I AL T) as (s' & hl' & -> & _). exact (N s' eq_refl).
Qed.
Print Assumptions C77_no_fault.

(** C77: every call takes effect in one go at one moment between its call and its return, with the result it returns, as if the calls ran one after the
    other on the sequential pool of C26-C28; when no thread is inside the lock the pool is exactly the one these calls make. *)
Theorem C77_one_after_the_other :
  forall (buf : list Z) (size min : Z) (h0 : mp) (s : st), pool buf size min h0 -> reach true h0 s ->
  (exists h, serial h0 (log s) h (live s) /\ MpliteSpec.reach h0 h (live s) /\ (holder s = None -> obj s = h)) /\
  (forall t, exists p, phases t PNone (log s) p /\ (pcs s t = Idle -> p = PNone) /\ forall c, pending (pcs s t) = Some c -> p = PCalled c).
Proof.
  intros buf size min h0 s P R. destruct (pool_cinv _ _ _ _ P) as (_ & _ & k & CI & _). destruct (inv_reach k h0 s CI R) as (hl & I). split.
  - exists hl. split; [apply I|]. split; [eapply serial_reach; apply I|]. intro HO. pose proof (i_hold _ _ _ _ I) as H. rewrite HO in H. apply H.
  - intro t. destruct (i_ph _ _ _ _ I t) as (p & PH & O). exists p. split; [exact PH|]. split; [intro E; rewrite E in O; exact O|]. intros c E. destruct (pcs s t); cbn [pending ph_ok] in *; congruence.
Qed.
Print Assumptions C77_one_after_the_other.

(** C77: at most one thread is between mplite_enter and mplite_leave. *)
Theorem C77_exclusion :
  forall (buf : list Z) (size min : Z) (h0 : mp) (s : st) (t u : nat) c old b c' old' b', pool buf size min h0 -> reach true h0 s ->
  pcs s t = In c old b -> pcs s u = In c' old' b' -> t = u /\ holder s = Some t.
Proof.
  intros buf size min h0 s t u c old b c' old' b' P R E E'. destruct (pool_cinv _ _ _ _ P) as (_ & _ & k & CI & _). destruct (inv_reach k h0 s CI R) as (hl & I). pose proof (i_hold _ _ _ _ I) as H. destruct (holder s) as [t0|].
  - destruct H as (H & _). assert (forall v c old b, pcs s v = In c old b -> v = t0) as X. { intros v c1 old1 b1 Ev. destruct (Nat.eq_dec v t0) as [|NE]; [assumption|]. exfalso. apply (H v NE). rewrite Ev. exact Logic.I. }
    rewrite (X _ _ _ _ E), (X _ _ _ _ E'). auto.
  - exfalso. apply (proj2 H t). rewrite E. exact Logic.I.
Qed.
Print Assumptions C77_exclusion.

(** C77: at every moment the blocks held by the callers lie in the pool, start at multiples of their size and are apart; and every byte a caller has
    written is there, whatever the other threads are doing in the pool, unless the block itself was given to a free or realloc that is running. *)
Theorem C77_blocks :
  forall (buf : list Z) (size min : Z) (h0 : mp) (s : st), pool buf size min h0 -> reach true h0 s ->
  (forall b, List.In b (live s) -> 0 <= b_ptr b /\ b_ptr b + b_size b <= mp_n h0 * mp_sz h0 /\ b_ptr b mod b_size b = 0 /\ zlen (b_data b) <= b_size b) /\
  NoDup (map b_ptr (live s)) /\ (forall b c, List.In b (live s) -> List.In c (live s) -> b <> c -> apart b c) /\
  (forall b j v, List.In b (live s) -> (forall u c old pr, pcs s u = In c old pr -> ptr_of c <> Some (b_ptr b)) ->
     0 <= j -> znth j (b_data b) = Some (Some v) -> znth (b_ptr b + j) (mp_mem (obj s)) = Some v).
Proof.
  intros buf size min h0 s P R. destruct (pool_cinv _ _ _ _ P) as (_ & _ & k & CI & _). destruct (inv_reach k h0 s CI R) as (hl & I). pose proof (serial_reach _ _ _ _ (i_ser _ _ _ _ I)) as RS.
  destruct (C26_blocks buf size min h0 hl (live s) P RS) as (A & B & D). split; [intros b X; destruct (A b X) as (A1 & A2 & A3 & _ & _ & A4); auto|]. split; [exact B|]. split; [exact D|].
  intros b j v X QB J E. destruct (i_ci _ _ _ _ I) as (lf & fl & V). destruct (c_blk _ _ _ _ _ V b X) as (i & L & _ & _ & _ & ZL & DO). assert (BD : j < zlen (b_data b)) by (destruct (Z_lt_ge_dec j (zlen (b_data b))); [assumption|rewrite (proj2 (znth_None_iff _ _)) in E by lia; discriminate E]). rewrite (obj_mem k h0 s hl b (b_ptr b + j) I X QB) by lia. apply DO; assumption.
Qed.
Print Assumptions C77_blocks.

(** C77: when mplite_calloc(m) returns a block, the caller holds it and its m bytes are zero. *)
Theorem C77_calloc :
  forall (buf : list Z) (size min : Z) (h0 : mp) (s : st) (t : nat) (m q : Z), pool buf size min h0 -> reach true h0 s -> pcs s t = Out (CCalloc m) (RPtr (Some q)) ->
  (exists b, List.In b (live s) /\ b_ptr b = q /\ zlen (b_data b) = m) /\ forall j, 0 <= j < m -> znth (q + j) (mp_mem (obj s)) = Some 0.
Proof.
  intros buf size min h0 s t m q P R E. destruct (pool_cinv _ _ _ _ P) as (_ & _ & k & CI & _). destruct (inv_reach k h0 s CI R) as (hl & I). destruct (i_pc _ _ _ _ I t) as (_ & PO). rewrite E in PO. destruct PO as (b & B & <- & ZL & ZB).
  split; [exists b; auto|]. intros j J. destruct (C77_blocks buf size min h0 s P R) as (_ & _ & _ & X). apply (X b j 0 B); [|lia|apply ZB; exact J].
  apply (quiet_not_busy s b t); [|rewrite E; intro Y; exact Y]. intros u U. apply (i_busy _ _ _ _ I u t _ U). rewrite E. reflexivity.
Qed.
Print Assumptions C77_calloc.

(** C77: two calls that are about to return a block never return the same one, nor one that another thread is working with. *)
Theorem C77_results_distinct :
  forall (buf : list Z) (size min : Z) (h0 : mp) (s : st) (t u : nat) (p : Z), pool buf size min h0 -> reach true h0 s -> busy (pcs s t) = Some p -> busy (pcs s u) = Some p -> t = u.
Proof. intros buf size min h0 s t u p P R. destruct (pool_cinv _ _ _ _ P) as (_ & _ & k & CI & _). destruct (inv_reach k h0 s CI R) as (hl & I). apply I. Qed.
Print Assumptions C77_results_distinct.

(** C77: there is no deadlock: from every reachable state every call can return, without any new call. *)
Theorem C77_calls_return :
  forall (buf : list Z) (size min : Z) (h0 : mp) (s : st) (t : nat), pool buf size min h0 -> reach true h0 s -> exists s', later s s' /\ pcs s' t = Idle.
Proof. intros buf size min h0 s t P R. destruct (pool_cinv _ _ _ _ P) as (_ & _ & k & CI & _). destruct (inv_reach k h0 s CI R) as (hl & I). exact (comes_home _ _ _ _ t I). Qed.
Print Assumptions C77_calls_return.

(** Refutes "mplite without a lock may be shared": two threads get the same block. *)
Definition both (n : nat) : list (nat * choice) := concat (repeat [(0%nat, Go); (1%nat, Go)] n).
Definition race_run : list (nat * choice) := [(0%nat, Call (CMalloc 8)); (1%nat, Call (CMalloc 8))] ++ both 13.
Definition same_out (s : st) : bool :=
  match pcs s 0%nat, pcs s 1%nat with Out (CMalloc m) (RPtr (Some p)), Out (CMalloc n) (RPtr (Some q)) => (m =? 8) && (n =? 8) && (p =? q) | _, _ => false end.
Theorem C77_without_lock_refuted :
  exists h0 s p, pool ex_buf 100 5 h0 /\ reach false h0 s /\ pcs s 0%nat = Out (CMalloc 8) (RPtr (Some p)) /\ pcs s 1%nat = Out (CMalloc 8) (RPtr (Some p)).
Proof.
  assert (T : match play false race_run (boot ex_pool) with Some s => same_out s | None => false end = true) by (vm_compute; reflexivity).
  destruct (play false race_run (boot ex_pool)) as [s|] eqn:PL; [|discriminate T]. destruct (play_reach false ex_pool race_run (boot ex_pool) s (r_boot _ _) (fun u _ => eq_refl) PL) as (R & _).
  exists ex_pool, s. unfold same_out in T. clear PL. destruct (pcs s 0%nat) as [| | | | |[m| | | | | |] [|[p|]|]]; try discriminate T. destruct (pcs s 1%nat) as [| | | | |[n| | | | | |] [|[q|]|]]; try discriminate T.
  exists p. split; [exact ex_pool_ok|]. split; [exact R|]. assert (m = 8 /\ n = 8 /\ p = q) as (-> & -> & ->) by lia. auto.
Qed.
Print Assumptions C77_without_lock_refuted.

(** ** the hypotheses are met: two threads allocate, write, grow and free at the same time *)
Definition ex_mt1 : list (nat * choice) :=
  [(0%nat, Call (CMalloc 8))] ++ gos 0 14 ++ [(0%nat, Write 80 0 [7; 8]); (1%nat, Call (CCalloc 9))] ++ gos 1 6 ++ [(0%nat, Write 80 2 [9]); (0%nat, Call (CRealloc 80 16)); (0%nat, Go); (1%nat, Go)].
Definition ex_test1 (s : st) : bool :=
  match pcs s 0%nat, pcs s 1%nat, live s with Wait (CRealloc 80 16) 8, In (CCalloc 9) 0 _, [mk_b 80 8 (Some 7 :: Some 8 :: Some 9 :: _)] => true | _, _, _ => false end.
Lemma ex_run_reach l (test : st -> bool) : match play true l (boot ex_pool) with Some s => test s | None => false end = true -> exists s, reach true ex_pool s /\ test s = true.
Proof.
  destruct (play true l (boot ex_pool)) as [s|] eqn:PL; [|intro X; discriminate X]. intro T. exists s. split; [|exact T]. apply (play_reach true ex_pool l (boot ex_pool) s (r_boot _ _) (fun u _ => eq_refl) PL).
Qed.
(** thread 1 is in mplite_calloc, inside the lock; thread 0 has written three bytes meanwhile and waits in mplite_realloc *)
Example ex_waiting : exists s, reach true ex_pool s /\ ex_test1 s = true.
Proof. apply (ex_run_reach ex_mt1). vm_compute. reflexivity. Qed.
Definition ex_mt2 : list (nat * choice) := ex_mt1 ++ gos 1 10 ++ gos 0 5 ++ gos 1 6.
Definition ex_test2 (s : st) : bool :=
  match pcs s 0%nat, pcs s 1%nat, live s with In (CRealloc 80 16) 8 _, Out (CCalloc 9) (RPtr (Some 64)), [mk_b 64 16 (Some 0 :: _); mk_b 80 8 (Some 7 :: Some 8 :: Some 9 :: _)] => true | _, _, _ => false end.
(** thread 1 has cleared its block and is about to return it; thread 0 is inside the lock *)
Example ex_calloc : exists s, reach true ex_pool s /\ ex_test2 s = true.
Proof. apply (ex_run_reach ex_mt2). vm_compute. reflexivity. Qed.
(** both are through: the grown block has moved and kept its bytes *)
Definition ex_test3 (s : st) : bool :=
  match pcs s 0%nat, pcs s 1%nat, live s, mp_mem (obj s) with Out (CRealloc 80 16) (RPtr (Some 0)), Idle, [mk_b 64 16 (Some 0 :: _); mk_b 0 16 (Some 7 :: Some 8 :: Some 9 :: _)], 7 :: 8 :: 9 :: _ => true | _, _, _, _ => false end.
Example ex_moved : exists s, reach true ex_pool s /\ ex_test3 s = true.
Proof. apply (ex_run_reach (ex_mt2 ++ gos 1 1 ++ gos 0 50)). vm_compute. reflexivity. Qed.

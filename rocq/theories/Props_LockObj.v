(** C74: auto_cover_buf and hashmap, created with a lock and used by any number of threads, behave as if every call took effect at one moment. *)
From Verif Require Import CBase RingBuffer2Model AutoCoverModel AutoCoverSpec HashmapModel HashmapSpec LockModel LockSpec LockObjModel LockObjSpec LockProof LockObjProof2 LockObjProof3.

(** C74: auto_cover_buf. For every schedule: the calls of all threads, in some order that respects which call ended before which began, give the
    results of C09's sequential specification; no thread ever makes an undefined access or hits an assertion; and as long as a call is
    unfinished some thread with an unfinished call can go on. *)
Theorem C74_autocover_atomic :
  forall (A : Type) (calloc : Z -> option (list A)) (n : Z), (forall k b, calloc k = Some b -> zlen b = k) -> 3 <= n <= 1073741824 ->
  exists k, 1 <= k <= 30 /\ 2 ^ (k - 1) < n <= 2 ^ k /\ (calloc (24 + 2 ^ k) <> None -> exists b, ac_create true calloc n = Ret (Some b) /\
  forall s, reach ac_code (fun _ => true) (ac_ok_op (2 ^ k)) b s ->
  linearizable (fun ps => Forall (ac_ok_op (2 ^ k)) (map fst ps) /\ map snd ps = snd (ac_exact_run (2 ^ k) (mk_stream [] 0) (map fst ps))) (log s) /\
  (forall t, ~ faults t s) /\
  (forall t, pcs s t <> Idle -> exists u s', tstep ac_code (fun _ => true) (ac_ok_op (2 ^ k)) u s s' /\ pcs s u <> Idle)).
Proof. exact @ac_atomic. Qed.
Print Assumptions C74_autocover_atomic.

(** C74: hashmap (every function but hashmap_size). m_run: the calls one after the other on a finite map, with their results and with exactly
    the owed calls of the free functions; when all threads have finished, foreach finds just the content so reached, and hashmap_free frees it. *)
Theorem C74_hashmap_atomic :
  forall (hf : Z -> Z) (eqf : Z -> Z -> bool) (kfree vfree : bool), compatible hf eqf ->
  forall (ok0 : bool) (okx0 : Z -> bool) (cap : Z) (m : hmap) (s : st hmap hcall res),
  0 <= cap -> sane_table okx0 -> hm_create ok0 okx0 cap = Ret (Some m) ->
  reach (hm_code hf eqf kfree vfree) (hm_locked true) m_ok m s -> zlen (log s) < two64 ->
  linearizable (fun ps => exists fin, m_run eqf kfree vfree [] ps fin /\
    ((forall t, pcs s t = Idle) ->
      Permutation (hm_foreach (fun _ _ => true) (obj s)) fin /\
      (kfree = true -> Permutation (freed_keys (hm_free kfree vfree true (obj s))) (nonnull (map fst fin))) /\
      (vfree = true -> Permutation (freed_vals (hm_free kfree vfree true (obj s))) (nonnull (map snd fin))))) (log s) /\
  (forall t, ~ faults t s) /\
  (forall t, pcs s t <> Idle -> exists u s', tstep (hm_code hf eqf kfree vfree) (hm_locked true) m_ok u s s' /\ pcs s u <> Idle).
Proof. exact hm_atomic. Qed.
Print Assumptions C74_hashmap_atomic.

(** Refutes the same for hashmap_size, which takes no lock: with two entries in the map and another thread inside hashmap_clear it answers 1,
    a size the map never had. *)
Theorem C74_size_refuted : exists s,
  reach (hm_code (fun _ => 0) Z.eqb true true) (hm_locked true) okS demo s /\
  log s = [ECall 0 put1; ERet 0 put1 ret0; ECall 0 put2; ERet 0 put2 ret0; ECall 0 (hop HClear); ECall 1 (hop HSize); ERet 1 (hop HSize) (mk_res 1 [] [])] /\
  ~ linearizable (fun ps => exists fin, m_run Z.eqb true true [] ps fin) (log s).
Proof. destruct size_run as (s & R & L). exists s. split; [exact R|]. split; [exact L|]. rewrite L. exact size_not. Qed.
Print Assumptions C74_size_refuted.

(** Refutes it for a map created without lock functions: of two puts at the same time one is lost. *)
Theorem C74_unlocked_refuted : exists s,
  reach (hm_code (fun _ => 0) Z.eqb true true) (hm_locked false) okS demo s /\
  log s = [ECall 0 put1; ECall 1 put2; ERet 1 put2 ret0; ERet 0 put1 ret0; ECall 1 get2; ERet 1 get2 ret0] /\
  ~ linearizable (fun ps => exists fin, m_run Z.eqb true true [] ps fin) (log s).
Proof. destruct lost_run as (s & R & L). exists s. split; [exact R|]. split; [exact L|]. rewrite L. exact lost_not. Qed.
Print Assumptions C74_unlocked_refuted.

(** Refutes progress for a foreach callback that itself calls the map (with a lock that is not recursive): neither that call nor any call of
    another thread ever returns again. *)
Theorem C74_callback_deadlock_refuted : exists s,
  reach (hm_code (fun _ => 0) Z.eqb true true) (hm_locked true) okD demo s /\
  log s = [ECall 0 put1; ERet 0 put1 ret0; ECall 0 visit_all; ECall 1 get2] /\
  forall s', steps (hm_code (fun _ => 0) Z.eqb true true) (hm_locked true) okD s s' -> filter is_ret (log s') = [ERet 0 put1 ret0].
Proof. exact dead_forever. Qed.
Print Assumptions C74_callback_deadlock_refuted.

(** the hypotheses hold in this run of two threads whose calls overlap *)
Definition run_log : list (ev hcall res) := [ECall 0 put1; ECall 1 put2; ERet 0 put1 ret0; ECall 0 get2; ERet 1 put2 ret0; ERet 0 get2 (mk_res 22 [] [])].
Example C74_case : compatible (fun _ => 0) Z.eqb /\ hm_create true small 1 = Ret (Some demo) /\
  exists s, reach (hm_code (fun _ => 0) Z.eqb true true) (hm_locked true) m_ok demo s /\ log s = run_log.
Proof.
  split; [|split; [exact demo_create|]].
  - repeat split; intros; lia.
  - apply (play_log m_ok true (call_ 0 (HPut 1 11) ++ call_ 1 (HPut 2 22) ++ mv 0 7 ++ call_ 0 (HGet 2) ++ mv 1 7 ++ mv 0 4)); [vm_compute; reflexivity|].
    repeat first [apply Forall_nil | apply Forall_cons; [first [exact Logic.I | split; [discriminate|exact small_sane]]|]].
Qed.

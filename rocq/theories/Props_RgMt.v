(** C78: one writer thread and one reader thread on a ring_buf, without a lock *)
From Verif Require Import CBase RingBufModel RgMtModel RgMtSpec RgMtProof2.
From Coq Require Import Relations.Relation_Operators.

(** however the two threads are interleaved, byte by byte: no access outside the data area, the caller's source or the caller's target *)
Theorem C78_no_fault :
  forall h s, empty_ring h -> reach h s -> (exists s', wstep s = Ret s') /\ (exists s', rstep s = Ret s').
Proof. intros h s R. exact (no_fault h R s). Qed.
Print Assumptions C78_no_fault.

(** every call returns what the sequential ring of size - 1 bytes would return at one moment between the call and its return: all or nothing;
    what is read are the next bytes in the order written *)
Theorem C78_every_answer :
  forall h s later e earlier, empty_ring h -> reach h s -> log s = later ++ e :: earlier -> event_ok (rg_size h - 1) e earlier.
Proof. intros h s l e l' R. exact (every_answer h R s l e l'). Qed.
Print Assumptions C78_every_answer.

(** over the whole run: the reader gets the bytes the writer wrote, each once, in order, none invented, none torn *)
Theorem C78_stream :
  forall h s, empty_ring h -> reach h s ->
  exists S, prefix (wrote (log s)) S /\ prefix S (offered (log s)) /\
            agree (got (log s)) (ztake (zlen (got (log s))) S).
Proof. intros h s R. exact (stream h R s). Qed.
Print Assumptions C78_stream.

(** neither thread ever waits for the other: a call takes a bounded number of its own steps whatever the other thread does meanwhile *)
Theorem C78_write_wait_free :
  forall h s c n s', empty_ring h -> reach h s -> wp s = WIdle -> wok c ->
  wrun n (set_wp (emit s (EWCall c)) (wbegin c)) s' ->
  Z.of_nat n <= match c with WWrite _ len => len + 3 | WSpace => 2 end.
Proof. intros h s c n s' R. exact (wait_free_w h R s c n s'). Qed.
Print Assumptions C78_write_wait_free.
Theorem C78_read_wait_free :
  forall h s c n s', empty_ring h -> reach h s -> rp s = RIdle -> rok c ->
  rrun n (set_rp (emit s (ERCall c)) (rbegin c)) s' ->
  Z.of_nat n <= match c with RRead _ len | RPeek _ len | RDiscard len => len + 3 | RAvail => 2 end.
Proof. intros h s c n s' R. exact (wait_free_r h R s c n s'). Qed.
Print Assumptions C78_read_wait_free.

(** the handles the create functions give out are such rings *)
Theorem C78_created :
  (forall (m : list Z) h, zlen m < 2 ^ 63 -> create_with_mem (Some m) (zlen m) = Ret (Some h) -> empty_ring h) /\
  (forall (malloc : Z -> option (list Z)) n h, (forall k b, malloc k = Some b -> zlen b = k) -> n + 40 < 2 ^ 63 -> create malloc n = Ret (Some h) -> empty_ring h).
Proof. exact (conj created_mem created). Qed.
Print Assumptions C78_created.

(** ring_buf_clear is not such an operation: called by the reader while a write is copying,
    it tears that write: of the five bytes written with success the first three are never read, the last two are *)
Theorem C78_clear_refuted :
  exists h s1 s2, empty_ring h /\ reach h s1 /\ rp s1 = RIdle /\ wrote (log s1) = [1; 2; 3; 4; 5] /\ got (log s1) = map Some [1; 2; 3; 4; 5] /\
  clos_refl_trans _ step (clear_r (clear_w s1)) s2 /\
  wrote (log s2) = [1; 2; 3; 4; 5; 6; 7; 8; 9; 10] /\ got (log s2) = map Some [1; 2; 3; 4; 5; 9; 10].
Proof.
  set (h := mk_ring true [0;0;0;0;0;0;0;0] 8 0 0).
  set (l1 := [AWC (WWrite [1;2;3;4;5] 5); AW; AW; AW; AW; AW; AW; AW; AW; ARC (RRead (Some [0;0;0;0;0]) 5); AR; AR; AR; AR; AR; AR; AR; AR; AWC (WWrite [6;7;8;9;10] 5); AW; AW]).
  set (l2 := [AW; AW; AW; AW; AW; AW; ARC (RRead (Some [0;0]) 2); AR; AR; AR; AR; AR]).
  destruct (play l1 (boot h)) as [s1| | |] eqn:E1; try (exfalso; vm_compute in E1; discriminate).
  assert (F1 : Forall act_ok l1) by (repeat constructor; vm_compute; congruence).
  assert (F2 : Forall act_ok l2) by (repeat constructor; vm_compute; congruence).
  pose proof (play_reach h l1 F1 _ _ (R0 h) E1) as RE.
  destruct (play l2 (clear_r (clear_w s1))) as [s2| | |] eqn:E2; try (exfalso; vm_compute in E1; injection E1 as <-; vm_compute in E2; discriminate).
  pose proof (play_steps l2 F2 _ _ E2) as ST. exists h, s1, s2.
  split; [repeat split; vm_compute; congruence|]. split; [exact RE|].
  clear RE. vm_compute in E1. injection E1 as <-. vm_compute in E2. injection E2 as <-. repeat split; exact ST.
Qed.
Print Assumptions C78_clear_refuted.

(** a run over the end of the data area: a refused write, a peek, a read and a write that copy at the same time, a discard *)
Example C78_case :
  let h := mk_ring true [9;9;9;9;9] 4 2 2 in
  exists s, empty_ring h /\ reach h s /\
  log s = [ERRet (RDiscard 1) 1 None; ERCall (RDiscard 1); EWRet (WWrite [7;8] 2) 2; ERRet (RRead (Some [0;0;0]) 2) 2 (Some [1;2;0]); EWCall (WWrite [7;8] 2);
           EWRet WSpace 1; ERCall (RRead (Some [0;0;0]) 2); ERRet (RRead None 1) 1 None; ERCall (RRead None 1); EWCall WSpace; ERRet (RPeek (Some [0]) 1) 1 (Some [0]); 
           EWRet (WWrite [5;6] 2) 0; ERCall (RPeek (Some [0]) 1); EWCall (WWrite [5;6] 2); EWRet (WWrite [0;1;2] 3) 3; EWCall (WWrite [0;1;2] 3)].
Proof.
  intro h.
  set (l1 := [AWC (WWrite [0;1;2] 3); AW; AW; AW; AW; AW; AW; AWC (WWrite [5;6] 2); AW; ARC (RPeek (Some [0]) 1); AR; AW; AR; AR; AR; AWC WSpace;
              ARC (RRead None 1); AR; AR; AR; ARC (RRead (Some [0;0;0]) 2); AR; AR; AW; AW; AR; AR; AWC (WWrite [7;8] 2); AW; AW; AW; AR; AW; AW; ARC (RDiscard 1); AR; AR; AR]).
  destruct (play l1 (boot h)) as [s1| | |] eqn:E1; try (exfalso; vm_compute in E1; discriminate).
  assert (F1 : Forall act_ok l1) by (repeat constructor; vm_compute; congruence).
  pose proof (play_reach h l1 F1 _ _ (R0 h) E1) as RE. exists s1.
  split; [repeat split; vm_compute; congruence|]. split; [exact RE|]. clear RE. vm_compute in E1. injection E1 as <-. reflexivity.
Qed.

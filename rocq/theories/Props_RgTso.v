(** C79: one writer thread and one reader thread on a ring_buf when stores reach memory late *)
From Verif Require Import CBase RingBufModel RgMtModel RgMtSpec RgTsoModel RgTsoSpec RgTsoProof3.

(** x86-TSO: no access, and no store that reaches memory, is outside the data area or the callers' blocks *)
Theorem C79_no_fault :
  forall h s, empty_ring h -> treach false h s ->
  (exists s', twstep s = Ret s') /\ (exists s', trstep s = Ret s') /\
  (forall e b, t_wbuf s = e :: b -> exists s', commit (tset_wbuf s b) e = Ret s').
Proof. intros h s R. exact (tno_fault h R s). Qed.
Print Assumptions C79_no_fault.

(** x86-TSO: every call returns what the sequential ring would return for some progress of the other thread: at least what the other
    thread had done before its last barrier, at most what it has begun *)
Theorem C79_every_answer :
  forall h s later e earlier, empty_ring h -> treach false h s -> t_log s = later ++ e :: earlier -> tev_ok (rg_size h - 1) e earlier.
Proof. intros h s l e l' R. exact (tevery_answer h R s l e l'). Qed.
Print Assumptions C79_every_answer.

(** x86-TSO: the reader gets the bytes the writer wrote, each once, in order, none invented, none torn - without any barrier *)
Theorem C79_stream :
  forall h s, empty_ring h -> treach false h s ->
  let l := plain (t_log s) in
  exists S, prefix (wrote l) S /\ prefix S (offered l) /\ agree (got l) (ztake (zlen (got l)) S).
Proof. intros h s R. exact (tstream h R s). Qed.
Print Assumptions C79_stream.

(** x86-TSO: neither thread waits for the other *)
Theorem C79_write_wait_free :
  forall h s c n s', empty_ring h -> treach false h s -> t_wp s = WIdle -> wok c ->
  twrun false n (tset_wp (temit s (E (EWCall c))) (wbegin c)) s' ->
  Z.of_nat n <= match c with WWrite _ len => len + 3 | WSpace => 2 end.
Proof. intros h s c n s' R. exact (twait_free_w h R s c n s'). Qed.
Print Assumptions C79_write_wait_free.
Theorem C79_read_wait_free :
  forall h s c n s', empty_ring h -> treach false h s -> t_rp s = RIdle -> rok c ->
  trrun false n (tset_rp (temit s (E (ERCall c))) (rbegin c)) s' ->
  Z.of_nat n <= match c with RRead _ len | RPeek _ len | RDiscard len => len + 3 | RAvail => 2 end.
Proof. intros h s c n s' R. exact (twait_free_r h R s c n s'). Qed.
Print Assumptions C79_read_wait_free.

(** where stores may overtake each other (ring_buf.c has no barrier): the reader can get a byte that was never written *)
Theorem C79_reordered_refuted :
  exists h s, empty_ring h /\ treach true h s /\
  t_log s = [E (ERRet (RRead (Some [0]) 1) 1 (Some [9])); E (ERCall (RRead (Some [0]) 1)); E (EWRet (WWrite [1] 1) 1); E (EWCall (WWrite [1] 1))].
Proof.
  set (h := mk_ring true [9;9;9;9] 4 0 0).
  set (l1 := [AWC (WWrite [1] 1); AW; AW; AW; AW; FW 1; ARC (RRead (Some [0]) 1); AR; AR; AR; AR]).
  destruct (tplay true l1 (tboot h)) as [s1| | |] eqn:E1; try (exfalso; vm_compute in E1; discriminate).
  assert (F1 : Forall act_ok l1) by (repeat constructor; vm_compute; congruence).
  pose proof (tplay_reach true h l1 F1 _ _ (T0 true h) E1) as RE. exists h, s1.
  split; [repeat split; vm_compute; congruence|]. split; [exact RE|]. clear RE. vm_compute in E1. injection E1 as <-. reflexivity.
Qed.
Print Assumptions C79_reordered_refuted.
(** nor do the answers of C78 hold on x86-TSO: after a write has returned, a read can still find the ring empty *)
Theorem C79_late_refuted :
  exists h s, empty_ring h /\ treach false h s /\
  t_log s = [E (ERRet RAvail 0 None); E (ERCall RAvail); E (EWRet (WWrite [1] 1) 1); E (EWCall (WWrite [1] 1))].
Proof.
  set (h := mk_ring true [9;9;9;9] 4 0 0).
  set (l1 := [AWC (WWrite [1] 1); AW; AW; AW; AW; FW 0; ARC RAvail; AR; AR]).
  destruct (tplay false l1 (tboot h)) as [s1| | |] eqn:E1; try (exfalso; vm_compute in E1; discriminate).
  assert (F1 : Forall act_ok l1) by (repeat constructor; vm_compute; congruence).
  pose proof (tplay_reach false h l1 F1 _ _ (T0 false h) E1) as RE. exists h, s1.
  split; [repeat split; vm_compute; congruence|]. split; [exact RE|]. clear RE. vm_compute in E1. injection E1 as <-. reflexivity.
Qed.
Print Assumptions C79_late_refuted.

(** a run on x86-TSO over the end of the data area: a second write into room just freed while the first reader store is still on its way is refused, then a barrier *)
Example C79_case :
  let h := mk_ring true [9;9;9;9;9] 4 3 3 in
  exists s, empty_ring h /\ treach false h s /\ t_wbuf s <> [] /\
  t_log s = [E (EWRet (WWrite [4;5] 2) 2); E (EWCall (WWrite [4;5] 2)); RSync; E (EWRet (WWrite [4;5] 2) 0); E (EWCall (WWrite [4;5] 2));
             E (ERRet (RRead (Some [0;0]) 2) 2 (Some [1;2])); E (ERCall (RRead (Some [0;0]) 2)); WSync; E (EWRet (WWrite [1;2;3] 3) 3); E (EWCall (WWrite [1;2;3] 3))].
Proof.
  intro h.
  set (l1 := [AWC (WWrite [1;2;3] 3); AW; AW; FW 0; AW; AW; AW; AW; FW 0; FW 0; FW 0; SW; ARC (RRead (Some [0;0]) 2); AR; AR; AR; AR; AR; AWC (WWrite [4;5] 2); AW; AW; FR; SR; AWC (WWrite [4;5] 2); AW; AW; FW 0; AW; AW; AW]).
  destruct (tplay false l1 (tboot h)) as [s1| | |] eqn:E1; try (exfalso; vm_compute in E1; discriminate).
  assert (F1 : Forall act_ok l1) by (repeat constructor; vm_compute; congruence).
  pose proof (tplay_reach false h l1 F1 _ _ (T0 false h) E1) as RE. exists s1.
  split; [repeat split; vm_compute; congruence|]. split; [exact RE|]. clear RE. vm_compute in E1. injection E1 as <-. split; [discriminate|reflexivity].
Qed.

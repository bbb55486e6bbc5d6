(** C44: the file logger (caller, worker thread and deinit, in every schedule). *)
From Verif Require Import CBase CStr IntegerModel RingBuffer2Model MsgQueueModel SpscModel HandlerModel HandlerSpec Props_Handler.
From Verif Require Import FileLoggerModel FileLoggerSpec FileLoggerProof FileLoggerProof3 FileLoggerProof4.

(** No schedule makes file_logger_log or the worker access memory out of bounds, overflow or abort, as long
    as records have less than 2^30 - 15 bytes. *)
Theorem C44_logger_no_fault : forall cfg q fs s e mem fill ok, good_cfg cfg -> created_small q ->
  lreach cfg q fs s -> sane (l_log s) -> time_text (e_time e) -> fill_ok fill s ->
  (exists o, lwexec cfg e mem s = Ret o) /\ (exists o, lexec cfg fill ok s = Ret o).
Proof.
  intros cfg q fs s e mem fill ok GC CS R S TT FO. pose proof (lreach_inv cfg q fs GC CS s R S) as I. split.
  - destruct (worker_inv cfg q fs GC CS s e mem I TT) as (o & E & _). eauto.
  - destruct (caller_inv cfg q fs GC CS s fill ok I FO) as (o & E & _). eauto.
Qed.

(** At every moment the log files, in the order they were opened, hold the lines of the first records
    handed in (those refused left out), each once, in order, unaltered, and a file is left exactly when
    its size has reached the limit. Conditions: fprintf never failed, and no two files got the same name.
    Records can only be missing if fopen failed. *)
Theorem C44_logger_files : forall cfg q fs s, good_cfg cfg -> created_small q -> lreach cfg q fs s -> sane (l_log s) ->
  ~ In WPrintFail (w_log (l_w s)) -> NoDup (opened (w_log (l_w s))) ->
  exists delivered rest groups, lsent (l_log s) = delivered ++ rest /\
    subseq (concat groups) (nonempty delivered) /\
    (~ In WOpenFail (w_log (l_w s)) -> concat groups = nonempty delivered) /\
    Forall2 (fun name g => fs_get name (w_fs (l_w s)) = Some (lines g)) (opened (w_log (l_w s))) groups /\
    rotated (f_max cfg) groups.
Proof. exact logger_files. Qed.

(** Every accepted record is in the files once the worker sleeps, no call is under way and the queue
    handler has not ended. (It gets there: C29_handler_progress, C29_handler_no_endless_polling.) *)
Theorem C44_logger_all_written : forall cfg q fs s, good_cfg cfg -> created_small q -> lreach cfg q fs s -> sane (l_log s) ->
  ~ In WPrintFail (w_log (l_w s)) -> ~ In WOpenFail (w_log (l_w s)) -> NoDup (opened (w_log (l_w s))) ->
  asleep (l_h s) -> l_pc s = LIdle -> ~ ended (hlog (l_h s)) ->
  exists groups, concat groups = nonempty (laccepted (l_log s)) /\
    Forall2 (fun name g => fs_get name (w_fs (l_w s)) = Some (lines g)) (opened (w_log (l_w s))) groups /\
    rotated (f_max cfg) groups.
Proof. exact logger_all. Qed.

(** Refused records: with the "try my best" flag each is appended to the *_lost.log file (if it can be
    opened), in order; without the flag that file is never touched. *)
Theorem C44_logger_lost_file : forall cfg q fs s, good_cfg cfg -> created_small q -> lreach cfg q fs s -> sane (l_log s) ->
  (f_keep cfg = false -> fs_get (lost_name cfg) (w_fs (l_w s)) = fs_get (lost_name cfg) fs) /\
  (f_keep cfg = true -> (forall m, ~ In (LLostFail m) (l_log s)) ->
     file_text (lost_name cfg) (w_fs (l_w s)) = file_text (lost_name cfg) fs ++ lost_lines (lrefused (l_log s))).
Proof. intros cfg q fs s GC CS R S. exact (i_lost _ _ _ _ (lreach_inv cfg q fs GC CS s R S)). Qed.

(** The answers: 0, 5 (queue full), 6 (no memory for the record), or 2 after the handler has ended. *)
Theorem C44_logger_answers : forall cfg q fs s m c, good_cfg cfg -> created_small q -> lreach cfg q fs s -> sane (l_log s) ->
  In (LRet m c) (l_log s) -> c = 0 \/ c = 5 \/ c = 6 \/ (c = 2 /\ ended (hlog (l_h s))).
Proof. exact logger_answers. Qed.

(** file_logger_init: a folder path of at least two bytes (in its 128-byte array) gets forward slashes and a
    final slash - in place of its last byte when there is no room; limits below 64 are switched off; the
    configuration is then one the theorems above apply to. *)
Theorem C44_logger_init : forall malloc t rest p rest' max size keep,
  (forall k, 0 <= k -> exists b, malloc k = Some b /\ zlen b = k) ->
  text t -> zlen (t ++ 0 :: rest) = 128 -> text p -> zlen (p ++ 0 :: rest') = 32 -> 0 <= max < 2 ^ 63 -> 2 <= size <= 1048576 ->
  file_logger_init malloc (t ++ 0 :: rest) (p ++ 0 :: rest') max size keep =
    Ret (if zlen t <? 2 then None
         else Some ({| f_folder := folder_path t; f_prefix := p; f_max := if max <? 64 then 0 else max; f_keep := keep |}, size * 1024)) /\
  (2 <= zlen t -> good_cfg {| f_folder := folder_path t; f_prefix := p; f_max := if max <? 64 then 0 else max; f_keep := keep |}).
Proof.
  intros malloc t rest p rest' max size keep HM T L TP LP MX SZ.
  assert (forall k b, malloc k = Some b -> zlen b = k \/ k < 0) as HM1.
  { intros k b E. destruct (Z.lt_ge_cases k 0) as [N|N]; [right; exact N|]. destruct (HM k N) as (b' & E' & L'). left. congruence. }
  set (mal := fun k => if k <? 0 then None else malloc k).
  assert (init_folder mal (t ++ 0 :: rest) = init_folder malloc (t ++ 0 :: rest)) as EM.
  { unfold init_folder. destruct (strlen_at (t ++ 0 :: rest) 0); [|reflexivity..]. cbn [bind]. destruct (a <? 2); [reflexivity|].
    destruct (cstr_at (t ++ 0 :: rest) 0) as [u| | |]; [|reflexivity..]. cbn [bind].
    assert (StringsModel.strreplace mal (length u) u [92] [47] = StringsModel.strreplace malloc (length u) u [92] [47]) as ->; [|reflexivity].
    unfold StringsModel.strreplace. destruct (StringsModel.count_loop _ _ _ _ _); [|reflexivity..]. cbn [bind]. cbv zeta. unfold mal.
    match goal with |- context [u64 (?x + 1)] => assert (0 <= u64 (x + 1)) as NN by (unfold u64, two64; apply Z.mod_pos_bound; lia); destruct (u64 (x + 1) <? 0) eqn:EN; [lia|reflexivity] end. }
  pose proof (init_folder_ok mal t rest) as IF. rewrite EM in IF.
  assert (forall k : Z, 0 <= k -> exists b : list Z, mal k = Some b /\ zlen b = k) as M1.
  { intros k N. unfold mal. destruct (k <? 0) eqn:E; [lia|]. apply HM; exact N. }
  assert (forall k b, mal k = Some b -> zlen b = k) as M2.
  { intros k b E. unfold mal in E. destruct (k <? 0) eqn:E0; [discriminate|]. destruct (HM1 k b E); [assumption|lia]. }
  specialize (IF M1 M2 T L). unfold file_logger_init.
  assert (queue_bytes size = size * 1024) as EQ by (unfold queue_bytes, u32, two32; rewrite !Z.mod_small; lia).
  destruct (size <? 2) eqn:ES; [lia|]. rewrite EQ. destruct (size * 1024 <? 4) eqn:E4; [lia|].
  assert (norm_max max = if max <? 64 then 0 else max) as EN by (unfold norm_max; destruct (max =? 0) eqn:E0; destruct (max <? 64) eqn:E1; cbn; lia).
  rewrite EN. destruct (zlen t <? 2) eqn:E2.
  - rewrite IF. cbn [bind]. split; [reflexivity|lia].
  - destruct IF as (r & E & F1 & F2 & F3). rewrite E. cbn [bind].
    rewrite (cstr_at_text [] (folder_path t) r 0 eq_refl F1 : cstr_at (folder_path t ++ 0 :: r) 0 = _). cbn [bind].
    rewrite (cstr_at_text [] p rest' 0 eq_refl TP : cstr_at (p ++ 0 :: rest') 0 = _). cbn [bind]. split; [reflexivity|].
    intros _. unfold good_cfg. cbn [f_folder f_prefix f_max]. rewrite zlen_app, zlen_cons in LP. pose proof (zlen_nonneg rest').
    split; [exact F1|]. split; [exact F2|]. split; [exact TP|]. split; [lia|]. destruct (max <? 64); lia.
Qed.

(** ** What does not hold *)
(** executable schedules; an action that is not possible is skipped *)
Inductive lact := FW (e : fenv) | FP (ok : bool) | FD | FCall (m : list Z) | FDeinit.
Definition digits (t : list Z) : bool := (zlen t <=? 23) && forallb (fun c => (45 <=? c) && (c <=? 57)) t.
Definition lact_step (cfg : fcfg) (s : lst) (a : lact) : option lst :=
  match a with
  | FW e => if digits (e_time e) then
      match lwexec cfg e (demo_malloc 4096) s with Ret (Some s') => Some s' | _ => None end else None
  | FP ok => match lexec cfg None ok s with Ret (Some s') => Some s' | _ => None end
  | FD => ldexec s
  | FCall m => match l_pc s, l_d s with LIdle, DLive => if zlen m <? two64 then Some (lset_pc (lemit s (LCall m)) (L131 m 0 MQ_BUF_NOT_ENOUGH)) else None | _, _ => None end
  | FDeinit => match l_pc s, l_d s with LIdle, DLive => Some (lset_d (lset_h (lemit s LDeinit) (set_ds (hemit (l_h s) HDestroy) D174)) DDestroying) | _, _ => None end
  end.
Fixpoint lgo (cfg : fcfg) (s : lst) (l : list lact) : lst :=
  match l with [] => s | a :: l => match lact_step cfg s a with Some s' => lgo cfg s' l | None => lgo cfg s l end end.
Lemma lgo_reach cfg q fs : forall l s, lreach cfg q fs s -> lreach cfg q fs (lgo cfg s l).
Proof.
  induction l as [|a l IH]; intros s H; cbn; [exact H|].
  destruct (lact_step cfg s a) as [s1|] eqn:EA; [|auto]. apply IH. apply (LRS cfg q fs s s1 H).
  destruct a; cbn in EA.
  - destruct (digits (e_time e)) eqn:ED; [|discriminate].
    destruct (lwexec _ _ _ s) as [[x|]| | |] eqn:EW; try discriminate. injection EA as <-. apply (LSW cfg s e (demo_malloc 4096)); [|exact EW].
    unfold digits in ED. apply andb_true_iff in ED as [D1 D2]. split; [lia|]. rewrite forallb_forall in D2. apply Forall_forall. intros c IN. specialize (D2 c IN). lia.
  - destruct (lexec _ _ _ s) as [[x|]| | |] eqn:EW; try discriminate. injection EA as <-. apply (LSP cfg s None ok); [exact I|exact EW].
  - apply LSD; exact EA.
  - destruct (l_pc s) eqn:EP; try discriminate. destruct (l_d s) eqn:ED; try discriminate. destruct (zlen m <? two64) eqn:EZ; [|discriminate].
    injection EA as <-. apply LSCall; auto. lia.
  - destruct (l_pc s) eqn:EP; try discriminate. destruct (l_d s) eqn:ED; try discriminate. injection EA as <-. apply LSDeinit; auto.
Qed.
Definition demo_cfg : fcfg := {| f_folder := [47; 116; 47]; f_prefix := [112]; f_max := 64; f_keep := true |}.
Example C44_demo_cfg : good_cfg demo_cfg.
Proof. unfold good_cfg, text, demo_cfg. cbn. change (zlen [47; 116; 47]) with 3. change (zlen [112]) with 1. repeat split; try lia; repeat constructor; lia. Qed.
(** a record of 63 letters makes a line of 64 bytes *)
Definition rec_ (c : Z) : list Z := repeat c 63.
Definition at_ (n : Z) : fenv := {| e_time := [48 + n]; e_open := true; e_print := None |}.
Definition send (m : list Z) : list lact := FCall m :: repeat (FP true) 150.
Definition work (e : fenv) : list lact := repeat (FW e) 200.
Definition log_name (n : Z) : list Z := [47; 116; 47; 112; 48 + n; 46; 108; 111; 103].

(** Two files started within the same millisecond get the same name; the second fopen empties the first
    file: an accepted and written record is lost. *)
Theorem C44_logger_same_name_refuted : exists s, lreach demo_cfg demo_q [] s /\ asleep (l_h s) /\ l_pc s = LIdle /\
  laccepted (l_log s) = [rec_ 97; rec_ 98] /\ w_fs (l_w s) = [(log_name 1, rec_ 98 ++ [10])].
Proof.
  set (run := send (rec_ 97) ++ work (at_ 1) ++ send (rec_ 98) ++ work (at_ 1)).
  exists (lgo demo_cfg (lboot demo_q []) run). split; [apply lgo_reach, LR0|].
  assert ((fun s => (wk (l_h s), sem (l_h s), l_pc s, laccepted (l_log s), w_fs (l_w s))) (lgo demo_cfg (lboot demo_q []) run) =
     (W66, 0, LIdle, [rec_ 97; rec_ 98], [(log_name 1, rec_ 98 ++ [10])])) as E by (vm_compute; reflexivity).
  cbv beta in E. revert E. generalize (lgo demo_cfg (lboot demo_q []) run). intros s E. injection E as E1 E2 E3 E4 E5.
  unfold asleep. auto.
Qed.
(** When fopen fails the worker drops the record although it was accepted, without any sign to the caller. *)
Theorem C44_logger_open_failure_refuted : exists s, lreach demo_cfg demo_q [] s /\ asleep (l_h s) /\ l_pc s = LIdle /\
  laccepted (l_log s) = [rec_ 97; rec_ 98] /\ w_fs (l_w s) = [(log_name 2, rec_ 98 ++ [10])].
Proof.
  set (run := send (rec_ 97) ++ work {| e_time := [49]; e_open := false; e_print := None |} ++ send (rec_ 98) ++ work (at_ 2)).
  exists (lgo demo_cfg (lboot demo_q []) run). split; [apply lgo_reach, LR0|].
  assert ((fun s => (wk (l_h s), sem (l_h s), l_pc s, laccepted (l_log s), w_fs (l_w s))) (lgo demo_cfg (lboot demo_q []) run) =
     (W66, 0, LIdle, [rec_ 97; rec_ 98], [(log_name 2, rec_ 98 ++ [10])])) as E by (vm_compute; reflexivity).
  cbv beta in E. revert E. generalize (lgo demo_cfg (lboot demo_q []) run). intros s E. injection E as E1 E2 E3 E4 E5.
  unfold asleep. auto.
Qed.
(** file_logger_deinit does not write what is still queued: a record accepted before the deinit is lost. *)
Theorem C44_logger_deinit_loses_records_refuted : exists s, lreach demo_cfg demo_q [] s /\
  l_log s = [LDeinitRet; LDeinit; LRet (rec_ 97) 0; LCall (rec_ 97)] /\ w_fs (l_w s) = [].
Proof.
  set (run := send (rec_ 97) ++ [FDeinit; FD; FD] ++ work (at_ 1) ++ [FD; FD]).
  exists (lgo demo_cfg (lboot demo_q []) run). split; [apply lgo_reach, LR0|].
  assert ((fun s => (l_log s, w_fs (l_w s))) (lgo demo_cfg (lboot demo_q []) run) =
     ([LDeinitRet; LDeinit; LRet (rec_ 97) 0; LCall (rec_ 97)], [])) as E by (vm_compute; reflexivity).
  cbv beta in E. revert E. generalize (lgo demo_cfg (lboot demo_q []) run). intros s E. injection E as E1 E2. auto.
Qed.
(** A record of more than 2^31 bytes: the new capacity wraps to 0 and the copy overruns the block. *)
Theorem C44_logger_huge_record_refuted : forall cfg q fs (m : list Z) x ok, 2147483648 < zlen m < two32 ->
  exists s, lreach cfg q fs s /\ lexec cfg (Some x) ok s = Ub.
Proof.
  intros cfg q fs m x ok L. exists (lset_pc (lemit (lboot q fs) (LCall m)) (L131 m 0 MQ_BUF_NOT_ENOUGH)). split.
  - eapply LRS; [apply LR0|]. apply LSCall; [reflexivity|reflexivity|]. unfold two32, two64 in *. lia.
  - eapply huge_ub; [reflexivity|exact L|cbn [l_cap lset_pc lemit lboot]; lia|].
    cbn [l_cache lset_pc lemit lboot]. unfold zlen. rewrite repeat_length. lia.
Qed.

(** ** A run that meets the hypotheses: three records, two files; the worker ends asleep. *)
Definition demo_log_run : list lact := send (rec_ 97) ++ work (at_ 1) ++ send [98] ++ work (at_ 2) ++ send [99] ++ work (at_ 3).
Definition demo_log : lst := lgo demo_cfg (lboot demo_q []) demo_log_run.
Definition log_view (s : lst) := (wk (l_h s), sem (l_h s), l_pc s, l_log s, filter (fun e => match e with HPush _ | HPushRet _ _ | HCb _ => false | HCbRet r => negb (r =? 0) | _ => true end) (hlog (l_h s)), w_log (l_w s), w_fs (l_w s)).
Lemma demo_log_view : log_view demo_log =
  (W66, 0, LIdle, [LRet [99] 0; LCall [99]; LRet [98] 0; LCall [98]; LRet (rec_ 97) 0; LCall (rec_ 97)], [],
   [WOpen (log_name 2); WClose; WOpen (log_name 1)], [(log_name 1, rec_ 97 ++ [10]); (log_name 2, [98; 10; 99; 10])]).
Proof. vm_compute. reflexivity. Qed.
Example C44_demo : lreach demo_cfg demo_q [] demo_log /\ created_small demo_q /\ sane (l_log demo_log) /\
  ~ In WPrintFail (w_log (l_w demo_log)) /\ ~ In WOpenFail (w_log (l_w demo_log)) /\ NoDup (opened (w_log (l_w demo_log))) /\
  asleep (l_h demo_log) /\ l_pc demo_log = LIdle /\ ~ ended (hlog (l_h demo_log)) /\
  w_fs (l_w demo_log) = [(log_name 1, rec_ 97 ++ [10]); (log_name 2, [98; 10; 99; 10])].
Proof.
  split; [apply lgo_reach, LR0|]. split; [exact C29_demo_queue|]. pose proof demo_log_view as V. unfold log_view in V.
  set (s := demo_log) in *. clearbody s. injection V as V1 V2 V3 V4 V5 V6 V7. rewrite V4, V6, V7.
  split. { intros m. cbn [In]. intros [X|[X|[X|[X|[X|[X|[]]]]]]]; try discriminate; injection X as <-; unfold rec_, zlen; cbn; lia. }
  split; [intros [X|[X|[X|[]]]]; discriminate|]. split; [intros [X|[X|[X|[]]]]; discriminate|].
  split. { cbn. constructor; [intros [X|[]]; discriminate|]. constructor; [intros []|constructor]. }
  split; [split; assumption|]. split; [exact V3|]. split; [|reflexivity].
  assert (forall e, In e (hlog (l_h s)) -> (match e with HPush _ | HPushRet _ _ | HCb _ => false | HCbRet r => negb (r =? 0) | _ => true end) = true -> False) as N.
  { intros e IN T. assert (In e []) as []. rewrite <- V5. apply filter_In. auto. }
  intros [(r & IN & NZ)|[IN|IN]].
  - apply (N _ IN). apply negb_true_iff. lia.
  - apply (N _ IN). reflexivity.
  - apply (N _ IN). reflexivity.
Qed.

Print Assumptions C44_logger_no_fault.
Print Assumptions C44_logger_files.
Print Assumptions C44_logger_all_written.
Print Assumptions C44_logger_lost_file.
Print Assumptions C44_logger_answers.
Print Assumptions C44_logger_init.
Print Assumptions C44_logger_same_name_refuted.
Print Assumptions C44_logger_open_failure_refuted.
Print Assumptions C44_logger_deinit_loses_records_refuted.
Print Assumptions C44_logger_huge_record_refuted.

(** C82: what the files of the file logger hold on disk if the process dies at any moment. *)
From Verif Require Import CBase CStr IntegerModel RingBuffer2Model MsgQueueModel SpscModel HandlerModel HandlerSpec Props_Handler.
From Verif Require Import FileLoggerModel FileLoggerSpec FileLoggerProof FileLoggerProof3 FileLoggerProof4 Props_FileLogger LogCrashModel LogCrashSpec LogCrashProof.

(** Whenever the process dies, the files on disk, in the order they were opened and put one after another, are a beginning of the lines of the first records
    handed in (those refused left out; records can only be missing if fopen failed), in order, unaltered: no line of a later record is there without those
    before it. If no file is open or being closed, all the lines the worker has printed are there. Conditions as in C44_logger_files. *)
Theorem C82_crash_files : forall cfg q fs c, good_cfg cfg -> created_small q -> creach cfg q fs c -> sane (l_log (c_l c)) ->
  ~ In WPrintFail (w_log (l_w (c_l c))) -> NoDup (opened (w_log (l_w (c_l c)))) ->
  exists delivered rest written texts, lsent (l_log (c_l c)) = delivered ++ rest /\ subseq written (nonempty delivered) /\
    (~ In WOpenFail (w_log (l_w (c_l c))) -> written = nonempty delivered) /\
    on_disk c texts /\ starts (concat texts) (lines written) /\
    (w_fp (l_w (c_l c)) = None -> c_closing c = None -> concat texts = lines written).
Proof.
  intros cfg q fs c GC CS R SA NP ND. destruct (crash_files cfg q fs GC CS c R SA NP ND) as (d & r & w & t & A & B & C & DD & F & G).
  exists d, r, w, t. split; [exact A|]. split; [exact B|]. split; [exact C|]. split; [exact DD|]. split; [exact F|].
  intros X Y. apply G. unfold cur. rewrite Y. exact X.
Qed.

(** Every file but the last one opened is whole on disk: a crash leaves at most the newest file incomplete. *)
Theorem C82_crash_old_files : forall cfg q fs c, good_cfg cfg -> created_small q -> creach cfg q fs c -> sane (l_log (c_l c)) ->
  NoDup (opened (w_log (l_w (c_l c)))) ->
  forall old name, opened (w_log (l_w (c_l c))) = old ++ [name] -> forall m, In m old -> fs_get m (c_disk c) = fs_get m (w_fs (l_w (c_l c))).
Proof. intros cfg q fs c GC CS. apply (crash_old cfg q fs GC CS). Qed.

(** The "lost" file, with the "try my best" flag, as long as it could be opened: on disk is a beginning of the refused records after what it held before, and
    all of them when no file_logger_log call is writing to it. *)
Theorem C82_crash_lost_file : forall cfg q fs c, good_cfg cfg -> created_small q -> creach cfg q fs c -> sane (l_log (c_l c)) ->
  f_keep cfg = true -> (forall m, ~ In (LLostFail m) (l_log (c_l c))) ->
  starts (file_text (lost_name cfg) (c_disk c)) (file_text (lost_name cfg) fs ++ lost_lines (lrefused (l_log (c_l c)))) /\
  (lost_idle c -> file_text (lost_name cfg) (c_disk c) = file_text (lost_name cfg) fs ++ lost_lines (lrefused (l_log (c_l c)))).
Proof. intros cfg q fs c GC CS. apply crash_lost; auto. Qed.

(** Once file_logger_deinit has returned, every file is on disk as it was printed: a later crash loses nothing. *)
Theorem C82_after_deinit : forall cfg q fs c, good_cfg cfg -> created_small q -> creach cfg q fs c -> sane (l_log (c_l c)) ->
  In LDeinitRet (l_log (c_l c)) -> forall name, fs_get name (c_disk c) = fs_get name (w_fs (l_w (c_l c))).
Proof. intros cfg q fs c GC CS R SA IN. apply (crash_deinit cfg q fs GC CS c R SA IN). Qed.

(** Every file on disk other than the logger's own is as it was before. *)
Theorem C82_other_files : forall cfg q fs c, good_cfg cfg -> created_small q -> creach cfg q fs c -> sane (l_log (c_l c)) ->
  forall name, ~ In name (opened (w_log (l_w (c_l c)))) -> name <> lost_name cfg -> fs_get name (c_disk c) = fs_get name fs.
Proof. intros cfg q fs c GC CS. apply (crash_other cfg q fs GC CS). Qed.

(** ** What does not hold *)
Inductive cact := AW (e : fenv) | AP (ok : bool) | AFlush (k : Z) | AClose | ALost (k : Z) | AD | ACall (m : list Z) | ADeinit.
Definition cact_step (cfg : fcfg) (c : cst) (a : cact) : option cst :=
  match a with
  | AW e => if digits (e_time e) then match cwexec cfg e (demo_malloc 4096) c with Ret (Some c') => Some c' | _ => None end else None
  | AP ok => match cexec cfg None ok c with Ret (Some c') => Some c' | _ => None end
  | AFlush k => match w_fp (l_w (c_l c)) with Some name => if 0 <=? k then Some (mk_c (c_l c) (handed c name k) (c_closing c) (c_lost c)) else None | None => None end
  | AClose => match c_closing c with Some name => Some (mk_c (c_l c) (handed c name (zlen (pending c name))) None (c_lost c)) | None => None end
  | ALost k => match snd (c_lost c) with
      | _ :: _ => if 0 <=? k then Some (mk_c (c_l c) (fs_append (fst (c_lost c)) (ztake k (snd (c_lost c))) (c_disk c)) (c_closing c) (fst (c_lost c), zdrop k (snd (c_lost c)))) else None
      | [] => None end
  | AD => match ldexec (c_l c) with
      | Some s' => Some (mk_c s' (match l_d s', w_fp (l_w (c_l c)) with DEnd, Some name => handed c name (zlen (pending c name)) | _, _ => c_disk c end) (c_closing c) (c_lost c))
      | None => None end
  | ACall m => match snd (c_lost c), l_pc (c_l c), l_d (c_l c) with [], LIdle, DLive => if zlen m <? two64 then Some (mk_c (lset_pc (lemit (c_l c) (LCall m)) (L131 m 0 MQ_BUF_NOT_ENOUGH)) (c_disk c) (c_closing c) (c_lost c)) else None | _, _, _ => None end
  | ADeinit => match snd (c_lost c), l_pc (c_l c), l_d (c_l c) with [], LIdle, DLive => Some (mk_c (lset_d (lset_h (lemit (c_l c) LDeinit) (set_ds (hemit (l_h (c_l c)) HDestroy) D174)) DDestroying) (c_disk c) (c_closing c) (c_lost c)) | _, _, _ => None end
  end.
Fixpoint cplay (cfg : fcfg) (c : cst) (l : list cact) : cst :=
  match l with [] => c | a :: l => match cact_step cfg c a with Some c' => cplay cfg c' l | None => cplay cfg c l end end.
Lemma cplay_reach cfg q fs : forall l c, creach cfg q fs c -> creach cfg q fs (cplay cfg c l).
Proof.
  induction l as [|a l IH]; intros c H; cbn; [exact H|].
  destruct (cact_step cfg c a) as [c1|] eqn:EA; [|auto]. apply IH. apply (CRS cfg q fs c c1 H).
  destruct a; cbn in EA.
  - destruct (digits (e_time e)) eqn:ED; [|discriminate].
    destruct (cwexec _ _ _ c) as [[x|]| | |] eqn:EW; try discriminate. injection EA as <-. apply (CSW cfg c e (demo_malloc 4096)); [|exact EW].
    unfold digits in ED. apply andb_true_iff in ED as [D1 D2]. split; [lia|]. rewrite forallb_forall in D2. apply Forall_forall. intros z IN. specialize (D2 z IN). lia.
  - destruct (cexec _ _ _ c) as [[x|]| | |] eqn:EW; try discriminate. injection EA as <-. apply (CSP cfg c None ok); [exact I|exact EW].
  - destruct (w_fp (l_w (c_l c))) as [name|] eqn:EF; [|discriminate]. destruct (0 <=? k) eqn:EK; [|discriminate]. injection EA as <-. apply CSFlush; [auto|lia].
  - destruct (c_closing c) as [name|] eqn:EF; [|discriminate]. injection EA as <-. apply CSClose; exact EF.
  - destruct (snd (c_lost c)) as [|z t] eqn:EL; [discriminate|]. destruct (0 <=? k) eqn:EK; [|discriminate]. injection EA as <-. rewrite <- EL. apply CSLost; [rewrite EL; discriminate|lia].
  - destruct (ldexec (c_l c)) as [s'|] eqn:ED; [|discriminate]. injection EA as <-. apply CSD; exact ED.
  - destruct (snd (c_lost c)) eqn:EL; [|discriminate]. destruct (l_pc (c_l c)) eqn:EP; try discriminate. destruct (l_d (c_l c)) eqn:ED; try discriminate. destruct (zlen m <? two64) eqn:EZ; [|discriminate].
    injection EA as <-. apply CSCall; auto. lia.
  - destruct (snd (c_lost c)) eqn:EL; [|discriminate]. destruct (l_pc (c_l c)) eqn:EP; try discriminate. destruct (l_d (c_l c)) eqn:ED; try discriminate. injection EA as <-. apply CSDeinit; auto.
Qed.
Definition asend (m : list Z) : list cact := ACall m :: repeat (AP true) 150.
Definition awork (e : fenv) : list cact := repeat (AW e) 200.

(** A record that was accepted and printed, with the logger at rest, can be missing on disk: file_logger.c never flushes the file while it is open. *)
Theorem C82_unflushed_refuted : exists c, creach demo_cfg demo_q [] c /\ asleep (l_h (c_l c)) /\ l_pc (c_l c) = LIdle /\
  laccepted (l_log (c_l c)) = [[97]] /\ w_fs (l_w (c_l c)) = [(log_name 1, [97; 10])] /\ c_disk c = [(log_name 1, [])].
Proof.
  set (run := asend [97] ++ awork (at_ 1)).
  exists (cplay demo_cfg (cboot demo_q []) run). split; [apply cplay_reach, CR0|].
  assert ((fun c => (wk (l_h (c_l c)), sem (l_h (c_l c)), l_pc (c_l c), laccepted (l_log (c_l c)), w_fs (l_w (c_l c)), c_disk c)) (cplay demo_cfg (cboot demo_q []) run) =
     (W66, 0, LIdle, [[97]], [(log_name 1, [97; 10])], [(log_name 1, [])])) as E by (vm_compute; reflexivity).
  cbv beta in E. revert E. generalize (cplay demo_cfg (cboot demo_q []) run). intros c E. injection E as E1 E2 E3 E4 E5 E6.
  unfold asleep. auto 10.
Qed.
(** The newest file can end in the middle of a record: the lines of a file are not written whole. *)
Theorem C82_torn_refuted : exists c, creach demo_cfg demo_q [] c /\ asleep (l_h (c_l c)) /\ l_pc (c_l c) = LIdle /\
  laccepted (l_log (c_l c)) = [[97; 98; 99]] /\ c_disk c = [(log_name 1, [97; 98])].
Proof.
  set (run := asend [97; 98; 99] ++ awork (at_ 1) ++ [AFlush 2]).
  exists (cplay demo_cfg (cboot demo_q []) run). split; [apply cplay_reach, CR0|].
  assert ((fun c => (wk (l_h (c_l c)), sem (l_h (c_l c)), l_pc (c_l c), laccepted (l_log (c_l c)), c_disk c)) (cplay demo_cfg (cboot demo_q []) run) =
     (W66, 0, LIdle, [[97; 98; 99]], [(log_name 1, [97; 98])])) as E by (vm_compute; reflexivity).
  cbv beta in E. revert E. generalize (cplay demo_cfg (cboot demo_q []) run). intros c E. injection E as E1 E2 E3 E4 E5.
  unfold asleep. auto 10.
Qed.

(** ** Runs that meet the hypotheses: a full file that was closed, then one that is open with part of its output on disk *)
Definition crash_run : list cact := asend (rec_ 97) ++ awork (at_ 1) ++ [AClose] ++ awork (at_ 1) ++ asend [98] ++ awork (at_ 2) ++ [AFlush 1] ++ asend [99] ++ awork (at_ 3).
Example C82_case : exists c, creach demo_cfg demo_q [] c /\ created_small demo_q /\ good_cfg demo_cfg /\ sane (l_log (c_l c)) /\
  ~ In WPrintFail (w_log (l_w (c_l c))) /\ ~ In WOpenFail (w_log (l_w (c_l c))) /\ opened (w_log (l_w (c_l c))) = [log_name 1; log_name 2] /\
  c_disk c = [(log_name 1, rec_ 97 ++ [10]); (log_name 2, [98])].
Proof.
  exists (cplay demo_cfg (cboot demo_q []) crash_run). split; [apply cplay_reach, CR0|].
  assert ((fun c => (l_log (c_l c), w_log (l_w (c_l c)), c_disk c)) (cplay demo_cfg (cboot demo_q []) crash_run) =
     ([LRet [99] 0; LCall [99]; LRet [98] 0; LCall [98]; LRet (rec_ 97) 0; LCall (rec_ 97)], [WOpen (log_name 2); WClose; WOpen (log_name 1)], [(log_name 1, rec_ 97 ++ [10]); (log_name 2, [98])])) as E by (vm_compute; reflexivity).
  cbv beta in E. revert E. generalize (cplay demo_cfg (cboot demo_q []) crash_run). intros c E. injection E as E1 E2 E3.
  split; [exact C29_demo_queue|]. split; [exact C44_demo_cfg|]. rewrite E1, E2, E3.
  split. { intros m. cbn [In]. intros [X|[X|[X|[X|[X|[X|[]]]]]]]; try discriminate; injection X as <-; unfold rec_, zlen; cbn; lia. }
  split; [cbn; intuition discriminate|]. split; [cbn; intuition discriminate|]. split; reflexivity.
Qed.
(** a run that ends with file_logger_deinit *)
Example C82_deinit_case : exists c, creach demo_cfg demo_q [] c /\ In LDeinitRet (l_log (c_l c)) /\ c_disk c = [(log_name 1, [97; 10])].
Proof.
  set (run := asend [97] ++ awork (at_ 1) ++ [ADeinit; AD; AD] ++ awork (at_ 2) ++ [AD; AD]).
  exists (cplay demo_cfg (cboot demo_q []) run). split; [apply cplay_reach, CR0|].
  assert ((fun c => (l_log (c_l c), c_disk c)) (cplay demo_cfg (cboot demo_q []) run) =
     ([LDeinitRet; LDeinit; LRet [97] 0; LCall [97]], [(log_name 1, [97; 10])])) as E by (vm_compute; reflexivity).
  cbv beta in E. revert E. generalize (cplay demo_cfg (cboot demo_q []) run). intros c E. injection E as E1 E2. rewrite E1. cbn. auto.
Qed.

Print Assumptions C82_crash_files.
Print Assumptions C82_crash_old_files.
Print Assumptions C82_crash_lost_file.
Print Assumptions C82_after_deinit.
Print Assumptions C82_other_files.
Print Assumptions C82_unflushed_refuted.
Print Assumptions C82_torn_refuted.

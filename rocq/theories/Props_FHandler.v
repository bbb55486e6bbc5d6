(** C30: the fixed message queue handler (client, worker and destroyer, in every schedule). *)
From Verif Require Import CBase RingBuffer2Model FixedQueueModel FHandlerModel FHandlerSpec FHandlerSpec2.
From Verif Require FHandlerProof3 FHandlerProof4.

(** queues: whatever fixed_msg_queue_create returns for messages of [one] bytes (8 bytes of token
    included; in the C code one = 1048), for each capacity for which it is defined (C08) *)
Definition fcreated (q : fq Z) : Prop :=
  exists malloc one cap, (forall k b, malloc k = Some b -> zlen b = k) /\
    8 <= one /\ 1 <= cap /\ (one * cap - 24 <= 1073741824 \/ one * cap - 24 = 2147483648) /\
    fq_create malloc one cap = Ret (Some q).
(** the token counter has not wrapped: fewer than 2^64 - 2 messages accepted so far *)
Definition young (s : fh) : Prop := zlen (kaccepted (flog s)) + 2 < two64.

Lemma fcreated_good q : fcreated q -> 
  (rb_in (fq_ring q) = 0 /\ rb_out (fq_ring q) = 0 /\ RingBuffer2Proof.is_pow2 (rb_size (fq_ring q)) /\ rb_size (fq_ring q) <= zlen (rb_buf (fq_ring q))) /\
  8 <= fq_one q < two32.
Proof.
  intros (malloc & one & cap & A & B & C & D & E). destruct (FHandlerProof3.fq_create_good malloc one cap q) as [G ->]; auto; [lia|].
  split; [exact G|]. unfold two32. nia.
Qed.

(** No schedule makes the worker or the client access memory out of bounds or fault. *)
Theorem C30_no_fault : forall q s r, fcreated q -> fhreach q s -> young s ->
  (exists o, fwexec (fq_one q) r s = Ret o) /\ (exists o, fpexec (fq_one q) s = Ret o).
Proof. intros q s r C H Y. destruct (fcreated_good q C). apply FHandlerProof3.fh_no_fault; auto. Qed.

(** In order, at most once, unmodified: the k-th message sent is delivered as itself, and after every
    message delivered before it. *)
Theorem C30_in_order_at_most_once : forall q s later k m earlier, fcreated q -> fhreach q s -> young s ->
  flog s = later ++ KCb k m :: earlier ->
  znth k (ksent (flog s)) = Some m /\ forall k' m', In (KCb k' m') earlier -> k' < k.
Proof. intros q s later k m earlier C H Y. destruct (fcreated_good q C). apply (FHandlerProof3.fh_order q); auto. Qed.

(** Nothing pushed after the latest clear is lost: when the worker sleeps, no call is under way and
    nothing has ended the handler, each of these messages has been delivered. *)
Theorem C30_nothing_lost_after_clear : forall q s k, fcreated q -> fhreach q s -> young s ->
  fasleep s -> fpr s = FIdle -> ~ kended (flog s) ->
  cleared (flog s) <= k < zlen (kaccepted (flog s)) -> exists m, In (KCb k m) (flog s).
Proof. intros q s k C H Y. destruct (fcreated_good q C). apply (FHandlerProof3.fh_all q); auto. Qed.
(** ... and the worker gets there: unless finished it sleeps or can take a step, and between two
    sem_waits it takes at most [one] + 8 steps. *)
Theorem C30_progress : forall q s, fcreated q -> fhreach q s -> young s ->
  fwk s = VDone \/ fasleep s \/ exists s', fwexec (fq_one q) 0 s = Ret (Some s').
Proof. intros q s C H Y. destruct (fcreated_good q C). apply (FHandlerProof3.fh_progress q); auto. Qed.
Theorem C30_bounded_work : forall q n s s', fcreated q -> fhreach q s -> young s' ->
  vrun (fq_one q) n s s' -> Z.of_nat n <= fq_one q + 8.
Proof. intros q n s s' C H Y R. destruct (fcreated_good q C). eapply (FHandlerProof3.vrun_bound q n s s'); eauto. Qed.

(** When the worker has caught up there is room for a message, if the queue can hold one at all. *)
Theorem C30_room_when_caught_up : forall q s m w, fcreated q -> fhreach q s -> young s -> fq_one q <= fsize s ->
  fasleep s -> ~ kended (flog s) -> fpr s = F39 m w -> fpexec (fq_one q) s = Ret (Some (set_fpr s (F196 m w))).
Proof. intros q s m w C H Y. destruct (fcreated_good q C). apply (FHandlerProof3.fh_room q); auto. Qed.

(** A push answered "full" had no room: when it was called, the messages accepted so far, from the one after the latest callback's on, and the new one
    did not fit the queue together. *)
Theorem C30_full_means_no_room : forall q s l2 m l, fcreated q -> fhreach q s -> young s -> flog s = l2 ++ KPushRet m 5 :: l ->
  rb_size (fq_ring q) < fq_one q * (zlen (kaccepted (at_kpush l)) - kupto (at_kpush l) + 1).
Proof. intros q s l2 m l C H Y. destruct (fcreated_good q C). apply (FHandlerProof4.fh_full q); auto. Qed.

(** Clear, the part that holds: after a clear has returned at most one callback - the very first one -
    can still be for a message accepted before it. *)
Theorem C30_clear_at_most_one_late : forall q s later k m mid earlier, fcreated q -> fhreach q s -> young s ->
  flog s = later ++ KCb k m :: mid ++ KClearRet :: earlier ->
  k < zlen (kaccepted earlier) -> forall k' m', ~ In (KCb k' m') mid.
Proof.
  intros q s later k m mid earlier C H Y E L. destruct (fcreated_good q C).
  destruct (FHandlerProof3.fh_clear q ltac:(auto) ltac:(auto) s later k m mid earlier H Y E); [lia|assumption].
Qed.

(** Destroy never waits for a sleeping worker, and once it has returned the worker has finished. *)
Theorem C30_destroy_wakes : forall q s, fcreated q -> fhreach q s -> young s -> fds s = E168 -> ~ fasleep s.
Proof. intros q s C H Y. destruct (fcreated_good q C). apply (FHandlerProof3.fh_join q); auto. Qed.
Theorem C30_destroyed_means_finished : forall q s, fhreach q s -> In KDestroyed (flog s) -> fwk s = VDone.
Proof. intros q s H. apply (FHandlerProof3.fh_destroyed q); auto. Qed.

(** ** Concrete runs; an action that is not possible is skipped *)
Inductive fact := GW (r : Z) | GP | GD | GPush (m : list Z) | GClear | GDestroy.
Definition fact_step (one : Z) (s : fh) (a : fact) : option fh :=
  match a with
  | GW r => match fwexec one r s with Ret (Some s') => Some s' | _ => None end
  | GP => match fpexec one s with Ret (Some s') => Some s' | _ => None end
  | GD => fdexec s
  | GPush m => match fpr s, fds s with FIdle, ENone => if zlen m + 8 =? one then Some (set_fpr (femit s (KPush m)) (F111 m)) else None | _, _ => None end
  | GClear => match fpr s, fds s with FIdle, ENone => Some (set_fpr (femit s KClear) F153) | _, _ => None end
  | GDestroy => match fds s, fpr s with ENone, FIdle => Some (set_fds (femit s KDestroy) E165) | _, _ => None end
  end.
Fixpoint fgo (one : Z) (s : fh) (l : list fact) : fh :=
  match l with [] => s | a :: l => match fact_step one s a with Some s' => fgo one s' l | None => fgo one s l end end.
Lemma fgo_reach q : forall l s, fhreach q s -> fhreach q (fgo (fq_one q) s l).
Proof.
  induction l as [|a l IH]; intros s H; cbn; [exact H|].
  destruct (fact_step (fq_one q) s a) as [s1|] eqn:EA; [|auto]. apply IH. apply (FRS q s s1 H).
  destruct a; cbn in EA.
  - destruct (fwexec (fq_one q) r s) as [[x|]| | |] eqn:EW; try discriminate. injection EA as <-. eapply FSW; eauto.
  - destruct (fpexec (fq_one q) s) as [[x|]| | |] eqn:EW; try discriminate. injection EA as <-. apply FSP; auto.
  - apply FSD; auto.
  - destruct (fpr s) eqn:EP; try discriminate. destruct (fds s) eqn:ED; try discriminate.
    destruct (_ =? _) eqn:EB; [|discriminate]. injection EA as <-. apply FSPush; auto. lia.
  - destruct (fpr s) eqn:EP; try discriminate. destruct (fds s) eqn:ED; try discriminate. injection EA as <-. apply FSClear; auto.
  - destruct (fds s) eqn:ED; try discriminate. destruct (fpr s) eqn:EP; try discriminate. injection EA as <-. apply FSDestroy; auto.
Qed.
Definition demo_malloc (n : Z) : option (list Z) := if n <? 0 then None else Some (repeat 0 (Z.to_nat n)).
Definition demo_q : fq Z := mk_fq (mk_rb false 0 0 32 (repeat 0 56)) 10.
Example C30_demo_queue : fcreated demo_q.
Proof.
  exists demo_malloc, 10, 8. split.
  { intros k b H. unfold demo_malloc in H. destruct (k <? 0) eqn:E; [discriminate|]. injection H as <-.
    unfold zlen. rewrite repeat_length. lia. }
  split; [lia|]. split; [lia|]. split; [lia|]. vm_compute. reflexivity.
Qed.

(** Clear, the part that fails: a message pushed before clear can be delivered after clear has returned
    (the worker has passed the token test and not called the callback yet). *)
Theorem C30_clear_refuted : exists s, fcreated demo_q /\ fhreach demo_q s /\
  flog s = [KCb 0 [7; 8]; KClearRet; KClear; KPushRet [7; 8] 0; KPush [7; 8]].
Proof.
  exists (fgo 10 (fhboot demo_q) ([GPush [7; 8]] ++ repeat GP 20 ++ repeat (GW 0) 16 ++ [GClear; GP; GP; GW 0])).
  split; [exact C30_demo_queue|]. split; [apply (fgo_reach demo_q), FR0|]. vm_compute. reflexivity.
Qed.

(** A run that meets the hypotheses: full queue, clear with messages waiting, messages after the clear,
    index wrap-around; it ends with the worker asleep and nothing ended. *)
Definition demo_end : fh :=
  fgo 10 (fhboot demo_q)
    ([GPush [1; 1]] ++ repeat GP 20 ++ [GPush [2; 2]] ++ repeat GP 20 ++ [GPush [3; 3]] ++ repeat GP 20 ++ [GPush [4; 4]] ++ repeat GP 20 ++
     repeat (GW 0) 20 ++ [GPush [5; 5]] ++ repeat GP 7 ++ [GW 0] ++ repeat GP 20 ++ [GClear; GP; GP] ++ [GPush [6; 6]] ++ repeat GP 20 ++
     repeat (GW 0) 40 ++ [GPush [7; 7]] ++ repeat GP 20 ++ repeat (GW 0) 60).
Example C30_demo : fhreach demo_q demo_end /\ young demo_end /\ fasleep demo_end /\ fpr demo_end = FIdle /\ ~ kended (flog demo_end) /\
  cleared (flog demo_end) = 4 /\
  rev (flog demo_end) = [KPush [1; 1]; KPushRet [1; 1] 0; KPush [2; 2]; KPushRet [2; 2] 0; KPush [3; 3]; KPushRet [3; 3] 0;
    KPush [4; 4]; KPushRet [4; 4] 5; KCb 0 [1; 1]; KCbRet 0; KPush [5; 5]; KPushRet [5; 5] 0; KClear; KClearRet;
    KPush [6; 6]; KPushRet [6; 6] 5; KPush [7; 7]; KPushRet [7; 7] 0; KCb 4 [7; 7]; KCbRet 0].
Proof.
  split; [apply (fgo_reach demo_q), FR0|].
  split; [vm_compute; reflexivity|]. split; [split; vm_compute; reflexivity|]. split; [vm_compute; reflexivity|].
  assert (forall l, rev (flog demo_end) = l -> flog demo_end = rev l) as RV by (intros l <-; rewrite rev_involutive; reflexivity).
  assert (rev (flog demo_end) = [KPush [1; 1]; KPushRet [1; 1] 0; KPush [2; 2]; KPushRet [2; 2] 0; KPush [3; 3]; KPushRet [3; 3] 0;
    KPush [4; 4]; KPushRet [4; 4] 5; KCb 0 [1; 1]; KCbRet 0; KPush [5; 5]; KPushRet [5; 5] 0; KClear; KClearRet;
    KPush [6; 6]; KPushRet [6; 6] 5; KPush [7; 7]; KPushRet [7; 7] 0; KCb 4 [7; 7]; KCbRet 0]) as E by (vm_compute; reflexivity).
  split; [|split; [rewrite (RV _ E); reflexivity|exact E]].
  rewrite (RV _ E). unfold kended. generalize dependent demo_end. intros _ _ _. cbn [rev app].
  intros [(r & X & Y)|X]; cbn [In] in X;
    repeat (destruct X as [X|X]; [first [discriminate | injection X as <-; contradiction]|]); contradiction.
Qed.

(** ... and, one push later, C30_room_when_caught_up applies *)
Definition kendedb (l : list kev) : bool := existsb (fun e => match e with KCbRet r => negb (r =? 0) | KDestroy => true | _ => false end) l.
Lemma kendedb_false l : kendedb l = false -> ~ kended l.
Proof.
  intros H [(r & X & Y)|X]; unfold kendedb in H; rewrite <- not_true_iff_false in H; apply H, existsb_exists; eexists; (split; [exact X|]); cbn; auto.
  destruct (r =? 0) eqn:E; [lia|reflexivity].
Qed.
Definition demo_room : fh := fgo 10 demo_end [GPush [7; 8]; GP; GP].
Lemma demo_room_summary : (fwk demo_room, fsem demo_room, fpr demo_room, fsize demo_room, zlen (kaccepted (flog demo_room)), kendedb (flog demo_room)) =
  (V49, 0, F39 [7; 8] [5; 0; 0; 0; 0; 0; 0; 0; 7; 8], 32, 5, false).
Proof. vm_compute. reflexivity. Qed.
Example C30_demo_room : fhreach demo_q demo_room /\ young demo_room /\ fq_one demo_q <= fsize demo_room /\ fasleep demo_room /\
  ~ kended (flog demo_room) /\ fpr demo_room = F39 [7; 8] [5; 0; 0; 0; 0; 0; 0; 0; 7; 8].
Proof.
  split; [apply (fgo_reach demo_q), C30_demo|]. pose proof demo_room_summary as S. revert S. generalize demo_room. intros s S.
  injection S as B C D E F G.
  split; [unfold young; rewrite F; reflexivity|]. split; [rewrite E; discriminate|]. split; [split; assumption|].
  split; [apply kendedb_false; assumption|assumption].
Qed.

(** ... and it contains pushes answered "full" *)
Example C30_demo_full : exists l2 l, flog demo_end = l2 ++ KPushRet [6; 6] 5 :: l /\
  (zlen (kaccepted (at_kpush l)), kupto (at_kpush l), rb_size (fq_ring demo_q), fq_one demo_q) = (4, 1, 32, 10).
Proof.
  destruct C30_demo as (_ & _ & _ & _ & _ & _ & E). rewrite <- (rev_involutive (flog demo_end)). rewrite E. cbn [rev app].
  do 2 eexists. split; [exact (app_nil_l _ ) || apply (eq_refl : [KCbRet 0; KCb 4 [7; 7]; KPushRet [7; 7] 0; KPush [7; 7]] ++ _ = _)|]. vm_compute. reflexivity.
Qed.

Lemma fdone_flag q s : fhreach q s -> fwk s = VDone -> fflag s = true.
Proof.
  induction 1 as [|s s' H IH HS]; [discriminate|]. destruct HS as [s r s' HW|s s' HP|s s' HD|s m A B C|s A B|s A B]; try exact IH.
  - unfold fwexec in HW. destruct (fwk s) eqn:EW; try discriminate; try (injection HW as <-; cbn; discriminate); try (injection HW as <-; reflexivity).
    + destruct (_ <? _); [|discriminate]. injection HW as <-. discriminate.
    + injection HW as <-. cbn. destruct (fflag s); discriminate.
    + injection HW as <-. cbn. destruct (_ =? _); discriminate.
    + destruct (_ =? _); injection HW as <-; discriminate.
    + destruct (_ <? _); [|injection HW as <-; cbn; destruct (_ =? _); discriminate].
      destruct (mload _ _); cbn [bind] in HW; try discriminate. destruct (mstore _ _ _); cbn [bind] in HW; try discriminate. injection HW as <-. discriminate.
    + injection HW as <-. cbn. destruct (_ >=? _); discriminate.
    + injection HW as <-. cbn. destruct (_ =? _); discriminate.
  - assert (fwk s' = fwk s /\ fflag s' = fflag s) as [-> ->]; [|exact IH]. unfold fpexec in HP. destruct (fpr s); try discriminate; try (injection HP as <-; split; reflexivity).
    + destruct (_ =? _); injection HP as <-; split; reflexivity.
    + destruct (_ <? _); [|injection HP as <-; split; reflexivity].
      destruct (mload _ _); cbn [bind] in HP; try discriminate. destruct (mstore _ _ _); cbn [bind] in HP; try discriminate. injection HP as <-; split; reflexivity.
  - unfold fdexec in HD. destruct (fds s); try discriminate; try (injection HD as <-; first [exact IH | reflexivity]).
    destruct (fwk s) eqn:EW; try discriminate. injection HD as <-. cbn. rewrite EW. exact IH.
Qed.
(** A push that tests the flag after the worker has ended answers 2. *)
Theorem C30_push_refused_after_end : forall q s m, fhreach q s -> fwk s = VDone -> fpr s = F111 m ->
  exists s', fpexec (fq_one q) s = Ret (Some s') /\ fpr s' = FRet m 2.
Proof. intros q s m H D P. pose proof (fdone_flag q s H D) as F. unfold fpexec. rewrite P, F. eexists. split; reflexivity. Qed.
Example C30_push_refused_demo : let s := fgo 10 (fhboot demo_q) ([GPush [1; 1]] ++ repeat GP 20 ++ repeat (GW 1) 40 ++ [GPush [7; 8]]) in
  fhreach demo_q s /\ fwk s = VDone /\ fpr s = F111 [7; 8].
Proof. split; [apply (fgo_reach demo_q), FR0|]. split; vm_compute; reflexivity. Qed.

Print Assumptions C30_no_fault.
Print Assumptions C30_in_order_at_most_once.
Print Assumptions C30_nothing_lost_after_clear.
Print Assumptions C30_progress.
Print Assumptions C30_bounded_work.
Print Assumptions C30_clear_at_most_one_late.
Print Assumptions C30_destroy_wakes.
Print Assumptions C30_destroyed_means_finished.
Print Assumptions C30_clear_refuted.
Print Assumptions C30_push_refused_after_end.
Print Assumptions C30_room_when_caught_up.
Print Assumptions C30_full_means_no_room.

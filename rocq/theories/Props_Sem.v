(** C54: semaphores of the simple Windows pthread layer. *)
From Verif Require Import CBase SeqLib ThreadLib CStr SemModel SemSpec SemProof.

(** ** Names. A name of 1 to 504 bytes and a value up to SEM_VALUE_MAX are accepted, whatever the stack holds,
    and the kernel is given "Global\" and the name; other names below 2^31 bytes are refused. *)
Theorem C54_sem_name : forall junk name value, zlen junk = 512 -> text name -> zlen name < two31 ->
  full_name junk name value = Ret (if (1 <=? zlen name) && (zlen name <=? 504) && (value <=? SEM_VALUE_MAX) then Some (prefix ++ name) else None).
Proof.
  intros junk name value J T L. rewrite full_name_ok by assumption. rewrite s32_small by (pose proof (zlen_nonneg name); lia). pose proof (zlen_nonneg name).
  f_equal. destruct (SEM_VALUE_MAX <? value) eqn:A, (504 <? zlen name) eqn:B, (zlen name <? 1) eqn:C; cbn; try (replace (1 <=? zlen name) with false by lia; reflexivity);
  try (replace (zlen name <=? 504) with false by lia; rewrite andb_false_r; reflexivity); try (replace (value <=? SEM_VALUE_MAX) with false by lia; rewrite andb_false_r; reflexivity).
  replace (1 <=? zlen name) with true by lia. replace (zlen name <=? 504) with true by lia. replace (value <=? SEM_VALUE_MAX) with true by lia. cbn. rewrite ztake_all by lia. reflexivity.
Qed.
(** no name, however long, makes the code write outside its buffer *)
Theorem C54_sem_name_safe : forall junk name value, zlen junk = 512 -> text name -> exists r, full_name junk name value = Ret r.
Proof. intros. rewrite full_name_ok by assumption. eauto. Qed.

(** ** Opening. ok name value: the arguments are accepted *)
Definition accepted (name : list Z) (value : Z) : Prop := text name /\ 1 <= zlen name <= 504 /\ value <= SEM_VALUE_MAX.
Definition exists_ (name : list Z) (k : kernel) : Prop := exists o, In o k /\ kname o = prefix ++ name /\ 0 < krefs o.
Lemma accepted_name : forall junk name value, zlen junk = 512 -> accepted name value -> full_name junk name value = Ret (Some (prefix ++ name)).
Proof.
  intros junk name value J (T & L & V). rewrite C54_sem_name; auto; [|unfold two31; lia].
  replace (1 <=? zlen name) with true by lia. replace (zlen name <=? 504) with true by lia. replace (value <=? SEM_VALUE_MAX) with true by lia. reflexivity.
Qed.
Lemma exists_lookup : forall name k, exists_ name k <-> exists i, lookup (prefix ++ name) k = Some i.
Proof.
  intros name k. split.
  - intros (o & A & B & C). destruct (lookup (prefix ++ name) k) as [i|] eqn:E; [eauto|]. apply lookup_from_None with (o := o) in E; auto. lia.
  - intros (i & E). destruct (lookup_Some _ _ _ E) as (o & A & B & C). exists o. split; [eapply nth_error_In; eauto | auto].
Qed.

(** A name that exists: exclusive creation fails and leaves everything as it was, anything else opens the
    existing semaphore, whose value is not changed. *)
Theorem C54_sem_open_existing : forall junk name creat excl value k, zlen junk = 512 -> accepted name value -> exists_ name k ->
  exists i o, nth_error k i = Some o /\ kname o = prefix ++ name /\ 0 < krefs o /\
    open_internal junk name creat excl value None k =
      Ret (if creat && excl then (EEXIST, Some i, k) else (0, Some i, lset i (mk_k (kname o) (kval o) (kmax o) (krefs o + 1)) k)) /\
    sem_open true junk name creat excl value None k =
      Ret (if creat && excl then (EEXIST, None, k) else (0, Some i, lset i (mk_k (kname o) (kval o) (kmax o) (krefs o + 1)) k)).
Proof.
  intros junk name creat excl value k J A X. apply exists_lookup in X. destruct X as (i & E). destruct (lookup_Some _ _ _ E) as (o & N & M & R).
  exists i, o. split; [exact N|]. split; [exact M|]. split; [exact R|].
  assert (OI : open_internal junk name creat excl value None k = Ret (if creat && excl then (EEXIST, Some i, k) else (0, Some i, lset i (mk_k (kname o) (kval o) (kmax o) (krefs o + 1)) k))).
  { unfold open_internal. rewrite accepted_name by assumption. cbn [bind].
    unfold create_semaphore. rewrite E. destruct (creat && excl).
    - rewrite (open_close _ _ _ E). reflexivity.
    - unfold add_ref. rewrite N. reflexivity. }
  split; [exact OI|]. unfold sem_open. cbn [negb]. rewrite OI. destruct (creat && excl); reflexivity.
Qed.
(** A name that does not exist, with O_CREAT: a new semaphore with the given value and one handle. *)
Theorem C54_sem_open_new : forall junk name excl value k, zlen junk = 512 -> accepted name value -> ~ exists_ name k ->
  open_internal junk name true excl value None k = Ret (0, Some (length k), k ++ [mk_k (prefix ++ name) value SEM_VALUE_MAX 1]) /\
  sem_open true junk name true excl value None k = Ret (0, Some (length k), k ++ [mk_k (prefix ++ name) value SEM_VALUE_MAX 1]).
Proof.
  intros junk name excl value k J A X. unfold sem_open, open_internal. rewrite accepted_name by assumption. cbn [bind]. unfold create_semaphore.
  destruct (lookup (prefix ++ name) k) as [i|] eqn:E; [exfalso; apply X, exists_lookup; eauto | split; reflexivity].
Qed.
(** Errors of the kernel, bad arguments and lack of memory change nothing. *)
Theorem C54_sem_open_fails : forall junk name creat excl value k d, zlen junk = 512 -> text name ->
  (exists e, open_internal junk name creat excl value (Some d) k = Ret (e, None, k) /\ e <> 0) /\
  (~ accepted name value -> zlen name < two31 -> open_internal junk name creat excl value None k = Ret (EINVAL, None, k) /\ sem_open true junk name creat excl value None k = Ret (EINVAL, None, k)) /\
  sem_open false junk name creat excl value (Some d) k = Ret (ENOMEM, None, k).
Proof.
  intros junk name creat excl value k d J T. split; [|split; [|reflexivity]].
  - unfold open_internal. rewrite full_name_ok by assumption. cbn [bind]. destruct (_ || _); [exists EINVAL; split; [reflexivity | discriminate]|].
    exists (errno_of d). split; [reflexivity | destruct d; discriminate].
  - intros A L. unfold sem_open, open_internal. rewrite C54_sem_name by assumption. cbn [bind negb].
    destruct ((1 <=? zlen name) && (zlen name <=? 504) && (value <=? SEM_VALUE_MAX)) eqn:E; [exfalso; apply A | split; reflexivity].
    apply andb_prop in E. destruct E as (E & E3). apply andb_prop in E. destruct E as (E1 & E2). split; [exact T|]. lia.
Qed.
(** Opening without O_CREAT a name that does not exist reports ENOENT, but creates it and leaks the handle:
    exclusive creation of that name is impossible from then on. *)
Theorem C54_sem_open_missing_refuted : forall junk junk2 name value value2 k, zlen junk = 512 -> zlen junk2 = 512 -> accepted name value -> accepted name value2 -> ~ exists_ name k ->
  exists k1 h, sem_open true junk name false false value None k = Ret (ENOENT, None, k1) /\ exists_ name k1 /\
    open_internal junk2 name true true value2 None k1 = Ret (EEXIST, h, k1).
Proof.
  intros junk junk2 name value value2 k J J2 A A2 X. set (k1 := k ++ [mk_k (prefix ++ name) value SEM_VALUE_MAX 1]).
  assert (E1 : exists_ name k1). { exists (mk_k (prefix ++ name) value SEM_VALUE_MAX 1). split; [apply in_or_app; right; left; reflexivity | split; [reflexivity | cbn; lia]]. }
  destruct (C54_sem_open_existing junk2 name true true value2 k1 J2 A2 E1) as (i & o & _ & _ & _ & R & _). exists k1, (Some i).
  split; [|split; [exact E1 | exact R]]. unfold sem_open, open_internal. rewrite accepted_name by assumption. cbn [bind]. unfold create_semaphore.
  destruct (lookup (prefix ++ name) k) as [i'|] eqn:E; [exfalso; apply X, exists_lookup; eauto | reflexivity].
Qed.
(** Closing gives the handle back; the semaphore goes with its last handle. *)
Theorem C54_sem_close : forall h internal k o, nth_error k h = Some o -> 0 < krefs o ->
  sem_close h internal k = (0, internal, lset h (mk_k (kname o) (kval o) (kmax o) (krefs o - 1)) k).
Proof. intros h internal k o E R. unfold sem_close, close_handle. rewrite E. replace (0 <? krefs o) with true by lia. unfold add_ref. rewrite E. reflexivity. Qed.

(** ** sem_init. The name is made of the address, 23 bytes for a buffer of 24; different addresses give
    different names. *)
Theorem C54_sem_init_name : forall a b, 0 <= a < two64 -> 0 <= b < two64 -> init_name a = Ret (prefix ++ hex 16 a) /\ (init_name a = init_name b -> a = b).
Proof.
  intros a b A B. rewrite !init_name_ok. split; [reflexivity|]. intros H.
  assert (H2 : prefix ++ hex 16 a = prefix ++ hex 16 b) by congruence. apply app_inv_head in H2. apply (hex_inj 16); assumption.
Qed.
Lemma init_accepted : forall a value, value <= SEM_VALUE_MAX -> accepted (prefix ++ hex 16 a) value.
Proof.
  intros a value V. split; [apply text_app; split; [repeat constructor; discriminate | apply hex_text]|]. rewrite zlen_app, hex_len. change (zlen prefix) with 7. lia.
Qed.
Theorem C54_sem_init : forall junk a value k, zlen junk = 512 -> value <= SEM_VALUE_MAX -> ~ exists_ (prefix ++ hex 16 a) k ->
  sem_init junk a value None k = Ret (0, Some (length k), k ++ [mk_k (prefix ++ prefix ++ hex 16 a) value SEM_VALUE_MAX 1]).
Proof.
  intros junk a value k J V X. unfold sem_init. replace (SEM_VALUE_MAX <? value) with false by lia. rewrite init_name_ok. cbn [bind].
  apply C54_sem_open_new; [exact J | apply init_accepted; exact V | exact X].
Qed.
(** The names are global: while a semaphore lives, sem_init of another variable at the same address, in any
    process, fails with EEXIST. *)
Theorem C54_sem_init_same_address_refuted : forall junk a v k, zlen junk = 512 -> v <= SEM_VALUE_MAX -> ~ exists_ (prefix ++ hex 16 a) k ->
  exists h k1 h2, sem_init junk a v None k = Ret (0, Some h, k1) /\ sem_init junk a v None k1 = Ret (EEXIST, h2, k1).
Proof.
  intros junk a v k J V X. exists (length k), (k ++ [mk_k (prefix ++ prefix ++ hex 16 a) v SEM_VALUE_MAX 1]).
  set (k1 := k ++ _). assert (E1 : exists_ (prefix ++ hex 16 a) k1).
  { eexists. split; [apply in_or_app; right; left; reflexivity|]. split; [reflexivity | cbn; lia]. }
  destruct (C54_sem_open_existing junk _ true true v k1 J (init_accepted a v V) E1) as (i & o & _ & _ & _ & R & _). exists (Some i).
  split; [apply C54_sem_init; assumption|]. unfold sem_init. replace (SEM_VALUE_MAX <? v) with false by lia. rewrite init_name_ok. cbn [bind]. exact R.
Qed.

(** ** sem_timedwait. The milliseconds passed to the kernel: never INFINITE; if the deadline is in the future
    and less than 49 days away the wait ends within a millisecond of it, before or after. *)
Definition sane (sec nsec ft : Z) : Prop := - 2 ^ 50 <= sec <= 2 ^ 50 /\ 0 <= nsec < 1000000000 /\ DELTA <= ft < 2 ^ 62.
Lemma rel_ms_ok : forall sec nsec ft, sane sec nsec ft ->
  let d := sec * 1000 + nsec / 1000000 - (ft - DELTA) / 10000 in
  rel_ms sec nsec ft = Ret (if (d <? 0) || (4294967295 <=? d) then 0 else d).
Proof.
  intros sec nsec ft (S & N & F). cbv zeta. unfold rel_ms, i64. change (two64 / 2) with 9223372036854775808. unfold DELTA in *.
  change (2 ^ 50) with 1125899906842624 in S. change (2 ^ 62) with 4611686018427387904 in F.
  assert (Q1 : Z.quot nsec 1000000 = nsec / 1000000) by (apply Z.quot_div_nonneg; lia).
  assert (Q2 : Z.quot (ft - 116444736000000000) 10000 = (ft - 116444736000000000) / 10000) by (apply Z.quot_div_nonneg; lia).
  assert (B1 : 0 <= nsec / 1000000 < 1000) by (split; [apply Z.div_pos; lia | apply Z.div_lt_upper_bound; lia]).
  assert (B2 : 0 <= (ft - 116444736000000000) / 10000 <= 461168601842739) by (split; [apply Z.div_pos; lia | apply Z.div_le_upper_bound; lia]).
  rewrite Q1.
  replace ((- (9223372036854775808) <=? sec * 1000) && (sec * 1000 <? 9223372036854775808)) with true by lia. cbn [bind].
  replace ((- (9223372036854775808) <=? sec * 1000 + nsec / 1000000) && (sec * 1000 + nsec / 1000000 <? 9223372036854775808)) with true by lia. cbn [bind].
  replace ((- (9223372036854775808) <=? ft - 116444736000000000) && (ft - 116444736000000000 <? 9223372036854775808)) with true by lia. cbn [bind].
  rewrite Q2. set (q := (ft - 116444736000000000) / 10000) in *. set (m := nsec / 1000000) in *.
  replace ((- (9223372036854775808) <=? sec * 1000 + m - q) && (sec * 1000 + m - q <? 9223372036854775808)) with true by lia. reflexivity.
Qed.
Theorem C54_sem_timeout : forall sec nsec ft, sane sec nsec ft -> exists r, rel_ms sec nsec ft = Ret r /\ 0 <= r < 4294967295 /\
  (deadline sec nsec <= system_time ft -> r = 0) /\
  (system_time ft <= deadline sec nsec < system_time ft + 4294967294 * 1000000 ->
     deadline sec nsec - 1000000 < system_time ft + r * 1000000 < deadline sec nsec + 1000000).
Proof.
  intros sec nsec ft S. pose proof (rel_ms_ok sec nsec ft S) as R. cbv zeta in R. destruct S as (S & N & F). unfold deadline, system_time.
  set (d := sec * 1000 + nsec / 1000000 - (ft - DELTA) / 10000) in *.
  pose proof (Z.div_mod nsec 1000000 ltac:(lia)). pose proof (Z.mod_pos_bound nsec 1000000 ltac:(lia)).
  pose proof (Z.div_mod (ft - DELTA) 10000 ltac:(lia)). pose proof (Z.mod_pos_bound (ft - DELTA) 10000 ltac:(lia)).
  eexists. split; [exact R|]. destruct ((d <? 0) || (4294967295 <=? d)) eqn:C.
  - apply orb_prop in C. split; [lia|]. split; [reflexivity|]. intros B. destruct C as [C|C]; [apply Z.ltb_lt in C | apply Z.leb_le in C]; lia.
  - apply orb_false_elim in C. destruct C as (C1 & C2). apply Z.ltb_ge in C1. apply Z.leb_gt in C2. split; [lia|]. split; intros; lia.
Qed.
(** A deadline 2^32 milliseconds (49.7 days) away or more is treated as passed: sem_timedwait does not wait. *)
Theorem C54_sem_timeout_far_refuted : forall sec nsec ft, sane sec nsec ft -> system_time ft + 4294967296 * 1000000 <= deadline sec nsec -> rel_ms sec nsec ft = Ret 0.
Proof.
  intros sec nsec ft S D. rewrite (rel_ms_ok sec nsec ft S). unfold deadline, system_time in D.
  pose proof (Z.div_mod nsec 1000000 ltac:(lia)). pose proof (Z.mod_pos_bound nsec 1000000 ltac:(lia)).
  pose proof (Z.div_mod (ft - DELTA) 10000 ltac:(lia)). pose proof (Z.mod_pos_bound (ft - DELTA) 10000 ltac:(lia)).
  destruct S as (_ & N & F). match goal with |- context [4294967295 <=? ?d] => replace (4294967295 <=? d) with true; [rewrite orb_true_r; reflexivity|]; symmetry; apply Z.leb_le end. lia.
Qed.
(** A wait may end before its deadline (POSIX forbids it). *)
Theorem C54_sem_timeout_early_refuted : exists sec nsec ft, sane sec nsec ft /\ system_time ft < deadline sec nsec /\ rel_ms sec nsec ft = Ret 0.
Proof. exists 1000, 900000, (DELTA + 10000000000 + 1000). split; [unfold sane, DELTA; lia|]. split; [vm_compute; reflexivity | vm_compute; reflexivity]. Qed.

(** ** Counting, for n threads that use one semaphore in any interleaving. *)
Section C54.
Context (n : nat) (v0 m : Z) (V : 0 <= v0 <= m).
Definition reach (s : sst) : Prop := exists l, run l (s_init n v0 m) = Some s.
Definition bal (s : sst) : Prop := 0 <= sv s <= m /\ smax s = m /\ sv s + peeking s = units v0 (slog s) - getfails (slog s) /\ 0 <= peeking s.
Lemma peek_pos : forall s, 0 <= peeking s.
Proof. intros s. apply lsum_nonneg. intros ? p _. destruct p; cbn; lia. Qed.
Lemma act_bal : forall a s s', bal s -> do_act a s = Some s' -> bal s'.
Proof.
  intros a s s' (B1 & B2 & B3 & _) H. unfold bal. enough (0 <= sv s' <= m /\ smax s' = m /\ sv s' + peeking s' = units v0 (slog s') - getfails (slog s')) by (pose proof (peek_pos s'); tauto).
  unfold peeking in *. destruct a; cbn in H.
  - unfold exec, fin, goto in H. destruct (nth_error (pcs s) t) as [p|] eqn:E; [|discriminate].
    destruct p; try discriminate; try match type of H with context [if ?b then _ else _] => destruct b eqn:C end; try discriminate; injection H as <-; cbn [sv smax slog pcs units gain getfails]; rewrite ?(lsum_lset _ _ _ _ _ E); cbn [peek]; cbn [Z.eqb EAGAIN EINVAL]; repeat split; try lia.
  - unfold fin in H. destruct (nth_error (pcs s) t) as [p|] eqn:E; [|discriminate]. destruct p; try discriminate. destruct (0 <? sv s); [discriminate|]. injection H as <-.
    cbn [sv smax slog pcs units gain getfails]. rewrite ?(lsum_lset _ _ _ _ _ E). cbn. repeat split; try lia.
  - unfold goto in H. destruct (nth_error (pcs s) t) as [q|] eqn:E; [|discriminate]. destruct q; try discriminate. destruct (callable p) eqn:C; [|discriminate]. injection H as <-.
    cbn [sv smax slog pcs]. rewrite ?(lsum_lset _ _ _ _ _ E). destruct p; try discriminate; cbn; repeat split; try lia.
Qed.
Lemma reach_bal : forall s, reach s -> bal s.
Proof.
  intros s (l & R). assert (K : forall l s s', bal s -> run l s = Some s' -> bal s').
  { clear - V. induction l as [|a l IH]; intros s s' B R; cbn in R; [congruence|]. destruct (do_act a s) as [s1|] eqn:E; [|discriminate]. eauto using act_bal. }
  apply (K l (s_init n v0 m) s); [|exact R]. assert (Z : peeking (s_init n v0 m) = 0) by (apply lsum_zero; intros ? p E; apply nth_error_repeat in E; subst; reflexivity).
  unfold bal. rewrite Z. cbn. repeat split; lia.
Qed.

(** Units are neither lost nor invented: the value is the initial one plus the posts minus the waits that
    returned 0, apart from the units that running calls of sem_getvalue have borrowed, and from the ones a
    sem_getvalue that failed has dropped. It stays between 0 and the maximum. *)
Theorem C54_sem_conserved : forall s, reach s -> 0 <= sv s <= m /\ sv s + peeking s = units v0 (slog s) - getfails (slog s).
Proof. intros s R. destruct (reach_bal _ R) as (A & _ & B & _). auto. Qed.
(** so a wait returns 0 only when there is a unit for it *)
Theorem C54_sem_no_overdraft : forall s, reach s -> 0 <= units v0 (slog s).
Proof.
  intros s R. destruct (reach_bal _ R) as (A & _ & B & C). assert (0 <= getfails (slog s)); [|lia].
  clear. induction (slog s) as [|e h IH]; cbn; [lia|]. destruct e; try lia. destruct (e =? 0); lia.
Qed.
(** No lost wake-up: when nobody can go on and some thread waits, no unit is left. *)
Theorem C54_sem_no_lost_unit : forall s t p, reach s -> at_rest s -> nth_error (pcs s) t = Some p -> p <> Idle ->
  (p = PW \/ p = PD) /\ units v0 (slog s) = getfails (slog s).
Proof.
  intros s t p R A E N. destruct (reach_bal _ R) as (B1 & B2 & B3 & _).
  assert (K : (p = PW \/ p = PD) /\ sv s <= 0).
  { specialize (A t). unfold exec, fin, goto in A. rewrite E in A. destruct p; try congruence; try match type of A with context [if ?b then _ else _] => destruct b eqn:C end; try discriminate; split; auto; lia. }
  split; [apply K|]. assert (Z : peeking s = 0).
  { apply lsum_zero. intros u q Eq. specialize (A u). unfold exec, fin, goto in A. rewrite Eq in A. destruct q; try reflexivity. destruct (sv s <? smax s); discriminate. }
  lia.
Qed.
(** sem_post fails only at the maximum; sem_trywait fails, and sem_getvalue sees less than there is, only by
    the units that other calls of sem_getvalue have borrowed; sem_getvalue fails only at the maximum. *)
Theorem C54_sem_results : forall s a s' e, reach s -> do_act a s = Some s' -> slog s' = e :: slog s ->
  match e with
  | EPost _ r => r = 0 \/ r = EINVAL /\ sv s = m
  | ETry _ r => r = 0 \/ r = EAGAIN /\ units v0 (slog s) - getfails (slog s) = peeking s
  | EGet t r v => r = 0 /\ v = units v0 (slog s) - getfails (slog s) - (peeking s - (match nth_error (pcs s) t with Some p => peek p | None => 0 end)) \/ r = EINVAL /\ sv s = m
  | EWait _ r => r = 0 | ETimed _ r => r = 0 \/ r = ETIMEDOUT /\ sv s = 0
  end.
Proof.
  intros s a s' e R H L. destruct (reach_bal _ R) as (B1 & B2 & B3 & _).
  assert (NX : forall (h : list ev) x, h <> x :: h) by (intros h x X; apply (f_equal (@length ev)) in X; cbn in X; lia).
  destruct a; cbn in H.
  - unfold exec, fin, goto in H. destruct (nth_error (pcs s) t) as [p|] eqn:E; [|discriminate].
    destruct p; try discriminate; try match type of H with context [if ?b then _ else _] => destruct b eqn:C end; try discriminate; injection H as <-; cbn [slog] in L;
      try (exfalso; eapply NX; exact L); injection L as <-; rewrite ?E; cbn [peek]; auto; try (left; split; [reflexivity | lia]); right; (split; [reflexivity | lia]).
  - unfold fin in H. destruct (nth_error (pcs s) t) as [p|] eqn:E; [|discriminate]. destruct p; try discriminate. destruct (0 <? sv s) eqn:C; [discriminate|]. injection H as <-.
    injection L as <-. right. split; [reflexivity | lia].
  - unfold goto in H. destruct (nth_error (pcs s) t) as [q|] eqn:E; [|discriminate]. destruct q; try discriminate. destruct (callable p); [|discriminate]. injection H as <-.
    exfalso. eapply NX. exact L.
Qed.
End C54.
Print Assumptions C54_sem_name.
Print Assumptions C54_sem_name_safe.
Print Assumptions C54_sem_open_existing.
Print Assumptions C54_sem_open_new.
Print Assumptions C54_sem_open_fails.
Print Assumptions C54_sem_open_missing_refuted.
Print Assumptions C54_sem_close.
Print Assumptions C54_sem_init_name.
Print Assumptions C54_sem_init.
Print Assumptions C54_sem_init_same_address_refuted.
Print Assumptions C54_sem_timeout.
Print Assumptions C54_sem_timeout_far_refuted.
Print Assumptions C54_sem_timeout_early_refuted.
Print Assumptions C54_sem_conserved.
Print Assumptions C54_sem_no_overdraft.
Print Assumptions C54_sem_no_lost_unit.
Print Assumptions C54_sem_results.

(** sem_getvalue borrows a unit: a concurrent sem_trywait fails although a unit is there *)
Definition final (l : list act) (s : sst) : sst := match run l s with Some s' => s' | None => s end.
Definition race : list act := [ACall 0 G1; AStep 0; ACall 1 PT; AStep 1; AStep 0].
Theorem C54_sem_getvalue_race_refuted : exists s, reach 2 1 SEM_VALUE_MAX s /\ slog s = [EGet 0 0 1; ETry 1 EAGAIN] /\ units 1 (slog s) = 1.
Proof. exists (final race (s_init 2 1 SEM_VALUE_MAX)). split; [exists race; vm_compute; reflexivity|]. split; vm_compute; reflexivity. Qed.
(** and at the maximum a concurrent sem_post succeeds without adding a unit *)
Definition race2 : list act := [ACall 0 G1; AStep 0; ACall 1 PP; AStep 1; AStep 0].
Theorem C54_sem_post_lost_refuted : exists s, reach 2 SEM_VALUE_MAX SEM_VALUE_MAX s /\ slog s = [EGet 0 EINVAL 0; EPost 1 0] /\ sv s = SEM_VALUE_MAX.
Proof. exists (final race2 (s_init 2 SEM_VALUE_MAX SEM_VALUE_MAX)). split; [exists race2; vm_compute; reflexivity|]. split; vm_compute; reflexivity. Qed.
Print Assumptions C54_sem_getvalue_race_refuted.
Print Assumptions C54_sem_post_lost_refuted.
(** a producer and two consumers; one of them times out *)
Definition demo : list act := [ACall 0 PW; ACall 1 PD; ACall 2 PP; AStep 2; AStep 1; ACall 1 PD; ATimeout 1; ACall 2 PP; AStep 2; AStep 0].
Example C54_sem_demo : reach 3 0 SEM_VALUE_MAX (final demo (s_init 3 0 SEM_VALUE_MAX)) /\
  slog (final demo (s_init 3 0 SEM_VALUE_MAX)) = [EWait 0 0; EPost 2 0; ETimed 1 ETIMEDOUT; ETimed 1 0; EPost 2 0] /\
  accepted [47; 97] 3 /\ ~ exists_ [47; 97] [] /\ sane 1 0 (DELTA + 5) /\ rel_ms 1 0 (DELTA + 5) = Ret 1000.
Proof.
  split; [exists demo; vm_compute; reflexivity|]. split; [vm_compute; reflexivity|].
  split; [unfold accepted, text; repeat split; try (vm_compute; discriminate); repeat apply Forall_cons; try discriminate; apply Forall_nil|].
  split; [intros (o & [] & _)|]. split; [unfold sane, DELTA; lia | vm_compute; reflexivity].
Qed.

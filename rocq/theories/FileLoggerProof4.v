(** Consequences of the invariant; file_logger_init. *)
From Verif Require Import CBase SeqLib CStr StringsModel StringsSpec StringsProof IntegerModel IntegerProof RingBuffer2Model MsgQueueModel SpscModel HandlerModel HandlerSpec.
From Verif Require Import Props_Handler FileLoggerModel FileLoggerSpec FileLoggerProof FileLoggerProof2 FileLoggerProof3.

Lemma holds_msgs : forall bs ds, Forall2 begins bs ds -> forall rs recs, Forall2 is_msg ds rs -> Forall2 holds bs recs -> rs = recs.
Proof.
  induction 1 as [|b d bs ds B F IH]; intros rs recs M H.
  - inversion M; subst. inversion H; subst. reflexivity.
  - inversion M as [|? r ? rs' M1 M2]; subst. inversion H as [|? r' ? recs' H1 H2]; subst.
    f_equal; [|apply IH; assumption]. destruct B as (t & ->). destruct H1 as (x & t' & Mx & E). eapply is_msg_inj; eauto.
Qed.
Lemma sent_msgs s : pc_inv s -> exists X rest, lsent (l_log s) = X ++ rest /\ Forall2 is_msg (hsent (hlog (l_h s))) X.
Proof.
  unfold pc_inv. destruct (l_pc s).
  - intros (_ & E & H & _). exists (laccepted (l_log s)), []. rewrite app_nil_r. auto.
  - intros (_ & _ & _ & _ & E & H & _). eauto.
  - intros (x & hs & M & _ & _ & _ & E & -> & H & _). exists (laccepted (l_log s) ++ [m]), []. rewrite app_nil_r. split; [exact E|].
    apply Forall2_snoc; assumption.
  - intros (_ & _ & _ & E & H & _). destruct (status =? 0).
    + eexists _, []. rewrite app_nil_r. eauto.
    + rewrite app_nil_r in H. eauto.
Qed.
Lemma logger_files cfg q fs s : good_cfg cfg -> created_small q -> lreach cfg q fs s -> sane (l_log s) ->
  ~ In WPrintFail (w_log (l_w s)) -> NoDup (opened (w_log (l_w s))) ->
  exists delivered rest groups, lsent (l_log s) = delivered ++ rest /\ subseq (concat groups) (nonempty delivered) /\
    (~ In WOpenFail (w_log (l_w s)) -> concat groups = nonempty delivered) /\
    Forall2 (fun n g => fs_get n (w_fs (l_w s)) = Some (lines g)) (opened (w_log (l_w s))) groups /\ rotated (f_max cfg) groups.
Proof.
  intros GC CS R S P N. destruct (lreach_inv cfg q fs GC CS s R S) as [A1 A2 A3 A4 A5 A6 A7 A8 A9].
  destruct A8 as (recs & R1 & (_ & R2) & _). destruct (R2 P N) as (groups & G1 & G2 & G3).
  destruct (sent_msgs s A3) as (X & rest & E1 & E2).
  destruct (C29_handler_in_order_once q _ CS A1) as (d & r & E3 & E4). rewrite E3 in E2.
  apply Forall2_app_inv_l in E2 as (rs & X2 & F1 & _ & ->). rewrite (holds_msgs _ _ E4 _ _ F1 R1) in *.
  exists recs, (X2 ++ rest), groups. split; [rewrite E1, app_assoc; reflexivity|]. auto.
Qed.
Lemma logger_all cfg q fs s : good_cfg cfg -> created_small q -> lreach cfg q fs s -> sane (l_log s) ->
  ~ In WPrintFail (w_log (l_w s)) -> ~ In WOpenFail (w_log (l_w s)) -> NoDup (opened (w_log (l_w s))) ->
  asleep (l_h s) -> l_pc s = LIdle -> ~ ended (hlog (l_h s)) ->
  exists groups, concat groups = nonempty (laccepted (l_log s)) /\
    Forall2 (fun n g => fs_get n (w_fs (l_w s)) = Some (lines g)) (opened (w_log (l_w s))) groups /\ rotated (f_max cfg) groups.
Proof.
  intros GC CS R S P O N AS PC NE. destruct (lreach_inv cfg q fs GC CS s R S) as [A1 A2 A3 A4 A5 A6 A7 A8 A9].
  destruct A8 as (recs & R1 & (_ & R2) & _). destruct (R2 P N) as (groups & G1 & G2 & G3).
  unfold pc_inv in A3. rewrite PC in A3. destruct A3 as (B1 & _ & _ & B4).
  pose proof (C29_handler_all_delivered q _ CS A1 AS B1 NE) as D. rewrite (holds_msgs _ _ D _ _ B4 R1) in *.
  exists groups. split; [apply G2; exact O|exact G3].
Qed.

(** ** the answers of file_logger_log *)
Lemma hlog_grows h h' : hstep h h' -> exists l, hlog h' = l ++ hlog h.
Proof.
  intros [s c s' E|s s' E|s s' E|s m _ _ _|s _ _].
  - unfold wexec in E. destruct (wk s); try discriminate.
    + destruct (c_mem c) as [b|]; [destruct (zlen b =? 4096); [|discriminate]|]; injection E as <-; [exists []|exists [HOom]]; reflexivity.
    + injection E as <-; exists []; reflexivity.
    + destruct (0 <? sem s); [|discriminate]; injection E as <-; exists []; reflexivity.
    + injection E as <-; exists []; reflexivity.
    + injection E as <-; exists []; reflexivity.
    + destruct (cstep (inner s)) as [i| | |]; try discriminate. cbn [bind] in E. injection E as <-. exists [].
      destruct (cp (inner s)); try reflexivity. destruct (_ =? MQ_SUCCESS); try reflexivity. destruct (_ =? MQ_BUF_NOT_ENOUGH); reflexivity.
    + destruct (roundup_power2 size) as [n| | |]; try discriminate. cbn [bind] in E.
      destruct (c_mem c) as [b|]; [destruct (zlen b =? n); [|discriminate]|]; injection E as <-; [exists []|exists [HOom]]; reflexivity.
    + injection E as <-; eexists [_]; reflexivity.
    + injection E as <-; eexists [_]; reflexivity.
    + injection E as <-; exists []; reflexivity.
  - unfold pexec in E. destruct (pr s); try discriminate.
    + destruct (flag s); injection E as <-; exists []; reflexivity.
    + destruct (pstep (inner s)); cbn [bind] in E; try discriminate. injection E as <-. exists [].
      destruct (pp (inner s)); try reflexivity. destruct (_ =? _); reflexivity.
    + injection E as <-; exists []; reflexivity.
    + injection E as <-; eexists [_]; reflexivity.
  - unfold dexec in E. destruct (ds s); try discriminate; try (injection E as <-; exists []; reflexivity).
    destruct (wk s); try discriminate. injection E as <-. eexists [_]; reflexivity.
  - eexists [_]; reflexivity.
  - eexists [_]; reflexivity.
Qed.
(** every answer is that of the last push, or 6 (the record's copy could not be allocated) *)
Definition ans_inv (s : lst) : Prop :=
  (forall m c, In (LRet m c) (l_log s) -> c = 6 \/ exists x, In (HPushRet x c) (hlog (l_h s))) /\
  match l_pc s with
  | L131 m _ c | L161 m c => c = 6 \/ exists x, In (HPushRet x c) (hlog (l_h s))
  | _ => True
  end.
Lemma ans_inv_step cfg s s' : lstep cfg s s' -> ans_inv s -> ans_inv s'.
Proof.
  intros ST [I1 I2].
  assert (forall h, (exists l, hlog h = l ++ hlog (l_h s)) -> forall c, (c = 6 \/ exists x, In (HPushRet x c) (hlog (l_h s))) -> c = 6 \/ exists x, In (HPushRet x c) (hlog h)) as Up.
  { intros h (l & E) c [X|(x & X)]; [left; exact X|right]. exists x. rewrite E. apply in_or_app. auto. }
  destruct ST as [s0 e mem s1 _ H|s0 fill ok s1 _ H|s0 s1 H|s0 m _ _ _|s0 _ _].
  - assert (exists h, l_h s1 = h /\ (exists l, hlog h = l ++ hlog (l_h s0)) /\ l_log s1 = l_log s0 /\ l_pc s1 = l_pc s0) as (h & E1 & E2 & E3 & E4).
    { unfold lwexec in H.
      assert (forall c, (do o <- wexec c (l_h s0); match o with None => Ret None | Some h => Ret (Some (lset_h s0 h)) end) = Ret (Some s1) ->
         exists h, l_h s1 = h /\ (exists l, hlog h = l ++ hlog (l_h s0)) /\ l_log s1 = l_log s0 /\ l_pc s1 = l_pc s0) as Oth.
      { intros c E. destruct (wexec c (l_h s0)) as [[h|]| | |] eqn:EW; cbn [bind] in E; try discriminate. injection E as <-.
        exists h. split; [reflexivity|]. split; [|auto]. apply hlog_grows. eapply HSW; exact EW. }
      destruct (wk (l_h s0)) eqn:EWK; try (eapply Oth; exact H).
      destruct (handle_msg _ _ _ _) as [[w r]| | |]; try discriminate. cbn [bind] in H.
      destruct (wexec _ _) as [[h|]| | |] eqn:EW; cbn [bind] in H; try discriminate. injection H as <-.
      exists h. split; [reflexivity|]. split; [|auto]. apply hlog_grows. eapply HSW; exact EW. }
    unfold ans_inv. rewrite E1, E3, E4. split; [intros m c X; apply (Up h E2); eauto|]. destruct (l_pc s0); auto; apply (Up h E2); auto.
  - unfold lexec in H. destruct (l_pc s0) as [|m retry st|m retry|m st] eqn:EP; try discriminate.
    + destruct (grow _ _ _ _) as [[c k]|].
      * destruct (fill_msg _ _) as [[c' x]| | |]; cbn [bind] in H; try discriminate. injection H as <-.
        split; [|exact I]. cbn [l_log l_h lset_pc lset_cache lset_h]. intros m' c0 X. eapply Up; [|eauto]. eexists [_]. reflexivity.
      * injection H as <-. split; [exact I1|exact I2].
    + destruct (pexec _) as [[h|]| | |] eqn:EX; cbn [bind] in H; try discriminate.
      assert (exists l, hlog h = l ++ hlog (l_h s0)) as G by (apply hlog_grows, HSP; exact EX).
      assert (forall pc', (match pc' with L131 _ _ c | L161 _ c => c = 6 \/ exists x, In (HPushRet x c) (hlog h) | _ => True end) -> ans_inv (lset_pc (lset_h s0 h) pc')) as Go.
      { intros pc' HP. split; cbn [l_log l_h lset_pc lset_h l_pc]; [intros m' c X; apply (Up h G); eauto|exact HP]. }
      destruct (pr (l_h s0)) eqn:EPR;
        try (injection H as <-; split; cbn [l_log l_h lset_h l_pc]; [intros m' c X; apply (Up h G); eauto|rewrite EP; exact I]).
      assert (exists x, In (HPushRet x code) (hlog h)) as IN.
      { unfold pexec in EX. rewrite EPR in EX. injection EX as <-. eexists. left. reflexivity. }
      destruct (_ =? _); [injection H as <-; apply Go; auto|]. destruct (negb _); [injection H as <-; apply Go; auto|].
      destruct (_ <? _); injection H as <-; apply Go; auto.
    + destruct (_ && _).
      * destruct (path_of _); cbn [bind] in H; try discriminate. destruct ok.
        -- destruct (prec_s _ _); cbn [bind] in H; try discriminate. injection H as <-. split; [|exact I].
           cbn [l_log l_h lset_pc lset_w lemit]. intros m' c [X|X]; [injection X as <- <-; exact I2|eauto].
        -- injection H as <-. split; [|exact I]. cbn [l_log l_h lset_pc lemit]. intros m' c [X|[X|X]]; [injection X as <- <-; exact I2|discriminate|eauto].
      * injection H as <-. split; [|exact I]. cbn [l_log l_h lset_pc lemit]. intros m' c [X|X]; [injection X as <- <-; exact I2|eauto].
  - unfold ldexec in H. destruct (l_d s0); try discriminate. 
    assert (forall h, dexec (l_h s0) = Some h -> ans_inv (lset_h s0 h)) as Go.
    { intros h E. assert (exists l, hlog h = l ++ hlog (l_h s0)) as G by (apply hlog_grows, HSD; exact E).
      split; cbn [l_log l_h lset_h l_pc]; [intros m' c X; apply (Up h G); eauto|]. destruct (l_pc s0); auto; apply (Up h G); auto. }
    destruct (ds (l_h s0)).
    1-4: destruct (dexec (l_h s0)); try discriminate; injection H as <-; apply Go; reflexivity.
    injection H as <-. split; [|exact I2]. cbn [l_log l_h lset_d lset_w lemit]. intros m' c [X|X]; [discriminate|eauto].
  - split; cbn [l_log l_h lset_pc lemit l_pc]; [|left; reflexivity]. intros m' c [X|X]; [discriminate|eauto].
  - split; cbn [l_log l_h lset_h lset_d lemit l_pc].
    + intros m' c [X|X]; [discriminate|]. eapply Up; [|eauto]. eexists [_]. reflexivity.
    + destruct (l_pc s0); auto; (eapply Up; [|eauto]; eexists [_]; reflexivity).
Qed.
Lemma logger_answers cfg q fs s m c : good_cfg cfg -> created_small q -> lreach cfg q fs s -> sane (l_log s) -> In (LRet m c) (l_log s) ->
  c = 0 \/ c = 5 \/ c = 6 \/ (c = 2 /\ ended (hlog (l_h s))).
Proof.
  intros GC CS R S IN. assert (ans_inv s) as [A _].
  { clear S IN. induction R as [|s s' R IH ST]; [split; [intros ? ? []|exact I]|]. eapply ans_inv_step; eauto. }
  destruct (A m c IN) as [X|(x & X)]; [auto|].
  destruct (C29_handler_push_answers q _ x c CS (i_h _ _ _ _ (lreach_inv cfg q fs GC CS s R S)) X) as [Y|[Y|Y]]; auto.
Qed.

(** ** file_logger_init *)
Definition slashes (t : list Z) : list Z := map (fun c => if c =? 92 then 47 else c) t.
Lemma replaced_slashes t : replaced [92] [47] t (slashes t).
Proof.
  induction t as [|c t IH]; [constructor|]. cbn. destruct (c =? 92) eqn:E.
  - replace c with 92 by lia. apply (repl_hit [92] [47] t (slashes t) IH).
  - apply repl_skip; [|exact IH]. intros rest X. cbn in X. injection X as X _. lia.
Qed.
(** the folder path the logger uses *)
Definition folder_path (t : list Z) : list Z :=
  if last (slashes t) 0 =? 47 then slashes t
  else if zlen t <? 127 then slashes t ++ [47] else ztake 126 (slashes t) ++ [47].
Lemma slashes_len t : zlen (slashes t) = zlen t. Proof. unfold slashes, zlen. rewrite map_length. reflexivity. Qed.
Lemma slashes_text t : text t -> text (slashes t).
Proof. induction 1; cbn; constructor; auto. destruct (x =? 92); [lia|assumption]. Qed.

Lemma init_folder_ok malloc t rest : (forall k, 0 <= k -> exists b, malloc k = Some b /\ zlen b = k) -> (forall k b, malloc k = Some b -> zlen b = k) ->
  text t -> zlen (t ++ 0 :: rest) = 128 ->
  if zlen t <? 2 then init_folder malloc (t ++ 0 :: rest) = Ret None
  else exists r, init_folder malloc (t ++ 0 :: rest) = Ret (Some (folder_path t ++ 0 :: r)) /\
    text (folder_path t) /\ zlen (folder_path t) <= 127 /\ zlen (folder_path t ++ 0 :: r) = 128.
Proof.
  intros HM HM2 T L. unfold init_folder. rewrite zlen_app, zlen_cons in L. pose proof (zlen_nonneg rest). pose proof (zlen_nonneg t).
  rewrite (strlen_at_text [] t rest 0 eq_refl T : strlen_at (t ++ 0 :: rest) 0 = _). cbn [bind]. destruct (zlen t <? 2) eqn:E2; [reflexivity|].
  rewrite (cstr_at_text [] t rest 0 eq_refl T : cstr_at (t ++ 0 :: rest) 0 = _). cbn [bind].
  destruct (strreplace_lemma malloc t [92] [47] (length t)) as (out & R1 & R2 & R3); auto; [discriminate|unfold zlen; lia| |].
  { intros out R. assert (out = slashes t) as ->.
    { symmetry. exact (replaced_det [92] [47] ltac:(discriminate) _ _ (replaced_slashes t) _ R). }
    rewrite slashes_len. unfold two64. lia. }
  pose proof (R2 _ (replaced_slashes t)) as EO. subst out. rewrite R3. pose proof (slashes_len t) as SL. clear R1 R2 R3.
  destruct (HM (zlen (slashes t) + 1)) as (b & -> & LB); [lia|]. cbn [bind].
  pose proof (slashes_text t T) as TS.
  pose proof (strlcpy_lemma (slashes t) [] (t ++ 0 :: rest) 128 TS) as C. rewrite zlen_app, zlen_cons in C. specialize (C ltac:(lia)).
  change (128 =? 0) with false in C. cbv iota in C. change (slashes t ++ [0]) with (slashes t ++ 0 :: []). rewrite C. cbn [bind].
  change (128 - 1) with 127. rewrite ztake_all by lia.
  set (r := zdrop (zlen (slashes t) + 1) (t ++ 0 :: rest)).
  assert (zlen r = 127 - zlen t) as LR by (unfold r; rewrite zlen_zdrop by (rewrite zlen_app, zlen_cons; lia); rewrite zlen_app, zlen_cons; lia).
  rewrite (strlen_at_text [] (slashes t) r 0 eq_refl TS : strlen_at (slashes t ++ 0 :: r) 0 = _). cbn [bind].
  destruct (exists_last (l := slashes t)) as (p & c & EP); [intro X; rewrite X in SL; change (zlen (@nil Z)) with 0 in SL; lia|].
  assert (zlen p = zlen t - 1) as LP by (rewrite EP, zlen_snoc in SL; lia).
  assert (u64 (zlen (slashes t) - 1) = zlen p) as -> by (unfold u64, two64; rewrite Z.mod_small; lia).
  assert (mload (slashes t ++ 0 :: r) (zlen p) = Ret c) as -> by (rewrite EP, <- app_assoc; apply mload_app0; reflexivity). cbn [bind].
  unfold folder_path. rewrite EP, last_last.
  destruct (c =? 47) eqn:E47.
  { exists r. rewrite <- EP. split; [reflexivity|]. split; [exact TS|]. split; [lia|]. rewrite zlen_app, zlen_cons. lia. }
  rewrite <- EP, SL.
  destruct (zlen t + 1 <? 128) eqn:E3.
  - replace (zlen t <? 127) with true by lia. destruct (zlen_pos_cons r ltac:(lia)) as (y & r' & Er). rewrite Er in *. rewrite zlen_cons in LR.
    rewrite (mstore_app (slashes t) (y :: r') 47 0 (zlen t)) by lia. cbn [bind].
    rewrite (mstore_app (slashes t ++ [47]) r' 0 y (zlen t + 1)) by (rewrite zlen_snoc; lia). cbn [bind].
    exists r'. split; [rewrite <- (app_assoc _ [0]); reflexivity|]. split; [apply text_app; split; [exact TS|repeat constructor; lia]|].
    rewrite !zlen_app, (zlen_cons 0); change (zlen [47]) with 1; lia.
  - replace (zlen t <? 127) with false by lia.
    assert (ztake 126 (slashes t) = p) as EQ by (rewrite EP; replace 126 with (zlen p) by lia; apply ztake_app_len). rewrite EQ.
    assert (zlen p = zlen t - 1) by lia. rewrite EP, <- app_assoc. cbn [app].
    rewrite (mstore_app p (0 :: r) 47 c (zlen t - 1)) by lia. cbn [bind].
    rewrite (mstore_app (p ++ [47]) r 0 0 (zlen t - 1 + 1)) by (rewrite zlen_snoc; lia). cbn [bind].
    exists r. split; [rewrite <- (app_assoc _ [0]); reflexivity|]. split.
    + rewrite EP in TS. apply text_app in TS as [TS _]. apply text_app; split; [exact TS|repeat constructor; lia].
    + rewrite !zlen_app, (zlen_cons 0); change (zlen [47]) with 1; lia.
Qed.

(** ** records of more than 2^31 bytes *)
Lemma huge_ub cfg x ok s m retry st : l_pc s = L131 m retry st -> 2147483648 < zlen m < two32 -> l_cap s < zlen m -> zlen (l_cache s) >= 16 ->
  lexec cfg (Some x) ok s = Ub.
Proof.
  intros EP L C CC. unfold lexec. rewrite EP. unfold grow. destruct (zlen m >? l_cap s) eqn:E; [|lia].
  assert (u32 (zlen m) = zlen m) as -> by (unfold u32; apply Z.mod_small; unfold two32 in *; lia).
  rewrite (proj2 (proj2 roundup_edges) (zlen m) L). cbn [bind].
  unfold fill_msg, mwrite. rewrite zlen_ztake by (rewrite zlen_app; pose proof (zlen_nonneg x); lia).
  destruct (_ && _) eqn:EE; [lia|]. reflexivity.
Qed.

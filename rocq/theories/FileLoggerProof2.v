(** The file logger as a whole: every schedule of caller, worker and deinit. *)
From Verif Require Import CBase SeqLib CStr IntegerModel IntegerSpec IntegerProof RingBuffer2Model MsgQueueModel SpscModel HandlerModel HandlerSpec.
From Verif Require Import Props_Handler FileLoggerModel FileLoggerSpec FileLoggerProof.

(** ** what the steps of the handler do to the log *)
Lemma wexec_keeps c h h' : wexec c h = Ret (Some h') -> wk h <> W96 ->
  hsent (hlog h') = hsent (hlog h) /\ haccepted (hlog h') = haccepted (hlog h) /\ callbacks (hlog h') = callbacks (hlog h) /\
  pr h' = pr h /\ ds h' = ds h.
Proof.
  intros E N. unfold wexec in E. destruct (wk h) eqn:EW; try congruence.
  - destruct (c_mem c) as [b|]; [destruct (zlen b =? 4096); [|discriminate]|]; injection E as <-; cbn; auto.
  - injection E as <-; cbn; auto.
  - destruct (0 <? sem h); [|discriminate]; injection E as <-; cbn; auto.
  - injection E as <-; cbn; auto.
  - injection E as <-; cbn; auto.
  - destruct (cstep (inner h)) as [i| | |]; try discriminate. cbn [bind] in E. injection E as <-.
    destruct (cp (inner h)); cbn; auto. destruct (_ =? MQ_SUCCESS); cbn; auto. destruct (_ =? MQ_BUF_NOT_ENOUGH); cbn; auto.
  - destruct (roundup_power2 size) as [n| | |]; try discriminate. cbn [bind] in E.
    destruct (c_mem c) as [b|]; [destruct (zlen b =? n); [|discriminate]|]; injection E as <-; cbn; auto.
  - injection E as <-; cbn; auto.
  - injection E as <-; cbn; auto.
Qed.
Lemma dexec_keeps h h' : dexec h = Some h' ->
  hsent (hlog h') = hsent (hlog h) /\ haccepted (hlog h') = haccepted (hlog h) /\ callbacks (hlog h') = callbacks (hlog h) /\
  pr h' = pr h /\ ds h' <> DNone.
Proof.
  intros E. unfold dexec in E. destruct (ds h); try discriminate; try (injection E as <-; cbn; repeat split; discriminate).
  destruct (wk h); try discriminate. injection E as <-; cbn; repeat split; discriminate.
Qed.

(** the push of message [x] is under way *)
Definition pushing (x : list Z) (p : hpc) : Prop := p = H145 x \/ p = H149 x \/ p = H152 x \/ exists c, p = HRet x c.
Lemma pexec_keeps x h h' : pexec h = Ret (Some h') -> pushing x (pr h) ->
  callbacks (hlog h') = callbacks (hlog h) /\ ds h' = ds h /\
  ((exists c, pr h = HRet x c /\ pr h' = HIdle /\ hlog h' = HPushRet x c :: hlog h) \/
   ((forall c, pr h <> HRet x c) /\ pushing x (pr h') /\ hlog h' = hlog h)).
Proof.
  intros E P. unfold pexec in E. destruct P as [P|[P|[P|[c P]]]]; rewrite P in E |- *.
  - destruct (flag h); injection E as <-; cbn; (split; [reflexivity|]; split; [reflexivity|]); right; (split; [discriminate|]); (split; [|reflexivity]).
    + right; right; right; eauto.
    + right; left; reflexivity.
  - destruct (pstep (inner h)) as [i| | |]; try discriminate. cbn [bind] in E. injection E as <-.
    assert (H149 x = pr (set_inner h i)) as PP by (cbn; congruence).
    destruct (pp (inner h)); cbn; try (split; [reflexivity|]; split; [reflexivity|]; right; split; [discriminate|]; split; [right; left; auto|reflexivity]).
    destruct (code =? MQ_SUCCESS); cbn; (split; [reflexivity|]; split; [reflexivity|]); right; (split; [discriminate|]); (split; [|reflexivity]).
    + right; right; left; reflexivity.
    + right; right; right; eauto.
  - injection E as <-; cbn; (split; [reflexivity|]; split; [reflexivity|]); right; (split; [discriminate|]); (split; [|reflexivity]).
    right; right; right; eauto.
  - injection E as <-; cbn; (split; [reflexivity|]; split; [reflexivity|]). left. eauto.
Qed.

(** ** messages *)
Lemma s32_small n : 0 <= n < two31 -> s32 (u32 n) = n.
Proof. unfold s32, u32, two31, two32. intro. rewrite (Z.mod_small n) by lia. rewrite Z.mod_small by lia. lia. Qed.
Lemma fill_ok_msg cache m : zlen m <= 1073741808 -> 16 + zlen m <= zlen cache ->
  exists cache' x, fill_msg cache m = Ret (cache', x) /\ is_msg x m /\ zlen cache' = zlen cache /\ zlen x = 16 + zlen m.
Proof.
  intros L C. pose proof (zlen_nonneg m).
  destruct (split_first_n 12 cache) as (hdr & r1 & E1 & L1); [lia|].
  destruct (split_first_n 4 r1) as (old & r2 & E2 & L2); [subst cache; rewrite zlen_app in C; lia|].
  destruct (split_first_n (zlen m) r2) as (om & r3 & E3 & L3); [subst cache r1; rewrite !zlen_app in C; lia|]. subst r2 r1 cache.
  unfold fill_msg. rewrite (app_assoc hdr old).
  rewrite (mwrite_app (hdr ++ old) m om r3) by (rewrite ?zlen_app; lia). cbn [bind].
  rewrite <- !app_assoc. rewrite (mwrite_app hdr (int_bytes (u32 (zlen m))) old (m ++ r3)) by (try (change (zlen (int_bytes (u32 (zlen m)))) with 4); lia).
  cbn [bind]. rewrite s32_small by (unfold two31; lia).
  assert (u32 (zlen m) = zlen m) as -> by (unfold u32, two32; apply Z.mod_small; lia).
  assert (u32 (16 + zlen m) = 16 + zlen m) as -> by (unfold u32, two32; apply Z.mod_small; lia).
  set (x := hdr ++ int_bytes (zlen m) ++ m). exists ((hdr ++ int_bytes (zlen m)) ++ m ++ r3), x.
  assert (zlen x = 16 + zlen m) as LX by (unfold x; rewrite !zlen_app; change (zlen (int_bytes (zlen m))) with 4; lia).
  split; [|split; [|split; [|exact LX]]].
  - replace ((hdr ++ int_bytes (zlen m)) ++ m ++ r3) with ([] ++ x ++ r3) by (unfold x; rewrite <- !app_assoc; reflexivity).
    rewrite mread_ok by (cbn [app]; rewrite ?zlen_app; pose proof (zlen_nonneg r3); lia). cbn [bind app]. do 2 f_equal. unfold zsub. rewrite zdrop_0, <- LX. apply ztake_app_len.
  - exists hdr. auto.
  - rewrite !zlen_app. change (zlen (int_bytes (zlen m))) with 4. lia.
Qed.
Lemma grow_ok fill cache cap (m : list Z) : zlen m <= 1073741808 -> zlen cache = 16 + cap -> 2048 <= cap ->
  (forall x, fill = Some x -> 16 + integer_roundup_pow_of_two (u32 (zlen m)) <= zlen (cache ++ x)) ->
  match grow fill cache cap (zlen m) with None => True | Some (cache', cap') => zlen cache' = 16 + cap' /\ 2048 <= cap' /\ zlen m <= cap' end.
Proof.
  intros L C1 C2 F. unfold grow. destruct (zlen m >? cap) eqn:E; [|lia]. destruct fill as [x|]; [|exact I].
  specialize (F x eq_refl). assert (u32 (zlen m) = zlen m) as EU by (unfold u32, two32; apply Z.mod_small; lia). rewrite EU in *.
  destruct (roundup_lemma (zlen m)) as (_ & R & _); [lia|]. rewrite zlen_ztake by lia. lia.
Qed.
Lemma is_msg_inj x m rest x' m' rest' : is_msg x m -> is_msg x' m' -> x ++ rest = x' ++ rest' -> m = m'.
Proof.
  intros (h & H1 & -> & L1) (h' & H1' & -> & L1') E. pose proof (zlen_nonneg m). pose proof (zlen_nonneg m').
  rewrite <- !app_assoc in E.
  pose proof (load_int_ok h (zlen m) (m ++ rest) H1 ltac:(unfold two31; lia)) as A.
  rewrite E in A. rewrite load_int_ok in A by (try exact H1'; unfold two31; lia). injection A as A. rewrite <- A in E.
  assert (h = h') as -> by (apply (f_equal (ztake 12)) in E; rewrite <- H1 in E at 1; rewrite <- H1' in E; rewrite !ztake_app_len in E; exact E).
  apply app_inv_head, app_inv_head in E.
  apply (f_equal (ztake (zlen m))) in E. rewrite ztake_app_len in E. rewrite <- A, ztake_app_len in E. exact E.
Qed.

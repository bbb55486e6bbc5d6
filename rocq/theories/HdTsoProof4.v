(** A push answered "full" had no room but for the message passed last: the log of the message queue handler under x86-TSO. *)
From Verif Require Import CBase SeqLib RingBuffer2Model RingBuffer2Proof MsgQueueModel MsgQueueSpec MsgQueueProof SpscModel SpscSpec SpscProof SpscProof2 SpscProof3 SpscProof4.
From Verif Require Import HandlerModel HandlerSpec HandlerSpec2 HandlerProof HandlerProof2 HandlerProof3 HandlerProof5.
From Verif Require Import MqTsoModel MqTsoSpec MqTsoProof MqTsoProof2 MqTsoProof3 HdTsoModel HdTsoSpec HdTsoProof HdTsoProof2.

Definition tquiet (e : tev) : Prop := match e with E (EPush _) | E (EPushRet _ _) => False | _ => True end.
Definition npops (l : list tev) : nat := length (pops (plain l)).
Lemma plain_app a b : plain (a ++ b) = plain a ++ plain b. Proof. unfold plain. apply flat_map_app. Qed.
Lemma npops_cons e l : (npops l <= npops (e :: l))%nat.
Proof.
  unfold npops. destruct e as [e| |]; [|apply le_n|apply le_n]. rewrite plain_E. destruct e; cbn; try apply le_n.
  destruct (_ =? 0); [rewrite app_length|]; lia.
Qed.
Lemma npops_sync l : (npops (rsync_at l) <= npops l)%nat.
Proof. induction l as [|e l IH]; [apply le_n|]. pose proof (npops_cons e l). destruct e; cbn [rsync_at]; lia. Qed.
Lemma tq_at li l : Forall tquiet li -> pcall_at (li ++ l) = pcall_at l /\ (npops (rsync_at l) <= npops (rsync_at (li ++ l)))%nat.
Proof.
  induction 1 as [|e li H _ [IH1 IH2]]; [split; [reflexivity|apply le_n]|]. cbn [app].
  destruct e as [e| |]; [destruct e|..]; cbn [tquiet pcall_at rsync_at] in *; try contradiction; (split; [assumption|]); try assumption.
  pose proof (npops_sync (li ++ l)). lia.
Qed.
Lemma tc_log s s' : tcstep s = Ret s' -> t_log s' = t_log s /\ (forall t cap c t1 sz, t_cp s <> CRet t cap c t1 sz) \/
  (exists t cap c t1 sz, t_cp s = CRet t cap c t1 sz /\ t_log s' = E (EPopRet t cap c t1 sz) :: t_log s) \/
  (exists n, t_log s' = E (ENextRet n) :: t_log s /\ t_cp s = CNRet n).
Proof.
  intro H. unfold tcstep in H.
  destruct (t_cp s) as [| |t cap|j|j n start i tgt|t cap code t1 sz1|n]; try (injection H as <-; left; split; [reflexivity|discriminate]).
  - left. split; [|discriminate]. destruct ((jreq j =? 0) || (filled s =? 0)); [|injection H as <-; reflexivity].
    destruct (cfinish _ _ _); cbn [bind] in H; try discriminate. injection H as <-. reflexivity.
  - left. split; [|discriminate]. destruct (i <? n).
    + destruct (mload _ _); cbn [bind] in H; try discriminate. destruct (mstore _ _ _); cbn [bind] in H; try discriminate. injection H as <-. reflexivity.
    + destruct (jpeek j); (destruct (cfinish _ _ _); cbn [bind] in H; try discriminate; injection H as <-; reflexivity).
  - injection H as <-. right; left. exists t, cap, code, t1, sz1. split; reflexivity.
  - injection H as <-. right; right. exists n. split; reflexivity.
Qed.

(** the worker may have taken one message since its last sem_wait *)
Definition gapn (w : wpc) : nat :=
  match w with
  | W51 | W68 | W73 | WPop | W78 _ => 0
  | W64 last => if (last =? MQ_SUCCESS) || (last =? MQ_EMPTY) then 1 else 0
  | _ => 1
  end.
Definition gap_ok (w : wpc) (l : list tev) : Prop := (npops l <= npops (rsync_at l) + gapn w)%nat.

Lemma gap_log w w' l l' : gap_ok w l -> l' = l -> (gapn w <= gapn w')%nat -> gap_ok w' l'.
Proof. unfold gap_ok. intros A -> B. lia. Qed.
Ltac zf := auto; try (repeat constructor; exact I); try (cbn; lia).
Lemma gwexec_quiet c s s' : gwexec c s = Ret (Some s') -> gap_ok (g_wk s) (t_log (g_q s)) -> g_pr s' = g_pr s /\
  (exists lh, g_log s' = lh ++ g_log s /\ Forall hquiet lh) /\ (exists li, t_log (g_q s') = li ++ t_log (g_q s) /\ Forall tquiet li) /\
  gap_ok (g_wk s') (t_log (g_q s')).
Proof.
  intros H G. unfold gwexec in H.
  assert (forall x lh, Forall hquiet lh -> g_pr x = g_pr s -> g_log x = lh ++ g_log s -> t_log (g_q x) = t_log (g_q s) -> (gapn (g_wk s) <= gapn (g_wk x))%nat ->
    g_pr x = g_pr s /\ (exists lh, g_log x = lh ++ g_log s /\ Forall hquiet lh) /\ (exists li, t_log (g_q x) = li ++ t_log (g_q s) /\ Forall tquiet li) /\
    gap_ok (g_wk x) (t_log (g_q x))) as Z1.
  { intros x lh Q A B C D. split; [exact A|]. split; [exists lh; split; assumption|]. split; [exists []; rewrite C; split; [reflexivity|constructor]|]. eapply gap_log; eauto. }
  assert (forall e, hquiet e -> Forall hquiet [e]) as Z2 by (intros; repeat constructor; assumption).
  destruct (g_wk s) as [|last| | | | |size| | | |] eqn:EW.
  - destruct (c_mem c) as [b|]; [|injection H as <-; apply (Z1 _ [HOom]); zf].
    destruct (_ =? _); [|discriminate]. injection H as <-. apply (Z1 _ []); zf.
  - injection H as <-. cbn [gapn] in *. destruct (_ || _); apply (Z1 _ []); auto.
  - destruct (t_rbuf (g_q s)); [|discriminate]. destruct (_ <? _); [|discriminate]. injection H as <-. split; [reflexivity|].
    split; [exists []; split; [reflexivity|constructor]|]. split; [exists [RSync]; split; [reflexivity|repeat constructor]|].
    cbn. unfold gap_ok. cbn [rsync_at]. unfold npops. rewrite plain_R. cbn. lia.
  - injection H as <-. destruct (_ || _); apply (Z1 _ []); zf.
  - injection H as <-. split; [reflexivity|]. split; [exists []; split; [reflexivity|constructor]|].
    split; [exists [E (EPop (g_buf s) (u32 (g_bsize s)))]; split; [reflexivity|repeat constructor]|]. exact G.
  - destruct (tcstep (g_q s)) as [i'| | |] eqn:EC; cbn [bind] in H; try discriminate. injection H as <-.
    destruct (tc_log _ _ EC) as [[EL NC]|[(t & cap & cc & t1 & sz & ECR & EL)|(n & EL & ECR)]].
    + destruct (t_cp (g_q s)) eqn:X; try (apply (Z1 _ []); auto; cbn; rewrite EW; cbn; lia). exfalso. eapply NC. reflexivity.
    + rewrite ECR. cbn iota zeta.
      assert (forall x, g_pr x = g_pr s -> g_log x = g_log s -> g_q x = i' -> (cc = 0 -> g_wk x = W96) ->
        g_pr x = g_pr s /\ (exists lh, g_log x = lh ++ g_log s /\ Forall hquiet lh) /\ (exists li, t_log (g_q x) = li ++ t_log (g_q s) /\ Forall tquiet li) /\
        gap_ok (g_wk x) (t_log (g_q x))) as Z3.
      { intros x A B C D. split; [exact A|]. split; [exists []; split; [exact B|constructor]|]. rewrite C, EL.
        split; [eexists [_]; split; [reflexivity|repeat constructor]|]. unfold gap_ok in *. cbn [rsync_at]. unfold npops in *. rewrite plain_E. cbn [pops gapn] in *.
        destruct (cc =? 0) eqn:E0.
        2:{ lia. }
        rewrite D by lia. rewrite app_length. cbn [length gapn]. lia. }
      unfold MQ_SUCCESS. destruct (cc =? 0) eqn:E0; [apply Z3; auto|]. destruct (cc =? MQ_BUF_NOT_ENOUGH); apply Z3; auto; intro; exfalso; lia.
    + rewrite ECR. split; [reflexivity|]. split; [exists []; split; [reflexivity|constructor]|].
      cbn [gset_q g_q g_wk]. rewrite EL, EW. split; [eexists [_]; split; [reflexivity|repeat constructor]|]. exact G.
  - destruct (roundup_power2 size) as [n| | |]; cbn [bind] in H; try discriminate.
    destruct (c_mem c) as [b|]; [|injection H as <-; apply (Z1 _ [HOom]); zf].
    destruct (_ =? _); [|discriminate]. injection H as <-. apply (Z1 _ []); auto.
  - injection H as <-. apply (Z1 _ [HCb (g_buf s)]); zf.
  - injection H as <-. apply (Z1 _ [HCbRet (c_ret c)]); zf. destruct (c_ret c =? 0); cbn; lia.
  - injection H as <-. apply (Z1 _ []); auto.
  - discriminate.
Qed.

Section Full.
Variable q : rb Z.
Hypothesis good : good_queue q.
Hypothesis small : rb_size q <= 1073741824.

Definition gnoroom (m : list Z) (l : list hev) : Prop :=
  rb_size q < occupied (skipn (length (callbacks (at_hpush l)) - 1) (haccepted (at_hpush l))) + 4 + zlen m.
Record gfull (s : gst) : Prop := {
  n_gap : gap_ok (g_wk s) (t_log (g_q s));
  n_log : forall l2 m l, g_log s = l2 ++ HPushRet m 5 :: l -> gnoroom m l;
  n_ret : forall m, g_pr s = HRet m 5 -> gnoroom m (g_log s);
  n_145 : forall m, g_pr s = H145 m -> haccepted (at_hpush (g_log s)) = haccepted (g_log s) /\
            (length (callbacks (at_hpush (g_log s))) - 1 <= npops (rsync_at (t_log (g_q s))))%nat;
  n_149 : forall m, g_pr s = H149 m -> haccepted (at_hpush (g_log s)) = accepted (plain (pcall_at (t_log (g_q s)))) /\
            (length (callbacks (at_hpush (g_log s))) - 1 <= npops (rsync_at (pcall_at (t_log (g_q s)))))%nat }.

Lemma gcbs_le s : ginv q s -> gfull s -> (length (callbacks (g_log s)) - 1 <= npops (rsync_at (t_log (g_q s))))%nat.
Proof.
  intros HI [G _ _ _ _]. unfold gap_ok, npops in *. destruct HI. rewrite <- (map_length t' (pops _)), <- h_cbs, app_length in G.
  assert (gapn (g_wk s) <= 1)%nat by (destruct (g_wk s); cbn; try destruct (_ || _); lia). lia.
Qed.

Lemma gquiet_full s s' lh li : gfull s -> g_pr s' = g_pr s -> g_log s' = lh ++ g_log s -> Forall hquiet lh ->
  t_log (g_q s') = li ++ t_log (g_q s) -> Forall tquiet li -> gap_ok (g_wk s') (t_log (g_q s')) -> gfull s'.
Proof.
  intros [A0 A B C D] EP EH QH EI QI G. destruct (hq_at lh (g_log s) QH) as [H1 H2]. destruct (tq_at li (t_log (g_q s)) QI) as [I1 I2].
  constructor; rewrite ?EP; [exact G|..]; rewrite ?EI, ?I1; rewrite EH; unfold gnoroom in *; rewrite ?H1, ?H2.
  - intros l2 m l E. destruct (hq_ev _ _ _ _ _ _ QH E) as (l3 & X). eapply A; exact X.
  - exact B.
  - intros m E. destruct (C m E) as [X Y]. split; [exact X|]. lia.
  - exact D.
Qed.
Lemma gsame_full s s' lh : gfull s -> g_pr s' = g_pr s -> g_log s' = lh ++ g_log s -> Forall hquiet lh -> t_log (g_q s') = t_log (g_q s) -> g_wk s' = g_wk s -> gfull s'.
Proof. intros F A B C D W. apply (gquiet_full s s' lh []); auto. rewrite D, W. apply (n_gap s F). Qed.

Lemma gfull_step s s' : ginv q s -> gstep s s' -> gfull s -> gfull s'.
Proof.
  intros HI HS F. destruct HS as [s c s' H|s s' H|s s' H|s s' H|s m EP ED Hm|s ED EP].
  - destruct (gwexec_quiet c s s' H (n_gap s F)) as (EP & (lh & EH & QH) & (li & EI & QI) & G). eapply gquiet_full; eauto.
  - pose proof F as [A0 A B C D]. pose proof HI as HI0. destruct HI0. unfold gpexec in H. unfold pcon in h_p. destruct (g_pr s) as [|m|m|m|m c] eqn:EP; try discriminate.
    + destruct (C m eq_refl) as [X Y]. destruct (g_flag s); injection H as <-.
      * constructor; cbn; try discriminate; assumption.
      * constructor; cbn; try discriminate; [exact A0|exact A|]. intros m' E. split; [|exact Y]. rewrite X. unfold hpend in h_acc. rewrite EP in h_acc.
        transitivity (accepted (plain (t_log (g_q s)))); [rewrite h_acc, app_nil_r; reflexivity|reflexivity].
    + destruct (tpstep (g_q s)) as [i1| | |] eqn:HS; cbn [bind] in H; try discriminate.
      destruct (D m eq_refl) as [X Y]. destruct (tpstep_pin (g_q s) i1 m HS h_p) as (Ecp & Erb & _ & Hcase).
      assert (treach false q i1) as R1 by (apply (TS false q (g_q s)); [exact h_reach|apply TP; exact HS]).
      destruct Hcase as [(c & EC & EL & EI & EB)|(NC & EL & HC1)].
      * rewrite EC in H. injection H as <-. unfold MQ_SUCCESS.
        assert (gap_ok (g_wk s) (t_log i1)) as G by (rewrite EL; exact A0).
        destruct (c =? 0) eqn:E0.
        { constructor; cbn; try discriminate; assumption. }
        pose proof (tevents q i1 (E (EPushRet m c)) [] (t_log (g_q s)) good R1 EL) as EV. cbn [tev_ok] in EV.
        assert (c = 5 /\ rb_size q < occupied (maybe_waiting (t_log (g_q s))) + 4 + zlen m) as [-> NR] by (destruct EV as [->|EV]; [discriminate|exact EV]).
        constructor; cbn; try discriminate; [exact G|exact A|]. intros m' E. injection E as <-. unfold gnoroom. rewrite X. unfold maybe_waiting in NR.
        pose proof (occupied_skipn _ _ (accepted (plain (pcall_at (t_log (g_q s))))) Y) as O. unfold npops in O. lia.
      * assert (s' = gset_q s i1) as ->.
        { destruct (t_pp (g_q s)) eqn:EPP; try (injection H as <-; reflexivity). exfalso. cbn in h_p. subst. eapply NC. reflexivity. }
        constructor; cbn; rewrite ?EP; try discriminate; rewrite ?EL; [exact A0|exact A|]. intros m' E. injection E as <-. split; assumption.
    + destruct (t_wbuf (g_q s)); [|discriminate]. injection H as <-. constructor; cbn; try discriminate; [|exact A]. exact A0.
    + injection H as <-. constructor; cbn; try discriminate; [exact A0|]. intros l2 m' l E. destruct l2 as [|e l2]; cbn in E; injection E.
      * intros E2 -> ->. rewrite <- E2. apply B. reflexivity.
      * intros E2 _. eapply A. exact E2.
  - unfold gdexec in H. destruct (g_ds s); try discriminate.
    + injection H as <-. apply (gsame_full s _ []); auto.
    + destruct (g_dfl s); [discriminate|]. injection H as <-. apply (gsame_full s _ []); auto.
    + destruct (g_wk s) eqn:EW; try discriminate. destruct (t_rbuf (g_q s)); try discriminate. destruct (g_wfl s); try discriminate.
      injection H as <-. apply (gsame_full s _ [HDestroyed]); auto; repeat constructor.
  - destruct H as [s e b i EB HF|s y b EB|s EF|s EF]; try (apply (gsame_full s _ []); auto; fail).
    destruct (commit_keeps _ _ _ HF) as (K1 & K2 & K3 & K4 & K5 & K6). apply (gsame_full s _ []); auto.
  - pose proof F as [A0 A B C D]. constructor; cbn; try discriminate; [exact A0|..].
    + intros l2 m' l E. destruct l2 as [|e l2]; cbn in E; [discriminate|]. injection E as _ E. eapply A; exact E.
    + intros m' _. split; [reflexivity|]. apply gcbs_le; assumption.
  - apply (gsame_full s _ [HDestroy]); auto; repeat constructor.
Qed.

Lemma g_full s : greach q s -> forall l2 m l, g_log s = l2 ++ HPushRet m 5 :: l ->
  rb_size q < occupied (skipn (length (callbacks (at_hpush l)) - 1) (haccepted (at_hpush l))) + 4 + zlen m.
Proof.
  intro H. apply n_log. induction H as [|s s' H IH HS].
  - constructor; cbn; try discriminate; [unfold gap_ok; cbn; lia|]. intros l2 m l E. destruct l2; discriminate.
  - eapply gfull_step; eauto. eapply greach_inv; eauto.
Qed.
End Full.

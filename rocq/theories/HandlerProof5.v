(** A push answered "full" had no room: the handler's log. *)
From Verif Require Import CBase SeqLib RingBuffer2Model RingBuffer2Proof MsgQueueModel MsgQueueSpec MsgQueueProof
  SpscModel SpscSpec SpscProof SpscProof2 SpscProof3 SpscProof4 HandlerModel HandlerSpec HandlerSpec2 HandlerProof HandlerProof2 HandlerProof3.

Definition cquiet (e : ev) : Prop := match e with EPush _ | EPushRet _ _ => False | _ => True end.
Definition hquiet (e : hev) : Prop := match e with HPush _ | HPushRet _ _ => False | _ => True end.

Lemma hq_at lh l : Forall hquiet lh -> at_hpush (lh ++ l) = at_hpush l /\ haccepted (lh ++ l) = haccepted l.
Proof. induction 1 as [|e lh H _ [IH1 IH2]]; [split; reflexivity|]. destruct e; cbn in *; try contradiction; split; assumption. Qed.
Lemma hq_ev lh l l2 m c l0 : Forall hquiet lh -> lh ++ l = l2 ++ HPushRet m c :: l0 -> exists l3, l = l3 ++ HPushRet m c :: l0.
Proof.
  intro H. revert l2. induction H as [|e lh H _ IH]; intros l2 E; [exists l2; exact E|].
  destruct l2 as [|e2 l2]; cbn in E; injection E as E1 E2; [subst e; contradiction|]. eapply IH; exact E2.
Qed.
Lemma cq_at li l : Forall cquiet li -> at_pcall (li ++ l) = at_pcall l /\ (length (pops l) <= length (pops (li ++ l)))%nat.
Proof.
  induction 1 as [|e li H _ [IH1 IH2]]; [split; [reflexivity|apply le_n]|]. destruct e; cbn in *; try contradiction; split; try assumption.
  destruct (_ =? 0); [rewrite app_length|]; lia.
Qed.
Lemma cstep_quiet s s' : cstep s = Ret s' -> exists li, log s' = li ++ log s /\ Forall cquiet li.
Proof.
  intro H. unfold cstep in H.
  assert (forall x : st, log x = log s -> exists li, log x = li ++ log s /\ Forall cquiet li) as Z by (intros x X; exists []; split; [exact X|constructor]).
  destruct (cp s) as [| |t cap|j|j n start i tgt|t cap code t1 sz1|n]; try (injection H as <-; apply Z; reflexivity).
  - destruct ((jreq j =? 0) || (avail_read s =? 0)); [|injection H as <-; apply Z; reflexivity].
    destruct (cfinish _ _ _); cbn [bind] in H; try discriminate. injection H as <-. apply Z; reflexivity.
  - destruct (i <? n).
    + destruct (mload _ _); cbn [bind] in H; try discriminate. destruct (mstore _ _ _); cbn [bind] in H; try discriminate. injection H as <-. apply Z; reflexivity.
    + destruct (jpeek j); (destruct (cfinish _ _ _); cbn [bind] in H; try discriminate; injection H as <-; apply Z; reflexivity).
  - injection H as <-. exists [EPopRet t cap code t1 sz1]. split; [reflexivity|]. repeat constructor.
  - injection H as <-. exists [ENextRet n]. split; [reflexivity|]. repeat constructor.
Qed.
Lemma wexec_quiet c s s' : wexec c s = Ret (Some s') -> pr s' = pr s /\
  (exists lh, hlog s' = lh ++ hlog s /\ Forall hquiet lh) /\ (exists li, log (inner s') = li ++ log (inner s) /\ Forall cquiet li).
Proof.
  intro H. unfold wexec in H.
  assert (forall x e, hquiet e -> pr x = pr s -> hlog x = e :: hlog s -> inner x = inner s -> pr x = pr s /\
    (exists lh, hlog x = lh ++ hlog s /\ Forall hquiet lh) /\ (exists li, log (inner x) = li ++ log (inner s) /\ Forall cquiet li)) as Z1.
  { intros x e Q A B C. split; [exact A|]. split; [exists [e]; split; [exact B|repeat constructor; exact Q]|]. exists []. rewrite C. split; [reflexivity|constructor]. }
  assert (forall x, pr x = pr s -> hlog x = hlog s -> inner x = inner s -> pr x = pr s /\
    (exists lh, hlog x = lh ++ hlog s /\ Forall hquiet lh) /\ (exists li, log (inner x) = li ++ log (inner s) /\ Forall cquiet li)) as Z0.
  { intros x A B C. split; [exact A|]. split; [exists []; split; [exact B|constructor]|]. exists []. rewrite C. split; [reflexivity|constructor]. }
  destruct (wk s) as [|last| | | | |size| | | |].
  - destruct (c_mem c) as [b|]; [|injection H as <-; apply (Z1 _ HOom); reflexivity || exact I].
    destruct (_ =? _); [|discriminate]. injection H as <-. apply Z0; reflexivity.
  - injection H as <-. destruct (_ || _); apply Z0; reflexivity.
  - destruct (_ <? _); [|discriminate]. injection H as <-. apply Z0; reflexivity.
  - injection H as <-. apply Z0; reflexivity.
  - injection H as <-. split; [reflexivity|]. split; [exists []; split; [reflexivity|constructor]|].
    exists [EPop (buf s) (u32 (bsize s))]. split; [reflexivity|]. repeat constructor.
  - destruct (cstep (inner s)) as [i'| | |] eqn:EC; cbn [bind] in H; try discriminate. injection H as <-. destruct (cstep_quiet _ _ EC) as (li & L & Q).
    split; [destruct (cp (inner s)); try reflexivity; destruct (_ =? _); try reflexivity; destruct (_ =? _); reflexivity|].
    split; [exists []; split; [|constructor]; destruct (cp (inner s)); try reflexivity; destruct (_ =? _); try reflexivity; destruct (_ =? _); reflexivity|].
    exists li. split; [|exact Q]. rewrite <- L. destruct (cp (inner s)); try reflexivity; destruct (_ =? _); try reflexivity; destruct (_ =? _); reflexivity.
  - destruct (roundup_power2 size) as [n| | |]; cbn [bind] in H; try discriminate.
    destruct (c_mem c) as [b|]; [|injection H as <-; apply (Z1 _ HOom); reflexivity || exact I].
    destruct (_ =? _); [|discriminate]. injection H as <-. apply Z0; reflexivity.
  - injection H as <-. apply (Z1 _ (HCb (buf s))); reflexivity || exact I.
  - injection H as <-. apply (Z1 _ (HCbRet (c_ret c))); reflexivity || exact I.
  - injection H as <-. apply Z0; reflexivity.
  - discriminate.
Qed.

Section Full.
Variable q : rb Z.
Hypothesis good : good_queue q.
Hypothesis small : rb_size q <= 1073741824.

Definition noroom (m : list Z) (l : list hev) : Prop := rb_size q < occupied (hwaiting (at_hpush l)) + 4 + zlen m.
Record full_ok (s : hst) : Prop := {
  k_log : forall l2 m l, hlog s = l2 ++ HPushRet m 5 :: l -> noroom m l;
  k_ret : forall m, pr s = HRet m 5 -> noroom m (hlog s);
  k_145 : forall m, pr s = H145 m -> haccepted (at_hpush (hlog s)) = haccepted (hlog s) /\
            (length (callbacks (at_hpush (hlog s))) <= length (pops (log (inner s))))%nat;
  k_149 : forall m, pr s = H149 m -> haccepted (at_hpush (hlog s)) = accepted (at_pcall (log (inner s))) /\
            (length (callbacks (at_hpush (hlog s))) <= length (pops (at_pcall (log (inner s)))))%nat }.

Lemma occupied_skipn a b l : (a <= b)%nat -> occupied (skipn b l) <= occupied (skipn a l).
Proof.
  revert b l. induction a as [|a IH]; intros b l H.
  - rewrite skipn_O. clear H. revert l. induction b as [|b IHb]; intro l; [rewrite skipn_O; lia|]. destruct l as [|m l]; [cbn; lia|].
    cbn [skipn occupied]. specialize (IHb l). pose proof (zlen_nonneg m). lia.
  - destruct b as [|b]; [lia|]. destruct l as [|m l]; [cbn; lia|]. cbn [skipn]. apply IH. lia.
Qed.
Lemma hcbs_le s : hinv q s -> (length (callbacks (hlog s)) <= length (pops (log (inner s))))%nat.
Proof. intros []. rewrite <- (map_length t' (pops _)), <- h_cbs, app_length. lia. Qed.

Lemma quiet_full s s' lh li : full_ok s -> pr s' = pr s -> hlog s' = lh ++ hlog s -> Forall hquiet lh ->
  log (inner s') = li ++ log (inner s) -> Forall cquiet li -> full_ok s'.
Proof.
  intros [A B C D] EP EH QH EI QI. destruct (hq_at lh (hlog s) QH) as [H1 H2]. destruct (cq_at li (log (inner s)) QI) as [I1 I2].
  constructor; rewrite ?EP, ?EI, ?I1; rewrite EH; unfold noroom in *; rewrite ?H1, ?H2.
  - intros l2 m l E. destruct (hq_ev _ _ _ _ _ _ QH E) as (l3 & X). eapply A; exact X.
  - exact B.
  - intros m E. destruct (C m E) as [X Y]. split; [exact X|]. lia.
  - exact D.
Qed.

Lemma full_step s s' : hinv q s -> hstep s s' -> full_ok s -> full_ok s'.
Proof.
  intros HI HS F. destruct HS as [s c s' H|s s' H|s s' H|s m EP ED Hm|s ED EP].
  - destruct (wexec_quiet c s s' H) as (EP & (lh & EH & QH) & (li & EI & QI)). eapply quiet_full; eauto.
  - pose proof F as [A B C D]. pose proof HI as HI0. destruct HI0. unfold pexec in H. unfold pcon in h_p. destruct (pr s) as [|m|m|m|m c] eqn:EP; try discriminate.
    + destruct (C m eq_refl) as [X Y]. destruct (flag s); injection H as <-.
      * constructor; cbn; try discriminate. exact A.
      * constructor; cbn; try discriminate; [exact A|]. intros m' E. split; [|exact Y]. rewrite X. unfold hpend in h_acc. rewrite EP in h_acc.
        rewrite h_acc, app_nil_r. reflexivity.
    + destruct (pstep (inner s)) as [i1| | |] eqn:HS; cbn [bind] in H; try discriminate.
      destruct (D m eq_refl) as [X Y]. destruct (pstep_pin (inner s) i1 m HS h_p) as [Ecp Hcase].
      assert (reach q i1) as R1 by (apply (RS q (inner s)); [exact h_reach|apply SP; exact HS]).
      destruct Hcase as [(c & EC & EL & EI)|(NC & EL & HC1)].
      * rewrite EC in H. injection H as <-. unfold MQ_SUCCESS. destruct (c =? 0) eqn:E0.
        { constructor; cbn; try discriminate. exact A. }
        pose proof (spsc_events q i1 (EPushRet m c) [] (log (inner s)) good R1 EL) as EV. cbn [event_ok] in EV.
        assert (c = 5 /\ rb_size q < occupied (waiting (at_pcall (log (inner s)))) + 4 + zlen m) as [-> NR] by (destruct EV as [->|EV]; [discriminate|exact EV]).
        constructor; cbn; try discriminate; [exact A|]. intros m' E. injection E as <-. unfold noroom, hwaiting. rewrite X. unfold waiting in NR.
        pose proof (occupied_skipn _ _ (accepted (at_pcall (log (inner s)))) Y). lia.
      * assert (s' = set_inner s i1) as ->.
        { destruct (pp (inner s)) eqn:EPP; try (injection H as <-; reflexivity). exfalso. cbn in h_p. subst. eapply NC. reflexivity. }
        constructor; cbn; rewrite ?EP; try discriminate; [exact A|]. rewrite EL. intros m' E. injection E as <-. split; assumption.
    + injection H as <-. constructor; cbn; try discriminate. exact A.
    + injection H as <-. constructor; cbn; try discriminate. intros l2 m' l E. destruct l2 as [|e l2]; cbn in E; injection E.
      * intros E2 -> ->. rewrite <- E2. apply B. reflexivity.
      * intros E2 _. eapply A. exact E2.
  - unfold dexec in H. destruct (ds s); try discriminate.
    + injection H as <-. apply (quiet_full s _ [] []); auto; constructor.
    + injection H as <-. apply (quiet_full s _ [] []); auto; constructor.
    + destruct (wk s); try discriminate. injection H as <-. apply (quiet_full s _ [HDestroyed] []); auto; repeat constructor.
  - pose proof F as [A B C D]. constructor; cbn; try discriminate.
    + intros l2 m' l E. destruct l2 as [|e l2]; cbn in E; [discriminate|]. injection E as _ E. eapply A; exact E.
    + intros m' _. split; [reflexivity|]. apply hcbs_le. exact HI.
  - apply (quiet_full s _ [HDestroy] []); auto; repeat constructor.
Qed.

Lemma handler_full s : hreach q s -> forall l2 m l, hlog s = l2 ++ HPushRet m 5 :: l -> rb_size q < occupied (hwaiting (at_hpush l)) + 4 + zlen m.
Proof.
  intro H. apply k_log. induction H as [|s s' H IH HS].
  - constructor; cbn; try discriminate. intros l2 m l E. destruct l2; discriminate.
  - eapply full_step; eauto. eapply hreach_inv; eauto.
Qed.
End Full.

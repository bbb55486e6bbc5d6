(** The invariant of the file logger. *)
From Verif Require Import CBase SeqLib CStr IntegerModel RingBuffer2Model MsgQueueModel SpscModel HandlerModel HandlerSpec.
From Verif Require HandlerProof4.
From Verif Require Import Props_Handler FileLoggerModel FileLoggerSpec FileLoggerProof FileLoggerProof2.

Definition small (m : list Z) : Prop := zlen m <= 1073741808.
Definition holds (b r : list Z) : Prop := exists x rest, is_msg x r /\ b = x ++ rest.
(** the part of the writer's invariant that survives the closing of the last file *)
Definition wpub (cfg : fcfg) (w : wst) (recs : list (list Z)) : Prop :=
  (forall n, In n (opened (w_log w)) -> n <> lost_name cfg) /\
  (printed w -> NoDup (opened (w_log w)) -> exists groups,
     subseq (concat groups) (nonempty recs) /\
     (~ In WOpenFail (w_log w) -> concat groups = nonempty recs) /\
     Forall2 (fun n g => fs_get n (w_fs w) = Some (lines g)) (opened (w_log w)) groups /\
     rotated (f_max cfg) groups).
Lemma winv_wpub cfg w recs : winv cfg w recs -> wpub cfg w recs.
Proof.
  intros (I1 & _ & I3). split; [exact I1|]. intros P N. destruct (I3 P N) as (g & S1 & S2 & S3 & S4 & _). exists g. auto.
Qed.

Definition pc_inv (s : lst) : Prop :=
  let h := l_h s in let hl := hlog h in let ll := l_log s in
  match l_pc s with
  | LIdle => pr h = HIdle /\ lsent ll = laccepted ll /\ Forall2 is_msg (hsent hl) (laccepted ll) /\ Forall2 is_msg (haccepted hl) (laccepted ll)
  | L131 m _ st => pr h = HIdle /\ l_d s = DLive /\ small m /\ st <> 0 /\ lsent ll = laccepted ll ++ [m] /\
      Forall2 is_msg (hsent hl) (laccepted ll) /\ Forall2 is_msg (haccepted hl) (laccepted ll)
  | L147 m _ => exists x hs, is_msg x m /\ pushing x (pr h) /\ l_d s = DLive /\ small m /\ lsent ll = laccepted ll ++ [m] /\
      hsent hl = hs ++ [x] /\ Forall2 is_msg hs (laccepted ll) /\ Forall2 is_msg (haccepted hl) (laccepted ll)
  | L161 m st => pr h = HIdle /\ l_d s = DLive /\ small m /\ lsent ll = laccepted ll ++ [m] /\
      Forall2 is_msg (hsent hl) (laccepted ll ++ (if st =? 0 then [m] else [])) /\
      Forall2 is_msg (haccepted hl) (laccepted ll ++ (if st =? 0 then [m] else []))
  end.
Definition lost_inv (cfg : fcfg) (fs0 : fsys) (s : lst) : Prop :=
  (f_keep cfg = false -> fs_get (lost_name cfg) (w_fs (l_w s)) = fs_get (lost_name cfg) fs0) /\
  (f_keep cfg = true -> (forall m, ~ In (LLostFail m) (l_log s)) ->
     file_text (lost_name cfg) (w_fs (l_w s)) = file_text (lost_name cfg) fs0 ++ lost_lines (lrefused (l_log s))).
Record linv (cfg : fcfg) (q : rb Z) (fs0 : fsys) (s : lst) : Prop := {
  i_h : hreach q (l_h s);
  i_cache : zlen (l_cache s) = 16 + l_cap s /\ 2048 <= l_cap s;
  i_pc : pc_inv s;
  i_live : l_d s = DLive -> ds (l_h s) = DNone;
  i_dead : l_d s <> DLive -> l_pc s = LIdle /\ ds (l_h s) <> DNone;
  i_end : l_d s = DEnd -> ds (l_h s) = DDone;
  i_cb : l_cb s = 0;
  i_w : exists recs, Forall2 holds (callbacks (hlog (l_h s))) recs /\ wpub cfg (l_w s) recs /\ (l_d s <> DEnd -> winv cfg (l_w s) recs);
  i_lost : lost_inv cfg fs0 s }.

(** what the handler has handed to the callback *)
Lemma Forall2_prefix {A B} (R : A -> B -> Prop) a b l : Forall2 R (a ++ b) l -> exists l1 l2, l = l1 ++ l2 /\ Forall2 R a l1 /\ Forall2 R b l2.
Proof. intro H. apply Forall2_app_inv_l in H as (l1 & l2 & H1 & H2 & ->). eauto. Qed.
Lemma last_block q h b l recs : created_small q -> hreach q h -> callbacks (hlog h) = l ++ [b] ->
  Forall2 is_msg (hsent (hlog h)) recs -> exists r, In r recs /\ holds b r.
Proof.
  intros C H E F. destruct (C29_handler_in_order_once q h C H) as (dl & rest & E1 & E2). rewrite E in E2.
  apply Forall2_app_inv_l in E2 as (d1 & d2 & _ & E3 & ->). inversion E3 as [|? x ? ? B1 B2]; subst. inversion B2; subst.
  rewrite E1 in F. rewrite <- app_assoc in F. apply Forall2_app_inv_l in F as (r1 & r2 & _ & F & ->). cbn [app] in F.
  inversion F as [|? r ? ? F1 F2]; subst. exists r. split; [apply in_or_app; right; left; reflexivity|].
  destruct B1 as (t & ->). exists x, t. auto.
Qed.
Lemma pc_msgs s : pc_inv s -> exists recs, Forall2 is_msg (hsent (hlog (l_h s))) recs.
Proof.
  unfold pc_inv. destruct (l_pc s).
  - intros (_ & _ & H & _). eauto.
  - intros (_ & _ & _ & _ & _ & H & _). eauto.
  - intros (x & hs & M & _ & _ & _ & _ & -> & H & _). eexists. apply Forall2_snoc; eauto.
  - intros (_ & _ & _ & _ & H & _). eauto.
Qed.

(** ** the worker *)
Lemma pc_inv_keep s s' : pc_inv s -> l_pc s' = l_pc s -> l_log s' = l_log s -> l_d s' = l_d s -> pr (l_h s') = pr (l_h s) ->
  hsent (hlog (l_h s')) = hsent (hlog (l_h s)) -> haccepted (hlog (l_h s')) = haccepted (hlog (l_h s)) -> pc_inv s'.
Proof. unfold pc_inv. intros H -> -> -> -> -> ->. exact H. Qed.
Lemma lost_keep cfg fs0 s s' : lost_inv cfg fs0 s -> l_log s' = l_log s ->
  fs_get (lost_name cfg) (w_fs (l_w s')) = fs_get (lost_name cfg) (w_fs (l_w s)) -> lost_inv cfg fs0 s'.
Proof. unfold lost_inv, file_text. intros H -> ->. exact H. Qed.

Section Inv.
Context (cfg : fcfg) (q : rb Z) (fs0 : fsys) (GC : good_cfg cfg) (CS : created_small q).

Lemma worker_inv s e mem : linv cfg q fs0 s -> time_text (e_time e) ->
  exists o, lwexec cfg e mem s = Ret o /\ forall s', o = Some s' -> linv cfg q fs0 s'.
Proof.
  intros I TT. unfold lwexec.
  assert (wk (l_h s) <> W96 -> exists o, (do o <- wexec {| c_mem := mem; c_ret := l_cb s |} (l_h s);
      match o with None => Ret None | Some h => Ret (Some (lset_h s h)) end) = Ret o /\ forall s', o = Some s' -> linv cfg q fs0 s') as Other.
  { intro NW. destruct (C29_handler_no_fault q (l_h s) {| c_mem := mem; c_ret := l_cb s |} CS (i_h _ _ _ _ I)) as [(o & E) _].
    rewrite E. cbn [bind]. destruct o as [h|]; [|eexists; split; [reflexivity|discriminate]].
    eexists. split; [reflexivity|]. intros s' X. injection X as <-.
    destruct (wexec_keeps _ _ _ E NW) as (K1 & K2 & K3 & K4 & K5). destruct I as [A1 A2 A3 A4 A5 A6 A7 A8 A9].
    constructor; cbn [l_h l_cache l_cap l_d l_pc l_cb l_w l_log lset_h].
    - eapply HRS; [exact A1|]. eapply HSW; exact E.
    - exact A2.
    - apply (pc_inv_keep s); auto.
    - rewrite K5. exact A4.
    - rewrite K5. exact A5.
    - rewrite K5. exact A6.
    - exact A7.
    - rewrite K3. exact A8.
    - exact A9. }
  destruct (wk (l_h s)) eqn:EW; try (apply Other; discriminate). clear Other.
  destruct I as [A1 A2 A3 A4 A5 A6 A7 (recs & R1 & R2 & R3) A9].
  assert (l_d s <> DEnd) as NE.
  { intro X. pose proof (proj1 (HandlerProof4.done_inv q _ A1) (A6 X)). congruence. }
  set (h' := set_wk (hemit (l_h s) (HCb (buf (l_h s)))) WCb).
  assert (wexec {| c_mem := mem; c_ret := 0 |} (l_h s) = Ret (Some h')) as EX by (unfold wexec; rewrite EW; reflexivity).
  assert (hreach q h') as HR by (eapply HRS; [exact A1|]; eapply HSW; exact EX).
  destruct (pc_msgs s A3) as (all & FA).
  destruct (last_block q h' (buf (l_h s)) (callbacks (hlog (l_h s))) all CS HR eq_refl FA) as (r & IR & HB).
  pose proof HB as (x & rest & M & EB).
  destruct (handle_ok cfg e (l_w s) recs x r rest GC TT (R3 NE) M) as (w' & EH & WI & EL).
  rewrite EB, EH. cbn [bind]. rewrite EX. cbn [bind]. eexists. split; [reflexivity|]. intros s' X. injection X as <-.
  constructor; cbn [l_h l_cache l_cap l_d l_pc l_cb l_w l_log lset_h lset_w lset_cb].
  - exact HR.
  - exact A2.
  - apply (pc_inv_keep s); auto.
  - exact A4.
  - exact A5.
  - exact A6.
  - reflexivity.
  - exists (recs ++ [r]). cbn [h' hlog set_wk hemit callbacks]. split; [apply Forall2_snoc; assumption|].
    split; [apply winv_wpub; exact WI|]. auto.
  - apply (lost_keep cfg fs0 s); auto.
Qed.

(** ** file_logger_log *)
Lemma removelast_snoc {A} (l : list A) x : removelast (l ++ [x]) = l.
Proof. rewrite removelast_app by discriminate. cbn. apply app_nil_r. Qed.


Lemma caller_inv s fill ok : linv cfg q fs0 s -> fill_ok fill s ->
  exists o, lexec cfg fill ok s = Ret o /\ forall s', o = Some s' -> linv cfg q fs0 s'.
Proof.
  intros I FO. unfold lexec. destruct (l_pc s) as [|m retry st|m retry|m st] eqn:EP.
  - eexists. split; [reflexivity|discriminate].
  - destruct I as [A1 A2 A3 A4 A5 A6 A7 A8 A9]. unfold pc_inv in A3. rewrite EP in A3. destruct A3 as (B1 & B2 & B3 & B4 & B5 & B6 & B7).
    destruct A2 as [C1 C2]. pose proof (grow_ok fill (l_cache s) (l_cap s) m B3 C1 C2) as G.
    unfold fill_ok in FO. rewrite EP in FO.
    assert (forall x, fill = Some x -> 16 + integer_roundup_pow_of_two (u32 (zlen m)) <= zlen (l_cache s ++ x)) as F by (intros x ->; exact FO).
    specialize (G F). destruct (grow fill (l_cache s) (l_cap s) (zlen m)) as [[cache cap]|].
    + destruct G as (G1 & G2 & G3). destruct (fill_ok_msg cache m B3 ltac:(lia)) as (c' & x & -> & M & L & LX). cbn [bind].
      eexists. split; [reflexivity|]. intros s' X. injection X as <-. unfold small in B3. pose proof (zlen_nonneg m).
      constructor; cbn [l_h l_cache l_cap l_d l_pc l_cb l_w l_log lset_h lset_cache lset_pc].
      * eapply HRS; [exact A1|]. apply HSCall; [exact B1|exact (A4 B2)|unfold two32; lia].
      * lia.
      * unfold pc_inv. cbn [l_h l_cache l_cap l_d l_pc l_cb l_w l_log lset_h lset_cache lset_pc]. exists x, (hsent (hlog (l_h s))).
        split; [exact M|]. split; [left; reflexivity|]. cbn [hlog set_pr hemit hsent haccepted]. unfold small. auto 10.
      * exact A4.
      * intro X; contradiction.
      * exact A6.
      * exact A7.
      * exact A8.
      * exact A9.
    + eexists. split; [reflexivity|]. intros s' X. injection X as <-.
      constructor; cbn [l_h l_cache l_cap l_d l_pc l_cb l_w l_log lset_pc]; auto.
      * unfold pc_inv. cbn [l_h l_cache l_cap l_d l_pc l_cb l_w l_log lset_pc]. destruct (st =? 0) eqn:E0; [lia|]. rewrite app_nil_r. auto 10.
      * intro X; contradiction.
  - destruct (C29_handler_no_fault q (l_h s) {| c_mem := None; c_ret := 0 |} CS (i_h _ _ _ _ I)) as [_ (o & E)].
    rewrite E. cbn [bind]. destruct o as [h|]; [|eexists; split; [reflexivity|discriminate]].
    destruct I as [A1 A2 A3 A4 A5 A6 A7 A8 A9]. unfold pc_inv in A3. rewrite EP in A3.
    destruct A3 as (x & hs & M & PU & B2 & B3 & B5 & B6 & B7 & B8).
    destruct (pexec_keeps x _ _ E PU) as (K1 & K2 & K3).
    assert (hreach q h) as HR by (eapply HRS; [exact A1|]; apply HSP; exact E).
    destruct K3 as [(c & P1 & P2 & P3)|(P1 & P2 & P3)].
    + rewrite P1.
      assert (forall pc', (match pc' with L161 m' st => m' = m /\ st = c | L131 m' _ st => m' = m /\ st <> 0 /\ c <> 0 | _ => False end) ->
                linv cfg q fs0 (lset_pc (lset_h s h) pc')) as Go.
      { intros pc' HP. constructor; cbn [l_h l_cache l_cap l_d l_pc l_cb l_w l_log lset_h lset_pc]; rewrite ?K1, ?K2; auto.
        - unfold pc_inv. cbn [l_h l_cache l_cap l_d l_pc l_cb l_w l_log lset_h lset_pc]. rewrite P3. cbn [hsent haccepted]. rewrite B6, removelast_snoc.
          destruct pc'; try contradiction.
          + destruct HP as (-> & HP1 & HP2). destruct (c =? 0) eqn:E0; [lia|]. auto 10.
          + destruct HP as (-> & ->). destruct (c =? 0) eqn:E0.
            * split; [exact P2|]. split; [exact B2|]. split; [exact B3|]. split; [exact B5|]. split; apply Forall2_snoc; auto.
            * rewrite app_nil_r. auto 10.
        - intro X; contradiction. }
      unfold MQ_SUCCESS. destruct (c =? 0) eqn:E0; [eexists; split; [reflexivity|]; intros s' X; injection X as <-; apply Go; auto|].
      destruct (negb (f_keep cfg)); [eexists; split; [reflexivity|]; intros s' X; injection X as <-; apply Go; auto|].
      destruct (retry + 1 <? 2); (eexists; split; [reflexivity|]; intros s' X; injection X as <-; apply Go; auto).
      split; [reflexivity|]. split; lia.
    + assert (linv cfg q fs0 (lset_h s h)) as Go.
      { constructor; cbn [l_h l_cache l_cap l_d l_pc l_cb l_w l_log lset_h]; rewrite ?K1, ?K2; auto.
        unfold pc_inv. cbn [l_h l_cache l_cap l_d l_pc l_cb l_w l_log lset_h]. rewrite EP, P3. exists x, hs. auto 10. }
      destruct (pr (l_h s)) eqn:EPR; try (eexists; split; [reflexivity|]; intros s' X; injection X as <-; exact Go).
      exfalso. destruct PU as [P|[P|[P|[c P]]]]; try discriminate. injection P as <- <-. exact (P1 code eq_refl).
  - destruct I as [A1 A2 A3 A4 A5 A6 A7 A8 A9]. unfold pc_inv in A3. rewrite EP in A3. destruct A3 as (B1 & B2 & B3 & B5 & B6 & B7).
    assert (forall w', (exists recs, Forall2 holds (callbacks (hlog (l_h s))) recs /\ wpub cfg w' recs /\ (l_d s <> DEnd -> winv cfg w' recs)) ->
              forall log', laccepted log' = laccepted (l_log s) -> lsent log' = lsent (l_log s) ->
              lost_inv cfg fs0 (lset_pc (lemit (mk_l (l_h s) w' (l_cb s) (l_cache s) (l_cap s) (l_pc s) (l_d s) log') (LRet m st)) LIdle) ->
              linv cfg q fs0 (lset_pc (lemit (mk_l (l_h s) w' (l_cb s) (l_cache s) (l_cap s) (l_pc s) (l_d s) log') (LRet m st)) LIdle)) as Go.
    { intros w' HW log' L1 L2 HL. constructor; cbn [l_h l_cache l_cap l_d l_pc l_cb l_w l_log lemit lset_pc]; auto.
      - unfold pc_inv. cbn [l_h l_cache l_cap l_d l_pc l_cb l_w l_log lemit lset_pc lsent laccepted]. rewrite L1, L2, B5.
        destruct (st =? 0); [auto|]. rewrite removelast_snoc, app_nil_r in *. auto.
    }
    unfold MQ_SUCCESS in *. destruct A9 as [A9 A9'].
    destruct (negb (st =? 0) && f_keep cfg) eqn:EK.
    + apply andb_true_iff in EK as [EK1 EK2]. rewrite lost_path_ok by exact GC. cbn [bind]. unfold small in B3. pose proof (zlen_nonneg m).
      destruct ok.
      * rewrite s32_small by (unfold two31; lia). replace (Z.to_nat (zlen m)) with (length m) by (unfold zlen; lia).
        pose proof (prec_s_ok m []) as PS. rewrite app_nil_r in PS. rewrite PS. cbn [bind]. eexists. split; [reflexivity|]. intros s' X. injection X as <-.
        apply Go; auto.
        -- destruct A8 as (recs & R1 & R2 & R3). exists recs. split; [exact R1|].
           assert (l_d s <> DEnd) as ND by (rewrite B2; discriminate).
           pose proof (winv_lost cfg (l_w s) recs (shown m ++ [10; 10]) (R3 ND)) as W. split; [apply winv_wpub; exact W|]. intros _; exact W.
        -- unfold lost_inv. cbn [l_w w_fs lemit lset_pc l_log]. split; [rewrite EK2; discriminate|]. intros _ NF.
           cbn [lrefused]. destruct (st =? 0) eqn:E0; [discriminate|].
           assert (forall m0, ~ In (LLostFail m0) (l_log s)) as NF' by (intros m0 IN; apply (NF m0); right; exact IN).
           unfold lost_lines. rewrite map_app, concat_app. cbn [map concat]. rewrite app_nil_r, app_assoc. fold (lost_lines (lrefused (l_log s))).
           rewrite <- (A9' EK2 NF'). unfold file_text. rewrite get_append. destruct (fs_get _ _); reflexivity.
      * eexists. split; [reflexivity|]. intros s' X. injection X as <-. apply Go; auto.
        split; cbn [l_w w_fs lemit lset_pc l_log]; [rewrite EK2; discriminate|]. intros _ NF. exfalso. apply (NF m). right. left. reflexivity.
    + eexists. split; [reflexivity|]. intros s' X. injection X as <-. apply Go; auto.
      split; cbn [l_w w_fs lemit lset_pc l_log]; [exact A9|]. intros K NF. cbn [lrefused]. rewrite K in EK. destruct (st =? 0); [|discriminate].
      apply A9'; [exact K|]. intros m0 IN. apply (NF m0). right. exact IN.
Qed.

(** ** file_logger_deinit, and new calls *)
Lemma deinit_inv s s' : linv cfg q fs0 s -> ldexec s = Some s' -> linv cfg q fs0 s'.
Proof.
  intros [A1 A2 A3 A4 A5 A6 A7 A8 A9] E. unfold ldexec in E. destruct (l_d s) eqn:ED; try discriminate.
  destruct (A5 ltac:(discriminate)) as [B1 B2].
  destruct (ds (l_h s)) eqn:EDS; try congruence.
  1-3: destruct (dexec (l_h s)) as [h|] eqn:EX; [|discriminate]; injection E as <-;
    destruct (dexec_keeps _ _ EX) as (K1 & K2 & K3 & K4 & K5);
    (constructor; cbn [l_h l_cache l_cap l_d l_pc l_cb l_w l_log lset_h]; rewrite ?K3, ?ED; auto);
    [eapply HRS; [exact A1|]; apply HSD; exact EX|apply (pc_inv_keep s); auto|discriminate|discriminate].
  injection E as <-.
  assert (forall l, opened (match w_fp (l_w s) with Some _ => WClose :: l | None => l end) = opened l) as OE by (intro l; destruct (w_fp (l_w s)); reflexivity).
  assert (forall ev l, ev <> WClose -> In ev (match w_fp (l_w s) with Some _ => WClose :: l | None => l end) <-> In ev l) as IE.
  { intros ev l N. destruct (w_fp (l_w s)); [|tauto]. cbn. split; [intros [X|X]; [congruence|exact X]|auto]. }
  constructor; cbn [l_h l_cache l_cap l_d l_pc l_cb l_w l_log lset_w lset_d lemit]; auto.
  - unfold pc_inv in *. cbn [l_h l_cache l_cap l_d l_pc l_cb l_w l_log lset_w lset_d lemit]. rewrite B1 in *. exact A3.
  - discriminate.
  - intros _. split; [exact B1|congruence].
  - destruct A8 as (recs & R1 & (R2 & R3) & _). exists recs. split; [exact R1|]. split; [|congruence].
    unfold wpub, printed in *. cbn [w_log w_fs]. rewrite OE. split; [exact R2|]. intros P N.
    destruct R3 as (g & S1 & S2 & S3); [intro X; apply P, IE; [discriminate|exact X]|exact N|]. exists g. split; [exact S1|].
    split; [|exact S3]. intro X. apply S2. intro Y. apply X, IE; [discriminate|exact Y].
  - destruct A9 as [L1 L2]. split; cbn [l_w w_fs l_log lemit lset_w lset_d lrefused]; [exact L1|]. intros K NF. apply L2; [exact K|].
    intros m IN. apply (NF m). right. exact IN.
Qed.
Lemma call_inv s m : linv cfg q fs0 s -> l_pc s = LIdle -> l_d s = DLive -> small m ->
  linv cfg q fs0 (lset_pc (lemit s (LCall m)) (L131 m 0 MQ_BUF_NOT_ENOUGH)).
Proof.
  intros [A1 A2 A3 A4 A5 A6 A7 A8 A9] EP ED SM. unfold pc_inv in A3. rewrite EP in A3. destruct A3 as (B1 & B2 & B3 & B4).
  constructor; cbn [l_h l_cache l_cap l_d l_pc l_cb l_w l_log lset_pc lemit]; auto.
  - unfold pc_inv. cbn [l_h l_cache l_cap l_d l_pc l_cb l_w l_log lset_pc lemit lsent laccepted]. rewrite B2. unfold MQ_BUF_NOT_ENOUGH.
    split; [exact B1|]. split; [exact ED|]. split; [exact SM|]. split; [discriminate|]. auto.
  - intro X; contradiction.
  - destruct A9 as [L1 L2]. split; cbn [l_w w_fs l_log lemit lset_pc lrefused]; [exact L1|]. intros K NF. apply L2; [exact K|].
    intros k IN. apply (NF k). right. exact IN.
Qed.
Lemma destroy_inv s : linv cfg q fs0 s -> l_pc s = LIdle -> l_d s = DLive ->
  linv cfg q fs0 (lset_d (lset_h (lemit s LDeinit) (set_ds (hemit (l_h s) HDestroy) D174)) DDestroying).
Proof.
  intros [A1 A2 A3 A4 A5 A6 A7 A8 A9] EP ED. unfold pc_inv in A3. rewrite EP in A3. destruct A3 as (B1 & B2 & B3 & B4).
  constructor; cbn [l_h l_cache l_cap l_d l_pc l_cb l_w l_log lset_h lset_d lemit]; auto; try discriminate.
  - eapply HRS; [exact A1|]. apply HSDestroy; auto.
  - unfold pc_inv. cbn [l_h l_cache l_cap l_d l_pc l_cb l_w l_log lset_h lset_d lemit lsent laccepted]. rewrite EP. auto.
  - intros _. split; [exact EP|discriminate].
  - cbn [hlog set_ds hemit callbacks]. destruct A8 as (recs & R1 & R2 & R3). exists recs. split; [exact R1|]. split; [exact R2|].
    intros _. apply R3. rewrite ED; discriminate.
  - destruct A9 as [L1 L2]. split; cbn [l_w w_fs l_log lemit lset_h lset_d lrefused]; [exact L1|]. intros K NF. apply L2; [exact K|].
    intros k IN. apply (NF k). right. exact IN.
Qed.

Lemma linv0 : linv cfg q fs0 (lboot q fs0).
Proof.
  constructor; cbn [l_h l_cache l_cap l_d l_pc l_cb l_w l_log lboot].
  - apply HR0.
  - split; [|lia]. unfold zlen. rewrite repeat_length. lia.
  - unfold pc_inv. cbn. repeat split; constructor.
  - reflexivity.
  - congruence.
  - discriminate.
  - reflexivity.
  - exists []. cbn. split; [constructor|]. split; [apply winv_wpub, winv0|]. intros _. apply winv0.
  - split; [reflexivity|]. intros _ _. cbn. rewrite app_nil_r. reflexivity.
Qed.

(** the log only grows *)
Lemma log_grows s s' : lstep cfg s s' -> exists l, l_log s' = l ++ l_log s.
Proof.
  intros [s0 e mem s1 _ H|s0 fill ok s1 _ H|s0 s1 H|s0 m _ _ _|s0 _ _].
  - exists []. unfold lwexec in H. destruct (wk (l_h s0)); 
      try (destruct (wexec _ _) as [[h|]| | |]; cbn [bind] in H; try discriminate; injection H as <-; reflexivity).
    destruct (handle_msg _ _ _ _) as [[w r]| | |]; try discriminate. cbn [bind] in H.
    destruct (wexec _ _) as [[h|]| | |]; cbn [bind] in H; try discriminate; injection H as <-; reflexivity.
  - unfold lexec in H. destruct (l_pc s0) as [|m retry st|m retry|m st]; try discriminate.
    + destruct (grow _ _ _ _) as [[c k]|].
      * destruct (fill_msg _ _) as [[c' x]| | |]; cbn [bind] in H; try discriminate. injection H as <-. exists []. reflexivity.
      * injection H as <-. exists []. reflexivity.
    + destruct (pexec _) as [[h|]| | |]; cbn [bind] in H; try discriminate. exists [].
      destruct (pr (l_h s0)); try (injection H as <-; reflexivity).
      destruct (_ =? _); [injection H as <-; reflexivity|]. destruct (negb _); [injection H as <-; reflexivity|].
      destruct (_ <? _); injection H as <-; reflexivity.
    + destruct (_ && _).
      * destruct (path_of _); cbn [bind] in H; try discriminate. destruct ok.
        -- destruct (prec_s _ _); cbn [bind] in H; try discriminate. injection H as <-. exists [LRet m st]. reflexivity.
        -- injection H as <-. exists [LRet m st; LLostFail m]. reflexivity.
      * injection H as <-. exists [LRet m st]. reflexivity.
  - unfold ldexec in H. destruct (l_d s0); try discriminate. destruct (ds (l_h s0)).
    1-4: destruct (dexec (l_h s0)); try discriminate; injection H as <-; exists []; reflexivity.
    injection H as <-. exists [LDeinitRet]. reflexivity.
  - exists [LCall m]. reflexivity.
  - exists [LDeinit]. reflexivity.
Qed.
Lemma sane_back s s' : lstep cfg s s' -> sane (l_log s') -> sane (l_log s).
Proof. intros H S m IN. destruct (log_grows s s' H) as (l & E). apply S. rewrite E. apply in_or_app. right. exact IN. Qed.

Theorem lreach_inv s : lreach cfg q fs0 s -> sane (l_log s) -> linv cfg q fs0 s.
Proof.
  induction 1 as [|s s' H IH HS]; intro SA; [apply linv0|].
  specialize (IH (sane_back s s' HS SA)). destruct HS as [s e mem s' TT HE|s fill ok s' FO HE|s s' HE|s m EP ED LM|s EP ED].
  - destruct (worker_inv s e mem IH TT) as (o & E1 & E2). apply E2. congruence.
  - destruct (caller_inv s fill ok IH FO) as (o & E1 & E2). apply E2. congruence.
  - eapply deinit_inv; eauto.
  - apply call_inv; auto. apply SA. left. reflexivity.
  - apply destroy_inv; auto.
Qed.
End Inv.

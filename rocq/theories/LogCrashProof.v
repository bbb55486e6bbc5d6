(** Proofs for C82 *)
From Verif Require Import CBase SeqLib CStr StringsModel IntegerModel RingBuffer2Model MsgQueueModel SpscModel HandlerModel HandlerSpec HandlerProof4.
From Verif Require Import Props_Handler FileLoggerModel FileLoggerSpec FileLoggerProof FileLoggerProof2 FileLoggerProof3 FileLoggerProof4 LogCrashModel LogCrashSpec.

(** ** files on disk and as printed; o: the file whose output may be incomplete on disk *)
Definition dinv cfg (o : option (list Z)) (fs d : fsys) (lo : list Z * list Z) : Prop :=
  (forall n, o = Some n -> n <> lost_name cfg /\ exists v x, fs_get n fs = Some (v ++ x) /\ fs_get n d = Some v) /\
  (forall n, o <> Some n -> n <> lost_name cfg -> fs_get n d = fs_get n fs) /\
  (snd lo = [] -> fs_get (lost_name cfg) d = fs_get (lost_name cfg) fs) /\
  (snd lo <> [] -> fst lo = lost_name cfg /\ exists v, fs_get (lost_name cfg) d = Some v /\ fs_get (lost_name cfg) fs = Some (v ++ snd lo)).
Section D.
Variables (cfg : fcfg).
Notation lost := (lost_name cfg).
Lemma dinv_create fs d lo n : n <> lost -> dinv cfg None fs d lo -> dinv cfg (Some n) (fs_create n fs) (fs_create n d) lo.
Proof.
  intros NL (A & B & C & DD). split; [|split; [|split]].
  - intros m X. injection X as <-. split; [exact NL|]. exists [], []. rewrite !get_create. auto.
  - intros m X ML. assert (n <> m) by congruence. rewrite !get_create_other by auto. apply B; [discriminate|exact ML].
  - intro Z0. rewrite !get_create_other by auto. apply C; exact Z0.
  - intro Z0. rewrite !get_create_other by auto. apply DD; exact Z0.
Qed.
Lemma dinv_print fs d lo n t : dinv cfg (Some n) fs d lo -> dinv cfg (Some n) (fs_append n t fs) d lo.
Proof.
  intros (A & B & C & DD). destruct (A n eq_refl) as (NL & v & x & E1 & E2). split; [|split; [|split]].
  - intros m X. injection X as <-. split; [exact NL|]. exists v, (x ++ t). rewrite get_append, E1, app_assoc. auto.
  - intros m X ML. assert (n <> m) by congruence. rewrite get_append_other by auto. apply B; auto.
  - intro Z0. rewrite get_append_other by auto. auto.
  - intro Z0. rewrite get_append_other by auto. auto.
Qed.
Lemma zdrop_len {T} (v x : list T) : zdrop (zlen v) (v ++ x) = x.
Proof. apply zdrop_app_len. Qed.
Lemma dinv_hand fs d lo n k : 0 <= k -> dinv cfg (Some n) fs d lo -> dinv cfg (Some n) fs (fs_append n (ztake k (zdrop (zlen (content n d)) (content n fs))) d) lo.
Proof.
  intros K (A & B & C & DD). destruct (A n eq_refl) as (NL & v & x & E1 & E2).
  unfold content. rewrite E1, E2, zdrop_len.
  split; [|split; [|split]].
  - intros m X. injection X as <-. split; [exact NL|]. exists (v ++ ztake k x), (zdrop k x). rewrite get_append, E2, <- app_assoc, ztake_zdrop. auto.
  - intros m X ML. assert (n <> m) by congruence. rewrite get_append_other by auto. apply B; auto.
  - intro Z0. rewrite get_append_other by auto. auto.
  - intro Z0. rewrite get_append_other by auto. auto.
Qed.
Lemma dinv_close fs d lo n : let p := zdrop (zlen (content n d)) (content n fs) in dinv cfg (Some n) fs d lo -> dinv cfg None fs (fs_append n (ztake (zlen p) p) d) lo.
Proof.
  cbv zeta. intros (A & B & C & DD). destruct (A n eq_refl) as (NL & v & x & E1 & E2).
  unfold content. rewrite E1, E2, zdrop_len, ztake_all by lia.
  split; [|split; [|split]].
  - discriminate.
  - intros m _ ML. destruct (list_eq_dec Z.eq_dec n m) as [<-|N].
    + rewrite get_append, E1, E2. reflexivity.
    + rewrite get_append_other by auto. apply B; auto. congruence.
  - intro Z0. rewrite get_append_other by auto. auto.
  - intro Z0. rewrite get_append_other by auto. auto.
Qed.
Lemma dinv_lost_open o fs d x t : dinv cfg o fs d (x, []) -> t <> [] -> dinv cfg o (fs_append lost t fs) (fs_append lost [] d) (lost, t).
Proof.
  intros (A & B & C & DD) T. cbn [fst snd] in *. specialize (C eq_refl). split; [|split; [|split]]; cbn [fst snd].
  - intros m X. destruct (A m X) as (NL & v & y & E1 & E2). split; [exact NL|]. exists v, y. rewrite !get_append_other by auto. auto.
  - intros m X ML. rewrite !get_append_other by auto. apply B; auto.
  - intro Z0. contradiction.
  - intros _. split; [reflexivity|]. rewrite !get_append, C. destruct (fs_get lost fs) as [c|].
    + exists c. rewrite app_nil_r. auto.
    + exists []. auto.
Qed.
Lemma dinv_lost_write o fs d lo k : dinv cfg o fs d lo -> snd lo <> [] -> 0 <= k -> dinv cfg o fs (fs_append (fst lo) (ztake k (snd lo)) d) (fst lo, zdrop k (snd lo)).
Proof.
  intros (A & B & C & DD) T K. destruct (DD T) as (E0 & v & E1 & E2). rewrite E0. split; [|split; [|split]]; cbn [fst snd].
  - intros m X. destruct (A m X) as (NL & w & y & F1 & F2). split; [exact NL|]. exists w, y. rewrite !get_append_other by auto. auto.
  - intros m X ML. rewrite !get_append_other by auto. apply B; auto.
  - intro Z0. rewrite get_append, E1, E2. f_equal. f_equal. rewrite <- (ztake_zdrop k (snd lo)) at 2. rewrite Z0, app_nil_r. reflexivity.
  - intros _. split; [reflexivity|]. exists (v ++ ztake k (snd lo)). rewrite get_append, E1, E2. rewrite <- app_assoc, ztake_zdrop. auto.
Qed.
End D.

Definition cur (c : cst) : option (list Z) := match c_closing c with Some n => Some n | None => w_fp (l_w (c_l c)) end.
Record cinv (cfg : fcfg) (c : cst) : Prop := {
  k_d : dinv cfg (cur c) (w_fs (l_w (c_l c))) (c_disk c) (c_lost c);
  k_cl : forall n, c_closing c = Some n -> w_fp (l_w (c_l c)) = None /\ wk (l_h (c_l c)) = WCb;
  k_last : forall n, cur c = Some n -> exists l, opened (w_log (l_w (c_l c))) = l ++ [n];
  k_end : l_d (c_l c) = DEnd -> w_fp (l_w (c_l c)) = None;
  k_lost : l_d (c_l c) <> DLive -> snd (c_lost c) = [];
  k_ret : In LDeinitRet (l_log (c_l c)) -> l_d (c_l c) = DEnd }.

(** ** a step here is a step of C44's machine, or leaves it unchanged *)
Lemma cstep_erase cfg c c' : cstep cfg c c' -> lstep cfg (c_l c) (c_l c') \/ c_l c' = c_l c.
Proof.
  intro H. destruct H as [c e mem c' TT H|c fill ok c' FO H|c name k F K|c name F|c k F K|c s' H|c m LI EP ED LM|c LI EP ED]; cbn [c_l]; auto.
  - left. unfold cwexec in H. destruct (c_closing c); [discriminate|]. destruct (lwexec cfg e mem (c_l c)) as [[s'|]| | |] eqn:EL; cbn [bind] in H; try discriminate.
    assert (c_l c' = s') as ->; [|eapply LSW; eauto].
    destruct (wk (l_h (c_l c))); try (injection H as <-; reflexivity).
    destruct (load_int _ _) as [n| | |]; cbn [bind] in H; try discriminate. destruct (open_file _ _ _) as [w1| | |]; cbn [bind] in H; try discriminate.
    destruct (n <? 1); [injection H as <-; reflexivity|]. destruct (w_fp w1); injection H as <-; reflexivity.
  - left. unfold cexec in H. destruct (snd (c_lost c)); [|discriminate]. destruct (lexec cfg fill ok (c_l c)) as [[s'|]| | |] eqn:EL; cbn [bind] in H; try discriminate.
    assert (c_l c' = s') as ->; [|eapply LSP; eauto].
    destruct (l_pc (c_l c)); try (injection H as <-; reflexivity).
    destruct (negb _ && _ && _); [|injection H as <-; reflexivity].
    destruct (path_of _) as [n| | |]; cbn [bind] in H; try discriminate. destruct (prec_s _ _) as [t| | |]; cbn [bind] in H; try discriminate. injection H as <-; reflexivity.
  - left. apply LSD; exact H.
  - left. apply LSCall; auto.
  - left. apply LSDeinit; auto.
Qed.
Lemma creach_erase cfg q fs c : creach cfg q fs c -> lreach cfg q fs (c_l c).
Proof.
  induction 1 as [|c c' H IH HS]; [apply LR0|]. destruct (cstep_erase cfg c c' HS) as [X|X]; [eapply LRS; eauto|rewrite X; exact IH].
Qed.
(** ** what handle_log_queue_msg does to the files *)
Lemma handle_shape cfg e w b w' r n : good_cfg cfg -> time_text (e_time e) -> load_int b 12 = Ret n -> handle_msg cfg e w b = Ret (w', r) ->
  (n < 1 /\ w' = w) \/
  (1 <= n /\ exists w1, open_file cfg e w = Ret w1 /\
    match w_fp w1 with
    | None => w' = w1 /\ w_fp w = None /\ w_fs w1 = w_fs w /\ opened (w_log w1) = opened (w_log w)
    | Some name => exists out,
        w_fs w' = fs_append name out (w_fs w1) /\ opened (w_log w') = opened (w_log w1) /\ (w_fp w' = Some name \/ w_fp w' = None) /\
        match w_fp w with
        | Some m => m = name /\ w1 = w
        | None => name <> lost_name cfg /\ w_fs w1 = fs_create name (w_fs w) /\ opened (w_log w1) = opened (w_log w) ++ [name]
        end
    end).
Proof.
  intros GC TT EN H. unfold handle_msg in H. rewrite EN in H. cbn [bind] in H. destruct (n <? 1) eqn:E1.
  { left. injection H as <- <-. split; [lia|reflexivity]. }
  right. split; [lia|]. destruct (open_file cfg e w) as [w1| | |] eqn:EO; cbn [bind] in H; try discriminate. exists w1. split; [reflexivity|].
  assert (OP : match w_fp w1 with
    | None => w_fp w = None /\ w_fs w1 = w_fs w /\ opened (w_log w1) = opened (w_log w)
    | Some name => match w_fp w with Some m => m = name /\ w1 = w | None => name <> lost_name cfg /\ w_fs w1 = fs_create name (w_fs w) /\ opened (w_log w1) = opened (w_log w) ++ [name] end end).
  { unfold open_file in EO. destruct (w_fp w) as [m|] eqn:EF; [injection EO as <-; rewrite EF; auto|].
    rewrite (name_ok cfg _ GC TT) in EO. cbn [bind] in EO. destruct (e_open e); injection EO as <-; cbn [w_fp w_fs w_log opened]; [|auto].
    split; [apply name_not_lost; exact TT|auto]. }
  destruct (w_fp w1) as [name|] eqn:EF.
  - destruct (prec_s _ _) as [t| | |]; cbn [bind] in H; try discriminate. cbv zeta in H.
    destruct (match e_print e with None => _ | Some k => _ end) as [out len].
    exists out. destruct (negb (f_max cfg =? 0) && _); injection H as <- <-; cbn [w_fs w_log w_fp opened].
    + split; [reflexivity|]. split; [destruct (0 <? len); reflexivity|]. split; [right; reflexivity|exact OP].
    + split; [reflexivity|]. split; [destruct (0 <? len); reflexivity|]. split; [left; reflexivity|exact OP].
  - injection H as <- <-. auto.
Qed.

Section Inv.
Variables (cfg : fcfg) (q : rb Z) (fs0 : fsys).
Hypothesis GC : good_cfg cfg.
Hypothesis CS : created_small q.
Lemma cinv0 : cinv cfg (cboot q fs0).
Proof.
  split; cbn; try discriminate; try (intros; congruence); auto.
  - split; [discriminate|]. split; [auto|]. split; [auto|]. cbn. intro X. contradiction (X eq_refl).
  - intros [].
Qed.
Lemma wexec_wk c h h' : wexec c h = Ret (Some h') -> wk h = W96 -> wk h' = WCb.
Proof. unfold wexec. intros H EW. rewrite EW in H. injection H as <-. reflexivity. Qed.

Lemma worker_c c e mem c' : linv cfg q fs0 (c_l c) -> cinv cfg c -> time_text (e_time e) -> cwexec cfg e mem c = Ret (Some c') -> cinv cfg c'.
Proof.
  intros LI [KD KC KL KE KO KR] TT H. unfold cwexec in H. destruct (c_closing c) as [|] eqn:ECL; [discriminate|].
  destruct (lwexec cfg e mem (c_l c)) as [[s'|]| | |] eqn:EL; cbn [bind] in H; try discriminate. unfold lwexec in EL.
  assert (CU : cur c = w_fp (l_w (c_l c))) by (unfold cur; rewrite ECL; reflexivity). rewrite CU in KD, KL.
  assert (OTHER : wk (l_h (c_l c)) <> W96 -> l_w s' = l_w (c_l c) -> l_d s' = l_d (c_l c) -> l_log s' = l_log (c_l c) -> c' = mk_c s' (c_disk c) None (c_lost c) -> cinv cfg c').
  { intros NW W1 W2 W3 ->. split; unfold cur; cbn [c_l c_disk c_closing c_lost]; rewrite ?W1, ?W2, ?W3; auto. discriminate. }
  destruct (wk (l_h (c_l c))) eqn:EW.
  8: { destruct (handle_msg cfg e (l_w (c_l c)) (buf (l_h (c_l c)))) as [[w' r]| | |] eqn:EH; cbn [bind] in EL; try discriminate.
    destruct (wexec _ (l_h (c_l c))) as [[h|]| | |] eqn:EX; cbn [bind] in EL; try discriminate. injection EL as <-.
    pose proof (wexec_wk _ _ _ EX EW) as WC.
    assert (ND : l_d (c_l c) <> DEnd).
    { intro X. pose proof (i_end _ _ _ _ LI X) as Y. destruct (done_inv q (l_h (c_l c)) (i_h _ _ _ _ LI)) as [Y1 _]. rewrite (Y1 Y) in EW. discriminate. }
    destruct (load_int (buf (l_h (c_l c))) 12) as [n| | |] eqn:EN; cbn [bind] in H; try discriminate.
    destruct (handle_shape cfg e (l_w (c_l c)) (buf (l_h (c_l c))) w' r n GC TT EN EH) as [(N1 & ->)|(N1 & w1 & EO & SH)].
    - destruct (open_file cfg e (l_w (c_l c))); cbn [bind] in H; try discriminate. destruct (n <? 1) eqn:E1; [|lia]. injection H as <-.
      split; unfold cur; cbn [c_l c_disk c_closing c_lost l_w l_d l_log lset_cb lset_w lset_h]; auto. discriminate.
    - rewrite EO in H. cbn [bind] in H. destruct (n <? 1) eqn:E1; [lia|]. destruct (w_fp w1) as [name|] eqn:EF.
      + destruct SH as (out & F1 & F2 & F3 & F4). injection H as <-.
        set (d := match w_fp (l_w (c_l c)) with Some _ => c_disk c | None => fs_create name (c_disk c) end).
        assert (DI : dinv cfg (Some name) (w_fs w') d (c_lost c) /\ exists l, opened (w_log w') = l ++ [name]).
        { rewrite F1, F2. unfold d. destruct (w_fp (l_w (c_l c))) as [m|].
          - destruct F4 as (-> & ->). split; [apply dinv_print; exact KD|]. apply KL; reflexivity.
          - destruct F4 as (NL & G1 & G2). rewrite G1, G2. split; [apply dinv_print, dinv_create; auto|eauto]. }
        destruct DI as (DI & LA). cbn [l_w lset_cb lset_w].
        assert (CN : cur (mk_c (lset_cb (lset_w (lset_h (c_l c) h) w') r) d (match w_fp w' with Some _ => None | None => Some name end) (c_lost c)) = Some name).
        { unfold cur. cbn [c_closing c_l l_w lset_cb lset_w]. destruct F3 as [-> | ->]; reflexivity. }
        split; rewrite ?CN; cbn [c_l c_disk c_closing c_lost l_w l_h l_d l_log lset_cb lset_w lset_h]; auto.
        * intros m X. destruct F3 as [F3|F3]; rewrite F3 in X |- *; [discriminate|auto].
        * intros m X. injection X as <-. exact LA.
        * intro X. contradiction.
      + destruct SH as (-> & F1 & F2 & F3). injection H as <-. rewrite F1 in KD.
        split; unfold cur; cbn [c_l c_disk c_closing c_lost l_w l_d l_log lset_cb lset_w lset_h]; rewrite ?EF, ?F2, ?F3; auto; discriminate. }
  all: destruct (wexec _ (l_h (c_l c))) as [[h|]| | |] eqn:EX; cbn [bind] in EL; try discriminate; injection EL as <-; injection H as <-; apply OTHER; auto; discriminate.
Qed.
Lemma lexec_keeps fill ok s s' : lexec cfg fill ok s = Ret (Some s') -> l_d s' = l_d s /\ (In LDeinitRet (l_log s') -> In LDeinitRet (l_log s)) /\ w_fp (l_w s') = w_fp (l_w s) /\ w_log (l_w s') = w_log (l_w s) /\ wk (l_h s') = wk (l_h s) /\
  match l_pc s with
  | L161 m status => if negb (status =? MQ_SUCCESS) && f_keep cfg && ok then exists name t, path_of (f_folder cfg ++ f_prefix cfg ++ LOST_LOG) = Ret name /\ prec_s (Z.to_nat (s32 (u32 (zlen m)))) m = Ret t /\ w_fs (l_w s') = fs_append name (t ++ [10; 10]) (w_fs (l_w s)) else w_fs (l_w s') = w_fs (l_w s)
  | _ => w_fs (l_w s') = w_fs (l_w s)
  end.
Proof.
  unfold lexec. intro H. destruct (l_pc s) as [|m retry st|m retry|m st]; try discriminate.
  - destruct (grow fill (l_cache s) (l_cap s) (zlen m)) as [[cache cap]|]; [|injection H as <-; cbn; auto 10].
    destruct (fill_msg cache m) as [[cache' x]| | |]; cbn [bind] in H; try discriminate. injection H as <-. cbn. auto 10.
  - destruct (pexec (l_h s)) as [[h|]| | |] eqn:EP; cbn [bind] in H; try discriminate.
    assert (WKK : wk h = wk (l_h s)).
    { unfold pexec in EP. destruct (pr (l_h s)); try discriminate.
      - destruct (flag (l_h s)); injection EP as <-; reflexivity.
      - destruct (pstep (inner (l_h s))); cbn [bind] in EP; try discriminate. injection EP as <-. destruct (pp (inner (l_h s))); try reflexivity. destruct (_ =? _); reflexivity.
      - injection EP as <-; reflexivity.
      - injection EP as <-; reflexivity. }
    destruct (pr (l_h s)); try (injection H as <-; cbn; auto 10).
    destruct (code =? MQ_SUCCESS); [injection H as <-; cbn; auto 10|]. destruct (negb (f_keep cfg)); [injection H as <-; cbn; auto 10|]. destruct (retry + 1 <? 2); injection H as <-; cbn; auto 10.
  - destruct (negb (st =? MQ_SUCCESS) && f_keep cfg) eqn:Q; cbn [andb].
    + destruct (path_of _) as [name| | |]; cbn [bind] in H; try discriminate. destruct ok.
      * destruct (prec_s _ _) as [t| | |]; cbn [bind] in H; try discriminate. injection H as <-. cbn. split; [auto|]. split; [intros [X|X]; [discriminate|exact X]|]. split; [auto|]. split; [auto|]. split; [auto|]. exists name, t. auto.
      * injection H as <-. cbn. split; [auto|]. split; [intros [X|[X|X]]; [discriminate|discriminate|exact X]|]. auto.
    + injection H as <-. cbn. split; [auto|]. split; [intros [X|X]; [discriminate|exact X]|]. auto.
Qed.
Lemma caller_c c fill ok c' : linv cfg q fs0 (c_l c) -> cinv cfg c -> cexec cfg fill ok c = Ret (Some c') -> cinv cfg c'.
Proof.
  intros LI [KD KC KL KE KO KR] H. unfold cexec in H. destruct (snd (c_lost c)) as [|] eqn:ELO; [|discriminate].
  destruct (lexec cfg fill ok (c_l c)) as [[s'|]| | |] eqn:EL; cbn [bind] in H; try discriminate.
  destruct (lexec_keeps fill ok (c_l c) s' EL) as (E1 & E2 & E3 & E4 & E5 & E6).
  assert (LIVE : l_d (c_l c) = DLive).
  { destruct (l_d (c_l c)) eqn:ED; auto.
    1-2: destruct (i_dead _ _ _ _ LI) as [X _]; [rewrite ED; discriminate|]; unfold lexec in EL; rewrite X in EL; discriminate. }
  assert (SAME : w_fs (l_w s') = w_fs (l_w (c_l c)) -> c' = mk_c s' (c_disk c) (c_closing c) (c_lost c) -> cinv cfg c').
  { intros F ->. split; unfold cur; cbn [c_l c_disk c_closing c_lost]; rewrite ?E1, ?E3, ?E4, ?E5, ?F; auto. }
  destruct (l_pc (c_l c)) as [|m retry st|m retry|m st]; try (injection H as <-; apply SAME; auto).
  destruct (negb (st =? MQ_SUCCESS) && f_keep cfg && ok) eqn:Q; [|injection H as <-; apply SAME; auto].
  destruct E6 as (name & t & P1 & P2 & P3). rewrite P1, P2 in H. cbn [bind] in H. injection H as <-.
  rewrite (lost_path_ok cfg GC) in P1. injection P1 as <-.
  split; unfold cur; cbn [c_l c_disk c_closing c_lost]; rewrite ?E1, ?E3, ?E4, ?E5, ?P3; auto.
  - apply (dinv_lost_open cfg _ _ _ (fst (c_lost c))); [|destruct t; discriminate]. rewrite <- ELO. destruct (c_lost c); exact KD.
  - intro X. congruence.
Qed.
Lemma deinit_c c s' : linv cfg q fs0 (c_l c) -> cinv cfg c -> ldexec (c_l c) = Some s' ->
  cinv cfg (mk_c s' (match l_d s', w_fp (l_w (c_l c)) with DEnd, Some name => handed c name (zlen (pending c name)) | _, _ => c_disk c end) (c_closing c) (c_lost c)).
Proof.
  intros LI [KD KC KL KE KO KR] H. unfold ldexec in H. destruct (l_d (c_l c)) eqn:ED; try discriminate.
  assert (MOVE : forall h, dexec (l_h (c_l c)) = Some h -> wk h = wk (l_h (c_l c))).
  { intros h X. unfold dexec in X. destruct (ds (l_h (c_l c))); try discriminate; [injection X as <-; reflexivity..|]. destruct (wk (l_h (c_l c))) eqn:Y; try discriminate. injection X as <-. cbn. exact Y. }
  destruct (ds (l_h (c_l c))) eqn:EDS.
  1-4: destruct (dexec (l_h (c_l c))) as [h|]; try discriminate; injection H as <-; cbn [l_d lset_h]; rewrite ED;
    split; unfold cur; cbn [c_l c_disk c_closing c_lost l_w l_d l_h l_log lset_h]; rewrite ?(MOVE h eq_refl), ?ED; auto; intro; apply KO; discriminate.
  injection H as <-. cbn [l_d lset_d].
  assert (CL : c_closing c = None).
  { destruct (c_closing c) as [n|] eqn:X; [|reflexivity]. destruct (KC n eq_refl) as [_ Y]. destruct (done_inv q (l_h (c_l c)) (i_h _ _ _ _ LI)) as [Z _]. rewrite (Z EDS) in Y. discriminate. }
  assert (CU : cur c = w_fp (l_w (c_l c))) by (unfold cur; rewrite CL; reflexivity). rewrite CU in KD, KL. rewrite CL.
  split; unfold cur; cbn [c_l c_disk c_closing c_lost l_w l_d l_h l_log lset_d lemit lset_w w_fp w_fs w_log]; auto; try discriminate.
  - destruct (w_fp (l_w (c_l c))) as [name|]; [|exact KD]. apply (dinv_close cfg (w_fs (l_w (c_l c))) (c_disk c) (c_lost c) name). exact KD.
  - intros _. apply KO. discriminate.
Qed.
Lemma cstep_inv c c' : linv cfg q fs0 (c_l c) -> cinv cfg c -> cstep cfg c c' -> cinv cfg c'.
Proof.
  intros LI CI H. destruct H as [c e mem c' TT H|c fill ok c' FO H|c name k F K|c name F|c k F K|c s' H|c m L0 EP ED LM|c L0 EP ED].
  - eapply worker_c; eauto.
  - eapply caller_c; eauto.
  - destruct CI as [KD KC KL KE KO KR].
    assert (CU : cur c = Some name). { unfold cur. destruct F as [F|F]; [|rewrite F; reflexivity]. destruct (c_closing c) as [n|]; [|exact F]. destruct (KC n eq_refl) as [X _]. congruence. }
    split; auto. change (cur (mk_c (c_l c) (handed c name k) (c_closing c) (c_lost c))) with (cur c). cbn [c_l c_disk c_lost]. rewrite CU in *. apply dinv_hand; auto.
  - destruct CI as [KD KC KL KE KO KR]. assert (CU : cur c = Some name) by (unfold cur; rewrite F; reflexivity). destruct (KC name F) as [W _].
    split; auto; unfold cur; cbn [c_l c_disk c_lost c_closing]; rewrite ?W; try discriminate.
    rewrite CU in KD. apply (dinv_close cfg (w_fs (l_w (c_l c))) (c_disk c) (c_lost c) name). exact KD.
  - destruct CI as [KD KC KL KE KO KR]. split; auto.
    + cbn [c_l c_disk c_lost]. apply dinv_lost_write; auto.
    + cbn [c_l c_lost snd]. intro X. specialize (KO X). contradiction.
  - apply deinit_c; auto.
  - destruct CI as [KD KC KL KE KO KR]. split; auto. cbn. intros [X|X]; [discriminate|auto].
  - destruct CI as [KD KC KL KE KO KR]. split; auto; cbn; try discriminate. intros [X|X]; [discriminate|]. rewrite (KR X) in ED. discriminate.
Qed.
Lemma csane_back c c' : cstep cfg c c' -> sane (l_log (c_l c')) -> sane (l_log (c_l c)).
Proof. intros H S. destruct (cstep_erase cfg c c' H) as [X|X]; [eapply sane_back; eauto|rewrite <- X; exact S]. Qed.
Lemma creach_inv c : creach cfg q fs0 c -> sane (l_log (c_l c)) -> cinv cfg c.
Proof.
  induction 1 as [|c c' H IH HS]; intro SA; [apply cinv0|]. pose proof (csane_back c c' HS SA) as SB.
  apply (cstep_inv c c'); auto. apply (lreach_inv cfg q fs0 GC CS); auto. apply creach_erase; exact H.
Qed.

Lemma starts_snoc (l : list (list Z)) a b : starts a b -> starts (concat (l ++ [a])) (concat (l ++ [b])).
Proof. intros (x & ->). exists x. rewrite !concat_app. cbn. rewrite !app_nil_r, app_assoc. reflexivity. Qed.
Lemma lines_concat (g : list (list (list Z))) : lines (concat g) = concat (map lines g).
Proof. induction g as [|a g IH]; [reflexivity|]. cbn [concat map]. rewrite lines_app, IH. reflexivity. Qed.
Lemma Forall2_map_eq {A B} (f : A -> option B) l (l' : list B) : Forall2 (fun a b => f a = Some b) l l' -> forall l2, Forall2 (fun a b => f a = Some b) l l2 -> l' = l2.
Proof. induction 1; intros l2 X; inversion X; subst; [reflexivity|]. f_equal; [congruence|auto]. Qed.
Lemma crash_files c : creach cfg q fs0 c -> sane (l_log (c_l c)) -> ~ In WPrintFail (w_log (l_w (c_l c))) -> NoDup (opened (w_log (l_w (c_l c)))) ->
  exists delivered rest written texts, lsent (l_log (c_l c)) = delivered ++ rest /\ subseq written (nonempty delivered) /\ (~ In WOpenFail (w_log (l_w (c_l c))) -> written = nonempty delivered) /\
  on_disk c texts /\ starts (concat texts) (lines written) /\ (cur c = None -> concat texts = lines written).
Proof.
  intros R SA NP ND. pose proof (creach_inv c R SA) as CI. pose proof (creach_erase cfg q fs0 c R) as LR.
  destruct (logger_files cfg q fs0 (c_l c) GC CS LR SA NP ND) as (delivered & rest & groups & G1 & G2 & G3 & G4 & G5).
  destruct (i_w _ _ _ _ (lreach_inv cfg q fs0 GC CS _ LR SA)) as (recs & _ & (NL & _) & _).
  exists delivered, rest, (concat groups). unfold on_disk. destruct CI as [KD KC KL KE KO KR]. destruct KD as (D1 & D2 & D3 & D4).
  set (names := opened (w_log (l_w (c_l c)))) in *. set (fs := w_fs (l_w (c_l c))) in *. rewrite lines_concat.
  assert (G4' : Forall2 (fun n t => fs_get n fs = Some t) names (map lines groups)) by (clear - G4; induction G4; constructor; auto).
  destruct (cur c) as [n|] eqn:EC.
  - destruct (KL n eq_refl) as (l & EL). rewrite EL in G4', NL, ND |- *. apply Forall2_app_inv_l in G4' as (g1 & g2 & F1 & F2 & EG). inversion F2 as [|? t ? t2 T1 T2]; subst. inversion T2; subst.
    destruct (D1 n eq_refl) as (NN & v & x & V1 & V2). rewrite V1 in T1. injection T1 as <-. exists (g1 ++ [v]). rewrite EG.
    split; [exact G1|]. split; [exact G2|]. split; [exact G3|]. split; [|split; [apply starts_snoc; exists x; reflexivity|discriminate]].
    apply Forall2_app; [|constructor; [exact V2|constructor]]. destruct (nodup_snoc l n ND) as (_ & NI).
    apply (Forall2_In_impl (fun m t => fs_get m fs = Some t)); [|exact F1]. intros m t IN E. rewrite D2; [exact E|congruence|]. apply NL. apply in_or_app. auto.
  - exists (map lines groups). split; [exact G1|]. split; [exact G2|]. split; [exact G3|]. split; [|split; [exists []; rewrite app_nil_r; reflexivity|reflexivity]].
    apply (Forall2_In_impl (fun m t => fs_get m fs = Some t)); [|exact G4']. intros m t IN E. rewrite D2; [exact E|discriminate|]. apply NL. exact IN.
Qed.
Lemma crash_lost c : creach cfg q fs0 c -> sane (l_log (c_l c)) -> f_keep cfg = true -> (forall m, ~ In (LLostFail m) (l_log (c_l c))) ->
  starts (file_text (lost_name cfg) (c_disk c)) (file_text (lost_name cfg) fs0 ++ lost_lines (lrefused (l_log (c_l c)))) /\
  (lost_idle c -> file_text (lost_name cfg) (c_disk c) = file_text (lost_name cfg) fs0 ++ lost_lines (lrefused (l_log (c_l c)))).
Proof.
  intros R SA KP NF. pose proof (creach_inv c R SA) as CI. pose proof (creach_erase cfg q fs0 c R) as LR.
  destruct (i_lost _ _ _ _ (lreach_inv cfg q fs0 GC CS _ LR SA)) as (_ & L2). rewrite <- (L2 KP NF). destruct CI as [(D1 & D2 & D3 & D4) _ _ _ _ _].
  unfold file_text, lost_idle. destruct (snd (c_lost c)) eqn:ES.
  - rewrite (D3 eq_refl). split; [exists []; rewrite app_nil_r; reflexivity|reflexivity].
  - destruct D4 as (_ & v & V1 & V2); [discriminate|]. rewrite V1, V2. split; [eexists; reflexivity|discriminate].
Qed.
Lemma crash_deinit c : creach cfg q fs0 c -> sane (l_log (c_l c)) -> In LDeinitRet (l_log (c_l c)) -> cur c = None /\ forall name, fs_get name (c_disk c) = fs_get name (w_fs (l_w (c_l c))).
Proof.
  intros R SA IN. pose proof (creach_inv c R SA) as CI. pose proof (creach_erase cfg q fs0 c R) as LR. pose proof (lreach_inv cfg q fs0 GC CS _ LR SA) as LI.
  destruct CI as [(D1 & D2 & D3 & D4) KC KL KE KO KR]. pose proof (KR IN) as ED.
  assert (CU : cur c = None).
  { unfold cur. destruct (c_closing c) as [n|] eqn:X; [|apply KE; exact ED]. exfalso. destruct (KC n eq_refl) as [_ Y]. destruct (done_inv q (l_h (c_l c)) (i_h _ _ _ _ LI)) as [Z _]. rewrite (Z (i_end _ _ _ _ LI ED)) in Y. discriminate. }
  split; [exact CU|]. intro name. destruct (list_eq_dec Z.eq_dec name (lost_name cfg)) as [->|N]; [|apply D2; [congruence|exact N]].
  apply D3. apply KO. rewrite ED. discriminate.
Qed.
Lemma crash_old c : creach cfg q fs0 c -> sane (l_log (c_l c)) -> NoDup (opened (w_log (l_w (c_l c)))) ->
  forall old name, opened (w_log (l_w (c_l c))) = old ++ [name] -> forall m, In m old -> fs_get m (c_disk c) = fs_get m (w_fs (l_w (c_l c))).
Proof.
  intros R SA ND old name EO m IN. pose proof (creach_inv c R SA) as CI. pose proof (creach_erase cfg q fs0 c R) as LR.
  destruct (i_w _ _ _ _ (lreach_inv cfg q fs0 GC CS _ LR SA)) as (recs & _ & (NL & _) & _). destruct CI as [(D1 & D2 & D3 & D4) KC KL KE KO KR].
  rewrite EO in NL, ND. apply D2; [|apply NL, in_or_app; auto]. intro X. destruct (KL m X) as (l & EL). rewrite EO in EL. apply app_inj_tail in EL as [_ ->].
  destruct (nodup_snoc old m ND) as (_ & NI). contradiction.
Qed.
(** files that are none of the logger's *)
Definition others (c : cst) : Prop := forall name, ~ In name (opened (w_log (l_w (c_l c)))) -> name <> lost_name cfg -> fs_get name (w_fs (l_w (c_l c))) = fs_get name fs0.
Lemma others_step c c' : cinv cfg c -> cstep cfg c c' -> others c -> others c'.
Proof.
  intros CI H O. destruct H as [c e mem c' TT H|c fill ok c' FO H|c name k F K|c name F|c k F K|c s' H|c m L0 EP ED LM|c L0 EP ED]; try exact O.
  - unfold cwexec in H. destruct (c_closing c) as [|] eqn:ECL; [discriminate|].
    destruct (lwexec cfg e mem (c_l c)) as [[s'|]| | |] eqn:EL; cbn [bind] in H; try discriminate. unfold lwexec in EL.
    assert (CU : cur c = w_fp (l_w (c_l c))) by (unfold cur; rewrite ECL; reflexivity).
    destruct (wk (l_h (c_l c))) eqn:EW.
    8: { destruct (handle_msg cfg e (l_w (c_l c)) (buf (l_h (c_l c)))) as [[w' r]| | |] eqn:EH; cbn [bind] in EL; try discriminate.
      destruct (wexec _ (l_h (c_l c))) as [[h|]| | |] eqn:EX; cbn [bind] in EL; try discriminate. injection EL as <-.
      destruct (load_int (buf (l_h (c_l c))) 12) as [n| | |] eqn:EN; cbn [bind] in H; try discriminate.
      assert (EC : l_w (c_l c') = w').
      { destruct (open_file cfg e (l_w (c_l c))) as [w1| | |]; cbn [bind] in H; try discriminate. destruct (n <? 1); [injection H as <-; reflexivity|]. destruct (w_fp w1); injection H as <-; reflexivity. }
      unfold others. rewrite EC.
      destruct (handle_shape cfg e (l_w (c_l c)) (buf (l_h (c_l c))) w' r n GC TT EN EH) as [(N1 & ->)|(N1 & w1 & EO & SH)]; [exact O|].
      destruct (w_fp w1) as [name|] eqn:EF.
      - destruct SH as (out & F1 & F2 & F3 & F4). intros x NI NL. rewrite F2 in NI. rewrite F1.
        destruct (w_fp (l_w (c_l c))) as [m|] eqn:EM.
        + destruct F4 as (-> & ->). rewrite get_append_other; [apply O; auto|]. intros ->. apply NI. destruct (k_last _ _ CI x) as (l & ->); [exact CU|]. apply in_or_app; right; left; reflexivity.
        + destruct F4 as (_ & G1 & G2). rewrite G1, G2 in *. assert (name <> x) by (intros ->; apply NI, in_or_app; right; left; reflexivity).
          rewrite get_append_other, get_create_other by auto. apply O; [|exact NL]. intro X. apply NI, in_or_app. auto.
      - destruct SH as (-> & F1 & F2 & F3). intros x NI NL. rewrite F2. rewrite F3 in NI. apply O; auto. }
    all: destruct (wexec _ (l_h (c_l c))) as [[h|]| | |] eqn:EX; cbn [bind] in EL; try discriminate; injection EL as <-; injection H as <-; exact O.
  - unfold cexec in H. destruct (snd (c_lost c)) as [|] eqn:ELO; [|discriminate].
    destruct (lexec cfg fill ok (c_l c)) as [[s'|]| | |] eqn:EL; cbn [bind] in H; try discriminate.
    destruct (lexec_keeps fill ok (c_l c) s' EL) as (E1 & E2 & E3 & E4 & E5 & E6).
    assert (EC : c_l c' = s').
    { destruct (l_pc (c_l c)); try (injection H as <-; reflexivity). destruct (negb _ && _ && _); [|injection H as <-; reflexivity].
      destruct (path_of _) as [n| | |]; cbn [bind] in H; try discriminate. destruct (prec_s _ _) as [t| | |]; cbn [bind] in H; try discriminate. injection H as <-; reflexivity. }
    intros x. rewrite EC, E4. intros NI NL. 
    assert (SAME : w_fs (l_w s') = w_fs (l_w (c_l c)) -> fs_get x (w_fs (l_w s')) = fs_get x fs0) by (intros ->; apply O; auto).
    destruct (l_pc (c_l c)) as [|m retry st|m retry|m st]; auto. destruct (negb (st =? MQ_SUCCESS) && f_keep cfg && ok); auto.
    destruct E6 as (name & t & P1 & P2 & P3). rewrite (lost_path_ok cfg GC) in P1. injection P1 as <-. rewrite P3, get_append_other by auto. apply O; auto.
  - unfold ldexec in H. destruct (l_d (c_l c)); try discriminate. destruct (ds (l_h (c_l c))); [destruct (dexec (l_h (c_l c))); [|discriminate]..|]; injection H as <-; try exact O.
    intros x NI NL. cbn in NI |- *. apply O; [|exact NL]. destruct (w_fp (l_w (c_l c))); exact NI.
Qed.
Lemma crash_other c : creach cfg q fs0 c -> sane (l_log (c_l c)) ->
  forall name, ~ In name (opened (w_log (l_w (c_l c)))) -> name <> lost_name cfg -> fs_get name (c_disk c) = fs_get name fs0.
Proof.
  intros R SA name NI NL. pose proof (creach_inv c R SA) as [(D1 & D2 & D3 & D4) KC KL KE KO KR].
  rewrite D2; [|intro X; destruct (KL name X) as (l & EL); apply NI; rewrite EL; apply in_or_app; right; left; reflexivity|exact NL].
  assert (OC : others c); [|apply OC; auto]. clear - R SA GC CS. induction R as [|c c' H IH HS]; [intros x _ _; reflexivity|].
  pose proof (csane_back c c' HS SA) as SB. apply (others_step c c'); auto. apply creach_inv; auto.
Qed.
End Inv.

(** Proofs for C73, part 5 *)
From Verif Require Import CBase SeqLib RingBuffer2Model RingBuffer2Proof FixedQueueModel FixedQueueProof RbMtModel RbMtSpec RbMtProof RbMtProof2 RbMtProof3 RbMtProof4.

Section P.
Variables (one : Z) (h : rb Z).
Hypothesis ONE : 1 <= one < 2 ^ 32.
Hypothesis RI : ring h.
Lemma no_fault s : reach one h s -> (exists s', wstep one s = Ret s') /\ (exists s', rstep one s = Ret s').
Proof.
  intro R. destruct (reach_full one h ONE RI s R) as (S & k & I & _). pose proof (C0 h RI) as Z0. split.
  - destruct (wstep_inv one _ ONE Z0 s S k I) as (s' & X & H & _). eauto.
  - destruct (rstep_inv one _ ONE Z0 s S k I) as (s' & X & H & _). eauto.
Qed.
Lemma every_answer s later e earlier : reach one h s -> log s = later ++ e :: earlier -> event_ok one (rb_size h) e earlier.
Proof.
  intros R E. destruct (reach_full one h ONE RI s R) as (S & k & I & CS & _). pose proof (i_evs _ _ _ _ _ I) as EV. rewrite CS, E in EV. clear - EV. induction later as [|x l IH]; cbn in EV; tauto.
Qed.
Lemma stream s : reach one h s -> exists S, prefix (wrote one (log s)) S /\ prefix S (offered one (log s)) /\ agree (got one (log s)) (ztake (zlen (got one (log s))) S).
Proof.
  intro R. destruct (reach_full one h ONE RI s R) as (S & k & I & CS & AG & _). exists S. split; [eexists; exact (i_wrote _ _ _ _ _ I)|]. split; [exact (prefix_offered one _ s S k I)|].
  pose proof (agree_len _ _ AG) as L. pose proof (i_tk _ _ _ _ _ I). pose proof (taken_le one _ ONE s S k I). pose proof (i_rng _ _ _ _ _ I). rewrite zlen_ztake in L by lia. rewrite L. exact AG.
Qed.
Lemma messages s : reach one h s -> queue_only (log s) -> prefix (popped one (log s)) (sent one (log s)).
Proof.
  intros R Q. destruct (reach_full one h ONE RI s R) as (S & k & I & CS & AG & WK). pose proof (i_evs _ _ _ _ _ I) as EV.
  destruct (queue_wrote one h ONE _ _ Q EV WK) as (A & B). destruct (queue_got one h ONE _ _ Q EV) as (C & D).
  destruct (prefix_offered one _ s S k I) as (X & O). rewrite C in AG. apply agree_map in AG.
  assert (O2 : offered one (log s) = concat (sent one (log s)) /\ Forall (fun m => zlen m = one) (sent one (log s))).
  { unfold offered, sent. rewrite A, concat_app. destruct (wopen (log s)) as [c|] eqn:W; [|cbn; rewrite !app_nil_r; auto]. pose proof (wopen_call _ _ W) as IC. destruct (WK _ IC) as (_ & L).
    assert (exists m, c = WPush m) as (m & ->). { apply (proj1 (Forall_forall _ _) Q) in IC. destruct c; try contradiction. eauto. }
    cbn [msg wsize wsrc] in *. cbn. rewrite app_nil_r. split; [reflexivity|]. apply Forall_app. split; [exact B|]. constructor; [apply zlen_ztake; lia|constructor]. }
  destruct O2 as (O2 & F2). apply (concat_prefix one h ONE _ D _ (zdrop (taken one (log s)) S ++ X) F2).
  rewrite <- O2, O, AG, app_assoc. f_equal. symmetry. apply ztake_zdrop.
Qed.
Lemma wait_free_w s c n s' : reach one h s -> wp s = WIdle -> wok one c -> wrun one n (set_wp (emit s (EWCall c)) (wbegin c)) s' ->
  Z.of_nat n <= match c with WWrite _ size => size + 3 | WSpace => 2 | WPush _ => one + 4 end.
Proof.
  intros R E OK W. assert (R' : reach one h (set_wp (emit s (EWCall c)) (wbegin c))) by (eapply RS; [exact R|constructor; auto]).
  destruct (reach_full one h ONE RI _ R') as (S & k & I & _). pose proof (wrun_bound one h ONE RI n _ _ W S k I) as B. destruct c; exact B.
Qed.
Lemma wait_free_r s c n s' : reach one h s -> rp s = RIdle -> rok one c -> rrun one n (set_rp (emit s (ERCall c)) (rbegin c)) s' ->
  Z.of_nat n <= match c with RRead _ size | RPeek _ size | RDiscard size => size + 3 | RAvail => 2 | RPop _ => one + 4 end.
Proof.
  intros R E OK W. assert (R' : reach one h (set_rp (emit s (ERCall c)) (rbegin c))) by (eapply RS; [exact R|constructor; auto]).
  destruct (reach_full one h ONE RI _ R') as (S & k & I & _). pose proof (rrun_bound one h ONE RI n _ _ W S k I) as B. destruct c; exact B.
Qed.
End P.

(** ** rings that creation hands out *)
Lemma ring_mk (b : bool) s (m : list Z) : is_pow2 s -> s <= zlen m - 24 -> ring (mk_rb b 0 0 s (zdrop 24 m)).
Proof. intros P H. pose proof (pow2_bound s P). split; [exact P|]. cbn. rewrite zlen_zdrop by lia. change (2 ^ 32) with two32. unfold two32. lia. Qed.
Lemma created_mem (m : list Z) hd : 28 <= zlen m -> (zlen m - 24 <= 1073741824 \/ zlen m - 24 = 2147483648) -> rb_create_with_mem (Some m) (zlen m) = Ret (Some hd) -> ring hd.
Proof.
  intros H HB E. destruct (create_with_mem_spec m H HB) as (s & P & B & C). rewrite C in E. injection E as <-. apply ring_mk; [exact P|lia].
Qed.
Lemma created (calloc : Z -> option (list Z)) n hd : (forall k b, calloc k = Some b -> zlen b = k) -> 3 <= n <= 1073741824 \/ n = 2147483648 -> rb_create calloc n = Ret (Some hd) -> ring hd.
Proof.
  intros HC Hn E.
  assert (exists k, 2 <= k <= 31 /\ (if is_power_of_2 n then Ret n else roundup_pow_of_two n) = Ret (2 ^ k)) as (k & Hk & Ek).
  { destruct Hn as [Hn| ->].
    - destruct (roundup_spec n ltac:(lia)) as (k & Hk & RU & RB). exists k.
      assert (2 <= k). { destruct (Z.eq_dec k 1) as [->|]; [|lia]. change (2 ^ 1) with 2 in RB. lia. }
      split; [lia|].
      destruct (is_power_of_2 n) eqn:EP; [|exact RU]. unfold roundup_pow_of_two in RU. rewrite EP, orb_true_r in RU. exact RU.
    - exists 31. split; [lia|reflexivity]. }
  assert (4 <= 2 ^ k <= 2147483648) as PB.
  { split; [change 4 with (2 ^ 2)|change 2147483648 with (2 ^ 31)]; apply Z.pow_le_mono_r; lia. }
  unfold rb_create, rb_struct_size in E. destruct (n <? 2) eqn:E0; [lia|]. rewrite Ek in E. cbn [bind] in E.
  rewrite u32_small in E by (unfold two32; lia). destruct (calloc (24 + 2 ^ k)) as [b|] eqn:EC; [|discriminate].
  pose proof (HC _ _ EC) as Lb. assert (is_pow2 (2 ^ k)) as PK by (exists k; lia).
  assert (rb_create_with_mem (Some b) (24 + 2 ^ k) = Ret (Some (mk_rb false 0 0 (2 ^ k) (zdrop 24 b)))) as CW.
  { unfold rb_create_with_mem, rb_struct_size. rewrite (u32_small (24 + 4)) by (unfold two32; lia).
    destruct (24 + 2 ^ k <? 24 + 4) eqn:E4; [lia|]. rewrite (u32_small (24 + 2 ^ k - 24)) by (unfold two32; lia).
    replace (24 + 2 ^ k - 24) with (2 ^ k) by lia.
    rewrite (proj2 (is_power_of_2_spec (2 ^ k) ltac:(unfold two32; lia)) PK). cbn [bind].
    destruct (zlen b <? 24) eqn:E5; [lia|]. reflexivity. }
  rewrite CW in E. cbn [bind rb_in rb_out rb_size rb_buf] in E. injection E as <-. apply ring_mk; [exact PK|lia].
Qed.
Lemma created_queue (malloc : Z -> option (list Z)) one cap q : (forall k b, malloc k = Some b -> zlen b = k) -> 1 <= one -> 1 <= cap ->
  (one * cap - 24 <= 1073741824 \/ one * cap - 24 = 2147483648) -> fq_create malloc one cap = Ret (Some q) -> ring (fq_ring q) /\ fq_one q = one.
Proof.
  intros HM Ho Hc HB E. unfold fq_create, fq_struct_size in E.
  assert (1 <= one * cap) as P1 by nia. assert (one <= one * cap) as P2 by nia.
  destruct ((one <? 1) || (cap <? 1)) eqn:E0; [lia|].
  rewrite (u32_small (one * cap)) in E by (unfold two32; lia).
  unfold u64 in E. rewrite (Z.mod_small (16 + one * cap)) in E by (unfold two64; lia).
  replace (16 + one * cap - 16) with (one * cap) in E by lia. rewrite (u32_small (one * cap)) in E by (unfold two32; lia).
  destruct (malloc (16 + one * cap)) as [b|] eqn:EM; [|discriminate]. pose proof (HM _ _ EM) as Lb. destruct (zlen b <? 16) eqn:E8; [lia|].
  assert (zlen (zdrop 16 b) = one * cap) as L by (rewrite zlen_zdrop; lia). rewrite <- L in E.
  destruct (Z_lt_dec (zlen (zdrop 16 b)) 28) as [S|S]; [rewrite create_with_mem_small in E by exact S; discriminate|].
  destruct (rb_create_with_mem (Some (zdrop 16 b)) (zlen (zdrop 16 b))) as [[hd|]| | |] eqn:C; try discriminate. cbn [bind] in E. injection E as <-. split; [|reflexivity]. apply (created_mem (zdrop 16 b)); [lia|lia|exact C].
Qed.

(** ** runs for the examples *)
Inductive act := AW | AR | AWC (c : wcall) | ARC (c : rcall).
Fixpoint play (one : Z) (l : list act) (s : st) : outcome st :=
  match l with
  | [] => Ret s
  | a :: l =>
      match a with
      | AW => do s <- wstep one s; play one l s
      | AR => do s <- rstep one s; play one l s
      | AWC c => match wp s with WIdle => play one l (set_wp (emit s (EWCall c)) (wbegin c)) | _ => Ub end
      | ARC c => match rp s with RIdle => play one l (set_rp (emit s (ERCall c)) (rbegin c)) | _ => Ub end
      end
  end.
Definition act_ok (one : Z) (a : act) : Prop := match a with AWC c => wok one c | ARC c => rok one c | _ => True end.
Lemma play_reach one h l : Forall (act_ok one) l -> forall s s', reach one h s -> play one l s = Ret s' -> reach one h s'.
Proof.
  induction 1 as [|a l A F IH]; intros s s' R E; cbn [play] in E; [injection E as <-; exact R|]. destruct a as [| |c|c].
  - destruct (wstep one s) as [s1| | |] eqn:W; try discriminate. cbn [bind] in E. eapply IH; [|exact E]. eapply RS; [exact R|constructor; exact W].
  - destruct (rstep one s) as [s1| | |] eqn:W; try discriminate. cbn [bind] in E. eapply IH; [|exact E]. eapply RS; [exact R|apply SR; exact W].
  - destruct (wp s) eqn:W; try discriminate. eapply IH; [|exact E]. eapply RS; [exact R|apply SWCall; auto].
  - destruct (rp s) eqn:W; try discriminate. eapply IH; [|exact E]. eapply RS; [exact R|apply SRCall; auto].
Qed.
Lemma play_steps one l : Forall (act_ok one) l -> forall s s', play one l s = Ret s' -> Relation_Operators.clos_refl_trans _ (step one) s s'.
Proof.
  induction 1 as [|a l A F IH]; intros s s' E; cbn [play] in E; [injection E as <-; apply Relation_Operators.rt_refl|]. destruct a as [| |c|c].
  - destruct (wstep one s) as [s1| | |] eqn:W; try discriminate. cbn [bind] in E. eapply Relation_Operators.rt_trans; [apply Relation_Operators.rt_step; apply SW; exact W|apply IH; exact E].
  - destruct (rstep one s) as [s1| | |] eqn:W; try discriminate. cbn [bind] in E. eapply Relation_Operators.rt_trans; [apply Relation_Operators.rt_step; apply SR; exact W|apply IH; exact E].
  - destruct (wp s) eqn:W; try discriminate. eapply Relation_Operators.rt_trans; [apply Relation_Operators.rt_step; apply SWCall; eassumption|apply IH; exact E].
  - destruct (rp s) eqn:W; try discriminate. eapply Relation_Operators.rt_trans; [apply Relation_Operators.rt_step; apply SRCall; eassumption|apply IH; exact E].
Qed.

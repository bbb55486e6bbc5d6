From Verif Require Import CBase SeqLib RingBuffer2Model RingBuffer2Proof MsgQueueModel MsgQueueSpec MsgQueueProof
  SpscModel SpscSpec SpscProof SpscProof2 SpscProof3 SpscProof4 HandlerModel HandlerSpec.

(** ** inner steps *)
Definition jpop (j : job) (t : list Z) (cap : Z) : Prop :=
  match j with JNext => False | JPeek t0 c0 _ | JDisc t0 c0 _ | JRead t0 c0 _ => t0 = t /\ c0 = cap end.
Definition cpop (c : cpc) (t : list Z) (cap : Z) : Prop :=
  match c with
  | C78 t0 c0 | CRet t0 c0 _ _ _ => t0 = t /\ c0 = cap
  | C235 j | CCopy j _ _ _ _ => jpop j t cap
  | _ => False
  end.
Definition pin (p : ppc) (m : list Z) : Prop :=
  match p with PIdle => False | P44 m0 | P196 _ m0 | PCopy _ m0 _ _ _ | PRet m0 _ => m0 = m end.

Lemma cfinish_cpop j n tgt c t cap : cfinish j n tgt = Ret c -> jpop j t cap -> cpop c t cap.
Proof.
  intros H J. unfold cfinish in H. destruct (assert_abort _); cbn [bind] in H; try discriminate.
  destruct j; cbn in J; try contradiction; destruct J as [-> ->].
  - destruct (le32_dec tgt) as [x| | |]; cbn [bind] in H; try discriminate.
    destruct (a0 <? u64 (hdr_size + x)); [|destruct (x >? cap)]; injection H as <-; cbn; auto.
  - injection H as <-; cbn; auto.
  - injection H as <-; cbn; auto.
Qed.
Lemma cstep_cpop s s' t cap : cstep s = Ret s' -> cpop (cp s) t cap ->
  pp s' = pp s /\
  ((exists code t' sz', cp s = CRet t cap code t' sz' /\ log s' = EPopRet t cap code t' sz' :: log s /\ cp s' = CIdle) \/
   ((forall code t' sz', cp s <> CRet t cap code t' sz') /\ log s' = log s /\ cpop (cp s') t cap)).
Proof.
  intros H HC. unfold cstep in H. destruct (cp s) as [| |t0 cap0|j|j n start i tgt|t0 cap0 c t' sz'|n] eqn:EC; cbn in HC; try contradiction.
  - destruct HC as [-> ->]. injection H as <-. split; [reflexivity|]. right. split; [discriminate|]. split; [reflexivity|].
    destruct (_ <? _); cbn; auto.
  - destruct ((jreq j =? 0) || (avail_read s =? 0)).
    + destruct (cfinish _ _ _) eqn:EF; cbn [bind] in H; try discriminate; injection H as <-. split; [reflexivity|].
      right. split; [discriminate|]. split; [reflexivity|]. cbn [cp set_cp]. eapply cfinish_cpop; eauto.
    + injection H as <-. split; [reflexivity|]. right. split; [discriminate|]. split; [reflexivity|]. exact HC.
  - destruct (i <? n).
    + destruct (mload _ _); cbn [bind] in H; try discriminate.
      destruct (mstore _ _ _); cbn [bind] in H; try discriminate; injection H as <-. split; [reflexivity|].
      right. split; [discriminate|]. split; [reflexivity|]. exact HC.
    + destruct (jpeek j); destruct (cfinish _ _ _) eqn:EF; cbn [bind] in H; try discriminate; injection H as <-;
        (split; [reflexivity|]; right; split; [discriminate|]; split; [reflexivity|]; cbn [cp set_cp]; eapply cfinish_cpop; eauto).
  - destruct HC as [-> ->]. injection H as <-. split; [reflexivity|]. left. exists c, t', sz'. auto.
Qed.
Lemma pstep_pin s s' m : pstep s = Ret s' -> pin (pp s) m ->
  cp s' = cp s /\
  ((exists c, pp s = PRet m c /\ log s' = EPushRet m c :: log s /\ pp s' = PIdle) \/
   ((forall c, pp s <> PRet m c) /\ log s' = log s /\ pin (pp s') m)).
Proof.
  intros H HP. unfold pstep in H. destruct (pp s) as [|m0|hd m0|hd m0 n start i|m0 c] eqn:EP; cbn in HP; try contradiction; subst m0.
  - injection H as <-. split; [reflexivity|]. right. split; [discriminate|]. split; [reflexivity|]. destruct (_ <? _); reflexivity.
  - destruct ((zlen (psrc hd m) =? 0) || (avail_write s =? 0)).
    + unfold pfinish in H. destruct hd; destruct (assert_abort _); cbn [bind] in H; try discriminate; injection H as <-;
        (split; [reflexivity|]; right; split; [discriminate|]; split; reflexivity).
    + injection H as <-. split; [reflexivity|]. right. split; [discriminate|]. split; reflexivity.
  - destruct (i <? n).
    + destruct (mload _ _); cbn [bind] in H; try discriminate.
      destruct (mstore _ _ _); cbn [bind] in H; try discriminate; injection H as <-.
      split; [reflexivity|]. right. split; [discriminate|]. split; reflexivity.
    + unfold pfinish in H. destruct hd; destruct (assert_abort _); cbn [bind] in H; try discriminate; injection H as <-;
        (split; [reflexivity|]; right; split; [discriminate|]; split; reflexivity).
  - injection H as <-. split; [reflexivity|]. left. exists c. auto.
Qed.

(** ** roundup *)
Lemma count_shifts_val fuel x : forall c, 0 < x -> 0 <= c -> c + Z.log2 x < two32 -> Z.log2 x < Z.of_nat fuel ->
  count_shifts fuel x c = Ret (c + Z.log2 x).
Proof. intros. apply count_shifts_spec; auto. Qed.
Lemma roundup_power2_ok n : 0 < n <= 1073741824 -> exists r, roundup_power2 n = Ret r /\ n <= r <= 1073741824.
Proof.
  intro H. unfold roundup_power2. destruct (Z.land n (u64 (n - 1)) =? 0) eqn:E.
  - exists n. split; [reflexivity|lia].
  - assert (Z.log2 n <= 30) as L by (change 30 with (Z.log2 1073741824); apply Z.log2_le_mono; lia).
    pose proof (Z.log2_nonneg n) as L0. rewrite count_shifts_val by (unfold two32; cbn; lia). cbn [bind].
    pose proof (Z.log2_spec n ltac:(lia)) as [S1 S2]. rewrite Z.add_0_l.
    assert (2 ^ Z.succ (Z.log2 n) = 2 * 2 ^ Z.log2 n) as P by (rewrite Z.pow_succ_r; lia).
    destruct (Z.eq_dec (Z.log2 n) 30) as [E30|].
    { exfalso. rewrite E30 in S1. change (2 ^ 30) with 1073741824 in S1. assert (n = 1073741824) as -> by lia.
      vm_compute in E. discriminate. }
    assert (2 ^ Z.log2 n <= 2 ^ 29) as U by (apply Z.pow_le_mono_r; lia). change (2 ^ 29) with 536870912 in U.
    exists (2 * 2 ^ Z.log2 n). unfold sint, int_ok, two31.
    destruct (_ && _) eqn:E2; [split; [reflexivity|lia]|]. exfalso. clear -E2 U S1 H. lia.
Qed.

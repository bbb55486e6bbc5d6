From Verif Require Import CBase CircLib RingBuffer2Model RingBuffer2Proof MsgQueueModel MsgQueueSpec MsgQueueProof.

Lemma mq_spec_run_app cap a b : forall q,
  mq_spec_run cap q (a ++ b) =
  (fst (mq_spec_run cap (fst (mq_spec_run cap q a)) b),
   snd (mq_spec_run cap q a) ++ snd (mq_spec_run cap (fst (mq_spec_run cap q a)) b)).
Proof.
  induction a as [|o a IH]; intro q; cbn [app mq_spec_run].
  - cbn. destruct (mq_spec_run cap q b); reflexivity.
  - cbn [fst snd]. rewrite IH. reflexivity.
Qed.

Lemma pow2_unique a b n : 0 <= a -> 0 <= b -> 2 ^ a <= n < 2 * 2 ^ a -> 2 ^ b <= n < 2 * 2 ^ b -> a = b.
Proof.
  intros Ha Hb A B. assert (forall x, 0 <= x -> 2 * 2 ^ x = 2 ^ (x + 1)) as D.
  { intros x Hx. rewrite Z.pow_add_r by lia. lia. }
  rewrite D in A, B by lia.
  destruct (Z.lt_trichotomy a b) as [L|[E|L]]; [|exact E|].
  - assert (2 ^ (a + 1) <= 2 ^ b) by (apply Z.pow_le_mono_r; lia). lia.
  - assert (2 ^ (b + 1) <= 2 ^ a) by (apply Z.pow_le_mono_r; lia). lia.
Qed.

Lemma mq_retry_lemma :
  forall (malloc : Z -> option (list Z)) (n : Z) (ops : list mqop) (h : rb Z) (t t2 m : list Z) (sz : Z),
  (forall k b, malloc k = Some b -> zlen b = k) ->
  28 <= n -> (n - 24 <= 1073741824 \/ n - 24 = 2147483648) -> Forall mq_valid_op ops ->
  mq_create malloc n = Ret (Some h) ->
  forall k r, 2 ^ k <= n - 24 < 2 * 2 ^ k ->
  fst (mq_spec_run (2 ^ k) [] ops) = m :: r ->
  0 <= sz < zlen m -> sz <= zlen t -> zlen m <= zlen t2 ->
  exists h', mq_run (Some h) (ops ++ [MNext; MPop (Some t) (Some sz); MPop (Some t2) (Some (zlen m))]) =
    Ret (h', snd (mq_spec_run (2 ^ k) [] ops) ++
             [(zlen m, None, None); (6, Some t, Some (zlen m)); (0, Some (fill m t2), Some (zlen m))]).
Proof.
  intros malloc n ops h t t2 m sz HM Hn HB V HC k r Hk HQ Hsz Ht Ht2.
  assert (0 <= k) as Hk0.
  { destruct (Z_le_dec 0 k); [assumption|]. rewrite (Z.pow_neg_r 2 k) in Hk by lia. lia. }
  destruct (malloc (8 + n)) as [b|] eqn:EM.
  2:{ destruct (mq_create_refines malloc n ops HM ltac:(lia) HB V) as (_ & H2 & _).
      rewrite (H2 Hn EM) in HC. discriminate. }
  (* message lengths are bounded by the ring capacity *)
  destruct (mq_create_refines malloc n ops HM ltac:(lia) HB V) as (_ & _ & H3).
  destruct (H3 Hn ltac:(congruence)) as (k0 & h0 & h1 & Hk1 & Hk2 & HC' & R0).
  rewrite HC in HC'. injection HC' as <-.
  assert (k0 = k) as -> by (apply (pow2_unique k0 k (n - 24)); lia).
  assert (zlen m < two32) as Lm.
  { unfold mq_create, hdr_size, mq_struct_size in HC.
    assert (exists h2, mq_inv h2 (fst (mq_spec_run (2 ^ k) [] ops))) as (h2 & I2).
    { assert (mq_inv h [] /\ rb_size h = 2 ^ k) as (Ih & Sh).
      { destruct (n <? 4 + 4) eqn:E; [lia|]. rewrite u64_small' in HC by (unfold two64; lia).
        rewrite EM in HC. pose proof (HM _ _ EM) as Lb. destruct (zlen b <? 8) eqn:E8; [lia|].
        assert (zlen (zdrop 8 b) = n) as L by (rewrite zlen_zdrop; lia).
        destruct (create_with_mem_spec (zdrop 8 b) ltac:(lia) ltac:(lia)) as (s & P & B & C).
        rewrite L in C. rewrite C in HC. injection HC as <-.
        destruct (create_inv_rb false s (zdrop 8 b) P ltac:(lia)) as [I Q].
        split; [split; [exact I|split; [exact Q|constructor]]|]. cbn.
        destruct P as (j & Hj & ->). f_equal. apply (pow2_unique j k (n - 24)); lia. }
      destruct (mq_run_refines ops h [] Ih V) as (h2 & _ & I2 & _). rewrite Sh in I2. eauto. }
    rewrite HQ in I2. apply (peek_header h2 m r I2). }
  set (ops2 := ops ++ [MNext; MPop (Some t) (Some sz); MPop (Some t2) (Some (zlen m))]).
  assert (Forall mq_valid_op ops2) as V2.
  { apply Forall_app. split; [exact V|]. repeat constructor; cbn; lia. }
  destruct (mq_create_refines malloc n ops2 HM ltac:(lia) HB V2) as (_ & _ & H4).
  destruct (H4 Hn ltac:(congruence)) as (k1 & h3 & h4 & Hk3 & Hk4 & HC2 & R2).
  rewrite HC in HC2. injection HC2 as <-.
  assert (k1 = k) as -> by (apply (pow2_unique k1 k (n - 24)); lia).
  exists h4. rewrite R2. unfold ops2. rewrite mq_spec_run_app, HQ. cbn [snd fst mq_spec_run mq_spec_step].
  destruct (zlen m <=? sz) eqn:E; [lia|]. cbn [fst snd].
  destruct (zlen m <=? zlen m) eqn:E2; [|lia]. reflexivity.
Qed.

Lemma mq_pop_size_witness :
  exists h h' t, mq_run (Some h) [MPush (Some [7; 8]) 2; MPop (Some [0; 0; 0; 0; 0]) (Some 5)] =
    Ret (h', [(0, None, None); (0, Some t, Some 5)]) /\ mq_create (fun k => Some (repeat 0 (Z.to_nat k))) 40 = Ret (Some h).
Proof.
  exists (mk_rb false 0 0 16 (repeat 0 16)). eexists. eexists. split; [|vm_compute; reflexivity].
  vm_compute. reflexivity.
Qed.

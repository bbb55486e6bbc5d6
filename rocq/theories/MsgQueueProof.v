From Verif Require Import CBase CircLib RingBuffer2Model RingBuffer2Spec RingBuffer2Proof MsgQueueModel MsgQueueSpec.

Lemma le32_len x : zlen (le32 x) = 4. Proof. reflexivity. Qed.
Lemma le32_roundtrip x : 0 <= x < two32 -> le32_dec (le32 x) = Ret x.
Proof. intro H. unfold le32, le32_dec. f_equal. unfold two32 in *. lia. Qed.

Definition frame (m : list Z) : list Z := le32 (zlen m) ++ m.
Definition frames (q : list (list Z)) : list Z := concat (map frame q).
Definition msg_ok (m : list Z) : Prop := 1 <= zlen m.

Lemma zlen_frames q : zlen (frames q) = used q.
Proof.
  induction q as [|m q IH]; [reflexivity|].
  unfold frames in *. cbn [map concat used]. rewrite zlen_app, IH. unfold frame.
  rewrite zlen_app, le32_len. lia.
Qed.
Lemma used_nonneg q : 0 <= used q.
Proof. rewrite <- zlen_frames; apply zlen_nonneg. Qed.
Lemma frames_app q m : frames (q ++ [m]) = frames q ++ frame m.
Proof. unfold frames. rewrite map_app, concat_app. cbn. rewrite app_nil_r. reflexivity. Qed.

Definition mq_inv (h : rb Z) (q : list (list Z)) : Prop :=
  rb_inv h /\ rb_abs h = frames q /\ Forall msg_ok q.

Lemma mq_used h q : mq_inv h q -> zlen (rb_abs h) = used q.
Proof. intros (_ & E & _). rewrite E. apply zlen_frames. Qed.

Lemma u64_small' x : 0 <= x < two64 -> u64 x = x.
Proof. intro H; unfold u64; apply Z.mod_small; exact H. Qed.

Lemma mq_push_ok h q m n : mq_inv h q -> 0 <= n < two32 -> n <= zlen m ->
  if n =? 0 then mq_push (Some h) (Some m) n = Ret (Some h, 2)
  else if 4 + n <=? rb_size h - used q
  then exists h', mq_push (Some h) (Some m) n = Ret (Some h', 0) /\ mq_inv h' (q ++ [ztake n m])
                  /\ rb_size h' = rb_size h
  else mq_push (Some h) (Some m) n = Ret (Some h, 5).
Proof.
  intros I Hn Hm. pose proof (mq_used h q I) as U. pose proof (used_nonneg q) as UN.
  destruct I as (RI & E & F). unfold mq_push.
  destruct (n =? 0) eqn:E0; [reflexivity|].
  rewrite (rb_avail_write_eq h RI), U. unfold hdr_size. rewrite u64_small' by (unfold two32, two64 in *; lia).
  destruct (4 + n <=? rb_size h - used q) eqn:E1.
  - destruct (rb_size h - used q <? 4 + n) eqn:E2; [lia|].
    destruct (rb_write_ok h (le32 n) 4 RI ltac:(unfold two32; lia)) as (h1 & W1 & I1 & A1 & S1 & _).
    { rewrite le32_len. lia. }
    rewrite U in W1, A1. replace (Z.min 4 (rb_size h - used q)) with 4 in W1, A1 by lia.
    rewrite W1. cbn [bind fst snd]. change (assert_abort (4 =? 4)) with (Ret tt). cbn [bind].
    rewrite ztake_all in A1 by (rewrite le32_len; lia).
    assert (zlen (rb_abs h1) = used q + 4) as U1.
    { rewrite A1, zlen_app, U, le32_len. reflexivity. }
    destruct (rb_write_ok h1 m n I1 ltac:(unfold two32 in *; lia)) as (h2 & W2 & I2 & A2 & S2 & _).
    { rewrite U1. lia. }
    rewrite U1, S1 in W2, A2. replace (Z.min n (rb_size h - (used q + 4))) with n in W2, A2 by lia.
    rewrite W2. cbn [bind fst snd]. unfold assert_abort. rewrite Z.eqb_refl. cbn [bind].
    exists h2. split; [reflexivity|]. split; [|congruence].
    assert (zlen (ztake n m) = n) as Ln by (apply zlen_ztake; lia).
    split; [exact I2|]. split.
    + rewrite A2, A1, E, frames_app. unfold frame. rewrite Ln, app_assoc. reflexivity.
    + apply Forall_app. split; [exact F|]. constructor; [|constructor]. unfold msg_ok. lia.
  - destruct (rb_size h - used q <? 4 + n) eqn:E2; [|lia]. reflexivity.
Qed.

Lemma peek_header h m q : mq_inv h (m :: q) ->
  rb_peek h (Some [0; 0; 0; 0]) 4 = Ret (h, Some (le32 (zlen m)), 4) /\
  used (m :: q) >= 5 /\ le32_dec (le32 (zlen m)) = Ret (zlen m) /\ zlen m < two32.
Proof.
  intros I. pose proof (mq_used h _ I) as U. destruct I as (RI & E & F).
  inversion F as [|? ? Fm Fq]; subst. unfold msg_ok in Fm. pose proof (used_nonneg q) as UN.
  cbn [used] in *. pose proof (rb_abs_le h RI) as LE. destruct RI as (P & R). pose proof (pow2_bound _ P).
  assert (zlen m < two32) by (unfold two32; lia).
  split; [|split; [lia|split; [apply le32_roundtrip; lia|assumption]]].
  unfold rb_peek. rewrite rb_read_internal_ok; [|split; assumption|unfold two32; lia|rewrite U; cbn; unfold zlen at 2; cbn [length]; lia].
  rewrite U. replace (Z.min 4 (4 + zlen m + used q)) with 4 by lia.
  rewrite E. unfold frames. cbn [map concat]. unfold frame at 1. rewrite <- app_assoc.
  change 4 with (zlen (le32 (zlen m))) at 1. rewrite ztake_app_len. reflexivity.
Qed.

Lemma mq_pop_nonempty h m q t sz : mq_inv h (m :: q) -> 0 <= sz < two32 -> sz <= zlen t ->
  if zlen m <=? sz
  then exists h', mq_pop (Some h) (Some t) (Some sz) = Ret (Some h', Some (fill m t), Some sz, 0)
                  /\ mq_inv h' q /\ rb_size h' = rb_size h
  else mq_pop (Some h) (Some t) (Some sz) = Ret (Some h, Some t, Some (zlen m), 6).
Proof.
  intros I Hsz Ht. pose proof (mq_used h _ I) as U. destruct (peek_header h m q I) as (PH & U5 & DEC & Lm).
  destruct I as (RI & E & F). inversion F as [|? ? Fm Fq]; subst. unfold msg_ok in Fm.
  pose proof (used_nonneg q) as UN. pose proof (zlen_rb_abs h RI) as LA. cbn [used] in *.
  unfold mq_pop, hdr_size. rewrite <- LA, U.
  destruct (4 + zlen m + used q <? 4 + 1) eqn:E1; [lia|].
  rewrite PH. cbn [bind fst snd]. change (assert_abort (4 =? 4)) with (Ret tt). cbn [bind].
  rewrite DEC. cbn [bind]. rewrite u64_small' by (unfold two32, two64 in *; lia).
  destruct (4 + zlen m + used q <? 4 + zlen m) eqn:E2; [lia|].
  destruct (zlen m <=? sz) eqn:E3; destruct (zlen m >? sz) eqn:E4; try lia; [|reflexivity].
  unfold rb_discard. rewrite rb_read_internal_ok; [|exact RI|unfold two32; lia|exact Logic.I].
  rewrite U. replace (Z.min 4 (4 + zlen m + used q)) with 4 by lia. cbn [bind fst snd].
  change (4 =? 0) with false. change (assert_abort (4 =? 4)) with (Ret tt). cbn [bind].
  destruct (adv_out_ok h 4 RI ltac:(lia)) as (I1 & A1). set (h1 := adv_out h 4) in *.
  assert (rb_abs h1 = m ++ frames q) as A1'.
  { rewrite A1, E. unfold frames. cbn [map concat]. unfold frame at 1. rewrite <- app_assoc.
    change 4 with (zlen (le32 (zlen m))) at 1. apply zdrop_app_len. }
  assert (zlen (rb_abs h1) = zlen m + used q) as U1.
  { rewrite A1', zlen_app, zlen_frames. reflexivity. }
  unfold rb_read. rewrite rb_read_internal_ok; [|exact I1|unfold two32 in *; lia|rewrite U1; lia].
  rewrite U1. replace (Z.min (zlen m) (zlen m + used q)) with (zlen m) by lia. cbn [bind fst snd option_map].
  unfold assert_abort. rewrite Z.eqb_refl. cbn [bind].
  destruct (zlen m =? 0) eqn:E5; [lia|].
  destruct (adv_out_ok h1 (zlen m) I1 ltac:(lia)) as (I2 & A2).
  eexists. split; [|split; [split; [exact I2|split; [|exact Fq]]|reflexivity]].
  - f_equal. f_equal. f_equal. f_equal. f_equal. rewrite A1', ztake_app_len. reflexivity.
  - rewrite A2, A1'. apply zdrop_app_len.
Qed.

Lemma mq_empty_bytes h : mq_inv h [] -> rb_avail_read h = 0.
Proof. intro I. pose proof (mq_used h [] I) as U. rewrite zlen_rb_abs in U by apply I. exact U. Qed.

Lemma mq_step_refines h q o : mq_inv h q -> mq_valid_op o ->
  exists h', mq_step (Some h) o = Ret (Some h', snd (mq_spec_step (rb_size h) q o)) /\
    mq_inv h' (fst (mq_spec_step (rb_size h) q o)) /\ rb_size h' = rb_size h.
Proof.
  intros I V. pose proof (mq_used h q I) as U. pose proof (zlen_rb_abs h (proj1 I)) as LA.
  destruct o as [[m|] n|t s| | | |]; cbn [mq_step mq_spec_step mq_valid_op] in *.
  - pose proof (mq_push_ok h q m n I ltac:(lia) ltac:(lia)) as P.
    destruct (n =? 0) eqn:E0; [rewrite P; cbn; eauto|].
    destruct (4 + n <=? rb_size h - used q) eqn:E1.
    + destruct P as (h' & P & I' & S). rewrite P. cbn. eauto.
    + rewrite P. cbn. eauto.
  - cbn. eauto.
  - destruct t as [t|]; [|cbn; destruct s; eauto].
    destruct s as [sz|]; [|cbn; eauto]. destruct V as [Vs Vt].
    destruct q as [|m q].
    + unfold mq_pop, hdr_size. rewrite (mq_empty_bytes h I). change (0 <? 4 + 1) with true. cbn. eauto.
    + pose proof (mq_pop_nonempty h m q t sz I Vs Vt) as P.
      destruct (zlen m <=? sz) eqn:E.
      * destruct P as (h' & P & I' & S). rewrite P. cbn. eauto.
      * rewrite P. cbn. eauto.
  - unfold mq_next_msg_size, hdr_size. destruct q as [|m q].
    + rewrite (mq_empty_bytes h I). change (0 <? 4 + 1) with true. cbn. eauto.
    + destruct (peek_header h m q I) as (PH & U5 & DEC & Lm). rewrite <- LA, U.
      destruct (used (m :: q) <? 4 + 1) eqn:E; [lia|]. rewrite PH. cbn [bind fst snd].
      change (assert_abort (4 =? 4)) with (Ret tt). cbn [bind]. rewrite DEC. cbn. eauto.
  - cbn [mq_clear bind]. exists (rb_clear h). split; [reflexivity|]. cbn [fst].
    destruct (rb_step_refines h BClear (proj1 I) Logic.I) as (h' & S & I' & A' & _).
    cbn in S. injection S as <-. split; [|reflexivity]. split; [exact I'|]. split; [exact A'|constructor].
  - cbn [mq_available_pop_bytes bind]. rewrite <- LA, U. cbn. eauto.
  - cbn [mq_available_push_bytes bind]. rewrite (rb_avail_write_eq h (proj1 I)), U. cbn. eauto.
Qed.

Lemma mq_run_refines ops : forall h q, mq_inv h q -> Forall mq_valid_op ops ->
  exists h', mq_run (Some h) ops = Ret (Some h', snd (mq_spec_run (rb_size h) q ops)) /\
    mq_inv h' (fst (mq_spec_run (rb_size h) q ops)) /\ rb_size h' = rb_size h.
Proof.
  induction ops as [|o ops IH]; intros h q I V; cbn [mq_run mq_spec_run].
  - exists h. cbn. auto.
  - inversion V as [|? ? Vo Vs]; subst.
    destruct (mq_step_refines h q o I Vo) as (h1 & S1 & I1 & Z1). rewrite S1. cbn [bind fst snd].
    destruct (IH h1 _ I1 Vs) as (h2 & S2 & I2 & Z2). rewrite S2. cbn [bind fst snd].
    rewrite Z1 in *. exists h2. split; [reflexivity|]. split; [exact I2|congruence].
Qed.

Lemma mq_create_refines (malloc : Z -> option (list Z)) n ops :
  (forall k b, malloc k = Some b -> zlen b = k) ->
  0 <= n -> (n - 24 <= 1073741824 \/ n - 24 = 2147483648) -> Forall mq_valid_op ops ->
  (n < 28 -> mq_create malloc n = Ret None) /\
  (28 <= n -> malloc (8 + n) = None -> mq_create malloc n = Ret None) /\
  (28 <= n -> malloc (8 + n) <> None ->
   exists k h h', 1 <= k <= 31 /\ 2 ^ k <= n - 24 < 2 * 2 ^ k /\
    mq_create malloc n = Ret (Some h) /\
    mq_run (Some h) ops = Ret (h', snd (mq_spec_run (2 ^ k) [] ops))).
Proof.
  intros HM Hn HB V. unfold mq_create, hdr_size, mq_struct_size.
  rewrite u64_small' by (unfold two64; lia). split; [|split].
  - intro H. destruct (n <? 4 + 4) eqn:E; [reflexivity|].
    destruct (malloc (8 + n)) as [b|] eqn:EM; [|reflexivity]. pose proof (HM _ _ EM) as Lb.
    destruct (zlen b <? 8) eqn:E8; [lia|].
    assert (zlen (zdrop 8 b) = n) as L by (rewrite zlen_zdrop; lia).
    rewrite <- L. apply create_with_mem_small. lia.
  - intros H ->. destruct (n <? 4 + 4); reflexivity.
  - intros H NN. destruct (malloc (8 + n)) as [b|] eqn:EM; [|congruence]. pose proof (HM _ _ EM) as Lb.
    destruct (n <? 4 + 4) eqn:E; [lia|]. destruct (zlen b <? 8) eqn:E8; [lia|].
    assert (zlen (zdrop 8 b) = n) as L by (rewrite zlen_zdrop; lia).
    destruct (create_with_mem_spec (zdrop 8 b) ltac:(lia) ltac:(lia)) as (s & P & B & C).
    rewrite L in *. rewrite C.
    destruct (create_inv_rb false s (zdrop 8 b) P ltac:(lia)) as [I Q].
    assert (mq_inv (mk_rb false 0 0 s (zdrop 24 (zdrop 8 b))) []) as MI.
    { split; [exact I|]. split; [exact Q|constructor]. }
    destruct (mq_run_refines ops _ [] MI V) as (h' & R & _). cbn [rb_size] in R.
    destruct P as (k & Hk & ->). exists k. eexists. exists (Some h').
    split; [exact Hk|]. split; [exact B|]. split; [reflexivity|exact R].
Qed.

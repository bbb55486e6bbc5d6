From Verif Require Import CBase CircLib RingBuffer2Model RingBuffer2Spec.

Lemma u32_small x : 0 <= x < two32 -> u32 x = x.
Proof. intro H; unfold u32; apply Z.mod_small; exact H. Qed.
Lemma u32_range x : 0 <= u32 x < two32.
Proof. unfold u32; apply Z.mod_pos_bound; reflexivity. Qed.
Lemma take_min_eq a b : take_min a b = Z.min a b.
Proof. unfold take_min; destruct (a >? b) eqn:E; lia. Qed.

Definition is_pow2 (s : Z) : Prop := exists k, 1 <= k <= 31 /\ s = 2 ^ k.

Lemma pow2_bound s : is_pow2 s -> 2 <= s <= 2147483648.
Proof.
  intros (k & Hk & ->). split.
  - change 2 with (2 ^ 1) at 1. apply Z.pow_le_mono_r; lia.
  - change 2147483648 with (2 ^ 31). apply Z.pow_le_mono_r; lia.
Qed.
Lemma pow2_mask s x : is_pow2 s -> 0 <= x -> Z.land x (u32 (s - 1)) = x mod s.
Proof.
  intros H Hx. pose proof (pow2_bound s H). destruct H as (k & Hk & ->).
  rewrite u32_small by (unfold two32; lia).
  replace (2 ^ k - 1) with (Z.ones k) by (rewrite Z.ones_equiv; lia). apply Z.land_ones; lia.
Qed.
Lemma pow2_mod_u32 s x : is_pow2 s -> u32 x mod s = x mod s.
Proof.
  intros (k & Hk & ->). unfold u32.
  assert (two32 = 2 ^ k * 2 ^ (32 - k)) as E.
  { rewrite <- Z.pow_add_r by lia. replace (k + (32 - k)) with 32 by lia. reflexivity. }
  rewrite E. rewrite Z.rem_mul_r by (try apply Z.pow_nonzero; try apply Z.pow_pos_nonneg; lia).
  rewrite Z.mul_comm, Z.mod_add by (apply Z.pow_nonzero; lia). apply Z.mod_mod. apply Z.pow_nonzero; lia.
Qed.

Section Proof.
Context {A : Type}.
Implicit Types (h : rb A).

Definition rb_inv h : Prop :=
  is_pow2 (rb_size h) /\ rb_size h <= zlen (rb_buf h) /\
  0 <= rb_in h < two32 /\ 0 <= rb_out h < two32 /\
  rb_avail_read h <= rb_size h.
Definition rb_abs h : list A :=
  circ (ztake (rb_size h) (rb_buf h)) (rb_out h mod rb_size h) (rb_avail_read h).

Lemma rb_avail_read_nonneg h : 0 <= rb_avail_read h.
Proof. apply u32_range. Qed.
Lemma region_len h : rb_inv h -> zlen (ztake (rb_size h) (rb_buf h)) = rb_size h.
Proof. intros (P & B & _). pose proof (pow2_bound _ P). apply zlen_ztake; lia. Qed.
Lemma zlen_rb_abs h : rb_inv h -> zlen (rb_abs h) = rb_avail_read h.
Proof.
  intro H. pose proof (region_len h H) as R. pose proof (rb_avail_read_nonneg h).
  destruct H as (P & B & I & O & L). pose proof (pow2_bound _ P).
  unfold rb_abs. apply zlen_circ; rewrite R; [|lia].
  assert (0 <= rb_out h mod rb_size h < rb_size h) by (apply Z.mod_pos_bound; lia). lia.
Qed.
Lemma rb_abs_le h : rb_inv h -> zlen (rb_abs h) <= rb_size h.
Proof. intro H; rewrite zlen_rb_abs by exact H. apply H. Qed.
Lemma rb_avail_write_eq h : rb_inv h -> rb_avail_write h = rb_size h - zlen (rb_abs h).
Proof.
  intro H. rewrite zlen_rb_abs by exact H. pose proof (rb_avail_read_nonneg h).
  destruct H as (P & B & I & O & L). pose proof (pow2_bound _ P).
  unfold rb_avail_write. apply u32_small. unfold two32; lia.
Qed.

Lemma ztake_zwrite p (d m : list A) n : 0 <= p -> p + zlen d <= n -> n <= zlen m ->
  ztake n (zwrite p d m) = zwrite p d (ztake n m).
Proof.
  intros. pose proof (zlen_nonneg d). unfold zwrite. rewrite ztake_ztake. replace (Z.min p n) with p by lia.
  rewrite !ztake_app, zlen_ztake by lia.
  rewrite (ztake_all n (ztake p m)) by (rewrite zlen_ztake; lia).
  rewrite (ztake_all (n - p) d) by lia. rewrite zdrop_ztake by lia. do 3 f_equal. lia.
Qed.
Lemma zsub_region p k (m : list A) n : 0 <= p -> 0 <= k -> p + k <= n ->
  zsub p k m = zsub p k (ztake n m).
Proof.
  intros. unfold zsub. rewrite zdrop_ztake by lia. rewrite ztake_ztake. f_equal; lia.
Qed.

Definition adv_out h k : rb A := mk_rb (rb_own h) (rb_in h) (u32 (rb_out h + k)) (rb_size h) (rb_buf h).

Lemma adv_out_ok h k : rb_inv h -> 0 <= k <= zlen (rb_abs h) ->
  rb_inv (adv_out h k) /\ rb_abs (adv_out h k) = zdrop k (rb_abs h).
Proof.
  intros H Hk. pose proof (region_len h H) as R. rewrite zlen_rb_abs in Hk by exact H.
  pose proof H as (P & B & I & O & L). pose proof (pow2_bound _ P) as PB.
  assert (rb_avail_read (adv_out h k) = rb_avail_read h - k) as E.
  { unfold rb_avail_read, adv_out; cbn [rb_in rb_out]. unfold u32. rewrite Zminus_mod_idemp_r.
    replace (rb_in h - (rb_out h + k)) with ((rb_in h - rb_out h) - k) by lia.
    rewrite <- Zminus_mod_idemp_l. fold (u32 (rb_in h - rb_out h)). fold (rb_avail_read h).
    apply Z.mod_small. pose proof (u32_range (rb_in h - rb_out h)). fold (rb_avail_read h) in H0. lia. }
  split.
  - unfold rb_inv. rewrite E. unfold adv_out; cbn. pose proof (u32_range (rb_out h + k)).
    repeat split; try lia; assumption.
  - unfold rb_abs. rewrite E. cbn [adv_out rb_size rb_buf rb_out].
    rewrite zdrop_circ; rewrite ?R; try lia.
    rewrite pow2_mod_u32 by exact P. rewrite Zplus_mod_idemp_l. reflexivity.
Qed.

Lemma rb_read_internal_ok h target n is_peek :
  rb_inv h -> 0 <= n < two32 ->
  let k := Z.min n (zlen (rb_abs h)) in
  match target with None => True | Some t => k <= zlen t end ->
  rb_read_internal h target n is_peek =
   Ret (if is_peek then h else if k =? 0 then h else adv_out h k,
        option_map (lay (ztake k (rb_abs h))) target, k).
Proof.
  intros H Hn k Ht. pose proof (region_len h H) as R. pose proof (rb_avail_read_nonneg h) as NN.
  pose proof (zlen_rb_abs h H) as LA.
  pose proof H as (P & B & I & O & L). pose proof (pow2_bound _ P) as PB.
  assert (forall (t : option (list A)), option_map (lay []) t = t) as LN.
  { intros [t|]; reflexivity. }
  unfold rb_read_internal. cbv zeta. destruct (n =? 0) eqn:E0.
  { assert (k = 0) as -> by lia. rewrite ztake_0, LN. cbn. destruct is_peek; reflexivity. }
  destruct (rb_avail_read h =? 0) eqn:E1.
  { assert (k = 0) as -> by lia. rewrite ztake_0, LN. cbn. destruct is_peek; reflexivity. }
  rewrite !(take_min_eq n), <- LA. fold k.
  destruct (k =? 0) eqn:Ek; [lia|].
  set (start := Z.land (rb_out h) (u32 (rb_size h - 1))).
  assert (start = rb_out h mod rb_size h) as Es by (apply pow2_mask; [exact P|lia]).
  assert (0 <= start < rb_size h) as Hst by (rewrite Es; apply Z.mod_pos_bound; lia).
  clearbody start. assert (0 < k <= rb_size h) as Hk by (subst k; lia).
  assert (k <= n) as Hkn by (subst k; lia). assert (k <= zlen (rb_abs h)) as Hka by (subst k; lia). clearbody k.
  destruct target as [t|]; cbn [bind option_map]; cbv beta iota in Ht.
  - rewrite (u32_small (rb_size h - start)) by (unfold two32; lia).
    rewrite !take_min_eq. set (first := Z.min k (rb_size h - start)).
    destruct (first =? 0) eqn:Ef; [lia|]. cbn [negb].
    rewrite mread_ok by lia. cbn [bind].
    assert (zlen (zsub start first (rb_buf h)) = first) as L1 by (apply zlen_zsub; lia).
    rewrite mwrite_ok by (rewrite ?L1; lia). cbn [bind].
    rewrite (u32_small (k - first)) by (unfold two32 in *; lia).
    assert (ztake k (rb_abs h) = zsub start first (rb_buf h) ++ zsub 0 (k - first) (rb_buf h)) as T.
    { unfold rb_abs. rewrite ztake_circ by lia. rewrite <- Es.
      rewrite circ_two_parts by lia. rewrite R. fold first.
      rewrite <- !zsub_region by lia. reflexivity. }
    rewrite T.
    assert (zlen (zsub 0 (k - first) (rb_buf h)) = k - first) as L2 by (apply zlen_zsub; lia).
    destruct (k - first =? 0) eqn:E3; cbn [negb bind].
    + assert (k - first = 0) as Z0 by lia. rewrite Z0, zsub_0, app_nil_r.
      destruct is_peek; unfold lay, zwrite; rewrite ztake_0, Z.add_0_l; reflexivity.
    + rewrite mread_ok by lia. cbn [bind].
      rewrite mwrite_ok; rewrite ?zlen_zwrite; rewrite ?L1, ?L2; try lia. cbn [bind].
      f_equal. f_equal. f_equal. f_equal.
      rewrite <- L1 at 1. unfold lay, zwrite at 2. rewrite ztake_0, Z.add_0_l. cbn [app].
      unfold zwrite. rewrite ztake_app_len. rewrite zdrop_app, (zdrop_all _ (zsub start first (rb_buf h))) by lia.
      cbn [app]. rewrite zdrop_zdrop by lia. rewrite zlen_app, app_assoc. f_equal. f_equal; lia.
  - destruct is_peek; reflexivity.
Qed.

Lemma rb_write_None h n : rb_write h None n = Ret (h, 0).
Proof. reflexivity. Qed.

Lemma rb_write_ok h s n : rb_inv h -> 0 <= n < two32 ->
  let k := Z.min n (rb_size h - zlen (rb_abs h)) in
  k <= zlen s ->
  exists h', rb_write h (Some s) n = Ret (h', k) /\ rb_inv h' /\ rb_abs h' = rb_abs h ++ ztake k s
    /\ rb_size h' = rb_size h /\ rb_own h' = rb_own h /\ rb_out h' = rb_out h
    /\ rb_in h' = u32 (rb_in h + k) /\ zlen (rb_buf h') = zlen (rb_buf h)
    /\ zdrop (rb_size h) (rb_buf h') = zdrop (rb_size h) (rb_buf h).
Proof.
  intros H Hn k Hks. pose proof (region_len h H) as R. pose proof (rb_avail_read_nonneg h) as NN.
  pose proof (zlen_rb_abs h H) as LA. pose proof (rb_avail_write_eq h H) as AW.
  pose proof H as (P & B & I & O & L). pose proof (pow2_bound _ P) as PB.
  unfold rb_write. cbv zeta. destruct (n =? 0) eqn:E0.
  { assert (k = 0) as -> by lia. exists h. rewrite ztake_0, app_nil_r, Z.add_0_r.
    rewrite (u32_small (rb_in h)) by lia. repeat split; auto; lia. }
  destruct (rb_avail_write h =? 0) eqn:E1.
  { assert (k = 0) as -> by lia. exists h. rewrite ztake_0, app_nil_r, Z.add_0_r.
    rewrite (u32_small (rb_in h)) by lia. repeat split; auto; lia. }
  rewrite !(take_min_eq n), AW. fold k.
  set (start := Z.land (rb_in h) (u32 (rb_size h - 1))).
  assert (start = rb_in h mod rb_size h) as Es by (apply pow2_mask; [exact P|lia]).
  assert (0 <= start < rb_size h) as Hst by (rewrite Es; apply Z.mod_pos_bound; lia).
  rewrite (u32_small (rb_size h - start)) by (unfold two32; lia).
  rewrite !take_min_eq. set (first := Z.min k (rb_size h - start)).
  destruct (first =? 0) eqn:Ef; [lia|]. cbn [negb].
  rewrite mread_ok by lia. cbn [bind].
  assert (zlen (zsub 0 first s) = first) as L1 by (apply zlen_zsub; lia).
  rewrite mwrite_ok by (rewrite ?L1; lia). cbn [bind].
  rewrite (u32_small (k - first)) by (unfold two32 in *; lia).
  set (d := ztake k s). assert (zlen d = k) as Ld by (apply zlen_ztake; lia).
  assert (zsub 0 first s = ztake first d) as D1.
  { unfold d, zsub. rewrite zdrop_0, ztake_ztake. f_equal; lia. }
  assert (zsub first (k - first) s = zdrop first d) as D2.
  { unfold d, zsub. rewrite zdrop_ztake by lia. reflexivity. }
  assert (zlen (ztake first d) = first) as L1' by (rewrite <- D1; exact L1).
  assert (zlen (zdrop first d) = k - first) as L2' by (rewrite zlen_zdrop; lia).
  set (m2 := zwrite 0 (zdrop first d) (zwrite start (ztake first d) (rb_buf h))).
  assert ((if k - first >? 0
           then do d0 <- mread s first (k - first); mwrite (zwrite start (zsub 0 first s) (rb_buf h)) 0 d0
           else Ret (zwrite start (zsub 0 first s) (rb_buf h))) = Ret m2) as EM.
  { destruct (k - first >? 0) eqn:E3.
    - rewrite mread_ok by lia. cbn [bind]. rewrite D1, D2.
      rewrite mwrite_ok; [reflexivity|lia|]. rewrite zlen_zwrite; lia.
    - unfold m2. rewrite (zdrop_all first d) by lia. rewrite D1. rewrite zwrite_nil; [reflexivity|].
      rewrite zlen_zwrite; lia. }
  rewrite EM. cbn [bind].
  set (h' := mk_rb (rb_own h) (u32 (rb_in h + k)) (rb_out h) (rb_size h) m2).
  assert (zlen m2 = zlen (rb_buf h)) as Lm2.
  { unfold m2. rewrite !zlen_zwrite; rewrite ?zlen_zwrite; lia. }
  assert (ztake (rb_size h) m2 = cwrite (ztake (rb_size h) (rb_buf h)) start d) as TM.
  { unfold m2. rewrite !ztake_zwrite; rewrite ?zlen_zwrite; try lia.
    unfold cwrite. rewrite R, Ld. fold first. reflexivity. }
  assert (rb_avail_read h' = rb_avail_read h + k) as E.
  { unfold rb_avail_read, h'; cbn [rb_in rb_out]. unfold u32. rewrite Zminus_mod_idemp_l.
    replace (rb_in h + k - rb_out h) with ((rb_in h - rb_out h) + k) by lia.
    rewrite <- Zplus_mod_idemp_l. fold (u32 (rb_in h - rb_out h)). fold (rb_avail_read h).
    apply Z.mod_small. unfold two32; lia. }
  exists h'. split; [reflexivity|]. split; [|split; [|repeat split; try reflexivity; try exact Lm2]].
  - unfold rb_inv. rewrite E. unfold h'; cbn. rewrite Lm2. pose proof (u32_range (rb_in h + k)).
    repeat split; try lia; assumption.
  - unfold rb_abs. rewrite E. cbn [h' rb_size rb_buf rb_out]. rewrite TM.
    replace (rb_avail_read h + k) with (rb_avail_read h + zlen d) by lia. rewrite <- circ_cwrite; rewrite ?R; try lia.
    f_equal. f_equal. rewrite Es. rewrite Zplus_mod_idemp_l.
      unfold rb_avail_read. rewrite <- Zplus_mod_idemp_r, pow2_mod_u32 by exact P. rewrite Zplus_mod_idemp_r.
      f_equal; lia.
  - unfold h'; cbn [rb_buf]. unfold m2.
    assert (forall p (w m : list A), 0 <= p -> p + zlen w <= rb_size h -> rb_size h <= zlen m ->
       zdrop (rb_size h) (zwrite p w m) = zdrop (rb_size h) m) as ZD.
    { intros p w m H1 H2 H3. pose proof (zlen_nonneg w). unfold zwrite.
      rewrite !zdrop_app, zlen_ztake by lia. rewrite (zdrop_all _ (ztake p m)) by (rewrite zlen_ztake; lia).
      rewrite (zdrop_all _ w) by lia. cbn [app]. rewrite zdrop_zdrop by lia. f_equal; lia. }
    rewrite !ZD; rewrite ?zlen_zwrite; try lia. reflexivity.
Qed.

Lemma adv_out_zero_abs h : rb_inv h -> forall k, 0 <= k <= zlen (rb_abs h) ->
  let h' := if k =? 0 then h else adv_out h k in
  rb_inv h' /\ rb_abs h' = zdrop k (rb_abs h) /\ rb_size h' = rb_size h.
Proof.
  intros H k Hk h'. unfold h'. destruct (k =? 0) eqn:E.
  - assert (k = 0) as -> by lia. auto.
  - destruct (adv_out_ok h k H Hk). auto.
Qed.

Lemma rb_step_refines h o : rb_inv h -> rb_valid_op o ->
  exists h', rb_step h o = Ret (h', snd (fifo_step (rb_size h) (rb_abs h) o))
    /\ rb_inv h' /\ rb_abs h' = fst (fifo_step (rb_size h) (rb_abs h) o) /\ rb_size h' = rb_size h.
Proof.
  intros H V. pose proof (zlen_rb_abs h H) as LA. pose proof (zlen_nonneg (rb_abs h)) as NN.
  pose proof (rb_abs_le h H) as LE. pose proof (rb_avail_write_eq h H) as AW.
  destruct o as [[s|] n|[t|] n|t n|n| | | | | |]; cbn [rb_step fifo_step rb_valid_op fst snd] in *.
  - destruct (rb_write_ok h s n H ltac:(lia) ltac:(lia)) as (h' & W & I & Q & S & _).
    rewrite W. cbn. eauto.
  - cbn. eauto.
  - unfold rb_read. rewrite rb_read_internal_ok by (auto; lia). cbn [bind fst snd option_map].
    destruct (adv_out_zero_abs h H (Z.min n (zlen (rb_abs h))) ltac:(lia)) as (I & Q & S).
    eexists. split; [reflexivity|]. auto.
  - cbn. eauto.
  - unfold rb_peek. rewrite rb_read_internal_ok by (auto; try lia; destruct t; lia). cbn. eauto.
  - unfold rb_discard. rewrite rb_read_internal_ok by (auto; lia). cbn [bind fst snd option_map].
    destruct (adv_out_zero_abs h H (Z.min n (zlen (rb_abs h))) ltac:(lia)) as (I & Q & S).
    eexists. split; [reflexivity|]. auto.
  - exists (rb_clear h). split; [reflexivity|]. pose proof H as (P & B & I & O & L). pose proof (pow2_bound _ P).
    split; [|split; [|reflexivity]].
    + unfold rb_inv, rb_clear, rb_avail_read; cbn. unfold u32. rewrite Z.mod_0_l by discriminate.
      repeat split; auto; try lia; reflexivity.
    + reflexivity.
  - exists h. rewrite LA. auto.
  - exists h. rewrite AW. auto.
  - exists h. split; [|auto]. f_equal. f_equal. f_equal. unfold rb_is_empty. rewrite <- LA.
    rewrite Z.eqb_sym. destruct (zlen (rb_abs h) =? 0); reflexivity.
  - exists h. split; [|auto]. f_equal. f_equal. f_equal. unfold rb_is_full. rewrite AW.
    destruct (zlen (rb_abs h) =? rb_size h) eqn:E1, (0 =? rb_size h - zlen (rb_abs h)) eqn:E2; try reflexivity; lia.
  - exists h. auto.
Qed.

Lemma rb_run_refines ops : forall h, rb_inv h -> Forall rb_valid_op ops ->
  exists h', rb_run h ops = Ret (h', snd (fifo_run (rb_size h) (rb_abs h) ops))
    /\ rb_inv h' /\ rb_abs h' = fst (fifo_run (rb_size h) (rb_abs h) ops) /\ rb_size h' = rb_size h.
Proof.
  induction ops as [|o ops IH]; intros h H V; cbn [rb_run fifo_run].
  - exists h. cbn. auto.
  - inversion V as [|? ? Vo Vs]; subst.
    destruct (rb_step_refines h o H Vo) as (h1 & S1 & I1 & Q1 & Z1). rewrite S1. cbn [bind fst snd].
    destruct (IH h1 I1 Vs) as (h2 & S2 & I2 & Q2 & Z2). rewrite S2. cbn [bind fst snd].
    rewrite Z1, Q1 in *. exists h2. repeat split; auto; apply I2.
Qed.

(** ** creation *)
Lemma is_power_of_2_spec n : 0 <= n < two32 -> is_power_of_2 n = true <-> is_pow2 n.
Proof.
  intro Hn. unfold is_power_of_2. split.
  - intro H. assert (n > 1) as H1 by lia. assert (Z.land n (u32 (n - 1)) = 0) as H2 by lia.
    rewrite u32_small in H2 by (unfold two32 in *; lia).
    exists (Z.log2 n). assert (0 < n) as Hp by lia.
    pose proof (Z.log2_spec n Hp) as [La Lb].
    assert (1 <= Z.log2 n) as L1. { change 1 with (Z.log2 2) at 1. apply Z.log2_le_mono; lia. }
    assert (Z.log2 n < 32) as L2. { apply Z.log2_lt_pow2; [lia|]. change (2 ^ 32) with two32. lia. }
    split; [lia|].
    destruct (Z.eq_dec n (2 ^ Z.log2 n)) as [E|NE]; [exact E|exfalso].
    assert (Z.testbit (Z.land n (n - 1)) (Z.log2 n) = true) as T.
    { rewrite Z.land_spec, andb_true_iff. split; [apply Z.bit_log2; lia|].
      replace (Z.log2 n) with (Z.log2 (n - 1)) at 1; [apply Z.bit_log2; lia|].
      apply Z.log2_unique; [lia|]. lia. }
    rewrite H2, Z.bits_0 in T. discriminate.
  - intros P. pose proof (pow2_bound n P). destruct P as (k & Hk & ->).
    rewrite u32_small by (unfold two32 in *; lia).
    replace (2 ^ k - 1) with (Z.ones k) by (rewrite Z.ones_equiv; lia).
    rewrite Z.land_ones, Z.mod_same by (try apply Z.pow_nonzero; lia). lia.
Qed.

Lemma count_shifts_spec : forall fuel x c, 0 < x -> 0 <= c -> c + Z.log2 x < two32 ->
  Z.log2 x < Z.of_nat fuel -> count_shifts fuel x c = Ret (c + Z.log2 x).
Proof.
  induction fuel as [|f IH]; intros x c Hx Hc HB HF.
  - pose proof (Z.log2_nonneg x). lia.
  - cbn [count_shifts]. rewrite Z.shiftr_div_pow2 by lia. change (2 ^ 1) with 2.
    destruct (x / 2 =? 0) eqn:E.
    + assert (x = 1) as -> by lia. cbn. f_equal. lia.
    + assert (Z.log2 x = Z.log2 (x / 2) + 1) as L.
      { assert (0 < x / 2) as P2 by lia. pose proof (Z.log2_spec _ P2) as [La Lb].
        pose proof (Z.log2_nonneg (x/2)).
        apply Z.log2_unique; [lia|]. rewrite <- Z.add_1_r. rewrite !Z.pow_add_r by lia.
        rewrite <- Z.add_1_r, Z.pow_add_r in Lb by lia. lia. }
      pose proof (Z.log2_nonneg (x/2)).
      rewrite (u32_small (c + 1)) by lia. rewrite IH; try lia. f_equal; lia.
Qed.

(** least power of two >= x, for x up to 2^30 *)
Lemma roundup_spec x : 1 < x <= 1073741824 ->
  exists k, 1 <= k <= 30 /\ roundup_pow_of_two x = Ret (2 ^ k) /\ 2 ^ (k - 1) < x <= 2 ^ k.
Proof.
  intro H. unfold roundup_pow_of_two. destruct (x =? 0) eqn:E0; [lia|]. cbn [orb].
  destruct (is_power_of_2 x) eqn:E.
  - apply is_power_of_2_spec in E; [|unfold two32; lia]. destruct E as (k & Hk & ->).
    exists k. split; [|split; [reflexivity|]].
    + split; [lia|]. destruct (Z_le_dec k 30); [assumption|].
      assert (2 ^ 31 <= 2 ^ k) by (apply Z.pow_le_mono_r; lia). change (2 ^ 31) with 2147483648 in *. lia.
    + assert (2 ^ k = 2 ^ (k - 1) * 2) as D by (replace k with (k - 1 + 1) at 1 by lia; rewrite Z.pow_add_r by lia; lia).
      assert (0 < 2 ^ (k - 1)) by (apply Z.pow_pos_nonneg; lia). lia.
  - assert (0 < x) as Hp by lia. pose proof (Z.log2_spec x Hp) as [La Lb].
    pose proof (Z.log2_nonneg x).
    assert (Z.log2 x <= 29) as L2.
    { assert (Z.log2 x < 31) by (apply Z.log2_lt_pow2; [lia|]; change (2 ^ 31) with 2147483648; lia).
      destruct (Z.eq_dec (Z.log2 x) 30) as [E30|]; [|lia].
      rewrite E30 in La. change (2 ^ 30) with 1073741824 in La. assert (x = 1073741824) as -> by lia.
      vm_compute in E. discriminate. }
    rewrite count_shifts_spec by (unfold two32; lia). cbn [bind]. rewrite Z.add_0_l.
    assert (2 * 2 ^ Z.log2 x = 2 ^ (Z.log2 x + 1)) as E2 by (rewrite Z.pow_add_r by lia; lia).
    rewrite E2. assert (2 ^ (Z.log2 x + 1) <= 2 ^ 30) by (apply Z.pow_le_mono_r; lia).
    change (2 ^ 30) with 1073741824 in *. assert (0 < 2 ^ (Z.log2 x + 1)) by (apply Z.pow_pos_nonneg; lia).
    unfold sint, int_ok. destruct ((- two31 <=? 2 ^ (Z.log2 x + 1)) && (2 ^ (Z.log2 x + 1) <? two31)) eqn:EI;
      [|unfold two31 in *; lia].
    cbn [bind]. rewrite u32_small by (unfold two32; lia).
    exists (Z.log2 x + 1). split; [lia|]. split; [reflexivity|].
    replace (Z.log2 x + 1 - 1) with (Z.log2 x) by lia. rewrite Z.add_1_r. split; [|lia].
    destruct (Z.eq_dec (2 ^ Z.log2 x) x) as [EE|]; [|lia]. exfalso.
    assert (1 <= Z.log2 x). { change 1 with (Z.log2 2) at 1. apply Z.log2_le_mono; lia. }
    assert (is_power_of_2 x = true) as T; [|congruence].
    apply is_power_of_2_spec; [unfold two32; lia|]. exists (Z.log2 x). split; [lia|]. congruence.
Qed.

(** outcome of RingBuffer_create_with_mem on a block of exactly buf_size bytes *)
Lemma create_with_mem_small (m : list A) : zlen m < 28 ->
  rb_create_with_mem (Some m) (zlen m) = Ret None.
Proof.
  intro H. unfold rb_create_with_mem, rb_struct_size. rewrite u32_small by (unfold two32; lia).
  destruct (zlen m <? 24 + 4) eqn:E; [reflexivity|lia].
Qed.
Lemma create_with_mem_spec (m : list A) :
  28 <= zlen m -> (zlen m - 24 <= 1073741824 \/ zlen m - 24 = 2147483648) ->
  exists s, is_pow2 s /\ s <= zlen m - 24 < 2 * s /\
    rb_create_with_mem (Some m) (zlen m) = Ret (Some (mk_rb false 0 0 s (zdrop 24 m))).
Proof.
  intros H HB. unfold rb_create_with_mem, rb_struct_size.
  rewrite (u32_small (24 + 4)) by (unfold two32; lia).
  destruct (zlen m <? 24 + 4) eqn:E; [lia|].
  rewrite (u32_small (zlen m - 24)) by (unfold two32; lia).
  destruct (zlen m <? 24) eqn:E2; [lia|].
  destruct (is_power_of_2 (zlen m - 24)) eqn:EP.
  - apply is_power_of_2_spec in EP; [|unfold two32; lia]. exists (zlen m - 24).
    split; [exact EP|]. split; [lia|]. reflexivity.
  - destruct HB as [HB|HB]; [|rewrite HB in EP; vm_compute in EP; discriminate].
    destruct (roundup_spec (zlen m - 24) ltac:(lia)) as (k & Hk & RU & RB). rewrite RU. cbn [bind].
    rewrite Z.shiftr_div_pow2 by lia. change (2 ^ 1) with 2.
    assert (2 ^ k = 2 * 2 ^ (k - 1)) as P2.
    { replace k with (1 + (k - 1)) at 1 by lia. rewrite Z.pow_add_r by lia. reflexivity. }
    assert (2 <= k).
    { destruct (Z.eq_dec k 1) as [->|]; [|lia]. change (2 ^ 1) with 2 in RB. lia. }
    exists (2 ^ (k - 1)). split; [exists (k - 1); lia|]. split.
    + split; [lia|]. destruct (Z.eq_dec (zlen m - 24) (2 ^ k)) as [E3|]; [|lia]. exfalso.
      assert (is_power_of_2 (zlen m - 24) = true) as T; [|congruence].
      apply is_power_of_2_spec; [unfold two32; lia|]. exists k. split; [lia|exact E3].
    + f_equal. f_equal. f_equal. rewrite P2, Z.mul_comm, Z.div_mul by lia. reflexivity.
Qed.

Lemma create_inv_rb (b : bool) s (m : list A) : is_pow2 s -> s <= zlen m - 24 ->
  rb_inv (mk_rb b 0 0 s (zdrop 24 m)) /\ rb_abs (mk_rb b 0 0 s (zdrop 24 m)) = [].
Proof.
  intros P H. pose proof (pow2_bound s P). split; [|reflexivity].
  unfold rb_inv, rb_avail_read; cbn. rewrite zlen_zdrop by lia. unfold u32. rewrite Z.mod_0_l by discriminate.
  repeat split; auto; try lia; reflexivity.
Qed.

Lemma rb_fifo_mem_lemma (m : list A) ops :
  28 <= zlen m -> (zlen m - 24 <= 1073741824 \/ zlen m - 24 = 2147483648) ->
  Forall rb_valid_op ops ->
  exists k h h', 1 <= k <= 31 /\ 2 ^ k <= zlen m - 24 < 2 * 2 ^ k /\
  rb_create_with_mem (Some m) (zlen m) = Ret (Some h) /\
  rb_run h ops = Ret (h', snd (fifo_run (2 ^ k) [] ops)).
Proof.
  intros H HB V. destruct (create_with_mem_spec m H HB) as (s & P & B & C).
  destruct (create_inv_rb false s m P ltac:(lia)) as [I Q].
  destruct (rb_run_refines ops _ I V) as (h' & R & _). rewrite Q in R. cbn [rb_size] in R.
  destruct P as (k & Hk & ->). exists k. eexists; exists h'. split; [exact Hk|]. split; [exact B|]. split; [exact C|exact R].
Qed.

Lemma rb_fifo_create_lemma (calloc : Z -> option (list A)) n :
  (forall k b, calloc k = Some b -> zlen b = k) ->
  3 <= n <= 1073741824 \/ n = 2147483648 ->
  exists k, 1 <= k <= 31 /\ 2 ^ (k - 1) < n <= 2 ^ k /\
  (calloc (24 + 2 ^ k) = None -> rb_create calloc n = Ret None) /\
  (calloc (24 + 2 ^ k) <> None -> forall ops, Forall rb_valid_op ops ->
     exists h h', rb_create calloc n = Ret (Some h) /\ rb_run h ops = Ret (h', snd (fifo_run (2 ^ k) [] ops))).
Proof.
  intros HC Hn.
  assert (exists k, 2 <= k <= 31 /\ 2 ^ (k - 1) < n <= 2 ^ k /\
           (if is_power_of_2 n then Ret n else roundup_pow_of_two n) = Ret (2 ^ k)) as (k & Hk & Bk & Ek).
  { destruct Hn as [Hn| ->].
    - destruct (roundup_spec n ltac:(lia)) as (k & Hk & RU & RB). exists k.
      assert (2 <= k). { destruct (Z.eq_dec k 1) as [->|]; [|lia]. change (2 ^ 1) with 2 in RB. lia. }
      split; [lia|]. split; [exact RB|].
      destruct (is_power_of_2 n) eqn:EP; [|exact RU]. unfold roundup_pow_of_two in RU. rewrite EP, orb_true_r in RU.
      exact RU.
    - exists 31. split; [lia|]. split; [vm_compute; split; congruence|reflexivity]. }
  exists k. split; [lia|]. split; [exact Bk|].
  assert (4 <= 2 ^ k <= 2147483648) as PB.
  { split; [change 4 with (2 ^ 2)|change 2147483648 with (2 ^ 31)]; apply Z.pow_le_mono_r; lia. }
  unfold rb_create, rb_struct_size. destruct (n <? 2) eqn:E; [lia|]. rewrite Ek. cbn [bind].
  rewrite u32_small by (unfold two32; lia).
  split; [intros ->; reflexivity|]. intros NC ops V.
  destruct (calloc (24 + 2 ^ k)) as [b|] eqn:EC; [|congruence].
  pose proof (HC _ _ EC) as Lb. rewrite <- Lb.
  assert (is_pow2 (2 ^ k)) as PK by (exists k; lia).
  assert (exists o, rb_create_with_mem (Some b) (zlen b) = Ret (Some (mk_rb o 0 0 (2 ^ k) (zdrop 24 b)))) as (o & CW).
  { exists false. unfold rb_create_with_mem, rb_struct_size. rewrite (u32_small (24 + 4)) by (unfold two32; lia).
    destruct (zlen b <? 24 + 4) eqn:E4; [lia|]. rewrite (u32_small (zlen b - 24)) by (unfold two32; lia).
    replace (zlen b - 24) with (2 ^ k) by lia.
    rewrite (proj2 (is_power_of_2_spec (2 ^ k) ltac:(unfold two32; lia)) PK). cbn [bind].
    destruct (zlen b <? 24) eqn:E5; [lia|]. reflexivity. }
  rewrite CW. cbn [bind rb_in rb_out rb_size rb_buf].
  destruct (create_inv_rb true (2 ^ k) b PK ltac:(lia)) as [I Q].
  destruct (rb_run_refines ops _ I V) as (h' & R & _). rewrite Q in R. cbn [rb_size] in R.
  eexists; exists h'. split; [reflexivity|exact R].
Qed.

(** sizes refused *)
Lemma rb_create_too_small (calloc : Z -> option (list A)) n :
  (forall k b, calloc k = Some b -> zlen b = k) -> 0 <= n <= 2 -> rb_create calloc n = Ret None.
Proof.
  intros HC Hn. unfold rb_create. destruct (n <? 2) eqn:E; [reflexivity|].
  assert (n = 2) as -> by lia. change (is_power_of_2 2) with true. cbn [bind].
  change (u32 (rb_struct_size + 2)) with 26.
  destruct (calloc 26) as [b|] eqn:EC; [|reflexivity]. pose proof (HC _ _ EC) as Lb.
  replace 26 with (zlen b). rewrite create_with_mem_small by lia. reflexivity.
Qed.
Lemma rb_create_ub (calloc : Z -> option (list A)) n :
  1073741824 < n < two32 -> n <> 2147483648 -> rb_create calloc n = Ub.
Proof.
  intros Hn NE. unfold rb_create. destruct (n <? 2) eqn:E; [lia|].
  destruct (is_power_of_2 n) eqn:EP.
  { apply is_power_of_2_spec in EP; [|unfold two32 in *; lia]. destruct EP as (k & Hk & ->).
    assert (k <> 31) by (intros ->; apply NE; reflexivity).
    assert (2 ^ k <= 2 ^ 30) by (apply Z.pow_le_mono_r; lia). change (2 ^ 30) with 1073741824 in *. lia. }
  unfold roundup_pow_of_two. rewrite EP. destruct (n =? 0) eqn:E0; [lia|]. cbn [orb].
  assert (0 < n) as Hp by lia. pose proof (Z.log2_spec n Hp) as [La Lb].
  assert (30 <= Z.log2 n) as L30.
  { change 30 with (Z.log2 1073741824). apply Z.log2_le_mono; lia. }
  assert (Z.log2 n < 32) as L2. { apply Z.log2_lt_pow2; [lia|]. change (2 ^ 32) with two32. lia. }
  rewrite count_shifts_spec by (unfold two32; lia). cbn [bind]. rewrite Z.add_0_l.
  assert (2 ^ 30 <= 2 ^ Z.log2 n) by (apply Z.pow_le_mono_r; lia). change (2 ^ 30) with 1073741824 in *.
  unfold sint, int_ok. destruct ((- two31 <=? 2 * 2 ^ Z.log2 n) && (2 * 2 ^ Z.log2 n <? two31)) eqn:EI; [|reflexivity].
  unfold two31 in *. lia.
Qed.
Lemma roundup_ub n : 1073741824 < n < two32 -> n <> 2147483648 -> roundup_pow_of_two n = Ub /\ is_power_of_2 n = false.
Proof.
  intros Hn NE.
  destruct (is_power_of_2 n) eqn:EP.
  { apply is_power_of_2_spec in EP; [|unfold two32 in *; lia]. destruct EP as (k & Hk & ->).
    assert (k <> 31) by (intros ->; apply NE; reflexivity).
    assert (2 ^ k <= 2 ^ 30) by (apply Z.pow_le_mono_r; lia). change (2 ^ 30) with 1073741824 in *. lia. }
  split; [|reflexivity]. unfold roundup_pow_of_two. rewrite EP. destruct (n =? 0) eqn:E0; [lia|]. cbn [orb].
  assert (0 < n) as Hp by lia. pose proof (Z.log2_spec n Hp) as [La Lb].
  assert (30 <= Z.log2 n) as L30.
  { change 30 with (Z.log2 1073741824). apply Z.log2_le_mono; lia. }
  assert (Z.log2 n < 32) as L2. { apply Z.log2_lt_pow2; [lia|]. change (2 ^ 32) with two32. lia. }
  rewrite count_shifts_spec by (unfold two32; lia). cbn [bind]. rewrite Z.add_0_l.
  assert (2 ^ 30 <= 2 ^ Z.log2 n) by (apply Z.pow_le_mono_r; lia). change (2 ^ 30) with 1073741824 in *.
  unfold sint, int_ok. destruct ((- two31 <=? 2 * 2 ^ Z.log2 n) && (2 * 2 ^ Z.log2 n <? two31)) eqn:EI; [|reflexivity].
  unfold two31 in *. lia.
Qed.
Lemma rb_with_mem_ub (m : list A) :
  1073741824 < zlen m - 24 -> zlen m < two32 -> zlen m - 24 <> 2147483648 -> rb_create_with_mem (Some m) (zlen m) = Ub.
Proof.
  intros H1 H2 H3. unfold rb_create_with_mem, rb_struct_size. change (u32 (24 + 4)) with 28.
  destruct (zlen m <? 28) eqn:E; [lia|]. rewrite (u32_small (zlen m - 24)) by (unfold two32 in *; lia).
  destruct (roundup_ub (zlen m - 24)) as (-> & ->); [unfold two32 in *; lia | exact H3 |]. reflexivity.
Qed.

End Proof.

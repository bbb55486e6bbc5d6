From Verif Require Import CBase CircLib RingBuffer2Model RingBuffer2Spec RingBuffer2Proof AutoCoverModel AutoCoverSpec.

Section Proof.
Context {A : Type}.

Definition ac_inv (b : acb A) (s : stream A) : Prop :=
  let total := zlen (st_all s) in
  rb_inv (ac_ring b) /\ ac_size b = rb_size (ac_ring b) /\ rb_size (ac_ring b) <= 1073741824 /\
  rb_in (ac_ring b) = u32 total /\ rb_out (ac_ring b) = u32 (st_lo s) /\
  0 <= st_lo s <= total /\ total - st_lo s <= rb_size (ac_ring b) /\
  rb_abs (ac_ring b) = zsub (st_lo s) (total - st_lo s) (st_all s).

Lemma ac_avail b s : ac_inv b s -> rb_avail_read (ac_ring b) = zlen (st_all s) - st_lo s.
Proof.
  intros (RI & _ & _ & _ & _ & L & _ & AB). rewrite <- (zlen_rb_abs _ RI), AB.
  apply zlen_zsub; lia.
Qed.

Lemma s32_small x : 0 <= x <= 1073741824 -> s32 x = x.
Proof. intro H. unfold s32. rewrite Z.mod_small; unfold two32, two31; lia. Qed.

Lemma can_read_recent b s p : ac_inv b s ->
  zlen (st_all s) - rb_size (ac_ring b) < p < zlen (st_all s) ->
  ac_can_read b (u32 p) = if p <? st_lo s then -3 else zlen (st_all s) - p.
Proof.
  intros I Hp. pose proof (ac_avail b s I) as AV.
  destruct I as (RI & SZ & SB & IN & OUT & L & LE & AB). pose proof (proj1 RI) as P. pose proof (pow2_bound _ P) as PB.
  unfold ac_can_read, rb_read_position, rb_write_position. rewrite SZ.
  set (S := rb_size (ac_ring b)) in *. set (total := zlen (st_all s)) in *. set (lo := st_lo s) in *.
  rewrite !(pow2_mask S) by (first [exact P | rewrite ?IN, ?OUT; apply u32_range]).
  rewrite IN, OUT, !(pow2_mod_u32 S) by exact P. rewrite AV.
  set (av := total - lo) in *.
  assert (0 <= lo mod S < S) as Hr by (apply Z.mod_pos_bound; lia).
  assert (total mod S = if lo mod S + av <? S then lo mod S + av else lo mod S + av - S) as W.
  { replace total with (lo + av) by lia. rewrite <- Zplus_mod_idemp_l. apply mod_step; lia. }
  set (r := lo mod S) in *.
  set (e := total - p).
  assert (0 <= total mod S < S) as Hw by (apply Z.mod_pos_bound; lia).
  assert (p mod S = if total mod S <? e then total mod S - e + S else total mod S - e) as C.
  { replace p with (total - e) by lia. rewrite <- Zminus_mod_idemp_l.
    destruct (total mod S <? e) eqn:E.
    - symmetry; apply Z.mod_unique with (-1); lia.
    - apply Z.mod_small; lia. }
  assert (0 <= p mod S < S) as Hc by (apply Z.mod_pos_bound; lia).
  set (w := total mod S) in *. set (c := p mod S) in *. clearbody r w c.
  assert (p <? lo = (av <? e)) as PL by (destruct (p <? lo) eqn:E1, (av <? e) eqn:E2; try reflexivity; lia).
  rewrite PL. fold e.
  assert (0 < e < S) as He by lia. assert (0 <= av <= S) as Ha by lia.
  clearbody e. clearbody av. clear PL AB IN OUT AV. clearbody S.
  assert (u32 (w - r) = if r <=? w then w - r else w - r + two32) as U1.
  { destruct (r <=? w) eqn:E; [apply u32_small; unfold two32; lia|]. unfold u32.
    symmetry; apply Z.mod_unique with (-1); unfold two32; lia. }
  assert (r <= c -> u32 (c - r) = c - r) as U2 by (intro; apply u32_small; unfold two32; lia).
  assert ((u32 (w - r) =? av) = (r + av <? S) ) as B1.
  { rewrite U1. rewrite W. destruct (r + av <? S) eqn:E1; [destruct (r <=? r + av) eqn:E2|destruct (r <=? r + av - S) eqn:E2]; unfold two32 in *; lia. }
  rewrite B1. rewrite W in *.
  destruct (r + av <? S) eqn:E1.
  - destruct ((c >=? r) && (c <? r + av)) eqn:E2.
    + rewrite U2 by lia. rewrite C in *. destruct (r + av <? e) eqn:E3; destruct (av <? e) eqn:E4; try lia.
      rewrite u32_small by (unfold two32; lia). rewrite s32_small by lia. lia.
    + rewrite C in *. destruct (r + av <? e) eqn:E3; destruct (av <? e) eqn:E4; try lia; reflexivity.
  - destruct ((c >? r + av - S) && (c <? r)) eqn:E2.
    + rewrite C in *. destruct (r + av - S <? e) eqn:E3; destruct (av <? e) eqn:E4; try lia; reflexivity.
    + destruct (c >=? r) eqn:E5.
      * rewrite U2 by lia. rewrite C in *. destruct (r + av - S <? e) eqn:E3; destruct (av <? e) eqn:E4; try lia.
        rewrite u32_small by (unfold two32; lia). rewrite s32_small by lia. lia.
      * rewrite C in *. destruct (r + av - S <? e) eqn:E3; destruct (av <? e) eqn:E4; try lia.
        rewrite u32_small by (unfold two32; lia). rewrite s32_small by lia. lia.
Qed.

Lemma u32_add a b : u32 (u32 a + b) = u32 (a + b).
Proof. unfold u32. apply Zplus_mod_idemp_l. Qed.

Lemma zdrop_zsub off n k (l : list A) : 0 <= k <= n -> 0 <= off -> zdrop k (zsub off n l) = zsub (off + k) (n - k) l.
Proof. intros. unfold zsub. rewrite zdrop_ztake, zdrop_zdrop by lia. f_equal. f_equal. lia. Qed.
Lemma ztake_zsub off n k (l : list A) : 0 <= k <= n -> ztake k (zsub off n l) = zsub off k l.
Proof. intros. unfold zsub. rewrite ztake_ztake. f_equal. lia. Qed.

(** dropping from the front moves lo *)
Lemma ac_adv b s k : ac_inv b s -> 0 <= k <= zlen (st_all s) - st_lo s ->
  let h' := if k =? 0 then ac_ring b else adv_out (ac_ring b) k in
  ac_inv (mk_acb h' (ac_size b)) (mk_stream (st_all s) (st_lo s + k)) /\ rb_size h' = rb_size (ac_ring b).
Proof.
  intros I Hk h'. pose proof (ac_avail b s I) as AV. pose proof I as (RI & SZ & SB & IN & OUT & L & LE & AB).
  unfold h'. destruct (k =? 0) eqn:E.
  - assert (k = 0) as -> by lia. rewrite Z.add_0_r. split; [|reflexivity]. destruct b, s; exact I.
  - destruct (adv_out_ok (ac_ring b) k RI) as (I' & A'); [rewrite zlen_rb_abs by exact RI; lia|].
    split; [|reflexivity]. unfold ac_inv; cbn [ac_ring ac_size st_all st_lo adv_out rb_size rb_in rb_out].
    split; [exact I'|]. split; [exact SZ|]. split; [exact SB|]. split; [exact IN|].
    split; [rewrite OUT; apply u32_add|]. split; [lia|]. split; [lia|].
    change (rb_abs (adv_out (ac_ring b) k) = zsub (st_lo s + k) (zlen (st_all s) - (st_lo s + k)) (st_all s)).
    rewrite A', AB. rewrite zdrop_zsub by lia. f_equal; lia.
Qed.

Lemma ac_discard b s k : ac_inv b s -> 0 <= k <= zlen (st_all s) - st_lo s ->
  rb_discard (ac_ring b) k = Ret (if k =? 0 then ac_ring b else adv_out (ac_ring b) k, None, k).
Proof.
  intros I Hk. pose proof (ac_avail b s I) as AV. pose proof I as (RI & SZ & SB & _ & _ & L & LE & _).
  unfold rb_discard. rewrite rb_read_internal_ok; [|exact RI|unfold two32; lia|exact Logic.I].
  rewrite zlen_rb_abs, AV by exact RI. replace (Z.min k (zlen (st_all s) - st_lo s)) with k by lia. reflexivity.
Qed.

Lemma ac_step_refines b s o : ac_inv b s -> ac_valid_op (rb_size (ac_ring b)) s o ->
  let cap := rb_size (ac_ring b) in
  exists b', ac_step b o = Ret (b', snd (ac_spec_step cap s o)) /\
    ac_inv b' (fst (ac_spec_step cap s o)) /\ rb_size (ac_ring b') = rb_size (ac_ring b).
Proof.
  intros I V cap. pose proof (ac_avail b s I) as AV. pose proof I as (RI & SZ & SB & IN & OUT & L & LE & AB).
  pose proof (pow2_bound _ (proj1 RI)) as PB. fold cap in PB, SB, LE, V.
  destruct o as [src n|p t n|p]; cbn [ac_step ac_spec_step ac_valid_op fst snd] in *.
  - destruct V as [Vn Vs]. unfold ac_write.
    rewrite (rb_avail_write_eq _ RI), (zlen_rb_abs _ RI), AV. fold cap.
    set (d := if n >? cap - (zlen (st_all s) - st_lo s) then n - (cap - (zlen (st_all s) - st_lo s)) else 0).
    assert (0 <= d <= zlen (st_all s) - st_lo s) as Hd by (unfold d; destruct (n >? _) eqn:E; lia).
    destruct (ac_adv b s d I Hd) as (I1 & S1).
    set (h1 := if d =? 0 then ac_ring b else adv_out (ac_ring b) d) in *.
    assert ((if n >? cap - (zlen (st_all s) - st_lo s)
             then do r <- rb_discard (ac_ring b) (u32 (n - (cap - (zlen (st_all s) - st_lo s)))); Ret (fst (fst r))
             else Ret (ac_ring b)) = Ret h1) as D1.
    { unfold h1, d. destruct (n >? cap - (zlen (st_all s) - st_lo s)) eqn:E.
      - rewrite u32_small by (unfold two32; lia). rewrite (ac_discard b s) by (auto; lia). reflexivity.
      - reflexivity. }
    rewrite D1. cbn [bind]. clear D1.
    set (s1 := mk_stream (st_all s) (st_lo s + d)) in *. set (b1 := mk_acb h1 (ac_size b)) in *.
    pose proof (ac_avail b1 s1 I1) as AV1. cbn [b1 ac_ring s1 st_all st_lo] in AV1.
    destruct I1 as (RI1 & SZ1 & SB1 & IN1 & OUT1 & L1 & LE1 & AB1).
    cbn [b1 ac_ring ac_size s1 st_all st_lo] in *.
    pose proof (zlen_rb_abs _ RI1) as LA1. rewrite AV1 in LA1.
    destruct (rb_write_ok h1 src n RI1 ltac:(unfold two32; lia)) as (h2 & W & I2 & A2 & S2 & O2 & OU2 & IN2 & _); [rewrite LA1, S1; lia|].
    rewrite LA1, S1 in W, A2, IN2. fold cap in W, A2, IN2.
    assert (Z.min n (cap - (zlen (st_all s) - (st_lo s + d))) = n) as MIN by (unfold d; destruct (n >? _) eqn:E; lia).
    rewrite MIN in W, A2, IN2. rewrite W. cbn [bind fst snd]. rewrite Z.eqb_refl. cbn [bind fst snd].
    rewrite s32_small by lia.
    exists (mk_acb h2 (ac_size b)). split; [reflexivity|]. split; [|cbn [ac_ring]; rewrite S2; exact S1].
    assert (zlen (ztake n src) = n) as LT by (apply zlen_ztake; lia).
    assert (Z.max (st_lo s) (zlen (st_all s) + n - cap) = st_lo s + d) as LO by (unfold d; destruct (n >? _) eqn:E; lia).
    rewrite LO. unfold ac_inv; cbn [ac_ring ac_size st_all st_lo]. rewrite zlen_app, LT.
    split; [exact I2|]. split; [rewrite SZ1, S2; reflexivity|]. split; [rewrite S2; exact SB1|].
    split; [rewrite IN2, IN1, u32_add; reflexivity|]. split; [rewrite OU2; exact OUT1|].
    split; [lia|]. split; [rewrite S2, S1; fold cap; unfold d; destruct (n >? _) eqn:E; lia|].
    rewrite A2, AB1. unfold zsub. rewrite zdrop_app_l by lia.
    set (w := ztake n src) in *. clearbody w. rewrite !ztake_all; rewrite ?zlen_app, ?zlen_zdrop; try lia.
    reflexivity.
  - destruct V as (Vp & Vp0 & Vn & Vt). unfold ac_read, ac_internal_read.
    rewrite (can_read_recent b s p I Vp), AV. rewrite (s32_small (zlen (st_all s) - st_lo s)) by lia.
    assert (s32 n = n) as SN by (unfold s32; rewrite Z.mod_small; unfold two31, two32; lia).
    rewrite SN. destruct (p <? st_lo s) eqn:E.
    + change AC_COVERED with (-3).
      destruct (-3 <=? zlen (st_all s) - st_lo s) eqn:E1; [|lia]. cbn [negb].
      destruct (-3 >=? n) eqn:E2; [lia|]. cbn [bind fst snd]. change (-3 <? 0) with true. cbn. eauto.
    + destruct (zlen (st_all s) - p <=? zlen (st_all s) - st_lo s) eqn:E1; [|lia]. cbn [negb].
      destruct (n <=? zlen (st_all s) - p) eqn:E2.
      * destruct (zlen (st_all s) - p >=? n) eqn:E3; [|lia].
        rewrite (u32_small (zlen (st_all s) - st_lo s - (zlen (st_all s) - p))) by (unfold two32; lia).
        set (d := zlen (st_all s) - st_lo s - (zlen (st_all s) - p)).
        assert (d = p - st_lo s) as Ed by (unfold d; lia).
        destruct (ac_adv b s d I ltac:(lia)) as (I1 & S1).
        set (h1 := if d =? 0 then ac_ring b else adv_out (ac_ring b) d) in *.
        assert ((if negb (d =? 0) then do r <- rb_discard (ac_ring b) d; Ret (fst (fst r)) else Ret (ac_ring b)) = Ret h1) as D1.
        { unfold h1. destruct (d =? 0) eqn:E4; cbn [negb]; [reflexivity|].
          rewrite (ac_discard b s) by (auto; lia). rewrite E4. reflexivity. }
        rewrite D1. cbn [bind]. clear D1. replace (st_lo s + d) with p in I1 by lia.
        set (s1 := mk_stream (st_all s) p) in *. set (b1 := mk_acb h1 (ac_size b)) in *.
        pose proof (ac_avail b1 s1 I1) as AV1. cbn [b1 ac_ring s1 st_all st_lo] in AV1.
        destruct (ac_adv b1 s1 n I1 ltac:(cbn [s1 st_all st_lo]; lia)) as (I2 & S2).
        destruct I1 as (RI1 & SZ1 & SB1 & IN1 & OUT1 & L1 & LE1 & AB1). cbn [b1 ac_ring ac_size s1 st_all st_lo] in *.
        unfold rb_read. rewrite rb_read_internal_ok; [|exact RI1|unfold two32; lia|lia].
        rewrite zlen_rb_abs, AV1 by exact RI1. replace (Z.min n (zlen (st_all s) - p)) with n by lia.
        cbn [bind fst snd option_map]. rewrite Z.eqb_refl. cbn [bind fst snd].
        destruct (zlen (st_all s) - p <? 0) eqn:E5; [lia|]. destruct (zlen (st_all s) - p <? n) eqn:E6; [lia|].
        cbn [bind fst snd].
        eexists. split; [|split; [exact I2|exact (eq_trans S2 S1)]].
        f_equal. f_equal. f_equal. f_equal. rewrite AB1, ztake_zsub by lia. unfold lay. rewrite zlen_zsub by lia. reflexivity.
      * destruct (zlen (st_all s) - p >=? n) eqn:E3; [lia|]. cbn [bind fst snd].
        destruct (zlen (st_all s) - p <? 0) eqn:E5; [lia|]. destruct (zlen (st_all s) - p <? n) eqn:E6; [|lia].
        cbn. eauto.
  - destruct V as (Vp & Vp0). unfold ac_available_read, ac_internal_read.
    rewrite (can_read_recent b s p I Vp), AV. rewrite (s32_small (zlen (st_all s) - st_lo s)) by lia.
    destruct (p <? st_lo s) eqn:E.
    + destruct (-3 <=? zlen (st_all s) - st_lo s) eqn:E1; [|lia]. cbn. eauto.
    + destruct (zlen (st_all s) - p <=? zlen (st_all s) - st_lo s) eqn:E1; [|lia]. cbn. eauto.
Qed.

Lemma ac_run_refines ops : forall b s, ac_inv b s -> ac_valid_run (rb_size (ac_ring b)) s ops ->
  exists b', ac_run b ops = Ret (b', snd (ac_spec_run (rb_size (ac_ring b)) s ops)) /\
     ac_inv b' (fst (ac_spec_run (rb_size (ac_ring b)) s ops)).
Proof.
  induction ops as [|o ops IH]; intros b s I V; cbn [ac_run ac_spec_run ac_valid_run] in *.
  - exists b. auto.
  - destruct V as [Vo Vs]. destruct (ac_step_refines b s o I Vo) as (b1 & S1 & I1 & Z1).
    rewrite S1. cbn [bind fst snd]. destruct (IH b1 _ I1) as (b2 & S2 & I2); [rewrite Z1; exact Vs|].
    rewrite S2. cbn [bind fst snd]. rewrite Z1 in *. eauto.
Qed.

Lemma ac_create_inv (calloc : Z -> option (list A)) n :
  (forall k b, calloc k = Some b -> zlen b = k) -> 3 <= n <= 1073741824 ->
  exists k, 1 <= k <= 30 /\ 2 ^ (k - 1) < n <= 2 ^ k /\
  (calloc (24 + 2 ^ k) <> None ->
   exists b, ac_create true calloc n = Ret (Some b) /\ rb_size (ac_ring b) = 2 ^ k /\ ac_inv b (mk_stream [] 0)).
Proof.
  intros HC Hn. destruct (roundup_spec n ltac:(lia)) as (k & Hk & RU & RB).
  exists k. split; [exact Hk|]. split; [exact RB|]. intros NC.
  assert (2 <= k) as Hk2. { destruct (Z.eq_dec k 1) as [->|]; [|lia]. change (2 ^ 1) with 2 in RB. lia. }
  assert (4 <= 2 ^ k <= 1073741824) as PB.
  { split; [change 4 with (2 ^ 2)|change 1073741824 with (2 ^ 30)]; apply Z.pow_le_mono_r; lia. }
  destruct (calloc (24 + 2 ^ k)) as [m|] eqn:EC; [|congruence]. pose proof (HC _ _ EC) as Lm.
  assert (is_pow2 (2 ^ k)) as PK by (exists k; lia).
  assert (rb_create calloc n = Ret (Some (mk_rb true 0 0 (2 ^ k) (zdrop 24 m)))) as RC.
  { unfold rb_create, rb_struct_size. destruct (n <? 2) eqn:E; [lia|].
    assert ((if is_power_of_2 n then Ret n else roundup_pow_of_two n) = Ret (2 ^ k)) as ->.
    { destruct (is_power_of_2 n) eqn:EP; [|exact RU]. unfold roundup_pow_of_two in RU. rewrite EP, orb_true_r in RU. exact RU. }
    cbn [bind]. rewrite u32_small by (unfold two32; lia). rewrite EC, <- Lm.
    unfold rb_create_with_mem, rb_struct_size. rewrite (u32_small (24 + 4)) by (unfold two32; lia).
    destruct (zlen m <? 24 + 4) eqn:E4; [lia|]. rewrite (u32_small (zlen m - 24)) by (unfold two32; lia).
    replace (zlen m - 24) with (2 ^ k) by lia.
    rewrite (proj2 (is_power_of_2_spec (2 ^ k) ltac:(unfold two32; lia)) PK). cbn [bind].
    destruct (zlen m <? 24) eqn:E5; [lia|]. reflexivity. }
  set (h := mk_rb true 0 0 (2 ^ k) (zdrop 24 m)) in *.
  destruct (create_inv_rb true (2 ^ k) m PK ltac:(lia)) as [I Q]. fold h in I, Q.
  assert (ac_inv (mk_acb h (2 ^ k)) (mk_stream [] 0)) as AI.
  { unfold ac_inv; cbn [ac_ring ac_size st_all st_lo]. change (zlen (@nil A)) with 0. split; [exact I|].
    cbn [h rb_size rb_in rb_out]. repeat split; try lia; exact Q. }
  exists (mk_acb h (2 ^ k)). split; [unfold ac_create; rewrite RC; reflexivity|]. split; [reflexivity|exact AI].
Qed.

Lemma ac_create_lemma (calloc : Z -> option (list A)) n ops :
  (forall k b, calloc k = Some b -> zlen b = k) -> 3 <= n <= 1073741824 ->
  exists k, 1 <= k <= 30 /\ 2 ^ (k - 1) < n <= 2 ^ k /\
  (calloc (24 + 2 ^ k) <> None -> ac_valid_run (2 ^ k) (mk_stream [] 0) ops ->
   exists b b', ac_create true calloc n = Ret (Some b) /\
     ac_run b ops = Ret (b', snd (ac_spec_run (2 ^ k) (mk_stream [] 0) ops))).
Proof.
  intros HC Hn. destruct (ac_create_inv calloc n HC Hn) as (k & Hk & RB & R). exists k. split; [exact Hk|]. split; [exact RB|].
  intros NC V. destruct (R NC) as (b & CR & SZ & I). rewrite <- SZ in V.
  destruct (ac_run_refines ops b _ I V) as (b' & RUN & _). rewrite SZ in RUN. eauto.
Qed.

Lemma ac_write_too_big b s src n : ac_inv b s -> rb_size (ac_ring b) < n < two32 -> n <= zlen src ->
  ac_write b (Some src) n = Abrt.
Proof.
  intros I Hn Hs. pose proof (ac_avail b s I) as AV. pose proof I as (RI & SZ & SB & IN & OUT & L & LE & AB).
  pose proof (pow2_bound _ (proj1 RI)) as PB. unfold ac_write.
  rewrite (rb_avail_write_eq _ RI), (zlen_rb_abs _ RI), AV.
  set (av := zlen (st_all s) - st_lo s) in *. set (S := rb_size (ac_ring b)) in *.
  destruct (n >? S - av) eqn:E; [|lia].
  rewrite u32_small by lia.
  unfold rb_discard. rewrite rb_read_internal_ok; [|exact RI|lia|exact Logic.I].
  rewrite zlen_rb_abs, AV by exact RI. fold av. replace (Z.min (n - (S - av)) av) with av by lia. cbn [bind fst snd].
  assert (exists h1, (if av =? 0 then ac_ring b else adv_out (ac_ring b) av) = h1 /\ rb_inv h1 /\ rb_size h1 = S /\ zlen (rb_abs h1) = 0) as (h1 & -> & I1 & S1 & Z1).
  { eexists. split; [reflexivity|]. destruct (adv_out_zero_abs (ac_ring b) RI av) as (I1 & A1 & S1).
    - rewrite zlen_rb_abs by exact RI. lia.
    - split; [exact I1|]. split; [exact S1|]. rewrite A1, zlen_zdrop; rewrite zlen_rb_abs by exact RI; lia. }
  destruct (rb_write_ok h1 src n I1 ltac:(lia)) as (h2 & W & _); [rewrite Z1; lia|].
  rewrite W. cbn [bind fst snd]. rewrite Z1, S1. destruct (Z.min n (S - 0) =? n) eqn:E3; [lia|reflexivity].
Qed.
End Proof.

(** witnesses for the corner positions *)
Definition ac_demo : acb Z := mk_acb (mk_rb true 0 0 4 [0;0;0;0]) 4.

(** position 0 was overwritten long ago (8 bytes written into 4) but reading it "succeeds" *)
Lemma ac_alias_witness :
  ac_run ac_demo [AWrite [1;2;3;4] 4; AWrite [5;6;7;8] 4; ARead 0 [0;0] 2] =
  Ret (mk_acb (mk_rb true 8 6 4 [5;6;7;8]) 4, [(4,None);(4,None);(2,Some [5;6])]).
Proof. vm_compute. reflexivity. Qed.
(** position = number of bytes written (nothing there yet): COVERED, 0 and old data, depending on layout *)
Lemma ac_end_witness :
  (exists b, ac_run ac_demo [AWrite [1;2] 2; ARead 2 [0] 1] = Ret (b, [(2,None);(-3,Some [0])])) /\
  (exists b, ac_run ac_demo [AWrite [1;2;3] 3; ARead 2 [0] 1; AWrite [4;5] 2; ARead 5 [0] 1] =
             Ret (b, [(3,None);(1,Some [3]);(2,None);(-4,Some [0])])) /\
  (exists b, ac_run ac_demo [AWrite [1;2;3;4] 4; ARead 4 [0] 1] = Ret (b, [(4,None);(1,Some [1])])).
Proof. repeat split; eexists; vm_compute; reflexivity. Qed.

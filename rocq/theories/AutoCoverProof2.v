(** Refinement of autocover_buffer.c to the exact specification (every position). *)
From Verif Require Import CBase CircLib RingBuffer2Model RingBuffer2Spec RingBuffer2Proof AutoCoverModel AutoCoverSpec AutoCoverProof.

Section Proof.
Context {A : Type}.

Lemma can_read_mod (b : acb A) s p q : ac_inv b s -> p mod rb_size (ac_ring b) = q mod rb_size (ac_ring b) ->
  ac_can_read b (u32 p) = ac_can_read b (u32 q).
Proof.
  intros I E. destruct I as (RI & SZ & SB & _). pose proof (proj1 RI) as P.
  unfold ac_can_read. rewrite SZ. set (S := rb_size (ac_ring b)) in *.
  rewrite (pow2_mask S (u32 p)), (pow2_mask S (u32 q)) by (first [exact P | apply u32_range]).
  rewrite !(pow2_mod_u32 S) by exact P. rewrite E. reflexivity.
Qed.

Lemma can_read_full (b : acb A) s : ac_inv b s ->
  let S := rb_size (ac_ring b) in
  ac_can_read b (u32 (zlen (st_all s) - S)) =
    if st_lo s <=? zlen (st_all s) - S then S
    else if zlen (st_all s) mod S <? st_lo s mod S then 0 else -3.
Proof.
  intros I S. pose proof (ac_avail b s I) as AV.
  destruct I as (RI & SZ & SB & IN & OUT & L & LE & AB). pose proof (proj1 RI) as P. pose proof (pow2_bound _ P) as PB.
  unfold ac_can_read, rb_read_position, rb_write_position. rewrite SZ.
  fold S in SB, LE, P, PB. fold S. set (total := zlen (st_all s)) in *. set (lo := st_lo s) in *.
  rewrite !(pow2_mask S) by (first [exact P | rewrite ?IN, ?OUT; apply u32_range]).
  rewrite IN, OUT, !(pow2_mod_u32 S) by exact P. rewrite AV.
  replace (total - S) with (total + (-1) * S) by lia. rewrite Z.mod_add by lia. replace (total + -1 * S) with (total - S) by lia.
  set (av := total - lo) in *.
  assert (0 <= lo mod S < S) as Hr by (apply Z.mod_pos_bound; lia).
  assert (total mod S = if lo mod S + av <? S then lo mod S + av else lo mod S + av - S) as W.
  { replace total with (lo + av) by lia. rewrite <- Zplus_mod_idemp_l. apply mod_step; lia. }
  set (r := lo mod S) in *. set (w := total mod S) in *.
  assert (lo <=? total - S = (S <=? av)) as -> by (destruct (lo <=? total - S) eqn:E1, (S <=? av) eqn:E2; try reflexivity; lia).
  assert (0 <= av <= S) as Ha by lia.
  clearbody r w. clearbody av. clear AB IN OUT AV. clearbody S.
  assert (u32 (w - r) = if r <=? w then w - r else w - r + two32) as U1.
  { assert (0 <= w < S) by (rewrite W; destruct (r + av <? S) eqn:E; lia).
    destruct (r <=? w) eqn:E; [apply u32_small; unfold two32; lia|]. unfold u32.
    symmetry; apply Z.mod_unique with (-1); unfold two32; lia. }
  rewrite U1. rewrite W.
  destruct (r + av <? S) eqn:E1.
  - destruct (r <=? r + av) eqn:E2; [|lia]. destruct (r + av - r =? av) eqn:E3; [|lia].
    destruct ((r + av >=? r) && (r + av <? r + av)) eqn:E4; [lia|].
    destruct (S <=? av) eqn:E5; [lia|]. destruct (r + av <? r) eqn:E6; [lia|]. reflexivity.
  - destruct (r <=? r + av - S) eqn:E2.
    + assert (av = S) as -> by lia. destruct (r + S - S - r =? S) eqn:E3; [lia|].
      destruct ((r + S - S >? r + S - S) && (r + S - S <? r)) eqn:E4; [lia|].
      destruct (r + S - S >=? r) eqn:E5; [|lia]. destruct (S <=? S) eqn:E6; [|lia].
      replace (r + S - S - r) with 0 by lia.
      rewrite u32_small by (unfold two32; lia). rewrite s32_small by lia. lia.
    + destruct (r + av - S - r + two32 =? av) eqn:E3; [unfold two32 in *; lia|].
      destruct ((r + av - S >? r + av - S) && (r + av - S <? r)) eqn:E4; [lia|].
      destruct (r + av - S >=? r) eqn:E5; [lia|]. destruct (S <=? av) eqn:E6; [lia|].
      destruct (r + av - S <? r) eqn:E7; [|lia]. rewrite Z.sub_diag. reflexivity.
Qed.

Lemma alias_bounds S T p : 0 < S -> T - S <= ac_alias S T p < T.
Proof. intro H. unfold ac_alias. pose proof (Z.mod_pos_bound (T - 1 - p) S H). lia. Qed.

Lemma alias_mod S T p : 0 < S -> ac_alias S T p mod S = p mod S.
Proof.
  intro H. unfold ac_alias. rewrite Zminus_mod_idemp_r. f_equal. lia.
Qed.

Lemma can_read_exact (b : acb A) s p : ac_inv b s ->
  ac_can_read b (u32 p) = ac_answer (rb_size (ac_ring b)) s p.
Proof.
  intros I. set (S := rb_size (ac_ring b)) in *. set (T := zlen (st_all s)) in *.
  pose proof I as (RI & SZ & SB & IN & OUT & L & LE & AB). pose proof (pow2_bound _ (proj1 RI)) as PB. fold S in PB, SB, LE. fold T in L, LE.
  set (q := ac_alias S T p).
  assert (T - S <= q < T) as Q by (apply alias_bounds; lia).
  rewrite (can_read_mod b s p q I) by (symmetry; apply alias_mod; lia).
  unfold ac_answer. fold T. fold q. destruct (Z.eq_dec q (T - S)) as [E|E].
  - rewrite E. unfold T, S. rewrite (can_read_full b s I). fold T. fold S.
    rewrite Z.eqb_refl. cbn [andb]. destruct (st_lo s <=? T - S); [lia|reflexivity].
  - rewrite (can_read_recent b s q I) by (fold S; fold T; lia). fold T.
    assert (q =? T - S = false) as -> by lia. cbn [andb].
    destruct (q <? st_lo s) eqn:E1, (st_lo s <=? q) eqn:E2; try lia; reflexivity.
Qed.

Lemma answer_range S (s : stream A) p : 0 < S -> 0 <= st_lo s <= zlen (st_all s) -> zlen (st_all s) - st_lo s <= S ->
  ac_answer S s p = -3 \/ 0 <= ac_answer S s p <= zlen (st_all s) - st_lo s.
Proof.
  intros H H1 H2. unfold ac_answer. pose proof (alias_bounds S (zlen (st_all s)) p H).
  destruct (st_lo s <=? ac_alias S (zlen (st_all s)) p) eqn:E; [right; lia|].
  destruct (_ && _); [right; lia|left; reflexivity].
Qed.

Lemma ac_step_exact (b : acb A) s o : ac_inv b s -> ac_ok_op (rb_size (ac_ring b)) o ->
  let cap := rb_size (ac_ring b) in
  exists b', ac_step b o = Ret (b', snd (ac_exact_step cap s o)) /\
    ac_inv b' (fst (ac_exact_step cap s o)) /\ rb_size (ac_ring b') = rb_size (ac_ring b).
Proof.
  intros I V cap. pose proof (ac_avail b s I) as AV. pose proof I as (RI & SZ & SB & IN & OUT & L & LE & AB).
  pose proof (pow2_bound _ (proj1 RI)) as PB. fold cap in PB, SB, LE, V.
  destruct o as [src n|p t n|p].
  - apply (ac_step_refines b s (AWrite src n) I V).
  - cbn [ac_step ac_exact_step ac_ok_op fst snd] in *. destruct V as (Vn & Vt).
    unfold ac_read, ac_internal_read. rewrite (can_read_exact b s p I), AV. fold cap.
    rewrite (s32_small (zlen (st_all s) - st_lo s)) by lia.
    assert (s32 n = n) as SN by (unfold s32; rewrite Z.mod_small; unfold two31, two32; lia).
    rewrite SN. destruct (answer_range cap s p ltac:(lia) L LE) as [E|E].
    + rewrite E. destruct (-3 <=? zlen (st_all s) - st_lo s) eqn:E1; [|lia]. cbn [negb].
      destruct (-3 >=? n) eqn:E2; [lia|]. cbn [bind fst snd]. change (-3 <? 0) with true. cbn. eauto.
    + set (a := ac_answer cap s p) in *. clearbody a.
      destruct (a <=? zlen (st_all s) - st_lo s) eqn:E1; [|lia]. cbn [negb].
      destruct (a <? 0) eqn:E0; [lia|].
      destruct (n <=? a) eqn:E2.
      * destruct (a >=? n) eqn:E3; [|lia].
        rewrite (u32_small (zlen (st_all s) - st_lo s - a)) by (unfold two32; lia).
        set (d := zlen (st_all s) - st_lo s - a).
        destruct (ac_adv b s d I ltac:(lia)) as (I1 & S1).
        set (h1 := if d =? 0 then ac_ring b else adv_out (ac_ring b) d) in *.
        assert ((if negb (d =? 0) then do r <- rb_discard (ac_ring b) d; Ret (fst (fst r)) else Ret (ac_ring b)) = Ret h1) as D1.
        { unfold h1. destruct (d =? 0) eqn:E4; cbn [negb]; [reflexivity|].
          rewrite (ac_discard b s) by (auto; lia). rewrite E4. reflexivity. }
        rewrite D1. cbn [bind]. clear D1.
        replace (st_lo s + d) with (zlen (st_all s) - a) in I1 by lia.
        set (q := zlen (st_all s) - a) in *.
        set (s1 := mk_stream (st_all s) q) in *. set (b1 := mk_acb h1 (ac_size b)) in *.
        pose proof (ac_avail b1 s1 I1) as AV1. cbn [b1 ac_ring s1 st_all st_lo] in AV1.
        destruct (ac_adv b1 s1 n I1 ltac:(cbn [s1 st_all st_lo]; lia)) as (I2 & S2).
        destruct I1 as (RI1 & SZ1 & SB1 & IN1 & OUT1 & L1 & LE1 & AB1). cbn [b1 ac_ring ac_size s1 st_all st_lo] in *.
        unfold rb_read. rewrite rb_read_internal_ok; [|exact RI1|unfold two32; lia|lia].
        rewrite zlen_rb_abs, AV1 by exact RI1. replace (Z.min n (zlen (st_all s) - q)) with n by lia.
        cbn [bind fst snd option_map]. rewrite Z.eqb_refl. cbn [bind fst snd].
        rewrite E0. destruct (a <? n) eqn:E6; [lia|].
        cbn [bind fst snd].
        eexists. split; [|split; [exact I2|exact (eq_trans S2 S1)]].
        f_equal. f_equal. f_equal. f_equal. rewrite AB1, ztake_zsub by lia. unfold lay. rewrite zlen_zsub by lia. reflexivity.
      * destruct (a >=? n) eqn:E3; [lia|]. cbn [bind fst snd]. rewrite E0.
        destruct (a <? n) eqn:E6; [|lia]. cbn. eauto.
  - cbn [ac_step ac_exact_step ac_ok_op fst snd] in *. unfold ac_available_read, ac_internal_read.
    rewrite (can_read_exact b s p I), AV. fold cap. rewrite (s32_small (zlen (st_all s) - st_lo s)) by lia.
    destruct (answer_range cap s p ltac:(lia) L LE) as [E|E].
    + rewrite E. destruct (-3 <=? zlen (st_all s) - st_lo s) eqn:E1; [|lia]. cbn. eauto.
    + destruct (ac_answer cap s p <=? zlen (st_all s) - st_lo s) eqn:E1; [|lia]. cbn. eauto.
Qed.

Lemma ac_run_exact ops : forall (b : acb A) s, ac_inv b s -> Forall (ac_ok_op (rb_size (ac_ring b))) ops ->
  exists b', ac_run b ops = Ret (b', snd (ac_exact_run (rb_size (ac_ring b)) s ops)) /\
     ac_inv b' (fst (ac_exact_run (rb_size (ac_ring b)) s ops)).
Proof.
  induction ops as [|o ops IH]; intros b s I V; cbn [ac_run ac_exact_run] in *.
  - exists b. auto.
  - inversion V as [|? ? Vo Vs]; subst. destruct (ac_step_exact b s o I Vo) as (b1 & S1 & I1 & Z1).
    rewrite S1. cbn [bind fst snd]. destruct (IH b1 _ I1) as (b2 & S2 & I2); [rewrite Z1; exact Vs|].
    rewrite S2. cbn [bind fst snd]. rewrite Z1 in *. eauto.
Qed.

Lemma ac_create_exact (calloc : Z -> option (list A)) n ops :
  (forall k b, calloc k = Some b -> zlen b = k) -> 3 <= n <= 1073741824 ->
  exists k, 1 <= k <= 30 /\ 2 ^ (k - 1) < n <= 2 ^ k /\
  (calloc (24 + 2 ^ k) <> None -> Forall (ac_ok_op (2 ^ k)) ops ->
   exists b b', ac_create true calloc n = Ret (Some b) /\
     ac_run b ops = Ret (b', snd (ac_exact_run (2 ^ k) (mk_stream [] 0) ops))).
Proof.
  intros HC Hn. destruct (ac_create_inv calloc n HC Hn) as (k & Hk & RB & R). exists k. split; [exact Hk|]. split; [exact RB|].
  intros NC V. destruct (R NC) as (b & CR & SZ & I). rewrite <- SZ in V.
  destruct (ac_run_exact ops b _ I V) as (b' & RUN & _). rewrite SZ in RUN. eauto.
Qed.

(** on the last cap-1 positions the exact answer is the plain one *)
Lemma answer_recent (s : stream A) cap p : 0 < cap -> zlen (st_all s) - cap < p < zlen (st_all s) ->
  ac_answer cap s p = if p <? st_lo s then -3 else zlen (st_all s) - p.
Proof.
  intros H H1. unfold ac_answer, ac_alias. rewrite Z.mod_small by lia.
  replace (zlen (st_all s) - 1 - (zlen (st_all s) - 1 - p)) with p by lia.
  destruct (st_lo s <=? p) eqn:E1, (p <? st_lo s) eqn:E2; try lia.
  assert (p =? zlen (st_all s) - cap = false) as -> by lia. reflexivity.
Qed.
End Proof.

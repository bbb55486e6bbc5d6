(** Distances *)
From Coq Require Import Lqa.
From Verif Require Import CBase CStr SeqLib StrParamsModel StrParamsSpec StrParamsProof StrParamsProof2 FloatModel FloatSpec FloatProof FloatProof2 FloatProof3.
Open Scope Q_scope.

Definition T (x : fl) : list Z := ztake 31 (fmt10 x).
Definition reads (x : fl) (v : Q) : Prop := strtod (T x) = (round_double (neg x) v, zlen (T x)) /\ T x <> [].
Lemma inj_eq a b : inject_Z a == inject_Z b -> a = b.
Proof. unfold Qeq, inject_Z. cbn [Qnum Qden]. lia. Qed.
Lemma tenth_exact x k : mag x * inject_Z (10 ^ 10) == inject_Z k -> tenth x = k.
Proof. intro H. unfold tenth. apply nearest_unique; rewrite H; lra. Qed.
Lemma whole_rep m e : (0 <= e)%Z -> inject_Z m * pow2 e == inject_Z (m * 2 ^ e).
Proof. intro H. rewrite inject_Z_mult, pow2_Z by auto. reflexivity. Qed.
Lemma rep_low m e a P : (0 <= P)%Z -> (m < 2 ^ P)%Z -> pow2 a <= inject_Z m * pow2 e -> (a - P < e)%Z.
Proof.
  intros HP M H. apply inj_lt in M. rewrite <- pow2_Z in M by auto. pose proof (pow2_pos e) as PE. assert (X : pow2 a < pow2 (P + e)) by (rewrite pow2_add; nra). apply pow2_lt_inv in X. lia.
Qed.
Lemma read_v x : (0 <= mant x < 2 ^ 53)%Z -> mag x < inject_Z (10 ^ 30) -> exists v, reads x v /\ v * inject_Z (10 ^ 10) == inject_Z (tenth x).
Proof.
  intros [M1 M2] U. destruct (Qlt_le_dec (mag x) (inject_Z (10 ^ 18))) as [L|L].
  - destruct (read_small x M1) as (v & A & B & C).
    { destruct (nearest_err (mag x * inject_Z (10 ^ 10))) as [E _]. fold (tenth x) in E. apply (proj2 (inj_lt _ _)).
      change (inject_Z (10 ^ 29)) with (inject_Z (10 ^ 19) * inject_Z (10 ^ 10)). change (inject_Z (10 ^ 18)) with (1000000000000000000 # 1) in L. change (inject_Z (10 ^ 19)) with (10000000000000000000 # 1). change (inject_Z (10 ^ 10)) with (10000000000 # 1) in *. lra. }
    exists v. unfold reads, T. auto.
  - assert (MP : (0 < mant x)%Z). { destruct (Z.eq_dec (mant x) 0) as [E|E]; [|lia]. unfold mag in L. rewrite E in L. change (inject_Z 0) with 0 in L. change (inject_Z (10 ^ 18)) with (1000000000000000000 # 1) in L. lra. }
    destruct (normal_rep 53 x ltac:(lia) ltac:(lia)) as (m & e & R & _ & EM).
    assert (E0 : (0 <= e)%Z). { assert (59 - 53 < e)%Z; [|lia]. apply (rep_low m e 59 53); [lia|lia|]. rewrite <- EM. eapply Qle_trans; [|exact L]. discriminate. }
    rewrite (whole_rep m e E0) in EM. set (K := (m * 2 ^ e)%Z) in *.
    assert (TE : tenth x = (K * 10 ^ 10)%Z) by (apply tenth_exact; rewrite EM, inject_Z_mult; reflexivity).
    destruct (read_whole x M1) as (v & A & B & C).
    { rewrite TE. apply Z_mod_mult. }
    { rewrite EM in U. apply inj_lt in U. rewrite TE. lia. }
    exists v. unfold reads, T. auto.
Qed.
(** the text is within half of 10^-10 *)
Lemma text_err x v : v * inject_Z (10 ^ 10) == inject_Z (tenth x) -> v - (1 # 20000000000) <= mag x /\ mag x <= v + (1 # 20000000000).
Proof.
  intro H. destruct (nearest_err (mag x * inject_Z (10 ^ 10))) as [A B]. fold (tenth x) in A, B. rewrite <- H in A, B. change (inject_Z (10 ^ 10)) with (10000000000 # 1) in *. lra.
Qed.
Lemma v_nonneg x v : (0 <= mant x)%Z -> v * inject_Z (10 ^ 10) == inject_Z (tenth x) -> 0 <= v.
Proof.
  intros M H. pose proof (tenth_nonneg x M) as N. apply inj_le in N. rewrite <- H in N. change (inject_Z (10 ^ 10)) with (10000000000 # 1) in *. change (inject_Z 0) with 0 in N. lra.
Qed.
Lemma round_zero P emin sgn v : v == 0 -> mag (round P emin sgn v) == 0 /\ neg (round P emin sgn v) = sgn.
Proof. intro H. unfold round. destruct (Qle_bool v 0) eqn:E; [split; [unfold mag; cbn [mant]; change (inject_Z 0) with 0; lra|reflexivity]|]. exfalso. assert (v <= 0) as X by lra. apply Qle_bool_iff in X. congruence. Qed.
Lemma round_small sgn v k : (-1022 <= k)%Z -> 0 <= v -> v <= pow2 k -> v - pow2 (k - 53) <= mag (round_double sgn v) /\ mag (round_double sgn v) <= v + pow2 (k - 53) /\ neg (round_double sgn v) = sgn.
Proof.
  intros K V U. pose proof (pow2_pos (k - 53)) as PK. destruct (Qlt_le_dec 0 v) as [L|L].
  - destruct (round_err 53 (-1074) sgn v L) as (e & _ & B & C & D & E). fold (round_double sgn v) in B, D, E. destruct (lead_between v L) as [L1 L2].
    assert (LK : (lead v <= k)%Z). { destruct (Z_le_gt_dec (lead v) k) as [X|X]; [auto|]. exfalso. assert (Y : pow2 (k + 1) <= pow2 (lead v)) by (apply pow2_le; lia). rewrite pow2_S in Y. pose proof (pow2_pos k). lra. }
    assert (PE : pow2 (e - 1) <= pow2 (k - 53)) by (apply pow2_le; lia). repeat split; auto; lra.
  - destruct (round_zero 53 (-1074) sgn v ltac:(lra)) as [A B]. fold (round_double sgn v) in A, B. repeat split; auto; lra.
Qed.
Lemma read_exact x : (0 <= mant x < 2 ^ 53)%Z -> mag x < inject_Z (10 ^ 30) -> pow2 20 <= mag x \/ (exists k, mag x * inject_Z (2 ^ 10) == inject_Z k) ->
  exists v, reads x v /\ mag (round_double (neg x) v) == mag x /\ neg (round_double (neg x) v) = neg x.
Proof.
  intros M U C. destruct (read_v x M U) as (v & R & E). exists v. split; [auto|]. destruct (text_err x v E) as [E1 E2].
  destruct (Z.eq_dec (mant x) 0) as [Z0|Z0].
  { assert (M0 : mag x == 0) by (unfold mag; rewrite Z0; change (inject_Z 0) with 0; lra). assert (T0 : tenth x = 0%Z) by (apply tenth_exact; rewrite M0; reflexivity).
    rewrite T0 in E. change (inject_Z (10 ^ 10)) with (10000000000 # 1) in *. change (inject_Z 0) with 0 in E.
    destruct (round_zero 53 (-1074) (neg x) v ltac:(lra)) as [A B]. fold (round_double (neg x) v) in A, B. split; [lra|auto]. }
  destruct (normal_rep 53 x ltac:(lia) ltac:(lia)) as (m & e & R1 & _ & EM).
  assert (X : (-1074 < e)%Z /\ 4 * (v - inject_Z m * pow2 e) < pow2 e /\ 4 * (inject_Z m * pow2 e - v) < pow2 e).
  { destruct C as [C|(k & C)].
    - assert (EL : (20 - 53 < e)%Z) by (apply (rep_low m e 20 53); [lia|lia|rewrite <- EM; auto]). split; [lia|].
      assert (PE : pow2 (-32) <= pow2 e) by (apply pow2_le; lia). rewrite <- EM. change (pow2 (-32)) with (1 # 4294967296) in PE. lra.
    - assert (TE : tenth x = (k * 5 ^ 10)%Z). { apply tenth_exact. change (inject_Z (10 ^ 10)) with (inject_Z (2 ^ 10) * inject_Z (5 ^ 10)). rewrite Qmult_assoc, C, inject_Z_mult. reflexivity. }
      assert (VM : v == mag x). { rewrite TE, inject_Z_mult, <- C in E. change (inject_Z (2 ^ 10)) with (1024 # 1) in E. change (inject_Z (5 ^ 10)) with (9765625 # 1) in E. change (inject_Z (10 ^ 10)) with (10000000000 # 1) in E. lra. }
      assert (MP : 0 < mag x). { unfold mag. pose proof (pow2_pos (expo x)). assert (0 < inject_Z (mant x)) by (change 0 with (inject_Z 0); apply (proj1 (inj_lt _ _)); lia). nra. }
      assert (KP : (1 <= k)%Z). { assert (0 < k)%Z; [|lia]. apply (proj2 (inj_lt _ _)). rewrite <- C. change (inject_Z 0) with 0. change (inject_Z (2 ^ 10)) with (1024 # 1). lra. }
      apply inj_le in KP. rewrite <- C in KP. assert (ML : pow2 (-10) <= mag x). { change (pow2 (-10)) with (1 # 1024). change (inject_Z (2 ^ 10)) with (1024 # 1) in KP. change (inject_Z 1) with 1 in KP. lra. }
      rewrite EM in ML. pose proof (rep_low m e (-10) 53 ltac:(lia) ltac:(lia) ML). split; [lia|]. pose proof (pow2_pos e). rewrite VM, EM. lra. }
  destruct X as (X1 & X2 & X3). destruct (round_near 53 (-1074) (neg x) m e v ltac:(lia) R1 X1 X2 X3) as [A B]. fold (round_double (neg x) v) in A, B. split; [rewrite A, EM; reflexivity|auto].
Qed.
Lemma read_close x k : (0 <= k <= 40)%Z -> (0 <= mant x < 2 ^ 53)%Z -> mag x <= pow2 k ->
  exists v, reads x v /\ neg (round_double (neg x) v) = neg x /\
    mag x - ((1 # 20000000000) + pow2 (k - 53)) <= mag (round_double (neg x) v) /\ mag (round_double (neg x) v) <= mag x + ((1 # 20000000000) + pow2 (k - 53)).
Proof.
  intros K M U. assert (P40 : pow2 k <= pow2 40) by (apply pow2_le; lia).
  destruct (read_v x M) as (v & R & E). { change (pow2 40) with (1099511627776 # 1) in P40. change (inject_Z (10 ^ 30)) with (1000000000000000000000000000000 # 1). lra. }
  exists v. split; [auto|]. destruct (text_err x v E) as [E1 E2]. pose proof (v_nonneg x v ltac:(lia) E) as V0.
  assert (VK : v <= pow2 k).
  { assert (TJ : (tenth x <= 2 ^ k * 10 ^ 10)%Z).
    { destruct (nearest_err (mag x * inject_Z (10 ^ 10))) as [A _]. fold (tenth x) in A. assert (tenth x < 2 ^ k * 10 ^ 10 + 1)%Z; [|lia]. apply (proj2 (inj_lt _ _)).
      rewrite inject_Z_plus, inject_Z_mult, <- pow2_Z by lia. change (inject_Z (10 ^ 10)) with (10000000000 # 1) in *. change (inject_Z 1) with 1. lra. }
    apply inj_le in TJ. rewrite <- E, inject_Z_mult, <- pow2_Z in TJ by lia. change (inject_Z (10 ^ 10)) with (10000000000 # 1) in *. lra. }
  destruct (round_small (neg x) v k ltac:(lia) V0 VK) as (A & B & C). split; [auto|]. lra.
Qed.
Lemma float_exact x : (0 <= mant x < 2 ^ 24)%Z -> pow2 (-9) <= mag x -> mag x < inject_Z (10 ^ 30) ->
  exists v, reads x v /\ let y := round_double (neg x) v in mag (round_float (neg y) (mag y)) == mag x /\ neg (round_float (neg y) (mag y)) = neg x.
Proof.
  intros M L U. change (pow2 (-9)) with (1 # 512) in L.
  destruct (Z.eq_dec (mant x) 0) as [Z0|Z0]. { assert (M0 : mag x == 0) by (unfold mag; rewrite Z0; change (inject_Z 0) with 0; lra). lra. }
  destruct (normal_rep 24 x ltac:(lia) ltac:(lia)) as (m & e & R1 & _ & EM).
  assert (EL : (-9 - 24 < e)%Z) by (apply (rep_low m e (-9) 24); [lia|lia|rewrite <- EM; auto]).
  assert (PE : pow2 (-32) <= pow2 e) by (apply pow2_le; lia). change (pow2 (-32)) with (1 # 4294967296) in PE.
  assert (G : forall v, let y := round_double (neg x) v in neg y = neg x -> 4 * (mag y - mag x) < pow2 e -> 4 * (mag x - mag y) < pow2 e ->
    mag (round_float (neg y) (mag y)) == mag x /\ neg (round_float (neg y) (mag y)) = neg x).
  { intros v y N D1 D2. rewrite EM in D1, D2. destruct (round_near 24 (-149) (neg y) m e (mag y) ltac:(lia) R1 ltac:(lia) D1 D2) as [A B]. fold (round_float (neg y) (mag y)) in A, B. split; [rewrite A, EM; reflexivity|congruence]. }
  destruct (Qlt_le_dec (mag x) (pow2 13)) as [S|S].
  - destruct (read_close x 13 ltac:(lia) ltac:(lia) ltac:(lra)) as (v & R & N & A & B). exists v. split; [auto|]. change (pow2 (13 - 53)) with (1 # 1099511627776) in A, B. apply G; [auto|lra|lra].
  - assert (E2 : (13 - 24 < e)%Z) by (apply (rep_low m e 13 24); [lia|lia|rewrite <- EM; auto]).
    destruct (read_exact x ltac:(lia) U) as (v & R & A & B).
    { right. exists (m * 2 ^ (e + 10))%Z. rewrite EM, inject_Z_mult, <- (pow2_Z (e + 10)), <- (pow2_Z 10), pow2_add by lia. ring. }
    exists v. split; [auto|]. pose proof (pow2_pos e). apply G; [auto|lra|lra].
Qed.
Lemma read_lost x : (0 <= mant x < 2 ^ 53)%Z -> mag x <= 1 # 20000000000 -> exists v, reads x v /\ mag (round_double (neg x) v) == 0.
Proof.
  intros M U. destruct (read_v x M) as (v & R & E). { change (inject_Z (10 ^ 30)) with (1000000000000000000000000000000 # 1). lra. }
  exists v. split; [auto|]. assert (T0 : tenth x = 0%Z).
  { unfold tenth. pose proof (mag_nonneg x ltac:(lia)) as P. set (q := mag x * inject_Z (10 ^ 10)). assert (Q0 : 0 <= q /\ q <= 1 # 2) by (unfold q; change (inject_Z (10 ^ 10)) with (10000000000 # 1); lra).
    unfold nearest. assert (F : Qfloor q = 0%Z). { pose proof (Qfloor_le q) as A. pose proof (floor_lt q) as B. assert (X : (Qfloor q < 1)%Z) by (apply (proj2 (inj_lt _ _)); change (inject_Z 1) with 1; lra).
      assert (Y : (-1 < Qfloor q)%Z) by (apply (proj2 (inj_lt _ _)); change (inject_Z (-1)) with (-1 # 1); lra). lia. }
    rewrite F. destruct (Qle_bool (1 # 2) (q - inject_Z 0)); [|reflexivity]. assert (X : q - inject_Z 0 <= 1 # 2) by (change (inject_Z 0) with 0; lra). apply Qle_bool_iff in X. rewrite X. reflexivity. }
  rewrite T0 in E. change (inject_Z (10 ^ 10)) with (10000000000 # 1) in *. change (inject_Z 0) with 0 in E. apply round_zero. lra.
Qed.
Lemma read_huge x : (0 <= mant x)%Z -> inject_Z (10 ^ 31) <= mag x -> exists v, reads x v /\ mag (round_double (neg x) v) <= mag x * (1 # 5).
Proof.
  intros M L. destruct (read_cut x M) as (N & A & B & N0 & C).
  { unfold tenth. destruct (nearest_err (mag x * inject_Z (10 ^ 10))) as [_ E]. set (n := nearest (mag x * inject_Z (10 ^ 10))) in *.
    assert (10 ^ 41 - 1 < n)%Z; [|lia]. apply (proj2 (inj_lt _ _)). change (inject_Z (10 ^ 31)) with (10000000000000000000000000000000 # 1) in L. change (inject_Z (10 ^ 41 - 1)) with (99999999999999999999999999999999999999999 # 1). change (inject_Z (10 ^ 10)) with (10000000000 # 1) in *. lra. }
  exists (N # 1). unfold reads, T. split; [auto|]. change (N # 1) with (inject_Z N).
  assert (P : 1 <= inject_Z N) by (change 1 with (inject_Z 1); apply (proj1 (inj_le _ _)); lia).
  destruct (round_err 53 (-1074) (neg x) (inject_Z N) ltac:(lra)) as (e & _ & _ & EE & _ & E2). fold (round_double (neg x) (inject_Z N)) in E2.
  destruct (lead_between (inject_Z N) ltac:(lra)) as [L1 L2].
  assert (PE : 2 * pow2 (e - 1) <= inject_Z N). { assert (X : pow2 (e - 1) <= pow2 (lead (inject_Z N) - 1)); [|pose proof (pow2_pred (lead (inject_Z N))); lra]. apply pow2_le.
    assert (0 < lead (inject_Z N) + 1)%Z; [|lia]. apply pow2_lt_inv. change (pow2 0) with 1. lra. }
  assert (TM : inject_Z (10 * N) * inject_Z (10 ^ 10) <= inject_Z (tenth x)). { rewrite <- inject_Z_mult. apply (proj1 (inj_le _ _)). pose proof (Z.mul_div_le (tenth x) (10 ^ 10) ltac:(lia)). lia. }
  destruct (nearest_err (mag x * inject_Z (10 ^ 10))) as [E _]. fold (tenth x) in E. rewrite inject_Z_mult in TM. change (inject_Z 10) with (10 # 1) in TM. change (inject_Z (10 ^ 10)) with (10000000000 # 1) in *. change (inject_Z (10 ^ 31)) with (10000000000000000000000000000000 # 1) in L. lra.
Qed.
(** ** through the store *)
Lemma trip a p h okx t r p1 res k x v : tables_ok okx -> text t -> sp_create true true okx (Some (t ++ 0%Z :: r)) = Ret (Some p) -> Forall valid_op h -> (zlen h < big)%Z ->
  sp_run p h = Ret (p1, res) -> cstring k -> tables_ok (sa_table a) -> sa_key a = true -> sa_val a = true -> sa_entry a = true -> (0 <= mant x)%Z -> reads x v ->
  exists p2, add_double a p1 k x = Ret (p2, 0%Z) /\ get_double p2 k = Ret (0%Z, Some (round_double (neg x) v)).
Proof.
  intros TO TT E V B ER K TA A1 A2 A3 M [R1 R2]. destruct (sp_create_ok true true okx t r (Some (t ++ 0%Z :: r)) TO TT (or_intror eq_refl)) as [(p0 & E0 & R & _)|(X & _)]; [|congruence].
  rewrite E in E0. injection E0 as <-. destruct (sp_run_ok h p [] R V ltac:(rewrite zlen_nil; lia)) as (q & E' & R' & _). rewrite ER in E'. injection E' as <- _.
  apply (store_read a p1 (fst (m_run [] h)) k (fmt10 x)); auto.
  - apply fmt10_c; auto.
  - assert (G : forall h s, (zlen (fst (m_run s h)) <= zlen s + zlen h)%Z).
    { clear. induction h as [|o h IH]; intro s; cbn [m_run fst]; [pose proof (zlen_nonneg (@nil sp_op)); lia|]. pose proof (m_step_len s o). specialize (IH (fst (m_step s o))). rewrite zlen_cons. lia. }
    specialize (G h []). rewrite zlen_nil in G. lia.
  - unfold add_succeeds. rewrite A1, A2, A3. reflexivity.
Qed.

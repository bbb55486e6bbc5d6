From Verif Require Import CBase SeqLib CStr StringBuilderModel StringBuilderSpec.

Definition pmax : Z := 9223372036854775808.

(** the builder [sb] holds text [t] *)
Definition holds (sb : sbuilder) (t : list Z) : Prop :=
  sb_len sb = zlen t /\ zlen (sb_buf sb) = sb_alloc sb /\ 2 <= sb_alloc sb < pmax /\
  exists rest, sb_buf sb = t ++ 0 :: rest.

Lemma u64_small x : 0 <= x < two64 -> u64 x = x.
Proof. apply Z.mod_small. Qed.

Lemma sb_double_ok : forall fuel k s need, 0 <= need < two64 -> 1 <= s < two64 ->
  (k + fuel = 64)%nat -> (exists q, s = q * 2 ^ Z.of_nat k) ->
  (exists s', sb_double fuel s need = Ret (Some s') /\ need <= s') \/ sb_double fuel s need = Ret None.
Proof.
  induction fuel as [|fuel IH]; intros k s need Hn Hs Hk [q Hq]; cbn [sb_double]; destruct (s <? need) eqn:E.
  - exfalso. assert (k = 64%nat) by lia. subst k. change (2 ^ Z.of_nat 64) with two64 in Hq. unfold two64 in *. lia.
  - left. exists s. split; [reflexivity|lia].
  - cbv zeta. destruct (u64 (s * 2) =? 0) eqn:Z0; [right; reflexivity|].
    apply (IH (S k)); try assumption; [unfold u64 in *; pose proof (Z.mod_pos_bound (s * 2) two64 ltac:(unfold two64; lia)); lia|lia|].
    assert (0 <= Z.of_nat k < 64) as K by lia.
    assert (two64 = 2 ^ (63 - Z.of_nat k) * 2 ^ Z.of_nat (S k)) as T.
    { rewrite <- Z.pow_add_r by lia. replace (63 - Z.of_nat k + Z.of_nat (S k)) with 64 by lia. reflexivity. }
    exists (q - s * 2 / two64 * 2 ^ (63 - Z.of_nat k)).
    unfold u64. rewrite Z.mod_eq by (unfold two64; lia). rewrite Z.mul_sub_distr_r, <- Z.mul_assoc, <- T.
    rewrite Nat2Z.inj_succ, Z.pow_succ_r by lia. rewrite Hq at 1. rewrite (Z.mul_comm two64). ring.
  - left. exists s. split; [reflexivity|lia].
Qed.

Lemma ensure_ok al sb t n : sane al -> holds sb t -> 1 <= n < pmax ->
  (exists sb', sb_ensure al sb n = Ret (sb', 0) /\ holds sb' t /\ zlen t + n + 1 <= sb_alloc sb') \/
  (exists code, sb_ensure al sb n = Ret (sb, code) /\ code < 0).
Proof.
  intros SA (HL & HA & HB & rest & HE) Hn. unfold sb_ensure, pmax in *.
  destruct (n =? 0) eqn:E0; [lia|]. pose proof (zlen_nonneg t).
  assert (zlen t < sb_alloc sb) by (rewrite <- HA, HE, zlen_app, zlen_cons; pose proof (zlen_nonneg rest); lia).
  rewrite u64_small by (unfold two64; lia). cbv zeta.
  destruct (sb_alloc sb >=? sb_len sb + n + 1) eqn:E1.
  - left. exists sb. repeat split; eauto; unfold pmax; lia.
  - destruct (sb_double_ok 64 0 (sb_alloc sb) (sb_len sb + n + 1)) as [[s' [D HS]]|D];
      try (unfold two64; lia); [exists (sb_alloc sb); lia| |]; rewrite D; cbn [bind].
    + unfold realloc. destruct (al s') as [nb|] eqn:EA; [|right; eexists; split; [reflexivity|lia]].
      left. destruct (SA _ _ EA) as [LN KN]. eexists. split; [reflexivity|].
      rewrite (ztake_all s') by lia. cbn [sb_len sb_buf sb_alloc].
      split; [|lia]. unfold holds. cbn [sb_len sb_buf sb_alloc].
      split; [exact HL|]. split; [rewrite zlen_app, zlen_zdrop by lia; lia|]. split; [unfold pmax; lia|].
      exists (rest ++ zdrop (zlen (sb_buf sb)) nb). rewrite HE at 1. rewrite <- app_assoc. reflexivity.
    + right. eexists. split; [reflexivity|lia].
Qed.

(** writing a non-empty piece and a terminator after the text *)
Lemma write_piece sb t p : holds sb t -> zlen t + zlen p + 1 <= sb_alloc sb -> p <> [] ->
  exists b1 b2, mwrite (sb_buf sb) (sb_len sb) p = Ret b1 /\ mstore b1 (zlen t + zlen p) 0 = Ret b2 /\
   holds (mk_sb b2 (sb_alloc sb) (zlen t + zlen p)) (t ++ p).
Proof.
  intros (HL & HA & HB & rest & HE) R NP. pose proof (zlen_nonneg t).
  assert (zlen (0 :: rest) = sb_alloc sb - zlen t) as LR by (rewrite <- HA, HE, zlen_app; lia).
  destruct (split_first_n (zlen p) (0 :: rest)) as (o1 & o2 & EO & L1); [pose proof (zlen_nonneg p); lia|].
  rewrite HE, EO, HL.
  destruct (zlen_pos_cons o2) as (y & o3 & E2).
  { rewrite EO, zlen_app in LR. lia. }
  rewrite (mwrite_app t p o1 o2) by (try reflexivity; lia).
  do 2 eexists. split; [reflexivity|]. rewrite E2. rewrite (mstore_app (t ++ p) o3 0 y) by (rewrite zlen_app; reflexivity).
  split; [reflexivity|]. unfold holds. cbn [sb_len sb_buf sb_alloc]. rewrite <- app_assoc.
  split; [rewrite zlen_app; reflexivity|]. split; [|split; [exact HB|]].
  - rewrite EO, E2, zlen_app, zlen_cons in LR. rewrite !zlen_app, !zlen_cons. change (zlen (@nil Z)) with 0. lia.
  - exists o3. reflexivity.
Qed.

Lemma appendn_ok al sb t str n : sane al -> holds sb t -> 1 <= n <= zlen str -> n < pmax ->
  (exists sb', sb_appendnstr al sb str n = Ret (sb', 0) /\ holds sb' (t ++ ztake n str)) \/
  (exists code, sb_appendnstr al sb str n = Ret (sb, code) /\ code < 0).
Proof.
  intros SA H Hn Hp. unfold sb_appendnstr. destruct (n =? 0) eqn:E0; [lia|]. cbn [bind]. rewrite E0.
  destruct (ensure_ok al sb t n SA H ltac:(lia)) as [(sb' & E & H' & R)|(code & E & C)]; rewrite E; cbn [bind].
  - change (negb (0 =? 0)) with false. cbv iota. rewrite mread_ok by lia. cbn [bind].
    assert (zlen (ztake n str) = n) as LN by (apply zlen_ztake; lia).
    assert (ztake n str <> []) as NN by (intro X; rewrite X in LN; change (zlen (@nil Z)) with 0 in LN; lia).
    destruct (write_piece sb' t (ztake n str) H' ltac:(lia) NN) as (b1 & b2 & W1 & W2 & H2).
    rewrite LN in *. unfold zsub. rewrite zdrop_0, W1. cbn [bind].
    destruct H' as (L' & A' & B' & _). unfold pmax in *. pose proof (zlen_nonneg t).
    rewrite L', u64_small by (unfold two64; lia). rewrite W2. cbn [bind]. left. eexists. split; [reflexivity|exact H2].
  - destruct (code =? 0) eqn:C0; [lia|]. cbn [negb]. right. eexists. split; [reflexivity|lia].
Qed.

Lemma step_ok al sb t o : sane al -> holds sb t -> sb_valid o ->
  exists sb' code t', sb_step al sb o = Ret (sb', code) /\ sb_spec_step t o code t' /\ holds sb' t'.
Proof.
  intros SA H V. destruct o as [c|s|s n|p|]; cbn [sb_step].
  - unfold sb_appendchar.
    destruct (ensure_ok al sb t 1 SA H ltac:(unfold pmax; lia)) as [(sb' & E & H' & R)|(code & E & C)]; rewrite E; cbn [bind].
    + change (negb (0 =? 0)) with false. cbv iota.
      destruct (write_piece sb' t [c] H' ltac:(exact R) ltac:(discriminate)) as (b1 & b2 & W1 & W2 & H2).
      unfold mstore at 1. rewrite W1. cbn [bind]. change (zlen [c]) with 1 in *.
      destruct H' as (L' & A' & B' & _). unfold pmax in *. pose proof (zlen_nonneg t).
      rewrite L', u64_small by (unfold two64; lia). rewrite W2. cbn [bind].
      do 3 eexists. split; [reflexivity|]. split; [apply ss_ok with (p := [c]); [constructor|discriminate]|exact H2].
    + destruct (code =? 0) eqn:C0; [lia|]. cbn [negb].
      exists sb, (-1), t. split; [reflexivity|]. split; [apply ss_fail; [discriminate|lia]|exact H].
  - destruct V as (LS & u & r & -> & T). unfold sb_appendstr.
    pose proof (strlen_at_text [] u r 0 eq_refl T) as SL. cbn [app] in SL.
    destruct (Z.eq_dec (zlen u) 0) as [Z0|NZ].
    + unfold sb_appendnstr. cbn [Z.eqb]. rewrite SL. cbn [bind]. rewrite Z0. cbn [Z.eqb].
      exists sb, (-2), t. split; [reflexivity|]. split; [apply ss_fail; [discriminate|lia]|exact H].
    + assert (sb_appendnstr al sb (u ++ 0 :: r) 0 = sb_appendnstr al sb (u ++ 0 :: r) (zlen u)) as ->.
      { unfold sb_appendnstr. destruct (zlen u =? 0) eqn:C; [lia|]. cbn [Z.eqb]. rewrite SL. cbn [bind]. rewrite C. reflexivity. }
      pose proof (zlen_nonneg u). rewrite zlen_app in LS. pose proof (zlen_nonneg (0 :: r)).
      destruct (appendn_ok al sb t (u ++ 0 :: r) (zlen u) SA H) as [(sb' & E & H')|(code & E & C)];
        [rewrite zlen_app; lia|unfold pmax; lia| |]; rewrite E.
      * rewrite ztake_app_len in H'. do 3 eexists. split; [reflexivity|]. split; [|exact H'].
        apply ss_ok; [constructor; exact T|]. intros ->. apply NZ. reflexivity.
      * do 3 eexists. split; [reflexivity|]. split; [apply ss_fail; [discriminate|exact C]|exact H].
  - destruct V as [LS V].
    destruct (appendn_ok al sb t s n SA H V) as [(sb' & E & H')|(code & E & C)]; [unfold pmax; lia| |]; rewrite E.
    + do 3 eexists. split; [reflexivity|]. split; [|exact H']. apply ss_ok; [constructor|].
      intro X. apply (f_equal zlen) in X. rewrite zlen_ztake in X by lia. change (zlen (@nil Z)) with 0 in X. lia.
    + do 3 eexists. split; [reflexivity|]. split; [apply ss_fail; [discriminate|exact C]|exact H].
  - cbn [sb_valid] in V. unfold sb_appendf, vsnprintf_len, two31 in *. pose proof (zlen_nonneg p).
    rewrite (u64_small (zlen p)) by (unfold two64; lia). cbv zeta.
    destruct (zlen p <? 1) eqn:P1.
    + exists sb, (-2), t. split; [reflexivity|]. split; [apply ss_fail; [discriminate|lia]|exact H].
    + destruct (ensure_ok al sb t (zlen p) SA H ltac:(unfold pmax; lia)) as [(sb' & E & H' & R)|(code & E & C)]; rewrite E; cbn [bind].
      * change (negb (0 =? 0)) with false. cbv iota. unfold snprintf_at. rewrite (u64_small (zlen p + 1)) by (unfold two64; lia).
        destruct (zlen p + 1 =? 0) eqn:C0; [lia|]. replace (zlen p + 1 - 1) with (zlen p) by lia.
        rewrite (ztake_all (zlen p)) by lia.
        assert (p <> []) as NP by (intros ->; change (zlen (@nil Z)) with 0 in P1; lia).
        pose proof H' as (L' & A' & B' & rest & HE). unfold pmax in *. pose proof (zlen_nonneg t).
        assert (zlen (0 :: rest) = sb_alloc sb' - zlen t) as LR by (rewrite <- A', HE, zlen_app; lia).
        destruct (split_first_n (zlen p + 1) (0 :: rest)) as (o1 & o2 & EO & L1); [lia|].
        rewrite HE, EO, L'. rewrite (mwrite_app t (p ++ [0]) o1 o2) by (try reflexivity; rewrite zlen_snoc; lia). cbn [bind].
        rewrite u64_small by (unfold two64; lia).
        replace ((t ++ p ++ [0]) ++ o2) with ((t ++ p) ++ 0 :: o2) by (rewrite <- !app_assoc; reflexivity).
        rewrite mstore_app by (rewrite zlen_app; reflexivity). cbn [bind].
        do 3 eexists. split; [reflexivity|]. split; [apply ss_ok; [constructor|exact NP]|].
        unfold holds. cbn [sb_len sb_buf sb_alloc]. split; [rewrite zlen_app; reflexivity|]. split; [|split; [exact B'|]].
        -- rewrite EO, zlen_app in LR. rewrite !zlen_app, zlen_cons. change (zlen (@nil Z)) with 0. lia.
        -- exists o2. rewrite <- !app_assoc. reflexivity.
      * destruct (code =? 0) eqn:C0; [lia|]. cbn [negb].
        exists sb, (-3), t. split; [reflexivity|]. split; [apply ss_fail; [discriminate|lia]|exact H].
  - unfold sb_clear. destruct H as (L' & A' & B' & rest & HE).
    destruct (zlen_pos_cons (sb_buf sb)) as (y & r & EY); [lia|]. rewrite EY.
    assert (mstore (y :: r) 0 0 = Ret (0 :: r)) as -> by (apply (mstore_app [] r 0 y 0); reflexivity). cbn [bind].
    do 3 eexists. split; [reflexivity|]. split; [constructor|].
    unfold holds. cbn [sb_len sb_buf sb_alloc]. split; [reflexivity|]. split; [rewrite EY in A'; rewrite zlen_cons in *; lia|].
    split; [exact B'|]. exists r. reflexivity.
Qed.

Lemma observe_ok sb t : holds sb t -> sb_observe sb = Ret (zlen t, t ++ [0]).
Proof.
  intros (L' & A' & B' & rest & HE). unfold sb_observe. rewrite L', HE. pose proof (zlen_nonneg t).
  rewrite mread_ok; [|lia|lia|rewrite zlen_app, zlen_cons; pose proof (zlen_nonneg rest); lia].
  cbn [bind]. do 2 f_equal. unfold zsub. rewrite zdrop_0, ztake_app, (ztake_all (zlen t + 1) t) by lia.
  replace (zlen t + 1 - zlen t) with 1 by lia. rewrite ztake_cons by lia. reflexivity.
Qed.

Lemma run_ok : forall h sb t, holds sb t -> Forall (fun x => sane (fst x) /\ sb_valid (snd x)) h ->
  exists obs, sb_run sb h = Ret obs /\ sb_spec_run t h obs.
Proof.
  induction h as [|[al o] h IH]; intros sb t H F; cbn [sb_run].
  - eexists; split; [reflexivity|constructor].
  - inversion_clear F as [|x l [SA V] F']. cbn [fst snd] in *.
    destruct (step_ok al sb t o SA H V) as (sb' & code & t' & E & SP & H'). rewrite E. cbn [bind].
    rewrite (observe_ok sb' t' H'). cbn [bind]. destruct (IH sb' t' H' F') as (obs & R & SR). rewrite R. cbn [bind].
    eexists. split; [reflexivity|]. econstructor; eassumption.
Qed.

Lemma create_ok al1 al2 init : sane al1 -> sane al2 -> 0 <= init ->
  sb_create al1 al2 init = Ret None \/ exists sb, sb_create al1 al2 init = Ret (Some sb) /\ holds sb [].
Proof.
  intros S1 S2 HI. unfold sb_create. destruct (al1 24) as [z|]; [|left; reflexivity]. cbv zeta.
  set (k := if init <? 2 then 128 else init).
  assert (2 <= k) as HK by (unfold k; destruct (init <? 2) eqn:E; lia).
  destruct (al2 k) as [b|] eqn:E; [|left; reflexivity]. right. destruct (S2 _ _ E) as [L K].
  destruct (zlen_pos_cons b ltac:(lia)) as (y & r & ->).
  assert (mstore (y :: r) 0 0 = Ret (0 :: r)) as -> by (apply (mstore_app [] r 0 y 0); reflexivity). cbn [bind].
  eexists. split; [reflexivity|]. unfold holds. cbn [sb_len sb_buf sb_alloc].
  split; [reflexivity|]. split; [rewrite zlen_cons in *; lia|]. split; [unfold pmax; lia|]. exists r. reflexivity.
Qed.
Lemma stringbuilder_lemma al1 al2 init h : sane al1 -> sane al2 -> 0 <= init ->
  Forall (fun x => sane (fst x) /\ sb_valid (snd x)) h ->
  sb_create al1 al2 init = Ret None \/
  exists sb obs, sb_create al1 al2 init = Ret (Some sb) /\ sb_run sb h = Ret obs /\ sb_spec_run [] h obs.
Proof.
  intros S1 S2 HI F. destruct (create_ok al1 al2 init S1 S2 HI) as [E|(sb & E & H)]; [left; exact E|right].
  destruct (run_ok h sb [] H F) as (obs & R & SR). eauto 6.
Qed.

(** ** no spurious failure *)
Lemma sb_double_serves : forall fuel s need, 2 <= s -> need < two64 / 2 -> need <= s * 2 ^ Z.of_nat fuel -> s < 2 * need ->
  exists s', sb_double fuel s need = Ret (Some s') /\ s' < 2 * need /\ need <= s'.
Proof.
  change (two64 / 2) with pmax. unfold pmax.
  induction fuel as [|fuel IH]; intros s need Hs Hn H HB; cbn [sb_double]; destruct (s <? need) eqn:E.
  - cbn in H. lia.
  - exists s; split; [reflexivity|lia].
  - cbv zeta. rewrite u64_small by (unfold two64; lia). destruct (s * 2 =? 0) eqn:Z0; [lia|].
    apply IH; try lia. rewrite Nat2Z.inj_succ, Z.pow_succ_r in H by lia. lia.
  - exists s; split; [reflexivity|lia].
Qed.
Lemma ensure_serves al sb t n : holds sb t -> 1 <= n -> zlen t + n + 1 < pmax -> serves al (2 * (zlen t + n + 1)) ->
  exists sb', sb_ensure al sb n = Ret (sb', 0).
Proof.
  intros (HL & HA & HB & rest & HE) Hn HP SV. unfold sb_ensure, pmax in *. pose proof (zlen_nonneg t).
  destruct (n =? 0) eqn:E0; [lia|]. rewrite u64_small by (unfold two64; lia). cbv zeta.
  destruct (sb_alloc sb >=? sb_len sb + n + 1) eqn:E1; [eauto|].
  destruct (sb_double_serves 64 (sb_alloc sb) (sb_len sb + n + 1)) as (s' & D & B1 & B2); try (change (two64 / 2) with 9223372036854775808); try lia.
  rewrite D. cbn [bind]. unfold realloc. destruct (al s') as [nb|] eqn:EA; [eauto|].
  exfalso. apply (SV s'); [lia|exact EA].
Qed.
Lemma piece_det o p q : piece_of o p -> piece_of o q -> p = q.
Proof.
  intros P Q. destruct P as [c|t r T|s n|t]; inversion Q as [|t2 r2 T2 E| |]; subst; try reflexivity.
  pose proof (find0_text t r T) as F1. rewrite <- E, find0_text in F1 by assumption. injection F1 as F1.
  apply (f_equal (ztake (zlen t))) in E. rewrite ztake_app_len in E. rewrite <- F1, ztake_app_len in E. congruence.
Qed.
Lemma append_succeeds al sb t o p : sane al -> holds sb t -> sb_valid o -> piece_of o p -> p <> [] ->
  zlen t + zlen p + 1 < pmax -> serves al (2 * (zlen t + zlen p + 1)) ->
  exists sb', sb_step al sb o = Ret (sb', 0) /\ holds sb' (t ++ p).
Proof.
  intros SA H V P NP HP SV.
  assert (1 <= zlen p) as L1 by (destruct p; [congruence|rewrite zlen_cons; pose proof (zlen_nonneg p); lia]).
  destruct (step_ok al sb t o SA H V) as (sb' & code & t' & E & SP & H').
  assert (code = 0) as ->.
  { destruct (ensure_serves al sb t (zlen p) H L1 HP SV) as [sb2 EN].
    inversion P; subst; cbn [sb_step] in E.
    - unfold sb_appendchar in E. change (zlen [c]) with 1 in EN. rewrite EN in E. cbn [bind Z.eqb negb] in E.
      destruct (mstore (sb_buf sb2) (sb_len sb2) c) as [b| | |]; cbn [bind] in E; try discriminate.
      destruct (mstore b (u64 (sb_len sb2 + 1)) 0); cbn [bind] in E; try discriminate. congruence.
    - unfold sb_appendstr, sb_appendnstr in E. cbn [Z.eqb] in E.
      pose proof (strlen_at_text [] p r 0 eq_refl H0) as SL. cbn [app] in SL. rewrite SL in E. cbn [bind] in E.
      destruct (zlen p =? 0) eqn:Z0; [lia|]. rewrite EN in E. cbn [bind Z.eqb negb] in E.
      destruct (mread (p ++ 0 :: r) 0 (zlen p)) as [m| | |]; cbn [bind] in E; try discriminate.
      destruct (mwrite (sb_buf sb2) (sb_len sb2) m) as [b| | |]; cbn [bind] in E; try discriminate.
      destruct (mstore b (u64 (sb_len sb2 + zlen p)) 0); cbn [bind] in E; try discriminate. congruence.
    - unfold sb_appendnstr in E. cbn [sb_valid] in V. destruct V as [_ V]. rewrite (zlen_ztake n s) in EN by lia.
      destruct (n =? 0) eqn:Z0; [lia|]. cbn [bind] in E. rewrite Z0 in E. rewrite EN in E. cbn [bind Z.eqb negb] in E.
      destruct (mread s 0 n) as [m| | |]; cbn [bind] in E; try discriminate.
      destruct (mwrite (sb_buf sb2) (sb_len sb2) m) as [b| | |]; cbn [bind] in E; try discriminate.
      destruct (mstore b (u64 (sb_len sb2 + n)) 0); cbn [bind] in E; try discriminate. congruence.
    - unfold sb_appendf, vsnprintf_len in E. cbn [sb_valid] in V. unfold two31 in V. rewrite (u64_small (zlen p)) in E by (unfold two64; lia).
      cbv zeta in E. destruct (zlen p <? 1) eqn:Z0; [lia|]. rewrite EN in E. cbn [bind Z.eqb negb] in E.
      destruct (snprintf_at (sb_buf sb2) (sb_len sb2) (u64 (zlen p + 1)) p) as [[b z]| | |]; cbn [bind] in E; try discriminate.
      destruct (mstore b (u64 (sb_len sb2 + zlen p)) 0); cbn [bind] in E; try discriminate. congruence. }
  exists sb'. split; [exact E|].
  inversion SP as [t0 E1 E2 E3|t0 o' p' P' NP' E1 E2 E3 E4|t0 o' c' O' C' E1 E2 E3 E4]; subst.
  - inversion P.
  - assert (p' = p) as ->; [|exact H'].
    eapply piece_det; eassumption.
  - lia.
Qed.

(** ** findings *)
(** a formatting error: 0 (success) is returned and the last character is lost *)
Lemma appendf_error_drops al sb t c : sane al -> holds sb (t ++ [c]) -> exists sb',
  sb_appendf al sb None = Ret (sb', 0) /\ holds sb' t.
Proof.
  intros SA (HL & HA & HB & rest & HE). unfold sb_appendf, vsnprintf_len. change (u64 (-1)) with (two64 - 1).
  cbv zeta. change (two64 - 1 <? 1) with false. cbv iota. unfold sb_ensure. change (two64 - 1 =? 0) with false. cbv iota zeta.
  rewrite HL, zlen_snoc in *. pose proof (zlen_nonneg t). unfold pmax in *.
  assert (zlen t + 2 <= sb_alloc sb).
  { rewrite <- HA, HE, zlen_app, zlen_snoc, zlen_cons. pose proof (zlen_nonneg rest). lia. }
  assert (u64 (zlen t + 1 + (two64 - 1) + 1) = zlen t + 1) as ->.
  { unfold u64. symmetry. apply Z.mod_unique with 1; unfold two64; lia. }
  destruct (sb_alloc sb >=? zlen t + 1) eqn:E; [|lia]. cbn [bind Z.eqb negb].
  rewrite HL. assert (u64 (zlen t + 1 + (two64 - 1)) = zlen t) as ->.
  { unfold u64. symmetry. apply Z.mod_unique with 1; unfold two64; lia. }
  rewrite HE, <- app_assoc. cbn [app]. rewrite mstore_app by reflexivity. cbn [bind].
  eexists. split; [reflexivity|]. unfold holds. cbn [sb_len sb_buf sb_alloc]. split; [reflexivity|].
  rewrite <- app_assoc. cbn [app]. split; [|split; [exact HB|eauto]].
  rewrite <- HA, HE, !zlen_app, !zlen_cons. change (zlen (@nil Z)) with 0. lia.
Qed.
Lemma appendf_error_ub al sb : holds sb [] -> sb_appendf al sb None = Ub.
Proof.
  intros (HL & HA & HB & rest & HE). unfold sb_appendf, vsnprintf_len. change (u64 (-1)) with (two64 - 1).
  cbv zeta. change (two64 - 1 <? 1) with false. cbv iota. unfold sb_ensure. change (two64 - 1 =? 0) with false. cbv iota zeta.
  rewrite HL. change (zlen (@nil Z)) with 0. change (u64 (0 + (two64 - 1) + 1)) with 0. unfold pmax in *.
  destruct (sb_alloc sb >=? 0) eqn:E; [|lia]. cbn [bind Z.eqb negb]. rewrite HL. change (zlen (@nil Z)) with 0.
  change (u64 (0 + (two64 - 1))) with (two64 - 1). unfold mstore, mwrite.
  destruct ((0 <=? two64 - 1) && (two64 - 1 + zlen [0] <=? zlen (sb_buf sb))) eqn:C; [|reflexivity].
  change (zlen [0]) with 1 in C. unfold two64 in *. lia.
Qed.
(** the documented clamp of appendnstr to the string's length does not happen: the bytes after the terminator are read *)
Lemma appendn_overread al sb t u n : sane al -> holds sb t -> text u -> zlen u + 1 < n -> zlen t + n + 1 < pmax ->
  serves al (2 * (zlen t + n + 1)) -> sb_appendnstr al sb (u ++ [0]) n = Ub.
Proof.
  intros SA H T Hn HP SV. pose proof (zlen_nonneg u). unfold sb_appendnstr. destruct (n =? 0) eqn:E; [lia|]. cbn [bind]. rewrite E.
  destruct (ensure_serves al sb t n H ltac:(lia) HP SV) as [sb' ->]. cbn [bind Z.eqb negb].
  unfold mread. rewrite zlen_snoc. destruct ((0 <=? 0) && (0 <=? n) && (0 + n <=? zlen u + 1)) eqn:C; [lia|reflexivity].
Qed.

Lemma exec_ok : forall h sb t, holds sb t -> Forall (fun x => sane (fst x) /\ sb_valid (snd x)) h ->
  exists sb' t', sb_exec sb h = Ret sb' /\ holds sb' t'.
Proof.
  induction h as [|[al o] h IH]; intros sb t H F; cbn [sb_exec]; [eauto|].
  inversion_clear F as [|x l [SA V] F']. cbn [fst snd] in *.
  destruct (step_ok al sb t o SA H V) as (sb' & code & t' & E & SP & H'). rewrite E. cbn [bind]. eauto.
Qed.
Lemma reached_holds sb t : sb_reached sb t -> holds sb t.
Proof.
  intros (al1 & al2 & init & h & sb0 & S1 & S2 & HI & F & C & X & O).
  destruct (create_ok al1 al2 init S1 S2 HI) as [E|(sb1 & E & H)]; rewrite E in C; [discriminate|]. injection C as ->.
  destruct (exec_ok h sb0 [] H F) as (sb' & t' & E' & H'). rewrite E' in X. injection X as ->.
  rewrite (observe_ok sb t' H') in O. injection O as _ O. apply app_inj_tail in O as [-> _]. exact H'.
Qed.
Lemma holds_observe_reached sb sb' t : sb_reached sb t -> forall al o code t', sane al -> sb_valid o ->
  sb_step al sb o = Ret (sb', code) -> sb_observe sb' = Ret (zlen t', t' ++ [0]) -> sb_reached sb' t'.
Proof.
  intros (al1 & al2 & init & h & sb0 & S1 & S2 & HI & F & C & X & O) al o code t' SA V E O'.
  exists al1, al2, init, (h ++ [(al, o)]), sb0. split; [exact S1|]. split; [exact S2|]. split; [exact HI|]. split; [|split; [exact C|split; [|exact O']]].
  - apply Forall_app; split; [exact F|]. constructor; [cbn; auto|constructor].
  - assert (forall h sb0, sb_exec sb0 h = Ret sb -> sb_exec sb0 (h ++ [(al, o)]) = Ret sb') as G; [|apply G; exact X].
    clear -E. induction h as [|[a p] h IH]; intros sb0 X; cbn [app sb_exec] in *.
    + injection X as ->. rewrite E. reflexivity.
    + destruct (sb_step a sb0 p) as [[sb1 c1]| | |]; cbn [bind] in *; try discriminate. apply IH; exact X.
Qed.
Lemma reached_append al sb t o p : sane al -> sb_reached sb t -> sb_valid o -> piece_of o p -> p <> [] ->
  zlen t + zlen p + 1 < 9223372036854775808 -> serves al (2 * (zlen t + zlen p + 1)) ->
  exists sb', sb_step al sb o = Ret (sb', 0) /\ sb_reached sb' (t ++ p).
Proof.
  intros SA R V P NP HP SV.
  destruct (append_succeeds al sb t o p SA (reached_holds _ _ R) V P NP HP SV) as (sb' & E & H).
  exists sb'. split; [exact E|]. eapply holds_observe_reached; try eassumption. apply observe_ok; exact H.
Qed.
Lemma reached_appendf_error al sb t : sane al -> sb_reached sb t ->
  match t with
  | [] => sb_appendf al sb None = Ub
  | _ => exists sb', sb_appendf al sb None = Ret (sb', 0) /\ sb_observe sb' = Ret (zlen t - 1, removelast t ++ [0])
  end.
Proof.
  intros SA R. apply reached_holds in R. destruct t as [|x t0] eqn:ET; [apply appendf_error_ub; exact R|].
  destruct (@exists_last _ (x :: t0) ltac:(discriminate)) as (t' & c & E). rewrite E in *.
  destruct (appendf_error_drops al sb t' c SA R) as (sb' & E' & H'). exists sb'. split; [exact E'|].
  rewrite (observe_ok sb' t' H'), removelast_last, zlen_snoc. do 2 f_equal. lia.
Qed.
Lemma reached_overread al sb t u n : sane al -> sb_reached sb t -> text u -> zlen u + 1 < n ->
  zlen t + n + 1 < 9223372036854775808 -> serves al (2 * (zlen t + n + 1)) -> sb_appendnstr al sb (u ++ [0]) n = Ub.
Proof. intros SA R. apply reached_holds in R. exact (appendn_overread al sb t u n SA R). Qed.

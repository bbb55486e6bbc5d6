From Verif Require Import CBase CStr SeqLib AllocModel AllocSpec.
From Coq Require Import Permutation.

(** ** canaries *)
Lemma check_gen : forall rk prek r1 pre1 u pre2 r2, canary = prek ++ rk ->
  length r1 = length rk -> length r2 = length rk -> zlen pre1 = zlen prek -> zlen pre2 = zlen prek ->
  ((r1 = rk /\ r2 = rk) /\ check_canary (length rk) (pre1 ++ r1 ++ u ++ pre2 ++ r2) (zlen u) (zlen prek) = Ret tt) \/
  (~ (r1 = rk /\ r2 = rk) /\ check_canary (length rk) (pre1 ++ r1 ++ u ++ pre2 ++ r2) (zlen u) (zlen prek) = Abrt).
Proof.
  induction rk as [|k rk IH]; intros prek r1 pre1 u pre2 r2 Ec L1 L2 P1 P2.
  - destruct r1; [|discriminate]. destruct r2; [|discriminate]. left. split; [split; reflexivity|reflexivity].
  - destruct r1 as [|x r1]; [discriminate|]. destruct r2 as [|y r2]; [discriminate|].
    cbn [length check_canary]. cbn [app]. rewrite (mload_app0 pre1) by lia. cbn [bind].
    rewrite Ec at 1 2. rewrite (mload_app0 prek) by reflexivity. cbn [bind].
    destruct (Z.eqb_spec x k) as [->|N]; cbn [negb].
    2:{ right. split; [intros [E _]; congruence|reflexivity]. }
    assert (C8 : zlen prek + 1 + zlen rk = 8).
    { assert (zlen canary = 8) as C by reflexivity. rewrite Ec, zlen_app, zlen_cons in C. lia. }
    assert (zlen r1 = zlen rk) by (unfold zlen; injection L1; lia).
    assert (E : pre1 ++ k :: r1 ++ u ++ pre2 ++ y :: r2 = (pre1 ++ k :: r1 ++ u ++ pre2) ++ y :: r2)
      by (rewrite <- !app_assoc; cbn [app]; rewrite <- !app_assoc; reflexivity).
    rewrite E. clear E.
    assert (Li : canary_size + zlen u + zlen prek = zlen (pre1 ++ k :: r1 ++ u ++ pre2)).
    { rewrite zlen_app, zlen_cons, !zlen_app. unfold canary_size. lia. }
    rewrite (mload_app0 (pre1 ++ k :: r1 ++ u ++ pre2)) by exact Li. cbn [bind].
    destruct (Z.eqb_spec y k) as [->|N]; cbn [negb].
    2:{ right. split; [intros [_ E]; congruence|reflexivity]. }
    replace ((pre1 ++ k :: r1 ++ u ++ pre2) ++ k :: r2) with ((pre1 ++ [k]) ++ r1 ++ u ++ (pre2 ++ [k]) ++ r2)
      by (rewrite <- !app_assoc; cbn [app]; rewrite <- !app_assoc; reflexivity).
    rewrite <- (zlen_snoc prek k).
    destruct (IH (prek ++ [k]) r1 (pre1 ++ [k]) u (pre2 ++ [k]) r2) as [[[E1 E2] R]|[N R]].
    + rewrite <- app_assoc. exact Ec.
    + injection L1; lia.
    + injection L2; lia.
    + rewrite !zlen_snoc; lia.
    + rewrite !zlen_snoc; lia.
    + left. split; [split; congruence|exact R].
    + right. split; [|exact R]. intros [E1 E2]. apply N. split; congruence.
Qed.
Lemma check_ok blk n : 0 <= n -> zlen blk = n + 16 ->
  ((exists u, blk = canary ++ u ++ canary /\ zlen u = n) /\ check_canary 8 blk n 0 = Ret tt) \/
  (~ (exists u, blk = canary ++ u ++ canary /\ zlen u = n) /\ check_canary 8 blk n 0 = Abrt).
Proof.
  intros Hn L. destruct (split_first_n 8 blk) as (c1 & b1 & -> & L1); [lia|]. rewrite zlen_app in L.
  destruct (split_first_n n b1) as (u & c2 & -> & Lu); [lia|]. rewrite zlen_app in L.
  pose proof (check_gen canary [] c1 [] u [] c2 eq_refl) as G. cbn [app] in G. rewrite Lu in G.
  change (length canary) with 8%nat in G. change (zlen (@nil Z)) with 0 in G.
  destruct G as [[[-> ->] R]|[N R]]; try reflexivity; try (unfold zlen in *; lia).
  - left. split; [exists u; split; [reflexivity|exact Lu]|exact R].
  - right. split; [|exact R]. intros (u' & E & Lu'). apply N.
    assert (c1 = canary).
    { rewrite <- (ztake_app_len c1 (u ++ c2)). rewrite E, L1. change 8 with (zlen canary). apply ztake_app_len. }
    subst c1. apply app_inv_head in E. split; [reflexivity|].
    rewrite <- (zdrop_app_len u c2), E, Lu, <- Lu'. apply zdrop_app_len.
Qed.

(** ** invariant *)
Definition entry (x : Z * Z) : Z * alloc := (fst x, {| a_id := ALLOCTOR_ID; a_size := snd x; a_freed := false |}).
Record inv (s : st) (l : live) : Prop := {
  v_on : on s = true;
  v_map : amap s = map entry l;
  v_nodup : NoDup (map fst l);
  v_blk : forall p n, In (p, n) l -> 8 < p /\ 0 <= n < two64 /\ exists blk, hp s (p - 8) = Some blk /\ zlen blk = n + 16
}.

Lemma mget_entry l p : mget (map entry l) p = match size_of l p with Some n => Some {| a_id := ALLOCTOR_ID; a_size := n; a_freed := false |} | None => None end.
Proof. induction l as [|[q n] l IH]; [reflexivity|]. cbn [map entry mget size_of fst snd]. destruct (q =? p); [reflexivity|exact IH]. Qed.
Lemma mdel_entry l p : mdel (map entry l) p = map entry (drop_live l p).
Proof.
  induction l as [|[q n] l IH]; [reflexivity|]. unfold mdel, drop_live in *. cbn [map entry filter fst snd].
  destruct (negb (q =? p)); cbn [map entry fst snd]; rewrite <- IH; reflexivity.
Qed.
Lemma size_of_In l p n : size_of l p = Some n -> In (p, n) l.
Proof.
  induction l as [|[q m] l IH]; [discriminate|]. cbn [size_of]. destruct (Z.eqb_spec q p) as [->|N].
  - intro E. injection E as ->. left. reflexivity.
  - intro E. right. auto.
Qed.
Lemma size_of_None l p : size_of l p = None -> ~ is_live l p.
Proof.
  induction l as [|[q m] l IH]; [intros _ [n []]|]. cbn [size_of]. destruct (Z.eqb_spec q p) as [->|N]; [discriminate|].
  intros E [n [H|H]]; [congruence|]. apply IH; [exact E|]. exists n. exact H.
Qed.
Lemma In_size_of l p n : NoDup (map fst l) -> In (p, n) l -> size_of l p = Some n.
Proof.
  induction l as [|[q m] l IH]; [intros _ []|]. cbn [map fst size_of]. intros D [E|I]; inversion D; subst.
  - injection E as -> ->. rewrite Z.eqb_refl. reflexivity.
  - destruct (Z.eqb_spec q p) as [->|N]; [|auto]. exfalso. apply H1. apply in_map_iff. exists (p, n). split; [reflexivity|exact I].
Qed.
Lemma In_drop l p q n : In (q, n) (drop_live l p) <-> In (q, n) l /\ q <> p.
Proof. unfold drop_live. rewrite filter_In. cbn [fst]. destruct (Z.eqb_spec q p); cbn [negb]; intuition congruence. Qed.
Lemma drop_absent l p : ~ is_live l p -> drop_live l p = l.
Proof.
  induction l as [|[q m] l IH]; [reflexivity|]. intro N. unfold drop_live in *. cbn [filter fst].
  destruct (Z.eqb_spec q p) as [->|Ne]; cbn [negb]; [exfalso; apply N; exists m; left; reflexivity|].
  f_equal. apply IH. intros [k I]. apply N. exists k. right. exact I.
Qed.
Lemma NoDup_drop l p : NoDup (map fst l) -> NoDup (map fst (drop_live l p)).
Proof.
  induction l as [|[q m] l IH]; intro D; [constructor|]. cbn [map fst] in D. inversion D; subst.
  unfold drop_live in *. cbn [filter fst]. destruct (negb (q =? p)); [|auto]. cbn [map fst]. constructor; [|auto].
  intro I. apply in_map_iff in I. destruct I as ([q' k] & E & I). cbn [fst] in E. subst q'.
  apply H1. apply in_map_iff. exists (q, k). split; [reflexivity|]. apply filter_In in I. apply I.
Qed.

(** ** allocation *)
Lemma alloc_ok (lc : libc) s l n a b blk0 : inv s l -> libc_ok lc s -> 0 <= n < two64 - 16 -> lc (n + 16) = Some (a, b) -> zlen blk0 = n + 16 ->
  exists u s', notify_alloc all_good {| on := on s; amap := amap s; hp := hset (hp s) a (Some blk0) |} ALLOCTOR_ID a n = Ret (a + 8, s') /\
    inv s' ((a + 8, n) :: l) /\ hp s' a = Some (canary ++ u ++ canary) /\ u = zsub 8 n blk0 /\ zlen u = n /\
    (forall x, x <> a -> hp s' x = hp s x) /\ ~ is_live l (a + 8) /\ 0 < a.
Proof.
  intros [Hon Hm Hd Hb] Hlc Hn El L0. destruct (Hlc _ _ _ El) as (Ha & Hf & Lb).
  unfold notify_alloc. cbn [on amap hp]. rewrite Hon. destruct (Z.eqb_spec a 0); [lia|]. cbn [negb orb].
  assert (NL : ~ is_live l (a + 8)).
  { intros [k I]. destruct (Hb _ _ I) as (_ & _ & blk & E & _). replace (a + 8 - 8) with a in E by lia. congruence. }
  rewrite Hm, mget_entry. destruct (size_of l (a + canary_size)) as [k|] eqn:Es.
  { exfalso. apply NL. exists k. apply size_of_In. exact Es. }
  cbn [all_good calloc_ok put_ok bind]. unfold hset at 1. rewrite Z.eqb_refl. cbn [bind].
  destruct (split_first_n 8 blk0) as (c1 & b1 & -> & L1); [lia|]. rewrite zlen_app in L0.
  destruct (split_first_n n b1) as (u & c2 & -> & Lu); [lia|]. rewrite zlen_app in L0.
  change (c1 ++ u ++ c2) with ([] ++ c1 ++ u ++ c2). rewrite (mwrite_app [] canary c1) by (try reflexivity; rewrite L1; reflexivity). cbn [app bind].
  replace (canary ++ u ++ c2) with ((canary ++ u) ++ c2 ++ []) by (rewrite app_nil_r, <- app_assoc; reflexivity).
  rewrite (mwrite_app (canary ++ u) canary c2 []) by (try (rewrite zlen_app, Lu; reflexivity); change (zlen canary) with 8; lia).
  cbn [bind]. rewrite app_nil_r, <- app_assoc. eexists. eexists.
  split; [reflexivity|]. split; [|split; [|split; [|split; [|split; [|split]]]]].
  - constructor; cbn [on amap hp].
    + reflexivity.
    + unfold mset. rewrite mdel_entry. rewrite drop_absent by exact NL. reflexivity.
    + cbn [map fst]. constructor; [|exact Hd]. intro I. apply in_map_iff in I. destruct I as ([q k] & E & I). cbn [fst] in E. subst q.
      apply NL. exists k. exact I.
    + intros p m [E|I].
      * injection E as <- <-. split; [lia|]. split; [unfold two64 in *; lia|]. unfold hset. replace (a + 8 - 8) with a by lia.
        rewrite Z.eqb_refl. eexists. split; [reflexivity|]. rewrite !zlen_app. change (zlen canary) with 8. lia.
      * destruct (Hb _ _ I) as (B1 & B2 & blk & E & Lk). split; [exact B1|]. split; [exact B2|]. exists blk. split; [|exact Lk].
        unfold hset. destruct (Z.eqb_spec (p - 8) a); [congruence|exact E].
  - cbn [hp]. unfold hset. rewrite Z.eqb_refl. reflexivity.
  - unfold zsub. rewrite <- L1, zdrop_app_len, <- Lu, ztake_app_len. reflexivity.
  - exact Lu.
  - intros x Nx. cbn [hp]. unfold hset. destruct (Z.eqb_spec x a); [contradiction|reflexivity].
  - exact NL.
  - exact Ha.
Qed.
Lemma resize_on s n : on s = true -> 0 <= n < two64 - 16 -> resize_for_canary s n = n + 16.
Proof. intros E H. unfold resize_for_canary, u64. rewrite E. rewrite Z.mod_small; unfold canary_size; lia. Qed.

Lemma malloc_ok lc s l n : inv s l -> libc_ok lc s -> 0 <= n < two64 - 16 ->
  lcu_malloc lc all_good s n = Ret (0, s) /\ lc (n + 16) = None \/
  exists a b s', lc (n + 16) = Some (a, b) /\ lcu_malloc lc all_good s n = Ret (a + 8, s') /\ inv s' ((a + 8, n) :: l) /\
    intact s' (a + 8) n /\ (forall x, x <> a -> hp s' x = hp s x) /\ ~ is_live l (a + 8) /\ 0 < a.
Proof.
  intros I Hlc Hn. unfold lcu_malloc. rewrite (resize_on s n (v_on _ _ I) Hn). unfold c_malloc.
  destruct (lc (n + 16)) as [[a b]|] eqn:E; [right|left; split; reflexivity].
  destruct (Hlc _ _ _ E) as (Ha & Hf & Lb).
  destruct (alloc_ok lc s l n a b b I Hlc Hn E Lb) as (u & s' & R & I' & Hh & Eu & Lu & Fr & NL & _).
  exists a, b, s'. destruct (Z.eqb_spec a 0); [lia|]. split; [reflexivity|]. split; [exact R|]. split; [exact I'|].
  split; [exists u; replace (a + 8 - 8) with a by lia; split; [exact Hh|exact Lu]|]. split; [exact Fr|]. split; [exact NL|exact Ha].
Qed.
Lemma calloc_ok' lc s l c n : inv s l -> libc_ok lc s -> 0 <= c -> 0 <= n -> c * n < two64 - 16 ->
  lcu_calloc lc all_good s c n = Ret (0, s) /\ lc (c * n + 16) = None \/
  exists a s', lcu_calloc lc all_good s c n = Ret (a + 8, s') /\ inv s' ((a + 8, c * n) :: l) /\
    intact s' (a + 8) (c * n) /\ content s' (a + 8) (c * n) = Some (repeat 0 (Z.to_nat (c * n))) /\
    (forall x, x <> a -> hp s' x = hp s x) /\ ~ is_live l (a + 8) /\ 0 < a.
Proof.
  intros I Hlc Hc Hn Hs. unfold lcu_calloc. assert (0 <= c * n) by (apply Z.mul_nonneg_nonneg; lia).
  assert (u64 (c * n) = c * n) as -> by (unfold u64; apply Z.mod_small; unfold two64 in *; lia).
  set (m := c * n) in *. rewrite (resize_on s m (v_on _ _ I)) by lia. unfold c_calloc.
  destruct (lc (m + 16)) as [[a b]|] eqn:E; [right|left; split; reflexivity].
  destruct (Hlc _ _ _ E) as (Ha & Hf & Lb).
  assert (Lz : zlen (repeat 0 (Z.to_nat (m + 16))) = m + 16) by (unfold zlen; rewrite repeat_length; lia).
  destruct (alloc_ok lc s l m a b _ I Hlc ltac:(lia) E Lz) as (u & s' & R & I' & Hh & Eu & Lu & Fr & NL & _).
  exists a, s'. destruct (Z.eqb_spec a 0); [lia|]. split; [exact R|]. split; [exact I'|].
  split; [exists u; replace (a + 8 - 8) with a by lia; split; [exact Hh|exact Lu]|].
  split; [|split; [exact Fr|split; [exact NL|exact Ha]]].
  unfold content. replace (a + 8 - 8) with a by lia. rewrite Hh. f_equal.
  assert (zsub 8 m (canary ++ u ++ canary) = u) as ->.
  { unfold zsub. change 8 with (zlen canary). rewrite zdrop_app_len, <- Lu, ztake_app_len. reflexivity. }
  rewrite Eu. unfold zsub, zdrop, ztake.
  replace (Z.to_nat (m + 16)) with (8 + (Z.to_nat m + 8))%nat by lia. rewrite !repeat_app.
  rewrite skipn_app, skipn_all2 by (rewrite repeat_length; lia). cbn [app]. rewrite repeat_length.
  change (Z.to_nat 8) with 8%nat. cbn [Nat.sub skipn].
  rewrite firstn_app, firstn_all2 by (rewrite repeat_length; lia). rewrite repeat_length, Nat.sub_diag. cbn [firstn]. apply app_nil_r.
Qed.

(** ** writing through a user pointer inside the requested size *)
Lemma user_write_ok s l p n off bytes : inv s l -> In (p, n) l -> 0 <= off -> off + zlen bytes <= n -> intact s p n ->
  exists s', user_write s p off bytes = Ret s' /\ inv s' l /\ intact s' p n /\
    (forall x, x <> p - 8 -> hp s' x = hp s x) /\ amap s' = amap s /\
    (forall c, content s p n = Some c -> content s' p n = Some (zwrite off bytes c)).
Proof.
  intros I Hi Ho Hl (u & Hh & Lu). unfold user_write, user_base, user_off. rewrite (v_on _ _ I). unfold canary_size.
  rewrite Hh. pose proof (zlen_nonneg bytes).
  rewrite mwrite_ok by (rewrite ?zlen_app; change (zlen canary) with 8; lia). cbn [bind].
  assert (W : zwrite (8 + off) bytes (canary ++ u ++ canary) = canary ++ zwrite off bytes u ++ canary).
  { unfold zwrite. rewrite ztake_app, (ztake_all (8 + off) canary) by (change (zlen canary) with 8; lia).
    change (zlen canary) with 8. replace (8 + off - 8) with off by lia.
    rewrite ztake_app_l by lia. rewrite <- !app_assoc. f_equal. f_equal. f_equal.
    rewrite zdrop_app, (zdrop_all _ canary) by (change (zlen canary) with 8; lia). cbn [app].
    change (zlen canary) with 8. replace (8 + off + zlen bytes - 8) with (off + zlen bytes) by lia.
    apply zdrop_app_l. lia. }
  rewrite W. eexists. split; [reflexivity|].
  assert (Lw : zlen (zwrite off bytes u) = n) by (rewrite zlen_zwrite; lia).
  split; [|split; [|split; [|split]]].
  - destruct I as [I1 I2 I3 I4]. constructor; cbn [on amap hp]; try assumption; [reflexivity|].
    intros q m Iq. destruct (I4 _ _ Iq) as (B1 & B2 & blk & E & Lk). split; [exact B1|]. split; [exact B2|].
    unfold hset. destruct (Z.eqb_spec (q - 8) (p - 8)) as [Q|Q]; [|exists blk; split; assumption].
    assert (q = p) by lia. subst q. eexists. split; [reflexivity|].
    pose proof (In_size_of _ _ _ I3 Iq) as Q1. rewrite (In_size_of _ _ _ I3 Hi) in Q1. injection Q1 as <-.
    rewrite !zlen_app. change (zlen canary) with 8. lia.
  - exists (zwrite off bytes u). cbn [hp]. unfold hset. rewrite Z.eqb_refl. split; [reflexivity|exact Lw].
  - intros x Nx. cbn [hp]. unfold hset. destruct (Z.eqb_spec x (p - 8)); [contradiction|reflexivity].
  - reflexivity.
  - intros c. unfold content. cbn [hp]. unfold hset. rewrite Z.eqb_refl, Hh.
    assert (S : forall v, zlen v = n -> zsub 8 n (canary ++ v ++ canary) = v).
    { intros v Lv. unfold zsub. change 8 with (zlen canary). rewrite zdrop_app_len, <- Lv, ztake_app_len. reflexivity. }
    rewrite !S by assumption. intro E. injection E as ->. reflexivity.
Qed.

(** ** free *)
Lemma free_ok s l p : inv s l -> p <> 0 ->
  (~ is_live l p /\ lcu_free s p = Abrt) \/
  exists n, In (p, n) l /\
   ((intact s p n /\ exists s', lcu_free s p = Ret s' /\ inv s' (drop_live l p) /\ hp s' (p - 8) = None /\
       (forall x, x <> p - 8 -> hp s' x = hp s x)) \/
    (~ intact s p n /\ lcu_free s p = Abrt)).
Proof.
  intros [I1 I2 I3 I4] Hp. unfold lcu_free, notify_free. rewrite I1, I2, mget_entry.
  destruct (Z.eqb_spec p 0); [contradiction|]. cbn [negb orb].
  destruct (size_of l p) as [n0|] eqn:Es.
  2:{ left. split; [apply size_of_None; exact Es|reflexivity]. }
  right. pose proof (size_of_In _ _ _ Es) as Hin. exists n0. split; [exact Hin|].
  destruct (I4 _ _ Hin) as (B1 & B2 & blk & Eb & Lb).
  cbn [a_freed a_id a_size]. rewrite Z.eqb_refl. cbn [negb]. unfold corruption_checker, canary_size. rewrite Eb. cbn [a_size].
  destruct (check_ok blk n0) as [[C R]|[C R]]; [lia|exact Lb| |].
  - left. split.
    { destruct C as (u & -> & Lu). exists u. split; assumption. }
    rewrite R. cbn [bind]. destruct (Z.eqb_spec (p - 8) 0); [lia|]. unfold c_free. cbn [hp on amap]. rewrite Eb.
    eexists. split; [reflexivity|]. split; [|split].
    + constructor; cbn [on amap hp].
      * reflexivity.
      * apply mdel_entry.
      * apply NoDup_drop. exact I3.
      * intros q m Iq. apply In_drop in Iq. destruct Iq as [Iq Nq]. destruct (I4 _ _ Iq) as (C1 & C2 & bk & E & Lk).
        split; [exact C1|]. split; [exact C2|]. exists bk. split; [|exact Lk]. unfold hset. destruct (Z.eqb_spec (q - 8) (p - 8)); [lia|exact E].
    + cbn [hp]. unfold hset. rewrite Z.eqb_refl. reflexivity.
    + intros x Nx. cbn [hp]. unfold hset. destruct (Z.eqb_spec x (p - 8)); [contradiction|reflexivity].
  - right. split; [|rewrite R; reflexivity].
    intros (u & E & Lu). apply C. exists u. split; [congruence|exact Lu].
Qed.

(** ** expect_no_allocations *)
Lemma expect_loop_ok s : forall ord sum reps,
  (forall p n, In (p, n) ord -> 0 <= n /\ exists blk, hp s (p - 8) = Some blk /\ zlen blk = n + 16) ->
  ((forall p n, In (p, n) ord -> intact s p n) /\
     exists t, expect_loop s (map entry ord) sum reps = Ret (t, rev ord ++ reps) /\ (0 <= sum < two64 -> t = u64 (sum + total ord))) \/
  (exists p n, In (p, n) ord /\ ~ intact s p n) /\ expect_loop s (map entry ord) sum reps = Abrt.
Proof.
  induction ord as [|[p n] ord IH]; intros sum reps H.
  - left. split; [intros p n []|]. exists sum. split; [reflexivity|]. intro Hs. cbn [total]. unfold u64. rewrite Z.mod_small by lia. lia.
  - cbn [map entry fst snd expect_loop a_freed]. unfold corruption_checker, canary_size. cbn [a_size].
    destruct (H p n (or_introl eq_refl)) as (Hn & blk & Eb & Lb). rewrite Eb.
    destruct (check_ok blk n Hn Lb) as [[C R]|[C R]]; rewrite R; cbn [bind].
    + destruct (IH (u64 (sum + n)) ((p, n) :: reps)) as [[A (t & E & T)]|[(q & m & Iq & Nq) E]].
      * intros q m Iq. apply H. right. exact Iq.
      * left. split; [intros q m [Q|Iq]; [injection Q as <- <-; destruct C as (u & -> & Lu); exists u; split; assumption|auto]|].
        exists t. split; [rewrite E; cbn [rev]; rewrite <- app_assoc; reflexivity|].
        intro Hs. rewrite T by (unfold u64; apply Z.mod_pos_bound; reflexivity). cbn [total]. unfold u64.
        rewrite Zplus_mod_idemp_l. f_equal. lia.
      * right. split; [|exact E]. exists q, m. split; [right; exact Iq|exact Nq].
    + right. split; [|reflexivity]. exists p, n. split; [left; reflexivity|].
      intros (u & E & Lu). apply C. exists u. split; [congruence|exact Lu].
Qed.

(** ** strdup, strndup *)
Lemma content_intact s p n : 0 <= n -> intact s p n -> exists c, content s p n = Some c /\ zlen c = n /\ hp s (p - 8) = Some (canary ++ c ++ canary).
Proof.
  intros Hn (u & Hh & Lu). exists u. unfold content. rewrite Hh. split; [|split; [exact Lu|reflexivity]]. f_equal.
  unfold zsub. change 8 with (zlen canary). rewrite zdrop_app_len, <- Lu, ztake_app_len. reflexivity.
Qed.
Lemma zwrite_all {A} (b c : list A) : zlen b = zlen c -> zwrite 0 b c = b.
Proof. intro E. unfold zwrite. rewrite ztake_neg by lia. rewrite zdrop_all by lia. rewrite app_nil_r. reflexivity. Qed.
Lemma strdup_ok lc s l str : inv s l -> libc_ok lc s -> zlen str < two64 - 17 ->
  lcu_strdup lc all_good s str = Ret (0, s) /\ lc (zlen str + 17) = None \/
  exists a s', lcu_strdup lc all_good s str = Ret (a + 8, s') /\ inv s' ((a + 8, zlen str + 1) :: l) /\
    intact s' (a + 8) (zlen str + 1) /\ content s' (a + 8) (zlen str + 1) = Some (str ++ [0]) /\
    (forall x, x <> a -> hp s' x = hp s x) /\ ~ is_live l (a + 8) /\ 0 < a.
Proof.
  intros I Hlc Hs. pose proof (zlen_nonneg str).
  destruct (malloc_ok lc s l (zlen str + 1) I Hlc ltac:(lia)) as [[R E]|(a & b & s1 & E & R & I1 & T & F & NL & Ha)];
    unfold lcu_malloc in R; unfold lcu_strdup; rewrite (resize_on s (zlen str + 1) (v_on _ _ I)) in * by lia;
    unfold c_malloc in *; rewrite E in *.
  - left. split; [reflexivity|]. rewrite <- E. f_equal. lia.
  - right. destruct (Z.eqb_spec a 0); [lia|]. rewrite R. cbn [bind].
    destruct (user_write_ok s1 _ (a + 8) (zlen str + 1) 0 (str ++ [0]) I1 (or_introl eq_refl)) as (s2 & W & I2 & T2 & F2 & _ & C2);
      [lia|rewrite zlen_snoc; lia|exact T|]. rewrite W. cbn [bind].
    exists a, s2. split; [reflexivity|]. split; [exact I2|]. split; [exact T2|]. split.
    { destruct (content_intact s1 (a + 8) (zlen str + 1) ltac:(lia) T) as (c & Ec & Lc & _).
      rewrite (C2 c Ec), zwrite_all; [reflexivity|]. rewrite zlen_snoc. lia. }
    split; [|split; [exact NL|exact Ha]]. intros x Nx. rewrite F2 by lia. apply F. exact Nx.
Qed.
Lemma strndup_ok lc s l str len : inv s l -> libc_ok lc s -> 0 <= len -> zlen str < two64 - 17 ->
  let k := Z.min len (zlen str) in
  lcu_strndup lc all_good s str len = Ret (0, s) /\ lc (k + 17) = None \/
  exists a s', lcu_strndup lc all_good s str len = Ret (a + 8, s') /\ inv s' ((a + 8, k + 1) :: l) /\
    intact s' (a + 8) (k + 1) /\ content s' (a + 8) (k + 1) = Some (ztake k str ++ [0]) /\
    (forall x, x <> a -> hp s' x = hp s x) /\ ~ is_live l (a + 8) /\ 0 < a.
Proof.
  intros I Hlc Hl Hs k. pose proof (zlen_nonneg str).
  assert (Ek : (if len <? zlen str then len else zlen str) = k) by (unfold k; destruct (Z.ltb_spec len (zlen str)); lia).
  assert (0 <= k <= zlen str) by (unfold k; lia). clearbody k.
  unfold lcu_strndup. rewrite Ek.
  destruct (malloc_ok lc s l (k + 1) I Hlc ltac:(lia)) as [[R E]|(a & b & s1 & E & R & I1 & T & F & NL & Ha)];
    unfold lcu_malloc in R; rewrite (resize_on s (k + 1) (v_on _ _ I)) in * by lia;
    unfold c_malloc in *; rewrite E in *.
  - left. split; [reflexivity|]. rewrite <- E. f_equal. lia.
  - right. destruct (Z.eqb_spec a 0); [lia|]. rewrite R. cbn [bind].
    assert (Lt : zlen (ztake k str) = k) by (rewrite zlen_ztake; lia).
    destruct (user_write_ok s1 _ (a + 8) (k + 1) 0 (ztake k str) I1 (or_introl eq_refl)) as (s2 & W & I2 & T2 & F2 & _ & C2);
      [lia|lia|exact T|]. rewrite W. cbn [bind].
    destruct (user_write_ok s2 _ (a + 8) (k + 1) k [0] I2 (or_introl eq_refl)) as (s3 & W3 & I3 & T3 & F3 & _ & C3);
      [lia|rewrite zlen_cons; change (zlen (@nil Z)) with 0; lia|exact T2|]. rewrite W3. cbn [bind].
    exists a, s3. split; [reflexivity|]. split; [exact I3|]. split; [exact T3|]. split.
    { destruct (content_intact s1 (a + 8) (k + 1) ltac:(lia) T) as (c & Ec & Lc & _).
      rewrite (C3 _ (C2 c Ec)). f_equal. unfold zwrite at 2. rewrite (ztake_neg 0) by lia. cbn [app].
      unfold zwrite. rewrite <- Lt at 1. rewrite ztake_app_len, Lt. cbn [app]. f_equal.
      change (0 :: ?x) with ([0] ++ x). rewrite zdrop_all; [reflexivity|].
      rewrite zlen_app, zlen_zdrop, zlen_cons; change (zlen (@nil Z)) with 0; lia. }
    split; [|split; [exact NL|exact Ha]]. intros x Nx. rewrite F3, F2 by lia. apply F. exact Nx.
Qed.

(** ** realloc *)
Lemma realloc_ok lc s l p n : inv s l -> libc_ok lc s -> 0 < n < two64 - 2064 -> p <> 0 ->
  (~ is_live l p /\ lcu_realloc lc all_good s p n = Abrt) \/
  exists cur, In (p, cur) l /\
   ((cur <> 0 /\ n <= cur /\ lcu_realloc lc all_good s p n = Ret (p, s)) \/
    ((cur = 0 \/ cur < n) /\ lc (n + 2064) = None /\ lcu_realloc lc all_good s p n = Ret (0, s)) \/
    ((cur = 0 \/ cur < n) /\ ~ intact s p cur /\ lcu_realloc lc all_good s p n = Abrt) \/
    ((cur = 0 \/ cur < n) /\ intact s p cur /\ exists a s' c c', lcu_realloc lc all_good s p n = Ret (a + 8, s') /\
       inv s' ((a + 8, n + 2048) :: drop_live l p) /\ intact s' (a + 8) (n + 2048) /\
       content s p cur = Some c /\ content s' (a + 8) (n + 2048) = Some c' /\ ztake cur c' = c /\
       hp s' (p - 8) = None /\ (forall x, x <> a -> x <> p - 8 -> hp s' x = hp s x) /\ ~ is_live l (a + 8) /\ 0 < a)).
Proof.
  intros I Hlc Hn Hp. unfold lcu_realloc. destruct (Z.eqb_spec n 0); [lia|]. destruct (Z.eqb_spec p 0); [contradiction|].
  unfold ptr_size. rewrite (v_on _ _ I), (v_map _ _ I), mget_entry. destruct (Z.eqb_spec p 0); [contradiction|]. cbn [negb orb].
  destruct (size_of l p) as [cur|] eqn:Es.
  2:{ left. split; [apply size_of_None; exact Es|reflexivity]. }
  right. pose proof (size_of_In _ _ _ Es) as Hin. exists cur. split; [exact Hin|].
  cbn [a_id a_size]. rewrite Z.eqb_refl. cbn [negb bind].
  destruct (v_blk _ _ I _ _ Hin) as (B1 & B2 & blk & Eb & Lb).
  destruct (Z.eqb_spec cur 0) as [E0|N0]; destruct (Z.leb_spec n cur) as [Lc|Lc]; cbn [negb andb]; try lia.
  2:{ left. auto. }
  all: right.
  all: assert (u64 (n + 2048) = n + 2048) as -> by (unfold u64; apply Z.mod_small; unfold two64 in *; lia).
  all: assert (Hcur : cur = 0 \/ cur < n) by lia; assert (Hcur2 : 0 <= cur < n) by lia; clear E0 || clear N0; clear Lc.
  all: destruct (malloc_ok lc s l (n + 2048) I Hlc ltac:(lia)) as [[R E]|(a & b & s1 & E & R & I1 & T & F & NL & Ha)]; rewrite R; cbn [bind].
  all: try (left; split; [exact Hcur|]; split; [rewrite <- E; f_equal; lia|]; reflexivity).
  all: right; destruct (Z.eqb_spec (a + 8) 0); [lia|].
  all: assert (Na : a <> p - 8) by (intros ->; destruct (Hlc _ _ _ E) as (_ & Hf & _); congruence).
  all: unfold user_read, user_base, user_off; rewrite (v_on _ _ I1); unfold canary_size; rewrite F by lia; rewrite Eb.
  all: rewrite mread_ok by lia; cbn [bind].
  all: assert (Lz : zlen (zsub 8 cur blk) = cur) by (rewrite zlen_zsub; lia).
  all: destruct (user_write_ok s1 _ (a + 8) (n + 2048) 0 (zsub 8 cur blk) I1 (or_introl eq_refl)) as (s2 & W & I2 & T2 & F2 & _ & C2);
      [lia|lia|exact T|]; rewrite W; cbn [bind].
  all: assert (Ep : hp s2 (p - 8) = hp s (p - 8)) by (rewrite F2, F by lia; reflexivity).
  all: destruct (free_ok s2 _ p I2 Hp) as [[N _]|(m & Im & [[Ti (s3 & R3 & I3 & H3 & F3)]|[Ti R3]])];
    [exfalso; apply N; exists cur; right; exact Hin| |].
  all: assert (m = cur) as -> by (destruct Im as [Q|Im]; [injection Q as Q _; exfalso; lia|];
     pose proof (In_size_of _ _ _ (v_nodup _ _ I) Im) as Q; congruence).
  all: rewrite R3; cbn [bind].
  all: unfold intact in Ti; rewrite Ep in Ti; fold (intact s p cur) in Ti.
  all: try (left; split; [exact Hcur|]; split; [exact Ti|reflexivity]).
  all: right; split; [exact Hcur|]; split; [exact Ti|].
  all: assert (T3 : intact s3 (a + 8) (n + 2048)) by
    (destruct T2 as (u & Hu & Lu); exists u; rewrite F3 by lia; split; assumption).
  all: destruct (content_intact s1 (a + 8) (n + 2048) ltac:(lia) T) as (c1 & Ec1 & Lc1 & _).
  all: exists a, s3, (zsub 8 cur blk), (zwrite 0 (zsub 8 cur blk) c1).
  all: split; [reflexivity|]; split; [|split; [exact T3|split; [unfold content; rewrite Eb; reflexivity|split; [|split; [|split; [exact H3|split; [|split; [exact NL|exact Ha]]]]]]]].
  all: try (cbn [drop_live filter fst] in I3; destruct (Z.eqb_spec (a + 8) p); [lia|]; exact I3).
  all: try (intros x N1 N2; rewrite F3, F2, F by lia; reflexivity).
  all: try (rewrite <- (C2 _ Ec1); unfold content; rewrite F3 by lia; reflexivity).
  all: unfold zwrite; rewrite (ztake_neg 0) by lia; cbn [app]; rewrite <- Lz at 1; apply ztake_app_len.
Qed.

(** ** every history *)
Lemma add_live_alloc s' l a n : inv s' ((a + 8, n) :: l) -> 0 < a -> inv s' (add_live l (a + 8) n).
Proof. intros I Ha. unfold add_live. destruct (Z.eqb_spec (a + 8) 0); [lia|exact I]. Qed.
Lemma step_cases lc s l o : inv s l -> libc_ok lc s -> op_ok l o ->
  run_op lc all_good s o = Abrt \/ exists r s', run_op lc all_good s o = Ret (r, s') /\ inv s' (live_after l o r).
Proof.
  intros I Hlc Ho. destruct o as [n|c n|str|str len|p n|p|h]; cbn [run_op live_after op_ok] in *.
  - right. destruct (malloc_ok lc s l n I Hlc Ho) as [[R _]|(a & b & s1 & E & R & I1 & T & F & NL & Ha)].
    + exists 0, s. split; [exact R|exact I].
    + exists (a + 8), s1. split; [exact R|apply add_live_alloc; assumption].
  - right. destruct Ho as (H1 & H2 & H3). destruct (calloc_ok' lc s l c n I Hlc H1 H2 H3) as [[R _]|(a & s1 & R & I1 & T & _ & F & NL & Ha)].
    + exists 0, s. split; [exact R|exact I].
    + exists (a + 8), s1. split; [exact R|apply add_live_alloc; assumption].
  - right. destruct (strdup_ok lc s l str I Hlc Ho) as [[R _]|(a & s1 & R & I1 & T & _ & F & NL & Ha)].
    + exists 0, s. split; [exact R|exact I].
    + exists (a + 8), s1. split; [exact R|apply add_live_alloc; assumption].
  - right. destruct Ho as (H1 & H2). destruct (strndup_ok lc s l str len I Hlc H1 H2) as [[R _]|(a & s1 & R & I1 & T & _ & F & NL & Ha)].
    + exists 0, s. split; [exact R|exact I].
    + exists (a + 8), s1. split; [exact R|apply add_live_alloc; assumption].
  - destruct (Z.eqb_spec n 0) as [->|Nn].
    + unfold lcu_realloc. destruct (Z.eqb_spec p 0) as [->|Np].
      * right. exists 0, s. split; [reflexivity|]. rewrite drop_absent; [exact I|]. intros [k Hk]. destruct (v_blk _ _ I _ _ Hk). lia.
      * destruct (free_ok s l p I Np) as [[_ R]|(m & Im & [[_ (s' & R & I' & _)]|[_ R]])]; cbn [Z.eqb]; rewrite R; cbn [bind]; auto.
        right. exists 0, s'. auto.
    + destruct (Z.eqb_spec p 0) as [->|Np].
      * right. unfold lcu_realloc. destruct (Z.eqb_spec n 0); [contradiction|].
        change (0 =? 0) with true. cbv iota. assert (u64 (n + 2048) = n + 2048) as -> by (unfold u64; apply Z.mod_small; unfold two64 in *; lia).
        destruct (malloc_ok lc s l (n + 2048) I Hlc ltac:(lia)) as [[R _]|(a & b & s1 & E & R & I1 & T & F & NL & Ha)].
        -- exists 0, s. split; [exact R|exact I].
        -- exists (a + 8), s1. split; [exact R|apply add_live_alloc; assumption].
      * destruct (realloc_ok lc s l p n I Hlc ltac:(lia) Np) as [[_ R]|(cur & Hin & [(_ & _ & R)|[(_ & _ & R)|[(_ & _ & R)|(_ & _ & a & s' & c & c' & R & I' & _ & _ & _ & _ & _ & _ & NL & Ha)]]])]; auto; right.
        -- exists p, s. rewrite Z.eqb_refl. auto.
        -- exists 0, s. rewrite orb_true_r. auto.
        -- exists (a + 8), s'. split; [exact R|]. destruct (Z.eqb_spec (a + 8) p) as [E|]; [exfalso; apply NL; exists cur; rewrite E; exact Hin|].
           destruct (Z.eqb_spec (a + 8) 0); [lia|]. exact I'.
  - destruct (Z.eqb_spec p 0) as [->|Np].
    + right. exists 0, s. split; [reflexivity|]. rewrite drop_absent; [exact I|]. intros [k Hk]. destruct (v_blk _ _ I _ _ Hk). lia.
    + destruct (free_ok s l p I Np) as [[_ R]|(m & Im & [[_ (s' & R & I' & _)]|[_ R]])]; rewrite R; cbn [bind]; auto.
      right. exists 0, s'. auto.
  - right. exists 0. eexists. split; [reflexivity|]. destruct I as [I1 I2 I3 I4]. constructor; cbn [on amap hp]; try assumption.
    intros p n Hi. destruct (I4 _ _ Hi) as (B1 & B2 & _). split; [exact B1|]. split; [exact B2|]. apply Ho. exact Hi.
Qed.
Lemma inv_reach s l : reach s l -> inv s l.
Proof.
  induction 1 as [h|s l lc o r s' R I Hlc Ho Hr].
  - constructor; cbn; [reflexivity|reflexivity|constructor|intros p n []].
  - destruct (step_cases lc s l o I Hlc Ho) as [E|(r2 & s2 & E & I2)]; rewrite Hr in E; [discriminate|].
    injection E as <- <-. exact I2.
Qed.

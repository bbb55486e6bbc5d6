From Verif Require Import CBase CircLib RingBuffer2Model RingBuffer2Spec RingBuffer2Proof FixedQueueModel FixedQueueSpec.

Section Proof.
Context {A : Type}.
Definition fq_inv (q : fq A) (l : list (list A)) : Prop :=
  rb_inv (fq_ring q) /\ rb_abs (fq_ring q) = concat l /\ Forall (fun m => zlen m = fq_one q) l /\
  1 <= fq_one q < two32.

Lemma zlen_concat_fixed (l : list (list A)) one : Forall (fun m => zlen m = one) l -> zlen (concat l) = one * zlen l.
Proof.
  induction 1 as [|m l Hm Hl IH]; [cbn [concat]; unfold zlen; cbn [length]; lia|].
  cbn [concat]. rewrite zlen_app, zlen_cons, IH, Hm. lia.
Qed.
Lemma fq_used q l : fq_inv q l -> zlen (rb_abs (fq_ring q)) = fq_one q * zlen l.
Proof. intros (_ & E & F & _). rewrite E. apply zlen_concat_fixed, F. Qed.
Lemma fq_pop_amount_eq q l : fq_inv q l -> fq_pop_amount q = zlen l.
Proof.
  intro I. pose proof (fq_used q l I) as U. unfold fq_pop_amount.
  rewrite <- (zlen_rb_abs _ (proj1 I)), U, Z.mul_comm. apply Z.div_mul. destruct I as (_ & _ & _ & H). lia.
Qed.
Lemma fq_push_amount_eq q l : fq_inv q l -> fq_push_amount q = rb_size (fq_ring q) / fq_one q - zlen l.
Proof.
  intro I. pose proof (fq_used q l I) as U. unfold fq_push_amount.
  rewrite (rb_avail_write_eq _ (proj1 I)), U.
  replace (rb_size (fq_ring q) - fq_one q * zlen l) with (rb_size (fq_ring q) + (- zlen l) * fq_one q) by lia.
  rewrite Z.div_add by (destruct I as (_ & _ & _ & H); lia). lia.
Qed.
Lemma fq_len_le q l : fq_inv q l -> zlen l <= rb_size (fq_ring q) / fq_one q.
Proof.
  intro I. pose proof (fq_used q l I) as U. pose proof (rb_abs_le _ (proj1 I)) as LE.
  destruct I as (_ & _ & _ & H). apply Z.div_le_lower_bound; lia.
Qed.

Lemma fq_step_refines q l o : fq_inv q l -> fq_valid_op (fq_one q) o ->
  let cap := rb_size (fq_ring q) / fq_one q in
  exists q', fq_step q o = Ret (q', snd (fq_spec_step (fq_one q) cap l o)) /\
    fq_inv q' (fst (fq_spec_step (fq_one q) cap l o)) /\
    fq_one q' = fq_one q /\ rb_size (fq_ring q') = rb_size (fq_ring q).
Proof.
  intros I V cap. pose proof (fq_used q l I) as U. pose proof (fq_pop_amount_eq q l I) as PA.
  pose proof (fq_push_amount_eq q l I) as QA. fold cap in QA. pose proof (fq_len_le q l I) as LE. fold cap in LE.
  pose proof (zlen_nonneg l) as LN.
  destruct o as [[m|]|[t|]| | | | |]; cbn [fq_step fq_spec_step fq_valid_op fst snd] in *.
  - unfold fq_push, fq_is_full. rewrite QA. destruct (zlen l <? cap) eqn:E.
    + destruct (0 =? cap - zlen l) eqn:E2; [lia|].
      pose proof I as (RI & EA & F & H1).
      assert (fq_one q * (zlen l + 1) <= rb_size (fq_ring q)) as FIT.
      { unfold cap in E. assert (zlen l + 1 <= rb_size (fq_ring q) / fq_one q) as X by lia.
        pose proof (Z.mul_div_le (rb_size (fq_ring q)) (fq_one q) ltac:(lia)). nia. }
      destruct (rb_write_ok (fq_ring q) m (fq_one q) RI ltac:(lia)) as (h' & W & I' & A' & S' & _); [lia|].
      rewrite U in W, A'.
      replace (Z.min (fq_one q) (rb_size (fq_ring q) - fq_one q * zlen l)) with (fq_one q) in W, A' by lia.
      rewrite W. cbn [bind fst snd]. rewrite Z.eqb_refl. eexists. split; [reflexivity|].
      split; [|split; [reflexivity|exact S']].
      split; [exact I'|]. split; [|split; [|exact H1]]; cbn [fq_ring fq_one].
      * rewrite A', EA, concat_app. cbn. rewrite app_nil_r. reflexivity.
      * apply Forall_app. split; [exact F|]. constructor; [|constructor]. apply zlen_ztake; lia.
    + destruct (0 =? cap - zlen l) eqn:E2; [|lia]. cbn. eauto.
  - unfold fq_push, fq_is_full. rewrite QA. destruct (0 =? cap - zlen l) eqn:E2; cbn [bind fst snd b2z].
    + eauto.
    + rewrite rb_write_None. cbn [bind fst snd].
      destruct (0 =? fq_one q) eqn:E3; [destruct I as (_ & _ & _ & H); lia|].
      exists q. split; [destruct q; reflexivity|auto].
  - unfold fq_pop, fq_is_empty. rewrite PA. cbn [orb]. rewrite orb_false_r.
    destruct l as [|m l].
    + change (0 =? zlen (@nil (list A))) with true. cbn. eauto.
    + destruct (0 =? zlen (m :: l)) eqn:E. { rewrite zlen_cons in E. pose proof (zlen_nonneg l). lia. }
      pose proof I as (RI & EA & F & H1). inversion F as [|? ? Fm Fl]; subst. rewrite zlen_cons in U.
      pose proof (zlen_nonneg l) as L0.
      assert (fq_one q <= zlen (rb_abs (fq_ring q))) as Hk by (rewrite U; nia).
      unfold rb_read. rewrite rb_read_internal_ok; [|exact RI|lia|lia].
      replace (Z.min (fq_one q) (zlen (rb_abs (fq_ring q)))) with (fq_one q) by lia.
      cbn [bind fst snd option_map]. rewrite Z.eqb_refl.
      destruct (fq_one q =? 0) eqn:E0; [lia|].
      destruct (adv_out_ok (fq_ring q) (fq_one q) RI ltac:(lia)) as (I2 & A2).
      exists (mk_fq (adv_out (fq_ring q) (fq_one q)) (fq_one q)). split; [|split; [|split; reflexivity]].
      * assert (ztake (fq_one q) (rb_abs (fq_ring q)) = m) as T by (rewrite EA; cbn [concat]; rewrite <- Fm; apply ztake_app_len).
        rewrite T. unfold lay. rewrite Fm. reflexivity.
      * split; [exact I2|]. split; [|split; [exact Fl|exact H1]]. cbn [fq_ring].
        rewrite A2, EA. cbn [concat]. rewrite <- Fm. apply zdrop_app_len.
  - unfold fq_pop. rewrite orb_true_r. cbn. eauto.
  - exists (fq_clear q). split; [reflexivity|]. split; [|split; reflexivity].
    destruct I as (RI & EA & F & H1).
    destruct (rb_step_refines (fq_ring q) BClear RI Logic.I) as (h' & S & I' & A' & _).
    cbn in S. injection S as <-. split; [exact I'|]. split; [exact A'|]. split; [constructor|exact H1].
  - exists q. rewrite PA. auto.
  - exists q. rewrite QA. auto.
  - exists q. split; [|auto]. unfold fq_is_empty. rewrite PA, Z.eqb_sym. unfold b2z. reflexivity.
  - exists q. split; [|auto]. unfold fq_is_full. rewrite QA. f_equal. f_equal. f_equal. unfold b2z.
    destruct (0 =? cap - zlen l) eqn:E1, (zlen l =? cap) eqn:E2; try reflexivity; lia.
Qed.

Lemma fq_run_refines ops : forall q l, fq_inv q l -> Forall (fq_valid_op (fq_one q)) ops ->
  let cap := rb_size (fq_ring q) / fq_one q in
  exists q', fq_run q ops = Ret (q', snd (fq_spec_run (fq_one q) cap l ops)).
Proof.
  induction ops as [|o ops IH]; intros q l I V cap; cbn [fq_run fq_spec_run].
  - eauto.
  - inversion V as [|? ? Vo Vs]; subst.
    destruct (fq_step_refines q l o I Vo) as (q1 & S1 & I1 & O1 & Z1). rewrite S1. cbn [bind fst snd].
    destruct (IH q1 _ I1) as (q2 & S2); [rewrite O1; exact Vs|]. rewrite S2. cbn [bind fst snd].
    rewrite O1, Z1. eauto.
Qed.

Lemma fq_create_lemma (malloc : Z -> option (list A)) one cap ops :
  (forall k b, malloc k = Some b -> zlen b = k) ->
  1 <= one -> 1 <= cap -> (one * cap - 24 <= 1073741824 \/ one * cap - 24 = 2147483648) ->
  Forall (fq_valid_op one) ops ->
  (one * cap < 28 -> fq_create malloc one cap = Ret None) /\
  (28 <= one * cap -> malloc (16 + one * cap) = None -> fq_create malloc one cap = Ret None) /\
  (28 <= one * cap -> malloc (16 + one * cap) <> None ->
   exists k q q', 1 <= k <= 31 /\ 2 ^ k <= one * cap - 24 < 2 * 2 ^ k /\
    fq_create malloc one cap = Ret (Some q) /\
    fq_run q ops = Ret (q', snd (fq_spec_run one (2 ^ k / one) [] ops))).
Proof.
  intros HM Ho Hc HB V. unfold fq_create, fq_struct_size.
  assert (1 <= one * cap) as P1 by nia. assert (one <= one * cap) as P2 by nia.
  destruct ((one <? 1) || (cap <? 1)) eqn:E0; [lia|].
  rewrite (u32_small (one * cap)) by (unfold two32; lia).
  unfold u64. rewrite (Z.mod_small (16 + one * cap)) by (unfold two64; lia).
  replace (16 + one * cap - 16) with (one * cap) by lia. rewrite (u32_small (one * cap)) by (unfold two32; lia).
  split; [|split].
  - intro H. destruct (malloc (16 + one * cap)) as [b|] eqn:EM; [|reflexivity]. pose proof (HM _ _ EM) as Lb.
    destruct (zlen b <? 16) eqn:E8; [lia|].
    assert (zlen (zdrop 16 b) = one * cap) as L by (rewrite zlen_zdrop; lia).
    rewrite <- L. rewrite create_with_mem_small by lia. reflexivity.
  - intros H ->. reflexivity.
  - intros H NN. destruct (malloc (16 + one * cap)) as [b|] eqn:EM; [|congruence]. pose proof (HM _ _ EM) as Lb.
    destruct (zlen b <? 16) eqn:E8; [lia|].
    assert (zlen (zdrop 16 b) = one * cap) as L by (rewrite zlen_zdrop; lia).
    destruct (create_with_mem_spec (zdrop 16 b) ltac:(lia) ltac:(lia)) as (s & P & B & C).
    rewrite L in *. rewrite C. cbn [bind].
    destruct (create_inv_rb false s (zdrop 16 b) P ltac:(lia)) as [I Q].
    set (q := mk_fq (mk_rb false 0 0 s (zdrop 24 (zdrop 16 b))) one).
    assert (fq_inv q []) as FI.
    { split; [exact I|]. split; [exact Q|]. split; [constructor|]. cbn. unfold two32; lia. }
    destruct (fq_run_refines ops q [] FI V) as (q' & R). cbn [fq_ring fq_one q rb_size] in R.
    destruct P as (k & Hk & ->). exists k, q, q'. auto.
Qed.

(** the documented capacity is never reached *)
Lemma fq_capacity_lemma one cap k :
  1 <= one -> 1 <= cap -> 0 <= k -> 2 ^ k <= one * cap - 24 -> 2 ^ k / one < cap.
Proof.
  intros Ho Hc Hk H. apply Z.div_lt_upper_bound; lia.
Qed.
Lemma fq_capacity_api_lemma (malloc : Z -> option (list A)) one cap q :
  (forall k b, malloc k = Some b -> zlen b = k) ->
  1 <= one -> 1 <= cap -> (one * cap - 24 <= 1073741824 \/ one * cap - 24 = 2147483648) ->
  fq_create malloc one cap = Ret (Some q) -> fq_push_amount q < cap.
Proof.
  intros HM Ho Hc HB HC.
  destruct (fq_create_lemma malloc one cap [FPushAmount] HM Ho Hc HB) as (H1 & H2 & H3).
  { repeat constructor. }
  destruct (Z_lt_dec (one * cap) 28) as [L|L]; [rewrite H1 in HC by exact L; discriminate|].
  destruct (malloc (16 + one * cap)) eqn:EM; [|rewrite H2 in HC by (auto; lia); discriminate].
  destruct (H3 ltac:(lia) ltac:(congruence)) as (k & q0 & q' & Hk & B & C & R).
  rewrite HC in C. injection C as <-. cbn in R. injection R as _ R. rewrite R.
  pose proof (fq_capacity_lemma one cap k Ho Hc ltac:(lia) ltac:(lia)). rewrite zlen_nil. lia.
Qed.
End Proof.

Lemma fq_useless_witness :
  exists q, fq_create (fun k => Some (repeat 0 (Z.to_nat k))) 100 1 = Ret (Some q) /\
            forall m, fq_push q (Some m) = Ret (q, false).
Proof.
  exists (mk_fq (mk_rb false 0 0 64 (repeat 0 76)) 100).
  split; [vm_compute; reflexivity|]. intro m. vm_compute. reflexivity.
Qed.

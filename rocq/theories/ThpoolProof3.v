(** Invariants of the thread pool: wake-ups, shutdown; quiescent states; termination. *)
From Verif Require Import CBase ThpoolModel ThpoolSpec ThpoolProof ThpoolProof2.

Ltac abs x y t := let s := fresh "s" in let s' := fresh "s'" in let p := fresh "p" in let p' := fresh "p'" in
  remember (pcs x t) as p in *; remember (pcs y t) as p' in *; remember (shr x) as s in *; remember (shr y) as s' in *.

(** ---- bounded number of threads; shutdown ---- *)
Definition dpc (p : pc) : bool := match p with D232 | D554 | D555 | D556 | D557 | D245 => true | _ => false end.
Definition xpc (p : pc) : bool := match p with X399 | X400 | X401 | Xend => true | _ => false end.
Record misc (N : nat) (x : state) : Prop := mk_misc {
  m_fin : exists M, forall u, (M <= u)%nat -> pcs x u = Cidle;
  m_keep : keep (shr x) = true -> forall t, dpc (pcs x t) = false /\ xpc (pcs x t) = false;
  m_up : forall t, dpc (pcs x t) = true \/ pcs x t = D225 -> up (shr x) = true;
  m_dead : (exists t, pcs x t = D245) \/ freed (shr x) = true -> forall u, (u < N)%nat -> pcs x u = X401 \/ pcs x u = Xend }.
Lemma misc_step N W x y : roles N x -> counts N x -> misc N x -> step N W x y -> misc N y.
Proof.
  intros R Cn [(M & F) A U B] H. pose proof (proj1 H) as Hf. destruct (step_local _ _ _ _ H) as (t & L & O). split.
  - exists (Nat.max M (S t)). intros u Hu. destruct (O u ltac:(lia)) as [<-|[[E _]|[E _]]]; [apply F; lia|rewrite F in E by lia; easy..].
  - intros Hk u. assert (Hk' : keep (shr x) = true). { abs x y t. clear - L Hk. ldes L; cbn in *; congruence. }
    specialize (A Hk'). destruct (Nat.eq_dec u t) as [->|Hu].
    + specialize (A t). abs x y t. clear - L Hk Hk' A. ldes L; cbn in *; try easy; try congruence.
    + rewrite (sim_f dpc (pcs x u) (pcs y u)), (sim_f xpc (pcs x u) (pcs y u)) by auto. apply A.
  - intros u Hu. assert (K : up (shr x) = true -> up (shr y) = true). { abs x y t. clear - L. ldes L; cbn in *; auto. }
    destruct (Nat.eq_dec u t) as [->|Hut].
    + specialize (U t). abs x y t. clear - L Hu U K. ldes L; cbn in *; auto; destruct Hu; try discriminate.
    + apply K, (U u). destruct (O u Hut) as [->|[[_ E]|[_ E]]]; [exact Hu|rewrite E in Hu; destruct Hu; discriminate..].
  - intros D. assert (Dx : (exists t, pcs x t = D245) \/ (pcs x t = D232 /\ alv (shr x) = 0)).
    { destruct D as [(v & D)|D].
      - destruct (Nat.eq_dec v t) as [->|Hv].
        + abs x y t. clear - L D Heqp. ldes L; cbn in *; try discriminate; [|left; exists t; congruence].
          right. apply Z.eqb_eq in F. auto.
        + left. exists v. destruct (O v Hv) as [->|[[_ E]|[_ E]]]; [exact D|congruence..].
      - abs x y t. clear - L D Hf Heqp. ldes L; cbn in *; try congruence. left. exists t. congruence. }
    assert (K : forall u, (u < N)%nat -> pcs x u = X401 \/ pcs x u = Xend).
    { destruct Dx as [Dx|(D1 & D2)]; [now apply B; left|]. intros u Hu.
      pose proof (c_alv _ _ Cn) as E. rewrite D2 in E. symmetry in E. pose proof (cnt_0 _ _ _ E u Hu) as I.
      destruct (c_up _ _ Cn (U t ltac:(left; now rewrite D1)) u) as (T1 & T2).
      pose proof (R u) as Ru. replace (u <? N)%nat with true in Ru by (symmetry; now apply Nat.ltb_lt).
      unfold inA in I. rewrite Ru in I. destruct (pcs x u); try discriminate I; try easy; auto. }
    intros u Hu. specialize (K u Hu). destruct (Nat.eq_dec u t) as [->|Hut].
    + abs x y t. clear - L K. ldes L; destruct K; try discriminate; auto.
    + destruct (O u Hut) as [<-|[[E _]|[E _]]]; [exact K|destruct K; congruence..].
Qed.
Lemma misc_0 N : misc N (start N).
Proof.
  split; cbn [start shr pcs keep up freed].
  - exists N. intros u Hu. apply Nat.ltb_ge in Hu. now rewrite Hu.
  - intros _ t. now destruct (t <? N)%nat.
  - intros t. destruct (t <? N)%nat; intros [|]; easy.
  - intros [(t & H)|H]; [|discriminate]. destruct (t <? N)%nat; discriminate.
Qed.

(** ---- wake-ups of workers ---- *)
Definition token (p : pc) : bool :=
  match p with
  | W568 | T373 | T377 | T378 | T379 | P484 | P485 | P487 _ | P493 _ | P494 _ | P495 _ | P499 _ | P500 _ | B545 _ | B546 _ => true
  | _ => false end.
Definition poster (p : pc) : bool := match p with B547 _ | D556 => true | _ => false end.
Record wakes (N : nat) (x : state) : Prop := mk_wakes {
  k_tok : keep (shr x) = true -> 0 < len (shr x) -> bv (shr x) = 1 \/ exists t, token (pcs x t) = true;
  k_bv : bv (shr x) = 1 -> (0 < N)%nat -> (exists t, (t < N)%nat /\ pcs x t <> Wblk) \/ exists t, poster (pcs x t) = true;
  k_565 : forall t, pcs x t = W565 -> bv (shr x) <> 1;
  k_567 : forall t, pcs x t = W567 -> bv (shr x) = 1 }.
Lemma lstep_tok N W t s p s' p' : lstep N W t s p s' p' ->
  (token p = true -> keep s' = true -> 0 < len s' -> token p' = true \/ bv s' = 1) /\
  (bv s = 1 -> bv s' = 1 \/ token p' = true) /\ (0 < len s' -> 0 < len s \/ token p' = true) /\ (keep s' = true -> keep s = true).
Proof. intros L. ldes L; cbn; repeat split; auto; try discriminate; try (intros; lia); try (destruct b; auto; fail); try congruence. Qed.

(** bv is only touched by the owner of the semaphore's mutex *)
Lemma lstep_bv N W t s p s' p' : lstep N W t s p s' p' -> hold_bm p = false -> bv s' = bv s.
Proof. intros L H. ldes L; cbn in *; try reflexivity; discriminate. Qed.
(** a signal wakes somebody, or nobody is blocked *)
Lemma step_sig N W x y t : step N W x y -> poster (pcs x t) = true -> poster (pcs y t) = true \/
  (exists u, pcs x u = Wblk /\ pcs y u = Wwoken) \/ forall u, pcs y u <> Wblk.
Proof.
  intros (_ & [H|H]) P; inversion H; subst; clear H; cbn [shr pcs].
  - left. destruct (Nat.eq_dec t t0) as [->|Ht]; [|now rewrite upd_ne]. destruct (pcs x t0); cbn in *; discriminate.
  - destruct (Nat.eq_dec t t0) as [->|Ht].
    + right. left. exists u. split; [easy|]. assert (u <> t0) by congruence. now rewrite upd_ne, upd_eq by easy.
    + left. rewrite upd_ne by easy. destruct (Nat.eq_dec t u) as [->|]; [rewrite H1 in P; discriminate|now rewrite upd_ne].
  - destruct (Nat.eq_dec t t0) as [->|Ht].
    + right. right. intros u. destruct (Nat.eq_dec u t0) as [->|]; [now rewrite upd_eq|rewrite upd_ne; easy].
    + left. now rewrite upd_ne.
  - left. assert (t <> t0 /\ t <> u) as (A & B) by (split; intros ->; rewrite ?H0, ?H1 in P; discriminate). now rewrite !upd_ne.
  - left. assert (t <> t0) by (intros ->; rewrite H0 in P; discriminate). now rewrite !upd_ne.
  - destruct (Nat.eq_dec t t0) as [->|Ht].
    + right. right. intros u. destruct (Nat.eq_dec u t0) as [->|]; [now rewrite upd_eq|rewrite upd_ne by easy]. destruct (pcs x u); discriminate.
    + left. rewrite upd_ne by easy. destruct (pcs x t); easy.
  - now left.
  - left. assert (t <> t0) by (intros ->; rewrite H0 in P; discriminate). now rewrite !upd_ne.
  - left. assert (t <> t0) by (intros ->; rewrite H0 in P; discriminate). now rewrite !upd_ne.
  - left. assert (t <> t0) by (intros ->; rewrite H1 in P; discriminate). now rewrite !upd_ne.
  - left. assert (t <> t0) by (intros ->; rewrite H0 in P; discriminate). now rewrite !upd_ne.
  - left. assert (t <> t0) by (intros ->; rewrite H2 in P; discriminate). now rewrite !upd_ne.
  - left. assert (t <> t0) by (intros ->; rewrite (H1 _ H0) in P; discriminate). now rewrite !upd_ne.
Qed.
Lemma wakes_step N W x y : locks x -> roles N x -> wakes N x -> step N W x y -> wakes N y.
Proof.
  intros Lk R [A B C D] H. destruct (step_local _ _ _ _ H) as (t & L & O).
  assert (OB : forall u, u <> t -> hold_bm (pcs x u) = true -> bv (shr y) = bv (shr x)).
  { intros u Hu E. eapply lstep_bv; [exact L|]. destruct (hold_bm (pcs x t)) eqn:Et; [|easy].
    apply (l_bm _ Lk) in E, Et. congruence. }
  split.
  - intros Hk Hl. destruct (lstep_tok _ _ _ _ _ _ _ L) as (T1 & T2 & T3 & T4).
    destruct (T3 Hl) as [Hl'|K]; [|right; eauto]. destruct (A (T4 Hk) Hl') as [K|(u & K)].
    + destruct (T2 K); [now left|right; eauto].
    + destruct (Nat.eq_dec u t) as [->|Hu]; [destruct (T1 K Hk Hl); [right; eauto|now left]|].
      right. exists u. rewrite (sim_f token (pcs x u) (pcs y u)); auto.
  - intros Hb HN. destruct (Z.eq_dec (bv (shr x)) 1) as [Hx|Hx].
    + destruct (B Hx HN) as [(u & Hu & K)|(u & K)].
      * left. exists u. split; [easy|]. destruct (Nat.eq_dec u t) as [->|Hut].
        -- pose proof (C t) as Ct. abs x y t. clear - L K Ct Hx. ldes L; try discriminate; try easy. intros _. now apply Ct.
        -- destruct (O u Hut) as [<-|[[_ E]|[_ E]]]; [exact K|rewrite E; discriminate..].
      * destruct (step_sig N W x y u H K) as [E|[(v & E & E')|E]]; [right; eauto| |].
        -- left. exists v. split; [|rewrite E'; discriminate]. pose proof (R v) as Rv. rewrite E in Rv. symmetry in Rv. now apply Nat.ltb_lt in Rv.
        -- left. exists 0%nat. auto.
    + right. exists t. abs x y t. clear - L Hb Hx. ldes L; cbn in *; try congruence; try lia; reflexivity.
  - intros u Hu. destruct (Nat.eq_dec u t) as [->|Hut].
    + specialize (C t). abs x y t. clear - L Hu C. ldes L; cbn in *; try discriminate; auto. apply Z.eqb_neq in F. exact F.
    + assert (E : pcs x u = W565) by (destruct (O u Hut) as [?|[[_ ?]|[_ ?]]]; congruence). rewrite (OB u Hut); [now apply (C u)|now rewrite E].
  - intros u Hu. destruct (Nat.eq_dec u t) as [->|Hut].
    + specialize (D t). abs x y t. clear - L Hu D. ldes L; cbn in *; try discriminate; auto. apply Z.eqb_eq in F. exact F.
    + assert (E : pcs x u = W567) by (destruct (O u Hut) as [?|[[_ ?]|[_ ?]]]; congruence). rewrite (OB u Hut); [now apply (D u)|now rewrite E].
Qed.
Lemma wakes_0 N : wakes N (start N).
Proof. split; cbn [start shr pcs keep len bv]; try lia; intros t; destruct (t <? N)%nat; discriminate. Qed.

(** ---- the single waiter is not forgotten ---- *)
Definition notifier (p : pc) : bool := match p with T394 | T395 => true | _ => false end.
Definition waiter (x : state) : Prop :=
  forall t, pcs x t = Q211 \/ pcs x t = Qblk -> 0 < wrk (shr x) \/ 0 < len (shr x) \/ exists v, notifier (pcs x v) = true.
Lemma step_all N W x y t : step N W x y -> pcs x t = T395 -> pcs y t = T395 \/
  (exists u, pcs x u = Qblk /\ pcs y u = Qwoken) \/ forall u, pcs y u <> Qblk.
Proof.
  intros (_ & [H|H]) P; inversion H; subst; clear H; cbn [shr pcs].
  - left. destruct (Nat.eq_dec t t0) as [->|Ht]; [|now rewrite upd_ne]. rewrite P in H0. discriminate.
  - left. assert (t <> t0 /\ t <> u) as (A & B) by (split; congruence). now rewrite !upd_ne.
  - left. assert (t <> t0) by congruence. now rewrite !upd_ne.
  - destruct (Nat.eq_dec t t0) as [->|Ht].
    + right. left. exists u. split; [easy|]. assert (u <> t0) by congruence. now rewrite upd_ne, upd_eq by easy.
    + left. rewrite upd_ne by easy. destruct (Nat.eq_dec t u) as [->|]; [congruence|now rewrite upd_ne].
  - destruct (Nat.eq_dec t t0) as [->|Ht].
    + right. right. intros u. destruct (Nat.eq_dec u t0) as [->|]; [now rewrite upd_eq|rewrite upd_ne; easy].
    + left. now rewrite upd_ne.
  - left. assert (t <> t0) by congruence. rewrite !upd_ne by easy. now rewrite P.
  - now left.
  - left. assert (t <> t0) by congruence. now rewrite !upd_ne.
  - left. assert (t <> t0) by congruence. now rewrite !upd_ne.
  - left. assert (t <> t0) by congruence. now rewrite !upd_ne.
  - left. assert (t <> t0) by congruence. now rewrite !upd_ne.
  - left. assert (t <> t0) by congruence. now rewrite !upd_ne.
  - left. assert (t <> t0) by (intros ->; rewrite (H1 _ H0) in P; discriminate). now rewrite !upd_ne.
Qed.
Lemma lstep_wait N W t s p s' p' : lstep N W t s p s' p' ->
  (0 < wrk s -> 0 < wrk s' \/ notifier p' = true) /\ (0 < len s -> 0 < len s' \/ inW p' = true) /\ (p = T394 -> p' = T397 -> wrk s' <> 0).
Proof. intros L. ldes L; cbn; repeat split; auto; try discriminate; try (intros; lia). all: intros; congruence. Qed.
Lemma waiter_step N W x y : single W -> locks x -> roles N x -> counts N x -> queue x -> waits W x -> waiter x -> step N W x y -> waiter y.
Proof.
  intros SW Lk R Cn Q Wt I H u Hu. pose proof (roles_step _ _ _ _ R H) as R'. pose proof (counts_step _ _ _ _ R Cn H) as Cn'.
  destruct (step_local _ _ _ _ H) as (t & L & O). pose proof (locks_step _ _ _ _ Lk H) as Lk'.
  assert (Wpos : 0 <= wrk (shr y)) by (rewrite (c_wrk _ _ Cn'); apply cnt_pos).
  assert (Wpos' : 0 <= wrk (shr x)) by (rewrite (c_wrk _ _ Cn); apply cnt_pos).
  assert (Lpos : 0 <= len (shr x)) by (destruct (queue_len _ Q) as (q & _ & ->); unfold zl; lia).
  assert (WP : inW (pcs y t) = true -> 0 < wrk (shr y)).
  { intros K. pose proof (inW_worker _ K) as Kw. rewrite (R' t) in Kw. apply Nat.ltb_lt in Kw.
    rewrite (c_wrk _ _ Cn'). pose proof (cnt_in inW (pcs y) N t Kw K). lia. }
  assert (K : 0 < wrk (shr x) \/ 0 < len (shr x) \/ exists v, notifier (pcs x v) = true).
  { destruct (Nat.eq_dec u t) as [->|Hut].
    - specialize (I t). abs x y t. clear - L Hu I Wpos' Lpos. ldes L; cbn in *; try (destruct Hu; discriminate); auto.
      + apply Z.eqb_neq in F. right. left. lia.
      + apply Z.eqb_neq in F. left. lia.
    - apply (I u). destruct (O u Hut) as [->|[[_ E]|[_ E]]]; [exact Hu|destruct Hu; congruence..]. }
  destruct (lstep_wait _ _ _ _ _ _ _ L) as (K1 & K2 & K3).
  destruct K as [K|[K|(v & K)]].
  - destruct (K1 K); [now left|right; right; eauto].
  - destruct (K2 K); [auto|left; auto].
  - destruct (Nat.eq_dec v t) as [->|Hv].
    + destruct (pcs x t) eqn:Et; try discriminate K.
      * (* T394 *) destruct (pcs y t) eqn:Ey; try (right; right; exists t; rewrite Ey; reflexivity);
          first [ left; pose proof (K3 eq_refl eq_refl); lia | exfalso; clear - L; inversion L; subst; cbn in *; unfold goto in *; try destruct (wrk _ =? 0); congruence].
      * destruct (step_all N W x y t H Et) as [E|[(w & E & E')|E]].
        -- right. right. exists t. now rewrite E.
        -- exfalso. assert (Hut : u <> t) by (intros ->; clear - L Hu; inversion L; subst; cbn in *; try discriminate; destruct Hu; congruence).
           assert (Pu : pcs x u = Q211 \/ pcs x u = Qblk). { destruct (O u Hut) as [->|[[_ F]|[_ F]]]; [exact Hu|destruct Hu; congruence..]. }
           destruct Pu as [Pu|Pu].
           ++ assert (A : hold_tc (pcs x u) = true) by now rewrite Pu. assert (B : hold_tc (pcs x t) = true) by now rewrite Et.
              apply (l_tc _ Lk) in A, B. congruence.
           ++ assert (w = u). { apply SW; apply (w_call _ _ Wt); [now rewrite E|now rewrite Pu]. } subst w. destruct Hu; congruence.
        -- exfalso. destruct Hu as [Hu|Hu]; [|now apply (E u)].
           assert (Hut : u <> t) by (intros ->; clear - L Hu; inversion L; subst; cbn in *; try discriminate; congruence).
           assert (Pu : pcs x u = Q211). { destruct (O u Hut) as [->|[[_ F]|[_ F]]]; [exact Hu|congruence..]. }
           assert (A : hold_tc (pcs x u) = true) by now rewrite Pu. assert (B : hold_tc (pcs x t) = true) by now rewrite Et.
           apply (l_tc _ Lk) in A, B. congruence.
    + right. right. exists v. rewrite (sim_f notifier (pcs x v) (pcs y v)); auto.
Qed.
Lemma waiter_0 N : waiter (start N).
Proof. intros t. cbn [start shr pcs]. destruct (t <? N)%nat; intros [|]; discriminate. Qed.

(** ---- everything together ---- *)
Record inv (N : nat) (W : nat -> Prop) (x : state) : Prop := mk_inv {
  i_lk : locks x; i_ro : roles N x; i_cn : counts N x; i_jb : jobs x; i_qu : queue x; i_tk : taken x; i_wt : waits W x; i_ms : misc N x; i_wk : wakes N x;
  i_lg : legal (log (shr x)) }.
Lemma inv_step N W x y : inv N W x -> step N W x y -> inv N W y.
Proof.
  intros [] H. split; eauto using locks_step, roles_step, counts_step, jobs_step, queue_step, taken_step, waits_step, misc_step, wakes_step, legal_step.
Qed.
Lemma inv_reach N W x : reach N W x -> inv N W x.
Proof.
  induction 1; [|eauto using inv_step].
  split; auto using locks_0, roles_0, counts_0, jobs_0, queue_0, taken_0, waits_0, misc_0, wakes_0. intros [|]; discriminate.
Qed.
Lemma waiter_reach N W x : single W -> reach N W x -> waiter x.
Proof. intros S. induction 1 as [|x y H IH]; [apply waiter_0|]. pose proof (inv_reach _ _ _ H) as []. eauto using waiter_step. Qed.

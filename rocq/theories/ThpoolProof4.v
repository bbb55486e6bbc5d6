(** Thread pool: no undefined behaviour, quiescent states, termination, order with one worker. *)
From Verif Require Import CBase ThpoolModel ThpoolSpec ThpoolProof ThpoolProof2 ThpoolProof3.

Lemma no_ub N W x t : inv N W x -> exec t (pcs x t) (shr x) <> Ub.
Proof.
  intros [Lk R Cn J (q & Eq & Q) T Wt Ms Wk Lg] E. destruct (hold_rw (pcs x t)) eqn:Eh.
  - pose proof (proj1 (l_rw _ Lk t) Eh) as Er. rewrite Er in Q. destruct (pcs x t); try discriminate Eh; cbn in E; unfold lock, goto in E;
      repeat match type of E with (match ?a with _ => _ end) = _ => let F := fresh "F" in destruct a eqn:F end; try discriminate E; cbn in Q.
    + destruct Q as ((A & _) & B). apply Z.eqb_neq in F. destruct q; [cbn in A; unfold zl in A; cbn in A; lia|discriminate].
    + destruct Q as ((A & B & C & _) & K). destruct (lasto_some q K) as (q0 & r & ->). rewrite lasto_snoc in C. congruence.
  - destruct (pcs x t); try discriminate Eh; cbn in E; unfold lock, goto in E;
      repeat match type of E with (match ?a with _ => _ end) = _ => let F := fresh "F" in destruct a eqn:F end; discriminate E.
Qed.
Lemma no_stop N W x t : inv N W x -> exec t (pcs x t) (shr x) = Ret None \/ exists s' p', exec t (pcs x t) (shr x) = Ret (Some (s', p')).
Proof.
  intros I. pose proof (no_ub N W x t I) as H. destruct (exec t (pcs x t) (shr x)) as [[[s' p']|]| | |] eqn:E; eauto; try easy;
    exfalso; clear H I; destruct (pcs x t); cbn in E; unfold lock, goto in E;
    repeat match type of E with (match ?a with _ => _ end) = _ => destruct a end; discriminate E.
Qed.

(** ---- quiescent states ---- *)
Lemma find_pc (g : nat -> pc) (f : pc -> bool) M : (exists u, (u < M)%nat /\ f (g u) = true) \/ forall u, (u < M)%nat -> f (g u) = false.
Proof.
  induction M as [|M [(u & H & E)|IH]]; [right; lia|left; exists u; split; [lia|easy]|].
  destruct (f (g M)) eqn:E; [left; exists M; split; [lia|easy]|right]. intros u Hu. destruct (Nat.eq_dec u M) as [->|]; [easy|apply IH; lia].
Qed.
Lemma find_any x N (f : pc -> bool) : misc N x -> f Cidle = false -> (exists u, f (pcs x u) = true) \/ forall u, f (pcs x u) = false.
Proof.
  intros Ms Hf. destruct (m_fin _ _ Ms) as (M & F). destruct (find_pc (pcs x) f M) as [(u & _ & E)|E]; [eauto|].
  right. intros u. destruct (Nat.ltb_spec u M); [now apply E|]. now rewrite F.
Qed.
Definition stopped (p : pc) : bool := match p with Wblk | Qblk | Cidle | Xend => true | _ => false end.
Lemma quiescent_stopped N W x : inv N W x -> quiescent N x -> forall t, stopped (pcs x t) = true.
Proof.
  intros I Qs. pose proof I as [Lk R Cn J Q T Wt Ms Wk Lg].
  assert (X : forall t, exec t (pcs x t) (shr x) = Ret None).
  { intros t. destruct (no_stop N W x t I) as [|(s' & p' & E)]; [easy|]. destruct (Qs _ (s_exec N x t s' p' E)). }
  assert (P : forall t b, pcs x t <> B547 b).
  { intros t b E. destruct (find_any x N (fun p => match p with Wblk => true | _ => false end) Ms eq_refl) as [(u & K)|K].
    - destruct (pcs x u) eqn:Eu; try discriminate K. eapply Qs, s_sig; eauto.
    - eapply Qs, s_sig0; eauto. intros u Eu. specialize (K u). now rewrite Eu in K. }
  assert (P2 : forall t, pcs x t <> T395).
  { intros t E. destruct (find_any x N (fun p => match p with Qblk => true | _ => false end) Ms eq_refl) as [(u & K)|K].
    - destruct (pcs x u) eqn:Eu; try discriminate K. eapply Qs, s_all; eauto.
    - eapply Qs, s_all0; eauto. intros u Eu. specialize (K u). now rewrite Eu in K. }
  assert (P3 : forall t, pcs x t <> D556). { intros t E. eapply Qs, s_bcast; eauto. }
  assert (Bm : bm (shr x) = None).
  { destruct (bm (shr x)) as [t|] eqn:E; [|easy]. exfalso. apply (l_bm _ Lk) in E. specialize (X t). specialize (P t). specialize (P3 t).
    destruct (pcs x t); try discriminate E; cbn in X; unfold goto in X; try discriminate X; [now destruct (P b)|easy]. }
  assert (Tc : tc (shr x) = None).
  { destruct (tc (shr x)) as [t|] eqn:E; [|easy]. exfalso. apply (l_tc _ Lk) in E. specialize (X t). specialize (P2 t).
    destruct (pcs x t); try discriminate E; cbn in X; unfold goto in X; try discriminate X. easy. }
  assert (Rw : rw (shr x) = None).
  { destruct (rw (shr x)) as [t|] eqn:E; [|easy]. exfalso. apply (l_rw _ Lk) in E. specialize (X t). specialize (P t).
    destruct (pcs x t); try discriminate E; cbn in X; unfold lock, goto in X; rewrite ?Bm in X; try discriminate X; [now destruct (P b)| |].
    - destruct (len (shr x) =? 0); [discriminate|]. destruct o; [discriminate|discriminate].
    - destruct (rear (shr x)); discriminate. }
  intros t. specialize (X t). specialize (P t). specialize (P2 t). specialize (P3 t).
  destruct (pcs x t) eqn:Et; try reflexivity; cbn in X; unfold lock, goto in X; rewrite ?Bm, ?Tc, ?Rw in X; try discriminate X; try easy; try (now destruct (P b)).
  - destruct (len (shr x) =? 0); [discriminate|]. destruct o; [discriminate|discriminate].
  - destruct (rear (shr x)); discriminate.
Qed.
Lemma quiescent_workers N W x : inv N W x -> quiescent N x -> keep (shr x) = true -> forall t, (t < N)%nat -> pcs x t = Wblk.
Proof.
  intros I Qs Hk t Ht. pose proof (quiescent_stopped N W x I Qs t) as S. pose proof (i_ro _ _ _ I t) as R. apply Nat.ltb_lt in Ht. rewrite Ht in R.
  destruct (m_keep _ _ (i_ms _ _ _ I) Hk t) as (_ & K). destruct (pcs x t); try discriminate; reflexivity.
Qed.
Lemma quiescent_len N W x : inv N W x -> quiescent N x -> keep (shr x) = true -> (0 < N)%nat -> len (shr x) = 0.
Proof.
  intros I Qs Hk HN. pose proof (quiescent_stopped N W x I Qs) as S. pose proof (quiescent_workers N W x I Qs Hk) as Wk.
  destruct (queue_len _ (i_qu _ _ _ I)) as (q & E & El).
  destruct (Z.eq_dec (len (shr x)) 0) as [|Hl]; [easy|]. exfalso.
  destruct (k_tok _ _ (i_wk _ _ _ I) Hk) as [K|(t & K)]; [unfold zl in El; lia| |].
  - destruct (k_bv _ _ (i_wk _ _ _ I) K HN) as [(t & Ht & F)|(t & F)]; [now apply F, Wk|].
    specialize (S t). destruct (pcs x t); discriminate.
  - specialize (S t). destruct (pcs x t); discriminate.
Qed.
Lemma quiescent_done N W x : inv N W x -> quiescent N x -> keep (shr x) = true -> (0 < N)%nat -> all_done x.
Proof.
  intros I Qs Hk HN j Hj. pose proof (quiescent_stopped N W x I Qs) as S.
  destruct (queue_len _ (i_qu _ _ _ I)) as (q & E & El). rewrite (quiescent_len N W x I Qs Hk HN) in El.
  assert (q = []) as -> by (apply zl_0; lia). rewrite app_nil_r in E. apply adds_in in Hj. rewrite E in Hj.
  apply dones_in. destruct (h_tk _ (i_tk _ _ _ I) j Hj) as [|(t & K)]; [easy|]. specialize (S t). destruct (pcs x t); discriminate.
Qed.
Lemma quiescent_wait N W x t : single W -> reach N W x -> quiescent N x -> keep (shr x) = true -> (0 < N)%nat -> pcs x t <> Qblk.
Proof.
  intros SW Rc Qs Hk HN E. pose proof (inv_reach _ _ _ Rc) as I. pose proof (quiescent_stopped N W x I Qs) as S.
  destruct (waiter_reach N W x SW Rc t (or_intror E)) as [K|[K|(v & K)]].
  - rewrite (c_wrk _ _ (i_cn _ _ _ I)) in K. rewrite (cnt_ext inW (fun _ => Cidle)) in K.
    + clear - K. induction N; cbn in K; [lia|auto].
    + intros i Hi. now rewrite (quiescent_workers N W x I Qs Hk i Hi).
  - rewrite (quiescent_len N W x I Qs Hk HN) in K. lia.
  - specialize (S v). destruct (pcs x v); discriminate.
Qed.

(** ---- the code stops running: every run without calls is finite ---- *)
Definition rank (p : pc) : Z :=
  match p with
  | B545 _ => 55 | B546 _ => 54 | B547 _ => 23 | B548 _ => 19
  | T365 => 7 | T366 => 6 | T367 => 5 | T369 => 4
  | W563 => 3 | W564 => 2 | W565 => 1 | Wblk => 0 | Wwoken => 3 | W567 => 1 | W568 => 29
  | T373 => 28 | T377 => 27 | T378 => 26 | T379 => 25
  | P484 => 24 | P485 => 23 | P487 _ => 22 | P493 _ => 21 | P494 _ => 20 | P495 _ => 19 | P499 _ => 20 | P500 _ => 19 | P507 _ => 18
  | T388 _ => 17 | Trun _ => 16 | T389 _ => 15 | T392 => 14 | T393 => 13 | T394 => 12 | T395 => 11 | T397 => 5
  | X399 | X400 | X401 | Xend => 0
  | Cidle => 0
  | A190 _ => 102 | A456 _ _ => 101 | A457 _ _ => 100 | A459 _ _ => 99 | A462 _ _ => 98 | A463 _ _ => 97 | A467 _ _ => 98 | A472 _ _ => 96
  | A475 _ _ => 18 | A203 _ _ => 17
  | Q209 => 5 | Q210 => 4 | Q210b => 3 | Q211 => 1 | Qblk => 0 | Qwoken => 5 | Q213 => 2 | Q214 => 1
  | D225 | D232 | D554 | D555 | D556 | D557 | D245 => 0
  end.
Definition weight (s : sh) : Z := 40 * len s + (if bv s =? 1 then 30 else 0) + (if up s then 0 else 1).
Fixpoint sum (g : nat -> pc) (n : nat) : Z := match n with O => 0 | S n => rank (g n) + sum g n end.
Lemma sum_ext g g' n : (forall i, (i < n)%nat -> g' i = g i) -> sum g' n = sum g n.
Proof. induction n as [|n IH]; intros H; cbn; [reflexivity|]. rewrite H, IH by lia || (intros; apply H; lia). reflexivity. Qed.
Lemma sum_upd g t p n : (t < n)%nat -> sum (upd_pc g t p) n = sum g n - rank (g t) + rank p.
Proof.
  induction n as [|n IH]; intros Ht; [lia|]. cbn [sum]. destruct (Nat.eq_dec t n) as [->|E].
  - rewrite upd_eq, (sum_ext g (upd_pc g n p) n) by (intros; apply upd_ne; lia). lia.
  - rewrite IH by lia. rewrite upd_ne by congruence. lia.
Qed.
Lemma rank_pos p : 0 <= rank p. Proof. destruct p; cbn; lia. Qed.
Lemma sum_pos g n : 0 <= sum g n. Proof. induction n; cbn [sum]; [lia|]. pose proof (rank_pos (g n)). lia. Qed.
Lemma exec_rank t p s s' p' : exec t p s = Ret (Some (s', p')) -> keep s' = true -> dpc p = false -> xpc p = false ->
  0 <= len s -> (p = W567 -> bv s = 1) -> rank p' + weight s' < rank p + weight s.
Proof.
  intros H Hk Hd Hx Hl Hb. exec_cases H; try discriminate Hd; try discriminate Hx; unfold weight; cbn in *; try congruence; try lia.
  - destruct (bv s =? 1); lia.
  - rewrite (Hb eq_refl). cbn. lia.
Qed.
Lemma run_M M N x y : (forall u, (M <= u)%nat -> pcs x u = Cidle) -> run N x y -> forall u, (M <= u)%nat -> pcs y u = Cidle.
Proof.
  intros F H. inversion H; subst; cbn [pcs]; intros v Hv; try (now apply F);
  assert (v <> t) by (intros ->; rewrite F in * by easy; discriminate); rewrite ?upd_ne by easy; try (now apply F).
  - rewrite upd_ne; [now apply F|]. intros ->. rewrite F in * by easy. discriminate.
  - rewrite upd_ne; [now apply F|]. intros ->. rewrite F in * by easy. discriminate.
  - now rewrite F.
Qed.
Lemma run_rank M N W x y : inv N W x -> keep (shr y) = true -> (forall u, (M <= u)%nat -> pcs x u = Cidle) -> run N x y ->
  sum (pcs y) M + weight (shr y) < sum (pcs x) M + weight (shr x).
Proof.
  intros I Hk F H.
  assert (LT : forall t, pcs x t <> Cidle -> (t < M)%nat). { intros t E. destruct (Nat.ltb_spec t M); [easy|]. now rewrite F in E. }
  assert (Hl : 0 <= len (shr x)). { destruct (queue_len _ (i_qu _ _ _ I)) as (q & _ & ->). unfold zl. lia. }
  inversion H; subst; clear H; cbn [pcs shr] in *.
  - assert (Hk' : keep (shr x) = true) by (clear - H0 Hk; exec_cases H0; cbn in *; congruence).
    destruct (m_keep _ _ (i_ms _ _ _ I) Hk' t) as (Hd & Hx).
    assert (Ht : (t < M)%nat) by (apply LT; intros E; rewrite E in H0; discriminate). rewrite sum_upd by easy.
    pose proof (exec_rank _ _ _ _ _ H0 Hk Hd Hx Hl (k_567 _ _ (i_wk _ _ _ I) t)). lia.
  - assert (t <> u) by congruence. rewrite !sum_upd by (apply LT; congruence). rewrite upd_ne by easy. rewrite H0, H1. cbn. lia.
  - rewrite !sum_upd by (apply LT; congruence). rewrite H0. cbn. lia.
  - assert (t <> u) by congruence. rewrite !sum_upd by (apply LT; congruence). rewrite upd_ne by easy. rewrite H0, H1. cbn. lia.
  - rewrite !sum_upd by (apply LT; congruence). rewrite H0. cbn. lia.
  - destruct (m_keep _ _ (i_ms _ _ _ I) Hk t) as (Hd & _). rewrite H0 in Hd. discriminate.
  - unfold weight. cbn. rewrite H1. lia.
Qed.
Lemma runs_acc N W x : inv N W x -> Acc (fun b a => runs N a b) x.
Proof.
  intros I. destruct (m_fin _ _ (i_ms _ _ _ I)) as (M & F).
  remember (Z.to_nat (sum (pcs x) M + weight (shr x))) as n eqn:En. revert x I F En.
  induction n as [n IH] using lt_wf_ind. intros x I F En. constructor. intros y (Hf & Hr & Hk).
  assert (Iy : inv N W y) by (eapply inv_step; [exact I|split; [exact Hf|now left]]).
  pose proof (run_rank M N W x y I Hk F Hr) as Lt. pose proof (sum_pos (pcs y) M).
  assert (0 <= weight (shr y)). { unfold weight. destruct (queue_len _ (i_qu _ _ _ Iy)) as (q & _ & ->). unfold zl. destruct (bv (shr y) =? 1), (up (shr y)); lia. }
  apply (IH (Z.to_nat (sum (pcs y) M + weight (shr y))) ltac:(lia) y Iy (run_M M N x y F Hr) eq_refl).
Qed.

(** ---- with one worker jobs start in order of submission ---- *)
Definition await (p : pc) : list nat := match held p with Some j => if running p then [] else [j] | None => [] end.
Lemma order_step W x y : inv 1 W x -> takes (log (shr x)) = starts (log (shr x)) ++ await (pcs x 0%nat) -> step 1 W x y ->
  takes (log (shr y)) = starts (log (shr y)) ++ await (pcs y 0%nat).
Proof.
  intros I E H. pose proof (inv_step _ _ _ _ I H) as Iy. destruct (step_local _ _ _ _ H) as (t & L & O).
  assert (W0 : forall u j z, inv 1 W z -> held (pcs z u) = Some j -> u = 0%nat).
  { intros u j z Iz K. apply held_inW, inW_worker in K. rewrite (i_ro _ _ _ Iz u) in K. apply Nat.ltb_lt in K. lia. }
  destruct (lstep_held _ _ _ _ _ _ _ L) as [(H1 & R1 & T1 & S1 & D1) | [(j & P & H1 & H1' & R1 & L1) | [(j & P & P' & L1) | (j & P & P' & L1)]]].
  { intros o Ho. now apply (p487_none x t); [apply I..|]. }
  - rewrite T1, S1, E. f_equal. destruct (Nat.eq_dec 0 t) as [<-|Ht].
    + unfold await. rewrite H1. destruct (held (pcs x 0%nat)) eqn:Eh; [|easy]. now rewrite R1.
    + symmetry. apply sim_f; auto.
  - assert (t = 0%nat) as -> by (eapply W0; [exact Iy|exact H1']). unfold await in *. rewrite H1', R1, L1, takes_app, starts_app, E, H1. cbn. now rewrite !app_nil_r.
  - assert (t = 0%nat) as -> by (eapply (W0 t j x); [exact I|now rewrite P]). rewrite P in E. rewrite P', L1, takes_app, starts_app, E. cbn. now rewrite !app_nil_r.
  - assert (t = 0%nat) as -> by (eapply (W0 t j x); [exact I|now rewrite P]). rewrite P in E. rewrite P', L1, takes_app, starts_app, E. cbn. now rewrite !app_nil_r.
Qed.
Lemma order_reach W x : reach 1 W x -> takes (log (shr x)) = starts (log (shr x)) ++ await (pcs x 0%nat).
Proof. induction 1 as [|x y H IH]; [reflexivity|]. eapply order_step; eauto. now apply inv_reach. Qed.

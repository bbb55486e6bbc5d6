(** Queueing and leaving. *)
From Verif Require Import CBase McsModel McsSpec McsProof.

Lemma upd_eq {V} (f : Z -> V) i v : upd f i v i = v.
Proof. unfold upd. rewrite Z.eqb_refl. reflexivity. Qed.
Lemma upd_ne {V} (f : Z -> V) i v j : j <> i -> upd f i v j = f j.
Proof. intros H. unfold upd. apply Z.eqb_neq in H. rewrite H. reflexivity. Qed.
Lemma last_inj (r r' : list (Z * Z)) n t n' t' : r ++ [(n, t)] = r' ++ [(n', t')] -> n = n' /\ t = t'.
Proof. intros E. apply app_inj_tail in E. destruct E as (_ & E). injection E as -> ->. auto. Qed.

Lemma nodup_end (l : list Z) x : NoDup l -> ~ In x l -> NoDup (l ++ [x]).
Proof. intros H N. rewrite <- (app_nil_r l) in H, N. apply NoDup_Add with (a := x) (l := l ++ []); [apply Add_app | auto]. Qed.

(** thread t queues with node n *)
Lemma inv_enq s q d s' t n p' :
  inv s q d -> (pcs s t = PXchg n \/ pcs s t = PTry n) ->
  tail s' = Some n -> pcs s' t = p' -> (forall u, u <> t -> pcs s' u = pcs s u) ->
  nxt s' = nxt s -> nfl s' = nfl s -> rfl s' = rfl s -> evs s' = evs s -> nev s' = nev s ->
  (q = [] /\ p' = PHeld n /\ mlog s' = EGot n t :: EArrive n t :: mlog s \/
   exists r p tp, q = r ++ [(p, tp)] /\ p' = PLink n p /\ mlog s' = EArrive n t :: mlog s) ->
  inv s' (q ++ [(n, t)]) d.
Proof.
  intros I Hpc Ht Hp Hpo Hnx Hnf Hrf Hev Hnev C.
  assert (O : own (pcs s t) = Some n) by (destruct Hpc as [-> | ->]; reflexivity).
  assert (Q : inq (pcs s t) = None) by (destruct Hpc as [-> | ->]; reflexivity).
  assert (IO : nfl s n = F0 /\ rfl s n = F0 /\ nxt s n = None).
  { pose proof (i_init _ _ _ I t) as H. destruct Hpc as [E | E]; rewrite E in H; exact H. }
  destruct IO as (IO1 & IO2 & IO3).
  assert (NI : forall u, ~ In (n, u) q).
  { intros u H. pose proof (q_own _ _ _ _ _ I H) as H'. assert (u = t) by (eapply (i_own _ _ _ I); eauto). subst u.
    apply (i_in _ _ _ I) in H. congruence. }
  assert (NT : forall x, ~ In (x, t) q) by (intros x H; apply (i_in _ _ _ I) in H; congruence).
  assert (Q' : inq p' = Some n) by (destruct C as [(_ & -> & _) | (r & p & tp & _ & -> & _)]; reflexivity).
  assert (O' : own p' = Some n) by (apply inq_own; exact Q').
  assert (E' : evof p' = None) by (destruct C as [(_ & -> & _) | (r & p & tp & _ & -> & _)]; reflexivity).
  assert (EVP : forall u, u <> t -> evof (pcs s' u) = evof (pcs s u)) by (intros u N; rewrite Hpo; auto).
  constructor.
  - right. exists q, n, t. auto.
  - rewrite map_app. cbn. apply nodup_end; [apply (i_nd _ _ _ I) |].
    intros H. apply in_map_iff in H. destruct H as ([x u] & H1 & H2). cbn in H1. subst x. eapply NI; eauto.
  - intros x u. rewrite in_app_iff. cbn [In]. destruct (Z.eq_dec u t) as [-> | N].
    + rewrite Hp, Q'. split; [intros H; injection H as <-; auto | intros [H | [H | []]]; [exfalso; eapply NT; eauto | congruence]].
    + rewrite Hpo by auto. rewrite (i_in _ _ _ I). split; [auto | intros [H | [H | []]]; [auto | congruence]].
  - intros u v x. destruct (Z.eq_dec u t) as [-> | N]; destruct (Z.eq_dec v t) as [-> | N']; auto.
    + rewrite Hp, (Hpo v) by auto. rewrite O'. rewrite <- O. apply (i_own _ _ _ I).
    + rewrite Hp, (Hpo u) by auto. rewrite O'. rewrite <- O. apply (i_own _ _ _ I).
    + rewrite !Hpo by auto. apply (i_own _ _ _ I).
  - intros u. unfold initok. destruct (Z.eq_dec u t) as [-> | N].
    + rewrite Hp. destruct C as [(_ & -> & _) | (r & p & tp & _ & -> & _)]; exact Logic.I.
    + rewrite Hpo by auto. rewrite Hnx, Hnf, Hrf. apply (i_init _ _ _ I).
  - intros u e. destruct (Z.eq_dec u t) as [-> | N]; [rewrite Hp, E'; discriminate|]. rewrite Hpo, Hev, Hnev by auto. apply (i_ev _ _ _ I).
  - intros u v e. destruct (Z.eq_dec u t) as [-> | N]; [rewrite Hp, E'; discriminate|].
    destruct (Z.eq_dec v t) as [-> | N']; [rewrite Hp, E'; discriminate|]. rewrite !Hpo by auto. apply (i_evu _ _ _ I).
  - intros u k e. destruct (Z.eq_dec u t) as [-> | N]; [rewrite Hp; intros ->; discriminate|]. rewrite Hpo, Hev by auto. apply (i_ev3 _ _ _ I).
  - intros u. destruct (Z.eq_dec u t) as [-> | N]; [|rewrite Hpo by auto; apply (i_evs _ _ _ I)].
    rewrite Hp. destruct C as [(_ & -> & _) | (r & p & tp & _ & -> & _)]; exact Logic.I.
  - intros p tp m tm A. destruct (adj_snoc _ _ _ _ _ _ _ A) as [B | (r & E & -> & ->)].
    + destruct (adj_in _ _ _ _ _ B) as (B1 & B2).
      assert (tp <> t) by (intros ->; eapply NT; eauto). assert (tm <> t) by (intros ->; eapply NT; eauto).
      unfold link. rewrite !Hpo, Hnx, Hnf, Hrf, Hev by auto. apply (i_adj _ _ _ I _ _ _ _ B).
    + destruct C as [(-> & _) | (r' & p1 & tp1 & E1 & -> & _)]; [destruct r; discriminate|].
      rewrite E in E1. apply last_inj in E1. destruct E1 as (-> & ->).
      pose proof (i_last _ _ _ I _ _ _ E) as (L1 & L2 & L3).
      assert (tp1 <> t) by (intros ->; eapply (NT p1); rewrite E; apply in_app_iff; right; left; reflexivity).
      unfold link. rewrite Hp, Hpo, Hnx, Hnf, Hrf, Hev, L1, L2, IO2 by auto.
      unfold linkP. split.
      * split; [reflexivity|]. split; [reflexivity|]. split; [|split; [|reflexivity]];
          destruct (pcs s tp1); try contradiction; try reflexivity; destruct k; try contradiction; reflexivity.
      * destruct (pcs s tp1); auto. destruct k; auto; contradiction.
  - intros x u r E. destruct C as [(-> & -> & _) | (r' & p & tp & E1 & -> & _)].
    + cbn in E. injection E as <- <- _. left. rewrite Hp. reflexivity.
    + assert (EQ : exists r1, q = (x, u) :: r1).
      { destruct q as [|y q']; [destruct r'; discriminate|]. cbn in E. injection E as -> _. eauto. }
      destruct EQ as (r1 & EQ). pose proof (i_head _ _ _ I _ _ _ EQ) as HH.
      assert (u <> t) by (intros ->; eapply (NT x); rewrite EQ; left; reflexivity).
      unfold headok in *. rewrite Hpo, Hnf, Hrf, Hev by auto. destruct HH as [HH | HH]; [left; exact HH | right].
      destruct (pcs s u) eqn:PU; auto; destruct k; auto.
      * destruct HH as (H1 & H2 & H3). split; [exact H1|]. split; [exact H2|]. intros v. destruct (Z.eq_dec v t) as [-> | N].
        -- rewrite Hp, O', <- O. apply H3.
        -- rewrite Hpo by auto. apply H3.
      * destruct e as [e|]; [|exact HH]. destruct HH as (H1 & [H2 | (w & n' & H2)]); split; auto. right. exists w, n'.
        destruct (Z.eq_dec w t) as [-> | N]; [destruct Hpc; congruence|]. rewrite Hpo; auto.
  - intros x u r E. apply last_inj in E. destruct E as (<- & <-). rewrite Hp, Hnx, Hnf, IO1, IO3. split; [reflexivity|]. split; [reflexivity|].
    destruct C as [(_ & -> & _) | (r' & p & tp & _ & -> & _)]; exact Logic.I.
  - intros u x m e. destruct (Z.eq_dec u t) as [-> | N].
    + rewrite Hp. destruct C as [(_ & -> & _) | (r' & p & tp & _ & -> & _)]; discriminate.
    + rewrite Hpo by auto. intros P. destruct (i_set _ _ _ I _ _ _ _ P) as (th & r & E & P4 & EF).
      exists th, (r ++ [(n, t)]). rewrite E. split; [reflexivity|].
      assert (th <> t) by (intros ->; destruct Hpc; congruence). rewrite Hpo, Hev by auto. auto.
  - intros u v x m e x' m' e'. destruct (Z.eq_dec u t) as [-> | N].
    + rewrite Hp. destruct C as [(_ & -> & _) | (r' & p & tp & _ & -> & _)]; discriminate.
    + destruct (Z.eq_dec v t) as [-> | N'].
      * rewrite Hp. intros _. destruct C as [(_ & -> & _) | (r' & p & tp & _ & -> & _)]; discriminate.
      * rewrite !Hpo by auto. apply (i_setu _ _ _ I).
  - destruct C as [(E & _ & L) | (r' & p & tp & E & _ & L)]; rewrite L; cbn; rewrite (i_arr _ _ _ I), app_assoc; reflexivity.
  - destruct C as [(E & H & L) | (r' & p & tp & E & _ & L)]; rewrite L; cbn; rewrite (i_got _ _ _ I).
    + subst q. cbn. rewrite Hp, H. cbn. rewrite app_nil_r. reflexivity.
    + f_equal. destruct q as [|[x u] q']; [destruct r'; discriminate|]. cbn.
      assert (u <> t) by (intros ->; eapply (NT x); left; reflexivity). rewrite Hpo; auto.
Qed.

Lemma in_tl_ne (n t : Z) (q0 : list (Z * Z)) (x u : Z) : NoDup (map fst ((n, t) :: q0)) -> In (x, u) q0 -> x <> n.
Proof. intros ND H ->. cbn in ND. inversion ND as [|? ? H1 H2]; subst. apply H1. apply in_map_iff. exists (n, u). auto. Qed.

Lemma link_sready np fp rm n m' pm ev p m : linkP np fp rm (PSet (SReady n m')) pm ev p m ->
  (exists x, pm = PSet (SNext x p) /\ fp = F0 /\ rm = F0) \/
  ((exists x, pm = PWait1 (WReady x) \/ pm = PWait2 (WReady x) \/ exists e, pm = PWait3 (WReady x) e) /\ rm = F0) \/
  (exists x e, pm = PWait4 (WReady x) (Some e) /\ rm = FE e /\ ev e = EvOpen false).
Proof.
  intros (A & _). destruct pm; try contradiction; try (destruct k; try contradiction); cbn in A.
  - destruct A as (_ & _ & _ & X & _). discriminate.
  - destruct A as (-> & _ & -> & ->). left. eauto.
  - destruct A as (_ & _ & X & _). discriminate.
  - right; left. split; [eauto | tauto].
  - right; left. split; [eauto | tauto].
  - right; left. split; [eauto | tauto].
  - destruct e as [e|]; [|contradiction]. right; right. exists n0, e. tauto.
Qed.

(** thread t passes the lock on to the node m behind it *)
Lemma inv_deq s q0 d s' t n m p' :
  inv s ((n, t) :: q0) d -> pcs s t = PSet (SReady n m) ->
  tail s' = tail s -> pcs s' t = p' -> (forall u, u <> t -> pcs s' u = pcs s u) ->
  nxt s' = nxt s -> nfl s' = nfl s -> evs s' = evs s -> nev s' = nev s -> mlog s' = mlog s ->
  (forall x, x <> m -> rfl s' x = rfl s x) ->
  (rfl s m = F0 /\ rfl s' m = F1 /\ p' = PIdle \/
   exists e, rfl s m = FE e /\ rfl s' m = FE e /\ p' = PSetEv (SReady n m) e) ->
  inv s' q0 (d ++ [(n, t)]).
Proof.
  intros I Hpc Ht Hp Hpo Hnx Hnf Hev Hnev Hlog Hrf C.
  assert (Q : In (n, t) ((n, t) :: q0)) by (left; reflexivity).
  pose proof (i_nd _ _ _ I) as ND.
  (* the successor *)
  assert (S : exists tm r, q0 = (m, tm) :: r).
  { destruct (succ_cases _ _ _ Q) as [(r & E) | (m' & tm & A)].
    - exfalso. pose proof (i_last _ _ _ I _ _ _ E) as (_ & _ & L). rewrite Hpc in L. exact L.
    - pose proof (i_adj _ _ _ I _ _ _ _ A) as (_ & L). rewrite Hpc in L. subst m'.
      destruct A as (a & b & E). change ((n, t) :: q0) with ([] ++ (n, t) :: q0) in E, ND.
      destruct (nodup_split _ _ _ _ _ _ _ ND E) as (_ & _ & X). eauto. }
  destruct S as (tm & r & ->).
  assert (A : adj ((n, t) :: (m, tm) :: r) n t m tm) by (exists [], r; reflexivity).
  pose proof (i_adj _ _ _ I _ _ _ _ A) as L.
  assert (Nm : m <> n) by (eapply in_tl_ne; [exact ND | left; reflexivity]).
  assert (NT : forall x, ~ In (x, t) ((m, tm) :: r)).
  { intros x H. assert (x = n) by (eapply q_tid; [exact I | right; exact H | exact Q]). subst x.
    eapply in_tl_ne; [exact ND | exact H | reflexivity]. }
  assert (Ntm : tm <> t) by (intros ->; eapply (NT m); left; reflexivity).
  assert (Q' : inq p' = None) by (destruct C as [(_ & _ & ->) | (e & _ & _ & ->)]; reflexivity).
  assert (O : own (pcs s t) = Some n) by (rewrite Hpc; reflexivity).
  assert (O' : forall x, own p' = Some x -> x = n).
  { intros x. destruct C as [(_ & _ & ->) | (e & _ & _ & ->)]; cbn; [discriminate|congruence]. }
  assert (E' : evof p' = None) by (destruct C as [(_ & _ & ->) | (e & _ & _ & ->)]; reflexivity).
  assert (Otm : own (pcs s tm) = Some m) by (eapply q_own; [exact I | right; left; reflexivity]).
  assert (RFu : forall u x, u <> tm -> own (pcs s u) = Some x -> rfl s' x = rfl s x).
  { intros u x N H. apply Hrf. intros ->. apply N. eapply (i_own _ _ _ I); eauto. }
  assert (NS : forall u x y e, pcs s u <> PSetEv (SReady x y) e).
  { intros u x y e H. destruct (i_set _ _ _ I _ _ _ _ H) as (th & r' & E & P4 & _). injection E as -> -> _. congruence. }
  constructor.
  - right. destruct (i_tail _ _ _ I) as [(X & _) | (r' & x & u & E & T)]; [discriminate|].
    destruct r' as [|y r']; [discriminate|]. cbn in E. injection E as _ E. exists r', x, u. rewrite Ht. auto.
  - cbn in ND. inversion ND; auto.
  - intros x u. destruct (Z.eq_dec u t) as [-> | N].
    + rewrite Hp, Q'. split; [discriminate | intros H; exfalso; eapply NT; eauto].
    + rewrite Hpo by auto. rewrite (i_in _ _ _ I). cbn [In]. split; [intros [H | H]; [congruence | exact H] | auto].
  - intros u v x. destruct (Z.eq_dec u t) as [-> | N]; destruct (Z.eq_dec v t) as [-> | N']; auto.
    + rewrite Hp, (Hpo v) by auto. intros H H'. apply O' in H. subst x. eapply (i_own _ _ _ I); eauto.
    + rewrite Hp, (Hpo u) by auto. intros H H'. apply O' in H'. subst x. eapply (i_own _ _ _ I); eauto.
    + rewrite !Hpo by auto. apply (i_own _ _ _ I).
  - intros u. unfold initok. destruct (Z.eq_dec u t) as [-> | N].
    + rewrite Hp. destruct C as [(_ & _ & ->) | (e & _ & _ & ->)]; exact Logic.I.
    + rewrite Hpo by auto. rewrite Hnx, Hnf. pose proof (i_init _ _ _ I u) as H.
      assert (X : forall x, own (pcs s u) = Some x -> inq (pcs s u) = None -> rfl s' x = rfl s x).
      { intros x H1 H2. apply (RFu u); auto. intros ->. assert (H3 : inq (pcs s tm) = Some m) by (apply (i_in _ _ _ I); right; left; reflexivity). congruence. }
      destruct (pcs s u); cbn in *; auto; rewrite X; auto.
  - intros u e. destruct (Z.eq_dec u t) as [-> | N]; [rewrite Hp, E'; discriminate|]. rewrite Hpo, Hev, Hnev by auto. apply (i_ev _ _ _ I).
  - intros u v e. destruct (Z.eq_dec u t) as [-> | N]; [rewrite Hp, E'; discriminate|].
    destruct (Z.eq_dec v t) as [-> | N']; [rewrite Hp, E'; discriminate|]. rewrite !Hpo by auto. apply (i_evu _ _ _ I).
  - intros u k e. destruct (Z.eq_dec u t) as [-> | N]; [rewrite Hp; intros ->; discriminate|]. rewrite Hpo, Hev by auto. apply (i_ev3 _ _ _ I).
  - intros u. destruct (Z.eq_dec u t) as [-> | N]; [|rewrite Hpo by auto; apply (i_evs _ _ _ I)].
    rewrite Hp. destruct C as [(_ & _ & ->) | (e & _ & _ & ->)]; exact Logic.I.
  - intros p tp x tx B. pose proof (adj_cons (n, t) _ _ _ _ _ B) as B'.
    destruct (adj_in _ _ _ _ _ B) as (B1 & B2).
    assert (tp <> t) by (intros ->; eapply NT; eauto). assert (tx <> t) by (intros ->; eapply NT; eauto).
    unfold link. rewrite !Hpo, Hnx, Hnf, Hev by auto.
    rewrite (RFu tx x); [apply (i_adj _ _ _ I _ _ _ _ B') | | eapply q_own; [exact I | right; exact B2]].
    intros ->. assert (x = m) by (eapply q_tid; [exact I | right; exact B2 | right; left; reflexivity]). subst x.
    destruct (adj_prev _ _ _ _ _ _ _ _ ND A B') as (_ & X & _). auto.
  - intros x u r' E. injection E as -> -> ->. unfold headok. rewrite Hpo, Hnf, Hev by auto.
    unfold link in L. rewrite Hpc in L. apply link_sready in L. right.
    destruct C as [(R & R' & ->) | (e & R & R' & ->)]; rewrite R'; rewrite R in L.
    + destruct L as [(x0 & -> & X & _) | [((x0 & H) & _) | (x0 & e & _ & X & _)]]; [| |discriminate].
      * split; [reflexivity|]. split; [exact X|]. intros v. destruct (Z.eq_dec v t) as [-> | N]; [rewrite Hp; discriminate|].
        rewrite Hpo by auto. intros H. apply N. eapply (i_own _ _ _ I); eauto.
      * destruct H as [-> | [-> | (e & ->)]]; reflexivity.
    + destruct L as [(x0 & _ & _ & X) | [(_ & X) | (x0 & e' & -> & X & _)]]; try discriminate. injection X as <-.
      split; [reflexivity|]. right. exists t, n. exact Hp.
  - intros x u r' E. assert (E2 : (n, t) :: (m, tm) :: r = ((n, t) :: r') ++ [(x, u)]) by (cbn; rewrite E; reflexivity).
    assert (u <> t) by (intros ->; eapply (NT x); rewrite E; apply in_app_iff; right; left; reflexivity).
    rewrite Hpo, Hnx, Hnf by auto. eapply (i_last _ _ _ I); eauto.
  - intros u x y e. destruct (Z.eq_dec u t) as [-> | N]; [|rewrite Hpo by auto; intros H; exfalso; eapply NS; eauto].
    rewrite Hp. intros H. destruct C as [(_ & _ & C) | (e' & R & R' & C)]; [congruence|].
    rewrite C in H. injection H as -> -> ->. exists tm, r. split; [reflexivity|]. rewrite Hpo, Hev by auto.
    unfold link in L. rewrite Hpc in L. apply link_sready in L. rewrite R in L.
    destruct L as [(x0 & _ & _ & X) | [(_ & X) | (x0 & e2 & P4 & X & X')]]; try discriminate. injection X as <-.
    rewrite P4 in Otm. cbn in Otm. injection Otm as ->. auto.
  - intros u v x y e x' y' e'. destruct (Z.eq_dec u t) as [-> | N]; [|rewrite Hpo by auto; intros H; exfalso; eapply NS; eauto].
    destruct (Z.eq_dec v t) as [-> | N']; [auto|rewrite (Hpo v) by auto; intros _ H; exfalso; eapply NS; eauto].
  - rewrite Hlog, (i_arr _ _ _ I), <- app_assoc. reflexivity.
  - rewrite Hlog, (i_got _ _ _ I). cbn. rewrite Hpc. cbn. rewrite Hpo by auto.
    rewrite (linkP_notgranted _ _ _ _ _ _ _ _ L). rewrite app_nil_r. reflexivity.
Qed.

(** the only thread in the queue leaves *)
Lemma inv_leave s d s' t n :
  inv s [(n, t)] d -> pcs s t = PRel2 n ->
  tail s' = None -> pcs s' t = PIdle -> (forall u, u <> t -> pcs s' u = pcs s u) ->
  nxt s' = nxt s -> nfl s' = nfl s -> rfl s' = rfl s -> evs s' = evs s -> nev s' = nev s -> mlog s' = mlog s ->
  inv s' [] (d ++ [(n, t)]).
Proof.
  intros I Hpc Ht Hp Hpo Hnx Hnf Hrf Hev Hnev Hlog.
  assert (NS : forall u x y e, pcs s u <> PSetEv (SReady x y) e).
  { intros u x y e H. destruct (i_set _ _ _ I _ _ _ _ H) as (th & r' & E & P4 & _). injection E as -> -> _. congruence. }
  constructor.
  - left. auto.
  - constructor.
  - intros x u. destruct (Z.eq_dec u t) as [-> | N]; [rewrite Hp; cbn; split; [discriminate|contradiction]|].
    rewrite Hpo by auto. rewrite (i_in _ _ _ I). cbn. split; [intros [H | []]; congruence | contradiction].
  - intros u v x. destruct (Z.eq_dec u t) as [-> | N]; [rewrite Hp; discriminate|].
    destruct (Z.eq_dec v t) as [-> | N']; [rewrite Hp; discriminate|]. rewrite !Hpo by auto. apply (i_own _ _ _ I).
  - intros u. unfold initok. destruct (Z.eq_dec u t) as [-> | N]; [rewrite Hp; exact Logic.I|]. rewrite Hpo, Hnx, Hnf, Hrf by auto. apply (i_init _ _ _ I).
  - intros u e. destruct (Z.eq_dec u t) as [-> | N]; [rewrite Hp; discriminate|]. rewrite Hpo, Hev, Hnev by auto. apply (i_ev _ _ _ I).
  - intros u v e. destruct (Z.eq_dec u t) as [-> | N]; [rewrite Hp; discriminate|].
    destruct (Z.eq_dec v t) as [-> | N']; [rewrite Hp; discriminate|]. rewrite !Hpo by auto. apply (i_evu _ _ _ I).
  - intros u k e. destruct (Z.eq_dec u t) as [-> | N]; [rewrite Hp; discriminate|]. rewrite Hpo, Hev by auto. apply (i_ev3 _ _ _ I).
  - intros u. destruct (Z.eq_dec u t) as [-> | N]; [rewrite Hp; exact Logic.I|]. rewrite Hpo by auto. apply (i_evs _ _ _ I).
  - intros p tp m tm ([|] & b & E); discriminate.
  - discriminate.
  - intros x u [|] E; discriminate.
  - intros u x y e. destruct (Z.eq_dec u t) as [-> | N]; [rewrite Hp; discriminate|]. rewrite Hpo by auto. intros H. exfalso. eapply NS; eauto.
  - intros u v x y e x' y' e'. destruct (Z.eq_dec u t) as [-> | N]; [rewrite Hp; discriminate|]. rewrite Hpo by auto. intros H. exfalso. eapply NS; eauto.
  - rewrite Hlog, (i_arr _ _ _ I), app_nil_r. reflexivity.
  - rewrite Hlog, (i_got _ _ _ I). cbn. rewrite Hpc. cbn. rewrite app_nil_r. reflexivity.
Qed.

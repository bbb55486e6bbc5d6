From Verif Require Import CBase McsModel McsSpec McsProof McsProof2 McsProof6 McsProof7 McsTsoModel McsTsoSpec McsTsoProof.

Lemma pub_upd_other b t x u : u <> t -> (forall a v, ~ In (LD a v) (upd b t x u)) <-> (forall a v, ~ In (LD a v) (b u)).
Proof. intro N. rewrite upd_ne by exact N. tauto. Qed.
(** a store that is not data enters or leaves the buffer of t: what threads read does not change *)
Lemma dat_lock b t x (md0 : Z -> Z) (lat : Z -> Z) :
  (forall a v, In (LD a v) x <-> In (LD a v) (b t)) -> (forall a y, fwd x a y = fwd (b t) a y) ->
  (forall u a, (forall w, w <> u -> forall a v, ~ In (LD a v) (b w)) -> fwd (b u) a (md0 a) = lat a) ->
  forall u a, (forall w, w <> u -> forall a v, ~ In (LD a v) (upd b t x w)) -> fwd (upd b t x u) a (md0 a) = lat a.
Proof.
  intros HI HF H u a K.
  assert (K' : forall w, w <> u -> forall a v, ~ In (LD a v) (b w)).
  { intros w N a0 v X. apply (K w N a0 v). destruct (Z.eq_dec w t) as [->|D]; [rewrite upd_eq; apply HI; exact X|rewrite upd_ne; auto]. }
  specialize (H u a K'). destruct (Z.eq_dec u t) as [->|D]; [rewrite upd_eq, HF; exact H|rewrite upd_ne by exact D; exact H].
Qed.
Lemma in_snoc_nd b e : ~ data e -> forall a v, In (LD a v) (b ++ [e]) <-> In (LD a v) b.
Proof. intros N a v. rewrite in_app_iff. cbn. split; [intros [K|[K|[]]]; auto; subst; contradiction N; exact Logic.I|auto]. Qed.
Lemma fwd_snoc_nd b e : ~ data e -> forall a y, fwd (b ++ [e]) a y = fwd b a y.
Proof. intros N a y. rewrite fwd_snoc. destruct e; auto. contradiction N; exact Logic.I. Qed.
Lemma in_cons_nd b e : ~ data e -> forall a v, In (LD a v) b <-> In (LD a v) (e :: b).
Proof. intros N a v. cbn. split; [auto|intros [K|K]; auto; subst; contradiction N; exact Logic.I]. Qed.
Lemma fwd_cons_nd b e : ~ data e -> forall a y, fwd b a y = fwd (e :: b) a y.
Proof. intros N a y. destruct e; auto. contradiction N; exact Logic.I. Qed.

Section Step.
Variable d0 : Z -> Z.

(** a plain store of a lock function: nothing happens yet *)
Lemma sim_issue m f t p e : sim d0 m f -> ~ data e -> rpc p (mb m t ++ [e]) (f t) -> sim d0 (mset_k (push_w m t e) (go (mk m) t p)) f.
Proof.
  intros [R P D L] N H. constructor; cbn [mk mb md ml mset_k push_w].
  - exact R.
  - intros u. cbn. destruct (Z.eq_dec u t) as [->|DD]; [rewrite !upd_eq; exact H|rewrite !upd_ne by exact DD; apply P].
  - apply (dat_lock (mb m) t (mb m t ++ [e]) (md m) (fun a => latest d0 a (ml m))); auto using in_snoc_nd, fwd_snoc_nd.
  - exact L.
Qed.
Lemma upd_pc_rpc m f t p' : (forall u, u <> t -> rpc (pcs (mk m) u) (mb m u) (f u)) -> forall k, (forall u, u <> t -> pcs k u = pcs (mk m) u) ->
  rpc (pcs k t) (mb m t) p' -> forall u, rpc (pcs k u) (mb m u) (upd f t p' u).
Proof.
  intros H k K X u. destruct (Z.eq_dec u t) as [->|DD]; [rewrite upd_eq; exact X|]. rewrite upd_ne, K by exact DD. auto.
Qed.
Lemma rpc_refl p : rpc p [] p.
Proof. destruct p as [| | | | | | |[]| | | | | | | | | |]; cbn; auto. Qed.

(** a locked instruction: both machines take it *)
Lemma sim_locked m f t r : sim d0 m f -> mb m t = [] -> mexec (mk m) t true = Ret r ->
  mexec (wpcs (mk m) f) t true = Ret (match r with Some k => Some (wpcs k (upd f t (pcs k t))) | None => None end) /\
  forall k, r = Some k -> sim d0 (mset_k m k) (upd f t (pcs k t)).
Proof.
  intros [R P D L] B H. assert (F : f t = pcs (mk m) t) by (apply (rpc_own _ _ _ (P t)); exact B).
  pose proof (mexec_wpcs (mk m) t true f F) as E. rewrite H in E. cbn [bind] in E. split; [exact E|].
  intros k ->. constructor; cbn [mk mb md ml mset_k]; auto.
  - eapply calm_step; [exact E|exact R].
  - apply (upd_pc_rpc m f t); auto.
    + apply (mexec_others _ _ _ _ H).
    + rewrite B. apply rpc_refl.
Qed.

(** a store of a lock function reaches memory: the other machine takes its step now *)
Lemma sim_flush m f t e b : sim d0 m f -> mb m t = e :: b -> ~ data e -> exists f', sim d0 (mcommit (pop_w m t b) e) f'.
Proof.
  intros [R P D L] B N. pose proof (P t) as PT. rewrite B in PT.
  assert (X : exists p', mexec (wpcs (mk m) f) t true = Ret (Some (wpcs (mk (mcommit (pop_w m t b) e)) (upd f t p'))) /\ rpc (pcs (mk m) t) b p').
  { unfold mexec. change (pcs (wpcs (mk m) f) t) with (f t).
    destruct (pcs (mk m) t) as [|n y|n y|n y|n|n|n p|[n p|n p]|k0 e0|k0|k0|k0 eo|k0 eo|k0 eo|n|n|n|n] eqn:EP;
      cbn [rpc] in PT; repeat match type of PT with _ \/ _ => destruct PT as [PT|PT] end; destruct PT as [PT PT2];
      try discriminate PT; try (match type of PT2 with Forall _ _ => inversion PT2; subst; contradiction end); try (injection PT as -> ->); rewrite PT2;
      (eexists; split; [reflexivity|cbn [rpc]; auto]). }
  destruct X as (p' & E & H). exists (upd f t p').
  assert (K : pcs (mk (mcommit (pop_w m t b) e)) = pcs (mk m)) by (destruct e; reflexivity).
  assert (KB : mb (mcommit (pop_w m t b) e) = upd (mb m) t b) by (destruct e; reflexivity).
  assert (KD : md (mcommit (pop_w m t b) e) = md m) by (destruct e; try reflexivity; contradiction N; exact Logic.I).
  assert (KL : ml (mcommit (pop_w m t b) e) = ml m) by (destruct e; reflexivity).
  constructor; rewrite ?K, ?KB, ?KD, ?KL.
  - eapply calm_step; [exact E|exact R].
  - intros u. destruct (Z.eq_dec u t) as [->|DD]; [rewrite !upd_eq; exact H|rewrite !upd_ne by exact DD; apply P].
  - unfold published. rewrite KB. apply (dat_lock (mb m) t b (md m) (fun a => latest d0 a (ml m))); auto; rewrite B; auto using in_cons_nd, fwd_cons_nd.
  - exact L.
Qed.
Lemma sim_flush_data m f t a v b : sim d0 m f -> mb m t = LD a v :: b -> sim d0 (mcommit (pop_w m t b) (LD a v)) f.
Proof.
  intros S B. pose proof S as S0. destruct S as [R P D L].
  destruct (rpc_data _ _ _ a v (P t) ltac:(rewrite B; left; reflexivity)) as [FE G].
  pose proof (sim_alone d0 m f t) as AL.
  constructor; cbn [mk mb md ml mcommit pop_w].
  - exact R.
  - intros u. destruct (Z.eq_dec u t) as [->|DD]; [rewrite !upd_eq|rewrite upd_ne by exact DD; apply P].
    pose proof (P t) as PT. rewrite B in PT.
    destruct (pcs (mk m) t) as [|n y|n y|n y|n|n|n p|[n p|n p]|k0 e0|k0|k0|k0 eo|k0 eo|k0 eo|n|n|n|n]; cbn [rpc] in *;
      repeat match type of PT with _ \/ _ => destruct PT as [PT|PT] end; destruct PT as [PT PT2]; try discriminate PT; split; auto; inversion PT2; auto.
  - intros u c H.
    assert (DT : fwd (mb m t) c (md m c) = latest d0 c (ml m)) by (apply D; intros w NW; apply (AL w S0 G NW)).
    rewrite B in DT. cbn [fwd] in DT. replace (upd (md m) a v c) with (if a =? c then v else md m c) by (unfold upd; rewrite Z.eqb_sym; reflexivity).
    destruct (Z.eq_dec u t) as [->|DD]; [rewrite upd_eq; exact DT|]. rewrite upd_ne by exact DD.
    rewrite fwd_nodata by (apply (AL u S0 G DD)). rewrite fwd_nodata in DT; [exact DT|].
    assert (NE : t <> u) by congruence. pose proof (H t NE) as HT. unfold published in HT. cbn [mb mcommit pop_w] in HT. rewrite upd_eq in HT. exact HT.
  - exact L.
Qed.

Lemma sim_call m f t n y : sim d0 m f -> pcs (mk m) t = PIdle -> (forall u, own (pcs (mk m) u) <> Some n) -> quiet (mk m) n ->
  exists f', sim d0 (mset_k m (go (mk m) t (PInit1 n y))) f'.
Proof.
  intros [R P D L] E O Q. pose proof (P t) as PT. rewrite E in PT. destruct PT as [B F].
  exists (upd f t (PInit1 n y)). constructor; cbn [mk mb md ml mset_k]; auto.
  - change (wpcs (go (mk m) t (PInit1 n y)) (upd f t (PInit1 n y))) with (go (wpcs (mk m) f) t (PInit1 n y)).
    assert (O' : forall u, own (pcs (wpcs (mk m) f) u) <> Some n).
    { intros u. cbn. rewrite (proj1 (rpc_own _ _ _ (P u))). apply O. }
    assert (Q' : quiet (wpcs (mk m) f) n).
    { intros u x K. cbn in K. apply (Q u x). apply (rpc_snext _ _ _ _ _ (P u) K). }
    destruct y; [eapply MRS with (a := MTry t n)|eapply MRS with (a := MAcquire t n)]; try exact R; try exact Q'; constructor; auto.
  - apply (upd_pc_rpc m f t); auto.
    + intros u NU. cbn. rewrite upd_ne by exact NU. reflexivity.
    + cbn. rewrite upd_eq, B. split; reflexivity.
Qed.

Lemma sim_step m f a m' : sim d0 m f -> tmcalm m a -> tmstep m a m' -> exists f', sim d0 m' f'.
Proof.
  intros S C H. destruct H as [m t n E O|m t n E O|m t ok m' H|m t n E|m t e b B|m t n a v E|m t n a E].
  - eapply sim_call; eauto.
  - eapply sim_call; eauto.
  - cbn in C. subst ok. unfold tmexec in H. pose proof (s_pc d0 m f S t) as PT.
    assert (LK : forall r, mb m t = [] -> (do r <- mexec (mk m) t true; Ret (match r with Some k => Some (mset_k m k) | None => None end)) = Ret r -> r = Some m' -> exists f', sim d0 m' f').
    { intros r B HH ->. destruct (mexec (mk m) t true) as [r| | |] eqn:ME; cbn [bind] in HH; try discriminate HH. destruct r as [k|]; [|discriminate HH]. injection HH as <-.
      destruct (sim_locked m f t (Some k) S B ME) as [_ K]. eexists. apply K. reflexivity. }
    destruct (pcs (mk m) t) as [|n y|n y|n y|n|n|n p|k0|k0 e0|k0|k0|k0 eo|k0 eo|k0 eo|n|n|n|n] eqn:EP;
      try (destruct (mb m t) eqn:B; [eapply LK; [reflexivity|exact H|reflexivity]|discriminate H]).
    + injection H as <-. destruct PT as [B F]. exists f. apply sim_issue; auto. rewrite B, F. cbn. auto.
    + injection H as <-. exists f. apply sim_issue; auto. destruct PT as [[B F]|[B F]]; rewrite B, F; cbn; auto.
    + injection H as <-. exists f. apply sim_issue; auto. destruct PT as [[B F]|[[B F]|[B F]]]; rewrite B, F; destruct y; cbn; auto 10.
    + injection H as <-. exists f. apply sim_issue; auto. destruct PT as [B F]. rewrite B, F. cbn. auto.
  - pose proof (s_pc d0 m f S t) as PT. rewrite E in PT. destruct PT as [F B]. exists (upd f t (PRel1 n)). destruct S as [R P D L].
    constructor; cbn [mk mb md ml mset_k]; auto.
    + change (wpcs (memit (go (mk m) t (PRel1 n)) (ERelease n t)) (upd f t (PRel1 n))) with (memit (go (wpcs (mk m) f) t (PRel1 n)) (ERelease n t)).
      eapply MRS with (a := MRelease t); [exact R|exact Logic.I|]. apply MSRelease. exact F.
    + apply (upd_pc_rpc m f t); auto.
      * intros u NU. cbn. rewrite upd_ne by exact NU. reflexivity.
      * cbn. rewrite upd_eq. split; auto.
  - destruct e as [n|n|n x|a v].
    + apply (sim_flush m f t _ b S B). intros [].
    + apply (sim_flush m f t _ b S B). intros [].
    + apply (sim_flush m f t _ b S B). intros [].
    + exists f. apply sim_flush_data; auto.
  - pose proof S as S0. destruct S as [R P D L]. pose proof (P t) as PT. rewrite E in PT. destruct PT as [F B].
    assert (G : granted (f t) = true) by (rewrite F; reflexivity).
    exists f. constructor; cbn [mk mb md ml dlogm push_w]; auto.
    + intros u. destruct (Z.eq_dec u t) as [->|DD]; [rewrite !upd_eq|rewrite upd_ne by exact DD; apply P].
      rewrite E. cbn. split; [exact F|]. apply Forall_app. split; [exact B|]. constructor; [exact Logic.I|constructor].
    + intros u c H. cbn [latest]. destruct (Z.eq_dec u t) as [->|DD].
      * rewrite upd_eq, fwd_snoc. destruct (a =? c); [reflexivity|]. apply D. intros w NW. apply (sim_alone d0 m f t w S0 G NW).
      * exfalso. assert (NE : t <> u) by congruence. apply (H t NE a v). cbn. rewrite upd_eq. apply in_app_iff. right. left. reflexivity.
    + intros l2 t' a' v' l HL. destruct l2 as [|x l2]; [discriminate HL|]. injection HL as _ HL. eapply L; exact HL.
  - pose proof S as S0. destruct S as [R P D L]. pose proof (P t) as PT. rewrite E in PT. destruct PT as [F B].
    assert (G : granted (f t) = true) by (rewrite F; reflexivity).
    exists f. constructor; cbn [mk mb md ml dlogm]; auto.
    intros l2 t' a' v' l HL. destruct l2 as [|x l2].
    + injection HL as <- <- <- <-. apply D. intros w NW. apply (sim_alone d0 m f t w S0 G NW).
    + injection HL as _ HL. eapply L; exact HL.
Qed.
Lemma sim_reach m : tmreach d0 tmcalm m -> exists f, sim d0 m f.
Proof.
  induction 1 as [m (BT & BB & BD & BL)|m a m' H [f S] C T].
  - exists (pcs (mk m)). constructor.
    + apply MR0. destruct BT as (A & B & C). split; [exact A|]. split; [exact B|exact C].
    + intro t. rewrite BB. apply rpc_refl.
    + intros t a _. rewrite BB, BD, BL. reflexivity.
    + rewrite BL. intros l2 t a v l K. destruct l2; discriminate K.
  - eapply sim_step; eauto.
Qed.
End Step.

(** Proofs for C74, part 1: methods that hold the lock from beginning to end are atomic *)
From Verif Require Import CBase SeqLib LockModel LockSpec.

Lemma run_bind {S A B} (b : body S A) (k : A -> body S B) : forall s, run (bbind b k) s = do (s', a) <- run b s; run (k a) s'.
Proof.
  revert b. fix IH 1. intros [a|f|b] s; [reflexivity| |reflexivity]. cbn [bbind run]. destruct (f s) as [[s' b']| | |]; [|reflexivity..]. apply IH.
Qed.
Lemma run_act {S A} (f : S -> outcome (S * A)) s : run (act f) s = f s.
Proof. cbn. destruct (f s) as [[s' a]| | |]; reflexivity. Qed.

Section Lin.
Variables (C R : Type).
Lemma seen_app (a b : list (lev C R)) : seen (a ++ b) = seen a ++ seen b.
Proof. induction a as [|[]]; cbn; congruence. Qed.
Lemma points_app (a b : list (lev C R)) : points (a ++ b) = points a ++ points b.
Proof. induction a as [|[]]; cbn; congruence. Qed.
Lemma phases_snoc t p (h : list (lev C R)) q e q' : phases t p h q -> next_phase t q e q' -> phases t p (h ++ [e]) q'.
Proof. induction 1; intro N; cbn; econstructor; eauto. constructor. Qed.
Fixpoint ncalls (l : list (ev C R)) : nat := match l with [] => 0%nat | ECall _ _ :: l => S (ncalls l) | _ :: l => ncalls l end.
Lemma ncalls_app a b : ncalls (a ++ b) = (ncalls a + ncalls b)%nat.
Proof. induction a as [|[]]; cbn; auto. Qed.
Lemma ncalls_le l : (ncalls l <= length l)%nat.
Proof. induction l as [|[]]; cbn; lia. Qed.
End Lin.

Section Obj.
Variables (S C R : Type) (code : C -> body S R) (locked : C -> bool) (ok : C -> Prop) (o0 : S).
Fixpoint srun (s : S) (cs : list C) : outcome (S * list R) :=
  match cs with [] => Ret (s, []) | c :: cs => do (s', r) <- run (code c) s; do (s2, rs) <- srun s' cs; Ret (s2, r :: rs) end.
Lemma srun_snoc cs c : forall s s1 rs, srun s cs = Ret (s1, rs) -> srun s (cs ++ [c]) = do (s2, r) <- run (code c) s1; Ret (s2, rs ++ [r]).
Proof.
  induction cs as [|d cs IH]; intros s s1 rs H; cbn [srun app] in *.
  - injection H as <- <-. destruct (run (code c) s) as [[s2 r]| | |]; reflexivity.
  - destruct (run (code d) s) as [[s' r]| | |]; try discriminate. cbn [bind] in *. destruct (srun s' cs) as [[s3 rs3]| | |] eqn:E; try discriminate. cbn [bind] in H. injection H as <- <-.
    rewrite (IH _ _ _ E). destruct (run (code c) s3) as [[s2 r2]| | |]; reflexivity.
Qed.
Hypothesis LK : forall c, ok c -> locked c = true.
Variable N : Z.
Hypothesis SAFE : forall cs, Forall ok cs -> zlen cs < N -> exists s rs, srun o0 cs = Ret (s, rs).

Notation st := (st S C R).
Definition pc_ok (x : pc S C R) (p : phase C R) : Prop :=
  match x with Idle => p = PNone | Wait c | In c _ => p = PCalled c /\ ok c | Out c r => p = PDone c r | Bare _ _ => False end.
Definition is_in (x : pc S C R) : Prop := match x with In _ _ => True | _ => False end.
Definition busy (x : pc S C R) : Prop := match x with Wait _ | In _ _ => True | _ => False end.
Record inv (s : st) (h : list (lev C R)) (sq : S) (pend : list nat) : Prop := {
  v_seen : seen h = log s;
  v_run : srun o0 (map fst (points h)) = Ret (sq, map snd (points h));
  v_ok : Forall ok (map fst (points h));
  v_ph : forall t, exists p, phases t PNone h p /\ pc_ok (pcs s t) p;
  v_nd : NoDup pend; v_pend : forall t, List.In t pend <-> busy (pcs s t);
  v_cnt : (length (points h) + length pend = ncalls C R (log s))%nat;
  v_hold : match holder s with
           | None => obj s = sq /\ forall t, ~ is_in (pcs s t)
           | Some t => exists c b, pcs s t = In c b /\ run b (obj s) = run (code c) sq /\ forall u, u <> t -> ~ is_in (pcs s u)
           end }.
Lemma upd_eq p t (x : pc S C R) : upd p t x t = x. Proof. unfold upd. rewrite Nat.eqb_refl. reflexivity. Qed.
Lemma upd_ne p t u (x : pc S C R) : u <> t -> upd p t x u = p u. Proof. unfold upd. intro H. destruct (Nat.eqb_spec u t); congruence. Qed.
(** the call in the lock comes to an end *)
Lemma holder_runs s h sq pend t : inv s h sq pend -> holder s = Some t -> zlen (log s) < N -> exists c b o r, pcs s t = In c b /\ run b (obj s) = Ret (o, r) /\ run (code c) sq = Ret (o, r).
Proof.
  intros I H B. pose proof (v_hold _ _ _ _ I) as V. rewrite H in V. destruct V as (c & b & E & RB & _). destruct (v_ph _ _ _ _ I t) as (p & P & M). rewrite E in M. destruct M as (_ & OK).
  destruct (SAFE (map fst (points h) ++ [c])) as (s2 & rs & Q).
  - apply Forall_app. split; [apply (v_ok _ _ _ _ I)|repeat constructor; exact OK].
  - assert (length (points h) + 1 <= length (log s))%nat; [|unfold zlen in *; rewrite app_length, map_length; cbn [length]; lia].
    pose proof (v_cnt _ _ _ _ I). pose proof (ncalls_le C R (log s)). assert (1 <= length pend)%nat; [|lia].
    pose proof (proj2 (v_pend _ _ _ _ I t)) as X. rewrite E in X. specialize (X Logic.I). destruct pend; [contradiction|cbn; lia].
  - rewrite (srun_snoc _ _ _ _ _ (v_run _ _ _ _ I)) in Q. destruct (run (code c) sq) as [[o r]| | |] eqn:RC; try discriminate. exists c, b, o, r. rewrite RB, E. auto.
Qed.
Lemma no_fault_inv s h sq pend t : inv s h sq pend -> zlen (log s) < N -> ~ faults t s.
Proof.
  intros I B (c & f & [E|E] & F).
  - pose proof (v_hold _ _ _ _ I) as V. destruct (holder s) as [u|] eqn:H.
    + assert (u = t) as ->. { destruct V as (c' & b' & _ & _ & V). destruct (Nat.eq_dec t u); [auto|]. specialize (V t n). rewrite E in V. destruct (V Logic.I). }
      destruct (holder_runs s h sq pend t I H B) as (c' & b' & o & r & E' & Q & _). rewrite E in E'. injection E' as <- <-. cbn [run] in Q. destruct (f (obj s)) as [[o' b']| | |] eqn:Y; try discriminate. exact (F o' b' eq_refl).
    + destruct V as (_ & V). specialize (V t). rewrite E in V. destruct (V Logic.I).
  - destruct (v_ph _ _ _ _ I t) as (p & _ & M). rewrite E in M. exact M.
Qed.
Lemma phases_keep h t u e p : phases t PNone h p -> (match e with LCall v _ | LPoint v _ _ | LRet v _ _ => v = u end) -> t <> u -> phases t PNone (h ++ [e : lev C R]) p.
Proof. intros P E NE. eapply phases_snoc; [exact P|]. destruct e; subst; cbn; destruct (Nat.eqb_spec u t); congruence. Qed.

Ltac others I := intros u; destruct (Nat.eq_dec u _) as [->|NE]; [rewrite upd_eq|rewrite upd_ne by exact NE].
Lemma step_inv s t s' h sq pend : inv s h sq pend -> zlen (log s) < N -> tstep code locked ok t s s' -> exists h' sq' pend', inv s' h' sq' pend'.
Proof.
  intros I B ST. pose proof I as [SE RU OKS PH ND PE CN HO]. destruct ST as [s c E OK|s c E HN|s c f o b E F|s c b E HN|s c r E|s c f o b E F|s c r E|s c r E].
  - (* call *)
    exists (h ++ [LCall t c]), sq, (t :: pend). unfold begin. rewrite (LK c OK).
    assert (NP : ~ List.In t pend) by (rewrite PE, E; exact (fun x => x)).
    split; cbn [obj holder pcs log].
    + rewrite seen_app, SE. reflexivity.
    + rewrite points_app, app_nil_r. exact RU.
    + rewrite points_app, app_nil_r. exact OKS.
    + intro u. destruct (PH u) as (p & P & M). destruct (Nat.eq_dec u t) as [->|NE].
      * rewrite upd_eq. exists (PCalled c). split; [|split; [reflexivity|exact OK]]. eapply phases_snoc; [exact P|]. rewrite E in M. cbn in M. subst p. cbn. rewrite Nat.eqb_refl. auto.
      * rewrite upd_ne by exact NE. exists p. split; [|exact M]. eapply phases_keep; [exact P|reflexivity|exact NE].
    + constructor; auto.
    + intro u. cbn. destruct (Nat.eq_dec u t) as [->|NE]; [rewrite upd_eq; cbn; tauto|]. rewrite upd_ne by exact NE. rewrite PE. split; [intros [X|X]; [congruence|exact X]|auto].
    + rewrite points_app, app_nil_r, ncalls_app. cbn. lia.
    + destruct (holder s) as [u|] eqn:H.
      * destruct HO as (c' & b' & E' & Q & V). exists c', b'. assert (u <> t) by (intros ->; congruence). rewrite upd_ne by assumption. split; [exact E'|]. split; [exact Q|]. intros v NV. destruct (Nat.eq_dec v t) as [->|NE]; [rewrite upd_eq; exact (fun x => x)|rewrite upd_ne by exact NE; auto].
      * destruct HO as (O & V). split; [exact O|]. intro v. destruct (Nat.eq_dec v t) as [->|NE]; [rewrite upd_eq; exact (fun x => x)|rewrite upd_ne by exact NE; auto].
  - (* acquire *)
    exists h, sq, pend. rewrite HN in HO. destruct HO as (O & V). split; cbn [obj holder pcs log]; auto.
    + intro u. destruct (PH u) as (p & P & M). exists p. split; [exact P|]. destruct (Nat.eq_dec u t) as [->|NE]; [rewrite upd_eq; rewrite E in M; exact M|rewrite upd_ne by exact NE; exact M].
    + intro u. rewrite PE. destruct (Nat.eq_dec u t) as [->|NE]; [rewrite upd_eq, E; cbn; tauto|rewrite upd_ne by exact NE; tauto].
    + exists c, (code c). rewrite upd_eq, O. split; [reflexivity|]. split; [reflexivity|]. intros u NE. rewrite upd_ne by exact NE. apply V.
  - (* step *)
    destruct (holder s) as [u|] eqn:H; [|destruct HO as (_ & V); specialize (V t); rewrite E in V; destruct (V Logic.I)].
    destruct HO as (c' & b' & E' & Q & V). assert (u = t) as ->. { destruct (Nat.eq_dec t u) as [|NE]; [auto|]. specialize (V t NE). rewrite E in V. destruct (V Logic.I). }
    rewrite E in E'. injection E' as <- <-. exists h, sq, pend. split; cbn [obj holder pcs log]; auto.
    + intro u. destruct (PH u) as (p & P & M). exists p. split; [exact P|]. destruct (Nat.eq_dec u t) as [->|NE]; [rewrite upd_eq; rewrite E in M; exact M|rewrite upd_ne by exact NE; exact M].
    + intro u. rewrite PE. destruct (Nat.eq_dec u t) as [->|NE]; [rewrite upd_eq, E; cbn; tauto|rewrite upd_ne by exact NE; tauto].
    + exists c, b. rewrite upd_eq. split; [reflexivity|]. split; [rewrite <- Q; cbn [run]; rewrite F; reflexivity|]. intros u NE. rewrite upd_ne by exact NE. apply V; exact NE.
  - (* enter: impossible, the thread holds the lock *)
    rewrite HN in HO. destruct HO as (_ & V). specialize (V t). rewrite E in V. destruct (V Logic.I).
  - (* release: the moment at which the call takes effect *)
    destruct (holder s) as [u|] eqn:H; [|destruct HO as (_ & V); specialize (V t); rewrite E in V; destruct (V Logic.I)].
    destruct HO as (c' & b' & E' & Q & V). assert (u = t) as ->. { destruct (Nat.eq_dec t u) as [|NE]; [auto|]. specialize (V t NE). rewrite E in V. destruct (V Logic.I). }
    rewrite E in E'. injection E' as <- <-. cbn [run] in Q. exists (h ++ [LPoint t c r]), (obj s), (remove Nat.eq_dec t pend).
    destruct (PH t) as (pt & PT & MT). rewrite E in MT. destruct MT as (-> & OKC). assert (IP : List.In t pend) by (rewrite PE, E; exact Logic.I).
    split; cbn [obj holder pcs log].
    + rewrite seen_app, SE, app_nil_r. reflexivity.
    + rewrite points_app, !map_app. cbn [points map fst snd]. rewrite (srun_snoc _ _ _ _ _ RU), <- Q. reflexivity.
    + rewrite points_app, map_app. apply Forall_app. split; [exact OKS|repeat constructor; exact OKC].
    + intro u. destruct (PH u) as (p & P & M). destruct (Nat.eq_dec u t) as [->|NE].
      * rewrite upd_eq. exists (PDone c r). split; [|reflexivity]. eapply phases_snoc; [exact PT|]. cbn. rewrite Nat.eqb_refl. auto.
      * rewrite upd_ne by exact NE. exists p. split; [|exact M]. eapply phases_keep; [exact P|reflexivity|exact NE].
    + clear - ND. induction ND as [|x l NI ND IH]; cbn; [constructor|]. destruct (Nat.eq_dec t x); [exact IH|]. constructor; [|exact IH]. intro X. apply in_remove in X. tauto.
    + intro u. destruct (Nat.eq_dec u t) as [->|NE]; [rewrite upd_eq; cbn; split; [|tauto]; apply remove_In|]. rewrite upd_ne by exact NE. rewrite <- PE. split; [intro X; apply in_remove in X; tauto|intro X; apply in_in_remove; auto].
    + rewrite points_app, app_length. cbn [length points]. rewrite <- CN. assert (length pend = (1 + length (remove Nat.eq_dec t pend))%nat); [|lia].
      clear - ND IP. induction ND as [|x l NI ND IH]; [contradiction|]. cbn [remove]. destruct (Nat.eq_dec t x) as [->|NE]; [cbn; f_equal; rewrite notin_remove; auto|]. destruct IP as [X|X]; [congruence|]. cbn. f_equal. apply IH. exact X.
    + split; [reflexivity|]. intro u. destruct (Nat.eq_dec u t) as [->|NE]; [rewrite upd_eq; exact (fun x => x)|rewrite upd_ne by exact NE; auto].
  - destruct (PH t) as (p & _ & M). rewrite E in M. destruct M.
  - destruct (PH t) as (p & _ & M). rewrite E in M. destruct M.
  - (* return *)
    exists (h ++ [LRet t c r]), sq, pend. split; cbn [obj holder pcs log]; auto.
    + rewrite seen_app, SE. reflexivity.
    + rewrite points_app, app_nil_r. exact RU.
    + rewrite points_app, app_nil_r. exact OKS.
    + intro u. destruct (PH u) as (p & P & M). destruct (Nat.eq_dec u t) as [->|NE].
      * rewrite upd_eq. exists PNone. split; [|reflexivity]. eapply phases_snoc; [exact P|]. rewrite E in M. cbn in M. subst p. cbn. rewrite Nat.eqb_refl. auto.
      * rewrite upd_ne by exact NE. exists p. split; [|exact M]. eapply phases_keep; [exact P|reflexivity|exact NE].
    + intro u. rewrite PE. destruct (Nat.eq_dec u t) as [->|NE]; [rewrite upd_eq, E; cbn; tauto|rewrite upd_ne by exact NE; tauto].
    + rewrite points_app, app_nil_r, ncalls_app. cbn. lia.
    + destruct (holder s) as [u|] eqn:H.
      * destruct HO as (c' & b' & E' & Q & V). exists c', b'. assert (u <> t) by (intros ->; congruence). rewrite upd_ne by assumption. split; [exact E'|]. split; [exact Q|]. intros v NV. destruct (Nat.eq_dec v t) as [->|NE]; [rewrite upd_eq; exact (fun x => x)|rewrite upd_ne by exact NE; auto].
      * destruct HO as (O & V). split; [exact O|]. intro v. destruct (Nat.eq_dec v t) as [->|NE]; [rewrite upd_eq; exact (fun x => x)|rewrite upd_ne by exact NE; auto].
Qed.
Lemma log_grows t s s' : tstep code locked ok t s s' -> zlen (log s) <= zlen (log s').
Proof. destruct 1; cbn [log]; unfold zlen; rewrite ?app_length; cbn [length]; lia. Qed.
Lemma reach_inv s : reach code locked ok o0 s -> zlen (log s) < N -> exists h sq pend, inv s h sq pend.
Proof.
  induction 1 as [|s t s' RE IH ST]; intro B.
  - exists [], o0, []. split; cbn; auto; try constructor; try tauto. intro t. exists PNone. split; [constructor|reflexivity].
  - pose proof (log_grows t s s' ST). destruct IH as (h & sq & pend & I); [lia|]. eapply step_inv; [exact I|lia|exact ST].
Qed.
Lemma atomic s : reach code locked ok o0 s -> zlen (log s) < N ->
  linearizable (fun ps => Forall ok (map fst ps) /\ exists s', srun o0 (map fst ps) = Ret (s', map snd ps) /\ (holder s = None -> obj s = s')) (log s) /\
  (forall t, ~ faults t s) /\
  (forall t, pcs s t <> Idle -> exists u s', tstep code locked ok u s s' /\ pcs s u <> Idle).
Proof.
  intros RE B. destruct (reach_inv s RE B) as (h & sq & pend & I). split; [|split].
  - exists h. split; [apply I|]. split; [intro t; destruct (v_ph _ _ _ _ I t) as (p & P & _); eauto|]. split; [apply I|]. exists sq. split; [apply I|]. intro H. pose proof (v_hold _ _ _ _ I) as V. rewrite H in V. apply V.
  - intro t. eapply no_fault_inv; eassumption.
  - intros t NI. destruct (holder s) as [u|] eqn:H.
    + destruct (holder_runs s h sq pend u I H B) as (c & b & o & r & E & Q & _). exists u. destruct b as [r'|f|b].
      * eexists. split; [eapply t_release; exact E|congruence].
      * cbn [run] in Q. destruct (f (obj s)) as [[o' b']| | |] eqn:F; try discriminate. eexists. split; [eapply t_step; [exact E|exact F]|congruence].
      * discriminate.
    + destruct (v_ph _ _ _ _ I t) as (p & _ & M). pose proof (v_hold _ _ _ _ I) as V. rewrite H in V. destruct V as (_ & V). specialize (V t). destruct (pcs s t) as [|c|c b|c b|c r] eqn:E; cbn in M.
      * congruence.
      * exists t. eexists. split; [eapply t_acquire; [exact E|exact H]|congruence].
      * destruct (V Logic.I).
      * contradiction.
      * exists t. eexists. split; [eapply t_return; exact E|congruence].
Qed.
End Obj.

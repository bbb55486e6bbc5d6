From Verif Require Import CBase RingBuffer2Model LifeModel LifeSpec LifeProof LifeProof2.

Ltac carryc L L' :=
  match type of L' with local _ _ ?s ?s' =>
    repeat match goal with
    | HH : ctx ?x0 ?x2 s ?ud ?cb ?E |- _ =>
      let K := fresh "K" in assert (K : ctx x0 x2 s' ud cb E) by (eapply ctx_same; [exact HH | exact L' | intros ? ?; apply (local_in _ _ _ _ L); sub | let x := fresh in let X := fresh in intros x X; cbn [In]; let Y := fresh in intros Y; repeat (destruct Y as [Y|Y]); try contradiction; subst; contradiction]); clear HH; rename K into HH
    | HH : queue_at ?f (hp s) ?q |- _ =>
      let K := fresh "K" in assert (K : queue_at f (hp s') q) by (destruct HH as (? & ? & ? & ? & HH); do 4 eexists; rewrite (local_old _ _ _ _ q L'); [exact HH | apply (local_in _ _ _ _ L); sub | ninl]); clear HH; rename K into HH
    end end.
Ltac done_call L L' ::= carryc L L'; carry L L';
  first [ let K := fresh in pose proof (call0 _ _ _ _ _ _ L L') as K; specialize (K ltac:(sub)); clear L L'; rename K into L
        | let K := fresh in pose proof (call1 _ _ _ _ _ _ L L') as K; specialize (K ltac:(sub)); clear L L'; rename K into L
        | let K := fresh in pose proof (call _ _ _ _ _ _ _ L L') as K; specialize (K ltac:(sub)); clear L L'; rename K into L; cbn [app] in L ].
(** optional parts of a handler *)
Definition opt_sem (s : st) (sem : val) (sb : list nat) : Prop := (sem = V0 /\ sb = []) \/ exists m, sem = VP m 0 /\ sb = [m] /\ hp s m = Some (mk_b true [VI 0]).
Definition opt_thr (s : st) (b : nat) (tv : val) (tb : list nat) : Prop := (tv = V0 /\ tb = []) \/ exists t th, tv = VP t 0 /\ tb = [t; th] /\ hp s t = Some (mk_b true [VP th 0]) /\ hp s th = Some (mk_b true [VP b 0]).
Definition opt_q (fixed : bool) (s : st) (qv : val) (qb : list nat) : Prop := (qv = V0 /\ qb = []) \/ exists q, qv = VP q 0 /\ qb = [q] /\ queue_at fixed (hp s) q.
Ltac nodup H := repeat (let N := fresh "N" in apply NoDup_cons_iff in H; destruct H as (N & H); cbn [In] in N).
Ltac split_nin := repeat match goal with N : ~ (_ \/ _) |- _ => apply Decidable.not_or in N; destruct N end.
Lemma sem_destroy_step s m : wf s -> hp s m = Some (mk_b true [VI 0]) -> exists s', sem_destroy_ (VP m 0) s = Ret (V0, s') /\ local [m] [] s s' /\ hp s' m = None.
Proof. intros W H. unfold sem_destroy_. donull. doload. destruct (free_step s m _ W H) as (s1 & E1 & L1 & H1). ev E1. exists s1. auto. Qed.
Lemma bnd_assoc {A B C} (m : M A) (f : A -> M B) (g : B -> M C) s : bnd (bnd m f) g s = bnd m (fun x => bnd (f x) g) s.
Proof. unfold bnd. destruct (m s) as [[a s1]| | |]; reflexivity. Qed.
Lemma sem_post_0 s : sem_post_ V0 s = Ret (tt, s). Proof. reflexivity. Qed.
Lemma sem_post_m s m : hp s m = Some (mk_b true [VI 0]) -> sem_post_ (VP m 0) s = Ret (tt, s).
Proof. intros H. unfold sem_post_. donull. doload. reflexivity. Qed.
Lemma sem_destroy_0 s : sem_destroy_ V0 s = Ret (V0, s). Proof. reflexivity. Qed.
Lemma callx A0 A T B F s0 s s' : local A0 A s0 s -> local T B s s' -> (forall x, In x A <-> In x T \/ In x F) -> local A0 (B ++ F) s0 s'.
Proof.
  intros L L' Q. eapply local_trans; [exact L|]. eapply local_eqv; [exact (local_frame _ _ F _ _ L' ltac:(intros x X; apply (local_in _ _ _ _ L), Q; right; exact X)) | intros x; rewrite in_app_iff; symmetry; apply Q | intros x; reflexivity].
Qed.
Lemma join_step x0 x2 fixed l s t th b ud cb fl tv sem qv E : wf s -> ctx x0 x2 s ud cb E -> hp s b = Some (mk_b true [ud; cb; fl; tv; sem; qv]) -> hp s t = Some (mk_b true [VP th 0]) -> hp s th = Some (mk_b true [VP b 0]) ->
  NoDup (b :: t :: th :: E) -> ud <> VU -> cb <> VU ->
  exists s' E', thread_join_ fixed l (VP t 0) s = Ret (tt, s') /\ local (b :: t :: th :: E) (b :: E') s s' /\ hp s' b = Some (mk_b true [ud; cb; VT; tv; sem; qv]) /\ ctx x0 x2 s' ud cb E' /\ ~ In b E'.
Proof.
  intros W C H T Th Nd Ud Cb. nodup Nd. split_nin. unfold thread_join_. donull. pose proof (ctx_in _ _ _ _ _ _ W C) as In_E.
  start L s W (b :: t :: th :: E). { intros x [<-|[<-|[<-|X]]]; try (eapply live_lt; eassumption). auto. }
  doload. doload. destruct (worker_step x0 x2 fixed l s b ud cb fl tv sem qv E W C H) as (s1 & E' & E1 & L1 & Hb1 & C1 & Nb); auto. ev E1. clear E1.
  assert (Ot : ~ In t (b :: E')). { eapply new_out; [exact L1 | eapply live_lt; eassumption | cbn [In]; intros [X|X]; [congruence | contradiction]]. }
  assert (Oth : ~ In th (b :: E')). { eapply new_out; [exact L1 | eapply live_lt; eassumption | cbn [In]; intros [X|X]; [congruence | contradiction]]. }
  cbn [In] in Ot, Oth. split_nin. clear H C.
  assert (LL : local (b :: t :: th :: E) (b :: t :: th :: E') s s1).
  { eapply local_eqv; [exact (local_frame _ _ [t; th] _ _ L1 ltac:(intros x [<-|[<-|[]]]; eapply live_lt; eassumption)) | |]; intros x; cbn [In app]; rewrite ?in_app_iff; cbn [In]; tauto. }
  assert (T1 : hp s1 t = Some (mk_b true [VP th 0])). { rewrite (local_old _ _ _ _ t L1); [exact T | eapply live_lt; eassumption | cbn [In]; intros [X|X]; [congruence | contradiction]]. }
  assert (Th1 : hp s1 th = Some (mk_b true [VP b 0])). { rewrite (local_old _ _ _ _ th L1); [exact Th | eapply live_lt; eassumption | cbn [In]; intros [X|X]; [congruence | contradiction]]. }
  clear L L1 T Th In_E. dofree LL. match goal with |- context [free_ (VP t 0) ?s0] => destruct (free_step s0 t _ (local_wf _ _ _ _ LL) T1) as (s3 & E3 & L3 & Hx3) end. rewrite E3. clear E3 T1. done_call LL L3.
  exists s3, E'. split; [reflexivity|]. split; [|auto]. eapply local_drop; [exact LL | cbn; tauto|]. intros x [<-|[<-|[<-|X]]] (c & Y); [left; reflexivity | congruence | congruence | right; exact X].
Qed.
Lemma hd_tail x0 x2 fixed s b ud cb ud' cb' fl tv sem qv sb qb E : wf s -> ctx x0 x2 s ud' cb' E -> hp s b = Some (mk_b true [ud; cb; fl; tv; sem; qv]) ->
  opt_sem s sem sb -> opt_q fixed s qv qb -> NoDup (b :: qb ++ sb ++ E) -> ud <> VU -> cb <> VU ->
  exists s', (s <-- load (VP b 0) 4 ;; s' <-- sem_destroy_ s ;; store (VP b 0) 4 s' ;;;
       q <-- load (VP b 0) 5 ;; n <-- isnull q ;; (if n then ret tt else q' <-- q_destroy fixed q ;; store (VP b 0) 5 q') ;;;
       store (VP b 0) 5 V0 ;;; free_ (VP b 0) ;;; ret V0) s = Ret (V0, s') /\ local (b :: qb ++ sb ++ E) E s s' /\ ctx x0 x2 s' ud' cb' E /\ hp s' b = None.
Proof.
  intros W C H OS OQ Nd Ud Cb. pose proof (ctx_in _ _ _ _ _ _ W C) as In_E.
  assert (L : local (b :: qb ++ sb ++ E) (b :: qb ++ sb ++ E) s s).
  { apply local_refl; [exact W|]. intros x [<-|X]; [eapply live_lt; eassumption|]. repeat rewrite in_app_iff in X. destruct X as [X|[X|X]]; [ | |auto].
    - destruct OQ as [(_ & ->)|(q & _ & -> & (? & ? & ? & ? & Q))]; [contradiction|]. destruct X as [<-|[]]; eapply live_lt; eassumption.
    - destruct OS as [(_ & ->)|(m & _ & -> & Sm)]; [contradiction|]. destruct X as [<-|[]]; eapply live_lt; eassumption. }
  clear In_E.
  destruct OS as [(-> & ->)|(m & -> & -> & Sm)]; destruct OQ as [(-> & ->)|(q & -> & -> & Q)]; cbn [app] in *; nodup Nd; split_nin; doload.
  all: match goal with
       | |- context [bnd (sem_destroy_ V0) _ ?s0] => ev (sem_destroy_0 s0)
       | |- context [bnd (sem_destroy_ (VP ?mm 0)) _ ?s0] => destruct (sem_destroy_step s0 mm W Sm) as (s1 & E1 & L1 & H1'); ev E1; clear E1 Sm; done_call L L1
       end.
  all: dostore L; doload; donull.
  all: match goal with
       | |- context [bnd (ret tt) _ ?s0] => ev (eq_refl : ret tt s0 = Ret (tt, s0))
       | |- context [bnd (bnd (q_destroy _ _) _) _ ?s0] => rewrite bnd_assoc; destruct (q_destroy_step fixed s0 q (local_wf _ _ _ _ L) Q) as (s5 & E5 & L5 & H5'); ev E5; clear E5 Q; done_call L L5; dostore L
       end.
  all: dostore L; dofree L.
  all: eexists; split; [reflexivity|]; split; [|split; [exact C | exact H]]; (eapply local_drop; [exact L | cbn [In]; tauto|]); let x := fresh in let X := fresh in intros x X (c & Y); cbn [In] in X; repeat (destruct X as [X|X]); subst; first [exact X | congruence].
Qed.
Definition apart (A T : list nat) : Prop := forall x, In x A -> ~ In x T.
Lemma nodup_app (a b : list nat) : NoDup (a ++ b) -> NoDup a /\ NoDup b /\ apart a b.
Proof.
  induction a as [|x a IH]; cbn; intros N; [split; [constructor|]; split; [exact N | intros x []]|]. inversion N as [|? ? N1 N2]; subst. destruct (IH N2) as (A & B & C). rewrite in_app_iff in N1.
  split; [constructor; tauto|]. split; [exact B|]. intros y [<-|Y]; [tauto | exact (C y Y)].
Qed.
Lemma opt_sem_same s s' sem sb T B : opt_sem s sem sb -> local T B s s' -> wf s -> apart sb T -> opt_sem s' sem sb.
Proof. intros [O|(m & -> & -> & H)] L W D; [left; exact O | right]. exists m. split; [reflexivity|]. split; [reflexivity|]. rewrite (local_old _ _ _ _ m L); [exact H | eapply live_lt; eauto | apply D; left; reflexivity]. Qed.
Lemma opt_q_same f s s' qv qb T B : opt_q f s qv qb -> local T B s s' -> wf s -> apart qb T -> opt_q f s' qv qb.
Proof. intros [O|(q & -> & -> & (i & o & z & w & H))] L W D; [left; exact O | right]. exists q. split; [reflexivity|]. split; [reflexivity|]. exists i, o, z, w. rewrite (local_old _ _ _ _ q L); [exact H | eapply live_lt; eauto | apply D; left; reflexivity]. Qed.
Lemma opt_thr_same b s s' tv tb T B : opt_thr s b tv tb -> local T B s s' -> wf s -> apart tb T -> opt_thr s' b tv tb.
Proof.
  intros [O|(t & th & -> & -> & H & H2)] L W D; [left; exact O | right]. exists t, th. split; [reflexivity|]. split; [reflexivity|]. split; [rewrite (local_old _ _ _ _ t L); [exact H | eapply live_lt; eauto | apply D; left; reflexivity]|].
  rewrite (local_old _ _ _ _ th L); [exact H2 | eapply live_lt; eauto | apply D; right; left; reflexivity].
Qed.
Lemma sem_post_opt s sem sb : opt_sem s sem sb -> sem_post_ sem s = Ret (tt, s) /\ sem <> VU.
Proof. intros [(-> & _)|(m & -> & _ & H)]; [split; [reflexivity | discriminate]|]. split; [apply sem_post_m, H | discriminate]. Qed.
Lemma hd_destroy_step x0 x2 fixed l s b ud cb fl tv sem qv sb tb qb E : wf s -> ctx x0 x2 s ud cb E -> hp s b = Some (mk_b true [ud; cb; fl; tv; sem; qv]) ->
  opt_sem s sem sb -> opt_thr s b tv tb -> opt_q fixed s qv qb -> NoDup (b :: tb ++ qb ++ sb ++ E) -> ud <> VU -> cb <> VU ->
  exists s' E', hd_destroy fixed l (VP b 0) s = Ret (V0, s') /\ local (b :: tb ++ qb ++ sb ++ E) E' s s' /\ ctx x0 x2 s' ud cb E' /\ hp s' b = None.
Proof.
  intros W C H OS OT OQ Nd Ud Cb. unfold hd_destroy. donull. pose proof (ctx_in _ _ _ _ _ _ W C) as In_E.
  assert (L : local (b :: tb ++ qb ++ sb ++ E) (b :: tb ++ qb ++ sb ++ E) s s).
  { apply local_refl; [exact W|]. intros x [<-|X]; [eapply live_lt; eassumption|]. repeat rewrite in_app_iff in X. destruct X as [X|[X|[X|X]]]; [ | | |auto].
    - destruct OT as [(_ & ->)|(t & th & _ & -> & T & Th)]; [contradiction|]. destruct X as [<-|[<-|[]]]; eapply live_lt; eassumption.
    - destruct OQ as [(_ & ->)|(q & _ & -> & (? & ? & ? & ? & Q))]; [contradiction|]. destruct X as [<-|[]]; eapply live_lt; eassumption.
    - destruct OS as [(_ & ->)|(m & _ & -> & Sm)]; [contradiction|]. destruct X as [<-|[]]; eapply live_lt; eassumption. }
  clear In_E. apply NoDup_cons_iff in Nd. destruct Nd as (Nb & Nd). rewrite !in_app_iff in Nb.
  destruct (store_step s b 0 2 _ VT [ud; cb; VT; tv; sem; qv] W H eq_refl) as (s0 & E0 & L0 & H0). ev E0. cbn [mine] in H0. clear E0.
  assert (Sg : forall A, (forall x, In x A -> x <> b) -> apart A [b]) by (intros A K x X [<-|[]]; exact (K b X eq_refl)).
  pose proof (opt_sem_same _ _ _ _ _ _ OS L0 W ltac:(apply Sg; intros x X ->; tauto)) as OS0. pose proof (opt_q_same _ _ _ _ _ _ _ OQ L0 W ltac:(apply Sg; intros x X ->; tauto)) as OQ0.
  pose proof (opt_thr_same _ _ _ _ _ _ _ OT L0 W ltac:(apply Sg; intros x X ->; tauto)) as OT0.
  assert (C0 : ctx x0 x2 s0 ud cb E) by (eapply ctx_same; [exact C | exact L0 | eapply ctx_in; eauto | apply Sg; intros x X ->; tauto]).
  pose proof (call0 _ _ _ _ _ _ L L0 ltac:(intros x [<-|[]]; left; reflexivity)) as LL. clear C H OS OT OQ L L0.
  pose proof (local_wf _ _ _ _ LL) as W0. destruct (sem_post_opt _ _ _ OS0) as (Ps & Vs).
  doload. ev Ps. destruct OT0 as [(-> & ->)|(t & th & -> & -> & T & Th)].
  - doload. donull. ev (eq_refl : ret tt s0 = Ret (tt, s0)). cbn [app] in *. destruct (hd_tail x0 x2 fixed s0 b ud cb ud cb VT V0 sem qv sb qb E W0 C0 H0 OS0 OQ0) as (s9 & E9 & L9 & C9 & B9); auto.
    + constructor; [rewrite !in_app_iff; tauto | exact Nd].
    + exists s9, E. split; [exact E9|]. split; [exact (local_trans _ _ _ _ _ _ LL L9) | auto].
  - doload. donull. cbn [app] in *. nodup Nd. rewrite ?in_app_iff in *. cbn [In] in Nb. split_nin.
    assert (AqE : apart qb E /\ apart sb E /\ NoDup (qb ++ sb) /\ NoDup E).
    { clear -Nd. pose proof Nd as Nd'. apply nodup_app in Nd. destruct Nd as (_ & Nd & A1). apply nodup_app in Nd. destruct Nd as (_ & NE & A2). rewrite app_assoc in Nd'. apply nodup_app in Nd'. destruct Nd' as (Nqs & _).
      split; [intros x X Y; apply (A1 x X), in_or_app; right; exact Y|]. split; [exact A2|]. split; [exact Nqs | exact NE]. }
    destruct AqE as (Aq & As & Nqs & NE).
    destruct (join_step x0 x2 fixed l s0 t th b ud cb VT (VP t 0) sem qv E W0 C0 H0 T Th) as (s1 & E' & E1 & L1 & H1' & C1 & Nb1); auto.
    { constructor; [cbn [In]; tauto|]. constructor; [cbn [In]; tauto|]. constructor; [tauto | exact NE]. }
    ev E1. clear E1.
    assert (AT : apart qb (b :: t :: th :: E) /\ apart sb (b :: t :: th :: E)).
    { split; intros x X [<-|[<-|[<-|Y]]]; try tauto; [exact (Aq x X Y) | exact (As x X Y)]. }
    destruct AT as (Aq1 & As1).
    pose proof (opt_sem_same _ _ _ _ _ _ OS0 L1 W0 As1) as OS1. pose proof (opt_q_same _ _ _ _ _ _ _ OQ0 L1 W0 Aq1) as OQ1.
    assert (Inq : inside (qb ++ sb) s0). { intros x X. apply (local_in _ _ _ _ LL). cbn. rewrite in_app_iff in X. rewrite !in_app_iff. tauto. }
    assert (Out : forall x, In x (qb ++ sb) -> ~ In x (b :: E')). { intros x X. eapply new_out; [exact L1 | apply Inq, X | rewrite in_app_iff in X; destruct X as [X|X]; [exact (Aq1 x X) | exact (As1 x X)]]. }
    assert (LL1 : local (b :: t :: th :: qb ++ sb ++ E) (b :: qb ++ sb ++ E') s s1).
    { eapply local_eqv; [eapply (callx _ _ _ _ (qb ++ sb)); [exact LL | exact L1 |] | intros x; reflexivity |]; intros x; cbn [In app]; rewrite ?in_app_iff; tauto. }
    destruct (hd_tail x0 x2 fixed s1 b ud cb ud cb VT (VP t 0) sem qv sb qb E' (local_wf _ _ _ _ L1) C1 H1' OS1 OQ1) as (s9 & E9 & L9 & C9 & B9); auto.
    + constructor; [rewrite !in_app_iff; intros [X|[X|X]]; [tauto | tauto | contradiction]|]. rewrite app_assoc. assert (NE' : NoDup E').
      { destruct C1 as [(_ & ->)|(_ & f & fb & _ & -> & fp & _ & D)]; [constructor|]. destruct D as [(_ & ->)|(g & _ & -> & G & _)]; repeat constructor; cbn; intuition congruence. }
      clear -Nqs Out NE'. induction (qb ++ sb) as [|a A IH]; [exact NE'|]. cbn. inversion Nqs; subst. constructor; [rewrite in_app_iff; intros [X|X]; [contradiction|]; apply (Out a (or_introl eq_refl)); right; exact X|]. apply IH; [assumption|]. intros x X. apply Out. right. exact X.
    + exists s9, E'. split; [exact E9|]. split; [exact (local_trans _ _ _ _ _ _ LL1 L9) | auto].
Qed.

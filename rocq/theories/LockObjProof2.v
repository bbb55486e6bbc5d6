(** Proofs for C74, part 3: any sequence of calls *)
From Verif Require Import CBase SeqLib RingBuffer2Model AutoCoverModel AutoCoverSpec AutoCoverProof AutoCoverProof2 HashmapModel HashmapSpec HashmapProof LockModel LockSpec LockProof LockObjModel LockObjSpec LockObjProof.
Section Ac.
Context {A : Type}.
Lemma lin_mono {C R} (P Q : list (C * R) -> Prop) l : (forall ps, P ps -> Q ps) -> linearizable P l -> linearizable Q l.
Proof. intros H (h & a & b & c). exists h. auto. Qed.
Lemma ac_atomic (calloc : Z -> option (list A)) n : (forall k b, calloc k = Some b -> zlen b = k) -> 3 <= n <= 1073741824 ->
  exists k, 1 <= k <= 30 /\ 2 ^ (k - 1) < n <= 2 ^ k /\ (calloc (24 + 2 ^ k) <> None -> exists b, ac_create true calloc n = Ret (Some b) /\
  forall s, reach ac_code (fun _ => true) (ac_ok_op (2 ^ k)) b s ->
  linearizable (fun ps => Forall (ac_ok_op (2 ^ k)) (map fst ps) /\ map snd ps = snd (ac_exact_run (2 ^ k) (mk_stream [] 0) (map fst ps))) (log s) /\
  (forall t, ~ faults t s) /\
  (forall t, pcs s t <> Idle -> exists u s', tstep ac_code (fun _ => true) (ac_ok_op (2 ^ k)) u s s' /\ pcs s u <> Idle)).
Proof.
  intros CL HN. destruct (ac_create_inv calloc n CL HN) as (k & K & K2 & R). exists k. split; [exact K|]. split; [exact K2|]. intros NC. destruct (R NC) as (b & CR & SZ & I). exists b. split; [exact CR|]. intros s RE.
  assert (X : forall ops, Forall (ac_ok_op (2 ^ k)) ops -> exists b', ac_run b ops = Ret (b', snd (ac_exact_run (2 ^ k) (mk_stream [] 0) ops))).
  { intros ops F. rewrite <- SZ in F |- *. destruct (ac_run_exact ops b _ I F) as (b' & RUN & _). eauto. }
  destruct (atomic (acb A) (acop A) (acobs A) ac_code (fun _ => true) (ac_ok_op (2 ^ k)) b (fun _ _ => eq_refl) (zlen (log s) + 1)) with (s := s) as (L & NF & PR); [|exact RE|lia|].
  - intros cs F _. destruct (X cs F) as (b' & E). rewrite ac_srun, E. eauto.
  - split; [|auto]. eapply lin_mono; [|exact L]. intros ps (F & s' & E & _). split; [exact F|]. rewrite ac_srun in E. destruct (X _ F) as (b' & E'). rewrite E' in E. injection E as _ E. symmetry. exact E.
Qed.
End Ac.

Section Hm.
Variables (hf : Z -> Z) (eqf : Z -> Z -> bool) (kfree vfree : bool).
Hypothesis CP : compatible hf eqf.
Notation code := (hm_code hf eqf kfree vfree).
Notation srun := (srun hmap hcall res code).
Notation rep := (rep hf eqf).
Lemma foreach_rep cb m s : rep m s -> exists skipped, Permutation (hm_foreach cb m ++ skipped) s /\ ((forall k v, List.In (k, v) s -> cb k v = true) -> skipped = []).
Proof.
  intros (_ & _ & P & _). destruct (foreach_sub cb (hm_buckets m)) as [rest S]. exists rest.
  split; [unfold hm_foreach; rewrite S; exact P|]. intro A.
  assert (hm_foreach cb m = kv (concat (hm_buckets m))) as E.
  { assert (forall k v, List.In (k, v) (kv (concat (hm_buckets m))) -> cb k v = true) as A'.
    { intros k v I. apply A. apply (Permutation_in _ P). exact I. }
    clear -A'. unfold hm_foreach. induction (hm_buckets m) as [|c bs IH]; [reflexivity|]. cbn [flat_map concat] in *.
    unfold kv in *. rewrite map_app in *. f_equal; [|apply IH; intros k v I; apply A'; apply in_or_app; right; exact I].
    assert (forall k v, List.In (k, v) (map (fun e => (e_key e, e_val e)) c) -> cb k v = true) as A2
      by (intros k v I; apply A'; apply in_or_app; left; exact I).
    clear -A2. induction c as [|e c IH]; [reflexivity|]. cbn [chain_visit map]. rewrite A2 by (left; reflexivity). f_equal.
    apply IH. intros k v I. apply A2. right; exact I. }
  unfold hm_foreach in E. rewrite E in S. apply Permutation_length in S. rewrite app_length in S.
  destruct rest; [reflexivity|cbn in S; lia].
Qed.
Lemma hm_call m s c : m_ok c -> rep m s -> zlen s + 1 < two64 -> exists m' r s', run (code c) m = Ret (m', r) /\ m_step eqf kfree vfree s c r s' /\ rep m' s' /\ zlen s' <= zlen s + 1.
Proof.
  intros OK RP B. pose proof (zlen_nonneg s) as Z0. assert (SZ : hm_size m = zlen s) by (destruct RP as (_ & X & _); exact X). destruct c as [c|cb uses]; cbn in OK.
  - destruct OK as (NS & SX). destruct (step_ok hf eqf kfree vfree false CP m s c SX RP B) as (m' & ev & E & RP' & O1 & O2 & _). rewrite code_run, E; [|lia|exact NS]. cbn [bind]. do 3 eexists. split; [reflexivity|]. split; [|split; [exact RP'|apply s_step_len]].
    cbn. split; [destruct (s_step eqf s c); reflexivity|]. split; [reflexivity|]. split; [exact O1|exact O2].
  - subst uses. rewrite foreach_run. do 3 eexists. split; [reflexivity|]. split; [|split; [exact RP|lia]]. cbn. split; [reflexivity|]. split; [reflexivity|]. apply foreach_rep. exact RP.
Qed.
Lemma hm_calls cs : forall m s, Forall m_ok cs -> rep m s -> zlen s + zlen cs < two64 ->
  exists m' rs s', srun m cs = Ret (m', rs) /\ length rs = length cs /\ m_run eqf kfree vfree s (combine cs rs) s' /\ rep m' s'.
Proof.
  induction cs as [|c cs IH]; intros m s F RP B.
  - exists m, [], s. cbn. split; [reflexivity|]. split; [reflexivity|]. split; [constructor|exact RP].
  - rewrite zlen_cons in B. pose proof (zlen_nonneg cs). inversion_clear F as [|? ? F1 F2]. destruct (hm_call m s c F1 RP) as (m' & r & s' & E & ST & RP' & L); [lia|]. destruct (IH m' s' F2 RP') as (m2 & rs & s2 & E2 & L2 & R2 & RP2); [lia|].
    exists m2, (r :: rs), s2. cbn [LockProof.srun]. rewrite E. cbn [bind]. rewrite E2. split; [reflexivity|]. split; [cbn; congruence|]. split; [|exact RP2]. cbn [combine]. econstructor; eassumption.
Qed.
Definition left_in (m : hmap) (s : fmap) : Prop :=
  Permutation (hm_foreach (fun _ _ => true) m) s /\
  (kfree = true -> Permutation (freed_keys (hm_free kfree vfree true m)) (nonnull (map fst s))) /\
  (vfree = true -> Permutation (freed_vals (hm_free kfree vfree true m)) (nonnull (map snd s))).
Lemma rep_left m s : rep m s -> left_in m s.
Proof.
  intros (_ & _ & P & _). split; [rewrite foreach_all; exact P|]. unfold hm_free, hm_clear_unsafe. cbn [snd]. split; intro F.
  - rewrite !freed_keys_app, fk_drop by exact F. cbn. rewrite app_nil_r. apply nonnull_perm. rewrite <- (Permutation_map fst P). unfold kv. rewrite map_map. reflexivity.
  - rewrite !freed_vals_app, fv_drop by exact F. cbn. rewrite app_nil_r. apply nonnull_perm. rewrite <- (Permutation_map snd P). unfold kv. rewrite map_map. reflexivity.
Qed.
Lemma combine_split {A B} (ps : list (A * B)) : combine (map fst ps) (map snd ps) = ps.
Proof. induction ps as [|[a b] ps IH]; cbn; congruence. Qed.
Lemma m_ok_locked c : m_ok c -> hm_locked true c = true.
Proof. destruct c as [c|]; cbn; [|reflexivity]. intros (H & _). destruct (c_op c); congruence. Qed.
Lemma idle_free ok o s : reach code (hm_locked true) ok o s -> (forall t, pcs s t = Idle) -> holder s = None.
Proof.
  intros R. assert (forall t, holder s = Some t -> exists c b, pcs s t = In c b) as X.
  { induction R as [|s u s' R IH ST]; [discriminate|]. assert (K : forall x t, holder s = Some t -> t <> u -> exists c b, upd (pcs s) u x t = In c b).
    { intros x t H NE. destruct (IH t H) as (c & b & E). exists c, b. unfold upd. destruct (Nat.eqb_spec t u); [congruence|exact E]. }
    assert (U : forall x, upd (pcs s) u x u = x) by (intro x; unfold upd; rewrite Nat.eqb_refl; reflexivity).
    inversion ST as [? c I O|? c W H|? c f oo b E F|? c b E H|? c r E|? c f oo b E F|? c r E|? c r E]; subst; cbn [holder pcs]; intros t HT;
      try (injection HT as <-; rewrite U; eauto; fail); try discriminate; (destruct (Nat.eq_dec t u) as [->|NE]; [|apply K; assumption]); destruct (IH u HT) as (c' & b' & E'); rewrite U; first [congruence|eauto]. }
  intro ID. destruct (holder s) as [t|]; [|reflexivity]. destruct (X t eq_refl) as (c & b & E). rewrite ID in E. discriminate.
Qed.
Lemma hm_atomic ok0 okx0 cap m s : 0 <= cap -> sane_table okx0 -> hm_create ok0 okx0 cap = Ret (Some m) ->
  reach code (hm_locked true) m_ok m s -> zlen (log s) < two64 ->
  linearizable (fun ps => exists fin, m_run eqf kfree vfree [] ps fin /\ ((forall t, pcs s t = Idle) -> left_in (obj s) fin)) (log s) /\
  (forall t, ~ faults t s) /\
  (forall t, pcs s t <> Idle -> exists u s', tstep code (hm_locked true) m_ok u s s' /\ pcs s u <> Idle).
Proof.
  intros HC SX CR RE B. destruct (create_ok hf eqf ok0 okx0 cap HC SX) as [E|(m0 & E & RP)]; [congruence|]. assert (m0 = m) as -> by congruence.
  destruct (atomic hmap hcall res code (hm_locked true) m_ok m m_ok_locked two64) with (s := s) as (L & NF & PR); [|exact RE|exact B|].
  - intros cs F ZC. destruct (hm_calls cs m [] F RP) as (m' & rs & s' & E' & _); [change (zlen (@nil (Z * Z))) with 0; lia|]. eauto.
  - split; [|auto]. assert (NP : exists h, seen h = log s /\ threads_ok h /\ zlen (points h) < two64 /\ (fun ps => Forall m_ok (map fst ps) /\ exists s', srun m (map fst ps) = Ret (s', map snd ps) /\ (holder s = None -> obj s = s')) (points h)).
    { destruct (reach_inv hmap hcall res code (hm_locked true) m_ok m m_ok_locked two64) with (s := s) as (h & sq & pend & I); [exact RE|exact B|].
      exists h. split; [apply I|]. split; [intro t; destruct (v_ph _ _ _ _ _ _ _ _ _ _ I t) as (p & P & _); eauto|]. split.
        + pose proof (v_cnt _ _ _ _ _ _ _ _ _ _ I). pose proof (ncalls_le _ _ (log s)). unfold zlen in *. lia.
        + split; [apply I|]. exists sq. split; [apply I|]. intro H. pose proof (v_hold _ _ _ _ _ _ _ _ _ _ I) as V. rewrite H in V. apply V. }
    destruct NP as (h & S1 & S2 & S3 & F & s' & E' & OB). exists h. split; [exact S1|]. split; [exact S2|]. destruct (hm_calls (map fst (points h)) m [] F RP) as (m' & rs & fin & E2 & _ & MR & RP'); [change (zlen (@nil (Z * Z))) with 0; rewrite zlen_map; lia|].
    rewrite E' in E2. injection E2 as <- <-. rewrite combine_split in MR. exists fin. split; [exact MR|]. intro ID. rewrite OB by (eapply idle_free; eassumption). apply rep_left. exact RP'.
Qed.
End Hm.

(** C53: mutexes of the simple Windows pthread layer, initialised statically or by pthread_mutex_init, for
    every number of threads and every interleaving. [start n s0]: n threads and a fresh mutex, with one of
    the three static initialisers or made by pthread_mutex_init. *)
From Verif Require Import CBase ThreadLib LazyModel LazySpec LazyProof LazyProof2.

Section C53.
Context (n : nat) (s0 : mst) (S0 : start n s0).
Lemma r_inv : forall s, reach s0 s -> inv s.
Proof. intros s (l & R). eapply run_inv; [eapply start_inv; eauto | exact R]. Qed.

(** No step uses a marker, NULL or an object that is not initialised, and nobody unlocks what it does not hold. *)
Theorem C53_mutex_safe : forall s a, reach s0 s -> exists y, do_act a s = Ret y.
Proof. intros s a R. destruct (act_inv s a (r_inv _ R)) as (y & E & _). eauto. Qed.

(** Whatever the race, one object at most is allocated, and the variable, once it is a pointer, points to it. *)
Theorem C53_mutex_one_object : forall s, reach s0 s -> (length (objs s) <= 1)%nat /\ cell s <> Null /\ (forall i, cell s = Obj i -> i = O).
Proof.
  intros s R. destruct (i_ph _ (r_inv _ R)) as [(A & B)|[(A & B)|[(A & B)|(A & x & B)]]]; rewrite B; cbn; (split; [lia|]); (split; [intros C; rewrite C in *; discriminate|]);
  intros i C; rewrite C in *; try discriminate. congruence.
Qed.

(** Mutual exclusion: lock succeeds only when no other thread holds the mutex (the same thread may lock it
    again), fails only for lack of memory, and unlock by a holder succeeds. *)
Theorem C53_mutex_legal : forall s, reach s0 s -> legal (mlog s).
Proof. intros s R. apply (r_inv _ R). Qed.
Theorem C53_mutex_exclusion : forall s t u, reach s0 s -> 0 < depth t (mlog s) -> 0 < depth u (mlog s) -> t = u.
Proof.
  intros s t u R A B. destruct (i_link _ (r_inv _ R)) as [(w & k & _ & _ & _ & _ & Z)|(_ & Z)]; [|rewrite Z in A; lia].
  destruct (Nat.eq_dec t w) as [->|X]; [|rewrite (Z _ X) in A; lia]. destruct (Nat.eq_dec u w) as [->|X]; [reflexivity|]. rewrite (Z _ X) in B. lia.
Qed.

(** No deadlock: when nobody inside the library can go on, a thread in a call waits for another thread that
    holds the mutex and is in no call. *)
Theorem C53_mutex_blocked : forall s t p, reach s0 s -> at_rest s -> nth_error (pcs s) t = Some p -> p <> Idle ->
  exists u, u <> t /\ 0 < depth u (mlog s) /\ forall q, nth_error (pcs s) u = Some q -> q = Idle.
Proof.
  intros s t p R A E N. pose proof (r_inv _ R) as I.
  assert (L : ilk s = None).
  { destruct (ilk s) as [u|] eqn:L; [exfalso | reflexivity]. destruct (i_lk2 _ I _ L) as (q & Eq). pose proof (proj2 (i_lk _ I _ _ Eq) L) as C.
    destruct (A u) as (X & Y). unfold exec, go, done in X. rewrite Eq in X, Y. destruct q; try discriminate; [congruence|].
    destruct (r =? 0); discriminate. }
  assert (K : forall v q, nth_error (pcs s) v = Some q -> q = Idle \/ q = L147 O /\ phD s /\ exists w k, objs s = [Some (Some (w, k))] /\ w <> v).
  { intros v q Ev. destruct (A v) as (X & Y). unfold exec, go, done in X. rewrite Ev in X, Y. pose proof (i_t _ I _ _ Ev) as T. rewrite L in X.
    destruct q; auto; cbn [tfact] in T; try discriminate.
    - destruct (is_null (cell s)); discriminate.
    - congruence.
    - destruct (r =? 0); discriminate.
    - destruct T as (T & _). rewrite T in X. discriminate.
    - destruct T as (-> & D). right. split; [reflexivity|]. split; [exact D|]. destruct D as (C & x & O). unfold enter in X. rewrite O in X. cbn in X.
      destruct x as [(w, k)|]; [|discriminate]. exists w, k. split; [exact O|]. destruct (Nat.eqb w v) eqn:Q; [discriminate|]. apply Nat.eqb_neq in Q. exact Q.
    - destruct (is_null (cell s)); discriminate.
    - destruct T as ((T & _) & _). rewrite T in X. discriminate.
    - destruct T as ((T & _) & _). rewrite T in X. discriminate.
    - destruct T as (-> & D & T). destruct D as (C & x & O). unfold inside_cs in T. rewrite C, O in T. cbn in T. destruct x as [(w, k)|]; [|discriminate]. injection T as ->.
      unfold leave in X. rewrite O in X. cbn in X. rewrite Nat.eqb_refl in X. discriminate. }
  destruct (K _ _ E) as [->|(-> & D & w & k & O & W)]; [congruence|]. exists w. split; [exact W|].
  destruct (i_link _ I) as [(u & k' & _ & O' & K1 & K2 & _)|(Z & _)]; [|destruct D as (C & _); unfold inside_cs in Z; rewrite C, O in Z; discriminate].
  rewrite O in O'. injection O' as <- <-. split; [lia|]. intros q Eq. destruct (K _ _ Eq) as [Q|(_ & _ & w' & k' & O' & W')]; [exact Q|]. congruence.
Qed.

(** At most 11 steps per call. *)
Definition rank (p : pc) : Z := match p with
  | Idle => 0 | L147 _ | U162 _ => 1 | L146 | U161 => 2 | L140 _ | U157 => 3 | L104 _ | L136 | U153 => 4 | L103 _ => 5 | L98 => 6 | L132 => 7 | L131 => 8 | L128 => 9 | L124 => 10 end.
Definition internal (a : act) : Prop := match a with AStep _ | AAlloc _ _ => True | _ => False end.
Theorem C53_mutex_bounded : forall s l s', reach s0 s -> Forall internal l -> run l s = Some s' -> Z.of_nat (length l) <= 10 * Z.of_nat (length (pcs s)).
Proof.
  intros s l s' _ F X.
  assert (B : lsum rank (pcs s) <= 10 * zlen (pcs s)).
  { clear. induction (pcs s) as [|p l IH]; [reflexivity|]. cbn [lsum]. rewrite zlen_cons. assert (rank p <= 10) by (destruct p; cbn; lia). lia. }
  unfold zlen in B. assert (G : Z.of_nat (length l) + lsum rank (pcs s') <= lsum rank (pcs s)).
  { clear B. revert s X. induction F as [|a l Fa F IH]; intros s X; cbn in X; [injection X as <-; cbn; lia|].
    destruct (do_act a s) as [[s1|]| | |] eqn:E; try discriminate. specialize (IH _ X). cbn [length].
    enough (lsum rank (pcs s1) < lsum rank (pcs s)) by lia. clear X IH F.
    destruct a; cbn in Fa; try contradiction; cbn [do_act] in E; unfold exec, go, done in E; (destruct (nth_error (pcs s) t) as [p|] eqn:Ep; [|discriminate]).
    - assert (K : forall x p', pcs x = pcs s -> rank p' < rank p -> lsum rank (pcs (set_pc x t p')) < lsum rank (pcs s)).
      { intros x p' P R. cbn [set_pc pcs]. rewrite P, (lsum_lset _ _ _ _ _ Ep). lia. }
      destruct p; try discriminate; try (injection E as <-; apply K; [reflexivity | cbn; lia]).
      + destruct (is_null (cell s)); injection E as <-; (apply K; [reflexivity | cbn; lia]).
      + destruct (is_mark (cell s)); injection E as <-; (apply K; [reflexivity | cbn; lia]).
      + destruct (ilk s); [discriminate|]. injection E as <-; (apply K; [reflexivity | cbn; lia]).
      + destruct (is_mark (cell s)); injection E as <-; (apply K; [reflexivity | cbn; lia]).
      + destruct (r =? 0); injection E as <-; (apply K; [reflexivity | cbn; lia]).
      + destruct (cell s); try discriminate. injection E as <-; (apply K; [reflexivity | cbn; lia]).
      + unfold enter in E. destruct (nth_error (objs s) i) as [[[(u, k)|]|]|]; try discriminate; cbn in E; [destruct (Nat.eqb u t); try discriminate; cbn in E|]; injection E as <-; (apply K; [reflexivity | cbn; lia]).
      + destruct (is_null (cell s)); injection E as <-; (apply K; [reflexivity | cbn; lia]).
      + destruct (cell s) as [|[|[|k]]|]; injection E as <-; (apply K; [reflexivity | cbn; lia]).
      + destruct (cell s); try discriminate. injection E as <-; (apply K; [reflexivity | cbn; lia]).
      + unfold leave in E. destruct (nth_error (objs s) i) as [[[(u, k)|]|]|]; try discriminate; cbn in E. destruct (Nat.eqb u t); try discriminate; cbn in E; injection E as <-; (apply K; [reflexivity | cbn; lia]).
    - destruct p; try discriminate. destruct ok; injection E as <-; cbn [set_pc set_objs pcs]; rewrite (lsum_lset _ _ _ _ _ Ep); cbn; lia. }
  pose proof (lsum_nonneg rank (pcs s') ltac:(intros ? q _; destruct q; cbn; lia)). lia.
Qed.
End C53.

(** pthread_mutex_destroy after pthread_mutex_init frees the object once and leaves NULL, on which destroy and
    lock return EINVAL. *)
Theorem C53_mutex_destroy : forall n s, reach (dynamic n) s -> destroy (cell s) = Ret (0, Null, true) /\
  destroy Null = Ret (EINVAL, Null, false) /\
  forall x t, cell x = Null -> nth_error (pcs x) t = Some L124 -> exec t x = Ret (Some (set_pc (emit x (ELock t EINVAL)) t Idle)).
Proof.
  intros n s R. assert (C : cell s = Obj 0).
  { destruct R as (l & R). assert (K : forall l s s', inv s -> cell s = Obj 0 -> run l s = Some s' -> cell s' = Obj 0).
    { clear. induction l as [|a l IH]; intros s s' I C R; cbn in R; [congruence|]. destruct (act_inv s a I) as ([s1|] & E & I1); rewrite E in R; [|discriminate].
      apply (IH s1 s' I1); [|exact R]. clear IH R. destruct a; cbn [do_act] in E; unfold exec, go, done in E; (destruct (nth_error (pcs s) t) as [p|] eqn:Ep; [|discriminate]).
      - pose proof (i_t _ I _ _ Ep) as T. destruct p; cbn [tfact] in T; try discriminate; try (injection E as <-; exact C).
        + destruct (is_null (cell s)); injection E as <-; exact C.
        + destruct (ilk s); [discriminate|]. injection E as <-; exact C.
        + destruct T as (_ & T & _). rewrite C in T. discriminate.
        + destruct (r =? 0); injection E as <-; exact C.
        + rewrite C in E. injection E as <-; exact C.
        + unfold enter in E. destruct (nth_error (objs s) i) as [[[(u, k)|]|]|]; try discriminate; cbn in E; [destruct (Nat.eqb u t); try discriminate; cbn in E|]; injection E as <-; exact C.
        + destruct (is_null (cell s)); injection E as <-; exact C.
        + rewrite C in E. injection E as <-; exact C.
        + rewrite C in E. injection E as <-; exact C.
        + unfold leave in E. destruct (nth_error (objs s) i) as [[[(u, k)|]|]|]; try discriminate; cbn in E. destruct (Nat.eqb u t); try discriminate; cbn in E; injection E as <-; exact C.
      - destruct p; try discriminate. destruct ok; injection E as <-; exact C.
      - destruct p; try discriminate. injection E as <-; exact C.
      - destruct p; try discriminate. destruct (inside_cs s) as [u|]; [|discriminate]. destruct (Nat.eqb u t); [|discriminate]. injection E as <-; exact C. }
    apply (K l (dynamic n)); [|reflexivity | exact R]. apply (start_inv n). left. reflexivity. }
  rewrite C. split; [reflexivity|]. split; [reflexivity|]. intros x t X E. unfold exec. rewrite E, X. reflexivity.
Qed.

(** A static mutex that was never locked cannot be destroyed, and a static recursive or error-checking one
    cannot be unlocked: the marker is used as a pointer. *)
Theorem C53_mutex_destroy_static_refuted : forall k, destroy (Mark k) = Ub.
Proof. reflexivity. Qed.
Theorem C53_mutex_unlock_static_refuted : forall k, (k = 2 \/ k = 3)%nat ->
  exec 0 (mk_m (Mark k) [] None [U157] []) = Ret (Some (mk_m (Mark k) [] None [U161] [])) /\ exec 0 (mk_m (Mark k) [] None [U161] []) = Ub.
Proof. intros k [-> | ->]; split; reflexivity. Qed.

(** Unlocking a static default mutex that was never locked returns 0 and changes nothing. *)
Theorem C53_mutex_unlock_never_locked : forall t x, cell x = Mark 1 -> nth_error (pcs x) t = Some U157 ->
  exec t x = Ret (Some (set_pc (emit x (EUnlock t 0)) t Idle)).
Proof. intros t x C E. unfold exec. rewrite E, C. reflexivity. Qed.

(** pthread_rwlock_init: NULL in the variable (a zeroed lock, the usual one) is refused; otherwise success
    stores the new lock with its three handles, and a failure leaves the variable alone and nothing open. *)
Theorem C53_rwlock_init : forall c mem hm hr hw, c <> Null ->
  let '(r, c', h) := rwlock_init c mem hm hr hw in
  (r = 0 <-> mem = true /\ hm = true /\ hr = true /\ hw = true) /\
  (r = 0 -> c' = Obj 0 /\ h = [true; true; true]) /\ (r <> 0 -> c' = c /\ forall b, In b h -> b = false).
Proof.
  intros c mem hm hr hw N. unfold rwlock_init. destruct c as [|k|i]; [congruence| |]; destruct mem, hm, hr, hw; cbn; repeat split; intros; try discriminate; intuition congruence.
Qed.
(** pthread_rwlock_destroy of a lock made by init closes its handles and leaves NULL; NULL is refused; a static lock never used
    has nothing to close. *)
Theorem C53_rwlock_destroy : forall c h,
  (forall i, c = Obj i -> exists h', rwlock_destroy c h = (0, Null, h') /\ length h' = length h /\ forall b, In b h' -> b = false) /\
  (c = Null -> rwlock_destroy c h = (EINVAL, Null, h)) /\ (forall k, c = Mark k -> rwlock_destroy c h = (0, Mark k, h)).
Proof.
  intros c h. split; [|split]; [intros i -> |intros -> |intros k ->]; try reflexivity. exists (map (fun _ => false) h). split; [reflexivity|]. split; [apply map_length|]. intros b I. apply in_map_iff in I. destruct I as (x & <- & _). reflexivity.
Qed.
Print Assumptions C53_rwlock_destroy.
Theorem C53_rwlock_init_null_refuted : forall mem hm hr hw, rwlock_init Null mem hm hr hw = (EINVAL, Null, []).
Proof. reflexivity. Qed.
Print Assumptions C53_mutex_safe.
Print Assumptions C53_mutex_one_object.
Print Assumptions C53_mutex_legal.
Print Assumptions C53_mutex_exclusion.
Print Assumptions C53_mutex_blocked.
Print Assumptions C53_mutex_bounded.
Print Assumptions C53_mutex_destroy.
Print Assumptions C53_mutex_destroy_static_refuted.
Print Assumptions C53_mutex_unlock_static_refuted.
Print Assumptions C53_mutex_unlock_never_locked.
Print Assumptions C53_rwlock_init.
Print Assumptions C53_rwlock_init_null_refuted.

(** Two threads race for a static mutex; calloc fails for the first one, which then returns ENOMEM; 1 gets
    it, locks it twice; 0 tries again and blocks *)
Fixpoint St (t k : nat) : list act := match k with O => [] | S k => AStep t :: St t k end.
Definition demo : list act := [ALock 0; ALock 1] ++ St 0 2 ++ St 1 2 ++ St 0 2 ++ [AAlloc 0 false; AStep 0] ++ St 1 2 ++ [AAlloc 1 true] ++ St 1 5 ++
  [ALock 0] ++ [ALock 1] ++ St 1 4 ++ St 0 3 ++ [AUnlock 1].
Definition final (l : list act) (s : mst) : mst := match run l s with Some s' => s' | None => s end.
Example C53_mutex_demo : start 2 (static 1 2) /\ run demo (static 1 2) = Some (final demo (static 1 2)) /\
  mlog (final demo (static 1 2)) = [ELock 1 0; ELock 1 0; ELock 0 ENOMEM] /\ pcs (final demo (static 1 2)) = [L147 0; U153].
Proof.
  split; [right; exists 1%nat; split; [lia | reflexivity]|]. split; [vm_compute; reflexivity|]. split; vm_compute; reflexivity.
Qed.

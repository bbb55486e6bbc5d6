(** C69: the memory of a thread pool. *)
From Verif Require Import CBase LifeModel TpLifeModel TpLifeSpec TpLifeProof TpLifeProof2 TpLifeProof3 TpLifeProof4.

Lemma own_leaks s s' W : own s s' (junk W) -> wf s -> leaks (length W) s s'.
Proof.
  intros (A & B & C & D) W0. assert (M : map fst (junk W) = W) by (unfold junk; rewrite map_map; apply map_id). rewrite M in *. exists W. split; [auto|]. split; [auto|]. split; intros b I.
  - split; [apply W0; apply (C b I)|]. rewrite D. assert (X : exists k, assoc b (junk W) = Some k).
    { exists (mk_b true [VI 0]). apply assoc_in; [rewrite M; auto|]. apply (in_map (fun b => (b, mk_b true [VI 0]))) in I. exact I. }
    destruct X as (k & ->). discriminate.
  - rewrite D, assoc_none; [auto|rewrite M; auto].
Qed.
Lemma leaks_0 s s' : leaks 0 s s' -> forall b, hp s' b = hp s b.
Proof. intros ([|] & L & _ & _ & H) b; [apply H; intros []|discriminate]. Qed.

(** thpool_init, for every number of threads and every sequence of answers of malloc and pthread_create: a pool, NULL, no
    return, or undefined behaviour, as init_end_of says *)
Theorem C69_what_thpool_init_does : forall win num s, wf s ->
  match init_end_of (Z.to_nat num) (orc s) with
  | Gives => exists s' p, tp_init win num s = Ret (TPool p, s')
  | Refuses => exists s', tp_init win num s = Ret (TNull, s')
  | Hangs => exists s', tp_init win num s = Ret (THang, s')
  | Crashes => tp_init win num s = Ub
  end.
Proof.
  intros win num s W. pose proof (init_ok win num s W) as H. destruct (init_end_of _ _); auto.
  - destruct H as (s' & p & E & _). eauto.
  - destruct H as (s' & V & E & _). eauto.
Qed.
Print Assumptions C69_what_thpool_init_does.
Lemma init_gives win num s s' p : wf s -> tp_init win num s = Ret (TPool p, s') -> exists b, p = VP b 0 /\ pool s s' b (Z.to_nat num) [] (wn win 7).
Proof.
  intros W E. pose proof (init_ok win num s W) as H. destruct (init_end_of _ _).
  - destruct H as (s1 & b & E1 & P). rewrite E1 in E. injection E as <- <-. eauto.
  - destruct H as (s1 & V & E1 & _). congruence.
  - destruct H as (s1 & E1). congruence.
  - congruence.
Qed.
Lemma init_refuses win num s s' : wf s -> tp_init win num s = Ret (TNull, s') -> exists W, own s s' (junk W) /\ length W = lost_on_refusal win (orc s).
Proof.
  intros W E. pose proof (init_ok win num s W) as H. destruct (init_end_of _ _).
  - destruct H as (s1 & b & E1 & P). congruence.
  - destruct H as (s1 & V & E1 & P). rewrite E1 in E. injection E as <-. eauto.
  - destruct H as (s1 & E1). congruence.
  - congruence.
Qed.
(** a NULL from thpool_init leaves the heap as it was *)
Theorem C69_a_refused_pool_leaves_nothing : forall num s s', wf s -> tp_init false num s = Ret (TNull, s') -> forall b, hp s' b = hp s b.
Proof.
  intros num s s' W E. destruct (init_refuses false num s s' W E) as (V & O & L). apply own_leaks in O; auto. rewrite L in O. unfold lost_on_refusal in O. destruct (nxt_answer (orc s)) as [a o]. destruct (nxt_answer o) as [b' o']. destruct (a && b'); apply leaks_0; exact O.
Qed.
Print Assumptions C69_a_refused_pool_leaves_nothing.

Lemma life win num s s1 p : wf s -> tp_init win num s = Ret (TPool p, s1) -> forall l,
  exists s2, run p l s1 = Ret (fst (history 0 (orc s1) l), s2) /\
    forall fuel, (snd (history 0 (orc s1) l) < fuel)%nat -> exists s3, tp_destroy win fuel p s2 = Ret (tt, s3) /\ leaks (wn win 10) s s3.
Proof.
  intros W E l. destruct (init_gives win num s s1 p W E) as (b & -> & P). destruct (run_ok s b _ _ W l s1 [] P) as (s2 & js & E2 & P2 & L2). exists s2. split; [exact E2|]. intros fuel F.
  destruct (destroy_ok win s s2 b _ js _ fuel W P2) as (s3 & V & E3 & O3 & L3); [change (length (@nil nat)) with 0%nat in L2; lia|]. exists s3. split; [exact E3|]. apply own_leaks in O3; [|auto]. rewrite L3 in O3. rewrite wn_add in O3. exact O3.
Qed.
(** the whole life of a pool: after any additions and worker turns, in any order and with any failing malloc, all defined and
    with the expected results (0 added, -2 no memory; 1 a job ran, 0 none was there), thpool_destroy - jobs still waiting or not -
    gives back exactly what was obtained since thpool_init *)
Theorem C69_everything_is_given_back : forall num s s1 p, wf s -> tp_init false num s = Ret (TPool p, s1) -> forall l,
  exists s2, run p l s1 = Ret (fst (history 0 (orc s1) l), s2) /\
    forall fuel, (snd (history 0 (orc s1) l) < fuel)%nat -> exists s3, tp_destroy false fuel p s2 = Ret (tt, s3) /\ forall b, hp s3 b = hp s b.
Proof.
  intros num s s1 p W E l. destruct (life false num s s1 p W E l) as (s2 & E2 & H). exists s2. split; [exact E2|]. intros fuel F. destruct (H fuel F) as (s3 & E3 & L). exists s3. split; [exact E3|]. apply leaks_0. exact L.
Qed.
Print Assumptions C69_everything_is_given_back.
(** not so on the Windows layer: every pool that was created and destroyed loses ten objects (its mutexes and condition variables
    are never destroyed, and the semaphore is initialised twice) *)
Theorem C69_windows_loses_ten_objects_refuted : forall num s s1 p, wf s -> tp_init true num s = Ret (TPool p, s1) -> forall l,
  exists s2, run p l s1 = Ret (fst (history 0 (orc s1) l), s2) /\
    forall fuel, (snd (history 0 (orc s1) l) < fuel)%nat -> exists s3, tp_destroy true fuel p s2 = Ret (tt, s3) /\ leaks 10 s s3.
Proof. intros num s s1 p W E l. exact (life true num s s1 p W E l). Qed.
Print Assumptions C69_windows_loses_ten_objects_refuted.
(** there a refusal loses seven objects, if it is the array of threads that is refused *)
Theorem C69_windows_refusal_refuted : forall num s s' o, wf s -> orc s = true :: true :: false :: o -> tp_init true num s = Ret (TNull, s') -> leaks 7 s s'.
Proof. intros num s s' o W EO E. destruct (init_refuses true num s s' W E) as (V & O & L). apply own_leaks in O; auto. rewrite L in O. unfold lost_on_refusal in O. rewrite EO in O. exact O. Qed.
Print Assumptions C69_windows_refusal_refuted.

Lemma end_prefix k : forall m o, threads_end (k + m) (repeat true (2 * k) ++ o) = threads_end m o.
Proof. induction k as [|k IH]; intros m o; [reflexivity|]. replace (2 * S k)%nat with (S (S (2 * k))) by lia. cbn [repeat app plus threads_end nxt_answer]. apply IH. Qed.
Lemma all_good m : threads_end m [] = Gives. Proof. induction m as [|m IH]; [reflexivity|exact IH]. Qed.
(** thpool_init does not report a thread that could not be made: with the k-th structure refused it never returns, with the k-th
    pthread_create refused it is undefined (pthread_detach of an id never set), for all n and k *)
Theorem C69_a_failing_thread_refuted : forall win num s k, wf s -> (k < Z.to_nat num)%nat ->
  (orc s = repeat true (3 + 2 * k) ++ [false] -> exists s', tp_init win num s = Ret (THang, s')) /\
  (orc s = repeat true (3 + 2 * k) ++ [true; false] -> tp_init win num s = Ub).
Proof.
  intros win num s k W K. pose proof (C69_what_thpool_init_does win num s W) as H. split; intro E; rewrite E in H; cbn [plus repeat app] in H; unfold init_end_of in H; cbn [nxt_answer negb] in H;
    replace (Z.to_nat num) with (k + S (Z.to_nat num - S k))%nat in H by lia; rewrite end_prefix in H; cbn [threads_end nxt_answer] in H.
  - rewrite all_good in H. exact H.
  - exact H.
Qed.
Print Assumptions C69_a_failing_thread_refuted.

Definition empty (o : list bool) : st := mk_s o (fun _ => None) 0.
Lemma empty_wf o : wf (empty o). Proof. intros b _. reflexivity. Qed.
Definition allocated (s : st) : nat := length (filter (fun b => match hp s b with Some _ => true | None => false end) (seq 0 (nxt s))).
Example pool_life : match tp_init false 3 (empty []) with Ret (TPool _, s) => allocated s = 6%nat | _ => False end.
Proof. vm_compute. reflexivity. Qed.
Example pool_history : fst (history 0 [true; false] [Turn; Add; Add; Turn; Add; Add]) = [0; 0; -2; 1; 0; 0]%Z.
Proof. reflexivity. Qed.
Example pool_life_end : match (r <-- tp_init true 2 ;; match r with TPool p => l <-- run p [Add; Turn; Add; Add] ;; tp_destroy true 9 p | _ => ubm end) (empty []) with Ret (_, s) => allocated s = 10%nat | _ => False end.
Proof. vm_compute. reflexivity. Qed.
Example pool_refused : match tp_init true 2 (empty [true; true; false]) with Ret (TNull, s) => allocated s = 7%nat | _ => False end.
Proof. vm_compute. reflexivity. Qed.

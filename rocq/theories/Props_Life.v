(** C49: creating and destroying objects neither leaks nor releases anything twice *)
From Verif Require Import CBase RingBuffer2Model LifeModel LifeSpec LifeProof LifeProof2 LifeProof3 LifeProof4 LifeProof5 LifeProof6 LifeProof7.

(** A legal call never touches a released block, never releases twice and never releases the middle of a block,
    whatever malloc, sem_init, pthread_create and fopen answer. *)
Theorem C49_no_misuse orc ks vs s o : reach orc ks (vs, s) -> legal o vs -> exists p', do_op o (vs, s) = Ret p'.
Proof. intros R L. destruct (op_total o vs s (reach_inv _ _ _ R) L) as (p' & E & _). eauto. Qed.

(** Every block, thread and stream of the library belongs to exactly one object that a variable still holds. *)
Theorem C49_accounting orc ks vs s : reach orc ks (vs, s) ->
  exists fps, Forall2 (holds (hp s)) vs fps /\ NoDup (concat fps) /\ forall b, liblive (hp s) b -> In b (concat fps).
Proof. intros R. destruct (reach_inv _ _ _ R) as (_ & fps & H). exists fps. exact H. Qed.

(** Once everything is destroyed nothing of the library is left. *)
Theorem C49_no_leak orc ks vs s : reach orc ks (vs, s) -> (forall k v, In (k, v) vs -> v = V0) -> forall b, ~ liblive (hp s) b.
Proof.
  intros R A b B. destruct (C49_accounting _ _ _ _ R) as (fps & F & _ & C). apply C in B. clear -F A B. induction F as [|(k & v) bs l r H F IH]; [contradiction|]. cbn in B. apply in_app_or in B. destruct B as [B|B].
  - rewrite (A k v (or_introl eq_refl)) in H. apply holds_null in H. subst. contradiction.
  - apply IH; [intros k' v' I; apply (A k' v'); right; exact I | exact B].
Qed.

(** A create that fails leaves all as it was; one that succeeds gives an object made of new blocks and changes nothing else. *)
Theorem C49_create orc ks vs s x n m r k : reach orc ks (vs, s) -> legal (Create x n m r) vs -> nth_error vs x = Some (k, V0) ->
  exists v s', do_op (Create x n m r) (vs, s) = Ret (setv x v vs, s') /\
    (forall b, hp s b <> None -> hp s' b = hp s b) /\
    ((v = V0 /\ forall b, liblive (hp s') b <-> liblive (hp s) b) \/
     exists bs, obj (hp s') k v bs /\ (forall b, In b bs -> hp s b = None) /\ forall b, liblive (hp s') b -> liblive (hp s) b \/ In b bs).
Proof.
  intros R L E. pose proof (reach_inv _ _ _ R) as (W & _). cbn in W. destruct (op_spec _ _ _ (reach_inv _ _ _ R) L) as [(E' & _)|(k' & v & s' & bs & E' & _ & D & Lo & H & _)]; [congruence|]. rewrite E in E'. injection E' as <-.
  exists v, s'. split; [exact D|].
  assert (Old : forall b, hp s b <> None -> hp s' b = hp s b). { intros b B. apply (local_old _ _ _ _ b Lo); [|intros []]. destruct (hp s b) eqn:Q; [eapply live_lt; eauto | congruence]. }
  assert (New : forall b, liblive (hp s') b -> liblive (hp s) b \/ In b bs). { intros b B. destruct (Nat.lt_ge_cases b (nxt s)) as [X|X]; [|right; destruct Lo as (_ & _ & _ & _ & Q & _); apply Q; auto]. left. destruct B as (c & B). exists c. rewrite <- B. symmetry. apply (local_old _ _ _ _ b Lo); [exact X | intros []]. }
  split; [exact Old|]. destruct v; try (right; exists bs; split; [apply holds_obj in H; [exact H | discriminate]|]; split; [|exact New]; intros b' B; apply W; destruct Lo as (_ & _ & _ & Q & _); destruct (Q b' B) as ([[]|X] & _); exact X).
  left. split; [reflexivity|]. apply holds_null in H. subst bs. intros b. split; [intros B; destruct (New b B) as [|[]]; assumption|]. intros (c & B). exists c. rewrite Old; [exact B | congruence].
Qed.

(** A destroy sets the variable to NULL, releases all blocks of that object, nothing else, and leaves nothing new. *)
Theorem C49_destroy orc ks vs s x l k v : reach orc ks (vs, s) -> legal (Destroy x l) vs -> nth_error vs x = Some (k, v) ->
  exists s' bs, do_op (Destroy x l) (vs, s) = Ret (setv x V0 vs, s') /\ holds (hp s) (k, v) bs /\
    (forall b, In b bs -> ~ liblive (hp s') b) /\ (forall b, hp s b <> None -> ~ In b bs -> hp s' b = hp s b) /\ (forall b, liblive (hp s') b -> liblive (hp s) b).
Proof.
  intros R L E. pose proof (reach_inv _ _ _ R) as (W & _). cbn in W. destruct (op_spec _ _ _ (reach_inv _ _ _ R) L) as [(E' & _)|(k' & v' & s' & bs & E' & H & _ & D & Lo & _)]; [congruence|]. rewrite E in E'. injection E' as <- <-.
  exists s', bs. split; [exact D|]. split; [exact H|]. destruct Lo as (_ & _ & Old & _ & New & _).
  assert (G : forall b, In b bs -> ~ liblive (hp s') b) by (intros b B X; destruct (New b X (or_introl B))).
  split; [exact G|]. split.
  - intros b B N. apply Old; [|exact N]. destruct (hp s b) eqn:Q; [eapply live_lt; eauto | congruence].
  - intros b B. destruct (Nat.lt_ge_cases b (nxt s)) as [X|X]; [|destruct (New b B (or_intror X))]. destruct (in_dec Nat.eq_dec b bs) as [I|I]; [elim (G b I B)|]. destruct B as (c & B). exists c. rewrite <- B. symmetry. auto.
Qed.

(** destroying a NULL handle does nothing *)
Theorem C49_destroy_null k l s : k <> KMq -> destroy k l V0 s = Ret (V0, s).
Proof. apply destroy_null. Qed.
(** but msg_queue_destroy reads through it *)
Theorem C49_msg_queue_destroy_null_refuted l s : destroy KMq l V0 s = Ub.
Proof. reflexivity. Qed.
Theorem C49_deinit_null l s : fl_deinit l V0 s = Ret (-1, V0, s).
Proof. reflexivity. Qed.

(** Growing a buffer keeps the handle and the object; if memory is refused nothing at all changes. *)
Theorem C49_grow orc ks vs s x k v : reach orc ks (vs, s) -> nth_error vs x = Some (k, v) -> v <> V0 ->
  exists s' bs bs', do_op (Grow x) (vs, s) = Ret (vs, s') /\ obj (hp s) k v bs /\ obj (hp s') k v bs' /\
    (forall b, hp s b <> None -> ~ In b bs -> hp s' b = hp s b) /\ (forall b, liblive (hp s') b -> liblive (hp s) b \/ In b bs').
Proof.
  intros R E Nv. pose proof (reach_inv _ _ _ R) as (W & _). cbn in W.
  destruct (op_spec (Grow x) _ _ (reach_inv _ _ _ R) I) as [D|(k' & v' & s' & bs & bs' & E' & O & _ & D & Lo & O' & _)].
  - (* the object exists nevertheless *)
    destruct (reach_inv _ _ _ R) as (_ & fps & F & _ & C). cbn in F, C. destruct (pick _ _ _ _ _ _ F E) as (l1 & l2 & f1 & f2 & bs & _ & _ & _ & _ & _ & H). apply holds_obj in H; [|exact Nv]. exists s, bs, bs. auto 8.
  - rewrite E in E'. injection E' as <- <-. exists s', bs, bs'. split; [exact D|]. split; [exact O|]. split; [exact O'|]. destruct Lo as (_ & _ & Old & _ & New & _). split.
    + intros b B N. apply Old; [|exact N]. destruct (hp s b) eqn:Q; [eapply live_lt; eauto | congruence].
    + intros b B. destruct (in_dec Nat.eq_dec b bs') as [Y|Y]; [auto|]. left. destruct (Nat.lt_ge_cases b (nxt s)) as [X|X]; [|elim Y; auto]. destruct (in_dec Nat.eq_dec b bs) as [Z|Z]; [elim Y; auto|]. destruct B as (c & B). exists c. rewrite <- B. symmetry. auto.
Qed.
Theorem C49_grow_refused h v t n c d : (exists b, v = VP b 0 /\ h b = Some (mk_b true [VP d 0])) -> h d = Some c ->
  sb_grow v (mk_s (false :: t) h n) = Ret (-4, mk_s t h n).
Proof. intros (b & -> & H) D. unfold sb_grow, bnd, load, realloc_, tick. cbn. rewrite H. reflexivity. Qed.

(** Memory of the caller is never released. *)
Theorem C49_callers_memory orc ks vs s o vs' s' b c : reach orc ks (vs, s) -> legal o vs -> do_op o (vs, s) = Ret (vs', s') ->
  hp s b = Some (mk_b false c) -> exists c', hp s' b = Some (mk_b false c').
Proof.
  intros R L D H. pose proof (reach_inv _ _ _ R) as (W & _). cbn in W. pose proof (live_lt _ _ _ W H) as B.
  assert (X : forall A A' q, local A A' s q -> exists c', hp q b = Some (mk_b false c')) by (intros A A' q (_ & _ & _ & _ & _ & U); eapply U; eauto).
  pose proof (op_spec o vs s (reach_inv _ _ _ R) L) as S. destruct o as [x n m r|x l|x].
  - destruct S as [(_ & E)|(k & v & q & bs & _ & _ & E & Lo & _)]; rewrite E in D; injection D as <- <-; eauto.
  - destruct S as [(_ & E)|(k & v & q & bs & _ & _ & _ & E & Lo & _)]; rewrite E in D; injection D as <- <-; eauto.
  - destruct S as [E|(k & v & q & bs & bs' & _ & _ & _ & E & Lo & _)]; rewrite E in D; injection D as <- <-; eauto.
Qed.

Definition fin (o : outcome prog) : prog := match o with Ret p => p | _ => ([], empty []) end.
Lemma fin_ok o p : (match do_op o p with Ret _ => true | _ => false end) = true -> do_op o p = Ret (fin (do_op o p)).
Proof. destruct (do_op o p); try discriminate. reflexivity. Qed.
(** A message handler whose semaphore could not be created is handed out all the same (the worker's waits and the
    pushers' posts on it are no-ops): the second answer, for the semaphore's malloc, is a refusal. *)
Theorem C49_handler_without_semaphore_refuted : exists b s', create KHd 1024 0 true (empty [true; false]) = Ret (VP b 0, s') /\ load (VP b 0) 4 s' = Ret (V0, s').
Proof.
  assert (X : match create KHd 1024 0 true (empty [true; false]) with Ret (VP O O, s') => match hp s' O with Some (mk_b _ [_; _; _; _; V0; _]) => true | _ => false end | _ => false end = true) by (vm_compute; reflexivity).
  destruct (create KHd 1024 0 true (empty [true; false])) as [(v & s')| | |]; try discriminate. destruct v as [| | |z|b o]; try discriminate. destruct b; try discriminate. destruct o; try discriminate.
  exists O, s'. split; [reflexivity|]. destruct (hp s' O) as [(m & c)|] eqn:E; [|discriminate]. unfold load. rewrite E. destruct c as [|c0 [|c1 [|c2 [|c3 [|c4 [|c5 [|c6 c]]]]]]]; try discriminate. all: destruct c4; try discriminate. reflexivity.
Qed.
(** If the folder name cannot be copied, file_logger_init reads through NULL. *)
Theorem C49_file_logger_path_refuted : create KFl 16 5 false (empty []) = Ub.
Proof. reflexivity. Qed.
(** A create over a live handle loses the first object for good. *)
Theorem C49_create_over_live_refuted : exists p1 p2 p3,
  do_op (Create 0 64 0 true) ([(KRing, V0)], empty []) = Ret p1 /\ do_op (Create 0 64 0 true) p1 = Ret p2 /\
  do_op (Destroy 0 []) p2 = Ret p3 /\ fst p3 = [(KRing, V0)] /\ liblive (hp (snd p3)) 0.
Proof.
  pose (p1 := fin (do_op (Create 0 64 0 true) ([(KRing, V0)], empty []))). pose (p2 := fin (do_op (Create 0 64 0 true) p1)). pose (p3 := fin (do_op (Destroy 0 []) p2)). exists p1, p2, p3.
  split; [apply fin_ok; vm_compute; reflexivity|]. split; [apply fin_ok; vm_compute; reflexivity|]. split; [apply fin_ok; vm_compute; reflexivity|]. split; [vm_compute; reflexivity|].
  assert (X : match hp (snd p3) O with Some k => mine k | None => false end = true) by (vm_compute; reflexivity). destruct (hp (snd p3) O) as [(m & c)|] eqn:E; cbn in X; [|discriminate]. exists c. rewrite E. congruence.
Qed.

(** A program with a file logger, a ring in the caller's memory and a string builder, with refusals. *)
Definition demo_orc : list bool := [true; true; true; true; true; true; true; true; false; true; false; true].
Definition demo0 : prog := (map (fun k => (k, V0)) [KFl; KRingMem; KSb; KFhd], empty demo_orc).
Definition demo1 := fin (do_op (Create 0 16 5 true) demo0).
Definition demo2 := fin (do_op (Create 1 100 0 true) demo1).
Definition demo3 := fin (do_op (Create 2 0 0 true) demo2).        (* refused *)
Definition demo4 := fin (do_op (Create 2 0 0 true) demo3).        (* refused *)
Definition demo5 := fin (do_op (Create 2 0 0 true) demo4).
Definition demo6 := fin (do_op (Grow 2) demo5).
Definition demo7 := fin (do_op (Destroy 0 [WMsg false; WGrow; WMsg true; WMsg false]) demo6).
Definition demo8 := fin (do_op (Destroy 1 []) demo7).
Definition demo9 := fin (do_op (Destroy 2 []) demo8).
Example C49_demo :
  reach demo_orc [KFl; KRingMem; KSb; KFhd] demo9 /\ map snd (fst demo4) = [VP 1 0; VP 8 0; V0; V0] /\ map snd (fst demo6) = [VP 1 0; VP 8 0; VP 10 0; V0] /\
  (forall b, ~ liblive (hp (snd demo9)) b) /\ exists c, hp (snd demo9) 8%nat = Some (mk_b false c).
Proof.
  assert (L : forall x n m r (p : prog), sizes_ok (fst (nth x (fst p) (KRing, V0))) n m r -> snd (nth x (fst p) (KRing, V0)) = V0 -> legal (Create x n m r) (fst p)).
  { intros x n m r p A B k v E. rewrite (nth_error_nth _ _ _ E) in A, B. auto. }
  assert (R : reach demo_orc [KFl; KRingMem; KSb; KFhd] demo9).
  { apply (RS _ _ (Destroy 2 []) demo8); [|vm_compute; discriminate|apply fin_ok; vm_compute; reflexivity].
    apply (RS _ _ (Destroy 1 []) demo7); [|vm_compute; discriminate|apply fin_ok; vm_compute; reflexivity].
    apply (RS _ _ (Destroy 0 [WMsg false; WGrow; WMsg true; WMsg false]) demo6); [|vm_compute; discriminate|apply fin_ok; vm_compute; reflexivity].
    apply (RS _ _ (Grow 2) demo5); [|exact I|apply fin_ok; vm_compute; reflexivity].
    apply (RS _ _ (Create 2 0 0 true) demo4); [|apply L; vm_compute; [split; discriminate | reflexivity]|apply fin_ok; vm_compute; reflexivity].
    apply (RS _ _ (Create 2 0 0 true) demo3); [|apply L; vm_compute; [split; discriminate | reflexivity]|apply fin_ok; vm_compute; reflexivity].
    apply (RS _ _ (Create 2 0 0 true) demo2); [|apply L; vm_compute; [split; discriminate | reflexivity]|apply fin_ok; vm_compute; reflexivity].
    apply (RS _ _ (Create 1 100 0 true) demo1); [|apply L; vm_compute; [split; discriminate | reflexivity]|apply fin_ok; vm_compute; reflexivity].
    apply (RS _ _ (Create 0 16 5 true) demo0); [|apply L; vm_compute; [repeat split; discriminate | reflexivity]|apply fin_ok; vm_compute; reflexivity].
    exact (R0 demo_orc [KFl; KRingMem; KSb; KFhd]). }
  split; [exact R|]. split; [vm_compute; reflexivity|]. split; [vm_compute; reflexivity|]. split.
  - assert (V : map snd (fst demo9) = [V0; V0; V0; V0]) by (vm_compute; reflexivity). generalize dependent demo9. intros (vs & s) R V. cbn [fst snd] in *.
    apply (C49_no_leak _ _ _ _ R). intros k v I. apply (in_map snd) in I. rewrite V in I. cbn in I. intuition congruence.
  - assert (X : match hp (snd demo9) 8%nat with Some k => mine k | None => true end = false) by (vm_compute; reflexivity). destruct (hp (snd demo9) 8%nat) as [(m & c)|]; cbn in X; [exists c; congruence | discriminate].
Qed.
Print Assumptions C49_no_misuse.
Print Assumptions C49_no_leak.
Print Assumptions C49_create.
Print Assumptions C49_destroy.
Print Assumptions C49_grow.
Print Assumptions C49_callers_memory.

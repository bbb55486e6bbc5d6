(** C52: threads of the simple Windows pthread layer, for every number of threads, every start routine and
    every interleaving. [run l (t_init n) = Some s]: the n thread records are in state s after the actions l. *)
From Verif Require Import CBase ThreadLib PthModel PthSpec PthProof PthProof2.

Lemma run_inv0 : forall n l s, run l (t_init n) = Some s -> inv n l s.
Proof. intros n l s R. apply (run_inv n l [] (t_init n) s (init_inv n) R). Qed.

(** No step uses a record that was freed or a handle that was closed. *)
Theorem C52_thread_safe : forall n s a, reach n s -> exists y, do_act a s = Ret y.
Proof. intros n s a (l & R). destruct (act_inv n l s a (run_inv0 _ _ _ R)) as (y & E & _). eauto. Qed.

(** Nothing is released twice, and once the owner's call has returned and the thread has ended, everything
    has been released. *)
Theorem C52_thread_released_once : forall n s i r, reach n s -> nth_error (recs s) i = Some r ->
  0 <= frees r <= 1 /\ 0 <= closes r <= 1 /\ (owner_done r -> worker_over r -> released r).
Proof.
  intros n s i r (l & R) E. pose proof (i_ok _ _ _ (run_inv0 _ _ _ R) _ _ E) as K. unfold owner_done, worker_over, released.
  destruct r as [w o i0 d e h b f c g]. unfold rok, stA, stB, stF, stN, fresh in K. rp.
  assert (X : (0 <= f <= 1 /\ 0 <= c <= 1)).
  { destruct o; fin; try (destruct w; fin); subst; lia. }
  split; [apply X|]. split; [apply X|]. intros (e' & v & ->) W. destruct W as [-> | ->]; fin; auto.
Qed.

(** join returns 0, after the start routine has returned and the thread has ended, with the value it
    returned (a thread has one); detach returns 0. *)
Definition jstate (o : opc) : Prop := match o with J39 | J47 | J49 | J53 | J56 _ | OEnd 0 (Some _) => True | _ => False end.
Definition dstate (o : opc) : Prop := match o with D62 | D67 | D68 | D70 | D71 | D73 | D77 | D79 | OEnd 0 None => True | _ => False end.
Lemma calls : forall n l s i r, run l (t_init n) = Some s -> nth_error (recs s) i = Some r ->
  (In (AJoin i) l -> jstate (op r)) /\ (In (ADetach i) l -> dstate (op r)).
Proof.
  intros n l. induction l as [|a l IH] using rev_ind; intros s i r R E; [split; intros []|].
  assert (RA : forall l1 l2 s, run (l1 ++ l2) s = match run l1 s with Some s' => run l2 s' | None => None end).
  { clear. induction l1 as [|a l1 IH]; intros l2 s; [reflexivity|]. cbn. destruct (do_act a s) as [[s'|]| | |]; auto. }
  rewrite RA in R. destruct (run l (t_init n)) as [s1|] eqn:R1; [|discriminate]. cbn in R.
  destruct (do_act a s1) as [[s2|]| | |] eqn:D; try discriminate. injection R as <-.
  pose proof (run_inv0 _ _ _ R1) as I1. specialize (fun i r => IH s1 i r eq_refl). rewrite !in_app_iff. cbn [In].
  assert (Other : forall j r1 r' o q, nth_error (recs s1) j = Some r1 -> upd s1 j o (Ret (Some (r', q))) = Ret (Some s2) ->
     (i = j /\ r = r') \/ (i <> j /\ nth_error (recs s1) i = Some r)).
  { intros j r1 r' o q E1 U. assert (Y : recs s2 = lset j r' (recs s1)) by (cbn in U; destruct q; [| destruct (lk s1); [discriminate|] |]; injection U as <-; reflexivity).
    rewrite Y, (lset_nth _ _ _ _ _ E1) in E. destruct (Nat.eq_dec i j); [left; split; congruence | right; auto]. }
  assert (Step : forall j r1 o (x : rec -> rstep), nth_error (recs s1) j = Some r1 -> upd s1 j o (x r1) = Ret (Some s2) -> a <> AJoin i -> a <> ADetach i ->
     (forall r' q, x r1 = Ret (Some (r', q)) -> (jstate (op r1) -> jstate (op r')) /\ (dstate (op r1) -> dstate (op r'))) ->
     (In (AJoin i) l \/ a = AJoin i \/ False -> jstate (op r)) /\ (In (ADetach i) l \/ a = ADetach i \/ False -> dstate (op r))).
  { intros j r1 o x E1 U N1 N2 P. destruct (x r1) as [[(r', q)|]| | |] eqn:X; try discriminate U. destruct (P _ _ eq_refl) as (P1 & P2).
    destruct (Other _ _ _ _ _ E1 U) as [(-> & ->)|(N & E0)].
    - destruct (IH _ _ E1) as (P3 & P4). split; intros [H|[H|[]]]; try congruence; auto.
    - destruct (IH _ _ E0) as (P3 & P4). split; intros [H|[H|[]]]; try congruence; auto. }
  destruct a; cbn [do_act] in D; (destruct (nth_error (recs s1) i0) as [r1|] eqn:E1; [|discriminate]).
  - destruct o; (eapply Step; [exact E1 | exact D | discriminate | discriminate|]); intros r' q X.
    + pose proof (i_ok _ _ _ I1 _ _ E1) as K. unfold oexec, use, useh, out in X. unfold rok, stA in K. destruct (op r1) eqn:O; try discriminate;
      repeat match type of X with context [if ?b then _ else _] => destruct b eqn:? end; try discriminate; injection X as <- <-; cbn; try tauto; fin; try congruence; cbn; tauto.
    + assert (Y : op r' = op r1); [|rewrite Y; auto]. unfold wexec, use, useh, out in X. destruct (wp r1); try discriminate;
      repeat match type of X with context [if ?b then _ else _] => destruct b end; try discriminate; injection X as <- <-; reflexivity.
  - eapply (Step _ _ _ (fun r => match op r with ONone => if ok then _ else _ | _ => _ end)); [exact E1 | exact D | discriminate | discriminate|]. intros r' q X. destruct (op r1) eqn:O; try discriminate. cbn. tauto.
  - eapply (Step _ _ _ (fun r => match op r with C25 => if ok then _ else _ | _ => _ end)); [exact E1 | exact D | discriminate | discriminate|]. intros r' q X. destruct (op r1) eqn:O; try discriminate. cbn. tauto.
  - eapply (Step _ _ _ (fun r => match wp r with W472 => _ | _ => _ end)); [exact E1 | exact D | discriminate | discriminate|]. intros r' q X. assert (Y : op r' = op r1); [|rewrite Y; auto].
    destruct (wp r1); try discriminate. unfold use, out in X. destruct (live r1); [|discriminate]. injection X as <- <-. reflexivity.
  - destruct (op r1) eqn:O; try discriminate. destruct (Other _ _ _ _ _ E1 D) as [(-> & ->)|(N & E0)].
    + destruct (IH _ _ E1) as (H1 & H2). rewrite O in H1, H2. cbn in *. split; [auto|]. intros [H|[H|[]]]; [destruct (H2 H) | discriminate].
    + destruct (IH _ _ E0) as (H1 & H2). split; intros [H|[H|[]]]; auto; congruence.
  - destruct (op r1) eqn:O; try discriminate. destruct (Other _ _ _ _ _ E1 D) as [(-> & ->)|(N & E0)].
    + destruct (IH _ _ E1) as (H1 & H2). rewrite O in H1, H2. cbn in *. split; [|auto]. intros [H|[H|[]]]; [destruct (H1 H) | discriminate].
    + destruct (IH _ _ E0) as (H1 & H2). split; intros [H|[H|[]]]; auto; congruence.
Qed.
Theorem C52_thread_join_value : forall n l s i r e x, run l (t_init n) = Some s -> nth_error (recs s) i = Some r -> In (AJoin i) l -> op r = OEnd e x ->
  e = 0 /\ wp r = WEnd /\ exists v, x = Some v /\ forall v', In (AReturn i v') l <-> v' = v.
Proof.
  intros n l s i r e x R E J O. destruct (calls _ _ _ _ _ R E) as (C & _). specialize (C J). rewrite O in C. cbn in C.
  destruct e; try contradiction. destruct x as [v|]; [|contradiction]. pose proof (run_inv0 _ _ _ R) as I.
  pose proof (i_ok _ _ _ I _ _ E) as K. unfold rok, stF in K. rewrite O in K. pose proof (i_v _ _ _ I _ _ E) as V. unfold vok in V.
  assert (Y : wp r = WEnd /\ v = ecode r) by (fin; split; congruence).
  destruct Y as (W & ->). rewrite W in V. split; [reflexivity|]. split; [exact W|]. exists (ecode r). split; [reflexivity | exact V].
Qed.
Theorem C52_thread_detach : forall n l s i r e x, run l (t_init n) = Some s -> nth_error (recs s) i = Some r -> In (ADetach i) l -> op r = OEnd e x -> e = 0 /\ x = None.
Proof.
  intros n l s i r e x R E J O. destruct (calls _ _ _ _ _ R E) as (_ & C). specialize (C J). rewrite O in C. cbn in C.
  destruct e; try contradiction. destruct x; [contradiction|]. auto.
Qed.
(** A failed create leaves nothing behind and no thread. *)
Theorem C52_thread_create_fails : forall n l s i r e x, run l (t_init n) = Some s -> nth_error (recs s) i = Some r -> op r = OEnd e x -> e <> 0 ->
  wp r = WNone /\ got r = false /\ released r.
Proof.
  intros n l s i r e x R E O N. pose proof (i_ok _ _ _ (run_inv0 _ _ _ R) _ _ E) as K. unfold rok in K. rewrite O in K. unfold released.
  destruct K as [K|[K|K]]; fin; try congruence; repeat match goal with H : _ = _ |- _ => rewrite H end; auto.
Qed.

(** No deadlock: when nobody inside the library can go on, the only calls in progress are joins of threads
    whose start routine is still running (and a create about to call the kernel). *)
Theorem C52_thread_no_deadlock : forall n s i r, reach n s -> at_rest s -> nth_error (recs s) i = Some r ->
  (wp r = WNone \/ wp r = W472 \/ wp r = WEnd) /\
  (op r = ONone \/ op r = C25 \/ op r = OHave \/ (exists e v, op r = OEnd e v) \/ op r = J47 /\ wp r = W472).
Proof.
  intros n s i r (l & R) A E. pose proof (run_inv0 _ _ _ R) as I.
  assert (L : lk s = None).
  { destruct (lk s) as [[j o]|] eqn:L; [exfalso | reflexivity]. destruct (i_lk _ _ _ I _ _ L) as (q & Ej). pose proof (i_ok _ _ _ I _ _ Ej) as K.
    destruct o.
    - pose proof (proj2 (i_O _ _ _ I _ _ Ej) L) as H. pose proof (A j true) as A1. pose proof (A j false) as A2. cbn in A1, A2. rewrite Ej in A1, A2.
      destruct q as [w o i0 d e h b f c g]. unfold rok, oexec, wexec, use, useh, live, out, signalled, stA, stB, stF in *. rp.
      destruct o; cbn in H; try discriminate; fin; cbn in A1, A2; try discriminate.
    - pose proof (proj2 (i_W _ _ _ I _ _ Ej) L) as H. pose proof (A j false) as A2. cbn in A2. rewrite Ej in A2.
      destruct (act_inv n l s (AStep j false) I) as (y & D & _). cbn in D. rewrite Ej in D.
      destruct q as [w o i0 d e h b f c g]. unfold wexec, use, useh, live, out in *. rp.
      destruct w; cbn in H; try discriminate; repeat match type of A2 with context [if ?b then _ else _] => destruct b end; try discriminate. }
  pose proof (i_ok _ _ _ I _ _ E) as K. pose proof (A i true) as A1. pose proof (A i false) as A2. cbn in A1, A2. rewrite E in A1, A2.
  destruct r as [w o i0 d e h b f c g]. unfold rok, oexec, wexec, use, useh, live, out, signalled, stA, stB, stF, stN in *. rp.
  assert (W : w = WNone \/ w = W472 \/ w = WEnd).
  { destruct w; auto; exfalso; cbn [upd] in A2; rewrite ?L in A2; repeat match type of A2 with context [if ?b then _ else _] => destruct b end; discriminate. }
  split; [exact W|]. rewrite ?L in A1.
  destruct o; auto; try (right; right; right; left; eauto; fail); right; right; right; right; fin; cbn in A1; rewrite ?L in A1; cbn in A1; try discriminate; auto; try contradiction.
Qed.

(** Each call ends within a bounded number of its own steps. *)
Definition wrank (w : wpc) : Z := match w with WNone => 20 | W472 => 10 | W473 _ => 9 | W476 => 8 | W477 => 7 | W478 => 6 | W480 => 5 | W481 => 4 | W483 => 3 | W484 => 2 | WEnd => 0 end.
Definition orank (o : opc) : Z := match o with
  | ONone => 30 | C25 => 28 | C29 => 26 | C32 => 26 | C33 => 20 | OHave => 15 | J39 | D62 => 9 | J47 | D67 => 8 | J49 | D68 => 7 | D70 => 6 | D71 => 5 | J53 | D73 | D77 => 4 | J56 _ | D79 => 2 | OEnd _ _ => 0 end.
Definition rank (r : rec) : Z := wrank (wp r) + orank (op r).
Lemma rank_pos : forall r, 0 <= rank r <= 50. Proof. intros [w o]. unfold rank. cbn [wp op]. destruct w, o; cbn; lia. Qed.
Theorem C52_thread_bounded : forall n l1 l2 s s', run l1 (t_init n) = Some s -> run l2 s = Some s' -> Z.of_nat (length l2) <= 50 * Z.of_nat n.
Proof.
  intros n l1 l2 s s' R1 R2. assert (B : lsum rank (recs s) <= 50 * zlen (recs s)).
  { clear. induction (recs s) as [|p l IH]; [reflexivity|]. cbn [lsum]. rewrite zlen_cons. pose proof (rank_pos p). lia. }
  pose proof (run_inv0 _ _ _ R1) as I. unfold zlen in B. rewrite (i_len _ _ _ I) in B.
  assert (G : Z.of_nat (length l2) + lsum rank (recs s') <= lsum rank (recs s)).
  { clear R1 B. revert l1 s R2 I. induction l2 as [|a l2 IH]; intros l1 s R2 I; cbn in R2; [injection R2 as <-; cbn; lia|].
    destruct (do_act a s) as [[s1|]| | |] eqn:D; try discriminate. destruct (act_inv n l1 s a I) as (y & D' & I1). rewrite D in D'. injection D' as <-.
    specialize (IH _ _ R2 I1). cbn [length]. enough (lsum rank (recs s1) < lsum rank (recs s)) by lia.
    assert (U : forall i r o x, nth_error (recs s) i = Some r -> upd s i o x = Ret (Some s1) ->
      (forall r' q, x = Ret (Some (r', q)) -> rank r' < rank r) -> lsum rank (recs s1) < lsum rank (recs s)).
    { intros i r o x E Q P. destruct x as [[(r', q)|]| | |]; try discriminate. specialize (P _ _ eq_refl).
      assert (Y : recs s1 = lset i r' (recs s)) by (cbn in Q; destruct q; [| destruct (lk s); [discriminate|] |]; injection Q as <-; reflexivity).
      rewrite Y, (lsum_lset _ _ _ _ _ E). lia. }
    destruct a; cbn [do_act] in D; (destruct (nth_error (recs s) i) as [r|] eqn:E; [|discriminate]); (eapply U; [exact E | exact D|]); intros r' q X;
      unfold rank; pose proof (i_ok _ _ _ I _ _ E) as K; unfold rok, stN in K.
    - destruct o.
      + unfold oexec, use, useh, out in X. destruct (op r) eqn:O; try discriminate; repeat match type of X with context [if ?b then _ else _] => destruct b end; try discriminate;
        injection X as <- <-; cbn [wp op set_op set_wp set_hnull set_got set_det do_free do_close set_frees set_closes orank]; try lia.
        destruct K as ((-> & _) & _). cbn. lia.
      + unfold wexec, use, useh, out in X. destruct (wp r) eqn:W; try discriminate; repeat match type of X with context [if ?b then _ else _] => destruct b end; try discriminate;
        injection X as <- <-; cbn [wp op set_op set_wp set_ecode set_id0 do_free do_close set_frees set_closes wrank]; lia.
    - destruct (op r) eqn:O; try discriminate. destruct ok; injection X as <- <-; cbn; lia.
    - destruct (op r) eqn:O; try discriminate. unfold use, out in X. destruct ok, (live r); try discriminate; injection X as <- <-; cbn; lia.
    - destruct (wp r) eqn:W; try discriminate. unfold use, out in X. destruct (live r); try discriminate; injection X as <- <-; cbn; lia.
    - destruct (op r) eqn:O; try discriminate. injection X as <- <-; cbn; lia.
    - destruct (op r) eqn:O; try discriminate. injection X as <- <-; cbn; lia. }
  pose proof (lsum_nonneg rank (recs s') (fun _ q _ => proj1 (rank_pos q))). lia.
Qed.

(** One join or detach per thread: a second one, once the thread has ended, reads freed memory. *)
Theorem C52_thread_second_call : forall n s i r v, reach n s -> nth_error (recs s) i = Some r -> op r = OEnd 0 v -> wp r = WEnd ->
  oexec (set_op r J39) = Ub /\ oexec (set_op r D62) = Ub.
Proof.
  intros n s i r v (l & R) E O W. pose proof (i_ok _ _ _ (run_inv0 _ _ _ R) _ _ E) as K. unfold rok, stB, stF in K. rewrite O, W in K.
  assert (F : frees r = 1) by (fin; auto). unfold oexec, use, live. cbn. rewrite F. cbn. rewrite andb_false_r. auto.
Qed.
Print Assumptions C52_thread_safe.
Print Assumptions C52_thread_released_once.
Print Assumptions C52_thread_join_value.
Print Assumptions C52_thread_detach.
Print Assumptions C52_thread_create_fails.
Print Assumptions C52_thread_no_deadlock.
Print Assumptions C52_thread_bounded.
Print Assumptions C52_thread_second_call.

(** 0 is created and joined before its routine returns 7; 1 is created, ends, and is then detached; 2 fails;
    3 is detached while it runs and then ends *)
Fixpoint St (i : nat) (o : bool) (k : nat) : list act := match k with O => [] | S k => AStep i o :: St i o k end.
Definition create (i : nat) : list act := [ACreate i true; ACreateThread i true; AStep i true; AStep i true].
Definition demo : list act :=
  create 0 ++ AJoin 0 :: St 0 true 1 ++ create 1 ++ [AReturn 1 (-4)] ++ St 1 false 6 ++ ADetach 1 :: St 1 true 7 ++
  [ACreate 2 true; ACreateThread 2 false; AStep 2 true] ++ AReturn 0 7 :: St 0 false 6 ++ St 0 true 4 ++
  create 3 ++ ADetach 3 :: St 3 true 5 ++ AReturn 3 9 :: St 3 false 8.
Definition final (l : list act) (n : nat) : tst := match run l (t_init n) with Some s => s | None => t_init n end.
Example C52_thread_demo : run demo (t_init 4) = Some (final demo 4) /\
  map op (recs (final demo 4)) = [OEnd 0 (Some 7); OEnd 0 None; OEnd (-1) None; OEnd 0 None] /\
  map frees (recs (final demo 4)) = [1; 1; 1; 1] /\ map closes (recs (final demo 4)) = [1; 1; 0; 1] /\ map wp (recs (final demo 4)) = [WEnd; WEnd; WNone; WEnd].
Proof. split; [vm_compute; reflexivity|]. split; [vm_compute; reflexivity|]. split; [vm_compute; reflexivity|]. split; vm_compute; reflexivity. Qed.

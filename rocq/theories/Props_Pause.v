(** C58: thpool_pause and thpool_resume *)
From Verif Require Import CBase ThreadLib PauseModel.

(** a pool is paused when all its workers wait in the handler *)
Definition paused (p : nat) (s : hst) : Prop := hold s = true /\ forall t w, nth_error (ws s) t = Some w -> pool w = p -> md w = H261.
Definition releases (a : act) : bool := match a with AResume _ | AInit => true | _ => false end.
Lemma nth_map_inv : forall A B (f : A -> B) l n b, nth_error (map f l) n = Some b -> exists a, nth_error l n = Some a /\ b = f a.
Proof. intros A B f l n b H. rewrite nth_error_map in H. destruct (nth_error l n) as [a|]; [|discriminate]. injection H as <-. eauto. Qed.
Lemma lset_inv : forall A (l : list A) n x m a y, nth_error l n = Some y -> nth_error (lset n x l) m = Some a -> (m = n /\ a = x) \/ (m <> n /\ nth_error l m = Some a).
Proof. intros A l n x m a y E H. destruct (Nat.eq_dec m n) as [->|N]; [rewrite (lset_eq _ _ _ _ E) in H; injection H as <-; auto | rewrite lset_ne in H by exact N; auto]. Qed.
Lemma paused_step : forall p a s s', paused p s -> releases a = false -> step a s = Some s' -> paused p s' /\ (forall t w, hlog s' = t :: hlog s -> nth_error (ws s) t = Some w -> pool w <> p).
Proof.
  intros p a s s' (H & P) R E. assert (NX : forall (h : list nat) x, h <> x :: h) by (intros h x X; apply (f_equal (@length nat)) in X; cbn in X; lia).
  destruct a as [t|t|t|q|q|]; try discriminate; cbn [step] in E.
  - destruct (nth_error (ws s) t) as [[wp wq []]|] eqn:W; try discriminate. injection E as <-. split; [split; [exact H | exact P]|]. intros u w L U. cbn [hlog] in L. injection L as ->. intros Q. specialize (P u w U Q).
    rewrite U in W. injection W as ->. discriminate.
  - destruct (nth_error (ws s) t) as [[wp [] []]|] eqn:W; try discriminate. injection E as <-. split; [|intros u w L; exfalso; eapply NX; exact L]. split; [exact H|]. cbn [set_w ws].
    intros u w U Q. apply (lset_inv _ _ _ _ _ _ _ W) in U. destruct U as [(-> & ->)|(_ & U)]; [|eauto]. specialize (P t _ W Q). discriminate.
  - destruct (nth_error (ws s) t) as [[wp wq []]|] eqn:W; try discriminate.
    + injection E as <-. split; [|intros u w L; exfalso; eapply NX; exact L]. split; [reflexivity|]. cbn [ws]. intros u w U Q. apply (lset_inv _ _ _ _ _ _ _ W) in U. destruct U as [(-> & ->)|(_ & U)]; [reflexivity | eauto].
    + rewrite H in E. discriminate.
  - injection E as <-. split; [|intros u w L; exfalso; eapply NX; exact L]. split; [exact H|]. cbn [ws]. intros u w U Q. apply nth_map_inv in U. destruct U as (w0 & U & ->).
    destruct (Nat.eqb (pool w0) q); cbn [pool md] in *; eauto.
Qed.
Lemma pool_step : forall a s s' t w', step a s = Some s' -> nth_error (ws s') t = Some w' -> exists w, nth_error (ws s) t = Some w /\ pool w = pool w'.
Proof.
  intros a s s' t w' E N. destruct a as [u|u|u|q|q|]; cbn [step] in E; try (injection E as <-; cbn [ws] in N; eauto; fail).
  - destruct (nth_error (ws s) u) as [[wp wq []]|] eqn:W; try discriminate. injection E as <-. cbn [ws] in N. eauto.
  - destruct (nth_error (ws s) u) as [[wp [] []]|] eqn:W; try discriminate. injection E as <-. cbn [set_w ws] in N. apply (lset_inv _ _ _ _ _ _ _ W) in N. destruct N as [(-> & ->)|(_ & N)]; eauto.
  - destruct (nth_error (ws s) u) as [[wp wq []]|] eqn:W; try discriminate; [|destruct (hold s); [discriminate|]]; injection E as <-; cbn [set_w ws] in N; apply (lset_inv _ _ _ _ _ _ _ W) in N; destruct N as [(-> & ->)|(_ & N)]; eauto.
  - injection E as <-. cbn [ws] in N. apply nth_map_inv in N. destruct N as (w0 & N & ->). exists w0. split; [exact N|]. destruct (Nat.eqb (pool w0) q); reflexivity.
Qed.
Lemma log_step : forall a s s', step a s = Some s' -> hlog s' = hlog s \/ exists t, hlog s' = t :: hlog s.
Proof.
  intros a s s' E. destruct a as [u|u|u|q|q|]; cbn [step] in E; try (injection E as <-; auto; fail).
  - destruct (nth_error (ws s) u) as [[wp wq []]|]; try discriminate. injection E as <-. right. exists u. reflexivity.
  - destruct (nth_error (ws s) u) as [[wp [] []]|]; try discriminate. injection E as <-. auto.
  - destruct (nth_error (ws s) u) as [[wp wq []]|]; try discriminate; [|destruct (hold s); [discriminate|]]; injection E as <-; auto.
Qed.
(** Once a pool is paused, its workers execute no step of a job, whatever anybody does (more signals, pauses, other
    pools), until somebody calls thpool_resume or thpool_init. *)
Theorem C58_paused_stays : forall p l s s', paused p s -> forallb (fun a => negb (releases a)) l = true -> run l s = Some s' ->
  paused p s' /\ exists new, hlog s' = new ++ hlog s /\ forall t w, In t new -> nth_error (ws s) t = Some w -> pool w <> p.
Proof.
  intros p. induction l as [|a l IH]; intros s s' P F R; cbn [run forallb] in *; [injection R as <-; split; [exact P|]; exists []; split; [reflexivity | contradiction]|].
  destruct (step a s) as [s1|] eqn:E; [|discriminate]. apply andb_prop in F. destruct F as (F1 & F2). apply negb_true_iff in F1.
  destruct (paused_step p a s s1 P F1 E) as (P1 & L1). destruct (IH s1 s' P1 F2 R) as (P2 & new & L2 & N2). split; [exact P2|].
  assert (Back : forall t w, nth_error (ws s) t = Some w -> exists w1, nth_error (ws s1) t = Some w1 /\ pool w1 = pool w).
  { intros t w W. assert (Len : length (ws s1) = length (ws s)).
    { clear -E. destruct a as [u|u|u|q|q|]; cbn [step] in E; try (injection E as <-; cbn [ws]; rewrite ?map_length; reflexivity);
        destruct (nth_error (ws s) u) as [[wp [] []]|]; try discriminate; try (destruct (hold s); try discriminate); injection E as <-; cbn [set_w ws]; rewrite ?lset_length; reflexivity. }
    destruct (nth_error (ws s1) t) as [w1|] eqn:W1; [|apply nth_error_None in W1; rewrite Len in W1; apply nth_error_None in W1; congruence].
    exists w1. split; [reflexivity|]. destruct (pool_step a s s1 t w1 E W1) as (w' & W' & Q). congruence. }
  destruct (log_step a s s1 E) as [L|(t & L)]; rewrite L in L2.
  - exists new. split; [exact L2|]. intros u w I W. destruct (Back u w W) as (w1 & W1 & <-). eauto.
  - exists (new ++ [t]). split; [rewrite L2, <- app_assoc; reflexivity|]. intros u w I W. apply in_app_or in I. destruct I as [I|[<-|[]]]; [|eauto].
    destruct (Back u w W) as (w1 & W1 & <-). eauto.
Qed.

(** Pausing reaches exactly the pool: workers of a pool that was never paused are never stopped. *)
Definition pauses (p : nat) (a : act) : bool := match a with APause q => Nat.eqb q p | _ => false end.
Theorem C58_other_pools_run : forall p ps l s, forallb (fun a => negb (pauses p a)) l = true -> run l (start ps) = Some s ->
  forall t w, nth_error (ws s) t = Some w -> pool w = p -> md w = Run /\ pend w = false.
Proof.
  intros p ps l s. assert (K : forall l s s', (forall t w, nth_error (ws s) t = Some w -> pool w = p -> md w = Run /\ pend w = false) -> forallb (fun a => negb (pauses p a)) l = true -> run l s = Some s' ->
    forall t w, nth_error (ws s') t = Some w -> pool w = p -> md w = Run /\ pend w = false).
  { clear. induction l as [|a l IH]; intros s s' I F R; cbn [run forallb] in *; [injection R as <-; exact I|]. apply andb_prop in F. destruct F as (F1 & F2). destruct (step a s) as [s1|] eqn:E; [|discriminate].
    apply (IH s1 s'); [|exact F2 | exact R]. intros t w W Q. destruct a as [u|u|u|q|q|]; cbn [step] in E; try (injection E as <-; eauto; fail).
    - destruct (nth_error (ws s) u) as [[wp wq []]|]; try discriminate. injection E as <-. eauto.
    - destruct (nth_error (ws s) u) as [[wp [] []]|] eqn:U; try discriminate. injection E as <-. cbn [set_w ws] in W. apply (lset_inv _ _ _ _ _ _ _ U) in W. destruct W as [(-> & ->)|(_ & W)]; [|eauto]. destruct (I u _ U Q) as (_ & X). discriminate.
    - destruct (nth_error (ws s) u) as [[wp wq []]|] eqn:U; try discriminate; [|destruct (hold s); [discriminate|]]; injection E as <-; cbn [set_w ws] in W; apply (lset_inv _ _ _ _ _ _ _ U) in W; (destruct W as [(-> & ->)|(_ & W)]; [|eauto]);
        destruct (I u _ U Q) as (X & _); discriminate.
    - injection E as <-. cbn [ws] in W. apply nth_map_inv in W. destruct W as (w0 & W & ->). cbn [pauses] in F1. destruct (Nat.eqb (pool w0) q) eqn:B; [|eauto]. cbn [pool] in Q. subst p. rewrite Nat.eqb_sym, B in F1. discriminate. }
  intros F R. apply (K l (start ps) s); auto. intros t w W _. cbn [start ws] in W. apply nth_map_inv in W. destruct W as (q & _ & ->). auto.
Qed.

(** A pause comes into force: when nobody can take a step of the handler or receive a signal any more, a pool whose
    workers were all signalled is paused. *)
Definition settled (s : hst) : Prop := forall t, step (ASignal t) s = None /\ step (AHandler t) s = None.
Definition quiet (a : act) : bool := match a with AWork _ | ASignal _ | AHandler _ => true | _ => false end.
Definition stopping (p : nat) (s : hst) : Prop := forall t w, nth_error (ws s) t = Some w -> pool w = p -> pend w = true \/ md w = H260 \/ (md w = H261 /\ hold s = true).
Theorem C58_pause : forall p s l s' s'', step (APause p) s = Some s' -> forallb quiet l = true -> run l s' = Some s'' -> settled s'' ->
  (exists t w, nth_error (ws s) t = Some w /\ pool w = p) -> paused p s''.
Proof.
  intros p s l s' s'' E F R St (t0 & w0 & W0 & Q0).
  assert (K : forall l s s', stopping p s -> forallb quiet l = true -> run l s = Some s' -> stopping p s').
  { clear. induction l as [|a l IH]; intros s s' I F R; cbn [run forallb] in *; [injection R as <-; exact I|]. apply andb_prop in F. destruct F as (F1 & F2). destruct (step a s) as [s1|] eqn:E; [|discriminate].
    apply (IH s1 s'); [|exact F2 | exact R]. intros t w W Q. destruct a as [u|u|u|q|q|]; try discriminate; cbn [step] in E.
    - destruct (nth_error (ws s) u) as [[wp wq []]|]; try discriminate. injection E as <-. exact (I t w W Q).
    - destruct (nth_error (ws s) u) as [[wp [] []]|] eqn:U; try discriminate. injection E as <-. cbn [set_w ws hold] in *. apply (lset_inv _ _ _ _ _ _ _ U) in W. destruct W as [(-> & ->)|(_ & W)]; [auto | exact (I t w W Q)].
    - destruct (nth_error (ws s) u) as [[wp wq []]|] eqn:U; try discriminate.
      + injection E as <-. cbn [ws hold] in *. apply (lset_inv _ _ _ _ _ _ _ U) in W. destruct W as [(-> & ->)|(_ & W)]; [auto|]. destruct (I t w W Q) as [X|[X|(X & _)]]; auto.
      + destruct (hold s) eqn:Hd; [discriminate|]. injection E as <-. cbn [set_w ws hold] in *. apply (lset_inv _ _ _ _ _ _ _ U) in W. destruct W as [(-> & ->)|(_ & W)].
        * destruct (I u _ U Q) as [X|[X|(_ & X)]]; cbn in X; [left; exact X | discriminate | congruence].
        * destruct (I t w W Q) as [X|[X|(_ & X)]]; auto. congruence. }
  assert (S0 : stopping p s').
  { cbn [step] in E. injection E as <-. intros t w W Q. cbn [ws] in W. apply nth_map_inv in W. destruct W as (w1 & W & ->). destruct (Nat.eqb (pool w1) p) eqn:B; [left; reflexivity|]. apply Nat.eqb_neq in B. contradiction. }
  pose proof (K l s' s'' S0 F R) as S2.
  assert (Len : forall l s s', run l s = Some s' -> forall t w, nth_error (ws s) t = Some w -> exists w', nth_error (ws s') t = Some w' /\ pool w' = pool w).
  { clear. induction l as [|a l IH]; intros s s' R t w W; cbn [run] in R; [injection R as <-; eauto|]. destruct (step a s) as [s1|] eqn:E; [|discriminate].
    assert (Len : length (ws s1) = length (ws s)).
    { clear -E. destruct a as [u|u|u|q|q|]; cbn [step] in E; try (injection E as <-; cbn [ws]; rewrite ?map_length; reflexivity);
        destruct (nth_error (ws s) u) as [[wp [] []]|]; try discriminate; try (destruct (hold s); try discriminate); injection E as <-; cbn [set_w ws]; rewrite ?lset_length; reflexivity. }
    destruct (nth_error (ws s1) t) as [w1|] eqn:W1; [|apply nth_error_None in W1; rewrite Len in W1; apply nth_error_None in W1; congruence].
    destruct (pool_step a s s1 t w1 E W1) as (w' & W' & Q). destruct (IH s1 s' R t w1 W1) as (w2 & W2 & Q2). exists w2. split; [exact W2 | congruence]. }
  assert (All : forall t w, nth_error (ws s'') t = Some w -> pool w = p -> md w = H261 /\ hold s'' = true).
  { intros t w W Q. destruct (St t) as (A & B). cbn [step] in A, B. rewrite W in A, B. destruct w as [wp [] []]; cbn in *; try discriminate; destruct (S2 t _ W Q) as [X|[X|(X & Y)]]; cbn in *; try discriminate; try (split; [reflexivity|]);
      try exact Y; destruct (hold s''); congruence. }
  assert (X : exists w, nth_error (ws s'') t0 = Some w /\ pool w = p).
  { destruct (Len l s' s'' R t0 (mk_w (pool w0) true (md w0))) as (w & W & Q).
    - cbn [step] in E. injection E as <-. cbn [ws]. rewrite nth_error_map, W0. cbn. subst p. rewrite Nat.eqb_refl. reflexivity.
    - exists w. split; [exact W | cbn in Q; congruence]. }
  destruct X as (w & W & Q). split; [exact (proj2 (All t0 w W Q))|]. intros t w' W' Q'. apply (All t w' W' Q').
Qed.

(** Resuming: if no signal is pending or just being taken, after thpool_resume (and until the next pause) every
    worker, once the handlers have gone on, runs again. *)
Definition no_signal (s : hst) : Prop := forall t w, nth_error (ws s) t = Some w -> pend w = false /\ md w <> H260.
Theorem C58_resume : forall p s l s' s'', no_signal s -> step (AResume p) s = Some s' -> forallb quiet l = true -> run l s' = Some s'' -> settled s'' ->
  hold s'' = false /\ forall t w, nth_error (ws s'') t = Some w -> md w = Run.
Proof.
  intros p s l s' s'' N E F R St.
  assert (K : forall l s s', no_signal s -> hold s = false -> forallb quiet l = true -> run l s = Some s' -> no_signal s' /\ hold s' = false).
  { clear. induction l as [|a l IH]; intros s s' I H F R; cbn [run forallb] in *; [injection R as <-; auto|]. apply andb_prop in F. destruct F as (F1 & F2). destruct (step a s) as [s1|] eqn:E; [|discriminate].
    assert (X : no_signal s1 /\ hold s1 = false); [|destruct X; apply (IH s1 s'); auto].
    destruct a as [u|u|u|q|q|]; try discriminate; cbn [step] in E.
    - destruct (nth_error (ws s) u) as [[wp wq []]|]; try discriminate. injection E as <-. auto.
    - destruct (nth_error (ws s) u) as [[wp [] []]|] eqn:U; try discriminate. destruct (I u _ U) as (X & _). discriminate.
    - destruct (nth_error (ws s) u) as [[wp wq []]|] eqn:U; try discriminate; [destruct (I u _ U) as (_ & X); cbn in X; congruence|]. rewrite H in E. injection E as <-. split; [|exact H]. cbn [set_w ws].
      intros t w W. apply (lset_inv _ _ _ _ _ _ _ U) in W. destruct W as [(-> & ->)|(_ & W)]; [|eauto]. destruct (I u _ U) as (X & _). cbn in *. split; [exact X | discriminate]. }
  cbn [step] in E. injection E as <-. destruct (K l _ s'' (N : no_signal (mk_h false (ws s) (hlog s))) eq_refl F R) as (N2 & H2). split; [exact H2|].
  intros t w W. destruct (St t) as (_ & B). cbn [step] in B. rewrite W, H2 in B. destruct w as [wp wq []]; [reflexivity | discriminate | discriminate].
Qed.

(** ** What is not true *)
Definition final (l : list act) (s : hst) : hst := match run l s with Some s' => s' | None => s end.
(** A resume that overtakes a signal is lost: the worker stops after it, for good *)
Theorem C58_resume_lost_refuted : exists l s, run l (start [1%nat]) = Some s /\ l = [APause 1; AResume 1; ASignal 0; AHandler 0] /\ settled s /\ paused 1 s.
Proof.
  exists [APause 1; AResume 1; ASignal 0; AHandler 0], (final [APause 1; AResume 1; ASignal 0; AHandler 0] (start [1%nat])). split; [reflexivity|]. split; [reflexivity|]. split.
  - intros [|[|t]]; vm_compute; split; reflexivity.
  - split; [reflexivity|]. intros [|[|t]] w W; vm_compute in W; [injection W as <-; reflexivity | discriminate | discriminate].
Qed.
(** two pauses need two resumes *)
Theorem C58_pause_twice_refuted : exists l s, run l (start [1%nat]) = Some s /\ l = [APause 1; ASignal 0; AHandler 0; APause 1; AResume 1; AHandler 0; ASignal 0; AHandler 0] /\ settled s /\ paused 1 s.
Proof.
  set (l := [APause 1; ASignal 0; AHandler 0; APause 1; AResume 1; AHandler 0; ASignal 0; AHandler 0]). exists l, (final l (start [1%nat])). split; [reflexivity|]. split; [reflexivity|]. split.
  - intros [|[|t]]; vm_compute; split; reflexivity.
  - split; [reflexivity|]. intros [|[|t]] w W; vm_compute in W; [injection W as <-; reflexivity | discriminate | discriminate].
Qed.
(** Resuming one pool, or merely creating another one, resumes every pool *)
Theorem C58_resume_other_refuted : forall a, a = AResume 2 \/ a = AInit -> exists l1 s1 s2, run l1 (start [1%nat; 2%nat]) = Some s1 /\ paused 1 s1 /\ paused 2 s1 /\
  run [a; AHandler 0; AWork 0] s1 = Some s2 /\ hlog s2 = [0%nat].
Proof.
  intros a A. set (l := [APause 1; APause 2; ASignal 0; AHandler 0; ASignal 1; AHandler 1]). exists l, (final l (start [1%nat; 2%nat])), (final [a; AHandler 0; AWork 0] (final l (start [1%nat; 2%nat]))). split; [reflexivity|].
  split; [split; [reflexivity|]; intros [|[|[|t]]] w W; vm_compute in W; try discriminate; injection W as <-; reflexivity|].
  split; [split; [reflexivity|]; intros [|[|[|t]]] w W; vm_compute in W; try discriminate; injection W as <-; reflexivity|]. destruct A as [-> | ->]; split; reflexivity.
Qed.
Print Assumptions C58_paused_stays.
Print Assumptions C58_other_pools_run.
Print Assumptions C58_pause.
Print Assumptions C58_resume.
Print Assumptions C58_resume_lost_refuted.
Print Assumptions C58_pause_twice_refuted.
Print Assumptions C58_resume_other_refuted.
(** a pause of pool 1 (workers 0 and 1) while pool 2 works on, then a resume *)
Definition d1 : list act := [ASignal 0; AWork 2; AWork 1; AHandler 0; ASignal 1; AWork 2; AHandler 1].
Example C58_demo : exists s1 s2 s3, step (APause 1) (start [1; 1; 2]%nat) = Some s1 /\ run d1 s1 = Some s2 /\ forallb quiet d1 = true /\ settled s2 /\ paused 1 s2 /\ hlog s2 = [2; 1; 2]%nat /\ no_signal s2 /\
  run [AResume 1; AHandler 1; AHandler 0; AWork 0] s2 = Some s3 /\ settled s3 /\ hlog s3 = [0; 2; 1; 2]%nat.
Proof.
  exists (final [APause 1] (start [1; 1; 2]%nat)), (final (APause 1 :: d1) (start [1; 1; 2]%nat)), (final (APause 1 :: d1 ++ [AResume 1; AHandler 1; AHandler 0; AWork 0]) (start [1; 1; 2]%nat)).
  split; [reflexivity|]. split; [reflexivity|]. split; [reflexivity|]. split; [intros [|[|[|[|t]]]]; vm_compute; split; reflexivity|].
  split; [split; [reflexivity|]; intros [|[|[|[|t]]]] w W Q; vm_compute in W; try discriminate; injection W as <-; try reflexivity; discriminate|].
  split; [reflexivity|]. split; [intros [|[|[|[|t]]]] w W; vm_compute in W; try discriminate; injection W as <-; split; try reflexivity; discriminate|].
  split; [reflexivity|]. split; [intros [|[|[|[|t]]]]; vm_compute; split; reflexivity | reflexivity].
Qed.

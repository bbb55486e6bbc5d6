(** The invariant of mutexes with static initialisation. *)
From Verif Require Import CBase ThreadLib LazyModel LazySpec.

Definition crit (p : pc) : bool := match p with L132 | L136 | L98 | L103 _ | L104 _ | L140 _ => true | _ => false end.
Definition phA (s : mst) : Prop := is_mark (cell s) = true /\ objs s = [].
Definition phB (s : mst) : Prop := is_mark (cell s) = true /\ objs s = [None].
Definition phC (s : mst) : Prop := is_mark (cell s) = true /\ objs s = [Some None].
Definition phD (s : mst) : Prop := cell s = Obj 0 /\ exists x, objs s = [Some x].
Definition tfact (s : mst) (t : nat) (p : pc) : Prop :=
  match p with
  | L132 => phA s \/ phD s
  | L98 => phA s
  | L103 i => i = O /\ phB s
  | L104 i => i = O /\ phC s
  | L136 | L146 => phD s
  | L140 r => r = 0 /\ phD s \/ r = ENOMEM /\ phA s
  | L147 i => i = O /\ phD s
  | U153 | U157 | U161 => phD s /\ inside_cs s = Some t
  | U162 i => i = O /\ phD s /\ inside_cs s = Some t
  | _ => True
  end.
Definition link (s : mst) : Prop :=
  (exists u k, phD s /\ objs s = [Some (Some (u, k))] /\ 1 <= k /\ depth u (mlog s) = k /\ forall t, t <> u -> depth t (mlog s) = 0) \/
  (inside_cs s = None /\ forall t, depth t (mlog s) = 0).
Record inv (s : mst) : Prop := {
  i_lk : forall t p, nth_error (pcs s) t = Some p -> (crit p = true <-> ilk s = Some t);
  i_lk2 : forall t, ilk s = Some t -> exists p, nth_error (pcs s) t = Some p;
  i_free : ilk s = None -> phA s \/ phD s;
  i_ph : phA s \/ phB s \/ phC s \/ phD s;
  i_t : forall t p, nth_error (pcs s) t = Some p -> tfact s t p;
  i_link : link s;
  i_legal : legal (mlog s) }.

Ltac mp := cbn [cell objs ilk pcs mlog set_cell set_objs set_ilk set_pc emit] in *.

(** a step of thread t from p to p' *)
Record frame (s s' : mst) (t : nat) (p p' : pc) : Prop := {
  f_pcs : pcs s' = lset t p' (pcs s);
  f_lk : (ilk s' = ilk s /\ crit p' = crit p) \/ (ilk s = None /\ ilk s' = Some t /\ crit p' = true /\ cell s' = cell s /\ objs s' = objs s)
         \/ (ilk s' = None /\ crit p = true /\ crit p' = false /\ (phA s' \/ phD s'));
  f_free : cell s' = cell s /\ objs s' = objs s \/ crit p = true \/ phD s';
  f_ph : phA s' \/ phB s' \/ phC s' \/ phD s';
  f_t : tfact s' t p';
  f_other : (phD s -> phD s') /\ (forall u, u <> t -> inside_cs s = Some u -> inside_cs s' = Some u);
  f_crit : crit p = false -> cell s' = cell s /\ objs s' = objs s \/ phD s;
  f_link : link s';
  f_legal : legal (mlog s') }.
Lemma frame_inv : forall s s' t p p', inv s -> nth_error (pcs s) t = Some p -> frame s s' t p p' -> inv s'.
Proof.
  intros s s' t p p' I E F. pose proof (i_lk _ I _ _ E) as L0. destruct (f_other _ _ _ _ _ F) as (FD & FI).
  constructor; rewrite ?(f_pcs _ _ _ _ _ F).
  - intros u q E'. rewrite (lset_nth _ _ _ _ _ E) in E'. destruct (Nat.eq_dec u t) as [->|N].
    + injection E' as <-. destruct (f_lk _ _ _ _ _ F) as [(-> & ->)|[(A & B & C & _)|(A & B & C & _)]]; [exact L0 | rewrite B, C; tauto | rewrite A, C; split; discriminate].
    + pose proof (i_lk _ I _ _ E') as L. destruct (f_lk _ _ _ _ _ F) as [(-> & _)|[(A & B & C & _)|(A & B & C & _)]]; [exact L | rewrite L, A, B; split; congruence|].
      apply L0 in B. rewrite L, A, B. split; congruence.
  - intros u L. rewrite (lset_nth _ _ _ _ _ E). destruct (Nat.eq_dec u t) as [->|N]; [eauto|]. apply (i_lk2 _ I).
    destruct (f_lk _ _ _ _ _ F) as [(<- & _)|[(A & B & _)|(A & _)]]; congruence.
  - intros L. destruct (f_lk _ _ _ _ _ F) as [(A & B)|[(A & B & _)|(_ & _ & _ & X)]]; [|congruence | exact X].
    rewrite A in L. pose proof (i_free _ I L) as X. destruct (f_free _ _ _ _ _ F) as [(C & D)|[C|C]]; [unfold phA, phD in *; rewrite C, D; exact X | apply L0 in C; congruence | auto].
  - apply (f_ph _ _ _ _ _ F).
  - intros u q E'. rewrite (lset_nth _ _ _ _ _ E) in E'. destruct (Nat.eq_dec u t) as [->|N]; [injection E' as <-; apply (f_t _ _ _ _ _ F)|].
    pose proof (i_t _ I _ _ E') as T. destruct (crit q) eqn:Q.
    + assert (NP : crit p = false). { destruct (crit p) eqn:P; [|reflexivity]. pose proof (proj1 L0 eq_refl). pose proof (proj1 (i_lk _ I _ _ E') Q). congruence. }
      destruct (f_crit _ _ _ _ _ F NP) as [(A & B)|D].
      * destruct q; try discriminate; cbn [tfact] in *; unfold phA, phB, phC, phD in *; rewrite A, B; exact T.
      * specialize (FD D). destruct D as (D1 & x & D2). destruct q; try discriminate; cbn [tfact] in *; unfold phA, phB, phC in *; rewrite ?D1, ?D2 in T; cbn in T;
          try (exfalso; intuition congruence); intuition congruence.
    + destruct q; try discriminate; cbn [tfact] in *; intuition.
  - apply (f_link _ _ _ _ _ F).
  - apply (f_legal _ _ _ _ _ F).
Qed.

(** Lists indexed by thread number, and sums over all threads. *)
From Verif Require Import CBase.

Section Threads.
Context {A : Type}.
Implicit Types (l : list A) (f : A -> Z).

Fixpoint lset (n : nat) (x : A) (l : list A) : list A :=
  match l, n with [], _ => [] | _ :: r, O => x :: r | a :: r, S n => a :: lset n x r end.
Fixpoint lsum (f : A -> Z) (l : list A) : Z := match l with [] => 0 | a :: r => f a + lsum f r end.

Lemma lset_length : forall l n x, length (lset n x l) = length l.
Proof. induction l; intros [|n] x; cbn; auto. Qed.
Lemma lset_zlen : forall l n x, zlen (lset n x l) = zlen l.
Proof. intros. unfold zlen. rewrite lset_length. reflexivity. Qed.
Lemma lset_eq : forall l n x a, nth_error l n = Some a -> nth_error (lset n x l) n = Some x.
Proof. induction l; intros [|n] x b H; cbn in *; try discriminate; eauto. Qed.
Lemma lset_ne : forall l n m x, m <> n -> nth_error (lset n x l) m = nth_error l m.
Proof. induction l; intros [|n] [|m] x H; cbn in *; try congruence; auto. Qed.
Lemma lset_nth : forall l n m x a, nth_error l n = Some a ->
  nth_error (lset n x l) m = if Nat.eq_dec m n then Some x else nth_error l m.
Proof.
  intros. destruct (Nat.eq_dec m n) as [->|N]; [eapply lset_eq; eauto | apply lset_ne; auto].
Qed.
Lemma lset_same : forall l n a, nth_error l n = Some a -> lset n a l = l.
Proof. induction l; intros [|n] b H; cbn in *; try discriminate; [congruence | f_equal; auto]. Qed.
Lemma lset_lset : forall l n a b, lset n a (lset n b l) = lset n a l.
Proof. induction l; intros [|n] b c; cbn; auto. f_equal. auto. Qed.

Lemma lsum_lset : forall f l n a b, nth_error l n = Some a -> lsum f (lset n b l) = lsum f l - f a + f b.
Proof.
  induction l; intros [|n] b c H; cbn in *; try discriminate; [injection H as ->; lia|]. rewrite (IHl n b c H). lia.
Qed.
Lemma lsum_nonneg : forall f l, (forall n a, nth_error l n = Some a -> 0 <= f a) -> 0 <= lsum f l.
Proof.
  induction l; intros H; cbn; [lia|]. pose proof (H 0%nat a eq_refl). pose proof (IHl (fun n => H (S n))). lia.
Qed.
Lemma lsum_member : forall f l n a, (forall n a, nth_error l n = Some a -> 0 <= f a) -> nth_error l n = Some a -> f a <= lsum f l.
Proof.
  induction l; intros [|n] b H E; cbn in *; try discriminate.
  - injection E as ->. pose proof (lsum_nonneg f l (fun n => H (S n))). lia.
  - pose proof (IHl n b (fun n => H (S n)) E). pose proof (H 0%nat a eq_refl). lia.
Qed.
Lemma lsum_pos : forall f l, 0 < lsum f l -> exists n a, nth_error l n = Some a /\ 0 < f a.
Proof.
  induction l; intros H; cbn in H; [lia|]. destruct (Z_lt_le_dec 0 (f a)) as [P|P].
  - exists 0%nat, a. auto.
  - destruct IHl as (n & b & E & Q); [lia|]. exists (S n), b. auto.
Qed.
Lemma lsum_ext : forall f g l, (forall n a, nth_error l n = Some a -> f a = g a) -> lsum f l = lsum g l.
Proof.
  induction l; intros H; cbn; [reflexivity|]. rewrite (H 0%nat a eq_refl), (IHl (fun n => H (S n))). reflexivity.
Qed.
Lemma lsum_le : forall f g l, (forall n a, nth_error l n = Some a -> f a <= g a) -> lsum f l <= lsum g l.
Proof.
  induction l; intros H; cbn; [lia|]. pose proof (H 0%nat a eq_refl). pose proof (IHl (fun n => H (S n))). lia.
Qed.
Lemma lsum_le_zlen : forall f l, (forall n a, nth_error l n = Some a -> f a <= 1) -> lsum f l <= zlen l.
Proof.
  induction l; intros H; [change (zlen (@nil A)) with 0; cbn; lia|]. rewrite zlen_cons. cbn. pose proof (H 0%nat a eq_refl). pose proof (IHl (fun n => H (S n))). lia.
Qed.
Lemma lsum_zero : forall f l, (forall n a, nth_error l n = Some a -> f a = 0) -> lsum f l = 0.
Proof.
  induction l; intros H; cbn; [lia|]. rewrite (H 0%nat a eq_refl), (IHl (fun n => H (S n))). reflexivity.
Qed.
(** only thread n contributes *)
Lemma lsum_only : forall f l n a, nth_error l n = Some a -> (forall m b, m <> n -> nth_error l m = Some b -> f b = 0) -> lsum f l = f a.
Proof.
  induction l; intros [|n] b E H; cbn in *; try discriminate.
  - injection E as ->. rewrite lsum_zero; [lia|]. intros m c Q. apply (H (S m) c); auto.
  - rewrite (H 0%nat a) by auto. rewrite (IHl n b); auto. intros m c N Q. apply (H (S m) c); auto.
Qed.
Lemma lsum_add : forall f g l, lsum (fun a => f a + g a) l = lsum f l + lsum g l.
Proof. induction l; cbn; lia. Qed.
Lemma nth_error_repeat : forall n (x a : A) m, nth_error (repeat x n) m = Some a -> a = x.
Proof. induction n; intros x a [|m] H; cbn in *; try discriminate; [congruence | eauto]. Qed.
End Threads.

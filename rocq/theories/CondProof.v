(** History lemmas for the condition variable. *)
From Verif Require Import CBase ThreadLib CondModel CondSpec.

Definition grant (h : list ev) : Z := if pending h <? zlen (waiters h) then 1 else 0.
Fixpoint grants (h : list ev) : Z :=
  match h with [] => 0 | ESignal _ :: h | EBcast _ :: h => grant h + grants h | _ :: h => grants h end.
Fixpoint since (t : nat) (h : list ev) : Z :=
  match h with
  | [] => 0
  | EWait u :: h => if Nat.eq_dec t u then 0 else since t h
  | ESignal _ :: h | EBcast _ :: h => grant h + since t h
  | _ :: h => since t h
  end.

Lemma grant01 : forall h, 0 <= grant h <= 1.
Proof. intros. unfold grant. destruct (_ <? _); lia. Qed.
Lemma since_bounds : forall t h, 0 <= since t h <= grants h.
Proof.
  induction h as [|e h IH]; cbn; [lia|]. pose proof (grant01 h). destruct e; try lia. destruct (Nat.eq_dec t t0); lia.
Qed.
Lemma grants_notifies : forall h, grants h <= notifies h.
Proof. induction h as [|e h IH]; cbn; [lia|]. pose proof (grant01 h). destruct e; lia. Qed.
Lemma notifies_pos : forall h, 0 <= notifies h.
Proof. induction h as [|e h IH]; cbn; [lia|]. destruct e; lia. Qed.

Lemma remove_len : forall t l, NoDup l -> In t l -> zlen (remove Nat.eq_dec t l) = zlen l - 1.
Proof.
  induction l as [|a l IH]; intros N I; [contradiction|]. inversion N; subst. cbn [remove]. rewrite (zlen_cons a l).
  destruct (Nat.eq_dec t a) as [->|D].
  - rewrite notin_remove by auto. lia.
  - rewrite zlen_cons, IH; auto; [lia|]. destruct I; [congruence | auto].
Qed.
Lemma nodup_remove : forall t l, NoDup l -> NoDup (remove Nat.eq_dec t l).
Proof.
  induction l as [|a l IH]; intros N; cbn; [constructor|]. inversion N; subst. destruct (Nat.eq_dec t a); [auto|].
  constructor; auto. intros I. apply in_remove in I. tauto.
Qed.
Lemma waiters_nodup : forall h, legal h -> NoDup (waiters h).
Proof.
  induction h as [|e h IH]; cbn; [constructor|]. destruct e; intros L; auto.
  - destruct L. constructor; auto.
  - apply nodup_remove. tauto.
Qed.

Lemma signalled_since : forall h t, legal h -> In t (waiters h) -> (signalled t h <-> 0 < since t h).
Proof.
  induction h as [|e h IH]; intros t L I; [contradiction|]. destruct e; cbn in *.
  - destruct L as (L & N). destruct (Nat.eq_dec t t0) as [->|D]; [split; [tauto|lia]|].
    destruct I as [I|I]; [congruence|]. rewrite <- (IH t L I). tauto.
  - specialize (IH t L I). pose proof (since_bounds t h). unfold grant. destruct (pending h <? zlen (waiters h)) eqn:G.
    + split; [lia|]. intros _. left. split; [lia | exact I].
    + rewrite Z.add_0_l. rewrite <- IH. split; [|tauto]. intros [(X & _)|X]; [lia | exact X].
  - specialize (IH t L I). pose proof (since_bounds t h). unfold grant. destruct (pending h <? zlen (waiters h)) eqn:G.
    + split; [lia|]. intros _. left. split; [lia | exact I].
    + rewrite Z.add_0_l. rewrite <- IH. split; [|tauto]. intros [(X & _)|X]; [lia | exact X].
  - apply in_remove in I. apply IH; tauto.
  - apply IH; auto.
Qed.

(** the waiters a wake-up can reach *)
Definition ready (h : list ev) (l : list nat) : list nat := filter (fun t => 0 <? since t h) l.
Lemma ready_all : forall h l, (forall t, In t l -> 0 < since t h) -> ready h l = l.
Proof.
  induction l as [|a l IH]; intros H; [reflexivity|]. cbn. destruct (0 <? since a h) eqn:E.
  - f_equal. apply IH. intros. apply H. right. auto.
  - specialize (H a (or_introl eq_refl)). lia.
Qed.
Lemma ready_ext : forall h h' l, (forall t, In t l -> since t h = since t h') -> ready h l = ready h' l.
Proof.
  induction l as [|a l IH]; intros H; [reflexivity|]. cbn. rewrite (H a (or_introl eq_refl)).
  fold (ready h l) (ready h' l). rewrite IH; [reflexivity|]. intros. apply H. right. auto.
Qed.
Lemma ready_remove : forall h t l, NoDup l -> In t l -> 0 < since t h -> zlen (ready h (remove Nat.eq_dec t l)) = zlen (ready h l) - 1.
Proof.
  induction l as [|a l IH]; intros N I P; [contradiction|]. inversion N; subst. cbn [remove ready filter].
  destruct (Nat.eq_dec t a) as [->|D].
  - rewrite notin_remove by auto. assert (E : (0 <? since a h) = true) by lia. rewrite E, zlen_cons. fold (ready h l). lia.
  - destruct I as [I|I]; [congruence|]. cbn [filter]. fold (ready h l) (ready h (remove Nat.eq_dec t l)).
    destruct (0 <? since a h); [rewrite !zlen_cons|]; rewrite IH; auto; lia.
Qed.
Lemma zlen_pos : forall A (l : list A), 0 <= zlen l.
Proof. intros. unfold zlen. lia. Qed.
Lemma ready_le : forall h l, zlen (ready h l) <= zlen l.
Proof.
  induction l as [|a l IH]; [cbn; change (zlen (@nil nat)) with 0; lia|]. cbn. fold (ready h l). rewrite (zlen_cons a l).
  destruct (0 <? since a h); [rewrite zlen_cons; lia | lia].
Qed.

(** never more wake-ups granted than waiters that can use them *)
Lemma pending_bound : forall h, legal h -> 0 <= pending h <= zlen (ready h (waiters h)).
Proof.
  induction h as [|e h IH]; intros L; [cbn; change (zlen (@nil nat)) with 0; lia|]. destruct e.
  - cbn [legal] in L. destruct L as (L & N). cbn [pending waiters ready filter].
    assert (E : (0 <? since t (EWait t :: h)) = false).
    { cbn. destruct (Nat.eq_dec t t); [reflexivity | congruence]. }
    rewrite E. fold (ready (EWait t :: h) (waiters h)).
    rewrite (ready_ext (EWait t :: h) h); [auto|]. intros u I. cbn. destruct (Nat.eq_dec u t); [congruence | reflexivity].
  - cbn [legal] in L. specialize (IH L). cbn [pending waiters]. destruct (pending h <? zlen (waiters h)) eqn:G.
    + rewrite ready_all; [lia|]. intros u I. cbn. unfold grant. rewrite G. pose proof (since_bounds u h). lia.
    + rewrite (ready_ext (ESignal t :: h) h); [lia|]. intros u I. cbn. unfold grant. rewrite G. lia.
  - cbn [legal] in L. specialize (IH L). cbn [pending waiters]. split; [apply zlen_pos|].
    destruct (pending h <? zlen (waiters h)) eqn:G.
    + rewrite ready_all; [lia|]. intros u I. cbn. unfold grant. rewrite G. pose proof (since_bounds u h). lia.
    + rewrite (ready_ext (EBcast t :: h) h); [lia|]. intros u I. cbn. unfold grant. rewrite G. lia.
  - cbn [legal] in L. destruct L as (L & I & P & Sg). specialize (IH L). cbn [pending waiters].
    rewrite (ready_ext (EWake t :: h) h) by reflexivity.
    rewrite ready_remove; [lia | apply waiters_nodup; auto | auto | apply signalled_since; auto].
  - cbn [legal] in L. cbn [pending waiters]. rewrite (ready_ext (ERet t :: h) h) by reflexivity. auto.
Qed.
Lemma pending_le : forall h, legal h -> 0 <= pending h <= zlen (waiters h).
Proof. intros h L. pose proof (pending_bound h L). pose proof (ready_le h (waiters h)). lia. Qed.

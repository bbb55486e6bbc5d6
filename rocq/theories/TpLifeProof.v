(** Blocks owned since a starting state *)
From Coq Require Import Permutation.
From Verif Require Import CBase LifeModel TpLifeModel TpLifeSpec.
Open Scope nat_scope.

Fixpoint assoc (b : nat) (L : list (nat * block)) : option block := match L with [] => None | (c, k) :: L => if Nat.eqb c b then Some k else assoc b L end.
Definition own (s0 s : st) (L : list (nat * block)) : Prop :=
  nxt s0 <= nxt s /\ NoDup (map fst L) /\ (forall b, In b (map fst L) -> nxt s0 <= b < nxt s) /\
  forall b, hp s b = match assoc b L with Some k => Some k | None => hp s0 b end.
Lemma assoc_none b L : ~ In b (map fst L) -> assoc b L = None.
Proof. induction L as [|[c k] L IH]; intro H; [reflexivity|]. cbn in *. destruct (Nat.eqb_spec c b) as [->|N]; [tauto|apply IH; tauto]. Qed.
Lemma assoc_in b k L : NoDup (map fst L) -> (assoc b L = Some k <-> In (b, k) L).
Proof.
  induction L as [|[c x] L IH]; intro ND; [cbn; split; [discriminate|tauto]|]. cbn [map fst] in ND. inversion_clear ND as [|? ? N1 N2]. cbn [assoc In]. destruct (Nat.eqb_spec c b) as [->|N].
  - split; [intros [= ->]; auto|]. intros [[= ->]|I]; [auto|]. exfalso. apply N1. apply (in_map fst) in I. exact I.
  - rewrite (IH N2). split; [auto|]. intros [[= ]|I]; [congruence|auto].
Qed.
Lemma assoc_perm L L' : Permutation L L' -> NoDup (map fst L) -> forall b, assoc b L = assoc b L'.
Proof.
  intros P ND b. assert (ND' : NoDup (map fst L')) by (eapply Permutation_NoDup; [apply Permutation_map; exact P|auto]).
  destruct (assoc b L) as [k|] eqn:E.
  - symmetry. apply assoc_in; auto. eapply Permutation_in; [exact P|]. apply assoc_in; auto.
  - destruct (assoc b L') as [k|] eqn:E'; [|auto]. apply assoc_in in E'; auto. apply Permutation_sym in P. apply (Permutation_in _ P) in E'. apply assoc_in in E'; auto. congruence.
Qed.
Lemma own_perm s0 s L L' : own s0 s L -> Permutation L L' -> own s0 s L'.
Proof.
  intros (A & B & C & D) P. split; [auto|]. split; [eapply Permutation_NoDup; [apply Permutation_map; exact P|auto]|]. split.
  - intros b I. apply C. eapply Permutation_in; [apply Permutation_sym, Permutation_map; exact P|auto].
  - intro b. rewrite D, (assoc_perm L L' P B). reflexivity.
Qed.
Lemma own_here s0 s b k L : own s0 s ((b, k) :: L) -> hp s b = Some k.
Proof. intros (_ & _ & _ & D). rewrite D. cbn. rewrite Nat.eqb_refl. reflexivity. Qed.
Lemma own_set s0 s b k k' L : own s0 s ((b, k) :: L) -> own s0 (mk_s (orc s) (upd (hp s) b (Some k')) (nxt s)) ((b, k') :: L).
Proof.
  intros (A & B & C & D). split; [auto|]. split; [auto|]. split; [auto|]. intro c. cbn [hp assoc]. unfold upd. rewrite D. cbn [assoc]. rewrite (Nat.eqb_sym c b). destruct (Nat.eqb b c); reflexivity.
Qed.
Lemma own_del s0 s b k L : wf s0 -> own s0 s ((b, k) :: L) -> own s0 (mk_s (orc s) (upd (hp s) b None) (nxt s)) L.
Proof.
  intros W (A & B & C & D). cbn [map fst] in B. inversion_clear B as [|? ? N1 N2]. split; [auto|]. split; [auto|]. split; [intros c I; apply C; right; auto|]. intro c. cbn [hp]. unfold upd. rewrite (Nat.eqb_sym c b). destruct (Nat.eqb_spec b c) as [->|N].
  - rewrite assoc_none by auto. symmetry. apply W. apply (C c). left. reflexivity.
  - rewrite D. cbn [assoc]. destruct (Nat.eqb_spec b c); [congruence|reflexivity].
Qed.
Lemma own_new s0 s k L : own s0 s L -> own s0 (mk_s (orc s) (upd (hp s) (nxt s) (Some k)) (S (nxt s))) ((nxt s, k) :: L).
Proof.
  intros (A & B & C & D). split; [cbn; lia|]. split; [cbn; constructor; [intro I; apply C in I; lia|auto]|]. split.
  - cbn [map fst nxt]. intros b [<-|I]; [lia|apply C in I; lia].
  - intro c. cbn [hp assoc]. unfold upd. rewrite D, (Nat.eqb_sym c). destruct (Nat.eqb (nxt s) c); reflexivity.
Qed.
Lemma own_orc s0 s L o : own s0 s L -> own s0 (mk_s o (hp s) (nxt s)) L. Proof. intro H. exact H. Qed.
(** ** rules; the block used is found anywhere in the list *)
Lemma own_mid s0 s A B x : own s0 s (A ++ x :: B) -> own s0 s (x :: A ++ B).
Proof. intro H. eapply own_perm; [exact H|]. symmetry. apply Permutation_middle. Qed.
Lemma own_mid' s0 s A B x : own s0 s (x :: A ++ B) -> own s0 s (A ++ x :: B).
Proof. intro H. eapply own_perm; [exact H|]. apply Permutation_middle. Qed.
Lemma r_load s0 s A B b m c o i v : own s0 s (A ++ (b, mk_b m c) :: B) -> nth_error c (o + i) = Some v -> v <> VU -> load (VP b o) i s = Ret (v, s).
Proof. intros O N V. apply own_mid, own_here in O. unfold load. rewrite O. cbn [cells]. rewrite N. destruct v; congruence. Qed.
Lemma r_store s0 s A B b m c o i v c' : own s0 s (A ++ (b, mk_b m c) :: B) -> lput (o + i) v c = Some c' ->
  exists s', store (VP b o) i v s = Ret (tt, s') /\ own s0 s' (A ++ (b, mk_b m c') :: B) /\ orc s' = orc s.
Proof.
  intros O N. apply own_mid in O. pose proof (own_here _ _ _ _ _ O) as H. unfold store. rewrite H. cbn [cells mine]. rewrite N. eexists. split; [reflexivity|]. split; [|reflexivity]. apply own_mid'. eapply own_set. exact O.
Qed.
Lemma r_free s0 s A B b c : wf s0 -> own s0 s (A ++ (b, mk_b true c) :: B) -> exists s', free_ (VP b 0) s = Ret (tt, s') /\ own s0 s' (A ++ B) /\ orc s' = orc s.
Proof.
  intros W O. apply own_mid in O. pose proof (own_here _ _ _ _ _ O) as H. unfold free_. rewrite H. eexists. split; [reflexivity|]. split; [|reflexivity]. eapply own_del; eauto.
Qed.
Lemma r_fresh s0 s L m c : own s0 s L -> exists b s', fresh m c s = Ret (VP b 0, s') /\ own s0 s' ((b, mk_b m c) :: L) /\ orc s' = orc s.
Proof. intro O. eexists _, _. split; [reflexivity|]. split; [apply own_new; exact O|reflexivity]. Qed.
Lemma r_tick s0 s L : own s0 s L -> exists s', tick s = Ret (fst (nxt_answer (orc s)), s') /\ own s0 s' L /\ orc s' = snd (nxt_answer (orc s)).
Proof. intro O. unfold tick. destruct (orc s) as [|b o] eqn:E; eexists; (split; [reflexivity|]); cbn; auto. Qed.
Lemma r_malloc s0 s L n : own s0 s L -> exists v s', malloc_ n s = Ret (v, s') /\ orc s' = snd (nxt_answer (orc s)) /\
  if fst (nxt_answer (orc s)) then exists b, v = VP b 0 /\ own s0 s' ((b, mk_b true (repeat VU n)) :: L) else v = V0 /\ own s0 s' L.
Proof.
  intro O. unfold malloc_, bnd. destruct (r_tick s0 s L O) as (s1 & -> & O1 & E1). destruct (fst (nxt_answer (orc s))).
  - destruct (r_fresh s0 s1 L true (repeat VU n) O1) as (b & s2 & E & O2 & E2). exists (VP b 0), s2. split; [exact E|]. split; [congruence|]. exists b. auto.
  - exists V0, s1. split; [reflexivity|]. auto.
Qed.
Lemma own_start s : own s s []. Proof. split; [lia|]. split; [constructor|]. split; [intros b []|]. intro b. reflexivity. Qed.
Lemma bnd_ret {A B} (m : M A) (f : A -> M B) s a s1 : m s = Ret (a, s1) -> bnd m f s = f a s1.
Proof. intro E. unfold bnd. rewrite E. reflexivity. Qed.
(** ** synchronisation objects: on Windows each is a block no one frees *)
Definition junk (W : list nat) : list (nat * block) := map (fun b => (b, mk_b true [VI 0])) W.
Definition wn (win : bool) (n : nat) : nat := if win then n else 0.
Lemma r_mutex win s0 s A B b m c o i : own s0 s (A ++ (b, mk_b m c) :: B) -> o + i < length c ->
  exists s' W c', mutex_init win (VP b o) i s = Ret (tt, s') /\ own s0 s' (A ++ (b, mk_b m c') :: B ++ junk W) /\ orc s' = orc s /\ length W = wn win 1 /\
    length c' = length c /\ (exists v, v <> VU /\ lput (o + i) v c = Some c').
Proof.
  intros O L. assert (LP : forall v, exists c', lput (o + i) v c = Some c' /\ length c' = length c).
  { intro v. clear O. revert L. generalize (o + i). induction c as [|a c IH]; intros n H; [cbn in H; lia|]. destruct n as [|n]; [eexists; split; reflexivity|]. cbn in H. destruct (IH n ltac:(lia)) as (c' & E & E2). exists (a :: c'). cbn. rewrite E. split; [reflexivity|congruence]. }
  unfold mutex_init. destruct win.
  - destruct (r_fresh s0 s _ true [VI 0] O) as (x & s1 & E1 & O1 & Q1). destruct (LP (VP x 0)) as (c' & EC & LC).
    destruct (r_store s0 s1 ((x, mk_b true [VI 0]) :: A) B b m c o i (VP x 0) c' O1 EC) as (s2 & E2 & O2 & Q2).
    exists s2, [x], c'. rewrite (bnd_ret _ _ _ _ _ E1). split; [exact E2|]. split; [|split; [congruence|split; [reflexivity|split; [auto|]]]].
    + eapply own_perm; [exact O2|]. cbn [junk map app]. rewrite (app_comm_cons B), (app_assoc A). apply (Permutation_app_comm [(x, mk_b true [VI 0])] (A ++ (b, mk_b m c') :: B)).
    + exists (VP x 0). split; [discriminate|auto].
  - destruct (LP (VI 0)) as (c' & EC & LC). destruct (r_store s0 s A B b m c o i (VI 0) c' O EC) as (s2 & E2 & O2 & Q2). exists s2, [], c'. split; [exact E2|]. rewrite app_nil_r. split; [auto|]. split; [auto|]. split; [reflexivity|]. split; [auto|]. exists (VI 0). split; [discriminate|auto].
Qed.

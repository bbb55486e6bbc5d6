(** Invariants of the thread pool: locks, roles, counters. *)
From Verif Require Import CBase ThpoolModel ThpoolSpec.

Lemma upd_eq f t p : upd_pc f t p t = p.
Proof. unfold upd_pc. now rewrite Nat.eqb_refl. Qed.
Lemma upd_ne f t p u : u <> t -> upd_pc f t p u = f u.
Proof. unfold upd_pc. intros H. destruct (Nat.eqb_spec u t); congruence. Qed.

Definition hold_rw (p : pc) : bool :=
  match p with
  | B545 _ | B546 _ | B547 _ | B548 _ | P485 | P487 _ | P493 _ | P494 _ | P495 _ | P499 _ | P500 _ | P507 _
  | A457 _ _ | A459 _ _ | A462 _ _ | A463 _ _ | A467 _ _ | A472 _ _ | A475 _ _ => true | _ => false end.
Definition hold_tc (p : pc) : bool :=
  match p with T366 | T367 | T378 | T379 | T393 | T394 | T395 | T397 | X400 | X401 | Q210 | Q210b | Q211 | Q213 => true | _ => false end.
Definition hold_bm (p : pc) : bool :=
  match p with B546 _ | B547 _ | B548 _ | W564 | W565 | W567 | W568 | D555 | D556 | D557 => true | _ => false end.
Definition is_worker (p : pc) : bool :=
  match p with
  | B545 (BPush None _) | B546 (BPush None _) | B547 (BPush None _) | B548 (BPush None _) => false
  | Cidle | A190 None | A456 None _ | A457 None _ | A459 None _ | A462 None _ | A463 None _ | A467 None _ | A472 None _ | A475 None _ | A203 None _ => false
  | Q209 | Q210 | Q210b | Q211 | Qblk | Qwoken | Q213 | Q214 => false
  | D225 | D232 | D554 | D555 | D556 | D557 | D245 => false
  | _ => true end.

(** a step seen from the thread that makes it *)
Inductive lstep (N : nat) (W : nat -> Prop) (t : nat) (s : sh) : pc -> sh -> pc -> Prop :=
| l_exec : forall p s' p', exec t p s = Ret (Some (s', p')) -> lstep N W t s p s' p'
| l_sig : forall b, lstep N W t s (B547 b) s (B548 b)
| l_all : lstep N W t s T395 s T397
| l_bc : lstep N W t s D556 s D557
| l_up : forall p, alv s = Z.of_nat N -> up s = false -> lstep N W t s p (set_up s true) p
| l_spur : lstep N W t s Wblk s Wwoken
| l_spurq : lstep N W t s Qblk s Qwoken
| l_add : (N <= t)%nat -> up s = true -> keep s = true -> lstep N W t s Cidle s (A190 None)
| l_addj : forall j, keep s = true -> lstep N W t s (Trun j) s (A190 (Some j))
| l_wait : (N <= t)%nat -> W t -> up s = true -> keep s = true -> lstep N W t s Cidle (emit s (ECall t)) Q209
| l_destroy : (N <= t)%nat -> up s = true -> keep s = true -> lstep N W t s Cidle s D225.
Definition sim (p q : pc) : Prop := p = q \/ (p = Wblk /\ q = Wwoken) \/ (p = Qblk /\ q = Qwoken).

Lemma step_local N W x y : step N W x y ->
  exists t, lstep N W t (shr x) (pcs x t) (shr y) (pcs y t) /\ forall u, u <> t -> sim (pcs x u) (pcs y u).
Proof.
  intros (_ & [H|H]); inversion H; subst; clear H; cbn [shr pcs].
  - exists t. rewrite upd_eq. split; [now apply l_exec|]. intros u Hu. rewrite upd_ne by easy. now left.
  - exists t. rewrite upd_eq, H0. split; [now apply l_sig|]. intros v Hv. rewrite upd_ne by easy.
    destruct (Nat.eq_dec v u) as [->|]; [rewrite upd_eq; right; left; auto|rewrite upd_ne by easy; now left].
  - exists t. rewrite upd_eq, H0. split; [now apply l_sig|]. intros u Hu. rewrite upd_ne by easy. now left.
  - exists t. rewrite upd_eq, H0. split; [now apply l_all|]. intros v Hv. rewrite upd_ne by easy.
    destruct (Nat.eq_dec v u) as [->|]; [rewrite upd_eq; right; right; auto|rewrite upd_ne by easy; now left].
  - exists t. rewrite upd_eq, H0. split; [now apply l_all|]. intros u Hu. rewrite upd_ne by easy. now left.
  - exists t. rewrite upd_eq, H0. split; [now apply l_bc|]. intros u Hu. rewrite upd_ne by easy. unfold sim. destruct (pcs x u); auto.
  - exists 0%nat. split; [now apply l_up|]. now left.
  - exists t. rewrite upd_eq, H0. split; [now apply l_spur|]. intros u Hu. rewrite upd_ne by easy. now left.
  - exists t. rewrite upd_eq, H0. split; [now apply l_spurq|]. intros u Hu. rewrite upd_ne by easy. now left.
  - exists t. rewrite upd_eq, H1. split; [now apply l_add|]. intros u Hu. rewrite upd_ne by easy. now left.
  - exists t. rewrite upd_eq, H0. split; [now apply l_addj|]. intros u Hu. rewrite upd_ne by easy. now left.
  - exists t. rewrite upd_eq, H2. split; [now apply l_wait|]. intros u Hu. rewrite upd_ne by easy. now left.
  - exists t. rewrite upd_eq, (H1 t H0). split; [now apply l_destroy|]. intros u Hu. rewrite upd_ne by easy. now left.
Qed.
Lemma sim_f {X} (f : pc -> X) p q : f Wblk = f Wwoken -> f Qblk = f Qwoken -> sim p q -> f q = f p.
Proof. intros A B [-> | [[-> ->] | [-> ->]]]; congruence. Qed.

(** case analysis of a local step *)
Ltac exec_cases H :=
  match type of H with exec ?t ?p ?s = _ =>
    destruct p; cbn [exec] in H; unfold lock, goto, run_of in H;
    repeat match type of H with
           | (match ?a with _ => _ end) = _ => let F := fresh "F" in destruct a eqn:F
           | Ret (Some (_, match ?a with _ => _ end)) = _ => let F := fresh "F" in destruct a eqn:F
           end; try discriminate H; injection H as <- <- end.
(* L : lstep N W t (shr x) (pcs x t) (shr y) (pcs y t): replace all four by variables *)
Ltac lcases L x y t :=
  let E := fresh "Ex" in let E' := fresh "Ey" in let s := fresh "s" in let s' := fresh "s'" in let p := fresh "p" in let p' := fresh "p'" in
  remember (pcs x t) as p eqn:E in *; remember (pcs y t) as p' eqn:E' in *;
  remember (shr x) as s in *; remember (shr y) as s' in *;
  destruct L; [ match goal with HH : exec _ _ _ = _ |- _ => exec_cases HH end | .. ].

Record locks (x : state) : Prop := mk_locks {
  l_rw : forall u, hold_rw (pcs x u) = true <-> rw (shr x) = Some u;
  l_tc : forall u, hold_tc (pcs x u) = true <-> tc (shr x) = Some u;
  l_bm : forall u, hold_bm (pcs x u) = true <-> bm (shr x) = Some u }.

Definition lk (get : sh -> option nat) (hold : pc -> bool) (x : state) : Prop := forall u, hold (pcs x u) = true <-> get (shr x) = Some u.
Lemma lk_step N W get hold x y : hold Wblk = hold Wwoken -> hold Qblk = hold Qwoken ->
  (forall t s p s' p', lstep N W t s p s' p' -> (hold p = true <-> get s = Some t) ->
     (hold p' = true <-> get s' = Some t) /\ (get s' = get s \/ get s = None /\ get s' = Some t \/ get s = Some t /\ get s' = None)) ->
  lk get hold x -> step N W x y -> lk get hold y.
Proof.
  intros E1 E2 K I H. destruct (step_local _ _ _ _ H) as (t & L & O). destruct (K _ _ _ _ _ L (I t)) as (A & B).
  intros u. destruct (Nat.eq_dec u t) as [->|Hu]; [exact A|].
  rewrite (sim_f hold _ _ E1 E2 (O u Hu)), (I u). intuition congruence.
Qed.
Ltac lk_tac := intros t s p s' p' L I; destruct L; [match goal with HH : exec _ _ _ = _ |- _ => exec_cases HH end|..]; cbn in *; intuition congruence.
Lemma locks_step N W x y : locks x -> step N W x y -> locks y.
Proof.
  intros [A B C] H. split.
  - revert A H. apply lk_step; [reflexivity..|]. lk_tac.
  - revert B H. apply lk_step; [reflexivity..|]. lk_tac.
  - revert C H. apply lk_step; [reflexivity..|]. lk_tac.
Qed.
Lemma locks_0 N : locks (start N).
Proof. split; intros u; cbn [start shr pcs rw tc bm]; destruct (u <? N)%nat; cbn; intuition discriminate. Qed.

(** roles *)
Definition roles (N : nat) (x : state) : Prop := forall t, is_worker (pcs x t) = (t <? N)%nat.
Ltac ldes L := destruct L; [match goal with HH : exec _ _ _ = _ |- _ => exec_cases HH end|..].
Lemma lstep_worker N W t s p s' p' : lstep N W t s p s' p' -> is_worker p' = is_worker p.
Proof. intros L. ldes L; cbn; try reflexivity; try (destruct b; reflexivity); repeat match goal with o : option nat |- _ => destruct o; try reflexivity end; discriminate. Qed.
Lemma roles_step N W x y : roles N x -> step N W x y -> roles N y.
Proof.
  intros I H. destruct (step_local _ _ _ _ H) as (t & L & O). intros u. rewrite <- (I u). destruct (Nat.eq_dec u t) as [->|Hu].
  - eapply lstep_worker, L.
  - apply sim_f; auto.
Qed.
Lemma roles_0 N : roles N (start N).
Proof. intros t. cbn [start pcs]. now destruct (t <? N)%nat. Qed.

(** counters *)
Definition inA (p : pc) : bool := is_worker p && match p with T365 | T366 | X401 | Xend => false | _ => true end.
Definition inW (p : pc) : bool :=
  match p with
  | B545 b | B546 b | B547 b | B548 b => match b with BPush None _ => false | _ => true end
  | A190 (Some _) | A456 (Some _) _ | A457 (Some _) _ | A459 (Some _) _ | A462 (Some _) _ | A463 (Some _) _ | A467 (Some _) _ | A472 (Some _) _
  | A475 (Some _) _ | A203 (Some _) _ => true
  | T379 | P484 | P485 | P487 _ | P493 _ | P494 _ | P495 _ | P499 _ | P500 _ | P507 _ | T388 _ | Trun _ | T389 _ | T392 | T393 => true
  | _ => false end.
Definition b2z (b : bool) : Z := if b then 1 else 0.
Fixpoint cnt (f : pc -> bool) (g : nat -> pc) (n : nat) : Z := match n with O => 0 | S n => b2z (f (g n)) + cnt f g n end.
Lemma cnt_ext f g g' n : (forall i, (i < n)%nat -> f (g' i) = f (g i)) -> cnt f g' n = cnt f g n.
Proof. induction n as [|n IH]; intros H; cbn; [reflexivity|]. rewrite H, IH by lia || (intros; apply H; lia). reflexivity. Qed.
Lemma cnt_one f g g' t n : (t < n)%nat -> (forall i, i <> t -> f (g' i) = f (g i)) -> cnt f g' n = cnt f g n - b2z (f (g t)) + b2z (f (g' t)).
Proof.
  induction n as [|n IH]; intros Ht H; [lia|]. cbn. destruct (Nat.eq_dec t n) as [->|E].
  - rewrite (cnt_ext f g g' n) by (intros; apply H; lia). lia.
  - rewrite IH by (lia || assumption). rewrite (H n) by congruence. lia.
Qed.
Lemma b2z_pos b : 0 <= b2z b <= 1. Proof. destruct b; cbn; lia. Qed.
Lemma cnt_pos f g n : 0 <= cnt f g n <= Z.of_nat n.
Proof. induction n; cbn [cnt]; [lia|]. pose proof (b2z_pos (f (g n))). lia. Qed.
Lemma cnt_in f g n t : (t < n)%nat -> f (g t) = true -> 1 <= cnt f g n.
Proof.
  induction n as [|n IH]; intros H E; [lia|]. cbn. pose proof (b2z_pos (f (g n))). pose proof (cnt_pos f g n).
  destruct (Nat.eq_dec t n) as [->|]; [rewrite E; cbn; lia|]. specialize (IH ltac:(lia) E). lia.
Qed.
Lemma cnt_0 f g n : cnt f g n = 0 -> forall t, (t < n)%nat -> f (g t) = false.
Proof. intros H t Ht. destruct (f (g t)) eqn:E; [|reflexivity]. pose proof (cnt_in f g n t Ht E). lia. Qed.
Lemma cnt_all f g n : cnt f g n = Z.of_nat n -> forall t, (t < n)%nat -> f (g t) = true.
Proof.
  induction n as [|n IH]; intros H t Ht; [lia|]. cbn [cnt] in H. pose proof (b2z_pos (f (g n))). pose proof (cnt_pos f g n).
  destruct (Nat.eq_dec t n) as [->|]; [destruct (f (g n)); [reflexivity|cbn in H; lia]|]. apply IH; lia.
Qed.

Record counts (N : nat) (x : state) : Prop := mk_counts {
  c_alv : alv (shr x) = cnt inA (pcs x) N;
  c_wrk : wrk (shr x) = cnt inW (pcs x) N;
  c_up : up (shr x) = true -> forall t, pcs x t <> T365 /\ pcs x t <> T366 }.
Lemma lstep_alv N W t s p s' p' : lstep N W t s p s' p' -> alv s' - b2z (inA p') = alv s - b2z (inA p).
Proof. intros L. ldes L; unfold inA; cbn; try reflexivity; try lia; try (destruct b; reflexivity); repeat match goal with o : option nat |- _ => destruct o; cbn; try lia end; discriminate. Qed.
Lemma lstep_wrk N W t s p s' p' : lstep N W t s p s' p' -> wrk s' - b2z (inW p') = wrk s - b2z (inW p).
Proof. intros L. ldes L; cbn; try reflexivity; try lia; try (destruct b; reflexivity); repeat match goal with o : option nat |- _ => destruct o; cbn; try lia end; discriminate. Qed.
Lemma inW_worker p : inW p = true -> is_worker p = true.
Proof. destruct p; cbn; try easy; try destruct b; try easy; destruct own; easy. Qed.
Lemma inA_worker p : inA p = true -> is_worker p = true.
Proof. unfold inA. now intros (A & _)%andb_prop. Qed.
Lemma worker_or p (f : pc -> bool) : (f p = true -> is_worker p = true) -> is_worker p = false -> f p = false.
Proof. destruct (f p); intuition congruence. Qed.
Lemma cnt_step N W (f : pc -> bool) (get : sh -> Z) x y :
  f Wblk = f Wwoken -> f Qblk = f Qwoken -> (forall p, f p = true -> is_worker p = true) ->
  (forall t s p s' p', lstep N W t s p s' p' -> get s' - b2z (f p') = get s - b2z (f p)) ->
  roles N x -> get (shr x) = cnt f (pcs x) N -> step N W x y -> get (shr y) = cnt f (pcs y) N.
Proof.
  intros E1 E2 FW K R I H. pose proof (roles_step _ _ _ _ R H) as R'. destruct (step_local _ _ _ _ H) as (t & L & O).
  apply K in L. destruct (Nat.ltb_spec t N) as [Ht|Ht].
  - rewrite (cnt_one f (pcs x) (pcs y) t N Ht) by (intros; apply sim_f; auto). lia.
  - rewrite (cnt_ext f (pcs x) (pcs y) N) by (intros; apply sim_f; auto; apply O; lia).
    assert (F : f (pcs x t) = false /\ f (pcs y t) = false). { split; apply worker_or; auto; rewrite ?(R t), ?(R' t); apply Nat.ltb_ge; lia. }
    destruct F as (F1 & F2). rewrite F1, F2 in L. cbn in L. lia.
Qed.
Lemma counts_step N W x y : roles N x -> counts N x -> step N W x y -> counts N y.
Proof.
  intros R [A B U] H. split.
  - revert A H. apply cnt_step; auto using inA_worker. apply lstep_alv.
  - revert B H. apply cnt_step; auto using inW_worker. apply lstep_wrk.
  - pose proof (roles_step _ _ _ _ R H) as R'. intros Hu t.
    destruct (step_local _ _ _ _ H) as (v & L & O). destruct (up (shr x)) eqn:Eu.
    + destruct (U eq_refl t) as (T1 & T2). destruct (Nat.eq_dec t v) as [->|Hv].
      * remember (pcs x v) as p. remember (pcs y v) as p'. clear - L T1 T2. ldes L; easy.
      * destruct (O t Hv) as [<- | [[_ ->] | [_ ->]]]; easy.
    + assert (alv (shr x) = Z.of_nat N /\ pcs y v = pcs x v) as (Ea & Ev).
      { remember (pcs x v) as p. remember (pcs y v) as p'. remember (shr x) as s. remember (shr y) as s'. clear - L Eu Hu. ldes L; cbn in *; try congruence; auto. }
      rewrite A in Ea. pose proof (cnt_all _ _ _ Ea) as K.
      assert (Q : inA (pcs y t) = inA (pcs x t)). { destruct (Nat.eq_dec t v) as [->|Hv]; [congruence|]. now apply sim_f; [..|apply O]. }
      destruct (Nat.ltb_spec t N) as [Ht|Ht].
      * specialize (K t Ht). rewrite <- Q in K. split; intros E; now rewrite E in K.
      * specialize (R' t). apply Nat.ltb_ge in Ht. rewrite Ht in R'. split; intros E; now rewrite E in R'.
Qed.
Lemma counts_0 N : counts N (start N).
Proof.
  split; cbn [start shr pcs alv wrk up]; [| |discriminate].
  - symmetry. transitivity (cnt inA (fun _ => Cidle) N); [apply cnt_ext; intros; now destruct (i <? N)%nat|]. induction N; cbn; auto.
  - symmetry. transitivity (cnt inW (fun _ => Cidle) N); [apply cnt_ext; intros; now destruct (i <? N)%nat|]. induction N; cbn; auto.
Qed.

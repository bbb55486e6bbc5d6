(** The invariant of the condition variable and its preservation. *)
From Verif Require Import CBase ThreadLib CondModel CondSpec CondProof.

(** holds the internal lock *)
Definition hl (p : pc) : bool :=
  match p with
  | W187 | W188 | W189 _ | W194 _ | W196 _ | W198 _ | W199 _ | W204 _ _ | W211
  | S220 | S223 | S224 | S226 _ | B238 | B241 _ | B242 _ | B244 _ => true
  | _ => false
  end.
(** registered and not woken *)
Definition reg (p : pc) : bool :=
  match p with
  | W188 | W189 _ | W190 _ | W192 _ | W193 _ | W194 _ | W196 _ | W198 _ | W204 _ _ | W205 _ _ => true
  | _ => false
  end.
Definition fr (p : pc) : Z := if reg p then 1 else 0.
Definition f199 (p : pc) : Z := match p with W199 _ => 1 | _ => 0 end.
(** tokens of the semaphore a thread has in hand *)
Definition ftok (p : pc) : Z :=
  match p with
  | W193 _ | W194 _ | W196 _ | W198 _ | S224 => 1
  | W204 _ k | W205 _ k | S226 k | S227 k | B242 k | B244 k | B245 k => k
  | _ => 0
  end.
(** granted in the log, not yet added to mWake *)
Definition fd (p : pc) : Z := match p with S223 => 1 | B241 k => k | _ => 0 end.
(** granted in the log, mGeneration not yet incremented *)
Definition fa (p : pc) : Z := match p with S223 | S224 | B241 _ | B242 _ => 1 | _ => 0 end.
Definition locg (p : pc) : option Z :=
  match p with
  | W189 g | W190 g | W192 g | W193 g | W194 g | W196 g | W198 g | W204 g _ | W205 g _ => Some g
  | _ => None
  end.
Definition val (p : pc) : Prop :=
  match p with
  | W204 _ k | W205 _ k => k = 1
  | S226 k | S227 k => 0 <= k <= 1
  | B241 k | B242 k => 0 < k
  | B244 k | B245 k => 0 <= k
  | _ => True
  end.
Definition crit (s : cst) (t : nat) (p : pc) : Prop :=
  match p with
  | S223 => wake s < waiting s
  | B241 k => k = waiting s - wake s
  | W188 => since t (clog s) = 0
  | W198 _ => signalled t (clog s)
  | _ => True
  end.
(** holds the user mutex / does not hold it *)
Definition hm (p : pc) : bool := match p with W186 | W187 | W188 | W189 _ | W190 _ => true | _ => false end.
Definition nm (p : pc) : bool := inside_wait p && negb (hm p).

Record inv (g0 : Z) (s : cst) : Prop := {
  i_len : zlen (pcs s) < two31;
  i_lck : forall t p, nth_error (pcs s) t = Some p -> (hl p = true <-> lck s = Some t);
  i_lck2 : forall t, lck s = Some t -> exists p, nth_error (pcs s) t = Some p;
  i_val : forall t p, nth_error (pcs s) t = Some p -> val p;
  i_crit : forall t p, nth_error (pcs s) t = Some p -> crit s t p;
  i_mtx : forall t p, nth_error (pcs s) t = Some p -> (hm p = true -> mtx s = Some t) /\ (nm p = true -> mtx s <> Some t);
  i_in : forall t p, nth_error (pcs s) t = Some p -> (In t (waiters (clog s)) <-> reg p = true);
  i_in2 : forall t, In t (waiters (clog s)) -> exists p, nth_error (pcs s) t = Some p;
  i_g : forall t p g, nth_error (pcs s) t = Some p -> locg p = Some g -> g = u64 (g0 + grants (clog s) - since t (clog s));
  i_gen : gen s = u64 (g0 + grants (clog s) - lsum fa (pcs s));
  i_wlen : zlen (waiters (clog s)) = lsum fr (pcs s);
  i_wait : waiting s = lsum fr (pcs s) + lsum f199 (pcs s);
  i_tok : wake s = sem s + lsum ftok (pcs s);
  i_sem : 0 <= sem s;
  i_pend : pending (clog s) = wake s + lsum fd (pcs s);
  i_legal : legal (clog s) }.

Lemma f_nonneg : forall g0 s f, inv g0 s -> f = fr \/ f = f199 \/ f = ftok \/ f = fd \/ f = fa ->
  forall t p, nth_error (pcs s) t = Some p -> 0 <= f p.
Proof.
  intros g0 s f I F t p E. pose proof (i_val _ _ I _ _ E) as V.
  destruct F as [->|[->|[->|[->| ->]]]]; unfold fr; destruct p; cbn in *; lia.
Qed.
(** a function that is zero outside the internal lock *)
Lemma lsum_locked : forall g0 s f t p, inv g0 s -> (forall q, hl q = false -> f q = 0) ->
  nth_error (pcs s) t = Some p -> hl p = true -> lsum f (pcs s) = f p.
Proof.
  intros g0 s f t p I F E H. apply (lsum_only f _ t p E). intros m b N E'. apply F.
  destruct (hl b) eqn:B; [|reflexivity]. apply (i_lck _ _ I _ _ E') in B. apply (i_lck _ _ I _ _ E) in H. congruence.
Qed.
Lemma lsum_unlocked : forall g0 s f, inv g0 s -> (forall q, hl q = false -> f q = 0) -> lck s = None -> lsum f (pcs s) = 0.
Proof.
  intros g0 s f I F L. apply lsum_zero. intros t p E. apply F. destruct (hl p) eqn:B; [|reflexivity].
  apply (i_lck _ _ I _ _ E) in B. congruence.
Qed.
Lemma s199_hl : forall q, hl q = false -> f199 q = 0. Proof. destruct q; cbn; congruence. Qed.
Lemma fd_hl : forall q, hl q = false -> fd q = 0. Proof. destruct q; cbn; congruence. Qed.
Lemma fa_hl : forall q, hl q = false -> fa q = 0. Proof. destruct q; cbn; congruence. Qed.

Record bounds (s : cst) : Prop := {
  b_wake : 0 <= wake s <= waiting s;
  b_wait : waiting s <= zlen (pcs s);
  b_tok : 0 <= lsum ftok (pcs s) }.
Lemma inv_bounds : forall g0 s, inv g0 s -> bounds s.
Proof.
  intros g0 s I. pose proof (pending_le _ (i_legal _ _ I)) as P.
  pose proof (lsum_nonneg ftok (pcs s) (f_nonneg g0 s ftok I ltac:(auto))) as Q1.
  pose proof (lsum_nonneg fd (pcs s) (f_nonneg g0 s fd I ltac:(auto))) as Q2.
  pose proof (lsum_nonneg f199 (pcs s) (f_nonneg g0 s f199 I ltac:(auto))) as Q3.
  assert (Q4 : lsum (fun p => fr p + f199 p) (pcs s) <= zlen (pcs s)).
  { apply lsum_le_zlen. intros t p _. unfold fr. destruct p; cbn; lia. }
  rewrite lsum_add in Q4.
  pose proof (i_pend _ _ I). pose proof (i_wlen _ _ I). pose proof (i_wait _ _ I). pose proof (i_tok _ _ I). pose proof (i_sem _ _ I).
  constructor; lia.
Qed.

Lemma u64_small : forall x, 0 <= x < two64 -> u64 x = x.
Proof. intros. unfold u64. apply Z.mod_small. exact H. Qed.

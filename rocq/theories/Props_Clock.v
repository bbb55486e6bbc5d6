(** C56: the clocks of time_util.c *)
From Verif Require Import CBase ThreadLib ClockModel.

(** ** current_ms *)
(** Windows: until 2038-01-19 exactly the milliseconds since 1970, rounded down *)
Theorem C56_current_ms_win : forall ft, EPOCH <= ft < EPOCH + 2 ^ 31 * UNITS_PER_SEC -> current_ms_win ft = (ft - EPOCH) / 10000.
Proof.
  intros ft F. unfold current_ms_win, gettimeofday_win, current_ms, EPOCH, UNITS_PER_SEC, UNITS_PER_USEC in *. set (x := ft - 116444736000000000) in *.
  assert (X : 0 <= x < 21474836480000000) by (subst x; change (2 ^ 31) with 2147483648 in F; lia). clearbody x. clear F ft.
  unfold u64, s32, two64, two32, two31. rewrite (Z.mod_small x) by lia.
  assert (A : 0 <= x / 10000000 < 2147483648) by (split; [apply Z.div_pos; lia | apply Z.div_lt_upper_bound; lia]).
  assert (B : 0 <= x mod 10000000 < 10000000) by (apply Z.mod_pos_bound; lia).
  assert (C : 0 <= x mod 10000000 / 10 < 1000000) by (split; [apply Z.div_pos; lia | apply Z.div_lt_upper_bound; lia]).
  cbn [fst snd]. rewrite !(Z.mod_small (_ + 2147483648)) by lia.
  replace (x / 10000000 + 2147483648 - 2147483648) with (x / 10000000) by ring. replace (x mod 10000000 / 10 + 2147483648 - 2147483648) with (x mod 10000000 / 10) by ring.
  rewrite (Z.mod_small (x / 10000000)) by lia. rewrite (Z.mod_small (x mod 10000000 / 10)) by lia. rewrite (Z.mod_small (x / 10000000 * 1000)) by lia.
  rewrite Z.div_div by lia. change (10 * 1000) with 10000. assert (0 <= x mod 10000000 / 10000 < 1000) by (split; [apply Z.div_pos; lia | apply Z.div_lt_upper_bound; lia]).
  rewrite Z.mod_small by lia. clear -X. lia.
Qed.
(** POSIX, 64-bit time_t: the same for every time since 1970 *)
Theorem C56_current_ms_posix : forall sec usec, 0 <= sec <= 2 ^ 54 -> 0 <= usec < 1000000 -> current_ms (sec, usec) = (sec * 1000000 + usec) / 1000.
Proof.
  intros sec usec S U. unfold current_ms, u64, two64. cbn [fst snd]. change (2 ^ 54) with 18014398509481984 in S.
  assert (0 <= usec / 1000 < 1000) by (split; [apply Z.div_pos; lia | apply Z.div_lt_upper_bound; lia]).
  rewrite (Z.mod_small sec) by lia. rewrite (Z.mod_small usec) by lia. rewrite (Z.mod_small (sec * 1000)) by lia. rewrite Z.mod_small by lia.
  replace (sec * 1000000 + usec) with (usec + sec * 1000 * 1000) by ring. rewrite Z.div_add by lia. lia.
Qed.
(** Windows, from 2038-01-19 03:14:08 on: tv_sec is a 32-bit long, the result is about 2^64 *)
Theorem C56_current_ms_win_2038_refuted : exists ft, ft = EPOCH + 2 ^ 31 * UNITS_PER_SEC /\ (ft - EPOCH) / 10000 = 2147483648000 /\ current_ms_win ft = 18446741926225903616.
Proof. eexists. split; [reflexivity|]. split; vm_compute; reflexivity. Qed.

(** ** The one-time initialiser of gettimeofday *)
Lemma nth_error_lset_inv : forall A (l : list A) n x m a y, nth_error l n = Some y -> nth_error (lset n x l) m = Some a -> (m = n /\ a = x) \/ (m <> n /\ nth_error l m = Some a).
Proof. intros A l n x m a y E H. destruct (Nat.eq_dec m n) as [->|N]; [rewrite (lset_eq _ _ _ _ E) in H; injection H as <-; auto | rewrite lset_ne in H by exact N; auto]. Qed.
(** the function that should be called *)
Definition best (has_k has_p : bool) : fn := if has_k && has_p then FPrecise else FPlain.
Definition g_inv (has_k has_p : bool) (s : gst) : Prop :=
  (gp s = FInit \/ gp s = best has_k has_p) /\
  (forall t p, nth_error (gpcs s) t = Some p -> match p with
     | GCall f => f = best has_k has_p
     | G104 => gp s <> FInit
     | G88 => has_k = true | G101 => has_k = false | _ => True end) /\
  (forall t f, In (t, f) (glog s) -> f = best has_k has_p).
Lemma best_cases : forall k p, best k p = FPrecise \/ best k p = FPlain.
Proof. intros [] []; auto. Qed.
(** Any number of threads, any interleaving: where GetSystemTimePreciseAsFileTime exists (or kernel32 is not found)
    no call ever goes through a NULL pointer, and every call ends in the right system function *)
Lemma g_step : forall k p t s s', (k = true -> p = true) -> g_inv k p s -> gexec k p t s = Next s' -> g_inv k p s'.
Proof.
  intros k p t s s' KP (I1 & I2 & I3) H. unfold gexec in H. destruct (nth_error (gpcs s) t) as [pc|] eqn:E; [|discriminate]. pose proof (I2 t pc E) as Q.
  assert (M : forall f q, ggo s f t q = Next s' -> (f = FInit \/ f = best k p) -> (gp s <> FInit -> f <> FInit) -> match q with GCall g => g = best k p | G104 => f <> FInit | G88 => k = true | G101 => k = false | _ => True end -> g_inv k p s').
  { clear H. intros f q H F N Z. unfold ggo in H. injection H as <-. split; [exact F|]. split; [|exact I3]. cbn [gpcs gp].
    intros u r U. apply (nth_error_lset_inv _ _ _ _ _ _ _ E) in U. destruct U as [(-> & ->)|(_ & U)]; [exact Z | specialize (I2 u r U); destruct r; try exact I2; auto]. }
  assert (C : gcall s t = Next s' -> g_inv k p s').
  { intros H'. unfold gcall in H'. destruct (gp s) eqn:G.
    - eapply M; [exact H' | auto | auto | exact I].
    - destruct I1 as [I1|I1]; [discriminate|]. eapply M; [exact H' | auto | auto | exact I1].
    - destruct I1 as [I1|I1]; [discriminate|]. eapply M; [exact H' | auto | auto | exact I1].
    - discriminate. }
  assert (BK : k = false -> FPlain = best k p) by (intros ->; reflexivity).
  destruct pc; auto.
  - eapply M; [exact H | assumption | auto | exact I].
  - eapply M; [exact H | assumption | auto |]. destruct k; reflexivity.
  - rewrite (KP Q) in H. eapply M; [exact H | | discriminate | discriminate]. right. unfold best. rewrite (KP Q), Q. reflexivity.
  - eapply M; [exact H | auto | discriminate | discriminate].
  - injection H as <-. split; [exact I1|]. cbn [gpcs gp glog]. split.
    + intros u r U. apply (nth_error_lset_inv _ _ _ _ _ _ _ E) in U. destruct U as [(-> & ->)|(_ & U)]; [exact I | exact (I2 u r U)].
    + intros u g [U|U]; [injection U as -> ->; exact Q | eauto].
Qed.
Definition safe_system (has_k has_p : bool) : Prop := has_k = true -> has_p = true.
Theorem C56_gettimeofday_init : forall n has_k has_p l, safe_system has_k has_p ->
  grun has_k has_p l (g_init n) <> Crash /\
  (forall s t f, grun has_k has_p l (g_init n) = Next s -> In (t, f) (glog s) -> f = if has_k && has_p then FPrecise else FPlain).
Proof.
  intros n k p l K. assert (I0 : g_inv k p (g_init n)).
  { split; [left; reflexivity|]. split; [intros t q E; apply nth_error_repeat in E; subst q; exact I | contradiction]. }
  change (if k && p then FPrecise else FPlain) with (best k p).
  assert (G : forall l s, g_inv k p s -> grun k p l s <> Crash /\ (forall s' t f, grun k p l s = Next s' -> In (t, f) (glog s') -> f = best k p)).
  { clear l I0. induction l as [|t l IH]; intros s Iv; cbn [grun].
    - split; [discriminate|]. intros s' t f H. injection H as <-. apply Iv.
    - destruct (gexec k p t s) as [s'| |] eqn:E.
      + apply IH. eapply g_step; eauto.
      + exfalso. unfold gexec, gcall, ggo in E. destruct Iv as (I1 & _). pose proof (best_cases k p) as B.
        assert (gp s <> FNull) by (destruct I1 as [->| ->]; [discriminate|]; destruct B as [->| ->]; discriminate).
        destruct (nth_error (gpcs s) t) as [pc|]; [|discriminate].
        destruct pc; try discriminate; try (destruct (gp s); congruence). destruct p; discriminate.
      + split; [discriminate | intros s' u f H; discriminate]. }
  apply G, I0.
Qed.
(** A single thread is safe on every system. *)
Definition g1_inv (has_k has_p : bool) (s : gst) : Prop :=
  (exists q, gpcs s = [q] /\ match q with
     | GCall f => f = best has_k has_p /\ gp s = f
     | G104 => gp s = best has_k has_p
     | G88 => has_k = true /\ gp s = FInit
     | G101 => has_k && has_p = false
     | G87 => gp s = FInit
     | _ => gp s = FInit \/ gp s = best has_k has_p end) /\
  (forall t f, In (t, f) (glog s) -> f = best has_k has_p).
Theorem C56_gettimeofday_one_thread : forall has_k has_p l,
  grun has_k has_p l (g_init 1) <> Crash /\
  (forall s t f, grun has_k has_p l (g_init 1) = Next s -> In (t, f) (glog s) -> f = if has_k && has_p then FPrecise else FPlain).
Proof.
  intros k p l. change (if k && p then FPrecise else FPlain) with (best k p).
  assert (G : forall l s, g1_inv k p s -> grun k p l s <> Crash /\ (forall s' t f, grun k p l s = Next s' -> In (t, f) (glog s') -> f = best k p)).
  { clear l. induction l as [|t l IH]; intros s Iv; cbn [grun].
    - split; [discriminate|]. intros s' t f H. injection H as <-. apply Iv.
    - assert (S : gexec k p t s = Stuck \/ exists s', gexec k p t s = Next s' /\ g1_inv k p s').
      { destruct Iv as ((q & Q1 & Q2) & Q3). unfold gexec. rewrite Q1. destruct t as [|t]; [|left; destruct t; reflexivity].
        right. cbn [nth_error]. unfold gcall, ggo. rewrite Q1. cbn [lset].
        assert (FIN : forall f r, match r with
           | GCall g => g = best k p /\ f = g | G104 => f = best k p | G88 => k = true /\ f = FInit | G101 => k && p = false | G87 => f = FInit
           | _ => f = FInit \/ f = best k p end -> exists s', Next (mk_gs f [r] (glog s)) = Next s' /\ g1_inv k p s').
        { intros f r H. eexists. split; [reflexivity|]. split; [|exact Q3]. exists r. split; [reflexivity|]. cbn [gp]. exact H. }
        destruct q.
        - apply FIN. exact Q2.
        - destruct Q2 as [->|E]; [apply FIN; reflexivity|]. pose proof (best_cases k p) as B. rewrite E. destruct B as [B|B]; rewrite B; apply FIN; auto.
        - rewrite Q2. apply FIN. destruct k; cbn; auto.
        - destruct Q2 as [-> E]. destruct p; apply FIN; reflexivity.
        - apply FIN. unfold best. rewrite Q2. reflexivity.
        - pose proof (best_cases k p) as B. rewrite Q2. destruct B as [B|B]; rewrite B; apply FIN; auto.
        - destruct Q2 as [E1 E2]. eexists. split; [reflexivity|]. split; cbn [gpcs gp glog lset].
          + exists GIdle. split; [reflexivity|]. right. congruence.
          + intros u g [U|U]; [injection U as _ <-; exact E1|]. eauto. }
      destruct S as [->|(s' & -> & Iv')]; [split; [discriminate|]; intros s' u f H; discriminate|]. apply IH. exact Iv'. }
  apply G. split; [|contradiction]. exists GIdle. split; [reflexivity|]. left. reflexivity.
Qed.
(** Where it does not exist (before Windows 8) the initialiser stores NULL into the pointer for a moment: a second
    thread that calls gettimeofday then jumps to address 0. *)
Definition g_race : list nat := [0; 0; 0; 0; 1; 1]%nat.
Theorem C56_gettimeofday_init_refuted : grun true false g_race (g_init 2) = Crash.
Proof. vm_compute. reflexivity. Qed.

(** ** query_performance_ms *)
Definition p_inv (freq : Z) (s : pst) : Prop :=
  (pfp s = true -> pcache s = freq / 1000) /\
  (forall t p, nth_error (ppcs s) t = Some p -> match p with
     | I350 | I351 | C335 => pcache s = freq / 1000
     | Q363 m => m = freq / 1000
     | D364 m c => m = freq / 1000 /\ c <= pctr s /\ (forall c' v, In (t, c', v) (plog s) -> c' <= c)
     | _ => True end) /\
  (forall t c v, In (t, c, v) (plog s) -> v = c / (freq / 1000) /\ c <= pctr s).
Lemma p_step : forall freq a s s', p_inv freq s -> pdo freq a s = Next s' -> p_inv freq s'.
Proof.
  intros freq a s s' (I1 & I2 & I3) H. destruct a as [t|d]; cbn [pdo] in H.
  2:{ destruct (d <? 0) eqn:D; [discriminate|]. apply Z.ltb_ge in D. injection H as <-. split; [exact I1|]. cbn [ppcs pctr plog pcache]. split.
      - intros t p E. specialize (I2 t p E). destruct p; try exact I2. destruct I2 as (A & B & C). split; [exact A|]. split; [lia | exact C].
      - intros t c v V. destruct (I3 t c v V). split; [assumption | lia]. }
  unfold pexec in H. destruct (nth_error (ppcs s) t) as [p|] eqn:E; [|discriminate]. pose proof (I2 t p E) as Q.
  assert (G : forall q, pgo s t q = Next s' -> match q with
     | I350 | I351 | C335 => pcache s = freq / 1000
     | Q363 m => m = freq / 1000
     | D364 m c => m = freq / 1000 /\ c <= pctr s /\ (forall c' v, In (t, c', v) (plog s) -> c' <= c)
     | _ => True end -> p_inv freq s').
  { clear H. intros q H Z. unfold pgo in H. injection H as <-. split; [exact I1|]. split; [|exact I3]. cbn [ppcs pctr plog pcache].
    intros u r U. apply (nth_error_lset_inv _ _ _ _ _ _ _ E) in U. destruct U as [(-> & ->)|(_ & U)]; [exact Z | exact (I2 u r U)]. }
  destruct p; cbn beta iota in H; try (eapply G; [exact H|]; cbn beta iota; auto; fail).
  - eapply G; [exact H|]. destruct (pfp s) eqn:F; cbn beta iota; auto.
  - injection H as <-. split; [reflexivity|]. split; [|exact I3]. cbn [ppcs pctr plog pcache].
    intros u r U. apply (nth_error_lset_inv _ _ _ _ _ _ _ E) in U. destruct U as [(-> & ->)|(_ & U)]; [reflexivity|]. specialize (I2 u r U). destruct r; auto.
  - injection H as <-. split; [intros _; exact Q|]. split; [|exact I3]. cbn [ppcs pctr plog pcache].
    intros u r U. apply (nth_error_lset_inv _ _ _ _ _ _ _ E) in U. destruct U as [(-> & ->)|(_ & U)]; [exact Q|]. exact (I2 u r U).
  - eapply G; [exact H|]. destruct (pfp s) eqn:F; cbn beta iota; auto.
  - eapply G; [exact H|]. cbn beta iota. split; [exact Q|]. split; [lia|]. intros c' v V. apply (I3 _ _ _ V).
  - destruct Q as (-> & Q2 & Q3). destruct (freq / 1000 =? 0); [discriminate|]. injection H as <-. split; [exact I1|]. cbn [ppcs pctr plog pcache]. split.
    + intros u r U. apply (nth_error_lset_inv _ _ _ _ _ _ _ E) in U. destruct U as [(-> & ->)|(N & U)]; [exact I|]. specialize (I2 u r U). destruct r; auto.
      destruct I2 as (A & B & C). split; [exact A|]. split; [exact B|]. intros c' v [X|X]; [injection X as -> _ _; congruence | eauto].
    + intros u c' v [X|X]; [injection X as -> -> <-; auto | eauto].
Qed.
(** the results of one thread, newest first, never grow towards the past *)
Fixpoint steady (t : nat) (h : list (nat * Z * Z)) : Prop :=
  match h with [] => True | (u, c, v) :: h => (u = t -> forall c' v', In (t, c', v') h -> c' <= c /\ v' <= v) /\ steady t h end.
Definition p_reach (freq : Z) (n : nat) (s : pst) : Prop := exists l, prun freq l (p_init n) = Next s.
Lemma p_all : forall freq n l, 1000 <= freq -> prun freq l (p_init n) <> Crash /\
  (forall s, prun freq l (p_init n) = Next s -> p_inv freq s /\ forall t, steady t (plog s)).
Proof.
  intros freq n l F. assert (F1 : 1 <= freq / 1000) by (apply Z.div_le_lower_bound; lia).
  assert (G : forall l s, p_inv freq s -> (forall t, steady t (plog s)) -> prun freq l s <> Crash /\ (forall s', prun freq l s = Next s' -> p_inv freq s' /\ forall t, steady t (plog s'))).
  { clear l. induction l as [|a l IH]; intros s Iv St; cbn [prun].
    - split; [discriminate|]. intros s' H. injection H as <-. auto.
    - destruct (pdo freq a s) as [s'| |] eqn:E; [|exfalso|split; [discriminate | intros s' H; discriminate]].
      + apply IH; [eapply p_step; eauto|]. intros t. destruct a as [u|d]; cbn [pdo] in E.
        * unfold pexec, pgo in E. destruct (nth_error (ppcs s) u) as [p|] eqn:P; [|discriminate].
          destruct p; try (injection E as <-; cbn [plog]; auto). destruct Iv as (_ & I2 & I3). pose proof (I2 u _ P) as (-> & Q2 & Q3). destruct (freq / 1000 =? 0); [discriminate|].
          injection E as <-. cbn [plog steady]. split; [|auto]. intros -> c' v' V. split; [eauto|]. destruct (I3 _ _ _ V) as (-> & _). apply Z.div_le_mono; [lia | eauto].
        * destruct (d <? 0); [discriminate|]. injection E as <-. cbn [plog]. auto.
      + destruct a as [u|d]; cbn [pdo] in E; [|destruct (d <? 0); discriminate]. unfold pexec, pgo in E. destruct (nth_error (ppcs s) u) as [p|] eqn:P; [|discriminate].
        destruct p; try discriminate. destruct Iv as (_ & I2 & _). pose proof (I2 u _ P) as (-> & _). replace (freq / 1000 =? 0) with false in E by lia. discriminate. }
  apply G; [|intros t; exact I]. split; [discriminate|]. split; [intros t p E; apply nth_error_repeat in E; subst p; exact I | contradiction].
Qed.
(** Any number of threads, any interleaving of their first calls, a counter of at least 1 kHz: no call divides by
    zero or uses a frequency that has not been set; each returns the counter it read divided by the ticks per
    millisecond; the results of a thread never go back. *)
Theorem C56_perf_ms : forall freq n l, 1000 <= freq -> prun freq l (p_init n) <> Crash /\
  (forall s, prun freq l (p_init n) = Next s -> (forall t c v, In (t, c, v) (plog s) -> v = c / (freq / 1000) /\ c <= pctr s) /\ forall t, steady t (plog s)).
Proof. intros freq n l F. destruct (p_all freq n l F) as (A & B). split; [exact A|]. intros s S. destruct (B s S) as ((_ & _ & I3) & St). auto. Qed.
(** When the frequency is a whole number of kHz that is the exact time in milliseconds, rounded down; otherwise the
    result is too large, by less than a thousandth of itself and one *)
Theorem C56_perf_exact : forall freq c, 1000 <= freq -> 0 <= c -> (freq mod 1000 = 0 -> c / (freq / 1000) = c * 1000 / freq) /\ c * 1000 / freq <= c / (freq / 1000) /\
  (1000000 <= freq -> c / (freq / 1000) - c * 1000 / freq <= c / (freq / 1000) / 1000 + 1).
Proof.
  intros freq c F C. set (k := freq / 1000). pose proof (Z.div_mod freq 1000 ltac:(lia)) as D. fold k in D. pose proof (Z.mod_pos_bound freq 1000 ltac:(lia)) as M.
  assert (K : 1 <= k) by (apply Z.div_le_lower_bound; lia). split; [|split].
  - intros Z. replace freq with (k * 1000) by lia. rewrite Z.div_mul_cancel_r by lia. reflexivity.
  - rewrite <- (Z.div_mul_cancel_r c k 1000) by lia. apply Z.div_le_compat_l; lia.
  - intros F2. assert (K2 : 1000 <= k) by (apply Z.div_le_lower_bound; lia). set (q := c / k). set (r := c * 1000 / freq).
    pose proof (Z.div_mod c k ltac:(lia)) as D1. fold q in D1. pose proof (Z.mod_pos_bound c k ltac:(lia)) as M1.
    pose proof (Z.div_mod (c * 1000) freq ltac:(lia)) as D2. fold r in D2. pose proof (Z.mod_pos_bound (c * 1000) freq ltac:(lia)) as M2.
    pose proof (Z.div_mod q 1000 ltac:(lia)) as D3. pose proof (Z.mod_pos_bound q 1000 ltac:(lia)) as M3. set (j := q / 1000) in *.
    assert (Q0 : 0 <= q) by (apply Z.div_pos; lia). assert (J0 : 0 <= j) by (apply Z.div_pos; lia). assert (R0 : 0 <= r) by (apply Z.div_pos; lia).
    (* r >= q - j - 1: otherwise c*1000 < (q - j - 1) * freq, but c*1000 >= q*k*1000 *)
    destruct (Z_le_gt_dec (q - r) (j + 1)) as [L|L]; [exact L|exfalso].
    assert (R1 : r + 1 <= q - j - 1) by lia. assert (R2 : c * 1000 < (r + 1) * freq) by nia.
    assert (R3 : (r + 1) * freq <= (q - j - 1) * freq) by (apply Z.mul_le_mono_nonneg_r; lia).
    assert (R4 : q * k * 1000 <= c * 1000) by nia.
    assert (R5 : (q - j - 1) * freq <= (q - j - 1) * (k * 1000 + 999)) by (apply Z.mul_le_mono_nonneg_l; lia).
    assert (R6 : 999 * (q - j - 1) < (j + 1) * (k * 1000)); [|nia].
    assert (q < (j + 1) * 1000) by lia. assert ((j + 1) * 1000000 <= (j + 1) * (k * 1000)) by (apply Z.mul_le_mono_nonneg_l; lia). lia.
Qed.
(** For the 3.579545 MHz timer the clock runs 0.015 percent fast: after a day it is 13 seconds ahead *)
Theorem C56_perf_drift_refuted : exists freq c, 1000 <= freq /\ c * 1000 / freq = 86400000 /\ c / (freq / 1000) = 86413156.
Proof. exists 3579545, (3579545 * 86400). split; [lia|]. split; vm_compute; reflexivity. Qed.
(** A counter slower than 1 kHz: division by zero *)
Theorem C56_perf_slow_refuted : forall freq, 0 < freq < 1000 -> prun freq (repeat (PStep 0) 9) (p_init 1) = Crash.
Proof.
  intros freq F. assert (Z : freq / 1000 = 0) by (apply Z.div_small; lia). cbn -[Z.div]. rewrite Z. reflexivity.
Qed.

(** ** The zone offset *)
(** off: the zone's offset at each instant. mktime finds an instant whose local time is the given one *)
Definition finds (off : Z -> Z) (mktime : Z -> Z) (l : Z) : Prop := mktime l + off (mktime l) = l.
(** the result is the zone's offset whenever it has not changed and will not change for as long as the largest
    offset (14 hours) around now *)
Theorem C56_zone_offset : forall off mktime raw B, finds off mktime raw -> (forall x, Z.abs (off x) <= B) ->
  (forall x, Z.abs (x - raw) <= B -> off x = off raw) -> zone_offset mktime raw = off raw.
Proof.
  intros off mktime raw B Fd Bd Cn. unfold finds in Fd. unfold zone_offset. set (x := mktime raw) in *. pose proof (Bd x). rewrite <- (Cn x); lia.
Qed.
Definition new_york (x : Z) : Z := if x <? 1604210400 then -14400 else -18000.
(** New York, 1 November 2020: daylight saving time ended at 06:00 UTC (1604210400). At 03:00 UTC the zone is 4 hours
    behind, the function answers 5: it looked the offset up 5 hours too late *)
Theorem C56_zone_offset_refuted : exists mktime raw, finds new_york mktime raw /\ new_york raw = -14400 /\ zone_offset mktime raw = -18000.
Proof. exists (fun l => l + 18000), 1604199600. split; [vm_compute; reflexivity|]. split; vm_compute; reflexivity. Qed.
Print Assumptions C56_current_ms_win.
Print Assumptions C56_current_ms_posix.
Print Assumptions C56_current_ms_win_2038_refuted.
Print Assumptions C56_gettimeofday_init.
Print Assumptions C56_gettimeofday_one_thread.
Print Assumptions C56_gettimeofday_init_refuted.
Print Assumptions C56_perf_ms.
Print Assumptions C56_perf_exact.
Print Assumptions C56_perf_drift_refuted.
Print Assumptions C56_perf_slow_refuted.
Print Assumptions C56_zone_offset.
Print Assumptions C56_zone_offset_refuted.
(** two threads race for the first call, then call again; gettimeofday with three threads *)
Definition p_demo : list pact := [PStep 0; PStep 1; PStep 0; PStep 1; PStep 0; PStep 1; PStep 0; PTick 25000; PStep 0; PStep 1; PStep 0; PStep 0; PStep 0; PTick 10000; PStep 1; PStep 1; PStep 1; PStep 1; PStep 1; PStep 0; PStep 1].
Example C56_demo : (exists s, prun 10000000 p_demo (p_init 2) = Next s /\ plog s = [(0%nat, 25000, 2); (1%nat, 35000, 3)]) /\ current_ms_win 132678569761234567 = 1623383376123 /\
  safe_system true true /\ finds (fun _ => 28800) (fun l => l - 28800) 1000.
Proof.
  split; [exists (match prun 10000000 p_demo (p_init 2) with Next s => s | _ => p_init 0 end); split; vm_compute; reflexivity|]. split; [vm_compute; reflexivity|]. split; [intros _; reflexivity | vm_compute; reflexivity].
Qed.

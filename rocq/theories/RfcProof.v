From Verif Require Import CBase CStr SeqLib StringsModel StringsProof TimeModel TimeSpec TimeProof TimeProof2 XlogProof2 XlogProof4 RfcModel RfcSpec.

(** ** the calendar *)
Lemma alg_shift : forall n k, alg (n + 146097 * k) = addy (400 * k) (alg n).
Proof.
  intros n k. unfold alg, addy.
  replace ((n + 146097 * k + 2472632) * 4 + 3) with ((n + 2472632) * 4 + 3 + (4 * k) * 146097) by ring. rewrite Z.div_add by lia.
  set (b := ((n + 2472632) * 4 + 3) / 146097).
  replace ((b + 4 * k) * 146097) with (b * 146097 + (146097 * k) * 4) by ring. rewrite Z.div_add by lia.
  replace (n + 146097 * k + 2472632 - (b * 146097 / 4 + 146097 * k)) with (n + 2472632 - b * 146097 / 4) by ring.
  f_equal. f_equal. ring.
Qed.
Lemma date_alg : forall n, date_at n = alg n.
Proof.
  intros n. unfold date_at. rewrite <- alg_date by (apply Z.mod_pos_bound; lia).
  pose proof (alg_shift (n mod 146097) (n / 146097)) as H. replace (n mod 146097 + 146097 * (n / 146097)) with n in H by (pose proof (Z.div_mod n 146097); lia).
  rewrite H. destruct (alg (n mod 146097)) as [[y m] d]. reflexivity.
Qed.
Lemma date_next : forall n, date_at (n + 1) = next_day (date_at n).
Proof. intros n. rewrite !date_alg. apply alg_next. Qed.
Lemma date_valid : forall n, let '(y, m, d) := date_at n in 1 <= m <= 12 /\ 1 <= d <= 31.
Proof. intros n. unfold date_at. pose proof (date_normal (n mod 146097)) as H. destruct (date_of _) as [[y m] d]. exact H. Qed.
Definition key (x : Z * Z * Z) : Z := let '(y, m, d) := x in y * 372 + m * 31 + d.
Lemma key_next : forall n, key (date_at n) < key (date_at (n + 1)).
Proof.
  intros n. rewrite date_next. pose proof (date_valid n) as H. destruct (date_at n) as [[y m] d]. unfold next_day, key.
  repeat match goal with |- context [if ?b then _ else _] => destruct b eqn:? end; lia.
Qed.
Lemma key_mono : forall n k, n < k -> key (date_at n) < key (date_at k).
Proof.
  intros n k H. replace k with (n + Z.of_nat (S (Z.to_nat (k - n - 1)))) by lia. induction (Z.to_nat (k - n - 1)) as [|j IH].
  - apply key_next.
  - replace (n + Z.of_nat (S (S j))) with (n + Z.of_nat (S j) + 1) by lia. pose proof (key_next (n + Z.of_nat (S j))). lia.
Qed.
Lemma date_inj : forall n k, date_at n = date_at k -> n = k.
Proof. intros n k H. destruct (Z.lt_trichotomy n k) as [L|[L|L]]; [|exact L|]; apply key_mono in L; rewrite H in L; lia. Qed.
Lemma year_key : forall n, let '(y, _, _) := date_at n in y * 372 + 32 <= key (date_at n) <= y * 372 + 403.
Proof. intros n. pose proof (date_valid n) as H. destruct (date_at n) as [[y m] d]. cbn. lia. Qed.
Lemma year_mono : forall n k, n <= k -> let '(y, _, _) := date_at n in let '(z, _, _) := date_at k in y <= z.
Proof.
  intros n k H. pose proof (year_key n) as A. pose proof (year_key k) as B. assert (key (date_at n) <= key (date_at k)) by (destruct (Z.eq_dec n k); [subst; lia | pose proof (key_mono n k ltac:(lia)); lia]).
  destruct (date_at n) as [[y m] d]. destruct (date_at k) as [[z m'] d']. lia.
Qed.
Lemma year_mono_t : forall t u, t <= u -> year_of t <= year_of u.
Proof.
  intros t u H. unfold year_of. pose proof (year_mono (t / 86400) (u / 86400) ltac:(apply Z.div_le_mono; lia)) as K.
  destruct (date_at (t / 86400)) as [[y m] d]. destruct (date_at (u / 86400)) as [[z m'] d']. exact K.
Qed.
Lemma year_at : forall t, year_of t = fst (fst (alg (t / 86400))).
Proof. intros t. unfold year_of. rewrite date_alg. destruct (alg _) as [[y m] d]. reflexivity. Qed.
Lemma year_range : forall t, 1000 <= year_of t <= 9999 <-> -30610224000 <= t <= 253402300799.
Proof.
  intros t. assert (A : year_of (-30610224000) = 1000) by (rewrite year_at; vm_compute; reflexivity).
  assert (A1 : year_of (-30610224001) = 999) by (rewrite year_at; vm_compute; reflexivity).
  assert (B : year_of 253402300799 = 9999) by (rewrite year_at; vm_compute; reflexivity).
  assert (B1 : year_of 253402300800 = 10000) by (rewrite year_at; vm_compute; reflexivity).
  split; intros H.
  - split.
    + destruct (Z_le_gt_dec (-30610224000) t); [assumption|]. pose proof (year_mono_t t (-30610224001) ltac:(lia)). lia.
    + destruct (Z_le_gt_dec t 253402300799); [assumption|]. pose proof (year_mono_t 253402300800 t ltac:(lia)). lia.
  - pose proof (year_mono_t (-30610224000) t ltac:(lia)). pose proof (year_mono_t t 253402300799 ltac:(lia)). lia.
Qed.

(** ** texts *)
Lemma dec4 : forall y, 1000 <= y <= 9999 -> decimal y = four_digits y.
Proof.
  intros y Y. rewrite decimal_rev by (unfold two31; lia). cbn [dec_digits_rev].
  replace (y <? 10) with false by lia. replace (y / 10 <? 10) with false by (symmetry; apply Z.ltb_ge; apply Z.div_le_lower_bound; lia).
  rewrite !Z.div_div by lia. change (10 * 10) with 100. change (100 * 10) with 1000.
  replace (y / 100 <? 10) with false by (symmetry; apply Z.ltb_ge; apply Z.div_le_lower_bound; lia).
  replace (y / 1000 <? 10) with true by (symmetry; apply Z.ltb_lt; apply Z.div_lt_upper_bound; lia).
  cbn [rev app]. unfold four_digits, two_digits. cbn [app]. repeat (apply f_equal2; [clear -Y; lia|]). reflexivity.
Qed.
Lemma two_text : forall n, 0 <= n -> text (two_digits n).
Proof.
  intros n N. unfold two_digits. pose proof (Z.div_pos n 10 N ltac:(lia)). pose proof (Z.mod_pos_bound n 10 ltac:(lia)).
  apply Forall_cons; [lia|]. apply Forall_cons; [lia | apply Forall_nil].
Qed.
Lemma day_len : forall w, 0 <= w < 7 -> text (day_name w) /\ zlen (day_name w) = 3 /\ name DAY_NAMES w = Ret (day_name w).
Proof.
  intros w H. assert (K : w = 0 \/ w = 1 \/ w = 2 \/ w = 3 \/ w = 4 \/ w = 5 \/ w = 6) by lia.
  repeat destruct K as [K|K]; subst w; (split; [repeat (apply Forall_cons; [vm_compute; discriminate|]); apply Forall_nil | split; vm_compute; reflexivity]).
Qed.
Lemma mon_len : forall w, 1 <= w <= 12 -> text (month_name w) /\ zlen (month_name w) = 3 /\ name MONTH_NAMES (w - 1) = Ret (month_name w).
Proof.
  intros w H. assert (K : w = 1 \/ w = 2 \/ w = 3 \/ w = 4 \/ w = 5 \/ w = 6 \/ w = 7 \/ w = 8 \/ w = 9 \/ w = 10 \/ w = 11 \/ w = 12) by lia.
  repeat destruct K as [K|K]; subst w; (split; [repeat (apply Forall_cons; [vm_compute; discriminate|]); apply Forall_nil | split; vm_compute; reflexivity]).
Qed.
Lemma gmtime_ok : forall t, 0 <= year_of t <= 9999 -> exists v, gmtime_r t = Some v /\ g_mday v = day_of t /\ g_mon v = month_of t - 1 /\ g_year v + 1900 = year_of t /\ g_wday v = weekday t /\
  1 <= g_mday v <= 31 /\ 0 <= g_mon v <= 11 /\ 0 <= g_wday v < 7 /\
  g_hour v = t mod 86400 / 3600 /\ g_min v = t mod 3600 / 60 /\ g_sec v = t mod 60.
Proof.
  intros t Y. unfold gmtime_r, year_of, month_of, day_of, weekday in *. pose proof (date_valid (t / 86400)) as V. destruct (date_at (t / 86400)) as [[y m] d].
  replace (int_ok (y - 1900)) with true by (unfold int_ok, two31; lia). eexists. split; [reflexivity|]. cbn [g_mday g_mon g_year g_wday g_hour g_min g_sec].
  pose proof (Z.mod_pos_bound (t / 86400 + 4) 7 ltac:(lia)). repeat split; try lia; clear; lia.
Qed.

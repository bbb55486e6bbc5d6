From Verif Require Import CBase CStr SeqLib StringsModel StringsProof TimeModel TimeSpec.

(** ** Calendar *)
(** the day part of the conversion on unbounded integers *)
Definition alg (n : Z) : Z * Z * Z :=
  let a := n + 2472632 in
  let b := (a * 4 + 3) / 146097 in
  let c := a - b * 146097 / 4 in
  let d := (c * 4 + 3) / 1461 in
  let e := c - d * 1461 / 4 in
  let m := (5 * e + 2) / 153 in
  (b * 100 + d - 4800 + m / 10, m + 3 - 12 * (m / 10), e + 1 - (153 * m + 2) / 5).

(** date of day [e] of the March-based year [y] *)
Definition dom (y e : Z) : Z * Z * Z :=
  let m := (5 * e + 2) / 153 in (y + m / 10, m + 3 - 12 * (m / 10), e + 1 - (153 * m + 2) / 5).
Lemma alg_dom n b c d e : 0 <= d <= 99 ->
  n + 2472632 = b * 146097 / 4 + c -> (0 <= c < 36524 \/ c = 36524 /\ b mod 4 = 3) ->
  c = d * 1461 / 4 + e -> (0 <= e < 365 \/ e = 365 /\ d mod 4 = 3) ->
  alg n = dom (b * 100 + d - 4800) e.
Proof.
  intros Hd Ea Hc Ec He. unfold alg. rewrite Ea.
  assert (((b * 146097 / 4 + c) * 4 + 3) / 146097 = b) as -> by (clear -Hc; lia).
  replace (b * 146097 / 4 + c - b * 146097 / 4) with c by lia.
  assert ((c * 4 + 3) / 1461 = d) as -> by (clear -Ec He; lia).
  assert (c - d * 1461 / 4 = e) as -> by lia.
  reflexivity.
Qed.
Lemma split_day n : exists b c d e, 0 <= d <= 99 /\
  n + 2472632 = b * 146097 / 4 + c /\ (0 <= c < 36524 \/ c = 36524 /\ b mod 4 = 3) /\
  c = d * 1461 / 4 + e /\ (0 <= e < 365 \/ e = 365 /\ d mod 4 = 3).
Proof.
  set (a := n + 2472632). set (b := (a * 4 + 3) / 146097). set (c := a - b * 146097 / 4).
  assert (0 <= c < 36524 \/ c = 36524 /\ b mod 4 = 3) as Hc by (subst c b; clear; lia).
  set (d := (c * 4 + 3) / 1461). set (e := c - d * 1461 / 4).
  exists b, c, d, e. split; [clearbody c; subst d; clear -Hc; lia|]. split; [subst c; lia|]. split; [exact Hc|].
  split; [subst e; lia|]. clearbody c. subst e d. clear. lia.
Qed.
(** next day, the leap flag of the date's year given *)
Definition nextl (lp : bool) (x : Z * Z * Z) : Z * Z * Z :=
  let '(y, m, d) := x in
  let md := if m =? 2 then (if lp then 29 else 28)
            else if (m =? 4) || (m =? 6) || (m =? 9) || (m =? 11) then 30 else 31 in
  if d <? md then (y, m, d + 1) else if m <? 12 then (y, m + 1, 1) else (y + 1, 1, 1).
Lemma next_nextl y m d : next_day (y, m, d) = nextl (leap y) (y, m, d).
Proof. reflexivity. Qed.
Definition eqd (x y : Z * Z * Z) : bool :=
  let '(a, b, c) := x in let '(d, e, f) := y in (a =? d) && (b =? e) && (c =? f).
Lemma eqd_ok x y : eqd x y = true -> x = y.
Proof. destruct x as [[a b] c], y as [[d e] f]. unfold eqd. intro H. f_equal; [f_equal|]; lia. Qed.
Definition addy (k : Z) (x : Z * Z * Z) : Z * Z * Z := let '(y, m, d) := x in (y + k, m, d).
Lemma dom_addy y e : dom y e = addy y (dom 0 e).
Proof. unfold dom, addy. f_equal. f_equal. lia. Qed.
Lemma nextl_addy lp k x : nextl lp (addy k x) = addy k (nextl lp x).
Proof.
  destruct x as [[y m] d]. unfold nextl, addy.
  repeat match goal with |- context [if ?b then _ else _] => destruct b end; f_equal; f_equal; lia.
Qed.
Lemma year_sweep : sweep 364 (fun e => eqd (dom 0 (e + 1)) (nextl true (dom 0 e)) && eqd (dom 0 (e + 1)) (nextl false (dom 0 e))) = true.
Proof. vm_compute. reflexivity. Qed.
Lemma next_in_year lp y e : 0 <= e < 364 -> dom y (e + 1) = nextl lp (dom y e).
Proof.
  intro H. rewrite (dom_addy y (e + 1)), (dom_addy y e), nextl_addy. f_equal.
  pose proof (sweep_ok _ _ year_sweep e H) as S. apply andb_true_iff in S. destruct S as [S1 S2].
  destruct lp; apply eqd_ok; assumption.
Qed.
Lemma dom_next y e x : nextl (leap (fst (fst (dom y e)))) (dom y e) = x -> next_day (dom y e) = x.
Proof. destruct (dom y e) as [[y' m] d]. cbn [fst]. intro H. rewrite next_nextl. exact H. Qed.
Lemma dom_364 y : dom y 364 = (y + 1, 2, 28).
Proof. rewrite dom_addy. change (dom 0 364) with (1, 2, 28). unfold addy. f_equal; f_equal; lia. Qed.
Lemma dom_365 y : dom y 365 = (y + 1, 2, 29).
Proof. rewrite dom_addy. change (dom 0 365) with (1, 2, 29). unfold addy. f_equal; f_equal; lia. Qed.
Lemma dom_0 y : dom y 0 = (y, 3, 1).
Proof. rewrite dom_addy. change (dom 0 0) with (0, 3, 1). unfold addy. f_equal; f_equal; lia. Qed.
Lemma alg_next n : alg (n + 1) = next_day (alg n).
Proof.
  destruct (split_day n) as (b & c & d & e & Hd & Ea & Hc & Ec & He).
  rewrite (alg_dom n b c d e) by assumption.
  set (y := b * 100 + d - 4800).
  assert (leap (y + 1) = (((d + 1) mod 4 =? 0) && (negb (d =? 99) || ((b + 1) mod 4 =? 0)))%bool) as L.
  { unfold leap. subst y.
    replace ((b * 100 + d - 4800 + 1) mod 4) with ((d + 1) mod 4) by (clear; lia).
    destruct ((d + 1) mod 4 =? 0) eqn:E4; [|reflexivity]. cbn [andb].
    destruct (Z.eqb_spec d 99) as [->|N].
    - replace ((b * 100 + 99 - 4800 + 1) mod 100) with 0 by (clear; lia). cbn [Z.eqb negb orb].
      clear. destruct (Z.eqb_spec ((b * 100 + 99 - 4800 + 1) mod 400) 0), (Z.eqb_spec ((b + 1) mod 4) 0); try reflexivity; exfalso; lia.
    - cbn [negb orb]. destruct (Z.eqb_spec ((b * 100 + d - 4800 + 1) mod 100) 0); [exfalso; clear -Hd N e0; lia|reflexivity]. }
  destruct (Z_lt_dec e 364) as [H1|H1].
  - symmetry. apply dom_next. rewrite <- next_in_year by lia.
    symmetry. apply (alg_dom (n + 1) b (c + 1) d (e + 1)); try assumption; try lia.
  - symmetry. apply dom_next.
    destruct (Z.eq_dec e 364) as [E|E].
    + subst e. rewrite dom_364. cbn [fst]. rewrite L. unfold nextl. change (2 =? 2) with true. change (2 <? 12) with true. cbv iota.
      destruct ((d + 1) mod 4 =? 0) eqn:E4; cbn [andb].
      * destruct (Z.eqb_spec d 99) as [->|N]; cbn [negb orb].
        -- destruct ((b + 1) mod 4 =? 0) eqn:Eb.
           ++ change (28 <? 29) with true. cbv iota. change (28 + 1) with 29. rewrite <- dom_365.
              symmetry. apply (alg_dom (n + 1) b (c + 1) 99 365); lia.
           ++ change (28 <? 28) with false. cbv iota.
              transitivity (dom ((b + 1) * 100 + 0 - 4800) 0).
              ** rewrite dom_0. subst y. f_equal; f_equal; lia.
              ** symmetry. apply (alg_dom (n + 1) (b + 1) 0 0 0); try lia.
        -- change (28 <? 29) with true. cbv iota. change (28 + 1) with 29. rewrite <- dom_365.
           symmetry. apply (alg_dom (n + 1) b (c + 1) d 365); try lia.
      * change (28 <? 28) with false. cbv iota.
        transitivity (dom (b * 100 + (d + 1) - 4800) 0).
        -- rewrite dom_0. subst y. f_equal; f_equal; lia.
        -- symmetry. apply (alg_dom (n + 1) b (c + 1) (d + 1) 0); try lia.
    + assert (e = 365 /\ d mod 4 = 3) as [-> D3] by lia. rewrite dom_365. cbn [fst]. rewrite L.
      replace ((d + 1) mod 4 =? 0) with true by (symmetry; clear -D3; lia). cbn [andb].
      destruct (Z.eqb_spec d 99) as [->|N]; cbn [negb orb].
      * assert (b mod 4 = 3) as B3 by lia.
        replace ((b + 1) mod 4 =? 0) with true by (symmetry; clear -B3; lia).
        unfold nextl. change (2 =? 2) with true. change (2 <? 12) with true. cbv iota. change (29 <? 29) with false. cbv iota.
        transitivity (dom ((b + 1) * 100 + 0 - 4800) 0).
        -- rewrite dom_0. subst y. f_equal; f_equal; lia.
        -- symmetry. apply (alg_dom (n + 1) (b + 1) 0 0 0); try lia.
      * unfold nextl. change (2 =? 2) with true. change (2 <? 12) with true. cbv iota. change (29 <? 29) with false. cbv iota.
        transitivity (dom (b * 100 + (d + 1) - 4800) 0).
        -- rewrite dom_0. subst y. f_equal; f_equal; lia.
        -- symmetry. apply (alg_dom (n + 1) b (c + 1) (d + 1) 0); try lia.
Qed.
Lemma alg_date n : 0 <= n -> alg n = date_of n.
Proof.
  intro H. unfold date_of. rewrite <- (Z2Nat.id n) at 1 by lia. clear H. induction (Z.to_nat n) as [|k IH].
  - vm_compute. reflexivity.
  - replace (Z.of_nat (S k)) with (Z.of_nat k + 1) by lia. rewrite alg_next, IH. reflexivity.
Qed.

Lemma s32_small x : - two31 <= x < two31 -> s32 x = x.
Proof. unfold s32, two31, two32. intro H. rewrite Z.mod_small; lia. Qed.
Lemma sint_Ret x : - two31 <= x < two31 -> sint x = Ret x.
Proof. unfold sint, int_ok. intro H. destruct (_ && _) eqn:E; [reflexivity|lia]. Qed.
Lemma quot_neg x y : 0 < y -> 0 <= x -> Z.quot (- x) y = - (x / y).
Proof. intros. rewrite Z.quot_opp_l by lia. rewrite Z.quot_div_nonneg by lia. reflexivity. Qed.

Lemma second2date_ok t tz : 0 <= t < two31 -> 0 <= t / 3600 + tz < two31 ->
  fast_second2date t tz = Ret (local_time t tz).
Proof.
  intros Ht Hz. unfold fast_second2date, local_time.
  set (l := t + 3600 * tz). cbv zeta.
  rewrite s32_small by (unfold two31 in *; lia).
  rewrite (Z.quot_div_nonneg t 60) by lia.
  assert (0 <= t / 60) as H60 by (apply Z.div_pos; lia).
  rewrite (Z.quot_div_nonneg (t / 60) 60) by lia.
  rewrite Z.div_div by lia. change (60 * 60) with 3600.
  rewrite (sint_Ret (t / 3600 + tz)) by (unfold two31 in *; lia). cbn [bind].
  set (h := t / 3600 + tz) in *.
  assert (l / 3600 = h) as Hl by (subst l h; rewrite Z.mul_comm; rewrite Z.div_add by lia; lia).
  rewrite (Z.quot_div_nonneg h 24) by lia.
  assert (l / 86400 = h / 24) as Hd by (rewrite <- Hl, Z.div_div by lia; reflexivity).
  rewrite Hd.
  assert (0 <= h / 24 < 89478486) as Bn by (unfold two31 in *; lia).
  rewrite <- (alg_date (h / 24)) by lia.
  set (n := h / 24) in *.
  rewrite (sint_Ret (n + 2472632)) by (unfold two31 in *; lia). cbn [bind].
  set (a := n + 2472632).
  rewrite (sint_Ret (a * 4 + 3)) by (unfold two31 in *; lia). cbn [bind].
  rewrite (Z.quot_div_nonneg (a * 4 + 3)) by lia.
  set (b := (a * 4 + 3) / 146097).
  assert (0 <= b) as Hb by (apply Z.div_pos; lia).
  assert (b * 146097 <= a * 4 + 3) as Hb2 by (subst b; rewrite Z.mul_comm; apply Z.mul_div_le; lia).
  assert (a * 4 + 3 < b * 146097 + 146097) as Hb3.
  { pose proof (Z.mod_pos_bound (a * 4 + 3) 146097). pose proof (Z.div_mod (a * 4 + 3) 146097). fold b in H0. lia. }
  assert (0 <= b * 146097) as Hb0 by lia.
  rewrite (sint_Ret (- b * 146097)) by (unfold two31 in *; lia). cbn [bind].
  replace (- b * 146097) with (- (b * 146097)) by lia.
  rewrite quot_neg by lia.
  replace (- (b * 146097 / 4) + a) with (a - b * 146097 / 4) by lia.
  assert (b * 146097 - 3 <= 4 * (b * 146097 / 4) <= b * 146097) as Q4 by (clear; lia).
  set (c := a - b * 146097 / 4).
  assert (4 * c <= a * 4 - b * 146097 + 3 /\ a * 4 - b * 146097 <= 4 * c) as Hc by (subst c; lia).
  assert (0 <= c <= 36525) as Hc2 by lia.
  rewrite (sint_Ret c) by (unfold two31; lia). cbn [bind].
  rewrite (sint_Ret (c * 4 + 3)) by (unfold two31; lia). cbn [bind].
  rewrite (Z.quot_div_nonneg (c * 4 + 3)) by lia.
  assert (alg n = (b * 100 + (c * 4 + 3) / 1461 - 4800 + (5 * (c - (c * 4 + 3) / 1461 * 1461 / 4) + 2) / 153 / 10,
    (5 * (c - (c * 4 + 3) / 1461 * 1461 / 4) + 2) / 153 + 3 - 12 * ((5 * (c - (c * 4 + 3) / 1461 * 1461 / 4) + 2) / 153 / 10),
    (c - (c * 4 + 3) / 1461 * 1461 / 4) + 1 - (153 * ((5 * (c - (c * 4 + 3) / 1461 * 1461 / 4) + 2) / 153) + 2) / 5)) as -> by reflexivity.
  clearbody b c. set (d := (c * 4 + 3) / 1461).
  assert (0 <= d <= 100 /\ d * 1461 <= c * 4 + 3 < d * 1461 + 1461) as D by (subst d; lia).
  clearbody d.
  rewrite (sint_Ret (- d * 1461)) by (unfold two31; lia). cbn [bind].
  replace (- d * 1461) with (- (d * 1461)) by lia. rewrite quot_neg by lia.
  replace (- (d * 1461 / 4) + c) with (c - d * 1461 / 4) by lia.
  assert (0 <= c - d * 1461 / 4 <= 366) as E by lia.
  set (e := c - d * 1461 / 4) in *. clearbody e.
  rewrite (sint_Ret e) by (unfold two31; lia). cbn [bind].
  rewrite (sint_Ret (5 * e + 2)) by (unfold two31; lia). cbn [bind].
  rewrite (Z.quot_div_nonneg (5 * e + 2)) by lia.
  assert (0 <= (5 * e + 2) / 153 <= 12) as M by lia.
  set (m := (5 * e + 2) / 153) in *. clearbody m.
  rewrite (sint_Ret (- (153 * m + 2))) by (unfold two31; lia). cbn [bind].
  rewrite quot_neg by lia.
  assert (0 <= (153 * m + 2) / 5 <= 400) as M5 by lia.
  rewrite (sint_Ret (- ((153 * m + 2) / 5) + e + 1)) by (unfold two31; lia). cbn [bind].
  rewrite quot_neg by lia. rewrite (Z.quot_div_nonneg m) by lia.
  rewrite (sint_Ret (- (m / 10) * 12 + m + 2)) by (unfold two31; lia). cbn [bind].
  rewrite (sint_Ret (b * 100 + d - 6700 + m / 10)) by (unfold two31; lia). cbn [bind].
  f_equal. rewrite !Z.rem_mod_nonneg by lia. f_equal; try lia.
  all: subst h l; clear -Ht; lia.
Qed.

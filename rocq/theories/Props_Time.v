(** C33, C34: time_util.c *)
From Verif Require Import CBase CStr StringsModel TimeModel TimeSpec TimeProof TimeProof2.

(** C33: for every time before 2038 (the conversion goes through int) and every zone offset that keeps the
    local time at or after the epoch, the conversion is defined (no signed overflow) and yields exactly the
    Gregorian date and time of day. Missing from the full claim: times outside, see the refutations below. *)
Theorem C33_calendar :
  forall t tz : Z, 0 <= t < 2 ^ 31 -> 0 <= t / 3600 + tz < 2 ^ 31 ->
  fast_second2date t tz = Ret (local_time t tz).
Proof. exact second2date_ok. Qed.
Print Assumptions C33_calendar.
Example C33_case : fast_second2date 1709164800 8 = Ret (local_time 1709164800 8) /\
  fast_second2date 1709164800 8 =
    Ret {| tm_sec := 0; tm_min := 0; tm_hour := 8; tm_mday := 29; tm_mon := 1; tm_year := 124 |}.
Proof. split; [apply C33_calendar; lia|vm_compute; reflexivity]. Qed.

(** the fields are always in their C ranges (for strftime) *)
Theorem C33_fields_normal :
  forall t tz : Z, 0 <= t < 2 ^ 31 -> 0 <= t / 3600 + tz < 2 ^ 31 ->
  exists v, fast_second2date t tz = Ret v /\ tm_normal v.
Proof. intros t tz H1 H2. exists (local_time t tz). split; [exact (second2date_ok t tz H1 H2)|apply local_normal]. Qed.
Print Assumptions C33_fields_normal.

(** C33 fails from 2038-01-19 03:14:08 UTC on although time_t is wider: the result is not the date 2038
    (it has a negative minute and the year 1901) *)
Theorem C33_after_2038_refuted :
  exists v, fast_second2date (2 ^ 31) 0 = Ret v /\ tm_year v = 1 /\ tm_min v = -14 /\
            tm_year (local_time (2 ^ 31) 0) = 138 /\ tm_min (local_time (2 ^ 31) 0) = 14.
Proof.
  eexists. split; [vm_compute; reflexivity|]. cbn [tm_year tm_min].
  split; [reflexivity|]. split; [reflexivity|].
  unfold local_time. rewrite <- alg_date by (vm_compute; discriminate).
  split; vm_compute; reflexivity.
Qed.
Print Assumptions C33_after_2038_refuted.
(** C33 fails west of Greenwich in the first hours of the epoch: tm_hour is -1 *)
Theorem C33_before_epoch_refuted :
  exists v, fast_second2date 0 (-1) = Ret v /\ tm_hour v = -1.
Proof. eexists. split; [vm_compute; reflexivity|reflexivity]. Qed.
Print Assumptions C33_before_epoch_refuted.
(** ... and for every negative time that is not a whole minute, tm_sec is negative *)
Theorem C33_negative_refuted :
  forall t tz v, t < 0 -> t mod 60 <> 0 -> fast_second2date t tz = Ret v -> tm_sec v < 0.
Proof.
  intros t tz v H1 H2. unfold fast_second2date.
  repeat match goal with |- context [sint ?x] => destruct (sint x); cbn [bind]; try discriminate end.
  intro E. injection E as <-. cbn [tm_sec].
  pose proof (Z.rem_nonpos t 60). pose proof (Z.quot_rem' t 60) as Q. assert (Z.rem t 60 <> 0); [|lia].
  intro R. rewrite R in Q. apply H2. rewrite Q. rewrite Z.add_0_r, Z.mul_comm. apply Z.mod_mul. lia.
Qed.
Print Assumptions C33_negative_refuted.
Example C33_negative_case : exists v, fast_second2date (-1) 0 = Ret v /\ tm_sec v = -1.
Proof. eexists. split; [vm_compute; reflexivity|reflexivity]. Qed.

(** C34: any number of threads, any interleaving, any times, zones and the two formats: a finished call with
    the cache left in the caller's buffer, byte for byte, and returned exactly what a call without the cache
    does. Missing: the first second of the epoch in UTC (refuted below). *)
Theorem C34_cached_is_uncached :
  forall sf s k r, strftime_ok sf -> reach sf s -> In (k, r) (st_log s) ->
  ~ (k_sec k = 0 /\ k_tz k = 0) -> r = get_time_str_plain sf k.
Proof.
  intros sf s k r Hs R I N. destruct (i_log _ _ (inv_reach sf s Hs R) k r I) as [C|C]; [contradiction|exact C].
Qed.
Print Assumptions C34_cached_is_uncached.

(** C34, what that text is: "MM-DD HH:MM:SS.mmm" (18 characters), or "MMDDHHMMSS.mmm" (14) for file names, of
    the local calendar time, terminated; bytes of the buffer behind it are not touched. *)
Theorem C34_text :
  forall sf k, strftime_ok sf -> strftime_std sf -> api_call k ->
  0 <= k_sec k < 2 ^ 31 -> 0 <= k_sec k / 3600 + k_tz k < 2 ^ 31 -> 0 <= k_usec k < 1000000 ->
  let v := local_time (k_sec k) (k_tz k) in
  let date := if list_eq_dec Z.eq_dec (k_fmt k) FMT_STAMP
    then two_digits (tm_mon v + 1) ++ [45] ++ two_digits (tm_mday v) ++ [32] ++ two_digits (tm_hour v)
         ++ [58] ++ two_digits (tm_min v) ++ [58] ++ two_digits (tm_sec v)
    else two_digits (tm_mon v + 1) ++ two_digits (tm_mday v) ++ two_digits (tm_hour v)
         ++ two_digits (tm_min v) ++ two_digits (tm_sec v) in
  let t := date ++ dot_millis (k_usec k) in
  get_time_str_plain sf k = Ret (t ++ 0 :: zdrop (zlen t + 1) (k_str k), zlen t).
Proof.
  intros sf k Hs Hstd [Hf Hl] H1 H2 Hu v date t.
  rewrite (plain_ok sf k v Hs Hl (second2date_ok _ _ H1 H2)).
  destruct (Hstd v (local_normal _ _)) as [S1 S2].
  assert (sf (k_fmt k) v = date) as ->.
  { subst date. destruct Hf as [-> | ->].
    - destruct (list_eq_dec Z.eq_dec FMT_STAMP FMT_STAMP); [exact S1|congruence].
    - destruct (list_eq_dec Z.eq_dec FMT_FILE FMT_STAMP); [discriminate|exact S2]. }
  assert (ms (millis (k_usec k)) = dot_millis (k_usec k)) as M.
  { unfold ms, dot_millis, millis, u32, two32. rewrite Z.quot_div_nonneg by lia.
    rewrite (Z.mod_small (k_usec k / 1000)) by lia.
    assert (0 <= k_usec k / 1000 < 1000) as B by lia. set (n := k_usec k / 1000) in *. clearbody n.
    assert (n / 10 / 10 mod 10 = n / 100) as -> by lia. reflexivity. }
  unfold full. rewrite M. subst t. rewrite zlen_app. change (zlen (dot_millis (k_usec k))) with 4.
  f_equal. f_equal. f_equal. f_equal. f_equal. lia.
Qed.
Print Assumptions C34_text.

(** a strftime that meets both hypotheses, for the examples *)
Definition sf_demo : strftime_fn := fun f v =>
  let td n := two_digits (n mod 100) in
  if list_eq_dec Z.eq_dec f FMT_STAMP
  then td (tm_mon v + 1) ++ [45] ++ td (tm_mday v) ++ [32] ++ td (tm_hour v) ++ [58] ++ td (tm_min v) ++ [58] ++ td (tm_sec v)
  else if list_eq_dec Z.eq_dec f FMT_FILE
  then td (tm_mon v + 1) ++ td (tm_mday v) ++ td (tm_hour v) ++ td (tm_min v) ++ td (tm_sec v)
  else [].
Lemma sf_demo_ok : strftime_ok sf_demo.
Proof.
  intros f v. unfold sf_demo.
  assert (D : forall n, text (two_digits (n mod 100)) ) by (intro n; unfold two_digits; repeat constructor; lia).
  assert (C : forall c, c <> 0 -> text [c]) by (intros; repeat constructor; assumption).
  destruct (list_eq_dec Z.eq_dec f FMT_STAMP); [|destruct (list_eq_dec Z.eq_dec f FMT_FILE)].
  - split; [|reflexivity || (rewrite !zlen_app; cbv; discriminate)].
    repeat (apply Forall_app; split); try apply D; apply C; lia.
  - split; [|rewrite !zlen_app; cbv; discriminate]. repeat (apply Forall_app; split); apply D.
  - split; [constructor|cbv; discriminate].
Qed.
Lemma sf_demo_std : strftime_std sf_demo.
Proof.
  intros v (H1 & H2 & H3 & H4 & H5). unfold sf_demo.
  destruct (list_eq_dec Z.eq_dec FMT_STAMP FMT_STAMP) as [_|N]; [|congruence].
  destruct (list_eq_dec Z.eq_dec FMT_FILE FMT_STAMP) as [N|_]; [discriminate|].
  destruct (list_eq_dec Z.eq_dec FMT_FILE FMT_FILE) as [_|N]; [|congruence].
  rewrite !Z.mod_small by lia. split; reflexivity.
Qed.
Definition buf0 : list Z := repeat 1 24.
Definition call_at (sec usec : Z) : call := {| k_fmt := FMT_STAMP; k_tz := 8; k_sec := sec; k_usec := usec; k_str := buf0 |}.
(** two threads miss at different seconds, one fills the cache, a third call hits it with other milliseconds *)
Fixpoint go (sf : strftime_fn) (s : state) (l : list act) : option state :=
  match l with [] => Some s | a :: l => match step sf s a with Some s => go sf s l | None => None end end.
Lemma go_reach sf : forall l s s', (forall tid k, In (Enter tid k) l -> api_call k) -> reach sf s ->
  go sf s l = Some s' -> reach sf s'.
Proof.
  induction l as [|a l IH]; intros s s' Hl R E; cbn [go] in E; [injection E as <-; exact R|].
  destruct (step sf s a) as [s1|] eqn:S; [|discriminate].
  apply (IH s1 s'); [intros; apply (Hl tid); right; assumption| |exact E].
  eapply reach1; [exact R| |exact S]. intros tid k ->. apply (Hl tid). left. reflexivity.
Qed.
Example C34_case : exists s r, reach sf_demo s /\ In (call_at 1709164800 777000, r) (st_log s) /\
  st_cache s 0 <> cache0 /\
  r = Ret ([48;50;45;50;57;32;48;56;58;48;48;58;48;48;46;55;55;55] ++ 0 :: repeat 1 5, 18).
Proof.
  set (l := [Enter 1 (call_at 1709164800 123456); Enter 2 (call_at 1709164799 5); Leave 2; Leave 1;
             Enter 2 (call_at 1709164800 777000)]).
  destruct (go sf_demo init l) as [s|] eqn:E; [|vm_compute in E; discriminate].
  exists s. eexists. split; [|].
  - apply (go_reach sf_demo l init s); [|constructor|exact E].
    intros tid k H. cbn [In l] in H.
    repeat match goal with H : _ \/ _ |- _ => destruct H as [H|H] | H : False |- _ => destruct H
           | H : Leave _ = Enter _ _ |- _ => discriminate H | H : Enter _ _ = Enter _ _ |- _ => injection H as <- <- end;
    (split; [left; reflexivity|reflexivity]).
  - vm_compute in E. injection E as <-. cbn [st_log st_cache]. split; [left; reflexivity|].
    split; [discriminate|reflexivity].
Qed.

(** C34 fails in the first second of the epoch in UTC (a board without a real-time clock): the very first
    call hits the empty cache. With usec = 0 it returns the empty text; with any other usec it writes ".mmm"
    in front of the caller's buffer. *)
Theorem C34_epoch_empty_refuted :
  forall sf, strftime_ok sf -> let k := {| k_fmt := FMT_STAMP; k_tz := 0; k_sec := 0; k_usec := 0; k_str := buf0 |} in
  api_call k /\ exists s, reach sf s /\ st_log s = [(k, Ret (0 :: repeat 1 23, 0))] /\
    exists t, get_time_str_plain sf k = Ret (t, zlen (sf FMT_STAMP (local_time 0 0)) + 4).
Proof.
  intros sf Hs k. assert (A : api_call k) by (split; [left; reflexivity|reflexivity]). split; [exact A|].
  eexists. split; [|].
  - eapply (reach1 sf init (Enter 1 k)); [constructor|intros ? ? E; injection E as <- <-; exact A|].
    vm_compute. reflexivity.
  - split; [reflexivity|]. eexists. apply (plain_ok sf k (local_time 0 0) Hs eq_refl).
    apply second2date_ok; unfold two31; cbn; lia.
Qed.
Print Assumptions C34_epoch_empty_refuted.
Theorem C34_epoch_overflow_refuted :
  forall sf usec, usec <> 0 -> let k := {| k_fmt := FMT_STAMP; k_tz := 0; k_sec := 0; k_usec := usec; k_str := buf0 |} in
  exists s, reach sf s /\ st_log s = [(k, Ub)].
Proof.
  intros sf usec Hu k. exists {| st_cache := st_cache init; st_pend := st_pend init; st_log := [(k, Ub)] |}.
  split; [|reflexivity].
  apply (reach1 sf init (Enter 1 k)); [constructor|intros ? ? E; injection E as <- <-; split; [left; reflexivity|reflexivity]|].
  cbn [step st_pend init]. change (fmt_type (k_fmt k)) with (@Ret Z 0). cbn [bind].
  assert (get_time_str_read sf cache0 k = Ub) as U.
  { unfold get_time_str_read. cbn [c_tz c_sec cache0 k_tz k_sec k]. change (0 =? 0) with true. cbn [andb].
    change (strlcpy (k_str k) (c_text cache0) TIME_STR_SIZE) with (@Ret (list Z * Z) (0 :: repeat 1 23, 0)). cbn [bind].
    cbn [c_usec cache0 k_usec k]. destruct (Z.eqb_spec 0 usec); [congruence|]. reflexivity. }
  change (st_cache init 0) with cache0. rewrite U. reflexivity.
Qed.
Print Assumptions C34_epoch_overflow_refuted.

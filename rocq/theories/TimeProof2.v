From Verif Require Import CBase CStr SeqLib StringsModel StringsProof TimeModel TimeSpec TimeProof.

Definition ms (num : Z) : list Z := [46; 48 + num / 10 / 10 mod 10; 48 + num / 10 mod 10; 48 + num mod 10].
Lemma print_millisec_ok pre x0 x1 x2 x3 x4 post num off : off = zlen pre ->
  print_millisec (pre ++ x0 :: x1 :: x2 :: x3 :: x4 :: post) off num = Ret (pre ++ ms num ++ 0 :: post).
Proof.
  intros ->. unfold print_millisec.
  rewrite (mstore_app pre) by lia. cbn [bind].
  replace ((pre ++ [46]) ++ x1 :: x2 :: x3 :: x4 :: post) with ((pre ++ [46; x1; x2]) ++ x3 :: x4 :: post)
    by (rewrite <- !app_assoc; reflexivity).
  rewrite (mstore_app (pre ++ [46; x1; x2])) by (rewrite zlen_app; reflexivity). cbn [bind].
  set (d3 := 48 + num mod 10).
  replace (((pre ++ [46; x1; x2]) ++ [d3]) ++ x4 :: post) with ((pre ++ [46; x1]) ++ x2 :: d3 :: x4 :: post)
    by (rewrite <- !app_assoc; reflexivity).
  rewrite (mstore_app (pre ++ [46; x1])) by (rewrite zlen_app; reflexivity). cbn [bind].
  set (d2 := 48 + num / 10 mod 10).
  replace (((pre ++ [46; x1]) ++ [d2]) ++ d3 :: x4 :: post) with ((pre ++ [46]) ++ x1 :: d2 :: d3 :: x4 :: post)
    by (rewrite <- !app_assoc; reflexivity).
  rewrite (mstore_app (pre ++ [46])) by (rewrite zlen_app; reflexivity). cbn [bind].
  set (d1 := 48 + num / 10 / 10 mod 10).
  replace (((pre ++ [46]) ++ [d1]) ++ d2 :: d3 :: x4 :: post) with ((pre ++ [46; d1; d2; d3]) ++ x4 :: post)
    by (rewrite <- !app_assoc; reflexivity).
  rewrite (mstore_app (pre ++ [46; d1; d2; d3])) by (rewrite zlen_app; reflexivity).
  f_equal. rewrite <- !app_assoc. reflexivity.
Qed.
Lemma split5 (l : list Z) : 5 <= zlen l -> exists a b c d e r, l = a :: b :: c :: d :: e :: r.
Proof.
  intro H. destruct l as [|a [|b [|c [|d [|e r]]]]]; try (cbv in H; lia || (exfalso; apply H; reflexivity)).
  exists a, b, c, d, e, r. reflexivity.
Qed.
Lemma digit_ne0 n : 0 <= n -> 48 + n mod 10 <> 0. Proof. intro; lia. Qed.
Lemma ms_text num : 0 <= num -> text (ms num).
Proof. intro H. unfold ms. repeat constructor; try lia. Qed.
Lemma millis_nonneg u : 0 <= millis u. Proof. unfold millis, u32, two32. lia. Qed.
Lemma zlen_ms num : zlen (ms num) = 4. Proof. reflexivity. Qed.

(** the whole buffer after an uncached call *)
Definition full (str body : list Z) (usec : Z) : list Z :=
  (body ++ ms (millis usec)) ++ 0 :: zdrop (zlen body + 5) str.
Lemma plain_ok sf k v : strftime_ok sf -> zlen (k_str k) = TIME_STR_SIZE ->
  fast_second2date (k_sec k) (k_tz k) = Ret v ->
  get_time_str_plain sf k = Ret (full (k_str k) (sf (k_fmt k) v) (k_usec k), zlen (sf (k_fmt k) v) + 4).
Proof.
  intros Hs Hl Hv. unfold get_time_str_plain, format_time. rewrite Hv. cbn [bind]. unfold strftime.
  destruct (Hs (k_fmt k) v) as [T L]. set (body := sf (k_fmt k) v) in *. unfold TIME_STR_SIZE in *.
  destruct (Z.leb_spec (zlen body + 1) 24); [|lia].
  pose proof (zlen_nonneg body).
  destruct (split_first_n (zlen body) (k_str k)) as (p & r & E & Ep); [lia|].
  rewrite E in *. rewrite zlen_app in Hl.
  destruct (split5 r) as (a & b & c & d & e & q & ->); [lia|].
  replace (p ++ a :: b :: c :: d :: e :: q) with ([] ++ (p ++ [a]) ++ b :: c :: d :: e :: q) by (rewrite <- app_assoc; reflexivity).
  rewrite mwrite_app by (rewrite ?zlen_snoc; try reflexivity; lia). cbn [bind app].
  rewrite <- app_assoc. cbn [app].
  rewrite print_millisec_ok by reflexivity. cbn [bind]. f_equal. f_equal.
  unfold full. rewrite <- !app_assoc. cbn [app]. do 3 f_equal.
  rewrite <- Ep.
  replace (p ++ a :: b :: c :: d :: e :: q) with ((p ++ [a; b; c; d; e]) ++ q) by (rewrite <- app_assoc; reflexivity).
  replace (zlen p + 5) with (zlen (p ++ [a; b; c; d; e])) by (rewrite zlen_app; reflexivity).
  rewrite zdrop_app_len. reflexivity.
Qed.

Definition good (sf : strftime_fn) (fmt : list Z) (ch : cache) : Prop :=
  exists v rest, fast_second2date (c_sec ch) (c_tz ch) = Ret v /\
    c_text ch = (sf fmt v ++ ms (millis (c_usec ch))) ++ 0 :: rest /\ zlen (c_text ch) = 24.

Lemma read_hit sf ch k : strftime_ok sf -> zlen (k_str k) = TIME_STR_SIZE -> good sf (k_fmt k) ch ->
  c_tz ch = k_tz k -> c_sec ch = k_sec k ->
  exists r, get_time_str_read sf ch k = Ret (Hit r) /\ get_time_str_plain sf k = Ret r.
Proof.
  intros Hs Hl (v & rest & Hv & Ht & H24) Etz Esec. rewrite Etz, Esec in Hv.
  rewrite (plain_ok sf k v Hs Hl Hv). destruct (Hs (k_fmt k) v) as [T L]. set (body := sf (k_fmt k) v) in *.
  unfold get_time_str_read. rewrite Etz, Esec, !Z.eqb_refl. cbn [andb]. rewrite Ht.
  assert (T2 : text (body ++ ms (millis (c_usec ch)))).
  { apply Forall_app. split; [exact T|apply ms_text, millis_nonneg]. }
  rewrite strlcpy_lemma by (try exact T2; unfold TIME_STR_SIZE in *; lia). cbn [bind].
  change (TIME_STR_SIZE =? 0) with false. cbv iota.
  pose proof (zlen_nonneg body).
  rewrite ztake_all by (rewrite zlen_app, zlen_ms; unfold TIME_STR_SIZE; lia).
  rewrite zlen_app, zlen_ms. replace (zlen body + 4 + 1) with (zlen body + 5) by lia.
  destruct (Z.eqb_spec (c_usec ch) (k_usec k)) as [Eu|Nu]; cbn [negb].
  - eexists. split; [reflexivity|]. unfold full. rewrite Eu. reflexivity.
  - rewrite <- app_assoc. unfold ms at 1. cbn [app].
    rewrite print_millisec_ok by lia. cbn [bind]. eexists. split; [reflexivity|].
    unfold full. rewrite <- app_assoc. reflexivity.
Qed.
Lemma read_miss sf ch k : (c_tz ch =? k_tz k) && (c_sec ch =? k_sec k) = false ->
  get_time_str_read sf ch k = do r <- get_time_str_plain sf k; Ret (Miss r).
Proof. unfold get_time_str_read. intros ->. reflexivity. Qed.

Definition ty_of (ty : Z) : list Z := if ty =? 0 then FMT_STAMP else FMT_FILE.
Lemma fmt_type_ok fmt : fmt = FMT_STAMP \/ fmt = FMT_FILE -> exists ty, fmt_type fmt = Ret ty /\ ty_of ty = fmt.
Proof. intros [-> | ->]; eexists; split; reflexivity. Qed.

Lemma fast_not_other t tz : fast_second2date t tz <> Abrt /\ fast_second2date t tz <> NoFuel.
Proof.
  unfold fast_second2date, sint.
  repeat match goal with |- context [if ?b then _ else _] => destruct b; cbn [bind]; [|split; discriminate] end.
  split; discriminate.
Qed.
Lemma plain_cases sf k : strftime_ok sf -> zlen (k_str k) = TIME_STR_SIZE ->
  get_time_str_plain sf k = Ub \/
  exists v, fast_second2date (k_sec k) (k_tz k) = Ret v /\
    get_time_str_plain sf k = Ret (full (k_str k) (sf (k_fmt k) v) (k_usec k), zlen (sf (k_fmt k) v) + 4).
Proof.
  intros Hs Hl. destruct (fast_second2date (k_sec k) (k_tz k)) as [v| | |] eqn:E.
  - right. exists v. split; [reflexivity|]. apply plain_ok; assumption.
  - left. unfold get_time_str_plain, format_time. rewrite E. reflexivity.
  - destruct (fast_not_other (k_sec k) (k_tz k)); congruence.
  - destruct (fast_not_other (k_sec k) (k_tz k)); congruence.
Qed.

Record inv (sf : strftime_fn) (s : state) : Prop := {
  i_cache : forall ty, st_cache s ty = cache0 \/ good sf (ty_of ty) (st_cache s ty);
  i_pend : forall tid k r, st_pend s tid = Some (k, r) -> api_call k /\ get_time_str_plain sf k = Ret r;
  i_log : forall k r, In (k, r) (st_log s) -> (k_sec k = 0 /\ k_tz k = 0) \/ r = get_time_str_plain sf k
}.

Lemma inv_step sf s a s' : strftime_ok sf -> inv sf s -> (forall tid k, a = Enter tid k -> api_call k) ->
  step sf s a = Some s' -> inv sf s'.
Proof.
  intros Hs [Ic Ip Il] Ha E. destruct a as [tid k|tid]; cbn [step] in E.
  - destruct (st_pend s tid) eqn:Ep; [discriminate|]. destruct (Ha tid k eq_refl) as [Hf Hl].
    destruct (fmt_type_ok _ Hf) as (ty & Et & Ety). rewrite Et in E. cbn [bind] in E.
    assert (L : forall r s', Some {| st_cache := st_cache s; st_pend := st_pend s; st_log := (k, r) :: st_log s |} = Some s' ->
      (k_sec k = 0 /\ k_tz k = 0) \/ r = get_time_str_plain sf k -> inv sf s').
    { intros r s1 H1 H2. injection H1 as <-. constructor; cbn [st_cache st_pend st_log]; try assumption.
      intros k1 r1 [I|I]; [injection I as <- <-; exact H2|eauto]. }
    destruct ((c_tz (st_cache s ty) =? k_tz k) && (c_sec (st_cache s ty) =? k_sec k)) eqn:H.
    + destruct (Ic ty) as [E0|G].
      * rewrite E0 in *. cbn [c_tz c_sec cache0] in H.
        assert (k_sec k = 0 /\ k_tz k = 0) as Z0 by lia.
        destruct (get_time_str_read sf cache0 k) as [[r|r]| | |] eqn:R; try (eapply L; [exact E|left; exact Z0]).
        exfalso. unfold get_time_str_read in R. cbn [c_tz c_sec cache0] in R. rewrite H in R.
        destruct (strlcpy _ _ _) as [[x y]| | |]; cbn [bind] in R; try discriminate.
        destruct (negb _); [|discriminate]. destruct (print_millisec _ _ _); discriminate.
      * rewrite Ety in G. destruct (read_hit sf (st_cache s ty) k Hs Hl G) as (r & R & P); [lia|lia|].
        rewrite R in E. eapply L; [exact E|]. right. symmetry. exact P.
    + rewrite (read_miss _ _ _ H) in E. destruct (plain_cases sf k Hs Hl) as [P|(v & Hv & P)]; rewrite P in E; cbn [bind] in E.
      * eapply L; [exact E|]. right. symmetry. exact P.
      * injection E as <-. constructor; cbn [st_cache st_pend st_log]; try assumption.
        intros t1 k1 r1. unfold setf. destruct (t1 =? tid); [|apply Ip].
        intro I. injection I as <- <-. split; [split; assumption|exact P].
  - destruct (st_pend s tid) as [[k [str n]]|] eqn:Ep; [|discriminate].
    destruct (Ip _ _ _ Ep) as [[Hf Hl] P].
    destruct (fmt_type_ok _ Hf) as (ty & Et & Ety). rewrite Et in E.
    assert (exists ch, get_time_str_write (st_cache s ty) k str = Ret ch /\ (ch = cache0 \/ good sf (k_fmt k) ch)) as (ch & W & G).
    { unfold get_time_str_write. destruct (negb (c_sec (st_cache s ty) =? k_sec k)).
      - destruct (plain_cases sf k Hs Hl) as [P'|(v & Hv & P')]; rewrite P in P'; [discriminate|].
        injection P' as -> ->. unfold full. destruct (Hs (k_fmt k) v) as [T L]. set (body := sf (k_fmt k) v) in *.
        assert (T2 : text (body ++ ms (millis (k_usec k)))).
        { apply Forall_app. split; [exact T|apply ms_text, millis_nonneg]. }
        assert (C24 : zlen (c_text (st_cache s ty)) = 24).
        { destruct (Ic ty) as [->|(v1 & r1 & _ & _ & Hz)]; [reflexivity|exact Hz]. }
        pose proof (zlen_nonneg body).
        rewrite strlcpy_lemma by (try exact T2; rewrite C24; unfold TIME_STR_SIZE; lia). cbn [bind].
        change (TIME_STR_SIZE =? 0) with false. cbv iota.
        rewrite ztake_all by (rewrite zlen_app, zlen_ms; unfold TIME_STR_SIZE; lia).
        eexists. split; [reflexivity|]. right. exists v. eexists. cbn [c_sec c_tz c_usec c_text].
        split; [exact Hv|]. split; [reflexivity|].
        rewrite zlen_app, zlen_cons, zlen_app, zlen_ms, zlen_zdrop by (rewrite C24; lia). rewrite C24. lia.
      - eexists. split; [reflexivity|]. rewrite <- Ety. apply Ic. }
    rewrite W in E. injection E as <-. constructor; cbn [st_cache st_pend st_log].
    + intro t1. unfold setf. destruct (Z.eqb_spec t1 ty) as [->|N]; [rewrite Ety; exact G|apply Ic].
    + intros t1 k1 r1. unfold setf. destruct (t1 =? tid); [discriminate|apply Ip].
    + intros k1 r1 [I|I]; [injection I as <- <-; right; symmetry; exact P|apply Il; exact I].
Qed.
Lemma inv_reach sf s : strftime_ok sf -> reach sf s -> inv sf s.
Proof.
  intros Hs R. induction R as [|s a s' R IH Ha E].
  - constructor; cbn; [intros; left; reflexivity|discriminate|contradiction].
  - eapply inv_step; eassumption.
Qed.

Lemma next_normal x y m d : (y, m, d) = x -> 1 <= m <= 12 -> 1 <= d <= 31 ->
  let '(y', m', d') := next_day x in 1 <= m' <= 12 /\ 1 <= d' <= 31.
Proof.
  intros <- Hm Hd. unfold next_day.
  assert (month_days y m <= 31).
  { unfold month_days. repeat match goal with |- context [if ?b then _ else _] => destruct b end; lia. }
  repeat match goal with |- context [if ?b then _ else _] => destruct b eqn:? end; lia.
Qed.
Lemma date_normal n : let '(y, m, d) := date_of n in 1 <= m <= 12 /\ 1 <= d <= 31.
Proof.
  unfold date_of. induction (Z.to_nat n) as [|k IH]; [cbn; lia|]. cbn [Nat.iter nat_rect].
  change (nat_rect _ (1970, 1, 1) _ k) with (Nat.iter k next_day (1970, 1, 1)).
  destruct (Nat.iter k next_day (1970, 1, 1)) as [[y m] d]. apply (next_normal _ y m d eq_refl); lia.
Qed.
Lemma local_normal t tz : tm_normal (local_time t tz).
Proof.
  unfold local_time, tm_normal. pose proof (date_normal ((t + 3600 * tz) / 86400)) as H.
  destruct (date_of _) as [[y m] d]. cbn [tm_sec tm_min tm_hour tm_mday tm_mon]. lia.
Qed.

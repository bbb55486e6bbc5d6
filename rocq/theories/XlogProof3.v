(** Proofs about the xlog model: settings, time stamp, header, the whole record. *)
From Verif Require Import CBase SeqLib CStr StringsModel StringsProof TimeModel TimeSpec TimeProof TimeProof2
  FileProof2 StrParamsProof XlogModel XlogSpec XlogProof XlogProof2.

(** ** settings *)
Lemma latest_snoc {V} (f : op -> option V) d l o :
  latest f d (l ++ [o]) = match f o with Some v => v | None => latest f d l end.
Proof. revert d; induction l as [|p l IH]; intro d; cbn [app latest]; [reflexivity|apply IH]. Qed.
Lemma sets_snoc c l o : sets c (l ++ [o]) = do c <- sets c l; set c o.
Proof.
  revert c; induction l as [|p l IH]; intro c; cbn [app sets bind].
  - destruct (set c o); reflexivity.
  - destruct (set c p); cbn [bind]; [apply IH|reflexivity..].
Qed.
Record agrees (h : list op) (dtag : list Z) (c : cfg) : Prop := {
  a_min : x_min c = min_level h; a_up : x_up c = up_level h; a_target : x_target c = target h;
  a_format : x_format c = format h; a_tz : x_tz c = zone h; a_cb : x_cb c = has_cb h; a_flush : x_flush c = flush h;
  a_console : x_console c = Z.testbit (target h) 2; a_usercb : x_usercb c = Z.testbit (target h) 3;
  a_stamp : x_stamp c = Z.testbit (format h) 1; a_taglevel : x_taglevel c = Z.testbit (format h) 2; a_tid : x_tid c = Z.testbit (format h) 3;
  a_tag : exists r, x_tag c = dtag ++ 0 :: r; a_tagtext : text dtag; a_taglen : zlen (x_tag c) = 24;
  a_rup : 0 <= up_level h <= 6; a_rtz : -12 <= zone h <= 12; a_rmin : 0 <= min_level h <= 5;
  a_rfmt : 0 <= format h; a_rtgt : 0 <= target h
}.
Lemma land_bit a k p : 0 <= k -> p = 2 ^ k -> negb (Z.land a p =? 0) = Z.testbit a k.
Proof.
  intros Hk ->. destruct (Z.testbit a k) eqn:E.
  - destruct (Z.eqb_spec (Z.land a (2 ^ k)) 0) as [X|X]; [|reflexivity].
    assert (Z.testbit (Z.land a (2 ^ k)) k = false) as Y by (rewrite X; apply Z.bits_0).
    rewrite Z.land_spec, Z.pow2_bits_true, E in Y by lia. discriminate.
  - assert (Z.land a (2 ^ k) = 0) as ->; [|reflexivity]. apply Z.bits_inj'. intros n Hn.
    rewrite Z.land_spec, Z.bits_0. destruct (Z.eq_dec k n) as [->|N]; [rewrite E; reflexivity|].
    rewrite Z.pow2_bits_false by lia. apply andb_false_r.
Qed.
Lemma agrees0 : agrees [] [88;76;111;103] cfg0.
Proof.
  constructor; try reflexivity; try (vm_compute; split; congruence); try (vm_compute; congruence).
  - exists (repeat 0 19). reflexivity.
  - repeat constructor; lia.
Qed.
Lemma text_ztake n t : text t -> text (ztake n t).
Proof. intro T. rewrite <- (ztake_zdrop n t) in T. apply Forall_app in T. apply T. Qed.
Lemma agrees_tag h dtag c b t : agrees h dtag c -> cblock t b ->
  exists c', set c (SetTag (Some b)) = Ret c' /\ agrees (h ++ [SetTag (Some b)]) (ztake 23 t) c'.
Proof.
  intros A [T [r ->]]. cbn [set]. rewrite strlcpy_lemma by (try exact T; rewrite (a_taglen _ _ _ A); unfold TAG_MAX; lia).
  cbn [bind]. change (TAG_MAX =? 0) with false. cbv iota. eexists. split; [reflexivity|].
  change (TAG_MAX - 1) with 23.
  destruct A. constructor; cbn [x_min x_up x_tag x_cb x_target x_format x_flush x_tz x_console x_usercb x_stamp x_taglevel x_tid];
    unfold min_level, up_level, target, format, zone, has_cb, flush in *; rewrite ?latest_snoc; try assumption.
  - eexists. reflexivity.
  - apply text_ztake; exact T.
  - rewrite zlen_app, zlen_cons, zlen_zdrop by (rewrite a_taglen0, zlen_ztake_le; pose proof (zlen_nonneg t); lia). lia.
Qed.
Lemma agrees_keep h dtag c o : agrees h dtag c -> op_ok o -> (forall b, o <> SetTag (Some b)) ->
  exists c', set c o = Ret c' /\ agrees (h ++ [o]) dtag c'.
Proof.
  intros A Ho No.
  destruct o as [l|[b|]|tz|b|t|l|f|m]; [|exfalso; apply (No b); reflexivity|..]; cbn [set];
   repeat match goal with |- context [if ?b then Ret _ else Ret _] => let E := fresh "E" in destruct b eqn:E end;
   (eexists; split; [reflexivity|]);
   destruct A; constructor; cbn [x_min x_up x_tag x_cb x_target x_format x_flush x_tz x_console x_usercb x_stamp x_taglevel x_tid op_ok] in *;
    unfold min_level, up_level, target, format, zone, has_cb, flush in *; rewrite ?latest_snoc; try assumption;
    repeat match goal with |- context [if ?b then Some _ else None] => let E := fresh "E" in destruct b eqn:E end;
    try assumption; try reflexivity; try lia; try (apply land_bit; [lia|reflexivity]); try (rewrite <- land_bit with (k := 2) (p := 4); lia).
Qed.
Lemma history h dtag : default_tag h dtag -> Forall op_ok h -> exists c, sets cfg0 h = Ret c /\ agrees h dtag c.
Proof.
  induction 1 as [|l b t D IH t' B|l o t D IH N]; intro F.
  - exists cfg0. split; [reflexivity|exact agrees0].
  - apply Forall_app in F as [F _]. destruct (IH F) as (c & S & A). rewrite sets_snoc, S. cbn [bind].
    exact (agrees_tag l t c b t' A B).
  - apply Forall_app in F as [F Fo]. destruct (IH F) as (c & S & A). rewrite sets_snoc, S. cbn [bind].
    apply agrees_keep; [exact A|apply Forall_cons_iff in Fo; apply Fo|exact N].
Qed.
(** every history has exactly one default tag *)
Lemma default_tag_exists h : Forall op_ok h -> exists t, default_tag h t.
Proof.
  induction h as [|o h IH] using rev_ind; intro F; [eexists; constructor|].
  apply Forall_app in F as [F Fo]. apply Forall_cons_iff in Fo as [Fo _]. destruct (IH F) as [t D].
  destruct o as [l|[b|]|tz|b|t0|l|f|m]; try (exists t; apply tag_keep; [exact D|congruence]).
  destruct Fo as [t' B]. exists (ztake 23 t'). eapply tag_set; eassumption.
Qed.

(** ** the time stamp *)
Lemma second2date_total t tz : -12 <= tz <= 12 -> exists v, fast_second2date t tz = Ret v.
Proof.
  intro Hz. unfold fast_second2date. cbv zeta.
  assert (- two31 <= s32 t < two31) as B by (unfold s32, u32, two32, two31; destruct (Z.ltb_spec (t mod 4294967296) 2147483648); lia).
  set (u := s32 t) in *. clearbody u. unfold two31 in B.
  assert (Q : forall a k, 0 < k -> - (Z.abs a / k) <= Z.quot a k <= Z.abs a / k).
  { intros a k Hk. destruct (Z_le_dec 0 a) as [L|L].
    - rewrite Z.quot_div_nonneg by lia. rewrite Z.abs_eq by lia. assert (0 <= a / k) by (apply Z.div_pos; lia). lia.
    - replace a with (- (- a)) by lia. rewrite Z.quot_opp_l by lia. rewrite Z.quot_div_nonneg by lia.
      rewrite Z.abs_opp, Z.abs_eq by lia. assert (0 <= - a / k) by (apply Z.div_pos; lia). lia. }
  Ltac nxt Q := match goal with
   | |- context [Z.quot ?a ?k] => let q := fresh "q" in let B := fresh "B" in
       pose proof (Q a k ltac:(lia)) as B; set (q := Z.quot a k) in *; clearbody q
   end.
  Ltac go := match goal with |- context [sint ?x] => rewrite (sint_ok x) by (unfold two31; lia); cbn [bind] end.
  set (q1 := Z.quot u 60). assert (-35791395 <= q1 <= 35791395) by (unfold q1; pose proof (Q u 60 ltac:(lia)); lia). clearbody q1.
  set (q2 := Z.quot q1 60). assert (-596524 <= q2 <= 596524) by (unfold q2; pose proof (Q q1 60 ltac:(lia)); lia). clearbody q2.
  go. set (q3 := Z.quot (q2 + tz) 24). assert (-24856 <= q3 <= 24856) by (unfold q3; pose proof (Q (q2 + tz) 24 ltac:(lia)); lia). clearbody q3.
  do 2 go. set (b := Z.quot ((q3 + 2472632) * 4 + 3) 146097).
  assert (0 <= b <= 69) by (unfold b; rewrite Z.quot_div_nonneg by lia; lia).
  assert (Eb : b = ((q3 + 2472632) * 4 + 3) / 146097) by (unfold b; apply Z.quot_div_nonneg; lia). clearbody b.
  go. set (c := Z.quot (- b * 146097) 4 + (q3 + 2472632)).
  assert (Ec : c = - (b * 146097 / 4) + (q3 + 2472632)).
  { unfold c. replace (- b * 146097) with (- (b * 146097)) by lia. rewrite Z.quot_opp_l, Z.quot_div_nonneg by lia. reflexivity. }
  assert (0 <= c <= 36525) by lia. clearbody c. do 2 go.
  set (d := Z.quot (c * 4 + 3) 1461). assert (Ed : d = (c * 4 + 3) / 1461) by (unfold d; apply Z.quot_div_nonneg; lia). clearbody d.
  assert (0 <= d <= 100) by lia. go. set (e := Z.quot (- d * 1461) 4 + c).
  assert (Ee : e = - (d * 1461 / 4) + c).
  { unfold e. replace (- d * 1461) with (- (d * 1461)) by lia. rewrite Z.quot_opp_l, Z.quot_div_nonneg by lia. reflexivity. }
  assert (0 <= e <= 366) by lia. clearbody e. do 2 go.
  set (m := Z.quot (5 * e + 2) 153). assert (Em : m = (5 * e + 2) / 153) by (unfold m; apply Z.quot_div_nonneg; lia). clearbody m.
  assert (0 <= m <= 12) by lia. go.
  set (x := Z.quot (- (153 * m + 2)) 5). assert (-400 <= x <= 400) by (unfold x; pose proof (Q (- (153 * m + 2)) 5 ltac:(lia)); lia). clearbody x.
  go. set (y := Z.quot (- m) 10). assert (-2 <= y <= 2) by (unfold y; pose proof (Q (- m) 10 ltac:(lia)); lia). clearbody y.
  go. set (w := Z.quot m 10). assert (-2 <= w <= 2) by (unfold w; pose proof (Q m 10 ltac:(lia)); lia). clearbody w.
  go. eexists. reflexivity.
Qed.
Lemma stamp_ok sf e tz buf : strftime_ok sf -> -12 <= tz <= 12 -> 24 <= zlen buf ->
  exists st rest, stamp sf e tz buf = Ret (st ++ 0 :: rest, zlen st) /\ zlen st + 1 + zlen rest = zlen buf /\
    4 <= zlen st <= 23 /\ text st /\
    (strftime_std sf -> 0 <= e_sec e < 2 ^ 31 -> 0 <= e_sec e / 3600 + tz -> 0 <= e_usec e < 1000000 ->
     st = stamp_text (e_sec e) (e_usec e) tz).
Proof.
  intros Hs Hz Hb. destruct (second2date_total (e_sec e) tz Hz) as [v Hv].
  unfold stamp. set (k := {| k_fmt := FMT_STAMP; k_tz := tz; k_sec := e_sec e; k_usec := e_usec e; k_str := ztake TIME_STR_SIZE buf |}).
  assert (zlen (k_str k) = TIME_STR_SIZE) as Lk by (cbn [k_str k]; apply zlen_ztake; unfold TIME_STR_SIZE; lia).
  rewrite (plain_ok sf k v Hs Lk Hv). cbn [bind]. destruct (Hs FMT_STAMP v) as [T L].
  change (k_fmt k) with FMT_STAMP. change (k_usec k) with (e_usec e). change (k_str k) with (ztake TIME_STR_SIZE buf).
  set (body := sf FMT_STAMP v) in *. pose proof (zlen_nonneg body).
  exists (body ++ ms (millis (e_usec e))), (zdrop (zlen body + 5) (ztake TIME_STR_SIZE buf) ++ zdrop TIME_STR_SIZE buf).
  rewrite !zlen_app, zlen_ms. split; [unfold full; rewrite <- !app_assoc; f_equal|].
  split; [|split; [lia|split; [apply Forall_app; split; [exact T|apply ms_text, millis_nonneg]|]]].
  - rewrite !zlen_zdrop, zlen_ztake by (rewrite ?zlen_ztake; unfold TIME_STR_SIZE; lia). unfold TIME_STR_SIZE. lia.
  - intros Hstd H1 H2 Hu. assert (v = local_time (e_sec e) tz) as ->.
    { change (2 ^ 31) with 2147483648 in H1.
      assert (e_sec e / 3600 <= e_sec e) by (apply Z.div_le_upper_bound; lia).
      assert (e_sec e / 3600 < 600000) by (apply Z.div_lt_upper_bound; lia).
      pose proof (second2date_ok (e_sec e) tz) as X. rewrite X in Hv; [|exact H1|unfold two31; split; [exact H2|lia]]. injection Hv as <-. reflexivity. }
    unfold body, stamp_text. destruct (Hstd (local_time (e_sec e) tz) (local_normal _ _)) as [S1 _]. rewrite S1.
    assert (ms (millis (e_usec e)) = dot_millis (e_usec e)) as ->.
    { unfold ms, dot_millis, millis, u32, two32. rewrite Z.quot_div_nonneg by lia.
      rewrite (Z.mod_small (e_usec e / 1000)) by lia.
      assert (0 <= e_usec e / 1000 < 1000) as B by lia. set (n := e_usec e / 1000) in *. clearbody n.
      assert (n / 10 / 10 mod 10 = n / 100) as -> by lia. reflexivity. }
    rewrite <- !app_assoc. reflexivity.
Qed.

(** C55: time_rfc1123.c, time_rfc2822.c *)
From Verif Require Import CBase CStr SeqLib TimeModel TimeSpec TimeProof TimeProof2 XlogProof4 RfcModel RfcSpec RfcProof.

(** The library's calendar, for any number of days before or after the epoch *)
Theorem C55_calendar : date_at 0 = (1970, 1, 1) /\ (forall n, date_at (n + 1) = next_day (date_at n)) /\ (forall n k, date_at n = date_at k -> n = k) /\
  (forall t, 1000 <= year_of t <= 9999 <-> -30610224000 <= t <= 253402300799).
Proof. split; [reflexivity|]. split; [exact date_next|]. split; [exact date_inj | exact year_range]. Qed.

Lemma mwrite0 : forall buf s : list Z, zlen s <= zlen buf -> mwrite buf 0 s = Ret (s ++ zdrop (zlen s) buf).
Proof. intros buf s L. rewrite mwrite_ok by lia. reflexivity. Qed.
Lemma expand1123 : forall l v, expand l v FMT1123 =
  [45;45;45] ++ ([44;32] ++ two_digits (g_mday v) ++ [32]) ++ [45;45;45] ++ ([32] ++ signed (g_year v + 1900) ++ [32] ++ two_digits (g_hour v) ++ [58] ++ two_digits (g_min v) ++ [58] ++ two_digits (g_sec v) ++ [32;71;77;84]).
Proof. intros l v. unfold FMT1123. cbn [expand Z.eqb Pos.eqb]. unfold directive. cbn [Z.eqb Pos.eqb]. rewrite <- ?app_assoc, ?app_nil_r. reflexivity. Qed.
Lemma expand2822 : forall l v z f, f = 32 :: z -> expand l v ([37;97;44;32;37;100;32;37;98;32;37;89;32;37;84] ++ f) =
  l_day l (g_wday v) ++ [44;32] ++ two_digits (g_mday v) ++ [32] ++ l_mon l (g_mon v) ++ [32] ++ signed (g_year v + 1900) ++ [32] ++ (two_digits (g_hour v) ++ [58] ++ two_digits (g_min v) ++ [58] ++ two_digits (g_sec v)) ++ expand l v f.
Proof. intros l v z f _. cbn [app expand Z.eqb Pos.eqb]. unfold directive. cbn [Z.eqb Pos.eqb]. rewrite <- ?app_assoc. reflexivity. Qed.
Lemma signed4 : forall y, 1000 <= y <= 9999 -> signed y = four_digits y.
Proof. intros y Y. unfold signed. replace (y <? 0) with false by lia. apply dec4, Y. Qed.

(** ** time_rfc1123: for every time of the years 1000 to 9999 the text is the one RFC 1123 asks for, whatever the
    locale; it fills 29 bytes and a terminator, nothing behind is touched. *)
Theorem C55_rfc1123 : forall l junk uninit t buf size, 1000 <= year_of t <= 9999 -> SIZE1123 <= size -> size <= zlen buf ->
  time_rfc1123 l junk uninit t (Some buf) size = Ret (Some (rfc_text GMT t ++ [0] ++ zdrop 30 buf), 0) /\
  text (rfc_text GMT t) /\ zlen (rfc_text GMT t) = 29.
Proof.
  intros l junk uninit t buf size Y S L. destruct (gmtime_ok t ltac:(lia)) as (v & G & E1 & E2 & E3 & E4 & R1 & R2 & R3 & E5 & E6 & E7).
  destruct (day_len (weekday t) ltac:(rewrite <- E4; lia)) as (D1 & D2 & D3).
  destruct (mon_len (month_of t) ltac:(lia)) as (M1 & M2 & M3).
  assert (T : rfc_text GMT t = day_name (weekday t) ++ ([44;32] ++ two_digits (g_mday v) ++ [32]) ++ month_name (month_of t) ++ ([32] ++ signed (g_year v + 1900) ++ [32] ++ two_digits (g_hour v) ++ [58] ++ two_digits (g_min v) ++ [58] ++ two_digits (g_sec v) ++ [32;71;77;84])).
  { unfold rfc_text, date_text, clock. rewrite <- ?app_assoc. rewrite E1, E3, E5, E6, E7, signed4 by exact Y. reflexivity. }
  assert (Z29 : zlen (rfc_text GMT t) = 29).
  { rewrite T, !zlen_app, D2, M2, E3, signed4 by exact Y. reflexivity. }
  split; [|split; [|exact Z29]].
  - unfold time_rfc1123. replace (size <? SIZE1123) with false by lia. rewrite G. unfold strftime. unfold SIZE1123 in *.
    assert (LE : zlen (expand l v FMT1123) = 29) by (rewrite expand1123, !zlen_app, E3, signed4 by exact Y; reflexivity).
    rewrite LE. change (29 + 1 <=? 30) with true. cbv iota. rewrite mwrite0 by (rewrite zlen_app, LE; change (zlen [0]) with 1; lia).
    rewrite zlen_app, LE. change (29 + zlen [0]) with 30. cbn [bind]. rewrite E4, D3. cbn [bind]. rewrite expand1123, <- !app_assoc.
    rewrite ztake_all by lia. 
    match goal with |- context [mwrite ([45;45;45] ++ ?r) 0 ?s] => change (mwrite ([45;45;45] ++ r) 0 s) with (mwrite ([] ++ [45;45;45] ++ r) 0 s); rewrite (mwrite_app [] s [45;45;45] r) by (rewrite ?D2; reflexivity) end.
    cbn [bind]. rewrite (app_nil_l (day_name _)). rewrite E2, M3. cbn [bind].
    rewrite ztake_all by lia.
    match goal with |- context [mwrite (?d ++ [44;32] ++ ?m ++ [32] ++ [45;45;45] ++ ?r) 8 ?s] =>
      replace (d ++ [44;32] ++ m ++ [32] ++ [45;45;45] ++ r) with ((d ++ [44;32] ++ m ++ [32]) ++ [45;45;45] ++ r) by (rewrite <- !app_assoc; reflexivity);
      rewrite (mwrite_app (d ++ [44;32] ++ m ++ [32]) s [45;45;45] r); [|rewrite zlen_app, D2; reflexivity | rewrite M2; reflexivity] end. cbn [bind].
    rewrite T, <- !app_assoc. reflexivity.
  - rewrite T. repeat (apply text_app; split); try (apply two_text; rewrite ?E5, ?E6, ?E7; clear -R1; lia); try assumption;
      try (repeat (apply Forall_cons; [discriminate|]); apply Forall_nil).
    rewrite E3. unfold signed. replace (year_of t <? 0) with false by lia. apply text_decimal. lia.
Qed.
(** a short buffer or none: -1, nothing written *)
Theorem C55_rfc1123_refuses : forall l junk uninit t out size, out = None \/ size < SIZE1123 -> time_rfc1123 l junk uninit t out size = Ret (out, -1).
Proof. intros l junk uninit t [buf|] size H; [|reflexivity]. unfold time_rfc1123. destruct H as [H|H]; [discriminate|]. replace (size <? SIZE1123) with true by lia. reflexivity. Qed.
(** for every time gmtime_r can represent the call is defined and stays within the first 30 bytes *)
Lemma zlen_mapseq : forall (f : nat -> Z) m, 0 <= m -> zlen (map f (seq 0 (Z.to_nat m))) = m.
Proof. intros f m M. unfold zlen. rewrite map_length, seq_length. lia. Qed.
Lemma strftime_in : forall l junk buf max f v, 0 <= max <= zlen buf -> exists b, strftime l junk buf max f v = Ret b /\ zlen b = zlen buf /\ zdrop max b = zdrop max buf.
Proof.
  intros l junk buf max f v M. unfold strftime. destruct (zlen (expand l v f) + 1 <=? max) eqn:E.
  - apply Z.leb_le in E. rewrite mwrite0 by (rewrite zlen_app; change (zlen [0]) with 1; lia). eexists. split; [reflexivity|].
    set (s := expand l v f ++ [0]). assert (Z : zlen s = zlen (expand l v f) + 1) by (unfold s; rewrite zlen_app; reflexivity). pose proof (zlen_nonneg (expand l v f)).
    split; [rewrite zlen_app, zlen_zdrop by lia; lia|]. rewrite zdrop_app, zdrop_all by lia. cbn [app]. rewrite zdrop_zdrop by lia. f_equal. lia.
  - rewrite mwrite0 by (rewrite zlen_mapseq; lia). rewrite zlen_mapseq by lia. eexists. split; [reflexivity|].
    split; [rewrite zlen_app, zlen_zdrop, zlen_mapseq by lia; lia|]. rewrite zdrop_app, zdrop_all by (rewrite zlen_mapseq; lia). rewrite zlen_mapseq by lia. cbn [app]. rewrite zdrop_zdrop by lia. f_equal. lia.
Qed.
Lemma gmtime_fields : forall t v, gmtime_r t = Some v -> 0 <= g_wday v < 7 /\ 0 <= g_mon v <= 11.
Proof.
  intros t v G. unfold gmtime_r in G. pose proof (date_valid (t / 86400)) as V. destruct (date_at (t / 86400)) as [[y m] d]. destruct (int_ok _); [|discriminate]. injection G as <-.
  cbn [g_wday g_mon]. pose proof (Z.mod_pos_bound (t / 86400 + 4) 7 ltac:(lia)). lia.
Qed.
Theorem C55_rfc1123_bounds : forall l junk uninit t buf size, gmtime_r t <> None -> SIZE1123 <= size <= zlen buf ->
  exists b, time_rfc1123 l junk uninit t (Some buf) size = Ret (Some b, 0) /\ zlen b = zlen buf /\ zdrop 30 b = zdrop 30 buf.
Proof.
  intros l junk uninit t buf size G S. destruct (gmtime_r t) as [v|] eqn:E; [|congruence]. destruct (gmtime_fields t v E) as (W & M).
  unfold time_rfc1123. replace (size <? SIZE1123) with false by lia. rewrite E. unfold SIZE1123 in *.
  destruct (strftime_in l junk buf 30 FMT1123 v ltac:(lia)) as (b & B1 & B2 & B3). rewrite B1. cbn [bind].
  destruct (day_len (g_wday v) ltac:(lia)) as (_ & D2 & D3). rewrite D3. cbn [bind]. rewrite ztake_all by lia.
  destruct (mon_len (g_mon v + 1) ltac:(lia)) as (_ & M2 & M3). replace (g_mon v + 1 - 1) with (g_mon v) in M3 by lia. rewrite M3. cbn [bind].
  rewrite mwrite_ok by lia. cbn [bind]. rewrite ztake_all by lia. assert (L1 : zlen (zwrite 0 (day_name (g_wday v)) b) = zlen b) by (apply zlen_zwrite; lia).
  rewrite mwrite_ok by lia. cbn [bind]. eexists. split; [reflexivity|].
  assert (K : forall off s (x : list Z), 0 <= off -> off + zlen s <= 30 -> 30 <= zlen x -> zdrop 30 (zwrite off s x) = zdrop 30 x).
  { clear. intros off s x O L X. pose proof (zlen_nonneg s). unfold zwrite. rewrite zdrop_app, zdrop_all by (rewrite zlen_ztake by lia; lia). cbn [app]. rewrite zlen_ztake by lia.
    rewrite zdrop_app, zdrop_all by lia. cbn [app]. rewrite zdrop_zdrop by lia. f_equal. lia. }
  split; [rewrite zlen_zwrite; lia|]. rewrite !K; lia || assumption.
Qed.

(** ** time_rfc2822 and time_rfc2822_utc: the date text with the names of the locale, for locales with names of
    three letters; in the C locale exactly RFC 2822's text, and the zone is always +0000 (the header promises the
    local one). *)
Lemma rfc2822_ok : forall min f z l junk uninit t buf size, 1000 <= year_of t <= 9999 -> small_locale l -> min <= size <= zlen buf ->
  (forall v, expand l v (32 :: z) = [32] ++ f) -> text f -> zlen f + 26 < min ->
  rfc2822 min ([37;97;44;32;37;100;32;37;98;32;37;89;32;37;84] ++ 32 :: z) l junk uninit t (Some buf) size =
    Ret (Some (date_text (l_day l (weekday t)) (l_mon l (month_of t - 1)) f t ++ [0] ++ zdrop (27 + zlen f) buf), 0) /\
  text (date_text (l_day l (weekday t)) (l_mon l (month_of t - 1)) f t) /\ zlen (date_text (l_day l (weekday t)) (l_mon l (month_of t - 1)) f t) = 26 + zlen f.
Proof.
  intros min f z l junk uninit t buf size Y (LD & LM & LZ & LZ5) S F TF ZF.
  destruct (gmtime_ok t ltac:(lia)) as (v & G & E1 & E2 & E3 & E4 & R1 & R2 & R3 & E5 & E6 & E7).
  destruct (LD (weekday t) ltac:(rewrite <- E4; lia)) as (D1 & D2). destruct (LM (month_of t - 1) ltac:(lia)) as (M1 & M2).
  assert (T : expand l v ([37;97;44;32;37;100;32;37;98;32;37;89;32;37;84] ++ 32 :: z) = date_text (l_day l (weekday t)) (l_mon l (month_of t - 1)) f t).
  { rewrite (expand2822 l v z) by reflexivity. rewrite F, E1, E2, E3, E4, E5, E6, E7, signed4 by exact Y. unfold date_text, clock. rewrite <- ?app_assoc. reflexivity. }
  assert (ZL : zlen (date_text (l_day l (weekday t)) (l_mon l (month_of t - 1)) f t) = 26 + zlen f).
  { unfold date_text, clock. rewrite !zlen_app, D2, M2. 
    unfold four_digits. rewrite zlen_app. unfold two_digits, bytes. cbn [String.list_ascii_of_string map]. rewrite !zlen_cons. change (zlen (@nil Z)) with 0. lia. }
  pose proof (zlen_nonneg f). split; [|split; [|exact ZL]].
  - unfold rfc2822. replace (size <? min) with false by lia. unfold time_strf. rewrite G. unfold mstore. rewrite mwrite0 by (rewrite !zlen_cons; change (zlen (@nil Z)) with 0; lia). cbn [bind].
    unfold strftime. rewrite T, ZL. replace (26 + zlen f + 1 <=? size) with true by lia.
    rewrite mwrite0; [|rewrite !zlen_app, ZL, zlen_zdrop by (change (zlen [0]) with 1; lia); change (zlen [0]) with 1; lia]. cbn [bind]. rewrite !zlen_app, ZL.
    change (zlen [0]) with 1. rewrite <- app_assoc. rewrite (zdrop_app _ [0]). rewrite (zdrop_all _ [0]) by (change (zlen [0]) with 1; lia). change (zlen [0]) with 1. rewrite zdrop_zdrop by lia. cbn [app].
    replace (26 + zlen f + 1 - 1 + 1) with (27 + zlen f) by lia. reflexivity.
  - unfold date_text, clock, four_digits. repeat (apply text_app; split); try assumption; try (repeat (apply Forall_cons; [discriminate|]); apply Forall_nil);
      apply two_text; try (clear -Y; lia). rewrite <- E1. lia.
Qed.
Theorem C55_rfc2822 : forall l junk uninit t buf size, 1000 <= year_of t <= 9999 -> small_locale l -> SIZE2822 <= size <= zlen buf ->
  time_rfc2822 l junk uninit t (Some buf) size = Ret (Some (date_text (l_day l (weekday t)) (l_mon l (month_of t - 1)) (l_zone l) t ++ [0] ++ zdrop (27 + zlen (l_zone l)) buf), 0).
Proof.
  intros l junk uninit t buf size Y L S. apply (rfc2822_ok SIZE2822 (l_zone l) [37; 122] l junk uninit t buf size Y L S).
  - intros v. cbn [expand Z.eqb Pos.eqb]. unfold directive. cbn [Z.eqb Pos.eqb]. rewrite app_nil_r. reflexivity.
  - apply L.
  - unfold SIZE2822. pose proof (proj2 (proj2 (proj2 L))). lia.
Qed.
Theorem C55_rfc2822_utc : forall l junk uninit t buf size, 1000 <= year_of t <= 9999 -> small_locale l -> SIZE2822_UTC <= size <= zlen buf ->
  time_rfc2822_utc l junk uninit t (Some buf) size = Ret (Some (date_text (l_day l (weekday t)) (l_mon l (month_of t - 1)) UTC t ++ [0] ++ zdrop 30 buf), 0).
Proof.
  intros l junk uninit t buf size Y L S. apply (rfc2822_ok SIZE2822_UTC UTC [85; 84; 67] l junk uninit t buf size Y L S).
  - reflexivity.
  - repeat (apply Forall_cons; [discriminate|]); apply Forall_nil.
  - reflexivity.
Qed.
Lemma C_small : small_locale C_locale.
Proof.
  split; [intros w W; destruct (day_len w W) as (A & B & _); split; assumption|].
  split; [intros m M; destruct (mon_len (m + 1) ltac:(lia)) as (A & B & _); split; assumption|]. split; [repeat (apply Forall_cons; [discriminate|]); apply Forall_nil | vm_compute; discriminate].
Qed.
Theorem C55_rfc2822_C : forall junk uninit t buf size, 1000 <= year_of t <= 9999 ->
  (SIZE2822 <= size <= zlen buf -> time_rfc2822 C_locale junk uninit t (Some buf) size = Ret (Some (rfc_text plus0000 t ++ [0] ++ zdrop 32 buf), 0)) /\
  (SIZE2822_UTC <= size <= zlen buf -> time_rfc2822_utc C_locale junk uninit t (Some buf) size = Ret (Some (rfc_text UTC t ++ [0] ++ zdrop 30 buf), 0)).
Proof.
  intros junk uninit t buf size Y. assert (M : l_mon C_locale (month_of t - 1) = month_name (month_of t)) by (cbn [l_mon C_locale]; f_equal; lia).
  split; intros S; [rewrite C55_rfc2822 by (assumption || exact C_small) | rewrite C55_rfc2822_utc by (assumption || exact C_small)]; rewrite M; reflexivity.
Qed.
Theorem C55_rfc2822_refuses : forall l junk uninit t out size,
  (out = None \/ size < SIZE2822 -> time_rfc2822 l junk uninit t out size = Ret (out, -1)) /\
  (out = None \/ size < SIZE2822_UTC -> time_rfc2822_utc l junk uninit t out size = Ret (out, -1)).
Proof.
  intros l junk uninit t [buf|] size; [|split; reflexivity]. unfold time_rfc2822, time_rfc2822_utc, rfc2822.
  split; (intros [H|H]; [discriminate|]); apply Z.ltb_lt in H; rewrite H; reflexivity.
Qed.
(** for every time and locale the call is defined and writes only into the given size *)
Theorem C55_rfc2822_bounds : forall l junk uninit t buf size,
  (SIZE2822 <= size <= zlen buf -> exists b, time_rfc2822 l junk uninit t (Some buf) size = Ret (Some b, 0) /\ zlen b = zlen buf /\ zdrop size b = zdrop size buf) /\
  (SIZE2822_UTC <= size <= zlen buf -> exists b, time_rfc2822_utc l junk uninit t (Some buf) size = Ret (Some b, 0) /\ zlen b = zlen buf /\ zdrop size b = zdrop size buf).
Proof.
  assert (K : forall min f l junk uninit t buf size, 1 <= min -> min <= size <= zlen buf -> exists b, rfc2822 min f l junk uninit t (Some buf) size = Ret (Some b, 0) /\ zlen b = zlen buf /\ zdrop size b = zdrop size buf).
  { intros min f l junk uninit t buf size M S. unfold rfc2822. replace (size <? min) with false by lia. unfold time_strf, mstore. rewrite mwrite0 by (change (zlen [0]) with 1; lia). cbn [bind]. change (zlen [0]) with 1.
    set (b0 := [0] ++ zdrop 1 buf). assert (L0 : zlen b0 = zlen buf) by (unfold b0; rewrite zlen_app, zlen_zdrop by lia; change (zlen [0]) with 1; lia).
    set (v := match gmtime_r t with Some v => v | None => uninit end). destruct (strftime_in l junk b0 size f v ltac:(lia)) as (b & B1 & B2 & B3). rewrite B1. cbn [bind]. exists b.
    split; [reflexivity|]. split; [lia|]. rewrite B3. unfold b0. rewrite zdrop_app, zdrop_all by (change (zlen [0]) with 1; lia). cbn [app]. change (zlen [0]) with 1. rewrite zdrop_zdrop by lia. f_equal. lia. }
  intros. split; intros S; apply K; unfold SIZE2822, SIZE2822_UTC in *; lia.
Qed.

(** ** The text determines the time: two different times of the years 1000-9999 never print alike. *)
Lemma app_split : forall a a' b b' : list Z, zlen a = zlen a' -> a ++ b = a' ++ b' -> a = a' /\ b = b'.
Proof.
  induction a as [|x a IH]; intros [|y a'] b b' L H; rewrite ?zlen_cons in L; change (zlen (@nil Z)) with 0 in L; try (pose proof (zlen_nonneg a); lia); try (pose proof (zlen_nonneg a'); lia); [auto|].
  cbn [app] in H. injection H as -> H. destruct (IH a' b b' ltac:(lia) H) as (-> & ->). auto.
Qed.
Lemma two_inj : forall a b, two_digits a = two_digits b -> a = b.
Proof. intros a b H. unfold two_digits in H. injection H as H1 H2. pose proof (Z.div_mod a 10). pose proof (Z.div_mod b 10). lia. Qed.
Lemma month_inj : forall a b, 1 <= a <= 12 -> 1 <= b <= 12 -> month_name a = month_name b -> a = b.
Proof.
  intros a b A B H. assert (K : forallb (fun x => forallb (fun y => negb (if list_eq_dec Z.eq_dec (month_name x) (month_name y) then true else false) || (x =? y)) [1;2;3;4;5;6;7;8;9;10;11;12]) [1;2;3;4;5;6;7;8;9;10;11;12] = true) by (vm_compute; reflexivity).
  assert (I : forall x, 1 <= x <= 12 -> In x [1;2;3;4;5;6;7;8;9;10;11;12]) by (intros x X; cbn; lia).
  rewrite forallb_forall in K. specialize (K a (I a A)). rewrite forallb_forall in K. specialize (K b (I b B)). cbv beta in K.
  destruct (list_eq_dec Z.eq_dec (month_name a) (month_name b)); [cbn in K; lia | congruence].
Qed.
Theorem C55_rfc_injective : forall zone t u, 1000 <= year_of t <= 9999 -> 1000 <= year_of u <= 9999 -> rfc_text zone t = rfc_text zone u -> t = u.
Proof.
  intros zone t u Y1 Y2 H. unfold rfc_text, date_text, clock, four_digits in H. rewrite <- ?app_assoc in H.
  assert (D : forall x, zlen (two_digits x) = 2) by reflexivity.
  assert (V : forall x, 1 <= month_of x <= 12) by (intros x; unfold month_of; pose proof (date_valid (x / 86400)) as V; destruct (date_at _) as [[y m] d]; lia).
  assert (W : forall x, 0 <= weekday x < 7) by (intros x; apply Z.mod_pos_bound; lia).
  apply app_split in H; [|rewrite !(proj1 (proj2 (day_len _ (W _)))); reflexivity]. destruct H as (_ & H). apply app_inv_head in H.
  apply app_split in H; [|rewrite !D; reflexivity]. destruct H as (H1 & H). apply app_inv_head in H.
  apply app_split in H; [|rewrite !(proj1 (proj2 (mon_len _ (V _)))); reflexivity]. destruct H as (H2 & H). apply app_inv_head in H.
  apply app_split in H; [|rewrite !D; reflexivity]. destruct H as (H3 & H). apply app_split in H; [|rewrite !D; reflexivity]. destruct H as (H4 & H). apply app_inv_head in H.
  apply app_split in H; [|rewrite !D; reflexivity]. destruct H as (H5 & H). apply app_inv_head in H. apply app_split in H; [|rewrite !D; reflexivity]. destruct H as (H6 & H). apply app_inv_head in H.
  apply app_split in H; [|rewrite !D; reflexivity]. destruct H as (H7 & _).
  apply two_inj in H1, H3, H4, H5, H6, H7. apply month_inj in H2; [|apply V|apply V].
  assert (HY : year_of t = year_of u) by (pose proof (Z.div_mod (year_of t) 100); pose proof (Z.div_mod (year_of u) 100); lia).
  assert (HD : t / 86400 = u / 86400).
  { apply date_inj. unfold year_of, month_of, day_of in *. destruct (date_at (t / 86400)) as [[y m] d]. destruct (date_at (u / 86400)) as [[y' m'] d']. congruence. }
  clear -HD H5 H6 H7. lia.
Qed.

(** ** What is not true *)
(** From the year 10000 on the text does not fit: the call reports success with contents nobody specified, not
    even terminated. *)
Theorem C55_rfc1123_year_10000_refuted : exists junk b, year_of 253402300800 = 10000 /\
  time_rfc1123 C_locale junk (mk_g 0 0 0 0 0 0 0) 253402300800 (Some (repeat 0 30)) 30 = Ret (Some b, 0) /\ ~ In 0 b.
Proof.
  exists (fun _ => 88), (day_name 6 ++ repeat 88 5 ++ month_name 1 ++ repeat 88 19). split; [rewrite year_at; vm_compute; reflexivity|].
  assert (G : gmtime_r 253402300800 = Some (mk_g 0 0 0 1 0 8100 6)) by (unfold gmtime_r; rewrite date_alg; vm_compute; reflexivity).
  split; [unfold time_rfc1123; rewrite G; vm_compute; reflexivity|]. intros H. vm_compute in H. repeat (destruct H as [H|H]; [discriminate|]). exact H.
Qed.
(** When gmtime_r cannot represent the time, the names are looked up with uninitialised indexes. *)
Theorem C55_rfc1123_overflow_refuted : exists t uninit, 0 <= t < 2 ^ 63 /\ gmtime_r t = None /\
  forall l junk buf size, SIZE1123 <= size <= zlen buf -> time_rfc1123 l junk uninit t (Some buf) size = Ub.
Proof.
  exists (2 ^ 60), (mk_g 0 0 0 0 0 0 7). assert (G : gmtime_r (2 ^ 60) = None) by (unfold gmtime_r; rewrite date_alg; vm_compute; reflexivity).
  split; [lia|]. split; [exact G|]. intros l junk buf size S. unfold time_rfc1123. replace (size <? SIZE1123) with false by lia. rewrite G.
  unfold SIZE1123 in *. destruct (strftime_in l junk buf 30 FMT1123 (mk_g 0 0 0 0 0 0 7) ltac:(lia)) as (b & B1 & _). rewrite B1. reflexivity.
Qed.
(** A locale with longer names makes time_rfc2822_utc report success with an unterminated buffer. *)
Theorem C55_rfc2822_locale_refuted : exists l junk b, (forall w, zlen (l_day l w) = 4) /\
  time_rfc2822_utc l junk (mk_g 0 0 0 0 0 0 0) 0 (Some (repeat 0 30)) 30 = Ret (Some b, 0) /\ ~ In 0 b.
Proof.
  exists (mk_l (fun _ => [115; 195; 161; 98]) (fun _ => [106; 97; 110]) plus0000), (fun _ => 88), (repeat 88 30). split; [reflexivity|].
  split; [vm_compute; reflexivity|]. intros H. apply repeat_spec in H. discriminate.
Qed.
Print Assumptions C55_calendar.
Print Assumptions C55_rfc1123.
Print Assumptions C55_rfc1123_refuses.
Print Assumptions C55_rfc1123_bounds.
Print Assumptions C55_rfc2822.
Print Assumptions C55_rfc2822_utc.
Print Assumptions C55_rfc2822_C.
Print Assumptions C55_rfc2822_refuses.
Print Assumptions C55_rfc2822_bounds.
Print Assumptions C55_rfc_injective.
Print Assumptions C55_rfc1123_year_10000_refuted.
Print Assumptions C55_rfc1123_overflow_refuted.
Print Assumptions C55_rfc2822_locale_refuted.
(** the example of the header: Fri, 11 Jun 2021 03:42:56 GMT *)
Example C55_demo : 1000 <= year_of 1623382976 <= 9999 /\
  rfc_text GMT 1623382976 = [70;114;105;44;32;49;49;32;74;117;110;32;50;48;50;49;32;48;51;58;52;50;58;53;54;32;71;77;84].
Proof.
  split; [rewrite year_range; lia|]. unfold rfc_text, date_text, month_of, day_of, year_of, clock, weekday. rewrite date_alg.
  change (alg (1623382976 / 86400)) with (alg 18789). replace (alg 18789) with (2021, 6, 11) by (vm_compute; reflexivity). vm_compute. reflexivity.
Qed.

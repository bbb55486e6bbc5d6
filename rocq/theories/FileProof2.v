From Verif Require Import CBase CStr SeqLib FileModel FileSpec FileProof.

Lemma s32_small x : - two31 <= x < two31 -> s32 x = x.
Proof. unfold s32, two31, two32. intro H. rewrite Z.mod_small; lia. Qed.
Lemma sint_ok x : - two31 <= x < two31 -> sint x = Ret x.
Proof. unfold sint, int_ok. intro H. destruct (_ && _) eqn:E; [reflexivity|lia]. Qed.

(** ** read *)
Lemma read_loop_ok io : forall fuel data k cur pre rest max,
  zlen pre = cur -> 0 <= cur -> (max = cur -> cur = 0) -> max <= cur + zlen rest -> max < two31 -> cur <= max -> (Z.to_nat (max - cur) < fuel)%nat ->
  exists n k', rw_loop read_op fuel {| r_data := data; r_io := io; r_k := k |} (pre ++ rest) max cur =
    Ret (cur + n, (pre ++ ztake n data) ++ zdrop n rest, {| r_data := zdrop n data; r_io := io; r_k := k' |}) /\
    0 <= n <= Z.min (max - cur) (zlen data) /\ (k <= k')%nat /\
    (n < Z.min (max - cur) (zlen data) -> exists j, (k <= j < k')%nat /\ io j <= 0).
Proof.
  induction fuel as [|fuel IH]; intros data k cur pre rest max Hp H0 Hz Hb Hm Hc Hf; [lia|].
  cbn [rw_loop]. unfold read_op at 1. cbn [r_data r_io r_k]. pose proof (zlen_nonneg data) as Ld.
  assert (Stop : forall b k1, (k <= k1)%nat -> b = pre ++ rest -> (0 < Z.min (max - cur) (zlen data) -> exists j, (k <= j < k1)%nat /\ io j <= 0) ->
    exists n k', Ret (cur, b, {| r_data := data; r_io := io; r_k := k1 |}) =
    Ret (cur + n, (pre ++ ztake n data) ++ zdrop n rest, {| r_data := zdrop n data; r_io := io; r_k := k' |}) /\
    0 <= n <= Z.min (max - cur) (zlen data) /\ (k <= k')%nat /\
    (n < Z.min (max - cur) (zlen data) -> exists j, (k <= j < k')%nat /\ io j <= 0)).
  { intros b k' Hk -> Hj. exists 0, k'. rewrite ztake_0, app_nil_r, !zdrop_0, Z.add_0_r.
    split; [reflexivity|]. split; [lia|]. split; [exact Hk|exact Hj]. }
  destruct (Z.ltb_spec (io k) 0) as [D|D].
  - cbn [bind]. change (s32 (-1)) with (-1). change (-1 <? 1) with true. cbv iota.
    apply (Stop _ (S k)); [lia|reflexivity|]. intros _. exists k. split; lia.
  - set (n := Z.min (io k) (max - cur)). set (g := ztake n data).
    assert (Lg : zlen g = Z.min n (zlen data)) by (unfold g; rewrite zlen_ztake_le; lia).
    pose proof (zlen_nonneg rest) as Lr.
    destruct (split_first_n (zlen g) rest) as (t & r2 & Er & Lt); [lia|].
    assert (Ez : zdrop (zlen g) rest = r2) by (rewrite Er, <- Lt; apply zdrop_app_len).
    replace (pre ++ rest) with (pre ++ t ++ r2) by (rewrite <- Er; reflexivity).
    rewrite (mwrite_app pre g t r2) by (try lia; symmetry; exact Hp). cbn [bind].
    rewrite s32_small by (unfold two31 in *; lia).
    assert (Eg : ztake (zlen g) data = g).
    { rewrite Lg. unfold g. destruct (Z.min_spec n (zlen data)) as [[? ->]|[? ->]]; [reflexivity|].
      rewrite !ztake_all by lia. reflexivity. }
    destruct (Z.ltb_spec (zlen g) 1) as [G|G].
    + assert (zlen g = 0) as G0 by (pose proof (zlen_nonneg g); lia).
      rewrite G0, zdrop_0. assert (g = []) as -> by (apply zlen_0_nil; exact G0). rewrite app_nil_r.
      assert (t = []) as -> by (apply zlen_0_nil; lia).
      apply (Stop _ (S k)); [lia|rewrite Er; reflexivity|].
      intros J. exists k. split; [lia|]. lia.
    + rewrite sint_ok by (unfold two31 in *; lia). cbn [bind].
      assert (Hr2 : zlen rest = zlen g + zlen r2) by (rewrite Er, zlen_app; lia).
      destruct (Z.eqb_spec (cur + zlen g) max) as [E|E].
      * exists (zlen g), (S k). rewrite Eg, Ez. split; [reflexivity|]. split; [lia|]. split; [lia|]. lia.
      * destruct (IH (zdrop (zlen g) data) (S k) (cur + zlen g) (pre ++ g) r2 max) as (m & k' & R & Bm & Bk & J);
          try lia; [rewrite zlen_app; lia|].
        rewrite R. rewrite zlen_zdrop in Bm, J by lia.
        exists (zlen g + m), k'. split; [|split; [lia|split; [lia|]]].
        -- f_equal. f_equal; [f_equal; [lia|]|].
           ++ assert (ztake (zlen g + m) data = g ++ ztake m (zdrop (zlen g) data)) as ->.
              { rewrite <- Eg at 2. rewrite <- (ztake_zdrop (zlen g) data) at 1. rewrite ztake_app. rewrite zlen_ztake by lia.
                rewrite ztake_all by (rewrite zlen_ztake; lia). do 2 f_equal. lia. }
              rewrite <- !app_assoc. f_equal. f_equal. f_equal. rewrite <- Ez. rewrite zdrop_zdrop by lia. f_equal. lia.
           ++ f_equal. rewrite zdrop_zdrop by lia. f_equal. lia.
        -- intro L. destruct J as (j & Hj & Ij); [lia|]. exists j. split; [lia|exact Ij].
Qed.
Lemma file_read_ok s buf max : 0 <= max <= zlen buf -> max < two31 ->
  exists n s', file_read s buf max = Ret (n, ztake n (r_data s) ++ zdrop n buf, s') /\
    r_data s' = zdrop n (r_data s) /\ 0 <= n <= Z.min max (zlen (r_data s)) /\
    (n < Z.min max (zlen (r_data s)) -> exists j, (r_k s <= j < r_k s')%nat /\ r_io s j <= 0).
Proof.
  intros H1 H2. destruct s as [data io k]. unfold file_read.
  destruct (read_loop_ok io (S (Z.to_nat max)) data k 0 [] buf max) as (n & k' & R & B & K & J); try lia; [reflexivity|].
  cbn [app] in R. rewrite R. rewrite Z.sub_0_r in B, J. eexists; eexists. split; [reflexivity|]. cbn [r_data r_io r_k].
  split; [reflexivity|]. split; [exact B|exact J].
Qed.

(** ** write *)
Lemma write_loop_ok io : forall fuel data k cur buf max,
  0 <= cur -> max <= zlen buf -> max < two31 -> cur <= max -> (Z.to_nat (max - cur) < fuel)%nat ->
  exists n k', rw_loop write_op fuel {| r_data := data; r_io := io; r_k := k |} buf max cur =
    Ret (cur + n, buf, {| r_data := data ++ zsub cur n buf; r_io := io; r_k := k' |}) /\
    0 <= n <= max - cur /\ (k <= k')%nat /\
    (n < max - cur -> exists j, (k <= j < k')%nat /\ io j <= 0).
Proof.
  induction fuel as [|fuel IH]; intros data k cur buf max H0 Hb Hm Hc Hf; [lia|].
  cbn [rw_loop]. unfold write_op at 1. cbn [r_data r_io r_k].
  assert (Z0 : zsub cur 0 buf = []) by (unfold zsub; apply ztake_0).
  destruct (Z.ltb_spec (io k) 0) as [D|D].
  - cbn [bind]. change (s32 (-1)) with (-1). change (-1 <? 1) with true. cbv iota.
    exists 0, (S k). rewrite Z0, app_nil_r, Z.add_0_r. split; [reflexivity|]. split; [lia|]. split; [lia|].
    intros _. exists k. split; lia.
  - set (n := Z.min (io k) (max - cur)). assert (Hn : n = Z.min (io k) (max - cur)) by reflexivity. clearbody n.
    unfold mread. destruct (Z.leb_spec 0 cur); [|lia]. destruct (Z.leb_spec 0 n); [|lia].
    destruct (Z.leb_spec (cur + n) (zlen buf)); [|lia]. cbn [andb bind].
    rewrite zlen_zsub by lia. rewrite s32_small by (unfold two31 in *; lia).
    destruct (Z.ltb_spec n 1) as [G|G].
    + assert (n = 0) as N0 by lia. rewrite N0. rewrite Z0, app_nil_r. exists 0, (S k). rewrite Z0, app_nil_r, Z.add_0_r.
      split; [reflexivity|]. split; [lia|]. split; [lia|]. intros J. exists k. split; lia.
    + rewrite sint_ok by (unfold two31 in *; lia). cbn [bind].
      destruct (Z.eqb_spec (cur + n) max) as [E|E].
      * exists n, (S k). split; [reflexivity|]. split; [lia|]. split; [lia|]. lia.
      * destruct (IH (data ++ zsub cur n buf) (S k) (cur + n) buf max) as (m & k' & R & Bm & Bk & J); try lia.
        rewrite R. exists (n + m), k'. split; [|split; [lia|split; [lia|]]].
        -- f_equal. f_equal; [f_equal; lia|]. f_equal. rewrite <- app_assoc. f_equal. unfold zsub.
           replace (cur + n) with (n + cur) by lia. rewrite <- (zdrop_zdrop n cur) by lia.
           set (l := zdrop cur buf). assert (zlen l = zlen buf - cur) by (apply zlen_zdrop; lia).
           rewrite <- (ztake_zdrop n l) at 3. rewrite ztake_app. rewrite zlen_ztake by lia.
           rewrite (ztake_all (n + m)) by (rewrite zlen_ztake; lia). do 2 f_equal. lia.
        -- intro L. destruct J as (j & Hj & Ij); [lia|]. exists j. split; [lia|exact Ij].
Qed.
Lemma file_write_ok s buf max : 0 <= max <= zlen buf -> max < two31 ->
  exists n s', file_write s buf max = Ret (n, buf, s') /\
    r_data s' = r_data s ++ ztake n buf /\ 0 <= n <= max /\
    (n < max -> exists j, (r_k s <= j < r_k s')%nat /\ r_io s j <= 0).
Proof.
  intros H1 H2. destruct s as [data io k]. unfold file_write.
  destruct (write_loop_ok io (S (Z.to_nat max)) data k 0 buf max) as (n & k' & R & B & K & J); try lia.
  rewrite R. rewrite Z.sub_0_r in B, J. eexists; eexists. split; [reflexivity|]. cbn [r_data r_io r_k].
  split; [unfold zsub; rewrite zdrop_0; reflexivity|]. split; [exact B|exact J].
Qed.
(** more than INT_MAX bytes: signed overflow *)
Lemma file_read_overflow s buf max h : h < two31 <= 2 * h -> 2 * h <= max -> zlen buf = max -> zlen (r_data s) = max ->
  (forall j, r_io s j = h) -> file_read s buf max = Ub.
Proof.
  intros Hh Hm Hb Hd Hi. destruct s as [data io k]. cbn [r_data r_io] in *. unfold file_read.
  assert (exists fuel, S (Z.to_nat max) = S (S fuel)) as (fuel & ->) by (exists (Z.to_nat max - 1)%nat; unfold two31 in *; lia).
  cbn [rw_loop]. unfold read_op. cbn [r_data r_io r_k].
  rewrite !Hi. destruct (Z.ltb_spec h 0); [unfold two31 in *; lia|].
  replace (Z.min h (max - 0)) with h by lia.
  assert (L : zlen (ztake h data) = h) by (rewrite zlen_ztake; lia).
  rewrite mwrite_ok by lia. cbn [bind]. rewrite L. rewrite s32_small by (unfold two31 in *; lia).
  destruct (Z.ltb_spec h 1); [unfold two31 in *; lia|]. rewrite sint_ok by (unfold two31 in *; lia). cbn [bind].
  destruct (Z.eqb_spec (0 + h) max); [unfold two31 in *; lia|]. cbn [r_data r_io r_k]. rewrite !Hi.
  destruct (Z.ltb_spec h 0); [lia|].
  replace (Z.min h (max - (0 + h))) with h by lia.
  assert (L2 : zlen (ztake h (zdrop h data)) = h) by (rewrite zlen_ztake; rewrite ?zlen_zdrop; lia).
  rewrite mwrite_ok by (rewrite ?zlen_zwrite by lia; lia). cbn [bind]. rewrite L2. rewrite s32_small by (unfold two31 in *; lia).
  destruct (Z.ltb_spec h 1); [lia|]. unfold sint, int_ok. destruct (Z.ltb_spec (0 + h + h) two31); [lia|].
  rewrite andb_false_r. reflexivity.
Qed.

(** ** read_txt *)
Lemma fgets_take_line : forall line n rest, ~ In 10 line -> (length line < n)%nat ->
  fgets_take n (line ++ 10 :: rest) = (line ++ [10], rest).
Proof.
  induction line as [|c line IH]; intros n rest H L; destruct n as [|n]; cbn [length] in L; try lia; [reflexivity|].
  cbn [app fgets_take]. destruct (Z.eqb_spec c 10) as [->|N]; [exfalso; apply H; left; reflexivity|].
  rewrite IH; [reflexivity|intro I; apply H; right; exact I|lia].
Qed.
Lemma fgets_take_last : forall line n, ~ In 10 line -> (length line <= n)%nat -> fgets_take n line = (line, []).
Proof.
  induction line as [|c line IH]; intros n H L; destruct n as [|n]; cbn [length] in L; try lia; try reflexivity.
  cbn [fgets_take]. destruct (Z.eqb_spec c 10) as [->|N]; [exfalso; apply H; left; reflexivity|].
  rewrite IH; [reflexivity|intro I; apply H; right; exact I|lia].
Qed.
Lemma upto0_text t : text t -> upto0 t = t.
Proof. induction 1 as [|c t H T IH]; [reflexivity|]. cbn [upto0]. destruct (Z.eqb_spec c 0); [contradiction|]. rewrite IH. reflexivity. Qed.
Lemma find_nl_none : forall l, ~ In 10 l -> find_nl l = None.
Proof.
  induction l as [|c l IH]; intro H; [reflexivity|]. cbn [find_nl].
  destruct (Z.eqb_spec c 10) as [->|N]; [exfalso; apply H; left; reflexivity|].
  rewrite IH; [reflexivity|intro I; apply H; right; exact I].
Qed.
Lemma find_nl_line : forall l, ~ In 10 l -> find_nl (l ++ [10]) = Some (zlen l).
Proof.
  induction l as [|c l IH]; intro H; [reflexivity|]. cbn [app find_nl].
  destruct (Z.eqb_spec c 10) as [->|N]; [exfalso; apply H; left; reflexivity|].
  rewrite IH by (intro I; apply H; right; exact I). rewrite zlen_cons. reflexivity.
Qed.
Lemma chomp_snoc l c : chomp (l ++ [c]) = if c =? 13 then l else l ++ [c].
Proof.
  unfold chomp. rewrite rev_app_distr. cbn [rev app].
  rewrite rev_involutive. reflexivity.
Qed.
Lemma txt_line_gen s tail p : match find_nl (s ++ tail) with Some k => k | None => zlen (s ++ tail) end = p -> p = zlen s ->
  txt_line (s ++ tail) = Ret (shown s).
Proof.
  intros E ->. unfold txt_line. rewrite E. unfold shown.
  destruct s as [|a s] using rev_ind.
  - change (zlen (@nil Z)) with 0. change (0 <? 0) with false. cbv iota. cbn [bind]. rewrite ztake_0. reflexivity.
  - clear IHs. rewrite zlen_snoc. pose proof (zlen_nonneg s). destruct (Z.ltb_spec 0 (zlen s + 1)); [|lia].
    rewrite <- app_assoc. cbn [app]. rewrite mload_app0 by lia. cbn [bind]. rewrite chomp_snoc.
    destruct (a =? 13).
    + replace (zlen s + 1 - 1) with (zlen s) by lia. rewrite ztake_app_len. reflexivity.
    + replace (s ++ a :: tail) with ((s ++ [a]) ++ tail) by (rewrite <- app_assoc; reflexivity).
      rewrite <- (zlen_snoc s a), ztake_app_len. reflexivity.
Qed.
Lemma lines_line : forall line cur rest, ~ In 10 line -> lines_from cur (line ++ 10 :: rest) = (cur ++ line) :: lines_from [] rest.
Proof.
  induction line as [|c line IH]; intros cur rest H; cbn [app lines_from].
  - change (10 =? 10) with true. cbv iota. rewrite app_nil_r. reflexivity.
  - destruct (Z.eqb_spec c 10) as [->|N]; [exfalso; apply H; left; reflexivity|].
    rewrite IH by (intro I; apply H; right; exact I). rewrite <- app_assoc. reflexivity.
Qed.
Lemma lines_last : forall line cur, ~ In 10 line -> lines_from cur line = match cur ++ line with [] => [] | l => [l] end.
Proof.
  induction line as [|c line IH]; intros cur H; cbn [lines_from].
  - rewrite app_nil_r. destruct cur; reflexivity.
  - destruct (Z.eqb_spec c 10) as [->|N]; [exfalso; apply H; left; reflexivity|].
    rewrite IH by (intro I; apply H; right; exact I). rewrite <- app_assoc. reflexivity.
Qed.
Lemma split_nl : forall l : list Z, ~ In 10 l \/ exists a b, l = a ++ 10 :: b /\ ~ In 10 a.
Proof.
  induction l as [|c l [H|(a & b & -> & H)]]; [left; intros []| |].
  - destruct (Z.eq_dec c 10) as [->|N]; [right; exists [], l; split; [reflexivity|intros []]|].
    left. intros [E|I]; [congruence|contradiction].
  - right. destruct (Z.eq_dec c 10) as [->|N]; [exists [], (a ++ 10 :: b); split; [reflexivity|intros []]|].
    exists (c :: a), b. split; [reflexivity|]. intros [E|I]; [congruence|contradiction].
Qed.
Lemma deliver_step {U} (fn : U -> Z -> list Z -> Z * U) l ls i u :
  deliver fn (l :: ls) i u = match shown l with
    | [] => deliver fn ls (i + 1) u
    | t => let '(r, u') := fn u i t in if r =? 0 then deliver fn ls (i + 1) u' else (r, u') end.
Proof. reflexivity. Qed.
Lemma read_txt_loop_ok {U} (fn : U -> Z -> list Z -> Z * U) : forall fuel file i u,
  (length file <= fuel)%nat -> text file -> (forall l, In l (lines_of file) -> zlen l <= 1022) ->
  0 <= i -> i + zlen (lines_of file) < two31 ->
  read_txt_loop fn fuel file i 0 u = Ret (deliver fn (lines_of file) i u).
Proof.
  induction fuel as [|fuel IH]; intros file i u L T Hl Hi Hn.
  - destruct file; [reflexivity|cbn [length] in L; lia].
  - destruct file as [|c0 f0] eqn:Ef; [reflexivity|]. rewrite <- Ef in *.
    assert (Hne : file <> []) by (rewrite Ef; discriminate). clear Ef c0 f0.
    assert (exists line chunk rest, fgets 1024 file = Some (chunk, rest) /\ txt_line (upto0 chunk) = Ret (shown line) /\
        lines_of file = line :: lines_of rest /\ (length rest < length file)%nat /\ text rest) as (line & chunk & rest & G & Tl & Ls & Lr & Tr).
    { unfold fgets. destruct file as [|c0 f0] eqn:Ef; [congruence|]. rewrite <- Ef in *. clear Ef c0 f0.
      change (Z.to_nat (1024 - 1)) with 1023%nat. unfold lines_of in *.
      destruct (split_nl file) as [H|(a & b & E & H)].
      - pose proof (lines_last file [] H) as Q. cbn [app] in Q.
        exists file, file, []. assert (Q' : lines_from [] file = [file]) by (rewrite Q; destruct file; [congruence|reflexivity]).
        rewrite Q' in *. assert (zlen file <= 1022) by (apply Hl; left; reflexivity).
        rewrite fgets_take_last by (try exact H; unfold zlen in *; lia). split; [reflexivity|].
        rewrite upto0_text by exact T. split; [|split; [reflexivity|split; [destruct file; [congruence|cbn; lia]|constructor]]].
        rewrite <- (app_nil_r file) at 1. eapply txt_line_gen; [reflexivity|].
        rewrite app_nil_r, find_nl_none by exact H. reflexivity.
      - rewrite E in *. pose proof (lines_line a [] b H) as Q. cbn [app] in Q. rewrite Q in *.
        assert (zlen a <= 1022) by (apply Hl; left; reflexivity).
        rewrite fgets_take_line by (try exact H; unfold zlen in *; lia).
        exists a. eexists; eexists. split; [reflexivity|]. apply Forall_app in T. destruct T as [Ta Tb]. inversion Tb; subst.
        rewrite upto0_text by (apply Forall_app; split; [exact Ta|constructor; [lia|constructor]]).
        split; [|split; [reflexivity|split; [rewrite app_length; cbn [length]; lia|assumption]]].
        eapply txt_line_gen; [reflexivity|]. rewrite find_nl_line by exact H. reflexivity. }
    cbn [read_txt_loop]. rewrite G, Tl. cbn [bind]. rewrite Ls, deliver_step. rewrite Ls, zlen_cons in Hn.
    assert (Hl' : forall l, In l (lines_of rest) -> zlen l <= 1022) by (intros l I; apply Hl; rewrite Ls; right; exact I).
    pose proof (zlen_nonneg (lines_of rest)).
    assert (K : forall u, (do line <- sint (i + 1); read_txt_loop fn fuel rest line 0 u) = Ret (deliver fn (lines_of rest) (i + 1) u)).
    { intro u1. rewrite sint_ok by (unfold two31 in *; lia). cbn [bind]. apply IH; try assumption; try lia. }
    destruct (shown line) as [|c t]; [apply K|].
    destruct (fn u i (c :: t)) as [r u']. destruct (Z.eqb_spec r 0) as [->|N]; cbn [negb]; [apply K|reflexivity].
Qed.
Lemma read_txt_ok {U} (fn : U -> Z -> list Z -> Z * U) file u :
  text file -> (forall l, In l (lines_of file) -> zlen l <= 1022) -> zlen (lines_of file) < two31 ->
  read_txt fn (Some file) u = Ret (deliver fn (lines_of file) 0 u).
Proof. intros T H1 H2. unfold read_txt. apply read_txt_loop_ok; try assumption; lia. Qed.

(** ** read_txt on every file *)
Lemma fgets_pieces : forall rest n cur a b, rest <> [] -> fgets_take (S n) rest = (a, b) ->
  exists line, pieces_from (S n) cur rest = (cur ++ line) :: pieces_from 1023 [] b /\
    ((a = line ++ [10] /\ ~ In 10 line) \/ (a = line /\ ~ In 10 line)) /\ (length b < length rest)%nat.
Proof.
  induction rest as [|c rest IH]; intros n cur a b Hne E; [congruence|]. cbn [fgets_take] in E.
  destruct (Z.eqb_spec c 10) as [->|N].
  - injection E as <- <-. exists []. cbn [pieces_from]. change (10 =? 10) with true. cbv iota. rewrite app_nil_r.
    split; [reflexivity|]. split; [left; split; [reflexivity|intros []]|]. cbn [length]. lia.
  - cbn [pieces_from]. destruct (Z.eqb_spec c 10); [contradiction|].
    destruct n as [|n].
    + destruct rest; injection E as <- <-; (exists [c]; split; [reflexivity|]; split; [right; split; [reflexivity|intros [Q|[]]; congruence]|cbn [length]; lia]).
    + destruct rest as [|d rest].
      * cbn [fgets_take] in E. injection E as <- <-. exists [c]. cbn [pieces_from].
        destruct (cur ++ [c]) eqn:Q; [destruct cur; discriminate|]. rewrite <- Q.
        split; [reflexivity|]. split; [right; split; [reflexivity|intros [R|[]]; congruence]|cbn [length]; lia].
      * destruct (fgets_take (S n) (d :: rest)) as [a' b'] eqn:F. injection E as <- <-.
        destruct (IH n (cur ++ [c]) a' b' ltac:(discriminate) F) as (line & P1 & P2 & P3).
        exists (c :: line). rewrite P1, <- app_assoc. split; [reflexivity|]. split; [|cbn [length] in *; lia].
        destruct P2 as [[-> H]|[-> H]]; [left|right]; (split; [reflexivity|]); intros [Q|Q]; congruence.
Qed.
Lemma upto0_in x l : In x (upto0 l) -> In x l.
Proof. induction l as [|c l IH]; [intros []|]. cbn [upto0]. destruct (c =? 0); [intros []|]. intros [->|H]; [left; reflexivity|right; auto]. Qed.
Lemma upto0_app : forall l x, upto0 (l ++ x) = if inset 0 l then upto0 l else l ++ upto0 x.
Proof.
  induction l as [|c l IH]; intro x; [reflexivity|]. cbn [app upto0 inset existsb].
  destruct (Z.eqb_spec c 0) as [->|N]; [reflexivity|]. rewrite IH.
  unfold inset. cbn [existsb]. destruct (Z.eqb_spec 0 c); [congruence|]. cbn [orb]. destruct (existsb (Z.eqb 0) l); reflexivity.
Qed.
Lemma upto0_inset l : inset 0 l = false -> upto0 l = l.
Proof.
  induction l as [|c l IH]; [reflexivity|]. unfold inset. cbn [existsb upto0]. destruct (Z.eqb_spec c 0) as [->|N]; [discriminate|].
  destruct (Z.eqb_spec 0 c); [congruence|]. intro H. rewrite IH by exact H. reflexivity.
Qed.
Lemma txt_line_piece a line : (a = line ++ [10] \/ a = line) -> ~ In 10 line -> txt_line (upto0 a) = Ret (shown (upto0 line)).
Proof.
  intros E H. assert (H' : ~ In 10 (upto0 line)) by (intro I; apply H; apply upto0_in; exact I).
  assert (A : txt_line (upto0 line) = Ret (shown (upto0 line))).
  { rewrite <- (app_nil_r (upto0 line)) at 1. eapply txt_line_gen; [reflexivity|]. rewrite app_nil_r, find_nl_none by exact H'. reflexivity. }
  destruct E as [->| ->]; [|exact A]. rewrite upto0_app. destruct (inset 0 line) eqn:I; [exact A|].
  rewrite (upto0_inset _ I) in *. change (upto0 [10]) with [10]. eapply txt_line_gen; [reflexivity|]. rewrite find_nl_line by exact H. reflexivity.
Qed.
Lemma read_txt_loop_all {U} (fn : U -> Z -> list Z -> Z * U) : forall fuel file i u,
  (length file <= fuel)%nat -> 0 <= i -> i + zlen (pieces_of file) < two31 ->
  read_txt_loop fn fuel file i 0 u = Ret (deliver fn (map upto0 (pieces_of file)) i u).
Proof.
  induction fuel as [|fuel IH]; intros file i u L Hi Hn.
  - destruct file; [reflexivity|cbn [length] in L; lia].
  - destruct file as [|c0 f0] eqn:Ef; [reflexivity|]. rewrite <- Ef in *.
    assert (Hne : file <> []) by (rewrite Ef; discriminate). clear Ef c0 f0.
    destruct (fgets_take 1023 file) as [chunk rest] eqn:F.
    assert (G : fgets 1024 file = Some (chunk, rest)) by (unfold fgets; destruct file; [congruence|]; change (Z.to_nat (1024 - 1)) with 1023%nat; rewrite F; reflexivity).
    destruct (fgets_pieces file 1022 [] chunk rest Hne F) as (line & Ls & Ca & Lr). cbn [app] in Ls.
    assert (Tl : txt_line (upto0 chunk) = Ret (shown (upto0 line))) by (apply txt_line_piece; tauto).
    cbn [read_txt_loop]. rewrite G, Tl. cbn [bind]. unfold pieces_of in *. rewrite Ls in *. cbn [map]. rewrite deliver_step. rewrite zlen_cons in Hn.
    pose proof (zlen_nonneg (pieces_from 1023 [] rest)).
    assert (K : forall u, (do line <- sint (i + 1); read_txt_loop fn fuel rest line 0 u) = Ret (deliver fn (map upto0 (pieces_from 1023 [] rest)) (i + 1) u)).
    { intro u1. rewrite sint_ok by (unfold two31 in *; lia). cbn [bind]. apply IH; try assumption; try lia. }
    destruct (shown (upto0 line)) as [|c t]; [apply K|].
    destruct (fn u i (c :: t)) as [r u']. destruct (Z.eqb_spec r 0) as [->|N]; cbn [negb]; [apply K|reflexivity].
Qed.
Lemma read_txt_all {U} (fn : U -> Z -> list Z -> Z * U) file u : zlen (pieces_of file) < two31 ->
  read_txt fn (Some file) u = Ret (deliver fn (map upto0 (pieces_of file)) 0 u).
Proof. intros H. unfold read_txt. apply read_txt_loop_all; try assumption; lia. Qed.
(** short lines: the pieces are the lines *)
Lemma lines_extend : forall rest x, x <> [] -> exists l, In l (lines_from x rest) /\ (length x <= length l)%nat.
Proof.
  induction rest as [|d rest IH]; intros x Hx; cbn [lines_from].
  - destruct x as [|y x]; [congruence|]. eexists; split; [left; reflexivity|lia].
  - destruct (d =? 10); [eexists; split; [left; reflexivity|lia]|].
    destruct (IH (x ++ [d])) as (l & I & H); [destruct x; discriminate|]. exists l. split; [exact I|]. rewrite app_length in H. cbn [length] in H. lia.
Qed.
Lemma pieces_short : forall rest n cur, (forall l, In l (lines_from cur rest) -> (length l <= 1022)%nat) -> (length cur + S n = 1023)%nat ->
  pieces_from (S n) cur rest = lines_from cur rest.
Proof.
  induction rest as [|c rest IH]; intros n cur H L; [reflexivity|]. cbn [pieces_from lines_from] in *.
  destruct (Z.eqb_spec c 10) as [->|N].
  - f_equal. apply (IH 1022%nat []); [intros l I; apply H; right; exact I|reflexivity].
  - destruct (lines_extend rest (cur ++ [c])) as (l & I & Hl); [destruct cur; discriminate|].
    rewrite app_length in Hl. cbn [length] in Hl. specialize (H l I) as Hl'.
    destruct n as [|n]; [lia|]. apply IH; [exact H|rewrite app_length; cbn [length]; lia].
Qed.
Lemma pieces_are_lines file : (forall l, In l (lines_of file) -> zlen l <= 1022) -> pieces_of file = lines_of file.
Proof. intro H. apply pieces_short; [intros l I; specialize (H l I); unfold zlen in H; lia|reflexivity]. Qed.

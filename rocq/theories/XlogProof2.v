(** Proofs about the xlog model: numbers, the function field, the settings, the record. *)
From Verif Require Import CBase SeqLib CStr StringsModel StringsProof TimeModel TimeSpec TimeProof TimeProof2
  FileProof2 StrParamsProof XlogModel XlogSpec XlogProof.

(** ** my_int2str *)
Lemma dec_fuel : forall f g n, 0 <= n < 2 ^ Z.of_nat f -> 0 <= n < 2 ^ Z.of_nat g -> (0 < f)%nat -> (0 < g)%nat ->
  dec_digits_rev f n = dec_digits_rev g n.
Proof.
  induction f as [|f IH]; intros g n Hf Hg F G; [lia|]. destruct g as [|g]; [lia|]. cbn [dec_digits_rev].
  destruct (Z.ltb_spec n 10) as [L|L]; [reflexivity|]. f_equal.
  assert (B : forall k, n < 2 ^ Z.of_nat (S k) -> 0 <= n / 10 < 2 ^ Z.of_nat k /\ (0 < k)%nat).
  { intros k Hk. rewrite Nat2Z.inj_succ, Z.pow_succ_r in Hk by lia.
    destruct k as [|k]; [cbn in Hk; lia|]. split; [|lia]. split; [apply Z.div_pos; lia|]. apply Z.div_lt_upper_bound; lia. }
  destruct (B f) as [B1 B2]; [lia|]. destruct (B g) as [B3 B4]; [lia|]. apply IH; assumption.
Qed.
Lemma digit_loop_ok : forall fuel n pre rest p, 0 <= n < 10 ^ Z.of_nat fuel -> (0 < fuel)%nat -> p = zlen pre ->
  let D := dec_digits_rev fuel n in zlen D <= zlen rest ->
  exists rest', rest' = zdrop (zlen D) rest /\
  digit_loop fuel (pre ++ rest) p n = Ret ((pre ++ D) ++ rest', p + zlen D).
Proof.
  induction fuel as [|fuel IH]; intros n pre rest p Hn F Hp; [lia|]. cbn [dec_digits_rev digit_loop]. cbv zeta.
  rewrite Z.rem_mod_nonneg, Z.quot_div_nonneg by lia. intro L.
  assert (0 < zlen rest) as P0.
  { destruct (n <? 10); rewrite zlen_cons in L; [change (zlen (@nil Z)) with 0 in L|pose proof (zlen_nonneg (dec_digits_rev fuel (n / 10)))]; lia. }
  destruct (zlen_pos_cons rest P0) as (y & r & ->).
  rewrite mstore_app by exact Hp. cbn [bind].
  destruct (Z.ltb_spec n 10) as [L1|L1].
  - rewrite Z.div_small by lia. change (0 =? 0) with true. cbv iota. exists r. change (zlen [48 + n]) with 1.
    rewrite (zdrop_cons 1) by lia. split; [reflexivity|]. rewrite Z.mod_small by lia. do 5 f_equal. lia.
  - assert (n / 10 <> 0) by lia. destruct (n / 10 =? 0) eqn:E; [lia|]. clear E.
    rewrite Nat2Z.inj_succ, Z.pow_succ_r in Hn by lia.
    destruct fuel as [|fuel']; [cbn in Hn; lia|].
    destruct (IH (n / 10) (pre ++ [n mod 10 + 48]) r (p + 1)) as (r' & E1 & E2); [|lia|rewrite zlen_snoc; lia|rewrite !zlen_cons in L; lia|].
    { split; [apply Z.div_pos; lia|]. apply Z.div_lt_upper_bound; lia. }
    rewrite E2. exists r'. rewrite !zlen_cons. pose proof (zlen_nonneg (dec_digits_rev (S fuel') (n / 10))).
    rewrite zdrop_cons by lia. split; [rewrite E1; f_equal; lia|]. rewrite <- !app_assoc. cbn [app].
    rewrite (Z.add_comm (n mod 10) 48). do 2 f_equal. lia.
Qed.
Lemma swap_loop_ok : forall fuel pre a m c rest off i len, off = zlen pre ->
  zlen a = i -> zlen c = i -> len = 2 * i + zlen m -> zlen m <= 2 * Z.of_nat fuel + 1 ->
  Forall (fun x => 48 <= x <= 57) m ->
  swap_loop fuel (pre ++ (rev c ++ m ++ rev a) ++ rest) off i len = Ret (pre ++ rev (a ++ m ++ c) ++ rest).
Proof.
  induction fuel as [|fuel IH]; intros pre a m c rest off i len Ho Ha Hc Hl Hf Hd; cbn [swap_loop].
  - pose proof (zlen_nonneg m). destruct (Z.ltb_spec i (len / 2)); [lia|].
    rewrite !rev_app_distr, <- !app_assoc. do 4 f_equal.
    assert (zlen m = 0 \/ zlen m = 1) as [E|E] by lia; [apply zlen_0_nil in E; subst m; reflexivity|].
    destruct m as [|x m]; [reflexivity|]. rewrite zlen_cons in E. assert (m = []) as -> by (apply zlen_0_nil; lia). reflexivity.
  - pose proof (zlen_nonneg m). destruct (Z.ltb_spec i (len / 2)) as [L|L].
    2:{ rewrite !rev_app_distr, <- !app_assoc. do 4 f_equal.
        assert (zlen m = 0 \/ zlen m = 1) as [E|E] by lia; [apply zlen_0_nil in E; subst m; reflexivity|].
        destruct m as [|x m]; [reflexivity|]. rewrite zlen_cons in E. assert (m = []) as -> by (apply zlen_0_nil; lia). reflexivity. }
    destruct m as [|x m]; [cbn [zlen] in *; change (zlen (@nil Z)) with 0 in *; lia|].
    destruct (@exists_last _ m) as (m1 & y & ->).
    { intros ->. change (zlen [x]) with 1 in Hl. lia. }
    apply Forall_cons_iff in Hd as [Hx Hd]. apply Forall_app in Hd as [Hd Hy]. apply Forall_cons_iff in Hy as [Hy _].
    rewrite zlen_cons, zlen_snoc in *.
    assert (zlen (rev c) = i) as Lc by (rewrite zlen_rev; exact Hc).
    set (C := rev c) in *. set (A := rev a) in *.
    assert (E0 : forall u v, C ++ (u :: m1 ++ [v]) ++ A = C ++ u :: (m1 ++ v :: A)).
    { intros. cbn [app]. rewrite <- app_assoc. reflexivity. }
    assert (E0' : forall u v, C ++ u :: (m1 ++ v :: A) = (C ++ u :: m1) ++ v :: A).
    { intros. rewrite <- app_assoc. reflexivity. }
    rewrite E0. set (j := len - 1 - i).
    assert (J : forall u, zlen (C ++ u :: m1) = j) by (intro; unfold j; rewrite zlen_app, zlen_cons; lia).
    rewrite (mload_mid3 pre C x (m1 ++ y :: A)) by lia. cbn [bind].
    rewrite E0', (mload_mid3 pre (C ++ x :: m1) y A) by (rewrite J; lia). cbn [bind].
    rewrite <- E0', (mstore_mid3 pre C x (m1 ++ y :: A)) by lia. cbn [bind].
    rewrite (mload_mid3 pre C _ (m1 ++ y :: A)) by lia. cbn [bind].
    rewrite E0', (mload_mid3 pre (C ++ _ :: m1) y A) by (rewrite J; lia). cbn [bind].
    rewrite (mstore_mid3 pre (C ++ _ :: m1) y A) by (rewrite J; lia). cbn [bind].
    rewrite <- E0', (mload_mid3 pre C _ (m1 ++ _ :: A)) by lia. cbn [bind].
    rewrite E0', (mload_mid3 pre (C ++ _ :: m1) _ A) by (rewrite J; lia). cbn [bind].
    rewrite <- E0', (mstore_mid3 pre C _ (m1 ++ _ :: A)) by lia. cbn [bind].
    replace (((x + y) mod 256 - y) mod 256) with x by lia.
    replace (((x + y) mod 256 - x) mod 256) with y by lia.
    replace (C ++ y :: m1 ++ x :: A) with (rev (y :: c) ++ m1 ++ rev (a ++ [x])).
    2:{ cbn [rev]. rewrite rev_app_distr. cbn [rev app]. rewrite <- !app_assoc. reflexivity. }
    rewrite IH; try (rewrite ?zlen_snoc, ?zlen_cons; lia); [|exact Hd].
    f_equal. f_equal. f_equal. f_equal. cbn [app]. rewrite <- !app_assoc. reflexivity.
Qed.
Lemma int2str_ok pre rest num : 0 <= num < two31 -> zlen (decimal num) + 1 <= zlen rest ->
  exists rest', zlen rest' + zlen (decimal num) + 1 = zlen rest /\
  my_int2str num (pre ++ rest) (zlen pre) = Ret (pre ++ decimal num ++ 0 :: rest', zlen (decimal num)).
Proof.
  intros Hn Hr. unfold my_int2str. destruct (Z.ltb_spec num 0); [lia|]. cbn [bind].
  assert (Ed : dec_digits_rev (S (Z.to_nat (Z.log2 num))) num = dec_digits_rev 32 num).
  { apply dec_fuel; try lia; [|unfold two31 in Hn; change (2 ^ Z.of_nat 32) with 4294967296; lia]. split; [lia|].
    destruct (Z.eq_dec num 0) as [->|N]; [apply Z.pow_pos_nonneg; lia|].
    rewrite Nat2Z.inj_succ, Z2Nat.id by apply Z.log2_nonneg. apply Z.log2_spec. lia. }
  assert (Ed2 : dec_digits_rev 11 num = dec_digits_rev 32 num).
  { clear - Hn. assert (X : forall f g n, 0 <= n < 10 ^ Z.of_nat f -> (0 < f <= g)%nat -> dec_digits_rev f n = dec_digits_rev g n).
    { induction f as [|f IH]; intros g n Hf F; [lia|]. destruct g as [|g]; [lia|]. cbn [dec_digits_rev].
      destruct (Z.ltb_spec n 10) as [L|L]; [reflexivity|]. f_equal.
      rewrite Nat2Z.inj_succ, Z.pow_succ_r in Hf by lia. destruct f as [|f]; [cbn in Hf; lia|].
      apply IH; [|lia]. split; [apply Z.div_pos; lia|]. apply Z.div_lt_upper_bound; lia. }
    apply X; [unfold two31 in Hn; change (10 ^ Z.of_nat 11) with 100000000000; lia|lia]. }
  assert (LD : zlen (decimal num) = zlen (dec_digits_rev 32 num)) by (unfold decimal; rewrite zlen_rev, Ed; reflexivity).
  destruct (dec_rev_ok 32 num) as (DD & _ & NE & _); [unfold two31 in Hn; change (2 ^ Z.of_nat 32) with 4294967296; lia|lia|].
  destruct (digit_loop_ok 11 num pre rest (zlen pre)) as (r1 & R1 & R2); [unfold two31 in Hn; change (10 ^ Z.of_nat 11) with 100000000000; lia|lia|reflexivity|rewrite Ed2; lia|].
  rewrite R2. cbn [bind]. rewrite Ed2 in *. set (D := dec_digits_rev 32 num) in *.
  pose proof (zlen_nonneg D) as PD.
  destruct (zlen_pos_cons r1) as (y & r & Er); [rewrite R1, zlen_zdrop by lia; lia|]. rewrite Er.
  rewrite mstore_app by (rewrite zlen_app; lia). cbn [bind].
  exists r. assert (zlen (y :: r) = zlen rest - zlen D) as LR by (rewrite <- Er, R1; apply zlen_zdrop; lia). rewrite zlen_cons in LR.
  split; [lia|].
  destruct D as [|d D'] eqn:ED; [congruence|]. rewrite <- ED in *.
  assert (d <> 45) as Nd by (rewrite ED in DD; apply Forall_cons_iff in DD as [X _]; lia).
  replace (((pre ++ D) ++ [0]) ++ r) with (pre ++ d :: (D' ++ 0 :: r)) by (rewrite ED, <- !app_assoc; reflexivity).
  rewrite mload_app0 by reflexivity. cbn [bind]. destruct (d =? 45) eqn:E45; [lia|].
  replace (pre ++ d :: D' ++ 0 :: r) with (pre ++ (rev [] ++ D ++ rev []) ++ 0 :: r) by (rewrite ED; cbn [rev app]; rewrite app_nil_r, <- ?app_assoc; reflexivity).
  replace (zlen pre + zlen D - zlen pre) with (zlen D) by lia.
  rewrite swap_loop_ok; try reflexivity; try exact DD; try lia.
  cbn [bind app]. rewrite app_nil_r. unfold decimal. rewrite Ed, zlen_rev. fold D. rewrite ED. reflexivity.
Qed.

Lemma mstore_oob (l : list Z) i x : zlen l <= i -> mstore l i x = Ub.
Proof. intro H. unfold mstore, mwrite. change (zlen [x]) with 1. destruct ((0 <=? i) && (i + 1 <=? zlen l)) eqn:E; [lia|reflexivity]. Qed.
Lemma mwrite_oob (l : list Z) i x : zlen l < i + zlen x -> mwrite l i x = Ub.
Proof. intro H. unfold mwrite. destruct ((0 <=? i) && (i + zlen x <=? zlen l)) eqn:E; [lia|reflexivity]. Qed.
Lemma digit_loop_oob : forall fuel n pre rest p, 0 <= n < 10 ^ Z.of_nat fuel -> (0 < fuel)%nat -> p = zlen pre ->
  zlen rest < zlen (dec_digits_rev fuel n) -> digit_loop fuel (pre ++ rest) p n = Ub.
Proof.
  induction fuel as [|fuel IH]; intros n pre rest p Hn F Hp; [lia|]. cbn [dec_digits_rev digit_loop]. cbv zeta.
  rewrite Z.rem_mod_nonneg, Z.quot_div_nonneg by lia. intro L.
  destruct rest as [|y r]; [rewrite app_nil_r, mstore_oob by lia; reflexivity|].
  rewrite mstore_app by exact Hp. cbn [bind]. rewrite zlen_cons in L.
  destruct (Z.ltb_spec n 10) as [L1|L1]; [change (zlen [48 + n]) with 1 in L; pose proof (zlen_nonneg r); lia|].
  assert (n / 10 <> 0) by lia. destruct (n / 10 =? 0) eqn:E; [lia|]. clear E.
  rewrite Nat2Z.inj_succ, Z.pow_succ_r in Hn by lia.
  destruct fuel as [|fuel']; [change (10 ^ Z.of_nat 0) with 1 in Hn; lia|].
  apply IH; [|lia|rewrite zlen_snoc; lia|rewrite zlen_cons in L; lia].
  split; [apply Z.div_pos; lia|]. apply Z.div_lt_upper_bound; lia.
Qed.
Lemma decimal_rev num : 0 <= num < two31 -> decimal num = rev (dec_digits_rev 11 num).
Proof.
  intro Hn. unfold decimal. f_equal. rewrite (dec_fuel _ 32 num); try lia.
  - assert (X : forall f g n, 0 <= n < 10 ^ Z.of_nat f -> (0 < f <= g)%nat -> dec_digits_rev f n = dec_digits_rev g n).
    { induction f as [|f IH]; intros g n Hf F; [lia|]. destruct g as [|g]; [lia|]. cbn [dec_digits_rev].
      destruct (Z.ltb_spec n 10) as [L|L]; [reflexivity|]. f_equal.
      rewrite Nat2Z.inj_succ, Z.pow_succ_r in Hf by lia. destruct f as [|f]; [change (10 ^ Z.of_nat 0) with 1 in Hf; lia|].
      apply IH; [|lia]. split; [apply Z.div_pos; lia|]. apply Z.div_lt_upper_bound; lia. }
    symmetry. apply X; [unfold two31 in Hn; change (10 ^ Z.of_nat 11) with 100000000000; lia|lia].
  - split; [lia|]. destruct (Z.eq_dec num 0) as [->|N]; [apply Z.pow_pos_nonneg; lia|].
    rewrite Nat2Z.inj_succ, Z2Nat.id by apply Z.log2_nonneg. apply Z.log2_spec. lia.
  - unfold two31 in Hn; change (2 ^ Z.of_nat 32) with 4294967296; lia.
Qed.
Lemma int2str_oob pre rest num : 0 <= num < two31 -> zlen rest < zlen (decimal num) + 1 ->
  my_int2str num (pre ++ rest) (zlen pre) = Ub.
Proof.
  intros Hn Hr. unfold my_int2str. destruct (Z.ltb_spec num 0); [lia|]. cbn [bind].
  assert (LD : zlen (decimal num) = zlen (dec_digits_rev 11 num)) by (rewrite (decimal_rev num Hn), zlen_rev; reflexivity).
  assert (0 <= num < 10 ^ Z.of_nat 11) as B by (unfold two31 in Hn; change (10 ^ Z.of_nat 11) with 100000000000; lia).
  destruct (Z_lt_dec (zlen rest) (zlen (dec_digits_rev 11 num))) as [L|L].
  - rewrite digit_loop_oob by (try reflexivity; try assumption; lia). reflexivity.
  - destruct (digit_loop_ok 11 num pre rest (zlen pre)) as (r1 & R1 & R2); [exact B|lia|reflexivity|lia|].
    rewrite R2. cbn [bind]. rewrite mstore_oob; [reflexivity|]. pose proof (zlen_nonneg (dec_digits_rev 11 num)).
    rewrite !zlen_app, R1, zlen_zdrop by lia. lia.
Qed.

(** ** print_func_line *)
Lemma func_line_ok pre rest f r line : text f -> 0 < line < two31 ->
  zlen (func_field (Some f) line) + 1 <= zlen rest ->
  exists rest', zlen rest' + zlen (func_field (Some f) line) + 1 = zlen rest /\
  print_func_line (pre ++ rest) (zlen pre) (f ++ 0 :: r) line =
    Ret ((pre ++ func_field (Some f) line) ++ 0 :: rest', zlen (func_field (Some f) line)).
Proof.
  intros T Hl. unfold func_field. destruct (Z.ltb_spec 0 line); [|lia]. rewrite !zlen_app.
  change (zlen [40]) with 1. change (zlen [58]) with 1. change (zlen [41;32]) with 2. intro Hr.
  pose proof (zlen_nonneg f). pose proof (zlen_nonneg (decimal line)). unfold print_func_line.
  destruct (zlen_pos_cons rest) as (y & b & ->); [lia|]. rewrite zlen_cons in Hr.
  rewrite mstore_app by reflexivity. cbn [bind].
  rewrite (strlen_at_text [] f r 0 eq_refl T : strlen_at (f ++ 0 :: r) 0 = _). cbn [bind].
  rewrite mread_ok by (rewrite ?zlen_app; pose proof (zlen_nonneg (0 :: r)); lia). cbn [bind].
  unfold zsub. rewrite zdrop_0, ztake_app_len.
  destruct (split_first_n (zlen f) b) as (b1 & b2 & -> & L1); [lia|]. rewrite zlen_app in Hr.
  rewrite mwrite_app by (rewrite ?zlen_snoc; lia). cbn [bind].
  destruct (zlen_pos_cons b2) as (y2 & b3 & ->); [lia|]. rewrite zlen_cons in Hr.
  rewrite mstore_app by (rewrite zlen_app, zlen_snoc; lia). cbn [bind].
  set (P := ((pre ++ [40]) ++ f) ++ [58]).
  assert (LP : zlen P = zlen pre + 1 + zlen f + 1) by (unfold P; rewrite !zlen_snoc, zlen_app, zlen_snoc; lia).
  rewrite <- LP.
  destruct (int2str_ok P b3 line) as (r1 & R1 & R2); [lia|lia|]. rewrite R2. cbn [bind].
  destruct (zlen_pos_cons r1) as (y4 & r2 & ->); [lia|]. rewrite zlen_cons in R1.
  destruct (zlen_pos_cons r2) as (y5 & r3 & ->); [lia|]. rewrite zlen_cons in R1.
  rewrite app_assoc.
  rewrite mstore_app by (rewrite zlen_app; lia). cbn [bind].
  rewrite mstore_app by (rewrite zlen_snoc, zlen_app; lia). cbn [bind].
  rewrite mstore_app by (rewrite !zlen_snoc, zlen_app; lia). cbn [bind].
  exists r3. rewrite !zlen_cons, zlen_app, !zlen_cons. split; [lia|]. rewrite LP. unfold P. rewrite <- !app_assoc. cbn [app].
  do 2 f_equal. lia.
Qed.
(** the same call writes outside the buffer when the field does not fit *)
Lemma func_line_overflow pre rest f r line : text f -> 0 < line < two31 ->
  zlen rest < zlen (func_field (Some f) line) + 1 ->
  print_func_line (pre ++ rest) (zlen pre) (f ++ 0 :: r) line = Ub.
Proof.
  intros T Hl. unfold func_field. destruct (Z.ltb_spec 0 line); [|lia]. rewrite !zlen_app.
  change (zlen [40]) with 1. change (zlen [58]) with 1. change (zlen [41;32]) with 2. intro Hr.
  pose proof (zlen_nonneg f). pose proof (zlen_nonneg (decimal line)). unfold print_func_line.
  destruct rest as [|y b]; [rewrite app_nil_r, mstore_oob by lia; reflexivity|]. rewrite zlen_cons in Hr.
  rewrite mstore_app by reflexivity. cbn [bind].
  rewrite (strlen_at_text [] f r 0 eq_refl T : strlen_at (f ++ 0 :: r) 0 = _). cbn [bind].
  rewrite mread_ok by (rewrite ?zlen_app; pose proof (zlen_nonneg (0 :: r)); lia). cbn [bind].
  unfold zsub. rewrite zdrop_0, ztake_app_len.
  destruct (Z_lt_dec (zlen b) (zlen f)) as [L|L].
  { rewrite mwrite_oob; [reflexivity|]. rewrite zlen_app, zlen_snoc. lia. }
  destruct (split_first_n (zlen f) b) as (b1 & b2 & -> & L1); [lia|]. rewrite zlen_app in Hr.
  rewrite mwrite_app by (rewrite ?zlen_snoc; lia). cbn [bind].
  destruct b2 as [|y2 b3]; [rewrite app_nil_r, mstore_oob by (rewrite zlen_app, zlen_snoc; lia); reflexivity|]. rewrite zlen_cons in Hr.
  rewrite mstore_app by (rewrite zlen_app, zlen_snoc; lia). cbn [bind].
  set (P := ((pre ++ [40]) ++ f) ++ [58]).
  assert (LP : zlen P = zlen pre + 1 + zlen f + 1) by (unfold P; rewrite !zlen_snoc, zlen_app, zlen_snoc; lia).
  rewrite <- LP.
  destruct (Z_lt_dec (zlen b3) (zlen (decimal line) + 1)) as [L2|L2].
  { rewrite int2str_oob by lia. reflexivity. }
  destruct (int2str_ok P b3 line) as (r1 & R1 & R2); [lia|lia|]. rewrite R2. cbn [bind]. rewrite app_assoc.
  rewrite mstore_app by (rewrite zlen_app; lia). cbn [bind].
  destruct r1 as [|y4 r2]; [rewrite app_nil_r, mstore_oob by (rewrite zlen_snoc, zlen_app; lia); reflexivity|]. rewrite zlen_cons in R1.
  rewrite mstore_app by (rewrite zlen_snoc, zlen_app; lia). cbn [bind].
  rewrite mstore_oob by (rewrite !zlen_app; change (zlen [41]) with 1; change (zlen [32]) with 1; lia). reflexivity.
Qed.

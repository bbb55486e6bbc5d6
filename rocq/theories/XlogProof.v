(** Proofs about the xlog model: the header printers. *)
From Verif Require Import CBase SeqLib CStr StringsModel StringsProof TimeModel TimeSpec TimeProof TimeProof2
  FileProof2 StrParamsProof XlogModel XlogSpec.

(** ** stores into the middle of a block *)
Lemma mstore_off (pre l : list Z) i k x : i = zlen pre + k -> 0 <= k ->
  mstore (pre ++ l) i x = do l <- mstore l k x; Ret (pre ++ l).
Proof.
  intros -> Hk. unfold mstore, mwrite. pose proof (zlen_nonneg pre). rewrite zlen_app. change (zlen [x]) with 1.
  destruct ((0 <=? k) && (k + 1 <=? zlen l)) eqn:E.
  - destruct ((0 <=? zlen pre + k) && (zlen pre + k + 1 <=? zlen pre + zlen l)) eqn:F; [|lia]. cbn [bind]. f_equal.
    unfold zwrite. change (zlen [x]) with 1. rewrite ztake_app, zdrop_app, ztake_all, zdrop_all by lia. rewrite <- !app_assoc. cbn [app].
    f_equal. f_equal; [f_equal; lia|]. f_equal. f_equal. lia.
  - destruct ((0 <=? zlen pre + k) && (zlen pre + k + 1 <=? zlen pre + zlen l)) eqn:F; [lia|]. reflexivity.
Qed.
Lemma mstore_front (l r : list Z) i x : 0 <= i < zlen l -> mstore (l ++ r) i x = do l <- mstore l i x; Ret (l ++ r).
Proof.
  intros H. unfold mstore, mwrite. change (zlen [x]) with 1. pose proof (zlen_nonneg r). rewrite zlen_app.
  destruct ((0 <=? i) && (i + 1 <=? zlen l)) eqn:E; [|lia].
  destruct ((0 <=? i) && (i + 1 <=? zlen l + zlen r)) eqn:F; [|lia]. cbn [bind]. f_equal.
  unfold zwrite. change (zlen [x]) with 1. rewrite ztake_app_l, zdrop_app_l by lia. rewrite <- !app_assoc. reflexivity.
Qed.
Lemma mstore_mid3 (pre a : list Z) x b rest y i : i = zlen pre + zlen a ->
  mstore (pre ++ (a ++ x :: b) ++ rest) i y = Ret (pre ++ (a ++ y :: b) ++ rest).
Proof.
  intros ->. rewrite <- !app_assoc. rewrite app_assoc. cbn [app].
  rewrite (mstore_app (pre ++ a) (b ++ rest) y x) by (rewrite zlen_app; reflexivity).
  rewrite <- !app_assoc. reflexivity.
Qed.
Lemma mload_mid3 (pre a : list Z) x b rest i : i = zlen pre + zlen a ->
  mload (pre ++ (a ++ x :: b) ++ rest) i = Ret x.
Proof.
  intros ->. rewrite <- !app_assoc. rewrite app_assoc. cbn [app]. apply mload_app0. rewrite zlen_app. reflexivity.
Qed.
Lemma zdrop_znth {A} (l : list A) i x : znth i l = Some x -> zdrop i l = x :: zdrop (i + 1) l.
Proof.
  intro H. pose proof (znth_Some_range _ _ _ H) as R.
  revert i H R. induction l as [|y l IH]; intros i H R; [rewrite znth_nil in H; discriminate|].
  destruct (Z.eq_dec i 0) as [->|N].
  - rewrite znth_cons_0 in H. injection H as <-. change (0 + 1) with 1. rewrite (zdrop_cons 1) by lia. reflexivity.
  - rewrite znth_cons in H by lia. rewrite !zdrop_cons by lia. rewrite zlen_cons in R. rewrite (IH (i - 1)) by (try exact H; lia).
    f_equal. f_equal. lia.
Qed.

(** ** print_level_tag *)
Lemma tag_loop_ok tag F cpy align : zlen F = align ->
  (forall i, 0 <= i < align -> exists x, znth i F = Some x /\ (if i <? cpy then mload tag i else Ret 32) = Ret x) ->
  forall fuel i pre rest p, 0 <= i <= align -> align - i <= Z.of_nat fuel -> p = zlen pre -> align - i <= zlen rest ->
  tag_loop fuel (pre ++ rest) p tag i cpy align =
    Ret ((pre ++ zdrop i F) ++ zdrop (align - i) rest, p + (align - i)).
Proof.
  intros LF HF. induction fuel as [|fuel IH]; intros i pre rest p Hi Hf Hp Hr; cbn [tag_loop];
    (destruct (Z.ltb_spec i align) as [Li|Li]; [|assert (i = align) as -> by lia; rewrite zdrop_all, Z.sub_diag, app_nil_r by lia; rewrite zdrop_0; do 2 f_equal; lia]).
  - lia.
  - destruct (HF i) as (x & X1 & X2); [lia|]. rewrite X2. cbn [bind].
    destruct (zlen_pos_cons rest) as (y & r & ->); [lia|]. rewrite zlen_cons in Hr.
    rewrite mstore_app by exact Hp. cbn [bind].
    rewrite IH by (try rewrite zlen_snoc; lia). rewrite (zdrop_znth F i x X1). rewrite (zdrop_cons (align - i)) by lia.
    rewrite <- !app_assoc. cbn [app]. do 2 f_equal; [|lia]. do 3 f_equal. f_equal. lia.
Qed.
Lemma znth_repeat32 n i : 0 <= i < Z.of_nat n -> znth i (repeat 32 n) = Some 32.
Proof.
  revert i; induction n as [|n IH]; intros i H; [lia|]. cbn [repeat]. destruct (Z.eq_dec i 0) as [->|N]; [reflexivity|].
  rewrite znth_cons by lia. apply IH. lia.
Qed.
Lemma zlen_tag_field t : 8 <= zlen (tag_field t) <= 22.
Proof.
  unfold tag_field. rewrite zlen_app, zlen_repeat, zlen_ztake_le. pose proof (zlen_nonneg t). lia.
Qed.
Lemma level_tag_ok pre rest level t r : 0 <= level <= 6 -> text t -> 26 <= zlen rest ->
  exists rest', zlen rest' + zlen (tag_field t) + 4 = zlen rest /\
  print_level_tag (pre ++ rest) (zlen pre) level (t ++ 0 :: r) =
    Ret ((pre ++ [32; level_char level; 47] ++ tag_field t) ++ 0 :: rest', 3 + zlen (tag_field t)).
Proof.
  intros Hl T Hr. pose proof (zlen_tag_field t) as LF. unfold print_level_tag.
  destruct (split_first_n 3 rest) as (a & b & -> & La); [lia|].
  destruct (zlen_pos_cons a) as (a1 & a' & ->); [lia|]. rewrite zlen_cons in La.
  destruct (zlen_pos_cons a') as (a2 & a'' & ->); [lia|]. rewrite zlen_cons in La.
  destruct (zlen_pos_cons a'') as (a3 & a4 & ->); [lia|]. rewrite zlen_cons in La.
  assert (a4 = []) as -> by (apply zlen_0_nil; lia). rewrite zlen_app in Hr. change (zlen [a1; a2; a3]) with 3 in Hr.
  cbn [app]. rewrite mstore_app by reflexivity. cbn [bind].
  assert (mload level_chars level = Ret (level_char level)) as ->.
  { assert (level = 0 \/ level = 1 \/ level = 2 \/ level = 3 \/ level = 4 \/ level = 5 \/ level = 6) as D by lia.
    repeat (destruct D as [->|D]; [reflexivity|]). subst level. reflexivity. }
  cbn [bind]. rewrite mstore_app by (rewrite zlen_snoc; lia). cbn [bind].
  rewrite mstore_app by (rewrite !zlen_snoc; lia). cbn [bind].
  rewrite (strlen_at_text [] t r 0 eq_refl T : strlen_at (t ++ 0 :: r) 0 = _). cbn [bind]. cbv zeta.
  unfold TAG_MAX. change (24 - 2) with 22.
  set (cpy := if zlen t >? 22 then 22 else zlen t).
  assert (cpy = zlen (ztake 22 t)) as Ecpy.
  { unfold cpy. rewrite zlen_ztake_le. pose proof (zlen_nonneg t). destruct (Z.gtb_spec (zlen t) 22); lia. }
  assert (zlen (tag_field t) = if cpy <? 8 then 8 else cpy) as Eal.
  { unfold tag_field. rewrite zlen_app, zlen_repeat. destruct (Z.ltb_spec cpy 8); pose proof (zlen_nonneg (ztake 22 t)); lia. }
  rewrite <- Eal. set (align := zlen (tag_field t)) in *.
  rewrite (tag_loop_ok (t ++ 0 :: r) (tag_field t) cpy align eq_refl).
  2:{ intros i Hi. unfold tag_field. destruct (Z.ltb_spec i cpy) as [L|L].
      - destruct (znth_in_range i (ztake 22 t)) as [x X]; [lia|]. exists x. split; [rewrite znth_app_l by lia; exact X|].
        apply mload_znth. rewrite zlen_ztake_le in Ecpy. rewrite znth_app_l by lia.
        rewrite znth_ztake in X by lia. exact X.
      - exists 32. split; [|reflexivity]. rewrite znth_app_r by lia. apply znth_repeat32.
        unfold align, tag_field in Hi. rewrite zlen_app, zlen_repeat in Hi. lia. }
  2:{ lia. } 2:{ lia. } 2:{ rewrite !zlen_snoc; lia. } 2:{ lia. }
  cbn [bind]. rewrite zdrop_0. rewrite !Z.sub_0_r.
  destruct (zlen_pos_cons (zdrop align b)) as (y & r' & E); [rewrite zlen_zdrop by lia; lia|].
  exists r'. rewrite !zlen_cons. assert (zlen (y :: r') = zlen b - align) as L' by (rewrite <- E; apply zlen_zdrop; lia).
  rewrite zlen_cons in L'. split; [unfold align in *; lia|]. rewrite E.
  rewrite mstore_app by (rewrite !zlen_app; change (zlen [32]) with 1; change (zlen [level_char level]) with 1; change (zlen [47]) with 1; fold align; lia).
  cbn [bind]. rewrite <- !app_assoc. cbn [app]. do 2 f_equal. lia.
Qed.

(** ** print_tid *)
Lemma tid_ok pre rest tid : - two31 < tid < two31 -> 8 <= zlen rest ->
  exists rest', zlen rest' + 8 = zlen rest /\
  print_tid (pre ++ rest) (zlen pre) tid = Ret ((pre ++ [40] ++ tid_field tid ++ [41]) ++ 0 :: rest', 7).
Proof.
  intros Ht Hr. destruct (split_first_n 8 rest) as (m & b & -> & Lm); [lia|].
  exists b. split; [rewrite zlen_app; lia|].
  assert (exists m0 m1 m2 m3 m4 m5 m6 m7, m = [m0;m1;m2;m3;m4;m5;m6;m7]) as (m0&m1&m2&m3&m4&m5&m6&m7&->).
  { unfold zlen in Lm. do 8 (destruct m as [|? m]; [cbn [length] in Lm; lia|]). destruct m; [|cbn [length] in Lm; lia].
    do 8 eexists. reflexivity. }
  unfold print_tid.
  assert ((if tid <? 0 then sint (- tid) else Ret tid) = Ret (Z.abs tid)) as ->.
  { destruct (Z.ltb_spec tid 0); [|f_equal; lia]. unfold two31 in *. rewrite sint_ok by (unfold two31; lia). f_equal; lia. }
  cbn [bind]. unfold tid_field. set (n := Z.abs tid). assert (0 <= n < two31) as Hn by lia. clearbody n.
  assert (S : forall l i k x, i = zlen pre + k -> 0 <= k < zlen l -> mstore (pre ++ l ++ b) i x = do l <- mstore l k x; Ret (pre ++ l ++ b)).
  { intros l i k x E K. rewrite (mstore_off pre (l ++ b) i k x) by lia. rewrite mstore_front by lia.
    unfold bind. destruct (mstore l k x); reflexivity. }
  assert (W : forall l i k w, i = zlen pre + k -> 0 <= k -> k + zlen w <= zlen l -> mwrite (pre ++ l ++ b) i w = do l <- mwrite l k w; Ret (pre ++ l ++ b)).
  { intros l i k w E K1 K2. pose proof (zlen_nonneg pre). pose proof (zlen_nonneg b). pose proof (zlen_nonneg w).
    rewrite (mwrite_ok (pre ++ l ++ b)), (mwrite_ok l) by (rewrite ?zlen_app; lia). cbn [bind]. f_equal.
    subst i. unfold zwrite. rewrite (ztake_app _ pre), (zdrop_app _ pre), ztake_all, zdrop_all by lia.
    rewrite ztake_app_l, zdrop_app_l by lia. rewrite <- !app_assoc. cbn [app]. f_equal. f_equal; [f_equal; lia|].
    f_equal. f_equal. f_equal. lia. }
  assert (G : forall p, 0 < p -> (n / p >? 0) = negb (n <? p)).
  { intros p Hp. destruct (Z.ltb_spec n p) as [L|L]; cbn [negb].
    - rewrite Z.div_small by lia. reflexivity.
    - assert (1 <= n / p) by (apply Z.div_le_lower_bound; lia). lia. }
  assert (D2 : n / 10 / 10 = n / 100) by lia. assert (D3 : n / 100 / 10 = n / 1000) by lia. assert (D4 : n / 1000 / 10 = n / 10000) by lia.
  assert (N1 : 0 <= n / 10) by lia. assert (N2 : 0 <= n / 100) by lia. assert (N3 : 0 <= n / 1000) by lia.
  cbv zeta. cbn [map]. cbn [tid_loop].
  change (Z.of_nat 5) with 5. change (Z.of_nat 4) with 4. change (Z.of_nat 3) with 3. change (Z.of_nat 2) with 2. change (Z.of_nat 1) with 1.
  rewrite !(Z.quot_div_nonneg n 10), !(Z.rem_mod_nonneg n 10) by lia.
  rewrite !(Z.quot_div_nonneg (n / 10) 10), !(Z.rem_mod_nonneg (n / 10) 10) by lia. rewrite !D2.
  rewrite !(Z.quot_div_nonneg (n / 100) 10), !(Z.rem_mod_nonneg (n / 100) 10) by lia. rewrite !D3.
  rewrite !(Z.quot_div_nonneg (n / 1000) 10), !(Z.rem_mod_nonneg (n / 1000) 10) by lia. rewrite !D4.
  rewrite !(Z.rem_mod_nonneg (n / 10000) 10) by (try apply Z.div_pos; lia).
  assert (E1 : (n >? 0) = negb (n <? 1)) by (destruct (Z.gtb_spec n 0), (Z.ltb_spec n 1); cbn [negb]; lia). rewrite E1, !G by lia. rewrite Z.div_1_r.
  assert (M1 : n <? 1 = true -> n <? 10 = true) by lia. assert (M2 : n <? 10 = true -> n <? 100 = true) by lia.
  assert (M3 : n <? 100 = true -> n <? 1000 = true) by lia. assert (M4 : n <? 1000 = true -> n <? 10000 = true) by lia.
  assert (Z0 : n <? 1 = true -> n = 0) by lia.
  assert (X1 : n <? 1 = true -> (if n <? 1 then 32 else 48 + n mod 10) = 32) by (intros ->; reflexivity).
  generalize dependent (48 + n mod 10). generalize (48 + n / 10 mod 10), (48 + n / 100 mod 10), (48 + n / 1000 mod 10), (48 + n / 10000 mod 10).
  intros d1 d2 d3 d4 d0 X1.
  assert (A2 : forall x y : Z, zlen pre + 1 + 5 - 1 = zlen pre + 5 /\ zlen pre + 1 + 4 - 1 = zlen pre + 4 /\ zlen pre + 1 + 3 - 1 = zlen pre + 3
     /\ zlen pre + 1 + 2 - 1 = zlen pre + 2 /\ zlen pre + 1 + 1 - 1 = zlen pre + 1 /\ zlen pre + 1 + 5 = zlen pre + 6 /\ zlen pre + 1 + 6 = zlen pre + 7) by lia.
  destruct (A2 0 0) as (-> & -> & -> & -> & -> & -> & ->). clear A2.
  replace (zlen pre) with (zlen pre + 0) at 1 by lia.
  Ltac st pre b S W := match goal with
    | |- context [mstore (pre ++ (?l ++ b)) (zlen pre + ?k) ?x] =>
      rewrite (S l (zlen pre + k) k x) by (try change (zlen l) with 8; lia);
      let r := eval vm_compute in (mstore l k x) in change (mstore l k x) with r; cbn [bind]
    | |- context [mwrite (pre ++ (?l ++ b)) (zlen pre + ?k) ?x] =>
      rewrite (W l (zlen pre + k) k x) by (try change (zlen l) with 8; first [lia|vm_compute; congruence]);
      let r := eval vm_compute in (mwrite l k x) in change (mwrite l k x) with r; cbn [bind]
    end.
  st pre b S W.
  destruct (n <? 1) eqn:C1; cbn [negb bind].
  { rewrite M4, M3, M2, M1 by auto. change (5 =? 0) with false. cbv iota. repeat st pre b S W. rewrite <- !app_assoc. reflexivity. }
  st pre b S W. destruct (n <? 10) eqn:C2; cbn [negb bind].
  { rewrite M4, M3, M2 by auto. change (4 =? 0) with false. cbv iota. repeat st pre b S W. rewrite <- !app_assoc. reflexivity. }
  st pre b S W. destruct (n <? 100) eqn:C3; cbn [negb bind].
  { rewrite M4, M3 by auto. change (3 =? 0) with false. cbv iota. repeat st pre b S W. rewrite <- !app_assoc. reflexivity. }
  st pre b S W. destruct (n <? 1000) eqn:C4; cbn [negb bind].
  { rewrite M4 by auto. change (2 =? 0) with false. cbv iota. repeat st pre b S W. rewrite <- !app_assoc. reflexivity. }
  st pre b S W. destruct (n <? 10000) eqn:C5; cbn [negb bind].
  { change (1 =? 0) with false. cbv iota. repeat st pre b S W. rewrite <- !app_assoc. reflexivity. }
  repeat st pre b S W. change (0 =? 0) with true. cbv iota. cbn [bind]. repeat st pre b S W. rewrite <- !app_assoc. reflexivity.
Qed.

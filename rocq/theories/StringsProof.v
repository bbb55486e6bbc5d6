From Verif Require Import CBase SeqLib CStr StringsModel StringsSpec.

(** ** strlcpy *)
Lemma cpy_loop_ok : forall u fuel pre o rs n, text u -> 1 <= n <= zlen o -> n <= Z.of_nat fuel ->
  (zlen u + 1 <= n - 1 ->
   cpy_loop fuel (pre ++ o) (pre ++ u ++ 0 :: rs) (zlen pre) n =
     Ret ((pre ++ u ++ [0]) ++ zdrop (zlen u + 1) o, zlen pre + zlen u + 1, n - 1 - zlen u)) /\
  (n - 1 <= zlen u ->
   cpy_loop fuel (pre ++ o) (pre ++ u ++ 0 :: rs) (zlen pre) n =
     Ret ((pre ++ ztake (n - 1) u) ++ zdrop (n - 1) o, zlen pre + (n - 1), 0)).
Proof.
  induction u as [|c u IH]; intros fuel pre o rs n T Hn Hf; (destruct fuel as [|fuel]; [lia|]); cbn [cpy_loop]; cbv zeta.
  - change (zlen (@nil Z)) with 0. split; intro H.
    + destruct (n - 1 =? 0) eqn:E; [lia|].
      destruct (zlen_pos_cons o ltac:(lia)) as [y [r ->]]. cbn [app].
      rewrite mload_app0 by reflexivity. cbn [bind]. rewrite mstore_app by reflexivity. cbn [bind].
      change (0 =? 0) with true. cbv iota. eqlia.
    + destruct (n - 1 =? 0) eqn:E; [|lia]. replace (n - 1) with 0 by lia.
      rewrite ztake_0, zdrop_0, app_nil_r, Z.add_0_r. reflexivity.
  - apply text_cons in T as [Hc T]. rewrite zlen_cons. pose proof (zlen_nonneg u).
    destruct (n - 1 =? 0) eqn:E.
    + split; intro H1; [lia|]. replace (n - 1) with 0 by lia.
      rewrite ztake_0, zdrop_0, app_nil_r, Z.add_0_r. reflexivity.
    + destruct (zlen_pos_cons o ltac:(lia)) as [y [r ->]]. rewrite zlen_cons in Hn. cbn [app].
      rewrite mload_app0 by reflexivity. cbn [bind]. rewrite mstore_app by reflexivity. cbn [bind].
      destruct (c =? 0) eqn:C0; [lia|].
      destruct (IH fuel (pre ++ [c]) r rs (n - 1) T ltac:(lia) ltac:(lia)) as [I1 I2].
      replace ((pre ++ [c]) ++ u ++ 0 :: rs) with (pre ++ c :: u ++ 0 :: rs) in * by (rewrite <- app_assoc; reflexivity).
      rewrite zlen_snoc in *. split; intro H1.
      * rewrite I1 by lia. rewrite zdrop_cons by lia. rewrite <- !app_assoc. cbn [app].
        replace (1 + zlen u + 1 - 1) with (zlen u + 1) by lia. rewrite <- (app_assoc u). cbn [app]. eqlia.
      * rewrite I2 by lia. rewrite ztake_cons, zdrop_cons by lia. rewrite <- !app_assoc. cbn [app]. eqlia.
Qed.
Lemma skip_loop_ok : forall u fuel pre rs, text u -> (length u < fuel)%nat ->
  skip_loop fuel (pre ++ u ++ 0 :: rs) (zlen pre) = Ret (zlen pre + zlen u + 1).
Proof.
  induction u as [|c u IH]; intros fuel pre rs T L; (destruct fuel as [|fuel]; [cbn in L; lia|]); cbn [skip_loop app].
  - rewrite mload_app0 by reflexivity. cbn [bind]. change (0 =? 0) with true. cbv iota.
    change (zlen (@nil Z)) with 0. f_equal; lia.
  - apply text_cons in T as [Hc T]. rewrite mload_app0 by reflexivity. cbn [bind].
    destruct (c =? 0) eqn:C0; [lia|].
    replace (pre ++ c :: u ++ 0 :: rs) with ((pre ++ [c]) ++ u ++ 0 :: rs) by (rewrite <- app_assoc; reflexivity).
    rewrite <- (zlen_snoc pre c), IH by (try exact T; cbn in L; lia). rewrite zlen_snoc, zlen_cons. f_equal; lia.
Qed.
Lemma strlcpy_lemma t rs dst size : text t -> 0 <= size <= zlen dst ->
  strlcpy dst (t ++ 0 :: rs) size =
    Ret (if size =? 0 then dst
         else ztake (size - 1) t ++ 0 :: zdrop (zlen (ztake (size - 1) t) + 1) dst, zlen t).
Proof.
  intros T H. unfold strlcpy. pose proof (zlen_nonneg t).
  assert (LT : (length t < S (length (t ++ 0%Z :: rs)))%nat) by (rewrite app_length; lia).
  destruct (size =? 0) eqn:E0.
  - cbn [bind]. change (0 =? 0) with true. cbv iota. cbn [bind].
    pose proof (skip_loop_ok t (S (length (t ++ 0 :: rs))) [] rs T LT) as S. cbn [app] in S.
    change (zlen (@nil Z)) with 0 in S. rewrite S. cbn [bind]. eqlia.
  - destruct (cpy_loop_ok t (Z.to_nat size) [] dst rs size T ltac:(lia) ltac:(lia)) as [C1 C2].
    cbn [app] in C1, C2. change (zlen (@nil Z)) with 0 in C1, C2. rewrite !Z.add_0_l in C1, C2.
    assert (zlen t + 1 <= size - 1 \/ size - 1 <= zlen t) as [D|D] by lia.
    + rewrite C1 by exact D. cbn [bind]. destruct (size - 1 - zlen t =? 0) eqn:E1; [lia|].
      rewrite ztake_all by lia. rewrite <- app_assoc. cbn [app]. eqlia.
    + rewrite C2 by exact D. cbn [bind]. change (0 =? 0) with true. cbv iota.
      assert (zlen (ztake (size - 1) t) = size - 1) as LZ by (apply zlen_ztake; lia). rewrite LZ.
      assert (0 < zlen (zdrop (size - 1) dst)) as LD by (rewrite zlen_zdrop; lia).
      destruct (zlen_pos_cons _ LD) as [y [r Er]]. rewrite Er.
      rewrite mstore_app by (symmetry; exact LZ). cbn [bind].
      pose proof (skip_loop_ok (zdrop (size - 1) t) (S (length (t ++ 0 :: rs))) (ztake (size - 1) t) rs) as S.
      rewrite app_assoc, ztake_zdrop, LZ in S. rewrite S.
      * cbn [bind]. rewrite zlen_zdrop by lia. rewrite <- app_assoc. cbn [app].
        replace (zdrop (size - 1 + 1) dst) with r; [eqlia|].
        assert (zdrop 1 (zdrop (size - 1) dst) = r) as R1 by (rewrite Er; reflexivity).
        rewrite <- R1, zdrop_zdrop by lia. f_equal; lia.
      * rewrite <- (ztake_zdrop (size - 1) t) in T. apply text_app in T. apply T.
      * unfold zdrop. rewrite skipn_length. lia.
Qed.

(** ** strlcat *)
Lemma cat_find_ok : forall p fuel pre o n, text p -> 0 <= n <= Z.of_nat fuel ->
  (n <= zlen p -> cat_find fuel (pre ++ p ++ o) (zlen pre) n = Ret (zlen pre + n)) /\
  (zlen p < n -> forall q, o = 0 :: q -> cat_find fuel (pre ++ p ++ o) (zlen pre) n = Ret (zlen pre + zlen p)).
Proof.
  induction p as [|c p IH]; intros fuel pre o n T Hn.
  - change (zlen (@nil Z)) with 0. split.
    + intro H. assert (n = 0) as -> by lia. destruct fuel; cbn [cat_find]; rewrite Z.eqb_refl, Z.add_0_r; reflexivity.
    + intros H q ->. destruct fuel as [|fuel]; [lia|]. cbn [cat_find app]. destruct (n =? 0) eqn:E; [lia|].
      rewrite mload_app0 by reflexivity. cbn [bind]. change (0 =? 0) with true. cbv iota. f_equal; lia.
  - apply text_cons in T as [Hc T]. rewrite zlen_cons. pose proof (zlen_nonneg p).
    destruct (n =? 0) eqn:E.
    + assert (n = 0) as -> by lia. split; intro H1; [|lia].
      destruct fuel; cbn [cat_find]; rewrite Z.eqb_refl, Z.add_0_r; reflexivity.
    + destruct fuel as [|fuel]; [lia|]. cbn [cat_find app]. rewrite E.
      rewrite mload_app0 by reflexivity. cbn [bind]. destruct (c =? 0) eqn:C0; [lia|].
      replace (pre ++ c :: p ++ o) with ((pre ++ [c]) ++ p ++ o) by (rewrite <- app_assoc; reflexivity).
      rewrite <- (zlen_snoc pre c). destruct (IH fuel (pre ++ [c]) o (n - 1) T ltac:(lia)) as [I1 I2].
      split; [intro H1; rewrite I1 by lia|intros H1 q Hq; rewrite (I2 ltac:(lia) q Hq)]; rewrite zlen_snoc; f_equal; lia.
Qed.
Lemma cat_loop_ok : forall u fuel pre w o rs n, text u -> (length u < fuel)%nat -> 1 <= n <= zlen o ->
  cat_loop fuel (w ++ o) (pre ++ u ++ 0 :: rs) (zlen w) (zlen pre) n =
  Ret ((w ++ ztake (n - 1) u) ++ zdrop (zlen (ztake (n - 1) u)) o, zlen (w ++ ztake (n - 1) u), zlen pre + zlen u).
Proof.
  induction u as [|c u IH]; intros fuel pre w o rs n T L Hn; (destruct fuel as [|fuel]; [cbn in L; lia|]); cbn [cat_loop app].
  - rewrite mload_app0 by reflexivity. cbn [bind]. change (0 =? 0) with true. cbv iota.
    rewrite ztake_nil, app_nil_r. change (zlen (@nil Z)) with 0. rewrite zdrop_0, Z.add_0_r. reflexivity.
  - apply text_cons in T as [Hc T]. rewrite mload_app0 by reflexivity. cbn [bind].
    destruct (c =? 0) eqn:C0; [lia|].
    replace (pre ++ c :: u ++ 0 :: rs) with ((pre ++ [c]) ++ u ++ 0 :: rs) by (rewrite <- app_assoc; reflexivity).
    rewrite <- (zlen_snoc pre c). destruct (n =? 1) eqn:E1.
    + rewrite IH by (try exact T; try lia; cbn in L; lia). assert (n = 1) as -> by lia.
      rewrite !ztake_neg by lia. rewrite zlen_snoc, zlen_cons. eqlia.
    + destruct (zlen_pos_cons o ltac:(lia)) as [y [r ->]]. rewrite zlen_cons in Hn.
      rewrite mstore_app by reflexivity. cbn [bind]. rewrite <- (zlen_snoc w c).
      rewrite IH by (try exact T; try lia; cbn in L; lia).
      rewrite ztake_cons by lia. rewrite (zlen_cons c), zdrop_cons by (pose proof (zlen_nonneg (ztake (n - 1 - 1) u)); lia).
      rewrite <- !app_assoc. cbn [app]. rewrite !zlen_snoc, !zlen_cons.
      replace (1 + zlen (ztake (n - 1 - 1) u) - 1) with (zlen (ztake (n - 1 - 1) u)) by lia. eqlia.
Qed.
Lemma strlcat_lemma p q t rs size : text p -> text t -> zlen p < size <= zlen (p ++ 0 :: q) ->
  strlcat (p ++ 0 :: q) (t ++ 0 :: rs) size =
    Ret ((p ++ ztake (size - 1 - zlen p) t) ++ 0 :: zdrop (zlen (ztake (size - 1 - zlen p) t)) q, zlen p + zlen t).
Proof.
  intros Tp Tt H. unfold strlcat. pose proof (zlen_nonneg p).
  destruct (cat_find_ok p (Z.to_nat size) [] (0 :: q) size Tp ltac:(lia)) as [_ C].
  cbn [app] in C. change (zlen (@nil Z)) with 0 in C. rewrite (C ltac:(lia) q eq_refl). cbn [bind]. clear C.
  rewrite Z.add_0_l. cbv zeta. destruct (size - zlen p =? 0) eqn:E; [lia|].
  rewrite zlen_app in H. change 0 with (zlen (@nil Z)) at 2.
  rewrite (cat_loop_ok t _ [] p (0 :: q) rs (size - zlen p)); [|exact Tt|rewrite app_length; lia|lia].
  cbn [bind]. replace (size - zlen p - 1) with (size - 1 - zlen p) by lia.
  set (u := ztake (size - 1 - zlen p) t).
  assert (zlen u <= size - 1 - zlen p) as LU by (unfold u; rewrite zlen_ztake_le; lia).
  pose proof (zlen_nonneg u). rewrite zlen_cons in H.
  assert (0 < zlen (zdrop (zlen u) (0 :: q))) as LD by (rewrite zlen_zdrop; rewrite zlen_cons; lia).
  destruct (zlen_pos_cons _ LD) as [y [r Er]]. rewrite Er.
  rewrite mstore_app by reflexivity. cbn [bind]. rewrite <- !app_assoc. cbn [app].
  change (zlen (@nil Z)) with 0. rewrite Z.add_0_l. do 6 f_equal.
  assert (zdrop 1 (zdrop (zlen u) (0 :: q)) = r) as R1 by (rewrite Er; reflexivity).
  rewrite zdrop_zdrop in R1 by lia. rewrite zdrop_cons in R1 by lia. rewrite <- R1. f_equal; lia.
Qed.
Lemma strlcat_full p o t rs size : text p -> text t -> size = zlen p ->
  strlcat (p ++ o) (t ++ 0 :: rs) size = Ret (p ++ o, size + zlen t).
Proof.
  intros Tp Tt H. unfold strlcat. pose proof (zlen_nonneg p).
  destruct (cat_find_ok p (Z.to_nat size) [] o size Tp ltac:(lia)) as [C _].
  cbn [app] in C. change (zlen (@nil Z)) with 0 in C. rewrite (C ltac:(lia)). cbn [bind]. clear C.
  rewrite Z.add_0_l. cbv zeta. destruct (size - size =? 0) eqn:E; [|lia].
  change (t ++ 0 :: rs) with ([] ++ t ++ 0 :: rs). rewrite strlen_at_text by (try exact Tt; reflexivity). reflexivity.
Qed.

(** ** strreplace *)
Lemma starts_with_false p c s : starts_with p (c :: s) = false -> forall rest, c :: s <> p ++ rest.
Proof. intros H rest E. rewrite E, starts_with_app in H. discriminate. Qed.
(** skipping to the first occurrence *)
Lemma strstr_split s p k r out : p <> [] -> strstr s p = Some k ->
  replaced p r (zdrop (k + zlen p) s) out ->
  replaced p r s (ztake k s ++ r ++ out) /\ 0 <= k /\ k + zlen p <= zlen s.
Proof.
  intro NP. revert k; induction s as [|c s IH]; intros k; rewrite strstr_unfold.
  - destruct p; [congruence|]. cbn. discriminate.
  - destruct (starts_with p (c :: s)) eqn:E.
    + intro H; injection H as <-. apply starts_with_iff in E as [rest E]. rewrite E.
      rewrite Z.add_0_l, zdrop_app_len, ztake_0. cbn [app]. intro R. split; [apply repl_hit; exact R|].
      rewrite zlen_app. pose proof (zlen_nonneg rest). lia.
    + destruct (strstr s p) as [m|] eqn:F; [|discriminate]. intro H; injection H as <-. intro R.
      assert (0 < zlen p) as LP by (destruct p; [congruence|rewrite zlen_cons; pose proof (zlen_nonneg p); lia]).
      destruct (strstr_Some s p m F) as (a & b & Ea & La). pose proof (zlen_nonneg a).
      rewrite zdrop_cons in R by lia. replace (1 + m + zlen p - 1) with (m + zlen p) in R by lia.
      destruct (IH m eq_refl R) as (R1 & R2 & R3). rewrite ztake_cons by lia.
      replace (1 + m - 1) with m by lia. rewrite zlen_cons. split; [|lia]. cbn [app].
      apply repl_skip; [apply starts_with_false; exact E|exact R1].
Qed.
Lemma strstr_None s p r : p <> [] -> strstr s p = None -> replaced p r s s.
Proof.
  intro NP. induction s as [|c s IH]; rewrite strstr_unfold; [intros _; constructor|].
  destruct (starts_with p (c :: s)) eqn:E; [discriminate|].
  destruct (strstr s p) eqn:F; [discriminate|]. intros _.
  apply repl_skip; [apply starts_with_false; exact E|]. apply IH; reflexivity.
Qed.

(** the list of cuts: number of hits and the result text *)
Fixpoint hits (fuel : nat) (s p : list Z) : Z :=
  match fuel, strstr s p with
  | S fuel, Some k => 1 + hits fuel (zdrop (k + zlen p) s) p
  | _, _ => 0
  end.
Fixpoint repl (fuel : nat) (s p r : list Z) : list Z :=
  match fuel, strstr s p with
  | S fuel, Some k => ztake k s ++ r ++ repl fuel (zdrop (k + zlen p) s) p r
  | _, _ => s
  end.
Lemma strstr_bounds s p k : strstr s p = Some k -> 0 <= k /\ k + zlen p <= zlen s.
Proof.
  intro H. destruct (strstr_Some s p k H) as (a & b & -> & <-). rewrite !zlen_app.
  pose proof (zlen_nonneg a). pose proof (zlen_nonneg b). lia.
Qed.
Lemma repl_replaced p r : p <> [] -> forall fuel s, zlen s <= Z.of_nat fuel -> replaced p r s (repl fuel s p r).
Proof.
  intro NP. assert (0 < zlen p) as LP by (destruct p; [congruence|rewrite zlen_cons; pose proof (zlen_nonneg p); lia]).
  induction fuel as [|fuel IH]; intros s L; cbn [repl].
  - assert (s = []) as -> by (apply zlen_0_nil; pose proof (zlen_nonneg s); lia). constructor.
  - destruct (strstr s p) as [k|] eqn:E; [|apply strstr_None; assumption].
    destruct (strstr_bounds s p k E). apply strstr_split; try assumption. apply IH. rewrite zlen_zdrop; lia.
Qed.
Lemma repl_len p r : p <> [] -> forall fuel s, zlen s <= Z.of_nat fuel ->
  zlen (repl fuel s p r) = zlen s + hits fuel s p * (zlen r - zlen p) /\ 0 <= hits fuel s p <= zlen s.
Proof.
  intro NP. assert (0 < zlen p) as LP by (destruct p; [congruence|rewrite zlen_cons; pose proof (zlen_nonneg p); lia]).
  induction fuel as [|fuel IH]; intros s L; cbn [repl hits]; pose proof (zlen_nonneg s); [split; lia|].
  destruct (strstr s p) as [k|] eqn:E; [|split; lia].
  destruct (strstr_bounds s p k E) as [B1 B2].
  destruct (IH (zdrop (k + zlen p) s)) as [I1 I2]; [rewrite zlen_zdrop; lia|].
  rewrite zlen_zdrop in I1, I2 by lia. rewrite !zlen_app, zlen_ztake by lia. rewrite I1. split; [lia|lia].
Qed.
Lemma count_loop_ok p o : p <> [] -> forall fuel off cnt, 0 <= off <= zlen o -> zlen o - off <= Z.of_nat fuel ->
  count_loop fuel o p off cnt = Ret (cnt + hits fuel (zdrop off o) p).
Proof.
  intro NP. assert (0 < zlen p) as LP by (destruct p; [congruence|rewrite zlen_cons; pose proof (zlen_nonneg p); lia]).
  induction fuel as [|fuel IH]; intros off cnt Ho Hf; cbn [count_loop hits].
  - assert (zdrop off o = []) as -> by (apply zdrop_all; lia).
    destruct p; [congruence|]. cbn. f_equal; lia.
  - destruct (strstr (zdrop off o) p) as [k|] eqn:E; [|f_equal; lia].
    destruct (strstr_bounds _ p k E) as [B1 B2]. rewrite zlen_zdrop in B2 by lia.
    rewrite IH by lia. rewrite zdrop_zdrop by lia. replace (k + zlen p + off) with (off + k + zlen p) by lia.
    f_equal; lia.
Qed.
Lemma repl_loop_ok p r o : p <> [] -> forall fuel off w buf, 0 <= off <= zlen o -> zlen o - off <= Z.of_nat fuel ->
  zlen (repl fuel (zdrop off o) p r) + 1 <= zlen buf ->
  exists w' rest off', 0 <= off' <= zlen o /\ w' ++ zdrop off' o = w ++ repl fuel (zdrop off o) p r /\
    zlen w' + zlen rest = zlen w + zlen buf /\
    repl_loop fuel o p r (w ++ buf) off (zlen w) = Ret (w' ++ rest, zlen w', off').
Proof.
  intro NP. assert (0 < zlen p) as LP by (destruct p; [congruence|rewrite zlen_cons; pose proof (zlen_nonneg p); lia]).
  induction fuel as [|fuel IH]; intros off w buf Ho Hf HB; cbn [repl_loop repl] in *.
  - assert (zdrop off o = []) as E by (apply zdrop_all; lia). rewrite E in *.
    assert (strstr [] p = None) as -> by (destruct p; [congruence|reflexivity]).
    exists w, buf, off. repeat split; try lia. rewrite E; reflexivity.
  - destruct (strstr (zdrop off o) p) as [k|] eqn:E.
    2:{ exists w, buf, off. repeat split; try lia; reflexivity. }
    destruct (strstr_bounds _ p k E) as [B1 B2]. rewrite zlen_zdrop in B2 by lia.
    destruct (repl_len p r NP fuel (zdrop (k + zlen p) (zdrop off o))) as [_ _].
    { rewrite zlen_zdrop; rewrite zlen_zdrop; lia. }
    rewrite !zlen_app, zlen_ztake in HB by (rewrite zlen_zdrop; lia).
    pose proof (zlen_nonneg r). pose proof (zlen_nonneg (repl fuel (zdrop (k + zlen p) (zdrop off o)) p r)).
    destruct (split_first_n k buf ltac:(lia)) as (b1 & b2 & -> & L1). rewrite zlen_app in HB.
    destruct (split_first_n (zlen r) b2 ltac:(lia)) as (b3 & b4 & -> & L2). rewrite zlen_app in HB.
    assert (zlen (zsub off k o) = k) as LK by (apply zlen_zsub; lia).
    rewrite (mwrite_app w (zsub off k o) b1 (b3 ++ b4)) by (try reflexivity; lia). cbn [bind].
    rewrite (mwrite_app (w ++ zsub off k o) r b3 b4) by (try lia; rewrite zlen_app; lia). cbn [bind].
    replace (zlen w + k + zlen r) with (zlen ((w ++ zsub off k o) ++ r)) by (rewrite !zlen_app; lia).
    rewrite zdrop_zdrop in * by lia. replace (k + zlen p + off) with (off + k + zlen p) in * by lia.
    destruct (IH (off + k + zlen p) ((w ++ zsub off k o) ++ r) b4) as (w' & rest & off' & R1 & R2 & R3 & R4); [lia|lia|lia|].
    exists w', rest, off'. split; [exact R1|]. split; [rewrite R2, <- !app_assoc; reflexivity|].
    split; [rewrite R3, !zlen_app; lia|exact R4].
Qed.
Lemma replaced_det p r : p <> [] -> forall s o1, replaced p r s o1 -> forall o2, replaced p r s o2 -> o1 = o2.
Proof.
  intro NP. induction 1 as [|s o1 R IH|c s o1 N R IH]; intros o2 R2.
  - inversion R2 as [E|s' o' R' E|]; [reflexivity|]. destruct p; [congruence|discriminate].
  - remember (p ++ s) as ps eqn:Eps. destruct R2 as [|s' o' R'|c s' o' N' R'].
    + destruct p; [congruence|discriminate].
    + apply app_inv_head in Eps. subst s'. f_equal. apply IH; exact R'.
    + exfalso. exact (N' s Eps).
  - remember (c :: s) as cs eqn:Ecs. destruct R2 as [|s' o' R'|c' s' o' N' R'].
    + discriminate.
    + exfalso. exact (N s' eq_refl).
    + injection Ecs as -> ->. f_equal. apply IH; exact R'.
Qed.
Lemma strreplace_lemma malloc o p r fuel :
  (forall k b, malloc k = Some b -> zlen b = k) -> p <> [] -> zlen o <= Z.of_nat fuel -> 
  (forall out, replaced p r o out -> zlen out + 1 < two64) ->
  exists out, replaced p r o out /\ (forall out', replaced p r o out' -> out' = out) /\
    strreplace malloc fuel o p r =
      Ret (match malloc (zlen out + 1) with Some _ => Some (out ++ [0]) | None => None end).
Proof.
  intros HM NP HF HL. pose proof (zlen_nonneg o).
  pose proof (repl_replaced p r NP fuel o HF) as RR. pose proof (HL _ RR) as L64.
  destruct (repl_len p r NP fuel o HF) as [RL1 RL2].
  exists (repl fuel o p r). split; [exact RR|].
  split; [intros out' R'; symmetry; exact (replaced_det p r NP _ _ RR _ R')|]. unfold strreplace.
  rewrite count_loop_ok by (try exact NP; lia). cbn [bind]. rewrite zdrop_0, Z.add_0_l. cbv zeta.
  set (h := hits fuel o p) in *. set (out := repl fuel o p r) in *.
  pose proof (zlen_nonneg out).
  assert (u64 (zlen o + h * u64 (zlen r - zlen p)) = zlen out) as E1.
  { unfold u64. rewrite Zplus_mod, Zmult_mod_idemp_r, <- Zplus_mod, <- RL1. apply Z.mod_small. lia. }
  rewrite E1. assert (u64 (zlen out + 1) = zlen out + 1) as -> by (unfold u64; apply Z.mod_small; lia).
  destruct (malloc (zlen out + 1)) as [buf|] eqn:M; [|reflexivity].
  pose proof (HM _ _ M) as LB.
  destruct (zlen_pos_cons buf ltac:(lia)) as [y [b Eb]].
  assert (mstore buf 0 0 = Ret (0 :: b)) as -> by (rewrite Eb; apply (mstore_app [] b 0 y 0); reflexivity). cbn [bind].
  assert (zlen (0 :: b) = zlen out + 1) as LB2 by (rewrite <- LB, Eb, !zlen_cons; reflexivity).
  destruct (repl_loop_ok p r o NP fuel 0 [] (0 :: b)) as (w' & rest & off' & R1 & R2 & R3 & R4); [lia|lia|rewrite zdrop_0; fold out; lia|].
  cbn [app] in R4. change (zlen (@nil Z)) with 0 in R3, R4. rewrite R4. cbn [bind].
  rewrite zdrop_0 in R2. cbn [app] in R2. fold out in R2.
  assert (zlen w' + zlen (zdrop off' o) = zlen out) as LW by (rewrite <- R2; symmetry; apply zlen_app).
  rewrite <- (app_nil_r rest), (mwrite_app w' _ rest []).
  - cbn [bind]. rewrite app_nil_r, app_assoc, R2. reflexivity.
  - reflexivity.
  - rewrite zlen_snoc. lia.
Qed.
Lemma strreplace_empty malloc o r : forall fuel, strreplace malloc fuel o [] r = NoFuel.
Proof.
  intro fuel. unfold strreplace.
  assert (forall fuel off cnt, count_loop fuel o [] off cnt = NoFuel) as ->; [|reflexivity].
  induction fuel0 as [|f IH]; intros off cnt; cbn [count_loop]; rewrite strstr_unfold; cbn [starts_with]; [reflexivity|apply IH].
Qed.

Lemma truncation_exact t rs dst size : text t -> 1 <= size <= zlen dst ->
  exists m n, strlcpy dst (t ++ 0 :: rs) size = Ret (m, n) /\ (n < size <-> ztake (zlen t + 1) m = t ++ [0]).
Proof.
  intros T H. rewrite strlcpy_lemma by (assumption || lia). do 2 eexists. split; [reflexivity|].
  destruct (size =? 0) eqn:E0; [lia|]. pose proof (zlen_nonneg t). split.
  - intro L. rewrite (ztake_all (size - 1) t) by lia. rewrite ztake_app.
    rewrite (ztake_all (zlen t + 1) t) by lia. f_equal.
    replace (zlen t + 1 - zlen t) with 1 by lia. rewrite ztake_cons by lia. reflexivity.
  - intro E. destruct (Z_lt_dec (zlen t) size) as [D|D]; [exact D|exfalso].
    assert (zlen (ztake (size - 1) t) = size - 1) as L1 by (apply zlen_ztake; lia).
    apply (f_equal (znth (size - 1))) in E. rewrite znth_ztake in E by lia.
    rewrite znth_app_r in E by lia. rewrite L1, Z.sub_diag in E. cbn in E.
    rewrite znth_app_l in E by lia. symmetry in E.
    apply znth_In in E. unfold text in T. rewrite Forall_forall in T. specialize (T 0 E). lia.
Qed.

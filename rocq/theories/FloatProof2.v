(** Text of a number and back *)
From Coq Require Import Lqa.
From Verif Require Import CBase CStr SeqLib StrParamsModel StrParamsSpec StrParamsProof StrParamsProof2 FloatModel FloatSpec FloatProof XlogProof4.
Open Scope Z_scope.

Definition dig (ds : list Z) : Prop := Forall (fun c => 48 <= c <= 57) ds.
Definition dv (acc : Z) (ds : list Z) : Z := fold_left (fun a c => a * 10 + (c - 48)) ds acc.
Lemma dv_app acc a b : dv acc (a ++ b) = dv (dv acc a) b. Proof. apply fold_left_app. Qed.
Lemma dv_acc ds : forall acc, dv acc ds = acc * 10 ^ zlen ds + dv 0 ds.
Proof.
  induction ds as [|c ds IH]; intro acc; [unfold dv; cbn [fold_left]; rewrite zlen_nil, Z.pow_0_r; lia|]. change (dv acc (c :: ds)) with (dv (acc * 10 + (c - 48)) ds). change (dv 0 (c :: ds)) with (dv (0 * 10 + (c - 48)) ds).
  rewrite (IH (acc * 10 + (c - 48))), (IH (0 * 10 + (c - 48))), zlen_cons, Z.pow_add_r, Z.pow_1_r by (pose proof (zlen_nonneg ds); lia). ring.
Qed.
Lemma dv_range ds : dig ds -> 0 <= dv 0 ds < 10 ^ zlen ds.
Proof.
  induction 1 as [|c ds R D IH]; [split; reflexivity || discriminate|]. change (dv 0 (c :: ds)) with (dv (0 * 10 + (c - 48)) ds). pose proof (zlen_nonneg ds). rewrite dv_acc, zlen_cons, Z.pow_add_r, Z.pow_1_r by lia.
  assert (0 < 10 ^ zlen ds) by (apply Z.pow_pos_nonneg; lia). nia.
Qed.
Lemma dig_take j ds : dig ds -> dig (ztake j ds).
Proof. intro H. unfold dig, ztake. rewrite <- (firstn_skipn (Z.to_nat j) ds) in H. apply Forall_app in H. apply H. Qed.
Lemma zlen_pad k : forall n, zlen (pad k n) = Z.of_nat k.
Proof. induction k as [|k IH]; intro n; [reflexivity|]. cbn [pad]. rewrite zlen_app, IH, zlen_cons, zlen_nil. lia. Qed.
Lemma pad_dig k : forall n, dig (pad k n).
Proof. induction k as [|k IH]; intro n; [constructor|]. cbn [pad]. apply Forall_app. split; [apply IH|]. constructor; [|constructor]. pose proof (Z.mod_pos_bound n 10). lia. Qed.
Lemma pad_val k : forall n, 0 <= n < 10 ^ Z.of_nat k -> dv 0 (pad k n) = n.
Proof.
  induction k as [|k IH]; intros n R; [cbn in *; lia|]. replace (Z.of_nat (S k)) with (Z.of_nat k + 1) in R by lia. rewrite Z.pow_add_r, Z.pow_1_r in R by lia.
  cbn [pad]. rewrite dv_app, IH by (split; [apply Z.div_pos; lia|apply Z.div_lt_upper_bound; lia]). unfold dv. cbn [fold_left]. pose proof (Z.div_mod n 10 ltac:(lia)). lia.
Qed.
Lemma pad_zero k : pad k 0 = repeat 48 k.
Proof.
  induction k as [|k IH]; [reflexivity|]. cbn [pad]. change (0 / 10) with 0. change (48 + 0 mod 10) with 48. rewrite IH. clear IH. induction k as [|k IH]; [reflexivity|]. cbn [repeat app]. rewrite IH. reflexivity.
Qed.
Lemma decimal_len n k : 0 <= n < 10 ^ Z.of_nat (S k) -> zlen (decimal n) <= Z.of_nat (S k).
Proof. intro R. unfold decimal. rewrite zlen_rev. unfold zlen. pose proof (dec_len (S (Z.to_nat (Z.log2 n))) n k R). lia. Qed.
Lemma decimal_len_ge n k : 0 <= k -> 10 ^ k <= n -> k < zlen (decimal n).
Proof.
  intros K R. assert (0 < 10 ^ k) by (apply Z.pow_pos_nonneg; lia). destruct (decimal_ok n ltac:(lia)) as (D & V & _). pose proof (dv_range _ D) as [_ U]. unfold dv in U. rewrite V in U.
  destruct (Z_lt_le_dec k (zlen (decimal n))) as [L|L]; [auto|]. exfalso. pose proof (zlen_nonneg (decimal n)). assert (10 ^ zlen (decimal n) <= 10 ^ k) by (apply Z.pow_le_mono_r; lia). lia.
Qed.

(** ** strtod *)
Definition sg (ng : bool) : list Z := if ng then [45] else [].
Lemma digits_stop ds r acc : dig ds -> match r with c :: _ => 10 <= digit_val c | [] => True end -> strtol_digits 10 acc (ds ++ r) = (dv acc ds, zlen ds).
Proof.
  intro D. revert acc. induction D as [|c ds R D IH]; intros acc S.
  - cbn [app]. destruct r as [|c r]; [reflexivity|]. cbn [strtol_digits]. destruct (digit_val c <? 10) eqn:E; [lia|reflexivity].
  - cbn [app strtol_digits]. assert (digit_val c = c - 48) as ->. { unfold digit_val. destruct ((48 <=? c) && (c <=? 57)) eqn:E; lia. }
    destruct (c - 48 <? 10) eqn:E; [|lia]. rewrite IH by auto. cbn [fst snd]. rewrite zlen_cons. reflexivity.
Qed.
Lemma strtod_ok ng ds fr tl : dig ds -> ds <> [] -> dig fr -> tl = [] /\ fr = [] \/ tl = 46 :: fr ->
  strtod (sg ng ++ ds ++ tl) = (round_double ng (dv 0 (ds ++ fr) # Z.to_pos (10 ^ zlen fr)), zlen (sg ng ++ ds ++ tl)).
Proof.
  intros D N F T. destruct ds as [|c ds0]; [congruence|]. set (ds := c :: ds0) in *. pose proof D as D0. inversion_clear D0 as [|? ? RC D1].
  assert (SP : is_space c = false) by (unfold is_space; destruct ((c =? 32) || (9 <=? c) && (c <=? 13)) eqn:?; lia).
  assert (CS : count_space (sg ng ++ ds ++ tl) = 0). { destruct ng; cbn [sg app count_space]; [reflexivity|]. unfold ds. cbn [app count_space]. rewrite SP. reflexivity. }
  unfold strtod, strto. rewrite CS, !zdrop_0. cbv zeta.
  assert (E1 : match sg ng ++ ds ++ tl with [] => 0 | c :: _ => if (c =? 45) || (c =? 43) then 1 else 0 end = zlen (sg ng)).
  { destruct ng; [reflexivity|]. unfold ds. cbn [sg app]. destruct ((c =? 45) || (c =? 43)) eqn:X; [lia|reflexivity]. }
  assert (E2 : match sg ng ++ ds ++ tl with [] => false | c :: _ => c =? 45 end = ng).
  { destruct ng; [reflexivity|]. unfold ds. cbn [sg app]. lia. }
  rewrite E1, E2, zdrop_app_len.
  assert (S1 : match tl with c :: _ => 10 <= digit_val c | [] => True end) by (destruct T as [[-> _]| ->]; [exact I|cbn; lia]).
  rewrite (digits_stop ds tl 0 D S1). cbn [fst snd]. rewrite zdrop_app_len.
  assert (L : 0 < zlen ds) by (unfold ds; rewrite zlen_cons; pose proof (zlen_nonneg ds0); lia). pose proof (zlen_nonneg fr).
  destruct T as [[-> ->]| ->].
  - cbn [fst snd]. destruct (zlen ds + 0 =? 0) eqn:Z0; [lia|]. rewrite !app_nil_r, zlen_app. f_equal. lia.
  - change (46 =? 46) with true. cbv iota. rewrite (zdrop_cons 1) by lia. change (1 - 1) with 0. rewrite zdrop_0.
    pose proof (digits_stop fr [] (dv 0 ds) F I) as G. rewrite app_nil_r in G. rewrite G. cbn [fst snd]. destruct (zlen ds + zlen fr =? 0) eqn:Z0; [lia|].
    rewrite dv_app. rewrite !zlen_app, zlen_cons. f_equal. lia.
Qed.

(** ** the store *)
Lemma fmt10_shape x : exists n, n = nearest (mag x * inject_Z (10 ^ 10)) /\ fmt10 x = sg (neg x) ++ decimal (n / 10 ^ 10) ++ 46 :: pad 10 (n mod 10 ^ 10).
Proof. eexists. split; [reflexivity|]. reflexivity. Qed.
Lemma dig_c ds : dig ds -> cstring ds. Proof. intro H. eapply Forall_impl; [|exact H]. cbn. lia. Qed.
Lemma cstring_take j s : cstring s -> cstring (ztake j s).
Proof. intro H. unfold cstring, ztake. rewrite <- (firstn_skipn (Z.to_nat j) s) in H. apply Forall_app in H. apply H. Qed.
Lemma mag_nonneg x : 0 <= mant x -> (0 <= mag x)%Q.
Proof. intro H. unfold mag. pose proof (pow2_pos (expo x)). apply Qmult_le_0_compat; [|lra]. change 0%Q with (inject_Z 0). apply (proj1 (inj_le _ _)). auto. Qed.
Lemma fmt10_c x : 0 <= mant x -> cstring (fmt10 x).
Proof.
  intro H. unfold fmt10. assert (N : 0 <= nearest (mag x * inject_Z (10 ^ 10))). { apply nearest_nonneg. apply Qmult_le_0_compat; [apply mag_nonneg; auto|]. change 0%Q with (inject_Z 0). apply (proj1 (inj_le _ _)). lia. }
  apply Forall_app. split; [destruct (neg x); repeat constructor; lia|]. apply Forall_app. split; [apply dig_c, decimal_ok, Z.div_pos; lia|]. apply Forall_app. split; [repeat constructor; lia|]. apply dig_c, pad_dig.
Qed.
Lemma add_double_text a p k t : cstring t -> sp_add_double a p k t = sp_add_str a p k (ztake 31 t).
Proof.
  intro C. unfold sp_add_double. destruct (Z_lt_le_dec (zlen t) 32) as [L|L].
  - pose proof (snprintf_short [] (repeat 0 32) t 32 ltac:(lia) ltac:(rewrite zlen_repeat; lia)) as E. cbn [app] in E. change (zlen (@nil Z)) with 0 in E. rewrite E. cbn [bind]. rewrite (fun r => cstr_at_text [] t r 0 eq_refl (cstring_text t C) : cstr_at (t ++ 0 :: r) 0 = Ret t). cbn [bind]. rewrite ztake_all by lia. reflexivity.
  - pose proof (snprintf_long [] (repeat 0 32) t 32 ltac:(lia) ltac:(rewrite zlen_repeat; lia)) as E. cbn [app] in E. change (zlen (@nil Z)) with 0 in E. rewrite E. cbn [bind]. rewrite (fun r => cstr_at_text [] (ztake (32 - 1) t) r 0 eq_refl (cstring_text _ (cstring_take _ t C)) : cstr_at (ztake (32 - 1) t ++ 0 :: r) 0 = Ret (ztake (32 - 1) t)). cbn [bind]. reflexivity.
Qed.
Lemma store_read a p s k t f : srep p s -> cstring k -> cstring t -> tables_ok (sa_table a) -> zlen s < big -> add_succeeds s a k = true ->
  strtod (ztake 31 t) = (f, zlen (ztake 31 t)) -> ztake 31 t <> [] ->
  exists p', sp_add_double a p k t = Ret (p', 0) /\ get_double p' k = Ret (0, Some f).
Proof.
  intros R K C T B OK ST NE. rewrite add_double_text by auto. set (v := ztake 31 t) in *. assert (CV : cstring v) by (apply cstring_take, C).
  destruct (add_str_ok a p s k v R K CV T B) as (p' & E & R' & _). rewrite OK in E. exists p'. split; [auto|].
  unfold m_add in R'. rewrite OK in R'. cbn [fst] in R'. unfold get_double. rewrite (sp_get_ok p' _ k R' K). cbn [bind].
  rewrite lookup_update, list_eqb_refl. rewrite code_nz, decode_code by auto. cbv zeta. rewrite ST. cbn [fst snd]. rewrite Z.eqb_refl.
  destruct (zlen v =? 0) eqn:Z0; [exfalso; apply NE, zlen_0_nil; lia|reflexivity].
Qed.

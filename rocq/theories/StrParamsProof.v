From Verif Require Import CBase SeqLib CStr StringsModel StringsSpec StringsProof StringsProof2 HashmapModel HashmapSpec HashmapProof HashFnModel
  StrParamsModel StrParamsSpec.

Lemma list_eqb_iff a b : list_eqb a b = true <-> a = b.
Proof.
  revert b; induction a as [|x a IH]; intros [|y b]; cbn [list_eqb]; split; intro H; try congruence; try discriminate.
  - apply andb_true_iff in H as [H1 H2]. apply IH in H2. f_equal; [lia|exact H2].
  - inversion H; subst. apply andb_true_iff. split; [lia|apply IH; reflexivity].
Qed.
Lemma list_eqb_refl a : list_eqb a a = true. Proof. apply list_eqb_iff; reflexivity. Qed.
Lemma list_eqb_sym a b : list_eqb a b = list_eqb b a.
Proof.
  destruct (list_eqb a b) eqn:E.
  - apply list_eqb_iff in E. subst. symmetry. apply list_eqb_refl.
  - destruct (list_eqb b a) eqn:F; [|reflexivity]. apply list_eqb_iff in F. subst. rewrite list_eqb_refl in E. discriminate.
Qed.
Lemma str_compat : compatible str_hash_fn str_eq.
Proof.
  unfold str_eq. split; [|split; [|split]].
  - intro a. apply list_eqb_refl.
  - intros a b. apply list_eqb_sym.
  - intros a b c A B. apply list_eqb_iff in A, B. apply list_eqb_iff. congruence.
  - intros a b A. apply list_eqb_iff in A. unfold str_hash_fn. rewrite A. reflexivity.
Qed.

Lemma code_snoc s c : code (s ++ [c]) = code s * 256 + c.
Proof. unfold code. rewrite fold_left_app. reflexivity. Qed.
Lemma code_pos s : cstring s -> 256 ^ zlen s <= code s.
Proof.
  induction s as [|c s IH] using rev_ind; intro C; [change (1 <= 1); lia|].
  apply Forall_app in C as [C1 C2]. inversion_clear C2 as [|? ? R _]. rewrite code_snoc, zlen_snoc, Z.pow_add_r by (pose proof (zlen_nonneg s); lia).
  specialize (IH C1). lia.
Qed.
Lemma code_ge1 s : cstring s -> 1 <= code s.
Proof. intro C. pose proof (code_pos s C). pose proof (zlen_nonneg s). assert (0 < 256 ^ zlen s) by (apply Z.pow_pos_nonneg; lia). lia. Qed.
Lemma decode_code_fuel s : cstring s -> forall f, (length s <= f)%nat -> decode_fuel f (code s) = s.
Proof.
  induction s as [|c s IH] using rev_ind; intros C f F.
  - destruct f; reflexivity.
  - rewrite app_length in F. cbn [length] in F. destruct f as [|f]; [lia|]. apply Forall_app in C as [C1 C2]. inversion_clear C2 as [|? ? R _].
    cbn [decode_fuel]. rewrite code_snoc. pose proof (code_ge1 s C1). destruct (code s * 256 + c <=? 1) eqn:E; [lia|].
    replace ((code s * 256 + c) / 256) with (code s) by lia. replace ((code s * 256 + c) mod 256) with c by lia.
    rewrite IH by (assumption || lia). reflexivity.
Qed.
Lemma decode_code s : cstring s -> decode (code s) = s.
Proof.
  intro C. unfold decode. apply decode_code_fuel; [exact C|].
  pose proof (code_pos s C) as P. apply Z.log2_le_mono in P. pose proof (zlen_nonneg s).
  change 256 with (2 ^ 8) in P. rewrite <- Z.pow_mul_r, Z.log2_pow2 in P by lia. unfold zlen in P. lia.
Qed.
Lemma code_nz s : cstring s -> (code s =? 0) = false.
Proof. intro C. pose proof (code_ge1 s C). lia. Qed.
Lemma str_eq_code a b : cstring a -> cstring b -> str_eq (code a) (code b) = list_eqb a b.
Proof. intros A B. unfold str_eq. rewrite !decode_code by assumption. reflexivity. Qed.
Lemma cstring_text s : cstring s -> text s.
Proof. intro C. eapply Forall_impl; [|exact C]. cbn. lia. Qed.

Definition cpair (p : list Z * list Z) : Prop := cstring (fst p) /\ cstring (snd p).
Definition csmap (s : smap) : Prop := Forall cpair s.
Definition enc1 (p : list Z * list Z) : Z * Z := (code (fst p), code (snd p)).
Definition encs (s : smap) : fmap := map enc1 s.

Lemma enc_find s k : csmap s -> cstring k -> s_find str_eq (encs s) (code k) =
  match lookup s k with Some v => Some (code k, code v) | None => None end.
Proof.
  intros CS CK. induction CS as [|[a b] s [A B] CS IH]; [reflexivity|]. unfold s_find. cbn [encs map find lookup enc1 fst snd] in *.
  rewrite str_eq_code by assumption. destruct (list_eqb a k) eqn:E; [|exact IH]. apply list_eqb_iff in E. subst. reflexivity.
Qed.
Lemma enc_put s k v : csmap s -> cstring k -> s_put str_eq (encs s) (code k) (code v) = encs (update s k v).
Proof.
  intros CS CK. unfold s_put. rewrite enc_find by assumption. unfold update. destruct (lookup s k).
  - unfold encs. rewrite !map_map. apply map_ext_in. intros [a b] I. cbn [enc1 fst snd].
    unfold csmap in CS. rewrite Forall_forall in CS. destruct (CS _ I) as [A B]. cbn in A, B.
    rewrite str_eq_code by assumption. destruct (list_eqb a k); reflexivity.
  - unfold encs. rewrite map_app. reflexivity.
Qed.
Lemma enc_remove s k : csmap s -> cstring k -> s_remove str_eq (encs s) (code k) = encs (delete s k).
Proof.
  intros CS CK. unfold s_remove, delete. induction CS as [|[a b] s [A B] CS IH]; [reflexivity|]. cbn [encs map filter enc1 fst snd] in *.
  rewrite str_eq_code by assumption. destruct (list_eqb a k); cbn [negb]; [exact IH|]. cbn [map enc1 fst snd]. f_equal. exact IH.
Qed.
Lemma enc_get s k : csmap s -> cstring k -> s_get str_eq (encs s) (code k) = match lookup s k with Some v => code v | None => 0 end.
Proof. intros CS CK. unfold s_get. rewrite enc_find by assumption. destruct (lookup s k); reflexivity. Qed.
Lemma lookup_c s k v : csmap s -> lookup s k = Some v -> cstring v.
Proof.
  induction 1 as [|[a b] s [A B] CS IH]; cbn [lookup]; intro L; [discriminate|]. destruct (list_eqb a k); [injection L as <-; exact B|auto].
Qed.
Lemma update_c s k v : csmap s -> cstring k -> cstring v -> csmap (update s k v).
Proof.
  intros CS K V. unfold update. destruct (lookup s k).
  - unfold csmap. apply Forall_map. eapply Forall_impl; [|exact CS]. intros [a b] [A B]. cbn in A, B. cbn [fst]. destruct (list_eqb a k); split; assumption.
  - apply Forall_app. split; [exact CS|]. repeat constructor; assumption.
Qed.
Lemma delete_c s k : csmap s -> csmap (delete s k).
Proof. intro CS. unfold delete. apply Forall_forall. intros p I. apply filter_In in I as [I _]. unfold csmap in CS. rewrite Forall_forall in CS. auto. Qed.
Lemma update_len s k v : zlen (update s k v) <= zlen s + 1.
Proof. unfold update. destruct (lookup s k); [rewrite zlen_map; lia|rewrite zlen_snoc; lia]. Qed.
Lemma delete_len s k : zlen (delete s k) <= zlen s.
Proof.
  unfold delete. induction s as [|p s IH]; [cbn; lia|]. cbn [filter]. destruct (negb (list_eqb (fst p) k)); rewrite ?zlen_cons in *; lia.
Qed.

(** the representation *)
Definition srep (p : sp) (s : smap) : Prop :=
  sp_bad p = false /\ csmap s /\ rep str_hash_fn str_eq (sp_map p) (encs s).
Definition big := 288230376151711744.  (* 2^58 *)

Lemma tables_sane okx : tables_ok okx -> sane_table okx.
Proof. intros T n H. apply T in H. exact H. Qed.
Lemma encs_len s : zlen (encs s) = zlen s. Proof. apply zlen_map. Qed.

Lemma refused_no okx m s : tables_ok okx -> rep str_hash_fn str_eq m s -> zlen s < big -> table_refused okx m = false.
Proof.
  intros T ((k & K & G) & SZ & _) B. unfold table_refused. destruct G as [L _]. rewrite L, SZ. pose proof (zlen_nonneg s).
  unfold big in B. assert (u64 (zlen s + 1) = zlen s + 1) as -> by (unfold u64, two64; apply Z.mod_small; lia).
  destruct (Z.eq_dec k 60) as [->|NE].
  - change (2 ^ 60) with 1152921504606846976. destruct (zlen s + 1 <=? 1152921504606846976 * 3 / 4) eqn:E; [reflexivity|].
    exfalso. change (1152921504606846976 * 3 / 4) with 864691128455135232 in E. lia.
  - assert (2 ^ k <= 2 ^ 59) by (apply Z.pow_le_mono_r; lia). change (2 ^ 59) with 576460752303423488 in *.
    assert (0 < 2 ^ k) by (apply Z.pow_pos_nonneg; lia).
    assert (u64 (2 ^ k * 2) = 2 ^ k * 2) as -> by (unfold u64, two64; apply Z.mod_small; lia).
    assert (okx (2 ^ k * 2) = true) as -> by (apply T; lia). rewrite andb_false_r. reflexivity.
Qed.

Lemma sp_put_ok ok okx m s k v : sane_table okx -> rep str_hash_fn str_eq m (encs s) -> csmap s -> cstring k -> zlen s < big ->
  exists m', sp_put ok okx m (code k) (code v) = Ret (m', match lookup s k with Some o => code o | None => 0 end) /\
    rep str_hash_fn str_eq m' (encs (match lookup s k with Some _ => update s k v | None => if ok then update s k v else s end)).
Proof.
  intros SX R CS CK B. unfold sp_put.
  destruct (put_ok str_hash_fn str_eq true false str_compat ok okx m (encs s) (code k) (code v) SX R) as (m' & E & R').
  { rewrite encs_len. unfold big, two64 in *. lia. }
  rewrite E. cbn [bind]. exists m'. rewrite enc_find in * by assumption. split.
  - destruct (lookup s k); reflexivity.
  - rewrite enc_put in R' by assumption. destruct (lookup s k); [exact R'|]. destruct ok; exact R'.
Qed.

Lemma add_str_ok a p s k v : srep p s -> cstring k -> cstring v -> tables_ok (sa_table a) -> zlen s < big ->
  exists p', sp_add_str a p k v = Ret (p', if add_succeeds s a k then 0 else -12) /\
    srep p' (fst (m_add s a k v)) /\ sp_delim p' = sp_delim p.
Proof.
  intros RR CK CV T B. pose proof RR as (NB & CS & R). unfold sp_add_str, m_add, add_succeeds. rewrite NB.
  destruct (sa_key a); cbn [negb andb]; [|exists p; split; [reflexivity|split; [exact RR|reflexivity]]].
  destruct (sa_val a); cbn [negb andb]; [|exists p; split; [reflexivity|split; [exact RR|reflexivity]]].
  destruct (sp_put_ok (sa_entry a) (sa_table a) (sp_map p) s k v (tables_sane _ T) R CS CK B) as (m' & E & R').
  rewrite E. cbn [bind]. destruct (lookup s k) as [o|] eqn:L.
  - rewrite code_nz by (eapply lookup_c; eassumption). rewrite orb_true_r. eexists. split; [reflexivity|].
    split; [|reflexivity]. split; [reflexivity|]. split; [apply update_c; assumption|exact R'].
  - change (0 =? 0) with true. cbv iota. rewrite (refused_no (sa_table a) (sp_map p) (encs s) T R) by (rewrite encs_len; exact B).
    destruct (sa_entry a); cbn [negb orb fst]; (eexists; split; [reflexivity|]; split; [|reflexivity]; split; [reflexivity|]; split; [|exact R']).
    + apply update_c; assumption.
    + exact CS.
Qed.

Lemma sp_get_ok p s k : srep p s -> cstring k -> sp_get p k = Ret (match lookup s k with Some v => code v | None => 0 end).
Proof.
  intros (NB & CS & R) CK. unfold sp_get. rewrite NB, (get_ok str_hash_fn str_eq false str_compat (sp_map p) (encs s) (code k) R). cbn [bind].
  rewrite enc_get by assumption. reflexivity.
Qed.
Lemma has_key_ok p s k : srep p s -> cstring k -> sp_has_key p k = Ret (match lookup s k with Some _ => true | None => false end).
Proof.
  intros R CK. unfold sp_has_key. rewrite (sp_get_ok p s k R CK). cbn [bind]. destruct (lookup s k) as [v|] eqn:L; [|reflexivity].
  rewrite code_nz by (eapply lookup_c; [apply R|exact L]). reflexivity.
Qed.
Lemma get_str_ok p s k out : srep p s -> cstring k -> sp_get_str p k out =
  Ret (match lookup s k with
       | None => (out, -2)
       | Some v => if zlen v <? zlen out then (v ++ 0 :: zdrop (zlen v + 1) out, 0) else (out, -12)
       end).
Proof.
  intros R CK. unfold sp_get_str. rewrite (sp_get_ok p s k R CK). cbn [bind]. destruct (lookup s k) as [v|] eqn:L; [|reflexivity].
  assert (cstring v) as CV by (eapply lookup_c; [apply R|exact L]). rewrite code_nz by exact CV. cbn [negb]. rewrite decode_code by exact CV. cbv zeta.
  pose proof (strlen_at_text [] v [] 0 eq_refl (cstring_text v CV)) as S. cbn [app] in S. rewrite S. cbn [bind].
  pose proof (zlen_nonneg v). destruct (zlen v <? zlen out) eqn:E.
  - destruct (zlen v + 1 >? zlen out) eqn:F; [lia|]. rewrite strlcpy_lemma by (apply cstring_text, CV || lia). cbn [bind].
    destruct (zlen out =? 0) eqn:Z0; [lia|]. rewrite ztake_all by lia. reflexivity.
  - destruct (zlen v + 1 >? zlen out) eqn:F; [|lia]. reflexivity.
Qed.
Lemma get_long_ok p s k : srep p s -> cstring k -> sp_get_long p k = Ret (m_long s k).
Proof.
  intros R CK. unfold sp_get_long, m_long. rewrite (sp_get_ok p s k R CK). cbn [bind]. destruct (lookup s k) as [v|] eqn:L; [|reflexivity].
  assert (cstring v) as CV by (eapply lookup_c; [apply R|exact L]). rewrite code_nz by exact CV. cbn [negb]. rewrite decode_code by exact CV. cbv zeta.
  destruct ((zlen v =? 0) || negb (snd (strtol0 v) =? zlen v)); reflexivity.
Qed.
Lemma del_ok p s k : srep p s -> cstring k -> zlen s < big -> exists p', sp_del p k = Ret p' /\ srep p' (delete s k) /\ sp_delim p' = sp_delim p.
Proof.
  intros (NB & CS & R) CK B. unfold sp_del. rewrite NB.
  destruct (remove_ok str_hash_fn str_eq true true false str_compat (sp_map p) (encs s) (code k) R) as (m' & E & R').
  { rewrite encs_len. unfold big, two64 in *. lia. }
  rewrite E. cbn [bind]. eexists. split; [reflexivity|]. split; [|reflexivity]. split; [reflexivity|]. split; [apply delete_c, CS|].
  rewrite enc_remove in R' by assumption. exact R'.
Qed.

(** %ld *)
Lemma dec_rev_ok : forall f n, 0 <= n < 2 ^ Z.of_nat f -> (0 < f)%nat ->
  Forall (fun c => 48 <= c <= 57) (dec_digits_rev f n) /\
  fold_right (fun c a => a * 10 + (c - 48)) 0 (dec_digits_rev f n) = n /\
  dec_digits_rev f n <> [] /\ (0 < n -> exists l c, dec_digits_rev f n = l ++ [c] /\ c <> 48).
Proof.
  induction f as [|f IH]; intros n R F; [lia|]. cbn [dec_digits_rev]. destruct (n <? 10) eqn:E.
  - split; [repeat constructor; lia|]. split; [cbn; lia|]. split; [discriminate|]. intro P. exists [], (48 + n). split; [reflexivity|lia].
  - replace (Z.of_nat (S f)) with (Z.of_nat f + 1) in R by lia. rewrite Z.pow_add_r, Z.pow_1_r in R by lia.
    assert (0 < f)%nat as F1. { destruct f; [cbn in R; lia|lia]. }
    destruct (IH (n / 10)) as (A & B & C & D); [lia|exact F1|]. split; [constructor; [lia|exact A]|]. split.
    + cbn [fold_right]. rewrite B. lia.
    + split; [discriminate|]. intros _. destruct D as (l & c & -> & NC); [lia|]. exists (48 + n mod 10 :: l), c. split; [reflexivity|exact NC].
Qed.
Lemma decimal_ok n : 0 <= n ->
  Forall (fun c => 48 <= c <= 57) (decimal n) /\ fold_left (fun a c => a * 10 + (c - 48)) (decimal n) 0 = n /\
  exists c r, decimal n = c :: r /\ (0 < n -> c <> 48).
Proof.
  intro P. unfold decimal. set (f := S (Z.to_nat (Z.log2 n))).
  destruct (dec_rev_ok f n) as (A & B & C & D); [|unfold f; lia|].
  { split; [exact P|]. destruct (Z.eq_dec n 0) as [->|NZ]; [apply Z.pow_pos_nonneg; lia|].
    pose proof (Z.log2_spec n ltac:(lia)) as [_ L]. pose proof (Z.log2_nonneg n).
    replace (Z.of_nat f) with (Z.succ (Z.log2 n)) by (unfold f; lia). exact L. }
  split; [apply Forall_rev; exact A|]. split; [rewrite <- fold_left_rev_right, rev_involutive; exact B|].
  destruct (rev (dec_digits_rev f n)) as [|c r] eqn:E.
  { exfalso. apply C. rewrite <- (rev_involutive (dec_digits_rev f n)), E. reflexivity. }
  exists c, r. split; [reflexivity|]. intro NP. destruct (D NP) as (l & c' & E' & NC). rewrite E', rev_app_distr in E. cbn in E. inversion E; subst. exact NC.
Qed.
Lemma digits_val ds : Forall (fun c => 48 <= c <= 57) ds -> forall acc, strtol_digits 10 acc ds =
  (fold_left (fun a c => a * 10 + (c - 48)) ds acc, zlen ds).
Proof.
  induction 1 as [|c ds R D IH]; intro acc; [reflexivity|]. cbn [strtol_digits fold_left].
  assert (digit_val c = c - 48) as ->. { unfold digit_val. destruct ((48 <=? c) && (c <=? 57)) eqn:E; lia. }
  destruct (c - 48 <? 10) eqn:E; [|lia]. rewrite IH. cbn [fst snd]. rewrite zlen_cons. reflexivity.
Qed.
Lemma dec_len f : forall n k, 0 <= n < 10 ^ Z.of_nat (S k) -> (length (dec_digits_rev f n) <= S k)%nat.
Proof.
  induction f as [|f IH]; intros n k R; [cbn; lia|]. cbn [dec_digits_rev]. destruct (n <? 10) eqn:E; [cbn; lia|].
  cbn [length]. destruct k as [|k]; [cbn in R; lia|]. apply le_n_S. apply IH.
  replace (Z.of_nat (S (S k))) with (Z.of_nat (S k) + 1) in R by lia. rewrite Z.pow_add_r, Z.pow_1_r in R by lia. lia.
Qed.
Definition is_long (n : Z) : Prop := -9223372036854775808 <= n <= 9223372036854775807.
Lemma dec_long_c n : cstring (dec_long n).
Proof.
  unfold dec_long. destruct (n <? 0) eqn:E; [constructor; [lia|]|]; (eapply Forall_impl; [|apply decimal_ok; lia]); cbn; lia.
Qed.
Lemma dec_long_len n : is_long n -> zlen (dec_long n) <= 20.
Proof.
  unfold is_long. intro R. assert (forall m, 0 <= m <= 9223372036854775808 -> zlen (decimal m) <= 19) as X.
  { intros m M. unfold decimal. rewrite zlen_rev. unfold zlen. pose proof (dec_len (S (Z.to_nat (Z.log2 m))) m 18) as L.
    change (10 ^ Z.of_nat 19) with 10000000000000000000 in L. specialize (L ltac:(lia)). lia. }
  unfold dec_long. destruct (n <? 0) eqn:E; rewrite ?zlen_cons.
  - specialize (X (- n) ltac:(lia)). lia.
  - specialize (X n ltac:(lia)). lia.
Qed.
Lemma strtol_digits_lead base acc c r : digit_val c <? base = true -> strtol_digits base acc (c :: r) =
  (fst (strtol_digits base (acc * base + digit_val c) r), 1 + snd (strtol_digits base (acc * base + digit_val c) r)).
Proof. intro H. cbn [strtol_digits]. rewrite H. reflexivity. Qed.
Lemma strtol_decimal m (sg : list Z) : 0 <= m -> sg = [] \/ sg = [45] ->
  strtol0 (sg ++ decimal m) = (clamp_long (if sg then m else - m), zlen (sg ++ decimal m)).
Proof.
  intros P SG. destruct (decimal_ok m P) as (D & V & c & r & E & NC). pose proof D as DD. rewrite E in DD. inversion_clear DD as [|? ? RC DR].
  assert (SP : is_space c = false) by (unfold is_space; destruct ((c =? 32) || (9 <=? c) && (c <=? 13)) eqn:?; lia).
  assert (CS : count_space (sg ++ decimal m) = 0).
  { destruct SG as [->| ->]; cbn [app count_space]; [|reflexivity]. rewrite E. cbn [count_space]. rewrite SP. reflexivity. }
  destruct (Z.eq_dec m 0) as [->|NZ].
  { change (decimal 0) with [48]. destruct SG as [->| ->]; reflexivity. }
  specialize (NC ltac:(lia)).
  unfold strtol0. rewrite CS. rewrite !zdrop_0. cbv zeta.
  assert (zdrop (match sg ++ decimal m with [] => 0 | c :: _ => if (c =? 45) || (c =? 43) then 1 else 0 end) (sg ++ decimal m) = decimal m) as ->.
  { destruct SG as [->| ->]; cbn [app]; [|reflexivity]. rewrite E. destruct ((c =? 45) || (c =? 43)) eqn:X; [lia|]. apply zdrop_0. }
  assert (match decimal m with a :: b :: c :: _ => (a =? 48) && ((b =? 120) || (b =? 88)) && (digit_val c <? 16) | _ => false end = false) as ->.
  { rewrite E. destruct r as [|b [|? ?]]; [reflexivity|reflexivity|]. destruct (c =? 48) eqn:X; [lia|reflexivity]. }
  cbv iota. rewrite zdrop_0.
  assert (match decimal m with [] => 10 | a :: _ => if a =? 48 then 8 else 10 end = 10) as ->.
  { rewrite E. destruct (c =? 48) eqn:X; [lia|reflexivity]. }
  rewrite (digits_val (decimal m) D), V. cbn [fst snd].
  assert (0 < zlen (decimal m)) by (rewrite E, zlen_cons; pose proof (zlen_nonneg r); lia).
  destruct (zlen (decimal m) =? 0) eqn:Z0; [lia|]. rewrite zlen_app.
  destruct SG as [->| ->]; cbn [app].
  - rewrite E at 1 2. destruct (c =? 45) eqn:X; [lia|]. destruct (c =? 43) eqn:X2; [lia|]. cbn [orb].
    change (zlen (@nil Z)) with 0. f_equal.
  - change (45 =? 45) with true. cbn [orb]. change (zlen [45]) with 1. f_equal.
Qed.
Lemma strtol_long n : is_long n -> strtol0 (dec_long n) = (n, zlen (dec_long n)).
Proof.
  unfold is_long, dec_long. intro R. destruct (n <? 0) eqn:E.
  - pose proof (strtol_decimal (- n) [45] ltac:(lia) (or_intror eq_refl)) as S. cbn [app] in S. rewrite S. f_equal. unfold clamp_long. lia.
  - pose proof (strtol_decimal n [] ltac:(lia) (or_introl eq_refl)) as S. cbn [app] in S. rewrite S. f_equal. unfold clamp_long. lia.
Qed.
Lemma dec_long_ne n : dec_long n <> [].
Proof. unfold dec_long. destruct (n <? 0) eqn:E; [discriminate|]. destruct (decimal_ok n ltac:(lia)) as (_ & _ & c & r & -> & _). discriminate. Qed.

Lemma add_long_text a p k n : is_long n -> sp_add_long a p k n = sp_add_str a p k (dec_long n).
Proof.
  intro R. unfold sp_add_long. pose proof (dec_long_len n R) as L. pose proof (zlen_nonneg (dec_long n)).
  unfold snprintf_at. change (24 =? 0) with false. cbv iota. rewrite ztake_all by lia.
  rewrite mwrite_ok by (rewrite ?zlen_app, ?zlen_repeat; change (zlen [0]) with 1; lia). cbn [bind].
  assert (zwrite 0 (dec_long n ++ [0]) (repeat 0 24) = [] ++ dec_long n ++ 0 :: zdrop (0 + zlen (dec_long n ++ [0])) (repeat 0 24)) as ->.
  { unfold zwrite. rewrite ztake_0. cbn [app]. rewrite <- app_assoc. reflexivity. }
  rewrite cstr_at_text by (reflexivity || apply cstring_text, dec_long_c). reflexivity.
Qed.
Lemma add_succeeds_res s a k v : snd (m_add s a k v) = RCode (if add_succeeds s a k then 0 else -12).
Proof. unfold m_add. destruct (add_succeeds s a k); reflexivity. Qed.

Lemma m_step_len s o : zlen (fst (m_step s o)) <= zlen s + 1.
Proof.
  destruct o; cbn [m_step fst]; try lia.
  - unfold m_add. destruct (add_succeeds s a k); cbn [fst]; [apply update_len|lia].
  - unfold m_add. destruct (add_succeeds s a k); cbn [fst]; [apply update_len|lia].
  - pose proof (delete_len s k). lia.
Qed.
Lemma sp_step_ok p s o : srep p s -> valid_op o -> zlen s < big ->
  exists p', sp_step p o = Ret (p', snd (m_step s o)) /\ srep p' (fst (m_step s o)) /\ sp_delim p' = sp_delim p.
Proof.
  intros R V B. destruct o; cbn [sp_step m_step fst snd valid_op] in *.
  - destruct V as (CK & CV & T). destruct (add_str_ok a p s k v R CK CV T B) as (p' & E & R' & D). rewrite E. cbn [bind].
    exists p'. rewrite add_succeeds_res. split; [reflexivity|]. split; assumption.
  - destruct V as (CK & CV & T). rewrite add_long_text by exact CV.
    destruct (add_str_ok a p s k (dec_long n) R CK (dec_long_c n) T B) as (p' & E & R' & D). rewrite E. cbn [bind].
    exists p'. rewrite add_succeeds_res. split; [reflexivity|]. split; assumption.
  - destruct (del_ok p s k R V B) as (p' & E & R' & D). rewrite E. cbn [bind]. exists p'. split; [reflexivity|]. split; assumption.
  - rewrite (has_key_ok p s k R V). cbn [bind]. exists p. split; [reflexivity|]. split; [exact R|reflexivity].
  - rewrite (get_str_ok p s k out R V). exists p. split; [|split; [exact R|reflexivity]].
    destruct (lookup s k) as [v|]; [destruct (zlen v <? zlen out)|]; reflexivity.
  - rewrite (get_long_ok p s k R V). exists p. split; [|split; [exact R|reflexivity]]. cbn [bind]. destruct (m_long s k); reflexivity.
  - unfold sp_get_int. rewrite (get_long_ok p s k R V). exists p. split; [|split; [exact R|reflexivity]]. cbn [bind]. destruct (m_long s k); reflexivity.
Qed.
Lemma sp_run_ok : forall h p s, srep p s -> Forall valid_op h -> zlen s + zlen h < big ->
  exists p', sp_run p h = Ret (p', snd (m_run s h)) /\ srep p' (fst (m_run s h)) /\ sp_delim p' = sp_delim p.
Proof.
  induction h as [|o h IH]; intros p s R V B; [exists p; split; [reflexivity|split; [exact R|reflexivity]]|].
  rewrite zlen_cons in B. pose proof (zlen_nonneg h). inversion_clear V as [|? ? V1 V2].
  destruct (sp_step_ok p s o R V1 ltac:(lia)) as (p1 & E & R1 & D). pose proof (m_step_len s o).
  destruct (IH p1 (fst (m_step s o)) R1 V2 ltac:(lia)) as (p2 & E2 & R2 & D2).
  exists p2. cbn [sp_run m_run]. cbv zeta. rewrite E. cbn [bind]. rewrite E2. cbn [bind fst snd]. split; [reflexivity|]. split; [exact R2|congruence].
Qed.

(** creation: a delimiter text t is cut to its first byte *)
Lemma sp_create_ok ok1 ok2 okx t r delim : tables_ok okx -> text t -> delim = None /\ t = [59] \/ delim = Some (t ++ 0 :: r) ->
  (exists p, sp_create ok1 ok2 okx delim = Ret (Some p) /\ srep p [] /\ sp_delim p = ztake 1 t /\ ok1 = true /\ ok2 = true) \/
  sp_create ok1 ok2 okx delim = Ret None /\ (ok1 = false \/ ok2 = false).
Proof.
  intros T TT D. unfold sp_create. destruct ok1; cbn [negb]; [|right; split; [reflexivity|left; reflexivity]].
  assert (exists r', match delim with Some d => d | None => [59; 0] end = t ++ 0 :: r') as (r' & ->).
  { destruct D as [[-> ->]| ->]; [exists []; reflexivity|exists r; reflexivity]. }
  destruct ok2; [|right; split; [reflexivity|right; reflexivity]].
  destruct (create_ok str_hash_fn str_eq true okx 16 ltac:(lia) (tables_sane _ T)) as [E|(m & E & R)].
  - exfalso. revert E. unfold hm_create. cbn [negb]. change (u64 (16 * 4) / 3) with 21.
    change (grow_count 64 1 21) with (Ret 32). cbn [bind]. assert (okx 32 = true) as -> by (apply T; lia). discriminate.
  - left. rewrite E. cbn [bind]. rewrite strlcpy_lemma by (exact TT || (change (zlen [0; 0]) with 2; lia)). change (2 =? 0) with false. cbv iota. cbn [bind].
    change (2 - 1) with 1. pose proof (cstr_at_text [] (ztake 1 t) (zdrop (zlen (ztake 1 t) + 1) [0; 0]) 0 eq_refl) as CA. cbn [app] in CA.
    rewrite CA by (unfold ztake; destruct TT; cbn; repeat constructor; assumption). cbn [bind].
    eexists. split; [reflexivity|]. split; [|repeat split; reflexivity]. split; [reflexivity|]. split; [constructor|exact R].
Qed.

(** The worker's callback: handle_log_queue_msg. *)
From Verif Require Import CBase SeqLib CStr FileLoggerModel FileLoggerSpec.

Lemma name_eqb_refl n : name_eqb n n = true.
Proof. unfold name_eqb. destruct (list_eq_dec Z.eq_dec n n); congruence. Qed.
Lemma name_eqb_neq a b : a <> b -> name_eqb a b = false.
Proof. unfold name_eqb. intro. destruct (list_eq_dec Z.eq_dec a b); congruence. Qed.
Lemma name_eqb_true a b : name_eqb a b = true -> a = b.
Proof. unfold name_eqb. destruct (list_eq_dec Z.eq_dec a b); congruence. Qed.

Lemma get_create n fs : fs_get n (fs_create n fs) = Some [].
Proof.
  induction fs as [|[a c] fs IH]; cbn; [rewrite name_eqb_refl; reflexivity|].
  destruct (name_eqb a n) eqn:E; cbn; rewrite E; auto.
Qed.
Lemma get_create_other n m fs : n <> m -> fs_get m (fs_create n fs) = fs_get m fs.
Proof.
  intro N. induction fs as [|[a c] fs IH]; cbn; [rewrite name_eqb_neq by exact N; reflexivity|].
  destruct (name_eqb a n) eqn:E; cbn.
  - apply name_eqb_true in E. subst a. rewrite name_eqb_neq by exact N. reflexivity.
  - destruct (name_eqb a m); auto.
Qed.
Lemma get_append n t fs : fs_get n (fs_append n t fs) = Some (match fs_get n fs with Some c => c ++ t | None => t end).
Proof.
  induction fs as [|[a c] fs IH]; cbn; [rewrite name_eqb_refl; reflexivity|].
  destruct (name_eqb a n) eqn:E; cbn; rewrite E; auto.
Qed.
Lemma get_append_other n m t fs : n <> m -> fs_get m (fs_append n t fs) = fs_get m fs.
Proof.
  intro N. induction fs as [|[a c] fs IH]; cbn; [rewrite name_eqb_neq by exact N; reflexivity|].
  destruct (name_eqb a n) eqn:E; cbn.
  - apply name_eqb_true in E. subst a. rewrite name_eqb_neq by exact N. reflexivity.
  - destruct (name_eqb a m); auto.
Qed.

Lemma path_of_ok t : text t -> zlen t <= 254 -> path_of t = Ret t.
Proof.
  intros T L. unfold path_of, snprintf_at. change (255 =? 0) with false. cbv iota. change (255 - 1) with 254.
  rewrite ztake_all by lia. pose proof (zlen_nonneg t).
  assert (exists r, repeat 0 256 = ztake (zlen t + 1) (repeat 0 256) ++ r /\ zlen (ztake (zlen t + 1) (repeat 0 256)) = zlen t + 1) as (r & E & EL).
  { exists (zdrop (zlen t + 1) (repeat 0 256)). split; [symmetry; apply ztake_zdrop|].
    rewrite zlen_ztake by (change (zlen (repeat 0 256)) with 256; lia). reflexivity. }
  rewrite E. set (s := ztake _ _) in *.
  pose proof (mwrite_app [] (t ++ [0]) s r) as W. cbn [app] in W.
  rewrite W by (try reflexivity; rewrite zlen_snoc; lia). cbn [bind].
  rewrite <- app_assoc. cbn [app]. apply (cstr_at_text [] t r 0); [reflexivity|exact T].
Qed.
Lemma prec_s_ok : forall m rest, prec_s (length m) (m ++ rest) = Ret (shown m).
Proof.
  induction m as [|c m IH]; intro rest; [reflexivity|]. cbn. destruct (c =? 0); [reflexivity|]. rewrite IH. reflexivity.
Qed.
Lemma load_int_ok hdr n rest : zlen hdr = 12 -> 0 <= n < two31 -> load_int (hdr ++ int_bytes n ++ rest) 12 = Ret n.
Proof.
  intros H N. unfold load_int, int_bytes. cbn [app].
  assert (forall i x a b, zlen (hdr ++ a) = 12 + i -> mload (hdr ++ a ++ x :: b) (12 + i) = Ret x) as L.
  { intros i x a b E. rewrite app_assoc. apply mload_app0. lia. }
  pose proof (L 0 (n mod 256) [] (n / 256 mod 256 :: n / 65536 mod 256 :: n / 16777216 mod 256 :: rest)) as L0.
  pose proof (L 1 (n / 256 mod 256) [n mod 256] (n / 65536 mod 256 :: n / 16777216 mod 256 :: rest)) as L1.
  pose proof (L 2 (n / 65536 mod 256) [n mod 256; n / 256 mod 256] (n / 16777216 mod 256 :: rest)) as L2.
  pose proof (L 3 (n / 16777216 mod 256) [n mod 256; n / 256 mod 256; n / 65536 mod 256] rest) as L3.
  cbn [app] in L0, L1, L2, L3. rewrite zlen_app in L0, L1, L2, L3.
  change (12 + 0) with 12 in L0. rewrite L0 by (rewrite H; reflexivity). cbn [bind].
  rewrite L1 by (rewrite H; reflexivity). cbn [bind]. rewrite L2 by (rewrite H; reflexivity). cbn [bind].
  rewrite L3 by (rewrite H; reflexivity). cbn [bind]. f_equal.
  unfold two31 in N.
  assert (n mod 256 + 256 * (n / 256 mod 256) + 65536 * (n / 65536 mod 256) + 16777216 * (n / 16777216 mod 256) = n) as ->.
  { replace (n / 65536) with (n / 256 / 256) by (rewrite Z.div_div; [reflexivity|lia|lia]).
    replace (n / 16777216) with (n / 256 / 256 / 256) by (rewrite !Z.div_div; [reflexivity|lia|lia|lia|lia]).
    pose proof (Z.div_mod n 256 ltac:(lia)). pose proof (Z.div_mod (n / 256) 256 ltac:(lia)).
    pose proof (Z.div_mod (n / 256 / 256) 256 ltac:(lia)).
    assert (0 <= n / 256 / 256 / 256 < 256).
    { rewrite !Z.div_div by lia. split; [apply Z.div_pos; lia|apply Z.div_lt_upper_bound; lia]. }
    rewrite (Z.mod_small (n / 256 / 256 / 256)) by lia. lia. }
  unfold s32, two31, two32. rewrite Z.mod_small by lia. lia.
Qed.

(** ** rotation *)
Lemma snoc_split {A} (gs : list A) x before g after : gs ++ [x] = before ++ g :: after ->
  (after = [] /\ before = gs /\ g = x) \/ (exists after', after = after' ++ [x] /\ gs = before ++ g :: after').
Proof.
  intro H. assert (after = [] \/ after <> []) as [->|N] by (destruct after; [left; reflexivity|right; discriminate]).
  - left. apply app_inj_tail in H as [-> ->]. auto.
  - right. destruct (exists_last N) as (a & y & ->). exists a.
    replace (before ++ g :: a ++ [y]) with ((before ++ g :: a) ++ [y]) in H by (rewrite <- app_assoc; reflexivity).
    apply app_inj_tail in H as [-> ->]. auto.
Qed.

Lemma nil_not_full max : 0 <= max -> ~ full max [].
Proof. intros M [H1 H2]. cbn in H2. change (zlen (@nil Z)) with 0 in H2. lia. Qed.
Lemma rot_open max gs r : 0 <= max -> rotated max gs -> Forall (full max) gs -> rotated max (gs ++ [[r]]).
Proof.
  intros M R F before g after E. destruct (snoc_split _ _ _ _ _ E) as [(-> & -> & ->)|(a & -> & ->)].
  - split; [discriminate|]. split; [congruence|]. intros a b EB NB.
    destruct a as [|x a]; [apply nil_not_full; exact M|]. cbn in EB. injection EB as _ EB. destruct a; [|discriminate].
    cbn in EB. congruence.
  - destruct (R _ _ _ eq_refl) as (R1 & R2 & R3). split; [exact R1|]. split; [|exact R3].
    intros _. apply Forall_app in F as [_ F]. inversion F; assumption.
Qed.
Lemma rot_extend max gs g r : rotated max (gs ++ [g]) -> ~ full max g -> rotated max (gs ++ [g ++ [r]]).
Proof.
  intros R F before g' after E. destruct (snoc_split _ _ _ _ _ E) as [(-> & -> & ->)|(a & -> & ->)].
  - split; [destruct g; discriminate|]. split; [congruence|]. intros a b EB NB.
    destruct (exists_last NB) as (b' & y & ->). rewrite app_assoc in EB. apply app_inj_tail in EB as [EB _].
    destruct b' as [|z b']; [rewrite app_nil_r in EB; subst a; exact F|].
    destruct (R gs g [] eq_refl) as (_ & _ & R3). apply (R3 a (z :: b') EB). discriminate.
  - destruct (R before g' (a ++ [g])) as (R1 & R2 & R3).
    { rewrite <- app_assoc. reflexivity. }
    split; [exact R1|]. split; [|exact R3]. intros _. apply R2. destruct a; discriminate.
Qed.

Lemma lines_app a b : lines (a ++ b) = lines a ++ lines b.
Proof. unfold lines. rewrite map_app, concat_app. reflexivity. Qed.
Lemma nonempty_app a b : nonempty (a ++ b) = nonempty a ++ nonempty b.
Proof. apply filter_app. Qed.
Lemma subseq_snoc {A} (a b : list A) x : subseq a b -> subseq (a ++ [x]) (b ++ [x]).
Proof. induction 1; cbn; constructor; auto. constructor. Qed.
Lemma subseq_skip {A} (a b : list A) x : subseq a b -> subseq a (b ++ [x]).
Proof. induction 1; cbn; try (constructor; assumption). apply ss_skip. constructor. Qed.
Lemma subseq_refl {A} (a : list A) : subseq a a.
Proof. induction a; constructor; auto. Qed.

(** ** the invariant of the writer *)
Definition printed (w : wst) : Prop := ~ In WPrintFail (w_log w).
Definition winv (cfg : fcfg) (w : wst) (recs : list (list Z)) : Prop :=
  (forall n, In n (opened (w_log w)) -> n <> lost_name cfg) /\
     (forall n, w_fp w = Some n -> exists l, opened (w_log w) = l ++ [n]) /\
     (printed w -> NoDup (opened (w_log w)) -> exists groups,
     subseq (concat groups) (nonempty recs) /\
     (~ In WOpenFail (w_log w) -> concat groups = nonempty recs) /\
     Forall2 (fun n g => fs_get n (w_fs w) = Some (lines g)) (opened (w_log w)) groups /\
     rotated (f_max cfg) groups /\
     match w_fp w with
     | None => Forall (full (f_max cfg)) groups
     | Some _ => exists gs g, groups = gs ++ [g] /\ ~ full (f_max cfg) g /\ (f_max cfg <> 0 -> w_count w = zlen (lines g))
     end).

Lemma name_not_lost cfg t : time_text t -> f_folder cfg ++ f_prefix cfg ++ t ++ DOT_LOG <> lost_name cfg.
Proof.
  intros [_ T] E. unfold lost_name in E. apply app_inv_head, app_inv_head in E.
  destruct t as [|c t]; cbn in E; [discriminate|]. injection E as E _. inversion T; lia.
Qed.
Lemma name_ok cfg t : good_cfg cfg -> time_text t -> path_of (f_folder cfg ++ f_prefix cfg ++ t ++ DOT_LOG) = Ret (f_folder cfg ++ f_prefix cfg ++ t ++ DOT_LOG).
Proof.
  intros (A & B & C & D & _) [T1 T2]. apply path_of_ok.
  - apply text_app; split; [exact A|]. apply text_app; split; [exact C|]. apply text_app; split.
    + eapply Forall_impl; [|exact T2]. cbn. lia.
    + unfold DOT_LOG. repeat constructor; lia.
  - rewrite !zlen_app. change (zlen DOT_LOG) with 4. lia.
Qed.
Lemma lost_path_ok cfg : good_cfg cfg -> path_of (f_folder cfg ++ f_prefix cfg ++ LOST_LOG) = Ret (lost_name cfg).
Proof.
  intros (A & B & C & D & _). unfold lost_name. apply path_of_ok.
  - apply text_app; split; [exact A|]. apply text_app; split; [exact C|]. unfold LOST_LOG. repeat constructor; lia.
  - rewrite !zlen_app. change (zlen [95; 108; 111; 115; 116; 46; 108; 111; 103]) with 9. lia.
Qed.

Lemma nodup_snoc {A} (l : list A) x : NoDup (l ++ [x]) -> NoDup l /\ ~ In x l.
Proof.
  intro H. apply NoDup_remove in H as [H1 H2]. rewrite app_nil_r in H1, H2. auto.
Qed.
Lemma Forall2_snoc {A B} (R : A -> B -> Prop) l l' x y : Forall2 R l l' -> R x y -> Forall2 R (l ++ [x]) (l' ++ [y]).
Proof. intros H1 H2. apply Forall2_app; [exact H1|]. constructor; [exact H2|constructor]. Qed.
Lemma Forall2_snoc_inv {A B} (R : A -> B -> Prop) l l' x y : Forall2 R (l ++ [x]) (l' ++ [y]) -> Forall2 R l l' /\ R x y.
Proof.
  intro H. apply Forall2_app_inv_l in H as (a & b & H1 & H2 & E). inversion H2 as [|? ? ? ? H3 H4]; subst. inversion H4; subst.
  apply app_inj_tail in E as [-> ->]. auto.
Qed.
Lemma Forall2_In_impl {A B} (R R' : A -> B -> Prop) l l' : (forall a b, In a l -> R a b -> R' a b) -> Forall2 R l l' -> Forall2 R' l l'.
Proof. intros H F. induction F; constructor; [apply H; cbn; auto|]. apply IHF. intros. apply H; cbn; auto. Qed.

(** a message as file_logger_log sends it *)
Definition is_msg (x m : list Z) : Prop := exists hdr, zlen hdr = 12 /\ x = hdr ++ int_bytes (zlen m) ++ m /\ zlen m <= 1073741808.

Definition new_file (cfg : fcfg) (e : fenv) : list Z := f_folder cfg ++ f_prefix cfg ++ e_time e ++ DOT_LOG.
(** opening *)
Lemma open_ok cfg e w recs : good_cfg cfg -> time_text (e_time e) -> winv cfg w recs ->
  exists w1, open_file cfg e w = Ret w1 /\ fs_get (lost_name cfg) (w_fs w1) = fs_get (lost_name cfg) (w_fs w) /\
     match w_fp w1 with
    | None => w_log w1 = WOpenFail :: w_log w /\ w_fs w1 = w_fs w /\ w_fp w = None
    | Some n =>
        (forall n, In n (opened (w_log w1)) -> n <> lost_name cfg) /\
     (exists l, opened (w_log w1) = l ++ [n]) /\ (In WPrintFail (w_log w1) <-> In WPrintFail (w_log w)) /\
     (In WOpenFail (w_log w1) <-> In WOpenFail (w_log w)) /\
     (printed w1 -> NoDup (opened (w_log w1)) -> exists gs g,
           subseq (concat (gs ++ [g])) (nonempty recs) /\
     (~ In WOpenFail (w_log w1) -> concat (gs ++ [g]) = nonempty recs) /\
     Forall2 (fun n g => fs_get n (w_fs w1) = Some (lines g)) (opened (w_log w1)) (gs ++ [g]) /\
     (forall r, rotated (f_max cfg) (gs ++ [g ++ [r]])) /\ ~ full (f_max cfg) g /\
     (f_max cfg <> 0 -> w_count w1 = zlen (lines g)))
    end.
Proof.
  intros GC TT (I1 & I2 & I3). unfold open_file. destruct (w_fp w) as [n|] eqn:EF.
  - exists w. split; [reflexivity|]. split; [reflexivity|]. rewrite EF. destruct (I2 n eq_refl) as (l & El).
    split; [exact I1|]. split; [exists l; exact El|]. split; [tauto|]. split; [tauto|].
    intros P N. destruct (I3 P N) as (groups & S1 & S2 & S3 & S4 & gs & g & -> & S5 & S6).
    exists gs, g. split; [exact S1|]. split; [exact S2|]. split; [exact S3|]. split; [|auto].
    intro r. apply rot_extend; assumption.
  - rewrite name_ok by assumption. cbn [bind]. fold (new_file cfg e). destruct (e_open e) eqn:EO.
    + eexists. split; [reflexivity|]. cbn [w_fs w_fp w_log w_count].
      assert (new_file cfg e <> lost_name cfg) as NL by (apply name_not_lost; exact TT).
      split; [apply get_create_other; exact NL|]. cbn [opened].
      split. { intros n. rewrite in_app_iff. intros [H|[<-|[]]]; [apply I1; exact H|exact NL]. }
      split; [eexists; reflexivity|]. split; [cbn [In]; split; [intros [X|X]; [discriminate|exact X]|auto]|].
      split; [cbn [In]; split; [intros [X|X]; [discriminate|exact X]|auto]|].
      intros P N. destruct (nodup_snoc _ _ N) as [N1 N2].
      destruct I3 as (groups & S1 & S2 & S3 & S4 & S5).
      { intro X. apply P. cbn. auto. }
      { exact N1. }
      assert (0 <= f_max cfg) as M by (destruct GC as (_ & _ & _ & _ & ?); lia).
      exists groups, []. rewrite !concat_app. cbn [concat app]. rewrite !app_nil_r.
      split; [exact S1|]. split; [intro X; apply S2; intro Y; apply X; cbn; auto|].
      split. { apply Forall2_snoc; [|rewrite get_create; reflexivity].
        eapply Forall2_In_impl; [|exact S3]. cbn. intros a b IA E. rewrite get_create_other; [exact E|]. congruence. }
      split; [intro r; apply rot_open; assumption|]. split; [apply nil_not_full; exact M|]. reflexivity.
    + eexists. split; [reflexivity|]. cbn [w_fs w_fp w_log]. auto.
Qed.

Lemma line_len r : r <> [] -> zlen (line r) = zlen (shown r) + 1.
Proof. destruct r; [congruence|]. intros _. unfold line. apply zlen_snoc. Qed.
Lemma shown_len r : zlen (shown r) <= zlen r.
Proof. induction r as [|c r IH]; [reflexivity|]. cbn [shown]. destruct (c =? 0); rewrite ?zlen_cons; pose proof (zlen_nonneg r); change (zlen (@nil Z)) with 0; lia. Qed.
Lemma lines_one r : lines [r] = line r.
Proof. unfold lines. cbn. apply app_nil_r. Qed.

Lemma handle_ok cfg e w recs x m rest : good_cfg cfg -> time_text (e_time e) -> winv cfg w recs -> is_msg x m ->
  exists w', handle_msg cfg e w (x ++ rest) = Ret (w', 0) /\ winv cfg w' (recs ++ [m]) /\
    fs_get (lost_name cfg) (w_fs w') = fs_get (lost_name cfg) (w_fs w).
Proof.
  intros GC TT I (hdr & H12 & -> & LM). pose proof (zlen_nonneg m).
  unfold handle_msg. rewrite <- !app_assoc. rewrite load_int_ok by (unfold two31; lia). cbn [bind].
  destruct (zlen m <? 1) eqn:E1.
  { exists w. split; [reflexivity|]. split; [|reflexivity]. destruct m as [|c m]; [|rewrite zlen_cons in E1; pose proof (zlen_nonneg m); lia].
    destruct I as (I1 & I2 & I3). split; [exact I1|]. split; [exact I2|]. rewrite nonempty_app. cbn [nonempty filter]. rewrite app_nil_r. exact I3. }
  assert (m <> []) as NE by (intros ->; change (zlen (@nil Z)) with 0 in E1; lia).
  assert (nonempty (recs ++ [m]) = nonempty recs ++ [m]) as NEQ by (rewrite nonempty_app; destruct m; [congruence|reflexivity]).
  destruct (open_ok cfg e w recs GC TT I) as (w1 & -> & EL & W). cbn [bind].
  destruct (w_fp w1) as [n|] eqn:EF.
  2:{ destruct W as (W1 & W2 & W3). exists w1. split; [reflexivity|]. split; [|exact EL].
      destruct I as (I1 & I2 & I3). unfold winv, printed. rewrite EF, W1, W2, NEQ. cbn [opened In].
      split; [exact I1|]. split; [discriminate|]. intros P N.
      destruct I3 as (groups & S1 & S2 & S3 & S4 & S5); [intro X; apply P; auto|exact N|]. rewrite W3 in S5.
      exists groups. split; [apply subseq_skip; exact S1|]. split; [intro X; exfalso; apply X; auto|]. auto. }
  destruct W as (W1 & (l & W2) & W3 & W4 & W5).
  assert (zdrop 16 (hdr ++ int_bytes (zlen m) ++ m ++ rest) = m ++ rest) as ->.
  { rewrite app_assoc. replace 16 with (zlen (hdr ++ int_bytes (zlen m))) by (rewrite zlen_app, H12; reflexivity). apply zdrop_app_len. }
  replace (Z.to_nat (zlen m)) with (length m) by (unfold zlen; lia). rewrite prec_s_ok. cbn [bind].
  set (ful := shown m ++ [10]).
  assert (line m = ful) as ELm by (unfold line, ful; destruct m; [congruence|reflexivity]).
  assert (zlen ful = zlen (shown m) + 1) as LF by apply zlen_snoc. pose proof (shown_len m). pose proof (zlen_nonneg (shown m)).
  assert (n <> lost_name cfg) as NL by (apply W1; rewrite W2; apply in_or_app; right; left; reflexivity).
  assert (forall fp cnt t log, In WPrintFail log -> (forall k, fp = Some k -> k = n) -> opened log = opened (w_log w1) ->
            winv cfg (mk_w fp cnt (fs_append n t (w_fs w1)) log) (recs ++ [m])) as Bad.
  { intros fp cnt t log HI HF HO. unfold winv, printed. cbn [w_log w_fp w_fs w_count]. rewrite HO. split; [exact W1|].
    split; [intros k Hk; rewrite (HF k Hk); exists l; exact W2|]. intros P; contradiction. }
  destruct (match e_print e with None => _ | Some _ => _ end) as [out len] eqn:EP.
  assert (0 < len -> out = ful /\ len = zlen ful) as HP.
  { intro L. destruct (e_print e); [injection EP as _ <-; lia|]. unfold two31 in EP.
    destruct (2147483648 <=? zlen ful) eqn:E2; [lia|]. injection EP as <- <-. auto. }
  destruct (0 <? len) eqn:EL0.
  2:{ destruct (negb (f_max cfg =? 0) && (w_count w1 >=? f_max cfg)) eqn:ER; (eexists; split; [reflexivity|]; split; [|cbn [w_fs]; rewrite get_append_other by exact NL; exact EL]);
        apply Bad; cbn [In opened]; auto; intros k Hk; [discriminate|]. injection Hk as ->. reflexivity. }
  destruct HP as [-> ->]; [lia|].
  assert (printed w1 -> NoDup (opened (w_log w1)) -> exists gs g,
     subseq (concat (gs ++ [g ++ [m]])) (nonempty recs ++ [m]) /\
     (~ In WOpenFail (w_log w1) -> concat (gs ++ [g ++ [m]]) = nonempty recs ++ [m]) /\
     Forall2 (fun n g => fs_get n (fs_append n ful (w_fs w1)) = Some (lines g) \/ fs_get n (w_fs w1) = Some (lines g)) l gs /\
     fs_get n (fs_append n ful (w_fs w1)) = Some (lines (g ++ [m])) /\
     Forall2 (fun k g => fs_get k (fs_append n ful (w_fs w1)) = Some (lines g)) (opened (w_log w1)) (gs ++ [g ++ [m]]) /\
     rotated (f_max cfg) (gs ++ [g ++ [m]]) /\
     (f_max cfg <> 0 -> u64 (w_count w1 + zlen ful) = zlen (lines (g ++ [m])))) as G.
  { intros P N. destruct (W5 P N) as (gs & g & S1 & S2 & S3 & S4 & S5 & S6). exists gs, g.
    assert (concat (gs ++ [g ++ [m]]) = concat (gs ++ [g]) ++ [m]) as EC by (rewrite !concat_app; cbn [concat]; rewrite !app_nil_r, app_assoc; reflexivity).
    rewrite EC. rewrite W2 in S3, N. destruct (Forall2_snoc_inv _ _ _ _ _ S3) as [S3a S3b]. destruct (nodup_snoc _ _ N) as [N1 N2].
    split; [apply subseq_snoc; exact S1|]. split; [intro X; rewrite (S2 X); reflexivity|].
    split; [eapply Forall2_In_impl; [|exact S3a]; cbn; auto|].
    assert (fs_get n (fs_append n ful (w_fs w1)) = Some (lines (g ++ [m]))) as GN.
    { rewrite get_append, S3b, lines_app, lines_one, ELm. reflexivity. }
    split; [exact GN|]. split. { rewrite W2. apply Forall2_snoc; [|exact GN]. eapply Forall2_In_impl; [|exact S3a]. cbn. intros a b IA E.
      rewrite get_append_other; [exact E|]. congruence. }
    split; [apply S4|]. intro M. rewrite (S6 M), lines_app, zlen_app, lines_one, ELm.
    assert (zlen (lines g) < f_max cfg) as LT. { apply Znot_ge_lt. intro Q. apply S5. split; [exact M|lia]. }
    destruct GC as (_ & _ & _ & _ & GM). pose proof (zlen_nonneg (lines g)). unfold u64, two64. apply Z.mod_small. 
    change (2 ^ 63) with 9223372036854775808 in GM. lia. }
  destruct (negb (f_max cfg =? 0) && (u64 (w_count w1 + zlen ful) >=? f_max cfg)) eqn:ER;
    (eexists; split; [reflexivity|]; split; [|cbn [w_fs]; rewrite get_append_other by exact NL; exact EL]);
    unfold winv, printed; cbn [w_log w_fp w_fs w_count opened In]; rewrite NEQ.
  - split; [exact W1|]. split; [discriminate|]. intros P N.
    destruct G as (gs & g & S1 & S2 & _ & _ & S3 & S4 & S5); [intro X; apply P; auto|exact N|].
    exists (gs ++ [g ++ [m]]). split; [exact S1|]. split; [intro X; apply S2; intro Y; apply X; auto|]. split; [exact S3|]. split; [exact S4|].
    apply Forall_app. split.
    + apply Forall_forall. intros h IH. apply in_split in IH as (a & b & ->).
      destruct (S4 a h (b ++ [g ++ [m]])) as (_ & F & _); [rewrite <- app_assoc; reflexivity|]. apply F. destruct b; discriminate.
    + constructor; [|constructor]. apply andb_true_iff in ER as [ER1 ER2].
      assert (f_max cfg <> 0) as M by (intro M; rewrite M in ER1; discriminate). split; [exact M|]. rewrite <- (S5 M). lia.
  - split; [exact W1|]. split; [intros k Hk; injection Hk as <-; exists l; exact W2|]. intros P N.
    destruct G as (gs & g & S1 & S2 & _ & _ & S3 & S4 & S5); [exact P|exact N|].
    exists (gs ++ [g ++ [m]]). split; [exact S1|]. split; [exact S2|]. split; [exact S3|]. split; [exact S4|].
    exists gs, (g ++ [m]). split; [reflexivity|]. split; [|exact S5]. intros [M Q].
    rewrite <- (S5 M) in Q. apply andb_false_iff in ER as [ER|ER]; [|lia]. apply negb_false_iff in ER. lia.
Qed.
Lemma winv0 cfg fs : winv cfg (mk_w None 0 fs []) [].
Proof.
  split; [intros n []|]. split; [discriminate|]. intros _ _. exists []. cbn.
  split; [constructor|]. split; [reflexivity|]. split; [constructor|]. split; [|constructor].
  intros b g a E. destruct b; discriminate.
Qed.
(** the other thread's output to the "lost" file does not matter *)
Lemma winv_lost cfg w recs t : winv cfg w recs -> winv cfg (mk_w (w_fp w) (w_count w) (fs_append (lost_name cfg) t (w_fs w)) (w_log w)) recs.
Proof.
  intros (I1 & I2 & I3). split; [exact I1|]. split; [exact I2|]. cbn [w_log w_fp w_fs w_count]. intros P N.
  destruct (I3 P N) as (groups & S1 & S2 & S3 & S4). exists groups. split; [exact S1|]. split; [exact S2|]. split; [|exact S4].
  eapply Forall2_In_impl; [|exact S3]. cbn. intros a b IA E. rewrite get_append_other; [exact E|]. intro X. exact (I1 a IA (eq_sym X)).
Qed.

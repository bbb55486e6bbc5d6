From Coq Require Import Permutation.
From Verif Require Import CBase SeqLib HashmapProof MpliteModel MpliteSpec MpliteProof MpliteProof2 MpliteProof3 MpliteProof4.

(** ** the caller's view *)
Definition data_ok (m : list Z) (p : Z) (d : list (option Z)) : Prop := forall k v, 0 <= k -> znth k d = Some (Some v) -> znth (p + k) m = Some v.
Record C (k : Z) (h : mp) (live : list blk) (lf : leaves) (fl : Z -> list Z) : Prop := {
  c_inv : inv h (mp_n h) lf fl;
  c_clean : clean lf;
  c_k : 3 <= k <= 30;
  c_sz : mp_sz h = 2 ^ k;
  c_nd : NoDup (map b_ptr live);
  c_blk : forall b, In b live -> exists i L, b_ptr b = i * mp_sz h /\ lf i = Some (L, Live) /\ b_size b = mp_sz h * 2 ^ L /\ zlen (b_data b) <= b_size b /\ data_ok (mp_mem h) (b_ptr b) (b_data b);
  c_live : forall i L, lf i = Some (L, Live) -> exists b, In b live /\ b_ptr b = i * mp_sz h;
  c_out : mp_out h = total_live live;
  c_cnt : mp_count h = zlen live;
  c_sum : fsum fl * mp_sz h + total_live live = mp_n h * mp_sz h }.

Lemma total_app a b : total_live (a ++ b) = total_live a + total_live b.
Proof. induction a as [|x a IH]; [reflexivity|]. cbn [app total_live fold_right] in *. unfold total_live in *. cbn [fold_right]. lia. Qed.
Lemma total_cons b l : total_live (b :: l) = b_size b + total_live l. Proof. reflexivity. Qed.
Lemma total_perm a b : Permutation a b -> total_live a = total_live b.
Proof. induction 1; rewrite ?total_cons; try lia. Qed.
Lemma C_perm k h live live' lf fl : Permutation live live' -> C k h live lf fl -> C k h live' lf fl.
Proof.
  intros P V. destruct V. constructor; try assumption.
  - eapply Permutation_NoDup; [apply Permutation_map; exact P|assumption].
  - intros b B. apply c_blk0. eapply Permutation_in; [apply Permutation_sym; exact P|exact B].
  - intros i L A. destruct (c_live0 i L A) as (b & B & E). exists b. split; [eapply Permutation_in; eassumption|exact E].
  - rewrite <- (total_perm _ _ P). assumption.
  - rewrite <- (Perm_zlen _ _ P). assumption.
  - rewrite <- (total_perm _ _ P). assumption.
Qed.
Lemma fsum_nonneg fl : 0 <= fsum fl.
Proof.
  unfold fsum, fsum_on. assert (forall L, In L levels -> 0 <= L) as R by (intros L H; apply levels_in in H; lia). induction levels as [|L ls IH]; [cbn; lia|]. cbn [fold_right].
  assert (0 <= fold_right (fun L a => 2 ^ L * zlen (fl L) + a) 0 ls) by (apply IH; intros M HM; apply R; right; exact HM).
  pose proof (R L (or_introl eq_refl)). pose proof (pow_pos L). pose proof (zlen_nonneg (fl L)). nia.
Qed.
Lemma live_total (live : list blk) : (forall b, In b live -> 8 <= b_size b) -> 8 * zlen live <= total_live live.
Proof.
  induction live as [|b l IH]; intro H; [unfold total_live, zlen; cbn; lia|]. rewrite total_cons, zlen_cons. pose proof (H b (or_introl eq_refl)). specialize (IH (fun c Hc => H c (or_intror Hc))). lia.
Qed.
Lemma C_size k h live lf fl b : C k h live lf fl -> In b live -> 8 <= b_size b.
Proof.
  intros V B. destruct (c_blk _ _ _ _ _ V b B) as (i & L & _ & A & -> & _). apply (leaf_rng _ _ _ _ (c_inv _ _ _ _ _ V)) in A. pose proof (pow_pos L ltac:(lia)). pose proof (v_sz _ _ _ _ (c_inv _ _ _ _ _ V)). nia.
Qed.
Lemma C_bound k h live lf fl : C k h live lf fl -> 0 <= total_live live <= mp_n h * mp_sz h /\ mp_n h * mp_sz h < two31 /\ 8 * zlen live <= total_live live.
Proof.
  intro V. pose proof (live_total live (fun b B => C_size _ _ _ _ _ b V B)). pose proof (zlen_nonneg live). pose proof (fsum_nonneg fl). pose proof (c_sum _ _ _ _ _ V). pose proof (c_inv _ _ _ _ _ V) as I.
  pose proof (v_sz _ _ _ _ I). pose proof (v_max _ _ _ _ I). pose proof (v_top _ _ _ _ I). split; [|split]; nia.
Qed.

(** two live blocks are apart *)
Lemma ptr_inj k h live lf fl b c : C k h live lf fl -> In b live -> In c live -> b_ptr b = b_ptr c -> b = c.
Proof.
  intros V. pose proof (c_nd _ _ _ _ _ V) as ND. revert ND. clear V. induction live as [|x l IH]; intros ND B D E; [contradiction|]. cbn [map] in ND. inversion_clear ND as [|? ? NI ND'].
  destruct B as [->|B], D as [->|D]; [reflexivity| | |apply IH; assumption].
  - exfalso. apply NI. rewrite E. apply in_map. exact D.
  - exfalso. apply NI. rewrite <- E. apply in_map. exact B.
Qed.
Lemma C_apart k h live lf fl b c : C k h live lf fl -> In b live -> In c live -> b_ptr b <> b_ptr c -> apart b c.
Proof.
  intros V B D N. destruct (c_blk _ _ _ _ _ V b B) as (i & L & P & A & S & _). destruct (c_blk _ _ _ _ _ V c D) as (j & M & P' & A' & S' & _). unfold apart. rewrite P, P', S, S' in *.
  pose proof (v_sz _ _ _ _ (c_inv _ _ _ _ _ V)). destruct (t_disj _ _ (v_tile _ _ _ _ (c_inv _ _ _ _ _ V)) _ _ _ _ _ _ A A' ltac:(intros ->; lia)) as [X|X]; [left|right]; nia.
Qed.
Lemma C_in k h live lf fl b : C k h live lf fl -> In b live -> 0 <= b_ptr b /\ b_ptr b + b_size b <= mp_n h * mp_sz h /\ b_ptr b mod b_size b = 0 /\ zlen (b_data b) <= b_size b.
Proof.
  intros V B. destruct (c_blk _ _ _ _ _ V b B) as (i & L & P & A & S & D & _). pose proof (leaf_rng _ _ _ _ (c_inv _ _ _ _ _ V) _ _ _ A) as (RL & RI & RN & _ & [q DI]).
  pose proof (v_sz _ _ _ _ (c_inv _ _ _ _ _ V)). pose proof (pow_pos L ltac:(lia)). rewrite P, S in *. split; [nia|]. split; [nia|]. split; [|exact D].
  rewrite DI. replace (q * 2 ^ L * mp_sz h) with (q * (mp_sz h * 2 ^ L)) by ring. apply Z.mod_mul. nia.
Qed.

(** ** writing to a block *)
Lemma write_head k h b rest lf fl off bs d : C k h (b :: rest) lf fl -> 0 <= off -> off + zlen bs <= b_size b -> zlen d <= b_size b ->
  (forall j v, 0 <= j -> znth j d = Some (Some v) -> (if (off <=? j) && (j <? off + zlen bs) then znth (j - off) bs else znth (b_ptr b + j) (mp_mem h)) = Some v) ->
  exists m, mwrite (mp_mem h) (b_ptr b + off) bs = Ret m /\ C k (set_mem h m) (mk_b (b_ptr b) (b_size b) d :: rest) lf fl.
Proof.
  intros V RO RB LD DD. pose proof (C_in _ _ _ _ _ b V (or_introl eq_refl)) as (B1 & B2 & _). pose proof (zlen_nonneg bs) as ZB. pose proof (c_inv _ _ _ _ _ V) as I. pose proof (v_mem _ _ _ _ I) as LM.
  assert (W : mwrite (mp_mem h) (b_ptr b + off) bs = Ret (zwrite (b_ptr b + off) bs (mp_mem h))) by (apply mwrite_ok; lia). eexists. split; [exact W|].
  assert (ZN : forall a, 0 <= a -> znth a (zwrite (b_ptr b + off) bs (mp_mem h)) = if (b_ptr b + off <=? a) && (a <? b_ptr b + off + zlen bs) then znth (a - (b_ptr b + off)) bs else znth a (mp_mem h)) by (intros a RA; apply znth_zwrite; lia).
  destruct (c_blk _ _ _ _ _ V b (or_introl eq_refl)) as (i & L & P & A & S & D & _). pose proof (leaf_rng _ _ _ _ I _ _ _ A) as RA. pose proof (pow_pos L ltac:(lia)). pose proof (v_sz _ _ _ _ I) as SZ.
  assert (I' : inv (set_mem h (zwrite (b_ptr b + off) bs (mp_mem h))) (mp_n h) lf fl).
  { apply mem_inv; [exact I|apply zlen_zwrite; lia|]. intros j M a J R. pose proof (leaf_rng _ _ _ _ I _ _ _ J) as RJ. rewrite ZN by nia.
    destruct ((b_ptr b + off <=? a) && (a <? b_ptr b + off + zlen bs)) eqn:E; [|reflexivity]. exfalso. assert (j <> i) by (intros ->; congruence).
    pose proof (pow_pos M ltac:(lia)). destruct (t_disj _ _ (v_tile _ _ _ _ I) _ _ _ _ _ _ J A ltac:(lia)) as [X|X]; nia. }
  pose proof V as V0. destruct V. constructor; try assumption.
  - intros c [<-|Hc]; cbn [b_ptr b_size b_data mp_mem set_mem].
    + exists i, L. split; [exact P|]. split; [exact A|]. split; [exact S|]. split; [exact LD|]. intros j v RJ J. rewrite ZN by lia. specialize (DD j v RJ J).
      destruct ((off <=? j) && (j <? off + zlen bs)) eqn:E.
      * assert ((b_ptr b + off <=? b_ptr b + j) && (b_ptr b + j <? b_ptr b + off + zlen bs) = true) as -> by lia. rewrite <- DD. f_equal. lia.
      * assert ((b_ptr b + off <=? b_ptr b + j) && (b_ptr b + j <? b_ptr b + off + zlen bs) = false) as -> by lia. exact DD.
    + destruct (c_blk0 c (or_intror Hc)) as (i' & L' & P' & A' & S' & D' & DK). exists i', L'. split; [exact P'|]. split; [exact A'|]. split; [exact S'|]. split; [exact D'|].
      intros j v RJ J. pose proof (C_in _ _ _ _ _ c V0 (or_intror Hc)). rewrite ZN by lia. pose proof (DK j v RJ J) as R.
      destruct ((b_ptr b + off <=? b_ptr c + j) && (b_ptr c + j <? b_ptr b + off + zlen bs)) eqn:E; [|exact R]. exfalso.
      assert (b_ptr b <> b_ptr c). { intro E'. cbn [map] in c_nd0. inversion_clear c_nd0 as [|? ? NI _]. apply NI. rewrite E'. apply in_map. exact Hc. }
      apply (f_equal (fun o => match o with Some _ => true | None => false end)) in J. assert (j < zlen (b_data c)).
      { destruct (Z_lt_ge_dec j (zlen (b_data c))); [assumption|]. rewrite (proj2 (znth_None_iff _ _)) in J by lia. discriminate. }
      destruct (C_apart _ _ _ _ _ b c V0 (or_introl eq_refl) (or_intror Hc) ltac:(assumption)) as [X|X]; lia.
  - intros j M J. destruct (c_live0 j M J) as (c & [<-|Hc] & E); [exists (mk_b (b_ptr b) (b_size b) d); split; [left; reflexivity|exact E]|exists c; split; [right; exact Hc|exact E]].
Qed.

(** ** freeing a block *)
Lemma free_head k h b rest lf fl : C k h (b :: rest) lf fl -> exists h' lf' fl', mplite_free_unsafe h (b_ptr b) = Ret h' /\ C k h' rest lf' fl' /\ mp_n h' = mp_n h.
Proof.
  intros V. pose proof (C_bound _ _ _ _ _ V) as (T1 & T2 & T3). pose proof (c_inv _ _ _ _ _ V) as I. pose proof (c_cnt _ _ _ _ _ V) as CC. pose proof (c_out _ _ _ _ _ V) as CO.
  destruct (c_blk _ _ _ _ _ V b (or_introl eq_refl)) as (i & L & P & A & S & D & _). rewrite zlen_cons in *. rewrite total_cons in *. pose proof (zlen_nonneg rest).
  pose proof (live_total rest (fun c Hc => C_size _ _ _ _ _ c V (or_intror Hc))) as TR. pose proof (C_size _ _ _ _ _ b V (or_introl eq_refl)) as SB.
  assert (T31 : two32 = 2 * two31) by reflexivity. assert (ZR : zlen rest = 0 -> total_live rest = 0) by (intro Z; destruct rest; [reflexivity|rewrite zlen_cons in Z; pose proof (zlen_nonneg rest); lia]).
  destruct (free_ok h lf fl i L I (c_clean _ _ _ _ _ V) A ltac:(lia) ltac:(lia) ltac:(lia)) as (h' & lf' & fl' & E & I' & CL' & Z' & N' & NL & LV & FR & O' & C' & S').
  exists h', lf', fl'. rewrite P. split; [exact E|]. split; [|exact N'].
  assert (NB : forall c, In c rest -> b_ptr c <> b_ptr b). { intros c Hc E'. pose proof (c_nd _ _ _ _ _ V) as ND. cbn [map] in ND. inversion_clear ND as [|? ? NI _]. apply NI. rewrite <- E'. apply in_map. exact Hc. }
  pose proof V as V0. destruct V. constructor.
  - exact I'.
  - exact CL'.
  - exact c_k0.
  - congruence.
  - cbn [map] in c_nd0. inversion_clear c_nd0. assumption.
  - intros c Hc. destruct (c_blk0 c (or_intror Hc)) as (j & M & P' & A' & S'' & D' & DK). rewrite Z'. exists j, M. specialize (NB c Hc). assert (j <> i) by (intros ->; lia).
    split; [exact P'|]. split; [apply LV; assumption|]. split; [exact S''|]. split; [exact D'|]. intros x v RX X. specialize (DK x v RX X). rewrite <- DK. apply (FR j M); [assumption|assumption|].
    assert (x < zlen (b_data c)). { destruct (Z_lt_ge_dec x (zlen (b_data c))); [assumption|]. rewrite (proj2 (znth_None_iff _ _)) in X by lia. discriminate. } rewrite P'. lia.
  - intros j M J. assert (j <> i) by (intros ->; exact (NL _ J)). apply LV in J; [|assumption]. destruct (c_live0 j M J) as (c & [<-|Hc] & E'); [exfalso; rewrite P in E'; pose proof (v_sz _ _ _ _ I); apply Z.mul_reg_r in E'; lia|].
    rewrite Z'. exists c. split; assumption.
  - rewrite O'. lia.
  - rewrite C'. lia.
  - rewrite S', Z', N'. rewrite <- c_sum0, total_cons. lia.
Qed.

(** ** allocating a block *)
Lemma data_none m p n : data_ok m p (repeat None (Z.to_nat n)).
Proof.
  intros j v RJ J. exfalso. unfold znth in J. destruct (j <? 0) eqn:E; [discriminate|]. apply nth_error_In, repeat_spec in J. discriminate.
Qed.
Lemma fit_ge s n : 1 <= n -> n <= fit s n.
Proof. intro N. unfold fit. assert (n <= 2 ^ Z.log2_up n); [|lia]. apply Z.log2_up_le_pow2; lia. Qed.
Lemma malloc_head k h live lf fl n : C k h live lf fl -> - two31 <= n < two31 ->
  exists h' r, mplite_malloc_unsafe h n = Ret (h', r) /\ mp_n h' = mp_n h /\
  match r with
  | None => C k h' live lf fl /\ (1 <= n <= 1073741824 -> forall j M, lf j = Some (M, Free) -> 2 ^ k * 2 ^ M < fit (2 ^ k) n)
  | Some p => 1 <= n <= 1073741824 /\ (exists lf' fl', C k h' (mk_b p (fit (2 ^ k) n) (repeat None (Z.to_nat n)) :: live) lf' fl') /\ exists j M, lf j = Some (M, Free) /\ fit (2 ^ k) n <= 2 ^ k * 2 ^ M
  end.
Proof.
  intros V RN. pose proof (c_inv _ _ _ _ _ V) as I. destruct (malloc_ok h lf fl k n I (c_clean _ _ _ _ _ V) (c_sz _ _ _ _ _ V) (c_k _ _ _ _ _ V) RN) as (h' & r & E & R).
  exists h', r. split; [exact E|]. destruct r as [p|].
  - destruct R as (N1 & i & L & lf' & fl' & P & F & I' & CL' & Z' & N' & A' & NL & LV & FR & O' & C' & S' & (j & M & J & LM)). split; [exact N'|]. split; [exact N1|].
    pose proof (c_sz _ _ _ _ _ V) as SK. pose proof (v_sz _ _ _ _ I) as SZ. pose proof (leaf_rng _ _ _ _ I' _ _ _ A') as RA. pose proof (pow_pos L ltac:(lia)) as PL.
    split.
    + assert (V1 : exists lf' fl', inv h' (mp_n h') lf' fl' /\ fsum fl' * mp_sz h + (fit (2 ^ k) n + total_live live) = mp_n h * mp_sz h).
      { exists lf', fl'. split; [exact I'|]. rewrite F. pose proof (c_sum _ _ _ _ _ V). nia. }
      pose proof (C_bound _ _ _ _ _ V) as (T1 & T2 & T3). pose proof (zlen_nonneg live).
      assert (TB : fit (2 ^ k) n + total_live live <= mp_n h * mp_sz h). { destruct V1 as (? & fx & _ & X). pose proof (fsum_nonneg fx). nia. }
      assert (T31 : two32 = 2 * two31) by reflexivity. assert (P8 : 8 <= fit (2 ^ k) n) by (rewrite F; nia).
      assert (NP : forall c, In c live -> b_ptr c <> p).
      { intros c Hc E'. destruct (c_blk _ _ _ _ _ V c Hc) as (j' & M' & P' & A'' & _). rewrite P, P' in E'. apply Z.mul_reg_r in E'; [|lia]. subst j'. exact (NL _ A''). }
      exists lf', fl'. destruct V. constructor.
      * exact I'.
      * exact CL'.
      * exact c_k0.
      * congruence.
      * cbn [map b_ptr]. constructor; [|exact c_nd0]. intro IN. apply in_map_iff in IN as (c & E' & Hc). exact (NP c Hc E').
      * intros c [<-|Hc]; cbn [b_ptr b_size b_data]; rewrite Z'.
        -- exists i, L. split; [exact P|]. split; [exact A'|]. split; [exact F|]. split; [|apply data_none]. rewrite zlen_repeat. pose proof (fit_ge (2 ^ k) n). lia.
        -- destruct (c_blk0 c Hc) as (j' & M' & P' & A'' & S'' & D' & DK). exists j', M'. assert (j' <> i) by (intros ->; exact (NL _ A'')). split; [exact P'|]. split; [apply LV; assumption|]. split; [exact S''|]. split; [exact D'|].
           intros x v RX X. specialize (DK x v RX X). rewrite <- DK. apply (FR j' M' _ A'').
           assert (x < zlen (b_data c)). { destruct (Z_lt_ge_dec x (zlen (b_data c))); [assumption|]. rewrite (proj2 (znth_None_iff _ _)) in X by lia. discriminate. } rewrite P'. lia.
      * intros j' M' J'. destruct (Z.eq_dec j' i) as [->|NE]; [eexists; split; [left; reflexivity|]; cbn [b_ptr]; rewrite Z'; exact P|].
        apply LV in J'; [|exact NE]. destruct (c_live0 _ _ J') as (c & Hc & E'). exists c. rewrite Z'. split; [right; exact Hc|exact E'].
      * rewrite O', total_cons, c_out0. cbn [b_size]. rewrite <- F. unfold u32. rewrite Z.mod_small; lia.
      * rewrite C', zlen_cons, c_cnt0. unfold u32. rewrite Z.mod_small; lia.
      * rewrite total_cons, Z', N'. cbn [b_size]. rewrite F. rewrite <- c_sum0. nia.
    + exists j, M. split; [exact J|]. rewrite F, SK. pose proof (Z.pow_le_mono_r 2 L M ltac:(lia) LM). pose proof (pow_pos k). nia.
  - destruct R as (I' & Z' & N' & M' & O' & C' & NF). split; [exact N'|]. split; [|exact NF]. destruct V. constructor; try assumption; try congruence.
    + intros b B. rewrite Z', M'. apply c_blk0. exact B.
    + intros i L A. rewrite Z'. apply (c_live0 i L A).
Qed.

(** ** the caller's list with one block changed *)
Lemma split_live (live : list blk) b : NoDup (map b_ptr live) -> In b live ->
  exists rest, Permutation live (b :: rest) /\
    filter (fun c => negb (b_ptr c =? b_ptr b)) live = rest /\
    forall f, exists l, map (fun c => if b_ptr c =? b_ptr b then f c else c) live = l /\ Permutation l (f b :: rest).
Proof.
  intros ND B. apply in_split in B as (l1 & l2 & ->). rewrite map_app in ND. cbn [map] in ND. apply NoDup_remove_2 in ND. rewrite <- map_app in ND.
  assert (O : forall c, In c (l1 ++ l2) -> (b_ptr c =? b_ptr b) = false). { intros c Hc. destruct (b_ptr c =? b_ptr b) eqn:E; [|reflexivity]. exfalso. apply ND. assert (b_ptr b = b_ptr c) as -> by lia. apply in_map. exact Hc. }
  exists (l1 ++ l2). split; [apply Permutation_sym, Permutation_middle|]. split.
  - rewrite filter_app. cbn [filter]. rewrite Z.eqb_refl. cbn [negb]. rewrite <- filter_app. apply forallb_filter_id || idtac.
    assert (forall l, (forall c, In c l -> (b_ptr c =? b_ptr b) = false) -> filter (fun c => negb (b_ptr c =? b_ptr b)) l = l) as F.
    { induction l as [|x l IH]; intro H; [reflexivity|]. cbn [filter]. rewrite (H x (or_introl eq_refl)). cbn [negb]. f_equal. apply IH. intros c Hc. apply H. right; exact Hc. }
    apply F. exact O.
  - intro f. eexists. split; [reflexivity|]. rewrite map_app. cbn [map]. rewrite Z.eqb_refl.
    assert (forall l, (forall c, In c l -> (b_ptr c =? b_ptr b) = false) -> map (fun c => if b_ptr c =? b_ptr b then f c else c) l = l) as F.
    { induction l as [|x l IH]; intro H; [reflexivity|]. cbn [map]. rewrite (H x (or_introl eq_refl)). f_equal. apply IH. intros c Hc. apply H. right; exact Hc. }
    rewrite !F; [apply Permutation_sym, Permutation_middle| |]; intros c Hc; apply O; apply in_app_iff; tauto.
Qed.

(** ** every call keeps the view *)
Definition cinv (k : Z) (h : mp) (live : list blk) : Prop := exists lf fl, C k h live lf fl.
Lemma size_ok k h live lf fl b : C k h live lf fl -> In b live -> mplite_size h (b_ptr b) = Ret (b_size b).
Proof.
  intros V B. pose proof (c_inv _ _ _ _ _ V) as I. destruct (c_blk _ _ _ _ _ V b B) as (i & L & P & A & S & D & _). pose proof (leaf_rng _ _ _ _ I _ _ _ A) as RA. pose proof (v_sz _ _ _ _ I) as SZ.
  pose proof (C_in _ _ _ _ _ b V B) as BI. pose proof (C_bound _ _ _ _ _ V) as (_ & T2 & _). pose proof (pow_le_30 L ltac:(lia)).
  unfold mplite_size. rewrite P, Z.quot_mul by lia. cbv zeta. rewrite assert_true by lia. cbn [bind]. rewrite (mload_znth _ _ _ (v_cl _ _ _ _ I _ _ A)). cbn [bind]. destruct (ctl_log L ltac:(lia)) as (_ & _ & _ & CL & _).
  rewrite CL, Z.shiftl_mul_pow2, Z.mul_1_l by lia. rewrite sint_Ret by (unfold two31; lia). cbn [bind]. rewrite sint_Ret by (unfold two31 in *; lia). rewrite S. reflexivity.
Qed.
Lemma resized_data m p d n : 0 <= n -> data_ok m p d -> data_ok m p (resized d n) /\ zlen (resized d n) = n.
Proof.
  intros RN DK. unfold resized. pose proof (zlen_nonneg d). split.
  - intros j v RJ J. rewrite znth_app in J. destruct (Z.ltb_spec j (zlen (ztake n d))) as [LT|GE].
    + rewrite zlen_ztake_le in LT. rewrite znth_ztake in J by lia. apply DK; assumption.
    + exfalso. unfold znth in J. destruct (j - zlen (ztake n d) <? 0); [discriminate|]. apply nth_error_In, repeat_spec in J. discriminate.
  - rewrite zlen_app, zlen_ztake_le, zlen_repeat. lia.
Qed.
Lemma step_ok k h live o : cinv k h live -> ok_op live o -> exists h' r, mp_step h o = Ret (h', r) /\ cinv k h' (c_step (2 ^ k) live o r) /\ mp_n h' = mp_n h.
Proof.
  intros (lf & fl & V) OK. destruct o as [n|n|p|p n|p off bs]; cbn [mp_step ok_op c_step] in *.
  - (* malloc *) unfold mplite_malloc. destruct (Z.leb_spec n 0) as [LE|GT]; [exists h, None; split; [reflexivity|]; split; [exists lf, fl; exact V|reflexivity]|].
    destruct (malloc_head _ _ _ _ _ n V OK) as (h' & r & E & N & R). exists h', r. split; [exact E|]. split; [|exact N]. destruct r; [destruct R as (_ & R & _); exact R|destruct R as (R & _); exists lf, fl; exact R].
  - (* calloc *) unfold mplite_calloc, mplite_malloc. destruct (Z.leb_spec n 0) as [LE|GT]; [exists h, None; split; [reflexivity|]; split; [exists lf, fl; exact V|reflexivity]|].
    destruct (malloc_head _ _ _ _ _ n V OK) as (h' & r & E & N & R). rewrite E. cbn [bind]. destruct r as [p|]; [|exists h', None; split; [reflexivity|]; split; [exists lf, fl; apply R|exact N]].
    destruct R as (N1 & (lf' & fl' & V') & _).
    destruct (write_head _ _ _ _ _ _ 0 (repeat 0 (Z.to_nat n)) (repeat (Some 0) (Z.to_nat n)) V') as (m & W & V2); cbn [b_ptr b_size b_data]; rewrite ?zlen_repeat; pose proof (fit_ge (2 ^ k) n); try lia.
    { intros j v RJ J. assert (j < n). { destruct (Z_lt_ge_dec j n); [assumption|]. rewrite (proj2 (znth_None_iff _ _)) in J by (rewrite zlen_repeat; lia). discriminate. }
      assert ((0 <=? j) && (j <? 0 + Z.of_nat (Z.to_nat n)) = true) as -> by lia. unfold znth in *. destruct (j <? 0) eqn:?; [lia|]. destruct (j - 0 <? 0) eqn:?; [lia|]. rewrite Z.sub_0_r.
      pose proof (nth_error_In _ _ J) as IN. apply repeat_spec in IN. injection IN as ->. rewrite nth_error_repeat by lia. reflexivity. }
    cbn [b_ptr] in W. rewrite Z.add_0_r in W. rewrite W. cbn [bind]. eexists _, (Some p). split; [reflexivity|]. split; [eexists _, _; exact V2|exact N].
  - (* free *) destruct OK as (b & B & <-). destruct (split_live live b (c_nd _ _ _ _ _ V) B) as (rest & P & F & _). pose proof (C_perm _ _ _ _ _ _ P V) as V1.
    destruct (free_head _ _ _ _ _ _ V1) as (h' & lf' & fl' & E & V' & N'). cbn [mplite_free]. rewrite E. cbn [bind]. exists h', None. split; [reflexivity|]. split; [|exact N']. rewrite F. exists lf', fl'. exact V'.
  - (* realloc *) destruct OK as (RN & b & B & <-). cbn [mplite_realloc]. destruct ((n <=? 0) || negb (Z.land n (n - 1) =? 0)) eqn:BAD; [exists h, None; split; [reflexivity|]; split; [exists lf, fl; exact V|reflexivity]|].
    assert (NP : 1 <= n) by lia. rewrite (size_ok _ _ _ _ _ b V B). cbn [bind].
    destruct (split_live live b (c_nd _ _ _ _ _ V) B) as (rest & P & F & FM). pose proof (C_perm _ _ _ _ _ _ P V) as V1.
    destruct (c_blk _ _ _ _ _ V b B) as (i & L & PB & AB & SB & DB & DK). destruct (resized_data (mp_mem h) (b_ptr b) (b_data b) n ltac:(lia) DK) as [RD RL].
    destruct (Z.leb_spec n (b_size b)) as [LE|GT].
    + exists h, (Some (b_ptr b)). split; [reflexivity|]. split; [|reflexivity].
      destruct (FM (fun c => mk_b (b_ptr b) (if n <=? b_size c then b_size c else fit (2 ^ k) n) (resized (b_data c) n))) as (l & -> & PL).
      destruct (write_head _ _ _ _ _ _ 0 [] (resized (b_data b) n) V1) as (m & W & V2); change (zlen (@nil Z)) with 0; try lia.
      { intros j v RJ J. destruct ((0 <=? j) && (j <? 0 + 0)) eqn:?; [lia|]. apply RD; assumption. }
      assert (m = mp_mem h) as ->. { apply mwrite_Ret in W as (_ & _ & ->). unfold zwrite. change (zlen (@nil Z)) with 0. rewrite !Z.add_0_r. cbn [app]. unfold ztake, zdrop. apply firstn_skipn. }
      assert (set_mem h (mp_mem h) = h) as EH by (destruct h; reflexivity). rewrite EH in V2. exists lf, fl. apply (C_perm _ _ _ _ _ _ (Permutation_sym PL)).
      assert ((n <=? b_size b) = true) as -> by lia. exact V2.
    + destruct (malloc_head _ _ _ _ _ n V1 RN) as (h1 & r & E & N & R). rewrite E. cbn [bind]. destruct r as [q|].
      2: { exists h1, None. split; [reflexivity|]. split; [|exact N]. destruct R as (R & _). exists lf, fl. exact (C_perm _ _ _ _ _ _ (Permutation_sym P) R). }
      destruct R as (N1 & (lf1 & fl1 & V2) & _). set (nb := mk_b q (fit (2 ^ k) n) (repeat None (Z.to_nat n))) in *.
      pose proof (C_in _ _ _ _ _ b V2 (or_intror (or_introl eq_refl))) as BI. pose proof (v_mem _ _ _ _ (c_inv _ _ _ _ _ V2)) as LM.
      destruct (c_blk _ _ _ _ _ V2 b (or_intror (or_introl eq_refl))) as (_ & _ & _ & _ & _ & _ & DK2). pose proof (zlen_nonneg (b_data b)).
      rewrite mread_ok by lia. cbn [bind]. assert (ZS : zlen (zsub (b_ptr b) (b_size b) (mp_mem h1)) = b_size b) by (apply zlen_zsub; lia).
      destruct (write_head _ _ nb _ _ _ 0 (zsub (b_ptr b) (b_size b) (mp_mem h1)) (resized (b_data b) n) V2) as (m & W & V3); cbn [b_ptr b_size b_data nb]; try lia; pose proof (fit_ge (2 ^ k) n); try lia.
      { intros j v RJ J. destruct (resized_data (mp_mem h1) (b_ptr b) (b_data b) n ltac:(lia) DK2) as [RD2 _]. specialize (RD2 j v RJ J).
        assert (j < zlen (b_data b)).
        { unfold resized in J. rewrite znth_app in J. rewrite zlen_ztake_le in J. destruct (Z.ltb_spec j (Z.max 0 (Z.min n (zlen (b_data b))))); [lia|].
          unfold znth in J. destruct (_ <? 0); [discriminate|]. apply nth_error_In, repeat_spec in J. discriminate. }
        assert ((0 <=? j) && (j <? 0 + zlen (zsub (b_ptr b) (b_size b) (mp_mem h1))) = true) as -> by lia. rewrite Z.sub_0_r, znth_zsub by lia. exact RD2. }
      cbn [b_ptr nb] in W. rewrite Z.add_0_r in W. rewrite W. cbn [bind].
      assert (V4 : C k (set_mem h1 m) (b :: mk_b q (fit (2 ^ k) n) (resized (b_data b) n) :: rest) lf1 fl1) by (eapply C_perm; [apply perm_swap|exact V3]).
      destruct (free_head _ _ _ _ _ _ V4) as (h' & lf' & fl' & E' & V' & N'). rewrite E'. cbn [bind]. exists h', (Some q). split; [reflexivity|]. split; [|cbn in N'; lia].
      destruct (FM (fun c => mk_b q (if n <=? b_size c then b_size c else fit (2 ^ k) n) (resized (b_data c) n))) as (l & -> & PL). exists lf', fl'. apply (C_perm _ _ _ _ _ _ (Permutation_sym PL)).
      assert ((n <=? b_size b) = false) as -> by lia. exact V'.
  - (* write *) destruct OK as (b & B & <- & RO & RB). destruct (split_live live b (c_nd _ _ _ _ _ V) B) as (rest & P & F & FM). pose proof (C_perm _ _ _ _ _ _ P V) as V1.
    destruct (c_blk _ _ _ _ _ V b B) as (i & L & PB & AB & SB & DB & DK). pose proof (zlen_nonneg bs).
    assert (ZM : zlen (map Some bs) = zlen bs) by (unfold zlen; rewrite map_length; reflexivity).
    destruct (write_head _ _ _ _ _ _ off bs (zwrite off (map Some bs) (b_data b)) V1 RO ltac:(lia)) as (m & W & V2).
    { rewrite zlen_zwrite; lia. }
    { intros j v RJ J. rewrite znth_zwrite in J by lia. rewrite ZM in J. destruct ((off <=? j) && (j <? off + zlen bs)) eqn:E; [|apply DK; assumption].
      unfold znth in *. destruct (j - off <? 0); [discriminate|]. rewrite nth_error_map in J. destruct (nth_error bs (Z.to_nat (j - off))); [|discriminate]. cbn in J. congruence. }
    rewrite W. cbn [bind]. eexists _, None. split; [reflexivity|]. split; [|reflexivity].
    destruct (FM (fun c => mk_b (b_ptr b) (b_size c) (zwrite off (map Some bs) (b_data c)))) as (l & -> & PL). exists lf, fl. apply (C_perm _ _ _ _ _ _ (Permutation_sym PL)). exact V2.
Qed.

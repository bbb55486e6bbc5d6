(** C71: the statistics of a pool, src/mem/mplite.c *)
From Coq Require Import String.
From Verif Require Import CBase CStr StrParamsProof FloatProof2 XlogProof4 MpliteModel MpliteSpec MpliteProof MpliteProof4 MpliteProof5 MpliteProof6 Props_Mplite MpStatsModel MpStatsSpec MpStatsProof.

Lemma treach_reach h0 h live t : treach h0 h live t -> reach h0 h live.
Proof. induction 1 as [|h live t o h' r R IH OK E]; [constructor|]. econstructor; eassumption. Qed.
(** every history has a tally *)
Lemma reach_treach h0 h live : reach h0 h live -> exists t, treach h0 h live t.
Proof. induction 1 as [|h live o h' r R (t & IH) OK E]; [exists t0; constructor|]. exists (t_step (mp_sz h0) live o r t). eapply treach_S; eassumption. Qed.
Lemma u64_add a b : u64 (u64 a + b) = u64 (a + b). Proof. unfold u64. apply Z.add_mod_idemp_l. discriminate. Qed.

(** the six counters, after every history of calls: how many blocks were handed out, with how many bytes, how many of them nobody
    asked for (modulo 2^64), and the most bytes, the most blocks, the largest request there ever was *)
Theorem C71_counters : forall (buf : list Z) (size min : Z) (h0 h : mp) (live : list blk) (t : tally), pool buf size min h0 -> treach h0 h live t ->
  mp_nalloc h = t_n t mod two64 /\ mp_total h = t_total t mod two64 /\ mp_excess h = t_waste t mod two64 /\
  mp_maxout h = t_peak t /\ mp_maxcount h = t_peakcount t /\ mp_maxreq h = t_request t /\
  0 <= t_peak t < two32 /\ 0 <= t_peakcount t < two32 /\ 0 <= t_request t <= 1073741824.
Proof.
  intros buf size min h0 h live t P T.
  enough (S : stats h = (u64 (t_n t), u64 (t_total t), u64 (t_waste t), t_peak t, t_peakcount t, t_request t) /\ 0 <= t_peak t < two32 /\ 0 <= t_peakcount t < two32 /\ 0 <= t_request t <= 1073741824)
    by (destruct S as (S & S2); unfold stats in S; injection S as -> -> -> -> -> ->; auto 10).
  destruct (pool_cinv _ _ _ _ P) as (_ & _ & k & CI & K & _).
  induction T as [|h live t o h' r T IH OK E].
  - destruct P as (_ & _ & _ & E). split; [|cbn; unfold two32; lia]. 
    assert (IL : forall n h off h', init_loop n h off = Ret h' -> stats h' = stats h).
    { clear. induction n as [|n IH]; intros h off h' H; cbn [init_loop] in H; cbv zeta in H; sb; sa; repeat match goal with X : mplite_link _ _ _ = Ret _ |- _ => apply s_link in X | X : init_loop _ _ _ = Ret _ |- _ => apply IH in X end; congruence. }
    unfold mplite_init in E. destruct ((size <=? 0) || (min <=? 0)); [discriminate|]. sb. match goal with X : init_loop _ _ _ = Ret ?h |- _ => apply IL in X; rewrite X; reflexivity end.
  - destruct IH as (S & B1 & B2 & B3). pose proof (treach_reach _ _ _ _ T) as R. destruct (reach_cinv k h0 h live CI R) as ((lf & fl & V) & _ & Zh). pose proof (c_k _ _ _ _ _ V) as RK.
    assert (MAL : forall n h1 r1, - two31 <= n < two31 -> 0 < n -> mplite_malloc_unsafe h n = Ret (h1, r1) ->
      let t1 := match r1 with Some _ => granted (mp_sz h0) n live (asked n t) | None => asked n t end in
      stats h1 = (u64 (t_n t1), u64 (t_total t1), u64 (t_waste t1), t_peak t1, t_peakcount t1, t_request t1) /\ 0 <= t_peak t1 < two32 /\ 0 <= t_peakcount t1 < two32 /\ 0 <= t_request t1 <= 1073741824).
    { intros n h1 r1 RN PN M. pose proof (s_malloc k h n h1 r1 ltac:(congruence) ltac:(lia) M) as H. unfold stats in S. injection S as A1 A2 A3 A4 A5 A6. rewrite A1, A2, A3, A4, A5, A6 in H. cbv zeta in *.
      assert (ST : mp_step h (OMalloc n) = Ret (h1, r1)) by (cbn [mp_step]; unfold mplite_malloc; destruct (n <=? 0) eqn:Q; [lia|exact M]).
      assert (NL : r1 <> None -> 0 < n <= 1073741824). { intro X. unfold mplite_malloc_unsafe in M. destruct ((n <=? 0) || (1073741824 <? n)) eqn:Q; [injection M as <- <-; congruence|lia]. }
      destruct r1 as [q|].
      - destruct H as (H & O1 & O2). pose proof (C27_accounting buf size min h0 h1 _ P (reach_S h0 h live (OMalloc n) h1 (Some q) R RN ST)) as (_ & AO & AC). cbn [c_step total_live fold_right] in AO. cbn [c_step] in AC. rewrite zlen_cons in AC. change (fold_right _ 0 live) with (total_live live) in AO.
        rewrite H, !u64_add, AO, AC, <- Zh. cbn [b_size] in *. unfold granted, asked. destruct ((0 <? n) && (n <=? 1073741824)) eqn:Q; [|specialize (NL ltac:(discriminate)); lia]. cbn [t_n t_total t_waste t_peak t_peakcount t_request].
        split; [reflexivity|]. rewrite AO in O1. rewrite AC in O2. rewrite <- Zh in O1. lia.
      - rewrite H. unfold asked. destruct ((0 <? n) && (n <=? 1073741824)) eqn:Q; cbn [t_n t_total t_waste t_peak t_peakcount t_request]; (split; [reflexivity|]); lia. }
    assert (KEEP : forall h1, stats h1 = stats h -> stats h1 = (u64 (t_n t), u64 (t_total t), u64 (t_waste t), t_peak t, t_peakcount t, t_request t) /\ 0 <= t_peak t < two32 /\ 0 <= t_peakcount t < two32 /\ 0 <= t_request t <= 1073741824) by (intros h1 ->; auto).
    assert (SMALL : forall n (r1 : option Z), n <= 0 -> r1 = None -> match r1 with Some _ => granted (mp_sz h0) n live (asked n t) | None => asked n t end = t).
    { intros n r1 L ->. unfold asked. destruct (0 <? n) eqn:Q; [lia|reflexivity]. }
    destruct o as [n|n|p|p n|p off bs]; cbn [t_step mp_step ok_op] in *.
    + unfold mplite_malloc in E. destruct (n <=? 0) eqn:Q; [injection E as <- <-; pose proof (SMALL n None ltac:(lia) eq_refl) as SM; cbv beta iota in SM; rewrite SM; apply KEEP; reflexivity|]. apply MAL; auto. lia.
    + unfold mplite_calloc, mplite_malloc in E. destruct (n <=? 0) eqn:Q; [cbn [bind] in E; injection E as <- <-; pose proof (SMALL n None ltac:(lia) eq_refl) as SM; cbv beta iota in SM; rewrite SM; apply KEEP; reflexivity|].
      destruct (mplite_malloc_unsafe h n) as [[h1 r1]| | |] eqn:M; cbn [bind] in E; try discriminate. specialize (MAL n h1 r1 OK ltac:(lia) M). destruct r1 as [q|].
      * destruct (mwrite (mp_mem h1) q _) as [m| | |]; cbn [bind] in E; try discriminate. injection E as <- <-. exact MAL.
      * injection E as <- <-. exact MAL.
    + unfold mplite_free in E. destruct (mplite_free_unsafe h p) as [h1| | |] eqn:M; cbn [bind] in E; try discriminate. injection E as <- <-. apply KEEP. eapply s_free. exact M.
    + destruct OK as (RN & b & BI & BP). assert (SZ : mplite_size h p = Ret (b_size b)) by (rewrite <- BP; eapply size_ok; eassumption).
      assert (UN : forall c, In c live -> b_ptr c = p -> b_size c = b_size b).
      { intros c CI' CP. pose proof (size_ok k h live lf fl c V CI') as X. rewrite CP, SZ in X. congruence. }
      assert (MV : moves live p n = (0 <? n) && (Z.land n (n - 1) =? 0) && (b_size b <? n)).
      { unfold moves. f_equal. apply eq_true_iff_eq. rewrite existsb_exists. split.
        - intros (c & C1 & C2). apply andb_prop in C2. rewrite <- (UN c C1 ltac:(lia)). apply C2.
        - intro X. exists b. split; [exact BI|]. apply andb_true_intro. split; [lia|exact X]. }
      rewrite MV. unfold mplite_realloc in E. destruct ((n <=? 0) || negb (Z.land n (n - 1) =? 0)) eqn:Q.
      * injection E as <- <-. replace ((0 <? n) && (Z.land n (n - 1) =? 0)) with false by (destruct (Z.land n (n - 1) =? 0), (0 <? n) eqn:?; cbn in *; try reflexivity; lia). apply KEEP. reflexivity.
      * replace ((0 <? n) && (Z.land n (n - 1) =? 0)) with true by (destruct (Z.land n (n - 1) =? 0), (0 <? n) eqn:?; cbn in *; try reflexivity; try lia; rewrite orb_true_r in Q; discriminate). cbn [andb]. rewrite SZ in E. cbn [bind] in E. destruct (n <=? b_size b) eqn:LE.
        -- injection E as <- <-. replace (b_size b <? n) with false by lia. apply KEEP. reflexivity.
        -- replace (b_size b <? n) with true by lia. destruct (mplite_malloc_unsafe h n) as [[h1 r1]| | |] eqn:M; cbn [bind] in E; try discriminate. specialize (MAL n h1 r1 RN ltac:(lia) M). destruct r1 as [q|].
           ++ destruct (mread (mp_mem h1) p (b_size b)) as [s| | |]; cbn [bind] in E; try discriminate. destruct (mwrite (mp_mem h1) q s) as [m| | |]; cbn [bind] in E; try discriminate. destruct (mplite_free_unsafe (set_mem h1 m) p) as [h2| | |] eqn:FR; cbn [bind] in E; try discriminate. injection E as <- <-.
              apply s_free in FR. rewrite FR. exact MAL.
           ++ injection E as <- <-. exact MAL.
    + destruct (mwrite (mp_mem h) (p + off) bs) as [m| | |]; cbn [bind] in E; try discriminate. injection E as <- <-. apply KEEP. reflexivity.
Qed.
Print Assumptions C71_counters.

Lemma bytes_letters s : bytes s = letters s.
Proof. induction s as [|c s IH]; cbn; [reflexivity|f_equal; exact IH]. Qed.
Lemma u32_u64 x : u32 (u64 x) = x mod two32.
Proof. unfold u32, u64. symmetry. apply Znumtheory.Zmod_div_mod; [reflexivity|reflexivity|]. exists two32. reflexivity. Qed.
Definition short (s : string) : bool := (zlen (letters s) <=? 200) && forallb (fun c => (0 <? c) && (c <? 256)) (letters s).
Lemma line_says junk s n : zlen junk = 256 -> short s = true -> exists l, line junk s n = Ret l /\ says s (n mod two32) l.
Proof.
  intros J Q. unfold line. rewrite bytes_letters. apply andb_prop in Q as [Q1 Q2]. rewrite forallb_forall in Q2.
  assert (U : 0 <= u32 n < two32) by (unfold u32, two32; apply Z.mod_pos_bound; lia). destruct (decimal_ok (u32 n) (proj1 U)) as (D & V & c & r & DE & NZ).
  pose proof (decimal_len (u32 n) 9 ltac:(unfold two32 in U; change (10 ^ Z.of_nat 10) with 10000000000; lia)) as DL. change (Z.of_nat 10) with 10 in DL.
  assert (T : text (letters s ++ decimal (u32 n))).
  { apply text_app. split; [apply Forall_forall; intros x X; specialize (Q2 x X); lia|]. eapply Forall_impl; [|exact D]. cbn. lia. }
  change junk with ([] ++ junk) at 1. change 0 with (zlen (@nil Z)) at 1. rewrite snprintf_short by (rewrite ?zlen_app; lia). cbn [bind fst app]. 
  exists (letters s ++ decimal (u32 n)). split; [apply (cstr_at_text [] _ _ 0 eq_refl T)|]. fold (u32 n). exists c, r. rewrite <- DE. repeat split; auto.
  intro Zn. rewrite Zn in DE. vm_compute in DE. injection DE as _ <-. reflexivity.
Qed.

(** mplite_print_stats: the eight lines, and what each of them says about the history. The three totals are printed modulo 2^32. *)
Theorem C71_printed : forall (buf : list Z) (size min : Z) (h0 h : mp) (live : list blk) (t : tally) (junk : list Z), pool buf size min h0 -> treach h0 h live t -> zlen junk = 256 ->
  exists l1 l2 l3 l4 l5 l6 l7 l8, print_stats junk h = Ret [l1; l2; l3; l4; l5; l6; l7; l8] /\
  says "Total number of calls to malloc: " (t_n t mod two32) l1 /\
  says "Total of all malloc calls - includes internal fragmentation: " (t_total t mod two32) l2 /\
  says "Total internal fragmentation: " (t_waste t mod two32) l3 /\
  says "Current checkout, including internal fragmentation: " (total_live live) l4 /\
  says "Current number of distinct checkouts: " (zlen live) l5 /\
  says "Maximum instantaneous currentOut: " (t_peak t) l6 /\
  says "Maximum instantaneous currentCount: " (t_peakcount t) l7 /\
  says "Largest allocation (exclusive of internal frag): " (t_request t) l8.
Proof.
  intros buf size min h0 h live t junk P T J. destruct (C71_counters _ _ _ _ _ _ _ P T) as (A1 & A2 & A3 & A4 & A5 & A6 & B1 & B2 & B3).
  destruct (C27_accounting _ _ _ _ _ _ P (treach_reach _ _ _ _ T)) as (_ & O & N).
  assert (G : 0 <= total_live live < two31 /\ 0 <= zlen live < two31).
  { destruct (pool_cinv _ _ _ _ P) as (_ & _ & k & CI & _). destruct (reach_cinv k h0 h live CI (treach_reach _ _ _ _ T)) as ((lf & fl & V) & _). destruct (C_bound _ _ _ _ _ V) as (X1 & X2 & X3). pose proof (zlen_nonneg live). lia. }
  assert (T32 : two32 = 2 * two31) by reflexivity. assert (SM4 : total_live live mod two32 = total_live live) by (apply Z.mod_small; clear - G T32; lia).
  assert (SM5 : zlen live mod two32 = zlen live) by (apply Z.mod_small; clear - G T32; lia). assert (SM8 : t_request t mod two32 = t_request t) by (apply Z.mod_small; clear - B3; unfold two32; lia).
  unfold print_stats, stat_lines. cbn [put_lines].
  destruct (line_says junk "Total number of calls to malloc: " (mp_nalloc h) J eq_refl) as (l1 & -> & S1).
  destruct (line_says junk "Total of all malloc calls - includes internal fragmentation: " (mp_total h) J eq_refl) as (l2 & -> & S2).
  destruct (line_says junk "Total internal fragmentation: " (mp_excess h) J eq_refl) as (l3 & -> & S3).
  destruct (line_says junk "Current checkout, including internal fragmentation: " (mp_out h) J eq_refl) as (l4 & -> & S4).
  destruct (line_says junk "Current number of distinct checkouts: " (mp_count h) J eq_refl) as (l5 & -> & S5).
  destruct (line_says junk "Maximum instantaneous currentOut: " (mp_maxout h) J eq_refl) as (l6 & -> & S6).
  destruct (line_says junk "Maximum instantaneous currentCount: " (mp_maxcount h) J eq_refl) as (l7 & -> & S7).
  destruct (line_says junk "Largest allocation (exclusive of internal frag): " (mp_maxreq h) J eq_refl) as (l8 & -> & S8).
  cbn [bind]. exists l1, l2, l3, l4, l5, l6, l7, l8. split; [reflexivity|].
  assert (MM : forall x, (x mod two64) mod two32 = x mod two32) by (intro x; exact (u32_u64 x)).
  rewrite A1, MM in S1. rewrite A2, MM in S2. rewrite A3, MM in S3. rewrite O, SM4 in S4. rewrite N, SM5 in S5. rewrite A4, (Z.mod_small _ _ B1) in S6. rewrite A5, (Z.mod_small _ _ B2) in S7. rewrite A6, SM8 in S8.
  auto 10.
Qed.
Print Assumptions C71_printed.

(** a history that meets the hypotheses, with its tally: two blocks handed out, 48 bytes, 19 of them unasked; a request too large for the pool;
    then one block freed *)
Definition ex_h (ops : list mp_op) : mp := match ex_run ops with Ret (h, _) => h | _ => ex_pool end.
Example C71_history : exists l, treach ex_pool (ex_h [OMalloc 9; OCalloc 20; OMalloc 500; OFree 64]) l (mk_ta 2 48 19 48 2 500) /\ map b_ptr l = [0].
Proof.
  assert (H1 : treach ex_pool (ex_h [OMalloc 9]) [mk_b 64 16 (repeat None 9)] (mk_ta 1 16 7 16 1 9))
    by exact (treach_S ex_pool _ _ _ (OMalloc 9) _ (Some 64) (treach_0 ex_pool) ltac:(cbn; unfold two31; lia) ltac:(vm_compute; reflexivity)).
  assert (H2 : treach ex_pool (ex_h [OMalloc 9; OCalloc 20]) [mk_b 0 32 (repeat (Some 0) 20); mk_b 64 16 (repeat None 9)] (mk_ta 2 48 19 48 2 20))
    by exact (treach_S ex_pool _ _ _ (OCalloc 20) _ (Some 0) H1 ltac:(cbn; unfold two31; lia) ltac:(vm_compute; reflexivity)).
  assert (H3 : treach ex_pool (ex_h [OMalloc 9; OCalloc 20; OMalloc 500]) [mk_b 0 32 (repeat (Some 0) 20); mk_b 64 16 (repeat None 9)] (mk_ta 2 48 19 48 2 500))
    by exact (treach_S ex_pool _ _ _ (OMalloc 500) _ None H2 ltac:(cbn; unfold two31; lia) ltac:(vm_compute; reflexivity)).
  exists [mk_b 0 32 (repeat (Some 0) 20)]. split; [|reflexivity].
  refine (treach_S ex_pool _ _ _ (OFree 64) _ None H3 _ ltac:(vm_compute; reflexivity)). eexists. split; [right; left; reflexivity|reflexivity].
Qed.
Example C71_ex : match ex_run [OMalloc 9; OCalloc 20; OMalloc 500; OFree 64] with Ret (h, _) => match print_stats (repeat 170 256) h with Ret l => map (fun x => zdrop (zlen x - 2) x) l = [[32; 50]; [52; 56]; [49; 57]; [51; 50]; [32; 49]; [52; 56]; [32; 50]; [48; 48]] | _ => False end | _ => False end.
Proof. vm_compute. reflexivity. Qed.

(** C26, C27, C28: src/mem/mplite.c *)
From Verif Require Import CBase MpliteModel MpliteSpec MpliteProof MpliteProof4 MpliteProof5 MpliteProof6.

(** the pool made by mplite_init from a buffer of [size] bytes *)
Definition pool (buf : list Z) (size min : Z) (h0 : mp) : Prop :=
  zlen buf = size /\ size < two31 /\ min <= 1073741824 /\ mplite_init (Some buf) size min = Ret (Some h0).
Lemma pool_cinv buf size min h0 : pool buf size min h0 -> 0 < size /\ 0 < min /\ exists k, cinv k h0 [] /\ mp_sz h0 = 2 ^ k /\ 2 ^ k = Z.max 8 (2 ^ Z.log2_up min) /\ mp_n h0 = size / (2 ^ k + 1).
Proof.
  intros (LB & RS & RM & E). assert (0 < size /\ 0 < min) as [S0 M0].
  { unfold mplite_init in E. destruct ((size <=? 0) || (min <=? 0)) eqn:Q; [discriminate|]. lia. }
  split; [exact S0|]. split; [exact M0|]. destruct (init_ok buf size min LB ltac:(lia) ltac:(lia)) as (h & k & E' & Z & K & N & CI). rewrite E in E'. injection E' as <-. exists k. tauto.
Qed.

(** C26: initialisation: it refuses exactly the missing buffer and the non-positive sizes; the atom is the smallest
    power of two >= max(8, min); the pool has as many atoms as fit with their control bytes. *)
Theorem C26_init :
  forall (buf : option (list Z)) (size min : Z), (forall b, buf = Some b -> zlen b = size) -> size < two31 -> min <= 1073741824 ->
  exists r, mplite_init buf size min = Ret r /\ (r = None <-> buf = None \/ size <= 0 \/ min <= 0) /\
  forall h, r = Some h -> mp_sz h = Z.max 8 (2 ^ Z.log2_up min) /\ mp_n h = size / (mp_sz h + 1).
Proof.
  intros [buf|] size min LB RS RM.
  - destruct (Z_le_gt_dec size 0) as [S0|S0]; [|destruct (Z_le_gt_dec min 0) as [M0|M0]].
    + exists None. unfold mplite_init. destruct (size <=? 0) eqn:E; [|lia]. cbn [orb]. split; [reflexivity|]. split; [tauto|discriminate].
    + exists None. unfold mplite_init. destruct (min <=? 0) eqn:E; [|lia]. rewrite orb_true_r. split; [reflexivity|]. split; [tauto|discriminate].
    + destruct (init_ok buf size min (LB _ eq_refl) ltac:(lia) ltac:(lia)) as (h & k & E & Z & K & N & CI). exists (Some h). split; [exact E|]. split.
      * split; [discriminate|]. intros [?|[?|?]]; [discriminate|lia|lia].
      * intros h' H. injection H as <-. rewrite Z, N. split; [exact K|reflexivity].
  - exists None. split; [reflexivity|]. split; [tauto|discriminate].
Qed.
Print Assumptions C26_init.

(** C26: in every history, every live block lies in the pool, starts at a multiple of its own size, is a power of two
    >= the atom, holds the requested bytes, and is apart from every other live block. *)
Theorem C26_blocks :
  forall (buf : list Z) (size min : Z) (h0 h : mp) (live : list blk), pool buf size min h0 -> reach h0 h live ->
  (forall b, In b live -> 0 <= b_ptr b /\ b_ptr b + b_size b <= mp_n h0 * mp_sz h0 /\ b_ptr b mod b_size b = 0 /\ b_ptr b mod mp_sz h0 = 0 /\
     (exists e, 0 <= e /\ b_size b = mp_sz h0 * 2 ^ e) /\ zlen (b_data b) <= b_size b) /\
  NoDup (map b_ptr live) /\ (forall b c, In b live -> In c live -> b <> c -> apart b c).
Proof.
  intros buf size min h0 h live P R. destruct (pool_cinv _ _ _ _ P) as (_ & _ & k & CI & _). destruct (reach_cinv k h0 h live CI R) as ((lf & fl & V) & N & Z). rewrite <- N, <- Z. split; [|split].
  - intros b B. destruct (C_in _ _ _ _ _ b V B) as (B1 & B2 & B3 & B4). destruct (c_blk _ _ _ _ _ V b B) as (i & L & P' & A & S & _). pose proof (MpliteProof2.leaf_rng _ _ _ _ (c_inv _ _ _ _ _ V) _ _ _ A).
    pose proof (MpliteProof2.v_sz _ _ _ _ (c_inv _ _ _ _ _ V)). split; [exact B1|]. split; [exact B2|]. split; [exact B3|]. split; [rewrite P'; apply Z.mod_mul; lia|]. split; [exists L; split; [lia|exact S]|exact B4].
  - apply V.
  - intros b c B D NE. eapply C_apart; [exact V|exact B|exact D|]. intro E. apply NE. eapply ptr_inj; [exact V|exact B|exact D|exact E].
Qed.
Print Assumptions C26_blocks.

(** C26: no call of a well-behaved caller runs into undefined behaviour or an abort, whatever the history. *)
Theorem C26_always_defined :
  forall (buf : list Z) (size min : Z) (h0 h : mp) (live : list blk) (o : mp_op), pool buf size min h0 -> reach h0 h live -> ok_op live o ->
  exists h' r, mp_step h o = Ret (h', r) /\ reach h0 h' (c_step (mp_sz h0) live o r).
Proof.
  intros buf size min h0 h live o P R OK. destruct (pool_cinv _ _ _ _ P) as (_ & _ & k & CI & _). destruct (reach_cinv k h0 h live CI R) as (CI' & _).
  destruct (step_ok k h live o CI' OK) as (h' & r & E & _). exists h', r. split; [exact E|]. eapply reach_S; eassumption.
Qed.
Print Assumptions C26_always_defined.

(** Refutes "any minimum allocation": every min above 2^30 makes mplite_init compute 1 << 31 in int. *)
Theorem C26_large_minimum_refuted :
  forall (buf : list Z) (size min : Z), 0 < size -> 1073741824 < min < two31 -> mplite_init (Some buf) size min = Ub.
Proof.
  intros buf size min S M. unfold mplite_init. destruct ((size <=? 0) || (min <=? 0)) eqn:E; [lia|].
  assert (LG : forall fuel l, 0 <= l <= 31 -> 31 - l < Z.of_nat fuel -> log_loop fuel l min = Ret 31).
  { induction fuel as [|fuel IH]; intros l RL F; [lia|]. cbn [log_loop]. destruct (Z.ltb_spec l 31) as [LT|GE]; [|cbn [andb]; f_equal; lia].
    rewrite Z.shiftl_mul_pow2, Z.mul_1_l by lia. pose proof (pow_le_30 l ltac:(lia)). destruct (2 ^ l <? min) eqn:Q; [|lia]. cbn [andb]. apply IH; lia. }
  unfold mplite_logarithm. rewrite LG by lia. reflexivity.
Qed.
Print Assumptions C26_large_minimum_refuted.

(** C27: the accounting is exact after every history: mplite_freemem is the pool minus the live blocks, the
    statistics count the live bytes and blocks. *)
Theorem C27_accounting :
  forall (buf : list Z) (size min : Z) (h0 h : mp) (live : list blk), pool buf size min h0 -> reach h0 h live ->
  mplite_freemem h = Ret (mp_n h0 * mp_sz h0 - total_live live) /\ mp_out h = total_live live /\ mp_count h = zlen live.
Proof.
  intros buf size min h0 h live P R. destruct (pool_cinv _ _ _ _ P) as (_ & _ & k & CI & _). destruct (reach_cinv k h0 h live CI R) as (CI' & N & Z). rewrite <- N, <- Z.
  split; [apply (freemem_ok k); exact CI'|]. destruct CI' as (? & ? & V). split; apply V.
Qed.
Print Assumptions C27_accounting.

(** C27: after every history, malloc succeeds exactly when 0 < n <= 2^30 and the pool has a size-aligned place for the
    rounded size that meets no live block (nothing is lost, everything is coalesced). *)
Theorem C27_malloc_succeeds_iff_it_fits :
  forall (buf : list Z) (size min : Z) (h0 h : mp) (live : list blk) (n : Z), pool buf size min h0 -> reach h0 h live -> - two31 <= n < two31 ->
  exists h' r, mplite_malloc h n = Ret (h', r) /\ (r <> None <-> 0 < n <= 1073741824 /\ gap (mp_n h0 * mp_sz h0) (fit (mp_sz h0) n) live).
Proof.
  intros buf size min h0 h live n P R RN. destruct (pool_cinv _ _ _ _ P) as (_ & _ & k & CI & _). destruct (reach_cinv k h0 h live CI R) as (CI' & N & Z). rewrite <- N, <- Z. eapply malloc_iff; eassumption.
Qed.
Print Assumptions C27_malloc_succeeds_iff_it_fits.

(** C27: mplite_maxmem is the size of the largest free place (0 if there is none); mplite_roundup is the reserved size. *)
Theorem C27_maxmem :
  forall (buf : list Z) (size min : Z) (h0 h : mp) (live : list blk), pool buf size min h0 -> reach h0 h live ->
  exists m, mplite_maxmem h = Ret m /\ (m = 0 \/ gap (mp_n h0 * mp_sz h0) m live) /\
  (forall e, 0 <= e -> gap (mp_n h0 * mp_sz h0) (mp_sz h0 * 2 ^ e) live -> mp_sz h0 * 2 ^ e <= m).
Proof.
  intros buf size min h0 h live P R. destruct (pool_cinv _ _ _ _ P) as (_ & _ & k & CI & _). destruct (reach_cinv k h0 h live CI R) as (CI' & N & Z). rewrite <- N, <- Z. eapply maxmem_ok; eassumption.
Qed.
Print Assumptions C27_maxmem.
Theorem C27_roundup :
  forall (buf : list Z) (size min : Z) (h0 h : mp) (live : list blk) (n : Z), pool buf size min h0 -> reach h0 h live ->
  mplite_roundup h n = Ret (if (n <? 1) || (1073741824 <? n) then 0 else fit (mp_sz h0) n).
Proof.
  intros buf size min h0 h live n P R. destruct (pool_cinv _ _ _ _ P) as (_ & _ & k & CI & K & _). destruct (reach_cinv k h0 h live CI R) as ((lf & fl & V) & N & Z).
  unfold mplite_roundup. destruct ((n <? 1) || (1073741824 <? n)) eqn:E; [reflexivity|]. pose proof (c_k _ _ _ _ _ V).
  assert (UP : 0 <= Z.log2_up n <= 30) by (split; [apply Z.log2_up_nonneg|change 30 with (Z.log2_up 1073741824); apply Z.log2_up_le_mono; lia]).
  rewrite Z, K. rewrite (round_loop_ok n ltac:(lia) 32 k (Z.max k (Z.log2_up n) - k) 0) by lia. cbn [bind]. rewrite fit_pow by lia. do 2 f_equal. lia.
Qed.
Print Assumptions C27_roundup.

(** C27: whenever no block is live, the free lists are those of the fresh pool. *)
Theorem C27_all_freed_is_initial :
  forall (buf : list Z) (size min : Z) (h0 h : mp), pool buf size min h0 -> reach h0 h [] -> mp_free h = mp_free h0.
Proof.
  intros buf size min h0 h P R. destruct (pool_cinv _ _ _ _ P) as (_ & _ & k & CI & _). destruct (reach_cinv k h0 h [] CI R) as (CI' & N & _). eapply empty_free; eassumption.
Qed.
Print Assumptions C27_all_freed_is_initial.

(** C28: in every history, every byte the caller wrote (or calloc zeroed) in a block it still owns is in memory,
    through every malloc, free and realloc of this and other blocks. *)
Theorem C28_content :
  forall (buf : list Z) (size min : Z) (h0 h : mp) (live : list blk) (b : blk) (i v : Z), pool buf size min h0 -> reach h0 h live ->
  In b live -> 0 <= i -> znth i (b_data b) = Some (Some v) -> znth (b_ptr b + i) (mp_mem h) = Some v.
Proof.
  intros buf size min h0 h live b i v P R B RI D. destruct (pool_cinv _ _ _ _ P) as (_ & _ & k & CI & _). destruct (reach_cinv k h0 h live CI R) as ((lf & fl & V) & _).
  destruct (c_blk _ _ _ _ _ V b B) as (? & ? & _ & _ & _ & _ & DK). apply DK; assumption.
Qed.
Print Assumptions C28_content.

(** C28: a successful realloc returns a block that begins with the old content; a failing one leaves the old block (and
    every other) owned and its bytes in place. *)
Theorem C28_realloc :
  forall (buf : list Z) (size min : Z) (h0 h : mp) (live : list blk) (b : blk) (n : Z), pool buf size min h0 -> reach h0 h live ->
  In b live -> - two31 <= n < two31 ->
  exists h' r, mplite_realloc h (Some (b_ptr b)) n = Ret (h', r) /\
  match r with
  | Some q => exists b', In b' (c_step (mp_sz h0) live (ORealloc (b_ptr b) n) r) /\ reach h0 h' (c_step (mp_sz h0) live (ORealloc (b_ptr b) n) r) /\ b_ptr b' = q /\ n <= b_size b' /\ zlen (b_data b') = n /\
      forall i, 0 <= i < Z.min n (zlen (b_data b)) -> znth (q + i) (mp_mem h') = znth (b_ptr b + i) (mp_mem h)
  | None => reach h0 h' live /\ forall i, 0 <= i < zlen (b_data b) -> znth (b_ptr b + i) (mp_mem h') = znth (b_ptr b + i) (mp_mem h)
  end.
Proof.
  intros buf size min h0 h live b n P R B RN. pose proof (pool_cinv _ _ _ _ P) as (_ & _ & k & CI & _). pose proof (reach_cinv k h0 h live CI R) as ((lf & fl & V) & N & Z).
  pose proof (C_in _ _ _ _ _ b V B) as (B1 & B2 & B3 & B4). pose proof (MpliteProof2.v_mem _ _ _ _ (c_inv _ _ _ _ _ V)) as LM. pose proof (zlen_nonneg (b_data b)) as Z0.
  (* first write back what is there: every byte is now known *)
  set (s := zsub (b_ptr b) (zlen (b_data b)) (mp_mem h)). assert (ZS : zlen s = zlen (b_data b)) by (apply zlen_zsub; lia).
  assert (OKW : ok_op live (OWrite (b_ptr b) 0 s)) by (exists b; split; [exact B|]; split; [reflexivity|]; lia).
  assert (SAME : zwrite (b_ptr b + 0) s (mp_mem h) = mp_mem h).
  { apply znth_ext; [apply zlen_zwrite; lia|]. intros i RI. rewrite znth_zwrite by (try apply RI; lia). destruct ((b_ptr b + 0 <=? i) && (i <? b_ptr b + 0 + zlen s)) eqn:E; [|reflexivity].
    unfold s. rewrite znth_zsub by lia. f_equal. lia. }
  assert (EW : mp_step h (OWrite (b_ptr b) 0 s) = Ret (h, None)).
  { cbn [mp_step]. rewrite mwrite_ok by lia. rewrite SAME. cbn [bind]. do 2 f_equal. destruct h; reflexivity. }
  pose proof (reach_S h0 h live _ h None R OKW EW) as R1. set (live1 := c_step (mp_sz h0) live (OWrite (b_ptr b) 0 s) None) in *. cbn [c_step] in live1.
  set (b1 := mk_b (b_ptr b) (b_size b) (zwrite 0 (map Some s) (b_data b))).
  assert (ZM : zlen (map Some s) = zlen s) by (unfold zlen; rewrite map_length; reflexivity).
  assert (B1' : In b1 live1) by (unfold live1; apply in_map_iff; exists b; rewrite Z.eqb_refl; split; [reflexivity|exact B]).
  assert (D1 : forall i, 0 <= i < zlen (b_data b) -> exists v, znth i (b_data b1) = Some (Some v) /\ znth (b_ptr b + i) (mp_mem h) = Some v).
  { intros i RI. destruct (znth_in_range i s ltac:(lia)) as (v & E). exists v. unfold b1. cbn [b_data]. rewrite znth_zwrite by lia. rewrite ZM. assert ((0 <=? i) && (i <? 0 + zlen s) = true) as -> by lia. rewrite Z.sub_0_r. split.
    - unfold znth in *. destruct (i <? 0); [discriminate|]. rewrite nth_error_map, E. reflexivity.
    - unfold s in E. rewrite znth_zsub in E by lia. exact E. }
  assert (OKR : ok_op live (ORealloc (b_ptr b) n)) by (split; [exact RN|]; exists b; split; [exact B|reflexivity]).
  assert (OKR1 : ok_op live1 (ORealloc (b_ptr b) n)) by (split; [exact RN|]; exists b1; split; [exact B1'|reflexivity]).
  destruct (C26_always_defined _ _ _ _ _ _ _ P R OKR) as (h' & r & E & R'). pose proof (reach_S h0 h live1 _ h' r R1 OKR1 E) as R1'. cbn [mp_step] in E. exists h', r. split; [exact E|]. destruct r as [q|].
  - assert (NP : 1 <= n). { cbn [mplite_realloc] in E. destruct ((n <=? 0) || negb (Z.land n (n - 1) =? 0)) eqn:Q; [discriminate|]. lia. }
    set (nb := mk_b q (if n <=? b_size b then b_size b else fit (mp_sz h0) n) (resized (b_data b) n)).
    assert (INB : In nb (c_step (mp_sz h0) live (ORealloc (b_ptr b) n) (Some q))) by (cbn [c_step]; apply in_map_iff; exists b; rewrite Z.eqb_refl; split; [reflexivity|exact B]).
    exists nb. split; [exact INB|]. split; [exact R'|]. split; [reflexivity|].
    pose proof (proj1 (C26_blocks _ _ _ _ _ _ P R') nb INB) as (_ & _ & _ & _ & _ & BS).
    assert (ZN : zlen (b_data nb) = n) by (cbn [b_data nb]; unfold resized; rewrite zlen_app, zlen_ztake_le, zlen_repeat; lia). split; [lia|]. split; [exact ZN|].
    intros i RI. destruct (D1 i ltac:(lia)) as (v & V1 & V2). rewrite V2.
    apply (C28_content buf size min h0 h' _ (mk_b q (if n <=? b_size b1 then b_size b1 else fit (mp_sz h0) n) (resized (b_data b1) n)) i v P R1'); [|lia|].
    + cbn [c_step]. apply in_map_iff. exists b1. unfold b1 at 1. cbn [b_ptr]. rewrite Z.eqb_refl. split; [reflexivity|exact B1'].
    + cbn [b_data]. unfold resized. assert (LB1 : zlen (b_data b1) = zlen (b_data b)) by (unfold b1; cbn [b_data]; apply zlen_zwrite; lia).
      rewrite znth_app_l by (rewrite zlen_ztake_le; lia). rewrite znth_ztake by lia. exact V1.
  - cbn [c_step] in R', R1'. split; [exact R'|]. intros i RI. destruct (D1 i RI) as (v & V1 & V2). rewrite V2. apply (C28_content buf size min h0 h' live1 b1 i v P R1' B1'); [lia|exact V1].
Qed.
Print Assumptions C28_realloc.

(** C28: calloc: the returned block holds n zeros. *)
Theorem C28_calloc_zeros :
  forall (buf : list Z) (size min : Z) (h0 h h' : mp) (live : list blk) (n p : Z), pool buf size min h0 -> reach h0 h live -> - two31 <= n < two31 ->
  mplite_calloc h n = Ret (h', Some p) -> forall i, 0 <= i < n -> znth (p + i) (mp_mem h') = Some 0.
Proof.
  intros buf size min h0 h h' live n p P R RN E i RI. pose proof (reach_S h0 h live (OCalloc n) h' (Some p) R RN E) as R'.
  apply (C28_content buf size min h0 h' _ (mk_b p (fit (mp_sz h0) n) (repeat (Some 0) (Z.to_nat n))) i 0 P R'); [left; reflexivity|lia|].
  cbn [b_data]. unfold znth. destruct (i <? 0) eqn:Q; [lia|]. rewrite nth_error_repeat by lia. reflexivity.
Qed.
Print Assumptions C28_calloc_zeros.

(** C28: whether realloc in place applies is what mplite_resize says; a failing size (not a power of two) is refused
    without touching the pool. *)
Theorem C28_resize :
  forall (buf : list Z) (size min : Z) (h0 h : mp) (live : list blk) (b : blk) (n : Z), pool buf size min h0 -> reach h0 h live -> In b live ->
  exists r, mplite_resize h (Some (b_ptr b)) n = Ret r /\
  (r = true <-> 0 < n <= b_size b /\ Z.land n (n - 1) = 0) /\ (r = true -> mplite_realloc h (Some (b_ptr b)) n = Ret (h, Some (b_ptr b))).
Proof.
  intros buf size min h0 h live b n P R B. pose proof (pool_cinv _ _ _ _ P) as (_ & _ & k & CI & _). pose proof (reach_cinv k h0 h live CI R) as ((lf & fl & V) & N & Z).
  cbn [mplite_resize mplite_realloc]. destruct ((n <=? 0) || negb (Z.land n (n - 1) =? 0)) eqn:E; [exists false; split; [reflexivity|]; split; [split; [discriminate|lia]|discriminate]|].
  rewrite (size_ok _ _ _ _ _ b V B). cbn [bind]. eexists. split; [reflexivity|]. split; [split; intro H; lia|]. intros ->. reflexivity.
Qed.
Print Assumptions C28_resize.

(** a concrete pool: 100 bytes, minimum 5: 11 atoms of 8 bytes *)
Definition ex_buf := repeat 170 100.
Definition ex_pool : mp := match mplite_init (Some ex_buf) 100 5 with Ret (Some h) => h | _ => mk_mp 0 0 [] 0 0 0 0 0 0 0 0 [] [] end.
Example ex_pool_ok : pool ex_buf 100 5 ex_pool.
Proof. split; [reflexivity|]. split; [reflexivity|]. split; [lia|]. vm_compute. reflexivity. Qed.
Definition ex_run (ops : list mp_op) : outcome (mp * list blk) :=
  fold_left (fun s o => do (h, l) <- s; do (h', r) <- mp_step h o; Ret (h', c_step 8 l o r)) ops (Ret (ex_pool, [])).
Example ex_history : match ex_run [OMalloc 9; OCalloc 20; OWrite 0 1 [7; 8]; OMalloc 100; ORealloc 0 16; ORealloc 64 32; OFree 0] with
  | Ret (h, l) => mplite_freemem h = Ret 56 /\ mplite_maxmem h = Ret 32 /\ map b_ptr l = [32] | _ => False end.
Proof. vm_compute. split; [reflexivity|]. split; reflexivity. Qed.
Example ex_reach : exists h, reach ex_pool h [mk_b 0 32 (Some 0 :: Some 7 :: repeat (Some 0) 18); mk_b 64 16 (repeat None 9)].
Proof.
  eexists. change (mk_b 0 32 (Some 0 :: Some 7 :: repeat (Some 0) 18) :: [mk_b 64 16 (repeat None 9)]) with
    (c_step (mp_sz ex_pool) (c_step (mp_sz ex_pool) (c_step (mp_sz ex_pool) [] (OMalloc 9) (Some 64)) (OCalloc 20) (Some 0)) (OWrite 0 1 [7]) None).
  eapply reach_S; [eapply reach_S; [eapply reach_S; [apply reach_0|cbn; unfold two31; lia|vm_compute; reflexivity]|cbn; unfold two31; lia|vm_compute; reflexivity]| |vm_compute; reflexivity].
  eexists. split; [left; reflexivity|]. split; [reflexivity|]. split; [lia|]. vm_compute. discriminate.
Qed.

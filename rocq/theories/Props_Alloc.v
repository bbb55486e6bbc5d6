(** C39, C40: the tracked allocator of src/mem/allocation_tracker.c and src/mem/allocator.c *)
From Verif Require Import CBase CStr SeqLib AllocModel AllocSpec AllocProof.
From Coq Require Import Permutation.

(** ** C39 *)
(** the leak report: whatever the history, and in whatever order the map is walked, the number returned is the
    sum of the sizes of the live allocations (as a size_t) and each is reported once with its size, unless the
    guard bytes of one were overwritten, in which case the program stops *)
Theorem C39_leak_report s l ord : reach s l -> Permutation ord (amap s) ->
  ((forall p n, In (p, n) l -> intact s p n) /\
     exists reports, expect_no_allocations s ord = Ret (total l mod two64, reports) /\ Permutation reports l) \/
  ((exists p n, In (p, n) l /\ ~ intact s p n) /\ expect_no_allocations s ord = Abrt).
Proof.
  intros R P. pose proof (inv_reach _ _ R) as I. unfold expect_no_allocations. rewrite (v_on _ _ I). cbn [negb].
  rewrite (v_map _ _ I) in P. apply Permutation_map_inv in P. destruct P as (ol & -> & P).
  destruct (expect_loop_ok s ol 0 []) as [[A (t & E & T)]|[(p & n & Hi & N) E]].
  - intros p n Hi. destruct (v_blk _ _ I p n) as (_ & H2 & H3); [eapply Permutation_in; [apply Permutation_sym; exact P|exact Hi]|].
    split; [lia|exact H3].
  - left. split; [intros p n Hi; apply A; eapply Permutation_in; [exact P|exact Hi]|].
    exists (rev ol). rewrite E, app_nil_r. rewrite T by (unfold two64; lia). split.
    + f_equal. f_equal. unfold u64. f_equal. rewrite Z.add_0_l. clear - P.
      induction P as [|[a x] l1 l2 P IH|[a x] [b y] l1|l1 l2 l3 P1 IH1 P2 IH2]; cbn [total]; lia.
    + etransitivity; [apply Permutation_sym, Permutation_rev|]. apply Permutation_sym. exact P.
  - right. split; [|exact E]. exists p, n. split; [eapply Permutation_in; [apply Permutation_sym; exact P|exact Hi]|exact N].
Qed.
(** free: a pointer that is not live (never allocated, or already freed) stops the program, and so does one
    whose guards were overwritten; otherwise its block is released, it is no longer live, and nothing else
    changes *)
Theorem C39_free s l p : reach s l -> p <> 0 ->
  (~ is_live l p -> lcu_free s p = Abrt) /\
  (forall n, In (p, n) l -> ~ intact s p n -> lcu_free s p = Abrt) /\
  (forall n, In (p, n) l -> intact s p n ->
     exists s', lcu_free s p = Ret s' /\ reach s' (drop_live l p) /\ ~ is_live (drop_live l p) p /\ hp s' (p - 8) = None /\
       (forall x, x <> p - 8 -> hp s' x = hp s x) /\ lcu_free s' p = Abrt).
Proof.
  intros R Np. pose proof (inv_reach _ _ R) as I.
  assert (U : forall n m, In (p, n) l -> In (p, m) l -> n = m).
  { intros n m H1 H2. pose proof (In_size_of _ _ _ (v_nodup _ _ I) H1). pose proof (In_size_of _ _ _ (v_nodup _ _ I) H2). congruence. }
  destruct (free_ok s l p I Np) as [[N E]|(m & Im & [[T (s' & E & I' & H' & F')]|[T E]])].
  - split; [auto|]. split; intros n Hi; exfalso; apply N; exists n; exact Hi.
  - split; [intro N; exfalso; apply N; exists m; exact Im|]. split; [intros n Hi T2; rewrite (U _ _ Hi Im) in T2; contradiction|].
    intros n Hi _. exists s'. split; [exact E|].
    assert (Nd : ~ is_live (drop_live l p) p) by (intros [k Hk]; apply In_drop in Hk; destruct Hk; congruence).
    split; [|split; [exact Nd|split; [exact H'|split; [exact F'|]]]].
    + eapply (reach1 s l (fun _ => None) (OFree p) 0 s'); [exact R|intros x a b Q; discriminate|exact Logic.I|].
      cbn [run_op]. rewrite E. reflexivity.
    + destruct (free_ok s' _ p I' Np) as [[_ E2]|(k & Ik & _)]; [exact E2|]. exfalso. apply Nd. exists k. exact Ik.
  - split; [intro N; exfalso; apply N; exists m; exact Im|]. split; [auto|].
    intros n Hi T2. rewrite (U _ _ Hi Im) in T2. contradiction.
Qed.
(** releasing through another allocator than the one that allocated it stops the program *)
Theorem C39_wrong_allocator s l id p : reach s l -> p <> 0 -> id <> ALLOCTOR_ID -> notify_free s id p = Abrt.
Proof.
  intros R Np Ni. pose proof (inv_reach _ _ R) as I. unfold notify_free. rewrite (v_on _ _ I), (v_map _ _ I), mget_entry.
  destruct (Z.eqb_spec p 0); [contradiction|]. cbn [negb orb]. destruct (size_of l p); [|reflexivity].
  cbn [a_freed a_id]. destruct (Z.eqb_spec ALLOCTOR_ID id); [congruence|reflexivity].
Qed.
(** allocating: NULL exactly when malloc gives nothing, and then nothing changes; otherwise a pointer that was
    not live before, to as many bytes as asked for, with the promised content, disturbing no other block *)
Definition fresh_block (s s' : st) (l : live) (r n : Z) : Prop :=
  r <> 0 /\ ~ is_live l r /\ intact s' r n /\ (forall x, x <> r - 8 -> hp s' x = hp s x) /\ hp s (r - 8) = None /\ reach s' ((r, n) :: l).
Lemma fresh s s' l a n lc o : reach s l -> libc_ok lc s -> op_ok l o -> run_op lc all_good s o = Ret (a + 8, s') ->
  live_after l o (a + 8) = (a + 8, n) :: l -> 0 < a -> ~ is_live l (a + 8) -> intact s' (a + 8) n ->
  (forall x, x <> a -> hp s' x = hp s x) -> hp s a = None -> fresh_block s s' l (a + 8) n.
Proof.
  intros R Hlc Ho E La Ha NL T F Hf. split; [lia|]. split; [exact NL|]. split; [exact T|].
  replace (a + 8 - 8) with a by lia. split; [exact F|]. split; [exact Hf|].
  rewrite <- La. eapply reach1; eassumption.
Qed.
Theorem C39_malloc lc s l n : reach s l -> libc_ok lc s -> 0 <= n < two64 - 16 ->
  (lc (n + 16) = None /\ lcu_malloc lc all_good s n = Ret (0, s)) \/
  (exists r s', lcu_malloc lc all_good s n = Ret (r, s') /\ fresh_block s s' l r n).
Proof.
  intros R Hlc Hn. destruct (malloc_ok lc s l n (inv_reach _ _ R) Hlc Hn) as [[E Q]|(a & b & s1 & El & E & I1 & T & F & NL & Ha)]; [left; auto|].
  right. exists (a + 8), s1. split; [exact E|].
  eapply (fresh s s1 l a n lc (OMalloc n)); try assumption.
  - cbn [live_after]. unfold add_live. destruct (Z.eqb_spec (a + 8) 0); [lia|reflexivity].
  - destruct (Hlc _ _ _ El) as (_ & H & _). exact H.
Qed.
Theorem C39_calloc lc s l c n : reach s l -> libc_ok lc s -> 0 <= c -> 0 <= n -> c * n < two64 - 16 ->
  (lc (c * n + 16) = None /\ lcu_calloc lc all_good s c n = Ret (0, s)) \/
  (exists r s', lcu_calloc lc all_good s c n = Ret (r, s') /\ fresh_block s s' l r (c * n) /\
     content s' r (c * n) = Some (repeat 0 (Z.to_nat (c * n)))).
Proof.
  intros R Hlc Hc Hn Hs. pose proof (inv_reach _ _ R) as I.
  destruct (calloc_ok' lc s l c n I Hlc Hc Hn Hs) as [[E Q]|(a & s1 & E & I1 & T & C & F & NL & Ha)]; [left; auto|].
  right. exists (a + 8), s1. split; [exact E|]. split; [|exact C].
  eapply (fresh s s1 l a (c * n) lc (OCalloc c n)); try assumption.
  - cbn [op_ok]. auto.
  - cbn [live_after]. unfold add_live. destruct (Z.eqb_spec (a + 8) 0); [lia|reflexivity].
  - revert E. unfold lcu_calloc. assert (0 <= c * n) by (apply Z.mul_nonneg_nonneg; lia).
    assert (u64 (c * n) = c * n) as -> by (unfold u64; apply Z.mod_small; unfold two64 in *; lia).
    rewrite (resize_on s (c * n) (v_on _ _ I)) by lia. unfold c_calloc.
    destruct (lc (c * n + 16)) as [[a0 b]|] eqn:E0; [|cbn; intro Q; injection Q; lia].
    destruct (Hlc _ _ _ E0) as (Ha0 & Hf & _). destruct (Z.eqb_spec a0 0); [lia|].
    intro E. assert (Lz : zlen (repeat 0 (Z.to_nat (c * n + 16))) = c * n + 16) by (unfold zlen; rewrite repeat_length; lia).
    destruct (alloc_ok lc s l (c * n) a0 b _ I Hlc ltac:(lia) E0 Lz) as (u & s2 & R2 & _).
    rewrite R2 in E. injection E as E _. assert (a0 = a) by lia. subst a0. exact Hf.
Qed.
Theorem C39_strdup lc s l str : reach s l -> libc_ok lc s -> zlen str < two64 - 17 ->
  (lc (zlen str + 17) = None /\ lcu_strdup lc all_good s str = Ret (0, s)) \/
  (exists r s', lcu_strdup lc all_good s str = Ret (r, s') /\ r <> 0 /\ ~ is_live l r /\ intact s' r (zlen str + 1) /\
     (forall x, x <> r - 8 -> hp s' x = hp s x) /\ reach s' ((r, zlen str + 1) :: l) /\
     content s' r (zlen str + 1) = Some (str ++ [0])).
Proof.
  intros R Hlc Hs. destruct (strdup_ok lc s l str (inv_reach _ _ R) Hlc Hs) as [[E Q]|(a & s1 & E & I1 & T & C & F & NL & Ha)]; [left; auto|].
  right. exists (a + 8), s1. split; [exact E|]. split; [lia|]. split; [exact NL|]. split; [exact T|].
  split; [intros x Nx; apply F; lia|]. split; [|exact C].
  replace ((a + 8, zlen str + 1) :: l) with (live_after l (OStrdup str) (a + 8)).
  - eapply reach1; eassumption.
  - cbn [live_after]. unfold add_live. destruct (Z.eqb_spec (a + 8) 0); [lia|reflexivity].
Qed.
Theorem C39_strndup lc s l str len : reach s l -> libc_ok lc s -> 0 <= len -> zlen str < two64 - 17 ->
  (lc (Z.min len (zlen str) + 17) = None /\ lcu_strndup lc all_good s str len = Ret (0, s)) \/
  (exists r s', lcu_strndup lc all_good s str len = Ret (r, s') /\ r <> 0 /\ ~ is_live l r /\ intact s' r (Z.min len (zlen str) + 1) /\
     (forall x, x <> r - 8 -> hp s' x = hp s x) /\ reach s' ((r, Z.min len (zlen str) + 1) :: l) /\
     content s' r (Z.min len (zlen str) + 1) = Some (ztake len str ++ [0])).
Proof.
  intros R Hlc Hl Hs. destruct (strndup_ok lc s l str len (inv_reach _ _ R) Hlc Hl Hs) as [[E Q]|(a & s1 & E & I1 & T & C & F & NL & Ha)]; [left; auto|].
  right. exists (a + 8), s1. split; [exact E|]. split; [lia|]. split; [exact NL|]. split; [exact T|].
  split; [intros x Nx; apply F; lia|]. split.
  - replace ((a + 8, Z.min len (zlen str) + 1) :: l) with (live_after l (OStrndup str len) (a + 8)).
    + eapply reach1; try eassumption. cbn [op_ok]. auto.
    + cbn [live_after]. unfold add_live. destruct (Z.eqb_spec (a + 8) 0); [lia|reflexivity].
  - rewrite C. f_equal. f_equal. destruct (Z.min_spec len (zlen str)) as [[? ->]|[? ->]]; [reflexivity|]. rewrite !ztake_all by lia. reflexivity.
Qed.
(** a program that stays inside the sizes it asked for never damages a guard *)
Theorem C39_writes_inside_are_safe s l p n off bytes : reach s l -> In (p, n) l -> 0 <= off -> off + zlen bytes <= n -> intact s p n ->
  exists s', user_write s p off bytes = Ret s' /\ intact s' p n /\ (forall x, x <> p - 8 -> hp s' x = hp s x) /\
    (forall c, content s p n = Some c -> content s' p n = Some (zwrite off bytes c)).
Proof.
  intros R Hi Ho Hb T. destruct (user_write_ok s l p n off bytes (inv_reach _ _ R) Hi Ho Hb T) as (s' & E & _ & T' & F & _ & C).
  exists s'. auto.
Qed.
(** no history of such calls has undefined behaviour: each call either returns or stops the program *)
Theorem C39_no_undefined_behaviour lc s l o : reach s l -> libc_ok lc s -> op_ok l o ->
  run_op lc all_good s o = Abrt \/ exists r s', run_op lc all_good s o = Ret (r, s').
Proof.
  intros R Hlc Ho. destruct (step_cases lc s l o (inv_reach _ _ R) Hlc Ho) as [E|(r & s' & E & _)]; [left; exact E|right; exists r, s'; exact E].
Qed.

(** What fails. (a) when the map cannot store the new entry the failure is ignored: the block is handed out,
    not counted as a leak, and freeing it stops the program. *)
Definition s0 : st := tracker_init {| on := false; amap := []; hp := fun _ => None |}.
Definition lc0 : libc := fun n => Some (64, repeat 7 (Z.to_nat n)).
Theorem C39_map_failure_ignored_refuted :
  exists s', lcu_malloc lc0 {| calloc_ok := true; put_ok := false |} s0 4 = Ret (72, s') /\
    expect_no_allocations s' (amap s') = Ret (0, []) /\ lcu_free s' 72 = Abrt.
Proof.
  remember (lcu_malloc lc0 {| calloc_ok := true; put_ok := false |} s0 4) as x eqn:E. vm_compute in E.
  subst x. eexists. split; [reflexivity|]. split; vm_compute; reflexivity.
Qed.
(** (b) a request within 16 bytes of SIZE_MAX wraps: a small block is obtained and written far outside *)
Theorem C39_size_wrap_refuted n : two64 - 16 <= n < two64 -> lcu_malloc lc0 all_good s0 n = Ub.
Proof.
  intro H. unfold lcu_malloc, resize_for_canary. change (on s0) with true. cbv iota. unfold c_malloc, lc0.
  set (m := u64 (n + 2 * canary_size)).
  assert (Hm : 0 <= m < 16).
  { unfold m, u64, canary_size. replace (n + 2 * 8) with (n + 16 - two64 + 1 * two64) by lia. rewrite Z.mod_add by (unfold two64; lia).
    rewrite Z.mod_small; unfold two64 in *; lia. }
  clearbody m. change (64 =? 0) with false. cbv iota. unfold notify_alloc. cbn [on amap hp].
  change (on s0) with true. change (amap s0) with (@nil (Z * alloc)). change (64 =? 0) with false. cbn [negb orb mget all_good calloc_ok put_ok bind].
  unfold hset at 1. change (64 =? 64) with true. cbv iota. cbn [bind].
  assert (L : zlen (repeat 7 (Z.to_nat m)) = m) by (unfold zlen; rewrite repeat_length; lia).
  unfold mwrite at 1. destruct (_ && _) eqn:E; [|reflexivity]. cbn [bind].
  unfold mwrite. rewrite zlen_zwrite.
  - change (zlen canary) with 8. unfold canary_size. rewrite L.
    destruct (Z.leb_spec (8 + n + 8) m); [unfold two64 in *; lia|]. rewrite andb_false_r. reflexivity.
  - lia.
  - apply andb_prop in E. destruct E as [_ E]. apply Z.leb_le in E. lia.
Qed.
(** (c) the element count times the element size wraps: success is reported for 2^64 elements with room for none *)
Theorem C39_calloc_wrap_refuted :
  exists s', lcu_calloc lc0 all_good s0 two32 two32 = Ret (72, s') /\ intact s' 72 0.
Proof.
  remember (lcu_calloc lc0 all_good s0 two32 two32) as x eqn:E. vm_compute in E. subst x. eexists. split; [reflexivity|].
  exists []. split; [vm_compute; reflexivity|reflexivity].
Qed.
(** (d) a block allocated while the tracker is on and released after allocation_tracker_uninit is passed to
    free() at an address malloc never returned; one allocated before allocation_tracker_init stops the program *)
Theorem C39_across_init_refuted :
  (exists s', lcu_malloc lc0 all_good s0 4 = Ret (72, s') /\ lcu_free (tracker_uninit s') 72 = Ub) /\
  (exists s', lcu_malloc lc0 all_good {| on := false; amap := []; hp := fun _ => None |} 4 = Ret (64, s') /\ lcu_free (tracker_init s') 64 = Abrt).
Proof.
  split.
  - remember (lcu_malloc lc0 all_good s0 4) as x eqn:E. vm_compute in E. subst x. eexists. split; [reflexivity|vm_compute; reflexivity].
  - remember (lcu_malloc lc0 all_good {| on := false; amap := []; hp := fun _ => None |} 4) as x eqn:E. vm_compute in E. subst x.
    eexists. split; [reflexivity|vm_compute; reflexivity].
Qed.

(** ** C40 *)
(** with the tracker on: for every live block of [cur] bytes and every size that does not wrap, lcu_realloc
    - returns the same pointer and changes nothing when the block is large enough already;
    - returns NULL and changes nothing (the old block stays live) when memory cannot be obtained;
    - otherwise returns a new block of at least [n] bytes beginning with all [cur] old bytes, releases the old
      block once, and touches no other block.
    With the tracker off it is false (below). *)
Theorem C40_realloc lc s l p cur n : reach s l -> libc_ok lc s -> In (p, cur) l -> intact s p cur -> 0 < n < two64 - 2064 ->
  (n <= cur /\ lcu_realloc lc all_good s p n = Ret (p, s)) \/
  (cur < n /\ lc (n + 2064) = None /\ lcu_realloc lc all_good s p n = Ret (0, s)) \/
  (cur < n /\ exists r s' c c', lcu_realloc lc all_good s p n = Ret (r, s') /\ r <> 0 /\ ~ is_live l r /\
     reach s' ((r, n + 2048) :: drop_live l p) /\ intact s' r (n + 2048) /\
     content s p cur = Some c /\ zlen c = cur /\ content s' r (n + 2048) = Some c' /\ ztake cur c' = c /\
     hp s' (p - 8) = None /\ (forall x, x <> r - 8 -> x <> p - 8 -> hp s' x = hp s x)).
Proof.
  intros R Hlc Hi T Hn. pose proof (inv_reach _ _ R) as I. destruct (v_blk _ _ I _ _ Hi) as (B1 & B2 & _).
  destruct (realloc_ok lc s l p n I Hlc Hn ltac:(lia)) as [[N _]|(k & Hk & D)]; [exfalso; apply N; exists cur; exact Hi|].
  assert (k = cur) as ->.
  { pose proof (In_size_of _ _ _ (v_nodup _ _ I) Hi). pose proof (In_size_of _ _ _ (v_nodup _ _ I) Hk). congruence. }
  destruct D as [(H1 & H2 & E)|[(H1 & H2 & E)|[(H1 & H2 & E)|(H1 & H2 & a & s' & c & c' & E & I' & T' & C & C' & Tk & Hn' & F & NL & Ha)]]].
  - left. auto.
  - right. left. split; [lia|]. auto.
  - contradiction.
  - right. right. split; [lia|]. exists (a + 8), s', c, c'. split; [exact E|]. split; [lia|]. split; [exact NL|].
    destruct (content_intact s p cur ltac:(lia) T) as (c2 & Ec2 & Lc2 & _). rewrite C in Ec2. injection Ec2 as <-.
    split.
    { replace ((a + 8, n + 2048) :: drop_live l p) with (live_after l (ORealloc p n) (a + 8)).
      - eapply reach1; try eassumption. cbn [op_ok]. lia.
      - cbn [live_after]. destruct (Z.eqb_spec n 0); [lia|]. destruct (Z.eqb_spec p 0); [lia|].
        destruct (Z.eqb_spec (a + 8) p) as [Q|]; [exfalso; apply NL; exists cur; rewrite Q; exact Hi|].
        destruct (Z.eqb_spec (a + 8) 0); [lia|]. reflexivity. }
    split; [exact T'|]. split; [exact C|]. split; [exact Lc2|]. split; [exact C'|]. split; [exact Tk|]. split; [exact Hn'|].
    intros x N1 N2. apply F; lia.
Qed.
(** the other arguments: NULL allocates, size 0 releases and returns NULL, a pointer that is not live stops *)
Theorem C40_realloc_other_arguments lc s l p n : reach s l -> libc_ok lc s -> 0 <= n < two64 - 2064 ->
  (p = 0 -> n = 0 -> lcu_realloc lc all_good s p n = Ret (0, s)) /\
  (p = 0 -> n <> 0 -> lcu_realloc lc all_good s p n = lcu_malloc lc all_good s (n + 2048)) /\
  (p <> 0 -> n = 0 -> lcu_realloc lc all_good s p n = (do s' <- lcu_free s p; Ret (0, s'))) /\
  (p <> 0 -> n <> 0 -> ~ is_live l p -> lcu_realloc lc all_good s p n = Abrt).
Proof.
  intros R Hlc Hn. split; [|split; [|split]].
  - intros -> ->. reflexivity.
  - intros -> N. unfold lcu_realloc. destruct (Z.eqb_spec n 0); [contradiction|]. change (0 =? 0) with true. cbv iota.
    f_equal. unfold u64. apply Z.mod_small. unfold two64 in *. lia.
  - intros N ->. unfold lcu_realloc. change (0 =? 0) with true. cbv iota. destruct (Z.eqb_spec p 0); [contradiction|reflexivity].
  - intros Np Nn NL. destruct (realloc_ok lc s l p n (inv_reach _ _ R) Hlc ltac:(lia) Np) as [[_ E]|(k & Hk & _)]; [exact E|].
    exfalso. apply NL. exists k. exact Hk.
Qed.
(** tracker off: the size of the old block is not known, nothing is copied, and the old block is released:
    the content is lost for every block and size *)
Theorem C40_tracker_off_loses_content_refuted lc mt h p blk n a b : let s := {| on := false; amap := []; hp := h |} in
  p <> 0 -> h p = Some blk -> 0 < n < two64 - 2048 -> lc (n + 2048) = Some (a, b) -> a <> 0 -> a <> p ->
  exists s', lcu_realloc lc mt s p n = Ret (a, s') /\ hp s' a = Some b /\ hp s' p = None.
Proof.
  intros s Np Hp Hn El Na Nap. unfold lcu_realloc. destruct (Z.eqb_spec n 0); [lia|]. destruct (Z.eqb_spec p 0); [contradiction|].
  unfold ptr_size, s. cbn [on negb orb bind]. change (0 =? 0) with true. cbn [negb andb].
  assert (u64 (n + 2048) = n + 2048) as -> by (unfold u64; apply Z.mod_small; lia).
  unfold lcu_malloc, resize_for_canary, c_malloc. cbn [on]. rewrite El. destruct (Z.eqb_spec a 0); [contradiction|].
  unfold notify_alloc. cbn [on negb orb bind]. destruct (Z.eqb_spec a 0); [contradiction|].
  unfold user_read, user_base, user_off. cbn [on hp]. unfold hset at 1. destruct (Z.eqb_spec p a); [congruence|]. rewrite Hp.
  rewrite mread_ok by (pose proof (zlen_nonneg blk); lia). cbn [bind].
  unfold user_write, user_base, user_off. cbn [on hp]. unfold hset at 1. rewrite Z.eqb_refl.
  change (zsub 0 0 blk) with (@nil Z). rewrite mwrite_ok by (change (zlen (@nil Z)) with 0; pose proof (zlen_nonneg b); lia). cbn [bind].
  assert (Wz : zwrite (0 + 0) [] b = b).
  { unfold zwrite. change (0 + 0) with 0. change (zlen (@nil Z)) with 0. rewrite ztake_neg by lia. rewrite zdrop_neg by lia. reflexivity. }
  rewrite Wz.
  unfold lcu_free. destruct (Z.eqb_spec p 0); [contradiction|]. unfold notify_free. cbn [on negb orb bind].
  destruct (Z.eqb_spec p 0); [contradiction|]. unfold c_free. cbn [hp]. unfold hset at 1.
  destruct (Z.eqb_spec p a); [congruence|]. unfold hset at 1. destruct (Z.eqb_spec p a); [congruence|]. rewrite Hp. cbn [bind].
  eexists. split; [reflexivity|]. cbn [hp]. split.
  - unfold hset. destruct (Z.eqb_spec a p); [congruence|]. rewrite Z.eqb_refl. reflexivity.
  - unfold hset. rewrite Z.eqb_refl. reflexivity.
Qed.
(** sizes within 2048 of SIZE_MAX wrap: "success" with a block smaller than asked for *)
Theorem C40_size_wrap_refuted :
  exists s', lcu_realloc lc0 all_good s0 0 (two64 - 2048) = Ret (72, s') /\ intact s' 72 0.
Proof.
  remember (lcu_realloc lc0 all_good s0 0 (two64 - 2048)) as x eqn:E. vm_compute in E. subst x. eexists. split; [reflexivity|].
  exists []. split; [vm_compute; reflexivity|reflexivity].
Qed.

(** a concrete history: malloc 4, write it full, calloc 2x3, realloc the first to 6 and free the second *)
Definition lcn (a : Z) : libc := fun n => if n <? 0 then None else Some (a, repeat 7 (Z.to_nat n)).
Example C39_example :
  match lcu_malloc (lcn 64) all_good s0 4 with
  | Ret (p, s1) => p = 72 /\
    match user_write s1 p 0 [1;2;3;4] with
    | Ret s2 =>
      match lcu_calloc (lcn 128) all_good s2 2 3 with
      | Ret (q, s3) => q = 136 /\ expect_no_allocations s3 (amap s3) = Ret (10, [(72, 4); (136, 6)]) /\
        match lcu_free s3 q with
        | Ret s4 => lcu_free s4 q = Abrt /\ expect_no_allocations s4 (amap s4) = Ret (4, [(72, 4)]) /\
          match user_write s4 p 4 [9] with
          | Ret s5 => lcu_free s5 p = Abrt
          | _ => False
          end /\
          match lcu_realloc (lcn 4096) all_good s4 p 6 with
          | Ret (r, s6) => r = 4104 /\ user_read s6 r 4 = Ret [1;2;3;4] /\ expect_no_allocations s6 (amap s6) = Ret (2054, [(4104, 2054)])
          | _ => False
          end
        | _ => False
        end
      | _ => False
      end
    | _ => False
    end
  | _ => False
  end.
Proof. vm_compute. repeat split. Qed.
Example C39_hypotheses_met : reach s0 [] /\ libc_ok (lcn 64) s0 /\ op_ok [] (OMalloc 4).
Proof.
  split; [apply (reach0 (fun _ => None))|]. split; [|cbn; unfold two64; lia].
  intros n a b E. unfold lcn in E. destruct (Z.ltb_spec n 0); [discriminate|]. injection E as <- <-. split; [lia|]. split; [reflexivity|].
  unfold zlen. rewrite repeat_length. lia.
Qed.

Print Assumptions C39_leak_report.
Print Assumptions C39_free.
Print Assumptions C39_wrong_allocator.
Print Assumptions C39_malloc.
Print Assumptions C39_calloc.
Print Assumptions C39_strdup.
Print Assumptions C39_strndup.
Print Assumptions C39_writes_inside_are_safe.
Print Assumptions C39_no_undefined_behaviour.
Print Assumptions C40_realloc.
Print Assumptions C40_realloc_other_arguments.
Print Assumptions C40_tracker_off_loses_content_refuted.

Print Assumptions C39_map_failure_ignored_refuted.
Print Assumptions C39_size_wrap_refuted.
Print Assumptions C39_calloc_wrap_refuted.
Print Assumptions C39_across_init_refuted.
Print Assumptions C40_size_wrap_refuted.

From Verif Require Import CBase CircLib RingBufModel RingBufSpec.

Section Proof.
Context {A : Type}.
Implicit Types (h : ring A) (q : list A).

Definition inv h : Prop :=
  3 <= rg_size h < 9223372036854775808 /\ zlen (rg_mem h) = rg_size h /\
  0 <= rg_r h < rg_size h /\ 0 <= rg_w h < rg_size h.
Definition len_of h : Z := (rg_w h - rg_r h) mod rg_size h.
Definition abs h : list A := circ (rg_mem h) (rg_r h) (len_of h).

Lemma u64_small x : 0 <= x < two64 -> u64 x = x.
Proof. intro H; unfold u64; apply Z.mod_small; exact H. Qed.

Lemma len_of_cases h : inv h ->
  len_of h = if rg_r h <=? rg_w h then rg_w h - rg_r h else rg_w h - rg_r h + rg_size h.
Proof.
  intros (Hs & Hm & Hr & Hw). unfold len_of. destruct (rg_r h <=? rg_w h) eqn:E.
  - apply Z.mod_small; lia.
  - symmetry; apply Z.mod_unique with (-1); lia.
Qed.
Lemma len_of_bound h : inv h -> 0 <= len_of h < rg_size h.
Proof. intro H; rewrite len_of_cases by exact H. destruct H as (Hs & Hm & Hr & Hw).
  destruct (rg_r h <=? rg_w h) eqn:E; lia. Qed.
Lemma zlen_abs h : inv h -> zlen (abs h) = len_of h.
Proof. intro H; pose proof (len_of_bound h H). destruct H as (Hs & Hm & Hr & Hw).
  unfold abs; apply zlen_circ; lia. Qed.

Lemma avail_read_len h : inv h -> avail_read h = len_of h.
Proof.
  intro H; pose proof (len_of_cases h H) as C. destruct H as (Hs & Hm & Hr & Hw).
  unfold avail_read. rewrite u64_small by (unfold two64; lia).
  rewrite C, mod_step by lia.
  destruct (rg_r h <=? rg_w h) eqn:E, (rg_size h + rg_w h - rg_r h <? rg_size h) eqn:E2; lia.
Qed.
Lemma avail_write_len h : inv h -> avail_write h = rg_size h - 1 - len_of h.
Proof.
  intro H; pose proof (len_of_cases h H) as C. destruct H as (Hs & Hm & Hr & Hw).
  unfold avail_write. rewrite u64_small by (unfold two64; lia).
  rewrite C, mod_step by lia.
  destruct (rg_r h <=? rg_w h) eqn:E, (rg_size h + rg_r h - rg_w h - 1 <? rg_size h) eqn:E2; lia.
Qed.

Definition adv h (r : Z) : ring A := mk_ring (rg_own h) (rg_mem h) (rg_size h) r (rg_w h).

Lemma adv_inv_abs h len : inv h -> 0 <= len <= len_of h ->
  let r := (rg_r h + len) mod rg_size h in
  inv (adv h r) /\ abs (adv h r) = zdrop len (abs h) /\ rg_size (adv h r) = rg_size h.
Proof.
  intros H Hl r. pose proof (len_of_bound h H) as B. pose proof H as (Hs & Hm & Hr & Hw).
  assert (0 <= r < rg_size h) as Hr' by (apply Z.mod_pos_bound; lia).
  split; [|split; [|reflexivity]].
  - unfold inv, adv; cbn. lia.
  - unfold abs. rewrite zdrop_circ by lia. cbn [adv rg_mem rg_r]. rewrite Hm. fold r. f_equal.
    unfold len_of, adv; cbn [rg_w rg_r rg_size].
    unfold r. rewrite Zminus_mod_idemp_r.
    replace (rg_w h - (rg_r h + len)) with ((rg_w h - rg_r h) - len) by lia.
    rewrite <- Zminus_mod_idemp_l. apply Z.mod_small. fold (len_of h). lia.
Qed.

Lemma overlay_two (t d1 d2 : list A) : zlen d1 + zlen d2 <= zlen t ->
  zwrite (zlen d1) d2 (zwrite 0 d1 t) = overlay (d1 ++ d2) t.
Proof.
  intro H. pose proof (zlen_nonneg d1). pose proof (zlen_nonneg d2).
  unfold overlay. unfold zwrite at 2. rewrite ztake_0. cbn [app]. rewrite Z.add_0_l.
  unfold zwrite. rewrite ztake_app_len. rewrite zdrop_app, (zdrop_all (zlen d1 + zlen d2) d1) by lia.
  cbn [app]. rewrite zdrop_zdrop by lia. rewrite zlen_app, app_assoc. f_equal. f_equal; lia.
Qed.
Lemma overlay_one (t d : list A) : zwrite 0 d t = overlay d t.
Proof. unfold overlay, zwrite. rewrite ztake_0, Z.add_0_l. reflexivity. Qed.

Lemma internal_read_ok h (is_peek : bool) target len :
  inv h -> 0 < len <= len_of h ->
  match target with None => True | Some b => len <= zlen b end ->
  internal_read h is_peek target len =
    Ret (if is_peek then h else adv h ((rg_r h + len) mod rg_size h),
         option_map (overlay (ztake len (abs h))) target, len).
Proof.
  intros H Hl Ht. pose proof (len_of_bound h H) as B. pose proof H as (Hs & Hm & Hr & Hw).
  unfold internal_read. rewrite avail_read_len by exact H.
  destruct ((len =? 0) || (len >? len_of h)) eqn:E; [lia|].
  rewrite (u64_small (rg_size h - rg_r h)) by (unfold two64; lia).
  assert (ztake len (abs h) = circ (rg_mem h) (rg_r h) len) as T.
  { unfold abs. apply ztake_circ. lia. }
  rewrite circ_two_parts in T by lia.
  set (first := if len >? rg_size h - rg_r h then rg_size h - rg_r h else len).
  assert (first = Z.min len (rg_size h - rg_r h)) as F.
  { unfold first; destruct (len >? rg_size h - rg_r h) eqn:E2; lia. }
  rewrite Hm, <- F in T. clearbody first.
  rewrite (u64_small (len - first)) by (unfold two64; lia).
  assert (zlen (zsub (rg_r h) first (rg_mem h)) = first) as L1 by (apply zlen_zsub; lia).
  assert (zlen (zsub 0 (len - first) (rg_mem h)) = len - first) as L2 by (apply zlen_zsub; lia).
  assert ((rg_r h + len) mod rg_size h =
          if rg_r h + len <? rg_size h then rg_r h + len else rg_r h + len - rg_size h) as M
      by (apply mod_step; lia).
  rewrite T. destruct target as [t|]; cbn [option_map bind].
  - rewrite mread_ok by lia. cbn [bind].
    rewrite mwrite_ok by (rewrite ?L1; lia). cbn [bind].
    destruct (len - first =? 0) eqn:E3; cbn [negb].
    + rewrite u64_small by (unfold two64; lia).
      assert (len - first = 0) as Z0 by lia. rewrite Z0, zsub_0, app_nil_r, overlay_one.
      f_equal. f_equal. f_equal.
      destruct is_peek; [reflexivity|]. unfold adv. f_equal. rewrite M.
      destruct (rg_r h + first =? rg_size h) eqn:E4, (rg_r h + len <? rg_size h) eqn:E5; lia.
    + rewrite mread_ok by lia. cbn [bind].
      rewrite mwrite_ok; rewrite ?zlen_zwrite; rewrite ?L1, ?L2; try lia.
      cbn [bind]. rewrite <- L1 at 2.
      rewrite overlay_two by (rewrite L1, L2; lia).
      f_equal. f_equal. f_equal. destruct is_peek; [reflexivity|]. unfold adv. f_equal. rewrite M.
      destruct (rg_r h + len <? rg_size h) eqn:E5; lia.
  - destruct (len - first =? 0) eqn:E3; cbn [negb].
    + rewrite u64_small by (unfold two64; lia). f_equal. f_equal. f_equal.
      destruct is_peek; [reflexivity|]. unfold adv. f_equal. rewrite M.
      destruct (rg_r h + first =? rg_size h) eqn:E4, (rg_r h + len <? rg_size h) eqn:E5; lia.
    + f_equal. f_equal. f_equal. destruct is_peek; [reflexivity|]. unfold adv. f_equal. rewrite M.
      destruct (rg_r h + len <? rg_size h) eqn:E5; lia.
Qed.

Lemma internal_read_no h (is_peek : bool) target len : inv h -> len = 0 \/ len > len_of h ->
  internal_read h is_peek target len = Ret (h, target, 0).
Proof.
  intros H Hl. unfold internal_read. rewrite avail_read_len by exact H.
  destruct ((len =? 0) || (len >? len_of h)) eqn:E; [reflexivity|lia].
Qed.

Lemma write_no h src len : inv h -> len = 0 \/ len > rg_size h - 1 - len_of h ->
  write h src len = Ret (h, 0).
Proof.
  intros H Hl. unfold write. rewrite avail_write_len by exact H.
  destruct ((len =? 0) || (len >? rg_size h - 1 - len_of h)) eqn:E; [reflexivity|lia].
Qed.

Lemma zwrite_zwrite_comm_nil (m : list A) p d : zlen d + p <= zlen m -> 0 <= p ->
  zwrite 0 [] (zwrite p d m) = zwrite p d m.
Proof. intros. pose proof (zlen_nonneg d). apply zwrite_nil. rewrite zlen_zwrite; lia. Qed.

Lemma write_ok h src len : inv h -> 0 < len <= rg_size h - 1 - len_of h -> len <= zlen src ->
  exists h', write h src len = Ret (h', len) /\ inv h' /\ abs h' = abs h ++ ztake len src
             /\ rg_size h' = rg_size h.
Proof.
  intros H Hl Hsrc. pose proof (len_of_bound h H) as B. pose proof H as (Hs & Hm & Hr & Hw).
  unfold write. rewrite avail_write_len by exact H.
  destruct ((len =? 0) || (len >? rg_size h - 1 - len_of h)) eqn:E; [lia|].
  rewrite (u64_small (rg_size h - rg_w h)) by (unfold two64; lia).
  set (first := if len >? rg_size h - rg_w h then rg_size h - rg_w h else len).
  assert (first = Z.min len (rg_size h - rg_w h)) as F.
  { unfold first; destruct (len >? rg_size h - rg_w h) eqn:E2; lia. }
  clearbody first.
  destruct (first =? 0) eqn:E0; [lia|]. cbn [negb].
  rewrite mread_ok by lia. cbn [bind].
  assert (zlen (zsub 0 first src) = first) as L1 by (apply zlen_zsub; lia).
  rewrite mwrite_ok by (rewrite ?L1; lia). cbn [bind].
  rewrite (u64_small (len - first)) by (unfold two64; lia).
  set (d := ztake len src). assert (zlen d = len) as Ld by (apply zlen_ztake; lia).
  assert (zsub 0 first src = ztake first d) as D1.
  { unfold d, zsub. rewrite zdrop_0, ztake_ztake. f_equal; lia. }
  assert ((rg_w h + len) mod rg_size h =
          if rg_w h + len <? rg_size h then rg_w h + len else rg_w h + len - rg_size h) as M
      by (apply mod_step; lia).
  set (h' := mk_ring (rg_own h) (cwrite (rg_mem h) (rg_w h) d) (rg_size h) (rg_r h) ((rg_w h + len) mod rg_size h)).
  assert (inv h') as I'.
  { unfold inv, h'; cbn. rewrite zlen_cwrite by lia.
    assert (0 <= (rg_w h + len) mod rg_size h < rg_size h) by (apply Z.mod_pos_bound; lia). lia. }
  assert (abs h' = abs h ++ d) as A'.
  { unfold abs, h'; cbn [rg_mem rg_r].
    assert (len_of (mk_ring (rg_own h) (cwrite (rg_mem h) (rg_w h) d) (rg_size h) (rg_r h)
                      ((rg_w h + len) mod rg_size h)) = len_of h + zlen d) as L.
    { unfold len_of at 1; cbn [rg_w rg_r rg_size]. rewrite Zminus_mod_idemp_l.
      replace (rg_w h + len - rg_r h) with ((rg_w h - rg_r h) + len) by lia.
      rewrite <- Zplus_mod_idemp_l. fold (len_of h). rewrite Ld. apply Z.mod_small; lia. }
    rewrite L. rewrite <- circ_cwrite by lia. f_equal. f_equal. rewrite Hm.
    unfold len_of. rewrite Zplus_mod_idemp_r. symmetry. replace (rg_r h + (rg_w h - rg_r h)) with (rg_w h) by lia.
    apply Z.mod_small; lia. }
  exists h'. split; [|split; [exact I'|split; [exact A'|reflexivity]]].
  assert (cwrite (rg_mem h) (rg_w h) d = zwrite 0 (zdrop first d) (zwrite (rg_w h) (ztake first d) (rg_mem h))) as CW.
  { unfold cwrite. rewrite Ld, Hm, <- F. reflexivity. }
  destruct (len - first =? 0) eqn:E3.
  - rewrite u64_small by (unfold two64; lia). unfold h'. rewrite CW, M, D1.
    rewrite (zdrop_all first d) by lia.
    rewrite zwrite_zwrite_comm_nil by (rewrite <- ?D1, ?L1; lia).
    f_equal. f_equal. f_equal.
    destruct (rg_w h + first =? rg_size h) eqn:E4, (rg_w h + len <? rg_size h) eqn:E5; lia.
  - assert (zsub first (len - first) src = zdrop first d) as D2.
    { unfold d, zsub. rewrite zdrop_ztake by lia. reflexivity. }
    rewrite mread_ok by lia. cbn [bind]. rewrite D1, D2.
    rewrite mwrite_ok; rewrite ?zlen_zwrite; rewrite <- ?D1, ?L1, ?zlen_zdrop; try lia.
    cbn [bind]. unfold h'. rewrite CW, M, D1. f_equal. f_equal. f_equal.
    destruct (rg_w h + len <? rg_size h) eqn:E5; lia.
Qed.

Lemma step_refines h o : inv h -> valid_op o ->
  exists h', step h o = Ret (h', snd (spec_step (rg_size h - 1) (abs h) o))
    /\ inv h' /\ abs h' = fst (spec_step (rg_size h - 1) (abs h) o) /\ rg_size h' = rg_size h.
Proof.
  intros H V. pose proof (len_of_bound h H) as B. pose proof (zlen_abs h H) as L.
  destruct o as [src len|t len|t len|len| | |]; cbn [step spec_step valid_op] in *.
  - rewrite L. destruct ((0 <? len) && (len <=? rg_size h - 1 - len_of h)) eqn:E.
    + destruct (write_ok h src len H ltac:(lia) ltac:(lia)) as (h' & W & I & Q & S).
      exists h'. rewrite W. cbn. auto.
    + rewrite write_no by (auto; lia). cbn. eauto.
  - rewrite L. unfold read. destruct ((0 <? len) && (len <=? len_of h)) eqn:E.
    + destruct (adv_inv_abs h len H ltac:(lia)) as (I & Q & S).
      rewrite internal_read_ok by (auto; try lia; destruct t; tauto). cbn. eauto.
    + rewrite internal_read_no by (auto; lia). cbn. eauto.
  - rewrite L. unfold peek. destruct ((0 <? len) && (len <=? len_of h)) eqn:E.
    + rewrite internal_read_ok by (auto; try lia; destruct t; tauto). cbn. eauto.
    + rewrite internal_read_no by (auto; lia). cbn. eauto.
  - rewrite L. unfold discard. destruct ((0 <? len) && (len <=? len_of h)) eqn:E.
    + destruct (adv_inv_abs h len H ltac:(lia)) as (I & Q & S).
      rewrite internal_read_ok by (auto; lia). cbn. eauto.
    + rewrite internal_read_no by (auto; lia). cbn. eauto.
  - exists (clear h). split; [reflexivity|]. destruct H as (Hs & Hm & Hr & Hw).
    split; [unfold inv, clear; cbn; lia|split; [|reflexivity]].
    cbn [fst]. unfold abs, len_of, clear; cbn. rewrite Z.mod_0_l by lia. reflexivity.
  - exists h. rewrite avail_read_len, L by exact H. cbn. auto.
  - exists h. rewrite avail_write_len, L by exact H. cbn. auto.
Qed.

Lemma run_refines ops : forall h, inv h -> Forall valid_op ops ->
  exists h', run h ops = Ret (h', snd (spec_run (rg_size h - 1) (abs h) ops))
    /\ inv h' /\ abs h' = fst (spec_run (rg_size h - 1) (abs h) ops) /\ rg_size h' = rg_size h.
Proof.
  induction ops as [|o ops IH]; intros h H V; cbn [run spec_run].
  - exists h. cbn. auto.
  - inversion V as [|? ? Vo Vs]; subst.
    destruct (step_refines h o H Vo) as (h1 & S1 & I1 & Q1 & Z1). rewrite S1. cbn [bind fst snd].
    destruct (IH h1 I1 Vs) as (h2 & S2 & I2 & Q2 & Z2). rewrite S2. cbn [bind fst snd].
    rewrite Z1, Q1 in *. exists h2. repeat split; auto; apply I2.
Qed.

Lemma create_with_mem_cases (m : list A) : zlen m < 9223372036854775808 ->
  create_with_mem (Some m) (zlen m) =
  if zlen m <? 43 then Ret None
  else Ret (Some (mk_ring false (zdrop 40 m) (zlen m - 40) 0 0)).
Proof.
  intro H. pose proof (zlen_nonneg m). unfold create_with_mem, ring_struct_size.
  rewrite (u64_small (40 + 3)) by (unfold two64; lia).
  destruct (zlen m <? 40 + 3) eqn:E; destruct (zlen m <? 43) eqn:E2; try lia; [reflexivity|].
  destruct (zlen m <? 40) eqn:E3; [lia|]. rewrite u64_small by (unfold two64; lia). reflexivity.
Qed.

Lemma create_inv (b : bool) (m : list A) : 43 <= zlen m < 9223372036854775808 ->
  inv (mk_ring b (zdrop 40 m) (zlen m - 40) 0 0) /\ abs (mk_ring b (zdrop 40 m) (zlen m - 40) 0 0) = [].
Proof.
  intro H. split.
  - unfold inv; cbn. rewrite zlen_zdrop; lia.
  - unfold abs, len_of; cbn. rewrite Z.mod_0_l by lia. reflexivity.
Qed.

Lemma ring_buf_fifo_lemma (m : list A) ops :
  43 <= zlen m < 9223372036854775808 -> Forall valid_op ops ->
  exists h, create_with_mem (Some m) (zlen m) = Ret (Some h) /\
  exists h', run h ops = Ret (h', snd (spec_run (zlen m - 40 - 1) [] ops)) /\
             zlen (rg_mem h') = zlen m - 40.
Proof.
  intros H V. exists (mk_ring false (zdrop 40 m) (zlen m - 40) 0 0).
  split. { rewrite create_with_mem_cases by lia. destruct (zlen m <? 43) eqn:E; [lia|reflexivity]. }
  destruct (create_inv false m H) as [I Q].
  destruct (run_refines ops _ I V) as (h' & R & I' & _ & S). exists h'.
  rewrite Q in R. cbn [rg_size] in R. split; [exact R|]. destruct I' as (_ & M & _). rewrite M, S. reflexivity.
Qed.

(** ring_buf_create: behaves as create_with_mem on a block of size+40 *)
Lemma ring_buf_create_lemma (malloc : Z -> option (list A)) size :
  (forall n b, malloc n = Some b -> zlen b = n) ->
  0 <= size < 9223372036854775808 - 40 ->
  (size < 3 -> create malloc size = Ret None) /\
  (3 <= size -> malloc (size + 40) = None -> create malloc size = Ret None) /\
  (3 <= size -> malloc (size + 40) <> None ->
     forall ops, Forall valid_op ops ->
     exists h h', create malloc size = Ret (Some h) /\ run h ops = Ret (h', snd (spec_run (size - 1) [] ops))).
Proof.
  intros HM Hs. unfold create, ring_struct_size. split; [|split].
  - intro H. destruct (size <? 3) eqn:E; [reflexivity|lia].
  - intros H N. destruct (size <? 3) eqn:E; [reflexivity|]. rewrite u64_small by (unfold two64; lia).
    rewrite N. reflexivity.
  - intros H N ops V. destruct (size <? 3) eqn:E; [lia|]. rewrite u64_small by (unfold two64; lia).
    destruct (malloc (size + 40)) as [b|] eqn:EM; [|congruence].
    pose proof (HM _ _ EM) as Lb. rewrite <- Lb, create_with_mem_cases by lia.
    destruct (zlen b <? 43) eqn:E2; [lia|]. cbn [bind rg_mem rg_size rg_r rg_w].
    destruct (create_inv true b ltac:(lia)) as [I Q].
    destruct (run_refines ops _ I V) as (h' & R & _). rewrite Q in R. cbn [rg_size] in R.
    eexists; exists h'. split; [reflexivity|]. replace (size - 1) with (zlen b - 40 - 1) by lia. exact R.
Qed.
End Proof.

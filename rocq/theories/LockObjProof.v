(** Proofs for C74, part 2: run alone, the step-by-step methods are the methods of the sequential models *)
From Verif Require Import CBase SeqLib RingBuffer2Model AutoCoverModel AutoCoverSpec AutoCoverProof2 HashmapModel HashmapSpec HashmapProof LockModel LockSpec LockProof LockObjModel.

Lemma run_get {S A} (f : S -> A) s : run (get f) s = Ret (s, f s). Proof. reflexivity. Qed.
Lemma run_done {S A} (a : A) (s : S) : run (Done a) s = Ret (s, a). Proof. reflexivity. Qed.

(** ** auto_cover_buf *)
Section Ac.
Context {A : Type}.
Lemma run_discard n (b : acb A) : run (discard n) b = do r <- rb_discard (ac_ring b) n; Ret (upd_ring b (fst (fst r)), tt).
Proof. unfold discard. rewrite run_act. reflexivity. Qed.
Lemma internal_read_run pos t req (b : acb A) : run (internal_read_code pos t req) b = do r <- ac_internal_read b pos t req; Ret (fst (fst r), (snd r, snd (fst r))).
Proof.
  unfold internal_read_code, ac_internal_read. rewrite !run_bind, run_get. cbn [bind]. rewrite !run_bind, run_get. cbn [bind]. rewrite !run_bind, run_get. cbn [bind]. rewrite !run_bind, run_get. cbn [bind].
  change (can_read (ac_size b) (rb_avail_read (ac_ring b)) (rb_read_position (ac_ring b)) (rb_write_position (ac_ring b)) pos) with (ac_can_read b pos). cbv zeta.
  destruct (negb (ac_can_read b pos <=? s32 (rb_avail_read (ac_ring b)))); [reflexivity|]. destruct t as [t|]; [|reflexivity]. destruct (ac_can_read b pos >=? s32 req); [|reflexivity].
  rewrite run_bind. destruct (negb (u32 (rb_avail_read (ac_ring b) - ac_can_read b pos) =? 0)).
  - rewrite run_discard. destruct (rb_discard _ _) as [[[h' t'] n']| | |]; [|reflexivity..]. cbn [bind fst snd]. rewrite run_bind, run_act. cbn [ac_ring upd_ring].
    destruct (rb_read h' (Some t) req) as [[[h2 t2] n2]| | |]; [|reflexivity..]. cbn [bind fst snd]. destruct (n2 =? req); reflexivity.
  - cbn [run bind]. rewrite run_bind, run_act. destruct (rb_read (ac_ring b) (Some t) req) as [[[h2 t2] n2]| | |]; [|reflexivity..]. cbn [bind fst snd]. destruct (n2 =? req); reflexivity.
Qed.
Lemma ac_code_run (o : acop A) b : run (ac_code o) b = ac_step b o.
Proof.
  destruct o as [src len|p t req|p]; cbn [ac_code ac_step].
  - unfold ac_write. rewrite run_bind, run_get. cbn [bind]. rewrite run_bind. destruct (len >? rb_avail_write (ac_ring b)).
    + rewrite run_discard. destruct (rb_discard _ _) as [[[h' t'] n']| | |]; [|reflexivity..]. cbn [bind fst snd]. rewrite run_bind, run_act. cbn [ac_ring upd_ring].
      destruct (rb_write h' (Some src) len) as [[h2 n2]| | |]; [|reflexivity..]. cbn [bind fst snd]. destruct (n2 =? len); reflexivity.
    + cbn [run bind]. rewrite run_bind, run_act. destruct (rb_write (ac_ring b) (Some src) len) as [[h2 n2]| | |]; [|reflexivity..]. cbn [bind fst snd]. destruct (n2 =? len); reflexivity.
  - unfold ac_read. rewrite run_bind, internal_read_run. destruct (ac_internal_read b (u32 p) (Some t) req) as [[[b' t'] n]| | |]; [|reflexivity..]. cbn [bind fst snd run]. destruct (n <? 0); [reflexivity|]. destruct (n <? s32 req); reflexivity.
  - unfold ac_available_read. rewrite run_bind, internal_read_run. unfold ac_internal_read. destruct (negb (ac_can_read b (u32 p) <=? s32 (rb_avail_read (ac_ring b)))); reflexivity.
Qed.
Lemma ac_srun ops : forall b : acb A, srun _ _ _ ac_code b ops = ac_run b ops.
Proof.
  induction ops as [|o ops IH]; intro b; cbn [srun ac_run]; [reflexivity|]. rewrite ac_code_run. destruct (ac_step b o) as [[b' r]| | |]; [|reflexivity..]. cbn [bind fst snd]. rewrite IH. destruct (ac_run b' ops) as [[b2 rs]| | |]; reflexivity.
Qed.
End Ac.

(** ** hashmap *)
Section Hm.
Variables (hf : Z -> Z) (eqf : Z -> Z -> bool) (kfree vfree : bool).
Notation code := (hm_code hf eqf kfree vfree).
Lemma run_load i m : run (load_chain i) m = do c <- mload (hm_buckets m) (i (zlen (hm_buckets m))); Ret (m, (i (zlen (hm_buckets m)), c)).
Proof. unfold load_chain. rewrite run_act. reflexivity. Qed.
Lemma run_store i c m : run (store_chain i c) m = do bs <- set_bucket (hm_buckets m) i c; Ret (mk_hm bs (hm_size m), tt).
Proof. unfold store_chain. rewrite run_act. reflexivity. Qed.
Lemma run_size d m : run (add_size d) m = Ret (mk_hm (hm_buckets m) (u64 (hm_size m + d)), tt).
Proof. unfold add_size. rewrite run_act. reflexivity. Qed.
Lemma run_drop c : forall m, 0 <= hm_size m < two64 -> run (drop_chain c) m = Ret (mk_hm (hm_buckets m) (u64 (hm_size m - zlen c)), tt).
Proof.
  induction c as [|e c IH]; intros [bs n] H; cbn [hm_size hm_buckets] in *.
  - cbn. rewrite Z.sub_0_r. unfold u64. rewrite Z.mod_small by exact H. reflexivity.
  - cbn [drop_chain]. rewrite run_bind, run_size. cbn [bind hm_size hm_buckets]. rewrite IH by (cbn; apply Z.mod_pos_bound; reflexivity). cbn [hm_size hm_buckets]. do 3 f_equal. unfold u64. rewrite zlen_cons, Zminus_mod_idemp_l. f_equal. lia.
Qed.
Lemma clear_from_run post : forall pre n, 0 <= n < two64 -> run (clear_from kfree vfree (length post) (zlen pre)) (mk_hm (pre ++ post) n) =
  Ret (mk_hm (pre ++ map (fun _ => []) post) (u64 (n - zlen (concat post))), flat_map (drop_entry kfree vfree) (concat post)).
Proof.
  induction post as [|c post IH]; intros pre n H; cbn [length clear_from].
  - cbn. rewrite Z.sub_0_r. unfold u64. rewrite Z.mod_small by exact H. reflexivity.
  - rewrite run_bind, run_load. cbn [hm_buckets]. unfold mload. rewrite znth_app_r by lia. replace (zlen pre - zlen pre) with 0 by lia. cbn [znth]. change (znth 0 (c :: post)) with (Some c). cbn [bind].
    rewrite run_bind, run_drop by exact H. cbn [bind]. rewrite run_bind, run_store. cbn [hm_buckets hm_size].
    assert (X : set_bucket (pre ++ c :: post) (zlen pre) [] = Ret ((pre ++ [[]]) ++ post)).
    { unfold set_bucket, mstore. rewrite mwrite_ok; [|apply zlen_nonneg|rewrite zlen_app, !zlen_cons; pose proof (zlen_nonneg post); change (zlen (@nil (list entry))) with 0; lia].
      f_equal. unfold zwrite. rewrite ztake_app_len. change (zlen [@nil entry]) with 1. rewrite <- app_assoc. f_equal. f_equal. rewrite zdrop_app, zdrop_all by lia. cbn [app]. replace (zlen pre + 1 - zlen pre) with 1 by lia. reflexivity. }
    rewrite X. cbn [bind]. rewrite run_bind. replace (zlen pre + 1) with (zlen (pre ++ [@nil entry])) by (rewrite zlen_app; reflexivity).
    rewrite IH by (apply Z.mod_pos_bound; reflexivity). cbn [bind run]. do 2 f_equal; [|cbn [concat]; rewrite flat_map_app; reflexivity]. f_equal; [rewrite <- app_assoc; reflexivity|].
    cbn [concat]. unfold u64. rewrite zlen_app, Zminus_mod_idemp_l. f_equal. lia.
Qed.
Lemma code_run c m : 0 <= hm_size m < two64 -> c_op c <> HSize ->
  run (code (HOp c)) m = do (m', v, ev) <- hm_step hf eqf kfree vfree false m c; Ret (m', mk_res v ev []).
Proof.
  intros SZ NS. cbn [hm_code]. unfold hm_step. destruct (c_op c) as [k v|k|k| |]; [| | | |congruence].
  - unfold put_code, hm_put. rewrite run_bind, run_load. cbn [bind]. destruct (mload _ _) as [ch| | |]; [|reflexivity..]. cbn [bind]. rewrite run_bind, run_store. destruct (set_bucket _ _ _) as [bs| | |]; [|reflexivity..]. cbn [bind].
    destruct (snd (chain_put eqf (c_ok c) k (hash_key hf k) v ch)).
    + rewrite run_bind, run_size. cbn [bind hm_buckets hm_size]. rewrite run_bind, run_act. destruct (hm_expand _ _) as [m'| | |]; reflexivity.
    + reflexivity.
    + cbn [run]. cbn. rewrite app_nil_r. reflexivity.
  - unfold get_code, hm_get. rewrite run_bind, run_load. destruct (mload _ _) as [ch| | |]; reflexivity.
  - unfold remove_code, hm_remove. rewrite run_bind, run_load. cbn [bind]. destruct (mload _ _) as [ch| | |]; [|reflexivity..]. cbn [bind]. rewrite run_bind, run_store. destruct (set_bucket _ _ _) as [bs| | |]; [|reflexivity..]. cbn [bind].
    destruct (snd (chain_remove eqf k (hash_key hf k) ch)) as [e|]; [|reflexivity]. rewrite run_bind, run_size. cbn [bind hm_buckets hm_size run]. change (hm_size m + -1) with (hm_size m - 1). cbn. rewrite app_nil_r. reflexivity.
  - unfold clear_code. rewrite run_bind, run_get. cbn [bind]. rewrite run_bind. destruct m as [bs n]. cbn [hm_buckets hm_size] in *. pose proof (clear_from_run bs [] n SZ) as X. cbn [app] in X. change (zlen (@nil (list entry))) with 0 in X. rewrite X. cbn [bind run].
    unfold hm_clear, hm_clear_unsafe. cbn. rewrite app_nil_r. reflexivity.
Qed.
Lemma visit_run cb c : forall m, run (visit_chain cb (fun _ _ => false) c) m = Ret (m, chain_visit cb c).
Proof. induction c as [|e c IH]; intro m; cbn [visit_chain chain_visit]; [reflexivity|]. destruct (cb (e_key e) (e_val e)); [|reflexivity]. rewrite run_bind, IH. reflexivity. Qed.
Lemma foreach_from_run cb post : forall pre n, run (foreach_from cb (fun _ _ => false) (length post) (zlen pre)) (mk_hm (pre ++ post) n) = Ret (mk_hm (pre ++ post) n, flat_map (chain_visit cb) post).
Proof.
  induction post as [|c post IH]; intros pre n; cbn [length foreach_from]; [reflexivity|].
  rewrite run_bind, run_load. cbn [hm_buckets]. unfold mload. rewrite znth_app_r by lia. replace (zlen pre - zlen pre) with 0 by lia. change (znth 0 (c :: post)) with (Some c). cbn [bind].
  rewrite run_bind, visit_run. cbn [bind]. rewrite run_bind. replace (zlen pre + 1) with (zlen (pre ++ [c])) by (rewrite zlen_app; reflexivity). replace (pre ++ c :: post) with ((pre ++ [c]) ++ post) by (rewrite <- app_assoc; reflexivity).
  rewrite IH. reflexivity.
Qed.
Lemma foreach_run cb m : run (code (HForeach cb (fun _ _ => false))) m = Ret (m, mk_res 0 [] (hm_foreach cb m)).
Proof. cbn [hm_code]. rewrite run_bind, run_get. cbn [bind]. rewrite run_bind. destruct m as [bs n]. cbn [hm_buckets]. pose proof (foreach_from_run cb bs [] n) as X. cbn [app] in X. change (zlen (@nil (list entry))) with 0 in X. rewrite X. reflexivity. Qed.
End Hm.

(** C57: handles of portable_thread_posix.c; lcu_global_init and lcu_global_cleanup *)
From Verif Require Import CBase ThreadLib InitModel InitSpec.

Lemma alloc_app : forall a b, allocated (a ++ b) = allocated a + allocated b.
Proof. induction a as [|x a IH]; intros b; cbn [app allocated]; [lia | rewrite IH; lia]. Qed.
Lemma alloc_free : forall h i, live h i = true -> allocated (lset i false h) = allocated h - 1.
Proof. unfold live. induction h as [|x h IH]; intros [|i] L; cbn in L; try discriminate; cbn [lset allocated]; [subst x; lia | rewrite IH by exact L; lia]. Qed.
Lemma live_app : forall h b i, live h i = true -> live (h ++ [b]) i = true.
Proof. unfold live. intros h b i L. destruct (nth_error h i) eqn:E; [|discriminate]. rewrite nth_error_app1; [rewrite E; exact L | apply nth_error_Some; congruence]. Qed.
Lemma live_new : forall h b, live (h ++ [b]) (length h) = b.
Proof. intros h b. unfold live. rewrite nth_error_app2 by lia. rewrite Nat.sub_diag. reflexivity. Qed.
Lemma live_lt : forall h i, live h i = true -> (i < length h)%nat.
Proof. unfold live. intros h i L. apply nth_error_Some. destruct (nth_error h i); congruence. Qed.
Lemma live_other : forall h i j, j <> i -> live (lset i false h) j = live h j.
Proof. intros h i j N. unfold live. rewrite lset_ne by exact N. reflexivity. Qed.

(** ** One handle: every init is undone by one destroy; failures leave nothing behind; NULL is refused. *)
Theorem C57_handle : forall e h, exists r v h', p_init e h = (r, v, h') /\
  (r = 0 <-> v <> None) /\ allocated h' = allocated h + held v /\ (forall i, live h i = true -> live h' i = true) /\
  (forall q, exists h2, p_destroy q v h' = Ret ((if r =? 0 then q else -1), None, h2) /\ allocated h2 = allocated h /\ (forall i, live h i = true -> live h2 i = true)) /\
  (forall q, p_use q v h' = Ret (if r =? 0 then q else -1)).
Proof.
  intros e h. unfold p_init. destruct (e_mem e); cbn [negb].
  2:{ exists (-2), None, h. split; [reflexivity|]. split; [split; [lia | congruence]|]. split; [cbn; lia|]. split; [auto|]. split; [|reflexivity]. intros q. exists h. auto. }
  destruct (e_ret e =? 0) eqn:E.
  - exists 0, (Some (length h)), (h ++ [true]). split; [reflexivity|]. split; [split; [discriminate | reflexivity]|]. split; [rewrite alloc_app; reflexivity|].
    split; [apply live_app|]. split; [|intros q; cbn [p_use]; rewrite live_new; reflexivity].
    intros q. exists (lset (length h) false (h ++ [true])). split; [unfold p_destroy, free_; rewrite live_new; reflexivity|].
    split; [rewrite alloc_free, alloc_app by apply live_new; cbn; lia|]. intros i L. rewrite live_other by (apply live_lt in L; lia). apply live_app, L.
  - apply Z.eqb_neq in E. exists (e_ret e), None, (h ++ [false]). split; [reflexivity|]. split; [split; [lia | congruence]|]. split; [rewrite alloc_app; cbn; lia|].
    split; [apply live_app|]. apply Z.eqb_neq in E. rewrite E. split; [|reflexivity]. intros q. exists (h ++ [false]). split; [reflexivity|]. split; [rewrite alloc_app; cbn; lia | apply live_app].
Qed.
(** a thread's handle is released by its join whatever happens, so a second join uses freed memory *)
Theorem C57_join : forall e h r v h' q, p_init e h = (r, v, h') -> r = 0 ->
  exists h2, p_join q v h' = Ret (q, h2) /\ allocated h2 = allocated h.
Proof.
  intros e h r v h' q P R. unfold p_init in P. destruct (e_mem e); cbn [negb] in P; [|injection P as <- <- <-; discriminate].
  destruct (e_ret e =? 0) eqn:E; injection P as <- <- <-; [|lia]. exists (lset (length h) false (h ++ [true])).
  unfold p_join, free_. rewrite live_new. cbn [bind]. split; [reflexivity|]. rewrite alloc_free, alloc_app by apply live_new. cbn. lia.
Qed.
Theorem C57_join_twice_refuted : exists h h1 h2, p_init yes h = (0, Some O, h1) /\ p_join 35 (Some O) h1 = Ret (35, h2) /\ p_join 0 (Some O) h2 = Ub.
Proof. exists [], [true], [false]. repeat split. Qed.
(** portable_mutex_unlock, alone of all, dereferences a NULL handle *)
Theorem C57_unlock_null_refuted : forall r h, p_mutex_unlock r None h = Ub /\ p_use r None h = Ret (-1).
Proof. intros. split; reflexivity. Qed.
(** initialising a variable again leaks the first object *)
Theorem C57_init_again_refuted : forall h, exists v1 h1 v2 h2 h3, p_init yes h = (0, v1, h1) /\ p_init yes h1 = (0, v2, h2) /\ p_destroy 0 v2 h2 = Ret (0, None, h3) /\ allocated h3 = allocated h + 1.
Proof.
  intros h. exists (Some (length h)), (h ++ [true]), (Some (length (h ++ [true]))), ((h ++ [true]) ++ [true]), (lset (length (h ++ [true])) false ((h ++ [true]) ++ [true])).
  split; [reflexivity|]. split; [reflexivity|]. unfold p_destroy, free_. rewrite live_new. split; [reflexivity|]. rewrite alloc_free, !alloc_app by apply live_new. cbn. lia.
Qed.

(** ** The global state: the objects allocated are exactly the ones the three variables point to, each by one *)
Definition somes (vs : list handle) : list nat := flat_map (fun v => match v with Some i => [i] | None => [] end) vs.
Definition own (vs : list handle) (h : heap) : Prop := NoDup (somes vs) /\ (forall i, In i (somes vs) -> live h i = true) /\ allocated h = zlen (somes vs).
Definition vars (g : glob) : list handle := [lock0 g; lock1 g; mutex g].
Lemma somes_app : forall a b, somes (a ++ b) = somes a ++ somes b.
Proof. intros. apply flat_map_app. Qed.
Lemma own_init : forall e a b h r v h', own (a ++ None :: b) h -> p_init e h = (r, v, h') -> own (a ++ v :: b) h'.
Proof.
  intros e a b h r v h' (N & L & A) P. unfold own in *. rewrite somes_app in *. cbn [somes flat_map app] in N, L, A. fold (somes b) in N, L, A.
  unfold p_init in P. destruct (e_mem e); cbn [negb] in P; [destruct (e_ret e =? 0)|]; injection P as <- <- <-; cbn [somes flat_map app]; fold (somes b).
  - split; [apply (NoDup_Add (Add_app _ _ _)); split; [exact N | intros C; apply L, live_lt in C; lia]|].
    split; [|rewrite alloc_app, A, !zlen_app, zlen_cons; cbn; lia]. intros i I. apply in_app_or in I. destruct I as [I|[<-|I]]; [| apply live_new |]; apply live_app, L, in_or_app; auto.
  - split; [exact N|]. split; [intros i I; apply live_app, L, I | rewrite alloc_app, A; cbn; lia].
  - auto.
Qed.
Lemma own_destroy : forall q a v b h, own (a ++ v :: b) h -> exists r h', p_destroy q v h = Ret (r, None, h') /\ own (a ++ None :: b) h'.
Proof.
  intros q a [i|] b h O; [|exists (-1), h; split; [reflexivity | exact O]]. destruct O as (N & L & A). unfold own. rewrite somes_app in *. cbn [somes flat_map app] in *. fold (somes b) in *.
  assert (Li : live h i = true) by (apply L, in_or_app; right; left; reflexivity). apply (NoDup_Add (Add_app _ _ _)) in N. destruct N as (N & NI).
  exists q, (lset i false h). split; [unfold p_destroy, free_; rewrite Li; reflexivity|]. split; [exact N|]. split.
  - intros j J. rewrite live_other by (intros ->; exact (NI J)). apply L. apply in_app_or in J. apply in_or_app. cbn. tauto.
  - rewrite alloc_free by exact Li. rewrite A, !zlen_app, zlen_cons. lia.
Qed.
Lemma own_if : forall e a v b h v' h', own (a ++ v :: b) h -> init_if_null e v h = (v', h') -> own (a ++ v' :: b) h'.
Proof.
  intros e a v b h v' h' O H. unfold init_if_null in H. destruct v; [injection H as <- <-; exact O|]. destruct (p_init e h) as [[r w] k] eqn:P. injection H as <- <-. eapply own_init; eauto.
Qed.
Definition good (g : glob) : Prop := own (vars g) (hp g).
Lemma time_init_good : forall a b g, good g -> good (snd (time_init a b g)) /\ times (snd (time_init a b g)) = times g /\ mutex (snd (time_init a b g)) = mutex g.
Proof.
  intros a b g G. unfold time_init. destruct (init_if_null a (lock0 g) (hp g)) as [l0 h] eqn:E0. apply (own_if a [] _ [lock1 g; mutex g] _ _ _ G) in E0.
  destruct (init_if_null b (lock1 g) h) as [l1 h1] eqn:E1. apply (own_if b [l0] _ [mutex g] _ _ _ E0) in E1. cbn [snd times mutex]. auto.
Qed.
Lemma xlog_init_good : forall a g, good g -> good (snd (xlog_init a g)) /\ times (snd (xlog_init a g)) = times g.
Proof.
  intros a g G. unfold xlog_init. destruct (mutex g) as [i|] eqn:M; [auto|]. destruct (p_init a (hp g)) as [[r m] h] eqn:P. unfold good, vars in G. rewrite M in G.
  apply (own_init a [lock0 g; lock1 g] [] _ _ _ _ G) in P. cbn [snd times]. auto.
Qed.
Lemma time_cleanup_good : forall g, good g -> exists r g', time_cleanup g = Ret (r, g') /\ good g' /\ lock0 g' = None /\ lock1 g' = None /\ mutex g' = mutex g /\ times g' = times g.
Proof.
  intros g G. unfold time_cleanup. destruct (own_destroy 0 [] (lock0 g) [lock1 g; mutex g] _ G) as (r & h & E & G1). rewrite E. cbn [bind snd].
  destruct (own_destroy 0 [None] (lock1 g) [mutex g] _ G1) as (r1 & h1 & E1 & G2). rewrite E1. cbn [bind snd]. eexists. eexists. split; [reflexivity|]. split; [exact G2|]. auto.
Qed.
Lemma xlog_cleanup_good : forall g, good g -> exists r g', xlog_cleanup g = Ret (r, g') /\ good g' /\ lock0 g' = lock0 g /\ lock1 g' = lock1 g /\ mutex g' = None /\ times g' = times g.
Proof.
  intros g G. unfold xlog_cleanup. destruct (mutex g) as [i|] eqn:M; [|exists 1, g; repeat (split; [first [reflexivity | assumption]|]); first [reflexivity | assumption]]. unfold good, vars in G. rewrite M in G.
  destruct (own_destroy 0 [lock0 g; lock1 g] (Some i) [] _ G) as (r & h & E & G1). rewrite E. cbn [bind snd]. eexists. eexists. split; [reflexivity|]. split; [exact G1|]. auto.
Qed.
Lemma op_good : forall o g, good g -> exists r g', do_op o g = Ret (r, g') /\ good g'.
Proof.
  intros o g G. destruct o; cbn [do_op].
  - exists (fst (lcu_init e0 e1 e2 g)), (snd (lcu_init e0 e1 e2 g)). split; [destruct (lcu_init e0 e1 e2 g); reflexivity|]. unfold lcu_init. set (g1 := set_times g _). assert (G1 : good g1) by exact G.
    destruct (0 <? times g); [exact G1|]. pose proof (time_init_good e0 e1 g1 G1) as (G2 & _). destruct (time_init e0 e1 g1) as [r g2]. cbn [snd] in G2.
    pose proof (xlog_init_good e2 g2 G2) as (G3 & _). destruct (xlog_init e2 g2) as [r' g3]. exact G3.
  - unfold lcu_cleanup. destruct (times g =? 0); [eauto|]. set (g1 := set_times g _). assert (G1 : good g1) by exact G. destruct (0 <? times g1); [eauto|].
    destruct (xlog_cleanup_good g1 G1) as (r & g2 & E2 & G2 & _). rewrite E2. cbn [bind snd]. destruct (time_cleanup_good g2 G2) as (r' & g3 & E3 & G3 & _). rewrite E3. cbn [bind snd fst]. eauto.
  - exists (fst (time_init e0 e1 g)), (snd (time_init e0 e1 g)). split; [destruct (time_init e0 e1 g); reflexivity | apply time_init_good, G].
  - destruct (time_cleanup_good g G) as (r & g2 & E & G2 & _). eauto.
  - exists (fst (xlog_init e g)), (snd (xlog_init e g)). split; [destruct (xlog_init e g); reflexivity | apply xlog_init_good, G].
  - destruct (xlog_cleanup_good g G) as (r & g2 & E & G2 & _). eauto.
Qed.
Lemma good0 : good g0.
Proof. split; [constructor|]. split; [intros i []|reflexivity]. Qed.
(** Any sequence of the six calls, whatever fails: nothing is freed twice, used after free or lost. *)
Theorem C57_global_safe : forall l, exists g, run_ops l g0 = Ret g /\ allocated (hp g) = held (lock0 g) + held (lock1 g) + held (mutex g) /\
  (forall i, In (Some i) (vars g) -> live (hp g) i = true).
Proof.
  assert (K : forall l g, good g -> exists g', run_ops l g = Ret g' /\ good g').
  { induction l as [|o l IH]; intros g G; cbn [run_ops]; [eauto|]. destruct (op_good o g G) as (r & g' & E & G'). rewrite E. cbn [bind snd]. auto. }
  intros l. destruct (K l g0 good0) as (g & E & (N & L & A)). exists g. split; [exact E|]. split.
  - rewrite A. unfold vars, somes. destruct (lock0 g), (lock1 g), (mutex g); reflexivity.
  - intros i I. apply L. unfold somes. apply in_flat_map. exists (Some i). split; [exact I | left; reflexivity].
Qed.

(** Only lcu_global_init and lcu_global_cleanup, fewer than 2^32 inits: the locks exist exactly while there are
    users; when the last one has cleaned up, nothing is left. *)
Definition exist_all (g : glob) : Prop := lock0 g <> None /\ lock1 g <> None /\ mutex g <> None.
Definition exist_none (g : glob) : Prop := lock0 g = None /\ lock1 g = None /\ mutex g = None.
Lemma fine_init : forall e h, fine e -> exists i h', p_init e h = (0, Some i, h').
Proof. intros e h (M & R). unfold p_init. rewrite M, R. cbn. eauto. Qed.
Lemma fine_if : forall e v h, fine e -> exists i h', init_if_null e v h = (Some i, h').
Proof. intros e [i|] h F; cbn [init_if_null]; [eauto|]. destruct (fine_init e h F) as (i & h' & E). rewrite E. eauto. Qed.
Lemma users_step : forall o g, good g -> lcu_only o -> no_failure o -> 0 <= times g < two32 - 1 -> (0 < times g -> exist_all g) -> (times g = 0 -> exist_none g) ->
  exists g', do_op o g = Ret (0, g') /\ good g' /\ times g' = users (times g) [o] /\ (0 < times g' -> exist_all g') /\ (times g' = 0 -> exist_none g').
Proof.
  intros o g G O F T P Q. destruct (op_good o g G) as (r & g' & E & G'). destruct o; try contradiction; cbn [do_op] in E |- *.
  - destruct F as (F0 & F1 & F2). unfold lcu_init in *. set (g1 := set_times g (u32 (times g + 1))) in *.
    assert (T1 : times g1 = times g + 1) by (unfold g1, u32, two32 in *; cbn; rewrite Z.mod_small; lia).
    destruct (0 <? times g) eqn:C.
    + apply Z.ltb_lt in C. injection E as <- <-. exists g1. split; [reflexivity|]. split; [exact G'|]. split; [exact T1|]. split; [intros _; exact (P C) | lia].
    + assert (C0 : times g = 0) by (apply Z.ltb_ge in C; lia). destruct (Q C0) as (Q0 & Q1 & Q2).
      assert (X : exists i0 i1 i2 h', (let '(r0, g2) := time_init e0 e1 g1 in let '(r', g3) := xlog_init e2 g2 in (Z.lor r0 r', g3)) = (0, mk_gl (times g1) (Some i0) (Some i1) (Some i2) h')).
      { unfold time_init. destruct (fine_if e0 (lock0 g1) (hp g1) F0) as (i0 & h0 & E0). rewrite E0. destruct (fine_if e1 (lock1 g1) h0 F1) as (i1 & h1 & E1). rewrite E1.
        unfold xlog_init. cbn [mutex hp times lock0 lock1]. replace (mutex g1) with (@None nat) by (symmetry; exact Q2). destruct (fine_init e2 h1 F2) as (i2 & h2 & E2). rewrite E2. exists i0, i1, i2, h2. reflexivity. }
      destruct X as (i0 & i1 & i2 & h' & X). rewrite X in E |- *. injection E as <- <-. eexists. split; [reflexivity|]. split; [exact G'|]. cbn [times users]. split; [exact T1|]. split; [|intros Z0; exfalso; change (times g1 = 0) in Z0; lia].
      intros _. split; [discriminate|]. split; discriminate.
  - unfold lcu_cleanup in *. destruct (times g =? 0) eqn:C.
    + apply Z.eqb_eq in C. injection E as <- <-. exists g. split; [reflexivity|]. split; [exact G|]. cbn [users]. split; [lia|]. auto.
    + apply Z.eqb_neq in C. set (g1 := set_times g (u32 (times g - 1))) in *. assert (T1 : times g1 = times g - 1) by (unfold g1, u32, two32 in *; cbn; rewrite Z.mod_small; lia).
      destruct (P ltac:(lia)) as (P0 & P1 & P2). destruct (0 <? times g1) eqn:C1.
      * injection E as <- <-. exists g1. split; [reflexivity|]. split; [exact G'|]. cbn [users]. apply Z.ltb_lt in C1. split; [lia|]. split; [intros _; split; [exact P0 | split; assumption] | lia].
      * apply Z.ltb_ge in C1. assert (Ga : good g1) by exact G. destruct (xlog_cleanup_good g1 Ga) as (rx & g2 & E2 & G2 & A0 & A1 & A2 & A3).
        assert (RX : rx = 0). { unfold xlog_cleanup in E2. change (mutex g1) with (mutex g) in E2. destruct (mutex g); [|congruence]. destruct (p_destroy 0 (Some n) (hp g1)) as [?| | |]; cbn [bind] in E2; congruence. }
        destruct (time_cleanup_good g2 G2) as (rt & g3 & E3 & G3 & B0 & B1 & B2 & B3).
        assert (RT : rt = 0). { unfold time_cleanup in E3. destruct (p_destroy 0 (lock0 g2) (hp g2)) as [x| | |]; cbn [bind] in E3; try discriminate. destruct (p_destroy 0 (lock1 g2) (snd x)); cbn [bind] in E3; congruence. }
        exists g3. rewrite E2. cbn [bind snd]. rewrite E3. cbn [bind snd fst]. subst rx rt. split; [reflexivity|]. split; [exact G3|]. cbn [users]. split; [lia|]. split; [lia|].
        intros _. split; [exact B0|]. split; [exact B1|]. congruence.
Qed.
Definition inits (l : list op) : Z := zlen (filter (fun o => match o with LcuInit _ _ _ => true | _ => false end) l).
Theorem C57_global_users : forall l, Forall lcu_only l -> Forall no_failure l -> inits l < two32 ->
  exists g, run_ops l g0 = Ret g /\ (0 < users 0 l -> exist_all g /\ allocated (hp g) = 3) /\ (users 0 l = 0 -> exist_none g /\ allocated (hp g) = 0).
Proof.
  assert (K : forall l g, Forall lcu_only l -> Forall no_failure l -> good g -> 0 <= times g -> times g + inits l < two32 -> (0 < times g -> exist_all g) -> (times g = 0 -> exist_none g) ->
    exists g', run_ops l g = Ret g' /\ good g' /\ times g' = users (times g) l /\ (0 < times g' -> exist_all g') /\ (times g' = 0 -> exist_none g')).
  { induction l as [|o l IH]; intros g FL FF G T0 T P Q; [exists g; auto|]. inversion FL; inversion FF; subst. pose proof (zlen_nonneg (filter (fun o => match o with LcuInit _ _ _ => true | _ => false end) l)) as NN.
    assert (X : exists g1, do_op o g = Ret (0, g1) /\ good g1 /\ times g1 = users (times g) [o] /\ (0 < times g1 -> exist_all g1) /\ (times g1 = 0 -> exist_none g1)).
    { destruct o; try contradiction.
      - apply users_step; auto. unfold inits in T. cbn [filter] in T. rewrite zlen_cons in T. lia.
      - destruct (Z.eq_dec (times g) (two32 - 1)) as [Eq|Ne]; [|apply users_step; auto; unfold inits in T; cbn [filter] in T; lia].
        cbn [do_op]. unfold lcu_cleanup. replace (times g =? 0) with false by (unfold two32 in *; lia).
        assert (T1 : u32 (times g - 1) = times g - 1) by (unfold u32, two32 in *; rewrite Z.mod_small; lia). unfold set_times at 1. cbn [times]. rewrite T1. replace (0 <? times g - 1) with true by (unfold two32 in *; lia).
        eexists. split; [reflexivity|]. split; [exact G|]. cbn [times set_times users]. unfold two32 in *. split; [lia|]. split; [intros _; exact (P ltac:(lia)) | lia]. }
    destruct X as (g1 & E & G1 & T1 & P1 & Q1). cbn [run_ops]. rewrite E. cbn [bind snd].
    assert (U : users (times g) (o :: l) = users (times g1) l) by (rewrite T1; destruct o; reflexivity). rewrite U. apply IH; auto.
    - rewrite T1. destruct o; try contradiction; cbn [users]; lia.
    - rewrite T1. unfold inits in *. destruct o; try contradiction; cbn [users filter] in *; rewrite ?zlen_cons in T; lia. }
  intros l FL FF I. destruct (K l g0 FL FF good0) as (g & E & G & T & P & Q); [cbn; lia | cbn; lia | cbn; lia | intros _; repeat split|].
  exists g. split; [exact E|]. change (times g0) with 0 in T. rewrite <- T. destruct G as (_ & _ & A). split; intros U.
  - specialize (P U). split; [exact P|]. destruct P as (P0 & P1 & P2). rewrite A. unfold vars. destruct (lock0 g), (lock1 g), (mutex g); try congruence; reflexivity.
  - specialize (Q U). split; [exact Q|]. destruct Q as (Q0 & Q1 & Q2). rewrite A. unfold vars. rewrite Q0, Q1, Q2. reflexivity.
Qed.
(** lcu_global_init reports success although the locks could not be made, and later calls do not try again *)
Definition no : env := mk_e false 0.
Theorem C57_init_failure_refuted : exists g, run_ops [LcuInit no no no; LcuInit yes yes yes] g0 = Ret g /\ exist_none g /\ fst (lcu_init no no no g0) = 0 /\ times g = 2.
Proof. eexists. split; [reflexivity|]. repeat split. Qed.
(** xlog_global_init before lcu_global_init makes the latter report failure *)
Theorem C57_init_order_refuted : exists g, run_ops [XlogInit yes] g0 = Ret g /\ fst (lcu_init yes yes yes g) = 1 /\ exist_all (snd (lcu_init yes yes yes g)).
Proof. eexists. split; [reflexivity|]. split; [reflexivity|]. split; [discriminate|]. split; discriminate. Qed.
(** A call that no other thread disturbs does what the sequential function does, whatever the counter *)
Lemma lset_idle {A} (l : list A) t x y z : nth_error l t = Some z -> lset t x (lset t y l) = lset t x l.
Proof. revert t. induction l as [|a l IH]; intros [|t] E; cbn in *; try discriminate; auto. rewrite IH; auto. Qed.
Lemma lset_same {A} (l : list A) t x : nth_error l t = Some x -> lset t x l = l.
Proof. revert t. induction l as [|a l IH]; intros [|t] E; cbn in *; try discriminate; [congruence|]. rewrite IH; auto. Qed.
Lemma lset_nth {A} (l : list A) t x y : nth_error l t = Some y -> nth_error (lset t x l) t = Some x.
Proof. revert t. induction l as [|a l IH]; intros [|t] E; cbn in *; try discriminate; auto. Qed.
Theorem C57_alone : forall s t, nth_error (tpcs s) t = Some TIdle ->
  (exists l, trun (TInit t :: l) s = Some (mk_t (snd (lcu_init yes yes yes (tg s))) (tpcs s) (EInit t :: tlog s))) /\
  (forall r g, lcu_cleanup (tg s) = Ret (r, g) -> exists l, trun (TClean t :: l) s = Some (mk_t g (tpcs s) (ECleanup t :: tlog s))).
Proof.
  intros s t E. assert (N : forall p, nth_error (lset t p (tpcs s)) t = Some p) by (intro; eapply lset_nth; exact E).
  assert (BACK : forall p, lset t TIdle (lset t p (tpcs s)) = tpcs s) by (intro; rewrite (lset_idle _ _ _ _ _ E); apply lset_same; exact E).
  assert (TWO : forall p q, lset t p (lset t q (tpcs s)) = lset t p (tpcs s)) by (intros; eapply lset_idle; exact E).
  split.
  - destruct (0 <? times (tg s)) eqn:P.
    + exists [TStep t; TStep t]. cbn [trun tdo]. rewrite E. unfold tgo. cbn [tdo]. unfold texec. cbn [tpcs tg tlog]. rewrite N. unfold tgo. cbn [tpcs tg tlog]. rewrite TWO, N, P. unfold tret. cbn [tpcs tg tlog]. rewrite BACK. unfold lcu_init. rewrite P. reflexivity.
    + exists [TStep t; TStep t; TStep t]. cbn [trun tdo]. rewrite E. unfold tgo. cbn [tdo]. unfold texec. cbn [tpcs tg tlog]. rewrite N. unfold tgo. cbn [tpcs tg tlog]. rewrite TWO, N, P. cbn [tpcs tg tlog]. rewrite TWO, N. unfold tret. cbn [tpcs tg tlog]. rewrite BACK. unfold lcu_init. rewrite P.
      destruct (time_init yes yes (set_times (tg s) (u32 (times (tg s) + 1)))) as [r g2]. cbn [snd]. destruct (xlog_init yes g2) as [r' g3]. reflexivity.
  - intros r g C. unfold lcu_cleanup in C. destruct (times (tg s) =? 0) eqn:Z0; [|cbn [times set_times] in C; destruct (0 <? u32 (times (tg s) - 1)) eqn:P].
    + injection C as _ <-. exists [TStep t]. cbn [trun tdo]. rewrite E. unfold tgo. cbn [tdo]. unfold texec. cbn [tpcs tg tlog]. rewrite N, Z0. unfold tret. cbn [tpcs tg tlog]. rewrite BACK. reflexivity.
    + injection C as _ <-. exists [TStep t; TStep t]. cbn [trun tdo]. rewrite E. unfold tgo. cbn [tdo]. unfold texec. cbn [tpcs tg tlog]. rewrite N, Z0. unfold tgo. cbn [tpcs tg tlog]. rewrite TWO, N, P. unfold tret. cbn [tpcs tg tlog]. rewrite BACK. reflexivity.
    + exists [TStep t; TStep t; TStep t]. cbn [trun tdo]. rewrite E. unfold tgo. cbn [tdo]. unfold texec. cbn [tpcs tg tlog]. rewrite N, Z0. unfold tgo. cbn [tpcs tg tlog]. rewrite TWO, N, P. cbn [tpcs tg tlog]. rewrite TWO, N.
      destruct (xlog_cleanup (set_times (tg s) (u32 (times (tg s) - 1)))) as [a| | |]; cbn [bind] in *; try discriminate. destruct (time_cleanup (snd a)) as [b| | |]; cbn [bind] in *; try discriminate. injection C as _ <-. unfold tret. cbn [tpcs tg tlog]. rewrite BACK. reflexivity.
Qed.
(** Two threads at once: the second call returns 0 before the locks exist *)
Theorem C57_init_race_refuted : exists l s, trun l (t0 2) = Some s /\ tlog s = [EInit 1] /\ exist_none (tg s).
Proof. exists [TInit 0; TStep 0; TStep 0; TInit 1; TStep 1; TStep 1]. eexists. split; [vm_compute; reflexivity|]. repeat split. Qed.
(** and an increment may be lost: two users, one cleans up, and the locks of the other are gone *)
Theorem C57_init_lost_refuted : exists l s, trun l (t0 2) = Some s /\ tlog s = [ECleanup 0; EInit 1; EInit 0] /\ exist_none (tg s) /\ allocated (hp (tg s)) = 0.
Proof.
  exists [TInit 0; TInit 1; TStep 0; TStep 1; TStep 0; TStep 1; TStep 0; TStep 1; TClean 0; TStep 0; TStep 0; TStep 0]. eexists. split; [vm_compute; reflexivity|]. repeat split.
Qed.
Print Assumptions C57_handle.
Print Assumptions C57_join.
Print Assumptions C57_join_twice_refuted.
Print Assumptions C57_unlock_null_refuted.
Print Assumptions C57_init_again_refuted.
Print Assumptions C57_global_safe.
Print Assumptions C57_global_users.
Print Assumptions C57_init_failure_refuted.
Print Assumptions C57_init_order_refuted.
Print Assumptions C57_alone.
Print Assumptions C57_init_race_refuted.
Print Assumptions C57_init_lost_refuted.
(** three inits, an extra cleanup at the end *)
Definition demo : list op := [LcuInit yes yes yes; LcuInit yes yes yes; LcuCleanup; LcuInit yes yes yes; LcuCleanup; LcuCleanup; LcuCleanup].
Example C57_demo : Forall lcu_only demo /\ Forall no_failure demo /\ inits demo = 3 /\ users 0 demo = 0 /\ users 0 (firstn 5 demo) = 1.
Proof. split; [repeat constructor|]. split; [repeat constructor|]. repeat split. Qed.

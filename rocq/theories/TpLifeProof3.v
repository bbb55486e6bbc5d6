(** Creation and destruction *)
From Coq Require Import Permutation.
From Verif Require Import CBase LifeModel TpLifeModel TpLifeSpec TpLifeProof TpLifeProof2.
Open Scope nat_scope.

Ltac mut O Q A := match goal with |- context [bnd (mutex_init ?w (VP ?b ?o) ?i) ?f ?s] =>
  let s' := fresh "s" in let W := fresh "W" in let c := fresh "c" in let E := fresh "E" in let O' := fresh "O" in let Q' := fresh "Q" in let LW := fresh "LW" in let v := fresh "v" in let NV := fresh "NV" in let EC := fresh "EC" in
  destruct (r_mutex w _ s A _ b _ _ o i O) as (s' & W & c & E & O' & Q' & LW & _ & v & NV & EC); [cbn; lia|]; cbn in EC; injection EC as <-; rewrite (bnd_ret _ _ _ _ _ E); clear E; clear O; rename O' into O;
  apply (fun z => eq_trans z Q) in Q'; clear Q; rename Q' into Q; cbn [app] in O end.
Ltac mutl O Q A := match goal with |- context [mutex_init ?w (VP ?b ?o) ?i ?s] =>
  let s' := fresh "s" in let W := fresh "W" in let c := fresh "c" in let E := fresh "E" in let O' := fresh "O" in let Q' := fresh "Q" in let LW := fresh "LW" in let v := fresh "v" in let NV := fresh "NV" in let EC := fresh "EC" in
  destruct (r_mutex w _ s A _ b _ _ o i O) as (s' & W & c & E & O' & Q' & LW & _ & v & NV & EC); [cbn; lia|]; cbn in EC; injection EC as <-; rewrite E; clear E; clear O; rename O' into O;
  apply (fun z => eq_trans z Q) in Q'; clear Q; rename Q' into Q; cbn [app] in O end.
Lemma junk_app a b : junk (a ++ b) = junk a ++ junk b. Proof. apply map_app. Qed.
Lemma wn_add w a b : wn w a + wn w b = wn w (a + b). Proof. destruct w; reflexivity. Qed.
Lemma cond_ok win s0 s b c A B i : own s0 s (A ++ (b, mk_b true c) :: B) -> S i < length c ->
  exists s' W v w c1 c2, cond_init win (VP b 0) i s = Ret (tt, s') /\ orc s' = orc s /\ length W = wn win 2 /\ lput i v c = Some c1 /\ lput (S i) w c1 = Some c2 /\ own s0 s' (A ++ (b, mk_b true c2) :: B ++ junk W).
Proof.
  intros O L. unfold cond_init. destruct (r_mutex win s0 s A B b true c 0 i O ltac:(cbn; lia)) as (s1 & W1 & c1 & E1 & O1 & Q1 & L1 & LC & v & _ & EC). cbn [plus] in EC.
  destruct (r_mutex win s0 s1 A _ b true c1 0 (S i) O1 ltac:(cbn; lia)) as (s2 & W2 & c2 & E2 & O2 & Q2 & L2 & _ & w & _ & EC2). cbn [plus] in EC2.
  rewrite (bnd_ret _ _ _ _ _ E1). exists s2, (W1 ++ W2), v, w, c1, c2. split; [exact E2|]. split; [congruence|]. split; [rewrite app_length, L1, L2; apply wn_add|]. split; [auto|]. split; [auto|]. rewrite junk_app, app_assoc. exact O2.
Qed.
Lemma bsem_ok win s0 s h a b c d A B : own s0 s (A ++ (h, mk_b true [a; b; c; d]) :: B) ->
  exists s' W a' b' c', bsem_init win (VP h 0) s = Ret (tt, s') /\ orc s' = orc s /\ length W = wn win 3 /\ own s0 s' (A ++ (h, mk_b true [a'; b'; c'; VI 0]) :: B ++ junk W).
Proof.
  intro O. unfold bsem_init. destruct (r_mutex win s0 s A B h true _ 0 0 O ltac:(cbn; lia)) as (s1 & W1 & c1 & E1 & O1 & Q1 & L1 & _ & v & _ & EC). cbn in EC. injection EC as <-. rewrite (bnd_ret _ _ _ _ _ E1).
  destruct (cond_ok win s0 s1 h _ A _ 1 O1 ltac:(cbn; lia)) as (s2 & W2 & x & y & c1 & c2 & E2 & Q2 & L2 & X1 & X2 & O2). cbn in X1. injection X1 as <-. cbn in X2. injection X2 as <-. rewrite (bnd_ret _ _ _ _ _ E2).
  destruct (r_store s0 s2 A _ h true _ 0 3 (VI 0) _ O2 eq_refl) as (s3 & E3 & O3 & Q3). exists s3, (W1 ++ W2), v, x, y. split; [exact E3|]. split; [congruence|]. split; [rewrite app_length, L1, L2; apply (wn_add win 1 2)|]. rewrite junk_app, app_assoc. exact O3.
Qed.
Lemma jq_destroy_ok win s0 s p hj y js R fuel : wf s0 -> own s0 s (QL p hj y js R) -> h3 y <> VU -> length js < fuel ->
  exists s' W y', jobqueue_destroy win fuel (VP p 0) s = Ret (tt, s') /\ orc s' = orc s /\ length W = wn win 3 /\ x0 y' = x0 y /\ x1 y' = x1 y /\
    own s0 s' ((p, pb hj V0 V0 0 y') :: R ++ junk W).
Proof.
  intros W0 O H3 F. destruct (clear_ok s0 p hj R W0 js fuel s y O H3 F) as (s1 & y1 & E1 & Q1 & O1 & v & NV & ->). clear O.
  unfold jobqueue_destroy. assert (C : exists s' W y' hc, jobqueue_clear win fuel (VP p 0) s = Ret (tt, s') /\ orc s' = orc s /\ length W = wn win 3 /\ x0 y' = x0 y /\ x1 y' = x1 y /\ own s0 s' ((p, pb hj V0 V0 0 y') :: (hj, mk_b true hc) :: R ++ junk W)).
  { unfold jobqueue_clear. rewrite (bnd_ret _ _ _ _ _ E1). unfold QL, pb in O1. cbn [jb app fr rr ptr] in O1. change (zlen (@nil nat)) with 0%Z in O1.
    sto O1 Q1 (@nil (nat * block)). sto O1 Q1 (@nil (nat * block)). lod O1 (@nil (nat * block)). unfold hb in O1.
    match type of O1 with own _ _ (?a :: _) => destruct (bsem_ok win s0 _ hj _ _ _ _ [a] _ O1) as (s4 & W & a' & b' & c' & E4 & Q4 & LW & O4) end. rewrite (bnd_ret _ _ _ _ _ E4). cbn [app] in O4.
    apply (fun z => eq_trans z Q1) in Q4. stol O4 Q4 (@nil (nat * block)). eexists _, W, _, _. split; [reflexivity|]. split; [exact Q4|]. split; [exact LW|]. split; [|split; [|exact O4]]; reflexivity. }
  destruct C as (s5 & W & y' & hc & E5 & Q5 & LW & X0 & X1 & O5). rewrite (bnd_ret _ _ _ _ _ E5). unfold pb in O5. lod O5 (@nil (nat * block)).
  match type of O5 with own _ _ (?a :: _) => destruct (r_free s0 s5 [a] _ hj _ W0 O5) as (s6 & E6 & O6 & Q6) end. exists s6, W, y'. split; [exact E6|]. split; [congruence|]. split; [auto|]. split; [auto|]. split; [auto|]. exact O6.
Qed.
(** ** the threads *)
Fixpoint thb (p : nat) (n : nat) (ths : list nat) : list (nat * block) := match ths with [] => [] | t :: r => (t, mk_b true [VP p 0; VI (Z.of_nat n)]) :: thb p (S n) r end.
Lemma free_threads_ok s0 p t : wf s0 -> forall ths pre s n A B, own s0 s (A ++ (t, mk_b true (pre ++ map (fun x => VP x 0) ths)) :: B ++ thb p n ths) -> length pre = n ->
  exists s', threads_free (VP t 0) n (length ths) s = Ret (tt, s') /\ orc s' = orc s /\ own s0 s' (A ++ (t, mk_b true (pre ++ map (fun x => VP x 0) ths)) :: B).
Proof.
  intro W. induction ths as [|x ths IH]; intros pre s n A B O L.
  - exists s. split; [reflexivity|]. split; [reflexivity|]. cbn [thb map] in *. rewrite (app_nil_r B) in O. exact O.
  - cbn [length threads_free]. rewrite (bnd_ret _ _ _ _ _ (r_load s0 s A _ t true _ 0 n (VP x 0) O ltac:(cbn [plus]; rewrite nth_error_app2 by lia; replace (n - length pre) with 0 by lia; reflexivity) ltac:(discriminate))).
    cbn [thb] in O. destruct (r_free s0 s (A ++ (t, mk_b true (pre ++ map (fun x => VP x 0) (x :: ths))) :: B) (thb p (S n) ths) x [VP p 0; VI (Z.of_nat n)] W) as (s1 & E1 & O1 & Q1).
    { rewrite <- app_assoc. exact O. }
    rewrite (bnd_ret _ _ _ _ _ E1). replace (pre ++ map (fun x => VP x 0) (x :: ths)) with ((pre ++ [VP x 0]) ++ map (fun x => VP x 0) ths) in * by (rewrite <- app_assoc; reflexivity).
    rewrite <- app_assoc in O1. cbn [app] in O1. destruct (IH (pre ++ [VP x 0]) s1 (S n) A B O1) as (s2 & E2 & Q2 & O2); [rewrite app_length; cbn; lia|]. exists s2. split; [exact E2|]. split; [congruence|exact O2].
Qed.
Lemma lput_mid pre a post v : lput (length pre) v (pre ++ a :: post) = Some (pre ++ v :: post).
Proof. induction pre as [|x pre IH]; [reflexivity|]. cbn. rewrite IH. reflexivity. Qed.
(** all answers are good: the threads *)
Lemma threads_init_ok s0 p t : forall l pre s n A B, own s0 s (A ++ (t, mk_b true (pre ++ repeat VU l)) :: B) -> length pre = n ->
  match threads_end l (orc s) with
  | Gives => exists s' ths, threads_init (VP p 0) (VP t 0) n l s = Ret (Z.of_nat l, s') /\ length ths = l /\ own s0 s' (A ++ (t, mk_b true (pre ++ map (fun x => VP x 0) ths)) :: B ++ thb p n ths)
  | Hangs => exists s' k, threads_init (VP p 0) (VP t 0) n l s = Ret (k, s') /\ (k < Z.of_nat l)%Z /\ exists L, own s0 s' (A ++ L)
  | Crashes => threads_init (VP p 0) (VP t 0) n l s = Ub
  | Refuses => False
  end.
Proof.
  induction l as [|l IH]; intros pre s n A B O L.
  - cbn [threads_end threads_init]. exists s, []. split; [reflexivity|]. split; [reflexivity|]. cbn [map thb repeat] in *. rewrite !app_nil_r in *. exact O.
  - cbn [threads_end]. destruct (r_malloc s0 s _ 2 O) as (v & s1 & E1 & Q1 & H). destruct (nxt_answer (orc s)) as [g o] eqn:NA. cbn [fst snd] in *. cbn [repeat] in *.
    set (body := fun (th : val) (z : bool) => if z then ret 0%Z else store th 0 (VP p 0) ;;; store th 1 (VI (Z.of_nat n)) ;;; ok <-- tick ;; if ok then ret 1%Z else ubm).
    assert (E0 : forall s2 z, store (VP t 0) n v s1 = Ret (tt, s2) -> isnull v s2 = Ret (z, s2) -> threads_init (VP p 0) (VP t 0) n (S l) s = (k <-- body v z ;; r <-- threads_init (VP p 0) (VP t 0) (S n) l ;; ret (k + r)%Z) s2).
    { intros s2 z E2 E3. cbn [threads_init]. rewrite (bnd_ret _ _ _ _ _ E1), (bnd_ret _ _ _ _ _ E2), (bnd_ret _ _ _ _ _ E3). reflexivity. }
    destruct g.
    + destruct H as (th & -> & O1). rewrite app_comm_cons in O1. destruct (r_store s0 s1 _ B t true _ 0 n (VP th 0) _ O1 ltac:(rewrite <- L; apply lput_mid)) as (s2 & E2 & O2 & Q2).
      rewrite (E0 s2 false E2 eq_refl). cbn [app] in O2. pose proof (eq_trans Q2 Q1) as Q. clear Q1 Q2 E1 E2 E0.
      assert (C : if fst (nxt_answer o) then exists s3, body (VP th 0) false s2 = Ret (1%Z, s3) /\ orc s3 = snd (nxt_answer o) /\ own s0 s3 ((th, mk_b true [VP p 0; VI (Z.of_nat n)]) :: A ++ (t, mk_b true (pre ++ VP th 0 :: repeat VU l)) :: B)
                  else body (VP th 0) false s2 = Ub).
      { unfold body. cbn [repeat] in O2. sto O2 Q (@nil (nat * block)). sto O2 Q (@nil (nat * block)). destruct (r_tick _ _ _ O2) as (s5 & E5 & O5 & Q5). rewrite (bnd_ret _ _ _ _ _ E5). rewrite Q in *. destruct (fst (nxt_answer o)); [|reflexivity]. exists s5. split; [reflexivity|]. split; [exact Q5|exact O5]. }
      destruct (nxt_answer o) as [g2 o2]. cbn [fst snd] in C. destruct g2.
      * destruct C as (s3 & E3 & Q3 & O3). rewrite (bnd_ret _ _ _ _ _ E3).
        assert (O4 : own s0 s3 (A ++ (t, mk_b true ((pre ++ [VP th 0]) ++ repeat VU l)) :: B ++ [(th, mk_b true [VP p 0; VI (Z.of_nat n)])])).
        { rewrite <- app_assoc. cbn [app]. eapply own_perm; [exact O3|]. etransitivity; [apply Permutation_cons_append|]. rewrite <- app_assoc. reflexivity. }
        specialize (IH (pre ++ [VP th 0]) s3 (S n) A _ O4 ltac:(rewrite app_length; cbn; lia)). rewrite Q3 in IH. destruct (threads_end l o2).
        -- destruct IH as (s5 & ths & E5 & L5 & O5). exists s5, (th :: ths). rewrite (bnd_ret _ _ _ _ _ E5). split; [unfold ret; do 2 f_equal; lia|]. split; [cbn; lia|]. cbn [map thb]. rewrite <- !app_assoc in O5. exact O5.
        -- contradiction.
        -- destruct IH as (s5 & k & E5 & K & X). exists s5, (1 + k)%Z. rewrite (bnd_ret _ _ _ _ _ E5). split; [reflexivity|]. split; [lia|exact X].
        -- unfold bnd at 1. rewrite IH. reflexivity.
      * unfold bnd at 1. rewrite C. reflexivity.
    + destruct H as (-> & O1). destruct (r_store s0 s1 A B t true _ 0 n V0 _ O1 ltac:(rewrite <- L; apply lput_mid)) as (s2 & E2 & O2 & Q2). rewrite (E0 s2 true E2 eq_refl). rewrite (bnd_ret _ _ s2 0%Z s2 eq_refl).
      assert (O4 : own s0 s2 (A ++ (t, mk_b true ((pre ++ [V0]) ++ repeat VU l)) :: B)) by (rewrite <- app_assoc; exact O2).
      specialize (IH (pre ++ [V0]) s2 (S n) A _ O4 ltac:(rewrite app_length; cbn; lia)). rewrite Q2, Q1 in IH. destruct (threads_end l o).
      * destruct IH as (s5 & ths & E5 & L5 & O5). exists s5, (0 + Z.of_nat l)%Z. rewrite (bnd_ret _ _ _ _ _ E5). split; [reflexivity|]. split; [lia|]. eauto.
      * contradiction.
      * destruct IH as (s5 & k & E5 & K & X). exists s5, (0 + k)%Z. rewrite (bnd_ret _ _ _ _ _ E5). split; [reflexivity|]. split; [lia|exact X].
      * unfold bnd at 1. rewrite IH. reflexivity.
Qed.
(** ** a pool *)
Definition PL (p hj t : nat) (y : rest) (ths js W : list nat) : list (nat * block) := QL p hj y js ((t, mk_b true (map (fun x => VP x 0) ths)) :: junk W ++ thb p 0 ths).
Definition pool (s0 s : st) (p n : nat) (js : list nat) (w : nat) : Prop := exists hj t y ths W, own s0 s (PL p hj t y ths js W) /\ x0 y = VP t 0 /\ x1 y = VI (Z.of_nat n) /\ length ths = n /\ length W = w /\ h3 y <> VU.
Lemma destroy_ok win s0 s p n js w fuel : wf s0 -> pool s0 s p n js w -> length js < fuel ->
  exists s' W, tp_destroy win fuel (VP p 0) s = Ret (tt, s') /\ own s0 s' (junk W) /\ length W = w + wn win 3.
Proof.
  intros W0 (hj & t & y & ths & W & O & X0 & X1 & LT & LW & H3) F. unfold tp_destroy. pose proof O as O'. unfold PL, QL, pb in O'. rewrite X1 in O'. lod O' (@nil (nat * block)). cbn [num]. unfold bnd at 1, ret at 1. assert (Q : orc s = orc s) by reflexivity. sto O' Q (@nil (nat * block)).
  set (y1 := mk_rest (x0 y) (VI 0) (c6 y) (c7 y) (c8 y) (c9 y) (h0 y) (h1 y) (h2 y) (h3 y)).
  destruct (jq_destroy_ok win s0 s1 p hj y1 js ((t, mk_b true (map (fun x => VP x 0) ths)) :: junk W ++ thb p 0 ths) fuel W0) as (s2 & W2 & y2 & E2 & Q2 & L2 & Y0 & Y1 & O2); [exact O'|exact H3|exact F|].
  rewrite (bnd_ret _ _ _ _ _ E2). unfold pb in O2. rewrite Y0 in O2. unfold y1 in O2. cbn [x0] in O2. rewrite X0 in O2. lod O2 (@nil (nat * block)). rewrite Nat2Z.id.
  match type of O2 with own _ _ (?a :: _) => destruct (free_threads_ok s0 p t W0 ths [] s2 0 [a] (junk W ++ junk W2)) as (s3 & E3 & Q3 & O3); [|reflexivity|] end.
  { eapply own_perm; [exact O2|]. cbn [app]. do 2 apply perm_skip. rewrite <- !app_assoc. apply Permutation_app_head. apply Permutation_app_comm. }
  rewrite LT in E3. rewrite (bnd_ret _ _ _ _ _ E3).
  match type of O3 with own _ _ ([?a] ++ _) => destruct (r_free s0 s3 [a] _ t _ W0 O3) as (s4 & E4 & O4 & Q4) end. rewrite (bnd_ret _ _ _ _ _ E4).
  destruct (r_free s0 s4 [] _ p _ W0 O4) as (s5 & E5 & O5 & Q5). exists s5, (W ++ W2). split; [exact E5|]. split; [rewrite junk_app; exact O5|]. rewrite app_length, L2. lia.
Qed.
Lemma run_ok s0 p n w : wf s0 -> forall l s js, pool s0 s p n js w ->
  exists s' js', run (VP p 0) l s = Ret (fst (history (length js) (orc s) l), s') /\ pool s0 s' p n js' w /\ length js' = snd (history (length js) (orc s) l).
Proof.
  intros W0. induction l as [|o l IH]; intros s js P; [exists s, js; auto|]. cbn [run history].
  pose proof P as (hj & t & y & ths & W & O & X0 & X1 & LT & LW & H3). destruct o; cbn [step].
  - destruct (add_ok s0 s p hj y js _ O) as (s1 & Q1 & H). destruct (nxt_answer (orc s)) as [g o] eqn:NA. cbn [fst snd] in *. destruct g.
    + destruct H as (j & E1 & O1). rewrite (bnd_ret _ _ _ _ _ E1).
      destruct (IH s1 (js ++ [j])) as (s2 & js2 & E2 & P2 & L2). { exists hj, t, (set3 (VI 1) y), ths, W. split; [exact O1|]. split; [exact X0|]. split; [exact X1|]. split; [auto|]. split; [auto|discriminate]. }
      rewrite Q1, app_length in *. cbn [length] in *. rewrite Nat.add_1_r in *. rewrite (bnd_ret _ _ _ _ _ E2). exists s2, js2. split; [reflexivity|]. auto.
    + destruct H as (E1 & O1). rewrite (bnd_ret _ _ _ _ _ E1). destruct (IH s1 js) as (s2 & js2 & E2 & P2 & L2). { exists hj, t, y, ths, W. auto 10. }
      rewrite Q1 in *. rewrite (bnd_ret _ _ _ _ _ E2). exists s2, js2. split; [reflexivity|]. auto.
  - destruct (turn_ok s0 s p hj y js _ W0 O) as (s1 & y1 & Q1 & E1 & O1 & Y).
    assert (P1 : pool s0 s1 p n (tl js) w). { exists hj, t, y1, ths, W. destruct Y as [-> | ->]; (split; [exact O1|]); (split; [exact X0|]); (split; [exact X1|]); (split; [auto|]); (split; [auto|]); [auto|discriminate]. }
    destruct (IH s1 (tl js) P1) as (s2 & js2 & E2 & P2 & L2). rewrite Q1 in *. destruct js as [|j js]; cbn [length tl] in *.
    + rewrite (bnd_ret _ _ _ _ _ (bnd_ret _ _ _ _ _ E1)). rewrite (bnd_ret _ _ _ _ _ E2). exists s2, js2. split; [reflexivity|]. auto.
    + rewrite (bnd_ret _ _ _ _ _ (bnd_ret _ _ _ _ _ E1)). rewrite (bnd_ret _ _ _ _ _ E2). exists s2, js2. split; [reflexivity|]. auto.
Qed.

(** thpool_init *)
From Coq Require Import Permutation.
From Verif Require Import CBase LifeModel TpLifeModel TpLifeSpec TpLifeProof TpLifeProof2 TpLifeProof3.
Open Scope nat_scope.

Definition lost_on_refusal (win : bool) (o : list bool) : nat :=
  let '(a, o) := nxt_answer o in let '(b, _) := nxt_answer o in if a && b then wn win 7 else 0.
Lemma jqinit_ok win s0 s p : own s0 s [(p, mk_b true [VU; VI 0; VU; VU; VU; VU; VU; VU; VU; VU])] ->
  exists s', orc s' = snd (nxt_answer (orc s)) /\
    if fst (nxt_answer (orc s)) then exists hj W y, jobqueue_init win (VP p 0) s = Ret (true, s') /\ own s0 s' (QL p hj y [] (junk W)) /\ length W = wn win 4 /\ h3 y <> VU /\ x1 y = VI 0
    else jobqueue_init win (VP p 0) s = Ret (false, s') /\ exists c, own s0 s' [(p, mk_b true c)].
Proof.
  intro O. unfold jobqueue_init. assert (Q : orc s = orc s) by reflexivity. sto O Q (@nil (nat * block)). sto O Q (@nil (nat * block)). sto O Q (@nil (nat * block)).
  destruct (r_malloc _ _ _ 4 O) as (v & s4 & E4 & Q4 & H). rewrite (bnd_ret _ _ _ _ _ E4). rewrite Q in *. clear Q. rename Q4 into Q. destruct (fst (nxt_answer (orc s))).
  - destruct H as (hj & -> & O4). clear O. match type of O4 with own _ _ (?a :: _) => sto O4 Q [a] end. cbn [isnull]. rewrite (bnd_ret _ _ s5 false s5 eq_refl).
    match type of O4 with own _ _ (?a :: _) => destruct (r_mutex win s0 s5 [a] [] p true _ 0 9 O4 ltac:(cbn; lia)) as (s6 & W1 & c1 & E6 & O6 & Q6 & L6 & _ & v9 & _ & EC) end. cbn in EC. injection EC as <-. rewrite (bnd_ret _ _ _ _ _ E6).
    cbn [app repeat] in O6. destruct (bsem_ok win s0 s6 hj _ _ _ _ [] _ O6) as (s7 & W2 & a' & b' & c' & E7 & Q7 & L7 & O7). rewrite (bnd_ret _ _ _ _ _ E7).
    exists s7. split; [congruence|]. exists hj, (W1 ++ W2), (mk_rest VU (VI 0) VU VU VU v9 a' b' c' (VI 0)). split; [reflexivity|]. split; [|split; [rewrite app_length, L6, L7; apply (wn_add win 1 3)|split; [discriminate|reflexivity]]].
    eapply own_perm; [exact O7|]. rewrite junk_app. unfold QL, pb, hb. cbn [fr rr ptr jb app x0 x1 c6 c7 c8 c9 h0 h1 h2 h3]. apply perm_swap.
  - destruct H as (-> & O4). sto O4 Q (@nil (nat * block)). exists s5. split; [exact Q|]. split; [reflexivity|]. eexists. exact O4.
Qed.
Lemma init_ok win num s : wf s ->
  match init_end_of (Z.to_nat num) (orc s) with
  | Gives => exists s' p, tp_init win num s = Ret (TPool (VP p 0), s') /\ pool s s' p (Z.to_nat num) [] (wn win 7)
  | Refuses => exists s' W, tp_init win num s = Ret (TNull, s') /\ own s s' (junk W) /\ length W = lost_on_refusal win (orc s)
  | Hangs => exists s', tp_init win num s = Ret (THang, s')
  | Crashes => tp_init win num s = Ub
  end.
Proof.
  intro W0. unfold init_end_of, lost_on_refusal. assert (EN : Z.to_nat (if (num <? 0)%Z then 0%Z else num) = Z.to_nat num) by (destruct (Z.ltb_spec num 0); lia).
  destruct (r_malloc s s [] 10 (own_start s)) as (v & s1 & E1 & Q1 & H1). destruct (nxt_answer (orc s)) as [g1 o1]. cbn [fst snd] in *. destruct g1; cbn [negb].
  2:{ destruct H1 as (-> & O1). exists s1, []. split; [unfold tp_init; rewrite (bnd_ret _ _ _ _ _ E1); reflexivity|]. split; [exact O1|]. destruct (nxt_answer o1). reflexivity. }
  destruct H1 as (p & -> & O1). cbn [repeat] in O1. destruct (r_store s s1 [] [] p true _ 0 1 (VI 0) _ O1 eq_refl) as (s2 & E2 & O2 & Q2).
  destruct (jqinit_ok win s s2 p O2) as (s3 & Q3 & H3). rewrite Q2, Q1 in *. destruct (nxt_answer o1) as [g2 o2]. cbn [fst snd] in *. destruct g2; cbn [negb andb].
  2:{ destruct H3 as (E3 & c & O3). destruct (r_free s s3 [] [] p c W0 O3) as (s4 & E4 & O4 & _). exists s4, []. split; [|split; [exact O4|reflexivity]].
      unfold tp_init. rewrite (bnd_ret _ _ _ _ _ E1). cbn [isnull]. rewrite (bnd_ret _ _ s1 false s1 eq_refl), (bnd_ret _ _ _ _ _ E2), (bnd_ret _ _ _ _ _ E3). cbn [negb]. rewrite (bnd_ret _ _ _ _ _ E4). reflexivity. }
  destruct H3 as (hj & W1 & y & E3 & O3 & L1 & NH & X1).
  destruct (r_malloc s s3 _ (Z.to_nat num) O3) as (v & s4 & E4 & Q4 & H4). rewrite Q3 in *. destruct (nxt_answer o2) as [g3 o3]. cbn [fst snd] in *.
  assert (E : tp_init win num s = (store (VP p 0) 0 v ;;; z <-- isnull v ;; if z then jobqueue_destroy win 1 (VP p 0) ;;; free_ (VP p 0) ;;; ret TNull
      else mutex_init win (VP p 0) 6 ;;; cond_init win (VP p 0) 7 ;;;
        k <-- threads_init (VP p 0) v 0 (Z.to_nat num) ;; store (VP p 0) 1 (VI k) ;;; if (k =? Z.of_nat (Z.to_nat num))%Z then ret (TPool (VP p 0)) else ret THang) s4).
  { unfold tp_init. cbv zeta. rewrite EN. rewrite (bnd_ret _ _ _ _ _ E1). cbn [isnull]. rewrite (bnd_ret _ _ s1 false s1 eq_refl), (bnd_ret _ _ _ _ _ E2), (bnd_ret _ _ _ _ _ E3). cbn [negb]. rewrite (bnd_ret _ _ _ _ _ E4). reflexivity. }
  destruct g3; cbn [negb].
  2:{ destruct H4 as (-> & O4). rewrite E. clear E. unfold QL, pb in O4. assert (Q := Q4). sto O4 Q (@nil (nat * block)). cbn [isnull]. rewrite (bnd_ret _ _ s0 true s0 eq_refl).
      set (y1 := mk_rest V0 (x1 y) (c6 y) (c7 y) (c8 y) (c9 y) (h0 y) (h1 y) (h2 y) (h3 y)).
      destruct (jq_destroy_ok win s s0 p hj y1 [] (junk W1) 1 W0 O4 NH ltac:(cbn; lia)) as (s5 & W2 & y2 & E5 & Q5 & L5 & _ & _ & O5). rewrite (bnd_ret _ _ _ _ _ E5).
      destruct (r_free s s5 [] _ p _ W0 O5) as (s6 & E6 & O6 & _). rewrite (bnd_ret _ _ _ _ _ E6). exists s6, (W1 ++ W2). split; [reflexivity|]. split; [rewrite junk_app; exact O6|]. rewrite app_length, L1, L5. apply (wn_add win 4 3). }
  destruct H4 as (t & -> & O4).
  assert (X : exists s7 W y', tp_init win num s = (k <-- threads_init (VP p 0) (VP t 0) 0 (Z.to_nat num) ;; store (VP p 0) 1 (VI k) ;;; if (k =? Z.of_nat (Z.to_nat num))%Z then ret (TPool (VP p 0)) else ret THang) s7 /\
    orc s7 = o3 /\ length W = wn win 7 /\ own s s7 ((p, pb hj V0 V0 0 y') :: (hj, hb y') :: (t, mk_b true (repeat VU (Z.to_nat num))) :: junk W) /\ x0 y' = VP t 0 /\ h3 y' <> VU).
  { rewrite E. clear E. unfold QL, pb in O4. assert (Q := Q4). match type of O4 with own _ _ (?a :: _) => sto O4 Q [a] end. cbn [isnull]. rewrite (bnd_ret _ _ s0 false s0 eq_refl).
    cbn [fr rr ptr jb app] in O4. change (zlen (@nil nat)) with 0%Z in O4.
    match type of O4 with own _ _ (?a :: _) => destruct (r_mutex win s s0 [a] _ p true _ 0 6 O4 ltac:(cbn; lia)) as (s6 & W2 & c1 & E6 & O6 & Q6 & L6 & _ & v6 & _ & EC) end. cbn in EC. injection EC as <-. rewrite (bnd_ret _ _ _ _ _ E6).
    match type of O6 with own _ _ ([?a] ++ _) => destruct (cond_ok win s s6 p _ [a] _ 7 O6 ltac:(cbn; lia)) as (s7 & W3 & v7 & v8 & d1 & d2 & E7 & Q7 & L7 & D1 & D2 & O7) end. cbn in D1. injection D1 as <-. cbn in D2. injection D2 as <-. rewrite (bnd_ret _ _ _ _ _ E7).
    exists s7, ((W1 ++ W2) ++ W3), (mk_rest (VP t 0) (x1 y) v6 v7 v8 (c9 y) (h0 y) (h1 y) (h2 y) (h3 y)). split; [reflexivity|]. split; [congruence|]. split; [rewrite !app_length, L1, L6, L7, wn_add, wn_add; reflexivity|]. split; [|auto].
    eapply own_perm; [exact O7|]. rewrite !junk_app. unfold pb, hb. cbn [app x0 x1 c6 c7 c8 c9 h0 h1 h2 h3]. 
    etransitivity; [apply perm_swap|]. apply perm_skip. apply perm_swap. }
  destruct X as (s7 & W & y' & EX & Q7 & LW & O7 & X0 & NH'). clear E.
  match type of O7 with own _ _ (?a :: ?b :: _) => pose proof (threads_init_ok s p t (Z.to_nat num) [] s7 0 [a; b] (junk W) O7 eq_refl) as T end. rewrite Q7 in T. destruct (threads_end (Z.to_nat num) o3); rewrite EX.
  - destruct T as (s8 & ths & E8 & L8 & O8). rewrite (bnd_ret _ _ _ _ _ E8). cbn [app] in O8. unfold pb in O8. assert (Q : orc s8 = orc s8) by reflexivity. sto O8 Q (@nil (nat * block)). rewrite Z.eqb_refl. exists s0, p. split; [reflexivity|].
    exists hj, t, (mk_rest (VP t 0) (VI (Z.of_nat (Z.to_nat num))) (c6 y') (c7 y') (c8 y') (c9 y') (h0 y') (h1 y') (h2 y') (h3 y')), ths, W.
    split; [|split; [reflexivity|split; [reflexivity|split; [exact L8|split; [exact LW|exact NH']]]]]. unfold PL, QL, pb. cbn [fr rr ptr jb app x0 x1 c6 c7 c8 c9]. rewrite X0 in O8. exact O8.
  - contradiction.
  - destruct T as (s8 & k & E8 & K & L & O8). rewrite (bnd_ret _ _ _ _ _ E8). cbn [app] in O8. unfold pb in O8. assert (Q : orc s8 = orc s8) by reflexivity. sto O8 Q (@nil (nat * block)).
    destruct (Z.eqb_spec k (Z.of_nat (Z.to_nat num))); [lia|]. exists s0. reflexivity.
  - unfold bnd at 1. rewrite T. reflexivity.
Qed.

(** The operations *)
From Coq Require Import Permutation.
From Verif Require Import CBase LifeModel TpLifeSpec TpLifeProof TpLifeProof2 IniLifeModel IniLifeSpec IniLifeProof IniLifeProof2 IniLifeProof3.
Open Scope nat_scope.

Definition cache_ok (a : aini) (u : val) (xs : list sec) : Prop :=
  match cache a with Never => u = V0 /\ xs = [] | Newest => exists pre x, xs = pre ++ [x] /\ u = VP (sa x) 0 | Deleted => False end.
Section P.
Variables (cut : Z -> Z) (s0 : st).
Hypothesis W0 : wf s0.
Definition making (p ls : nat) (q : Z) : M val :=
  t <-- zeroed [VI 0; V0] ;; z <-- isnull t ;; if z then ret V0
        else l <-- list_new ;; store t 1 l ;;; z <-- isnull l ;; if z then free_ t ;;; ret V0
          else store t 0 (VI (cut q)) ;;;
            ok <-- list_append (VP ls 0) t ;; if negb ok then free_ t ;;; ret V0
            else store (VP p 0) 1 t ;;; ret t.
Lemma search_ok fuel p ls u xs W m a q s : own s0 s (REP p ls u xs W) -> small m xs -> m < fuel -> secs a = map abs1 xs -> cache_ok a u xs ->
  (exists pre x post, xs = pre ++ x :: post /\ place a q = Some (length pre) /\ forall auto, search cut fuel (VP p 0) auto q s = Ret (VP (sa x) 0, s)) \/
  (place a q = None /\ search cut fuel (VP p 0) false q s = Ret (V0, s) /\ search cut fuel (VP p 0) true q s = making p ls q s).
Proof.
  intros O (S1 & S2) F EA CO.
  assert (LS : load (VP p 0) 0 s = Ret (VP ls 0, s)) by (unfold REP in O; apply (r_load s0 s [] _ p true _ 0 0 _ O eq_refl); discriminate).
  assert (OF : own s0 s (FL ls (map isec xs) ++ (p, mk_b true [VP ls 0; u]) :: flat_map SUB xs ++ lostb W)) by (unfold REP in O; op O).
  destruct (load_head s0 s ls _ _ OF) as (H0 & H2).
  assert (HIT : exists z b, load (VP p 0) 1 s = Ret (u, s) /\ isnull u s = Ret (z, s) /\ (if z then ret false else x <-- load u 0 ;; x <-- num x ;; ret (x =? q)%Z) s = Ret (b, s) /\
    if b then exists pre x, xs = pre ++ [x] /\ u = VP (sa x) 0 /\ place a q = Some (length pre) else place a q = pos q (secs a)).
  { unfold cache_ok in CO. destruct (cache a) eqn:CA; [| |contradiction].
    - destruct CO as (-> & ->). exists true, false. split; [|split; [reflexivity|split; [reflexivity|]]].
      + unfold REP in O; apply (r_load s0 s [] _ p true _ 0 1 _ O eq_refl); discriminate.
      + unfold place. rewrite CA. reflexivity.
    - destruct CO as (pre & x & EX & ->). 
      assert (LN : load (VP (sa x) 0) 0 s = Ret (VI (nm x), s)).
      { rewrite EX, map_app in OF. cbn [map] in OF. apply (load_data s0 s ls (map isec pre) (isec x) [] _ 0 _ OF eq_refl). discriminate. }
      exists false, (nm x =? q)%Z. split; [|split; [reflexivity|split]].
      + unfold REP in O; apply (r_load s0 s [] _ p true _ 0 1 _ O eq_refl); discriminate.
      + rewrite (bnd_ret _ _ _ _ _ LN). reflexivity.
      + assert (L : length (secs a) - 1 = length pre) by (rewrite EA, EX, map_length, app_length; cbn; lia).
        assert (NX : nth_error (secs a) (length pre) = Some (abs1 x)) by (rewrite EA, EX, map_app, <- (map_length abs1 pre); apply nth_mid).
        unfold place. rewrite CA, L, NX. cbn [abs1 fst]. destruct (nm x =? q)%Z; [|reflexivity]. exists pre, x. auto. }
  destruct HIT as (z & b & HA & HZ & HT & HC). unfold search.
  destruct b.
  - left. destruct HC as (pre & x & EX & EU & PL). exists pre, x, []. split; [exact EX|]. split; [exact PL|]. intro auto. rewrite (bnd_ret _ _ _ _ _ HA), (bnd_ret _ _ _ _ _ HZ), (bnd_ret _ _ _ _ _ HT), EU. reflexivity.
  - rewrite HC, EA. destruct (find_ok s0 q (HB ls (map isec xs) :: (p, mk_b true [VP ls 0; u]) :: flat_map SUB xs ++ lostb W) (map isec xs) fuel s) as [(p1 & i & p2 & E1 & E2 & E3 & E4)|(E1 & E2)]; [unfold FL in OF; op OF|apply named_sec|rewrite map_length; lia| |].
    + left. destruct (map_split _ _ _ _ _ E1) as (pre & x & post & EX & M1 & M2 & M3). exists pre, x, post. split; [exact EX|]. split.
      * rewrite EX, map_app. cbn [map]. rewrite <- (map_length abs1 pre). apply pos_some; [subst i; exact E2|]. apply nam_sec. rewrite M1. exact E3.
      * intro auto. rewrite (bnd_ret _ _ _ _ _ HA), (bnd_ret _ _ _ _ _ HZ), (bnd_ret _ _ _ _ _ HT), (bnd_ret _ _ _ _ _ LS), (bnd_ret _ _ _ _ _ H2). cbn [num]. rewrite (bnd_ret (ret _) _ s _ s eq_refl).
        assert (Z0 : (zlen (map isec xs) =? 0)%Z = false) by (rewrite E1, zlen_app, zlen_cons; pose proof (zlen_nonneg p1); pose proof (zlen_nonneg p2); lia). rewrite Z0, andb_false_r. rewrite (bnd_ret _ _ _ _ _ H0), (bnd_ret _ _ _ _ _ E4). cbn [isnull]. rewrite (bnd_ret (ret _) _ s _ s eq_refl), andb_false_r. subst i. reflexivity.
    + right. split; [apply pos_none, nam_sec; exact E1|]. split.
      * rewrite (bnd_ret _ _ _ _ _ HA), (bnd_ret _ _ _ _ _ HZ), (bnd_ret _ _ _ _ _ HT), (bnd_ret _ _ _ _ _ LS), (bnd_ret _ _ _ _ _ H2). cbn [num]. rewrite (bnd_ret (ret _) _ s _ s eq_refl). cbn [negb andb].
        destruct (zlen (map isec xs) =? 0)%Z; [reflexivity|]. rewrite (bnd_ret _ _ _ _ _ H0), (bnd_ret _ _ _ _ _ E2). reflexivity.
      * rewrite (bnd_ret _ _ _ _ _ HA), (bnd_ret _ _ _ _ _ HZ), (bnd_ret _ _ _ _ _ HT), (bnd_ret _ _ _ _ _ LS), (bnd_ret _ _ _ _ _ H2). cbn [num]. rewrite (bnd_ret (ret _) _ s _ s eq_refl). cbn [negb andb].
        rewrite (bnd_ret _ _ _ _ _ H0), (bnd_ret _ _ _ _ _ E2). cbn [isnull]. rewrite (bnd_ret (ret _) _ s _ s eq_refl). reflexivity.
Qed.
Definition rel (s : st) (p : nat) (a : aini) (m : nat) : Prop := exists ls u xs W, own s0 s (REP p ls u xs W) /\ secs a = map abs1 xs /\ length W = lost a /\ small m xs /\
  match cache a with Deleted => exists b, u = VP b 0 /\ hp s b = None | _ => cache_ok a u xs end.
Lemma small_le m n xs : small m xs -> m <= n -> small n xs. Proof. intros (A & B) L. split; [lia|]. eapply Forall_impl; [|exact B]. cbn. intros. lia. Qed.
Lemma put_ok fuel p a m q k v s : rel s p a m -> cache a <> Deleted -> S m < fuel ->
  exists s' r a', put cut fuel (VP p 0) q k v s = Ret (r, s') /\ a_put cut q k v a (orc s) = (r, a', orc s') /\ rel s' p a' (S (S m)) /\ cache a' <> Deleted.
Proof.
  intros (ls & u & xs & W & O & EA & EW & SM & CO) CD F. assert (CO' : cache_ok a u xs) by (destruct (cache a); [exact CO|exact CO|congruence]). clear CO.
  assert (KEEP : forall s1, own s0 s1 (REP p ls u xs W) -> rel s1 p a (S (S m))).
  { intros s1 O1. exists ls, u, xs, W. split; [exact O1|]. split; [auto|]. split; [auto|]. split; [eapply small_le; [exact SM|lia]|]. destruct (cache a); auto. congruence. }
  assert (PUT : forall t s1 s2, search cut fuel (VP p 0) true q s1 = Ret (VP t 0, s2) -> put cut fuel (VP p 0) q k v s1 = put_rest cut fuel (VP t 0) k v s2).
  { intros t s1 s2 E. unfold put. rewrite (bnd_ret _ _ _ _ _ E). cbn [isnull]. rewrite (bnd_ret (ret false) _ s2 false s2 eq_refl). reflexivity. }
  destruct (search_ok fuel p ls u xs W m a q s O SM ltac:(lia) EA CO') as [(pre & x & post & EX & PL & SE)|(PL & _ & SE)].
  - subst xs. rewrite (PUT _ _ _ (SE true)). destruct (put_rest_ok cut s0 W0 fuel p ls u pre x post W m k v s a O SM ltac:(lia) EA) as (s1 & x' & r & a' & E1 & E2 & O1 & SM1 & EA1 & C1 & L1 & X1).
    exists s1, r, a'. split; [exact E1|]. split; [unfold a_put; rewrite PL; exact E2|]. split; [|rewrite C1; exact CD]. exists ls, u, (pre ++ x' :: post), W. split; [exact O1|]. split; [exact EA1|]. split; [congruence|]. split; [eapply small_le; [exact SM1|lia]|].
    assert (CK : cache_ok a' u (pre ++ x' :: post)).
    { unfold cache_ok in *. rewrite C1. destruct (cache a); [destruct CO' as (_ & CO'); destruct pre; discriminate| |contradiction].
      destruct CO' as (pr & y & EY & EU). destruct post as [|w post] using rev_ind.
      - apply app_inj_tail in EY. destruct EY as (<- & <-). exists pre, x'. split; [reflexivity|congruence].
      - rewrite app_comm_cons, app_assoc in EY. apply app_inj_tail in EY. destruct EY as (_ & <-). exists (pre ++ x' :: post), w. split; [rewrite <- app_assoc; reflexivity|exact EU]. }
    destruct (cache a') eqn:CA; auto. unfold cache_ok in CK. rewrite CA in CK. contradiction.
  - unfold a_put. rewrite PL. unfold put. 
    assert (NONE : forall s2, making p ls q s = Ret (V0, s2) -> (t <-- search cut fuel (VP p 0) true q ;; z <-- isnull t ;; if z then ret 3%Z else put_rest cut fuel t k v) s = Ret (3%Z, s2)).
    { intros s2 E. unfold bnd at 1. rewrite SE, E. reflexivity. }
    change (exists s' r a', (t <-- search cut fuel (VP p 0) true q ;; z <-- isnull t ;; if z then ret 3%Z else put_rest cut fuel t k v) s = Ret (r, s') /\
      (let '(b, o) := nxt_answer (orc s) in if negb b then (3%Z, a, o) else let '(b0, o0) := nxt_answer o in if negb b0 then (3%Z, a, o0) else let '(b1, o1) := nxt_answer o0 in if negb b1 then (3%Z, mk_a (secs a) (cache a) (S (lost a)), o1) else
        a_put_entry cut (length (secs a)) k v (mk_a (secs a ++ [(cut q, [])]) Newest (lost a)) o1) = (r, a', orc s') /\ rel s' p a' (S (S m)) /\ cache a' <> Deleted).
    unfold making in SE, NONE. destruct (zeroed_ok s0 s _ [VI 0; V0] O) as (v1 & s1 & E1 & Q1 & H1). rewrite (bnd_ret _ _ _ _ _ E1) in SE, NONE. destruct (nxt_answer (orc s)) as [g1 o1]. cbn [fst snd] in *. destruct g1; cbn [negb].
    2:{ destruct H1 as (-> & O1). exists s1, 3%Z, a. split; [apply NONE; reflexivity|]. split; [rewrite Q1; reflexivity|]. split; [apply KEEP; exact O1|exact CD]. }
    destruct H1 as (t & -> & O1). cbn [isnull] in SE, NONE. rewrite (bnd_ret (ret false) _ s1 false s1 eq_refl) in SE, NONE.
    unfold list_new in SE, NONE. destruct (zeroed_ok s0 s1 _ [V0; V0; VI 0] O1) as (v2 & s2 & E2 & Q2 & H2). rewrite (bnd_ret _ _ _ _ _ E2) in SE, NONE. rewrite Q1 in *. destruct (nxt_answer o1) as [g2 o2]. cbn [fst snd] in *. destruct g2; cbn [negb].
    2:{ destruct H2 as (-> & O2). destruct (r_store s0 s2 [] _ t true _ 0 1 V0 _ O2 eq_refl) as (s3 & E3 & O3 & Q3). destruct (r_free s0 s3 [] _ t _ W0 O3) as (s4 & E4 & O4 & Q4).
        exists s4, 3%Z, a. split; [apply NONE; rewrite (bnd_ret _ _ _ _ _ E3); cbn [isnull]; rewrite (bnd_ret (ret true) _ s3 true s3 eq_refl), (bnd_ret _ _ _ _ _ E4); reflexivity|]. split; [rewrite Q4, Q3, Q2; reflexivity|]. split; [apply KEEP; exact O4|exact CD]. }
    destruct H2 as (l & -> & O2). destruct (r_store s0 s2 [(l, mk_b true [V0; V0; VI 0])] _ t true _ 0 1 (VP l 0) _ O2 eq_refl) as (s3 & E3 & O3 & Q3). rewrite (bnd_ret _ _ _ _ _ E3) in SE, NONE. cbn [isnull] in SE, NONE. rewrite (bnd_ret (ret false) _ s3 false s3 eq_refl) in SE, NONE.
    cbn [app] in O3. destruct (r_store s0 s3 [(l, mk_b true [V0; V0; VI 0])] _ t true _ 0 0 (VI (cut q)) _ O3 eq_refl) as (s4 & E4 & O4 & Q4). rewrite (bnd_ret _ _ _ _ _ E4) in SE, NONE. cbn [app] in O4.
    assert (O4' : own s0 s4 ((t, mk_b true [VI (cut q); VP l 0]) :: FL ls (map isec xs) ++ (l, mk_b true [V0; V0; VI 0]) :: (p, mk_b true [VP ls 0; u]) :: flat_map SUB xs ++ lostb W)) by (unfold REP in O4; op O4).
    destruct (append_ok s0 s4 ls _ t _ _ O4') as (s5 & E5 & Q5 & H5). rewrite (bnd_ret _ _ _ _ _ E5) in SE, NONE. assert (Q4' : orc s4 = o2) by congruence. rewrite Q4' in *. destruct (nxt_answer o2) as [g3 o3]. cbn [fst snd] in *. destruct g3; cbn [negb] in *.
    + destruct H5 as (n & O5). 
      destruct (r_store s0 s5 (FL ls (map isec xs ++ [(n, t, [VI (cut q); VP l 0])]) ++ [(l, mk_b true [V0; V0; VI 0])]) (flat_map SUB xs ++ lostb W) p true [VP ls 0; u] 0 1 (VP t 0) [VP ls 0; VP t 0]) as (s6 & E6 & O6 & Q6); [op O5|reflexivity|]. rewrite (bnd_ret _ _ _ _ _ E6) in SE.
      set (x := mk_sec n t (cut q) l []). unfold bnd at 1. rewrite SE. cbn [ret isnull]. rewrite (bnd_ret (ret false) _ s6 false s6 eq_refl).
      assert (OR : own s0 s6 (REP p ls (VP t 0) (xs ++ [x]) W)).
      { unfold REP. rewrite map_app, flat_map_app. cbn [map flat_map]. change (isec x) with (n, t, [VI (cut q); VP l 0]). change (SUB x) with [(l, mk_b true [V0; V0; VI 0])]. op O6. }
      destruct SM as (SM1 & SM2). assert (SMX : small (S m) (xs ++ [x])). { split; [rewrite app_length; cbn; lia|]. apply Forall_app. split; [eapply Forall_impl; [|exact SM2]; cbn; intros; lia|]. constructor; [cbn; lia|constructor]. }
      destruct (put_rest_ok cut s0 W0 fuel p ls (VP t 0) xs x [] W (S m) k v s6 (mk_a (secs a ++ [(cut q, [])]) Newest (lost a)) OR SMX F) as (s7 & x' & r & a' & E7 & E8 & O7 & SM7 & EA7 & C7 & L7 & X7).
      { cbn [secs]. rewrite EA, map_app. reflexivity. }
      exists s7, r, a'. split; [exact E7|]. assert (LL : length xs = length (secs a)) by (rewrite EA, map_length; reflexivity). rewrite LL in E8. assert (Q6' : orc s6 = o3) by congruence. rewrite Q6' in E8. split; [exact E8|]. cbn [cache lost] in *.
      split; [|rewrite C7; discriminate]. exists ls, (VP t 0), (xs ++ [x']), W. split; [exact O7|]. split; [exact EA7|]. split; [congruence|]. split; [exact SM7|]. rewrite C7. unfold cache_ok. rewrite C7. exists xs, x'. split; [reflexivity|]. rewrite X7. reflexivity.
    + destruct (r_free s0 s5 [] _ t _ W0 H5) as (s6 & E6 & O6 & Q6). cbn [app] in O6. exists s6, 3%Z, (mk_a (secs a) (cache a) (S (lost a))).
      split; [apply NONE; rewrite (bnd_ret _ _ _ _ _ E6); reflexivity|]. split; [rewrite Q6, Q5; reflexivity|]. split; [|exact CD].
      exists ls, u, xs, (l :: W). split; [unfold REP; cbn [lostb map]; fold (lostb W); op O6|]. split; [exact EA|]. split; [cbn; congruence|]. split; [eapply small_le; [exact SM|lia]|]. cbn [cache]. unfold cache_ok in *. cbn [cache]. destruct (cache a); auto. congruence.
Qed.
End P.

(** Reading, deleting, creating and destroying *)
From Coq Require Import Permutation.
From Verif Require Import CBase LifeModel TpLifeSpec TpLifeProof TpLifeProof2 IniLifeModel IniLifeSpec IniLifeProof IniLifeProof2 IniLifeProof3 IniLifeProof4.
Open Scope nat_scope.

Lemma own_leaks s s' L : own s s' L -> wf s -> leaks (length L) s s'.
Proof.
  intros (A & B & C & D) W0. exists (map fst L). split; [apply map_length|]. split; [auto|]. split; intros b I.
  - split; [apply W0; apply (C b I)|]. rewrite D. assert (X : exists k, assoc b L = Some k).
    { apply in_map_iff in I. destruct I as ([c k] & <- & I). exists k. apply assoc_in; auto. }
    destruct X as (k & ->). discriminate.
  - rewrite D, assoc_none; auto.
Qed.
Lemma leaks_none s s' : leaks 0 s s' -> forall b, hp s' b = hp s b.
Proof. intros ([|] & L & _ & _ & H) b; [apply H; intros []|discriminate]. Qed.

Section P.
Variables (cut : Z -> Z) (s0 : st).
Hypothesis W0 : wf s0.
Lemma rel_cache a u xs : cache a <> Deleted -> match cache a with Deleted => exists b, u = VP b 0 /\ hp s0 b = None | _ => cache_ok a u xs end -> cache_ok a u xs.
Proof. intros N H. destruct (cache a); auto. congruence. Qed.
(** the entries of section x and the one looked for *)
Lemma find_kv fuel p ls u pre x post W m k s a : own s0 s (REP p ls u (pre ++ x :: post) W) -> small m (pre ++ x :: post) -> m < fuel -> secs a = map abs1 (pre ++ x :: post) ->
  nth_error (secs a) (length pre) = Some (abs1 x) /\ entries (length pre) a = map kv2 (kvs x) /\
  ((exists z n d v z', kvs x = z ++ (n, d, k, v) :: z' /\ pos k (entries (length pre) a) = Some (length z) /\ search_kv fuel (VP (pl x) 0) k s = Ret (VP d 0, s) /\ load (VP d 0) 1 s = Ret (VI v, s)) \/
   (pos k (entries (length pre) a) = None /\ search_kv fuel (VP (pl x) 0) k s = Ret (V0, s))).
Proof.
  intros O (SM1 & SM2) F EA. assert (LX : length (kvs x) <= m) by (apply Forall_app in SM2; destruct SM2 as (_ & SM2); inversion_clear SM2; auto).
  apply rep_oth in O. unfold SUB in O.
  assert (EN : nth_error (secs a) (length pre) = Some (abs1 x)) by (rewrite EA, map_app, <- (map_length abs1 pre); apply nth_mid).
  assert (EE : entries (length pre) a = map kv2 (kvs x)) by (unfold entries; rewrite EN; reflexivity).
  split; [exact EN|]. split; [exact EE|]. rewrite EE.
  destruct (search_kv_ok s0 k (OTH p ls u pre x post W) (map ikv (kvs x)) fuel s (pl x) O (named_kv _) ltac:(rewrite map_length; lia)) as [(q & y & q' & E1 & E2 & E3 & E4)|(E1 & E2)].
  - left. rewrite E1 in O. destruct (map_split _ _ _ _ _ E1) as (z & [[[n d] k'] v'] & z' & EK & M1 & M2 & M3). cbn [ikv] in M2. subst y. cbn [nam cnt snd] in E2. subst k'. cbn [dat fst snd] in *.
    exists z, n, d, v', z'. split; [exact EK|]. split; [|split; [exact E4|]].
    + rewrite EK, map_app. cbn [map kv2]. rewrite <- (map_length kv2 z). apply pos_some; [reflexivity|]. apply nam_kv. rewrite M1. exact E3.
    + apply (load_data s0 s (pl x) q (n, d, [VI k; VI v']) q' _ 1 _ O eq_refl). discriminate.
  - right. split; [apply pos_none, nam_kv; exact E1|exact E2].
Qed.
Lemma get_ok fuel p a m q k s : rel s0 s p a m -> cache a <> Deleted -> m < fuel ->
  get cut fuel (VP p 0) q k s = Ret (match place a q with Some i => match pos k (entries i a) with Some j => match nth_error (entries i a) j with Some x => Some (snd x) | None => None end | None => None end | None => None end, s).
Proof.
  intros (ls & u & xs & W & O & EA & EW & SM & CO) CD F. assert (CO' : cache_ok a u xs) by (destruct (cache a); [exact CO|exact CO|congruence]). clear CO. unfold get.
  destruct (search_ok cut s0 fuel p ls u xs W m a q s O SM F EA CO') as [(pre & x & post & EX & PL & SE)|(PL & SE & _)]; rewrite PL.
  - subst xs. rewrite (bnd_ret _ _ _ _ _ (SE false)). cbn [isnull]. rewrite (bnd_ret (ret false) _ s false s eq_refl), (bnd_ret _ _ _ _ _ (load_plist _ _ _ _ _ _ _ _ _ O)).
    destruct (find_kv fuel p ls u pre x post W m k s a O SM F EA) as (EN & EE & [(z & n & d & v & z' & EK & PS & SK & LD)|(PS & SK)]); rewrite PS, (bnd_ret _ _ _ _ _ SK); cbn [isnull].
    + rewrite (bnd_ret (ret false) _ s false s eq_refl), (bnd_ret _ _ _ _ _ LD). rewrite EE, EK, map_app. cbn [map kv2]. rewrite <- (map_length kv2 z), nth_mid. reflexivity.
    + reflexivity.
  - rewrite (bnd_ret _ _ _ _ _ SE). reflexivity.
Qed.
Lemma small_drop m pre x post : small m (pre ++ x :: post) -> small m (pre ++ post).
Proof. intros (A & B). split; [rewrite app_length in *; cbn [length] in *; lia|]. apply Forall_app in B. destruct B as (B1 & B2). inversion_clear B2. apply Forall_app. auto. Qed.
Lemma delete_key_ok fuel p a m q k s : rel s0 s p a m -> cache a <> Deleted -> m < fuel ->
  exists s' r a', delete_key cut fuel (VP p 0) q k s = Ret (r, s') /\
    (match place a q with Some i => match pos k (entries i a) with Some j => (RCode 0, with_entries i (drop_at j (entries i a)) a, orc s) | None => (RCode 4, a, orc s) end | None => (RCode 4, a, orc s) end) = (RCode r, a', orc s') /\ rel s0 s' p a' m.
Proof.
  intros R CD F. pose proof R as (ls & u & xs & W & O & EA & EW & SM & CO). assert (CO' : cache_ok a u xs) by (destruct (cache a); [exact CO|exact CO|congruence]). unfold delete_key.
  destruct (search_ok cut s0 fuel p ls u xs W m a q s O SM F EA CO') as [(pre & x & post & EX & PL & SE)|(PL & SE & _)]; rewrite PL.
  2:{ exists s, 4%Z, a. rewrite (bnd_ret _ _ _ _ _ SE). auto. }
  subst xs. rewrite (bnd_ret _ _ _ _ _ (SE false)). cbn [isnull]. rewrite (bnd_ret (ret false) _ s false s eq_refl), (bnd_ret _ _ _ _ _ (load_plist _ _ _ _ _ _ _ _ _ O)).
  destruct (find_kv fuel p ls u pre x post W m k s a O SM F EA) as (EN & EE & [(z & n & d & v & z' & EK & PS & SK & LD)|(PS & SK)]); rewrite PS, (bnd_ret _ _ _ _ _ SK); cbn [isnull].
  2:{ exists s, 4%Z, a. auto. }
  rewrite (bnd_ret (ret false) _ s false s eq_refl), (bnd_ret _ _ _ _ _ (load_plist _ _ _ _ _ _ _ _ _ O)).
  pose proof O as O1. apply rep_oth in O1. unfold SUB in O1. rewrite EK, map_app in O1. cbn [map ikv] in O1.
  assert (LX : length (kvs x) <= m) by (destruct SM as (_ & SM2); apply Forall_app in SM2; destruct SM2 as (_ & SM2); inversion_clear SM2; auto).
  destruct (list_remove_ok s0 s (pl x) (map ikv z) (n, d, [VI k; VI v]) (map ikv z') _ fuel W0 O1) as (s1 & E1 & Q1 & O2); [rewrite map_length; rewrite EK, app_length in LX; cbn in LX; lia|].
  cbn [dat fst snd] in E1. rewrite (bnd_ret _ _ _ _ _ E1). exists s1, 0%Z, (with_entries (length pre) (drop_at (length z) (entries (length pre) a)) a). split; [reflexivity|]. split; [rewrite Q1; reflexivity|].
  set (x' := with_kvs x (z ++ z')). exists ls, u, (pre ++ x' :: post), W.
  assert (SX : sa x' = sa x) by reflexivity. split; [|split; [|split; [|split]]].
  - apply rep_oth. unfold SUB. cbn [x' with_kvs pl kvs]. rewrite map_app. exact O2.
  - unfold with_entries. cbn [secs]. rewrite EN, EE, EK, EA, !map_app. cbn [map kv2]. rewrite <- (map_length kv2 z), drop_mid, <- (map_length abs1 pre), set_mid. unfold abs1 at 5. cbn [x' with_kvs nm kvs abs1 fst]. rewrite map_app. reflexivity.
  - exact EW.
  - destruct SM as (SM1 & SM2). split; [rewrite app_length in *; cbn [length] in *; lia|]. apply Forall_app in SM2. destruct SM2 as (A & B). inversion_clear B as [|? ? B1 B2]. apply Forall_app. split; [exact A|]. constructor; [|exact B2]. cbn [x' with_kvs kvs]. rewrite EK, app_length in B1. rewrite app_length. cbn [length] in B1. lia.
  - assert (CK : cache_ok a u (pre ++ x' :: post)).
    { unfold cache_ok in *. destruct (cache a); [destruct CO' as (_ & CO'); destruct pre; discriminate| |contradiction].
      destruct CO' as (pr & y & EY & EU). destruct post as [|w post] using rev_ind.
      - apply app_inj_tail in EY. destruct EY as (<- & <-). exists pre, x'. split; [reflexivity|congruence].
      - rewrite app_comm_cons, app_assoc in EY. apply app_inj_tail in EY. destruct EY as (_ & <-). exists (pre ++ x' :: post), w. split; [rewrite <- app_assoc; reflexivity|exact EU]. }
    unfold with_entries. cbn [cache]. unfold cache_ok in *. cbn [cache]. destruct (cache a); auto. contradiction.
Qed.
Lemma own_out s b k L : own s0 s ((b, k) :: L) -> ~ In b (map fst L) /\ nxt s0 <= b.
Proof. intros (_ & ND & B & _). cbn [map fst] in *. inversion_clear ND. split; [auto|]. apply (B b). left. reflexivity. Qed.
Lemma own_gone s b L : own s0 s L -> ~ In b (map fst L) -> nxt s0 <= b -> hp s b = None.
Proof. intros (_ & _ & _ & H) N L0. rewrite H, (assoc_none _ _ N). apply W0. exact L0. Qed.
Lemma rep_drop s p ls u pre x post W : own s0 s (FL ls (map isec pre ++ map isec post) ++ (p, mk_b true [VP ls 0; u]) :: flat_map SUB pre ++ flat_map SUB post ++ lostb W) -> own s0 s (REP p ls u (pre ++ post) W) /\ (u = VP (sa x) 0 -> True).
Proof. intro O. split; [|auto]. unfold REP. rewrite map_app, flat_map_app. op O. Qed.
Lemma delete_section_ok fuel p a m q s : rel s0 s p a m -> cache a <> Deleted -> m < fuel ->
  exists s' r a', delete_section cut fuel (VP p 0) q s = Ret (r, s') /\
    (match place a q with Some i => (RCode 0, mk_a (drop_at i (secs a)) (if Nat.eqb i (length (secs a) - 1) then Deleted else cache a) (lost a), orc s) | None => (RCode 4, a, orc s) end) = (RCode r, a', orc s') /\ rel s0 s' p a' m.
Proof.
  intros R CD F. pose proof R as (ls & u & xs & W & O & EA & EW & SM & CO). assert (CO' : cache_ok a u xs) by (destruct (cache a); [exact CO|exact CO|congruence]). unfold delete_section.
  destruct (search_ok cut s0 fuel p ls u xs W m a q s O SM F EA CO') as [(pre & x & post & EX & PL & SE)|(PL & SE & _)]; rewrite PL.
  2:{ exists s, 4%Z, a. rewrite (bnd_ret _ _ _ _ _ SE). auto. }
  subst xs. rewrite (bnd_ret _ _ _ _ _ (SE false)). cbn [isnull]. rewrite (bnd_ret (ret false) _ s false s eq_refl), (bnd_ret _ _ _ _ _ (load_plist _ _ _ _ _ _ _ _ _ O)).
  assert (LX : length (kvs x) <= m) by (destruct SM as (_ & SM2); apply Forall_app in SM2; destruct SM2 as (_ & SM2); inversion_clear SM2; auto).
  assert (LP : length pre < m) by (destruct SM as (SM1 & _); rewrite app_length in SM1; cbn in SM1; lia).
  pose proof O as O1. apply rep_oth in O1. unfold SUB in O1. destruct (list_free_ok s0 s (pl x) _ _ fuel W0 O1) as (s1 & E1 & Q1 & O2); [rewrite map_length; lia|]. rewrite (bnd_ret _ _ _ _ _ E1).
  assert (LS : load (VP p 0) 0 s1 = Ret (VP ls 0, s1)) by (unfold OTH in O2; apply (r_load s0 s1 [] _ p true _ 0 0 _ O2 eq_refl); discriminate). rewrite (bnd_ret _ _ _ _ _ LS).
  assert (O3 : own s0 s1 (FL ls (map isec pre ++ isec x :: map isec post) ++ (p, mk_b true [VP ls 0; u]) :: flat_map SUB pre ++ flat_map SUB post ++ lostb W)) by (unfold OTH in O2; op O2).
  assert (OUT : ~ In (sa x) (map fst (FL ls (map isec pre ++ map isec post) ++ (p, mk_b true [VP ls 0; u]) :: flat_map SUB pre ++ flat_map SUB post ++ lostb W)) /\ nxt s0 <= sa x).
  { assert (O4 : own s0 s1 ((sa x, mk_b true [VI (nm x); VP (pl x) 0]) :: HB ls (map isec pre ++ isec x :: map isec post) :: nb (map isec pre ++ isec x :: map isec post) ++ db (map isec pre ++ map isec post) ++ (p, mk_b true [VP ls 0; u]) :: flat_map SUB pre ++ flat_map SUB post ++ lostb W)).
    { unfold FL in O3. rewrite db_app in *. cbn [db map] in O3. fold (db (map isec post)) in O3. change (dat (isec x)) with (sa x) in O3. change (cnt (isec x)) with [VI (nm x); VP (pl x) 0] in O3. op O3. }
    destruct (own_out _ _ _ _ O4) as (N & L0). split; [|exact L0]. intro I. apply N. clear - I. unfold FL in I. cbn [app map] in *. destruct I as [I|I]; [left; exact I|right]. rewrite !map_app in *. rewrite !nb_fst in *. rewrite <- app_assoc in I. 
    apply in_app_or in I. apply in_or_app. destruct I as [I|I]; [left|right; exact I]. rewrite map_app in *. apply in_app_or in I. apply in_or_app. destruct I as [I|I]; [left; exact I|right; right; exact I]. }
  destruct (list_remove_ok s0 s1 ls (map isec pre) (isec x) (map isec post) _ fuel W0 O3) as (s2 & E2 & Q2 & O4); [rewrite map_length; lia|].
  change (dat (isec x)) with (sa x) in E2. rewrite (bnd_ret _ _ _ _ _ E2). set (c := if Nat.eqb (length pre) (length (secs a) - 1) then Deleted else cache a).
  exists s2, 0%Z, (mk_a (drop_at (length pre) (secs a)) c (lost a)). split; [reflexivity|]. split; [rewrite Q2, Q1; reflexivity|].
  exists ls, u, (pre ++ post), W. split; [apply (rep_drop s2 p ls u pre x post W O4)|]. split; [cbn [secs]; rewrite EA, !map_app; cbn [map]; rewrite <- (map_length abs1 pre); apply drop_mid|]. split; [exact EW|]. split; [eapply small_drop; exact SM|].
  cbn [cache]. assert (LA : length (secs a) = length pre + S (length post)) by (rewrite EA, map_length, app_length; reflexivity). unfold c. destruct (Nat.eqb_spec (length pre) (length (secs a) - 1)) as [E|N].
  - exists (sa x). split.
    + destruct post; [|cbn in LA; lia]. unfold cache_ok in CO'. destruct (cache a); [destruct CO' as (_ & CO'); destruct pre; discriminate| |contradiction]. destruct CO' as (pr & y & EY & EU). apply app_inj_tail in EY. destruct EY as (_ & <-). exact EU.
    + destruct OUT. eapply own_gone; eauto.
  - assert (CK : cache_ok (mk_a (drop_at (length pre) (secs a)) (cache a) (lost a)) u (pre ++ post)).
    { unfold cache_ok in *. cbn [cache]. destruct (cache a); [destruct CO' as (_ & CO'); destruct pre; discriminate| |contradiction].
      destruct CO' as (pr & y & EY & EU). destruct post as [|w post] using rev_ind; [cbn in LA; lia|].
      rewrite app_comm_cons, app_assoc in EY. apply app_inj_tail in EY. destruct EY as (_ & <-). exists (pre ++ post), w. split; [rewrite <- app_assoc; reflexivity|exact EU]. }
    unfold cache_ok in *. cbn [cache] in *. destruct (cache a); auto. contradiction.
Qed.
(** one operation *)
Lemma step_ok fuel p a m o s : rel s0 s p a m -> cache a <> Deleted -> S m < fuel ->
  exists s' r a', step cut fuel (VP p 0) o s = Ret (r, s') /\ a_step cut o a (orc s) = Some (r, a', orc s') /\ rel s0 s' p a' (S (S m)).
Proof.
  intros R CD F. assert (UP : forall s1 a1, rel s0 s1 p a1 m -> rel s0 s1 p a1 (S (S m))).
  { intros s1 a1 (ls & u & xs & W & H1 & H2 & H3 & H4 & H5). exists ls, u, xs, W. split; [exact H1|]. split; [exact H2|]. split; [exact H3|]. split; [eapply small_le; [exact H4|lia]|exact H5]. }
  unfold a_step. destruct o as [q k v|q k|q k|q]; cbn [step].
  - destruct (put_ok cut s0 W0 fuel p a m q k v s R CD F) as (s1 & r & a' & E1 & E2 & R1 & _). exists s1, (RCode r), a'. rewrite (bnd_ret _ _ _ _ _ E1), E2. split; [reflexivity|]. split; [destruct (cache a); [reflexivity|reflexivity|congruence]|exact R1].
  - pose proof (get_ok fuel p a m q k s R CD ltac:(lia)) as E. exists s. eexists. exists a. rewrite (bnd_ret _ _ _ _ _ E). split; [reflexivity|]. split; [destruct (cache a); [reflexivity|reflexivity|congruence]|apply UP; exact R].
  - destruct (delete_key_ok fuel p a m q k s R CD ltac:(lia)) as (s1 & r & a' & E1 & E2 & R1). exists s1, (RCode r), a'. rewrite (bnd_ret _ _ _ _ _ E1), E2. split; [reflexivity|]. split; [destruct (cache a); [reflexivity|reflexivity|congruence]|apply UP; exact R1].
  - destruct (delete_section_ok fuel p a m q s R CD ltac:(lia)) as (s1 & r & a' & E1 & E2 & R1). exists s1, (RCode r), a'. rewrite (bnd_ret _ _ _ _ _ E1), E2. split; [reflexivity|]. split; [destruct (cache a); [reflexivity|reflexivity|congruence]|apply UP; exact R1].
Qed.
Lemma deleted_ub fuel p a m o s : rel s0 s p a m -> cache a = Deleted -> step cut fuel (VP p 0) o s = Ub.
Proof.
  intros (ls & u & xs & W & O & EA & EW & SM & CO) CD. rewrite CD in CO. destruct CO as (b & -> & HB).
  assert (LU : load (VP p 0) 1 s = Ret (VP b 0, s)) by (unfold REP in O; apply (r_load s0 s [] _ p true _ 0 1 _ O eq_refl); discriminate).
  assert (SB : forall auto q, search cut fuel (VP p 0) auto q s = Ub).
  { intros auto q. unfold search. rewrite (bnd_ret _ _ _ _ _ LU). cbn [isnull]. rewrite (bnd_ret (ret false) _ s false s eq_refl). unfold bnd at 1 2 3, load. rewrite HB. reflexivity. }
  destruct o; cbn [step]; unfold put, get, delete_key, delete_section, bnd at 1 2; rewrite SB; reflexivity.
Qed.
Lemma run_ok fuel p : forall l a m s, rel s0 s p a m -> 2 * length l + m < fuel ->
  match a_run cut l a (orc s) with
  | Some (rs, a', o') => exists s', run cut fuel (VP p 0) l s = Ret (rs, s') /\ orc s' = o' /\ rel s0 s' p a' (2 * length l + m)
  | None => run cut fuel (VP p 0) l s = Ub
  end.
Proof.
  induction l as [|o l IH]; intros a m s R F; cbn [a_run run].
  - exists s. cbn. auto.
  - cbn [length] in F. destruct (cache a) eqn:CA.
    3:{ unfold a_step. rewrite CA. unfold bnd. rewrite (deleted_ub fuel p a m o s R CA). reflexivity. }
    all: destruct (step_ok fuel p a m o s R ltac:(congruence) ltac:(lia)) as (s1 & r & a1 & E1 & E2 & R1); rewrite E2; specialize (IH a1 (S (S m)) s1 R1 ltac:(lia));
      destruct (a_run cut l a1 (orc s1)) as [[[rs a2] o2]|]; [destruct IH as (s2 & E3 & Q3 & R3); exists s2; rewrite (bnd_ret _ _ _ _ _ E1), (bnd_ret _ _ _ _ _ E3); split; [reflexivity|split; [exact Q3|]]; replace (2 * length (o :: l) + m) with (2 * length l + S (S m)) by (cbn [length]; lia); exact R3|
        rewrite (bnd_ret _ _ _ _ _ E1); unfold bnd; rewrite IH; reflexivity].
Qed.
(** creating *)
Lemma own_start : own s0 s0 [].
Proof. split; [lia|]. split; [constructor|]. split; [intros b []|]. reflexivity. Qed.
Lemma create_ok : let '(b1, o1) := nxt_answer (orc s0) in let '(b2, o2) := nxt_answer o1 in
  if b1 && b2 then exists p s', create s0 = Ret (VP p 0, s') /\ orc s' = o2 /\ rel s0 s' p fresh_ini 0 else exists s', create s0 = Ret (V0, s') /\ own s0 s' [].
Proof.
  unfold create, list_new. destruct (zeroed_ok s0 s0 [] [V0; V0; VI 0] own_start) as (v1 & s1 & E1 & Q1 & H1). rewrite (bnd_ret _ _ _ _ _ E1). destruct (nxt_answer (orc s0)) as [b1 o1]. cbn [fst snd] in *. 
  destruct b1; cbn [andb].
  2:{ destruct H1 as (-> & O1). destruct (nxt_answer o1). exists s1. split; [reflexivity|exact O1]. }
  destruct H1 as (l & -> & O1). cbn [isnull]. rewrite (bnd_ret (ret false) _ s1 false s1 eq_refl). destruct (zeroed_ok s0 s1 _ [V0; V0] O1) as (v2 & s2 & E2 & Q2 & H2). rewrite (bnd_ret _ _ _ _ _ E2). rewrite Q1 in *. destruct (nxt_answer o1) as [b2 o2]. cbn [fst snd] in *. destruct b2.
  - destruct H2 as (p & -> & O2). cbn [isnull]. rewrite (bnd_ret (ret false) _ s2 false s2 eq_refl). destruct (r_store s0 s2 [] _ p true _ 0 0 (VP l 0) _ O2 eq_refl) as (s3 & E3 & O3 & Q3). rewrite (bnd_ret _ _ _ _ _ E3). exists p, s3. split; [reflexivity|]. split; [congruence|].
    exists l, V0, [], []. split; [unfold REP; op O3|]. split; [reflexivity|]. split; [reflexivity|]. split; [split; [cbn; lia|constructor]|]. cbn. auto.
  - destruct H2 as (-> & O2). cbn [isnull]. rewrite (bnd_ret (ret true) _ s2 true s2 eq_refl). destruct (list_free_ok s0 s2 l [] [] 1 W0 O2 ltac:(cbn; lia)) as (s3 & E3 & Q3 & O3). rewrite (bnd_ret _ _ _ _ _ E3). exists s3. split; [reflexivity|exact O3].
Qed.
(** destroying *)
Lemma destroy_loop_ok fuel p ls u W m : m < fuel -> forall post pre fuel1 s, own s0 s ((p, mk_b true [VP ls 0; u]) :: FL ls (map isec (pre ++ post)) ++ flat_map SUB post ++ lostb W) -> Forall (fun x => length (kvs x) <= m) post -> length post < fuel1 ->
  exists s', destroy_loop fuel1 fuel (ptr (hd_ (map isec post))) s = Ret (tt, s') /\ own s0 s' ((p, mk_b true [VP ls 0; u]) :: FL ls (map isec (pre ++ post)) ++ lostb W).
Proof.
  intro MF. induction post as [|x post IH]; intros pre fuel1 s O FA F; (destruct fuel1 as [|f]; [cbn in F; lia|]); cbn [destroy_loop].
  - exists s. split; [reflexivity|]. cbn [flat_map] in O. op O.
  - cbn [map hd_ ptr isnull]. rewrite (bnd_ret (ret false) _ s false s eq_refl). inversion_clear FA as [|? ? L1 FA'].
    rewrite map_app in O. cbn [map] in O.
    assert (NX : load (VP (nod (isec x)) 0) 0 s = Ret (ptr (hd_ (map isec post)), s) /\ load (VP (nod (isec x)) 0) 1 s = Ret (VP (sa x) 0, s)).
    { unfold FL in O. rewrite nseg_nb, nseg_app in O. cbn [nseg] in O.
      split; [apply (r_load s0 s ((p, mk_b true [VP ls 0; u]) :: HB ls (map isec pre ++ isec x :: map isec post) :: nseg (map isec pre) (VP (nod (isec x)) 0)) (nseg (map isec post) V0 ++ db (map isec pre ++ isec x :: map isec post) ++ flat_map SUB (x :: post) ++ lostb W) (nod (isec x)) true [ptr (hd_ (map isec post)); VP (sa x) 0] 0 0); [|reflexivity|apply ptr_ne]
             |apply (r_load s0 s ((p, mk_b true [VP ls 0; u]) :: HB ls (map isec pre ++ isec x :: map isec post) :: nseg (map isec pre) (VP (nod (isec x)) 0)) (nseg (map isec post) V0 ++ db (map isec pre ++ isec x :: map isec post) ++ flat_map SUB (x :: post) ++ lostb W) (nod (isec x)) true [ptr (hd_ (map isec post)); VP (sa x) 0] 0 1); [|reflexivity|discriminate]];
      (replace (ptr (hd_ (map isec post))) with (match map isec post with [] => V0 | j :: _ => VP (nod j) 0 end) by (destruct post; reflexivity); op O). }
    destruct NX as (N0 & N1). rewrite (bnd_ret _ _ _ _ _ N0), (bnd_ret _ _ _ _ _ N1).
    assert (LP : load (VP (sa x) 0) 1 s = Ret (VP (pl x) 0, s)).
    { apply (load_data s0 s ls (map isec pre) (isec x) (map isec post) ((p, mk_b true [VP ls 0; u]) :: flat_map SUB (x :: post) ++ lostb W)); [op O|reflexivity|discriminate]. }
    rewrite (bnd_ret _ _ _ _ _ LP). cbn [flat_map] in O. unfold SUB at 1 in O.
    destruct (list_free_ok s0 s (pl x) (map ikv (kvs x)) ((p, mk_b true [VP ls 0; u]) :: FL ls (map isec pre ++ isec x :: map isec post) ++ flat_map SUB post ++ lostb W) fuel W0) as (s1 & E1 & Q1 & O1); [op O|rewrite map_length; lia|]. rewrite (bnd_ret _ _ _ _ _ E1).
    destruct (IH (pre ++ [x]) f s1) as (s2 & E2 & O2); [|exact FA'|cbn in F; lia|].
    + rewrite <- app_assoc. cbn [app]. rewrite map_app. exact O1.
    + exists s2. split; [exact E2|]. rewrite <- app_assoc in O2. exact O2.
Qed.
Lemma destroy_ok fuel p a m s : rel s0 s p a m -> m < fuel -> exists s', destroy fuel (VP p 0) s = Ret (tt, s') /\ leaks (lost a) s0 s'.
Proof.
  intros (ls & u & xs & W & O & EA & EW & (S1 & S2) & _) F. unfold destroy.
  assert (LS : load (VP p 0) 0 s = Ret (VP ls 0, s)) by (unfold REP in O; apply (r_load s0 s [] _ p true _ 0 0 _ O eq_refl); discriminate). rewrite (bnd_ret _ _ _ _ _ LS).
  assert (OF : own s0 s (FL ls (map isec xs) ++ (p, mk_b true [VP ls 0; u]) :: flat_map SUB xs ++ lostb W)) by (unfold REP in O; op O).
  destruct (load_head s0 s ls _ _ OF) as (H0 & _). rewrite (bnd_ret _ _ _ _ _ H0).
  destruct (destroy_loop_ok fuel p ls u W m F xs [] fuel s O S2 ltac:(lia)) as (s1 & E1 & O1). rewrite (bnd_ret _ _ _ _ _ E1). cbn [app] in O1.
  destruct (list_free_ok s0 s1 ls (map isec xs) ((p, mk_b true [VP ls 0; u]) :: lostb W) fuel W0) as (s2 & E2 & Q2 & O2); [op O1|rewrite map_length; lia|]. rewrite (bnd_ret _ _ _ _ _ E2).
  destruct (r_store s0 s2 [] _ p true _ 0 0 V0 _ O2 eq_refl) as (s3 & E3 & O3 & Q3). rewrite (bnd_ret _ _ _ _ _ E3). destruct (r_free s0 s3 [] _ p _ W0 O3) as (s4 & E4 & O4 & Q4). exists s4. split; [exact E4|].
  cbn [app] in O4. apply own_leaks in O4; auto. unfold lostb in O4. rewrite map_length in O4. rewrite EW in O4. exact O4.
Qed.
End P.

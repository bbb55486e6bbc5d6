From Verif Require Import CBase SeqLib ListModel ListSpec ListProof.

Lemma addrs_bound : forall ns : nodes, exists b, forall a, In a (addrs ns) -> a < b.
Proof.
  induction ns as [|[p d] ns [b IH]]; [exists 0; intros a []|]. exists (Z.max b (p + 1)). intros a [<-|I]; [cbn; lia|]. specialize (IH a I). lia.
Qed.
Section P.
Variable has_cb : bool.
Variable hb : heap.
Hypothesis FIN : finite hb.

Lemma rep_finite l ns : rep hb l ns -> finite (l_heap l).
Proof.
  intros (_ & _ & _ & _ & FR & _). destruct FIN as [b HB]. destruct (addrs_bound ns) as [b' HB'].
  exists (Z.max b b'). intros a A. rewrite FR; [apply HB; lia|]. intro I. specialize (HB' a I). lia.
Qed.
Lemma ok_al_here al l ns : rep hb l ns -> ok_al al (match al (l_heap l) with Some _ => true | None => false end).
Proof.
  intro R. split; intro H; [rewrite H; reflexivity|]. destruct (rep_finite l ns R) as [b HB].
  specialize (H (l_heap l) b HB). destruct (al (l_heap l)); [reflexivity|congruence].
Qed.

Definition post (l : lst) (ns : nodes) (o : l_op) (ok : bool) (l' : lst) (ns' : nodes) : Prop :=
  rep hb l' ns' /\ datas ns' = fst (s_step ok (datas ns) o) /\
  (has_cb = true -> Permutation (s_added ok (datas ns) o ++ l_freed l ++ datas ns) (l_freed l' ++ datas ns')) /\
  (has_cb = false -> l_freed l' = l_freed l).

Lemma perm_add (f s1 s2 : list Z) d : Permutation ([d] ++ f ++ s1 ++ s2) (f ++ s1 ++ d :: s2).
Proof. cbn [app]. rewrite !app_assoc. apply Permutation_middle. Qed.

Lemma step_ok al l ns o : fresh al -> rep hb l ns -> zlen ns + 1 < two64 ->
  exists ok l' ns', ok_al al ok /\ l_step has_cb al l o = Ret (l', snd (s_step ok (datas ns) o)) /\ post l ns o ok l' ns'.
Proof.
  intros F R B. pose proof (ok_al_here al l ns R) as OK. set (ok0 := match al (l_heap l) with Some _ => true | None => false end) in *.
  assert (forall ok, (al (l_heap l) = None <-> ok = false) -> ok = ok0) as OKE.
  { intros ok H. unfold ok0. destruct (al (l_heap l)), ok; try reflexivity; [discriminate (proj2 H eq_refl)|exact (proj1 H eq_refl)]. }
  assert (forall p (l' : lst) ns' ok, p = Ret (l', snd (s_step ok (datas ns) o)) -> post l ns o ok l' ns' ->
     s_step ok (datas ns) o = s_step ok0 (datas ns) o ->
     exists ok l' ns', ok_al al ok /\ p = Ret (l', snd (s_step ok (datas ns) o)) /\ post l ns o ok l' ns') as FIN0.
  { intros p l' ns' ok E (P1 & P2 & P3 & P4) Q. exists ok0, l', ns'. split; [exact OK|]. split; [rewrite <- Q; exact E|].
    split; [exact P1|]. split; [rewrite <- Q; exact P2|]. split; [|exact P4]. intro C. rewrite <- (P3 C).
    destruct o; cbn [s_added]; try reflexivity; rewrite Q; reflexivity. }
  destruct o as [d|d|i d|d|d|d|]; cbn [l_step].
  - destruct (append_ok hb al l ns d F R B) as (ok & l' & ns' & E & R' & D & FR & A).
    eapply FIN0; [exact E| |].
    + split; [exact R'|]. split; [exact D|]. split; [|intros _; exact FR]. intros _. rewrite D, FR. cbn [s_added s_step].
      destruct (negb (d =? 0) && ok); [|reflexivity]. pose proof (perm_add (l_freed l) (datas ns) [] d) as P. rewrite app_nil_r in P. exact P.
    + destruct (Z.eq_dec d 0) as [->|NZ]; [reflexivity|]. rewrite (OKE ok (A NZ)). reflexivity.
  - destruct (prepend_ok hb al l ns d F R B) as (ok & l' & ns' & E & R' & D & FR & A).
    eapply FIN0; [exact E| |].
    + split; [exact R'|]. split; [exact D|]. split; [|intros _; exact FR]. intros _. rewrite D, FR. cbn [s_added s_step].
      destruct (negb (d =? 0) && ok); [|reflexivity]. exact (perm_add (l_freed l) [] (datas ns) d).
    + destruct (Z.eq_dec d 0) as [->|NZ]; [reflexivity|]. rewrite (OKE ok (A NZ)). reflexivity.
  - unfold list_begin. rewrite (head_ok hb l ns R), (nth_node_ok hb l i [] ns R). cbn [bind].
    destruct (Z.eq_dec d 0) as [->|NZ].
    { unfold list_insert_after. rewrite orb_true_r. eapply (FIN0 _ l ns true); [reflexivity| |reflexivity].
      split; [exact R|]. split; [reflexivity|]. split; [reflexivity|reflexivity]. }
    destruct (Nat.lt_ge_cases i (length ns)) as [LT|GE].
    + assert (exists p dp, skipn i ns = (p, dp) :: skipn (S i) ns) as (p & dp & SK).
      { clear -LT. revert ns LT. induction i as [|i IH]; intros [|[p dp] ns] LT; cbn [length] in LT; try lia; [exists p, dp; reflexivity|].
        cbn [skipn]. apply IH. lia. }
      rewrite SK. cbn [pos]. pose proof (firstn_skipn i ns) as FS. rewrite SK in FS. set (n1 := firstn i ns) in *. set (n2 := skipn (S i) ns) in *.
      assert (length n1 = i) as LN by (unfold n1; rewrite firstn_length; lia). clearbody n1 n2.
      assert (datas ns = datas n1 ++ dp :: datas n2) as DNS by (rewrite <- FS; apply datas_app).
      rewrite <- FS in R, B. destruct (insert_ok hb al l n1 p dp n2 d F R B NZ) as (ok & l' & ns' & E & R' & D & FR & A).
      assert (s_step ok (datas ns) (LInsertAfter i d) = if ok then (datas n1 ++ dp :: d :: datas n2, true) else (datas ns, false)) as SS.
      { cbn [s_step]. replace (d =? 0) with false by lia. cbn [negb andb]. unfold datas. rewrite map_length.
        replace (i <? length ns)%nat with true by (symmetry; apply Nat.ltb_lt; lia). cbn [andb]. destruct ok; [|reflexivity].
        rewrite <- FS, map_app. cbn [map snd].
        replace (S i) with (length (map snd n1 ++ [dp])) by (rewrite app_length, map_length; cbn; lia).
        change (dp :: map snd n2) with ([dp] ++ map snd n2). rewrite app_assoc, firstn_app, Nat.sub_diag, firstn_all, skipn_app, Nat.sub_diag, skipn_all.
        cbn [firstn skipn app]. rewrite app_nil_r, <- app_assoc. reflexivity. }
      rewrite (OKE ok A) in *. apply (FIN0 _ l' ns' ok0).
      * rewrite SS, E. destruct ok0; reflexivity.
      * split; [exact R'|]. rewrite SS. split; [|split; [|intros _; exact FR]].
        { destruct ok0; [exact D|]. rewrite D, <- FS, datas_app. reflexivity. }
        intros _. cbn [s_added]. rewrite SS, FR, D, DNS. destruct ok0; cbn [snd]; [|reflexivity].
        pose proof (perm_add (l_freed l) (datas n1 ++ [dp]) (datas n2) d) as P. rewrite <- !app_assoc in P. exact P.
      * reflexivity.
    + rewrite skipn_all2 by exact GE. cbn [pos]. unfold list_insert_after. cbn [Z.eqb orb].
      assert (forall ok, s_step ok (datas ns) (LInsertAfter i d) = (datas ns, false)) as SS.
      { intro ok. cbn [s_step]. unfold datas. rewrite map_length. replace (i <? length ns)%nat with false by (symmetry; apply Nat.ltb_ge; exact GE).
        rewrite andb_false_r. reflexivity. }
      apply (FIN0 _ l ns true); [rewrite SS; reflexivity| |rewrite !SS; reflexivity].
      split; [exact R|]. rewrite SS. split; [reflexivity|]. cbn [s_added]. rewrite SS. split; reflexivity.
  - unfold list_back_node, list_is_empty. pose proof R as (_ & _ & T & L & _). rewrite L.
    destruct (Z.eq_dec d 0) as [->|NZ].
    { unfold list_insert_after. rewrite orb_true_r. eapply (FIN0 _ l ns true); [reflexivity| |reflexivity].
      split; [exact R|]. split; [reflexivity|]. split; [reflexivity|reflexivity]. }
    destruct ns as [|x0 ns0].
    { cbn [zlen length Z.of_nat Z.eqb]. unfold list_insert_after. cbn [Z.eqb orb].
      assert (forall ok, s_step ok (datas []) (LInsertBack d) = ([], false)) as SS by (intro ok; cbn [s_step]; cbn; rewrite andb_false_r; reflexivity).
      apply (FIN0 _ l [] true); [rewrite SS; reflexivity| |rewrite !SS; reflexivity].
      split; [exact R|]. rewrite SS. split; [reflexivity|]. cbn [s_added]. rewrite SS. split; reflexivity. }
    destruct (split_last (x0 :: ns0) ltac:(discriminate)) as (n1 & [t dt] & E0). 
    assert ((zlen (x0 :: ns0) =? 0) = false) as Z0 by (rewrite zlen_cons; pose proof (zlen_nonneg ns0); lia). rewrite Z0.
    rewrite E0 in *. clear E0 x0 ns0. rewrite addrs_app in T. cbn [addrs map fst] in T. rewrite last_app_cons in T. cbn [last] in T. rewrite T.
    destruct (insert_ok hb al l n1 t dt [] d F R B NZ) as (ok & l' & ns' & E & R' & D & FR & A).
    assert (s_step ok (datas (n1 ++ [(t, dt)])) (LInsertBack d) = if ok then (datas (n1 ++ [(t, dt)]) ++ [d], true) else (datas (n1 ++ [(t, dt)]), false)) as SS.
    { cbn [s_step]. rewrite zlen_datas, Z0. replace (d =? 0) with false by lia. cbn [negb andb]. destruct ok; reflexivity. }
    rewrite (OKE ok A) in *. apply (FIN0 _ l' ns' ok0).
    + rewrite SS, E. destruct ok0; reflexivity.
    + split; [exact R'|]. rewrite SS. split; [|split; [|intros _; exact FR]].
      { rewrite D, datas_app. destruct ok0; cbn; rewrite <- ?app_assoc; reflexivity. }
      intros _. cbn [s_added]. rewrite SS, FR, D. rewrite datas_app. destruct ok0; cbn [snd]; [|reflexivity].
      pose proof (perm_add (l_freed l) (datas n1 ++ [dt]) [] d) as P. rewrite app_nil_r, <- !app_assoc in P. exact P.
    + reflexivity.
  - destruct (remove_ok has_cb hb l ns d R ltac:(lia)) as [[M E]|(l' & n3 & q & n4 & EN & NI & E & R' & FR)].
    + apply (FIN0 _ l ns true); [cbn [s_step snd]; rewrite M; exact E| |reflexivity].
      split; [exact R|]. cbn [s_step fst]. split; [rewrite mem_false by exact M; reflexivity|]. split; reflexivity.
    + assert (~ In d (datas n3)) as NI' by exact NI. destruct (remove_first_split d (datas n3) (datas n4) NI) as [RF MT].
      assert (datas ns = datas n3 ++ d :: datas n4) as DN by (rewrite EN, datas_app; reflexivity).
      apply (FIN0 _ l' (n3 ++ n4) true); [cbn [s_step snd]; rewrite DN, MT; exact E| |reflexivity].
      split; [exact R'|]. cbn [s_step fst]. rewrite DN, RF. split; [apply datas_app|]. split; [|intros ->; exact FR].
      intro C. rewrite C in FR. cbn [s_added app]. rewrite FR, datas_app, <- app_assoc. apply Permutation_app_head. cbn [app].
      symmetry. apply Permutation_middle.
  - rewrite (contains_ok hb l ns d R). cbn [bind]. apply (FIN0 _ l ns true); [reflexivity| |reflexivity].
    split; [exact R|]. split; [reflexivity|]. split; reflexivity.
  - destruct (clear_ok has_cb hb l ns R ltac:(lia)) as (l' & E & R' & _ & FR). rewrite E. cbn [bind].
    apply (FIN0 _ l' [] true); [reflexivity| |reflexivity].
    split; [exact R'|]. split; [reflexivity|]. split; [|intros ->; exact FR]. intro C. rewrite C in FR. cbn [s_added app datas map]. rewrite FR, app_nil_r. reflexivity.
Qed.

Lemma observe_ok l ns r : rep hb l ns -> l_observe l r = Ret (s_obs (datas ns) r).
Proof.
  intro R. unfold l_observe, s_obs. pose proof R as (_ & _ & T & L & _).
  assert (list_front l = Ret (hd 0 (datas ns))) as ->.
  { unfold list_front, list_is_empty. rewrite L. destruct ns as [|[p d] ns]; [reflexivity|].
    replace (zlen ((p, d) :: ns) =? 0) with false by (rewrite zlen_cons; pose proof (zlen_nonneg ns); lia).
    rewrite (head_ok hb l _ R). cbn [pos]. rewrite (proj1 (next_ok hb l [] p d ns R)). reflexivity. }
  assert (list_back l = Ret (last (datas ns) 0)) as ->.
  { unfold list_back, list_is_empty. rewrite L. destruct ns as [|x0 ns0]; [reflexivity|].
    replace (zlen (x0 :: ns0) =? 0) with false by (rewrite zlen_cons; pose proof (zlen_nonneg ns0); lia).
    destruct (split_last (x0 :: ns0) ltac:(discriminate)) as (n1 & [t dt] & E0). rewrite E0 in *.
    rewrite addrs_app in T. cbn [addrs map fst] in T. rewrite last_app_cons in T. cbn [last] in T. rewrite T. rewrite (proj1 (next_ok hb l n1 t dt [] R)). cbn [bind snd].
    rewrite datas_app. cbn [datas map snd]. rewrite last_app_cons. reflexivity. }
  cbn [bind]. unfold list_begin. rewrite (head_ok hb l ns R), (walk_ok hb l _ [] ns R (len_fuel hb l ns R)). cbn [bind].
  unfold list_length, list_is_empty. rewrite L, zlen_datas. reflexivity.
Qed.

Lemma s_step_len ok s o : zlen (fst (s_step ok s o)) <= zlen s + 1.
Proof.
  destruct o as [d|d|i d|d|d|d|]; cbn [s_step].
  - destruct (_ && _); cbn [fst]; [rewrite zlen_app; change (zlen [d]) with 1|]; lia.
  - destruct (_ && _); cbn [fst]; [rewrite zlen_cons|]; lia.
  - destruct (_ && _); cbn [fst]; [|lia]. rewrite zlen_app, zlen_cons. unfold zlen. rewrite <- (firstn_skipn (S i) s) at 3. rewrite app_length. lia.
  - destruct (_ && _); cbn [fst]; [rewrite zlen_app; change (zlen [d]) with 1|]; lia.
  - cbn [fst]. induction s as [|x s IH]; cbn [remove_first]; [lia|]. destruct (x =? d); rewrite ?zlen_cons in *; lia.
  - cbn; lia.
  - cbn [fst]. change (zlen (@nil Z)) with 0. pose proof (zlen_nonneg s). lia.
Qed.

Lemma run_ok : forall hist l ns, Forall (fun x => fresh (fst x)) hist -> rep hb l ns -> zlen ns + zlen hist < two64 ->
  exists oks l' ns', Forall2 (fun x ok => ok_al (fst x) ok) hist oks /\
    let sh := combine oks (map snd hist) in
    l_run has_cb l hist = Ret (l', snd (s_run (datas ns) sh)) /\ rep hb l' ns' /\ datas ns' = fst (s_run (datas ns) sh) /\
    (has_cb = true -> Permutation (all_added (datas ns) sh ++ l_freed l ++ datas ns) (l_freed l' ++ datas ns')) /\
    (has_cb = false -> l_freed l' = l_freed l).
Proof.
  induction hist as [|[al o] hist IH]; intros l ns F R B; cbn [l_run].
  - exists [], l, ns. split; [constructor|]. cbn. split; [reflexivity|]. split; [exact R|]. split; [reflexivity|]. split; reflexivity.
  - inversion_clear F as [|? ? F1 F2]. rewrite zlen_cons in B. pose proof (zlen_nonneg hist).
    destruct (step_ok al l ns o F1 R ltac:(lia)) as (ok & l1 & ns1 & OK & E & R1 & D1 & P1 & N1). rewrite E. cbn [bind].
    rewrite (observe_ok l1 ns1 _ R1). cbn [bind].
    pose proof (s_step_len ok (datas ns) o) as SL. rewrite <- D1, !zlen_datas in SL.
    destruct (IH l1 ns1 F2 R1 ltac:(lia)) as (oks & l' & ns' & OKS & E' & R' & D' & P' & N'). cbv zeta in *. rewrite E'. cbn [bind].
    exists (ok :: oks), l', ns'. split; [constructor; assumption|]. cbn [combine map snd s_run all_added fst]. rewrite <- !D1.
    split; [reflexivity|]. split; [exact R'|]. split; [exact D'|]. split.
    + intro C. rewrite <- (P' C), <- app_assoc. rewrite (Permutation_app_swap_app (s_added ok (datas ns) o)), (P1 C). reflexivity.
    + intro C. rewrite (N' C). apply N1; exact C.
Qed.
End P.

Lemma new_rep hb : rep hb (list_new hb) [].
Proof.
  split; [reflexivity|]. split; [constructor|]. split; [reflexivity|]. split; [reflexivity|]. split; [reflexivity|]. split; [intros a []|constructor].
Qed.
Lemma list_lemma has_cb hb hist : finite hb -> Forall (fun x => fresh (fst x)) hist -> zlen hist < two64 ->
  exists oks l', Forall2 (fun x ok => ok_al (fst x) ok) hist oks /\
    let sh := combine oks (map snd hist) in
    l_run has_cb (list_new hb) hist = Ret (l', snd (s_run [] sh)) /\
    (has_cb = true -> Permutation (all_added [] sh) (l_freed l' ++ fst (s_run [] sh))) /\
    exists l'', list_free has_cb l' = Ret l'' /\ (forall a, l_heap l'' a = hb a) /\
      if has_cb then Permutation (all_added [] sh) (l_freed l'') else l_freed l'' = [].
Proof.
  intros FIN F B. destruct (run_ok has_cb hb FIN hist (list_new hb) [] F (new_rep hb) ltac:(exact B)) as (oks & l' & ns' & OK & E & R & D & P & N).
  exists oks, l'. split; [exact OK|]. cbv zeta in *. cbn [datas map] in *. split; [exact E|].
  cbn [l_freed list_new app] in *. rewrite app_nil_r in P. rewrite <- D. split; [exact P|].
  assert (zlen ns' < two64) as BL.
  { rewrite <- zlen_datas, D. clear -B OK. assert (forall h s, zlen (fst (s_run s h)) <= zlen s + zlen h) as SL.
    { induction h as [|[ok o] h IH]; intro s; cbn [s_run fst]; [change (zlen (@nil (bool * l_op))) with 0; lia|].
      specialize (IH (fst (s_step ok s o))). pose proof (s_step_len ok s o). rewrite zlen_cons. lia. }
    specialize (SL (combine oks (map snd hist)) []). change (zlen (@nil Z)) with 0 in SL.
    unfold zlen in *. rewrite combine_length in SL. rewrite map_length in SL. lia. }
  destruct (clear_ok has_cb hb l' ns' R BL) as (l'' & E2 & _ & HB & FR). exists l''. split; [exact E2|]. split; [exact HB|].
  rewrite FR. destruct has_cb; [apply P; reflexivity|apply N; reflexivity].
Qed.

(** foreach with a callback that leaves the list alone *)
Lemma foreach_loop_ok hb {C} (f : C -> Z -> C * bool) l : forall fuel n1 n2 c, rep hb l (n1 ++ n2) -> (length n2 < fuel)%nat ->
  foreach_loop (fun c l d => Ret (fst (f c d), l, snd (f c d))) fuel c l (pos n2) =
  Ret (fst (s_foreach f c (datas n2)), l, match snd (s_foreach f c (datas n2)) with None => 0 | Some i => nth i (addrs n2) 0 end).
Proof.
  induction fuel as [|fuel IH]; intros n1 n2 c R F; [lia|]. destruct n2 as [|[p d] n2]; cbn [foreach_loop pos]; [reflexivity|].
  destruct (next_ok hb l n1 p d n2 R) as [H PZ]. destruct (p =? 0) eqn:E; [lia|]. rewrite H. cbn [bind fst snd datas map s_foreach].
  destruct (snd (f c d)) eqn:G; cbn [negb fst snd]; [|reflexivity]. fold (pos n2).
  rewrite (IH (n1 ++ [(p, d)]) n2); [|rewrite <- app_assoc; exact R|cbn in F; lia].
  fold (datas n2). destruct (snd (s_foreach f (fst (f c d)) (datas n2))); reflexivity.
Qed.

Lemma foreach_filter_ok has_cb hb p : forall fuel n1 n2 c l, rep hb l (n1 ++ n2) -> zlen (n1 ++ n2) < two64 -> (length n2 < fuel)%nat ->
  Forall (fun d => p d = false) (datas n1) ->
  exists l' ns', foreach_loop (cb_filter has_cb p) fuel c l (pos n2) = Ret (c ++ datas n2, l', 0) /\ rep hb l' ns' /\
    datas ns' = datas n1 ++ filter (fun d => negb (p d)) (datas n2) /\
    (has_cb = true -> l_freed l' = l_freed l ++ filter p (datas n2)).
Proof.
  induction fuel as [|fuel IH]; intros n1 n2 c l R B F KN; [lia|]. destruct n2 as [|[a d] n2]; cbn [foreach_loop pos].
  - exists l, n1. rewrite app_nil_r in R. cbn [Z.eqb datas map filter]. rewrite !app_nil_r. split; [reflexivity|]. split; [exact R|]. split; [|intros _]; reflexivity.
  - destruct (next_ok hb l n1 a d n2 R) as [H PZ]. destruct (a =? 0) eqn:E; [lia|]. rewrite H. cbn [bind fst snd].
    unfold cb_filter at 1. cbn [datas map snd filter]. fold (datas n2). fold (pos n2). destruct (p d) eqn:PD.
    + destruct (remove_ok has_cb hb l _ d R B) as [[M _]|(l1 & n3 & q & n4 & EN & NI & ER & R1 & FR)].
      { exfalso. rewrite datas_app in M. unfold mem in M. rewrite existsb_app in M. cbn in M. rewrite Z.eqb_refl in M. rewrite orb_true_r in M. discriminate. }
      assert (n3 = n1 /\ n4 = n2) as [-> ->].
      { assert (~ In d (datas n1)) as NI1.
        { intro I. rewrite Forall_forall in KN. specialize (KN d I). congruence. }
        clear -EN NI NI1. revert n3 EN NI. induction n1 as [|[x y] n1 IH]; intros [|[u v] n3] EN NI; cbn [app] in EN.
        - injection EN as _ ->. split; reflexivity.
        - injection EN as <- <- EN. exfalso. apply NI. left; reflexivity.
        - injection EN as -> -> EN. exfalso. apply NI1. left; reflexivity.
        - injection EN as <- <- EN. destruct (IH ltac:(intro I; apply NI1; right; exact I) n3 EN ltac:(intro I; apply NI; right; exact I)) as [-> ->].
          split; reflexivity. }
      rewrite ER. cbn [bind negb].
      destruct (IH n1 n2 (c ++ [d]) l1 R1) as (l' & ns' & E' & R' & D' & FR'); try exact KN.
      { rewrite zlen_app, zlen_cons in B. rewrite zlen_app. lia. } { cbn in F; lia. }
      exists l', ns'. split; [rewrite E', <- app_assoc; reflexivity|]. split; [exact R'|]. split; [exact D'|].
      intro CB. rewrite (FR' CB), FR, CB, <- app_assoc. reflexivity.
    + cbn [bind negb]. destruct (IH (n1 ++ [(a, d)]) n2 (c ++ [d]) l) as (l' & ns' & E' & R' & D' & FR').
      { rewrite <- app_assoc. exact R. } { rewrite <- app_assoc. exact B. } { cbn in F; lia. }
      { rewrite datas_app. apply Forall_app. split; [exact KN|]. constructor; [exact PD|constructor]. }
      exists l', ns'. split; [rewrite E', <- app_assoc; reflexivity|]. split; [exact R'|].
      split; [rewrite D', datas_app, <- app_assoc; reflexivity|]. exact FR'.
Qed.
Lemma foreach_remove_next_ub has_cb hb l fuel p x q y ns : rep hb l ((p, x) :: (q, y) :: ns) -> zlen ns + 2 < two64 -> x <> y ->
  list_foreach (cb_remove has_cb y) (S (S fuel)) tt l = Ub.
Proof.
  intros R B XY. unfold list_foreach. rewrite (head_ok hb l _ R). cbn [pos foreach_loop].
  destruct (next_ok hb l [] p x ((q, y) :: ns) R) as [H PZ]. destruct (p =? 0) eqn:E; [lia|]. rewrite H. cbn [bind fst snd].
  assert (zlen ((p, x) :: (q, y) :: ns) < two64) as B' by (rewrite !zlen_cons; lia).
  unfold cb_remove at 1. destruct (remove_ok has_cb hb l _ y R B') as [[M _]|(l1 & n3 & q' & n4 & EN & NI & ER & R1 & FR)].
  { exfalso. unfold mem in M. cbn in M. rewrite Z.eqb_refl in M. destruct (y =? x); discriminate. }
  destruct n3 as [|[u v] n3]; [injection EN as -> -> _; congruence|]. injection EN as <- <- EN.
  destruct n3 as [|[u2 v2] n3]; [|injection EN as <- <- EN; exfalso; apply NI; right; left; reflexivity].
  injection EN as <- <-. cbn [app] in R1. rewrite ER. cbn [bind negb foreach_loop].
  pose proof R as (_ & ND & _ & _ & _ & FB & _). cbn in ND. inversion_clear ND as [|? ? NI1 ND']. inversion_clear ND' as [|? ? NI2 _].
  destruct R1 as (_ & _ & _ & _ & FR1 & _). unfold hload. rewrite FR1.
  - rewrite FB by (right; left; reflexivity). destruct (q =? 0) eqn:Q; [|reflexivity]. exfalso.
    destruct (next_ok hb l [(p, x)] q y ns R). lia.
  - cbn. intros [E1|I]; [apply NI1; left; congruence|]. apply NI2. exact I.
Qed.

Lemma run_rep has_cb hb hist l obs : finite hb -> Forall (fun x => fresh (fst x)) hist -> zlen hist + 2 < two64 ->
  l_run has_cb (list_new hb) hist = Ret (l, obs) -> exists ns, rep hb l ns /\ zlen ns + 2 < two64.
Proof.
  intros FIN F B E. destruct (run_ok has_cb hb FIN hist (list_new hb) [] F (new_rep hb) ltac:(change (zlen (@nil (Z * Z))) with 0; lia)) as (oks & l' & ns' & OK & E' & R & D & _).
  rewrite E' in E. injection E as -> _. exists ns'. split; [exact R|].
  rewrite <- zlen_datas, D. clear -B OK. assert (forall h s, zlen (fst (s_run s h)) <= zlen s + zlen h) as SL.
  { induction h as [|[ok o] h IH]; intro s; cbn [s_run fst]; [change (zlen (@nil (bool * l_op))) with 0; lia|].
    specialize (IH (fst (s_step ok s o))). pose proof (s_step_len ok s o). rewrite zlen_cons. lia. }
  specialize (SL (combine oks (map snd hist)) []). change (zlen (@nil Z)) with 0 in SL.
  cbn [datas map]. unfold zlen in *. rewrite combine_length in SL. rewrite map_length in SL. lia.
Qed.
Lemma nth_addrs : forall ns i, (i < length ns)%nat -> nth i (addrs ns) 0 = pos (skipn i ns).
Proof. induction ns as [|[p d] ns IH]; intros [|i] L; cbn [length] in L; try lia; [reflexivity|]. cbn. apply IH. lia. Qed.
Lemma pos_nz hb l : forall ns, rep hb l ns -> forall i, (i < length ns)%nat -> pos (skipn i ns) <> 0.
Proof.
  intros ns R i L. rewrite <- nth_addrs by exact L. assert (In (nth i (addrs ns) 0) (addrs ns)) as I.
  { apply nth_In. unfold addrs. rewrite map_length. exact L. }
  destruct R as (S & _). apply (seg_alloc _ _ _ _ _ S I).
Qed.
Lemma s_foreach_lt {C} (f : C -> Z -> C * bool) : forall s c i, snd (s_foreach f c s) = Some i -> (i < length s)%nat.
Proof.
  induction s as [|d s IH]; intros c i H; cbn [s_foreach] in H; [discriminate|]. destruct (snd (f c d)); cbn [snd] in H.
  - destruct (snd (s_foreach f (fst (f c d)) s)) as [j|] eqn:E; [|discriminate]. cbn in H. injection H as <-. specialize (IH _ _ E). cbn. lia.
  - injection H as <-. cbn. lia.
Qed.
Lemma foreach_lemma has_cb hb hist l obs : finite hb -> Forall (fun x => fresh (fst x)) hist -> zlen hist + 2 < two64 ->
  l_run has_cb (list_new hb) hist = Ret (l, obs) ->
  exists s, walk (S (Z.to_nat (list_length l))) l (list_begin l) = Ret s /\
    (forall C (f : C -> Z -> C * bool) (c : C), exists node,
       list_foreach (fun c l d => Ret (fst (f c d), l, snd (f c d))) (S (Z.to_nat (list_length l))) c l = Ret (fst (s_foreach f c s), l, node) /\
       match snd (s_foreach f c s) with None => node = 0 | Some i => nth_node i l (list_begin l) = Ret node /\ node <> 0 end) /\
    (forall p, exists l', list_foreach (cb_filter has_cb p) (S (Z.to_nat (list_length l))) [] l = Ret (s, l', 0) /\
       l_observe l' true = Ret (s_obs (filter (fun d => negb (p d)) s) true) /\ (has_cb = true -> l_freed l' = l_freed l ++ filter p s)) /\
    (forall x y r, s = x :: y :: r -> x <> y -> list_foreach (cb_remove has_cb y) (S (Z.to_nat (list_length l))) tt l = Ub).
Proof.
  intros FIN F B E. destruct (run_rep has_cb hb hist l obs FIN F B E) as (ns & R & BN). exists (datas ns).
  pose proof (len_fuel hb l ns R) as LF. unfold list_length, list_begin, list_foreach. pose proof (head_ok hb l ns R) as HD.
  split; [rewrite HD; apply (walk_ok hb l _ [] ns R LF)|]. split; [|split].
  - intros C f c. eexists. rewrite HD. split; [apply (foreach_loop_ok hb f l _ [] ns c R LF)|].
    destruct (snd (s_foreach f c (datas ns))) as [i|] eqn:SF; [|reflexivity].
    pose proof (s_foreach_lt f _ _ _ SF) as LT. unfold datas in LT. rewrite map_length in LT.
    rewrite (nth_node_ok hb l i [] ns R), nth_addrs by exact LT. split; [reflexivity|]. apply (pos_nz hb l ns R i LT).
  - intro p. destruct (foreach_filter_ok has_cb hb p (S (Z.to_nat (l_len l))) [] ns [] l R ltac:(cbn [app]; lia) LF ltac:(constructor)) as (l' & ns' & E' & R' & D' & FR).
    exists l'. rewrite HD. split; [exact E'|]. split; [rewrite (observe_ok hb l' ns' true R'), D'; reflexivity|exact FR].
  - intros x y r ES XY. destruct ns as [|[p x'] [|[q y'] ns]]; try discriminate. cbn in ES. injection ES as -> -> _.
    assert (exists k, Z.to_nat (l_len l) = S k) as [k K].
    { destruct R as (_ & _ & _ & L & _). rewrite L. unfold zlen. rewrite Nat2Z.id. cbn. eauto. }
    rewrite K. apply (foreach_remove_next_ub has_cb hb l k p x q y ns R); [|exact XY]. rewrite !zlen_cons in BN. lia.
Qed.

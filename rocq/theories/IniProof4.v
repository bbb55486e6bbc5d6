From Verif Require Import CBase CStr SeqLib StringsModel StringsProof StrParamsModel StrParamsProof StringBuilderModel StringBuilderSpec StringBuilderProof IniReaderModel IniModel IniSpec IniProof IniProof2 IniProof3.

(** ** lengths *)
Definition kv_short (l : list (list Z * list Z)) : Prop := forall kv, In kv l -> zlen (fst kv) <= 63 /\ zlen (snd kv) <= 255.
Definition m_short (m : mini) : Prop := forall x, In x m -> zlen (fst x) <= 63 /\ kv_short (snd x).
Lemma section_short m s : m_short m -> zlen s <= 63 -> m_short (m_section m s).
Proof.
  intros H L x Ix. unfold m_section in Ix. apply In_alter in Ix as [Ix|[(k & v & -> & Ix & _)|[-> _]]]; [auto|apply (H _ Ix)|].
  split; [exact L|intros kv []].
Qed.
Lemma put_short m s k v : m_short m -> zlen s <= 63 -> zlen k <= 63 -> zlen v <= 255 -> m_short (m_put m s k v).
Proof.
  intros H L1 L2 L3 x Ix. unfold m_put in Ix.
  assert (G : forall l, kv_short l -> kv_short (alter k (fun _ => v) l)).
  { intros l Hl kv Ik. apply In_alter in Ik as [Ik|[(k' & v' & -> & Ik & _)|[-> _]]]; [auto| |split; assumption].
    split; [apply (Hl _ Ik)|exact L3]. }
  apply In_alter in Ix as [Ix|[(k' & v' & -> & Ix & _)|[-> _]]]; [auto| |].
  - split; [apply (H _ Ix)|]. cbn [snd]. apply G. apply (H _ Ix).
  - split; [exact L1|]. cbn [snd]. apply G. intros kv [].
Qed.
Lemma del_key_short m s k : m_short m -> m_short (m_del_key m s k).
Proof.
  intros H x Ix. unfold m_del_key in Ix. destruct (assoc s m) eqn:E; [|auto].
  apply In_alter in Ix as [Ix|[(k' & v' & -> & Ix & _)|[-> A]]]; [auto| |congruence].
  split; [apply (H _ Ix)|]. cbn [snd]. intros kv Ik. apply without_In in Ik. apply (H _ Ix). exact Ik.
Qed.
Lemma step_short m o : m_short m -> iop_ok m o -> m_short (snd (sp_iop m o)).
Proof.
  intros H K. destruct o as [ok s k v|s k|s]; cbn [sp_iop].
  - destruct K as (_ & Ks & Kk & Kv). destruct s as [[|c s]|]; try exact H. destruct k as [[|d k]|]; try exact H. cbn [short] in *.
    destruct (negb _); [exact H|]. destruct (negb _); [apply section_short; [exact H|apply Ks]|].
    destruct (negb _); [apply section_short; [exact H|apply Ks]|]. apply put_short; [exact H|apply Ks|apply Kk|].
    destruct v; [apply Kv|change (zlen (@nil Z)) with 0; lia].
  - destruct s as [s|]; [|exact H]. destruct k as [k|]; [|exact H]. destruct (m_get m s k); [apply del_key_short|]; exact H.
  - destruct s as [s|]; [|exact H]. destruct (assoc s m); [|exact H]. intros x Ix. apply without_In in Ix. auto.
Qed.
Lemma hist_short p m : hist p m -> m_short m.
Proof. induction 1; [intros x []|]. apply step_short; assumption. Qed.

(** ** foreach *)
Lemma foreach_kvs_ok {C} (cb : C -> list Z -> list Z -> list Z -> Z * C) s l : (forall c s k v, fst (cb c s k v) = 0) -> (forall kv, In kv l -> fst kv <> []) ->
  forall c, foreach_kvs cb c s l = fold_left (fun c x => snd (cb c (fst (fst x)) (snd (fst x)) (snd x))) (map (fun kv => (s, fst kv, snd kv)) l) c.
Proof.
  intro H. induction l as [|[k v] l IH]; intros N c; [reflexivity|]. cbn [foreach_kvs map fold_left fst snd].
  destruct (Z.eqb_spec (zlen k) 0) as [E|_]; [apply zlen_0_nil in E; exfalso; apply (N (k, v) (or_introl eq_refl)); exact E|].
  specialize (H c s k v). destruct (cb c s k v) as [r c']. cbn [fst snd] in *. subst r. cbn [Z.eqb]. apply IH. intros kv Ik. apply N. right. exact Ik.
Qed.
Lemma foreach_ok {C} (cb : C -> list Z -> list Z -> list Z -> Z * C) p m c : inv p m -> (forall c s k v, fst (cb c s k v) = 0) ->
  ini_foreach cb c p = fold_left (fun c x => snd (cb c (fst (fst x)) (snd (fst x)) (snd x))) (triples m) c.
Proof.
  intros I H. pose proof (i_kv _ _ I) as K. pose proof (i_names _ _ I) as N. rewrite <- (i_abs _ _ I) in *. unfold ini_foreach. clear I.
  revert c. induction (secs p) as [|s l IH]; intro c; [reflexivity|]. cbn [absl map triples flat_map fold_left fst snd].
  unfold triples in *. cbn [flat_map]. rewrite fold_left_app.
  destruct (N _ (or_introl eq_refl)) as [Ns _]. cbn [fst] in Ns.
  destruct (Z.eqb_spec (zlen (sname s)) 0) as [E|_]; [apply zlen_0_nil in E; congruence|].
  rewrite foreach_kvs_ok; [|exact H|intros kv Ik; apply (proj2 (K _ (or_introl eq_refl)) _ Ik)].
  apply IH; intros x Ix; [apply K|apply N]; right; exact Ix.
Qed.

(** ** dump *)
Lemma app_fmt al sb t p : sane al -> holds sb t -> zlen p < two31 -> p <> [] ->
  exists sb' r t', sb_appendf al sb (Some p) = Ret (sb', r) /\ holds sb' t' /\ (t' = t \/ t' = t ++ p) /\
    (serves al (2 * (zlen t + zlen p + 1)) -> zlen t + zlen p + 1 < 9223372036854775808 -> r = 0 /\ t' = t ++ p).
Proof.
  intros SA H L N. destruct (step_ok al sb t (SbFmt p) SA H L) as (sb' & r & t' & E & S & H').
  exists sb', r, t'. split; [exact E|]. split; [exact H'|]. split.
  - inversion S as [| ? ? q P|]; subst; [right|left; reflexivity]. inversion P; subst. reflexivity.
  - intros SV LT. destruct (append_succeeds al sb t (SbFmt p) p SA H L (pc_fmt p) N LT SV) as (sb2 & E2 & H2).
    rewrite E in E2. injection E2 as -> ->. split; [reflexivity|].
    pose proof (observe_ok _ _ H') as O1. rewrite (observe_ok _ _ H2) in O1. injection O1 as _ O1. apply app_inj_tail in O1 as [O1 _]. congruence.
Qed.
Lemma app_nl al sb t : sane al -> holds sb t ->
  exists sb' r t', sb_appendstr al sb [13; 10; 0] = Ret (sb', r) /\ holds sb' t' /\ (t' = t \/ t' = t ++ [13; 10]) /\
    (serves al (2 * (zlen t + 2 + 1)) -> zlen t + 2 + 1 < 9223372036854775808 -> r = 0 /\ t' = t ++ [13; 10]).
Proof.
  intros SA H. assert (V : sb_valid (SbStr ([13; 10] ++ 0 :: []))).
  { split; [reflexivity|]. exists [13; 10], []. split; [reflexivity|]. repeat constructor; lia. }
  assert (P : piece_of (SbStr ([13; 10] ++ 0 :: [])) [13; 10]) by (constructor; repeat constructor; lia).
  destruct (step_ok al sb t _ SA H V) as (sb' & r & t' & E & S & H').
  exists sb', r, t'. split; [exact E|]. split; [exact H'|]. split.
  - inversion S as [| ? ? q Q|]; subst; [right|left; reflexivity]. rewrite (piece_det _ _ _ P Q). reflexivity.
  - intros SV LT. destruct (append_succeeds al sb t _ _ SA H V P) as (sb2 & E2 & H2); [discriminate|exact LT|exact SV|].
    change (sb_step al sb (SbStr ([13; 10] ++ [0]))) with (sb_appendstr al sb [13; 10; 0]) in *.
    rewrite E in E2. injection E2 as -> ->. split; [reflexivity|].
    pose proof (observe_ok _ _ H') as O1. rewrite (observe_ok _ _ H2) in O1. injection O1 as _ O1. apply app_inj_tail in O1 as [O1 _]. congruence.
Qed.
Lemma serves_le al a b : serves al a -> b <= a -> serves al b.
Proof. intros S L k H. apply S. lia. Qed.
Definition kv_text (l : list (list Z * list Z)) : Prop := forall kv, In kv l -> text (fst kv) /\ text (snd kv) /\ zlen (fst kv) <= 63 /\ zlen (snd kv) <= 255.
Lemma text_cons' c t : c <> 0 -> text t -> text (c :: t).
Proof. intros. apply text_cons. auto. Qed.
Lemma line_text kv : text (fst kv) -> text (snd kv) -> text (line_of kv).
Proof. intros A B. unfold line_of. apply text_app. split; [exact A|]. repeat (apply text_cons'; [lia|]). apply text_app. split; [exact B|]. repeat constructor; lia. Qed.
Lemma line_len kv : zlen (line_of kv) = zlen (fst kv) + zlen (snd kv) + 5.
Proof. unfold line_of. rewrite !zlen_app. change (zlen [32; 61; 32]) with 3. change (zlen [13; 10]) with 2. lia. Qed.
Lemma dump_kvs_ok (al : Z -> allocator) N : (forall n, sane (al n)) -> forall l sb n t, kv_text l -> holds sb t -> text t ->
  exists sb' n' r t', dump_kvs al sb n l = Ret (sb', n', r) /\ holds sb' t' /\ text t' /\
    ((forall n, serves (al n) (2 * (N + 1))) -> zlen t + zlen (flat_map line_of l) <= N -> N + 1 < 9223372036854775808 -> r = 0 /\ t' = t ++ flat_map line_of l).
Proof.
  intro SA. induction l as [|kv l IH]; intros sb n t K H T.
  - exists sb, n, 0, t. split; [reflexivity|]. split; [exact H|]. split; [exact T|]. intros. split; [reflexivity|]. cbn [flat_map]. rewrite app_nil_r. reflexivity.
  - destruct (K _ (or_introl eq_refl)) as (T1 & T2 & L1 & L2). pose proof (line_len kv) as LL.
    destruct (app_fmt (al n) sb t (line_of kv) (SA n) H) as (sb' & r & t' & E & H' & D & G).
    { unfold two31. lia. } { unfold line_of. destruct (fst kv); discriminate. }
    destruct kv as [k v]. cbn [dump_kvs]. unfold line_of in E. cbn [fst snd] in E. rewrite E. cbn [bind].
    assert (T' : text t') by (destruct D as [->| ->]; [exact T|apply text_app; split; [exact T|apply line_text; assumption]]).
    destruct (Z.eqb_spec r 0) as [->|Nr]; cbn [negb].
    + destruct (IH sb' (n + 1) t') as (sb2 & n2 & r2 & t2 & E2 & H2 & TT2 & G2); [intros x Ix; apply K; right; exact Ix|exact H'|exact T'|].
      rewrite E2. exists sb2, n2, r2, t2. split; [reflexivity|]. split; [exact H2|]. split; [exact TT2|]. intros SV LN LB. cbn [flat_map] in *. rewrite zlen_app in LN.
      pose proof (zlen_nonneg (flat_map line_of l)). destruct G as [_ ->]; [eapply serves_le; [apply SV|]; lia|lia|].
      destruct G2 as [-> ->]; [exact SV|rewrite zlen_app; lia|exact LB|]. split; [reflexivity|]. rewrite <- app_assoc. reflexivity.
    + exists sb', (n + 1), r, t'. split; [reflexivity|]. split; [exact H'|]. split; [exact T'|]. intros SV LN LB. exfalso. cbn [flat_map] in LN. rewrite zlen_app in LN.
      pose proof (zlen_nonneg (flat_map line_of l)). destruct G as [G _]; [eapply serves_le; [apply SV|]; lia|lia|]. congruence.
Qed.
Definition sec_text_ok (l : list section) : Prop := forall s, In s l -> text (sname s) /\ zlen (sname s) <= 63 /\ kv_text (kvs s).
Lemma dump_secs_ok (al : Z -> allocator) N : (forall n, sane (al n)) -> forall l sb n t, sec_text_ok l -> holds sb t -> text t ->
  exists sb' r t', dump_secs al sb n l = Ret (sb', r) /\ holds sb' t' /\ text t' /\
    ((forall n, serves (al n) (2 * (N + 1))) -> zlen t + zlen (dump_text (absl l)) <= N -> N + 1 < 9223372036854775808 -> r = 0 /\ t' = t ++ dump_text (absl l)).
Proof.
  intro SA. induction l as [|s l IH]; intros sb n t K H T.
  - exists sb, 0, t. split; [reflexivity|]. split; [exact H|]. split; [exact T|]. intros. split; [reflexivity|]. cbn [dump_text absl map flat_map]. rewrite app_nil_r. reflexivity.
  - destruct (K _ (or_introl eq_refl)) as (T1 & L1 & K1). set (hd := [91] ++ sname s ++ [93; 13; 10]).
    assert (Lh : zlen hd = zlen (sname s) + 4) by (unfold hd; rewrite !zlen_app; change (zlen [91]) with 1; change (zlen [93; 13; 10]) with 3; lia).
    destruct (app_fmt (al n) sb t hd (SA n) H) as (sb1 & r1 & t1 & E1 & H1 & D1 & G1); [unfold two31; lia|discriminate|].
    assert (Tt1 : text t1).
    { destruct D1 as [->| ->]; [exact T|]. apply text_app. split; [exact T|]. unfold hd. apply text_cons'; [lia|]. apply text_app. split; [exact T1|].
      repeat constructor; lia. }
    destruct (dump_kvs_ok al N SA (kvs s) sb1 (n + 1) t1 K1 H1 Tt1) as (sb2 & n2 & r2 & t2 & E2 & H2 & Tt2 & G2).
    destruct (app_nl (al n2) sb2 t2 (SA n2) H2) as (sb3 & r3 & t3 & E3 & H3 & D3 & G3).
    assert (Tt3 : text t3) by (destruct D3 as [->| ->]; [exact Tt2|apply text_app; split; [exact Tt2|repeat constructor; lia]]).
    cbn [dump_secs]. fold hd. rewrite E1. cbn [bind]. rewrite E2. cbn [bind]. rewrite E3. cbn [bind].
    assert (ALL : (forall n, serves (al n) (2 * (N + 1))) -> zlen t + zlen (dump_text (absl (s :: l))) <= N -> N + 1 < 9223372036854775808 ->
       r2 = 0 /\ t3 = t ++ section_text (sname s, kvs s)).
    { intros SV LN LB. unfold dump_text in LN. cbn [absl map flat_map] in LN. rewrite zlen_app in LN. unfold section_text in LN at 1. cbn [fst snd] in LN.
      assert (Es : [91] ++ sname s ++ [93; 13; 10] ++ flat_map line_of (kvs s) ++ [13; 10] = hd ++ flat_map line_of (kvs s) ++ [13; 10]).
      { unfold hd. rewrite <- !app_assoc. reflexivity. }
      rewrite Es in LN. rewrite !zlen_app in LN. change (zlen [13; 10]) with 2 in LN. pose proof (zlen_nonneg (flat_map line_of (kvs s))).
      pose proof (zlen_nonneg (flat_map section_text (map (fun s => (sname s, kvs s)) l))) as Nn.
      destruct G1 as [_ ->]; [eapply serves_le; [apply SV|]; lia|lia|].
      destruct G2 as [-> ->]; [exact SV|rewrite zlen_app; lia|exact LB|]. rewrite !zlen_app in G3.
      destruct G3 as [_ ->]; [eapply serves_le; [apply SV|]; lia|lia|]. split; [reflexivity|].
      unfold section_text. cbn [fst snd]. rewrite Es. rewrite <- !app_assoc. reflexivity. }
    destruct (Z.eqb_spec r2 0) as [->|Nr]; cbn [negb].
    + destruct (IH sb3 (n2 + 1) t3) as (sb4 & r4 & t4 & E4 & H4 & Tt4 & G4); [intros x Ix; apply K; right; exact Ix|exact H3|exact Tt3|].
      rewrite E4. exists sb4, r4, t4. split; [reflexivity|]. split; [exact H4|]. split; [exact Tt4|]. intros SV LN LB.
      destruct (ALL SV LN LB) as [_ ->]. unfold dump_text in LN. cbn [absl map flat_map] in LN. rewrite zlen_app in LN.
      destruct G4 as [-> ->]; [exact SV|rewrite zlen_app; unfold dump_text, absl; lia|exact LB|]. split; [reflexivity|]. rewrite <- app_assoc. reflexivity.
    + exists sb3, r2, t3. split; [reflexivity|]. split; [exact H3|]. split; [exact Tt3|]. intros SV LN LB. destruct (ALL SV LN LB). congruence.
Qed.
Lemma sec_text_of p m : inv p m -> m_short m -> sec_text_ok (secs p).
Proof.
  intros I S s Hs. assert (Im : In (sname s, kvs s) m) by (rewrite <- (i_abs _ _ I); apply (in_map (fun s => (sname s, kvs s))); exact Hs).
  destruct (i_names _ _ I _ Im) as [_ T]. destruct (S _ Im) as [L K]. cbn [fst snd] in *. split; [exact T|]. split; [exact L|].
  intros kv Ik. destruct (K _ Ik). destruct (proj2 (i_kv _ _ I _ Im) _ Ik) as (_ & A & B). auto.
Qed.
Lemma pri_dump_ok al1 al2 al p m : inv p m -> m_short m -> 0 <= pred p -> sane al1 -> sane al2 -> (forall n, sane (al n)) ->
  pri_dump_ini al1 al2 al p = Ret None \/ exists sb t, pri_dump_ini al1 al2 al p = Ret (Some sb) /\ holds sb t /\ text t.
Proof.
  intros I S HP S1 S2 S3. unfold pri_dump_ini.
  assert (0 <= u64 (pred p + 64)) as H0 by (unfold u64; apply Z.mod_pos_bound; reflexivity).
  destruct (create_ok al1 al2 _ S1 S2 H0) as [->|(sb & -> & H)]; [left; reflexivity|]. cbn [bind].
  destruct (dump_secs_ok al 0 S3 (secs p) sb 0 [] (sec_text_of p m I S) H) as (sb' & r & t' & -> & H' & T' & _); [constructor|]. cbn [bind].
  destruct (r =? 0); cbn [negb]; [right; eauto|left; reflexivity].
Qed.
Lemma pri_dump_serves al1 al2 al p m : inv p m -> m_short m -> sane al1 -> sane al2 -> (forall n, sane (al n)) ->
  sb_create al1 al2 (u64 (pred p + 64)) <> Ret None -> (forall n, serves (al n) (2 * (zlen (dump_text m) + 1))) -> zlen (dump_text m) + 1 < 9223372036854775808 ->
  exists sb, pri_dump_ini al1 al2 al p = Ret (Some sb) /\ holds sb (dump_text m).
Proof.
  intros I S S1 S2 S3 C SV LB. unfold pri_dump_ini.
  assert (0 <= u64 (pred p + 64)) as H0 by (unfold u64; apply Z.mod_pos_bound; reflexivity).
  destruct (create_ok al1 al2 _ S1 S2 H0) as [E|(sb & -> & H)]; [congruence|]. cbn [bind].
  destruct (dump_secs_ok al (zlen (dump_text m)) S3 (secs p) sb 0 [] (sec_text_of p m I S) H) as (sb' & r & t' & -> & H' & T' & G); [constructor|]. cbn [bind].
  rewrite (i_abs _ _ I) in G. destruct G as [-> ->]; [exact SV|change (zlen (@nil Z)) with 0; lia|exact LB|]. exists sb'. split; [reflexivity|exact H'].
Qed.
Lemma holds_cstr sb t : holds sb t -> text t -> cstr_at (sb_buf sb) 0 = Ret t.
Proof. intros (_ & _ & _ & r & E) T. rewrite E. apply (cstr_at_text [] t r 0 eq_refl T). Qed.

From Verif Require Import CBase SeqLib ListModel ListSpec.

Definition nodes := list (Z * Z).
Definition addrs (ns : nodes) := map fst ns.
Definition datas (ns : nodes) := map snd ns.
Fixpoint seg (h : heap) (a : Z) (ns : nodes) (b : Z) : Prop :=
  match ns with
  | [] => a = b
  | (p, d) :: ns => a = p /\ p <> 0 /\ exists nx, h p = Some (nx, d) /\ seg h nx ns b
  end.
Definition rep (hb : heap) (l : lst) (ns : nodes) : Prop :=
  seg (l_heap l) (l_head l) ns 0 /\ NoDup (addrs ns) /\ l_tail l = last (addrs ns) 0 /\ l_len l = zlen ns /\
  (forall a, ~ In a (addrs ns) -> l_heap l a = hb a) /\ (forall a, In a (addrs ns) -> hb a = None) /\
  Forall (fun d => d <> 0) (datas ns).

Lemma hset_same h a v : hset h a v a = v.
Proof. unfold hset. rewrite Z.eqb_refl. reflexivity. Qed.
Lemma hset_other h a v x : x <> a -> hset h a v x = h x.
Proof. unfold hset. intro H. destruct (x =? a) eqn:E; [lia|reflexivity]. Qed.
Lemma seg_ext h h' : forall ns a b, (forall p, In p (addrs ns) -> h' p = h p) -> seg h a ns b -> seg h' a ns b.
Proof.
  induction ns as [|[p d] ns IH]; intros a b E S; [exact S|]. cbn [seg] in *. destruct S as (-> & N & nx & L & S).
  split; [reflexivity|]. split; [exact N|]. exists nx. split; [rewrite E by (left; reflexivity); exact L|].
  apply IH; [intros q I; apply E; right; exact I|exact S].
Qed.
Lemma seg_app h : forall n1 n2 a c, seg h a (n1 ++ n2) c <-> exists b, seg h a n1 b /\ seg h b n2 c.
Proof.
  induction n1 as [|[p d] n1 IH]; intros n2 a c; cbn [app seg].
  - split; [intro S; exists a; split; [reflexivity|exact S]|intros (b & -> & S); exact S].
  - split.
    + intros (-> & N & nx & L & S). apply IH in S. destruct S as (b & S1 & S2). exists b. split; [|exact S2]. eauto 6.
    + intros (b & (-> & N & nx & L & S1) & S2). split; [reflexivity|]. split; [exact N|]. exists nx. split; [exact L|]. apply IH. eauto.
Qed.
Lemma seg_alloc h : forall ns a b p, seg h a ns b -> In p (addrs ns) -> h p <> None /\ p <> 0.
Proof.
  induction ns as [|[q d] ns IH]; intros a b p S I; [destruct I|]. cbn [seg] in S. destruct S as (-> & N & nx & L & S).
  destruct I as [<-|I]; [cbn; rewrite L; split; [discriminate|exact N]|]. eapply IH; eassumption.
Qed.
Lemma addrs_app n1 n2 : addrs (n1 ++ n2) = addrs n1 ++ addrs n2. Proof. apply map_app. Qed.
Lemma datas_app n1 n2 : datas (n1 ++ n2) = datas n1 ++ datas n2. Proof. apply map_app. Qed.
Lemma zlen_datas ns : zlen (datas ns) = zlen ns. Proof. unfold zlen, datas. rewrite map_length. reflexivity. Qed.
Lemma last_app_cons {A} (d : A) : forall n1 x n2, last (n1 ++ x :: n2) d = last (x :: n2) d.
Proof. induction n1 as [|y n1 IH]; intros x n2; [reflexivity|]. cbn [app]. rewrite <- (IH x n2). cbn. destruct n1; reflexivity. Qed.
Lemma last_in {A} (d : A) : forall l, l <> [] -> In (last l d) l.
Proof. induction l as [|x l IH]; [congruence|]. intros _. destruct l; [left; reflexivity|]. right. apply IH. discriminate. Qed.
Lemma hd_seg h a ns b : seg h a ns b -> a = match ns with [] => b | (p, _) :: _ => p end.
Proof. destruct ns as [|[p d] ns]; [intro S; exact S|intros (E & _); exact E]. Qed.

Section P.
Variable has_cb : bool.
Variable hb : heap.

Lemma rep_fresh l ns node : rep hb l ns -> l_heap l node = None -> ~ In node (addrs ns) /\ hb node = None.
Proof.
  intros (S & _ & _ & _ & FR & _ & _) H.
  assert (~ In node (addrs ns)) as N by (intro I; destruct (seg_alloc _ _ _ _ _ S I); congruence).
  split; [exact N|]. rewrite <- FR by exact N. exact H.
Qed.

(** insertion of a fresh node after p *)
Lemma insert_rep l n1 p d n2 node data nx : rep hb l (n1 ++ (p, d) :: n2) -> zlen (n1 ++ (p, d) :: n2) + 1 < two64 ->
  node <> 0 -> l_heap l node = None -> data <> 0 -> l_heap l p = Some (nx, d) ->
  rep hb (mk_l (l_head l) (if l_tail l =? p then node else l_tail l) (u64 (l_len l + 1))
         (hset (hset (l_heap l) node (Some (nx, data))) p (Some (node, d))) (l_freed l)) (n1 ++ (p, d) :: (node, data) :: n2).
Proof.
  intros R B NZ HN DZ HP. destruct (rep_fresh _ _ _ R HN) as [NI HBN]. destruct R as (S & ND & T & L & FR & FB & DA).
  unfold rep. cbn [l_heap l_head l_tail l_len]. rewrite addrs_app in *. cbn [addrs map fst] in *. fold (addrs n2) in *.
  assert (p <> node) as PN by (intros ->; apply NI; apply in_or_app; right; left; reflexivity).
  apply NoDup_remove in ND as [ND NIp]. pose proof (in_app_or (addrs n1) (addrs n2) p) as IO.
  assert (~ In p (addrs n1) /\ ~ In p (addrs n2)) as [Np1 Np2] by (split; intro I; apply NIp; apply in_or_app; tauto).
  assert (~ In node (addrs n1) /\ ~ In node (addrs n2)) as [Nn1 Nn2] by (split; intro I; apply NI; apply in_or_app; [left|right; right]; exact I).
  apply seg_app in S. destruct S as (b & S1 & S2). cbn [seg] in S2. destruct S2 as (-> & PZ & nx' & HP' & S2).
  rewrite HP in HP'. injection HP' as ->.
  set (h' := hset (hset (l_heap l) node (Some (nx', data))) p (Some (node, d))).
  assert (forall x, x <> p -> x <> node -> h' x = l_heap l x) as HO by (intros x X1 X2; unfold h'; rewrite !hset_other by assumption; reflexivity).
  split; [|split; [|split; [|split; [|split; [|split]]]]].
  - apply seg_app. exists p. split.
    + apply (seg_ext (l_heap l)); [|exact S1]. intros x I. apply HO; intros ->; contradiction.
    + cbn [seg]. split; [reflexivity|]. split; [exact PZ|]. exists node. split; [unfold h'; apply hset_same|].
      split; [reflexivity|]. split; [exact NZ|]. exists nx'. split; [unfold h'; rewrite hset_other by congruence; apply hset_same|].
      apply (seg_ext (l_heap l)); [|exact S2]. intros x I. apply HO; intros ->; contradiction.
  - apply (Permutation_NoDup (l := p :: node :: addrs n1 ++ addrs n2)).
    + change (addrs n1 ++ p :: node :: addrs n2) with (addrs n1 ++ [p; node] ++ addrs n2).
      change (p :: node :: addrs n1 ++ addrs n2) with ([p; node] ++ addrs n1 ++ addrs n2). apply Permutation_app_swap_app.
    + constructor; [|constructor; [|exact ND]].
      * intros [E|I]; [congruence|]. apply in_app_or in I. tauto.
      * intro I. apply in_app_or in I. tauto.
  - rewrite T. rewrite !last_app_cons. cbn [last]. destruct (addrs n2) as [|q r] eqn:Q.
    + rewrite Z.eqb_refl. reflexivity.
    + destruct (last (q :: r) 0 =? p) eqn:E; [|reflexivity]. exfalso. apply Np2.
      assert (last (q :: r) 0 = p) as <- by lia. apply last_in. discriminate.
  - rewrite L, !zlen_app, !zlen_cons in *. pose proof (zlen_nonneg n1); pose proof (zlen_nonneg n2).
    unfold u64. rewrite Z.mod_small by lia. lia.
  - intros x NX. rewrite HO.
    + apply FR. intro I. apply NX. apply in_app_or in I. apply in_or_app. destruct I as [I|[I|I]]; [left; exact I|right; left; exact I|right; right; right; exact I].
    + intros ->. apply NX. apply in_or_app. right; left; reflexivity.
    + intros ->. apply NX. apply in_or_app. right; right; left; reflexivity.
  - intros x I. apply in_app_or in I. destruct I as [I|[I|[<-|I]]]; [| |exact HBN|]; apply FB; apply in_or_app;
      [left; exact I|right; left; exact I|right; right; exact I].
  - rewrite datas_app in *. cbn [datas map snd] in *. apply Forall_app in DA. destruct DA as [D1 D2]. apply Forall_app. split; [exact D1|].
    inversion_clear D2. constructor; [assumption|constructor; assumption].
Qed.

Lemma prepend_rep l ns node data : rep hb l ns -> zlen ns + 1 < two64 -> node <> 0 -> l_heap l node = None -> data <> 0 ->
  rep hb (mk_l node (if l_tail l =? 0 then node else l_tail l) (u64 (l_len l + 1)) (hset (l_heap l) node (Some (l_head l, data))) (l_freed l))
    ((node, data) :: ns).
Proof.
  intros R B NZ HN DZ. destruct (rep_fresh _ _ _ R HN) as [NI HBN]. destruct R as (S & ND & T & L & FR & FB & DA).
  unfold rep. cbn [l_heap l_head l_tail l_len addrs map fst datas snd]. fold (addrs ns). fold (datas ns).
  split; [|split; [|split; [|split; [|split; [|split]]]]].
  - cbn [seg]. split; [reflexivity|]. split; [exact NZ|]. exists (l_head l). split; [apply hset_same|].
    apply (seg_ext (l_heap l)); [|exact S]. intros x I. apply hset_other. intros ->. contradiction.
  - constructor; assumption.
  - rewrite T. destruct (addrs ns) as [|q r] eqn:Q; [reflexivity|].
    destruct (last (q :: r) 0 =? 0) eqn:E; [|reflexivity].
    assert (In (last (q :: r) 0) (addrs ns)) as I by (rewrite Q; apply last_in; discriminate).
    destruct (seg_alloc _ _ _ _ _ S I). lia.
  - rewrite L, zlen_cons. pose proof (zlen_nonneg ns). unfold u64. rewrite Z.mod_small by lia. lia.
  - intros x NX. rewrite hset_other by (intros ->; apply NX; left; reflexivity). apply FR. intro I; apply NX; right; exact I.
  - intros x [<-|I]; [exact HBN|apply FB; exact I].
  - constructor; assumption.
Qed.

Lemma split_last {A} (l : list A) : l <> [] -> exists l' x, l = l' ++ [x].
Proof. intro H. destruct (exists_last H) as (l' & x & E). eauto. Qed.

Lemma append_ok al l ns d : fresh al -> rep hb l ns -> zlen ns + 1 < two64 ->
  exists ok l' ns', list_append al l d = Ret (l', snd (s_step ok (datas ns) (LAppend d))) /\ rep hb l' ns' /\ datas ns' = fst (s_step ok (datas ns) (LAppend d)) /\
    l_freed l' = l_freed l /\ (d <> 0 -> (al (l_heap l) = None <-> ok = false)).
Proof.
  intros F R B. unfold list_append. cbn [s_step].
  exists (match al (l_heap l) with Some _ => true | None => false end).
  destruct (d =? 0) eqn:D; cbn [negb andb].
  { exists l, ns. split; [reflexivity|]. split; [exact R|]. split; [reflexivity|]. split; [reflexivity|]. lia. }
  destruct (al (l_heap l)) as [node|] eqn:A; cbn [fst snd].
  2: { exists l, ns. split; [reflexivity|]. split; [exact R|]. split; [reflexivity|]. split; [reflexivity|]. tauto. }
  destruct (F _ _ A) as [NZ HN]. destruct (rep_fresh _ _ _ R HN) as [NI _].
  pose proof R as (S & _ & T & _).
  destruct ns as [|x0 ns0] eqn:NS.
  - cbn in T. rewrite T. cbn [Z.eqb]. do 2 eexists. split; [reflexivity|]. 
    pose proof (prepend_rep l [] node d R B NZ HN ltac:(lia)) as P. rewrite T in P. cbn [Z.eqb] in P.
    destruct R as (S0 & _). cbn in S0. rewrite S0 in P. split; [exact P|]. split; [reflexivity|]. split; [reflexivity|]. intros _. split; discriminate.
  - destruct (split_last (x0 :: ns0) ltac:(discriminate)) as (ns' & [t dt] & E). rewrite E in *. clear NS E x0 ns0.
    rewrite addrs_app in T. cbn [addrs map fst] in T. rewrite last_app_cons in T. cbn [last] in T.
    apply seg_app in S. destruct S as (b & S1 & (-> & TZ & nx & HT & NX)). cbn [seg] in NX. subst nx.
    destruct (l_tail l =? 0) eqn:E; [lia|]. rewrite T.
    assert (t <> node) as TN by (intros ->; congruence).
    unfold hload. rewrite hset_other by exact TN. rewrite HT. cbn [bind snd].
    pose proof (insert_rep l ns' t dt [] node d 0 R B NZ HN ltac:(lia) HT) as P. rewrite T, Z.eqb_refl in P.
    do 2 eexists. split; [reflexivity|]. split; [exact P|]. split; [rewrite !datas_app; cbn; rewrite <- app_assoc; reflexivity|].
    split; [reflexivity|]. intros _. split; discriminate.
Qed.
Lemma prepend_ok al l ns d : fresh al -> rep hb l ns -> zlen ns + 1 < two64 ->
  exists ok l' ns', list_prepend al l d = Ret (l', snd (s_step ok (datas ns) (LPrepend d))) /\ rep hb l' ns' /\ datas ns' = fst (s_step ok (datas ns) (LPrepend d)) /\
    l_freed l' = l_freed l /\ (d <> 0 -> (al (l_heap l) = None <-> ok = false)).
Proof.
  intros F R B. unfold list_prepend. cbn [s_step].
  exists (match al (l_heap l) with Some _ => true | None => false end).
  destruct (d =? 0) eqn:D; cbn [negb andb].
  { exists l, ns. split; [reflexivity|]. split; [exact R|]. split; [reflexivity|]. split; [reflexivity|]. lia. }
  destruct (al (l_heap l)) as [node|] eqn:A; cbn [fst snd].
  2: { exists l, ns. split; [reflexivity|]. split; [exact R|]. split; [reflexivity|]. split; [reflexivity|]. tauto. }
  destruct (F _ _ A) as [NZ HN].
  do 2 eexists. split; [reflexivity|]. split; [apply (prepend_rep l ns node d); (assumption || lia)|].
  split; [reflexivity|]. split; [reflexivity|]. intros _. split; discriminate.
Qed.

(** insert after the node at address p in the list *)
Lemma insert_ok al l n1 p dp n2 d : fresh al -> rep hb l (n1 ++ (p, dp) :: n2) -> zlen (n1 ++ (p, dp) :: n2) + 1 < two64 -> d <> 0 ->
  exists ok l' ns', list_insert_after al l p d = Ret (l', ok) /\ rep hb l' ns' /\
    datas ns' = datas n1 ++ dp :: (if ok then d :: datas n2 else datas n2) /\
    l_freed l' = l_freed l /\ (al (l_heap l) = None <-> ok = false).
Proof.
  intros F R B D. unfold list_insert_after. pose proof R as (S & _ & _).
  apply seg_app in S. destruct S as (b & S1 & (-> & PZ & nx & HP & S2)).
  destruct (p =? 0) eqn:EP; [lia|]. destruct (d =? 0) eqn:ED; [lia|]. cbn [orb].
  exists (match al (l_heap l) with Some _ => true | None => false end).
  destruct (al (l_heap l)) as [node|] eqn:A.
  - destruct (F _ _ A) as [NZ HN]. assert (p <> node) as PN by (intros ->; congruence).
    unfold hload. rewrite hset_other by exact PN. rewrite HP. cbn [bind fst]. rewrite hset_other by exact PN.
    rewrite hset_other by exact PN. rewrite HP. cbn [bind snd].
    pose proof (insert_rep l n1 p dp n2 node d nx R B NZ HN D HP) as P.
    do 2 eexists. split; [reflexivity|]. split.
    { destruct P as (P1 & P2 & P3 & P4 & P5 & P6 & P7). split; [|split; [|split; [|split; [|split; [|split]]]]]; try eassumption.
      - cbn [l_heap l_head] in *. eapply seg_ext; [|exact P1]. intros x _. unfold hset. destruct (x =? p); [reflexivity|].
        destruct (x =? node); reflexivity.
      - intros x X. cbn [l_heap] in *. rewrite <- (P5 x X). unfold hset. destruct (x =? p); [reflexivity|]. destruct (x =? node); reflexivity. }
    split; [rewrite datas_app; reflexivity|]. split; [reflexivity|]. split; discriminate.
  - exists l, (n1 ++ (p, dp) :: n2). split; [reflexivity|]. split; [exact R|]. split; [rewrite datas_app; reflexivity|]. split; [reflexivity|]. tauto.
Qed.

Lemma next_ok l ns1 p d ns2 : rep hb l (ns1 ++ (p, d) :: ns2) ->
  hload (l_heap l) p = Ret (match ns2 with [] => 0 | (q, _) :: _ => q end, d) /\ p <> 0.
Proof.
  intros (S & _). apply seg_app in S. destruct S as (b & _ & (-> & PZ & nx & HP & S2)). unfold hload. rewrite HP.
  rewrite (hd_seg _ _ _ _ S2). split; [reflexivity|exact PZ].
Qed.
Definition pos (ns : nodes) : Z := match ns with [] => 0 | (q, _) :: _ => q end.
Lemma head_ok l ns : rep hb l ns -> l_head l = pos ns.
Proof. intros (S & _). apply (hd_seg _ _ _ _ S). Qed.

Lemma nth_node_ok l : forall i n1 n2, rep hb l (n1 ++ n2) -> nth_node i l (pos n2) = Ret (pos (skipn i n2)).
Proof.
  induction i as [|i IH]; intros n1 n2 R; [reflexivity|]. cbn [nth_node skipn].
  destruct n2 as [|[p d] n2]; cbn [pos].
  - cbn [list_next Z.eqb bind]. change 0 with (pos []) at 1. rewrite (IH n1 []) by exact R. rewrite skipn_nil. reflexivity.
  - unfold list_next. destruct (next_ok l n1 p d n2 R) as [H PZ]. destruct (p =? 0) eqn:E; [lia|]. rewrite H. cbn [bind fst].
    apply (IH (n1 ++ [(p, d)]) n2). rewrite <- app_assoc. exact R.
Qed.

Lemma walk_ok l : forall fuel n1 n2, rep hb l (n1 ++ n2) -> (length n2 < fuel)%nat -> walk fuel l (pos n2) = Ret (datas n2).
Proof.
  induction fuel as [|fuel IH]; intros n1 n2 R F; [lia|]. destruct n2 as [|[p d] n2]; cbn [walk pos]; unfold list_end; [reflexivity|].
  destruct (next_ok l n1 p d n2 R) as [H PZ]. unfold list_node, list_next. destruct (p =? 0) eqn:E; [lia|]. rewrite H. cbn [bind fst snd].
  fold (pos n2). rewrite (IH (n1 ++ [(p, d)]) n2); [reflexivity|rewrite <- app_assoc; exact R|cbn in F; lia].
Qed.
Lemma contains_loop_ok l x : forall fuel n1 n2, rep hb l (n1 ++ n2) -> (length n2 < fuel)%nat ->
  contains_loop fuel l (pos n2) x = Ret (mem x (datas n2)).
Proof.
  induction fuel as [|fuel IH]; intros n1 n2 R F; [lia|]. destruct n2 as [|[p d] n2]; cbn [contains_loop pos]; unfold list_end; [reflexivity|].
  destruct (next_ok l n1 p d n2 R) as [H PZ]. unfold list_node, list_next. destruct (p =? 0) eqn:E; [lia|]. rewrite H. cbn [bind fst snd].
  cbn [datas map snd mem existsb]. rewrite Z.eqb_sym. destruct (x =? d) eqn:ED; [reflexivity|]. cbn [orb].
  fold (pos n2). apply (IH (n1 ++ [(p, d)]) n2); [rewrite <- app_assoc; exact R|cbn in F; lia].
Qed.
Lemma len_fuel l ns : rep hb l ns -> (length ns < S (Z.to_nat (l_len l)))%nat.
Proof. intros (_ & _ & _ & L & _). rewrite L. unfold zlen. rewrite Nat2Z.id. lia. Qed.
Lemma mem0 ns : Forall (fun d => d <> 0) ns -> mem 0 ns = false /\ remove_first 0 ns = ns.
Proof.
  induction 1 as [|d ns D F [I1 I2]]; [split; reflexivity|]. unfold mem in *. cbn [existsb remove_first]. destruct (0 =? d) eqn:E; [lia|].
  destruct (d =? 0) eqn:E2; [lia|]. rewrite I2. cbn [orb]. split; [exact I1|reflexivity].
Qed.
Lemma contains_ok l ns x : rep hb l ns -> list_contains l x = Ret (mem x (datas ns)).
Proof.
  intro R. unfold list_contains. destruct (x =? 0) eqn:E.
  - destruct R as (_ & _ & _ & _ & _ & _ & D). assert (x = 0) as -> by lia. rewrite (proj1 (mem0 _ D)). reflexivity.
  - unfold list_begin. rewrite (head_ok l ns R). apply (contains_loop_ok l x _ [] ns R). apply (len_fuel l ns R).
Qed.

(** freeing a node *)
Lemma free_node_ok l n1 p d n2 : rep hb l (n1 ++ (p, d) :: n2) -> zlen (n1 ++ (p, d) :: n2) < two64 ->
  list_free_node has_cb l p = Ret (mk_l (l_head l) (l_tail l) (zlen (n1 ++ n2)) (hset (l_heap l) p None)
    (if has_cb then l_freed l ++ [d] else l_freed l), pos n2).
Proof.
  intros R B. unfold list_free_node. destruct (next_ok l n1 p d n2 R) as [H PZ]. destruct (p =? 0) eqn:E; [lia|].
  rewrite H. cbn [bind fst snd]. destruct R as (_ & _ & _ & L & _). rewrite L. rewrite !zlen_app, zlen_cons in *.
  pose proof (zlen_nonneg n1). pose proof (zlen_nonneg n2). unfold u64. rewrite Z.mod_small by lia.
  replace (zlen n1 + (1 + zlen n2) - 1) with (zlen n1 + zlen n2) by lia. reflexivity.
Qed.
(** unlinking the head *)
Lemma unlink_head l p d n2 fr : rep hb l ((p, d) :: n2) -> zlen ((p, d) :: n2) < two64 ->
  rep hb (mk_l (pos n2) (if l_tail l =? p then pos n2 else l_tail l) (zlen n2) (hset (l_heap l) p None) fr) n2.
Proof.
  intros (S & ND & T & L & FR & FB & DA) B. unfold rep. cbn [l_heap l_head l_tail l_len addrs map fst datas snd] in *.
  fold (addrs n2) in *. fold (datas n2) in *. inversion_clear ND as [|? ? NI ND']. inversion_clear DA as [|? ? DZ DA'].
  cbn [seg] in S. destruct S as (_ & PZ & nx & HP & S).
  split; [|split; [|split; [|split; [|split; [|split]]]]]; try assumption; try reflexivity.
  - replace (pos n2) with nx by (apply (hd_seg _ _ _ _ S)). apply (seg_ext (l_heap l)); [|exact S]. intros x I. apply hset_other. intros ->; contradiction.
  - rewrite T. destruct n2 as [|[q e] n2]; cbn [addrs map fst last].
    + rewrite Z.eqb_refl. reflexivity.
    + fold (addrs n2). change (match addrs n2 with [] => q | _ :: _ => last (addrs n2) 0 end) with (last (q :: addrs n2) 0).
      destruct (last (q :: addrs n2) 0 =? p) eqn:E; [|reflexivity]. exfalso. apply NI.
      assert (last (q :: addrs n2) 0 = p) as <- by lia. apply last_in. discriminate.
  - intros x X. destruct (Z.eq_dec x p) as [->|NE]; [rewrite hset_same; symmetry; apply FB; left; reflexivity|].
    rewrite hset_other by exact NE. apply FR. intros [E|I]; [congruence|contradiction].
  - intros x I. apply FB. right; exact I.
Qed.
(** unlinking a later node *)
Lemma unlink_mid l n1 p d q e n2 fr : rep hb l (n1 ++ (p, d) :: (q, e) :: n2) -> zlen (n1 ++ (p, d) :: (q, e) :: n2) < two64 ->
  rep hb (mk_l (l_head l) (if l_tail l =? q then p else l_tail l) (zlen (n1 ++ (p, d) :: n2))
    (hset (hset (l_heap l) q None) p (Some (pos n2, d))) fr) (n1 ++ (p, d) :: n2).
Proof.
  intros (S & ND & T & L & FR & FB & DA) B. unfold rep. cbn [l_heap l_head l_tail l_len].
  rewrite addrs_app, datas_app in *. cbn [addrs map fst datas snd] in *. fold (addrs n2) in *. fold (datas n2) in *.
  apply seg_app in S. destruct S as (b & S1 & (-> & PZ & nx & HP & (-> & QZ & nq & HQ & S2))).
  assert (NoDup (q :: addrs n1 ++ p :: addrs n2)) as NDq.
  { apply (Permutation_NoDup (l := addrs n1 ++ p :: q :: addrs n2)); [|exact ND].
    change (p :: q :: addrs n2) with ([p] ++ [q] ++ addrs n2). change (p :: addrs n2) with ([p] ++ addrs n2).
    rewrite (app_assoc (addrs n1)). rewrite Permutation_app_swap_app. cbn [app]. rewrite <- app_assoc. reflexivity. }
  inversion_clear NDq as [|? ? NIq ND']. apply NoDup_remove in ND' as ND2. destruct ND2 as [ND2 NIp].
  assert (~ In p (addrs n1) /\ ~ In p (addrs n2)) as [Np1 Np2] by (split; intro I; apply NIp; apply in_or_app; tauto).
  assert (~ In q (addrs n1) /\ ~ In q (addrs n2) /\ q <> p) as (Nq1 & Nq2 & QP).
  { repeat split; intro I; apply NIq; apply in_or_app; [left; exact I|right; right; exact I|right; left; congruence]. }
  set (h' := hset (hset (l_heap l) q None) p (Some (pos n2, d))).
  assert (forall x, x <> p -> x <> q -> h' x = l_heap l x) as HO by (intros x X1 X2; unfold h'; rewrite !hset_other by assumption; reflexivity).
  split; [|split; [|split; [|split; [|split; [|split]]]]]; try assumption; try reflexivity.
  - apply seg_app. exists p. split.
    + apply (seg_ext (l_heap l)); [|exact S1]. intros x I. apply HO; intros ->; contradiction.
    + cbn [seg]. split; [reflexivity|]. split; [exact PZ|]. exists (pos n2). split; [unfold h'; apply hset_same|].
      rewrite (hd_seg _ _ _ _ S2) in S2. apply (seg_ext (l_heap l)); [|exact S2]. intros x I. apply HO; intros ->; contradiction.
  - rewrite T, !last_app_cons. cbn [last]. destruct (addrs n2) as [|r rs] eqn:Q; [rewrite Z.eqb_refl; reflexivity|].
    destruct (last (r :: rs) 0 =? q) eqn:E; [|reflexivity]. exfalso. apply Nq2.
    assert (last (r :: rs) 0 = q) as <- by lia. apply last_in. discriminate.
  - intros x X. destruct (Z.eq_dec x q) as [->|NE].
    + unfold h'. rewrite hset_other by exact QP. rewrite hset_same. symmetry. apply FB. apply in_or_app. right; right; left; reflexivity.
    + assert (x <> p) as NP by (intros ->; apply X; apply in_or_app; right; left; reflexivity). rewrite HO by assumption.
      apply FR. intro I. apply in_app_or in I. apply X. apply in_or_app. destruct I as [I|[I|[I|I]]]; [left; exact I|congruence|congruence|right; right; exact I].
  - intros x I. apply FB. apply in_app_or in I. apply in_or_app. destruct I as [I|[I|I]]; [left; exact I|right; left; exact I|right; right; right; exact I].
  - apply Forall_app in DA. destruct DA as [D1 D2]. inversion_clear D2 as [|? ? Dd D3]. inversion_clear D3. apply Forall_app. split; [exact D1|].
    constructor; assumption.
Qed.

Lemma remove_loop_ok x : forall fuel l n1 p d n2, rep hb l (n1 ++ (p, d) :: n2) -> zlen (n1 ++ (p, d) :: n2) < two64 -> (length n2 < fuel)%nat ->
  (mem x (datas n2) = false /\ remove_loop has_cb fuel l p (pos n2) x = Ret (l, false)) \/
  exists l' n3 q n4, n2 = n3 ++ (q, x) :: n4 /\ ~ In x (datas n3) /\
    remove_loop has_cb fuel l p (pos n2) x = Ret (l', true) /\ rep hb l' (n1 ++ (p, d) :: n3 ++ n4) /\
    l_freed l' = if has_cb then l_freed l ++ [x] else l_freed l.
Proof.
  induction fuel as [|fuel IH]; intros l n1 p d n2 R B F; [lia|]. destruct n2 as [|[q e] n2]; cbn [remove_loop pos].
  - left. split; reflexivity.
  - pose proof R as R0. change (n1 ++ (p, d) :: (q, e) :: n2) with (n1 ++ [(p, d)] ++ (q, e) :: n2) in R0. rewrite app_assoc in R0.
    destruct (next_ok l _ q e n2 R0) as [H QZ]. destruct (q =? 0) eqn:EQ; [lia|]. rewrite H. cbn [bind fst snd].
    destruct (e =? x) eqn:EX.
    + right. assert (e = x) as -> by lia.
      assert (zlen ((n1 ++ [(p, d)]) ++ (q, x) :: n2) < two64) as B' by (rewrite <- app_assoc; exact B).
      rewrite (free_node_ok l _ q x n2 R0 B'). cbn [bind l_heap l_tail l_head l_len l_freed].
      pose proof (unlink_mid l n1 p d q x n2 (if has_cb then l_freed l ++ [x] else l_freed l) R B) as U.
      destruct (next_ok l n1 p d _ R) as [HP PZ]. unfold hload in HP |- *.
      assert (q <> p) as QP.
      { destruct R as (_ & ND & _). rewrite addrs_app in ND. cbn in ND. apply NoDup_remove_2 in ND.
        intros ->. apply ND. apply in_or_app. right; left; reflexivity. }
      rewrite hset_other by congruence. destruct (l_heap l p) as [np|]; [|discriminate]. injection HP as ->. cbn [bind snd].
      eexists _, [], q, n2. split; [reflexivity|]. split; [intros []|]. split; [reflexivity|]. cbn [app l_freed].
      split; [|reflexivity]. rewrite <- app_assoc. exact U.
    + fold (pos n2). destruct (IH l (n1 ++ [(p, d)]) q e n2) as [[M E]|(l' & n3 & q' & n4 & EN & NI & E & R' & FR)].
      * rewrite <- app_assoc. exact R.
      * rewrite <- app_assoc. exact B.
      * cbn in F; lia.
      * left. split; [|exact E]. unfold mem in *. cbn [datas map snd existsb]. destruct (x =? e) eqn:X; [lia|]. exact M.
      * right. exists l', ((q, e) :: n3), q', n4. subst n2. split; [reflexivity|]. split.
        { cbn. intros [E1|I]; [lia|contradiction]. }
        split; [exact E|]. split; [|exact FR]. rewrite <- app_assoc in R'. exact R'.
Qed.
Lemma remove_first_split x n3 n4 : ~ In x n3 -> remove_first x (n3 ++ x :: n4) = n3 ++ n4 /\ mem x (n3 ++ x :: n4) = true.
Proof.
  induction n3 as [|y n3 IH]; intro N; unfold mem in *; cbn [app remove_first existsb].
  - rewrite Z.eqb_refl. split; reflexivity.
  - destruct (y =? x) eqn:E; [exfalso; apply N; left; lia|]. destruct (IH ltac:(intro I; apply N; right; exact I)) as [I1 I2].
    rewrite I1, I2. split; [reflexivity|apply orb_true_r].
Qed.
Lemma mem_false x s : mem x s = false -> remove_first x s = s.
Proof.
  unfold mem. induction s as [|y s IH]; [reflexivity|]. cbn [existsb remove_first]. intro H. apply orb_false_iff in H as [H1 H2]. destruct (y =? x) eqn:E; [lia|].
  rewrite IH; [reflexivity|exact H2].
Qed.
(** list_remove with the position made explicit *)
Lemma remove_ok l ns x : rep hb l ns -> zlen ns < two64 ->
  (mem x (datas ns) = false /\ list_remove has_cb l x = Ret (l, false)) \/
  exists l' n3 q n4, ns = n3 ++ (q, x) :: n4 /\ ~ In x (datas n3) /\ list_remove has_cb l x = Ret (l', true) /\ rep hb l' (n3 ++ n4) /\
    l_freed l' = if has_cb then l_freed l ++ [x] else l_freed l.
Proof.
  intros R B. unfold list_remove. pose proof R as (_ & _ & _ & L & _ & _ & DA). destruct (x =? 0) eqn:X.
  { left. assert (x = 0) as -> by lia. rewrite (proj1 (mem0 _ DA)). split; reflexivity. }
  unfold list_is_empty. rewrite L. destruct ns as [|[p d] ns]; [left; split; reflexivity|].
  destruct (zlen ((p, d) :: ns) =? 0) eqn:Z0; [rewrite zlen_cons in Z0; pose proof (zlen_nonneg ns); lia|]. cbn [orb].
  rewrite (head_ok l _ R). cbn [pos]. destruct (next_ok l [] p d ns R) as [H PZ]. rewrite H. cbn [bind fst snd].
  destruct (d =? x) eqn:D.
  - right. assert (d = x) as -> by lia. rewrite (free_node_ok l [] p x ns R B). cbn [bind l_heap l_tail l_head l_len l_freed].
    pose proof (head_ok l _ R) as HH. cbn [pos] in HH.
    eexists _, [], p, ns. split; [reflexivity|]. split; [intros []|]. split; [reflexivity|]. cbn [app l_freed]. split; [|reflexivity].
    rewrite HH. apply (unlink_head l p x ns _ R B).
  - fold (pos ns). destruct (remove_loop_ok x (S (Z.to_nat (zlen ((p, d) :: ns)))) l [] p d ns R B) as [[M E]|(l' & n3 & q & n4 & EN & NI & E & R' & FR)].
    + unfold zlen. rewrite Nat2Z.id. cbn [length]. lia.
    + left. split; [|exact E]. unfold mem in *. cbn [datas map snd existsb]. destruct (x =? d) eqn:XD; [lia|]. exact M.
    + right. exists l', ((p, d) :: n3), q, n4. subst ns. split; [reflexivity|]. split; [cbn; intros [E1|I]; [lia|contradiction]|].
      split; [exact E|]. split; [exact R'|exact FR].
Qed.

Lemma clear_loop_ok : forall fuel l ns, rep hb l ns -> zlen ns < two64 -> (length ns < fuel)%nat ->
  exists l', clear_loop has_cb fuel l (pos ns) = Ret l' /\ (forall a, l_heap l' a = hb a) /\
    l_freed l' = if has_cb then l_freed l ++ datas ns else l_freed l.
Proof.
  induction fuel as [|fuel IH]; intros l ns R B F; [lia|]. destruct ns as [|[p d] ns]; cbn [clear_loop pos].
  - exists l. split; [reflexivity|]. destruct R as (_ & _ & _ & _ & FR & _). split; [intro a; apply FR; intros []|].
    destruct has_cb; [cbn; rewrite app_nil_r|]; reflexivity.
  - destruct (next_ok l [] p d ns R) as [_ PZ]. destruct (p =? 0) eqn:E; [lia|]. rewrite (free_node_ok l [] p d ns R B). cbn [bind].
    pose proof (unlink_head l p d ns (if has_cb then l_freed l ++ [d] else l_freed l) R B) as U.
    (* the loop looks only at the heap and the log; move to the tidy record *)
    assert (forall fu (a b : lst) n, l_heap a = l_heap b -> l_freed a = l_freed b ->
      match clear_loop has_cb fu a n, clear_loop has_cb fu b n with
      | Ret a', Ret b' => l_heap a' = l_heap b' /\ l_freed a' = l_freed b' | NoFuel, NoFuel => True | Ub, Ub => True | Abrt, Abrt => True | _, _ => False end) as CL.
    { clear. induction fu as [|fu IH]; intros a b n E1 E2; cbn [clear_loop].
      - destruct (n =? 0); [split; assumption|exact I].
      - destruct (n =? 0) eqn:N; [split; assumption|]. unfold list_free_node. rewrite N, E1, E2. destruct (hload (l_heap b) n); cbn [bind]; try exact I.
        apply IH; reflexivity. }
    rewrite zlen_cons in B. pose proof (zlen_nonneg ns).
    destruct (IH _ ns U ltac:(lia) ltac:(cbn in F; lia)) as (l1 & E1 & HB & FR).
    match goal with |- exists l', clear_loop _ _ ?a _ = _ /\ _ =>
      match type of E1 with clear_loop _ _ ?b _ = _ => pose proof (CL fuel a b (pos ns) eq_refl eq_refl) as X end end.
    rewrite E1 in X. cbn [l_freed] in FR.
    match goal with |- exists l', ?t = _ /\ _ => destruct t as [l2| | |] end; try contradiction.
    destruct X as [X1 X2]. exists l2. split; [reflexivity|]. split; [intro a; rewrite X1; apply HB|]. rewrite X2, FR.
    destruct has_cb; [rewrite <- app_assoc; reflexivity|reflexivity].
Qed.
Lemma clear_ok l ns : rep hb l ns -> zlen ns < two64 ->
  exists l', list_clear has_cb l = Ret l' /\ rep hb l' [] /\ (forall a, l_heap l' a = hb a) /\ l_freed l' = if has_cb then l_freed l ++ datas ns else l_freed l.
Proof.
  intros R B. unfold list_clear. rewrite (head_ok l ns R).
  destruct (clear_loop_ok _ l ns R B (len_fuel l ns R)) as (l' & E & HB & FR). rewrite E. cbn [bind].
  eexists. split; [reflexivity|]. split; [|split; [exact HB|exact FR]].
  split; [reflexivity|]. split; [constructor|]. split; [reflexivity|]. split; [reflexivity|]. split; [intros a _; apply HB|]. split; [intros a []|constructor].
Qed.
End P.

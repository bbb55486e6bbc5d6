From Verif Require Import CBase SeqLib HashmapModel HashmapSpec.

Definition kv (es : list entry) : list (Z * Z) := map (fun e => (e_key e, e_val e)) es.

Lemma znth_split {A} (l : list A) i x : znth i l = Some x -> exists l1 l2, l = l1 ++ x :: l2 /\ zlen l1 = i.
Proof.
  intro N. unfold znth in N. destruct (i <? 0) eqn:E; [discriminate|].
  apply nth_error_split in N as (l1 & l2 & E1 & E2). exists l1, l2. split; [exact E1|]. unfold zlen. lia.
Qed.
Lemma znth_mid {A} (l1 l2 : list A) x y j : znth j (l1 ++ y :: l2) = if j =? zlen l1 then Some y else znth j (l1 ++ x :: l2).
Proof.
  destruct (j =? zlen l1) eqn:E.
  - replace j with (zlen l1) by lia. rewrite znth_app_r by lia. rewrite Z.sub_diag. reflexivity.
  - rewrite !znth_app. destruct (j <? zlen l1) eqn:C; [reflexivity|]. rewrite !znth_cons by lia. reflexivity.
Qed.
Lemma Permutation_filter' {A} (f : A -> bool) l m : Permutation l m -> Permutation (filter f l) (filter f m).
Proof.
  induction 1 as [|x l m P IH|x y l|l m n P1 IH1 P2 IH2]; cbn [filter].
  - constructor.
  - destruct (f x); [constructor|]; exact IH.
  - destruct (f x), (f y); try reflexivity. constructor.
  - etransitivity; eassumption.
Qed.
Lemma index_range k h : 0 <= k -> 0 <= index (2 ^ k) h < 2 ^ k.
Proof.
  intro K. unfold index. replace (2 ^ k - 1) with (Z.ones k) by (rewrite Z.ones_equiv; lia).
  rewrite Z.land_ones by exact K. apply Z.mod_pos_bound. apply Z.pow_pos_nonneg; lia.
Qed.

Section P.
Variables (hf : Z -> Z) (eqf : Z -> Z -> bool) (kfree vfree locked : bool).
Hypothesis C : compatible hf eqf.
Local Notation hk := (hash_key hf).

Lemma eq_refl' a : eqf a a = true. Proof. apply C. Qed.
Lemma eq_sym' a b : eqf a b = eqf b a. Proof. apply C. Qed.
Lemma eq_trans' a b c : eqf a b = true -> eqf b c = true -> eqf a c = true. Proof. apply C. Qed.
Lemma eq_hash a b : eqf a b = true -> hk a = hk b.
Proof. intro H. unfold hash_key. f_equal. apply C. exact H. Qed.

(** ** specification maps *)
Definition uniq (s : fmap) : Prop :=
  NoDup (map fst s) /\ forall a b, In a (map fst s) -> In b (map fst s) -> eqf a b = true -> a = b.
Lemma uniq_perm s s' : Permutation s s' -> uniq s -> uniq s'.
Proof.
  intros P [N U]. pose proof (Permutation_map fst P) as PF. split; [eapply Permutation_NoDup; eassumption|].
  intros a b IA IB. apply U; (eapply Permutation_in; [apply Permutation_sym; exact PF|assumption]).
Qed.
Lemma uniq_pair s p q : uniq s -> In p s -> In q s -> eqf (fst p) (fst q) = true -> p = q.
Proof.
  intros [N U] IP IQ E. assert (fst p = fst q) as F by (apply U; auto using in_map).
  clear U E. induction s as [|x s IH]; [destruct IP|]. cbn [map] in N. inversion_clear N as [|y l NI N'].
  destruct IP as [->|IP], IQ as [->|IQ]; [reflexivity| | |auto].
  - exfalso. apply NI. rewrite F. apply in_map; exact IQ.
  - exfalso. apply NI. rewrite <- F. apply in_map; exact IP.
Qed.
Lemma find_iff s k p : uniq s -> s_find eqf s k = Some p <-> In p s /\ eqf (fst p) k = true.
Proof.
  intro U. unfold s_find. split; [apply find_some|]. intros [I E].
  destruct (find (fun p0 => eqf (fst p0) k) s) as [q|] eqn:F.
  - apply find_some in F as [IQ EQ]. f_equal. apply (uniq_pair s); try assumption.
    apply eq_trans' with k; [exact EQ|rewrite eq_sym'; exact E].
  - apply find_none with (x := p) in F; [cbn in F; congruence|exact I].
Qed.
Lemma find_perm s s' k : Permutation s s' -> uniq s -> s_find eqf s k = s_find eqf s' k.
Proof.
  intros P U. pose proof (uniq_perm _ _ P U) as U'.
  destruct (s_find eqf s k) as [p|] eqn:E.
  - apply find_iff in E as [I E]; [|exact U]. symmetry. apply find_iff; [exact U'|]. split; [|exact E].
    eapply Permutation_in; eassumption.
  - destruct (s_find eqf s' k) as [p|] eqn:E'; [|reflexivity]. apply find_iff in E' as [I E']; [|exact U'].
    assert (s_find eqf s k = Some p) as X; [|congruence]. apply find_iff; [exact U|]. split; [|exact E'].
    eapply Permutation_in; [apply Permutation_sym; exact P|exact I].
Qed.
Lemma put_keys s k v : s_find eqf s k <> None -> map fst (s_put eqf s k v) = map fst s.
Proof.
  intro F. unfold s_put. destruct (s_find eqf s k); [|congruence]. rewrite map_map. apply map_ext.
  intros [a b]. cbn. destruct (eqf a k); reflexivity.
Qed.
Lemma find_None s k : s_find eqf s k = None -> forall p, In p s -> eqf (fst p) k = false.
Proof. intros F p I. exact (find_none _ _ F p I). Qed.
Lemma uniq_put s k v : uniq s -> uniq (s_put eqf s k v).
Proof.
  intros [N U]. destruct (s_find eqf s k) as [p|] eqn:F.
  - assert (s_find eqf s k <> None) as NN by congruence. split; rewrite (put_keys s k v NN); assumption.
  - unfold s_put. rewrite F. unfold uniq. rewrite map_app. cbn [map fst]. split.
    + apply Permutation_NoDup with (k :: map fst s); [apply Permutation_cons_append|]. constructor; [|exact N].
      intro I. apply in_map_iff in I as (p & E & I). pose proof (find_None s k F p I) as X. rewrite E, eq_refl' in X. discriminate.
    + intros a b IA IB E. apply in_app_iff in IA, IB.
      destruct IA as [IA|[<-|[]]], IB as [IB|[<-|[]]]; [auto| | |reflexivity].
      * apply in_map_iff in IA as (p & <- & I). rewrite (find_None s k F p I) in E. discriminate.
      * apply in_map_iff in IB as (p & <- & I). rewrite eq_sym', (find_None s k F p I) in E. discriminate.
Qed.
Lemma filter_fst_incl (f : Z * Z -> bool) s a : In a (map fst (filter f s)) -> In a (map fst s).
Proof. intro I. apply in_map_iff in I as (p & <- & I). apply filter_In in I as [I _]. apply in_map; exact I. Qed.
Lemma uniq_remove s k : uniq s -> uniq (s_remove eqf s k).
Proof.
  intros [N U]. unfold s_remove. split.
  - clear U. induction s as [|p s IH]; [constructor|]. cbn [map filter] in *. inversion_clear N as [|y l NI N'].
    destruct (negb (eqf (fst p) k)); [|auto]. cbn [map]. constructor; [|auto].
    intro I. apply NI. eapply filter_fst_incl; exact I.
  - intros a b IA IB. apply U; eapply filter_fst_incl; eassumption.
Qed.

(** ** buckets *)
Definition good_entry (bc i : Z) (e : entry) : Prop := e_hash e = hk (e_key e) /\ index bc (e_hash e) = i.
Definition good_buckets (bc : Z) (bs : list (list entry)) : Prop :=
  zlen bs = bc /\ forall i b, znth i bs = Some b -> Forall (good_entry bc i) b.

Lemma equal_keys_ok e k bc i : good_entry bc i e -> equal_keys eqf e k (hk k) = eqf (e_key e) k.
Proof.
  intros [H _]. unfold equal_keys. destruct (e_key e =? k) eqn:E.
  - apply Z.eqb_eq in E. rewrite E, eq_refl'. reflexivity.
  - cbn [orb]. destruct (e_hash e =? hk k) eqn:EH; [reflexivity|]. cbn [andb].
    destruct (eqf (e_key e) k) eqn:EE; [|reflexivity]. apply eq_hash in EE. rewrite H in EH. lia.
Qed.

(** the chain of k's bucket, split at the entry for k *)
Lemma chain_cases k bc i c : Forall (good_entry bc i) c ->
  (Forall (fun e => eqf (e_key e) k = false) c /\ chain_get eqf k (hk k) c = 0 /\
   chain_remove eqf k (hk k) c = (c, None) /\
   forall ok v, chain_put eqf ok k (hk k) v c = if ok then (c ++ [mk_e k (hk k) v], PutNew) else (c, PutNoMem)) \/
  (exists c1 e c2, c = c1 ++ e :: c2 /\ Forall (fun e => eqf (e_key e) k = false) c1 /\ eqf (e_key e) k = true /\
   chain_get eqf k (hk k) c = e_val e /\ chain_remove eqf k (hk k) c = (c1 ++ c2, Some e) /\
   forall ok v, chain_put eqf ok k (hk k) v c = (c1 ++ mk_e (e_key e) (e_hash e) v :: c2, PutOld (e_val e))).
Proof.
  induction c as [|e c IH]; intro G.
  - left. split; [constructor|]. split; [reflexivity|]. split; [reflexivity|]. intros [] v; reflexivity.
  - inversion_clear G as [|x l Ge G']. cbn [chain_get chain_remove chain_put].
    rewrite (equal_keys_ok e k bc i Ge). destruct (eqf (e_key e) k) eqn:E.
    + right. exists [], e, c. split; [reflexivity|]. split; [constructor|]. split; [exact E|]. repeat split; reflexivity.
    + destruct (IH G') as [(F & G1 & G2 & G3)|(c1 & e1 & c2 & -> & F & E1 & G1 & G2 & G3)].
      * left. split; [constructor; assumption|]. split; [exact G1|]. rewrite G2. split; [reflexivity|].
        intros ok v. rewrite G3. destruct ok; reflexivity.
      * right. exists (e :: c1), e1, c2. split; [reflexivity|]. split; [constructor; assumption|]. split; [exact E1|].
        split; [exact G1|]. rewrite G2. split; [reflexivity|]. intros ok v. rewrite G3. reflexivity.
Qed.

Lemma nomatch_other bc b1 c b2 k : good_buckets bc (b1 ++ c :: b2) -> zlen b1 = index bc (hk k) ->
  Forall (fun e => eqf (e_key e) k = false) (concat b1 ++ concat b2).
Proof.
  intros [L G] I. apply Forall_forall. intros e IN.
  destruct (eqf (e_key e) k) eqn:E; [exfalso|reflexivity].
  assert (exists j b, znth j (b1 ++ c :: b2) = Some b /\ In e b /\ j <> zlen b1) as (j & b & Z & IB & NE).
  { apply in_app_iff in IN as [IN|IN]; apply in_concat in IN as (b & IB & IE); apply In_znth in IB as (j & R & Z).
    - exists j, b. rewrite znth_app_l by lia. repeat split; [exact Z|exact IE|lia].
    - exists (zlen b1 + 1 + j), b. rewrite znth_app_r by lia. replace (zlen b1 + 1 + j - zlen b1) with (j + 1) by lia.
      rewrite znth_cons by lia. replace (j + 1 - 1) with j by lia. repeat split; [exact Z|exact IE|lia]. }
  specialize (G j b Z). rewrite Forall_forall in G. destruct (G e IB) as [H1 H2].
  apply NE. rewrite I, <- H2, H1. f_equal. apply eq_hash; exact E.
Qed.

Lemma good_set bc b1 c c' b2 : good_buckets bc (b1 ++ c :: b2) -> Forall (good_entry bc (zlen b1)) c' ->
  good_buckets bc (b1 ++ c' :: b2).
Proof.
  intros [L G] F. split.
  - rewrite <- L, !zlen_app, !zlen_cons. reflexivity.
  - intros j b Z. rewrite (znth_mid b1 b2 c c') in Z. destruct (j =? zlen b1) eqn:E.
    + injection Z as <-. replace j with (zlen b1) by lia. exact F.
    + apply (G j b Z).
Qed.
Lemma concat_mid {A} (b1 b2 : list (list A)) c : concat (b1 ++ c :: b2) = concat b1 ++ c ++ concat b2.
Proof. rewrite concat_app. reflexivity. Qed.

(** ** expansion *)
Lemma rehash_ok k : 0 <= k -> forall es bs, good_buckets (2 ^ k) bs -> Forall (fun e => e_hash e = hk (e_key e)) es ->
  exists bs', fold_left (rehash_one (2 ^ k)) es (Ret bs) = Ret bs' /\ good_buckets (2 ^ k) bs' /\
    Permutation (concat bs') (es ++ concat bs).
Proof.
  intros K es. induction es as [|e es IH]; intros bs G F; cbn [fold_left].
  - exists bs. split; [reflexivity|]. split; [exact G|]. reflexivity.
  - inversion_clear F as [|x l Fe F']. unfold rehash_one at 2. cbn [bind].
    pose proof (index_range k (e_hash e) K) as R. pose proof G as [L GB].
    destruct (znth_in_range (index (2 ^ k) (e_hash e)) bs ltac:(rewrite L; exact R)) as [b Eb].
    rewrite (mload_znth _ _ _ Eb). cbn [bind].
    destruct (znth_split _ _ _ Eb) as (b1 & b2 & -> & L1).
    unfold set_bucket. rewrite mstore_app by lia. rewrite <- app_assoc. cbn [app].
    destruct (IH (b1 ++ (e :: b) :: b2)) as (bs' & E & G' & P).
    + eapply good_set; [exact G|]. constructor; [split; [exact Fe|lia]|]. rewrite L1. apply (GB _ _ Eb).
    + exact F'.
    + exists bs'. split; [exact E|]. split; [exact G'|]. rewrite P, !concat_mid. cbn [app].
      rewrite <- !Permutation_middle. reflexivity.
Qed.
Lemma repeat_good k : 0 <= k -> good_buckets (2 ^ k) (repeat [] (Z.to_nat (2 ^ k))) /\ concat (repeat (@nil entry) (Z.to_nat (2 ^ k))) = [].
Proof.
  intro K. assert (0 < 2 ^ k) by (apply Z.pow_pos_nonneg; lia). split; [split|].
  - unfold zlen. rewrite repeat_length. lia.
  - intros i b Z. apply znth_In in Z. apply repeat_spec in Z. subst b. constructor.
  - induction (Z.to_nat (2 ^ k)) as [|n IH]; [reflexivity|exact IH].
Qed.

(** the abstraction: m holds s *)
Definition rep (m : hmap) (s : fmap) : Prop :=
  (exists k, 0 <= k <= 60 /\ good_buckets (2 ^ k) (hm_buckets m)) /\
  hm_size m = zlen s /\ Permutation (kv (concat (hm_buckets m))) s /\ uniq s.

Lemma kv_len es : zlen (kv es) = zlen es. Proof. unfold kv, zlen. rewrite map_length. reflexivity. Qed.
Lemma Perm_zlen {A} (l m : list A) : Permutation l m -> zlen l = zlen m.
Proof. intro P. unfold zlen. rewrite (Permutation_length P). reflexivity. Qed.

Lemma expand_ok okx m s : sane_table okx -> rep m s -> exists m', hm_expand okx m = Ret m' /\ rep m' s.
Proof.
  intros SX ((k & K & G) & SZ & P & U). unfold hm_expand. cbv zeta.
  destruct (hm_size m <=? zlen (hm_buckets m) * 3 / 4); [eexists; split; [reflexivity|]; split; eauto|].
  pose proof G as [L GB]. rewrite L.
  assert (1 <= 2 ^ k <= 2 ^ 60) as B by (split; [apply (Z.pow_le_mono_r 2 0 k); lia|apply Z.pow_le_mono_r; lia]).
  change (2 ^ 60) with 1152921504606846976 in B.
  assert (u64 (2 ^ k * 2) = 2 ^ (k + 1)) as ->.
  { rewrite Z.pow_add_r by lia. apply Z.mod_small. unfold two64. lia. }
  destruct (okx (2 ^ (k + 1))) eqn:EX; [|eexists; split; [reflexivity|]; split; eauto].
  destruct (repeat_good (k + 1) ltac:(lia)) as [G0 C0].
  destruct (rehash_ok (k + 1) ltac:(lia) (concat (hm_buckets m)) _ G0) as (bs' & E & G' & P').
  { apply Forall_forall. intros e IN. apply in_concat in IN as (b & IB & IE). apply In_znth in IB as (j & _ & Zj).
    pose proof (GB j b Zj) as F. rewrite Forall_forall in F. apply (F e IE). }
  rewrite E. cbn [bind]. eexists. split; [reflexivity|]. unfold rep. cbn [hm_buckets hm_size].
  split; [|split; [exact SZ|split; [|exact U]]].
  - exists (k + 1). split; [|exact G'].
    assert (2 ^ (k + 1) <= 2 ^ 60) as X by (apply SX; exact EX). apply Z.pow_le_mono_r_iff in X; lia.
  - rewrite C0, app_nil_r in P'. rewrite <- P. unfold kv. apply Permutation_map. exact P'.
Qed.

(** the content split around k *)
Lemma lookup m s k : rep m s ->
  exists b1 c b2, hm_buckets m = b1 ++ c :: b2 /\ zlen b1 = index (zlen (hm_buckets m)) (hk k) /\
   mload (hm_buckets m) (index (zlen (hm_buckets m)) (hk k)) = Ret c /\
   Forall (good_entry (zlen (hm_buckets m)) (zlen b1)) c /\
   Forall (fun e => eqf (e_key e) k = false) (concat b1 ++ concat b2) /\ s_find eqf s k = s_find eqf (kv c) k.
Proof.
  intros ((kk & K & G) & SZ & P & U). pose proof G as [L GB]. rewrite L.
  pose proof (index_range kk (hk k) ltac:(lia)) as R.
  destruct (znth_in_range (index (2 ^ kk) (hk k)) (hm_buckets m) ltac:(rewrite L; exact R)) as [c Ec].
  destruct (znth_split _ _ _ Ec) as (b1 & b2 & E & L1). exists b1, c, b2.
  split; [exact E|]. split; [exact L1|]. split; [apply mload_znth; exact Ec|].
  split; [rewrite L1; apply (GB _ _ Ec)|].
  assert (Forall (fun e => eqf (e_key e) k = false) (concat b1 ++ concat b2)) as NM.
  { rewrite E in G. eapply nomatch_other; eassumption. }
  split; [exact NM|].
  assert (uniq (kv (concat (hm_buckets m)))) as U' by (eapply uniq_perm; [apply Permutation_sym; exact P|exact U]).
  rewrite <- (find_perm _ _ k P U'). rewrite E, concat_mid. unfold kv. rewrite !map_app. unfold s_find.
  assert (forall es rest, Forall (fun e => eqf (e_key e) k = false) es ->
    find (fun p : Z * Z => eqf (fst p) k) (map (fun e => (e_key e, e_val e)) es ++ rest) = find (fun p => eqf (fst p) k) rest) as A.
  { intros es rest F. induction F as [|e es Fe F IH]; [reflexivity|]. cbn. rewrite Fe. exact IH. }
  apply Forall_app in NM as [N1 N2]. rewrite A by exact N1. clear -A N2.
  induction c as [|e c IH]; cbn [map app find].
  - pose proof (A (concat b2) [] N2) as X. rewrite app_nil_r in X. exact X.
  - cbn [fst]. destruct (eqf (e_key e) k); [reflexivity|exact IH].
Qed.
Lemma find_nomatch c k : Forall (fun e => eqf (e_key e) k = false) c -> s_find eqf (kv c) k = None.
Proof. induction 1 as [|e c Fe F IH]; [reflexivity|]. unfold s_find, kv in *. cbn. rewrite Fe. exact IH. Qed.
Lemma find_match c1 e c2 k : Forall (fun e => eqf (e_key e) k = false) c1 -> eqf (e_key e) k = true ->
  s_find eqf (kv (c1 ++ e :: c2)) k = Some (e_key e, e_val e).
Proof.
  intros F E. induction F as [|x c Fe F IH]; unfold s_find, kv in *; cbn.
  - rewrite E. reflexivity.
  - rewrite Fe. exact IH.
Qed.

Lemma map_nomatch v k es : Forall (fun e => eqf (e_key e) k = false) es ->
  map (fun p : Z * Z => if eqf (fst p) k then (fst p, v) else p) (kv es) = kv es.
Proof. induction 1 as [|e es Fe F IH]; [reflexivity|]. unfold kv in *. cbn. rewrite Fe. f_equal. exact IH. Qed.
Lemma filter_nomatch k es : Forall (fun e => eqf (e_key e) k = false) es ->
  filter (fun p : Z * Z => negb (eqf (fst p) k)) (kv es) = kv es.
Proof. induction 1 as [|e es Fe F IH]; [reflexivity|]. unfold kv in *. cbn. rewrite Fe. cbn. f_equal. exact IH. Qed.

(** only one entry for k in the whole table *)
Lemma one_match m s k c1 e c2 b1 b2 : rep m s -> hm_buckets m = b1 ++ (c1 ++ e :: c2) :: b2 ->
  Forall (fun x => eqf (e_key x) k = false) c1 -> eqf (e_key e) k = true ->
  Forall (fun x => eqf (e_key x) k = false) c2.
Proof.
  intros (_ & _ & P & U) E F1 EK.
  assert (uniq (kv (concat (hm_buckets m)))) as U' by (eapply uniq_perm; [apply Permutation_sym; exact P|exact U]).
  apply Forall_forall. intros x IX. destruct (eqf (e_key x) k) eqn:EX; [exfalso|reflexivity].
  destruct U' as [N UU]. rewrite E, concat_mid in N, UU. unfold kv in N, UU. rewrite map_map in N, UU. cbn [fst] in N, UU.
  rewrite <- !app_assoc in N, UU. cbn [app] in N, UU. rewrite app_assoc in N, UU. rewrite map_app in N, UU. cbn [map] in N, UU.
  apply NoDup_remove_2 in N. apply N. rewrite <- map_app.
  assert (e_key x = e_key e) as <-.
  { apply UU.
    - apply in_app_iff. right. right. apply in_map. apply in_app_iff. left; exact IX.
    - apply in_app_iff. right. left. reflexivity.
    - apply eq_trans' with k; [exact EX|rewrite eq_sym'; exact EK]. }
  apply in_map. rewrite !in_app_iff. tauto.
Qed.
Lemma good_Forall_sub bc i c1 e e' c2 : Forall (good_entry bc i) (c1 ++ e :: c2) -> e_key e' = e_key e -> e_hash e' = e_hash e ->
  Forall (good_entry bc i) (c1 ++ e' :: c2) /\ Forall (good_entry bc i) (c1 ++ c2).
Proof.
  intros F EK EH. apply Forall_app in F as [F1 F2]. inversion_clear F2 as [|x l Fe F3]. split; apply Forall_app; (split; [exact F1|]); [|exact F3].
  constructor; [|exact F3]. unfold good_entry in *. rewrite EK, EH. exact Fe.
Qed.

(** ** the operations *)
Definition keys (s : fmap) : list Z := map fst s.
Definition vals (s : fmap) : list Z := map snd s.

Lemma get_ok m s k : rep m s -> hm_get hf eqf locked m k = Ret (s_get eqf s k, enter locked ++ leave locked).
Proof.
  intro R. unfold hm_get. destruct (lookup m s k R) as (b1 & c & b2 & E & L1 & ML & G & NM & SF). cbv zeta. rewrite ML. cbn [bind].
  do 2 f_equal. unfold s_get. rewrite SF.
  destruct (chain_cases k _ _ c G) as [(F & G1 & _)|(c1 & e & c2 & -> & F & EK & G1 & _)]; rewrite G1.
  - rewrite find_nomatch by exact F. reflexivity.
  - rewrite find_match by assumption. reflexivity.
Qed.

Lemma put_ok ok okx m s k v : sane_table okx -> rep m s -> zlen s + 1 < two64 ->
  exists m' , hm_put hf eqf vfree locked ok okx m k v =
    Ret (m', match s_find eqf s k with Some p => snd p | None => 0 end,
         match s_find eqf s k with Some p => enter locked ++ free_val vfree (snd p) ++ leave locked | None => enter locked ++ leave locked end) /\
    rep m' (match s_find eqf s k with Some _ => s_put eqf s k v | None => if ok then s_put eqf s k v else s end).
Proof.
  intros SX R HB. unfold hm_put. destruct (lookup m s k R) as (b1 & c & b2 & E & L1 & ML & G & NM & SF). cbv zeta. rewrite ML. cbn [bind].
  pose proof R as ((kk & K & GB) & SZ & P & U). pose proof (zlen_nonneg s).
  assert (L : zlen (hm_buckets m) = 2 ^ kk) by apply GB.
  assert (ST : forall c', set_bucket (hm_buckets m) (index (zlen (hm_buckets m)) (hk k)) c' = Ret (b1 ++ c' :: b2)).
  { intro c'. unfold set_bucket. rewrite E at 1. rewrite mstore_app by lia. rewrite <- app_assoc. reflexivity. }
  rewrite ST. cbn [bind].
  destruct (chain_cases k _ _ c G) as [(F & _ & _ & G3)|(c1 & e & c2 & EC & F & EK & _ & _ & G3)]; rewrite G3.
  - assert (s_find eqf s k = None) as FN by (rewrite SF; apply find_nomatch; exact F). rewrite FN.
    destruct ok; cbn [fst snd].
    + rewrite SZ. replace (u64 (zlen s + 1)) with (zlen s + 1) by (symmetry; apply Z.mod_small; lia).
      assert (rep (mk_hm (b1 ++ (c ++ [mk_e k (hk k) v]) :: b2) (zlen s + 1)) (s_put eqf s k v)) as R'.
      { unfold rep. cbn [hm_buckets hm_size]. split; [exists kk; split; [exact K|]|split; [|split; [|apply uniq_put; exact U]]].
        - rewrite E in GB. eapply good_set; [exact GB|]. apply Forall_app. rewrite L in G. split; [exact G|].
          constructor; [|constructor]. split; [reflexivity|]. cbn [e_hash e_key]. rewrite L1, L. reflexivity.
        - unfold s_put. rewrite FN, zlen_snoc. reflexivity.
        - unfold s_put. rewrite FN. rewrite E, concat_mid in P. rewrite concat_mid. unfold kv in *.
          rewrite !map_app in *. cbn [map e_key e_val] in *. rewrite <- P. rewrite <- !app_assoc. do 2 apply Permutation_app_head.
          apply Permutation_app_comm. }
      destruct (expand_ok okx _ _ SX R') as (m' & E' & R'').
      rewrite E'. cbn [bind]. eexists. split; [reflexivity|exact R''].
    + eexists. split; [reflexivity|]. unfold rep. cbn [hm_buckets hm_size]. rewrite <- E. exact R.
  - subst c. assert (s_find eqf s k = Some (e_key e, e_val e)) as FS by (rewrite SF; apply find_match; assumption). rewrite FS. cbn [fst snd].
    pose proof (one_match m s k c1 e c2 b1 b2 R E F EK) as F2.
    eexists. split; [reflexivity|]. unfold rep. cbn [hm_buckets hm_size].
    split; [exists kk; split; [exact K|]|split; [|split; [|apply uniq_put; exact U]]].
    + rewrite E in GB. eapply good_set; [exact GB|]. rewrite L in G. apply (good_Forall_sub _ _ _ e (mk_e (e_key e) (e_hash e) v) c2 G); reflexivity.
    + rewrite SZ. unfold s_put. rewrite FS. unfold zlen. rewrite map_length. reflexivity.
    + unfold s_put. rewrite FS. rewrite <- (Permutation_map _ P). rewrite E, !concat_mid. unfold kv. rewrite !map_app. cbn [map e_key e_val].
      cbn [map]. cbn [fst]. rewrite EK. apply Forall_app in NM as [N1 N2].
      fold (kv (concat b1)) (kv (concat b2)) (kv c1) (kv c2).
      rewrite !map_nomatch by assumption. reflexivity.
Qed.

Lemma remove_ok m s k : rep m s -> zlen s < two64 ->
  exists m', hm_remove hf eqf kfree vfree locked m k =
    Ret (m', s_get eqf s k,
         match s_find eqf s k with Some p => enter locked ++ free_key kfree (fst p) ++ free_val vfree (snd p) ++ leave locked
         | None => enter locked ++ leave locked end) /\ rep m' (s_remove eqf s k).
Proof.
  intros R HB. unfold hm_remove. destruct (lookup m s k R) as (b1 & c & b2 & E & L1 & ML & G & NM & SF). cbv zeta. rewrite ML. cbn [bind].
  pose proof R as ((kk & K & GB) & SZ & P & U).
  assert (L : zlen (hm_buckets m) = 2 ^ kk) by apply GB.
  assert (ST : forall c', set_bucket (hm_buckets m) (index (zlen (hm_buckets m)) (hk k)) c' = Ret (b1 ++ c' :: b2)).
  { intro c'. unfold set_bucket. rewrite E at 1. rewrite mstore_app by lia. rewrite <- app_assoc. reflexivity. }
  rewrite ST. cbn [bind]. unfold s_get. apply Forall_app in NM as [N1 N2].
  destruct (chain_cases k _ _ c G) as [(F & _ & G2 & _)|(c1 & e & c2 & EC & F & EK & _ & G2 & _)]; rewrite G2; cbn [fst snd].
  - assert (s_find eqf s k = None) as FN by (rewrite SF; apply find_nomatch; exact F). rewrite FN.
    eexists. split; [reflexivity|].
    assert (s_remove eqf s k = s) as ->.
    { unfold s_remove. pose proof (find_None s k FN) as X. clear -X. induction s as [|p s IH]; [reflexivity|]. cbn.
      rewrite (X p) by (left; reflexivity). cbn. f_equal. apply IH. intros q I. apply X. right; exact I. }
    unfold rep. cbn [hm_buckets hm_size]. rewrite <- E. exact R.
  - subst c. assert (s_find eqf s k = Some (e_key e, e_val e)) as FS by (rewrite SF; apply find_match; assumption). rewrite FS. cbn [fst snd].
    pose proof (one_match m s k c1 e c2 b1 b2 R E F EK) as F2.
    assert (Permutation (kv (concat (b1 ++ (c1 ++ c2) :: b2))) (s_remove eqf s k)) as PR.
    { unfold s_remove. rewrite <- (Permutation_filter' _ _ _ P). rewrite E, !concat_mid. unfold kv. rewrite !map_app. cbn [map].
      rewrite !filter_app. cbn [filter fst]. rewrite EK. cbn [negb].
      fold (kv (concat b1)) (kv (concat b2)) (kv c1) (kv c2). rewrite !filter_nomatch by assumption. reflexivity. }
    assert (zlen s = zlen (s_remove eqf s k) + 1) as LS.
    { rewrite <- (Perm_zlen _ _ P), <- (Perm_zlen _ _ PR), !kv_len, E, !concat_mid, !zlen_app, zlen_cons. lia. }
    pose proof (zlen_nonneg (s_remove eqf s k)).
    eexists. split; [reflexivity|]. unfold rep. cbn [hm_buckets hm_size].
    split; [exists kk; split; [exact K|]|split; [|split; [exact PR|apply uniq_remove; exact U]]].
    + rewrite E in GB. eapply good_set; [exact GB|]. rewrite L in G. apply (good_Forall_sub _ _ _ _ e _ G); reflexivity.
    + rewrite SZ. unfold u64. rewrite Z.mod_small by lia. lia.
Qed.

Lemma clear_ok m s : rep m s -> zlen s < two64 -> rep (fst (hm_clear_unsafe kfree vfree m)) [].
Proof.
  intros ((kk & K & GB) & SZ & P & U) HB. unfold hm_clear_unsafe, rep. cbn [fst hm_buckets hm_size].
  destruct GB as [L GB]. split; [exists kk; split; [exact K|split]|split; [|split]].
  - unfold zlen in *. rewrite map_length. exact L.
  - intros i b Zi. apply znth_In in Zi. apply in_map_iff in Zi as (x & <- & _). constructor.
  - rewrite <- (kv_len (concat (hm_buckets m))), (Perm_zlen _ _ P), SZ, Z.sub_diag. reflexivity.
  - assert (concat (map (fun _ : list entry => @nil entry) (hm_buckets m)) = []) as -> by (generalize (hm_buckets m) as bs; induction bs as [|x bs IH]; [reflexivity|exact IH]).
    constructor.
  - split; [constructor|]. intros a b [].
Qed.

Lemma s_step_len s c : zlen (fst (s_step eqf s c)) <= zlen s + 1.
Proof.
  pose proof (zlen_nonneg s). unfold s_step. destruct (c_op c) as [k v|k|k| |].
  - assert (zlen (s_put eqf s k v) <= zlen s + 1).
    { unfold s_put. destruct (s_find eqf s k); [unfold zlen; rewrite map_length; lia|rewrite zlen_snoc; lia]. }
    destruct (s_find eqf s k); cbn [fst]; [assumption|]. destruct (c_ok c); [assumption|lia].
  - cbn [fst]; lia.
  - cbn [fst]. unfold s_remove. assert (forall f, zlen (filter f s) <= zlen s) as X; [|specialize (X (fun p => negb (eqf (fst p) k))); lia].
    intro f. clear. induction s as [|p s IH]; cbn [filter]; [lia|]. destruct (f p); rewrite ?zlen_cons; lia.
  - cbn [fst]. change (zlen (@nil (Z * Z))) with 0. lia.
  - cbn [fst]; lia.
Qed.
(** ** ownership *)
Lemma nonnull_app a b : nonnull (a ++ b) = nonnull a ++ nonnull b.
Proof. apply filter_app. Qed.
Lemma nonnull_perm a b : Permutation a b -> Permutation (nonnull a) (nonnull b).
Proof. apply Permutation_filter'. Qed.
Lemma find_split s k p v : uniq s -> s_find eqf s k = Some p ->
  exists s1 s2, s = s1 ++ p :: s2 /\ s_put eqf s k v = s1 ++ (fst p, v) :: s2 /\ s_remove eqf s k = s1 ++ s2.
Proof.
  intros U F. pose proof (proj1 (find_iff s k p U) F) as [I E]. destruct (in_split _ _ I) as (s1 & s2 & ->).
  exists s1, s2. split; [reflexivity|].
  assert (forall q, In q (s1 ++ s2) -> eqf (fst q) k = false) as NM.
  { intros q IQ. destruct (eqf (fst q) k) eqn:EQ; [exfalso|reflexivity].
    assert (q = p) as ->.
    { apply (uniq_pair (s1 ++ p :: s2)); [exact U| |exact I|].
      - apply in_app_iff in IQ as [?|?]; apply in_app_iff; [left|right; right]; assumption.
      - apply eq_trans' with k; [exact EQ|rewrite eq_sym'; exact E]. }
    destruct U as [N _]. rewrite map_app in N. cbn [map] in N. apply NoDup_remove_2 in N. apply N.
    rewrite <- map_app. apply in_map. exact IQ. }
  unfold s_put, s_remove. rewrite F. rewrite map_app, filter_app. cbn [map filter]. rewrite E. cbn [negb].
  assert (forall t, (forall q, In q t -> eqf (fst q) k = false) ->
    map (fun p : Z * Z => if eqf (fst p) k then (fst p, v) else p) t = t /\ filter (fun p : Z * Z => negb (eqf (fst p) k)) t = t) as A.
  { induction t as [|q t IH]; intro H; [split; reflexivity|]. cbn [map filter]. rewrite (H q) by (left; reflexivity). cbn [negb].
    destruct (IH ltac:(intros; apply H; right; assumption)) as [-> ->]. split; reflexivity. }
  destruct (A s1) as [-> ->]; [intros q IQ; apply NM, in_app_iff; left; exact IQ|].
  destruct (A s2) as [-> ->]; [intros q IQ; apply NM, in_app_iff; right; exact IQ|]. split; reflexivity.
Qed.
Lemma freed_keys_app a b : freed_keys (a ++ b) = freed_keys a ++ freed_keys b. Proof. apply flat_map_app. Qed.
Lemma freed_vals_app a b : freed_vals (a ++ b) = freed_vals a ++ freed_vals b. Proof. apply flat_map_app. Qed.
Lemma fk_free_key k : kfree = true -> freed_keys (free_key kfree k) = nonnull [k] /\ freed_vals (free_key kfree k) = [].
Proof. intros ->. unfold free_key, nonnull. cbn [filter]. destruct (k =? 0); split; reflexivity. Qed.
Lemma fv_free_val v : vfree = true -> freed_vals (free_val vfree v) = nonnull [v].
Proof. intros ->. unfold free_val, nonnull. cbn [filter]. destruct (v =? 0); reflexivity. Qed.
Lemma fk_free_val v : freed_keys (free_val vfree v) = [].
Proof. unfold free_val. destruct (negb (v =? 0) && vfree); reflexivity. Qed.
Lemma fv_free_key k : freed_vals (free_key kfree k) = [].
Proof. unfold free_key. destruct (negb (k =? 0) && kfree); reflexivity. Qed.
Lemma f_enter : freed_keys (enter locked) = [] /\ freed_vals (enter locked) = []. Proof. unfold enter. destruct locked; split; reflexivity. Qed.
Lemma f_leave : freed_keys (leave locked) = [] /\ freed_vals (leave locked) = []. Proof. unfold leave. destruct locked; split; reflexivity. Qed.
Lemma fk_drop es : kfree = true -> freed_keys (flat_map (drop_entry kfree vfree) es) = nonnull (map e_key es).
Proof.
  intro K. induction es as [|e es IH]; [reflexivity|]. cbn [flat_map map]. rewrite freed_keys_app, IH. unfold drop_entry at 1.
  rewrite freed_keys_app, fk_free_val, app_nil_r. rewrite (proj1 (fk_free_key _ K)). rewrite <- nonnull_app. reflexivity.
Qed.
Lemma fv_drop es : vfree = true -> freed_vals (flat_map (drop_entry kfree vfree) es) = nonnull (map e_val es).
Proof.
  intro K. induction es as [|e es IH]; [reflexivity|]. cbn [flat_map map]. rewrite freed_vals_app, IH. unfold drop_entry at 1.
  rewrite freed_vals_app, fv_free_key. cbn [app]. rewrite (fv_free_val _ K). rewrite <- nonnull_app. reflexivity.
Qed.
Definition is_free (e : event) : Prop := match e with EvFreeKey _ | EvFreeVal _ => True | _ => False end.
Lemma lock_frees evs : Forall is_free evs -> forall rest, lock_ok true (evs ++ EvRelease :: rest) = lock_ok false rest.
Proof. induction 1 as [|e evs E F IH]; intro rest; [reflexivity|]. destruct e; try destruct E; cbn; apply IH. Qed.
Lemma is_free_key k : Forall is_free (free_key kfree k).
Proof. unfold free_key. destruct (negb (k =? 0) && kfree); repeat constructor. Qed.
Lemma is_free_val k : Forall is_free (free_val vfree k).
Proof. unfold free_val. destruct (negb (k =? 0) && vfree); repeat constructor. Qed.
Lemma is_free_drop es : Forall is_free (flat_map (drop_entry kfree vfree) es).
Proof.
  induction es as [|e es IH]; [constructor|]. cbn [flat_map]. apply Forall_app; split; [|exact IH].
  apply Forall_app; split; [apply is_free_key|apply is_free_val].
Qed.
Definition locked_call (evs : list event) : Prop := forall rest, locked = true -> lock_ok false (evs ++ rest) = lock_ok false rest.
Lemma bracket evs : Forall is_free evs -> locked_call (enter locked ++ evs ++ leave locked).
Proof.
  intros F rest L. unfold enter, leave. rewrite L. rewrite <- !app_assoc. cbn [app lock_ok negb andb]. apply lock_frees; exact F.
Qed.
Lemma bracket0 : locked_call (enter locked ++ leave locked).
Proof. apply (bracket [] (Forall_nil _)). Qed.

Definition owns (s : fmap) (c : call) (s' : fmap) (ev : list event) : Prop :=
  (kfree = true -> Permutation (nonnull (took_keys eqf s c) ++ nonnull (keys s)) (freed_keys ev ++ nonnull (keys s'))) /\
  (vfree = true -> Permutation (nonnull (took_vals eqf s c) ++ nonnull (vals s)) (freed_vals ev ++ nonnull (vals s'))) /\
  locked_call ev.

Lemma step_ok m s c : sane_table (c_okx c) -> rep m s -> zlen s + 1 < two64 ->
  exists m' ev, hm_step hf eqf kfree vfree locked m c = Ret (m', snd (s_step eqf s c), ev) /\ rep m' (fst (s_step eqf s c)) /\
    owns s c (fst (s_step eqf s c)) ev.
Proof.
  intros SX R HB. pose proof R as (_ & _ & PM & U). destruct f_enter as [FE1 FE2]. destruct f_leave as [FL1 FL2].
  unfold hm_step, s_step, owns, took_keys, took_vals. destruct (c_op c) as [k v|k|k| |].
  - destruct (put_ok (c_ok c) (c_okx c) m s k v SX R HB) as (m' & E & R'). rewrite E.
    destruct (s_find eqf s k) as [p|] eqn:F; cbn [fst snd].
    + do 2 eexists. split; [reflexivity|]. split; [exact R'|].
      destruct (find_split s k p v U F) as (s1 & s2 & ES & EP & _). rewrite EP, ES.
      unfold keys, vals. rewrite !map_app. cbn [map fst snd]. split; [|split].
      * intro KF. rewrite !freed_keys_app, FE1, FL1, fk_free_val. reflexivity.
      * intro VF. rewrite !freed_vals_app, FE2, FL2, (fv_free_val _ VF). cbn [app]. rewrite app_nil_r.
        change (map snd s1 ++ snd p :: map snd s2) with (map snd s1 ++ [snd p] ++ map snd s2).
        change (map snd s1 ++ v :: map snd s2) with (map snd s1 ++ [v] ++ map snd s2).
        rewrite !nonnull_app. rewrite (Permutation_app_swap_app (nonnull (map snd s1)) (nonnull [snd p])).
        rewrite (Permutation_app_swap_app (nonnull (map snd s1)) (nonnull [v])). apply Permutation_app_swap_app.
      * apply bracket. apply is_free_val.
    + destruct (c_ok c); do 2 eexists; (split; [reflexivity|]); (split; [exact R'|]).
      * unfold s_put. rewrite F. unfold keys, vals. rewrite !map_app. cbn [map fst snd]. rewrite !nonnull_app.
        split; [|split; [|apply bracket0]]; intros _; rewrite ?freed_keys_app, ?freed_vals_app, ?FE1, ?FE2, ?FL1, ?FL2; rewrite ?app_nil_l; apply Permutation_app_comm.
      * split; [|split; [|apply bracket0]]; intros _; rewrite ?freed_keys_app, ?freed_vals_app, ?FE1, ?FE2, ?FL1, ?FL2; reflexivity.
  - rewrite (get_ok m s k R). cbn [bind]. do 2 eexists. split; [reflexivity|]. split; [exact R|].
    split; [|split; [|apply bracket0]]; intros _; rewrite ?freed_keys_app, ?freed_vals_app, ?FE1, ?FE2, ?FL1, ?FL2; reflexivity.
  - destruct (remove_ok m s k R ltac:(lia)) as (m' & E & R'). rewrite E. do 2 eexists. split; [reflexivity|]. split; [exact R'|].
    cbn [fst]. destruct (s_find eqf s k) as [p|] eqn:F.
    + destruct (find_split s k p 0 U F) as (s1 & s2 & ES & _ & EP). rewrite EP, ES. unfold keys, vals. rewrite !map_app. cbn [map].
      split; [|split].
      * intro KF. rewrite !freed_keys_app, FE1, FL1, fk_free_val, (proj1 (fk_free_key _ KF)). cbn [app]. rewrite app_nil_r.
        change (map fst s1 ++ fst p :: map fst s2) with (map fst s1 ++ [fst p] ++ map fst s2). rewrite !nonnull_app.
        apply (Permutation_app_swap_app (nonnull (map fst s1)) (nonnull [fst p])).
      * intro VF. rewrite !freed_vals_app, FE2, FL2, fv_free_key, (fv_free_val _ VF). cbn [app]. rewrite app_nil_r.
        change (map snd s1 ++ snd p :: map snd s2) with (map snd s1 ++ [snd p] ++ map snd s2). rewrite !nonnull_app.
        apply (Permutation_app_swap_app (nonnull (map snd s1)) (nonnull [snd p])).
      * rewrite (app_assoc (free_key kfree (fst p))). apply bracket. apply Forall_app; split; [apply is_free_key|apply is_free_val].
    + assert (s_remove eqf s k = s) as ->.
      { unfold s_remove. pose proof (find_None s k F) as X. clear -X. induction s as [|p s IH]; [reflexivity|]. cbn.
        rewrite (X p) by (left; reflexivity). cbn. f_equal. apply IH. intros q I. apply X. right; exact I. }
      split; [|split; [|apply bracket0]]; intros _; rewrite ?freed_keys_app, ?freed_vals_app, ?FE1, ?FE2, ?FL1, ?FL2; reflexivity.
  - cbv zeta. unfold hm_clear. cbn [fst snd]. do 2 eexists. split; [reflexivity|]. split; [apply (clear_ok m s R); lia|].
    unfold hm_clear_unsafe. cbn [snd]. split; [|split].
    + intro KF. rewrite !freed_keys_app, FE1, FL1, (fk_drop _ KF). cbn [app keys map nonnull filter]. rewrite !app_nil_r.
      apply nonnull_perm. unfold keys. rewrite <- (Permutation_map fst PM). unfold kv. rewrite map_map. reflexivity.
    + intro VF. rewrite !freed_vals_app, FE2, FL2, (fv_drop _ VF). cbn [app vals map nonnull filter]. rewrite !app_nil_r.
      apply nonnull_perm. unfold vals. rewrite <- (Permutation_map snd PM). unfold kv. rewrite map_map. reflexivity.
    + apply bracket. apply is_free_drop.
  - do 2 eexists. split; [|split; [exact R|]].
    + destruct R as (_ & SZ & _). rewrite SZ. reflexivity.
    + cbn [fst]. split; [|split; [|intros rest _; reflexivity]]; intros _; reflexivity.
Qed.
Lemma run_ok : forall h m s, rep m s -> Forall (fun c => sane_table (c_okx c)) h -> zlen s + zlen h < two64 ->
  exists m' evs, hm_run hf eqf kfree vfree locked m h = Ret (m', snd (s_run eqf s h), evs) /\ rep m' (fst (s_run eqf s h)) /\
    (kfree = true -> Permutation (nonnull (all_took eqf (took_keys eqf) s h) ++ nonnull (keys s)) (freed_keys evs ++ nonnull (keys (fst (s_run eqf s h))))) /\
    (vfree = true -> Permutation (nonnull (all_took eqf (took_vals eqf) s h) ++ nonnull (vals s)) (freed_vals evs ++ nonnull (vals (fst (s_run eqf s h))))) /\
    locked_call evs.
Proof.
  induction h as [|c h IH]; intros m s R F HB; cbn [hm_run s_run all_took].
  - do 2 eexists. split; [reflexivity|]. split; [exact R|]. cbn [fst nonnull filter app]. 
    split; [|split; [|intros rest _; reflexivity]]; intros _; reflexivity.
  - inversion_clear F as [|x l Fc F']. rewrite zlen_cons in HB. pose proof (zlen_nonneg h). pose proof (s_step_len s c).
    destruct (step_ok m s c Fc R ltac:(lia)) as (m1 & ev & E & R1 & O1 & O2 & O3). rewrite E. cbn [bind].
    destruct (IH m1 _ R1 F' ltac:(lia)) as (m' & evs & E' & R' & Q1 & Q2 & Q3). rewrite E'. cbn [bind]. cbv zeta. cbn [fst snd].
    do 2 eexists. split; [reflexivity|]. split; [exact R'|]. split; [|split].
    + intro KF. rewrite nonnull_app, freed_keys_app, <- !app_assoc, <- (Q1 KF).
      rewrite (Permutation_app_swap_app (nonnull (took_keys eqf s c))), (O1 KF). apply Permutation_app_swap_app.
    + intro VF. rewrite nonnull_app, freed_vals_app, <- !app_assoc, <- (Q2 VF).
      rewrite (Permutation_app_swap_app (nonnull (took_vals eqf s c))), (O2 VF). apply Permutation_app_swap_app.
    + intros rest L. rewrite <- app_assoc, (O3 _ L). apply Q3; exact L.
Qed.

(** ** creation *)
Lemma grow_count_ok : forall fuel k minimum, 0 <= k -> k + Z.of_nat fuel = 64 -> 0 <= minimum < 2 ^ 63 ->
  exists j, 0 <= j <= 63 /\ grow_count fuel (2 ^ k) minimum = Ret (2 ^ j) \/ (64 <= k /\ j = 0).
Proof.
  induction fuel as [|fuel IH]; intros k mi K E M.
  - exists 0. right. lia.
  - cbn [grow_count]. destruct (2 ^ k <=? mi) eqn:LE.
    + assert (k < 63). { apply (Z.pow_lt_mono_r_iff 2); lia. }
      assert (u64 (2 ^ k * 2) = 2 ^ (k + 1)) as ->.
      { rewrite Z.pow_add_r by lia. apply Z.mod_small. split; [apply Z.mul_nonneg_nonneg; [apply Z.pow_nonneg|]; lia|].
        unfold two64. change 18446744073709551616 with (2 ^ 63 * 2). assert (2 ^ k < 2 ^ 63) by (apply Z.pow_lt_mono_r; lia). lia. }
      destruct (IH (k + 1) mi ltac:(lia) ltac:(lia) M) as (j & [H1|H1]); [exists j; left; exact H1|lia].
    + exists k. left. split; [lia|]. reflexivity.
Qed.
Lemma create_ok ok okx cap : 0 <= cap -> sane_table okx ->
  hm_create ok okx cap = Ret None \/ exists m, hm_create ok okx cap = Ret (Some m) /\ rep m [].
Proof.
  intros HC SX. unfold hm_create. destruct ok; cbn [negb]; [|left; reflexivity].
  assert (0 <= u64 (cap * 4) < two64) by (apply Z.mod_pos_bound; reflexivity).
  destruct (grow_count_ok 64 0 (u64 (cap * 4) / 3)) as (j & [[J E]|?]); try lia.
  { change (2 ^ 63) with 9223372036854775808. unfold two64 in *. lia. }
  change (2 ^ 0) with 1 in E. rewrite E. cbn [bind]. destruct (okx (2 ^ j)) eqn:EX; [right|left; reflexivity].
  eexists. split; [reflexivity|]. destruct (repeat_good j ltac:(lia)) as [G C0].
  unfold rep. cbn [hm_buckets hm_size]. split; [exists j; split; [|exact G]|split; [reflexivity|split; [|split; [constructor|intros a b []]]]].
  - assert (2 ^ j <= 2 ^ 60) as X by (apply SX; exact EX). apply Z.pow_le_mono_r_iff in X; lia.
  - rewrite C0. constructor.
Qed.
Lemma hashmap_lemma ok0 okx0 cap h : 0 <= cap -> sane_table okx0 -> Forall (fun c => sane_table (c_okx c)) h -> zlen h < two64 ->
  hm_create ok0 okx0 cap = Ret None \/
  exists m m' evs, hm_create ok0 okx0 cap = Ret (Some m) /\
    hm_run hf eqf kfree vfree locked m h = Ret (m', snd (s_run eqf [] h), evs).
Proof.
  intros HC SX F HB. destruct (create_ok ok0 okx0 cap HC SX) as [E|(m & E & R)]; [left; exact E|right].
  destruct (run_ok h m [] R F ltac:(exact HB)) as (m' & evs & E' & _). eauto 6.
Qed.

(** a whole life: create, history, free *)
Lemma hashmap_owner_lemma ok0 okx0 cap h m m' rs evs : 0 <= cap -> sane_table okx0 -> Forall (fun c => sane_table (c_okx c)) h -> zlen h < two64 ->
  hm_create ok0 okx0 cap = Ret (Some m) -> hm_run hf eqf kfree vfree locked m h = Ret (m', rs, evs) ->
  (kfree = true ->
    Permutation (nonnull (all_took eqf (took_keys eqf) [] h)) (freed_keys evs ++ nonnull (map fst (fst (s_run eqf [] h)))) /\
    Permutation (nonnull (all_took eqf (took_keys eqf) [] h)) (freed_keys (evs ++ hm_free kfree vfree locked m'))) /\
  (vfree = true ->
    Permutation (nonnull (all_took eqf (took_vals eqf) [] h)) (freed_vals evs ++ nonnull (map snd (fst (s_run eqf [] h)))) /\
    Permutation (nonnull (all_took eqf (took_vals eqf) [] h)) (freed_vals (evs ++ hm_free kfree vfree locked m'))) /\
  (locked = true -> lock_ok false (evs ++ hm_free kfree vfree locked m') = true).
Proof.
  intros HC SX F HB EC ER. destruct (create_ok ok0 okx0 cap HC SX) as [E|(m0 & E & R)]; rewrite E in EC; [discriminate|].
  injection EC as ->. destruct (run_ok h m [] R F ltac:(exact HB)) as (m1 & evs1 & E1 & R1 & Q1 & Q2 & Q3).
  rewrite E1 in ER. injection ER as -> _ ->. destruct f_enter as [FE1 FE2]. destruct f_leave as [FL1 FL2].
  destruct R1 as (_ & _ & PM & _). unfold hm_free, hm_clear_unsafe. cbn [snd].
  split; [|split].
  - intro KF. specialize (Q1 KF). cbn [keys map nonnull filter] in Q1. rewrite app_nil_r in Q1. split; [exact Q1|].
    rewrite !freed_keys_app, FE1, FL1, (fk_drop _ KF). cbn [app]. rewrite app_nil_r, Q1. apply Permutation_app_head.
    apply nonnull_perm. unfold keys. rewrite <- (Permutation_map fst PM). unfold kv. rewrite map_map. reflexivity.
  - intro VF. specialize (Q2 VF). cbn [vals map nonnull filter] in Q2. rewrite app_nil_r in Q2. split; [exact Q2|].
    rewrite !freed_vals_app, FE2, FL2, (fv_drop _ VF). cbn [app]. rewrite app_nil_r, Q2. apply Permutation_app_head.
    apply nonnull_perm. unfold vals. rewrite <- (Permutation_map snd PM). unfold kv. rewrite map_map. reflexivity.
  - intro L. rewrite (Q3 _ L). pose proof (bracket _ (is_free_drop (concat (hm_buckets m'))) [] L) as B.
    rewrite app_nil_r in B. rewrite B. reflexivity.
Qed.

(** ** foreach *)
Lemma foreach_all m : hm_foreach (fun _ _ => true) m = kv (concat (hm_buckets m)).
Proof.
  unfold hm_foreach. induction (hm_buckets m) as [|c bs IH]; [reflexivity|]. cbn [flat_map concat]. unfold kv in *. rewrite map_app. f_equal; [|exact IH].
  induction c as [|e c IHc]; [reflexivity|]. cbn [chain_visit map]. f_equal. exact IHc.
Qed.
Lemma foreach_lemma ok0 okx0 cap h m m' rs evs : 0 <= cap -> sane_table okx0 -> Forall (fun c => sane_table (c_okx c)) h -> zlen h < two64 ->
  hm_create ok0 okx0 cap = Ret (Some m) -> hm_run hf eqf kfree vfree locked m h = Ret (m', rs, evs) ->
  Permutation (hm_foreach (fun _ _ => true) m') (fst (s_run eqf [] h)).
Proof.
  intros HC SX F HB EC ER. destruct (create_ok ok0 okx0 cap HC SX) as [E|(m0 & E & R)]; rewrite E in EC; [discriminate|].
  injection EC as ->. destruct (run_ok h m [] R F ltac:(exact HB)) as (m1 & evs1 & E1 & R1 & _).
  rewrite E1 in ER. injection ER as -> _ ->. rewrite foreach_all. apply R1.
Qed.
Lemma chain_visit_prefix cb c : exists r, kv c = chain_visit cb c ++ r /\
  (chain_visit cb c = kv c \/ exists l x, chain_visit cb c = l ++ [x] /\ cb (fst x) (snd x) = false).
Proof.
  induction c as [|e c (r & E & IH)]; [exists []; split; [reflexivity|left; reflexivity]|]. cbn [chain_visit kv map].
  destruct (cb (e_key e) (e_val e)) eqn:B.
  - exists r. split; [cbn [app]; f_equal; exact E|]. destruct IH as [IH|(l & x & IH & IH')]; [left; f_equal; exact IH|].
    right. exists ((e_key e, e_val e) :: l), x. rewrite IH. split; [reflexivity|exact IH'].
  - exists (map (fun e => (e_key e, e_val e)) c). split; [reflexivity|]. right. exists [], (e_key e, e_val e). split; [reflexivity|exact B].
Qed.
Lemma foreach_sub cb bs : exists rest, Permutation (flat_map (chain_visit cb) bs ++ rest) (kv (concat bs)).
Proof.
  induction bs as [|c bs [rest IH]]; [exists []; constructor|]. cbn [flat_map concat]. destruct (chain_visit_prefix cb c) as (r & E & _).
  exists (r ++ rest). unfold kv in *. rewrite map_app, E, <- IH, <- !app_assoc. apply Permutation_app_head.
  rewrite !app_assoc. apply Permutation_app_tail. apply Permutation_app_comm.
Qed.
Lemma foreach_any_lemma cb ok0 okx0 cap h m m' rs evs : 0 <= cap -> sane_table okx0 -> Forall (fun c => sane_table (c_okx c)) h -> zlen h < two64 ->
  hm_create ok0 okx0 cap = Ret (Some m) -> hm_run hf eqf kfree vfree locked m h = Ret (m', rs, evs) ->
  exists skipped, Permutation (hm_foreach cb m' ++ skipped) (fst (s_run eqf [] h)) /\ ((forall k v, In (k, v) (fst (s_run eqf [] h)) -> cb k v = true) -> skipped = []).
Proof.
  intros HC SX F HB EC ER. pose proof (foreach_lemma ok0 okx0 cap h m m' rs evs HC SX F HB EC ER) as P.
  rewrite foreach_all in P. destruct (foreach_sub cb (hm_buckets m')) as [rest S]. exists rest.
  split; [unfold hm_foreach; rewrite S; exact P|]. intro A.
  assert (hm_foreach cb m' = kv (concat (hm_buckets m'))) as E.
  { assert (forall k v, In (k, v) (kv (concat (hm_buckets m'))) -> cb k v = true) as A'.
    { intros k v I. apply A. apply (Permutation_in _ P). exact I. }
    clear -A'. unfold hm_foreach. induction (hm_buckets m') as [|c bs IH]; [reflexivity|]. cbn [flat_map concat] in *.
    unfold kv in *. rewrite map_app in *. f_equal; [|apply IH; intros k v I; apply A'; apply in_or_app; right; exact I].
    assert (forall k v, In (k, v) (map (fun e => (e_key e, e_val e)) c) -> cb k v = true) as A2
      by (intros k v I; apply A'; apply in_or_app; left; exact I).
    clear -A2. induction c as [|e c IH]; [reflexivity|]. cbn [chain_visit map]. rewrite A2 by (left; reflexivity). f_equal.
    apply IH. intros k v I. apply A2. right; exact I. }
  unfold hm_foreach in E. rewrite E in S. apply Permutation_length in S. rewrite app_length in S.
  destruct rest; [reflexivity|cbn in S; lia].
Qed.
(** a callback that always asks to stop is still called once per non-empty bucket *)
Lemma foreach_stop m : hm_foreach (fun _ _ => false) m =
  flat_map (fun c => match c with [] => [] | e :: _ => [(e_key e, e_val e)] end) (hm_buckets m).
Proof. unfold hm_foreach. apply flat_map_ext. intros [|e c]; reflexivity. Qed.
End P.

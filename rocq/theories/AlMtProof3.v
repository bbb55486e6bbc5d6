(** Proofs for C75, part 3: every step keeps the invariant and none is undefined or aborts *)
From Verif Require Import CBase CStr SeqLib AllocModel AllocProof AlMtModel AlMtSpec AlMtProof AlMtProof2.
Definition good (o : outcome st) : Prop := exists s' g', o = Ret s' /\ inv s' g'.
Lemma good_plain s g t x s' : inv s g -> tmap s' = tmap s -> recs s' = recs s -> heap s' = heap s -> held s' = held s -> lent s' = lent s ->
  (forall u, pcs s' u = if Nat.eqb u t then x else pcs s u) ->
  pc_ok g (lent s) (tmap s) (held s) t x ->
  (forall a n y, g a = Some (Some t, n, y) -> List.In a (bases (pcs s t)) -> List.In a (bases x)) ->
  ((lock s' = lock s /\ in_check x = in_check (pcs s t)) \/ (lock s = None /\ lock s' = Some t /\ in_check x = true) \/ (lock s = Some t /\ lock s' = None /\ in_check x = false)) ->
  (allocating x = true -> allocating (pcs s t) = true) -> (checking x = true -> checking (pcs s t) = true) -> Forall report_ok (done s') -> good (Ret s').
Proof.
  intros I T R H HD LE P PK BA LO AL CH DO. destruct (plain s g t x s' I T R H HD) as (g' & I'); auto.
  - intros u y _. rewrite LE. auto.
  - rewrite LE. exact PK.
  - intro C. destruct (allocating x) eqn:A; [|reflexivity]. rewrite (i_excl _ _ I t t (CH C)) in AL. discriminate (AL eq_refl).
  - exists s', g'. auto.
Qed.
Lemma pcs_set s t x u : pcs (set_pc s t x) u = if Nat.eqb u t then x else pcs s u. Proof. reflexivity. Qed.
Ltac pl PC := eapply good_plain; [eassumption|reflexivity|reflexivity|reflexivity|reflexivity|reflexivity|intro; reflexivity| | | | | | ]; rewrite ?PC; cbn [allocating checking in_check bases kbase qbase]; auto; try discriminate.
Lemma zset_eq {A} (f : Z -> option A) a v : zset f a v a = v. Proof. unfold zset. rewrite Z.eqb_refl. reflexivity. Qed.
Lemma zset_ne {A} (f : Z -> option A) a v b : b <> a -> zset f a v b = f b. Proof. unfold zset. intro. destruct (Z.eqb_spec b a); congruence. Qed.

Section Step.
Variables (s : st) (g : ghost) (t : nat).
Hypothesis I : inv s g.
Lemma claim_blk a w n x : g a = Some (w, n, x) -> 0 < a /\ 0 <= n /\ exists b, heap s a = Some b /\ zlen b = n + 16 /\ facts s a n x b.
Proof. intro E. pose proof (i_blk _ _ I a) as B. rewrite E in B. exact B. Qed.
Lemma full_of p w n e : g (p - 8) = Some (w, n, SFull e) -> 0 <= n /\ lookup (tmap s) p = Some e /\ recs s e = Some (mk_rec ALLOCTOR_ID n false p) /\ exists b, heap s (p - 8) = Some b /\ sealed b n.
Proof. intro E. destruct (claim_blk _ _ _ _ E) as (A & N & b & H & L & F). assert (Q : p - 8 + 8 = p) by lia. cbn in F. rewrite Q in F. destruct F as (F1 & F2 & F3). split; [exact N|]. split; [exact F1|]. split; [exact F2|]. exists b. auto. Qed.
Lemma mark_of p w n e : g (p - 8) = Some (w, n, SMark e) -> 0 <= n /\ lookup (tmap s) p = Some e /\ recs s e = Some (mk_rec ALLOCTOR_ID n true p) /\ exists b, heap s (p - 8) = Some b /\ sealed b n.
Proof. intro E. destruct (claim_blk _ _ _ _ E) as (A & N & b & H & L & F). assert (Q : p - 8 + 8 = p) by lia. cbn in F. rewrite Q in F. destruct F as (F1 & F2 & F3). split; [exact N|]. split; [exact F1|]. split; [exact F2|]. exists b. auto. Qed.
Lemma kok_set a v n k : mine_or_none t v \/ True -> (forall p c, k = Some (p, c) -> p - 8 <> a) -> kok g (lent s) t n k -> kok (gset g a v) (lent s) t n k.
Proof. intros _ N. destruct k as [[p c]|]; cbn; [|auto]. rewrite gset_ne by (eapply N; reflexivity). auto. Qed.
Lemma kok_ne a n k w m x : g a = Some (w, m, x) -> (forall e, x <> SFull e) -> kok g (lent s) t n k -> forall p c, k = Some (p, c) -> p - 8 <> a.
Proof. intros E NF K p c -> Q. cbn in K. destruct K as ((e & K) & _). rewrite Q, E in K. injection K as _ _ ->. destruct (NF e eq_refl). Qed.
Lemma gok_set a v q : (forall p n, q = [(p, n)] -> p - 8 <> a) -> gok g t q -> gok (gset g a v) t q.
Proof. intros N. destruct q as [|[p n] [|? ?]]; cbn; auto. rewrite gset_ne by (eapply N; reflexivity). auto. Qed.
Lemma gok_ne a q w m x : g a = Some (w, m, x) -> (forall e, x <> SFull e) -> gok g t q -> forall p n, q = [(p, n)] -> p - 8 <> a.
Proof. intros E NF K p n -> Q. cbn in K. destruct K as (e & K). rewrite Q, E in K. injection K as _ _ ->. destruct (NF e eq_refl). Qed.

Lemma case_block n k a bytes : pcs s t = MAlloc n k -> heap s a = None -> 0 < a -> zlen bytes = n + 16 -> good (Ret (set_pc (set_heap s a (Some bytes)) t (MGet a n k))).
Proof.
  intros PC H A L. pose proof (i_pc _ _ I t) as P. rewrite PC in P. cbn in P. destruct P as (N0 & K).
  assert (GA : g a = None). { pose proof (i_blk _ _ I a) as B. destruct (g a) as [[[w m] x]|]; [|reflexivity]. destruct B as (_ & _ & b & B & _). congruence. }
  assert (KN : forall p c, k = Some (p, c) -> p - 8 <> a). { intros p c -> Q. destruct K as ((e & K) & _). rewrite Q, GA in K. discriminate. }
  do 2 eexists. split; [reflexivity|]. apply (stage_move s g t a (Some (Some t, n, SRaw)) (MGet a n k)); auto; rewrite ?PC; cbn; auto.
  - left. exact GA.
  - right. eauto.
  - intros b NB. rewrite zset_ne by exact NB. reflexivity.
  - rewrite zset_eq. split; [exact A|]. split; [exact N0|]. exists bytes. split; [reflexivity|]. split; [exact L|]. pose proof (i_blk _ _ I a) as B. rewrite GA in B. apply B.
  - discriminate.
  - rewrite GA. cbn. intros e E. left. split; [exact E|discriminate].
  - rewrite gset_eq. split; [reflexivity|]. apply kok_set; auto.
  - apply (i_map _ _ I).
Qed.
Lemma case_new a n k e : pcs s t = MNew a n k -> recs s e = None -> good (Ret (set_pc (set_rec s e (Some zero_rec)) t (MPut a n e k))).
Proof.
  intros PC R. pose proof (i_pc _ _ I t) as P. rewrite PC in P. cbn in P. destruct P as (GA & K). destruct (claim_blk _ _ _ _ GA) as (A & N0 & b & H & L & F). cbn in F.
  assert (KN : forall p c, k = Some (p, c) -> p - 8 <> a) by (eapply kok_ne; [exact GA|discriminate|exact K]).
  do 2 eexists. split; [reflexivity|]. apply (stage_move s g t a (Some (Some t, n, SPut e)) (MPut a n e k)); auto; rewrite ?PC; cbn; auto.
  - right. eauto.
  - right. eauto.
  - intro e'. destruct (Z.eq_dec e' e) as [->|N]; [auto|]. rewrite zset_ne by exact N. auto.
  - split; [exact A|]. split; [exact N0|]. exists b. rewrite zset_eq. auto.
  - rewrite GA. cbn. intros e' E. injection E as <-. auto.
  - rewrite GA. cbn. intros e' E. destruct (Z.eq_dec e' e) as [->|N]; [auto|]. rewrite zset_ne in E by exact N. left. split; [exact E|discriminate].
  - rewrite gset_eq. split; [reflexivity|]. apply kok_set; auto.
  - apply (i_map _ _ I).
Qed.
Lemma put_nodup p e : NoDup (map fst ((p, e) :: del (tmap s) p)).
Proof.
  cbn. constructor; [|apply filter_nodup, (i_map _ _ I)]. intro X. apply in_map_iff in X. destruct X as ([q x] & E & X). cbn in E. subst q. apply filter_In in X. destruct X as (_ & X). cbn in X. rewrite Z.eqb_refl in X. discriminate.
Qed.
Lemma case_put a n e k : pcs s t = MPut a n e k -> lock s = None -> good (Ret (set_pc (set_map s ((a + 8, e) :: del (tmap s) (a + 8))) t (MSet 0 a n e k))).
Proof.
  intros PC LK. pose proof (i_pc _ _ I t) as P. rewrite PC in P. cbn in P. destruct P as (GA & K). destruct (claim_blk _ _ _ _ GA) as (A & N0 & b & H & L & F1 & F2).
  assert (KN : forall p c, k = Some (p, c) -> p - 8 <> a) by (eapply kok_ne; [exact GA|discriminate|exact K]).
  do 2 eexists. split; [reflexivity|]. apply (stage_move s g t a (Some (Some t, n, SSet 0 e)) (MSet 0 a n e k)); auto; rewrite ?PC; cbn [tmap set_pc set_map set_rec set_heap recs heap]; auto; try (cbn; auto; fail).
  - right. eauto.
  - right. eauto.
  - intros a' N'. rewrite lookup_put. destruct (Z.eqb_spec (a' + 8) (a + 8)); [lia|reflexivity].
  - cbn. split; [exact A|]. split; [exact N0|]. exists b. split; [exact H|]. split; [exact L|]. rewrite Z.eqb_refl. split; [reflexivity|]. exists zero_rec. split; [exact F2|]. cbn. repeat split; lia.
  - rewrite GA. cbn. auto.
  - rewrite GA. cbn. intros e' E. destruct (Z.eq_dec e' e) as [->|N]; [auto|]. left. split; [exact E|congruence].
  - cbn. rewrite gset_eq. split; [lia|]. split; [reflexivity|]. apply kok_set; auto.
  - apply put_nodup.
Qed.
Lemma case_field i a n e k : pcs s t = MSet i a n e k -> (i < 4)%nat ->
  exists r, recs s e = Some r /\ good (Ret (set_pc (set_rec s e (Some (set_field i a n r))) t (MSet (S i) a n e k))).
Proof.
  intros PC Hi. pose proof (i_pc _ _ I t) as P. rewrite PC in P. cbn in P. destruct P as (_ & GA & K). destruct (claim_blk _ _ _ _ GA) as (A & N0 & b & H & L & F1 & r & R & FR & J1 & J3 & J4 & J5).
  assert (KN : forall p c, k = Some (p, c) -> p - 8 <> a) by (eapply kok_ne; [exact GA|discriminate|exact K]).
  exists r. split; [exact R|]. do 2 eexists. split; [reflexivity|]. apply (stage_move s g t a (Some (Some t, n, SSet (S i) e)) (MSet (S i) a n e k)); auto; rewrite ?PC; cbn [tmap set_pc set_map set_rec set_heap recs heap]; auto; try (cbn; auto; fail).
  - right. eauto.
  - right. eauto.
  - intro e'. destruct (Z.eq_dec e' e) as [->|N]; [rewrite GA; auto|]. rewrite zset_ne by exact N. auto.
  - cbn [blk_ok facts heap tmap recs set_pc set_rec]. split; [exact A|]. split; [exact N0|]. exists b. split; [exact H|]. split; [exact L|]. split; [exact F1|]. rewrite zset_eq. eexists. split; [reflexivity|].
    destruct i as [|[|[|[|i]]]]; [| | | |lia]; cbn; repeat split; intros; auto; try lia; try (apply J1; lia); try (apply J3; lia).
  - rewrite GA. cbn. auto.
  - rewrite GA. cbn. intros e' E. destruct (Z.eq_dec e' e) as [->|N]; [auto|]. rewrite zset_ne in E by exact N. left. split; [exact E|congruence].
  - cbn. rewrite gset_eq. split; [lia|]. split; [reflexivity|]. apply kok_set; auto.
  - apply (i_map _ _ I).
Qed.
Lemma case_front a n e k : pcs s t = MSet 4 a n e k -> exists b b', heap s a = Some b /\ mwrite b 0 canary = Ret b' /\ good (Ret (set_pc (set_heap s a (Some b')) t (MSet 5 a n e k))).
Proof.
  intros PC. pose proof (i_pc _ _ I t) as P. rewrite PC in P. cbn in P. destruct P as (_ & GA & K). destruct (claim_blk _ _ _ _ GA) as (A & N0 & b & H & L & F1 & r & R & FR & J1 & J3 & J4 & J5).
  assert (KN : forall p c, k = Some (p, c) -> p - 8 <> a) by (eapply kok_ne; [exact GA|discriminate|exact K]). destruct (seal_front b n N0 L) as (b' & W & L' & T').
  exists b, b'. split; [exact H|]. split; [exact W|]. do 2 eexists. split; [reflexivity|]. apply (stage_move s g t a (Some (Some t, n, SSet 5 e)) (MSet 5 a n e k)); auto; rewrite ?PC; cbn [tmap set_pc set_map set_rec set_heap recs heap]; auto; try (cbn; auto; fail).
  - right. eauto.
  - right. eauto.
  - intros a' N'. rewrite zset_ne by exact N'. reflexivity.
  - cbn [blk_ok facts heap tmap recs set_pc set_heap]. split; [exact A|]. split; [exact N0|]. exists b'. rewrite zset_eq. split; [reflexivity|]. split; [exact L'|]. split; [exact F1|]. exists r. split; [exact R|]. repeat split; auto; intros; try (apply J1; lia); try (apply J3; lia); try (apply J4; lia).
  - rewrite GA. cbn. auto.
  - rewrite GA. cbn. intros e' E. destruct (Z.eq_dec e' e) as [->|N]; [auto|]. left. split; [exact E|congruence].
  - cbn. rewrite gset_eq. split; [lia|]. split; [reflexivity|]. apply kok_set; auto.
  - apply (i_map _ _ I).
Qed.
Lemma case_back a n e k : pcs s t = MSet 5 a n e k -> exists b b', heap s a = Some b /\ mwrite b (8 + n) canary = Ret b' /\ good (Ret (set_pc (set_heap s a (Some b')) t (malloc_end a n k))).
Proof.
  intros PC. pose proof (i_pc _ _ I t) as P. rewrite PC in P. cbn in P. destruct P as (_ & GA & K). destruct (claim_blk _ _ _ _ GA) as (A & N0 & b & H & L & F1 & r & R & FR & J1 & J3 & J4 & J5).
  assert (KN : forall p c, k = Some (p, c) -> p - 8 <> a) by (eapply kok_ne; [exact GA|discriminate|exact K]). destruct (seal_back b n N0 L (J5 ltac:(lia))) as (b' & W & SE).
  assert (RE : r = mk_rec ALLOCTOR_ID n false (a + 8)). { destruct r as [i z f p]. cbn in *. rewrite J1, J3, J4, FR by lia. reflexivity. }
  exists b, b'. split; [exact H|]. split; [exact W|]. do 2 eexists. split; [reflexivity|].
  apply (stage_move s g t a (Some (Some t, n, SFull e)) (malloc_end a n k)); auto; rewrite ?PC; cbn [tmap set_pc set_map set_rec set_heap recs heap]; auto.
  - right. eauto.
  - right. eauto.
  - intros _. destruct k as [[p c]|]; cbn; [auto|]. left. unfold canary_size. lia.
  - intros a' N'. rewrite zset_ne by exact N'. reflexivity.
  - cbn [blk_ok facts heap tmap recs set_pc set_heap]. split; [exact A|]. split; [exact N0|]. exists b'. rewrite zset_eq. split; [reflexivity|]. split; [apply sealed_len; exact SE|]. split; [exact F1|]. split; [congruence|exact SE].
  - rewrite GA. cbn. auto.
  - rewrite GA. cbn. intros e' E. destruct (Z.eq_dec e' e) as [->|N]; [auto|]. left. split; [exact E|congruence].
  - intros a' n' y E N' BB. cbn in BB. destruct BB as [X|BB]; [congruence|]. destruct k as [[p c]|]; cbn in *; auto.
  - destruct k as [[p c]|]; cbn.
    + rewrite gset_eq. split; [split; [eauto|]|].
      * pose proof (KN _ _ eq_refl). auto.
      * rewrite gset_ne by (eapply KN; reflexivity). exact K.
    + unfold canary_size. replace (a + 8 - 8) with a by lia. rewrite gset_eq. eauto.
  - apply (i_map _ _ I).
  - destruct k as [[p c]|]; reflexivity.
Qed.
(** lcu_free *)
Lemma case_mark p e q : pcs s t = FSet p e q -> exists r, recs s e = Some r /\ good (Ret (set_pc (set_rec s e (Some (mk_rec (r_id r) (r_size r) true (r_ptr r)))) t (FCheck p e q))).
Proof.
  intros PC. pose proof (i_pc _ _ I t) as P. rewrite PC in P. cbn in P. destruct P as ((n & GA & LE) & GK & QN). destruct (full_of _ _ _ _ GA) as (N0 & LO & R & b & H & SE). destruct (claim_blk _ _ _ _ GA) as (A & _).
  eexists. split; [exact R|]. cbn [r_id r_size r_ptr]. do 2 eexists. split; [reflexivity|].
  apply (stage_move s g t (p - 8) (Some (Some t, n, SMark e)) (FCheck p e q)); auto; rewrite ?PC; cbn [tmap set_pc set_map set_rec set_heap recs heap]; auto; try (cbn; auto; fail).
  - right. eauto.
  - right. eauto.
  - intro e'. destruct (Z.eq_dec e' e) as [->|N]; [rewrite GA; auto|]. rewrite zset_ne by exact N. auto.
  - cbn [blk_ok facts heap tmap recs set_pc set_rec]. split; [exact A|]. split; [exact N0|]. exists b. split; [exact H|]. split; [apply sealed_len; exact SE|]. replace (p - 8 + 8) with p by lia. rewrite zset_eq. auto.
  - rewrite GA. cbn. auto.
  - rewrite GA. cbn. intros e' E. destruct (Z.eq_dec e' e) as [->|N]; [auto|]. rewrite zset_ne in E by exact N. left. split; [exact E|congruence].
  - cbn [pc_ok]. rewrite gset_eq. split; [eauto|]. split; [|exact QN]. apply gok_set; [|exact GK]. intros p' m -> Q. apply QN. cbn. auto.
  - apply (i_map _ _ I).
  - right. intros w n' e' E. congruence.
  - right. right. intros w n' e' y E [-> | ->]; rewrite GA in E; [injection E as _ <- <-|discriminate]. eauto.
Qed.
Lemma case_remove p q : pcs s t = FRem p q -> lock s = None -> exists e r, lookup (tmap s) p = Some e /\ recs s e = Some r /\ good (Ret (set_pc (set_rec (set_map s (del (tmap s) p)) e None) t (FFree p q))).
Proof.
  intros PC LK. pose proof (i_pc _ _ I t) as P. rewrite PC in P. cbn in P. destruct P as ((n & e & GA) & GK & QN). destruct (mark_of _ _ _ _ GA) as (N0 & LO & R & b & H & SE). destruct (claim_blk _ _ _ _ GA) as (A & _).
  exists e. eexists. split; [exact LO|]. split; [exact R|]. do 2 eexists. split; [reflexivity|].
  apply (stage_move s g t (p - 8) (Some (Some t, n, SOut)) (FFree p q)); auto; rewrite ?PC; cbn [tmap set_pc set_map set_rec set_heap recs heap]; auto; try (cbn; auto; fail).
  - right. eauto.
  - right. eauto.
  - intros a' N'. rewrite lookup_del. destruct (Z.eqb_spec (a' + 8) p); [lia|reflexivity].
  - intro e'. destruct (Z.eq_dec e' e) as [->|N]; [rewrite GA; auto|]. rewrite zset_ne by exact N. auto.
  - cbn [blk_ok facts heap tmap recs set_pc set_rec set_map]. split; [exact A|]. split; [exact N0|]. exists b. split; [exact H|]. split; [apply sealed_len; exact SE|]. replace (p - 8 + 8) with p by lia. rewrite lookup_del, Z.eqb_refl. reflexivity.
  - discriminate.
  - rewrite GA. cbn. intros e' E. destruct (Z.eq_dec e' e) as [->|N]; [rewrite zset_eq in E; congruence|]. rewrite zset_ne in E by exact N. left. split; [exact E|congruence].
  - cbn [pc_ok]. rewrite gset_eq. split; [eauto|]. split; [|exact QN]. apply gok_set; [|exact GK]. intros p' m -> Q. apply QN. cbn. auto.
  - apply filter_nodup, (i_map _ _ I).
  - right. intros w n' e' E. congruence.
Qed.
Lemma case_free p q : pcs s t = FFree p q -> exists b, heap s (p - 8) = Some b /\ good (Ret (set_pc (set_heap s (p - 8) None) t (Out q))).
Proof.
  intros PC. pose proof (i_pc _ _ I t) as P. rewrite PC in P. cbn in P. destruct P as ((n & GA) & GK & QN). destruct (claim_blk _ _ _ _ GA) as (A & N0 & b & H & L & F). cbn in F.
  exists b. split; [exact H|]. do 2 eexists. split; [reflexivity|].
  apply (stage_move s g t (p - 8) None (Out q)); auto; rewrite ?PC; cbn [tmap set_pc set_map set_rec set_heap recs heap]; auto; try (cbn; auto; fail).
  - right. eauto.
  - left. reflexivity.
  - congruence.
  - intros a' N'. rewrite zset_ne by exact N'. reflexivity.
  - cbn [blk_ok heap tmap set_pc set_heap]. rewrite zset_eq. auto.
  - discriminate.
  - rewrite GA. cbn. intros e' E. left. split; [exact E|discriminate].
  - intros a n' y E N' [B|B]; [congruence|exact B].
  - cbn [pc_ok]. apply gok_set; [|exact GK]. intros p' m -> Q. apply QN. cbn. auto.
  - apply (i_map _ _ I).
  - right. intros w n' e' E. discriminate.
  - right. right. intros w n' e' y E Y. rewrite GA in E. injection E as <- <- <-. destruct Y; discriminate.
Qed.
Lemma case_copy p cur a n : pcs s t = RCopy p cur a n -> exists b b' by_ b2, heap s (p - 8) = Some b /\ heap s a = Some b' /\ mread b 8 cur = Ret by_ /\ mwrite b' 8 by_ = Ret b2 /\
  good (Ret (set_pc (set_heap s a (Some b2)) t (FGet p [(a + 8, n)]))).
Proof.
  intros PC. pose proof (i_pc _ _ I t) as P. rewrite PC in P. cbn in P. destruct P as (((e & GA) & NE) & (e1 & GP) & LE & CN). destruct (full_of _ _ _ _ GP) as (N1 & LO1 & R1 & b1 & H1 & SE1).
  destruct (claim_blk _ _ _ _ GA) as (A & N0 & b & H & L & F1 & F2 & SE). pose proof (sealed_len _ _ SE1) as L1.
  assert (MR : mread b1 8 cur = Ret (zsub 8 cur b1)) by (apply mread_ok; lia). assert (LB : zlen (zsub 8 cur b1) = cur) by (apply zlen_zsub; lia).
  destruct (sealed_write b n 0 (zsub 8 cur b1) SE) as (b2 & W & SE2); [lia|lia|]. exists b1, b, (zsub 8 cur b1), b2. split; [exact H1|]. split; [exact H|]. split; [exact MR|]. split; [exact W|]. do 2 eexists. split; [reflexivity|].
  apply (stage_move s g t a (Some (Some t, n, SFull e)) (FGet p [(a + 8, n)])); auto; rewrite ?PC; cbn [tmap set_pc set_map set_rec set_heap recs heap]; auto; try (cbn; auto; fail).
  - right. eauto.
  - right. eauto.
  - intros _. cbn. right. left. lia.
  - intros a' N'. rewrite zset_ne by exact N'. reflexivity.
  - cbn [blk_ok facts heap tmap recs set_pc set_heap]. split; [exact A|]. split; [exact N0|]. exists b2. rewrite zset_eq. split; [reflexivity|]. split; [apply sealed_len; exact SE2|]. auto.
  - rewrite GA. cbn. auto.
  - rewrite GA. cbn. intros e' E. destruct (Z.eq_dec e' e) as [->|N]; [auto|]. left. split; [exact E|congruence].
  - intros a' n' y E N' [B|[B|[]]]; [congruence|]. left. exact B.
  - cbn [pc_ok]. split; [|split].
    + exists e1, cur. rewrite gset_ne by auto. auto.
    + cbn. replace (a + 8 - 8) with a by lia. rewrite gset_eq. eauto.
    + cbn. lia.
  - apply (i_map _ _ I).
Qed.
End Step.

(** Proofs for C75, part 5: contents of blocks, progress, runs *)
From Verif Require Import CBase CStr SeqLib AllocModel AllocProof AlMtModel AlMtSpec AlMtProof AlMtProof2 AlMtProof3 AlMtProof4.
(** which bytes a step may change *)
Lemma heap_change s g t ch s' a : inv s g -> fits s ch -> tick t ch s = Go (Ret s') ->
  heap s' a = heap s a \/ (exists n x, g a = Some (Some t, n, x)) \/ g a = None \/ (exists p off bytes n e, ch = CWrite p off bytes /\ a = p - 8 /\ g a = Some (None, n, SFull e)).
Proof.
  intros I FI TK. unfold tick in TK. change canary_size with 8 in TK. pose proof (i_pc _ _ I t) as P.
  assert (SH : forall b v, heap s' = zset (heap s) b v -> a <> b -> heap s' a = heap s a) by (intros b v -> N; apply zset_ne; exact N).
  assert (SA : heap s' = heap s -> heap s' a = heap s a) by (intros ->; reflexivity).
  destruct (pcs s t) as [|n k|b n k|b n e k|b n k|b n e k|i b n e k|p q|p e q|p e q|p e q|p e q|p q|p q|p size|p e size|p e size|p cur b n|l|rest sum reps l|e rest sum reps l|e rest sum reps l|e rest sum reps l|q] eqn:PC; destruct ch as [c|a' bytes| |e'|ord| |pw off bytes]; try discriminate TK; try (destruct rest as [|[pr er] rest]; discriminate TK); unfold unlocked, with_rec in TK; cbn [pc_ok] in P.
  - injection TK as <-. auto.
  - destruct FI as (n & H & H0 & H1). destruct (held_claim _ _ I _ _ H) as (e & G). destruct (Z.eq_dec a (pw - 8)) as [->|N]; [right; right; right; exists pw, off, bytes, n, e; auto|left].
    destruct (heap s (pw - 8)); [|discriminate]. destruct (mwrite l (8 + off) bytes); try discriminate. injection TK as <-. cbn. apply zset_ne. exact N.
  - destruct (heap s a') eqn:H; [discriminate|]. destruct (0 <? a') eqn:H1; [|discriminate]. destruct (zlen bytes =? n + 16) eqn:H2; [|discriminate]. injection TK as <-. destruct (Z.eq_dec a a') as [->|N]; [|left; apply zset_ne; exact N].
    right. right. left. pose proof (i_blk _ _ I a') as B. destruct (g a') as [[[w m] x]|]; [|reflexivity]. destruct B as (_ & _ & b & B & _). congruence.
  - injection TK as <-. auto.
  - destruct (lock s); [discriminate|]. injection TK as <-. auto.
  - destruct P.
  - destruct (recs s e') eqn:R; [discriminate|]. injection TK as <-. auto.
  - destruct (lock s) eqn:LK; [discriminate|]. injection TK as <-. auto.
  - destruct P as (_ & G & _). destruct (Nat.ltb i 4).
    + destruct (recs s e); [|discriminate]. injection TK as <-. auto.
    + destruct (Z.eq_dec a b) as [->|N]; [right; left; eauto|left]. destruct (heap s b); [|discriminate]. destruct (Nat.eqb i 4).
      * destruct (mwrite l 0 canary); try discriminate. injection TK as <-. apply zset_ne. exact N.
      * destruct (mwrite l (8 + n) canary); try discriminate. injection TK as <-. apply zset_ne. exact N.
  - destruct (lock s); [discriminate|]. destruct (lookup (tmap s) p); [|discriminate]. injection TK as <-. auto.
  - destruct (recs s e) as [r|]; [|discriminate]. destruct (r_freed r); [discriminate|]. injection TK as <-. auto.
  - destruct (recs s e) as [r|]; [|discriminate]. destruct (r_id r =? ALLOCTOR_ID); [|discriminate]. injection TK as <-. auto.
  - destruct (recs s e) as [r|]; [|discriminate]. injection TK as <-. auto.
  - destruct (recs s e) as [r|]; [|discriminate]. destruct (check s r); try discriminate. injection TK as <-. auto.
  - destruct (lock s); [discriminate|]. destruct (lookup (tmap s) p) as [e|]; [|injection TK as <-; auto]. destruct (recs s e); [|discriminate]. injection TK as <-. auto.
  - destruct P as ((n & G) & _). destruct (Z.eq_dec a (p - 8)) as [->|N]; [right; left; eauto|left]. destruct (heap s (p - 8)); [|discriminate]. injection TK as <-. apply zset_ne. exact N.
  - destruct (lock s); [discriminate|]. destruct (lookup (tmap s) p); [|discriminate]. injection TK as <-. auto.
  - destruct (recs s e) as [r|]; [|discriminate]. destruct (r_id r =? ALLOCTOR_ID); [|discriminate]. injection TK as <-. auto.
  - destruct (recs s e) as [r|]; [|discriminate]. destruct (negb (r_size r =? 0) && (size <=? r_size r)); injection TK as <-; auto.
  - destruct P as (((e & G) & _) & _). destruct (Z.eq_dec a b) as [->|N]; [right; left; eauto|left]. destruct (heap s (p - 8)); [|discriminate]. destruct (heap s b); [|discriminate]. destruct (mread l 8 cur) as [v| | |]; try discriminate. cbn [bind] in TK. destruct (mwrite l0 8 v); try discriminate. injection TK as <-. apply zset_ne. exact N.
  - destruct (lock s) eqn:LK; [discriminate|]. injection TK as <-. auto.
  - destruct rest as [|[pr er] rest]; [injection TK as <-; auto|]. destruct (recs s er) as [r|]; [|discriminate]. injection TK as <-. auto.
  - destruct (recs s e) as [r|]; [|discriminate]. injection TK as <-. auto.
  - destruct (recs s e) as [r|]; [|discriminate]. destruct (check s r); try discriminate. injection TK as <-. auto.
  - destruct (recs s e) as [r|]; [|discriminate]. injection TK as <-. auto.
  - injection TK as <-. auto.
Qed.
Lemma pcs_change s t ch s' u : tick t ch s = Go (Ret s') -> u <> t -> pcs s' u = pcs s u.
Proof.
  intros TK NU. unfold tick, unlocked, with_rec in TK.
  assert (F : forall x, (if Nat.eqb u t then x else pcs s u) = pcs s u) by (intro x; destruct (Nat.eqb_spec u t); [contradiction|reflexivity]).
  destruct (pcs s t) as [|n k|b n k|b n e k|b n k|b n e k|i b n e k|p q|p e q|p e q|p e q|p e q|p q|p q|p size|p e size|p e size|p cur b n|l|rest sum reps l|e rest sum reps l|e rest sum reps l|e rest sum reps l|q] eqn:PC; destruct ch as [c|a' bytes| |e'|ord| |pw off bytes]; try discriminate TK; try (destruct rest as [|[pr er] rest]; discriminate TK);
  repeat match type of TK with
  | Go (match ?x with _ => _ end) = _ => destruct x; try discriminate TK
  | Go (bind ?x _) = _ => destruct x; try discriminate TK; cbn [bind] in TK
  | match ?x with _ => _ end = _ => destruct x; try discriminate TK
  end; try (injection TK as <-; cbn; auto; fail).
Qed.

(** ** lcu_realloc keeps the contents *)
Definition kept (s : st) (p n : Z) (u : list Z) (p' n' : Z) : Prop := exists u', block_of s p' n' u' /\ n <= n' /\ ztake n u' = u.
Definition one (s : st) (p n : Z) (u : list Z) (q : blocks) : Prop := exists p' n', q = [(p', n')] /\ p' <> p /\ kept s p n u p' n'.
Definition re_ok (s : st) (t : nat) (p n : Z) (u : list Z) : Prop :=
  match pcs s t with
  | RGet p0 _ | RId p0 _ _ | RSize p0 _ _ => p0 = p /\ block_of s p n u
  | MAlloc m k | MGet _ m k | MNew _ m k | MPut _ m _ k | MSet _ _ m _ k => k = Some (p, n) /\ block_of s p n u
  | RCopy p0 cur _ m => p0 = p /\ cur = n /\ block_of s p n u
  | FGet p0 q | FFreed p0 _ q | FId p0 _ q | FSet p0 _ q | FCheck p0 _ q | FRem p0 q | FFree p0 q => p0 = p /\ one s p n u q
  | Out q => one s p n u q \/ (q = [(p, n)] /\ block_of s p n u)
  | _ => False
  end.
Lemma block_same s s' p n u : heap s' (p - 8) = heap s (p - 8) -> block_of s p n u -> block_of s' p n u.
Proof. intros E (A & B). split; [congruence|exact B]. Qed.
Lemma one_same s s' p n u q : (forall p' n', q = [(p', n')] -> p' <> p -> heap s' (p' - 8) = heap s (p' - 8)) -> one s p n u q -> one s' p n u q.
Proof. intros E (p' & n' & -> & N & u' & B & C). exists p', n'. split; [reflexivity|]. split; [exact N|]. exists u'. split; [|exact C]. eapply block_same; [|exact B]. eapply E; [reflexivity|exact N]. Qed.
Lemma write_at u off bytes : 0 <= off -> off + zlen bytes <= zlen u -> mwrite (canary ++ u ++ canary) (8 + off) bytes = Ret (canary ++ zwrite off bytes u ++ canary).
Proof.
  intros Ho Hl. pose proof (zlen_nonneg bytes). rewrite mwrite_ok by (rewrite ?zlen_app; change (zlen canary) with 8; lia). f_equal.
  unfold zwrite. rewrite ztake_app, (ztake_all (8 + off) canary) by (change (zlen canary) with 8; lia).
  change (zlen canary) with 8. replace (8 + off - 8) with off by lia.
  rewrite ztake_app_l by lia. rewrite <- !app_assoc. f_equal. f_equal. f_equal.
  rewrite zdrop_app, (zdrop_all _ canary) by (change (zlen canary) with 8; lia). cbn [app].
  change (zlen canary) with 8. replace (8 + off + zlen bytes - 8) with (off + zlen bytes) by lia.
  apply zdrop_app_l. lia.
Qed.
Lemma read_at u : mread (canary ++ u ++ canary) 8 (zlen u) = Ret u.
Proof.
  pose proof (zlen_nonneg u). rewrite mread_ok by (rewrite ?zlen_app; change (zlen canary) with 8; lia). f_equal. unfold zsub. rewrite zdrop_app, (zdrop_all 8 canary) by (change (zlen canary) with 8; lia). change (zlen canary) with 8. rewrite Z.sub_diag. cbn [app]. rewrite zdrop_0. apply ztake_app_len.
Qed.
Lemma re_other s g t v ch s' p n u : inv s g -> fits s ch -> tick v ch s = Go (Ret s') -> v <> t -> re_ok s t p n u -> re_ok s' t p n u.
Proof.
  intros I FI TK NV R. unfold re_ok in *. rewrite (pcs_change _ _ _ _ t TK) by auto. pose proof (i_pc _ _ I t) as P.
  assert (K : forall a m x, g a = Some (Some t, m, x) -> heap s' a = heap s a).
  { intros a m x G. destruct (heap_change s g v ch s' a I FI TK) as [H|[(m' & y & H)|[H|(? & ? & ? & ? & ? & _ & _ & H)]]]; [exact H|congruence..]. }
  assert (KB : forall m, kok g (lent s) t m (Some (p, n)) -> block_of s p n u -> block_of s' p n u).
  { intros m ((e & G) & _). apply block_same. eapply K. exact G. }
  assert (KM : forall e, mine g (lent s) t p e -> block_of s p n u -> block_of s' p n u).
  { intros e (m & G & _). apply block_same. eapply K. exact G. }
  assert (KO : forall q, gok g t q -> one s p n u q -> one s' p n u q).
  { intros q G. apply one_same. intros p' n' -> _. destruct G as (e & G). eapply K. exact G. }
  destruct (pcs s t); cbn [pc_ok] in P; try contradiction.
  - destruct R as (-> & R). destruct P as (_ & P). eauto.
  - destruct R as (-> & R). destruct P as (_ & P). eauto.
  - destruct R as (-> & R). destruct P as (_ & P). eauto.
  - destruct R as (-> & R). destruct P as (_ & P). eauto.
  - destruct R as (-> & R). destruct P as (_ & _ & P). eauto.
  - destruct R as (-> & R). destruct P as (_ & P & _). eauto.
  - destruct R as (-> & R). destruct P as (_ & P & _). eauto.
  - destruct R as (-> & R). destruct P as (_ & P & _). eauto.
  - destruct R as (-> & R). destruct P as (_ & P & _). eauto.
  - destruct R as (-> & R). destruct P as (_ & P & _). eauto.
  - destruct R as (-> & R). destruct P as (_ & P & _). eauto.
  - destruct R as (-> & R). destruct P as (_ & P & _). eauto.
  - destruct R as (-> & R). destruct P as (_ & e & P). eauto.
  - destruct R as (-> & R). destruct P as (_ & P). eauto.
  - destruct R as (-> & R). destruct P as (_ & P). eauto.
  - destruct R as (-> & -> & R). destruct P as (_ & P). eauto.
  - destruct R as [R|(-> & R)]; [eauto|]. right. split; [reflexivity|]. destruct P as (e & P). eapply block_same; [|exact R]. eapply K. exact P.
Qed.
Lemma own_pcs s t x : pcs (set_pc s t x) t = x. Proof. cbn. rewrite Nat.eqb_refl. reflexivity. Qed.
Lemma full_u s g p w n0 e n u : inv s g -> g (p - 8) = Some (w, n0, SFull e) -> block_of s p n u -> n0 = n.
Proof. intros I G (H & L). destruct (claim_blk _ _ I _ _ _ _ G) as (_ & _ & b & H' & L' & _). assert (b = canary ++ u ++ canary) by congruence. subst b. rewrite !zlen_app in L'. change (zlen canary) with 8 in L'. lia. Qed.
Lemma re_own s g t ch s' p n u : inv s g -> tick t ch s = Go (Ret s') -> re_ok s t p n u -> pcs s' t = Idle \/ re_ok s' t p n u.
Proof.
  intros I TK R. pose proof (i_pc _ _ I t) as P. unfold re_ok in R. unfold tick in TK. change canary_size with 8 in TK.
  destruct (pcs s t) as [|m k|b m k|b m e k|b m k|b m e k|i b m e k|p0 q|p0 e q|p0 e q|p0 e q|p0 e q|p0 q|p0 q|p0 size|p0 e size|p0 e size|p0 cur b m|l|rest sum reps l|e rest sum reps l|e rest sum reps l|e rest sum reps l|q] eqn:PC; try contradiction; destruct ch as [c|a' bytes| |e'|ord| |pw off bytes]; try discriminate TK; unfold unlocked, with_rec in TK; cbn [pc_ok] in P; try (destruct R as (-> & R)); unfold re_ok.
  - destruct (heap s a') eqn:H; [discriminate|]. destruct (0 <? a'); [|discriminate]. destruct (zlen bytes =? m + 16); [|discriminate]. injection TK as <-. right. rewrite own_pcs. split; [reflexivity|]. eapply block_same; [|exact R]. cbn. apply zset_ne. intro Q. destruct R as (R & _). congruence.
  - injection TK as <-. right. rewrite own_pcs. auto.
  - destruct (lock s); [discriminate|]. injection TK as <-. right. rewrite own_pcs. destruct P as (G & _). destruct (claim_blk _ _ I _ _ _ _ G) as (_ & _ & b' & _ & _ & F). cbn in F. rewrite F. auto.
  - destruct (recs s e') eqn:RE; [discriminate|]. injection TK as <-. right. rewrite own_pcs. auto.
  - destruct (lock s) eqn:LK; [discriminate|]. injection TK as <-. right. rewrite own_pcs. auto.
  - destruct P as (_ & G & (e1 & K) & _). assert (NB : p - 8 <> b) by (intro Q; rewrite <- Q, K in G; discriminate G). destruct (Nat.ltb i 4).
    + destruct (recs s e); [|discriminate]. injection TK as <-. right. rewrite own_pcs. auto.
    + destruct (heap s b); [|discriminate]. destruct (Nat.eqb i 4).
      * destruct (mwrite l 0 canary); try discriminate. injection TK as <-. right. rewrite own_pcs. split; [reflexivity|]. eapply block_same; [|exact R]. cbn. apply zset_ne. exact NB.
      * destruct (mwrite l (8 + m) canary); try discriminate. injection TK as <-. right. rewrite own_pcs. cbn [malloc_end]. split; [reflexivity|]. split; [reflexivity|]. eapply block_same; [|exact R]. cbn. apply zset_ne. exact NB.
  - destruct (lock s); [discriminate|]. destruct (lookup (tmap s) p); [|discriminate]. injection TK as <-. right. rewrite own_pcs. auto.
  - destruct (recs s e) as [r|]; [|discriminate]. destruct (r_freed r); [discriminate|]. injection TK as <-. right. rewrite own_pcs. auto.
  - destruct (recs s e) as [r|]; [|discriminate]. destruct (r_id r =? ALLOCTOR_ID); [|discriminate]. injection TK as <-. right. rewrite own_pcs. auto.
  - destruct (recs s e) as [r|]; [|discriminate]. injection TK as <-. right. rewrite own_pcs. auto.
  - destruct (recs s e) as [r|]; [|discriminate]. destruct (check s r); try discriminate. injection TK as <-. right. rewrite own_pcs. auto.
  - destruct (lock s); [discriminate|]. destruct (lookup (tmap s) p) as [e|]; [|injection TK as <-; right; rewrite own_pcs; auto]. destruct (recs s e); [|discriminate]. injection TK as <-. right. rewrite own_pcs. auto.
  - destruct (heap s (p - 8)); [|discriminate]. injection TK as <-. right. rewrite own_pcs. left. eapply one_same; [|exact R]. intros p' n' _ N. cbn. apply zset_ne. lia.
  - destruct (lock s); [discriminate|]. destruct (lookup (tmap s) p); [|discriminate]. injection TK as <-. right. rewrite own_pcs. auto.
  - destruct (recs s e) as [r|]; [|discriminate]. destruct (r_id r =? ALLOCTOR_ID); [|discriminate]. injection TK as <-. right. rewrite own_pcs. auto.
  - destruct P as (_ & n0 & G & _). pose proof (full_u _ _ _ _ _ _ _ _ I G R) as ->. destruct (full_of _ _ I _ _ _ _ G) as (_ & _ & RE & _). rewrite RE in TK. cbn [r_size] in TK. destruct (negb (n =? 0) && (size <=? n)); injection TK as <-; right; rewrite own_pcs; auto.
  - destruct R as (-> & R1 & R2). destruct P as (((e & G) & NE) & _ & _ & LE). destruct (claim_blk _ _ I _ _ _ _ G) as (A & _ & b0 & H & _ & _ & _ & u0 & -> & L0). rewrite R1, H in TK. replace n with (zlen u) in TK by exact R2. rewrite read_at in TK. cbn [bind] in TK.
    assert (W : mwrite (canary ++ u0 ++ canary) 8 u = Ret (canary ++ zwrite 0 u u0 ++ canary)) by (apply (write_at u0 0 u); lia). rewrite W in TK. cbn [bind] in TK. injection TK as <-. right. rewrite own_pcs. split; [reflexivity|].
    exists (b + 8), m. split; [reflexivity|]. split; [lia|]. pose proof (zlen_nonneg u). exists (zwrite 0 u u0). split; [|split; [lia|]].
    + split; [cbn; replace (b + 8 - 8) with b by lia; apply zset_eq|]. rewrite zlen_zwrite; lia.
    + unfold zwrite. change (ztake 0 u0) with (@nil Z). cbn [app]. rewrite <- R2. apply ztake_app_len.
  - injection TK as <-. left. apply own_pcs.
Qed.
Lemma during_ok s0 t s p n u : (exists g, inv s0 g) -> re_ok s0 t p n u -> during t s0 s -> (exists g, inv s g) /\ (pcs s t = Idle \/ re_ok s t p n u).
Proof.
  intros I0 R0 D. induction D as [|s1 v ch s2 D ((g & I) & IH) NI FI TK]; [auto|]. destruct (step_good s1 g v ch (Ret s2) I FI TK) as (s3 & g' & E & I'). injection E as <-. split; [eauto|]. destruct IH as [IH|IH]; [contradiction|].
  destruct (Nat.eq_dec v t) as [->|N]; [exact (re_own s1 g t ch s2 p n u I TK IH)|right; exact (re_other s1 g t v ch s2 p n u I FI TK N IH)].
Qed.
Lemma realloc_keeps s0 t p n u size s1 s s' : reach fits s0 -> List.In (p, n) (held s0) -> block_of s0 p n u -> allowed s0 (CRealloc p size) -> 0 < size ->
  tick t (CCall (CRealloc p size)) s0 = Go (Ret s1) -> during t s1 s -> pcs s t <> Idle -> tick t CGo s = Go (Ret s') -> pcs s' t = Idle ->
  exists p' n' u', List.In (p', n') (held s') /\ block_of s' p' n' u' /\ n <= n' /\ ztake n u' = u /\ (p' = p -> n' = n).
Proof.
  intros R H B AL SZ TK D NI TK' ID. destruct (reach_inv _ R) as (g & I). destruct (step_good s0 g t (CCall (CRealloc p size)) _ I AL TK) as (s2 & g1 & E & I1). injection E as <-.
  assert (R1 : re_ok s1 t p n u).
  { unfold tick in TK. destruct (pcs s0 t); try discriminate TK; try (destruct rest as [|[? ?] ?]; discriminate TK). injection TK as <-. unfold re_ok. rewrite own_pcs. cbn [enter]. destruct (Z.eqb_spec size 0); [lia|]. destruct (Z.eqb_spec p 0) as [E|_]; [destruct (held_ne0 _ _ I _ _ H E)|]. split; [reflexivity|exact B]. }
  destruct (during_ok s1 t s p n u (ex_intro _ g1 I1) R1 D) as ((g2 & I2) & [X|X]); [contradiction|]. unfold re_ok in X.
  assert (Q : exists q, pcs s t = Out q /\ s' = set_pc (back s t q) t Idle).
  { unfold tick, unlocked, with_rec in TK'. pose proof (i_pc _ _ I2 t) as P.
    assert (Y : forall s3 x, s' = set_pc s3 t x -> x = Idle) by (intros s3 x ->; rewrite own_pcs in ID; exact ID).
    destruct (pcs s t) as [|m k|b m k|b m e k|b m k|b m e k|i b m e k|p0 q|p0 e q|p0 e q|p0 e q|p0 e q|p0 q|p0 q|p0 size'|p0 e size'|p0 e size'|p0 cur b m|l|rest sum reps l|e rest sum reps l|e rest sum reps l|e rest sum reps l|q]; try discriminate TK'; try contradiction;
    try (exists q; injection TK' as <-; auto; fail); exfalso;
    repeat match type of TK' with
    | Go (match ?x with _ => _ end) = _ => destruct x; try discriminate TK'
    | Go (bind ?x _) = _ => destruct x; try discriminate TK'; cbn [bind] in TK'
    | match ?x with _ => _ end = _ => destruct x; try discriminate TK'
    end; try (injection TK' as <-; specialize (Y _ _ eq_refl); discriminate Y).
    all: injection TK' as <-; specialize (Y _ _ eq_refl); first [destruct (lookup (tmap s) (b + canary_size)); discriminate Y | destruct k as [[? ?]|]; discriminate Y]. }
  destruct Q as (q & Q & ->). rewrite Q in X. destruct X as [(p' & n' & -> & N & u' & B' & L & T)|(-> & B')].
  - exists p', n', u'. split; [cbn; apply in_or_app; right; left; reflexivity|]. split; [exact B'|]. split; [exact L|]. split; [exact T|]. intro; contradiction.
  - exists p, n, u. split; [cbn; apply in_or_app; right; left; reflexivity|]. split; [exact B'|]. split; [lia|]. split; [|auto]. destruct B' as (_ & <-). apply ztake_all. lia.
Qed.

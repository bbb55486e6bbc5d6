(** Proofs for C75, part 6: progress, quiescence, example runs *)
From Verif Require Import CBase CStr SeqLib AllocModel AllocProof AlMtModel AlMtSpec AlMtProof AlMtProof2 AlMtProof3 AlMtProof4 AlMtProof5.
Lemma no_fault s t ch o : reach fits s -> fits s ch -> tick t ch s = Go o -> exists s', o = Ret s'.
Proof. intros R F TK. destruct (reach_inv _ R) as (g & I). destruct (step_good s g t ch o I F TK) as (s' & g' & E & _). eauto. Qed.
Lemma held_block s p n : reach fits s -> List.In (p, n) (held s) -> 8 < p /\ (exists u, block_of s p n u) /\ exists e, List.In (p, e) (tmap s) /\ recs s e = Some (mk_rec ALLOCTOR_ID n false p).
Proof.
  intros R H. destruct (reach_inv _ R) as (g & I). destruct (held_claim _ _ I _ _ H) as (e & G). destruct (claim_blk _ _ I _ _ _ _ G) as (A & _). destruct (full_of _ _ I _ _ _ _ G) as (_ & LO & RE & b & HB & u & -> & L). split; [lia|]. split; [exists u; split; assumption|]. exists e. split; [apply lookup_in; exact LO|exact RE].
Qed.
Lemma held_nodup s : reach fits s -> NoDup (map fst (held s)).
Proof. intro R. destruct (reach_inv _ R) as (g & I). apply (i_nd _ _ I). Qed.
Lemma undisturbed s t ch s' p n u : reach fits s -> fits s ch -> tick t ch s = Go (Ret s') -> List.In (p, n) (held s) -> block_of s p n u ->
  match ch with CWrite p' off bytes => block_of s' p n (if p' =? p then zwrite off bytes u else u) | _ => block_of s' p n u end.
Proof.
  intros R F TK H B. destruct (reach_inv _ R) as (g & I). destruct (held_claim _ _ I _ _ H) as (e & G).
  destruct (heap_change s g t ch s' (p - 8) I F TK) as [X|[(m & x & X)|[X|(p' & off & bytes & m & e' & -> & E & X)]]]; [|congruence|congruence|].
  - assert (Y : forall u', u' = u -> block_of s' p n u') by (intros u' ->; eapply block_same; eassumption). destruct ch as [c|a' bytes| |e'|ord| |p' off bytes]; auto. apply Y. destruct (Z.eqb_spec p' p) as [->|]; [|reflexivity].
    unfold tick in TK. destruct (pcs s t); try discriminate TK; [|destruct rest as [|[? ?] ?]; discriminate TK]. change canary_size with 8 in TK. destruct B as (B & L). rewrite B in TK. destruct F as (n' & H' & F1 & F2). destruct (held_claim _ _ I _ _ H') as (e2 & G2). rewrite G in G2. injection G2 as <- <-.
    rewrite write_at in TK by lia. cbn [bind] in TK. injection TK as <-. cbn [heap set_heap] in X. rewrite zset_eq in X. rewrite B in X.
    assert (Q : canary ++ zwrite off bytes u ++ canary = canary ++ u ++ canary) by (change (Some (canary ++ zwrite off bytes u ++ canary) = Some (canary ++ u ++ canary)) in X; congruence). apply app_inv_head in Q. apply app_inv_tail in Q. exact Q.
  - assert (p' = p) by lia. subst p'. rewrite Z.eqb_refl. unfold tick in TK. destruct (pcs s t); try discriminate TK; [|destruct rest as [|[? ?] ?]; discriminate TK]. change canary_size with 8 in TK. destruct B as (B & L). rewrite B in TK. destruct F as (n' & H' & F1 & F2). destruct (held_claim _ _ I _ _ H') as (e2 & G2). rewrite G in G2. injection G2 as <- <-.
    rewrite write_at in TK by lia. cbn [bind] in TK. injection TK as <-. split; [cbn; apply zset_eq|]. pose proof (zlen_nonneg bytes). rewrite zlen_zwrite; lia.
Qed.
Lemma quiet s : reach fits s -> (forall u, pcs s u = Idle) ->
  lock s = None /\ Permutation (map fst (tmap s)) (map fst (held s)) /\
  (forall a b, heap s a = Some b -> exists n, List.In (a + 8, n) (held s)) /\
  (forall e r, recs s e = Some r -> exists p n, List.In (p, n) (held s) /\ List.In (p, e) (tmap s) /\ r = mk_rec ALLOCTOR_ID n false p).
Proof.
  intros R ID. destruct (reach_inv _ R) as (g & I).
  assert (C : forall a w n x, g a = Some (w, n, x) -> exists e, x = SFull e /\ List.In (a + 8, n) (held s)).
  { intros a [u|] n x G; [pose proof (i_own _ _ I _ _ _ _ G) as X; rewrite ID in X; destruct X|]. destruct (i_user _ _ I _ _ _ G) as (e & ->). exists e. split; [reflexivity|]. apply (i_held _ _ I). replace (a + 8 - 8) with a by lia. eauto. }
  split; [|split; [|split]].
  - destruct (lock s) as [u|] eqn:E; [|reflexivity]. apply (i_lock _ _ I) in E. rewrite ID in E. discriminate.
  - apply NoDup_Permutation; [apply (i_map _ _ I)|apply (i_nd _ _ I)|]. intro p. split; intro H; apply in_map_iff in H; destruct H as ([q x] & E & H); cbn in E; subst q.
    + apply (in_lookup _ _ _ (i_map _ _ I)) in H. pose proof (i_blk _ _ I (p - 8)) as B. destruct (g (p - 8)) as [[[w n] y]|] eqn:G.
      * destruct (C _ _ _ _ G) as (e & _ & H'). replace (p - 8 + 8) with p in H' by lia. apply (in_map fst) in H'. exact H'.
      * destruct B as (_ & B). replace (p - 8 + 8) with p in B by lia. congruence.
    + destruct (held_claim _ _ I _ _ H) as (e & G). destruct (full_of _ _ I _ _ _ _ G) as (_ & LO & _). apply lookup_in in LO. apply (in_map fst) in LO. exact LO.
  - intros a b H. pose proof (i_blk _ _ I a) as B. destruct (g a) as [[[w n] y]|] eqn:G; [|destruct B; congruence]. destruct (C _ _ _ _ G) as (e & _ & H'). eauto.
  - intros e r H. destruct (i_rec _ _ I e) as (a & E); [congruence|]. destruct (g a) as [[[w n] y]|] eqn:G; [|discriminate]. destruct (C _ _ _ _ G) as (e' & -> & H'). cbn in E. injection E as ->. pose proof (i_blk _ _ I a) as B. rewrite G in B. destruct B as (_ & _ & b & _ & _ & F1 & F2 & _). exists (a + 8), n. split; [exact H'|]. split; [apply lookup_in; exact F1|congruence].
Qed.
Lemma reports s : reach fits s -> Forall report_ok (done s).
Proof. intro R. destruct (reach_inv _ R) as (g & I). apply (i_done _ _ I). Qed.

(** ** progress *)
Lemma recs_fin rule s : reach rule s -> exists N, forall e, N <= e -> recs s e = None.
Proof.
  induction 1 as [|s t ch s' R (N & F) RU TK]; [exists 0; reflexivity|].
  assert (K : recs s' = recs s -> exists N, forall e, N <= e -> recs s' e = None) by (intros ->; eauto).
  assert (Z : forall e v, recs s' = zset (recs s) e v -> exists N, forall e, N <= e -> recs s' e = None).
  { intros e v ->. exists (Z.max N (e + 1)). intros e' H. rewrite zset_ne by lia. apply F. lia. }
  unfold tick, unlocked, with_rec in TK.
  destruct (pcs s t) as [|n k|b n k|b n e k|b n k|b n e k|i b n e k|p q|p e q|p e q|p e q|p e q|p q|p q|p size|p e size|p e size|p cur b n|l|rest sum reps l|e rest sum reps l|e rest sum reps l|e rest sum reps l|q]; destruct ch as [c|a' bytes| |e'|ord| |pw off bytes]; try discriminate TK; try (destruct rest as [|[pr er] rest]; discriminate TK);
  repeat match type of TK with
  | Go (match ?x with _ => _ end) = _ => destruct x; try discriminate TK
  | Go (bind ?x _) = _ => destruct x; try discriminate TK; cbn [bind] in TK
  | match ?x with _ => _ end = _ => destruct x; try discriminate TK
  end; injection TK as <-; first [apply K; reflexivity | eapply Z; reflexivity].
Qed.
Lemma locked_go s g t : inv s g -> lock s = Some t -> exists o, tick t CGo s = Go o.
Proof. intros I L. apply (i_lock _ _ I) in L. unfold tick. destruct (pcs s t) as [| | | | | | | | | | | | | | | | | | |rest ? ? ?| | | |]; try discriminate L; unfold with_rec; eauto. destruct rest as [|[? ?] ?]; eauto. Qed.
Lemma unlocked_go s t : lock s = None -> pcs s t <> Idle -> (exists N, forall e, N <= e -> recs s e = None) -> exists ch o, fits s ch /\ tick t ch s = Go o.
Proof.
  intros L NI (N & F).
  destruct (pcs s t) as [|n k|b n k|b n e k|b n k|b n e k|i b n e k|p q|p e q|p e q|p e q|p e q|p q|p q|p size|p e size|p e size|p cur b n|l|rest sum reps l|e rest sum reps l|e rest sum reps l|e rest sum reps l|q] eqn:PC;
  try contradiction; try (exists CGo; unfold tick, unlocked, with_rec; rewrite PC, ?L; try destruct rest as [|[? ?] ?]; eexists; split; [exact I|reflexivity]).
  - exists CNull. unfold tick. rewrite PC. eexists. split; [exact I|reflexivity].
  - exists (CRec N). unfold tick. rewrite PC, F by lia. eexists. split; [exact I|reflexivity].
  - exists CGo. unfold tick, with_rec. rewrite PC. destruct (Nat.ltb i 4); eexists; (split; [exact I|reflexivity]).
  - exists (COrder (tmap s)). unfold tick, unlocked. rewrite PC, L. eexists. split; [apply Permutation_refl|reflexivity].
  - exists CGo. unfold tick, with_rec. rewrite PC. destruct rest as [|[pr er] rest]; eexists; (split; [exact I|reflexivity]).
  - exists CGo. unfold tick, with_rec. rewrite PC. eexists; (split; [exact I|reflexivity]).
  - exists CGo. unfold tick, with_rec. rewrite PC. eexists; (split; [exact I|reflexivity]).
  - exists CGo. unfold tick, with_rec. rewrite PC. eexists; (split; [exact I|reflexivity]).
Qed.
Lemma progress s u : reach fits s -> pcs s u <> Idle -> exists t ch s', pcs s t <> Idle /\ (t = u \/ lock s = Some t) /\ fits s ch /\ tick t ch s = Go (Ret s').
Proof.
  intros R NI. destruct (reach_inv _ R) as (g & I). destruct (lock s) as [t|] eqn:L.
  - destruct (locked_go s g t I L) as (o & TK). destruct (no_fault s t CGo o R Logic.I TK) as (s' & ->). exists t, CGo, s'. split; [apply (i_lock _ _ I) in L; intro X; rewrite X in L; discriminate|]. split; [auto|]. split; [exact Logic.I|exact TK].
  - destruct (unlocked_go s u L NI (recs_fin _ _ R)) as (ch & o & F & TK). destruct (no_fault s u ch o R F TK) as (s' & ->). exists u, ch, s'. auto.
Qed.

(** ** example runs *)
Definition order_eqb (a b : list (Z * Z)) : bool := if list_eq_dec (fun x y : Z * Z => ltac:(decide equality; apply Z.eq_dec)) a b then true else false.
Definition inb (p : Z) (l : blocks) : bool := existsb (fun x => fst x =? p) l.
Definition quietb (f : pc -> bool) (s : st) : bool := negb (f (pcs s 0%nat)) && negb (f (pcs s 1%nat)).
(** which rule is broken: 0 none, 1 overlap, 2 twice *)
Definition okb (m : nat) (s : st) (ch : choice) : bool :=
  match ch with
  | CCall (CMalloc n) => (0 <=? n) && (n <? 1000) && (Nat.eqb m 1 || quietb checking s)
  | CCall CExpect => Nat.eqb m 1 || quietb allocating s
  | CCall (CFree p) => inb p (held s) || (Nat.eqb m 2 && inb p (map snd (lent s)))
  | CCall (CRealloc p size) => (0 <=? size) && (size <? 1000) && inb p (held s) && quietb checking s
  | COrder o => order_eqb o (tmap s)
  | CWrite p off bytes => match find (fun x => fst x =? p) (held s) with Some (_, n) => (0 <=? off) && (off + zlen bytes <=? n) | None => false end
  | _ => true
  end.
Fixpoint play (m : nat) (l : list (nat * choice)) (s : st) : option st :=
  match l with
  | [] => Some s
  | (t, ch) :: l => if (t <? 2)%nat && okb m s ch then match tick t ch s with Go (Ret s') => play m l s' | _ => None end else None
  end.
Definition rule_of (m : nat) : st -> choice -> Prop := match m with 0%nat => fits | 1%nat => overlap | _ => twice end.
Definition two (s : st) : Prop := forall u, (2 <= u)%nat -> pcs s u = Idle.
Lemma tick_two s t ch s' : tick t ch s = Go (Ret s') -> (t < 2)%nat -> two s -> two s'.
Proof. intros TK L T u H. rewrite (pcs_change _ _ _ _ u TK) by lia. apply T. exact H. Qed.
Lemma inb_in p l : inb p l = true -> exists n, List.In (p, n) l.
Proof. intro H. apply existsb_exists in H. destruct H as ([q n] & H & E). apply Z.eqb_eq in E. cbn in E. subst q. eauto. Qed.
Lemma quietb_ok f s : f Idle = false -> two s -> quietb f s = true -> forall u, f (pcs s u) = false.
Proof.
  intros F T Q u. apply andb_prop in Q. destruct Q as (A & B). apply Bool.negb_true_iff in A, B. destruct u as [|[|u]]; [exact A|exact B|]. rewrite T by lia. exact F.
Qed.
Lemma two64_big : 1000000 < two64. Proof. reflexivity. Qed.
Lemma okb_ok m s ch : two s -> okb m s ch = true -> rule_of m s ch.
Proof.
  intros T O. pose proof two64_big as TB.
  assert (NM : (m = 0 \/ m = 1 \/ (m <> 0 /\ m <> 1))%nat) by lia.
  assert (W : forall p off bytes, okb m s (CWrite p off bytes) = true -> fits s (CWrite p off bytes)).
  { intros p off bytes Q. cbn in Q. destruct (find (fun x => fst x =? p) (held s)) as [[q n]|] eqn:E; [|discriminate]. apply find_some in E. destruct E as (E1 & E2). cbn in E2. apply Z.eqb_eq in E2. subst q. apply andb_prop in Q. destruct Q as (Q1 & Q2). apply Z.leb_le in Q1, Q2. cbn. eauto. }
  assert (RE : forall p size, okb m s (CCall (CRealloc p size)) = true -> fits s (CCall (CRealloc p size))).
  { intros p size Q. cbn in Q. apply andb_prop in Q. destruct Q as (Q & Q4). apply andb_prop in Q. destruct Q as (Q & Q3). apply andb_prop in Q. destruct Q as (Q1 & Q2). apply Z.leb_le in Q1. apply Z.ltb_lt in Q2. cbn. split; [lia|]. split; [right; apply inb_in; exact Q3|]. apply quietb_ok; auto. }
  assert (OR : forall o, okb m s (COrder o) = true -> Permutation o (tmap s)).
  { intros o Q. cbn in Q. unfold order_eqb in Q. destruct (list_eq_dec _ o (tmap s)) as [->|]; [apply Permutation_refl|discriminate]. }
  assert (MA : forall n, okb m s (CCall (CMalloc n)) = true -> 0 <= n < two64 - 16 /\ (m <> 1%nat -> forall u, checking (pcs s u) = false)).
  { intros n Q. cbn in Q. apply andb_prop in Q. destruct Q as (Q & Q3). apply andb_prop in Q. destruct Q as (Q1 & Q2). apply Z.leb_le in Q1. apply Z.ltb_lt in Q2. split; [lia|]. intro N. destruct (Nat.eqb_spec m 1); [contradiction|]. apply quietb_ok; auto. }
  assert (EX : okb m s (CCall CExpect) = true -> m <> 1%nat -> forall u, allocating (pcs s u) = false).
  { intros Q N. cbn in Q. destruct (Nat.eqb_spec m 1); [contradiction|]. apply quietb_ok; auto. }
  assert (FR : forall p, okb m s (CCall (CFree p)) = true -> (exists n, List.In (p, n) (held s)) \/ (m = 2%nat /\ exists n, List.In (p, n) (map snd (lent s)))).
  { intros p Q. cbn in Q. apply Bool.orb_true_iff in Q. destruct Q as [Q|Q]; [left; apply inb_in; exact Q|]. apply andb_prop in Q. destruct Q as (Q1 & Q2). apply Nat.eqb_eq in Q1. right. split; [exact Q1|apply inb_in; exact Q2]. }
  destruct ch as [[n|p|p size|]|a bytes| |e|o| |p off bytes]; destruct m as [|[|m]]; cbn [rule_of]; unfold overlap, twice; auto; try exact Logic.I; try (apply OR; exact O).
  - cbn. destruct (MA n O) as (A & B). split; [exact A|apply B; lia].
  - apply MA. exact O.
  - cbn. destruct (MA n O) as (A & B). split; [exact A|apply B; lia].
  - cbn. destruct (FR p O) as [A|(A & _)]; [auto|discriminate].
  - cbn. destruct (FR p O) as [A|(A & _)]; [auto|discriminate].
  - destruct (FR p O) as [(n & A)|(_ & n & A)]; exists n; apply in_or_app; auto.
  - cbn. apply EX; auto.
  - cbn. apply EX; auto.
Qed.
Lemma play_reach m l s s' : reach (rule_of m) s -> two s -> play m l s = Some s' -> reach (rule_of m) s' /\ two s'.
Proof.
  revert s. induction l as [|[t ch] l IH]; cbn [play]; intros s R T E; [injection E as <-; auto|].
  destruct ((t <? 2)%nat && okb m s ch) eqn:C; [|discriminate E]. apply andb_prop in C. destruct C as (C1 & C2). apply Nat.ltb_lt in C1. destruct (tick t ch s) as [|[s1| | |]] eqn:TK; try discriminate E.
  apply (IH s1); [|eapply tick_two; eassumption|exact E]. eapply r_step; [exact R|apply okb_ok; eassumption|exact TK].
Qed.
Lemma run_fault m l t ch o s : play m l boot = Some s -> okb m s ch = true -> tick t ch s = Go o -> exists s, reach (rule_of m) s /\ rule_of m s ch /\ tick t ch s = Go o.
Proof.
  intros P O TK. destruct (play_reach m l boot s (r_boot _) (fun u _ => eq_refl) P) as (R & T). exists s. split; [exact R|]. split; [apply okb_ok; assumption|exact TK].
Qed.
Definition is_ub (r : res) : bool := match r with Go Ub => true | _ => false end.
Definition is_abrt (r : res) : bool := match r with Go Abrt => true | _ => false end.
Lemma ub_run m l t ch : match play m l boot with Some s => okb m s ch && is_ub (tick t ch s) | None => false end = true -> exists s, reach (rule_of m) s /\ rule_of m s ch /\ tick t ch s = Go Ub.
Proof.
  destruct (play m l boot) as [s|] eqn:P; [|discriminate]. intro H. apply andb_prop in H. destruct H as (A & B). eapply run_fault; [exact P|exact A|]. destruct (tick t ch s) as [|[?| | |]]; try discriminate B. reflexivity.
Qed.
Lemma abrt_run m l t ch : match play m l boot with Some s => okb m s ch && is_abrt (tick t ch s) | None => false end = true -> exists s, reach (rule_of m) s /\ rule_of m s ch /\ tick t ch s = Go Abrt.
Proof.
  destruct (play m l boot) as [s|] eqn:P; [|discriminate]. intro H. apply andb_prop in H. destruct H as (A & B). eapply run_fault; [exact P|exact A|]. destruct (tick t ch s) as [|[?| | |]]; try discriminate B. reflexivity.
Qed.
Definition go (t n : nat) : list (nat * choice) := repeat (t, CGo) n.
(** lcu_malloc(4) by thread t up to hashmap_put; then the rest *)
Definition alloc1 (t : nat) (a e : Z) : list (nat * choice) := [(t, CCall (CMalloc 4)); (t, CBlock a (repeat 0 20)); (t, CGo); (t, CRec e); (t, CGo)].
Definition alloc_all (t : nat) (a e : Z) : list (nat * choice) := alloc1 t a e ++ go t 7.
Definition leak_run : list (nat * choice) := alloc1 0 1000 1 ++ [(1%nat, CCall CExpect); (1%nat, COrder [(1008, 1)])] ++ go 1 2.
Definition leak_run2 : list (nat * choice) := alloc1 0 1000 1 ++ go 0 4 ++ [(1%nat, CCall CExpect); (1%nat, COrder [(1008, 1)])] ++ go 1 2.
Lemma leak_ub : exists s, reach overlap s /\ tick 1 CGo s = Go Ub.
Proof. destruct (ub_run 1 leak_run 1 CGo) as (s & A & _ & B); [vm_compute; reflexivity|]. eauto. Qed.
Lemma leak_abrt : exists s, reach overlap s /\ tick 1 CGo s = Go Abrt.
Proof. destruct (abrt_run 1 leak_run2 1 CGo) as (s & A & _ & B); [vm_compute; reflexivity|]. eauto. Qed.
Definition twice_run : list (nat * choice) := alloc_all 0 1000 1 ++ [(0%nat, CCall (CFree 1008)); (1%nat, CCall (CFree 1008))] ++ go 1 2 ++ go 0 6.
Lemma twice_ub : exists s, reach twice s /\ tick 1 CGo s = Go Ub.
Proof. destruct (ub_run 2 twice_run 1 CGo) as (s & A & _ & B); [vm_compute; reflexivity|]. eauto. Qed.
(** a run within the rules: two threads allocate; one writes, resizes and frees; the other checks meanwhile *)
Definition good_run : list (nat * choice) :=
  alloc1 0 1000 1 ++ alloc1 1 2000 2 ++ go 0 3 ++ go 1 7 ++ go 0 4 ++
  [(0%nat, CWrite 1008 0 [7;8;9;10]); (0%nat, CCall (CRealloc 1008 50))] ++ go 0 3 ++ [(0%nat, CBlock 5000 (repeat 1 2114)); (0%nat, CGo); (0%nat, CRec 3)] ++ go 0 8 ++ go 0 8 ++
  [(1%nat, CCall CExpect); (0%nat, CCall (CFree 5008)); (1%nat, COrder [(5008, 3); (2008, 2)])] ++ go 1 2.
Definition good_run2 : list (nat * choice) := good_run ++ go 1 2 ++ go 1 6.

(** Proofs for C75, part 4: the remaining steps *)
From Verif Require Import CBase CStr SeqLib AllocModel AllocProof AlMtModel AlMtSpec AlMtProof AlMtProof2 AlMtProof3.
Lemma bytes_snoc l p n : bytes_of (l ++ [(p, n)]) = bytes_of l + n.
Proof. induction l as [|[q m] l IH]; cbn; [lia|]. rewrite IH. lia. Qed.
Section Step.
Variables (s : st) (g : ghost) (t : nat).
Hypothesis I : inv s g.
Lemma held_claim p n : List.In (p, n) (held s) -> exists e, g (p - 8) = Some (None, n, SFull e).
Proof. apply (i_held _ _ I). Qed.
Lemma held_ne0 p n : List.In (p, n) (held s) -> p <> 0.
Proof. intros H ->. destruct (held_claim _ _ H) as (e & E). destruct (claim_blk _ _ I _ _ _ _ E) as (A & _). lia. Qed.
(** what is in the map while nobody allocates *)
Lemma stages : (forall u, allocating (pcs s u) = false) -> forall a w n x, g a = Some (w, n, x) -> (exists e, x = SFull e) \/ (exists e, x = SMark e) \/ x = SOut.
Proof.
  intros NA a [u|] n x E; [|left; exact (i_user _ _ I _ _ _ E)]. pose proof (i_own _ _ I _ _ _ _ E) as B. pose proof (i_pc _ _ I u) as P. specialize (NA u).
  destruct (pcs s u) as [|n' k|a' n' k|a' n' e k|a' n' k|a' n' e k|i a' n' e k|p q|p e q|p e q|p e q|p e q|p q|p q|p size|p e size|p e size|p cur a' n'|l|rest sum reps l|e rest sum reps l|e rest sum reps l|e rest sum reps l|q]; cbn in NA; try discriminate; cbn [bases] in B; try contradiction; destruct q; try discriminate; cbn in B; try contradiction; destruct B as [<-|[]]; cbn [pc_ok] in P; destruct P as (P & _).
  - destruct P as (e & m & P & _). rewrite P in E. injection E as <- <-. eauto.
  - destruct P as (m & P & _). rewrite P in E. injection E as <- <-. eauto.
  - destruct P as (m & P & _). rewrite P in E. injection E as <- <-. eauto.
  - destruct P as (m & P & _). rewrite P in E. injection E as <- <-. eauto.
  - destruct P as (m & P). rewrite P in E. injection E as <- <-. eauto.
  - destruct P as (m & e & P). rewrite P in E. injection E as <- <-. eauto.
  - destruct P as (m & P). rewrite P in E. injection E as <- <-. auto.
Qed.
Lemma full_bound : (forall u, allocating (pcs s u) = false) -> forall a w n e, g a = Some (w, n, SFull e) -> List.In (a + 8, n) (held s ++ map snd (lent s)).
Proof.
  intros NA a [u|] n e0 E; apply in_or_app; [right|left; apply (i_held _ _ I); replace (a + 8 - 8) with a by lia; eauto].
  assert (X : List.In (u, (a + 8, n)) (lent s)); [|apply (in_map snd) in X; exact X]. pose proof (i_own _ _ I _ _ _ _ E) as B. pose proof (i_pc _ _ I u) as P. specialize (NA u).
  destruct (pcs s u) as [|n' k|a' n' k|a' n' e k|a' n' k|a' n' e k|i a' n' e k|p q|p e q|p e q|p e q|p e q|p q|p q|p size|p e size|p e size|p cur a' n'|l|rest sum reps l|e rest sum reps l|e rest sum reps l|e rest sum reps l|q]; cbn in NA; try discriminate; cbn [bases] in B; try contradiction; destruct q; try discriminate; cbn in B; try contradiction; destruct B as [<-|[]]; cbn [pc_ok] in P; destruct P as (P & _); replace (p - 8 + 8) with p by lia.
  - destruct P as (e & m & P & Q). rewrite P in E. injection E as <- <-. exact Q.
  - destruct P as (m & P & Q). rewrite P in E. injection E as <- <-. exact Q.
  - destruct P as (m & P & Q). rewrite P in E. injection E as <- <-. exact Q.
  - destruct P as (m & P & Q). rewrite P in E. injection E as <- <-. exact Q.
  - destruct P as (m & P). congruence.
  - destruct P as (m & e & P). congruence.
  - destruct P as (m & P). congruence.
Qed.
(** an entry of the map while nobody allocates *)
Lemma entry : (forall u, allocating (pcs s u) = false) -> forall p e, List.In (p, e) (tmap s) -> exists w n f, recs s e = Some (mk_rec ALLOCTOR_ID n f p) /\ g (p - 8) = Some (w, n, if f then SMark e else SFull e).
Proof.
  intros NA p e H. apply (in_lookup _ _ _ (i_map _ _ I)) in H. pose proof (i_blk _ _ I (p - 8)) as B. pose proof (stages NA (p - 8)) as S. destruct (g (p - 8)) as [[[w n] x]|].
  - cbn in B. destruct B as (A & N & b & _ & _ & F). replace (p - 8 + 8) with p in F by lia. destruct (S _ _ _ eq_refl) as [(e' & ->)|[(e' & ->)| ->]]; cbn in F; replace (p - 8 + 8) with p in F by lia.
    + destruct F as (F1 & F2 & _). assert (e' = e) by congruence. subst e'. exists w, n, false. auto.
    + destruct F as (F1 & F2 & _). assert (e' = e) by congruence. subst e'. exists w, n, true. auto.
    + congruence.
  - cbn in B. replace (p - 8 + 8) with p in B by lia. destruct B. congruence.
Qed.

(** ** a call begins *)
Lemma lend_none : held (lend s t 0) = held s /\ lent (lend s t 0) = lent s.
Proof.
  assert (X : forall l : blocks, (forall p n, List.In (p, n) l -> p <> 0) -> filter (fun x => negb (fst x =? 0)) l = l /\ filter (fun x => fst x =? 0) l = []).
  { induction l as [|[p n] l IH]; cbn; [auto|]. intro Q. destruct (Z.eqb_spec p 0) as [E|_]; [destruct (Q p n (or_introl eq_refl) E)|]. cbn. destruct IH as (A & B); [intros; eapply Q; eauto|]. rewrite A, B. auto. }
  destruct (X (held s) held_ne0) as (A & B). cbn. rewrite A, B. cbn. rewrite app_nil_r. auto.
Qed.
Lemma enter_plain x : pcs s t = Idle -> in_check x = false -> pc_ok g (lent s) (tmap s) (held s) t x ->
  (allocating x = true -> forall u, checking (pcs s u) = false) -> (checking x = true -> forall u, allocating (pcs s u) = false) -> (checking x = true -> allocating x = false) ->
  good (Ret (set_pc (lend s t 0) t x)).
Proof.
  intros PC NX PK AL CH BO. destruct lend_none as (LH & LL). destruct (plain s g t x (set_pc (lend s t 0) t x) I) as (g' & I'); auto; cbn [tmap recs heap held lent lock done set_pc] in *; try rewrite LL; auto.
  - rewrite PC. intros a n y _ [].
  - left. rewrite PC, NX. auto.
  - apply (i_done _ _ I).
  - do 2 eexists. split; [reflexivity|exact I'].
Qed.
Lemma enter_lend p n x : pcs s t = Idle -> List.In (p, n) (held s) -> (x = FGet p [] \/ (exists size, 0 <= size /\ x = RGet p size)) ->
  (allocating x = true -> forall u, checking (pcs s u) = false) -> good (Ret (set_pc (lend s t p) t x)).
Proof.
  intros PC H X AL. destruct (held_claim _ _ H) as (e & G). destruct (claim_blk _ _ I _ _ _ _ G) as (A & N & b & B).
  assert (NI : in_check x = false /\ checking x = false /\ bases x = [p - 8]) by (destruct X as [->|(z & _ & ->)]; auto). destruct NI as (NI & NC & BX).
  assert (LI : List.In (t, (p, n)) (lent (lend s t p))). { cbn. apply in_or_app. right. apply in_map. apply filter_In. cbn. rewrite Z.eqb_refl. auto. }
  do 2 eexists. split; [reflexivity|]. apply move_inv with (s := s) (t := t) (a0 := p - 8) (v := Some (Some t, n, SFull e)) (x := x); [exact I|]. split; auto; try rewrite NC; try discriminate; try rewrite G; cbn [crec rec_of].
  - cbn. split; [exact A|]. split; [exact N|]. exists b. exact B.
  - auto.
  - intros e' R. destruct (Z.eq_dec e e') as [->|NE]; [auto|left]. split; [exact R|congruence].
  - intros u m y E. discriminate.
  - intros u m y E. injection E as <- <- <-. rewrite BX. cbn. auto.
  - rewrite PC. intros a [].
  - destruct X as [->|(z & Hz & ->)]; cbn [pc_ok].
    + split; [|split; [exact Logic.I|auto]]. exists e, n. rewrite gset_eq. auto.
    + split; [exact Hz|]. exists e, n. rewrite gset_eq. auto.
  - intros p' n'. cbn. rewrite filter_In. cbn. destruct (Z.eqb_spec (p' - 8) (p - 8)) as [E|E].
    + assert (p' = p) by lia. subst p'. rewrite Z.eqb_refl. split; [intros (_ & Q); discriminate|intros (? & Q); discriminate].
    + destruct (Z.eqb_spec p' p); [lia|]. tauto.
  - cbn. apply filter_nodup, (i_nd _ _ I).
  - intros u y _ Q. cbn. apply in_or_app. auto.
  - apply (i_map _ _ I).
  - left. rewrite PC, NI. auto.
  - intros u _ _ w m e' E. injection E as <- <- <-. eauto.
  - intros u _ _ y Y. cbn in Y. apply filter_In in Y. apply Y.
  - intros u _ _ w m e' y E Y. injection E as <- <- <-. exists (Some t), (SFull e). split; [reflexivity|]. exact Y.
  - apply (i_done _ _ I).
Qed.
Lemma case_call c : pcs s t = Idle -> allowed s c -> good (Ret (set_pc (lend s t (given c)) t (enter c (held s ++ map snd (lent s))))).
Proof.
  intros PC AC. destruct c as [n|p|p size|]; cbn [given enter].
  - destruct AC as (N & C). apply enter_plain; auto; try discriminate. cbn. lia.
  - destruct AC as [->|(n & H)]; [rewrite Z.eqb_refl; apply enter_plain; auto; try discriminate; exact Logic.I|]. destruct (Z.eqb_spec p 0) as [E|_]; [destruct (held_ne0 _ _ H E)|].
    apply enter_lend with n; auto. discriminate.
  - destruct AC as (N & [->|(n & H)] & C).
    + rewrite Z.eqb_refl. destruct (size =? 0); apply enter_plain; auto; try discriminate; cbn; auto. lia.
    + destruct (Z.eqb_spec p 0) as [E|_]; [destruct (held_ne0 _ _ H E)|]. destruct (size =? 0); apply enter_lend with n; auto. right. exists size. split; [lia|reflexivity].
  - apply enter_plain; auto; try discriminate. cbn. apply full_bound. exact AC.
Qed.
(** ** a call ends *)
Lemma case_out q : pcs s t = Out q -> good (Ret (set_pc (back s t q) t Idle)).
Proof.
  intro PC. pose proof (i_pc _ _ I t) as P. rewrite PC in P. cbn in P.
  assert (LE : forall u y, u <> t -> List.In (u, y) (lent s) -> List.In (u, y) (lent (set_pc (back s t q) t Idle))).
  { intros u y N H. cbn. apply filter_In. split; [exact H|]. cbn. destruct (Nat.eqb_spec u t); [contradiction|reflexivity]. }
  destruct q as [|[p n] [|? ?]]; [| |contradiction].
  - destruct (plain s g t Idle (set_pc (back s t []) t Idle) I) as (g' & I'); auto; cbn [allocating checking]; try discriminate.
    + cbn. apply app_nil_r.
    + rewrite PC. intros a n y _ B. exact B.
    + left. rewrite PC. auto.
    + apply (i_done _ _ I).
    + do 2 eexists. split; [reflexivity|exact I'].
  - destruct P as (e & G). destruct (claim_blk _ _ I _ _ _ _ G) as (A & N & b & B).
    assert (XC : forall u, checking (pcs s u) = true -> False). { intros u C. pose proof (i_excl _ _ I u t C) as X. rewrite PC in X. discriminate. }
    do 2 eexists. split; [reflexivity|]. apply move_inv with (s := s) (t := t) (a0 := p - 8) (v := Some (None, n, SFull e)) (x := Idle); [exact I|]. split; auto; cbn [allocating checking]; try discriminate; try rewrite G; cbn [crec rec_of].
    + cbn. split; [exact A|]. split; [exact N|]. exists b. exact B.
    + auto.
    + intros e' R. destruct (Z.eq_dec e e') as [->|NE]; [auto|left]. split; [exact R|congruence].
    + intros u m y E. congruence.
    + intros m y E. injection E as <- <-. eauto.
    + rewrite PC. cbn. intros a [E|[]] NE. congruence.
    + cbn. exact Logic.I.
    + intros p' n'. cbn. rewrite in_app_iff. cbn. destruct (Z.eqb_spec (p' - 8) (p - 8)) as [E|E].
      * assert (p' = p) by lia. subst p'. split.
        -- intros [Q|[Q|[]]]; [destruct (held_claim _ _ Q) as (e' & Q'); congruence|]. injection Q as <-. eauto.
        -- intros (e' & Q). injection Q as <- <-. auto.
      * split; [|auto]. intros [Q|[Q|[]]]; [exact Q|]. injection Q as <- <-. lia.
    + cbn. rewrite map_app. cbn. apply NoDup_app_2 || idtac.
      assert (NI : ~ List.In p (map fst (held s))). { intro Q. apply in_map_iff in Q. destruct Q as ([p' m] & E & Q). cbn in E. subst p'. destruct (held_claim _ _ Q) as (e' & Q'). congruence. }
      eapply Permutation_NoDup; [apply Permutation_cons_append|]. constructor; [exact NI|apply (i_nd _ _ I)].
    + apply (i_map _ _ I).
    + left. rewrite PC. auto.
    + intros u _ C. destruct (XC u C).
    + intros u _ C. destruct (XC u C).
    + intros u _ L. apply (i_lock _ _ I) in L. apply in_check_checking in L. destruct (XC u L).
    + apply (i_done _ _ I).
Qed.
(** ** the program writes into a block it holds *)
Lemma case_write p n off bytes : pcs s t = Idle -> List.In (p, n) (held s) -> 0 <= off -> off + zlen bytes <= n ->
  exists b b', heap s (p - 8) = Some b /\ mwrite b (8 + off) bytes = Ret b' /\ good (Ret (set_heap s (p - 8) (Some b'))).
Proof.
  intros PC H H0 H1. destruct (held_claim _ _ H) as (e & G). destruct (claim_blk _ _ I _ _ _ _ G) as (A & N & b & B1 & B2 & B3 & B4 & B5).
  destruct (sealed_write b n off bytes B5 H0 H1) as (b' & W & SE). exists b, b'. split; [exact B1|]. split; [exact W|]. do 2 eexists. split; [reflexivity|].
  apply move_inv with (s := s) (t := t) (a0 := p - 8) (v := Some (None, n, SFull e)) (x := Idle); [exact I|]. split; auto; cbn [allocating checking]; try discriminate; try rewrite G; cbn [crec rec_of].
  - intro u. cbn. destruct (Nat.eqb_spec u t) as [->|]; [exact PC|reflexivity].
  - intros a NA. cbn. rewrite zset_ne by exact NA. reflexivity.
  - cbn [blk_ok facts heap set_heap]. split; [exact A|]. split; [exact N|]. exists b'. rewrite zset_eq. split; [reflexivity|]. split; [apply sealed_len; exact SE|]. auto.
  - auto.
  - intros e' R. destruct (Z.eq_dec e e') as [->|NE]; [auto|left]. split; [exact R|congruence].
  - intros u m y E. discriminate E.
  - intros m y E. injection E as <- <-. eauto.
  - rewrite PC. intros a [].
  - exact Logic.I.
  - intros p' n'. cbn [held set_heap]. destruct (Z.eqb_spec (p' - 8) (p - 8)) as [E|E]; [|tauto]. assert (p' = p) by lia. subst p'. split.
    + intro Q. destruct (held_claim _ _ Q) as (e' & Q'). rewrite G in Q'. injection Q' as <- <-. eauto.
    + intros (e' & Q). injection Q as <- <-. exact H.
  - apply (i_nd _ _ I).
  - apply (i_map _ _ I).
  - left. rewrite PC. auto.
  - intros u _ _ w m e' E. injection E as <- <- <-. eauto.
  - intros. apply incl_refl.
  - intros u _ _ w m e' y E Y. injection E as <- <- <-. exists None, (SFull e). split; [reflexivity|]. exact Y.
  - apply (i_done _ _ I).
Qed.
(** ** the leak check *)
Lemma case_order l o : pcs s t = EWait l -> lock s = None -> Permutation o (tmap s) -> good (Ret (set_pc (set_lock s (Some t)) t (EFreed o 0 [] l))).
Proof.
  intros PC LK PE. pose proof (i_pc _ _ I t) as P. rewrite PC in P. cbn in P. pl PC.
  - cbn. split; [|reflexivity]. split; [exact P|]. split; [intros x Hx; eapply Permutation_in; eassumption|]. split; [|split].
    + cbn. eapply Permutation_NoDup; [symmetry; apply Permutation_map; exact PE|apply (i_map _ _ I)].
    + intros x [].
    + intros p n H. right. destruct (held_claim _ _ H) as (e & G). destruct (full_of _ _ I _ _ _ _ G) as (_ & LO & _). apply lookup_in in LO. apply (Permutation_in _ (Permutation_sym PE)) in LO. apply (in_map fst) in LO. exact LO.
  - apply (i_done _ _ I).
Qed.
Lemma none_allocating x : pcs s t = x -> checking x = true -> forall u, allocating (pcs s u) = false.
Proof. intros PC C u. apply (i_excl _ _ I t u). rewrite PC. exact C. Qed.
Lemma case_visit p e rest sum reps l : pcs s t = EFreed ((p, e) :: rest) sum reps l ->
  exists r, recs s e = Some r /\ good (Ret (set_pc s t (if r_freed r then EFreed rest sum reps l else ESize e rest sum reps l))).
Proof.
  intros PC. pose proof (i_pc _ _ I t) as P. rewrite PC in P. cbn [pc_ok] in P. destruct P as ((A & B & C & D & F) & SU).
  destruct (entry (none_allocating _ PC eq_refl) p e) as (w & n & f & R & G); [apply B; left; reflexivity|]. eexists. split; [exact R|]. cbn [r_freed]. cbn [app map fst] in *. rewrite !app_nil_r in *. destruct f; pl PC.
  - cbn [pc_ok]. split; [|exact SU]. split; [exact A|]. split; [intros x Hx; apply B; right; exact Hx|]. rewrite app_nil_r. split; [apply NoDup_remove_1 in C; exact C|]. split; [exact D|].
    intros p' n' H. destruct (F p' n' H) as [Q|[Q|Q]]; auto. cbn in Q. subst p'. destruct (held_claim _ _ H) as (e' & Q). congruence.
  - apply (i_done _ _ I).
  - cbn [pc_ok]. exists p, n. split; [exists w, (SFull e); auto|]. split; [|exact SU]. split; [exact A|]. split; [intros x Hx; apply B; right; exact Hx|]. split; [|split].
    + rewrite map_app. cbn. rewrite <- app_assoc. exact C.
    + intros x Hx. apply in_app_or in Hx. destruct Hx as [Hx|[<-|[]]]; [apply D; exact Hx|]. apply A in G. replace (p - 8 + 8) with p in G by lia. exact G.
    + intros p' n' H. rewrite in_app_iff. destruct (F p' n' H) as [Q|[Q|Q]]; auto. cbn in Q. subst p'. left. right. left. destruct (held_claim _ _ H) as (e' & Q). rewrite G in Q. injection Q as _ <- _. reflexivity.
  - apply (i_done _ _ I).
Qed.
Lemma looked_rec p n e : looked g p n e -> 0 <= n /\ (exists f, recs s e = Some (mk_rec ALLOCTOR_ID n f p)) /\ exists b, heap s (p - 8) = Some b /\ sealed b n.
Proof.
  intros (w & x & G & [-> | ->]).
  - destruct (full_of _ _ I _ _ _ _ G) as (N & _ & R & B). eauto.
  - destruct (mark_of _ _ I _ _ _ _ G) as (N & _ & R & B). eauto.
Qed.
Lemma case_esize e rest sum reps l : pcs s t = ESize e rest sum reps l -> exists r, recs s e = Some r /\ good (Ret (set_pc s t (ECheck e rest (u64 (sum + r_size r)) reps l))).
Proof.
  intros PC. pose proof (i_pc _ _ I t) as P. rewrite PC in P. cbn [pc_ok] in P. destruct P as (p & n & L & E & SU). destruct (looked_rec _ _ _ L) as (N & (f & R) & _). eexists. split; [exact R|]. cbn [r_size]. pl PC.
  - exists p, n. split; [exact L|]. split; [exact E|]. rewrite bytes_snoc, SU. unfold u64. clear. rewrite Zplus_mod_idemp_l. reflexivity.
  - apply (i_done _ _ I).
Qed.
Lemma case_echeck e rest sum reps l : pcs s t = ECheck e rest sum reps l -> exists r, recs s e = Some r /\ check s r = Ret tt /\ good (Ret (set_pc s t (EReport e rest sum reps l))).
Proof.
  intros PC. pose proof (i_pc _ _ I t) as P. rewrite PC in P. cbn [pc_ok] in P. destruct P as (p & n & L & E & SU). destruct (looked_rec _ _ _ L) as (N & (f & R) & b & H & SE). eexists. split; [exact R|]. split.
  - unfold check. cbn [r_ptr r_size]. change canary_size with 8. rewrite H. apply sealed_check; assumption.
  - pl PC; [|apply (i_done _ _ I)]. exists p, n. auto.
Qed.
Lemma case_ereport e rest sum reps l : pcs s t = EReport e rest sum reps l -> exists r, recs s e = Some r /\ good (Ret (set_pc s t (EFreed rest sum (reps ++ [(r_ptr r, r_size r)]) l))).
Proof.
  intros PC. pose proof (i_pc _ _ I t) as P. rewrite PC in P. cbn [pc_ok] in P. destruct P as (p & n & L & E & SU). destruct (looked_rec _ _ _ L) as (N & (f & R) & b & H & SE). eexists. split; [exact R|]. cbn [r_ptr r_size].
  pl PC; [|apply (i_done _ _ I)]. split; [|exact SU]. unfold ecore in *. rewrite app_nil_r. exact E.
Qed.
Lemma case_eend sum reps l : pcs s t = EFreed [] sum reps l -> good (Ret (add_done (set_pc (set_lock s None) t (Out [])) (mk_report l (held s) reps sum))).
Proof.
  intros PC. pose proof (i_pc _ _ I t) as P. rewrite PC in P. cbn [pc_ok] in P. destruct P as ((A & B & C & D & F) & SU). rewrite !app_nil_r in *.
  pl PC.
  - exact Logic.I.
  - right. right. split; [|auto]. apply (i_lock _ _ I). rewrite PC. reflexivity.
  - cbn. apply Forall_app. split; [apply (i_done _ _ I)|]. constructor; [|constructor]. split; [|split; [exact D|split; [|exact SU]]].
    + intros [p n] H. cbn. destruct (F p n H) as [Q|[]]; exact Q.
    + cbn. exact C.
Qed.
End Step.

(** ** every step *)
Ltac unl := unfold unlocked in *.
Lemma step_good s g t ch o : inv s g -> fits s ch -> tick t ch s = Go o -> good o.
Proof.
  intros I FI TK. unfold tick in TK. change canary_size with 8 in TK. pose proof (i_pc _ _ I t) as P. pose proof (i_done _ _ I) as DO.
  destruct (pcs s t) as [|n k|a n k|a n e k|a n k|a n e k|i a n e k|p q|p e q|p e q|p e q|p e q|p q|p q|p size|p e size|p e size|p cur a n|l|rest sum reps l|e rest sum reps l|e rest sum reps l|e rest sum reps l|q] eqn:PC; destruct ch as [c|a' bytes| |e'|ord| |pw off bytes]; try discriminate TK; try (destruct rest as [|[pr er] rest]; discriminate TK); unfold unlocked, with_rec in TK; cbn [pc_ok] in P.
  - injection TK as <-. apply case_call with g; assumption.
  - injection TK as <-. destruct FI as (n & H & H0 & H1). destruct (case_write s g t I pw n off bytes PC H H0 H1) as (b & b' & Q1 & Q2 & Q3). rewrite Q1, Q2. exact Q3.
  - destruct (heap s a') eqn:H; [discriminate|]. destruct (0 <? a') eqn:H1; [|discriminate]. destruct (zlen bytes =? n + 16) eqn:H2; [|discriminate]. injection TK as <-. apply Z.ltb_lt in H1. apply Z.eqb_eq in H2. eapply case_block; eauto.
  - injection TK as <-. pl PC.
    + destruct P as (P0 & P). destruct k as [[p c]|]; cbn; [|auto]. cbn in P. destruct P as (P & _). exact P.
    + intros a m y _. destruct k as [[p c]|]; cbn; auto.
  - destruct (lock s); [discriminate|]. destruct P as (G & K). destruct (claim_blk _ _ I _ _ _ _ G) as (_ & _ & b & _ & _ & F). cbn in F. rewrite F in TK. injection TK as <-. pl PC. split; assumption.
  - destruct P.
  - destruct (recs s e') eqn:R; [discriminate|]. injection TK as <-. eapply case_new; eauto.
  - destruct (lock s) eqn:LK; [discriminate|]. injection TK as <-. eapply case_put; eauto.
  - destruct (Nat.ltb_spec i 4) as [LT|GE].
    + destruct (case_field s g t I i a n e k PC LT) as (r & R & Q). rewrite R in TK. injection TK as <-. exact Q.
    + destruct (Nat.eqb_spec i 4) as [->|N4].
      * destruct (case_front s g t I a n e k PC) as (b & b' & Q1 & Q2 & Q3). rewrite Q1, Q2 in TK. injection TK as <-. exact Q3.
      * assert (i = 5%nat) by lia. subst i. destruct (case_back s g t I a n e k PC) as (b & b' & Q1 & Q2 & Q3). rewrite Q1, Q2 in TK. injection TK as <-. exact Q3.
  - destruct (lock s); [discriminate|]. destruct P as ((e & n & G & LE) & GK). destruct (full_of _ _ I _ _ _ _ G) as (_ & LO & _). rewrite LO in TK. injection TK as <-. pl PC. split; [exists n; auto|exact GK].
  - destruct P as ((n & G & LE) & GK). destruct (full_of _ _ I _ _ _ _ G) as (_ & _ & R & _). rewrite R in TK. cbn in TK. injection TK as <-. pl PC.
    + split; [exists n; auto|exact GK].
  - destruct P as ((n & G & LE) & GK). destruct (full_of _ _ I _ _ _ _ G) as (_ & _ & R & _). rewrite R in TK. cbn [r_id] in TK. rewrite Z.eqb_refl in TK. injection TK as <-. pl PC.
    split; [exists n; auto|exact GK].
  - destruct (case_mark s g t I p e q PC) as (r & R & Q). rewrite R in TK. injection TK as <-. exact Q.
  - destruct P as ((n & G) & GK). destruct (mark_of _ _ I _ _ _ _ G) as (N & _ & R & b & H & SE). rewrite R in TK. unfold check in TK. cbn [r_ptr r_size] in TK. change canary_size with 8 in TK. rewrite H, (sealed_check _ _ N SE) in TK. cbn [bind] in TK. injection TK as <-. pl PC.
    split; [exists n, e; exact G|exact GK].
  - destruct (lock s) eqn:LK; [discriminate|]. destruct (case_remove s g t I p q PC LK) as (e & r & Q1 & Q2 & Q3). rewrite Q1, Q2 in TK. injection TK as <-. exact Q3.
  - destruct (case_free s g t I p q PC) as (b & Q1 & Q2). rewrite Q1 in TK. injection TK as <-. exact Q2.
  - destruct (lock s); [discriminate|]. destruct P as (N & e & n & G & LE). destruct (full_of _ _ I _ _ _ _ G) as (_ & LO & _). rewrite LO in TK. injection TK as <-. pl PC. split; [exact N|]. exists n. auto.
  - destruct P as (N & n & G & LE). destruct (full_of _ _ I _ _ _ _ G) as (_ & _ & R & _). rewrite R in TK. cbn [r_id] in TK. rewrite Z.eqb_refl in TK. injection TK as <-. pl PC. split; [exact N|]. exists n. auto.
  - destruct P as (N & n & G & LE). destruct (full_of _ _ I _ _ _ _ G) as (N1 & _ & R & _). rewrite R in TK. cbn [r_size] in TK. destruct (negb (n =? 0) && (size <=? n)) eqn:CO; injection TK as <-; pl PC.
    + cbn. exists e. exact G.
    + cbn. split; [lia|]. split; [exists e; exact G|]. split; [exact LE|]. apply Bool.andb_false_iff in CO. destruct CO as [CO|CO]; [apply Bool.negb_false_iff, Z.eqb_eq in CO; lia|apply Z.leb_gt in CO; lia].
  - destruct (case_copy s g t I p cur a n PC) as (b & b' & by_ & b2 & Q1 & Q2 & Q3 & Q4 & Q5). rewrite Q1, Q2, Q3 in TK. cbn [bind] in TK. rewrite Q4 in TK. injection TK as <-. exact Q5.
  - destruct (lock s) eqn:LK; [discriminate|]. injection TK as <-. eapply case_order; eauto.
  - destruct rest as [|[pr er] rest].
    + injection TK as <-. eapply case_eend; eauto.
    + destruct (case_visit s g t I pr er rest sum reps l PC) as (r & R & Q). rewrite R in TK. injection TK as <-. exact Q.
  - destruct (case_esize s g t I e rest sum reps l PC) as (r & R & Q). rewrite R in TK. injection TK as <-. exact Q.
  - destruct (case_echeck s g t I e rest sum reps l PC) as (r & R & C & Q). rewrite R, C in TK. injection TK as <-. exact Q.
  - destruct (case_ereport s g t I e rest sum reps l PC) as (r & R & Q). rewrite R in TK. injection TK as <-. exact Q.
  - injection TK as <-. eapply case_out; eauto.
Qed.
Lemma boot_inv : inv boot (fun _ => None).
Proof. split; cbn; try discriminate; try (intros; exact Logic.I); auto; try (constructor; fail); try (intros; split; [contradiction|intros (? & ?); discriminate]); try (intros; split; discriminate); intros; congruence. Qed.
Lemma reach_inv s : reach fits s -> exists g, inv s g.
Proof.
  induction 1 as [|s t ch s' R (g & I) F TK]; [exists (fun _ => None); exact boot_inv|]. destruct (step_good s g t ch (Ret s') I F TK) as (s2 & g' & E & I'). injection E as <-. eauto.
Qed.

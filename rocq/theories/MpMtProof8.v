(** Proofs for C77, part 8: calls return; concrete runs *)
From Verif Require Import CBase SeqLib MpliteModel MpliteSpec MpliteProof5 MpliteProof6 MpMtModel MpMtSpec MpMtProof MpMtProof2 MpMtProof4 MpMtProof5 MpMtProof6 MpMtProof7.

Lemma later_trans s s1 s2 : later s s1 -> later s1 s2 -> later s s2.
Proof. induction 1; intro L; [exact L|econstructor; eauto]. Qed.
Lemma later_1 s t s1 : tick true t Go s = Yes (Ret s1) -> later s s1.
Proof. intro T. econstructor; [exact T|constructor]. Qed.
(** one step of a thread: what it does to the others *)
Lemma tick_pc locked t ch s s' : tick locked t ch s = Yes (Ret s') -> forall u, u <> t -> pcs s' u = pcs s u.
Proof.
  intros T u N. unfold tick in T.
  assert (PK : forall p off bytes s1, poke s t p off bytes = Ret s1 -> pcs s1 = pcs s) by (intros p off bytes s1 P; unfold poke in P; apply bind_inv in P as (m & _ & P); injection P as <-; reflexivity).
  assert (GO : forall s0 x, pcs s0 = pcs s -> pcs (go s0 t x) u = pcs s u) by (intros s0 x E; cbn [go pcs]; rewrite upd_pc_ne by exact N; rewrite E; reflexivity).
  destruct (pcs s t) as [|c|c old|c old b|q m j|c r]; destruct ch as [c'|p off bytes|]; try discriminate T; try (destruct b; discriminate T).
  - assert (enter s t c' = s') as <- by congruence. clear T. unfold enter. destruct c'; try (apply GO; reflexivity); try (destruct (m <=? 0); apply GO; reflexivity); destruct (bad_size m); apply GO; reflexivity.
  - assert (T' : poke s t p off bytes = Ret s') by congruence. rewrite (PK _ _ _ _ T'). reflexivity.
  - assert (T' : (do old <- mplite_size (obj s) (match ptr_of c with Some p => p | None => 0 end); Ret (sized s t c old)) = Ret s') by congruence. clear T. apply bind_inv in T' as (old & _ & X). assert (sized s t c old = s') as <- by congruence. clear X.
    unfold sized. destruct c; try (apply GO; reflexivity). destruct (m <=? old); apply GO; reflexivity.
  - destruct (holder s), locked; try discriminate T; assert (forall x, Yes (Ret x) = Yes (Ret s') -> x = s') as X by (intros; congruence); apply X in T; subst s'; apply GO; reflexivity.
  - assert (D : (exists r, b = Done r) \/ forall r, b <> Done r) by (destruct b; [left; eexists; reflexivity|right; intros r X; discriminate X ..]).
    destruct D as [(r & ->)|ND].
    + assert (forall x, Yes (Ret x) = Yes (Ret s') -> x = s') as X by (intros; congruence). apply X in T. subst s'. apply GO; reflexivity.
    + assert (T' : Yes (do (o, b') <- exec (obj s) b; Ret (go (set_obj s o) t (In c old b'))) = Yes (Ret s')) by (rewrite <- T; destruct b; try reflexivity; exfalso; exact (ND _ eq_refl)).
      assert (T2 : (do (o, b') <- exec (obj s) b; Ret (go (set_obj s o) t (In c old b'))) = Ret s') by congruence. apply bind_inv in T2 as ((o & b') & _ & X). assert (go (set_obj s o) t (In c old b') = s') as <- by congruence. apply GO; reflexivity.
  - destruct (j <? m).
    + assert (T2 : (do s0 <- poke s t q j [0]; Ret (go s0 t (Fill q m (j + 1)))) = Ret s') by congruence. apply bind_inv in T2 as (s1 & P & X). assert (go s1 t (Fill q m (j + 1)) = s') as <- by congruence. apply GO. apply (PK _ _ _ _ P).
    + assert (go s t (Out (CCalloc m) (RPtr (Some q))) = s') as <- by congruence. apply GO; reflexivity.
  - assert (forall x, Yes (Ret x) = Yes (Ret s') -> x = s') as X by (intros; congruence). apply X in T. subst s'. apply GO; reflexivity.
Qed.
Lemma go_ok k h0 s hl t o : Inv k h0 s hl -> tick true t Go s = Yes o -> exists s' hl', o = Ret s' /\ Inv k h0 s' hl'.
Proof. intros I T. apply (inv_tick k h0 s hl t Go o I Logic.I T). Qed.
(** the thread with the lock comes to give it back *)
Lemma in_ends k h0 t c old G GC b : forall s hl o he r, Inv k h0 s hl -> pcs s t = In c old b -> obj s = o -> ends G GC b o he r -> exists s' hl', later s s' /\ Inv k h0 s' hl' /\ exists r', pcs s' t = In c old (Done r') /\ pcs s' t <> Idle.
Proof.
  assert (ST : forall s hl b, Inv k h0 s hl -> pcs s t = In c old b -> (forall r, b <> Done r) -> exists o b', exec (obj s) b = Ret (o, b') /\ tick true t Go s = Yes (Ret (go (set_obj s o) t (In c old b'))) /\ Inv k h0 (go (set_obj s o) t (In c old b')) hl).
  { intros s hl b0 I E ND. destruct (inv_in k h0 s hl t c old b0 I E ND) as (o & b' & EX & J). exists o, b'. split; [exact EX|]. split; [|exact J]. unfold tick. rewrite E. destruct b0; try (rewrite EX; reflexivity). exfalso. exact (ND _ eq_refl). }
  assert (NX : forall s hl b o he r, Inv k h0 s hl -> pcs s t = In c old b -> obj s = o -> ends G GC b o he r -> (forall r, b <> Done r) ->
    exists o' b', exec o b = Ret (o', b') /\ ends G GC b' o' he r /\ tick true t Go s = Yes (Ret (go (set_obj s o') t (In c old b'))) /\ Inv k h0 (go (set_obj s o') t (In c old b')) hl).
  { intros s hl b0 o he r I E EO W ND. destruct (ST s hl b0 I E ND) as (o' & b' & EX & T & J). exists o', b'. rewrite EO in EX. split; [exact EX|]. split; [|split; [exact T|exact J]].
    destruct (wp_step _ _ _ _ _ W) as [(a & -> & _)|(o2 & b2 & EX2 & W2 & _)]; [exfalso; exact (ND a eq_refl)|]. rewrite EX in EX2. injection EX2 as <- <-. exact W2. }
  assert (K : forall s b s1, tick true t Go s = Yes (Ret s1) -> pcs s1 t = In c old b -> (exists s' hl', later s1 s' /\ Inv k h0 s' hl' /\ exists r', pcs s' t = In c old (Done r') /\ pcs s' t <> Idle) -> exists s' hl', later s s' /\ Inv k h0 s' hl' /\ exists r', pcs s' t = In c old (Done r') /\ pcs s' t <> Idle).
  { intros s b0 s1 T _ (s' & hl' & L & X). exists s', hl'. split; [|exact X]. eapply later_trans; [eapply later_1; exact T|exact L]. }
  assert (PG : forall s o b', pcs (go (set_obj s o) t (In c old b')) t = In c old b') by (intros; cbn [go pcs]; apply upd_pc_eq).
  induction b; intros sx hl o he r I E EO W.
  1: { exists sx, hl. split; [constructor|]. split; [exact I|]. exists a. split; [exact E|]. rewrite E. discriminate. }
  all: try (destruct (NX sx hl _ o he r I E EO W) as (o' & b' & EX & W' & T & J); [intros ? X; discriminate X|]).
  all: cbn [exec] in EX.
  - apply bind_inv in EX as (v & _ & X). injection X as <- <-. eapply K; [exact T|apply PG|]. eapply H; [exact J|apply PG|reflexivity|exact W'].
  - apply bind_inv in EX as (v' & _ & X). injection X as <- <-. eapply K; [exact T|apply PG|]. eapply IHb; [exact J|apply PG|reflexivity|exact W'].
  - apply bind_inv in EX as (v & _ & X). injection X as <- <-. eapply K; [exact T|apply PG|]. eapply H; [exact J|apply PG|reflexivity|exact W'].
  - apply bind_inv in EX as (v' & _ & X). injection X as <- <-. eapply K; [exact T|apply PG|]. eapply IHb; [exact J|apply PG|reflexivity|exact W'].
  - apply bind_inv in EX as (v & _ & X). injection X as <- <-. eapply K; [exact T|apply PG|]. eapply H; [exact J|apply PG|reflexivity|exact W'].
  - apply bind_inv in EX as (v' & _ & X). injection X as <- <-. eapply K; [exact T|apply PG|]. eapply IHb; [exact J|apply PG|reflexivity|exact W'].
  - apply bind_inv in EX as (v & _ & X). injection X as <- <-. eapply K; [exact T|apply PG|]. eapply H; [exact J|apply PG|reflexivity|exact W'].
  - apply bind_inv in EX as (v' & _ & X). injection X as <- <-. eapply K; [exact T|apply PG|]. eapply IHb; [exact J|apply PG|reflexivity|exact W'].
  - injection EX as <- <-. eapply K; [exact T|apply PG|]. eapply H; [exact J|apply PG|reflexivity|exact W'].
  - injection EX as <- <-. eapply K; [exact T|apply PG|]. eapply IHb; [exact J|apply PG|reflexivity|exact W'].
  - discriminate EX.
Qed.
(** a thread that is through comes home *)
Lemma out_home k h0 s hl t c r : Inv k h0 s hl -> pcs s t = Out c r -> exists s' hl', later s s' /\ Inv k h0 s' hl' /\ pcs s' t = Idle /\ holder s' = holder s.
Proof.
  intros I E. destruct (go_ok k h0 s hl t (Ret (go (say s (LRet t c r)) t Idle)) I) as (s' & hl' & X & J); [unfold tick; rewrite E; reflexivity|]. injection X as <-.
  eexists _, hl'. split; [eapply later_1; unfold tick; rewrite E; reflexivity|]. split; [exact J|]. split; [cbn [go pcs]; apply upd_pc_eq|reflexivity].
Qed.
Lemma fill_home k h0 t q m : forall n s hl j, Inv k h0 s hl -> pcs s t = Fill q m j -> (Z.to_nat (m - j) = n)%nat -> exists s' hl', later s s' /\ Inv k h0 s' hl' /\ pcs s' t = Idle /\ holder s' = holder s.
Proof.
  induction n as [|n IH]; intros s hl j I E N.
  - assert (L : (j <? m) = false) by lia. assert (T : tick true t Go s = Yes (Ret (go s t (Out (CCalloc m) (RPtr (Some q)))))) by (unfold tick; rewrite E, L; reflexivity).
    destruct (go_ok _ _ _ _ _ _ I T) as (s1 & hl1 & X & J). assert (s1 = go s t (Out (CCalloc m) (RPtr (Some q)))) as -> by congruence.
    destruct (out_home _ _ _ _ t (CCalloc m) (RPtr (Some q)) J) as (s' & hl' & A & B & D & F); [cbn [go pcs]; apply upd_pc_eq|]. exists s', hl'. split; [eapply later_trans; [eapply later_1; exact T|exact A]|]. auto.
  - assert (L : (j <? m) = true) by lia. destruct (go_ok k h0 s hl t (do s0 <- poke s t q j [0]; Ret (go s0 t (Fill q m (j + 1)))) I) as (s1 & hl1 & X & J); [unfold tick; rewrite E, L; reflexivity|].
    assert (T : tick true t Go s = Yes (Ret s1)) by (unfold tick; rewrite E, L; congruence). apply bind_inv in X as (s0 & P & X). unfold poke in P. apply bind_inv in P as (m0 & _ & P).
    destruct (IH s1 hl1 (j + 1) J) as (s' & hl' & A & B & D & F).
    + assert (go s0 t (Fill q m (j + 1)) = s1) as <- by congruence. cbn [go pcs]. apply upd_pc_eq.
    + lia.
    + exists s', hl'. split; [eapply later_trans; [eapply later_1; exact T|exact A]|]. split; [exact B|]. split; [exact D|]. rewrite F. assert (go s0 t (Fill q m (j + 1)) = s1) as <- by congruence. cbn [go holder]. injection P as <-. reflexivity.
Qed.
Lemma in_home k h0 s hl t c old b : Inv k h0 s hl -> pcs s t = In c old b -> exists s' hl', later s s' /\ Inv k h0 s' hl' /\ pcs s' t = Idle /\ holder s' = None.
Proof.
  intros I E. pose proof (i_hold _ _ _ _ I) as H. destruct (holder s) as [t0|]; [|exfalso; apply (proj2 H t); rewrite E; exact Logic.I].
  destruct H as (H & c0 & old0 & b0 & he & r & E0 & W & _). destruct (Nat.eq_dec t t0) as [<-|NE]; [|exfalso; apply (H t NE); rewrite E; exact Logic.I].
  rewrite E in E0. injection E0 as <- <- <-. destruct (in_ends k h0 t c old _ _ b s hl _ he r I E eq_refl W) as (s1 & hl1 & L1 & I1 & r1 & E1 & _).
  assert (T : tick true t Go s1 = Yes (Ret (go (point (set_holder s1 None) t c r1) t (leave c r1)))) by (unfold tick; rewrite E1; reflexivity).
  pose proof (inv_leave _ _ _ _ _ _ _ _ I1 E1) as I2. set (s2 := go (point (set_holder s1 None) t c r1) t (leave c r1)) in *. assert (E2 : pcs s2 t = leave c r1) by (cbn [s2 go pcs]; apply upd_pc_eq). assert (H2 : holder s2 = None) by reflexivity.
  assert (X : exists s' hl', later s2 s' /\ Inv k h0 s' hl' /\ pcs s' t = Idle /\ holder s' = holder s2).
  { destruct (leave c r1) as [|c2|c2 old2|c2 old2 b2|q m j|c2 r2] eqn:LV; try (exfalso; destruct c; cbn in LV; try discriminate LV; destruct r1 as [|[?|]|]; discriminate LV).
    - eapply fill_home; [exact I2|exact E2|reflexivity].
    - eapply out_home; [exact I2|exact E2]. }
  destruct X as (s' & hl' & L & J & P & Q). exists s', hl'. split; [eapply later_trans; [exact L1|eapply later_trans; [eapply later_1; exact T|exact L]]|]. split; [exact J|]. split; [exact P|congruence].
Qed.
Lemma home k h0 s hl t : Inv k h0 s hl -> holder s = None -> exists s' hl', later s s' /\ Inv k h0 s' hl' /\ pcs s' t = Idle /\ holder s' = None.
Proof.
  intros I HO. destruct (pcs s t) as [|c|c old|c old b|q m j|c r] eqn:E.
  - exists s, hl. split; [constructor|]. auto.
  - assert (W : forall s hl c old, Inv k h0 s hl -> holder s = None -> pcs s t = Wait c old -> exists s' hl', later s s' /\ Inv k h0 s' hl' /\ pcs s' t = Idle /\ holder s' = None).
    { clear. intros s hl c old I HO E. pose proof (inv_take _ _ _ _ _ _ _ I E HO) as J. destruct (in_home _ _ _ _ t _ _ _ J (upd_pc_eq _ _ _)) as (s' & hl' & L & X). exists s', hl'. split; [|exact X]. eapply later_trans; [eapply later_1; unfold tick; rewrite E, HO; reflexivity|exact L]. }
    destruct (inv_size _ _ _ _ _ _ I E) as (old & S & J). assert (T : tick true t Go s = Yes (Ret (sized s t c old))) by (unfold tick; rewrite E, S; reflexivity).
    assert (X : (exists c' old', pcs (sized s t c old) t = Wait c' old') \/ exists c' r', pcs (sized s t c old) t = Out c' r').
    { unfold sized. destruct c; try (destruct (_ <=? _)); cbn [go pcs]; rewrite upd_pc_eq; eauto. }
    assert (HS : holder (sized s t c old) = None) by (unfold sized; destruct c; try (destruct (_ <=? _)); exact HO).
    destruct X as [(c' & old' & X)|(c' & r' & X)].
    + destruct (W _ _ _ _ J HS X) as (s' & hl' & L & Y). exists s', hl'. split; [eapply later_trans; [eapply later_1; exact T|exact L]|exact Y].
    + destruct (out_home _ _ _ _ _ _ _ J X) as (s' & hl' & L & A & B & D). exists s', hl'. split; [eapply later_trans; [eapply later_1; exact T|exact L]|]. split; [exact A|]. split; [exact B|congruence].
  - pose proof (inv_take _ _ _ _ _ _ _ I E HO) as J. destruct (in_home _ _ _ _ t _ _ _ J (upd_pc_eq _ _ _)) as (s' & hl' & L & X). exists s', hl'. split; [|exact X]. eapply later_trans; [eapply later_1; unfold tick; rewrite E, HO; reflexivity|exact L].
  - eapply in_home; [exact I|exact E].
  - destruct (fill_home k h0 t q m _ s hl j I E eq_refl) as (s' & hl' & L & A & B & D). exists s', hl'. split; [exact L|]. split; [exact A|]. split; [exact B|congruence].
  - destruct (out_home k h0 s hl t c r I E) as (s' & hl' & L & A & B & D). exists s', hl'. split; [exact L|]. split; [exact A|]. split; [exact B|congruence].
Qed.
Lemma comes_home k h0 s hl t : Inv k h0 s hl -> exists s', later s s' /\ pcs s' t = Idle.
Proof.
  intro I. destruct (holder s) as [t0|] eqn:HO.
  - pose proof (i_hold _ _ _ _ I) as H. rewrite HO in H. destruct H as (_ & c & old & b & he & r & E & _). destruct (in_home _ _ _ _ _ _ _ _ I E) as (s1 & hl1 & L1 & I1 & _ & H1).
    destruct (home _ _ _ _ t I1 H1) as (s2 & hl2 & L2 & _ & P & _). exists s2. split; [eapply later_trans; eassumption|exact P].
  - destruct (home _ _ _ _ t I HO) as (s2 & hl2 & L2 & _ & P & _). exists s2. auto.
Qed.

(** ** concrete runs of two threads *)
Definition heldb (s : st) (p : Z) : bool :=
  existsb (fun b => b_ptr b =? p) (live s) && forallb (fun u => match busy (pcs s u) with Some q => negb (q =? p) | None => true end) [0; 1]%nat.
Definition okb (s : st) (ch : choice) : bool :=
  match ch with
  | Call (CMalloc m) | Call (CCalloc m) => (- two31 <=? m) && (m <? two31)
  | Call (CFree p) => heldb s p
  | Call (CRealloc p m) | Call (CResize p m) => (- two31 <=? m) && (m <? two31) && heldb s p
  | Call CMaxmem | Call CFreemem | Go => true
  | Write p off bytes => heldb s p && existsb (fun b => (b_ptr b =? p) && (0 <=? off) && (off + zlen bytes <=? zlen (b_data b))) (live s)
  end.
Fixpoint play (locked : bool) (l : list (nat * choice)) (s : st) : option st :=
  match l with
  | [] => Some s
  | (t, ch) :: l => if (t <? 2)%nat && okb s ch then match tick locked t ch s with Yes (Ret s') => play locked l s' | _ => None end else None
  end.
Definition two (s : st) : Prop := forall u, (2 <= u)%nat -> pcs s u = Idle.
Lemma heldb_ok s p : two s -> heldb s p = true -> held s p.
Proof.
  intros T H. apply andb_prop in H. destruct H as (A & B). split.
  - apply existsb_exists in A. destruct A as (b & X & E). exists b. split; [exact X|lia].
  - intros u X. cbn [forallb] in B. apply andb_prop in B. destruct B as (B0 & B). apply andb_prop in B. destruct B as (B1 & _).
    destruct u as [|[|u]]; [rewrite X in B0; lia|rewrite X in B1; lia|]. rewrite T in X by lia. discriminate X.
Qed.
Lemma okb_ok s ch : two s -> okb s ch = true -> allowed s ch.
Proof.
  intros T O. destruct ch as [[m|m|p|p m|p m| |]|p off bytes|]; cbn [okb allowed] in *; auto; try lia; try (apply heldb_ok; assumption).
  - apply andb_prop in O. destruct O as (O1 & O2). split; [lia|apply heldb_ok; assumption].
  - apply andb_prop in O. destruct O as (O1 & O2). split; [lia|apply heldb_ok; assumption].
  - apply andb_prop in O. destruct O as (O1 & O2). split; [apply heldb_ok; assumption|]. apply existsb_exists in O2. destruct O2 as (b & B & E). exists b. split; [exact B|]. lia.
Qed.
Lemma play_reach locked h0 l s s' : reach locked h0 s -> two s -> play locked l s = Some s' -> reach locked h0 s' /\ two s'.
Proof.
  revert s. induction l as [|[t ch] l IH]; cbn [play]; intros s R T E; [injection E as <-; auto|].
  destruct ((t <? 2)%nat && okb s ch) eqn:C; [|discriminate E]. apply andb_prop in C. destruct C as (C1 & C2). apply Nat.ltb_lt in C1. destruct (tick locked t ch s) as [|[s1| | |]] eqn:TK; try discriminate E.
  apply (IH s1); [| |exact E].
  - eapply r_step; [exact R|apply okb_ok; eassumption|exact TK].
  - intros u U. rewrite (tick_pc _ _ _ _ _ TK) by lia. apply T. exact U.
Qed.
Definition gos (t n : nat) : list (nat * choice) := repeat (t, Go) n.

(** Proofs for C77, part 7: the lock is given back; every step *)
From Coq Require Import Permutation.
From Verif Require Import CBase SeqLib HashmapProof MpliteModel MpliteSpec MpliteProof MpliteProof2 MpliteProof3 MpliteProof4 MpliteProof5 MpliteProof6 MpMtModel MpMtSpec MpMtProof MpMtProof2 MpMtProof3 MpMtProof4 MpMtProof5 MpMtProof6.

Lemma fresh_malloc m sz l q b : NoDup (map b_ptr (c_step sz l (OMalloc m) (Some q))) -> List.In b l -> b_ptr b <> q.
Proof. cbn [c_step map]. intros ND B <-. cbn [b_ptr] in ND. inversion_clear ND as [|? ? NI _]. apply NI, in_map, B. Qed.
Lemma fresh_realloc p m sz l q b d : NoDup (map b_ptr l) -> NoDup (map b_ptr (c_step sz l (ORealloc p m) (Some q))) -> List.In b l -> b_ptr b <> p -> List.In d l -> b_ptr d = p -> b_ptr b <> q.
Proof.
  intros ND ND' B NB D <-. destruct (split_live l d ND D) as (rest & P & F & M). destruct (M (fun b0 => mk_b q (if m <=? b_size b0 then b_size b0 else fit sz m) (resized (b_data b0) m))) as (l' & E & P').
  cbn [c_step] in ND'. rewrite E in ND'. eapply Permutation_NoDup in ND'; [|apply Permutation_map; exact P']. cbn [map b_ptr] in ND'. inversion_clear ND' as [|? ? NI _]. intros <-. apply NI, in_map. rewrite <- F. apply filter_In. split; [exact B|]. destruct (Z.eqb_spec (b_ptr b) (b_ptr d)); [congruence|reflexivity].
Qed.
(** what the caller gets *)
Lemma leave_ok k h h' l c r old b : cinv k h l -> size_arg l c old -> atomic h l c r h' -> cinv k h' (own_step (2 ^ k) l c r) ->
  pc_ok (own_step (2 ^ k) l c r) (leave c r) /\ forall q, busy (leave c r) = Some q -> ptr_of c = Some q \/ (List.In b l -> ptr_of c <> Some (b_ptr b) -> b_ptr b <> q).
Proof.
  intros CI SA A CI'. pose proof (cinv_nd _ _ _ CI) as ND. pose proof (cinv_nd _ _ _ CI') as ND'. destruct c as [m|m|p|p m|p m| |]; cbn [atomic size_arg ptr_of] in *.
  - destruct A as (x & _ & ->). destruct x as [q|]; cbn [leave own_step busy pc_ok] in *; split; try (intros ? X; discriminate X).
    + split; [|exact Logic.I]. intros p X. injection X as <-. eexists. split; [left; reflexivity|reflexivity].
    + intros q0 X. injection X as <-. right. intros B _. exact (fresh_malloc _ _ _ _ _ ND' B).
    + split; [|exact Logic.I]. intros ? X; discriminate X.
  - destruct A as (x & _ & ->). destruct x as [q|]; cbn [leave own_step busy pc_ok] in *; split; try (intros ? X; discriminate X).
    + split; [intros p X; injection X as <-; eexists; split; [left; reflexivity|reflexivity]|]. split; [lia|]. eexists. split; [left; reflexivity|]. split; [reflexivity|]. cbn [b_data]. split; [rewrite zlen_repeat, Z2Nat.id; lia|intros j J; lia].
    + intros q0 X. injection X as <-. right. intros B _. exact (fresh_malloc _ _ _ _ _ ND' B).
    + split; [|exact Logic.I]. intros ? X; discriminate X.
  - destruct A as (_ & -> & _). cbn [leave busy]. split; [|intros ? X; discriminate X]. split; [intros ? X; discriminate X|exact Logic.I].
  - destruct A as (x & _ & -> & _). destruct SA as (_ & _ & _ & d & D & ED & _). destruct x as [q|]; cbn [leave own_step busy pc_ok] in *; split.
    + split; [|exact Logic.I]. intros p0 X. injection X as <-. eexists. split; [cbn [c_step]; apply in_map_iff; exists d; split; [rewrite ED, Z.eqb_refl; reflexivity|exact D]|reflexivity].
    + intros q0 X. injection X as <-. right. intros B NB. eapply fresh_realloc; [exact ND|exact ND'|exact B|congruence|exact D|exact ED].
    + split; [|exact Logic.I]. intros p0 X. injection X as <-. exists d. auto.
    + intros q X. left. exact X.
  - contradiction.
  - destruct A as (v & _ & -> & _). cbn [leave busy]. split; [|intros ? X; discriminate X]. split; [intros ? X; discriminate X|exact Logic.I].
  - destruct A as (v & _ & -> & _). cbn [leave busy]. split; [|intros ? X; discriminate X]. split; [intros ? X; discriminate X|exact Logic.I].
Qed.
Lemma leave_ph c r : ph_ok (leave c r) (PDone c r).
Proof. destruct c; cbn; auto. destruct r as [|[q|]|]; cbn; auto. Qed.
Lemma leave_out c r : ~ is_in (leave c r).
Proof. destruct c; cbn; auto. destruct r as [|[q|]|]; cbn; auto. Qed.
Lemma inv_leave k h0 s hl t c old r : Inv k h0 s hl -> pcs s t = In c old (Done r) -> Inv k h0 (go (point (set_holder s None) t c r) t (leave c r)) (obj s).
Proof.
  intros [I1 I2 I3 I4 I5 I6 I7 I8 I9] E. destruct (holder s) as [t0|] eqn:HO; [|exfalso; apply (proj2 I9 t); rewrite E; exact Logic.I].
  destruct I9 as (H & c0 & old0 & b0 & he & r' & E0 & X1 & X2 & X3 & X4 & X5). destruct (Nat.eq_dec t t0) as [<-|NE]; [|exfalso; apply (H t NE); rewrite E; exact Logic.I].
  rewrite E in E0. injection E0 as <- <- <-. unfold ends in X1. cbn [wp] in X1. destruct X1 as (<- & <-).
  pose proof (I6 t) as (_ & SA). rewrite E in SA. destruct (section_ok k hl (live s) c old I2 SA) as (he & r2 & W & A & CI' & NN).
  unfold Gs, Cs in *. rewrite I4 in *. destruct (ends_det _ _ _ _ _ _ _ _ W X2) as (-> & ->).
  assert (B0 : busy (pcs s t) = ptr_of c) by (rewrite E; reflexivity).
  constructor; cbn [go point say set_live set_holder obj holder pcs live log]; try reflexivity; try assumption; rewrite ?I4, ?(cinv_sz _ _ _ I2).
  - rewrite <- I3. eapply s_op; [exact I1| |exact A]. destruct c; cbn [size_ok_of size_arg] in *; auto; unfold two31 in *; lia.
  - exact CI'.
  - intro u. destruct (Nat.eq_dec u t) as [->|NE]; [rewrite upd_pc_eq; apply (leave_ok k hl (obj s) (live s) c r old (mk_b 0 0 [])); assumption|rewrite upd_pc_ne by exact NE]. apply (pc_ok_keep (live s)); [apply I6|].
    intros b B Eb. apply own_keep; [exact B|]. intro X. apply NE. apply (I7 u t _ Eb). rewrite B0. exact X.
  - assert (X : forall u p, u <> t -> busy (leave c r) = Some p -> busy (pcs s u) = Some p -> False).
    { intros u p NE Ep Eu. destruct (proj1 (I6 u) p Eu) as (b & B & EB). destruct (proj2 (leave_ok k hl (obj s) (live s) c r old b I2 SA A CI') p Ep) as [Y|Y].
      - apply NE. apply (I7 u t p Eu). rewrite B0. exact Y.
      - apply Y; [exact B| |exact EB]. rewrite EB. intro Z. apply NE. apply (I7 u t p Eu). rewrite B0. exact Z. }
    intros u v p. destruct (Nat.eq_dec u t) as [->|NE], (Nat.eq_dec v t) as [->|NE2]; rewrite ?upd_pc_eq, ?upd_pc_ne by assumption; [auto| | |apply I7]; intros Z1 Z2; exfalso; eapply X; eauto.
  - intro u. destruct (I8 u) as (p & P & O). destruct (Nat.eq_dec u t) as [->|NE]; [rewrite upd_pc_eq|rewrite upd_pc_ne by exact NE].
    + exists (PDone c r). split; [|apply leave_ph]. rewrite E in O. cbn [ph_ok] in O. subst p. eapply phases_snoc; [exact P|]. cbn [next_phase]. rewrite Nat.eqb_refl. auto.
    + exists p. split; [apply phases_other; [apply (next_other u t); auto|exact P]|exact O].
  - split; [reflexivity|]. intro u. destruct (Nat.eq_dec u t) as [->|NE]; [rewrite upd_pc_eq; apply leave_out|rewrite upd_pc_ne by exact NE; apply H, NE].
Qed.

(** ** calls *)
Lemma next_call t c : next_phase t PNone (LCall t c) (PCalled c). Proof. cbn. rewrite Nat.eqb_refl. auto. Qed.
Lemma next_op t c r : next_phase t (PCalled c) (LOp t c r) (PDone c r). Proof. cbn. rewrite Nat.eqb_refl. auto. Qed.
Lemma idle_ph k h0 s hl t : Inv k h0 s hl -> pcs s t = Idle -> phases t PNone (log s) PNone.
Proof. intros I E. destruct (i_ph _ _ _ _ I t) as (p & P & O). rewrite E in O. cbn in O. subst p. exact P. Qed.
Lemma others2 u t l p e e' : u <> t -> match e with LCall x _ | LOp x _ _ | LWrite x _ _ _ | LRet x _ _ => x = t end -> match e' with LCall x _ | LOp x _ _ | LWrite x _ _ _ | LRet x _ _ => x = t end ->
  phases u PNone l p -> phases u PNone ((l ++ [e]) ++ [e']) p.
Proof. intros N A B P. apply phases_other; [eapply next_other; eauto|]. apply phases_other; [eapply next_other; eauto|exact P]. Qed.
(** a call that goes to wait for the lock, or to mplite_size *)
Lemma inv_begin k h0 s hl t c x' : Inv k h0 s hl -> pcs s t = Idle -> ~ is_in x' -> pc_ok (live s) x' -> ph_ok x' (PCalled c) -> (forall p, busy x' = Some p -> forall u, busy (pcs s u) <> Some p) ->
  Inv k h0 (go (say s (LCall t c)) t x') hl.
Proof.
  intros I E N PO PH BU. apply (inv_move k h0 s hl t x' (log s ++ [LCall t c]) (live s) I).
  - rewrite E. intro X; exact X.
  - exact N.
  - apply s_call, I.
  - apply I.
  - reflexivity.
  - exact PO.
  - auto.
  - intros p X. right. exact (BU p X).
  - exists (PCalled c). split; [|exact PH]. eapply phases_snoc; [exact (idle_ph _ _ _ _ _ I E)|apply next_call].
  - intros u p NE P. apply phases_other; [apply (next_other u t); auto|exact P].
Qed.
(** a call that is over at once *)
Lemma inv_now k h0 s hl t c r : Inv k h0 s hl -> pcs s t = Idle -> own_step (mp_sz h0) (live s) c r = live s -> size_ok_of c -> atomic hl (live s) c r hl -> pc_ok (live s) (Out c r) ->
  (forall p, busy (Out c r) = Some p -> forall u, busy (pcs s u) <> Some p) -> Inv k h0 (go (point (say s (LCall t c)) t c r) t (Out c r)) hl.
Proof.
  intros I E OW SO A PO BU. pose proof (i_osz _ _ _ _ I) as OZ. rewrite (cinv_sz _ _ _ (i_ci _ _ _ _ I)), <- (i_sz _ _ _ _ I) in OZ.
  unfold go, point, say, set_live. cbn [obj holder pcs live log]. rewrite OZ, OW.
  apply (inv_move k h0 s hl t (Out c r) ((log s ++ [LCall t c]) ++ [LOp t c r]) (live s) I).
  - rewrite E. intro X; exact X.
  - intro X; exact X.
  - rewrite <- OW. eapply s_op; [apply s_call, I|exact SO|exact A].
  - apply I.
  - reflexivity.
  - exact PO.
  - auto.
  - intros p X. right. exact (BU p X).
  - exists (PDone c r). split; [|reflexivity]. eapply phases_snoc; [|apply next_op]. eapply phases_snoc; [exact (idle_ph _ _ _ _ _ I E)|apply next_call].
  - intros u p NE P. apply (others2 u t); auto.
Qed.
Lemma inv_enter k h0 s hl t c : Inv k h0 s hl -> pcs s t = Idle -> allowed s (Call c) -> Inv k h0 (enter s t c) hl.
Proof.
  intros I E AL. destruct c as [m|m|p|p m|p m| |]; cbn [enter allowed] in *.
  - destruct (Z.leb_spec m 0) as [L|L].
    + apply inv_now; auto; [exists None; split; [unfold mplite_malloc; destruct (Z.leb_spec m 0); [reflexivity|lia]|reflexivity]|split; [intros ? X; discriminate X|exact Logic.I]|intros ? X; discriminate X].
    + apply inv_begin; cbn [pc_ok is_in ph_ok busy ptr_of size_arg]; auto; [|intros ? X; discriminate X]. split; [intros ? X; discriminate X|cbn; lia].
  - destruct (Z.leb_spec m 0) as [L|L].
    + apply inv_now; auto; [exists None; split; [unfold mplite_malloc; destruct (Z.leb_spec m 0); [reflexivity|lia]|reflexivity]|split; [intros ? X; discriminate X|exact Logic.I]|intros ? X; discriminate X].
    + apply inv_begin; cbn [pc_ok is_in ph_ok busy ptr_of size_arg]; auto; [|intros ? X; discriminate X]. split; [intros ? X; discriminate X|cbn; lia].
  - destruct AL as (EB & NB). apply inv_begin; cbn [pc_ok is_in ph_ok busy ptr_of size_arg]; auto.
    + split; [intros q X; injection X as <-; exact EB|exact EB].
    + intros q X. injection X as <-. exact NB.
  - destruct AL as (RM & EB & NB). destruct (bad_size m) eqn:BS.
    + apply inv_now; auto.
      * exact Logic.I.
      * exists None. split; [|split; [reflexivity|split; [exact RM|exact EB]]]. cbn [mplite_realloc]. unfold bad_size in BS. rewrite BS. reflexivity.
      * split; [intros q X; injection X as <-; exact EB|exact Logic.I].
      * intros q X. injection X as <-. exact NB.
    + apply inv_begin; cbn [pc_ok is_in ph_ok busy ptr_of size_arg]; auto.
      * split; [intros q X; injection X as <-; exact EB|]. split; [exact BS|lia].
      * intros q X. injection X as <-. exact NB.
  - destruct AL as (RM & EB & NB). destruct (bad_size m) eqn:BS.
    + apply inv_now; auto.
      * exact Logic.I.
      * exists false. split; [|split; [reflexivity|split; [reflexivity|exact EB]]]. cbn [mplite_resize]. unfold bad_size in BS. rewrite BS. reflexivity.
      * split; [intros q X; injection X as <-; exact EB|exact Logic.I].
      * intros q X. injection X as <-. exact NB.
    + apply inv_begin; cbn [pc_ok is_in ph_ok busy ptr_of size_arg]; auto.
      * split; [intros q X; injection X as <-; exact EB|]. split; [exact BS|lia].
      * intros q X. injection X as <-. exact NB.
  - apply inv_begin; cbn [pc_ok is_in ph_ok busy ptr_of size_arg]; auto; [|intros ? X; discriminate X]. split; [intros ? X; discriminate X|exact Logic.I].
  - apply inv_begin; cbn [pc_ok is_in ph_ok busy ptr_of size_arg]; auto; [|intros ? X; discriminate X]. split; [intros ? X; discriminate X|exact Logic.I].
Qed.
(** ** mplite_size *)
Lemma resized_ext sz l p m b : List.In b l -> b_ptr b = p -> NoDup (map b_ptr l) -> m <= b_size b -> ext (c_step sz l (ORealloc p m) (Some p)) = ext l.
Proof.
  intros B <- ND M. cbn [c_step]. unfold ext. rewrite map_map. apply map_ext_in. intros c C. destruct (Z.eqb_spec (b_ptr c) (b_ptr b)) as [E|]; [|reflexivity].
  cbn [b_ptr b_size]. destruct (Z.leb_spec m (b_size c)) as [|L]; [congruence|].
  destruct (split_live l b ND B) as (rest & P & F & _). assert (X : List.In c (b :: rest)) by (eapply Permutation_in; [exact P|exact C]). destruct X as [->|X]; [lia|]. rewrite <- F in X. apply filter_In in X as (_ & X). rewrite E, Z.eqb_refl in X. discriminate X.
Qed.
Lemma inv_size k h0 s hl t c : Inv k h0 s hl -> pcs s t = PSize c -> exists old, mplite_size (obj s) (match ptr_of c with Some p => p | None => 0 end) = Ret old /\ Inv k h0 (sized s t c old) hl.
Proof.
  intros I E. pose proof (i_osz _ _ _ _ I) as OZ. rewrite (cinv_sz _ _ _ (i_ci _ _ _ _ I)), <- (i_sz _ _ _ _ I) in OZ. pose proof (i_ci _ _ _ _ I) as CI. pose proof (cinv_nd _ _ _ CI) as ND.
  pose proof (i_pc _ _ _ _ I t) as (PB & PO). rewrite E in PB, PO. destruct (i_ph _ _ _ _ I t) as (ph & PH & PE). rewrite E in PE. cbn [ph_ok] in PE. subst ph.
  assert (N : ~ is_in (pcs s t)) by (rewrite E; intro X; exact X).
  assert (QB : forall b, busy (PSize c) = Some (b_ptr b) -> quiet_blk s b). { intros b X. apply (quiet_not_busy s b t); [|exact N]. intros u U. apply (i_busy _ _ _ _ I u t _ U). rewrite E. exact X. }
  destruct c as [m|m|p|p m|p m| |]; try contradiction; cbn [busy ptr_of] in *; destruct (PB p eq_refl) as (b & B & EB); destruct PO as (BS & RM).
  - destruct (obj_size _ _ _ _ b I B) as (S1 & S2); [apply QB; congruence|]. rewrite EB in S1, S2. exists (b_size b). split; [exact S1|]. cbn [sized]. destruct (Z.leb_spec m (b_size b)) as [L|L].
    + set (r := RPtr (Some p)). assert (OK : ok_op (live s) (ORealloc p m)) by (split; [unfold bad_size in BS; unfold two31 in *; lia|exists b; auto]).
      assert (A : mplite_realloc hl (Some p) m = Ret (hl, Some p)). { cbn [mplite_realloc]. unfold bad_size in BS. rewrite BS, S2. cbn [bind]. destruct (Z.leb_spec m (b_size b)); [reflexivity|lia]. }
      destruct (step_ok k hl (live s) _ CI OK) as (h1 & r1 & E1 & CI' & _). cbn [mp_step] in E1. rewrite A in E1. injection E1 as <- <-.
      unfold go, point, say, set_live. cbn [obj holder pcs live log]. rewrite OZ. apply (inv_move k h0 s hl t (Out (CRealloc p m) r) (log s ++ [LOp t (CRealloc p m) r]) _ I).
      * exact N.
      * intro X; exact X.
      * eapply s_op; [apply I|exact Logic.I|]. exists (Some p). auto.
      * rewrite (i_sz _ _ _ _ I). exact CI'.
      * cbn [own_step r]. eapply resized_ext; eassumption.
      * split; [|exact Logic.I]. intros q X. injection X as <-. cbn [own_step r c_step]. eexists. split; [apply in_map_iff; exists b; split; [rewrite EB, Z.eqb_refl; reflexivity|exact B]|reflexivity].
      * intros c C NC. apply own_keep; [exact C|]. rewrite E in NC. exact NC.
      * intros q X. left. rewrite E. exact X.
      * eexists. split; [eapply phases_snoc; [exact PH|apply next_op]|reflexivity].
      * intros u q NE P. apply phases_other; [apply (next_other u t); auto|exact P].
    + unfold go. apply (inv_move k h0 s hl t (Wait (CRealloc p m) (b_size b)) (log s) (live s) I).
      * exact N.
      * intro X; exact X.
      * apply I.
      * exact CI.
      * reflexivity.
      * split; [intros q X; apply PB; exact X|]. split; [exact BS|]. split; [exact RM|]. split; [lia|]. exists b. auto.
      * auto.
      * intros q X. left. rewrite E. exact X.
      * eexists. split; [exact PH|reflexivity].
      * auto.
  - destruct (obj_size _ _ _ _ b I B) as (S1 & S2); [apply QB; congruence|]. rewrite EB in S1, S2. exists (b_size b). split; [exact S1|]. cbn [sized]. set (r := RInt (if m <=? b_size b then MPLITE_OK else MPLITE_ERR_INVPAR)).
    unfold go, point, say, set_live. cbn [obj holder pcs live log own_step]. apply (inv_move k h0 s hl t (Out (CResize p m) r) (log s ++ [LOp t (CResize p m) r]) _ I).
      * exact N.
      * intro X; exact X.
      * apply (s_op h0 (log s) hl (live s) t (CResize p m) r hl); [apply I|exact Logic.I|]. exists (m <=? b_size b). split; [|split; [reflexivity|split; [reflexivity|exists b; auto]]]. cbn [mplite_resize]. unfold bad_size in BS. rewrite BS, S2. reflexivity.
      * exact CI.
      * reflexivity.
      * split; [intros q X; apply PB; exact X|exact Logic.I].
      * auto.
      * intros q X. left. rewrite E. exact X.
      * eexists. split; [eapply phases_snoc; [exact PH|apply next_op]|reflexivity].
      * intros u q NE P. apply phases_other; [apply (next_other u t); auto|exact P].
Qed.
(** ** every step *)
Lemma zeros_write d k : 0 <= k < zlen d -> zeros d k -> zeros (zwrite k (map Some [0]) d) (k + 1) /\ zlen (zwrite k (map Some [0]) d) = zlen d.
Proof.
  intros R Z. split; [|apply zlen_zwrite; change (zlen (map Some [0])) with 1; lia]. intros j J. rewrite znth_zwrite by (change (zlen (map Some [0])) with 1; lia). change (zlen (map Some [0])) with 1.
  destruct ((k <=? j) && (j <? k + 1)) eqn:X; [assert (j - k = 0) as -> by lia; reflexivity|apply Z; lia].
Qed.
Lemma inv_tick k h0 s hl t ch o : Inv k h0 s hl -> allowed s ch -> tick true t ch s = Yes o -> exists s' hl', o = Ret s' /\ Inv k h0 s' hl'.
Proof.
  intros I AL T. unfold tick in T. destruct (pcs s t) as [|c|c old|c old b|q m j|c r] eqn:E; destruct ch as [c'|p off bytes|]; try discriminate T.
  - injection T as <-. exists (enter s t c'), hl. split; [reflexivity|apply inv_enter; assumption].
  - injection T as <-. cbn [allowed] in AL. destruct AL as ((_ & NB) & b & B & <- & O1 & O2).
    destruct (inv_poke k h0 s hl t Idle b off bytes I) as (s1 & hl' & P & J); auto.
    + rewrite E. intro X; exact X.
    + apply (quiet_not_busy s b t); [intros u X; exfalso; exact (NB u X)|rewrite E; intro X; exact X].
    + rewrite E. reflexivity.
    + split; [intros ? X; discriminate X|exact Logic.I].
    + exists PNone. split; [|reflexivity]. eapply phases_snoc; [exact (idle_ph _ _ _ _ _ I E)|]. cbn [next_phase]. rewrite Nat.eqb_refl. auto.
    + exists s1, hl'. split; [exact P|]. unfold poke in P. apply bind_inv in P as (m & W & P). injection P as <-. unfold go in J. cbn [say set_live set_obj obj holder pcs live log] in *.
      destruct J as [J1 J2 J3 J4 J5 J6 J7 J8 J9]. cbn [obj holder pcs live log] in *.
      assert (U : forall u, upd_pc (pcs s) t Idle u = pcs s u) by (intro u; destruct (Nat.eq_dec u t) as [->|NE]; [rewrite upd_pc_eq; auto|rewrite upd_pc_ne by exact NE; reflexivity]).
      constructor; cbn [say set_live set_obj obj holder pcs live log]; try assumption.
      * intro u. rewrite <- U. apply J6.
      * intros u v p. rewrite <- !U. apply J7.
      * intro u. rewrite <- U. apply J8.
      * destruct (holder s) as [t0|]; [destruct J9 as (H & X); split; [intros u; rewrite <- U; apply H|rewrite <- U; exact X]|destruct J9 as (H & X); split; [exact H|intro u; rewrite <- U; apply X]].
  - injection T as <-. destruct (inv_size k h0 s hl t c I E) as (old & S & J). rewrite S. cbn [bind]. eexists _, hl. split; [reflexivity|exact J].
  - destruct (holder s) as [t0|] eqn:HO; [discriminate T|]. injection T as <-. eexists _, hl. split; [reflexivity|]. apply inv_take; assumption.
  - destruct b; discriminate T.
  - destruct b; discriminate T.
  - assert (D : (exists r, b = Done r) \/ forall r, b <> Done r) by (destruct b; [left; eexists; reflexivity|right; intros r X; discriminate X ..]).
    destruct D as [(r & ->)|ND].
    + injection T as <-. eexists _, (obj s). split; [reflexivity|]. eapply inv_leave; eassumption.
    + destruct (inv_in k h0 s hl t c old b I E ND) as (o1 & b' & EX & J). exists (go (set_obj s o1) t (In c old b')), hl. split; [|exact J].
      assert (T' : Yes (do (o, b') <- exec (obj s) b; Ret (go (set_obj s o) t (In c old b'))) = Yes o) by (rewrite <- T; destruct b; try reflexivity; exfalso; exact (ND _ eq_refl)).
      rewrite EX in T'. injection T' as <-. reflexivity.
  - pose proof (i_pc _ _ _ _ I t) as (PB & PO). rewrite E in PB, PO. destruct PO as (RJ & b & B & EB & LB & ZB). destruct (i_ph _ _ _ _ I t) as (ph & PH & PE). rewrite E in PE. cbn [ph_ok] in PE. subst ph.
    assert (BU : forall u, u <> t -> busy (pcs s u) <> Some (b_ptr b)). { intros u NE X. apply NE. apply (i_busy _ _ _ _ I u t _ X). rewrite E. cbn [busy]. congruence. }
    destruct (Z.ltb_spec j m) as [L|L]; injection T as <-.
    + destruct (inv_poke k h0 s hl t (Fill q m (j + 1)) b j [0] I) as (s1 & hl' & P & J); auto.
      * rewrite E. intro X; exact X.
      * apply (quiet_not_busy s b t); [|rewrite E; intro X; exact X]. intros u X. destruct (Nat.eq_dec u t) as [|NE]; [assumption|]. exfalso. exact (BU u NE X).
      * lia.
      * change (zlen [0]) with 1. lia.
      * rewrite E. reflexivity.
      * pose proof (write_has (mp_sz (obj s)) (live s) q j [0] b B EB) as WH. rewrite EB. split; [intros p X; injection X as <-; eexists; split; [exact WH|reflexivity]|]. split; [lia|]. eexists. split; [exact WH|]. split; [reflexivity|]. cbn [b_data].
        destruct (zeros_write (b_data b) j ltac:(lia) ZB) as (Z1 & Z2). split; [rewrite Z2; exact LB|exact Z1].
      * eexists. split; [|reflexivity]. eapply phases_snoc; [exact PH|]. cbn [next_phase]. rewrite Nat.eqb_refl. split; [reflexivity|]. right. exists m. rewrite EB. split; [reflexivity|]. split; [lia|reflexivity].
      * rewrite EB in P. rewrite P. cbn [bind]. eexists _, hl'. split; [reflexivity|exact J].
    + eexists _, hl. split; [reflexivity|]. unfold go. apply (inv_move k h0 s hl t _ (log s) (live s) I).
      * rewrite E. intro X; exact X.
      * intro X; exact X.
      * apply I.
      * apply I.
      * reflexivity.
      * split; [intros p X; apply PB; exact X|]. assert (j = m) as -> by lia. exists b. auto.
      * auto.
      * intros p X. left. rewrite E. exact X.
      * eexists. split; [exact PH|reflexivity].
      * auto.
  - injection T as <-. destruct (i_ph _ _ _ _ I t) as (ph & PH & PE). rewrite E in PE. cbn [ph_ok] in PE. subst ph. eexists _, hl. split; [reflexivity|]. unfold go, say. cbn [obj holder pcs live log]. apply (inv_move k h0 s hl t _ (log s ++ [LRet t c r]) (live s) I).
      * rewrite E. intro X; exact X.
      * intro X; exact X.
      * apply s_ret, I.
      * apply I.
      * reflexivity.
      * split; [intros ? X; discriminate X|exact Logic.I].
      * auto.
      * intros p X. discriminate X.
      * exists PNone. split; [|reflexivity]. eapply phases_snoc; [exact PH|]. cbn [next_phase]. rewrite Nat.eqb_refl. auto.
      * intros u p NE P. apply phases_other; [apply (next_other u t); auto|exact P].
Qed.
Lemma inv_reach k h0 s : cinv k h0 [] -> reach true h0 s -> exists hl, Inv k h0 s hl.
Proof.
  intros C0 R. induction R as [|s t ch s' R (hl & I) AL T].
  - exists h0. constructor; cbn; auto.
    + constructor.
    + apply (cinv_sz _ _ _ C0).
    + intro t. split; [intros ? X; discriminate X|exact Logic.I].
    + intros t u p X. discriminate X.
    + intro t. exists PNone. split; [constructor|reflexivity].
  - destruct (inv_tick _ _ _ _ _ _ _ I AL T) as (s1 & hl' & E & J). injection E as <-. exists hl'. exact J.
Qed.

(** Proofs for C77, part 6: every step keeps the invariant *)
From Coq Require Import Permutation.
From Verif Require Import CBase SeqLib HashmapProof MpliteModel MpliteSpec MpliteProof MpliteProof2 MpliteProof3 MpliteProof4 MpliteProof5 MpliteProof6 MpMtModel MpMtSpec MpMtProof MpMtProof2 MpMtProof3 MpMtProof4 MpMtProof5.

Lemma cinv_sz k h l : cinv k h l -> mp_sz h = 2 ^ k. Proof. intros (? & ? & V). apply V. Qed.
Lemma cinv_nd k h l : cinv k h l -> NoDup (map b_ptr l). Proof. intros (? & ? & V). apply V. Qed.
Lemma cinv_inj k h l b c : cinv k h l -> List.In b l -> List.In c l -> b_ptr b = b_ptr c -> b = c. Proof. intros (? & ? & V). apply (ptr_inj _ _ _ _ _ _ _ V). Qed.
Lemma phases_other u l p e : next_phase u p e p -> phases u PNone l p -> phases u PNone (l ++ [e]) p.
Proof. intros N P. eapply phases_snoc; [exact P|exact N]. Qed.
Lemma next_other u t p e : u <> t -> match e with LCall x _ | LOp x _ _ | LWrite x _ _ _ | LRet x _ _ => x = t end -> next_phase u p e p.
Proof. intros N. destruct e; cbn [next_phase]; intros ->; destruct (Nat.eqb_spec t u); congruence. Qed.

(** ** a step outside the lock that changes no byte *)
Lemma inv_move k h0 s hl t x' l' live' :
  Inv k h0 s hl -> ~ is_in (pcs s t) -> ~ is_in x' -> serial h0 l' hl live' -> cinv k hl live' -> ext live' = ext (live s) -> pc_ok live' x' ->
  (forall b, List.In b (live s) -> busy (pcs s t) <> Some (b_ptr b) -> List.In b live') ->
  (forall p, busy x' = Some p -> busy (pcs s t) = Some p \/ forall u, busy (pcs s u) <> Some p) ->
  (exists p, phases t PNone l' p /\ ph_ok x' p) -> (forall u p, u <> t -> phases u PNone (log s) p -> phases u PNone l' p) ->
  Inv k h0 (mk_st (obj s) (holder s) (upd_pc (pcs s) t x') live' l') hl.
Proof.
  intros [I1 I2 I3 I4 I5 I6 I7 I8 I9] N N' S' CI' EX PO K BU PH PU. constructor; cbn [obj holder pcs live log]; try assumption.
  - intro u. destruct (Nat.eq_dec u t) as [->|NE]; [rewrite upd_pc_eq; exact PO|rewrite upd_pc_ne by exact NE]. apply (pc_ok_keep (live s)); [apply I6|]. intros b B E. apply K; [exact B|]. intro E'. apply NE. exact (I7 _ _ _ E E').
  - assert (X : forall u p, u <> t -> busy x' = Some p -> busy (pcs s u) = Some p -> False).
    { intros u p NE E E'. destruct (BU p E) as [E2|E2]; [apply NE; exact (I7 _ _ _ E' E2)|exact (E2 u E')]. }
    intros u v p. destruct (Nat.eq_dec u t) as [->|NE], (Nat.eq_dec v t) as [->|NE2]; rewrite ?upd_pc_eq, ?upd_pc_ne by assumption; [auto| | |apply I7]; intros E E2; exfalso; eapply X; eauto.
  - intro u. destruct (Nat.eq_dec u t) as [->|NE]; [rewrite upd_pc_eq; exact PH|rewrite upd_pc_ne by exact NE]. destruct (I8 u) as (p & P & O). exists p. split; [apply PU; assumption|exact O].
  - destruct (holder s) as [t0|].
    + destruct I9 as (H & c & old & b & he & r & E & X). assert (t0 <> t) by (intros ->; apply N; rewrite E; exact Logic.I). split.
      * intros u NE. destruct (Nat.eq_dec u t) as [->|NE2]; [rewrite upd_pc_eq; exact N'|rewrite upd_pc_ne by exact NE2; apply H, NE].
      * exists c, old, b, he, r. rewrite upd_pc_ne by assumption. split; [exact E|]. unfold Gs, Cs in *. cbn [obj live]. rewrite EX. exact X.
    + destruct I9 as (E & H). split; [exact E|]. intro u. destruct (Nat.eq_dec u t) as [->|NE2]; [rewrite upd_pc_eq; exact N'|rewrite upd_pc_ne by exact NE2; apply H].
Qed.

(** ** a write into a block *)
Lemma inv_poke k h0 s hl t x' b off bytes :
  Inv k h0 s hl -> ~ is_in (pcs s t) -> ~ is_in x' -> List.In b (live s) -> quiet_blk s b -> 0 <= off -> off + zlen bytes <= zlen (b_data b) ->
  busy x' = busy (pcs s t) -> (forall u, u <> t -> busy (pcs s u) <> Some (b_ptr b)) ->
  pc_ok (c_step (mp_sz (obj s)) (live s) (OWrite (b_ptr b) off bytes) None) x' ->
  (exists p, phases t PNone (log s ++ [LWrite t (b_ptr b) off bytes]) p /\ ph_ok x' p) ->
  exists s1 hl', poke s t (b_ptr b) off bytes = Ret s1 /\ Inv k h0 (go s1 t x') hl'.
Proof.
  intros I N N' B QB O1 O2 BX BU PO PH. pose proof I as [I1 I2 I3 I4 I5 I6 I7 I8 I9]. pose proof (obj_len _ _ _ _ I) as OL.
  assert (OK : ok_op (live s) (OWrite (b_ptr b) off bytes)) by (exists b; auto).
  destruct (step_ok k hl (live s) _ I2 OK) as (hl' & r & E & CI' & NN). cbn [mp_step] in E. apply bind_inv in E as (m & E & X). injection X as <- <-.
  pose proof (mwrite_Ret _ _ _ _ E) as (W1 & W2 & ->).
  unfold poke. rewrite mwrite_ok by lia. cbn [bind]. eexists _, _. split; [reflexivity|]. unfold go, say, set_live, set_obj. cbn [obj holder pcs live log].
  set (lv := c_step (mp_sz (obj s)) (live s) (OWrite (b_ptr b) off bytes) None) in *.
  assert (BR : off + zlen bytes <= b_size b). { destruct I2 as (lf & fl & V). pose proof (C_in _ _ _ _ _ b V B). lia. }
  assert (WO : forall m0 a, zlen m0 = zlen (mp_mem hl) -> znth a (zwrite (b_ptr b + off) bytes m0) = if (b_ptr b + off <=? a) && (a <? b_ptr b + off + zlen bytes) then znth (a - (b_ptr b + off)) bytes else znth a m0).
  { intros m0 a L. destruct (Z_lt_ge_dec a 0) as [R|R].
    - rewrite !(proj2 (znth_None_iff _ _)) by lia. destruct (Z.leb_spec (b_ptr b + off) a); [lia|reflexivity].
    - apply znth_zwrite; lia. }
  apply (Build_Inv k h0 _ (set_mem hl (zwrite (b_ptr b + off) bytes (mp_mem hl)))); cbn [obj holder pcs live log set_mem mp_sz mp_n].
  - unfold lv. rewrite I4, (cinv_sz _ _ _ I2), <- I3. eapply s_write; [exact I1|exact OK|exact E].
  - unfold lv. rewrite I4, (cinv_sz _ _ _ I2). exact CI'.
  - exact I3.
  - exact I4.
  - exact I5.
  - intro u. destruct (Nat.eq_dec u t) as [->|NE]; [rewrite upd_pc_eq; exact PO|rewrite upd_pc_ne by exact NE]. apply (pc_ok_keep (live s)); [apply I6|]. intros c Bc Ec. apply write_keep; [exact Bc|]. intro X. rewrite X in Ec. exact (BU u NE Ec).
  - assert (X : forall u, busy (upd_pc (pcs s) t x' u) = busy (pcs s u)). { intro u. destruct (Nat.eq_dec u t) as [->|NE]; [rewrite upd_pc_eq; exact BX|rewrite upd_pc_ne by exact NE; reflexivity]. }
    intros u v p. rewrite !X. apply I7.
  - intro u. destruct (Nat.eq_dec u t) as [->|NE]; [rewrite upd_pc_eq; exact PH|rewrite upd_pc_ne by exact NE]. destruct (I8 u) as (p & P & O). exists p. split; [apply phases_other; [apply (next_other u t); auto|exact P]|exact O].
  - destruct (holder s) as [t0|] eqn:HO.
    + destruct I9 as (H & c & old & pr & he & r & Ec & X1 & X2 & X3 & X4 & X5). assert (NT : t0 <> t) by (intros ->; apply N; rewrite Ec; exact Logic.I). split.
      { intros u NE. destruct (Nat.eq_dec u t) as [->|NE2]; [rewrite upd_pc_eq; exact N'|rewrite upd_pc_ne by exact NE2; apply H, NE]. }
      assert (GW : forall a, b_ptr b + off <= a < b_ptr b + off + zlen bytes -> Gs s c a) by (intros a R; eapply blk_Gs; [exact B|exact (QB _ _ _ _ Ec)|lia]).
      destruct (meet (Gs s c) (Cs s c) pr (section (mp_sz hl) (mp_n hl) c old) (obj s) hl he r (set_mem (obj s) (zwrite (b_ptr b + off) bytes (mp_mem (obj s)))) (set_mem hl (zwrite (b_ptr b + off) bytes (mp_mem hl))) X1 X2) as (he' & Y1 & Y2).
      * eexists. split; [reflexivity|]. split; [apply zlen_zwrite; lia|]. intros a NG. rewrite WO by exact X3. destruct ((b_ptr b + off <=? a) && (a <? b_ptr b + off + zlen bytes)) eqn:R; [|reflexivity]. exfalso. apply NG, GW. lia.
      * eexists. split; [reflexivity|]. split; [apply zlen_zwrite; lia|]. intros a NG. rewrite WO by reflexivity. destruct ((b_ptr b + off <=? a) && (a <? b_ptr b + off + zlen bytes)) eqn:R; [|reflexivity]. exfalso. apply NG, GW. lia.
      * intros a Ga. cbn [mp_mem set_mem]. rewrite !WO by (exact X3 || reflexivity). destruct ((b_ptr b + off <=? a) && (a <? b_ptr b + off + zlen bytes)); [reflexivity|apply X4, Ga].
      * apply Gb_dec.
      * exists c, old, pr, he', r. rewrite upd_pc_ne by exact NT. split; [exact Ec|]. unfold Gs, Cs in *. cbn [obj live set_mem mp_sz mp_mem mp_ctrl]. unfold lv. rewrite write_ext. split; [exact Y1|]. split; [exact Y2|]. split; [rewrite !zlen_zwrite by lia; exact X3|]. split; [|exact X5].
        intros a Ga. rewrite !WO by (exact X3 || reflexivity). destruct ((b_ptr b + off <=? a) && (a <? b_ptr b + off + zlen bytes)); [reflexivity|apply X4, Ga].
    + destruct I9 as (EO & H). split; [rewrite EO; reflexivity|]. intro u. destruct (Nat.eq_dec u t) as [->|NE2]; [rewrite upd_pc_eq; exact N'|rewrite upd_pc_ne by exact NE2; apply H].
Qed.

(** ** the lock is taken *)
Lemma inv_take k h0 s hl t c old : Inv k h0 s hl -> pcs s t = Wait c old -> holder s = None -> Inv k h0 (go (set_holder s (Some t)) t (In c old (section (mp_sz (obj s)) (mp_n (obj s)) c old))) hl.
Proof.
  intros [I1 I2 I3 I4 I5 I6 I7 I8 I9] E HO. rewrite HO in I9. destruct I9 as (EO & H). constructor; cbn [go set_holder obj holder pcs live log]; try assumption.
  - intro u. destruct (Nat.eq_dec u t) as [->|NE]; [rewrite upd_pc_eq|rewrite upd_pc_ne by exact NE; apply I6]. pose proof (I6 t) as P. rewrite E in P. exact P.
  - assert (X : forall u, busy (upd_pc (pcs s) t (In c old (section (mp_sz (obj s)) (mp_n (obj s)) c old)) u) = busy (pcs s u)). { intro u. destruct (Nat.eq_dec u t) as [->|NE]; [rewrite upd_pc_eq, E; reflexivity|rewrite upd_pc_ne by exact NE; reflexivity]. }
    intros u v p. rewrite !X. apply I7.
  - intro u. destruct (Nat.eq_dec u t) as [->|NE]; [rewrite upd_pc_eq|rewrite upd_pc_ne by exact NE; apply I8]. destruct (I8 t) as (p & P & O). rewrite E in O. exists p. auto.
  - split; [intros u NE; rewrite upd_pc_ne by exact NE; apply H|]. pose proof (I6 t) as (_ & SA). rewrite E in SA. destruct (section_ok k hl (live s) c old I2 SA) as (he & r & W & _ & _ & _).
    eexists c, old, _, he, r. rewrite upd_pc_eq. split; [reflexivity|]. unfold Gs, Cs. cbn [obj live go set_holder]. rewrite EO. split; [exact W|]. split; [exact W|]. auto.
Qed.
(** ** a step inside the lock *)
Lemma inv_in k h0 s hl t c old b : Inv k h0 s hl -> pcs s t = In c old b -> (forall r, b <> Done r) -> exists o b', exec (obj s) b = Ret (o, b') /\ Inv k h0 (go (set_obj s o) t (In c old b')) hl.
Proof.
  intros [I1 I2 I3 I4 I5 I6 I7 I8 I9] E ND. destruct (holder s) as [t0|] eqn:HO; [|exfalso; apply (proj2 I9 t); rewrite E; exact Logic.I].
  destruct I9 as (H & c0 & old0 & b0 & he & r & E0 & X1 & X2 & X3 & X4 & X5). destruct (Nat.eq_dec t t0) as [<-|NE]; [|exfalso; apply (H t NE); rewrite E; exact Logic.I].
  rewrite E in E0. injection E0 as <- <- <-. destruct (wp_step _ _ _ _ _ X1) as [(a & -> & _)|(o & b' & EX & W & (Q1 & Q2 & Q3 & Q4 & Q5))]; [exfalso; exact (ND a eq_refl)|].
  exists o, b'. split; [exact EX|]. constructor; cbn [go set_obj obj holder pcs live log]; try assumption; try congruence.
  - intro u. destruct (Nat.eq_dec u t) as [->|NE]; [rewrite upd_pc_eq|rewrite upd_pc_ne by exact NE; apply I6]. pose proof (I6 t) as P. rewrite E in P. exact P.
  - assert (X : forall u, busy (upd_pc (pcs s) t (In c old b') u) = busy (pcs s u)). { intro u. destruct (Nat.eq_dec u t) as [->|NE]; [rewrite upd_pc_eq, E; reflexivity|rewrite upd_pc_ne by exact NE; reflexivity]. }
    intros u v p. rewrite !X. apply I7.
  - intro u. destruct (Nat.eq_dec u t) as [->|NE]; [rewrite upd_pc_eq|rewrite upd_pc_ne by exact NE; apply I8]. destruct (I8 t) as (p & P & O). rewrite E in O. exists p. auto.
  - rewrite HO. split; [intros u NE; rewrite upd_pc_ne by exact NE; apply H, NE|]. exists c, old, b', he, r. rewrite upd_pc_eq. split; [reflexivity|]. unfold Gs, Cs in *. cbn [obj live go set_obj] in *. rewrite Q1. split; [exact W|]. split; [exact X2|]. split; [congruence|].
    split; [intros a Ga; rewrite Q4 by exact Ga; apply X4, Ga|intros i Gi; rewrite Q5 by exact Gi; apply X5, Gi].
Qed.

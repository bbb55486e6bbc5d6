(** Proofs for C77, part 2: the free lists *)
From Verif Require Import CBase SeqLib HashmapProof MpliteModel MpliteSpec MpliteProof MpliteProof2 MpliteProof3 MpliteProof4 MpliteProof6 MpMtModel MpMtProof.

Section W.
Variables (G GC : Z -> Prop).
Notation wp := (wp G GC).
(** everything that is protected belongs to live blocks *)
Definition prot (h : mp) (lf : leaves) : Prop :=
  (forall a, G a -> exists j M, lf j = Some (M, Live) /\ j * mp_sz h <= a < (j + 2 ^ M) * mp_sz h) /\ (forall i, GC i -> exists M, lf i = Some (M, Live)).
Definition clear_at (h : mp) (x : Z) : Prop := forall o, 0 <= o < mp_sz h -> ~ G (x * mp_sz h + o).
Lemma atom_clear h top lf fl i L s x : inv h top lf fl -> prot h lf -> lf i = Some (L, s) -> s <> Live -> i <= x < i + 2 ^ L -> clear_at h x.
Proof.
  intros V (P & _) A NS RX o RO Ga. destruct (P _ Ga) as (j & M & J & R). assert (i <> j) as NE by (intros ->; congruence).
  pose proof (v_sz _ _ _ _ V). destruct (t_disj _ _ (v_tile _ _ _ _ V) _ _ _ _ _ _ A J NE) as [X|X].
  - assert ((x + 1) * mp_sz h <= j * mp_sz h) by (apply Z.mul_le_mono_nonneg_r; lia). lia.
  - assert ((j + 2 ^ M) * mp_sz h <= x * mp_sz h) by (apply Z.mul_le_mono_nonneg_r; lia). lia.
Qed.
Lemma ctl_clear h lf i : prot h lf -> (forall M, lf i <> Some (M, Live)) -> ~ GC i.
Proof. intros (_ & P) N C. destruct (P i C) as (M & E). exact (N M E). Qed.
Lemma prot_keeps h lf h' lf' : prot h lf -> keeps h lf h' lf' -> prot h' lf'.
Proof.
  intros (P1 & P2) (Z & _ & _ & L & _). split.
  - intros a Ga. destruct (P1 a Ga) as (j & M & J & R). exists j, M. rewrite Z. split; [apply L; exact J|exact R].
  - intros i Ci. destruct (P2 i Ci) as (M & J). exists M. apply L. exact J.
Qed.
Lemma prot_eq h lf h' lf' : prot h lf -> mp_sz h' = mp_sz h -> (forall j M, lf j = Some (M, Live) -> lf' j = Some (M, Live)) -> prot h' lf'.
Proof.
  intros (P1 & P2) Z L. split.
  - intros a Ga. destruct (P1 a Ga) as (j & M & J & R). exists j, M. rewrite Z. auto.
  - intros i Ci. destruct (P2 i Ci) as (M & J). exists M. auto.
Qed.
Lemma free_clear h top lf fl L i : inv h top lf fl -> prot h lf -> List.In i (fl L) -> clear_at h i.
Proof.
  intros V P I. pose proof (fl_rng _ _ _ _ V L i I) as (A & RL & _). eapply atom_clear; [exact V|exact P|exact A|discriminate|]. pose proof (pow_pos L). lia.
Qed.
Lemma clear_next h x : 8 <= mp_sz h -> clear_at h x -> forall j, 0 <= j < 4 -> ~ G (x * mp_sz h + j).
Proof. intros Z C j J. apply C. lia. Qed.
Lemma clear_prev h x : 8 <= mp_sz h -> clear_at h x -> forall j, 0 <= j < 4 -> ~ G (x * mp_sz h + 4 + j).
Proof. intros Z C j J. rewrite <- Z.add_assoc. apply C. lia. Qed.
Lemma chk_true {T} b (k : prog T) h Q : b = true -> wp k h Q -> wp (chk b k) h Q.
Proof. intros -> W. exact W. Qed.
Lemma assert_inv b : assert_ b = Ret tt -> b = true. Proof. destruct b; [reflexivity|discriminate]. Qed.
Lemma bind_inv {A B} (x : outcome A) (f : A -> outcome B) r : (do y <- x; f y) = Ret r -> exists y, x = Ret y /\ f y = Ret r.
Proof. destruct x; cbn; intro E; [eauto|discriminate E..]. Qed.
Ltac peel E := match type of E with
  | bind (assert_ ?b) _ = Ret _ => let u := fresh "u" in let X := fresh "AS" in apply bind_inv in E as (u & X & E); destruct u; apply assert_inv in X
  | bind ?x _ = Ret _ => let y := fresh "y" in let X := fresh "ST" in apply bind_inv in E as (y & X & E) end.

Lemma wp_link {T} (k : prog T) h i l h' Q : 8 <= mp_sz h -> mplite_link h i l = Ret h' -> clear_at h i -> (forall x, mload (mp_free h) l = Ret x -> 0 <= x -> clear_at h x) -> wp k h' Q ->
  wp (link_code (mp_sz h) (mp_n h) i l k) h Q.
Proof.
  intros SZ E CI CX W. unfold mplite_link in E. do 8 peel E. unfold link_code. apply chk_true; [assumption|]. apply chk_true; [assumption|].
  cbn [MpMtProof.wp]. eexists. split; [exact ST|]. apply chk_true; [assumption|]. cbn [MpMtProof.wp]. eexists. split; [exact ST0|]. split; [apply clear_next; assumption|].
  unfold set_next in ST1. peel ST1. injection ST1 as <-. eexists. split; [exact ST4|]. split; [apply clear_prev; assumption|].
  unfold set_prev in ST2. peel ST2. injection ST2 as <-. cbn [mp_mem set_mem mp_sz] in *. eexists. split; [exact ST1|]. cbv zeta.
  destruct (0 <=? y0) eqn:Y.
  - peel ST3. apply chk_true; [exact AS2|]. unfold set_prev in ST3. peel ST3. injection ST3 as <-. cbn [MpMtProof.wp mp_mem set_mem mp_sz] in *. split; [apply clear_prev; [assumption|apply (CX y0 ST0); lia]|]. eexists. split; [exact ST2|].
    unfold store_head in E. peel E. injection E as <-. eexists. split; [exact ST3|exact W].
  - injection ST3 as <-. cbn [MpMtProof.wp]. unfold store_head in E. peel E. injection E as <-. eexists. split; [exact ST2|exact W].
Qed.
Lemma wp_unlink {T} (k : prog T) h i l h' Q : 8 <= mp_sz h -> mplite_unlink h i l = Ret h' -> clear_at h i -> (forall x, get_next h i = Ret x -> 0 <= x -> clear_at h x) -> (forall x, get_prev h i = Ret x -> 0 <= x -> clear_at h x) -> wp k h' Q ->
  wp (unlink_code (mp_sz h) (mp_n h) i l k) h Q.
Proof.
  intros SZ E CI CN CP W. unfold mplite_unlink in E. do 7 peel E. unfold unlink_code. apply chk_true; [assumption|]. apply chk_true; [assumption|].
  cbn [MpMtProof.wp]. eexists. split; [exact ST|]. apply chk_true; [assumption|]. cbn [MpMtProof.wp]. split; [apply clear_next; assumption|]. eexists. split; [exact ST0|]. split; [apply clear_prev; assumption|]. eexists. split; [exact ST1|]. cbv zeta.
  assert (REST : wp (if 0 <=? y0 then St (y0 * mp_sz h + 4) y1 k else k) y2 Q).
  { assert (mp_sz y2 = mp_sz h) as Z2. { destruct (y1 <? 0); unfold store_head, set_next in ST2; peel ST2; injection ST2 as <-; reflexivity. }
    destruct (0 <=? y0) eqn:Y; [|injection E as <-; exact W]. unfold set_prev in E. peel E. injection E as <-. cbn [MpMtProof.wp]. split; [apply clear_prev; [assumption|apply (CN y0 ST0); lia]|]. eexists. split; [rewrite <- Z2; exact ST3|exact W]. }
  destruct (y1 <? 0) eqn:Y1.
  - unfold store_head in ST2. peel ST2. injection ST2 as <-. cbn [MpMtProof.wp]. eexists. split; [exact ST3|exact REST].
  - unfold set_next in ST2. peel ST2. injection ST2 as <-. cbn [MpMtProof.wp]. split; [apply clear_next; [assumption|apply (CP y1 ST1); lia]|]. eexists. split; [exact ST3|exact REST].
Qed.
(** the block unlinked is in its list, so its neighbours are free too *)
Lemma wp_unlink_free {T} (k : prog T) h top lf fl i L h' Q : inv h top lf fl -> prot h lf -> lf i = Some (L, Free) -> mplite_unlink h i L = Ret h' -> wp k h' Q -> wp (unlink_code (mp_sz h) (mp_n h) i L k) h Q.
Proof.
  intros V P A E W. pose proof (proj2 (v_in _ _ _ _ V L i) A) as I. destruct (in_split _ _ I) as (a & b & F). pose proof (v_dll _ _ _ _ V L) as D. rewrite F in D. apply dseg_app in D as (_ & D). cbn [dseg hd] in D.
  eapply wp_unlink; [apply (v_sz _ _ _ _ V)|exact E|eapply free_clear; [exact V|exact P|exact I]| | |exact W].
  - intros x X RX. destruct D as (N & _). rewrite X in N. injection N as ->. destruct b as [|y b0]; [cbn in RX; lia|]. cbn [hd]. eapply free_clear; [exact V|exact P|]. rewrite F. apply in_app_iff. right. right. left. reflexivity.
  - intros x X RX. destruct D as (_ & N & _). rewrite X in N. injection N as ->. destruct a as [|y a0]; [cbn in RX; lia|]. eapply free_clear; [exact V|exact P|]. rewrite F. apply in_app_iff. left. apply last_in. discriminate.
Qed.
Lemma wp_link_held {T} (k : prog T) h top lf fl i L x s h' Q : inv h top lf fl -> prot h lf -> lf x = Some (s, Held) -> x <= i < x + 2 ^ s -> 0 <= L <= 30 -> mplite_link h i L = Ret h' -> wp k h' Q -> wp (link_code (mp_sz h) (mp_n h) i L k) h Q.
Proof.
  intros V P A RI RL E W. eapply wp_link; [apply (v_sz _ _ _ _ V)|exact E|eapply atom_clear; [exact V|exact P|exact A|discriminate|exact RI]| |exact W].
  intros y Y RY. destruct (head_hd _ _ _ _ L V RL) as (z & Z & _ & Z2). rewrite Y in Z. injection Z as <-. destruct (Z2 RY) as (r & F). eapply free_clear; [exact V|exact P|]. rewrite F. left. reflexivity.
Qed.

Lemma wp_find {T} h : forall fuel bin b' (k : Z -> prog T) Q, find_bin fuel h bin = Ret b' -> wp (k b') h Q -> wp (find_code fuel bin k) h Q.
Proof.
  induction fuel as [|fuel IH]; intros bin b' k Q E W; cbn [find_bin find_code] in *; (destruct (bin <=? 30); [|injection E as <-; exact W]); peel E; cbn [MpMtProof.wp]; (eexists; split; [exact ST|]).
  - destruct (y <? 0); [discriminate E|injection E as <-; exact W].
  - destruct (y <? 0); [eapply IH; eassumption|injection E as <-; exact W].
Qed.
Lemma wp_split {T} : forall d h lf fl i l h' (k : prog T) Q, inv h (mp_n h) lf fl -> prot h lf -> 0 <= l -> lf i = Some (l + Z.of_nat d, Held) -> split_loop d h i l = Ret h' -> wp k h' Q ->
  wp (split_code (mp_sz h) (mp_n h) d i l k) h Q.
Proof.
  induction d as [|d IH]; intros h lf fl i l h' k Q V P HL A E W; [injection E as <-; exact W|].
  replace (l + Z.of_nat (S d)) with ((l + Z.of_nat d) + 1) in A by lia. pose proof (leaf_rng _ _ _ _ V _ _ _ A) as (RL & RI & RN & RI2 & DI).
  destruct (split_loop_ok 1 h lf fl i (l + Z.of_nat d) V ltac:(lia)) as (h1 & lf1 & fl1 & E1 & V1 & A1 & K1 & _); [rewrite A; reflexivity|]. cbn [split_loop] in E, E1 |- *. rewrite Z.add_0_r in E1.
  set (B := l + Z.of_nat d) in *. assert (HB : 0 <= B) by lia. pose proof (pow_pos B HB) as PB. rewrite pow_S in RN by lia.
  apply bind_inv in E1 as (hc & E1 & E2). apply bind_inv in E2 as (hl & E2 & E3). injection E3 as ->. rewrite E1 in E. cbn [bind] in E. rewrite E2 in E. cbn [bind] in E.
  destruct K1 as (Z1 & N1 & K1). cbn [split_code]. fold B. unfold store_ctrl in E1. apply bind_inv in E1 as (c & E1 & EC). injection EC as <-. rewrite Z.shiftl_mul_pow2, Z.mul_1_l in * by lia. cbn [MpMtProof.wp]. split.
  - eapply ctl_clear; [exact P|]. intros M X. assert (i + 2 ^ B <> i) by lia. rewrite (split_none _ _ (v_tile _ _ _ _ V) i B Held HB A) in X. discriminate X.
  - eexists. split; [exact E1|].
    eapply (wp_link _ (set_ctrl h c)); [apply (v_sz _ _ _ _ V)|exact E2| | |].
    + change (clear_at h (i + 2 ^ B)). eapply atom_clear; [exact V|exact P|exact A|discriminate|]. rewrite pow_S by lia. lia.
    + intros y Y RY. cbn [mp_free set_ctrl] in Y. destruct (head_hd _ _ _ _ B V ltac:(lia)) as (z & Z & _ & Z2). rewrite Y in Z. injection Z as <-. destruct (Z2 RY) as (r & F). change (clear_at h y). eapply free_clear; [exact V|exact P|]. rewrite F. left. reflexivity.
    + cbn [mp_sz mp_n set_ctrl]. rewrite <- Z1, <- N1. eapply (IH h1 lf1 fl1); [exact V1| |exact HL|exact A1|exact E|exact W].
      eapply prot_keeps; [exact P|]. split; [exact Z1|]. split; [exact N1|exact K1].
Qed.
End W.

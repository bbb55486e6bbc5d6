(** Proofs for C77, part 4: each locked section, run alone, does what the call does *)
From Coq Require Import Permutation.
From Verif Require Import CBase SeqLib HashmapProof MpliteModel MpliteSpec MpliteProof MpliteProof2 MpliteProof3 MpliteProof4 MpliteProof5 MpliteProof6 MpMtModel MpMtSpec MpMtProof MpMtProof2 MpMtProof3.

Section W.
Variables (G GC : Z -> Prop).
Notation wp := (wp G GC).
Notation prot := (prot G GC).
Lemma int_wp {T} v x (k : Z -> prog T) h Q : sint v = Ret x -> wp (k x) h Q -> wp (int_ v k) h Q.
Proof. unfold int_. intros -> W. exact W. Qed.
Lemma wp_maxmem {T} h : forall j v (k : Z -> prog T) Q, maxmem_loop j h = Ret v -> wp (k v) h Q -> wp (maxmem_code (mp_sz h) j k) h Q.
Proof.
  induction j as [|j IH]; intros v k Q E W; cbn [maxmem_loop maxmem_code] in *; [injection E as <-; exact W|]. apply bind_inv in E as (x & X & E). cbn [MpMtProof.wp]. exists x. split; [exact X|].
  destruct (x =? -1); [eapply IH; eassumption|]. eapply int_wp; eassumption.
Qed.
Lemma wp_walk {T} h pv bs (k : Z -> prog T) Q : 8 <= mp_sz h -> forall l p fuel total t, dseg (get_next h) pv p l (-1) -> (forall i, List.In i l -> 0 <= i /\ clear_at G h i) -> walk fuel h (hd (-1) l) bs total = Ret t -> wp (k t) h Q ->
  wp (walk_code (mp_sz h) fuel (hd (-1) l) bs total k) h Q.
Proof.
  intro SZ. induction l as [|i l IH]; intros p fuel total t D R E W.
  - cbn [hd] in *. destruct fuel; cbn [walk walk_code] in *; rewrite Z.eqb_refl in *; injection E as <-; exact W.
  - cbn [hd] in *. destruct (R i (or_introl eq_refl)) as (RI & CI). destruct fuel; cbn [walk walk_code] in *; (destruct (i =? -1) eqn:X; [lia|]); [discriminate E|]. cbn [dseg] in D. destruct D as (N & _ & D).
    rewrite N in E. cbn [bind] in E. apply bind_inv in E as (t1 & S & E). cbn [MpMtProof.wp]. split; [apply clear_next; assumption|]. eexists. split; [exact N|]. eapply int_wp; [exact S|]. eapply IH; [exact D|intros j J; apply R; right; exact J|exact E|exact W].
Qed.
Lemma wp_freemem {T} h top lf fl (V : inv h top lf fl) (P : prot h lf) : forall j total t (k : Z -> prog T) Q, (j <= 31)%nat -> freemem_loop j h total = Ret t -> wp (k t) h Q -> wp (freemem_code (mp_sz h) (mp_n h) j total k) h Q.
Proof.
  induction j as [|j IH]; intros total t k Q RJ E W; cbn [freemem_loop freemem_code] in *; [injection E as <-; exact W|]. cbv zeta in *.
  assert (RL : 0 <= 30 - Z.of_nat j <= 30) by lia. pose proof (mload_znth _ _ _ (v_head _ _ _ _ V _ RL)) as H. rewrite H in E. cbn [bind] in E. cbn [MpMtProof.wp]. eexists. split; [exact H|].
  apply bind_inv in E as (t1 & WK & E). eapply wp_walk; [apply (v_sz _ _ _ _ V)|apply (v_dll _ _ _ _ V)| |exact WK|].
  - intros i I. split; [apply (fl_rng _ _ _ _ V) in I; lia|]. eapply free_clear; eassumption.
  - apply (IH t1 t); [lia|exact E|exact W].
Qed.
(** memcpy between two places that do not overlap *)
Lemma wp_copy {T} (kk : prog T) Q : forall m h p q s m2, 0 <= p -> 0 <= q -> (p + Z.of_nat m <= q \/ q + Z.of_nat m <= p) -> (forall j, 0 <= j < Z.of_nat m -> ~ G (p + j) /\ ~ G (q + j)) ->
  mread (mp_mem h) p (Z.of_nat m) = Ret s -> mwrite (mp_mem h) q s = Ret m2 -> wp kk (set_mem h m2) Q -> wp (copy_code m p q kk) h Q.
Proof.
  induction m as [|m IH]; intros h p q s m2 RP RQ AP NG E1 E2 W.
  - cbn [copy_code]. unfold mread in E1. destruct (_ && _) in E1; [|discriminate E1]. injection E1 as <-. apply mwrite_Ret in E2 as (_ & _ & ->).
    assert (zlen (zsub p (Z.of_nat 0) (mp_mem h)) = 0 -> zsub p (Z.of_nat 0) (mp_mem h) = []) as X. { generalize (zsub p (Z.of_nat 0) (mp_mem h)). intros [|? ?]; [reflexivity|]. unfold zlen. cbn. lia. }
    assert (zsub p (Z.of_nat 0) (mp_mem h) = []) as Y. { unfold zsub, ztake. reflexivity. } rewrite Y in W.
    assert (zwrite q [] (mp_mem h) = mp_mem h) as Z0. { unfold zwrite. change (zlen (@nil Z)) with 0. rewrite Z.add_0_r. cbn [app]. unfold ztake, zdrop. apply firstn_skipn. } rewrite Z0 in W. destruct h; exact W.
  - unfold mread in E1. destruct ((0 <=? p) && (0 <=? Z.of_nat (S m)) && (p + Z.of_nat (S m) <=? zlen (mp_mem h))) eqn:B; [|discriminate E1]. injection E1 as <-. apply mwrite_Ret in E2 as (_ & B2 & ->). rewrite zlen_zsub in B2 by lia.
    cbn [copy_code MpMtProof.wp]. destruct (NG 0 ltac:(lia)) as (N1 & N2). rewrite !Z.add_0_r in *. split; [exact N1|]. destruct (znth_in_range p (mp_mem h) ltac:(lia)) as (v & Hv). exists v. split; [apply mload_znth; exact Hv|]. split; [exact N2|].
    destruct (mstore_ok (mp_mem h) q v ltac:(lia)) as (m1 & E & L1 & X1 & Y1). exists m1. split; [exact E|].
    eapply (IH (set_mem h m1) (p + 1) (q + 1) (zsub (p + 1) (Z.of_nat m) m1) (zwrite (q + 1) (zsub (p + 1) (Z.of_nat m) m1) m1)); [lia|lia|lia| | | |].
    + intros j J. rewrite <- !Z.add_assoc. apply NG. lia.
    + cbn [mp_mem set_mem]. apply mread_ok; lia.
    + cbn [mp_mem set_mem]. apply mwrite_ok; [lia|rewrite zlen_zsub; lia].
    + cbn [set_mem]. assert (zwrite (q + 1) (zsub (p + 1) (Z.of_nat m) m1) m1 = zwrite q (zsub p (Z.of_nat (S m)) (mp_mem h)) (mp_mem h)) as EQ; [|rewrite EQ; exact W].
      assert (LL : zlen (zwrite q (zsub p (Z.of_nat (S m)) (mp_mem h)) (mp_mem h)) = zlen (mp_mem h)) by (apply zlen_zwrite; [lia|rewrite zlen_zsub; lia]).
      assert (LL1 : zlen (zwrite (q + 1) (zsub (p + 1) (Z.of_nat m) m1) m1) = zlen m1) by (apply zlen_zwrite; [lia|rewrite zlen_zsub; lia]).
      apply znth_ext; [congruence|]. intros i RI. rewrite LL1, L1 in RI. rewrite !znth_zwrite; rewrite ?zlen_zsub; try lia.
      destruct ((q <=? i) && (i <? q + Z.of_nat (S m))) eqn:I1.
      * rewrite (znth_zsub _ p) by lia. destruct ((q + 1 <=? i) && (i <? q + 1 + Z.of_nat m)) eqn:I2.
        -- rewrite znth_zsub by lia. rewrite Y1 by lia. f_equal. lia.
        -- assert (i = q) as -> by lia. rewrite X1, Z.sub_diag, Z.add_0_r. symmetry. exact Hv.
      * destruct ((q + 1 <=? i) && (i <? q + 1 + Z.of_nat m)) eqn:I2; [lia|]. apply Y1. lia.
Qed.
End W.

(** ** the protected bytes: the blocks other than the one the section was given *)
Definition ext (l : list blk) : list (Z * Z) := map (fun b => (b_ptr b, b_size b)) l.
Definition Gb (x : list (Z * Z)) (own : option Z) (a : Z) : Prop := exists p n, List.In (p, n) x /\ own <> Some p /\ p <= a < p + n.
Definition Gc (sz : Z) (x : list (Z * Z)) (own : option Z) (i : Z) : Prop := exists n, List.In (i * sz, n) x /\ own <> Some (i * sz).
Lemma Gb_dec x own a : {Gb x own a} + {~ Gb x own a}.
Proof.
  induction x as [|(p, n) x IH]; [right; intros (p & n & [] & _)|]. destruct IH as [Y|N].
  - left. destruct Y as (p' & n' & I & R). exists p', n'. split; [right; exact I|exact R].
  - destruct (Z_le_gt_dec p a) as [A1|A1]; [destruct (Z_lt_ge_dec a (p + n)) as [A2|A2]; [assert ({own = Some p} + {own <> Some p}) as [O|O] by (repeat decide equality)|]|].
    + right. intros (p' & n' & [I|I] & O' & R'); [injection I as <- <-; congruence|]. apply N. exists p', n'. auto.
    + left. exists p, n. split; [left; reflexivity|]. split; [exact O|lia].
    + right. intros (p' & n' & [I|I] & O' & R'); [injection I as <- <-; lia|]. apply N. exists p', n'. auto.
    + right. intros (p' & n' & [I|I] & O' & R'); [injection I as <- <-; lia|]. apply N. exists p', n'. auto.
Qed.
Lemma in_ext l p n : List.In (p, n) (ext l) <-> exists b, List.In b l /\ b_ptr b = p /\ b_size b = n.
Proof.
  unfold ext. rewrite in_map_iff. split; [intros (b & E & I); injection E as <- <-; exists b; auto|intros (b & I & <- & <-); exists b; auto].
Qed.
Lemma prot_live k h l lf fl own : C k h l lf fl -> prot (Gb (ext l) own) (Gc (mp_sz h) (ext l) own) h lf.
Proof.
  intro V. pose proof (v_sz _ _ _ _ (c_inv _ _ _ _ _ V)) as SZ. split.
  - intros a (p & n & I & _ & R). apply in_ext in I as (b & B & <- & <-). destruct (c_blk _ _ _ _ _ V b B) as (i & L & P & A & S & _). exists i, L. split; [exact A|]. rewrite P, S in R. nia.
  - intros i (n & I & _). apply in_ext in I as (b & B & E & _). destruct (c_blk _ _ _ _ _ V b B) as (j & L & P & A & _). exists L. rewrite P in E. apply Z.mul_reg_r in E; [|lia]. subst j. exact A.
Qed.
Lemma prot_own k h l lf fl b i L : C k h l lf fl -> b_ptr b = i * mp_sz h -> lf i = Some (L, Live) -> prot (Gb (ext l) (Some (b_ptr b))) (Gc (mp_sz h) (ext l) (Some (b_ptr b))) h (upd lf i (Some (L, Held))).
Proof.
  intros V PB A. pose proof (v_sz _ _ _ _ (c_inv _ _ _ _ _ V)) as SZ. pose proof (prot_live k h l lf fl (Some (b_ptr b)) V) as (P1 & P2). split.
  - intros a (p & n & I & O & R). apply in_ext in I as (c & B & <- & <-). destruct (c_blk _ _ _ _ _ V c B) as (j & M & P & A' & S & _). exists j, M. split; [|rewrite P, S in R; nia]. rewrite upd_ne; [exact A'|]. intros ->. congruence.
  - intros j X. destruct (P2 j X) as (M & A'). exists M. rewrite upd_ne; [exact A'|]. intros ->. destruct X as (n & _ & O). congruence.
Qed.

(** ** the sections *)
Definition size_arg (l : list blk) (c : call) (old : Z) : Prop :=
  match c with
  | CMalloc m | CCalloc m => 0 < m < two31
  | CFree p => exists b, List.In b l /\ b_ptr b = p
  | CRealloc p m => bad_size m = false /\ m < two31 /\ old < m /\ exists b, List.In b l /\ b_ptr b = p /\ b_size b = old
  | CResize _ _ => False
  | _ => True
  end.
Lemma section_ok k h l c old : cinv k h l -> size_arg l c old ->
  exists he r, ends (Gb (ext l) (ptr_of c)) (Gc (mp_sz h) (ext l) (ptr_of c)) (section (mp_sz h) (mp_n h) c old) h he r /\ atomic h l c r he /\ cinv k he (own_step (2 ^ k) l c r) /\ mp_n he = mp_n h.
Proof.
  intros CI OK. pose proof CI as (lf & fl & V). pose proof (c_inv _ _ _ _ _ V) as I. unfold ends. destruct c as [m|m|p|p m|p m| |]; cbn [size_arg ptr_of section] in *.
  - destruct (step_ok k h l (OMalloc m) CI ltac:(cbn; unfold two31 in *; lia)) as (he & x & E & CI' & N). cbn [mp_step] in E. exists he, (RPtr x). split; [|split; [exists x; auto|split; [exact CI'|exact N]]].
    unfold mplite_malloc in E. destruct (Z.leb_spec m 0); [lia|]. eapply wp_malloc; [exact I|apply (prot_live _ _ _ _ _ _ V)|apply (c_sz _ _ _ _ _ V)|apply (c_k _ _ _ _ _ V)|exact E|]. cbn. auto.
  - destruct (step_ok k h l (OMalloc m) CI ltac:(cbn; unfold two31 in *; lia)) as (he & x & E & CI' & N). cbn [mp_step] in E. exists he, (RPtr x). split; [|split; [exists x; auto|split; [exact CI'|exact N]]].
    unfold mplite_malloc in E. destruct (Z.leb_spec m 0); [lia|]. eapply wp_malloc; [exact I|apply (prot_live _ _ _ _ _ _ V)|apply (c_sz _ _ _ _ _ V)|apply (c_k _ _ _ _ _ V)|exact E|]. cbn. auto.
  - destruct (step_ok k h l (OFree p) CI OK) as (he & x & E & CI' & N). cbn [mp_step] in E. apply bind_inv in E as (he' & E & X). injection X as -> <-. exists he, RVoid. split; [|split; [split; [exact E|split; [reflexivity|exact OK]]|split; [exact CI'|exact N]]].
    destruct OK as (b & B & <-). destruct (c_blk _ _ _ _ _ V b B) as (i & L & P & A & S & _). cbn [mplite_free] in E. pose proof (prot_own _ _ _ _ _ b i L V P A) as PR. rewrite P in E |- *. rewrite P in PR.
    eapply wp_free; [exact I|apply (c_clean _ _ _ _ _ V)|exact A|exact PR|exact E|]. cbn. auto.
  - destruct OK as (BS & RM & RO & b & B & <- & <-). assert (OK : ok_op l (ORealloc (b_ptr b) m)). { split; [unfold bad_size in BS; unfold two31 in *; lia|exists b; auto]. }
    destruct (step_ok k h l (ORealloc (b_ptr b) m) CI OK) as (he & x & E & CI' & N). cbn [mp_step] in E. exists he, (RPtr x). split; [|split; [exists x; auto|split; [exact CI'|exact N]]].
    cbn [mplite_realloc] in E. unfold bad_size in BS. rewrite BS in E. rewrite (size_ok _ _ _ _ _ b V B) in E. cbn [bind] in E. destruct (Z.leb_spec m (b_size b)); [lia|].
    apply bind_inv in E as ((h1 & x1) & E1 & E). pose proof (prot_live _ _ _ _ _ (Some (b_ptr b)) V) as PR.
    eapply wp_malloc; [exact I|exact PR|apply (c_sz _ _ _ _ _ V)|apply (c_k _ _ _ _ _ V)|exact E1|]. destruct x1 as [q|]; [|injection E as <- <-; cbn; auto].
    destruct (malloc_head _ _ _ _ _ m V ltac:(unfold two31 in *; lia)) as (h1' & r1 & E1' & N1 & R1). rewrite E1 in E1'. injection E1' as <- <-. destruct R1 as (RM1 & (lf1 & fl1 & V1) & _).
    set (nb := mk_b q (fit (2 ^ k) m) (repeat None (Z.to_nat m))) in *. set (Gx := Gb (ext l) (Some (b_ptr b))) in *. set (Cx := Gc (mp_sz h) (ext l) (Some (b_ptr b))) in *.
    assert (B1 : List.In b (nb :: l)) by (right; exact B). pose proof (C_in _ _ _ _ _ b V1 B1) as BI. pose proof (C_in _ _ _ _ _ nb V1 (or_introl eq_refl)) as QI. cbn [b_ptr b_size nb] in QI. pose proof (C_size _ _ _ _ _ b V B) as SB. pose proof (fit_ge (2 ^ k) m ltac:(lia)) as FG.
    assert (NE : b_ptr b <> q). { pose proof (c_nd _ _ _ _ _ V1) as ND. cbn [map b_ptr nb] in ND. inversion_clear ND as [|? ? NI _]. intros <-. apply NI. apply in_map. exact B. }
    pose proof (C_apart _ _ _ _ _ b nb V1 B1 (or_introl eq_refl) NE) as AP. unfold apart in AP. cbn [b_ptr b_size nb] in AP.
    assert (NG : forall j, 0 <= j < b_size b -> ~ Gx (b_ptr b + j) /\ ~ Gx (q + j)).
    { intros j RJ. split; intros (p & n & X & O & R); apply in_ext in X as (c & Bc & <- & <-).
      - assert (b_ptr c <> b_ptr b) by congruence. destruct (C_apart _ _ _ _ _ c b V Bc B ltac:(assumption)); lia.
      - assert (b_ptr c <> q). { pose proof (c_nd _ _ _ _ _ V1) as ND. cbn [map b_ptr nb] in ND. inversion_clear ND as [|? ? NI _]. intros <-. apply NI. apply in_map. exact Bc. }
        destruct (C_apart _ _ _ _ _ c nb V1 (or_intror Bc) (or_introl eq_refl) ltac:(assumption)) as [Y|Y]; cbn [b_ptr b_size nb] in Y; lia. }
    apply bind_inv in E as (s & E2 & E). apply bind_inv in E as (m2 & E3 & E). apply bind_inv in E as (h3 & E4 & E). injection E as -> <-.
    pose proof (v_mem _ _ _ _ (c_inv _ _ _ _ _ V1)) as LM.
    eapply wp_copy; rewrite ?Z2Nat.id by lia; [lia|lia|lia|exact NG|exact E2|exact E3|].
    assert (S2 : s = zsub (b_ptr b) (b_size b) (mp_mem h1)). { rewrite mread_ok in E2 by lia. injection E2 as <-. reflexivity. }
    assert (ZS : zlen s = b_size b) by (rewrite S2; apply zlen_zsub; lia).
    destruct (write_head _ _ nb _ _ _ 0 s (repeat None (Z.to_nat m)) V1) as (m3 & W3 & V3); cbn [b_ptr b_size b_data nb]; rewrite ?zlen_repeat; try lia.
    { intros j v RJ J. exfalso. pose proof (data_none [] 0 m j v RJ J) as X. rewrite (proj2 (znth_None_iff _ _)) in X by (change (zlen (@nil Z)) with 0; lia). discriminate X. }
    cbn [b_ptr nb] in W3. rewrite Z.add_0_r, E3 in W3. injection W3 as <-.
    destruct (c_blk _ _ _ _ _ V3 b (or_intror B)) as (i & L & P & A & S & _). cbn [mp_sz set_mem] in P, S. pose proof (prot_own _ _ _ _ _ b i L V3 P A) as PRo.
    assert (Z1 : mp_sz h1 = mp_sz h) by (rewrite (c_sz _ _ _ _ _ V1), (c_sz _ _ _ _ _ V); reflexivity). rewrite P in E4 |- *. rewrite <- Z1, <- N1. change (mp_sz h1) with (mp_sz (set_mem h1 m2)). change (mp_n h1) with (mp_n (set_mem h1 m2)).
    eapply wp_free; [apply (c_inv _ _ _ _ _ V3)|apply (c_clean _ _ _ _ _ V3)|exact A| |exact E4|cbn; auto].
    destruct PRo as (PA & PC). split.
    + intros a (pp & n & X & O & R). apply PA. exists pp, n. split; [right; exact X|split; [exact O|exact R]].
    + intros j (n & X & O). apply PC. cbn [mp_sz set_mem]. rewrite Z1. exists n. split; [right; exact X|exact O].
  - contradiction.
  - destruct (maxmem_ok k h l CI) as (v & E & _). exists h, (RInt v). split; [|split; [exists v; auto|split; [exact CI|reflexivity]]]. eapply wp_maxmem; [exact E|]. cbn. auto.
  - pose proof (freemem_ok k h l CI) as E. eexists h, (RInt _). split; [|split; [eexists; split; [exact E|split; reflexivity]|split; [exact CI|reflexivity]]].
    unfold mplite_freemem in E. apply bind_inv in E as (t & E1 & E2). eapply wp_freemem; [exact I|apply (prot_live _ _ _ _ _ _ V)|lia|exact E1|]. eapply int_wp; [exact E2|]. cbn. auto.
Qed.

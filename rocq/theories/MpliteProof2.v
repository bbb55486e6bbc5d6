From Verif Require Import CBase SeqLib HashmapProof MpliteModel MpliteProof.

(** ** the links in the first bytes of free blocks *)
Lemma store_atom n sz mem i o v : 8 <= sz -> 0 <= i < n -> zlen mem = n * sz -> o = 0 \/ o = 4 -> - two31 <= v < two31 ->
  exists m, store_int mem (i * sz + o) v = Ret m /\ zlen m = zlen mem /\
    (forall j o', 0 <= j < n -> o' = 0 \/ o' = 4 -> load_int m (j * sz + o') = if (j =? i) && (o' =? o) then Ret v else load_int mem (j * sz + o')) /\
    (forall a, a < i * sz \/ (i + 1) * sz <= a -> znth a m = znth a mem).
Proof.
  intros SZ RI LM O RV. assert (i * sz + sz <= n * sz) by nia. assert (0 <= i * sz) by nia.
  destruct (load_store mem (i * sz + o) v RV ltac:(lia) ltac:(lia)) as (m & E & L & LD & FR). exists m. split; [exact E|]. split; [exact L|]. split.
  - intros j o' RJ O'. destruct ((j =? i) && (o' =? o)) eqn:Q.
    + apply andb_true_iff in Q as [Q1 Q2]. assert (j = i) as -> by lia. assert (o' = o) as -> by lia. exact LD.
    + apply load_ext; [exact L|]. intros k K. apply FR. destruct (Z.eq_dec j i) as [->|NE]; [lia|].
      destruct (Z_lt_ge_dec j i); [assert ((j + 1) * sz <= i * sz) by (apply Z.mul_le_mono_nonneg_r; lia)|assert ((i + 1) * sz <= j * sz) by (apply Z.mul_le_mono_nonneg_r; lia)]; lia.
  - intros a A. apply FR. lia.
Qed.
Lemma set_next_ok h i v : 8 <= mp_sz h -> 0 <= i < mp_n h -> zlen (mp_mem h) = mp_n h * mp_sz h -> - two31 <= v < two31 ->
  exists m, set_next h i v = Ret (set_mem h m) /\ zlen m = zlen (mp_mem h) /\
    (forall j, 0 <= j < mp_n h -> get_next (set_mem h m) j = if j =? i then Ret v else get_next h j) /\
    (forall j, 0 <= j < mp_n h -> get_prev (set_mem h m) j = get_prev h j) /\
    (forall a, a < i * mp_sz h \/ (i + 1) * mp_sz h <= a -> znth a m = znth a (mp_mem h)).
Proof.
  intros SZ RI LM RV. destruct (store_atom _ _ _ i 0 v SZ RI LM (or_introl eq_refl) RV) as (m & E & L & LD & FR). exists m.
  unfold set_next. rewrite Z.add_0_r in E. rewrite E. cbn [bind]. split; [reflexivity|]. split; [exact L|]. split; [|split; [|exact FR]].
  - intros j RJ. unfold get_next. cbn [mp_mem mp_sz set_mem]. specialize (LD j 0 RJ (or_introl eq_refl)). rewrite Z.add_0_r, Z.eqb_refl, andb_true_r in LD. exact LD.
  - intros j RJ. unfold get_prev. cbn [mp_mem mp_sz set_mem]. specialize (LD j 4 RJ (or_intror eq_refl)). rewrite andb_false_r in LD. exact LD.
Qed.
Lemma set_prev_ok h i v : 8 <= mp_sz h -> 0 <= i < mp_n h -> zlen (mp_mem h) = mp_n h * mp_sz h -> - two31 <= v < two31 ->
  exists m, set_prev h i v = Ret (set_mem h m) /\ zlen m = zlen (mp_mem h) /\
    (forall j, 0 <= j < mp_n h -> get_prev (set_mem h m) j = if j =? i then Ret v else get_prev h j) /\
    (forall j, 0 <= j < mp_n h -> get_next (set_mem h m) j = get_next h j) /\
    (forall a, a < i * mp_sz h \/ (i + 1) * mp_sz h <= a -> znth a m = znth a (mp_mem h)).
Proof.
  intros SZ RI LM RV. destruct (store_atom _ _ _ i 4 v SZ RI LM (or_intror eq_refl) RV) as (m & E & L & LD & FR). exists m.
  unfold set_prev. rewrite E. cbn [bind]. split; [reflexivity|]. split; [exact L|]. split; [|split; [|exact FR]].
  - intros j RJ. unfold get_prev. cbn [mp_mem mp_sz set_mem]. specialize (LD j 4 RJ (or_intror eq_refl)). rewrite Z.eqb_refl, andb_true_r in LD. exact LD.
  - intros j RJ. unfold get_next. cbn [mp_mem mp_sz set_mem]. specialize (LD j 0 RJ (or_introl eq_refl)). rewrite Z.add_0_r, andb_false_r in LD. exact LD.
Qed.

(** ** the invariant *)
Record inv (h : mp) (top : Z) (lf : leaves) (fl : Z -> list Z) : Prop := {
  v_sz : 8 <= mp_sz h;
  v_top : 0 <= top <= mp_n h;
  v_max : mp_n h * (mp_sz h + 1) < two31;
  v_mem : zlen (mp_mem h) = mp_n h * mp_sz h;
  v_ctl : zlen (mp_ctrl h) = mp_n h;
  v_hdl : zlen (mp_free h) = 31;
  v_tile : tiling top lf;
  v_cf : forall i L, lf i = Some (L, Free) -> znth i (mp_ctrl h) = Some (32 + L);
  v_cl : forall i L, lf i = Some (L, Live) -> znth i (mp_ctrl h) = Some L;
  v_nd : forall L, NoDup (fl L);
  v_in : forall L i, In i (fl L) <-> lf i = Some (L, Free);
  v_head : forall L, 0 <= L <= 30 -> znth L (mp_free h) = Some (hd (-1) (fl L));
  v_dll : forall L, dseg (get_next h) (get_prev h) (-1) (fl L) (-1);
  v_co : forall i L, lf i = Some (L, Free) -> lf (buddy L i) = Some (L, Free) -> False }.

Definition levels : list Z := map Z.of_nat (seq 0 31).
Definition fsum_on (ls : list Z) (fl : Z -> list Z) : Z := fold_right (fun L a => 2 ^ L * zlen (fl L) + a) 0 ls.
Definition fsum := fsum_on levels.
Lemma fsum_upd_on ls fl L x : NoDup ls -> fsum_on ls (upd fl L x) = fsum_on ls fl + (if in_dec Z.eq_dec L ls then 2 ^ L * (zlen x - zlen (fl L)) else 0).
Proof.
  induction 1 as [|M ls NI ND IH]; [reflexivity|]. unfold fsum_on in *. cbn [fold_right]. rewrite IH. destruct (Z.eq_dec M L) as [->|NE].
  - rewrite upd_eq. destruct (in_dec Z.eq_dec L ls); [contradiction|]. destruct (in_dec Z.eq_dec L (L :: ls)) as [_|C]; [ring|exfalso; apply C; left; reflexivity].
  - rewrite upd_ne by exact NE. destruct (in_dec Z.eq_dec L ls) as [I|I]; destruct (in_dec Z.eq_dec L (M :: ls)) as [J|J]; try ring.
    + exfalso; apply J; right; exact I.
    + exfalso; destruct J as [->|J]; [congruence|contradiction].
Qed.
Lemma levels_in L : In L levels <-> 0 <= L <= 30.
Proof.
  unfold levels. rewrite in_map_iff. split.
  - intros (k & <- & I). apply in_seq in I. lia.
  - intro R. exists (Z.to_nat L). split; [lia|apply in_seq; lia].
Qed.
Lemma levels_nd : NoDup levels.
Proof. unfold levels. apply FinFun.Injective_map_NoDup; [intros a b H; lia|apply seq_NoDup]. Qed.
Lemma fsum_upd fl L x : 0 <= L <= 30 -> fsum (upd fl L x) = fsum fl + 2 ^ L * (zlen x - zlen (fl L)).
Proof.
  intro R. unfold fsum. rewrite fsum_upd_on by apply levels_nd. destruct (in_dec Z.eq_dec L levels) as [I|I]; [reflexivity|]. exfalso. apply I. apply levels_in, R.
Qed.

Section I.
Context (h : mp) (top : Z) (lf : leaves) (fl : Z -> list Z) (V : inv h top lf fl).
Lemma leaf_rng i L s : lf i = Some (L, s) -> 0 <= L <= 30 /\ 0 <= i /\ i + 2 ^ L <= mp_n h /\ i < mp_n h /\ (2 ^ L | i).
Proof.
  intro A. destruct (t_leaf _ _ (v_tile _ _ _ _ V) _ _ _ A) as (R1 & R2 & R3 & R4). pose proof (v_top _ _ _ _ V). pose proof (pow_pos L ltac:(lia)). repeat split; try lia. exact R3.
Qed.
Lemma fl_rng L i : In i (fl L) -> lf i = Some (L, Free) /\ 0 <= L <= 30 /\ 0 <= i < mp_n h /\ i < two31.
Proof.
  intro I. apply (v_in _ _ _ _ V) in I. split; [exact I|]. apply leaf_rng in I. pose proof (v_max _ _ _ _ V). pose proof (v_sz _ _ _ _ V). split; [lia|]. split; [lia|]. nia.
Qed.
Lemma atom_apart i L s j M a : lf i = Some (L, s) -> s <> Live -> lf j = Some (M, Live) -> j * mp_sz h <= a < (j + 2 ^ M) * mp_sz h ->
  a < i * mp_sz h \/ (i + 1) * mp_sz h <= a.
Proof.
  intros A NS B R. assert (i <> j) as NE by (intros ->; rewrite A in B; injection B as -> ->; congruence).
  pose proof (leaf_rng _ _ _ A) as RA. pose proof (pow_pos L ltac:(lia)). pose proof (v_sz _ _ _ _ V).
  destruct (t_disj _ _ (v_tile _ _ _ _ V) _ _ _ _ _ _ A B NE) as [X|X].
  - right. assert ((i + 1) * mp_sz h <= j * mp_sz h) by (apply Z.mul_le_mono_nonneg_r; lia). lia.
  - left. assert ((j + 2 ^ M) * mp_sz h <= i * mp_sz h) by (apply Z.mul_le_mono_nonneg_r; lia). lia.
Qed.
End I.

Definition frame (h h' : mp) (lf : leaves) : Prop :=
  forall j M a, lf j = Some (M, Live) -> j * mp_sz h <= a < (j + 2 ^ M) * mp_sz h -> znth a (mp_mem h') = znth a (mp_mem h).

Lemma ctl_log L : 0 <= L <= 30 -> Z.land (32 + L) 31 = L /\ Z.lor 32 L = 32 + L /\ Z.lor L 32 = 32 + L /\ Z.land L 31 = L /\ Z.land L 32 = 0.
Proof.
  intro R. assert (sweep 31 (fun L => (Z.land (32 + L) 31 =? L) && (Z.lor 32 L =? 32 + L) && (Z.lor L 32 =? 32 + L) && (Z.land L 31 =? L) && (Z.land L 32 =? 0)) = true) as S by (vm_compute; reflexivity).
  pose proof (sweep_ok _ _ S L ltac:(lia)) as X. cbv beta in X. repeat (apply andb_true_iff in X as [X ?]). repeat split; lia.
Qed.
Lemma assert_true b : b = true -> assert_ b = Ret tt. Proof. intros ->. reflexivity. Qed.
Lemma hd_neg (l : list Z) : (forall i, In i l -> 0 <= i) -> (0 <=? hd (-1) l) = match l with [] => false | _ => true end.
Proof. destruct l as [|x l]; [reflexivity|]. intro H. specialize (H x (or_introl eq_refl)). cbn. lia. Qed.

Lemma mstore_ok {A} (l : list A) i x : 0 <= i < zlen l -> exists l', mstore l i x = Ret l' /\ zlen l' = zlen l /\ znth i l' = Some x /\ (forall j, j <> i -> znth j l' = znth j l).
Proof.
  intro R. destruct (znth_in_range i l R) as (y & Y). destruct (znth_split l i y Y) as (l1 & l2 & -> & L1). exists (l1 ++ x :: l2).
  split; [rewrite (mstore_app l1 l2 x y i) by lia; rewrite <- app_assoc; reflexivity|]. split; [rewrite !zlen_app, !zlen_cons; lia|]. split.
  - rewrite znth_app, L1. destruct (i <? i) eqn:E; [lia|]. rewrite Z.sub_diag. reflexivity.
  - intros j NE. rewrite (znth_mid l1 l2 y x j), L1. destruct (j =? i) eqn:E; [lia|reflexivity].
Qed.

Lemma link_ok h top lf fl i L : inv h top lf fl -> lf i = Some (L, Held) -> znth i (mp_ctrl h) = Some (32 + L) ->
  lf (buddy L i) <> Some (L, Free) ->
  exists m f, mplite_link h i L = Ret (set_free (set_mem h m) f) /\
    inv (set_free (set_mem h m) f) top (upd lf i (Some (L, Free))) (upd fl L (i :: fl L)) /\ frame h (set_free (set_mem h m) f) lf.
Proof.
  intros V A CT NB. pose proof (leaf_rng _ _ _ _ V _ _ _ A) as (RL & RI & RN & RI2 & DI). destruct (ctl_log L RL) as (CL & _).
  pose proof (v_sz _ _ _ _ V) as SZ. pose proof (v_max _ _ _ _ V) as MX. pose proof (v_mem _ _ _ _ V) as LM.
  assert (NB2 : mp_n h < two31) by nia.
  unfold mplite_link. rewrite !assert_true by lia. cbn [bind]. rewrite (mload_znth _ _ _ CT). cbn [bind]. rewrite assert_true by lia. cbn [bind].
  rewrite (mload_znth _ _ _ (v_head _ _ _ _ V L RL)). cbn [bind]. set (x := hd (-1) (fl L)) in *.
  assert (RX : -1 <= x < two31 /\ x < mp_n h).
  { unfold x. destruct (fl L) as [|y r] eqn:F; [cbn; unfold two31; lia|]. cbn. pose proof (fl_rng _ _ _ _ V L y) as Y. rewrite F in Y. specialize (Y (or_introl eq_refl)). lia. }
  destruct (set_next_ok h i x SZ ltac:(lia) LM ltac:(unfold two31 in *; lia)) as (m1 & E1 & L1 & N1 & P1 & F1). rewrite E1. cbn [bind].
  destruct (set_prev_ok (set_mem h m1) i (-1) SZ ltac:(cbn; lia) ltac:(cbn; lia) ltac:(unfold two31; lia)) as (m2 & E2 & L2 & P2 & N2 & F2).
  rewrite E2. cbn [bind]. cbn [set_mem mp_sz mp_n mp_mem] in L2, N2, P2, F2.
  assert (SM : forall a b, set_mem (set_mem h a) b = set_mem h b) by reflexivity. rewrite SM in *. cbn [mp_n set_mem].
  (* the third store *)
  assert (X3 : exists m3, (if 0 <=? x then do _ <- assert_ (x <? mp_n h); set_prev (set_mem h m2) x i else Ret (set_mem h m2)) = Ret (set_mem h m3) /\
     zlen m3 = zlen (mp_mem h) /\
     (forall j, 0 <= j < mp_n h -> get_next (set_mem h m3) j = if j =? i then Ret x else get_next h j) /\
     (forall j, 0 <= j < mp_n h -> get_prev (set_mem h m3) j = if (j =? x) then Ret i else if j =? i then Ret (-1) else get_prev h j) /\
     (forall a, (a < i * mp_sz h \/ (i + 1) * mp_sz h <= a) -> (0 <= x -> a < x * mp_sz h \/ (x + 1) * mp_sz h <= a) -> znth a m3 = znth a (mp_mem h))).
  { destruct (0 <=? x) eqn:X0.
    - rewrite assert_true by lia. cbn [bind].
      destruct (set_prev_ok (set_mem h m2) x i SZ ltac:(cbn; lia) ltac:(cbn; lia) ltac:(unfold two31 in *; lia)) as (m3 & E3 & L3 & P3 & N3 & F3).
      cbn [set_mem mp_sz mp_n mp_mem] in L3, N3, P3, F3. rewrite SM in *. exists m3. split; [exact E3|]. split; [lia|]. split; [|split].
      + intros j RJ. rewrite N3, N2, N1 by lia. reflexivity.
      + intros j RJ. rewrite P3, P2, P1 by lia. reflexivity.
      + intros a H1 H2. rewrite F3 by (apply H2; lia). rewrite F2, F1 by lia. reflexivity.
    - exists m2. split; [reflexivity|]. split; [lia|]. split; [|split].
      + intros j RJ. rewrite N2, N1 by lia. reflexivity.
      + intros j RJ. rewrite P2, P1 by lia. destruct (j =? x) eqn:?; [lia|reflexivity].
      + intros a H1 H2. rewrite F2, F1 by lia. reflexivity. }
  destruct X3 as (m3 & -> & L3 & N3 & P3 & F3). cbn [bind]. unfold store_head. cbn [mp_free set_mem].
  destruct (mstore_ok (mp_free h) L i ltac:(rewrite (v_hdl _ _ _ _ V); lia)) as (f & EF & LF & HF & OF). rewrite EF. cbn [bind].
  exists m3, f. split; [reflexivity|].
  assert (NI : ~ In i (fl L)) by (intro I; apply (v_in _ _ _ _ V) in I; congruence).
  assert (LX : forall r y, fl L = y :: r -> x = y /\ lf y = Some (L, Free)).
  { intros r y F. split; [unfold x; rewrite F; reflexivity|]. apply (v_in _ _ _ _ V). rewrite F. left; reflexivity. }
  assert (XF : 0 <= x -> lf x = Some (L, Free)).
  { intro X0. destruct (fl L) as [|y r] eqn:F; [unfold x in X0; cbn in X0; lia|]. destruct (LX _ _ eq_refl) as [-> ?]. assumption. }
  split.
  - split; cbn [mp_sz mp_n mp_mem mp_ctrl mp_free set_mem set_free]; try apply V.
    + lia.
    + rewrite LF; apply V.
    + eapply status_tiling; [apply V|exact A].
    + intros j M H. upd_case j i; [injection H as <-; exact CT|apply (v_cf _ _ _ _ V _ _ H)].
    + intros j M H. upd_case j i; [discriminate|apply (v_cl _ _ _ _ V _ _ H)].
    + intro M. upd_case M L; [constructor; [exact NI|apply V]|apply V].
    + intros M j. upd_case M L.
      * cbn [In]. upd_case j i; [split; [reflexivity|left; reflexivity]|]. rewrite (v_in _ _ _ _ V). split; [intros [?|?]; [congruence|assumption]|right; assumption].
      * upd_case j i; [|apply V]. rewrite (v_in _ _ _ _ V). split; congruence.
    + intros M RM. upd_case M L; [exact HF|]. rewrite OF by assumption. apply V; exact RM.
    + intro M. change (get_next (set_free (set_mem h m3) f)) with (get_next (set_mem h m3)). change (get_prev (set_free (set_mem h m3) f)) with (get_prev (set_mem h m3)).
      upd_case M L.
      * cbn [dseg]. rewrite N3, P3 by lia. rewrite Z.eqb_refl. fold x.
        assert ((i =? x) = false) as ->. { destruct (i =? x) eqn:Q; [|reflexivity]. assert (i = x) as Q' by lia. rewrite Q' in A. rewrite XF in A by lia. discriminate. }
        split; [reflexivity|]. split; [reflexivity|]. pose proof (v_dll _ _ _ _ V L) as D. pose proof (v_nd _ _ _ _ V L) as ND.
        assert (INR : forall j, In j (fl L) -> 0 <= j < mp_n h) by (intros j J; apply (fl_rng _ _ _ _ V) in J; lia).
        destruct (fl L) as [|y r] eqn:F; [exact I|]. destruct (LX _ _ eq_refl) as [XY _]. cbn [dseg] in *. destruct D as (D1 & D2 & D3).
        pose proof (INR y (or_introl eq_refl)). rewrite N3, P3 by lia. rewrite XY, Z.eqb_refl. inversion_clear ND as [|? ? NI2 ND2].
        assert (y <> i) by (intros ->; apply NI; left; reflexivity). destruct (y =? i) eqn:?; [lia|]. split; [exact D1|]. split; [reflexivity|].
        apply (dseg_ext (get_next h) (get_prev h)); [|exact D3]. intros j J. pose proof (INR j (or_intror J)). rewrite N3, P3 by lia.
        assert (j <> i) by (intros ->; apply NI; right; exact J). assert (j <> y) by (intros ->; contradiction).
        destruct (j =? i) eqn:?; [lia|]. destruct (j =? x) eqn:?; [lia|]. split; reflexivity.
      * apply (dseg_ext (get_next h) (get_prev h)); [|apply V]. intros j J. apply (fl_rng _ _ _ _ V) in J as (JF & _ & JR & _). rewrite N3, P3 by lia.
        assert (j <> i) by (intros ->; congruence). destruct (j =? i) eqn:?; [lia|].
        destruct (j =? x) eqn:JX; [|split; reflexivity]. assert (j = x) as JX' by lia. rewrite JX' in JF. rewrite XF in JF by lia. injection JF as ->. congruence.
    + intros j M H1 H2. upd_case j i.
      * injection H1 as <-. rewrite upd_ne in H2; [contradiction|]. apply (parent i L ltac:(lia) DI).
      * destruct (Z.eq_dec (buddy M j) i) as [BE|BN].
        -- rewrite BE, upd_eq in H2. injection H2 as <-. assert (j = buddy L i) as ->; [|contradiction].
           rewrite <- BE, buddy_buddy; [reflexivity|lia|]. apply (leaf_rng _ _ _ _ V) in H1. apply H1.
        -- rewrite upd_ne in H2 by exact BN. exact (v_co _ _ _ _ V _ _ H1 H2).
  - intros j M a J R. cbn [set_free set_mem mp_mem]. apply F3.
    + eapply (atom_apart _ _ _ _ V); try eassumption. discriminate.
    + intro X0. eapply (atom_apart _ _ _ _ V); try eassumption; [apply XF; exact X0|discriminate].
Qed.

Lemma nd_app (a b : list Z) x : NoDup (a ++ b) -> In x a -> In x b -> False.
Proof.
  intros ND A B. apply in_split in A as (a1 & a2 & ->). rewrite <- app_assoc in ND. cbn [app] in ND. apply NoDup_remove_2 in ND. apply ND. rewrite !in_app_iff. tauto.
Qed.
Lemma last_in (a : list Z) d : a <> [] -> In (last a d) a.
Proof.
  intro N. destruct (exists_last N) as (b & x & ->). rewrite last_last. apply in_app_iff. right; left; reflexivity.
Qed.
Lemma unlink_ok h top lf fl i L : inv h top lf fl -> lf i = Some (L, Free) ->
  exists a b m f, fl L = a ++ i :: b /\ mplite_unlink h i L = Ret (set_free (set_mem h m) f) /\
    inv (set_free (set_mem h m) f) top (upd lf i (Some (L, Held))) (upd fl L (a ++ b)) /\ frame h (set_free (set_mem h m) f) lf.
Proof.
  intros V A. pose proof (leaf_rng _ _ _ _ V _ _ _ A) as (RL & RI & RN & RI2 & DI). destruct (ctl_log L RL) as (CL & _).
  pose proof (v_sz _ _ _ _ V) as SZ. pose proof (v_max _ _ _ _ V) as MX. pose proof (v_mem _ _ _ _ V) as LM. pose proof (v_cf _ _ _ _ V _ _ A) as CT.
  assert (NB2 : mp_n h < two31) by nia.
  pose proof (proj2 (v_in _ _ _ _ V L i) A) as IN. apply in_split in IN as (a & b & F). exists a, b.
  pose proof (v_nd _ _ _ _ V L) as ND. rewrite F in ND.
  assert (INR : forall j, In j a \/ In j b -> 0 <= j < mp_n h /\ j <> i /\ lf j = Some (L, Free)).
  { intros j J. assert (In j (fl L)) as JF by (rewrite F; apply in_app_iff; cbn; tauto). apply (fl_rng _ _ _ _ V) in JF as (JF & _ & JR & _). split; [exact JR|]. split; [|exact JF].
    intros ->. apply NoDup_remove_2 in ND. apply ND. apply in_app_iff. exact J. }
  pose proof (v_dll _ _ _ _ V L) as D. rewrite F in D. apply dseg_app in D as [DA DB]. cbn [hd dseg] in DA, DB. destruct DB as (NXI & PVI & DB).
  set (nx := hd (-1) b) in *. set (pv := last a (-1)) in *.
  assert (RNX : (0 <=? nx) = match b with [] => false | _ => true end) by (apply hd_neg; intros j J; destruct (INR j (or_intror J)); lia).
  assert (NXV : 0 <= nx -> In nx b) by (intro; unfold nx in *; destruct b; [cbn in *; lia|left; reflexivity]).
  assert (NXB : -1 <= nx < two31). { destruct (Z_lt_ge_dec nx 0) as [|G]; [unfold nx in *; destruct b; cbn in *; [unfold two31; lia|lia]|]. destruct (INR nx (or_intror (NXV ltac:(lia)))). lia. }
  assert (PVV : 0 <= pv -> In pv a) by (intro; apply last_in; intros ->; cbn in *; lia).
  assert (PVB : -1 <= pv < two31). { destruct a as [|y a']; [unfold pv; cbn; unfold two31; lia|]. destruct (INR pv (or_introl (last_in (y :: a') (-1) ltac:(discriminate)))). lia. }
  assert (PVN : pv < 0 -> a = []). { intro P. destruct a as [|y a']; [reflexivity|]. destruct (INR pv (or_introl (last_in (y :: a') (-1) ltac:(discriminate)))). lia. }
  unfold mplite_unlink. rewrite !assert_true by lia. cbn [bind]. rewrite (mload_znth _ _ _ CT). cbn [bind]. rewrite assert_true by lia. cbn [bind].
  rewrite NXI, PVI. cbn [bind].
  (* first store *)
  assert (X1 : exists m1 f, (if pv <? 0 then store_head h L nx else set_next h pv nx) = Ret (set_free (set_mem h m1) f) /\ zlen m1 = zlen (mp_mem h) /\
    zlen f = zlen (mp_free h) /\ (pv < 0 -> znth L f = Some nx) /\ (forall M, M <> L \/ 0 <= pv -> znth M f = znth M (mp_free h)) /\
    (forall j, 0 <= j < mp_n h -> get_next (set_mem h m1) j = if j =? pv then Ret nx else get_next h j) /\
    (forall j, 0 <= j < mp_n h -> get_prev (set_mem h m1) j = get_prev h j) /\
    (forall x, (0 <= pv -> x < pv * mp_sz h \/ (pv + 1) * mp_sz h <= x) -> znth x m1 = znth x (mp_mem h))).
  { destruct (pv <? 0) eqn:P0.
    - unfold store_head. destruct (mstore_ok (mp_free h) L nx ltac:(rewrite (v_hdl _ _ _ _ V); lia)) as (f & EF & LF & HF & OF). rewrite EF. cbn [bind].
      exists (mp_mem h), f. split; [destruct h; reflexivity|]. split; [reflexivity|]. split; [exact LF|]. split; [intros _; exact HF|]. split; [intros M [?|?]; [apply OF; assumption|lia]|].
      split; [|split; [reflexivity|reflexivity]]. intros j J. destruct (j =? pv) eqn:?; [lia|]. reflexivity.
    - destruct (INR pv (or_introl (PVV ltac:(lia)))) as (RP & _). destruct (set_next_ok h pv nx SZ RP LM ltac:(unfold two31 in *; lia)) as (m1 & E1 & L1 & N1 & P1 & F1).
      rewrite E1. exists m1, (mp_free h). split; [reflexivity|]. split; [exact L1|]. split; [reflexivity|]. split; [lia|]. split; [reflexivity|]. split; [exact N1|].
      split; [exact P1|]. intros x HX. apply F1. apply HX. lia. }
  destruct X1 as (m1 & f & -> & L1 & LF & HF & OF & N1 & P1 & F1). cbn [bind].
  assert (X2 : exists m2, (if 0 <=? nx then set_prev (set_free (set_mem h m1) f) nx pv else Ret (set_free (set_mem h m1) f)) = Ret (set_free (set_mem h m2) f) /\
    zlen m2 = zlen (mp_mem h) /\
    (forall j, 0 <= j < mp_n h -> get_next (set_mem h m2) j = if j =? pv then Ret nx else get_next h j) /\
    (forall j, 0 <= j < mp_n h -> get_prev (set_mem h m2) j = if j =? nx then Ret pv else get_prev h j) /\
    (forall x, (0 <= pv -> x < pv * mp_sz h \/ (pv + 1) * mp_sz h <= x) -> (0 <= nx -> x < nx * mp_sz h \/ (nx + 1) * mp_sz h <= x) -> znth x m2 = znth x (mp_mem h))).
  { destruct (0 <=? nx) eqn:X0.
    - destruct (INR nx (or_intror (NXV ltac:(lia)))) as (RP & _).
      destruct (set_prev_ok (set_free (set_mem h m1) f) nx pv SZ RP ltac:(cbn; lia) ltac:(unfold two31 in *; lia)) as (m2 & E2 & L2 & P2 & N2 & F2).
      cbn [set_mem set_free mp_sz mp_n mp_mem] in L2, N2, P2, F2.
      exists m2. rewrite E2. split; [reflexivity|]. split; [lia|]. split; [|split].
      + intros j J. specialize (N2 j J). unfold get_next in *. cbn [mp_mem mp_sz set_mem set_free] in *. rewrite N2. specialize (N1 j J). unfold get_next in N1. cbn [mp_mem mp_sz set_mem] in N1. exact N1.
      + intros j J. specialize (P2 j J). unfold get_prev in *. cbn [mp_mem mp_sz set_mem set_free] in *. rewrite P2. specialize (P1 j J). unfold get_prev in P1. cbn [mp_mem mp_sz set_mem] in P1. rewrite P1. reflexivity.
      + intros x H1 H2. rewrite F2 by (apply H2; lia). apply F1. exact H1.
    - exists m1. split; [reflexivity|]. split; [lia|]. split; [exact N1|]. split; [|intros x H1 _; apply F1; exact H1].
      intros j J. rewrite P1 by lia. destruct (j =? nx) eqn:?; [lia|reflexivity]. }
  destruct X2 as (m2 & -> & L2 & N2 & P2 & F2). exists m2, f. split; [exact F|]. split; [reflexivity|].
  assert (NDAB : NoDup (a ++ b)) by (eapply NoDup_remove_1; exact ND).
  split.
  - split; cbn [mp_sz mp_n mp_mem mp_ctrl mp_free set_mem set_free]; try apply V.
    + lia.
    + rewrite LF. apply V.
    + eapply status_tiling; [apply V|exact A].
    + intros j M H. upd_case j i; [discriminate|apply (v_cf _ _ _ _ V _ _ H)].
    + intros j M H. upd_case j i; [discriminate|apply (v_cl _ _ _ _ V _ _ H)].
    + intro M. upd_case M L; [exact NDAB|apply V].
    + intros M j. upd_case M L.
      * upd_case j i.
        -- split; [|discriminate]. intro J. exfalso. apply NoDup_remove_2 in ND. contradiction.
        -- rewrite <- (v_in _ _ _ _ V), F, !in_app_iff. cbn [In]. split; [tauto|intros [?|[?|?]]; [tauto|congruence|tauto]].
      * upd_case j i; [|apply V]. rewrite (v_in _ _ _ _ V). split; congruence.
    + intros M RM. upd_case M L.
      * destruct (Z_lt_ge_dec pv 0) as [P0|P0].
        -- rewrite (HF P0), (PVN P0). cbn [app]. reflexivity.
        -- rewrite OF by (right; lia). rewrite (v_head _ _ _ _ V L RL), F. f_equal. destruct a; [unfold pv in P0; cbn in P0; lia|reflexivity].
      * rewrite OF by (left; assumption). apply V; exact RM.
    + intro M. change (get_next (set_free (set_mem h m2) f)) with (get_next (set_mem h m2)). change (get_prev (set_free (set_mem h m2) f)) with (get_prev (set_mem h m2)).
      upd_case M L.
      * assert (PVNB : In pv b -> False).
        { intro PB. assert (0 <= pv) as P0 by (destruct (INR pv (or_intror PB)); lia). exact (nd_app a b pv NDAB (PVV P0) PB). }
        assert (NXNA : In nx a -> False).
        { intro PB. assert (0 <= nx) as P0 by (destruct (INR nx (or_introl PB)); lia). exact (nd_app a b nx NDAB PB (NXV P0)). }
        apply dseg_app. fold pv. fold nx. split.
        -- destruct a as [|y0 a0] using rev_ind; [exact I|]. clear IHa0. unfold pv in *. rewrite last_last in *. apply dseg_app in DA as [DA1 DA2]. apply dseg_app. split.
           ++ apply (dseg_ext (get_next h) (get_prev h)); [|exact DA1]. intros j J. destruct (INR j (or_introl (in_or_app a0 [y0] j (or_introl J)))) as (RJ & _).
              rewrite N2, P2 by lia.
              assert (j <> y0). { intros ->. rewrite <- app_assoc in NDAB. apply NoDup_remove_2 in NDAB. apply NDAB. apply in_app_iff. left; exact J. }
              assert (j <> nx) by (intros ->; apply NXNA; apply in_app_iff; left; exact J).
              destruct (j =? y0) eqn:?; [lia|]. destruct (j =? nx) eqn:?; [lia|]. split; reflexivity.
           ++ cbn [dseg hd] in *. destruct DA2 as (D1 & D2 & _). destruct (INR y0 (or_introl (in_or_app a0 [y0] y0 (or_intror (or_introl eq_refl))))) as (RJ & _).
              rewrite N2, P2 by lia. rewrite Z.eqb_refl. split; [reflexivity|]. split; [|exact I].
              destruct (y0 =? nx) eqn:Q; [|exact D2]. exfalso. apply NXNA. assert (y0 = nx) as <- by lia. apply in_app_iff. right; left; reflexivity.
        -- destruct b as [|y b]; [exact I|]. cbn [dseg hd] in *. unfold nx in *. cbn [hd] in *. destruct DB as (D1 & D2 & D3). destruct (INR y (or_intror (or_introl eq_refl))) as (RJ & _).
           rewrite N2, P2 by lia. rewrite Z.eqb_refl.
           destruct (y =? pv) eqn:Q; [exfalso; apply PVNB; left; lia|]. split; [exact D1|]. split; [reflexivity|].
           apply (dseg_ext (get_next h) (get_prev h)); [|exact D3]. intros j J. destruct (INR j (or_intror (or_intror J))) as (RJ' & _). rewrite N2, P2 by lia.
           assert (j <> pv) by (intros ->; apply PVNB; right; exact J).
           assert (j <> y). { intros ->. apply NoDup_remove_2 in NDAB. apply NDAB. apply in_app_iff. right; exact J. }
           destruct (j =? pv) eqn:?; [lia|]. destruct (j =? y) eqn:?; [lia|]. split; reflexivity.
      * apply (dseg_ext (get_next h) (get_prev h)); [|apply V]. intros j J. apply (fl_rng _ _ _ _ V) in J as (JF & _ & JR & _). rewrite N2, P2 by lia.
        destruct (j =? pv) eqn:Q1.
        { exfalso. assert (j = pv) as -> by lia. destruct (INR pv (or_introl (PVV ltac:(lia)))) as (_ & _ & C). congruence. }
        destruct (j =? nx) eqn:Q2; [|split; reflexivity]. exfalso. assert (j = nx) as -> by lia. destruct (INR nx (or_intror (NXV ltac:(lia)))) as (_ & _ & C). congruence.
    + intros j M H1 H2. upd_case j i; [discriminate|]. destruct (Z.eq_dec (buddy M j) i) as [BE|BN]; [rewrite BE, upd_eq in H2; discriminate|].
      rewrite upd_ne in H2 by exact BN. exact (v_co _ _ _ _ V _ _ H1 H2).
  - intros j M x J R. cbn [set_free set_mem mp_mem]. apply F2.
    + intro P0. destruct (INR pv (or_introl (PVV P0))) as (_ & _ & C). eapply (atom_apart _ _ _ _ V); try eassumption. discriminate.
    + intro X0. destruct (INR nx (or_intror (NXV X0))) as (_ & _ & C). eapply (atom_apart _ _ _ _ V); try eassumption. discriminate.
Qed.

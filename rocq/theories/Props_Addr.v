(** C64: dladdr *)
From Verif Require Import CBase SeqLib AddrModel AddrSpec.

Lemma array_tail : forall mem a w x l, array mem a w (x :: l) -> array mem (a + Z.of_nat w) w l.
Proof. intros mem a w x l A i y N. specialize (A (S i) y N). rewrite <- A. f_equal. lia. Qed.

(** ** The search *)
Lemma scan_ok : forall mem m addr l a i cand ci, array mem (a + 4 * i) 4 l -> 0 <= i -> i + zlen l < two31 -> Forall (fun f => 0 <= f) l -> 0 < m ->
  (exists cand' ci', scan mem m a addr (length l) i cand ci = Ret (cand', ci') /\
    ((cand' = cand /\ ci' = ci /\ Forall (fun f => addr < m + f \/ m + f <= cand) l) \/
     (exists k f, nth_error l k = Some f /\ cand' = m + f /\ ci' = i + Z.of_nat k /\ m + f <= addr /\ cand < m + f /\
        (forall j g, nth_error l j = Some g -> m + g <= addr -> g <= f) /\ (forall j, nth_error l j = Some f -> (k <= j)%nat)))).
Proof.
  intros mem m addr l. induction l as [|f l IH]; intros a i cand ci A I B F M; cbn [length scan].
  - exists cand, ci. split; [auto|]. left. auto.
  - pose proof (A O f eq_refl) as R. cbn [Z.of_nat] in R. rewrite Z.mul_0_r, Z.add_0_r in R. rewrite R. cbn [bind].
    inversion F as [|x y F1 F2]; subst. apply array_tail in A. rewrite zlen_cons in B. pose proof (zlen_nonneg l) as ZL.
    replace (a + 4 * i + Z.of_nat 4) with (a + 4 * (i + 1)) in A by lia.
    rewrite Z.gtb_ltb, Z.geb_leb. destruct (Z.ltb_spec addr (m + f)) as [L1|L1]; cbn [orb].
    + destruct (IH a (i + 1) cand ci A ltac:(lia) ltac:(lia) F2 M) as (c' & k' & E & H). exists c', k'. split; [auto|].
      destruct H as [(-> & -> & G)|(k & g & N & C1 & C2 & C3 & C4 & C5 & C6)]; [left; auto|]. right. exists (S k), g. split; [auto|]. split; [auto|]. split; [lia|]. split; [auto|]. split; [auto|]. split.
      * intros [|j] h Nj Hj; [injection Nj as <-; lia|]. eapply C5; eauto.
      * intros [|j] Nj; [injection Nj as ->; lia|]. specialize (C6 j Nj). lia.
    + destruct (Z.leb_spec (m + f) cand) as [L2|L2].
      * destruct (IH a (i + 1) cand ci A ltac:(lia) ltac:(lia) F2 M) as (c' & k' & E & H). exists c', k'. split; [auto|].
        destruct H as [(-> & -> & G)|(k & g & N & C1 & C2 & C3 & C4 & C5 & C6)]; [left; auto|]. right. exists (S k), g. split; [auto|]. split; [auto|]. split; [lia|]. split; [auto|]. split; [auto|]. split.
        -- intros [|j] h Nj Hj; [injection Nj as <-; lia|]. eapply C5; eauto.
        -- intros [|j] Nj; [injection Nj as ->; lia|]. specialize (C6 j Nj). lia.
      * assert (SI : s32 i = i) by (unfold s32, two31, two32 in *; rewrite Z.mod_small; lia). rewrite SI.
        destruct (IH a (i + 1) (m + f) i A ltac:(lia) ltac:(lia) F2 M) as (c' & k' & E & H). exists c', k'. split; [auto|]. right.
        destruct H as [(-> & -> & G)|(k & g & N & C1 & C2 & C3 & C4 & C5 & C6)].
        -- exists O, f. split; [auto|]. split; [auto|]. split; [lia|]. split; [lia|]. split; [auto|]. split; [|lia].
           intros [|j] h Nj Hj; [injection Nj as <-; lia|]. rewrite Forall_forall in G. cbn [nth_error] in Nj. specialize (G h (nth_error_In _ _ Nj)). lia.
        -- exists (S k), g. split; [auto|]. split; [auto|]. split; [lia|]. split; [auto|]. split; [lia|]. split.
           ++ intros [|j] h Nj Hj; [injection Nj as <-; lia|]. eapply C5; eauto.
           ++ intros [|j] Nj; [injection Nj as ->; lia|]. specialize (C6 j Nj). lia.
Qed.
Lemma names_ok : forall mem m l an ao i ci, array mem (an + 4 * i) 4 (map fst l) -> array mem (ao + 2 * i) 2 (map snd l) ->
  find_name mem m an ao ci (length l) i = Ret (match name_of l ci with Some n => m + n | None => 0 end).
Proof.
  intros mem m l. induction l as [|[n o] l IH]; intros an ao i ci A B; cbn [length find_name name_of map fst snd] in *; [auto|].
  pose proof (B O o eq_refl) as R. cbn [Z.of_nat] in R. rewrite Z.mul_0_r, Z.add_0_r in R. rewrite R. cbn [bind]. destruct (o =? ci).
  - pose proof (A O n eq_refl) as R2. cbn [Z.of_nat] in R2. rewrite Z.mul_0_r, Z.add_0_r in R2. rewrite R2. auto.
  - apply IH; [apply array_tail in A|apply array_tail in B]; [replace (an + 4 * (i + 1)) with (an + 4 * i + Z.of_nat 4) by lia|replace (ao + 2 * (i + 1)) with (ao + 2 * i + Z.of_nat 2) by lia]; auto.
Qed.
Lemma section_ok : forall mem m k va size, has_dir mem m k va size -> get_image_section mem m k = Ret (if (size =? 0) || (va =? 0) then None else Some (m + va, size)).
Proof.
  intros mem m k va size (lf & H1 & H2 & H3 & H4 & H5). unfold get_image_section. rewrite H1. cbn [bind]. rewrite Z.eqb_refl. cbn [negb]. rewrite H2. cbn [bind]. rewrite H3. cbn [bind].
  rewrite Z.eqb_refl. cbn [negb]. rewrite H5. cbn [bind]. destruct (size =? 0); cbn [orb]; [auto|]. rewrite H4. cbn [bind]. destruct (va =? 0); auto.
Qed.
Lemma valid_ok : forall sy a, is_valid_address sy a = true <-> valid sy a.
Proof.
  intros sy a. unfold is_valid_address, valid. destruct (Z.eqb_spec a 0) as [->|N].
  - split; [discriminate|]. intros [Q _]. congruence.
  - destruct (vq sy a) as [[ab pr]|].
    + rewrite negb_true_iff, !orb_false_iff, !Z.eqb_neq. split.
      * intros [[A B] C]. split; [auto|]. exists ab, pr. auto.
      * intros (_ & x & y & E & A & B & C). injection E as -> ->. auto.
    + split; [discriminate|]. intros (_ & x & y & E & _). discriminate.
Qed.
Lemma export_ok : forall mem m addr e ied, export_dir mem m ied e -> 0 < m -> Forall (fun f => 0 <= f) (funcs e) -> zlen (funcs e) < two31 ->
  exists i r, get_export_symbol_name mem m ied addr 0 = Ret r /\
    ((none_below m addr e /\ r = (0, 0)) \/
     (nearest m addr e i /\ exists f, nth_error (funcs e) i = Some f /\ r = (match name_of (names e) (Z.of_nat i) with Some n => m + n | None => 0 end, m + f))).
Proof.
  intros mem m addr e ied (af & an & ao & N1 & N2 & R1 & R2 & R3 & A1 & A2 & A3) M F B. unfold get_export_symbol_name. rewrite R1, R2, R3, N1. cbn [bind].
  assert (LZ : Z.to_nat (zlen (funcs e)) = length (funcs e)) by (unfold zlen; lia). rewrite LZ.
  destruct (scan_ok mem m addr (funcs e) (m + af) 0 0 (-1)) as (c & ci & E & H); [rewrite Z.add_0_r; auto|lia|lia|auto|auto|]. rewrite E. cbn [bind fst snd].
  destruct H as [(-> & -> & G)|(k & f & N & -> & -> & C3 & C4 & C5 & C6)].
  - exists O, (0, 0). split; [reflexivity|]. left. split; [|auto]. eapply Forall_impl; [|apply (Forall_and G F)]. cbn. intros x [X1 X2]. lia.
  - destruct (Z.eqb_spec (0 + Z.of_nat k) (-1)); [lia|]. rewrite N2. cbn [bind]. assert (LN : Z.to_nat (zlen (names e)) = length (names e)) by (unfold zlen; lia). rewrite LN.
    rewrite (names_ok mem m (names e) (m + an) (m + ao) 0 (0 + Z.of_nat k)) by (rewrite Z.add_0_r; auto). cbn [bind].
    exists k. eexists. split; [reflexivity|]. right. split; [exists f; auto|]. exists f. auto.
Qed.

(** ** What dladdr says *)
(** an address that is valid, is not an import thunk and lies in a module: the nearest export at or below it. The text of
    the file name is in the library's buffer *)
Lemma fill_ok : forall buffer mem sy addr inf b m e, modof sy addr = Some m -> module_at mem m e -> zlen b = 520 -> 0 < zlen (fname_of sy m) < 520 ->
  exists x b', fill_info buffer mem sy addr inf b = Ret (true, x, b') /\ fn x = buffer /\ about m addr e x /\ zlen b' = 520 /\ ztake (zlen (fname_of sy m) + 1) b' = fname_of sy m ++ [0].
Proof.
  intros buffer mem sy addr inf b m e MO (M & F & B & NN & va & size & D & VA & SZ & X) LB LN. unfold fill_info. rewrite MO.
  destruct (Z.eqb_spec (zlen (fname_of sy m)) 0); [lia|]. destruct (Z.ltb_spec (zlen (fname_of sy m)) 520); [|lia].
  assert (W : mwrite b 0 (fname_of sy m ++ [0]) = Ret (([] ++ (fname_of sy m ++ [0])) ++ zdrop (zlen (fname_of sy m) + 1) b)).
  { rewrite <- (ztake_zdrop (zlen (fname_of sy m) + 1) b) at 1. apply (mwrite_app [] _ (ztake (zlen (fname_of sy m) + 1) b)); [auto|]. rewrite zlen_app, zlen_cons, zlen_nil. rewrite zlen_ztake by lia. lia. }
  rewrite W. cbn [bind app]. destruct (Z.eqb_spec (zlen (fname_of sy m)) 0); [lia|]. destruct (Z.eqb_spec (zlen (fname_of sy m)) 520); [lia|]. cbn [orb].
  rewrite (section_ok _ _ _ _ _ D). cbn [bind]. destruct (Z.eqb_spec size 0); [congruence|]. destruct (Z.eqb_spec va 0); [congruence|]. cbn [orb].
  destruct (export_ok mem m addr e _ X M F B) as (i & r & E & HR). rewrite E. cbn [bind]. eexists _, _. split; [reflexivity|]. cbn [fn]. split; [auto|]. split; [|split].
  - split; [auto|]. destruct HR as [(G & ->)|(G & f & N & ->)]; [left; auto|]. right. exists i, f. split; [auto|]. split; [auto|]. cbn [fst snd sname saddr].
    pose proof (nth_error_In _ _ N) as I1. rewrite Forall_forall in F. specialize (F f I1). destruct (name_of (names e) (Z.of_nat i)) as [nn|] eqn:NO; [|auto].
    assert (0 <= nn). { clear -NN NO. revert NO. induction NN as [|[a o] l Ha Hl IH]; cbn; [discriminate|]. destruct (o =? Z.of_nat i); [intros Q; injection Q as <-; auto|auto]. }
    destruct (Z.eqb_spec (m + nn) 0); [lia|]. destruct (Z.eqb_spec (m + f) 0); [lia|]. auto.
  - rewrite !zlen_app, zlen_cons, zlen_nil, zlen_zdrop by lia. lia.
  - rewrite ztake_app_l by (rewrite zlen_app, zlen_cons, zlen_nil; lia). apply ztake_all. rewrite zlen_app, zlen_cons, zlen_nil. lia.
Qed.

Theorem C64_dladdr : forall buffer mem sy addr inf b m e v, valid sy addr -> rd mem addr 2 = Ret v -> v <> 0x25ff ->
  modof sy addr = Some m -> module_at mem m e -> zlen b = 520 -> 0 < zlen (fname_of sy m) < 520 ->
  exists x b', dladdr buffer mem sy addr (Some inf) b = Ret (1, Some x, b') /\ about m addr e x /\
    fn x = buffer /\ zlen b' = 520 /\ ztake (zlen (fname_of sy m) + 1) b' = fname_of sy m ++ [0].
Proof.
  intros buffer mem sy addr inf b m e v V R NT MO MA LB LN. unfold dladdr. apply valid_ok in V. rewrite V. cbn [negb]. unfold is_import_thunk. rewrite R. cbn [bind].
  destruct (Z.eqb_spec v 9727); [congruence|]. cbn [bind]. destruct (fill_ok buffer mem sy addr inf b m e MO MA LB LN) as (x & b' & E & A & B & C & D). rewrite E. cbn [bind].
  exists x, b'. auto.
Qed.
(** an import thunk whose slot lies in the import table of its module: the target in the slot *)
Theorem C64_thunk : forall buffer mem sy addr inf b m0 va size slot a m e, valid sy addr -> thunk_at mem addr slot -> modof sy addr = Some m0 ->
  has_dir mem m0 12 va size -> va <> 0 -> size <> 0 -> m0 + va <= slot <= m0 + va + size -> valid sy slot -> rd mem slot 8 = Ret a -> valid sy a ->
  modof sy a = Some m -> module_at mem m e -> zlen b = 520 -> 0 < zlen (fname_of sy m) < 520 ->
  exists x b', dladdr buffer mem sy addr (Some inf) b = Ret (1, Some x, b') /\ about m a e x /\
    fn x = buffer /\ zlen b' = 520 /\ ztake (zlen (fname_of sy m) + 1) b' = fname_of sy m ++ [0].
Proof.
  intros buffer mem sy addr inf b m0 va size slot a m e V (T1 & off & T2 & ->) M0 D VA SZ SL VS RS VT MO MA LB LN. unfold dladdr. apply valid_ok in V, VS, VT.
  rewrite V. cbn [negb]. unfold is_import_thunk. rewrite T1. cbn [bind]. rewrite Z.eqb_refl, M0, (section_ok _ _ _ _ _ D). cbn [bind].
  destruct (Z.eqb_spec size 0); [congruence|]. destruct (Z.eqb_spec va 0); [congruence|]. cbn [orb bind].
  unfold get_address_from_iat. rewrite T2. cbn [bind]. rewrite VS. cbn [negb orb]. destruct (Z.ltb_spec (addr + 6 + s32 off) (m0 + va)); [lia|].
  rewrite Z.gtb_ltb. destruct (Z.ltb_spec (m0 + va + size) (addr + 6 + s32 off)); [lia|]. cbn [orb]. rewrite RS. cbn [bind]. rewrite VT. cbn [bind].
  destruct (fill_ok buffer mem sy a inf b m e MO MA LB LN) as (x & b' & E & A & B & C & F). rewrite E. cbn [bind]. exists x, b'. auto.
Qed.
(** an import thunk whose slot is outside its module's table, or not readable, or holds no valid address: 0, and nothing is touched *)
Theorem C64_bad_thunk : forall buffer mem sy addr inf b m0 va size slot, valid sy addr -> thunk_at mem addr slot -> modof sy addr = Some m0 ->
  has_dir mem m0 12 va size -> va <> 0 -> size <> 0 -> (~ valid sy slot \/ slot < m0 + va \/ m0 + va + size < slot \/ exists a, rd mem slot 8 = Ret a /\ ~ valid sy a) ->
  dladdr buffer mem sy addr (Some inf) b = Ret (0, Some inf, b).
Proof.
  intros buffer mem sy addr inf b m0 va size slot V (T1 & off & T2 & ->) M0 D VA SZ SL. unfold dladdr. apply valid_ok in V.
  rewrite V. cbn [negb]. unfold is_import_thunk. rewrite T1. cbn [bind]. rewrite Z.eqb_refl, M0, (section_ok _ _ _ _ _ D). cbn [bind].
  destruct (Z.eqb_spec size 0); [congruence|]. destruct (Z.eqb_spec va 0); [congruence|]. cbn [orb bind].
  assert (NV : forall x, ~ valid sy x -> is_valid_address sy x = false) by (intros x NX; destruct (is_valid_address sy x) eqn:Q; [|reflexivity]; exfalso; apply NX; apply valid_ok; exact Q).
  unfold get_address_from_iat. rewrite T2. cbn [bind]. rewrite Z.gtb_ltb. destruct (negb (is_valid_address sy (addr + 6 + s32 off)) || (addr + 6 + s32 off <? m0 + va) || (m0 + va + size <? addr + 6 + s32 off)) eqn:Q.
  - cbn [bind]. reflexivity.
  - apply orb_false_elim in Q as (Q & Q3). apply orb_false_elim in Q as (Q1 & Q2). destruct SL as [X|[X|[X|(a & R & X)]]]; [rewrite (NV _ X) in Q1; discriminate|lia|lia|]. rewrite R. cbn [bind]. rewrite (NV a X). reflexivity.
Qed.
Print Assumptions C64_bad_thunk.
(** without an import table directory: the table of the first import descriptor, up to the end of the import directory *)
Theorem C64_thunk_fallback : forall buffer mem sy addr inf b m0 va0 size0 va size ch ft slot a m e, valid sy addr -> thunk_at mem addr slot -> modof sy addr = Some m0 ->
  has_dir mem m0 12 va0 size0 -> va0 = 0 \/ size0 = 0 -> has_dir mem m0 1 va size -> 0 < size < two32 -> va <> 0 ->
  rd mem (m0 + va) 4 = Ret ch -> ch <> 0 -> rd mem (m0 + va + 16) 4 = Ret ft -> ft <> 0 -> va <= ft <= va + size ->
  m0 + ft <= slot <= m0 + va + size -> valid sy slot -> rd mem slot 8 = Ret a -> valid sy a ->
  modof sy a = Some m -> module_at mem m e -> zlen b = 520 -> 0 < zlen (fname_of sy m) < 520 ->
  exists x b', dladdr buffer mem sy addr (Some inf) b = Ret (1, Some x, b') /\ about m a e x.
Proof.
  intros buffer mem sy addr inf b m0 va0 size0 va size ch ft slot a m e V (T1 & off & T2 & ->) M0 D0 Z0 D SZ VA R1 CH R2 FT FR SL VS RS VT MO MA LB LN.
  unfold dladdr. apply valid_ok in V, VS, VT. rewrite V. cbn [negb]. unfold is_import_thunk. rewrite T1. cbn [bind]. rewrite Z.eqb_refl, M0, (section_ok _ _ _ _ _ D0). cbn [bind].
  assert (E0 : (size0 =? 0) || (va0 =? 0) = true) by (destruct Z0 as [-> | ->]; [apply orb_true_r|auto]). rewrite E0. cbn [bind].
  rewrite (section_ok _ _ _ _ _ D). cbn [bind]. destruct (Z.eqb_spec size 0); [lia|]. destruct (Z.eqb_spec va 0); [congruence|]. cbn [orb].
  rewrite R1. cbn [bind]. destruct (Z.eqb_spec ch 0); [congruence|]. rewrite R2. cbn [bind]. destruct (Z.eqb_spec ft 0); [congruence|]. cbn [bind].
  assert (U : u32 (size - u32 (m0 + ft - (m0 + va))) = size - (ft - va)) by (unfold u32, two32 in *; rewrite (Z.mod_small (m0 + ft - (m0 + va))) by lia; rewrite Z.mod_small by lia; lia).
  rewrite U. unfold get_address_from_iat. rewrite T2. cbn [bind]. rewrite VS. cbn [negb orb]. destruct (Z.ltb_spec (addr + 6 + s32 off) (m0 + ft)); [lia|].
  rewrite Z.gtb_ltb. destruct (Z.ltb_spec (m0 + ft + (size - (ft - va))) (addr + 6 + s32 off)); [lia|]. cbn [orb]. rewrite RS. cbn [bind]. rewrite VT. cbn [bind].
  destruct (fill_ok buffer mem sy a inf b m e MO MA LB LN) as (x & b' & E & A & B & C & F). rewrite E. cbn [bind]. exists x, b'. auto.
Qed.
(** an exported function with a name is recognised by its own address *)
Theorem C64_exact : forall mem m e x k f n, module_at mem m e -> about m (m + f) e x -> nth_error (funcs e) k = Some f ->
  (forall j, nth_error (funcs e) j = Some f -> (k <= j)%nat) -> name_of (names e) (Z.of_nat k) = Some n -> fbase x = m /\ saddr x = m + f /\ sname x = m + n.
Proof.
  intros mem m e x k f n MA (B & H) N FI NO. split; [auto|]. destruct H as [(NB & _)|(i & g & (g' & N1 & L & MX & FST) & N2 & H)].
  - exfalso. unfold none_below in NB. rewrite Forall_forall in NB. specialize (NB f (nth_error_In _ _ N)). lia.
  - rewrite N2 in N1. injection N1 as <-. assert (g = f) by (specialize (MX k f N); lia). subst g. assert (i = k) by (specialize (FST k N); specialize (FI i N2); lia). subst i.
    rewrite NO in H. destruct H. auto.
Qed.
(** 0 and the caller's record untouched, or 1 and all of it written *)
Theorem C64_result : forall buffer mem sy addr i b r i' b', dladdr buffer mem sy addr i b = Ret (r, i', b') ->
  (r = 0 /\ i' = i) \/ (r = 1 /\ exists old x a, i = Some old /\ i' = Some x /\ fn x = buffer /\ modof sy a = Some (fbase x) /\ (sname x = 0 -> saddr x = 0)).
Proof.
  intros buffer mem sy addr i b r i' b' H. unfold dladdr in H. destruct i as [inf|]; [|injection H as <- <- <-; auto].
  destruct (is_valid_address sy addr); cbn [negb] in H; [|injection H as <- <- <-; auto].
  destruct (is_import_thunk mem addr) as [th| | |]; try discriminate. cbn [bind] in H.
  match type of H with bind ?X _ = _ => destruct X as [[a|]| | |]; try discriminate end; cbn [bind] in H; [|injection H as <- <- <-; auto].
  unfold fill_info in H. destruct (modof sy a) as [m|] eqn:MO; [|cbn [bind] in H; injection H as <- <- <-; auto].
  match type of H with bind (bind ?X _) _ = _ => destruct X as [bb| | |]; try discriminate end. cbn [bind] in H.
  match type of H with bind (if ?c then _ else _) _ = _ => destruct c end; [cbn [bind] in H; injection H as <- <- <-; auto|].
  destruct (get_image_section mem m 0) as [sec| | |]; try discriminate. cbn [bind] in H.
  match type of H with bind (bind ?X _) _ = _ => destruct X as [[s0 f0]| | |]; try discriminate end. cbn [bind fst snd] in H. injection H as <- <- <-.
  right. split; [auto|]. exists inf. eexists _, a. split; [auto|]. split; [reflexivity|]. cbn [fn fbase sname saddr]. split; [auto|]. split; [auto|].
  intros S0. rewrite S0. auto.
Qed.
(** an address in no module, or in one whose path is unknown or does not fit the library's 520 bytes: 0, the caller's record is untouched and
    nothing is written past the buffer *)
Theorem C64_no_name : forall buffer mem sy addr inf b v, valid sy addr -> rd mem addr 2 = Ret v -> v <> 0x25ff -> zlen b = 520 ->
  (modof sy addr = None \/ exists m, modof sy addr = Some m /\ (fname_of sy m = [] \/ 520 <= zlen (fname_of sy m))) ->
  exists b', dladdr buffer mem sy addr (Some inf) b = Ret (0, Some inf, b') /\ zlen b' = 520.
Proof.
  intros buffer mem sy addr inf b v V R NT LB H. unfold dladdr. apply valid_ok in V. rewrite V. cbn [negb]. unfold is_import_thunk. rewrite R. cbn [bind].
  destruct (Z.eqb_spec v 9727); [congruence|]. cbn [bind]. unfold fill_info. destruct H as [-> | (m & -> & [E | L])]; [exists b; auto| |].
  - rewrite E. cbn. exists b; auto.
  - destruct (Z.eqb_spec (zlen (fname_of sy m)) 0); [lia|]. destruct (Z.ltb_spec (zlen (fname_of sy m)) 520); [lia|].
    assert (W : mwrite b 0 (ztake 519 (fname_of sy m) ++ [0]) = Ret (([] ++ (ztake 519 (fname_of sy m) ++ [0])) ++ [])).
    { rewrite <- (app_nil_r b) at 1. apply (mwrite_app [] _ b); [auto|]. rewrite zlen_app, zlen_cons, zlen_nil, zlen_ztake by lia. lia. }
    rewrite W. cbn [bind app]. change ((520 =? 0) || (520 =? 520)) with true. cbv iota. cbn [bind]. eexists. split; [reflexivity|]. rewrite app_nil_r, zlen_app, zlen_cons, zlen_nil, zlen_ztake by lia. lia.
Qed.
Print Assumptions C64_no_name.
(** the file name of every record is the one of the last successful call *)
Theorem C64_one_name : forall buffer mem sy a1 a2 i1 i2 b m1 m2 e1 e2 v1 v2, valid sy a1 -> rd mem a1 2 = Ret v1 -> v1 <> 0x25ff -> modof sy a1 = Some m1 -> module_at mem m1 e1 ->
  valid sy a2 -> rd mem a2 2 = Ret v2 -> v2 <> 0x25ff -> modof sy a2 = Some m2 -> module_at mem m2 e2 -> zlen b = 520 -> 0 < zlen (fname_of sy m1) < 520 -> 0 < zlen (fname_of sy m2) < 520 ->
  exists x1 b1 x2 b2, dladdr buffer mem sy a1 (Some i1) b = Ret (1, Some x1, b1) /\ dladdr buffer mem sy a2 (Some i2) b1 = Ret (1, Some x2, b2) /\
    fbase x1 = m1 /\ fn x1 = fn x2 /\ ztake (zlen (fname_of sy m2) + 1) b2 = fname_of sy m2 ++ [0].
Proof.
  intros buffer mem sy a1 a2 i1 i2 b m1 m2 e1 e2 v1 v2 V1 R1 N1 M1 MA1 V2 R2 N2 M2 MA2 LB L1 L2.
  destruct (C64_dladdr buffer mem sy a1 i1 b m1 e1 v1 V1 R1 N1 M1 MA1 LB L1) as (x1 & b1 & E1 & (A1 & _) & F1 & G1 & _).
  destruct (C64_dladdr buffer mem sy a2 i2 b1 m2 e2 v2 V2 R2 N2 M2 MA2 G1 L2) as (x2 & b2 & E2 & _ & F2 & G2 & H2).
  exists x1, b1, x2, b2. split; [auto|]. split; [auto|]. split; [auto|]. split; [congruence|auto].
Qed.

(** ** A module in memory, at 4096. ws: what is stored in it: place, width, value *)
Definition img (ws : list (Z * Z * Z)) : memory := fun a =>
  if (4096 <=? a) && (a <? 8192) then
    Some (fold_right (fun w r => let '(p, n, v) := w in if (4096 + p <=? a) && (a <? 4096 + p + n) then v / 256 ^ (a - (4096 + p)) mod 256 else r) 0 ws)
  else None.
Definition headers (iat isz : Z) : list (Z * Z * Z) := [(0, 2, 0x5A4D); (60, 4, 64); (88, 2, 0x20b); (200, 4, 512); (204, 4, 40); (296, 4, iat); (300, 4, isz)].
Definition dir (nf nn : Z) : list (Z * Z * Z) := [(532, 4, nf); (536, 4, nn); (540, 4, 600); (544, 4, 640); (548, 4, 680)].
Definition mysys : sysv := mk_sysv (fun a => if (4096 <=? a) && (a <? 8192) then Some (4096, 4) else None) (fun a => if (4096 <=? a) && (a <? 8192) then Some 4096 else None) (fun _ => [109]).
Definition answer (r : outcome (Z * option info * list Z)) : option (Z * Z * Z) := match r with Ret (r, Some x, _) => Some (r, sname x, saddr x) | _ => None end.
Definition ask (mem : memory) (a : Z) : option (Z * Z * Z) := answer (dladdr 77 mem mysys a (Some (mk_info 0 0 0 0)) (repeat 0 520)).
(** functions at 2000 (ordinal 0, named at 900), 1000 (1, named at 910), 3000 (2, no name) *)
Definition good_image : memory := img (headers 0 0 ++ dir 3 2 ++ [(600, 4, 2000); (604, 4, 1000); (608, 4, 3000); (640, 4, 910); (644, 4, 900); (680, 2, 1); (682, 2, 0)]).
Lemma image_module : module_at good_image 4096 (mk_ex [2000; 1000; 3000] [(910, 1); (900, 0)]).
Proof.
  split; [lia|]. split; [repeat (constructor; [lia|]); constructor|]. split; [reflexivity|]. split; [repeat (constructor; [cbn [fst]; lia|]); constructor|].
  exists 512, 40. split; [exists 64; repeat split; reflexivity|]. split; [lia|]. split; [lia|].
  exists 600, 640, 680. repeat (split; [reflexivity|]).
  split; [|split]; intros [|[|[|[|i]]]] x N; try discriminate; injection N as <-; reflexivity.
Qed.
Example demo : ask good_image (4096 + 1500) = Some (1, 4096 + 910, 4096 + 1000) /\ ask good_image (4096 + 2000) = Some (1, 4096 + 900, 4096 + 2000) /\
  ask good_image (4096 + 999) = Some (1, 0, 0) /\ ask good_image (4096 + 3001) = Some (1, 0, 0) /\ ask good_image 9000 = Some (0, 0, 0).
Proof. vm_compute. auto. Qed.
Example demo_hypotheses : valid mysys (4096 + 1500) /\ rd good_image (4096 + 1500) 2 = Ret 0 /\ modof mysys (4096 + 1500) = Some 4096.
Proof. split; [split; [lia|]; exists 4096, 4; repeat split; lia|]. split; reflexivity. Qed.
(** a thunk at 1500 of a module whose import table, at 2500, has two entries; the first leads to 2000 *)
Definition thunk_image (off : Z) : memory := img (headers 2500 16 ++ dir 2 1 ++ [(600, 4, 2000); (604, 4, 3000); (640, 4, 900); (680, 2, 0); (1500, 2, 0x25ff); (1502, 4, off); (2500, 8, 4096 + 2000); (2516, 8, 4096 + 2008)]).
Example demo_thunk : ask (thunk_image (2500 - 1506)) (4096 + 1500) = Some (1, 4096 + 900, 4096 + 2000) /\ thunk_at (thunk_image (2500 - 1506)) (4096 + 1500) (4096 + 2500) /\
  has_dir (thunk_image (2500 - 1506)) 4096 12 2500 16 /\ ask (thunk_image (2490 - 1506)) (4096 + 1500) = Some (0, 0, 0).
Proof.
  split; [vm_compute; auto|]. split; [split; [reflexivity|]; exists (2500 - 1506); split; reflexivity|]. split; [exists 64; repeat split; reflexivity|]. vm_compute. auto.
Qed.
(** ** What does not hold *)
(** a slot just past the import table is taken for a part of it *)
Theorem C64_past_table_refuted : exists mem addr slot, thunk_at mem addr slot /\ has_dir mem 4096 12 2500 16 /\ slot = 4096 + 2500 + 16 /\ ask mem addr = Some (1, 4096 + 900, 4096 + 2000).
Proof.
  exists (thunk_image (2516 - 1506)), (4096 + 1500), (4096 + 2516). split; [split; [reflexivity|]; exists (2516 - 1506); split; reflexivity|].
  split; [exists 64; repeat split; reflexivity|]. split; [reflexivity|]. vm_compute. auto.
Qed.
(** two exports at one address, of which the second has a name: no name is given *)
Theorem C64_alias_refuted : exists mem, module_at mem 4096 (mk_ex [2000; 2000] [(900, 1)]) /\ ask mem (4096 + 2000) = Some (1, 0, 0).
Proof.
  exists (img (headers 0 0 ++ dir 2 1 ++ [(600, 4, 2000); (604, 4, 2000); (640, 4, 900); (680, 2, 1)])). split; [|vm_compute; auto].
  split; [lia|]. split; [repeat (constructor; [lia|]); constructor|]. split; [reflexivity|]. split; [repeat (constructor; [cbn [fst]; lia|]); constructor|].
  exists 512, 40. split; [exists 64; repeat split; reflexivity|]. split; [lia|]. split; [lia|].
  exists 600, 640, 680. repeat (split; [reflexivity|]).
  split; [|split]; intros [|[|[|i]]] x N; try discriminate; injection N as <-; reflexivity.
Qed.
(** an export that is forwarded to another library (its offset leads into the export directory, 512 to 552, where the text of the
    forward is) is taken for a function of this one *)
Theorem C64_forward_refuted : exists mem, has_dir mem 4096 0 512 40 /\ module_at mem 4096 (mk_ex [551; 500] [(900, 0); (910, 1)]) /\ ask mem (4096 + 1500) = Some (1, 4096 + 900, 4096 + 551).
Proof.
  exists (img (headers 0 0 ++ dir 2 2 ++ [(600, 4, 551); (604, 4, 500); (640, 4, 900); (644, 4, 910); (680, 2, 0); (682, 2, 1)])). split; [exists 64; repeat split; reflexivity|]. split; [|vm_compute; auto].
  split; [lia|]. split; [repeat (constructor; [lia|]); constructor|]. split; [reflexivity|]. split; [repeat (constructor; [cbn [fst]; lia|]); constructor|].
  exists 512, 40. split; [exists 64; repeat split; reflexivity|]. split; [lia|]. split; [lia|].
  exists 600, 640, 680. repeat (split; [reflexivity|]).
  split; [|split]; intros [|[|[|i]]] x N; try discriminate; injection N as <-; reflexivity.
Qed.

Print Assumptions C64_dladdr.
Print Assumptions C64_thunk.
Print Assumptions C64_thunk_fallback.
Print Assumptions C64_exact.
Print Assumptions C64_result.
Print Assumptions C64_one_name.
Print Assumptions C64_past_table_refuted.
Print Assumptions C64_alias_refuted.
Print Assumptions C64_forward_refuted.

From Verif Require Import CBase SeqLib CStr StringsModel StringsSpec StringsProof Base64Proof.

Lemma Forall2_length {A B} (R : A -> B -> Prop) l m : Forall2 R l m -> length l = length m.
Proof. induction 1; [reflexivity|cbn; congruence]. Qed.
Lemma Forall2_impl {A B} (R S : A -> B -> Prop) l m : (forall a b, R a b -> S a b) -> Forall2 R l m -> Forall2 S l m.
Proof. intro H; induction 1; constructor; auto. Qed.
(** ** strsplit *)
Definition allin (d x : list Z) : Prop := Forall (fun c => inset c d = true) x.
Definition allout (d x : list Z) : Prop := Forall (fun c => inset c d = false) x.

Lemma span_in_split d s : exists x s', s = x ++ s' /\ span_in d s = zlen x /\ allin d x /\
  (s' = [] \/ exists c s'', s' = c :: s'' /\ inset c d = false).
Proof.
  induction s as [|c s IH]; cbn [span_in].
  - exists [], []. repeat split; [constructor|left; reflexivity].
  - destruct (inset c d) eqn:E.
    + destruct IH as (x & s' & -> & -> & A & H). exists (c :: x), s'. repeat split; try assumption.
      * rewrite zlen_cons; reflexivity.
      * constructor; assumption.
    + exists [], (c :: s). repeat split; [constructor|right; eauto].
Qed.
Lemma span_out_split d s : exists f s', s = f ++ s' /\ span_out d s = zlen f /\ allout d f /\
  (s' = [] \/ exists c s'', s' = c :: s'' /\ inset c d = true).
Proof.
  induction s as [|c s IH]; cbn [span_out].
  - exists [], []. repeat split; [constructor|left; reflexivity].
  - destruct (inset c d) eqn:E.
    + exists [], (c :: s). repeat split; [constructor|right; eauto].
    + destruct IH as (x & s' & -> & -> & A & H). exists (c :: x), s'. repeat split; try assumption.
      * rewrite zlen_cons; reflexivity.
      * constructor; assumption.
Qed.
Lemma pieces_allin d x s : allin d x -> pieces d (x ++ s) = pieces d s.
Proof.
  unfold pieces. induction 1 as [|c x H A IH]; [reflexivity|]. cbn [app fields]. rewrite H. cbn [filter]. exact IH.
Qed.
Lemma fields_nonempty d s : fields d s <> [].
Proof. destruct s as [|c s]; cbn [fields]; [discriminate|]. destruct (inset c d); [discriminate|]. destruct (fields d s); discriminate. Qed.
Lemma fields_allout d f s : allout d f -> fields d (f ++ s) =
  match fields d s with g :: gs => (f ++ g) :: gs | [] => [f] end.
Proof.
  induction 1 as [|c f H A IH].
  - cbn [app]. pose proof (fields_nonempty d s). destruct (fields d s); [congruence|reflexivity].
  - cbn [app fields]. rewrite H, IH. pose proof (fields_nonempty d s). destruct (fields d s); [congruence|reflexivity].
Qed.
Lemma pieces_field_end d f : allout d f -> f <> [] -> pieces d f = [f].
Proof.
  intros A N. unfold pieces. rewrite <- (app_nil_r f) at 1. rewrite fields_allout by exact A. cbn [fields].
  rewrite app_nil_r. cbn [filter]. destruct f; [congruence|reflexivity].
Qed.
Lemma pieces_field d f c s : allout d f -> f <> [] -> inset c d = true -> pieces d (f ++ c :: s) = f :: pieces d s.
Proof.
  intros A N H. unfold pieces. rewrite fields_allout by exact A. cbn [fields]. rewrite H.
  rewrite app_nil_r. cbn [filter]. destruct f; [congruence|reflexivity].
Qed.

Lemma cstr_at_Ret buf t p : cstr_at buf t = Ret p -> exists a b, buf = a ++ p ++ 0 :: b /\ zlen a = t /\ text p.
Proof.
  unfold cstr_at, strlen_at. destruct ((0 <=? t) && (t <=? zlen buf)) eqn:E; [|discriminate].
  destruct (find0 (zdrop t buf)) as [n| | |] eqn:F; try discriminate. cbn [bind]. intro H; injection H as <-.
  destruct (find0_Ret _ _ F) as (u & r & E1 & T & <-). exists (ztake t buf), r.
  unfold zsub. rewrite E1, ztake_app_len. split; [rewrite <- E1; symmetry; apply ztake_zdrop|].
  split; [apply zlen_ztake; lia|exact T].
Qed.
(** overwriting a non-NUL byte not inside a C string leaves that C string alone *)
Lemma cstr_at_stable buf t p i c x : cstr_at buf t = Ret p -> t + zlen p <= i -> znth i buf = Some c -> c <> 0 ->
  exists buf', mstore buf i x = Ret buf' /\ cstr_at buf' t = Ret p.
Proof.
  intros H L E N. destruct (cstr_at_Ret buf t p H) as (a & b & -> & La & T).
  pose proof (zlen_nonneg a). pose proof (zlen_nonneg p).
  rewrite app_assoc, znth_app_r in E by (rewrite zlen_app; lia). rewrite zlen_app in E.
  destruct (Z.eq_dec i (zlen a + zlen p)) as [->|Ni].
  { replace (zlen a + zlen p - (zlen a + zlen p)) with 0 in E by lia. cbn in E. injection E as <-. congruence. }
  rewrite znth_cons in E by lia.
  set (j := i - (zlen a + zlen p) - 1) in *.
  pose proof (znth_Some_range _ _ _ E) as Rj.
  exists (a ++ p ++ 0 :: zwrite j [x] b). split.
  - unfold mstore. rewrite mwrite_ok by (rewrite ?zlen_app, ?zlen_cons; change (zlen (@nil Z)) with 0; lia).
    f_equal. apply zlist_ext.
    + rewrite zlen_zwrite by (rewrite ?zlen_app, ?zlen_cons; change (zlen (@nil Z)) with 0; lia).
      rewrite !zlen_app, !zlen_cons, zlen_zwrite by (rewrite ?zlen_cons; change (zlen (@nil Z)) with 0; lia). reflexivity.
    + intros m Hm. rewrite zlen_zwrite in Hm by (rewrite ?zlen_app, ?zlen_cons; change (zlen (@nil Z)) with 0; lia).
      rewrite !zlen_app, zlen_cons in Hm.
      rewrite znth_zwrite by (rewrite ?zlen_app, ?zlen_cons; change (zlen (@nil Z)) with 0; lia).
      change (zlen [x]) with 1.
      rewrite (app_assoc a p (0 :: zwrite j [x] b)), (app_assoc a p (0 :: b)).
      destruct (Z_lt_dec m (zlen (a ++ p))) as [D|D].
      * rewrite (znth_app_l m (a ++ p) (0 :: b)), (znth_app_l m (a ++ p) (0 :: zwrite j [x] b)) by exact D. rewrite zlen_app in D.
        destruct ((i <=? m) && (m <? i + 1)) eqn:C; [lia|reflexivity].
      * rewrite (znth_app_r m (a ++ p) (0 :: b)), (znth_app_r m (a ++ p) (0 :: zwrite j [x] b)) by lia. rewrite zlen_app in *.
        destruct (Z.eq_dec m (zlen a + zlen p)) as [->|Nm].
        { replace (zlen a + zlen p - (zlen a + zlen p)) with 0 by lia.
          destruct ((i <=? zlen a + zlen p) && (zlen a + zlen p <? i + 1)) eqn:C; [lia|reflexivity]. }
        rewrite (znth_cons _ 0 b), (znth_cons _ 0 (zwrite j [x] b)) by lia.
        rewrite znth_zwrite by (change (zlen [x]) with 1; lia). change (zlen [x]) with 1.
        destruct ((i <=? m) && (m <? i + 1)) eqn:C1;
          destruct ((j <=? m - (zlen a + zlen p) - 1) && (m - (zlen a + zlen p) - 1 <? j + 1)) eqn:C2; try (unfold j in *; lia); try reflexivity.
        f_equal. unfold j. lia.
  - apply cstr_at_text; [symmetry; exact La|exact T].
Qed.

Lemma strtok_ok d s pre r : text s ->
  (pieces d s = [] -> exists ctx, strtok_r (pre ++ s ++ 0 :: r) d (zlen pre) = Ret (pre ++ s ++ 0 :: r, None, ctx)) /\
  (forall f fs, pieces d s = f :: fs -> exists pre' s' t,
     strtok_r (pre ++ s ++ 0 :: r) d (zlen pre) = Ret (pre' ++ s' ++ 0 :: r, Some t, zlen pre') /\
     text s' /\ pieces d s' = fs /\ zlen pre <= t /\ t + zlen f <= zlen pre' /\
     zlen (pre' ++ s') = zlen (pre ++ s) /\ (length s' < length s)%nat /\
     cstr_at (pre' ++ s' ++ 0 :: r) t = Ret f /\
     (forall t0 p0, cstr_at (pre ++ s ++ 0 :: r) t0 = Ret p0 -> t0 + zlen p0 <= zlen pre ->
        cstr_at (pre' ++ s' ++ 0 :: r) t0 = Ret p0)).
Proof.
  intro T. destruct (span_in_split d s) as (x & s1 & E1 & E2 & A & H1).
  assert (pieces d s = pieces d s1) as P1 by (rewrite E1; apply pieces_allin; exact A).
  unfold strtok_r. rewrite cstr_at_text by (try reflexivity; exact T). cbn [bind]. cbv zeta. rewrite E2.
  assert (zdrop (zlen x) s = s1) as D1 by (rewrite E1; apply zdrop_app_len). rewrite D1.
  destruct H1 as [->|(c & s2 & -> & Hc)].
  { split; [eauto|]. intros f fs Hf. rewrite P1 in Hf. discriminate. }
  destruct (span_out_split d (c :: s2)) as (f1 & s3 & E3 & E4 & B & H3).
  assert (f1 <> []) as NF.
  { intros ->. cbn [app] in E3. destruct H3 as [->|(e & s4 & -> & He)]; [discriminate|]. injection E3 as -> ->. congruence. }
  rewrite E4, E3. 
  assert (text x /\ text f1 /\ text s3) as (Tx & Tf & T3).
  { rewrite E1, E3 in T. apply text_app in T as [? T']. apply text_app in T'. tauto. }
  pose proof (zlen_nonneg pre) as Npre. pose proof (zlen_nonneg x) as Nx. pose proof (zlen_nonneg f1) as Nf.
  destruct H3 as [->|(e & s4 & -> & He)].
  - (* token reaches the end of the string *)
    rewrite app_nil_r in *. assert (pieces d s = [f1]) as P2 by (rewrite P1, E3; apply pieces_field_end; assumption).
    rewrite P2. split; [discriminate|]. intros f fs Hf. injection Hf as <- <-.
    destruct f1 as [|g f1']; [congruence|]. set (f1 := g :: f1') in *.
    destruct (zlen f1 =? zlen f1) eqn:C; [|lia].
    exists (pre ++ x ++ f1), [], (zlen pre + zlen x).
    assert (pre ++ s ++ 0 :: r = (pre ++ x ++ f1) ++ [] ++ 0 :: r) as EB by (rewrite E1, E3, <- !app_assoc; reflexivity).
    rewrite EB, !zlen_app. split; [eqlia|].
    split; [constructor|]. split; [reflexivity|]. split; [lia|]. split; [lia|]. 
    split; [rewrite E1, E3, !zlen_app; change (zlen (@nil Z)) with 0; lia|].
    split; [rewrite E1, E3, app_length; unfold f1; cbn [length]; lia|].
    split.
    + replace ((pre ++ x ++ f1) ++ [] ++ 0 :: r) with ((pre ++ x) ++ f1 ++ 0 :: r) by (rewrite <- !app_assoc; reflexivity).
      apply cstr_at_text; [rewrite zlen_app; reflexivity|exact Tf].
    + intros t0 p0 H _. exact H.
  - assert (pieces d s = f1 :: pieces d s4) as P2 by (rewrite P1, E3; apply pieces_field; assumption).
    rewrite P2. split; [discriminate|]. intros f fs Hf. injection Hf as <- <-.
    apply text_cons in T3 as [Ne T4].
    destruct f1 as [|g f1']; [congruence|]. cbn [app]. change (g :: f1' ++ e :: s4) with ((g :: f1') ++ e :: s4).
    set (f1 := g :: f1') in *. pose proof (zlen_nonneg s4).
    destruct (zlen f1 =? zlen (f1 ++ e :: s4)) eqn:C; [rewrite zlen_app, zlen_cons in C; lia|].
    exists (pre ++ x ++ f1 ++ [0]), s4, (zlen pre + zlen x).
    assert (pre ++ s ++ 0 :: r = (pre ++ x ++ f1) ++ e :: s4 ++ 0 :: r) as EB by (rewrite E1, E3, <- !app_assoc; reflexivity).
    assert (mstore (pre ++ s ++ 0 :: r) (zlen pre + zlen x + zlen f1) 0 = Ret ((pre ++ x ++ f1 ++ [0]) ++ s4 ++ 0 :: r)) as MS.
    { rewrite EB, mstore_app by (rewrite !zlen_app; lia). rewrite <- !app_assoc. reflexivity. }
    rewrite MS. cbn [bind].
    split; [rewrite !zlen_app; change (zlen [0]) with 1; f_equal; f_equal; lia|].
    split; [exact T4|]. split; [reflexivity|]. split; [lia|]. 
    split; [rewrite !zlen_app; change (zlen [0]) with 1; lia|].
    split; [rewrite E1, E3, !zlen_app, (zlen_cons e); change (zlen [0]) with 1; lia|].
    split; [rewrite E1, E3, !app_length; unfold f1; cbn [length]; lia|].
    split.
    + replace ((pre ++ x ++ f1 ++ [0]) ++ s4 ++ 0 :: r) with ((pre ++ x) ++ f1 ++ 0 :: s4 ++ 0 :: r) by (rewrite <- !app_assoc; reflexivity).
      apply cstr_at_text; [rewrite zlen_app; reflexivity|exact Tf].
    + intros t0 p0 H0 L0.
      destruct (cstr_at_stable (pre ++ s ++ 0 :: r) t0 p0 (zlen pre + zlen x + zlen f1) e 0 H0) as (buf' & M & R).
      * lia.
      * rewrite EB. rewrite znth_app_r by (rewrite !zlen_app; lia). rewrite !zlen_app.
        replace (zlen pre + zlen x + zlen f1 - (zlen pre + (zlen x + zlen f1))) with 0 by lia. reflexivity.
      * exact Ne.
      * rewrite MS in M. injection M as <-. exact R.
Qed.

Lemma split_loop_ok d r cap : forall fuel s pre t f toks done,
  text s -> (length s < fuel)%nat -> cstr_at (pre ++ s ++ 0 :: r) t = Ret f -> t + zlen f <= zlen pre ->
  Forall2 (fun t p => cstr_at (pre ++ s ++ 0 :: r) t = Ret p /\ t + zlen p <= zlen pre) toks done ->
  zlen toks <= Z.max 0 cap ->
  exists buf' toks', split_loop fuel (pre ++ s ++ 0 :: r) d (zlen pre) (Some t) toks cap = Ret (buf', toks') /\
    zlen buf' = zlen (pre ++ s ++ 0 :: r) /\
    Forall2 (fun t p => cstr_at buf' t = Ret p) toks' (ztake cap (done ++ f :: pieces d s)).
Proof.
  induction fuel as [|fuel IH]; intros s pre t f toks done T L Hc Ht HF HC; [lia|]. cbn [split_loop].
  assert (zlen toks = zlen done) as LD by (unfold zlen; rewrite (Forall2_length _ _ _ HF); reflexivity).
  pose proof (zlen_nonneg toks) as Nt.
  destruct (zlen toks <? cap) eqn:C.
  2:{ exists (pre ++ s ++ 0 :: r), toks. split; [reflexivity|]. split; [reflexivity|].
      assert (ztake cap (done ++ f :: pieces d s) = done) as ->.
      { destruct (Z_le_dec cap 0).
        - rewrite ztake_neg by lia. symmetry. apply zlen_0_nil. lia.
        - rewrite ztake_app_l by lia. apply ztake_all. lia. }
      eapply Forall2_impl; [|exact HF]. intros a b [H _]; exact H. }
  destruct (strtok_ok d s pre r T) as [S1 S2].
  destruct (pieces d s) as [|f2 fs] eqn:P.
  - destruct (S1 eq_refl) as [ctx E]. rewrite E. cbn [bind].
    assert (forall fl, split_loop fl (pre ++ s ++ 0 :: r) d ctx None (toks ++ [t]) cap = Ret (pre ++ s ++ 0 :: r, toks ++ [t])) as G by (intros [|]; reflexivity).
    rewrite G. eexists _, _. split; [reflexivity|]. split; [reflexivity|].
    rewrite ztake_all by (rewrite zlen_snoc; lia).
    apply Forall2_app; [|constructor; [exact Hc|constructor]].
    eapply Forall2_impl; [|exact HF]. intros a b [H _]; exact H.
  - destruct (S2 f2 fs eq_refl) as (pre' & s' & t' & E & T' & P' & L1 & L2 & L3 & L4 & C1 & ST).
    rewrite E. cbn [bind].
    pose proof (zlen_nonneg f2).
    destruct (IH s' pre' t' f2 (toks ++ [t]) (done ++ [f]) T' ltac:(lia) C1 L2) as (buf' & toks' & R1 & R2 & R3).
    + apply Forall2_app.
      * eapply Forall2_impl; [|exact HF]. intros a b [H1 H2]. split; [apply ST; assumption|lia].
      * constructor; [|constructor]. split; [apply ST; assumption|lia].
    + rewrite zlen_snoc; lia.
    + exists buf', toks'. split; [exact R1|]. split.
      * rewrite R2. rewrite !app_assoc. rewrite (zlen_app (pre' ++ s')), (zlen_app (pre ++ s)), L3. reflexivity.
      * rewrite P', <- app_assoc in R3. exact R3.
Qed.


Lemma strsplit_lemma s r d cap : text s ->
  exists buf' toks, strsplit (s ++ 0 :: r) d cap = Ret (buf', toks) /\
    zlen buf' = zlen (s ++ 0 :: r) /\
    Forall2 (fun t p => cstr_at buf' t = Ret p) toks (ztake cap (pieces d s)).
Proof.
  intro T. unfold strsplit. destruct (strtok_ok d s [] r T) as [S1 S2].
  cbn [app] in S1, S2. change (zlen (@nil Z)) with 0 in S1, S2.
  destruct (pieces d s) as [|f fs] eqn:P.
  - destruct (S1 eq_refl) as [ctx E]. rewrite E. cbn [bind].
    exists (s ++ 0 :: r), []. split; [destruct (length (s ++ 0 :: r)); reflexivity|]. split; [reflexivity|].
    rewrite ztake_nil. constructor.
  - destruct (S2 f fs eq_refl) as (pre' & s' & t' & E & T' & P' & L1 & L2 & L3 & L4 & C1 & ST).
    rewrite E. cbn [bind].
    destruct (split_loop_ok d r cap (length (pre' ++ s' ++ 0 :: r)) s' pre' t' f [] []) as (buf' & toks & R1 & R2 & R3).
    + exact T'.
    + rewrite !app_length. cbn [length]. lia.
    + exact C1.
    + exact L2.
    + constructor.
    + change (zlen (@nil Z)) with 0. lia.
    + exists buf', toks. split; [exact R1|]. split.
      * rewrite R2. rewrite app_assoc, zlen_app, L3, zlen_app. reflexivity.
      * cbn [app] in R3. rewrite P' in R3. exact R3.
Qed.

(** ** strtrim *)
Lemma drop_in_split set s : exists x, s = x ++ drop_in set s /\ allin set x /\
  (drop_in set s = [] \/ exists c u, drop_in set s = c :: u /\ inset c set = false).
Proof.
  induction s as [|c s IH]; cbn [drop_in].
  - exists []. repeat split; [constructor|left; reflexivity].
  - destruct (inset c set) eqn:E.
    + destruct IH as (x & H1 & H2 & H3). exists (c :: x). repeat split; [cbn; rewrite <- H1; reflexivity|constructor; assumption|exact H3].
    + exists []. repeat split; [constructor|right; eauto].
Qed.
Lemma allin_rev d x : allin d x -> allin d (rev x).
Proof. intro H. unfold allin in *. apply Forall_rev; exact H. Qed.

Lemma trim_l_ok set tail : forall x fuel pre u, allin set x ->
  (u = [] \/ exists c v, u = c :: v /\ inset c set = false) -> (length x < fuel)%nat ->
  trim_l fuel (pre ++ x ++ u ++ tail) set (zlen pre) (zlen pre + zlen x + zlen u - 1) = Ret (zlen pre + zlen x).
Proof.
  induction x as [|c x IH]; intros fuel pre u A H L; (destruct fuel as [|fuel]; [cbn in L; lia|]); cbn [trim_l app].
  - change (zlen (@nil Z)) with 0. destruct H as [->|(c & v & -> & E)].
    + change (zlen (@nil Z)) with 0. destruct (zlen pre <=? zlen pre + 0 + 0 - 1) eqn:C; [lia|]. f_equal; lia.
    + rewrite zlen_cons. pose proof (zlen_nonneg v). destruct (zlen pre <=? zlen pre + 0 + (1 + zlen v) - 1) eqn:C; [|lia].
      cbn [app]. rewrite mload_app0 by reflexivity. cbn [bind]. rewrite E. f_equal; lia.
  - inversion A as [|? ? Ac A']; subst. rewrite zlen_cons. pose proof (zlen_nonneg x). pose proof (zlen_nonneg u).
    destruct (zlen pre <=? zlen pre + (1 + zlen x) + zlen u - 1) eqn:C; [|lia].
    rewrite mload_app0 by reflexivity. cbn [bind]. rewrite Ac.
    replace (pre ++ c :: x ++ u ++ tail) with ((pre ++ [c]) ++ x ++ u ++ tail) by (rewrite <- app_assoc; reflexivity).
    rewrite <- (zlen_snoc pre c).
    replace (zlen pre + (1 + zlen x) + zlen u - 1) with (zlen (pre ++ [c]) + zlen x + zlen u - 1) by (rewrite zlen_snoc; lia).
    rewrite IH by (try assumption; cbn in L; lia). rewrite zlen_snoc. f_equal; lia.
Qed.
Lemma trim_r_ok set : forall y fuel s pre v e tail, allin set y -> inset e set = false ->
  s = pre ++ (v ++ [e]) ++ rev y ++ tail -> (length y < fuel)%nat ->
  trim_r fuel s set (zlen pre + zlen v + zlen y) (zlen pre) = Ret (zlen pre + zlen v).
Proof.
  induction y as [|c y IH]; intros fuel s pre v e tail A E -> L; (destruct fuel as [|fuel]; [cbn in L; lia|]); cbn [trim_r].
  - change (zlen (@nil Z)) with 0. rewrite Z.add_0_r. pose proof (zlen_nonneg v).
    destruct (zlen pre + zlen v >? zlen pre) eqn:C; [|reflexivity].
    replace (pre ++ (v ++ [e]) ++ rev [] ++ tail) with ((pre ++ v) ++ e :: tail) by (rewrite <- !app_assoc; reflexivity).
    rewrite mload_app0 by (rewrite zlen_app; reflexivity). cbn [bind]. rewrite E. reflexivity.
  - inversion A as [|? ? Ac A']; subst. rewrite zlen_cons. pose proof (zlen_nonneg v). pose proof (zlen_nonneg y).
    destruct (zlen pre + zlen v + (1 + zlen y) >? zlen pre) eqn:C; [|lia].
    assert (mload (pre ++ (v ++ [e]) ++ rev (c :: y) ++ tail) (zlen pre + zlen v + (1 + zlen y)) = Ret c) as ->.
    { cbn [rev]. replace (pre ++ (v ++ [e]) ++ (rev y ++ [c]) ++ tail) with ((pre ++ (v ++ [e]) ++ rev y) ++ c :: tail) by (rewrite <- !app_assoc; reflexivity).
      apply mload_app0. rewrite !zlen_app, zlen_rev. change (zlen [e]) with 1. lia. }
    cbn [bind]. rewrite Ac. replace (zlen pre + zlen v + (1 + zlen y) - 1) with (zlen pre + zlen v + zlen y) by lia.
    apply (IH fuel _ pre v e (c :: tail)); try assumption; [|cbn in L; lia].
    cbn [rev]. rewrite <- !app_assoc. reflexivity.
Qed.
Lemma strtrim_lemma t r set : text t ->
  exists rest, zlen rest = zlen t - zlen (trimmed set t) /\
    strtrim (t ++ 0 :: r) set = Ret (trimmed set t ++ 0 :: rest ++ r).
Proof.
  intro T. unfold strtrim.
  pose proof (strlen_at_text [] t r 0 eq_refl T) as SL. cbn [app] in SL. rewrite SL. cbn [bind]. cbv zeta.
  destruct (drop_in_split set t) as (x & E1 & A1 & H1). set (u := drop_in set t) in *.
  pose proof (zlen_nonneg x) as Nx. pose proof (zlen_nonneg u) as Nu.
  assert (zlen t = zlen x + zlen u) as LT by (rewrite E1; apply zlen_app).
  pose proof (trim_l_ok set (0 :: r) x (length (t ++ 0 :: r)) [] u A1 H1) as TL.
  cbn [app] in TL. change (zlen (@nil Z)) with 0 in TL. rewrite !Z.add_0_l in TL.
  rewrite (app_assoc x u), <- E1, <- LT in TL. rewrite TL by (rewrite E1, !app_length; cbn [length]; lia). cbn [bind]. clear TL.
  unfold trimmed. fold u.
  destruct H1 as [Eu|(c & u' & Eu & Hc)].
  - (* everything is trimmed *)
    rewrite Eu in *. change (zlen (@nil Z)) with 0 in *. cbn [rev drop_in].
    assert (trim_r (length (t ++ 0 :: r)) (t ++ 0 :: r) set (zlen t - 1) (zlen x) = Ret (zlen t - 1)) as ->.
    { destruct (length (t ++ 0 :: r)); cbn [trim_r]; destruct (zlen t - 1 >? zlen x) eqn:C; try lia; reflexivity. }
    cbn [bind]. destruct (zlen x >? zlen t - 1) eqn:C; [|lia].
    change (0 =? 0) with true. cbn [negb andb bind].
    destruct t as [|b t].
    + cbn [app]. exists []. split; [reflexivity|]. apply (mstore_app [] r 0 0 0); reflexivity.
    + cbn [app]. exists (t ++ [0]). split.
      * rewrite zlen_snoc, zlen_cons. change (zlen (@nil Z)) with 0. lia.
      * rewrite <- app_assoc. cbn [app]. apply (mstore_app [] (t ++ 0 :: r) 0 b 0); reflexivity.
  - destruct (drop_in_split set (rev u)) as (y & E2 & A2 & H2). set (v := drop_in set (rev u)) in *.
    assert (u = rev v ++ rev y) as E3.
    { rewrite <- (rev_involutive u), E2, rev_app_distr. reflexivity. }
    assert (exists e v', v = e :: v' /\ inset e set = false) as (e & v' & Ev & He).
    { destruct H2 as [Z0|H2]; [|exact H2]. rewrite Z0 in E3. cbn [rev app] in E3.
      assert (allin set (c :: u')) as B by (rewrite <- Eu, E3; apply allin_rev; exact A2).
      inversion B; congruence. }
    rewrite Ev in *. cbn [rev] in *.
    pose proof (zlen_nonneg v'). pose proof (zlen_nonneg y).
    assert (zlen u = zlen v' + 1 + zlen y) as LU by (rewrite E3, !zlen_app, !zlen_rev; reflexivity).
    pose proof (trim_r_ok set y (length (t ++ 0 :: r)) (t ++ 0 :: r) x (rev v') e (0 :: r) A2 He) as TR.
    rewrite zlen_rev in TR. replace (zlen t - 1) with (zlen x + zlen v' + zlen y) by lia.
    rewrite TR; clear TR.
    2:{ rewrite E1, E3, <- !app_assoc. reflexivity. }
    2:{ rewrite E1, E3, !app_length, !rev_length. cbn [length]. lia. }
    cbn [bind]. destruct (zlen x >? zlen x + zlen v') eqn:C; [lia|].
    replace (zlen x + zlen v' - zlen x + 1) with (zlen v' + 1) by lia.
    destruct (zlen v' + 1 =? 0) eqn:C1; [lia|]. cbn [negb andb].
    set (w := rev v' ++ [e]) in *.
    assert (zlen w = zlen v' + 1) as LW by (unfold w; rewrite zlen_snoc, zlen_rev; reflexivity).
    rewrite <- LW.
    assert (t ++ 0 :: r = x ++ w ++ rev y ++ 0 :: r) as EB by (rewrite E1, E3, <- !app_assoc; reflexivity).
    destruct (zlen x =? 0) eqn:C2.
    + cbn [negb bind]. assert (x = []) as -> by (apply zlen_0_nil; lia). cbn [app] in EB.
      rewrite EB. destruct (rev y) as [|z ys] eqn:Ey.
      * cbn [app]. exists []. rewrite mstore_app by reflexivity. rewrite <- app_assoc. split; [|reflexivity].
        assert (zlen y = 0) as Ly by (rewrite <- zlen_rev, Ey; reflexivity). change (zlen (@nil Z)) with 0 in *. lia.
      * cbn [app]. exists (ys ++ [0]). rewrite mstore_app by reflexivity. rewrite <- !app_assoc. split; [|reflexivity].
        assert (zlen y = 1 + zlen ys) as Ly by (rewrite <- zlen_rev, Ey; apply zlen_cons).
        rewrite zlen_snoc. change (zlen (@nil Z)) with 0 in *. lia.
    + cbn [negb]. rewrite EB.
      pose proof (zlen_nonneg (rev y)); pose proof (zlen_nonneg (0 :: r)); rewrite mread_ok by (rewrite ?zlen_app; lia). cbn [bind].
      assert (zsub (zlen x) (zlen w) (x ++ w ++ rev y ++ 0 :: r) = w) as ->.
      { unfold zsub. rewrite zdrop_app_len. apply ztake_app_len. }
      (* view the text as a block of length zlen w followed by one byte *)
      pose proof (zlen_nonneg (rev y)) as Ny.
      assert (exists a z b, x ++ w ++ rev y = a ++ z :: b /\ zlen a = zlen w) as (a & z & b & Ea & La).
      { destruct (split_first_n (zlen w) (x ++ w ++ rev y)) as (a & ab & Ea & La); [rewrite !zlen_app; lia|].
        assert (0 < zlen ab) as Lab.
        { apply (f_equal zlen) in Ea. rewrite !zlen_app in Ea. lia. }
        destruct (zlen_pos_cons ab Lab) as (z & b & ->). eauto. }
      replace (x ++ w ++ rev y ++ 0 :: r) with ([] ++ a ++ (z :: b ++ 0 :: r)).
      2:{ cbn [app]. rewrite !app_assoc. rewrite <- (app_assoc x w), Ea, <- app_assoc. reflexivity. }
      rewrite (mwrite_app [] w a) by (try reflexivity; lia). cbn [bind app].
      exists (b ++ [0]). rewrite mstore_app by reflexivity. rewrite <- !app_assoc. split; [|reflexivity].
      apply (f_equal zlen) in Ea. rewrite !zlen_app, zlen_cons, zlen_rev in Ea. rewrite zlen_snoc. lia.
Qed.

(** ** UTF-8 counting *)
Lemma cont_byte c : 0 <= c < 256 -> (Z.land c 192 =? 128) = ((128 <=? c) && (c <? 192)).
Proof.
  intro H. apply eqb_prop. revert c H.
  apply (sweep_ok 256 (fun c => eqb (Z.land c 192 =? 128) ((128 <=? c) && (c <? 192)))). vm_compute; reflexivity.
Qed.
Lemma utf8_loop_ok maxc : forall t fuel pre r pts, text t -> Forall is_byte t -> (length t < fuel)%nat ->
  utf8_loop fuel (pre ++ t ++ 0 :: r) (zlen pre) maxc pts = Ret (pts + code_points (ztake (maxc - zlen pre) t)).
Proof.
  unfold code_points. induction t as [|c t IH]; intros fuel pre r pts T B L; (destruct fuel as [|fuel]; [cbn in L; lia|]); cbn [utf8_loop app].
  - rewrite mload_app0 by reflexivity. cbn [bind]. change (0 =? 0) with true. cbn [negb andb].
    rewrite ztake_nil. cbn [filter]. change (zlen (@nil Z)) with 0. f_equal; lia.
  - apply text_cons in T as [Hc T]. inversion B as [|? ? Bc B']; subst. unfold is_byte in Bc.
    rewrite mload_app0 by reflexivity. cbn [bind]. destruct (c =? 0) eqn:C0; [lia|]. cbn [negb andb].
    destruct (zlen pre <? maxc) eqn:C.
    + replace (pre ++ c :: t ++ 0 :: r) with ((pre ++ [c]) ++ t ++ 0 :: r) by (rewrite <- app_assoc; reflexivity).
      rewrite <- (zlen_snoc pre c), IH by (try assumption; cbn in L; lia). rewrite zlen_snoc.
      rewrite ztake_cons by lia. cbn [filter]. rewrite cont_byte by lia.
      replace (maxc - (zlen pre + 1)) with (maxc - zlen pre - 1) by lia.
      destruct ((128 <=? c) && (c <? 192)); cbn [negb]; [|rewrite zlen_cons]; f_equal; lia.
    + rewrite ztake_neg by lia. cbn [filter]. change (zlen (@nil Z)) with 0. f_equal; lia.
Qed.
Lemma strnutf8len_lemma t r maxc : text t -> Forall is_byte t ->
  strnutf8len (t ++ 0 :: r) maxc = Ret (code_points (ztake maxc t)).
Proof.
  intros T B. unfold strnutf8len.
  pose proof (utf8_loop_ok maxc t (S (length (t ++ 0 :: r))) [] r 0 T B) as U. cbn [app] in U.
  change (zlen (@nil Z)) with 0 in U. rewrite U by (rewrite app_length; cbn; lia). rewrite Z.sub_0_r. reflexivity.
Qed.
Lemma strutf8len_lemma t r : text t -> Forall is_byte t -> strutf8len (t ++ 0 :: r) = Ret (code_points t).
Proof.
  intros T B. unfold strutf8len. pose proof (strlen_at_text [] t r 0 eq_refl T) as SL. cbn [app] in SL. rewrite SL.
  cbn [bind]. rewrite strnutf8len_lemma by assumption. rewrite ztake_all by lia. reflexivity.
Qed.
Lemma utf8_unterminated t : text t -> Forall is_byte t -> strnutf8len t (zlen t) = Ub.
Proof.
  intros T B. unfold strnutf8len.
  assert (forall u fuel pre pts, t = pre ++ u -> (length u < fuel)%nat -> utf8_loop fuel t (zlen pre) (zlen t) pts = Ub) as G.
  { induction u as [|c u IH]; intros fuel pre pts E L; (destruct fuel as [|fuel]; [cbn in L; lia|]); cbn [utf8_loop].
    - rewrite app_nil_r in E. subst t. unfold mload.
      assert (znth (zlen pre) pre = None) as -> by (apply znth_None_iff; lia). reflexivity.
    - rewrite E at 1. rewrite mload_app0 by reflexivity. cbn [bind].
      assert (c <> 0) by (rewrite E in T; apply text_app in T as [_ T]; apply text_cons in T; apply T).
      pose proof (zlen_nonneg u).
      destruct (c =? 0) eqn:C0; [lia|]. destruct (zlen pre <? zlen t) eqn:C; [|rewrite E, zlen_app, zlen_cons in C; lia].
      cbn [negb andb]. rewrite <- (zlen_snoc pre c). apply IH; [rewrite <- app_assoc; exact E|cbn in L; lia]. }
  apply (G t (S (length t)) [] 0); [reflexivity|lia].
Qed.

(** ** hex dump *)
Lemma hexlow_eq d : hexlow d = hexl d. Proof. unfold hexlow, hexl. destruct (d <? 10); lia. Qed.
Lemma hex3_text c : hex3 c = hex_text [c].
Proof. unfold hex3, hex_text. cbn [flat_map app]. rewrite !hexlow_eq. reflexivity. Qed.
Lemma hex_text_len s : zlen (hex_text s) = 3 * zlen s.
Proof. induction s as [|c s IH]; [reflexivity|]. cbn [hex_text flat_map app]. rewrite !zlen_cons. unfold hex_text in IH. rewrite IH. lia. Qed.

(** the part of the loop that has room; [o] starts with the terminator written last *)
Lemma hex_loop_ok : forall todo fuel pre suf w o beyond count,
  (length todo <= fuel)%nat -> (todo = [] \/ 3 * zlen todo + 2 <= zlen o) -> zlen w + zlen o < two64 ->
  zlen pre + zlen todo <= count -> (exists o1, o = 0 :: o1) ->
  exists rest, zlen rest = zlen o - 3 * zlen todo - 1 /\
   hex_loop fuel (w ++ o ++ beyond) (zlen w + zlen o) (pre ++ todo ++ suf) count (zlen pre) (zlen w) =
   hex_loop (fuel - length todo) ((w ++ hex_text todo) ++ 0 :: rest ++ beyond) (zlen w + zlen o) (pre ++ todo ++ suf)
     count (zlen pre + zlen todo) (zlen w + 3 * zlen todo).
Proof.
  induction todo as [|c todo IH]; intros fuel pre suf w o beyond count L HO HB HC H0.
  - change (zlen (@nil Z)) with 0 in *. destruct H0 as [o1 ->]. exists o1. rewrite zlen_cons. split; [lia|].
    cbn [hex_text flat_map app length]. rewrite app_nil_r, Nat.sub_0_r. eqlia.
  - destruct fuel as [|fuel]; [cbn in L; lia|]. cbn [hex_loop].
    destruct HO as [HO|HO]; [discriminate|].
    rewrite zlen_cons in *. pose proof (zlen_nonneg todo). pose proof (zlen_nonneg w).
    destruct (zlen pre <? count) eqn:C; [|lia].
    cbn [app]. rewrite mload_app0 by reflexivity. cbn [bind].
    replace (zlen w + zlen o - zlen w - 1) with (zlen o - 1) by lia.
    rewrite u64_small by (unfold two64 in *; lia).
    unfold snprintf_at. destruct (zlen o - 1 =? 0) eqn:C1; [lia|].
    assert (ztake (zlen o - 1 - 1) (hex3 c) = hex3 c) as -> by (apply ztake_all; change (zlen (hex3 c)) with 3; lia).
    destruct (split_first_n 4 o ltac:(lia)) as (o4 & o5 & Eo & L4).
    assert (zlen o5 = zlen o - 4) as L5 by (rewrite Eo, zlen_app; lia).
    replace (w ++ o ++ beyond) with (w ++ o4 ++ o5 ++ beyond) by (rewrite Eo, <- app_assoc; reflexivity).
    rewrite (mwrite_app w (hex3 c ++ [0]) o4 (o5 ++ beyond)) by (try reflexivity; rewrite L4; reflexivity). cbn [bind].
    change (zlen (hex3 c)) with 3. change (negb (3 =? 3)) with false. cbv iota.
    destruct (IH fuel (pre ++ [c]) suf (w ++ hex3 c) (0 :: o5) beyond count) as (rest & R1 & R2).
    + cbn in L; lia.
    + right. rewrite zlen_cons. lia.
    + rewrite zlen_app, zlen_cons. change (zlen (hex3 c)) with 3. lia.
    + rewrite zlen_snoc. lia.
    + eauto.
    + exists rest. rewrite zlen_cons in R1. split; [lia|].
      rewrite zlen_app, zlen_cons, zlen_snoc in R2. change (zlen (hex3 c)) with 3 in R2.
      replace (zlen w + 3 + (1 + zlen o5)) with (zlen w + zlen o) in R2 by lia.
      rewrite <- (app_assoc pre) in R2. cbn [app] in R2.
      replace ((w ++ hex3 c ++ [0]) ++ o5 ++ beyond) with ((w ++ hex3 c) ++ 0 :: o5 ++ beyond) by (rewrite <- !app_assoc; reflexivity).
      rewrite R2. rewrite hex3_text, <- !app_assoc. change (hex_text (c :: todo)) with (hex_text [c] ++ hex_text todo).
      rewrite <- app_assoc. cbn [length]. replace (S fuel - S (length todo))%nat with (fuel - length todo)%nat by lia.
      replace (zlen pre + 1 + zlen todo) with (zlen pre + (1 + zlen todo)) by lia.
      replace (zlen w + 3 + 3 * zlen todo) with (zlen w + 3 * (1 + zlen todo)) by lia. reflexivity.
Qed.
Lemma hex_loop_done fuel out cap chars count i len : i = count -> hex_loop fuel out cap chars count i len = Ret (out, len).
Proof. intros ->. destruct fuel; cbn [hex_loop]; destruct (count <? count) eqn:C; try lia; reflexivity. Qed.

Lemma char2hex_ok chars suf out beyond : 3 * zlen chars + 2 <= zlen out -> zlen out < two64 ->
  exists rest, zlen rest = zlen out - 3 * zlen chars - 1 /\
  str_char2hex (out ++ beyond) (zlen out) (chars ++ suf) (zlen chars) =
    Ret (hex_text chars ++ 0 :: rest ++ beyond, 3 * zlen chars).
Proof.
  intros H HB. unfold str_char2hex. pose proof (zlen_nonneg chars).
  destruct (zlen_pos_cons out ltac:(lia)) as [y [o Eo]]. rewrite Eo. rewrite zlen_cons.
  assert (zlen o = zlen out - 1) as LO by (rewrite Eo, zlen_cons; lia).
  pose proof (mstore_app [] (o ++ beyond) 0 y 0 eq_refl) as MS. cbn [app] in MS. cbn [app]. rewrite MS. cbn [bind].
  rewrite u64_small by (unfold two64 in *; lia).
  destruct (zlen chars * 3 >=? 1 + zlen o) eqn:C; [lia|]. cbn [bind].
  destruct (hex_loop_ok chars (S (length (chars ++ suf))) [] suf [] (0 :: o) beyond (zlen chars)) as (rest & R1 & R2).
  - rewrite app_length; lia.
  - right; rewrite zlen_cons; lia.
  - rewrite zlen_cons. change (zlen (@nil Z)) with 0. lia.
  - change (zlen (@nil Z)) with 0. lia.
  - eauto.
  - cbn [app] in R2. change (zlen (@nil Z)) with 0 in R2. rewrite !Z.add_0_l, zlen_cons in R2.
    rewrite R2, hex_loop_done by reflexivity. exists rest. split; [rewrite zlen_cons in R1; lia|]. reflexivity.
Qed.
(** documented buffer size 3n+1: the last digit is cut off although the full length is returned *)
Lemma char2hex_documented_size chars c suf beyond out : zlen out = 3 * zlen (chars ++ [c]) + 1 -> zlen out < two64 ->
  exists last,
  str_char2hex (out ++ beyond) (zlen out) (chars ++ c :: suf) (zlen (chars ++ [c])) =
    Ret (hex_text chars ++ [32; hexl (c / 16); 0; last] ++ beyond, 3 * zlen (chars ++ [c])).
Proof.
  rewrite zlen_snoc. intros H HB. unfold str_char2hex. pose proof (zlen_nonneg chars).
  destruct (zlen_pos_cons out ltac:(lia)) as [y [o Eo]]. rewrite Eo. rewrite zlen_cons.
  assert (zlen o = zlen out - 1) as LO by (rewrite Eo, zlen_cons; lia).
  pose proof (mstore_app [] (o ++ beyond) 0 y 0 eq_refl) as MS. cbn [app] in MS. cbn [app]. rewrite MS. cbn [bind].
  rewrite u64_small by (unfold two64 in *; lia).
  destruct ((zlen chars + 1) * 3 >=? 1 + zlen o) eqn:C; [lia|]. cbn [bind].
  destruct (hex_loop_ok chars (S (length (chars ++ c :: suf))) [] (c :: suf) [] (0 :: o) beyond (zlen chars + 1)) as (rest & R1 & R2).
  - rewrite app_length; cbn [length]; lia.
  - right; rewrite zlen_cons; lia.
  - rewrite zlen_cons. change (zlen (@nil Z)) with 0. lia.
  - change (zlen (@nil Z)) with 0. lia.
  - eauto.
  - cbn [app] in R2. change (zlen (@nil Z)) with 0 in R2. rewrite !Z.add_0_l, zlen_cons in *.
    rewrite R2. clear R2.
    destruct (S (length (chars ++ c :: suf)) - length chars)%nat as [|f] eqn:F; [rewrite app_length in F; cbn [length] in F; lia|].
    cbn [hex_loop]. destruct (zlen chars <? zlen chars + 1) eqn:C2; [|lia].
    rewrite mload_app0 by reflexivity. cbn [bind].
    replace (1 + zlen o - 3 * zlen chars - 1) with 3 by lia.
    change (u64 3) with 3. unfold snprintf_at. change (3 =? 0) with false. cbv iota.
    change (ztake (3 - 1) (hex3 c) ++ [0]) with [32; hexlow (c / 16); 0]. rewrite hexlow_eq.
    assert (exists r0 r1 r2, rest = [r0; r1; r2]) as (r0 & r1 & r2 & ->).
    { assert (zlen rest = 3) as L3 by lia.
      destruct rest as [|r0 [|r1 [|r2 [|r3 rest]]]]; rewrite ?zlen_cons in L3; change (zlen (@nil Z)) with 0 in L3; try lia; [eauto|].
      pose proof (zlen_nonneg rest). lia. }
    cbn [app]. 
    pose proof (mwrite_app (hex_text chars) [32; hexl (c / 16); 0] [0; r0; r1] (r2 :: beyond) (3 * zlen chars) ltac:(rewrite hex_text_len; reflexivity) eq_refl) as MW.
    cbn [app] in MW. rewrite MW. clear MW.
    cbn [bind]. change (zlen (hex3 c)) with 3. change (negb (3 =? 3)) with false. cbv iota.
    rewrite hex_loop_done by reflexivity. exists r2. rewrite <- app_assoc. cbn [app]. eqlia.
Qed.
(** every truncated dump writes outside the buffer *)
Lemma hex_loop_overflow chars cap : forall fuel out i len count, zlen out = cap -> 1 <= cap < 4611686018427387904 -> 0 <= len < two64 / 2 ->
  0 <= i < count -> count <= zlen chars -> cap <= len + 3 * (count - 1 - i) -> count - i <= Z.of_nat fuel ->
  hex_loop fuel out cap chars count i len = Ub.
Proof.
  change (two64 / 2) with 9223372036854775808.
  induction fuel as [|fuel IH]; intros out i len count HO HC HLen Hi Hcount HL Hf; [lia|]. cbn [hex_loop].
  destruct (i <? count) eqn:C; [|lia].
  destruct (znth_in_range i chars ltac:(lia)) as [c Ec]. rewrite (mload_znth _ _ _ Ec). cbn [bind].
  unfold snprintf_at. 
  destruct (Z_lt_dec len cap) as [D|D].
  - rewrite u64_small by (unfold two64; lia).
    assert (forall out', zlen out' = cap -> hex_loop fuel out' cap chars count (i + 1) (len + 3) = Ub) as G.
    { intros out' HO'. destruct (Z.eq_dec (i + 1) count); [lia|].
      apply IH; lia. }
    destruct (cap - len - 1 =? 0) eqn:C1; cbn [bind]; change (zlen (hex3 c)) with 3; change (negb (3 =? 3)) with false; cbv iota.
    + apply G; exact HO.
    + rewrite mwrite_ok; [|lia|rewrite zlen_snoc, zlen_ztake_le; change (zlen (hex3 c)) with 3; lia]. cbn [bind].
      change (negb (3 =? 3)) with false. cbv iota. apply G.
      rewrite zlen_zwrite; [exact HO|lia|rewrite zlen_snoc, zlen_ztake_le; change (zlen (hex3 c)) with 3; lia].
  - assert (u64 (cap - len - 1) = cap - len - 1 + two64) as ->.
    { unfold u64. symmetry. apply Z.mod_unique with (-1); unfold two64; lia. }
    destruct (cap - len - 1 + two64 =? 0) eqn:C1; [unfold two64 in C1; lia|].
    unfold mwrite. rewrite zlen_snoc, zlen_ztake_le. change (zlen (hex3 c)) with 3.
    destruct ((0 <=? len) && (len + (Z.max 0 (Z.min (cap - len - 1 + two64 - 1) 3) + 1) <=? zlen out)) eqn:C2; [|reflexivity].
    unfold two64 in C2. lia.
Qed.
Lemma decimal_pos n : 0 <= n -> 1 <= zlen (decimal n).
Proof.
  intro H. unfold decimal. rewrite zlen_rev. cbn [dec_digits_rev]. destruct (n <? 10); rewrite zlen_cons.
  - change (zlen (@nil Z)) with 0; lia.
  - match goal with |- context[1 + zlen ?l] => pose proof (zlen_nonneg l) end. lia.
Qed.
Lemma dec_digits_rev_len : forall fuel n, zlen (dec_digits_rev fuel n) <= Z.of_nat fuel.
Proof.
  induction fuel as [|f IH]; intro n; cbn [dec_digits_rev]; [change (zlen (@nil Z)) with 0; lia|].
  destruct (n <? 10); rewrite zlen_cons; [change (zlen (@nil Z)) with 0; lia|]. specialize (IH (n / 10)). lia.
Qed.
Lemma char2hex_overflow chars out : 6 <= zlen out -> zlen out <= 3 * zlen chars -> zlen chars < 1000000000000000000 ->
  str_char2hex out (zlen out) chars (zlen chars) = Ub.
Proof.
  intros H1 H2 H3. unfold str_char2hex.
  destruct (zlen_pos_cons out ltac:(lia)) as [y [o Eo]].
  assert (mstore out 0 0 = Ret (0 :: o)) as -> by (rewrite Eo; apply (mstore_app [] o 0 y 0); reflexivity).
  assert (zlen (0 :: o) = zlen out) as LO by (rewrite Eo, !zlen_cons; reflexivity).
  cbn [bind]. rewrite (u64_small (zlen chars * 3)) by (unfold two64; lia).
  destruct (zlen chars * 3 >=? zlen out) eqn:C; [|lia].
  rewrite (u64_small (zlen out - 1)) by (unfold two64; lia).
  unfold snprintf_at at 1. destruct (zlen out - 1 =? 0) eqn:C1; [lia|].
  pose proof (decimal_pos (zlen chars) (zlen_nonneg chars)) as DP.
  assert (zlen (trunc_text (zlen chars)) = 16 + zlen (decimal (zlen chars))) as LT.
  { unfold trunc_text. rewrite !zlen_app. change (zlen [41; 58]) with 2. rewrite !zlen_cons. change (zlen (@nil Z)) with 0. lia. }
  rewrite mwrite_ok by (try lia; rewrite zlen_snoc, zlen_ztake_le; lia). cbn [bind].
  rewrite u64_small by (unfold two64; lia).
  assert (zlen (decimal (zlen chars)) <= 64) as D64.
  { unfold decimal. rewrite zlen_rev. etransitivity; [apply dec_digits_rev_len|].
    assert (Z.log2 (zlen chars) < 63); [|lia].
    destruct (Z.eq_dec (zlen chars) 0) as [->|]; [reflexivity|].
    apply Z.log2_lt_pow2; [lia|]. change (2 ^ 63) with 9223372036854775808. lia. }
  apply hex_loop_overflow.
  - rewrite zlen_zwrite; [exact LO|lia|rewrite zlen_snoc, zlen_ztake_le; lia].
  - lia.
  - change (two64 / 2) with 9223372036854775808. lia.
  - lia.
  - lia.
  - lia.
  - unfold zlen in *. lia.
Qed.
(** capacities 3..5 and a truncated dump: only a prefix of the notice, nothing outside; the returned length is that
    of the whole notice *)
Lemma char2hex_tiny (chars out beyond : list Z) : 3 <= zlen out <= 5 -> zlen out <= 3 * zlen chars -> zlen chars < 1000000000000000000 ->
  exists last, str_char2hex (out ++ beyond) (zlen out) chars (zlen chars) =
    Ret (ztake (zlen out - 2) [104;101;120] ++ 0 :: last :: beyond, 16 + zlen (decimal (zlen chars))).
Proof.
  intros H1 H2 H3. unfold str_char2hex.
  destruct (zlen_pos_cons out ltac:(lia)) as [y [o Eo]].
  assert (mstore (out ++ beyond) 0 0 = Ret (0 :: o ++ beyond)) as -> by (rewrite Eo; apply (mstore_app [] (o ++ beyond) 0 y 0); reflexivity).
  cbn [bind]. rewrite (u64_small (zlen chars * 3)) by (unfold two64; lia).
  destruct (zlen chars * 3 >=? zlen out) eqn:C; [|lia].
  assert (zlen (trunc_text (zlen chars)) = 16 + zlen (decimal (zlen chars))) as LT.
  { unfold trunc_text. rewrite !zlen_app. change (zlen [41; 58]) with 2. rewrite !zlen_cons. change (zlen (@nil Z)) with 0. lia. }
  assert (exists last, snprintf_at (0 :: o ++ beyond) 0 (u64 (zlen out - 1)) (trunc_text (zlen chars)) =
    Ret (ztake (zlen out - 2) [104;101;120] ++ 0 :: last :: beyond, 16 + zlen (decimal (zlen chars))) /\ u64 (zlen out / 3 - 1) = 0) as (last & -> & ->).
  2:{ exists last. cbn [bind]. rewrite hex_loop_done by reflexivity. reflexivity. }
  assert (zlen o = zlen out - 1) as LO by (rewrite Eo, zlen_cons; lia).
  assert (zlen out = 3 \/ zlen out = 4 \/ zlen out = 5) as [E|[E|E]] by lia; rewrite E in *; unfold snprintf_at; rewrite LT;
    destruct o as [|o1 [|o2 [|o3 [|o4 [|o5 o]]]]]; rewrite ?zlen_cons in LO; change (zlen (@nil Z)) with 0 in LO;
    try (match type of LO with context [zlen ?x] => is_var x; pose proof (zlen_nonneg x) end); try lia.
  - exists o2. split; [|reflexivity]. change (u64 (3 - 1) =? 0) with false. cbv iota. change (ztake (u64 (3 - 1) - 1) (trunc_text (zlen chars)) ++ [0]) with [104; 0].
    pose proof (mwrite_app [] [104; 0] [0; o1] (o2 :: beyond) 0 eq_refl eq_refl) as MW. cbn [app] in MW |- *. rewrite MW. reflexivity.
  - exists o3. split; [|reflexivity]. change (u64 (4 - 1) =? 0) with false. cbv iota. change (ztake (u64 (4 - 1) - 1) (trunc_text (zlen chars)) ++ [0]) with [104; 101; 0].
    pose proof (mwrite_app [] [104; 101; 0] [0; o1; o2] (o3 :: beyond) 0 eq_refl eq_refl) as MW. cbn [app] in MW |- *. rewrite MW. reflexivity.
  - exists o4. split; [|reflexivity]. change (u64 (5 - 1) =? 0) with false. cbv iota. change (ztake (u64 (5 - 1) - 1) (trunc_text (zlen chars)) ++ [0]) with [104; 101; 120; 0].
    pose proof (mwrite_app [] [104; 101; 120; 0] [0; o1; o2; o3] (o4 :: beyond) 0 eq_refl eq_refl) as MW. cbn [app] in MW |- *. rewrite MW. reflexivity.
Qed.
(** capacities 0..2 and a truncated dump: the count wraps and the call writes outside *)
Lemma char2hex_0_2 (chars out : list Z) : zlen out <= 2 -> zlen out <= 3 * zlen chars -> zlen chars < 1000000000000000000 ->
  str_char2hex out (zlen out) chars (zlen chars) = Ub.
Proof.
  intros H1 H2 H3. unfold str_char2hex. pose proof (zlen_nonneg out).
  destruct out as [|y o]; [reflexivity|]. set (out := y :: o) in *. assert (1 <= zlen out) by (unfold out; rewrite zlen_cons; pose proof (zlen_nonneg o); lia).
  assert (mstore out 0 0 = Ret (0 :: o)) as -> by (apply (mstore_app [] o 0 y 0); reflexivity).
  assert (zlen (0 :: o) = zlen out) as LO by (unfold out; rewrite !zlen_cons; reflexivity).
  cbn [bind]. rewrite (u64_small (zlen chars * 3)) by (unfold two64; lia).
  destruct (zlen chars * 3 >=? zlen out) eqn:C; [|lia].
  pose proof (decimal_pos (zlen chars) (zlen_nonneg chars)) as DP.
  assert (zlen (trunc_text (zlen chars)) = 16 + zlen (decimal (zlen chars))) as LT.
  { unfold trunc_text. rewrite !zlen_app. change (zlen [41; 58]) with 2. rewrite !zlen_cons. change (zlen (@nil Z)) with 0. lia. }
  assert (zlen (decimal (zlen chars)) <= 64) as D64.
  { unfold decimal. rewrite zlen_rev. etransitivity; [apply dec_digits_rev_len|].
    assert (Z.log2 (zlen chars) < 63); [|lia].
    destruct (Z.eq_dec (zlen chars) 0) as [->|]; [reflexivity|].
    apply Z.log2_lt_pow2; [lia|]. change (2 ^ 63) with 9223372036854775808. lia. }
  assert (exists out', snprintf_at (0 :: o) 0 (u64 (zlen out - 1)) (trunc_text (zlen chars)) = Ret (out', 16 + zlen (decimal (zlen chars))) /\ zlen out' = zlen out) as (out' & -> & LO').
  { rewrite u64_small by (unfold two64; lia). unfold snprintf_at. rewrite LT. destruct (zlen out - 1 =? 0) eqn:E; [eauto|].
    rewrite mwrite_ok by (try lia; rewrite zlen_snoc, zlen_ztake_le; lia). cbn [bind]. eexists. split; [reflexivity|].
    rewrite zlen_zwrite; [exact LO|lia|rewrite zlen_snoc, zlen_ztake_le; lia]. }
  cbn [bind]. cbn [hex_loop].
  assert (u64 (zlen out / 3 - 1) = two64 - 1) as ->.
  { rewrite Z.div_small by lia. reflexivity. }
  change (0 <? two64 - 1) with true. cbv iota.
  destruct chars as [|c chars]; [unfold out in *; change (zlen (@nil Z)) with 0 in *; lia|].
  change (mload (c :: chars) 0) with (Ret c). cbn [bind]. set (l := 16 + zlen (decimal (zlen (c :: chars)))) in *.
  assert (u64 (zlen out - l - 1) = zlen out - l - 1 + two64) as ->.
  { unfold u64. symmetry. apply Z.mod_unique with (-1); unfold two64; lia. }
  unfold snprintf_at. destruct (zlen out - l - 1 + two64 =? 0) eqn:C1; [unfold two64 in C1; lia|].
  unfold mwrite. rewrite zlen_snoc, zlen_ztake_le. change (zlen (hex3 c)) with 3.
  destruct ((0 <=? l) && (l + (Z.max 0 (Z.min (zlen out - l - 1 + two64 - 1) 3) + 1) <=? zlen out')) eqn:C2; [|reflexivity].
  unfold two64 in C2. lia.
Qed.

From Verif Require Import CBase SeqLib CStr StringBuilderModel StringBuilderSpec StringBuilderProof ArrayModel ArraySpec.

Definition inv (es : Z) (a : array) (els : list (list Z)) : Prop :=
  ar_es a = es /\ 1 <= es /\ ar_len a = zlen els /\ zlen els <= ar_cap a /\ 4 <= ar_cap a /\
  zlen (ar_data a) = es * ar_cap a /\ es * ar_cap a < pmax /\
  Forall (fun e => zlen e = es) els /\ exists rest, ar_data a = concat els ++ rest.

Lemma concat_zlen es els : Forall (fun e : list Z => zlen e = es) els -> zlen (concat els) = zlen els * es.
Proof.
  induction 1 as [|e l E F IH]; [reflexivity|]. cbn [concat]. rewrite zlen_app, zlen_cons, IH, E. lia.
Qed.
Lemma concat_nth es els i e : Forall (fun e : list Z => zlen e = es) els -> 1 <= es -> znth i els = Some e ->
  forall rest, zsub (i * es) es (concat els ++ rest) = e.
Proof.
  intros F ES N rest. pose proof (znth_Some_range _ _ _ N) as R.
  assert (exists l1 l2, els = l1 ++ e :: l2 /\ zlen l1 = i) as (l1 & l2 & -> & L).
  { unfold znth in N. destruct (i <? 0) eqn:E; [lia|]. apply nth_error_split in N as (l1 & l2 & E1 & E2).
    exists l1, l2. split; [exact E1|]. unfold zlen. lia. }
  apply Forall_app in F as [F1 F2]. inversion_clear F2 as [|x y Fe F2'].
  rewrite concat_app. cbn [concat]. rewrite <- !app_assoc. unfold zsub.
  rewrite <- L, <- (concat_zlen es l1 F1), zdrop_app_len, <- Fe. apply ztake_app_len.
Qed.
Lemma inv_shows es a els : inv es a els -> shows a els.
Proof.
  intros (E & ES & L & LC & C4 & LD & B & F & rest & D). split; [exact L|].
  intros i e N. pose proof (znth_Some_range _ _ _ N) as R. unfold array_read, array_at.
  destruct (i <? ar_len a) eqn:C; [|lia]. cbn [bind]. rewrite E.
  rewrite mread_ok; [|nia|lia|rewrite LD; nia]. rewrite D. f_equal. eapply concat_nth; eauto.
Qed.

Lemma grow_ok al es a els : sane al -> inv es a els -> ar_len a = ar_cap a ->
  (exists a', array_grow al a = Ret (a', true) /\ inv es a' els /\ ar_len a' < ar_cap a') \/
  array_grow al a = Ret (a, false) /\ al (es * (ar_cap a + ar_cap a / 2)) = None.
Proof.
  intros SA (E & ES & L & LC & C4 & LD & B & F & rest & D) FULL. unfold array_grow, pmax in *.
  assert (0 <= ar_cap a / 2 <= ar_cap a) as H2 by lia.
  assert (es * (ar_cap a + ar_cap a / 2) < two64) as HB.
  { assert (2 * (es * (ar_cap a / 2)) <= es * ar_cap a) by nia. unfold two64. nia. }
  assert (ar_cap a < 9223372036854775808) by nia.
  rewrite E. rewrite (u64_small (ar_cap a + ar_cap a / 2)) by (unfold two64 in *; nia).
  cbv zeta. set (nc := ar_cap a + ar_cap a / 2) in *. assert (ar_cap a + 2 <= nc) by (unfold nc; lia).
  rewrite (Z.mul_comm nc es). rewrite u64_small by (split; [nia|exact HB]).
  assert (zlen (concat els) = zlen els * es) as LCC by (apply concat_zlen; exact F).
  pose proof (zlen_nonneg els) as NE.
  unfold realloc. destruct (ar_moved a) eqn:M.
  - destruct (al (es * nc)) as [nb|] eqn:EA; [|right; split; reflexivity]. left.
    destruct (SA _ _ EA) as [LN KN]. cbn [bind]. eexists. split; [reflexivity|].
    rewrite (ztake_all (es * nc)) by (rewrite LD; nia).
    split; [|cbn [ar_len ar_cap]; lia]. unfold inv. cbn [ar_es ar_len ar_cap ar_data].
    repeat split; try assumption; try lia.
    + rewrite zlen_app, zlen_zdrop by (rewrite LD; nia). lia.
    + exists (rest ++ zdrop (zlen (ar_data a)) nb). rewrite D at 1. rewrite <- app_assoc. reflexivity.
  - destruct (al (es * nc)) as [nb|] eqn:EA; [|right; split; reflexivity]. left.
    destruct (SA _ _ EA) as [LN KN].
    rewrite mread_ok; [|lia|nia|rewrite LD; nia]. cbn [bind].
    assert (zsub 0 (ar_len a * es) (ar_data a) = concat els) as EZ.
    { unfold zsub. rewrite zdrop_0, D, L, <- LCC. apply ztake_app_len. }
    rewrite EZ. rewrite mwrite_ok; [|lia|rewrite LCC, LN; nia]. cbn [bind].
    eexists. split; [reflexivity|]. split; [|cbn [ar_len ar_cap]; lia].
    unfold inv. cbn [ar_es ar_len ar_cap ar_data]. repeat split; try assumption; try lia.
    + rewrite zlen_zwrite; [exact LN|lia|rewrite LCC, LN; nia].
    + unfold zwrite. rewrite ztake_0. cbn [app]. eauto.
Qed.

Lemma append_ok al es a els src : sane al -> inv es a els -> es <= zlen src ->
  (exists a', array_append_ptr al a src = Ret (a', true) /\ inv es a' (els ++ [ztake es src])) \/
  (array_append_ptr al a src = Ret (a, false) /\ ar_len a = ar_cap a /\ al (es * (ar_cap a + ar_cap a / 2)) = None).
Proof.
  intros SA I HS. unfold array_append_ptr.
  assert (forall a1, inv es a1 els -> ar_len a1 < ar_cap a1 -> exists a',
    (let a := mk_ar (ar_es a1) (ar_len a1 + 1) (ar_cap a1) (ar_data a1) (ar_moved a1) in
     do p <- array_at a (ar_len a - 1);
     do m <- mread src 0 (ar_es a);
     do d <- mwrite (ar_data a) p m;
     Ret (mk_ar (ar_es a) (ar_len a) (ar_cap a) d (ar_moved a), true)) = Ret (a', true) /\ inv es a' (els ++ [ztake es src])) as G.
  { intros a1 (E & ES & L & LC & C4 & LD & B & F & rest & D) LT. cbv zeta. cbn [ar_es ar_len ar_cap ar_data ar_moved].
    unfold array_at. cbn [ar_len ar_es]. destruct (ar_len a1 + 1 - 1 <? ar_len a1 + 1) eqn:C; [|lia]. cbn [bind].
    rewrite E. rewrite mread_ok by lia. cbn [bind].
    assert (zlen (ztake es src) = es) as LT' by (apply zlen_ztake; lia).
    unfold zsub. rewrite zdrop_0. replace (ar_len a1 + 1 - 1) with (ar_len a1) by lia.
    pose proof (concat_zlen es els F) as LCC.
    destruct (split_first_n es rest) as (r1 & r2 & ER & L1).
    { rewrite D, zlen_app, LCC in LD. nia. }
    rewrite D, ER. rewrite (mwrite_app (concat els) (ztake es src) r1 r2) by (rewrite ?LCC, ?L; lia). cbn [bind].
    eexists. split; [reflexivity|]. unfold inv. cbn [ar_es ar_len ar_cap ar_data].
    rewrite zlen_snoc. repeat split; try assumption; try lia.
    - rewrite D, ER, !zlen_app in LD. rewrite !zlen_app. lia.
    - apply Forall_app. split; [exact F|]. constructor; [exact LT'|constructor].
    - exists r2. rewrite concat_app. cbn [concat]. rewrite app_nil_r. reflexivity. }
  destruct (ar_len a =? ar_cap a) eqn:C.
  - destruct (grow_ok al es a els SA I ltac:(lia)) as [(a1 & EG & I1 & LT)|[EG N]]; rewrite EG; cbn [bind negb].
    + left. exact (G a1 I1 LT).
    + right. split; [reflexivity|]. split; [lia|exact N].
  - cbn [bind negb]. left. apply (G a I). destruct I as (_ & _ & L & LC & _). lia.
Qed.
Lemma step_ok al es a els o : sane al -> inv es a els -> ar_valid es o ->
  (exists a', ar_step al a o = Ret (a', true) /\ inv es a' (els ++ [element es o])) \/
  (ar_step al a o = Ret (a, false) /\ ar_len a = ar_cap a /\ al (es * (ar_cap a + ar_cap a / 2)) = None).
Proof.
  intros SA I V. destruct o as [s|v]; cbn [ar_step element ar_valid] in *; [apply append_ok; assumption|].
  replace (digits256 4 v) with (le32 v) by (unfold le32; cbn [digits256]; rewrite !Z.div_div by lia; reflexivity).
  unfold array_append_value. apply append_ok; try assumption.
Qed.
Lemma run_ok es : forall h a els, inv es a els -> Forall (fun x => sane (fst x) /\ ar_valid es (snd x)) h ->
  exists a' oks, ar_run a h = Ret (a', oks) /\ inv es a' (els ++ accepted es h oks) /\ length oks = length h.
Proof.
  induction h as [|[al o] h IH]; intros a els I F; cbn [ar_run].
  - exists a, []. split; [reflexivity|]. split; [cbn [accepted]; rewrite app_nil_r; exact I|reflexivity].
  - inversion_clear F as [|x l [SA V] F']. cbn [fst snd] in *.
    destruct (step_ok al es a els o SA I V) as [(a1 & E & I1)|[E _]]; rewrite E; cbn [bind].
    + destruct (IH a1 _ I1 F') as (a' & oks & R & I' & LEN). rewrite R. cbn [bind].
      exists a', (true :: oks). cbn [accepted length]. rewrite app_assoc. auto.
    + destruct (IH a _ I F') as (a' & oks & R & I' & LEN). rewrite R. cbn [bind].
      exists a', (false :: oks). cbn [accepted length app]. auto.
Qed.
Lemma new_ok al es cap : sane al -> 1 <= es -> 0 <= cap -> 32 + es * Z.max 4 cap < two64 ->
  array_new_with al es cap = None \/ exists a, array_new_with al es cap = Some a /\ inv es a [].
Proof.
  intros SA ES HC HB. unfold array_new_with. cbv zeta.
  assert ((if cap <? 4 then 4 else cap) = Z.max 4 cap) as -> by (destruct (cap <? 4) eqn:E; lia).
  rewrite (u64_small (es * Z.max 4 cap)) by (split; [nia|lia]). rewrite u64_small by (split; [nia|lia]).
  destruct (al (32 + es * Z.max 4 cap)) as [b|] eqn:E; [right|left; reflexivity].
  destruct (SA _ _ E) as [L K]. eexists. split; [reflexivity|]. unfold inv. cbn [ar_es ar_len ar_cap ar_data].
  change (zlen (@nil (list Z))) with 0. repeat split; try lia.
  - unfold zlen at 1. rewrite repeat_length. nia.
  - unfold pmax; lia.
  - constructor.
  - cbn [concat app]. eauto.
Qed.
Lemma array_lemma al0 es cap h : sane al0 -> 1 <= es -> 0 <= cap -> 32 + es * Z.max 4 cap < two64 ->
  Forall (fun x => sane (fst x) /\ ar_valid es (snd x)) h ->
  array_new_with al0 es cap = None \/
  exists a a' oks, array_new_with al0 es cap = Some a /\ ar_run a h = Ret (a', oks) /\ length oks = length h /\
    shows a' (accepted es h oks).
Proof.
  intros SA ES HC HB F. destruct (new_ok al0 es cap SA ES HC HB) as [E|(a & E & I)]; [left; exact E|right].
  destruct (run_ok es h a [] I F) as (a' & oks & R & I' & LEN). exists a, a', oks.
  split; [exact E|]. split; [exact R|]. split; [exact LEN|]. apply inv_shows with es. exact I'.
Qed.
(** an append fails only when the allocator refuses; growth is by at most half *)
Lemma append_fails_only al0 es cap h al o a a1 oks : sane al0 -> 1 <= es -> 0 <= cap -> 32 + es * Z.max 4 cap < two64 ->
  Forall (fun x => sane (fst x) /\ ar_valid es (snd x)) h -> sane al -> ar_valid es o ->
  array_new_with al0 es cap = Some a -> ar_run a h = Ret (a1, oks) ->
  serves al (2 * es * array_length a1) -> exists a2, ar_step al a1 o = Ret (a2, true).
Proof.
  intros SA ES HC HB F SA1 V N R SV. destruct (new_ok al0 es cap SA ES HC HB) as [E|(a0 & E & I)]; [congruence|].
  assert (a0 = a) as -> by congruence. destruct (run_ok es h a [] I F) as (a' & oks' & R' & I' & _).
  assert (a' = a1) as -> by congruence.
  destruct (step_ok al es a1 _ o SA1 I' V) as [(a2 & E2 & _)|(E2 & FULL & NO)]; [eauto|].
  exfalso. apply (SV (es * (ar_cap a1 + ar_cap a1 / 2))); [|exact NO].
  destruct I' as (_ & _ & _ & _ & C4 & _). unfold array_length. rewrite FULL.
  assert (0 <= ar_cap a1 / 2 <= ar_cap a1) by lia. nia.
Qed.
Lemma at_out_of_range a i : array_length a <= i -> array_read a i = Abrt.
Proof. unfold array_length, array_read, array_at. intro H. destruct (i <? ar_len a) eqn:E; [lia|reflexivity]. Qed.

(** ** findings *)
(** size_t overflow in the initial allocation: the new array looks usable but the first append overflows *)
Lemma new_overflow al es src : sane al -> serves al 32 -> es = 1152921504606846976 -> zlen src = es ->
  exists a, array_new al es = Some a /\ array_append_ptr al a src = Ub.
Proof.
  intros SA SV -> HS. unfold array_new, array_new_with. cbv zeta. change (16 <? 4) with false. cbv iota.
  change (u64 (32 + u64 (1152921504606846976 * 16))) with 32.
  destruct (al 32) as [b|] eqn:E; [|exfalso; apply (SV 32); [lia|exact E]].
  destruct (SA _ _ E) as [L _]. eexists. split; [reflexivity|].
  rewrite L. unfold array_append_ptr. cbn [ar_len ar_cap]. change (0 =? 16) with false. cbn [bind negb].
  cbn [ar_es ar_len ar_cap ar_data ar_moved]. cbv zeta. unfold array_at. cbn [ar_len ar_es].
  change (0 + 1 - 1 <? 0 + 1) with true. cbv iota. cbn [bind]. rewrite mread_ok by lia. cbn [bind].
  unfold mwrite. rewrite zlen_zsub by lia. change (zlen (repeat 0 (Z.to_nat (32 - 32)))) with 0.
  destruct ((0 <=? (0 + 1 - 1) * 1152921504606846976) && ((0 + 1 - 1) * 1152921504606846976 + 1152921504606846976 <=? 0)) eqn:C; [lia|reflexivity].
Qed.
(** append_value on elements wider than 4 bytes reads past the value *)
Lemma append_value_wide al a v : 4 < ar_es a -> ar_len a < ar_cap a -> array_append_value al a v = Ub.
Proof.
  intros W LT. unfold array_append_value, array_append_ptr. destruct (ar_len a =? ar_cap a) eqn:C; [lia|].
  cbn [bind negb]. cbv zeta. cbn [ar_es ar_len ar_cap ar_data ar_moved]. unfold array_at. cbn [ar_len ar_es].
  destruct (ar_len a + 1 - 1 <? ar_len a + 1) eqn:C1; [|lia]. cbn [bind].
  unfold mread. change (zlen (le32 v)) with 4. destruct ((0 <=? 0) && (0 <=? ar_es a) && (0 + ar_es a <=? 4)) eqn:C2; [lia|reflexivity].
Qed.

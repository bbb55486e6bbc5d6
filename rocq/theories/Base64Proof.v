From Verif Require Import CBase SeqLib Base64Model Base64Spec.

(** ** single-character facts, by exhaustive evaluation over bytes *)
Definition get0 (o : outcome Z) : Z := match o with Ret x => x | _ => -1 end.
Definition isret (o : outcome Z) (x : Z) : bool := match o with Ret y => y =? x | _ => false end.
Lemma isret_ok o x : isret o x = true -> o = Ret x.
Proof. destruct o; cbn; try discriminate. intro; f_equal; lia. Qed.

Lemma e0_ok a : 0 <= a < 256 ->
  mload basis_64 (Z.land (Z.shiftr (schar a) 2) 63) = Ret (b64char (a / 4)).
Proof.
  intro H. apply isret_ok. revert a H.
  apply (sweep_ok 256 (fun a => isret (mload basis_64 (Z.land (Z.shiftr (schar a) 2) 63)) (b64char (a / 4)))).
  vm_compute; reflexivity.
Qed.
Lemma e1_ok a b : 0 <= a < 256 -> 0 <= b < 256 ->
  mload basis_64 (Z.lor (Z.shiftl (Z.land (schar a) 3) 4) (Z.shiftr (Z.land (schar b) 240) 4))
    = Ret (b64char (a mod 4 * 16 + b / 16)).
Proof.
  intros Ha Hb. apply isret_ok. revert a b Ha Hb.
  apply (sweep2_ok 256 256 (fun a b => isret (mload basis_64 (Z.lor (Z.shiftl (Z.land (schar a) 3) 4) (Z.shiftr (Z.land (schar b) 240) 4))) (b64char (a mod 4 * 16 + b / 16)))).
  vm_compute; reflexivity.
Qed.
Lemma e2_ok b c : 0 <= b < 256 -> 0 <= c < 256 ->
  mload basis_64 (Z.lor (Z.shiftl (Z.land (schar b) 15) 2) (Z.shiftr (Z.land (schar c) 192) 6))
    = Ret (b64char (b mod 16 * 4 + c / 64)).
Proof.
  intros Ha Hb. apply isret_ok. revert b c Ha Hb.
  apply (sweep2_ok 256 256 (fun b c => isret (mload basis_64 (Z.lor (Z.shiftl (Z.land (schar b) 15) 2) (Z.shiftr (Z.land (schar c) 192) 6))) (b64char (b mod 16 * 4 + c / 64)))).
  vm_compute; reflexivity.
Qed.
Lemma e3_ok c : 0 <= c < 256 -> mload basis_64 (Z.land (schar c) 63) = Ret (b64char (c mod 64)).
Proof.
  intro H. apply isret_ok. revert c H.
  apply (sweep_ok 256 (fun a => isret (mload basis_64 (Z.land (schar a) 63)) (b64char (a mod 64)))).
  vm_compute; reflexivity.
Qed.
Lemma t1_ok a : 0 <= a < 256 -> mload basis_64 (Z.shiftl (Z.land (schar a) 3) 4) = Ret (b64char (a mod 4 * 16)).
Proof.
  intro H. apply isret_ok. revert a H.
  apply (sweep_ok 256 (fun a => isret (mload basis_64 (Z.shiftl (Z.land (schar a) 3) 4)) (b64char (a mod 4 * 16)))).
  vm_compute; reflexivity.
Qed.
Lemma t2_ok b : 0 <= b < 256 -> mload basis_64 (Z.shiftl (Z.land (schar b) 15) 2) = Ret (b64char (b mod 16 * 4)).
Proof.
  intro H. apply isret_ok. revert b H.
  apply (sweep_ok 256 (fun a => isret (mload basis_64 (Z.shiftl (Z.land (schar a) 15) 2)) (b64char (a mod 16 * 4)))).
  vm_compute; reflexivity.
Qed.

Lemma put_ok pre y rest c i : i = zlen pre -> put (pre ++ y :: rest, i) c = Ret ((pre ++ [c]) ++ rest, i + 1).
Proof. intro H. unfold put. cbn [fst snd]. rewrite mstore_app by exact H. reflexivity. Qed.

Lemma put_room pre rest c i : i = zlen pre -> 0 < zlen rest ->
  exists rest', put (pre ++ rest, i) c = Ret ((pre ++ [c]) ++ rest', zlen (pre ++ [c])) /\ zlen rest' = zlen rest - 1.
Proof.
  intros Hi H. destruct (zlen_pos_cons rest H) as [y [r ->]]. exists r. split.
  - rewrite put_ok by exact Hi. rewrite zlen_snoc, Hi. reflexivity.
  - rewrite zlen_cons. lia.
Qed.

Lemma enc_digits a b c : 0 <= a < 256 -> 0 <= b < 256 -> 0 <= c < 256 ->
  let n := a * 65536 + b * 256 + c in
  n / 262144 = a / 4 /\ n / 4096 mod 64 = a mod 4 * 16 + b / 16 /\
  n / 64 mod 64 = b mod 16 * 4 + c / 64 /\ n mod 64 = c mod 64.
Proof. intros Ha Hb Hc n. unfold n. repeat split; lia. Qed.

Lemma u64_small x : 0 <= x < two64 -> u64 x = x.
Proof. intro H; unfold u64; apply Z.mod_small; exact H. Qed.

Lemma b64_encode_cons3 a b c s : 0 <= a < 256 -> 0 <= b < 256 -> 0 <= c < 256 ->
  b64_encode (a :: b :: c :: s) =
  [b64char (a / 4); b64char (a mod 4 * 16 + b / 16); b64char (b mod 16 * 4 + c / 64); b64char (c mod 64)] ++ b64_encode s.
Proof.
  intros Ha Hb Hc. destruct (enc_digits a b c Ha Hb Hc) as (E1 & E2 & E3 & E4).
  cbn [b64_encode app]. cbv zeta. rewrite E1, E2, E3, E4. reflexivity.
Qed.

Lemma b64_encode_len s : zlen (b64_encode s) = (zlen s + 2) / 3 * 4.
Proof.
  assert (forall n s, (length s <= n)%nat -> zlen (b64_encode s) = (zlen s + 2) / 3 * 4) as G; [|apply (G (length s)); lia].
  clear s. induction n as [|n IH]; intros s L.
  - destruct s; [reflexivity|cbn in L; lia].
  - destruct s as [|a [|b [|c s]]]; try reflexivity.
    cbn [b64_encode]. cbv zeta. rewrite !zlen_cons, IH by (cbn in L; lia). lia.
Qed.

Ltac putstep :=
  match goal with |- context[put (?p ++ ?r, ?i) ?c] =>
    let E := fresh "E" in let L := fresh "L" in let r' := fresh "r" in
    destruct (put_room p r c i) as (r' & E & L); [reflexivity|lia|]; rewrite E; clear E; cbn [bind]
  end.

(** the loop encodes all full groups *)
Lemma enc_loop_ok : forall n src pre todo w o,
  (length todo <= n)%nat -> src = pre ++ todo -> Forall is_byte todo ->
  zlen src < two32 -> 2 <= zlen src ->
  (zlen todo + 2) / 3 * 4 + 1 <= zlen o ->
  exists tail g o', todo = g ++ tail /\ zlen tail <= 2 /\
    b64_encode todo = b64_encode g ++ b64_encode tail /\
    enc_loop n src (zlen src) (w ++ o, zlen w) (zlen pre) =
      Ret ((w ++ b64_encode g) ++ o', zlen (w ++ b64_encode g), zlen src - zlen tail) /\
    zlen o' = zlen o - zlen (b64_encode g).
Proof.
  unfold two32. induction n as [|n IH]; intros src pre todo w o L E F HS HS2 HO.
  - destruct todo; [|cbn in L; lia]. exists [], [], o.
    rewrite app_nil_r in *. subst src. cbn [b64_encode enc_loop]. rewrite !app_nil_r.
    pose proof (zlen_nonneg pre). change (zlen (@nil Z)) with 0.
    destruct (zlen pre <? u64 (zlen pre - 2)) eqn:C.
    { unfold u64, two64 in C. rewrite Z.mod_small in C by lia. lia. }
    repeat split; try reflexivity; try lia. f_equal. f_equal. lia.
  - pose proof (zlen_nonneg pre) as Np. pose proof (zlen_nonneg todo).
    assert (zlen src = zlen pre + zlen todo) as LS by (subst; apply zlen_app).
    destruct todo as [|a [|b [|c todo]]].
    1-3: match goal with |- exists _ _ _, ?t = _ /\ _ => exists t, [], o end;
      cbn [enc_loop]; rewrite ?zlen_cons in LS; change (zlen (@nil Z)) with 0 in LS;
      destruct (zlen pre <? u64 (zlen src - 2)) eqn:C;
      [exfalso; unfold u64, two64 in C; rewrite Z.mod_small in C by lia; lia|];
      rewrite ?zlen_cons; change (zlen (@nil Z)) with 0; cbn [b64_encode]; rewrite !app_nil_r;
      repeat split; try reflexivity; try lia; repeat f_equal; change (zlen (@nil Z)) with 0; lia.
    cbn [enc_loop].
    rewrite !zlen_cons in *. pose proof (zlen_nonneg todo).
    destruct (zlen pre <? u64 (zlen src - 2)) eqn:C;
      [|exfalso; unfold u64, two64 in C; rewrite Z.mod_small in C by lia; lia].
    inversion F as [|? ? Ba F1]; subst; inversion F1 as [|? ? Bb F2]; subst; inversion F2 as [|? ? Bc F3]; subst.
    unfold is_byte in Ba, Bb, Bc.
    rewrite (mload_app pre (a::b::c::todo) (zlen pre) 0) by lia. cbn [bind]. rewrite mload_cons_0. cbn [bind].
    rewrite (mload_app pre (a::b::c::todo) (zlen pre+1) 1) by lia. change (mload (a::b::c::todo) 1) with (Ret b). cbn [bind].
    rewrite (mload_app pre (a::b::c::todo) (zlen pre+2) 2) by lia. change (mload (a::b::c::todo) 2) with (Ret c). cbn [bind].
    cbv zeta.
    rewrite e0_ok, e1_ok, e2_ok, e3_ok by assumption. cbn [bind].
    do 4 putstep.
    rewrite u64_small by (unfold two64; lia).
    destruct (IH (pre ++ a::b::c::todo) (pre ++ [a;b;c]) todo
      ((((w ++ [b64char (a / 4)]) ++ [b64char (a mod 4 * 16 + b / 16)]) ++ [b64char (b mod 16 * 4 + c / 64)]) ++ [b64char (c mod 64)]) r2)
      as (tail & g & o' & T1 & T2 & T3 & T4 & T5).
    { cbn in L; lia. }
    { rewrite <- app_assoc; reflexivity. }
    { exact F3. } { exact HS. } { exact HS2. } { lia. }
    exists tail, (a :: b :: c :: g), o'.
    assert (Forall is_byte g) as Fg by (rewrite T1 in F3; apply Forall_app in F3; apply F3).
    replace (zlen pre + 3) with (zlen (pre ++ [a;b;c])) by (rewrite zlen_app; reflexivity).
    rewrite T4. rewrite !b64_encode_cons3 by assumption. rewrite <- !app_assoc. cbn [app].
    repeat split.
    + rewrite T1; reflexivity.
    + exact T2.
    + rewrite T3; reflexivity.
    + rewrite !zlen_cons. lia.
Qed.

Lemma s32_small x : - two31 <= x < two31 -> s32 x = x.
Proof. intro H; unfold s32, two31, two32 in *; rewrite Z.mod_small by lia; lia. Qed.

Lemma encode_lemma src out : 2 <= zlen src -> zlen src < 1610612730 -> Forall is_byte src ->
  lcu_base64_encode_buf_size (zlen src) <= zlen out ->
  lcu_base64_encode_buf_size (zlen src) = zlen (b64_encode src) + 1 /\
  exists rest, zlen rest = zlen out - (zlen (b64_encode src) + 1) /\
  lcu_base64_encode out src (zlen src) =
    Ret (b64_encode src ++ [0] ++ rest, lcu_base64_encode_buf_size (zlen src)).
Proof.
  intros H2 HM F HB. pose proof (b64_encode_len src) as EL.
  assert (lcu_base64_encode_buf_size (zlen src) = zlen (b64_encode src) + 1) as EB.
  { rewrite EL. unfold lcu_base64_encode_buf_size.
    rewrite (u64_small (zlen src + 2)) by (unfold two64; lia). rewrite u64_small by (unfold two64; lia).
    apply s32_small. unfold two31; lia. }
  split; [exact EB|]. rewrite EB in *.
  unfold lcu_base64_encode. destruct (zlen src <? 2) eqn:C; [lia|].
  destruct (enc_loop_ok (length src) src [] src [] out) as (tail & g & o' & T1 & T2 & T3 & T4 & T5);
    [lia|reflexivity|exact F|unfold two32; lia|lia|lia|].
  replace (Z.to_nat (zlen src)) with (length src) by (unfold zlen; lia).
  cbn [app] in T4. change (zlen (@nil Z)) with 0 in T4. rewrite T4. cbn [bind]. clear T4.
  pose proof (zlen_nonneg (b64_encode g)).
  assert (zlen (b64_encode src) = zlen (b64_encode g) + zlen (b64_encode tail)) as LL by (rewrite T3; apply zlen_app).
  assert (zlen src = zlen g + zlen tail) as LS by (rewrite T1; apply zlen_app).
  assert (Forall is_byte tail) as Ft by (rewrite T1 in F; apply Forall_app in F; apply F).
  destruct tail as [|a [|b [|c tail]]].
  4: { rewrite !zlen_cons in T2; pose proof (zlen_nonneg tail); lia. }
  - change (zlen (@nil Z)) with 0 in *. destruct (zlen src - 0 <? zlen src) eqn:C1; [lia|]. cbn [bind].
    change (zlen (b64_encode [])) with 0 in LL.
    putstep. cbn [fst snd]. exists r. split; [lia|].
    rewrite s32_small by (rewrite zlen_snoc; unfold two31; lia).
    rewrite T3. cbn [b64_encode]. rewrite app_nil_r, zlen_snoc, <- app_assoc. reflexivity.
  - inversion Ft as [|? ? Ba _]; subst. unfold is_byte in Ba.
    change (zlen [a]) with 1 in *. change (zlen (b64_encode [a])) with 4 in LL.
    destruct (zlen (g ++ [a]) - 1 <? zlen (g ++ [a])) eqn:C1; [|lia].
    rewrite (mload_app0 g [] a) by lia. cbn [bind]. cbv zeta. rewrite e0_ok by assumption. cbn [bind].
    putstep. rewrite Z.eqb_refl. rewrite t1_ok by assumption. cbn [bind].
    do 4 putstep. cbn [fst snd].
    exists r3. split; [lia|]. rewrite s32_small by (rewrite !zlen_snoc; unfold two31; lia).
    rewrite !zlen_snoc. rewrite T3. f_equal.
    destruct (enc_digits a 0 0 Ba ltac:(lia) ltac:(lia)) as (E1 & E2 & E3 & E4).
    cbv zeta in *. cbn [b64_encode]. cbv zeta.
    replace (a * 65536) with (a * 65536 + 0 * 256 + 0) by lia. rewrite E1, E2.
    change (0 / 16) with 0. rewrite Z.add_0_r, <- !app_assoc. cbn [app]. f_equal.
    rewrite !zlen_app, !zlen_cons. change (zlen (@nil Z)) with 0. lia.
  - inversion Ft as [|? ? Ba Ft2]; subst. inversion Ft2 as [|? ? Bb _]; subst. unfold is_byte in Ba, Bb.
    change (zlen [a;b]) with 2 in *. change (zlen (b64_encode [a;b])) with 4 in LL.
    destruct (zlen (g ++ [a;b]) - 2 <? zlen (g ++ [a;b])) eqn:C1; [|lia].
    rewrite (mload_app0 g [b] a) by lia. cbn [bind]. cbv zeta. rewrite e0_ok by assumption. cbn [bind].
    putstep. destruct (zlen (g ++ [a;b]) - 2 =? zlen (g ++ [a;b]) - 1) eqn:C2; [lia|].
    rewrite (mload_app g [a;b] _ 1) by lia. change (mload [a;b] 1) with (Ret b). cbn [bind].
    rewrite e1_ok, t2_ok by assumption. cbn [bind].
    do 4 putstep. cbn [fst snd].
    exists r3. split; [lia|]. rewrite s32_small by (rewrite !zlen_snoc; unfold two31; lia).
    rewrite !zlen_snoc. rewrite T3. f_equal.
    destruct (enc_digits a b 0 Ba Bb ltac:(lia)) as (E1 & E2 & E3 & E4).
    cbv zeta in *. cbn [b64_encode]. cbv zeta.
    replace (a * 65536 + b * 256) with (a * 65536 + b * 256 + 0) by lia. rewrite E1, E2, E3.
    change (0 / 64) with 0. rewrite Z.add_0_r, <- !app_assoc. cbn [app]. f_equal.
    rewrite !zlen_app, !zlen_cons. change (zlen (@nil Z)) with 0. lia.
Qed.

(** ** Decoder *)
Lemma pr2six_val c : 0 <= c < 256 ->
  mload pr2six c = Ret (match b64val c with Some v => v | None => 64 end).
Proof.
  intro H. apply isret_ok. revert c H.
  apply (sweep_ok 256 (fun c => isret (mload pr2six c) (match b64val c with Some v => v | None => 64 end))).
  vm_compute; reflexivity.
Qed.
Lemma b64val_range c v : b64val c = Some v -> 0 <= v < 64.
Proof.
  unfold b64val.
  repeat match goal with |- context[if ?b then _ else _] => destruct b eqn:? end; intro H; inversion H; lia.
Qed.
Lemma byte0_ok v0 v1 : 0 <= v0 < 64 -> 0 <= v1 < 64 -> byte0 v0 v1 = v0 * 4 + v1 / 16.
Proof.
  intros H0 H1. apply Z.eqb_eq. revert v0 v1 H0 H1.
  apply (sweep2_ok 64 64 (fun v0 v1 => byte0 v0 v1 =? v0 * 4 + v1 / 16)). vm_compute; reflexivity.
Qed.
Lemma byte1_ok v0 v1 : 0 <= v0 < 64 -> 0 <= v1 < 64 -> byte1 v0 v1 = v0 mod 16 * 16 + v1 / 4.
Proof.
  intros H0 H1. apply Z.eqb_eq. revert v0 v1 H0 H1.
  apply (sweep2_ok 64 64 (fun v0 v1 => byte1 v0 v1 =? v0 mod 16 * 16 + v1 / 4)). vm_compute; reflexivity.
Qed.
Lemma byte2_ok v0 v1 : 0 <= v0 < 64 -> 0 <= v1 < 64 -> byte2 v0 v1 = v0 mod 4 * 64 + v1.
Proof.
  intros H0 H1. apply Z.eqb_eq. revert v0 v1 H0 H1.
  apply (sweep2_ok 64 64 (fun v0 v1 => byte2 v0 v1 =? v0 mod 4 * 64 + v1)). vm_compute; reflexivity.
Qed.

Definition is_digit (c : Z) : Prop := 0 <= c < 256 /\ b64val c <> None.
Definition valof (c : Z) : Z := match b64val c with Some v => v | None => 64 end.
Lemma valof_range c : is_digit c -> 0 <= valof c < 64.
Proof. unfold is_digit, valof. destruct (b64val c) eqn:E; [intros _; eapply b64val_range; eauto|intros [_ H]; congruence]. Qed.
Lemma six_app pre c l i : i = zlen pre -> 0 <= c < 256 -> six (pre ++ c :: l) i = Ret (valof c).
Proof. intros Hi H. unfold six. rewrite mload_app0 by exact Hi. cbn [bind]. apply pr2six_val; exact H. Qed.
Lemma six_appk pre l i k c : i = zlen pre + k -> 0 <= k -> znth k l = Some c -> 0 <= c < 256 ->
  six (pre ++ l) i = Ret (valof c).
Proof.
  intros Hi Hk E H. unfold six. rewrite (mload_app pre l i k) by assumption.
  rewrite (mload_znth l k c E). cbn [bind]. apply pr2six_val; exact H.
Qed.

(** every byte string with a terminator has a maximal alphabet prefix followed by a non-alphabet byte *)
Lemma alpha_prefix s : Forall is_byte s -> forall rest, exists ds t tl,
  s ++ 0 :: rest = ds ++ t :: tl /\ Forall is_digit ds /\ 0 <= t < 256 /\ b64val t = None /\
  b64_digits s = map valof ds /\ zlen ds <= zlen s.
Proof.
  induction s as [|c s IH]; intros F rest.
  - exists [], 0, rest. repeat split; try reflexivity; try lia; constructor.
  - inversion F as [|? ? Bc Fs]; subst.
    destruct (b64val c) as [v|] eqn:E.
    + destruct (IH Fs rest) as (ds & t & tl & E1 & E2 & E3 & E4 & E5 & E6).
      exists (c :: ds), t, tl. split; [cbn; rewrite E1; reflexivity|]. split.
      { constructor; [|exact E2]. split; [exact Bc|congruence]. }
      repeat split; try assumption; try lia.
      { cbn [b64_digits map]. unfold valof at 1. rewrite E. f_equal; exact E5. }
      { rewrite !zlen_cons; lia. }
    + exists [], c, (s ++ 0 :: rest). pose proof (zlen_nonneg s). unfold is_byte in Bc.
      repeat split; try reflexivity; try lia; try constructor; try exact E.
      { cbn. rewrite E. reflexivity. }
      { rewrite zlen_cons. change (zlen (@nil Z)) with 0. lia. }
Qed.

Lemma count_pr_ok : forall ds fuel pre t tl, (length ds < fuel)%nat -> Forall is_digit ds ->
  0 <= t < 256 -> b64val t = None ->
  count_pr fuel (pre ++ ds ++ t :: tl) (zlen pre) = Ret (zlen pre + zlen ds).
Proof.
  induction ds as [|c ds IH]; intros fuel pre t tl L F Ht E; (destruct fuel as [|fuel]; [cbn in L; lia|]); cbn [count_pr].
  - cbn [app]. rewrite six_app by (try reflexivity; exact Ht). cbn [bind].
    unfold valof; rewrite E. cbn. f_equal. change (zlen (@nil Z)) with 0. lia.
  - inversion F as [|? ? Dc F']; subst. pose proof (valof_range c Dc) as V.
    cbn [app]. rewrite six_app by (try reflexivity; apply Dc). cbn [bind].
    destruct (valof c <=? 63) eqn:C; [|lia].
    replace (pre ++ c :: ds ++ t :: tl) with ((pre ++ [c]) ++ ds ++ t :: tl) by (rewrite <- app_assoc; reflexivity).
    replace (zlen pre + 1) with (zlen (pre ++ [c])) by apply zlen_snoc.
    rewrite IH by (try assumption; cbn in L; lia). rewrite zlen_snoc, zlen_cons. f_equal; lia.
Qed.

Lemma digits_bytes_len d : zlen (digits_bytes d) = (zlen d + 3) / 4 * 3 - (4 - zlen d) mod 4.
Proof.
  assert (forall n d, (length d <= n)%nat -> zlen (digits_bytes d) = (zlen d + 3) / 4 * 3 - (4 - zlen d) mod 4) as G;
    [|apply (G (length d)); lia].
  clear d. induction n as [|n IH]; intros d L.
  - destruct d; [reflexivity|cbn in L; lia].
  - destruct d as [|a [|b [|c [|e d]]]]; try reflexivity.
    cbn [digits_bytes]. cbv zeta. rewrite !zlen_cons, IH by (cbn in L; lia). lia.
Qed.

Lemma grp4 v0 v1 v2 v3 : 0 <= v0 < 64 -> 0 <= v1 < 64 -> 0 <= v2 < 64 -> 0 <= v3 < 64 ->
  let n := ((v0 * 64 + v1) * 64 + v2) * 64 + v3 in
  n / 65536 = v0 * 4 + v1 / 16 /\ n / 256 mod 256 = v1 mod 16 * 16 + v2 / 4 /\ n mod 256 = v2 mod 4 * 64 + v3.
Proof. intros. unfold n. repeat split; lia. Qed.

Lemma digits_bytes_cons4 v0 v1 v2 v3 d : 0 <= v0 < 64 -> 0 <= v1 < 64 -> 0 <= v2 < 64 -> 0 <= v3 < 64 ->
  digits_bytes (v0 :: v1 :: v2 :: v3 :: d) = [byte0 v0 v1; byte1 v1 v2; byte2 v2 v3] ++ digits_bytes d.
Proof.
  intros H0 H1 H2 H3. destruct (grp4 v0 v1 v2 v3 H0 H1 H2 H3) as (E1 & E2 & E3).
  cbn [digits_bytes app]. cbv zeta in *. rewrite E1, E2, E3, byte0_ok, byte1_ok, byte2_ok by assumption. reflexivity.
Qed.
Lemma digits_bytes_3 v0 v1 v2 : 0 <= v0 < 64 -> 0 <= v1 < 64 -> 0 <= v2 < 64 ->
  digits_bytes [v0; v1; v2] = [byte0 v0 v1; byte1 v1 v2].
Proof.
  intros H0 H1 H2. destruct (grp4 v0 v1 v2 0 H0 H1 H2 ltac:(lia)) as (E1 & E2 & E3).
  cbn [digits_bytes]. cbv zeta in *.
  replace (((v0 * 64 + v1) * 64 + v2) * 64) with (((v0 * 64 + v1) * 64 + v2) * 64 + 0) by lia.
  rewrite E1, E2, byte0_ok, byte1_ok by assumption. reflexivity.
Qed.
Lemma digits_bytes_2 v0 v1 : 0 <= v0 < 64 -> 0 <= v1 < 64 -> digits_bytes [v0; v1] = [byte0 v0 v1].
Proof.
  intros H0 H1. destruct (grp4 v0 v1 0 0 H0 H1 ltac:(lia) ltac:(lia)) as (E1 & _).
  cbn [digits_bytes]. cbv zeta in *.
  replace ((v0 * 64 + v1) * 4096) with (((v0 * 64 + v1) * 64 + 0) * 64 + 0) by lia.
  rewrite E1, byte0_ok by assumption. reflexivity.
Qed.

Lemma dec_loop_ok : forall n pre todo suf w o,
  (length todo <= n)%nat -> Forall is_digit todo -> (zlen todo + 3) / 4 * 3 + 1 <= zlen o ->
  exists g tail o', todo = g ++ tail /\ zlen tail <= 4 /\ (zlen todo - zlen tail) mod 4 = 0 /\ zlen g <= zlen todo /\
    digits_bytes (map valof todo) = digits_bytes (map valof g) ++ digits_bytes (map valof tail) /\
    (zlen tail = 0 -> todo = []) /\
    dec_loop n (pre ++ todo ++ suf) (w ++ o, zlen w) (zlen pre) (zlen todo) =
      Ret ((w ++ digits_bytes (map valof g)) ++ o', zlen (w ++ digits_bytes (map valof g)), zlen pre + zlen g, zlen tail) /\
    zlen o' = zlen o - zlen (digits_bytes (map valof g)).
Proof.
  induction n as [|n IH]; intros pre todo suf w o L F HO.
  - destruct todo; [|cbn in L; lia]. exists [], [], o. cbn. rewrite !app_nil_r, Z.add_0_r.
    change (zlen (@nil Z)) with 0. repeat split; try reflexivity; try lia.
  - assert (zlen todo <= 4 \/ 4 < zlen todo) as [D|D] by lia.
    + exists [], todo, o. cbn [dec_loop]. destruct (zlen todo >? 4) eqn:C; [lia|].
      cbn [map digits_bytes app]. rewrite !app_nil_r. change (zlen (@nil Z)) with 0. rewrite Z.add_0_r.
      pose proof (zlen_nonneg todo).
      repeat split; try reflexivity; try lia; apply zlen_0_nil; assumption.
    + cbn [dec_loop]. destruct (zlen todo >? 4) eqn:C; [|lia].
      destruct todo as [|a [|b [|c [|e todo]]]]; rewrite ?zlen_cons in *; change (zlen (@nil Z)) with 0 in *; try lia.
      inversion F as [|? ? Fa F1]; subst. inversion F1 as [|? ? Fb F2]; subst.
      inversion F2 as [|? ? Fc F3]; subst. inversion F3 as [|? ? Fe F4]; subst.
      pose proof (valof_range a Fa) as Va. pose proof (valof_range b Fb) as Vb.
      pose proof (valof_range c Fc) as Vc. pose proof (valof_range e Fe) as Ve.
      cbn [app].
      rewrite (six_appk pre (a::b::c::e::todo++suf) (zlen pre) 0 a) by (try lia; try reflexivity; apply Fa). cbn [bind].
      rewrite (six_appk pre (a::b::c::e::todo++suf) (zlen pre + 1) 1 b) by (try lia; try reflexivity; apply Fb). cbn [bind].
      rewrite (six_appk pre (a::b::c::e::todo++suf) (zlen pre + 2) 2 c) by (try lia; try reflexivity; apply Fc). cbn [bind].
      rewrite (six_appk pre (a::b::c::e::todo++suf) (zlen pre + 3) 3 e) by (try lia; try reflexivity; apply Fe). cbn [bind].
      pose proof (zlen_nonneg todo).
      do 3 putstep.
      replace (pre ++ a :: b :: c :: e :: todo ++ suf) with ((pre ++ [a;b;c;e]) ++ todo ++ suf) by (rewrite <- app_assoc; reflexivity).
      replace (zlen pre + 4) with (zlen (pre ++ [a;b;c;e])) by (rewrite zlen_app; reflexivity).
      replace (1 + (1 + (1 + (1 + zlen todo))) - 4) with (zlen todo) by lia.
      match goal with |- context[dec_loop n _ (?w' ++ ?o', _)] =>
        destruct (IH (pre ++ [a;b;c;e]) todo suf w' o') as (g & tail & o2 & G1 & G2 & G3 & G4 & G5 & G6 & G7 & G8);
        [cbn in L; lia|exact F4|lia|] end.
      exists (a::b::c::e::g), tail, o2. cbn [map]. rewrite !digits_bytes_cons4 by assumption.
      rewrite !zlen_cons.
      split; [cbn; rewrite G1; reflexivity|]. split; [exact G2|]. split; [lia|]. split; [lia|].
      split; [rewrite G5; reflexivity|]. split.
      { intro Z0. specialize (G6 Z0). apply (f_equal zlen) in G6. change (zlen (@nil Z)) with 0 in G6. lia. }
      split; [|cbn [app]; rewrite !zlen_cons; lia].
      rewrite G7. rewrite (zlen_app pre). change (zlen [a;b;c;e]) with 4. rewrite <- !app_assoc. cbn [app].
      f_equal. f_equal. f_equal. lia.
Qed.

Lemma decode_core ds t tl out : Forall is_digit ds -> 0 <= t < 256 -> b64val t = None ->
  zlen ds < 1073741824 -> (zlen ds + 3) / 4 * 3 + 1 <= zlen out ->
  exists rest, zlen rest = zlen out - (zlen (digits_bytes (map valof ds)) + 1) /\
   lcu_base64_decode out (ds ++ t :: tl) =
    Ret (digits_bytes (map valof ds) ++ 0 :: rest, zlen (digits_bytes (map valof ds))).
Proof.
  intros F Ht E HM HO. pose proof (zlen_nonneg ds) as Nd.
  unfold lcu_base64_decode.
  pose proof (count_pr_ok ds (S (length (ds ++ t :: tl))) [] t tl) as CP. cbn [app] in CP. change (zlen (@nil Z)) with 0 in CP.
  rewrite CP; clear CP; [|rewrite app_length; lia|assumption|assumption|assumption]. cbn [bind].
  rewrite s32_small by (unfold two31; lia). cbv zeta.
  unfold sint, int_ok. destruct ((- two31 <=? 0 + zlen ds + 3) && (0 + zlen ds + 3 <? two31)) eqn:C; [|unfold two31 in C; lia].
  cbn [bind]. rewrite Z.quot_div_nonneg by lia.
  destruct ((- two31 <=? (0 + zlen ds + 3) / 4 * 3) && ((0 + zlen ds + 3) / 4 * 3 <? two31)) eqn:C2; [|unfold two31 in C2; lia].
  cbn [bind]. clear C C2.
  destruct (dec_loop_ok (length (ds ++ t :: tl)) [] ds (t :: tl) [] out)
    as (g & tail & o & G1 & G2 & G3 & G4 & G5 & G6 & G7 & G8); [rewrite app_length; lia|exact F|exact HO|].
  cbn [app] in G7. change (zlen (@nil Z)) with 0 in G7. rewrite Z.add_0_l in *. rewrite G7. cbn [bind]. clear G7.
  pose proof (digits_bytes_len (map valof ds)) as DL. rewrite zlen_map in DL.
  pose proof (digits_bytes_len (map valof tail)) as DT. rewrite zlen_map in DT.
  assert (zlen (digits_bytes (map valof ds)) = zlen (digits_bytes (map valof g)) + zlen (digits_bytes (map valof tail))) as DS
    by (rewrite G5; apply zlen_app).
  assert (zlen ds = zlen g + zlen tail) as LD by (rewrite G1; apply zlen_app).
  assert (Forall is_digit tail) as Ft by (rewrite G1 in F; apply Forall_app in F; apply F).
  pose proof (zlen_nonneg (digits_bytes (map valof g))).
  assert (forall x, Z.land x 3 = x mod 4) as LA by (intro x; apply (Z.land_ones x 2); lia).
  rewrite LA.
  destruct tail as [|a [|b [|c [|e [|f tail]]]]].
  6: { rewrite !zlen_cons in G2; pose proof (zlen_nonneg tail); lia. }
  - specialize (G6 eq_refl). subst ds. destruct g; [|discriminate]. cbn.
    destruct (zlen_pos_cons o) as [y [r ->]]; [cbn in G8; lia|].
    exists r. split; [cbn in *; rewrite zlen_cons in *; lia|].
    change (zlen (@nil Z)) with 0. change (0 >? 1) with false. change (0 >? 2) with false. change (0 >? 3) with false.
    cbv iota. cbn [bind]. pose proof (put_ok [] y r 0 0 eq_refl) as P0. cbn [app] in P0. rewrite P0. reflexivity.
  - change (zlen [a]) with 1 in *. change (1 >? 1) with false. change (1 >? 2) with false. change (1 >? 3) with false. cbv iota. cbn [bind].
    cbn [map digits_bytes] in *. change (zlen (@nil Z)) with 0 in *.
    putstep. cbn [fst snd]. exists r. split; [lia|]. rewrite G5, app_nil_r, <- app_assoc. cbn [app].
    f_equal. f_equal. lia.
  - change (zlen [a;b]) with 2 in *. change (2 >? 1) with true. change (2 >? 2) with false. change (2 >? 3) with false. cbv iota. cbn [bind].
    inversion Ft as [|? ? Fa F1]; subst. inversion F1 as [|? ? Fb F2]; subst.
    pose proof (valof_range a Fa) as Va. pose proof (valof_range b Fb) as Vb.
    replace ((g ++ [a;b]) ++ t :: tl) with (g ++ a::b::t::tl) by (rewrite <- app_assoc; reflexivity).
    rewrite (six_appk g (a::b::t::tl) (zlen g) 0 a) by (try lia; try reflexivity; apply Fa). cbn [bind].
    rewrite (six_appk g (a::b::t::tl) (zlen g + 1) 1 b) by (try lia; try reflexivity; apply Fb). cbn [bind].
    cbn [map] in *. rewrite digits_bytes_2 in * by assumption. change (zlen [byte0 (valof a) (valof b)]) with 1 in *.
    do 2 putstep. cbn [fst snd]. exists r0. split; [lia|]. rewrite G5, <- !app_assoc. cbn [app].
    f_equal. f_equal. rewrite (zlen_app (digits_bytes _)). change (zlen [byte0 (valof a) (valof b)]) with 1. lia.
  - change (zlen [a;b;c]) with 3 in *. change (3 >? 1) with true. change (3 >? 2) with true. change (3 >? 3) with false. cbv iota. cbn [bind].
    inversion Ft as [|? ? Fa F1]; subst. inversion F1 as [|? ? Fb F2]; subst. inversion F2 as [|? ? Fc F3]; subst.
    pose proof (valof_range a Fa) as Va. pose proof (valof_range b Fb) as Vb. pose proof (valof_range c Fc) as Vc.
    replace ((g ++ [a;b;c]) ++ t :: tl) with (g ++ a::b::c::t::tl) by (rewrite <- app_assoc; reflexivity).
    rewrite (six_appk g (a::b::c::t::tl) (zlen g) 0 a) by (try lia; try reflexivity; apply Fa). cbn [bind].
    rewrite (six_appk g (a::b::c::t::tl) (zlen g + 1) 1 b) by (try lia; try reflexivity; apply Fb). cbn [bind].
    rewrite (six_appk g (a::b::c::t::tl) (zlen g + 2) 2 c) by (try lia; try reflexivity; apply Fc). cbn [bind].
    cbn [map] in *. rewrite digits_bytes_3 in * by assumption. 
    match goal with H : context[zlen [?x; ?y]] |- _ => change (zlen [x; y]) with 2 in * end.
    do 3 putstep. cbn [fst snd]. exists r1. split; [lia|]. rewrite G5, <- !app_assoc. cbn [app].
    f_equal. f_equal. rewrite (zlen_app (digits_bytes _)), !zlen_cons. change (zlen (@nil Z)) with 0. lia.
  - change (zlen [a;b;c;e]) with 4 in *. change (4 >? 1) with true. change (4 >? 2) with true. change (4 >? 3) with true. cbv iota. cbn [bind].
    inversion Ft as [|? ? Fa F1]; subst. inversion F1 as [|? ? Fb F2]; subst. inversion F2 as [|? ? Fc F3]; subst. inversion F3 as [|? ? Fe F4]; subst.
    pose proof (valof_range a Fa) as Va. pose proof (valof_range b Fb) as Vb. pose proof (valof_range c Fc) as Vc. pose proof (valof_range e Fe) as Ve.
    replace ((g ++ [a;b;c;e]) ++ t :: tl) with (g ++ a::b::c::e::t::tl) by (rewrite <- app_assoc; reflexivity).
    rewrite (six_appk g (a::b::c::e::t::tl) (zlen g) 0 a) by (try lia; try reflexivity; apply Fa). cbn [bind].
    rewrite (six_appk g (a::b::c::e::t::tl) (zlen g + 1) 1 b) by (try lia; try reflexivity; apply Fb). cbn [bind].
    rewrite (six_appk g (a::b::c::e::t::tl) (zlen g + 2) 2 c) by (try lia; try reflexivity; apply Fc). cbn [bind].
    rewrite (six_appk g (a::b::c::e::t::tl) (zlen g + 3) 3 e) by (try lia; try reflexivity; apply Fe). cbn [bind].
    cbn [map] in *. rewrite digits_bytes_cons4 in * by assumption. cbn [digits_bytes] in *. rewrite app_nil_r in *.
    match goal with H : context[zlen [?x; ?y; ?z]] |- _ => change (zlen [x; y; z]) with 3 in * end.
    do 4 putstep. cbn [fst snd]. exists r2. split; [lia|]. rewrite G5, <- !app_assoc. cbn [app].
    f_equal. f_equal. rewrite (zlen_app (digits_bytes _)), !zlen_cons. change (zlen (@nil Z)) with 0. lia.
Qed.

Lemma decode_buf_size_eq n : 0 <= n < 1073741824 -> lcu_base64_decode_buf_size n = (n + 3) / 4 * 3 + 1.
Proof.
  intro H. unfold lcu_base64_decode_buf_size. rewrite (u64_small (n + 3)) by (unfold two64; lia).
  rewrite u64_small by (unfold two64; lia). apply s32_small; unfold two31; lia.
Qed.

Lemma decode_lemma s rest out : Forall is_byte s -> zlen s < 1073741824 ->
  lcu_base64_decode_buf_size (zlen s) <= zlen out ->
  exists tl, zlen tl = zlen out - (zlen (digits_bytes (b64_digits s)) + 1) /\
   lcu_base64_decode out (s ++ 0 :: rest) =
     Ret (digits_bytes (b64_digits s) ++ 0 :: tl, zlen (digits_bytes (b64_digits s))).
Proof.
  intros F HM HO. pose proof (zlen_nonneg s). rewrite decode_buf_size_eq in HO by lia.
  destruct (alpha_prefix s F rest) as (ds & t & tl & E1 & E2 & E3 & E4 & E5 & E6).
  rewrite E1, E5. apply decode_core; try assumption; try lia.
Qed.

(** ** round trip at the level of the specification *)
Lemma b64val_char d : 0 <= d < 64 -> b64val (b64char d) = Some d.
Proof.
  intro H. assert (match b64val (b64char d) with Some v => v =? d | None => false end = true) as G.
  { revert d H. apply (sweep_ok 64 (fun d => match b64val (b64char d) with Some v => v =? d | None => false end)). vm_compute; reflexivity. }
  destruct (b64val (b64char d)); [|discriminate]. f_equal; lia.
Qed.
Lemma b64char_byte d : 0 <= d < 64 -> is_byte (b64char d).
Proof.
  intro H. assert ((0 <=? b64char d) && (b64char d <? 256) = true) as G; [|unfold is_byte; lia].
  revert d H. apply (sweep_ok 64 (fun d => (0 <=? b64char d) && (b64char d <? 256))). vm_compute; reflexivity.
Qed.
Lemma roundtrip_spec : forall n s, (length s <= n)%nat -> Forall is_byte s ->
  digits_bytes (b64_digits (b64_encode s)) = s /\ Forall is_byte (b64_encode s).
Proof.
  assert (forall c, In c [61] -> b64val c = None) as PE by (intros c [<-|[]]; reflexivity).
  induction n as [|n IH]; intros s L F.
  - destruct s; [split; [reflexivity|constructor]|cbn in L; lia].
  - destruct s as [|a [|b [|c s]]].
    + split; [reflexivity|constructor].
    + inversion F as [|? ? Ba _]; subst. unfold is_byte in Ba. cbn [b64_encode]. cbv zeta.
      cbn [b64_digits]. rewrite !b64val_char by lia. rewrite (PE 61) by (left; reflexivity). cbn [digits_bytes]. cbv zeta.
      split; [f_equal; lia|]. repeat (constructor; [first [apply b64char_byte; lia|unfold is_byte; lia]|]). constructor.
    + inversion F as [|? ? Ba F1]; subst. inversion F1 as [|? ? Bb _]; subst. unfold is_byte in Ba, Bb.
      cbn [b64_encode]. cbv zeta.
      cbn [b64_digits]. rewrite !b64val_char by lia. rewrite (PE 61) by (left; reflexivity). cbn [digits_bytes]. cbv zeta.
      split; [repeat f_equal; lia|]. repeat (constructor; [first [apply b64char_byte; lia|unfold is_byte; lia]|]). constructor.
    + inversion F as [|? ? Ba F1]; subst. inversion F1 as [|? ? Bb F2]; subst. inversion F2 as [|? ? Bc F3]; subst.
      unfold is_byte in Ba, Bb, Bc.
      destruct (IH s ltac:(cbn in L; lia) F3) as [R1 R2].
      cbn [b64_encode]. cbv zeta. cbn [b64_digits]. rewrite !b64val_char by lia. cbn [digits_bytes]. cbv zeta.
      rewrite R1. split; [repeat f_equal; lia|].
      repeat (constructor; [apply b64char_byte; lia|]). exact R2.
Qed.

Lemma roundtrip_lemma src out plain :
  2 <= zlen src < 805306365 -> Forall is_byte src ->
  lcu_base64_encode_buf_size (zlen src) <= zlen out ->
  lcu_base64_decode_buf_size (zlen (b64_encode src)) <= zlen plain ->
  exists rest tl,
    lcu_base64_encode out src (zlen src) =
      Ret (b64_encode src ++ 0 :: rest, zlen (b64_encode src) + 1) /\
    lcu_base64_decode plain (b64_encode src ++ 0 :: rest) = Ret (src ++ 0 :: tl, zlen src).
Proof.
  intros H F HO HP. destruct (encode_lemma src out) as [E1 [rest [E2 E3]]]; [lia|lia|exact F|exact HO|].
  destruct (roundtrip_spec (length src) src ltac:(lia) F) as [R1 R2].
  pose proof (b64_encode_len src) as EL.
  destruct (decode_lemma (b64_encode src) rest plain R2) as [tl [D1 D2]]; [lia|exact HP|].
  rewrite R1 in D2. exists rest, tl. split; [rewrite E3, E1; reflexivity|exact D2].
Qed.
Lemma roundtrip_rfc src plain rest : zlen src < 805306365 -> Forall is_byte src ->
  lcu_base64_decode_buf_size (zlen (b64_encode src)) <= zlen plain ->
  exists tl, lcu_base64_decode plain (b64_encode src ++ 0 :: rest) = Ret (src ++ 0 :: tl, zlen src).
Proof.
  intros H F HP. destruct (roundtrip_spec (length src) src ltac:(lia) F) as [R1 R2].
  pose proof (b64_encode_len src) as EL.
  destruct (decode_lemma (b64_encode src) rest plain R2) as [tl [D1 D2]]; [lia|exact HP|].
  rewrite R1 in D2. exists tl. exact D2.
Qed.
Lemma short_refused src out : zlen src < 2 -> lcu_base64_encode out src (zlen src) = Ret (out, -1).
Proof. intro H. unfold lcu_base64_encode. destruct (zlen src <? 2) eqn:C; [reflexivity|lia]. Qed.

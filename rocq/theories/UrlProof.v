From Verif Require Import CBase SeqLib Base64Model Base64Proof UrlModel UrlSpec.

Lemma plain_char_ok c : 0 <= c < 256 -> plain_char (schar c) = unreserved c.
Proof.
  intro H. apply eqb_prop. revert c H.
  apply (sweep_ok 256 (fun c => eqb (plain_char (schar c)) (unreserved c))). vm_compute; reflexivity.
Qed.
Lemma schar_eqb c k : 0 <= c < 256 -> 0 <= k < 128 -> (schar c =? k) = (c =? k).
Proof.
  intros H K. unfold schar.
  destruct (c <? 128) eqn:E, (c =? k) eqn:E1; try lia; destruct (c - 256 =? k) eqn:E2; lia.
Qed.
Lemma schar_mod c : 0 <= c < 256 -> schar c mod 256 = c.
Proof. intro H. unfold schar. destruct (c <? 128) eqn:E; lia. Qed.
Lemma hexhi_ok c : 0 <= c < 256 -> mload hexchars (Z.shiftr c 4) = Ret (hexdigit (c / 16)).
Proof.
  intro H. apply isret_ok. revert c H.
  apply (sweep_ok 256 (fun c => isret (mload hexchars (Z.shiftr c 4)) (hexdigit (c / 16)))). vm_compute; reflexivity.
Qed.
Lemma hexlo_ok c : 0 <= c < 256 -> mload hexchars (Z.land c 15) = Ret (hexdigit (c mod 16)).
Proof.
  intro H. apply isret_ok. revert c H.
  apply (sweep_ok 256 (fun c => isret (mload hexchars (Z.land c 15)) (hexdigit (c mod 16)))). vm_compute; reflexivity.
Qed.

(** storing at the write position inside a window *)
Lemma mstore_room (w o o2 : list Z) x : 0 < zlen o ->
  exists o', mstore (w ++ o ++ o2) (zlen w) x = Ret ((w ++ [x]) ++ o' ++ o2) /\ zlen o' = zlen o - 1.
Proof.
  intro H. destruct (zlen_pos_cons o H) as [y [r ->]]. exists r. split.
  - cbn [app]. apply mstore_app; reflexivity.
  - rewrite zlen_cons; lia.
Qed.

Definition fail_code (c : Z) : Prop := c = -2 \/ c = -3.

(** loop at [todo], with output window w ++ o (o2 lies beyond the given size) *)
Lemma ue_loop_ok : forall todo pre suf w o o2 n,
  Forall is_byte todo -> (length todo <= n)%nat -> 1 <= zlen o -> zlen w + zlen o < 9223372036854775808 ->
  (zlen (url_enc todo) + 1 <= zlen o ->
   exists o', zlen o' = zlen o - zlen (url_enc todo) /\
    ue_loop n (w ++ o ++ o2) (zlen w + zlen o) (pre ++ todo ++ suf) (zlen pre + zlen todo) (zlen pre) (zlen w) =
    Ret ((w ++ url_enc todo) ++ o' ++ o2, inl (zlen pre + zlen todo, zlen (w ++ url_enc todo)))) /\
  (zlen o < zlen (url_enc todo) + 1 ->
   exists w', zlen w' = zlen w + zlen o /\
    (ue_loop n (w ++ o ++ o2) (zlen w + zlen o) (pre ++ todo ++ suf) (zlen pre + zlen todo) (zlen pre) (zlen w) =
       Ret (w' ++ o2, inr (-2)) \/
     exists i oi, i < zlen pre + zlen todo /\ (zlen todo > 0 -> 1 < zlen o -> zlen pre < i) /\
       ue_loop n (w ++ o ++ o2) (zlen w + zlen o) (pre ++ todo ++ suf) (zlen pre + zlen todo) (zlen pre) (zlen w) =
       Ret (w' ++ o2, inl (i, oi)))).
Proof.
  induction todo as [|c todo IH]; intros pre suf w o o2 n F L HO HB.
  - cbn [url_enc]. change (zlen (@nil Z)) with 0. split; [|intro; lia]. intros _.
    exists o. split; [lia|]. rewrite app_nil_r.
    assert ((zlen pre <? zlen pre + 0) = false) as C by lia.
    destruct n; cbn [ue_loop]; rewrite C; cbn [andb]; rewrite Z.add_0_r; reflexivity.
  - inversion F as [|? ? Bc F']; subst. unfold is_byte in Bc.
    pose proof (zlen_nonneg pre) as Np. pose proof (zlen_nonneg todo) as Nt. pose proof (zlen_nonneg w) as Nw.
    pose proof (zlen_nonneg (url_enc todo)) as Ne.
    destruct n as [|n]; [cbn in L; lia|]. cbn [ue_loop url_enc].
    rewrite (u64_small (zlen w + zlen o - 1)) by (unfold two64; lia).
    assert ((zlen pre <? zlen pre + zlen (c :: todo)) = true) as C by (rewrite zlen_cons; lia).
    rewrite C; clear C. cbn [andb].
    destruct (zlen w <? zlen w + zlen o - 1) eqn:C.
    2:{ (* output already full *)
      assert (zlen o = 1) as O1 by lia.
      assert (1 <= zlen (url_enc1 c)) as U1.
      { unfold url_enc1. destruct (unreserved c); [reflexivity|]. destruct (c =? 32); [reflexivity|]. rewrite !zlen_cons. change (zlen (@nil Z)) with 0. lia. }
      rewrite zlen_app. split; [intro; lia|]. intros _. exists (w ++ o). split; [apply zlen_app|]. right.
      exists (zlen pre), (zlen w). rewrite <- app_assoc. repeat split; try (rewrite zlen_cons; lia). }
    assert (mload (pre ++ (c :: todo) ++ suf) (zlen pre) = Ret c) as M by (cbn [app]; apply mload_app0; reflexivity).
    rewrite M; clear M. cbn [bind]. cbv zeta.
    rewrite plain_char_ok, schar_eqb, schar_mod by lia.
    assert (R : forall e w1 o1, w1 = w ++ e -> zlen o1 = zlen o - zlen e -> 1 <= zlen o1 -> 1 <= zlen e -> 
      let r := ue_loop n (w1 ++ o1 ++ o2) (zlen w + zlen o) (pre ++ (c :: todo) ++ suf) (zlen pre + zlen (c :: todo)) (zlen pre + 1) (zlen w + zlen e) in
      (zlen (e ++ url_enc todo) + 1 <= zlen o -> exists o', zlen o' = zlen o - zlen (e ++ url_enc todo) /\
         r = Ret ((w ++ e ++ url_enc todo) ++ o' ++ o2, inl (zlen pre + zlen (c :: todo), zlen (w ++ e ++ url_enc todo)))) /\
      (zlen o < zlen (e ++ url_enc todo) + 1 -> exists w', zlen w' = zlen w + zlen o /\
         (r = Ret (w' ++ o2, inr (-2)) \/
          exists i oi, i < zlen pre + zlen (c :: todo) /\ (zlen (c :: todo) > 0 -> 1 < zlen o -> zlen pre < i) /\ r = Ret (w' ++ o2, inl (i, oi))))).
    { intros e w1 o1 E1 E2 E3 Ee r. unfold r. clear r.
      destruct (IH (pre ++ [c]) suf w1 o1 o2 n F' ltac:(cbn in L; lia) E3) as [I1 I2].
      { rewrite E1, zlen_app. lia. }
      assert (zlen w1 = zlen w + zlen e) as W1 by (rewrite E1; apply zlen_app).
      rewrite W1 in *. rewrite zlen_snoc in *. rewrite zlen_cons.
      replace (zlen w + zlen e + zlen o1) with (zlen w + zlen o) in * by lia.
      replace ((pre ++ [c]) ++ todo ++ suf) with (pre ++ (c :: todo) ++ suf) in * by (rewrite <- app_assoc; reflexivity).
      replace (zlen pre + 1 + zlen todo) with (zlen pre + (1 + zlen todo)) in * by lia.
      rewrite zlen_app. split.
      - intro Hf. destruct (I1 ltac:(lia)) as [o' [Lo Ro]]. exists o'. split; [lia|]. rewrite Ro, E1, <- !app_assoc. reflexivity.
      - intro Hf. destruct (I2 ltac:(lia)) as [w' [Lw D]]. exists w'. split; [lia|].
        destruct D as [D|[i [oi [D1 [D2 D3]]]]]; [left; exact D|right; exists i, oi].
        split; [lia|]. split; [|exact D3]. intros _ H1. 
        destruct (Z_lt_dec 1 (zlen o1)); destruct (Z_lt_dec 0 (zlen todo)); try (specialize (D2 ltac:(lia) ltac:(lia)); lia).
        + (* todo empty: enc fits, contradiction *)
          assert (todo = []) as -> by (apply zlen_0_nil; lia). cbn [url_enc] in *. change (zlen (@nil Z)) with 0 in *. lia.
        + (* o1 full *) 
          destruct n as [|n'].
          { cbn in L. destruct todo; [change (zlen (@nil Z)) with 0 in *; lia|cbn in L; lia]. }
          cbn [ue_loop] in D3. rewrite (u64_small (zlen w + zlen o - 1)) in D3 by (unfold two64; lia).
          destruct ((zlen pre + 1 <? zlen pre + (1 + zlen todo)) && (zlen w + zlen e <? zlen w + zlen o - 1)) eqn:CC; [lia|].
          injection D3 as _ Hi _. lia.
        + assert (todo = []) as -> by (apply zlen_0_nil; lia). cbn [url_enc] in *. change (zlen (@nil Z)) with 0 in *. lia. }
    unfold url_enc1.
    destruct (unreserved c) eqn:U.
    + destruct (mstore_room w o o2 c ltac:(lia)) as [o' [S1 S2]]. rewrite S1. cbn [bind].
      apply (R [c]); try reflexivity; change (zlen [c]) with 1; lia.
    + destruct (c =? 32) eqn:Sp.
      * destruct (mstore_room w o o2 43 ltac:(lia)) as [o' [S1 S2]]. rewrite S1. cbn [bind].
        apply (R [43]); try reflexivity; change (zlen [43]) with 1; lia.
      * rewrite (u64_small (zlen w + 3)) by (unfold two64; lia).
        destruct (zlen w + 3 <? zlen w + zlen o) eqn:C3.
        -- destruct (mstore_room w o o2 37 ltac:(lia)) as [o' [S1 S2]]. rewrite S1. cbn [bind].
           rewrite hexhi_ok by lia. cbn [bind]. rewrite <- (zlen_snoc w 37).
           destruct (mstore_room (w ++ [37]) o' o2 (hexdigit (c / 16)) ltac:(lia)) as [o'' [S3 S4]]. rewrite S3. cbn [bind].
           rewrite hexlo_ok by lia. cbn [bind].
           replace (zlen w + 2) with (zlen ((w ++ [37]) ++ [hexdigit (c / 16)])) by (rewrite !zlen_snoc; lia).
           destruct (mstore_room ((w ++ [37]) ++ [hexdigit (c / 16)]) o'' o2 (hexdigit (c mod 16)) ltac:(lia)) as [o3 [S5 S6]].
           rewrite S5. cbn [bind].
           apply (R [37; hexdigit (c / 16); hexdigit (c mod 16)]); try reflexivity.
           { rewrite <- !app_assoc; reflexivity. }
           all: change (zlen [37; hexdigit (c / 16); hexdigit (c mod 16)]) with 3; lia.
        -- rewrite zlen_app, !zlen_cons. change (zlen (@nil Z)) with 0. split; [intro; lia|]. intros _.
           exists (w ++ o). split; [apply zlen_app|]. left. rewrite <- app_assoc. reflexivity.
Qed.

Lemma encode_url_lemma src suf out beyond :
  Forall is_byte src -> 1 <= zlen src -> 2 <= zlen out -> zlen out < 9223372036854775808 -> zlen (url_enc src) < 2147483648 ->
  (zlen (url_enc src) + 1 <= zlen out ->
   exists rest, zlen rest = zlen out - (zlen (url_enc src) + 1) /\
    lcu_url_encode (out ++ beyond) (zlen out) (src ++ suf) (zlen src) =
     Ret (url_enc src ++ 0 :: rest ++ beyond, zlen (url_enc src))) /\
  (zlen out < zlen (url_enc src) + 1 ->
   exists out' code, zlen out' = zlen out /\ (code = -2 \/ code = -3) /\
    lcu_url_encode (out ++ beyond) (zlen out) (src ++ suf) (zlen src) = Ret (out' ++ beyond, code)).
Proof.
  intros F H1 H2 HB HI. pose proof (ue_loop_ok src [] suf [] out beyond (Z.to_nat (zlen src)) F) as [L1 L2].
  { unfold zlen; lia. } { lia. } { change (zlen (@nil Z)) with 0; lia. }
  cbn [app] in L1, L2. change (zlen (@nil Z)) with 0 in L1, L2. rewrite !Z.add_0_l in L1, L2.
  unfold lcu_url_encode. destruct ((zlen src <? 1) || (zlen out <? 2)) eqn:C; [lia|]. split.
  - intro Hf. destruct (L1 Hf) as [o' [Lo R]]. rewrite R. cbn [bind].
    destruct (zlen src =? 0) eqn:C0; [lia|]. rewrite Z.eqb_refl.
    destruct (mstore_room (url_enc src) o' beyond 0 ltac:(lia)) as [o3 [S1 S2]]. rewrite S1. cbn [bind].
    exists o3. split; [lia|]. rewrite s32_small by (pose proof (zlen_nonneg (url_enc src)); unfold two31; lia).
    rewrite <- app_assoc. reflexivity.
  - intro Hf. destruct (L2 Hf) as [w' [Lw D]]. exists w'.
    destruct D as [D|[i [oi [D1 [D2 D3]]]]].
    + exists (-2). rewrite D. cbn [bind]. repeat split; [exact Lw|left; reflexivity].
    + exists (-3). rewrite D3. cbn [bind]. specialize (D2 ltac:(lia) ltac:(lia)).
      destruct (i =? 0) eqn:C0; [lia|]. destruct (i =? zlen src) eqn:C1; [lia|].
      repeat split; [exact Lw|right; reflexivity].
Qed.
Lemma encode_url_args src out osize : zlen src < 1 \/ osize < 2 ->
  lcu_url_encode out osize src (zlen src) = Ret (out, -1).
Proof. intro H. unfold lcu_url_encode. destruct ((zlen src <? 1) || (osize <? 2)) eqn:C; [reflexivity|lia]. Qed.

(** ** decoder *)
Lemma ud_hex_ok c : 0 <= c < 256 -> ud_hex (schar c) = hexvalue c.
Proof.
  intro H.
  assert ((match ud_hex (schar c), hexvalue c with Some a, Some b => a =? b | None, None => true | _, _ => false end) = true) as G.
  { revert c H. apply (sweep_ok 256 (fun c => match ud_hex (schar c), hexvalue c with Some a, Some b => a =? b | None, None => true | _, _ => false end)). vm_compute; reflexivity. }
  destruct (ud_hex (schar c)), (hexvalue c); try discriminate; [f_equal; lia|reflexivity].
Qed.
Lemma hexvalue_range c v : hexvalue c = Some v -> 0 <= v < 16.
Proof.
  unfold hexvalue. repeat match goal with |- context[if ?b then _ else _] => destruct b eqn:? end; intro H; inversion H; lia.
Qed.
Lemma combine_ok h l : 0 <= h < 16 -> 0 <= l < 16 -> Z.lor (schar (Z.shiftl h 4 mod 256)) l mod 256 = h * 16 + l.
Proof.
  intros H0 H1. apply Z.eqb_eq. revert h l H0 H1.
  apply (sweep2_ok 16 16 (fun h l => Z.lor (schar (Z.shiftl h 4 mod 256)) l mod 256 =? h * 16 + l)). vm_compute; reflexivity.
Qed.

Lemma url_dec_unfold limit s : url_dec limit s =
  if limit <=? 0 then Some ([], 0)
  else match s with
  | [] => Some ([], 0)
  | c :: s' =>
    if c =? 43 then
      match url_dec (limit - 1) s' with Some (d, k) => Some (32 :: d, k + 1) | None => None end
    else if c =? 37 then
      match s' with
      | h :: l :: s'' =>
        match hexvalue h, hexvalue l with
        | Some hv, Some lv =>
          match url_dec (limit - 1) s'' with Some (d, k) => Some (hv * 16 + lv :: d, k + 3) | None => None end
        | _, _ => None
        end
      | _ => Some ([], 0)
      end
    else if unreserved c then
      match url_dec (limit - 1) s' with Some (d, k) => Some (c :: d, k + 1) | None => None end
    else None
  end.
Proof. destruct s; reflexivity. Qed.

Lemma ud_loop_ok : forall n todo pre suf w o o2,
  Forall is_byte todo -> (length todo <= n)%nat -> 1 <= zlen o ->
  zlen w + zlen o < 9223372036854775808 -> zlen pre + zlen todo < 9223372036854775808 ->
  match url_dec (zlen o - 1) todo with
  | Some (d, k) => exists o', zlen o' = zlen o - zlen d /\ 1 <= zlen o' /\
      ud_loop n (w ++ o ++ o2) (zlen w + zlen o) (pre ++ todo ++ suf) (zlen pre + zlen todo) (zlen pre) (zlen w) =
      Ret ((w ++ d) ++ o' ++ o2, inl (zlen pre + k, zlen (w ++ d)))
  | None => exists w', zlen w' = zlen w + zlen o /\
      ud_loop n (w ++ o ++ o2) (zlen w + zlen o) (pre ++ todo ++ suf) (zlen pre + zlen todo) (zlen pre) (zlen w) =
      Ret (w' ++ o2, inr (-2))
  end.
Proof.
  induction n as [|n IH]; intros todo pre suf w o o2 F L HO HB HP.
  - destruct todo; [|cbn in L; lia]. rewrite url_dec_unfold. change (zlen (@nil Z)) with 0.
    destruct (zlen o - 1 <=? 0) eqn:C; exists o; change (zlen (@nil Z)) with 0;
      (split; [lia|]; split; [lia|]; cbn [ud_loop]; assert ((zlen pre <? zlen pre + 0) = false) as -> by lia;
       cbn [andb]; rewrite Z.add_0_r, !app_nil_r; reflexivity).
  - rewrite url_dec_unfold. cbn [ud_loop].
    pose proof (zlen_nonneg pre) as Np. pose proof (zlen_nonneg todo) as Nt. pose proof (zlen_nonneg w) as Nw.
    rewrite (u64_small (zlen w + zlen o - 1)) by (unfold two64; lia).
    assert (zlen o - 1 <= 0 \/ 0 < zlen o - 1) as [Z0|Z0] by lia.
    { destruct (zlen o - 1 <=? 0) eqn:C; [|lia].
      exists o. change (zlen (@nil Z)) with 0. split; [lia|]. split; [lia|].
      destruct ((zlen pre <? zlen pre + zlen todo) && (zlen w <? zlen w + zlen o - 1)) eqn:C2; [lia|].
      rewrite Z.add_0_r, !app_nil_r. reflexivity. }
    destruct (zlen o - 1 <=? 0) eqn:C; [lia|]. clear C.
    destruct todo as [|c todo].
    { exists o. change (zlen (@nil Z)) with 0. split; [lia|]. split; [lia|].
      assert ((zlen pre <? zlen pre + 0) = false) as -> by lia.
      cbn [andb]; rewrite Z.add_0_r, !app_nil_r; reflexivity. }
    inversion F as [|? ? Bc F']; subst. unfold is_byte in Bc. rewrite zlen_cons in *. pose proof (zlen_nonneg todo) as Nt'.
    assert ((zlen pre <? zlen pre + (1 + zlen todo)) && (zlen w <? zlen w + zlen o - 1) = true) as -> by lia.
    assert (mload (pre ++ (c :: todo) ++ suf) (zlen pre) = Ret c) as M by (cbn [app]; apply mload_app0; reflexivity).
    rewrite M; clear M. cbn [bind]. cbv zeta.
    rewrite !schar_eqb, plain_char_ok, schar_mod by lia.
    (* one consumed prefix [p] of the input, one output byte [x] *)
    assert (R : forall p rest x o1, c :: todo = p ++ rest -> 1 <= zlen p -> zlen o1 = zlen o - 1 ->
      match url_dec (zlen o - 1 - 1) rest with
      | Some (d, k) => exists o', zlen o' = zlen o - zlen (x :: d) /\ 1 <= zlen o' /\
          ud_loop n ((w ++ [x]) ++ o1 ++ o2) (zlen w + zlen o) (pre ++ (c :: todo) ++ suf) (zlen pre + (1 + zlen todo)) (zlen pre + zlen p) (zlen w + 1) =
          Ret ((w ++ x :: d) ++ o' ++ o2, inl (zlen pre + (k + zlen p), zlen (w ++ x :: d)))
      | None => exists w', zlen w' = zlen w + zlen o /\
          ud_loop n ((w ++ [x]) ++ o1 ++ o2) (zlen w + zlen o) (pre ++ (c :: todo) ++ suf) (zlen pre + (1 + zlen todo)) (zlen pre + zlen p) (zlen w + 1) =
          Ret (w' ++ o2, inr (-2))
      end).
    { intros p rest x o1 E1 E2 E3.
      assert (1 + zlen todo = zlen p + zlen rest) as LL by (rewrite <- zlen_cons with (x := c), E1; apply zlen_app).
      assert (Forall is_byte rest) as Fr by (rewrite E1 in F; apply Forall_app in F; apply F).
      specialize (IH rest (pre ++ p) suf (w ++ [x]) o1 o2 Fr).
      rewrite zlen_snoc, zlen_app in IH. rewrite E3 in IH.
      replace (zlen w + 1 + (zlen o - 1)) with (zlen w + zlen o) in IH by lia.
      replace (zlen pre + zlen p + zlen rest) with (zlen pre + (1 + zlen todo)) in IH by lia.
      replace ((pre ++ p) ++ rest ++ suf) with (pre ++ (c :: todo) ++ suf) in IH by (rewrite E1, <- !app_assoc; reflexivity).
      specialize (IH ltac:(cbn in L; unfold zlen in *; lia) ltac:(lia) ltac:(lia) ltac:(lia)).
      destruct (url_dec (zlen o - 1 - 1) rest) as [[d k]|].
      - destruct IH as (o' & I1 & I2 & I3). exists o'. rewrite zlen_cons. split; [lia|]. split; [exact I2|].
        rewrite I3. rewrite <- (app_assoc w [x] d). cbn [app]. replace (zlen pre + (k + zlen p)) with (zlen pre + zlen p + k) by lia. reflexivity.
      - exact IH. }
    destruct (c =? 43) eqn:C43.
    { destruct (mstore_room w o o2 32 ltac:(lia)) as [o1 [S1 S2]]. rewrite S1. cbn [bind].
      specialize (R [c] todo 32 o1 eq_refl ltac:(reflexivity) S2).
      change (zlen [c]) with 1 in R.
      destruct (url_dec (zlen o - 1 - 1) todo) as [[d k]|]; exact R. }
    destruct (c =? 37) eqn:C37.
    { rewrite (u64_small (zlen pre + 3)) by (unfold two64; lia).
      destruct todo as [|h [|l todo]].
      - change (zlen (@nil Z)) with 0. destruct (zlen pre + 3 <=? zlen pre + (1 + 0)) eqn:C; [lia|].
        exists o. split; [lia|]. split; [lia|]. rewrite Z.add_0_r, !app_nil_r. reflexivity.
      - change (zlen [h]) with 1. change (zlen (@nil Z)) with 0. destruct (zlen pre + 3 <=? zlen pre + (1 + 1)) eqn:C; [lia|].
        exists o. split; [lia|]. split; [lia|]. rewrite Z.add_0_r, !app_nil_r. reflexivity.
      - rewrite !zlen_cons in *. pose proof (zlen_nonneg todo).
        destruct (zlen pre + 3 <=? zlen pre + (1 + (1 + (1 + zlen todo)))) eqn:C; [|lia]. clear C.
        inversion F' as [|? ? Bh F1]; subst. inversion F1 as [|? ? Bl F2]; subst. unfold is_byte in Bh, Bl.
        cbn [app]. rewrite (mload_app pre (c :: h :: l :: todo ++ suf) (zlen pre + 1) 1) by lia.
        change (mload (c :: h :: l :: todo ++ suf) 1) with (Ret h). cbn [bind].
        rewrite ud_hex_ok by lia.
        destruct (hexvalue h) as [hv|] eqn:Hh.
        + rewrite (mload_app pre (c :: h :: l :: todo ++ suf) (zlen pre + 2) 2) by lia.
          change (mload (c :: h :: l :: todo ++ suf) 2) with (Ret l). cbn [bind].
          rewrite ud_hex_ok by lia.
          destruct (hexvalue l) as [lv|] eqn:Hl.
          * rewrite combine_ok by (eapply hexvalue_range; eauto).
            destruct (mstore_room w o o2 (hv * 16 + lv) ltac:(lia)) as [o1 [S1 S2]]. rewrite S1. cbn [bind].
            specialize (R [c; h; l] todo (hv * 16 + lv) o1 eq_refl ltac:(vm_compute; congruence) S2).
            change (zlen [c; h; l]) with 3 in R. cbn [app] in R |- *.
            destruct (url_dec (zlen o - 1 - 1) todo) as [[d k]|]; exact R.
          * exists (w ++ o). split; [apply zlen_app|]. rewrite <- app_assoc. reflexivity.
        + exists (w ++ o). split; [apply zlen_app|]. rewrite <- app_assoc. reflexivity. }
    destruct (unreserved c) eqn:U.
    { destruct (mstore_room w o o2 c ltac:(lia)) as [o1 [S1 S2]]. rewrite S1. cbn [bind].
      specialize (R [c] todo c o1 eq_refl ltac:(reflexivity) S2).
      change (zlen [c]) with 1 in R.
      destruct (url_dec (zlen o - 1 - 1) todo) as [[d k]|]; exact R. }
    exists (w ++ o). split; [apply zlen_app|]. rewrite <- app_assoc. reflexivity.
Qed.

Lemma decode_url_lemma src suf out beyond :
  Forall is_byte src -> 1 <= zlen src < 9223372036854775808 -> 2 <= zlen out <= 2147483648 ->
  match url_dec (zlen out - 1) src with
  | Some (d, k) => zlen d + 1 <= zlen out /\ exists rest, zlen rest = zlen out - (zlen d + 1) /\
     lcu_url_decode (out ++ beyond) (zlen out) (src ++ suf) (zlen src) = Ret (d ++ 0 :: rest ++ beyond, zlen d, k)
  | None => exists out', zlen out' = zlen out /\
     lcu_url_decode (out ++ beyond) (zlen out) (src ++ suf) (zlen src) = Ret (out' ++ beyond, -2, 0)
  end.
Proof.
  intros F H1 H2. pose proof (ud_loop_ok (Z.to_nat (zlen src)) src [] suf [] out beyond F) as L.
  unfold lcu_url_decode. destruct ((zlen src <? 1) || (zlen out <? 2)) eqn:C; [lia|].
  cbn [app] in L. change (zlen (@nil Z)) with 0 in L. rewrite !Z.add_0_l in L.
  specialize (L ltac:(unfold zlen; lia) ltac:(lia) ltac:(lia) ltac:(lia)).
  destruct (url_dec (zlen out - 1) src) as [[d k]|].
  - destruct L as (o' & L1 & L2 & L3). rewrite L3. cbn [bind].
    destruct (mstore_room d o' beyond 0 ltac:(lia)) as [o3 [S1 S2]]. rewrite S1. cbn [bind].
    split; [lia|]. exists o3. split; [lia|].
    rewrite s32_small by (pose proof (zlen_nonneg d); unfold two31; lia). rewrite Z.add_0_l, <- app_assoc. reflexivity.
  - destruct L as (w' & L1 & L2). exists w'. rewrite L2. split; [exact L1|reflexivity].
Qed.
Lemma decode_url_args src out osize : zlen src < 1 \/ osize < 2 ->
  lcu_url_decode out osize src (zlen src) = Ret (out, -1, 0).
Proof. intro H. unfold lcu_url_decode. destruct ((zlen src <? 1) || (osize <? 2)) eqn:C; [reflexivity|lia]. Qed.

(** ** round trip of the specification *)
Lemma hexdigit_value d : 0 <= d < 16 -> hexvalue (hexdigit d) = Some d.
Proof.
  intro H. assert (match hexvalue (hexdigit d) with Some v => v =? d | None => false end = true) as G.
  { revert d H. apply (sweep_ok 16 (fun d => match hexvalue (hexdigit d) with Some v => v =? d | None => false end)). vm_compute; reflexivity. }
  destruct (hexvalue (hexdigit d)); [|discriminate]. f_equal; lia.
Qed.
Lemma unreserved_not c : unreserved c = true -> (c =? 43) = false /\ (c =? 37) = false.
Proof. unfold unreserved. lia. Qed.
Lemma url_dec_enc s : forall limit, Forall is_byte s -> zlen s <= limit -> url_dec limit (url_enc s) = Some (s, zlen (url_enc s)).
Proof.
  induction s as [|c s IH]; intros limit F L; rewrite url_dec_unfold.
  - cbn [url_enc]. destruct (limit <=? 0); reflexivity.
  - inversion F as [|? ? Bc F']; subst. unfold is_byte in Bc. rewrite zlen_cons in L. pose proof (zlen_nonneg s).
    destruct (limit <=? 0) eqn:C; [lia|]. cbn [url_enc]. unfold url_enc1.
    destruct (unreserved c) eqn:U.
    + destruct (unreserved_not c U) as [E1 E2]. cbn [app]. rewrite E1, E2, U, IH by (try assumption; lia).
      rewrite zlen_cons. do 2 f_equal. lia.
    + destruct (c =? 32) eqn:Sp.
      * cbn [app]. change (43 =? 43) with true. cbv iota. rewrite IH by (try assumption; lia).
        rewrite zlen_cons. assert (c = 32) as -> by lia. do 2 f_equal. lia.
      * cbn [app]. change (37 =? 43) with false. change (37 =? 37) with true. cbv iota.
        rewrite !hexdigit_value by lia. rewrite IH by (try assumption; lia). rewrite !zlen_cons.
        do 2 f_equal; [f_equal; lia|lia].
Qed.
Lemma url_enc_len s : zlen (url_enc s) <= 3 * zlen s.
Proof.
  induction s as [|c s IH]; [reflexivity|]. cbn [url_enc]. rewrite zlen_app, zlen_cons.
  assert (zlen (url_enc1 c) <= 3); [|lia]. unfold url_enc1.
  destruct (unreserved c); [vm_compute; congruence|]. destruct (c =? 32); vm_compute; congruence.
Qed.
Lemma url_enc_pos s : 1 <= zlen s -> 1 <= zlen (url_enc s).
Proof.
  destruct s as [|c s]; [change (zlen (@nil Z)) with 0; lia|]. intros _. cbn [url_enc]. rewrite zlen_app.
  pose proof (zlen_nonneg (url_enc s)). assert (1 <= zlen (url_enc1 c)); [|lia].
  unfold url_enc1. destruct (unreserved c); [vm_compute; congruence|]. destruct (c =? 32); vm_compute; congruence.
Qed.
Lemma url_enc_bytes s : Forall is_byte s -> Forall is_byte (url_enc s).
Proof.
  induction 1 as [|c s Bc F IH]; [constructor|]. cbn [url_enc]. apply Forall_app. split; [|exact IH].
  unfold url_enc1, is_byte in *. destruct (unreserved c); [repeat constructor; lia|].
  destruct (c =? 32); [repeat constructor; lia|].
  repeat constructor; unfold hexdigit; repeat match goal with |- context[if ?b then _ else _] => destruct b eqn:? end; lia.
Qed.
Lemma url_round_trip src out1 out2 : Forall is_byte src -> 1 <= zlen src < 715827882 ->
  3 * zlen src + 1 <= zlen out1 < 9223372036854775808 -> zlen src + 1 <= zlen out2 <= 2147483648 ->
  exists enc rest1 rest2,
    enc = url_enc src /\ lcu_url_encode out1 (zlen out1) src (zlen src) = Ret (enc ++ 0 :: rest1, zlen enc) /\
    lcu_url_decode out2 (zlen out2) (enc ++ 0 :: rest1) (zlen enc) = Ret (src ++ 0 :: rest2, zlen src, zlen enc).
Proof.
  intros F H1 H2 H3. pose proof (url_enc_len src). pose proof (url_enc_pos src ltac:(lia)).
  destruct (encode_url_lemma src [] out1 [] F) as [E _]; try lia.
  destruct (E ltac:(lia)) as [r1 [_ R1]]. rewrite !app_nil_r in R1.
  pose proof (decode_url_lemma (url_enc src) (0 :: r1) out2 [] (url_enc_bytes src F) ltac:(lia) ltac:(lia)) as D.
  rewrite url_dec_enc in D by (try exact F; lia). destruct D as [_ [r2 [_ R2]]]. rewrite !app_nil_r in R2.
  exists (url_enc src), r1, r2. split; [reflexivity|]. split; assumption.
Qed.

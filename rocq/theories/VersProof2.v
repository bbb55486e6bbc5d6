From Verif Require Import CBase VersModel VersSpec VersProof.

(** the key of a prefix that ends with a non-digit does not depend on what follows *)
Fixpoint keyp (s : kst) (l : list Z) : list Z * kst :=
  match l with [] => ([], s) | c :: l' => let r := keyp (snd (kstep s c l')) l' in (fst (kstep s c l') ++ fst r, snd r) end.
Lemma ndig_plain q c u : digit c = false -> ndig (q ++ c :: u) = ndig (q ++ [c]).
Proof. intros C. induction q as [|x q IH]; cbn; [rewrite C; reflexivity|]. rewrite IH. reflexivity. Qed.
Lemma key_prefix c u : digit c = false -> forall q s, key s (q ++ c :: u) = fst (keyp s (q ++ [c])) ++ key KN u.
Proof.
  intros C. induction q as [|x q IH]; intros s.
  - assert (K : kstep s c u = ([c], KN)). { destruct s; cbn; rewrite ?C; [destruct (c =? 48) eqn:E; [unfold digit in C; lia | reflexivity] | reflexivity | reflexivity]. }
    assert (K' : kstep s c [] = ([c], KN)). { destruct s; cbn; rewrite ?C; [destruct (c =? 48) eqn:E; [unfold digit in C; lia | reflexivity] | reflexivity | reflexivity]. }
    cbn [app key keyp]. rewrite K, K'. reflexivity.
  - assert (K : kstep s x (q ++ c :: u) = kstep s x (q ++ [c])) by (destruct s; cbn; rewrite ?ndig_plain by exact C; reflexivity).
    cbn [app key keyp]. rewrite K, IH. cbn [fst]. rewrite app_assoc. reflexivity.
Qed.
Lemma key_common q u v : ends_plain q -> lexc (key KN (q ++ u)) (key KN (q ++ v)) = lexc (key KN u) (key KN v).
Proof.
  intros [->|(r & c & -> & C)]; [reflexivity|]. rewrite <- !app_assoc. cbn [app]. rewrite !key_prefix by exact C. apply lexc_app.
Qed.

Lemma sgn_hd x y : asc0 x -> asc0 y -> Z.sgn (x - y) = Z.sgn (x - y). Proof. reflexivity. Qed.
(** in the tail of a number the next byte decides *)
Lemma key_hd_T x : exists r, key KT x = hd 0 x :: r.
Proof. destruct x as [|c x]; [exists []; reflexivity|]. cbn. destruct (digit c); eexists; reflexivity. Qed.
Lemma cmp_T x y : hd 0 x <> hd 0 y -> lexc (key KT x) (key KT y) = Z.sgn (hd 0 x - hd 0 y).
Proof. intros N. destruct (key_hd_T x) as (r & ->), (key_hd_T y) as (r' & ->). apply lexc_ne, N. Qed.
Lemma key_T_common d x y : alld d -> hd 0 x <> hd 0 y -> lexc (key KT (d ++ x)) (key KT (d ++ y)) = Z.sgn (hd 0 x - hd 0 y).
Proof.
  intros D N. induction d as [|c d IH]; [apply cmp_T, N|]. cbn [app key kstep]. rewrite (D c (or_introl eq_refl)). cbn [fst snd app]. rewrite lexc_cons. apply IH. intros y' Y. apply D. right. exact Y.
Qed.
Lemma key_hd_Z x : exists r, key KZ x = (if digit (hd 0 x) then hd 0 x - 100 else hd 0 x) :: r.
Proof. destruct x as [|c x]; [exists []; reflexivity|]. cbn [key kstep hd]. destruct (digit c); eexists; reflexivity. Qed.
Definition zdec (x y : list Z) : Z := let dx := digit (hd 0 x) in let dy := digit (hd 0 y) in if dx then (if dy then hd 0 x - hd 0 y else -1) else (if dy then 1 else hd 0 x - hd 0 y).
Lemma cmp_Z x y : ascii x -> ascii y -> hd 0 x <> hd 0 y -> lexc (key KZ x) (key KZ y) = Z.sgn (zdec x y).
Proof.
  intros A B N. pose proof (hd_asc x A). pose proof (hd_asc y B). unfold asc0 in *. destruct (key_hd_Z x) as (r & ->), (key_hd_Z y) as (r' & ->). unfold zdec. destruct (digit (hd 0 x)) eqn:E, (digit (hd 0 y)) eqn:F; unfold digit in *; rewrite lexc_ne by lia; try (f_equal; lia); rewrite ?Z.sgn_neg, ?Z.sgn_pos by lia; reflexivity.
Qed.
(** after the first zeros *)
Lemma key_Z_common d x y : alld d -> ascii (d ++ x) -> ascii (d ++ y) -> hd 0 x <> hd 0 y ->
  let u := d ++ x in let v := d ++ y in let n := zrun u v in
  let dx := digit (hd 0 (skipn n u)) in let dy := digit (hd 0 (skipn n v)) in
  lexc (key KZ u) (key KZ v) = Z.sgn (if dx then (if dy then hd 0 x - hd 0 y else -1) else (if dy then 1 else hd 0 x - hd 0 y)).
Proof.
  cbv zeta. intros D A B N. induction d as [|c d IH].
  - cbn [app] in *. assert (Z0 : zrun x y = 0%nat). { destruct x as [|a x], y as [|b y]; try reflexivity. cbn in N |- *. replace (a =? b) with false by lia. rewrite andb_false_r. reflexivity. } rewrite Z0. cbn [skipn]. apply cmp_Z; assumption.
  - assert (Dc : digit c = true) by (apply D; left; reflexivity). cbn [app] in *. apply ascii_cons in A, B. destruct A as (A0 & A), B as (B0 & B). assert (D' : alld d) by (intros y' Y; apply D; right; exact Y).
    cbn [key kstep zrun]. rewrite Dc, Z.eqb_refl, andb_true_r. cbn [fst snd app]. rewrite lexc_cons. destruct (c =? 48) eqn:C; [apply IH; assumption|]. cbn [skipn hd]. rewrite Dc. apply key_T_common; assumption.
Qed.
Lemma ndig_app d x : alld d -> ndig (d ++ x) = Z.of_nat (length d) + ndig x.
Proof. induction d as [|c d IH]; intros D; cbn [app ndig length]; [lia|]. rewrite (D c (or_introl eq_refl)), IH by (intros y Y; apply D; right; exact Y). lia. Qed.
Lemma decide_key d x y : alld d -> ascii (d ++ x) -> ascii (d ++ y) -> hd 0 x <> hd 0 y -> Z.sgn (decide d x y) = lexc (key KN (d ++ x)) (key KN (d ++ y)).
Proof.
  intros D A B N. destruct d as [|c d].
  - cbn [app] in *. pose proof (hd_asc x A) as Hx. pose proof (hd_asc y B) as Hy. unfold asc0 in *. unfold decide. cbn [app].
    assert (Z0 : zrun x y = 0%nat). { destruct x as [|a x], y as [|b y]; try reflexivity. cbn in N |- *. replace (a =? b) with false by lia. rewrite andb_false_r. reflexivity. } rewrite Z0. cbn [skipn].
    assert (K : forall z, exists r, key KN z = (if hd 0 z =? 48 then [-1] else if digit (hd 0 z) then [48; ndig z; hd 0 z] else [hd 0 z]) ++ r).
    { intros z. destruct z as [|e z]; [exists []; reflexivity|]. cbn [key kstep hd ndig]. destruct (e =? 48); [eexists; reflexivity|]. destruct (digit e); eexists; reflexivity. }
    destruct (K x) as (r & ->), (K y) as (r' & ->). destruct (hd 0 x =? 48) eqn:E1, (hd 0 y =? 48) eqn:E2; cbn [orb]; try lia.
    + destruct (digit (hd 0 x)) eqn:F1, (digit (hd 0 y)) eqn:F2; unfold digit in F1, F2; try lia; cbn [app]; rewrite lexc_ne by lia; rewrite !Z.sgn_neg by lia; reflexivity.
    + destruct (digit (hd 0 x)) eqn:F1, (digit (hd 0 y)) eqn:F2; unfold digit in F1, F2; try lia; cbn [app]; rewrite lexc_ne by lia; rewrite !Z.sgn_pos by lia; reflexivity.
    + destruct (digit (hd 0 x)) eqn:F1, (digit (hd 0 y)) eqn:F2; cbn [app].
      * rewrite lexc_cons. destruct (ndig x <? ndig y) eqn:G1; [rewrite lexc_ne by lia; rewrite !Z.sgn_neg by lia; reflexivity|]. destruct (ndig y <? ndig x) eqn:G2; [rewrite lexc_ne by lia; rewrite !Z.sgn_pos by lia; reflexivity|].
        replace (ndig y) with (ndig x) by lia. rewrite lexc_cons, lexc_ne by lia. reflexivity.
      * unfold digit in *. rewrite lexc_ne by lia. destruct (Z.lt_ge_cases (hd 0 y) 48); [rewrite !Z.sgn_pos by lia | rewrite !Z.sgn_neg by lia]; reflexivity.
      * unfold digit in *. rewrite lexc_ne by lia. destruct (Z.lt_ge_cases (hd 0 x) 48); [rewrite !Z.sgn_neg by lia | rewrite !Z.sgn_pos by lia]; reflexivity.
      * rewrite lexc_ne by lia. reflexivity.
  - assert (Dc : digit c = true) by (apply D; left; reflexivity). assert (D' : alld d) by (intros y' Y; apply D; right; exact Y). unfold decide. cbn [app] in *. cbn [hd]. rewrite orb_diag. apply ascii_cons in A, B. destruct A as (A0 & A), B as (B0 & B).
    destruct (c =? 48) eqn:C.
    + cbn [key kstep zrun]. rewrite C, Z.eqb_refl. cbn [andb fst snd app skipn]. rewrite lexc_cons. symmetry. apply key_Z_common; assumption.
    + rewrite Dc. cbn [key kstep ndig]. rewrite C, Dc. cbn [fst snd app]. rewrite lexc_cons. destruct (1 + ndig (d ++ x) <? 1 + ndig (d ++ y)) eqn:G1; [rewrite lexc_ne by lia; rewrite !Z.sgn_neg by lia; reflexivity|]. destruct (1 + ndig (d ++ y) <? 1 + ndig (d ++ x)) eqn:G2; [rewrite lexc_ne by lia; rewrite !Z.sgn_pos by lia; reflexivity|].
      replace (ndig (d ++ y)) with (ndig (d ++ x)) by lia. rewrite !lexc_cons. symmetry. apply key_T_common; assumption.
Qed.
Lemma decide_nz d x y : ascii x -> ascii y -> hd 0 x <> hd 0 y -> decide d x y <> 0.
Proof.
  intros A B N. unfold decide. repeat match goal with |- (if ?b then _ else _) <> 0 => destruct b end; cbn; lia.
Qed.
Theorem verscmp_key a b : ascii a -> ascii b -> exists r, strverscmp a b = Ret r /\ Z.sgn r = lexc (key KN a) (key KN b) /\ (r = 0 <-> a = b).
Proof.
  intros A B. destruct (diff_cases a b) as [->|(p & x & y & -> & -> & Dd)].
  - exists 0. split; [|split; [rewrite lexc_refl; reflexivity | tauto]]. unfold strverscmp. pose proof (first_diff_eq (S (S (length b + length b))) [] b B ltac:(lia)) as F. cbn [app length] in F. rewrite F. reflexivity.
  - destruct (split_digits p) as (q & d & -> & D & E). rewrite <- !app_assoc in *. assert (N : hd 0 x <> hd 0 y). { apply ascii_app in A, B. destruct A as (_ & A), B as (_ & B). apply ascii_app in A, B. apply hd_diff; tauto. }
    exists (decide d x y). split; [apply strverscmp_ok; assumption|]. apply ascii_app in A, B. split.
    + rewrite key_common by exact E. apply decide_key; tauto.
    + split; [intros Z0; exfalso; revert Z0; destruct A as (_ & A), B as (_ & B); apply ascii_app in A, B; apply decide_nz; tauto|].
      intros Q. exfalso. apply N. apply app_inv_head in Q. apply app_inv_head in Q. congruence.
Qed.

(** ** numbers *)
Lemma value_snoc d c : value (d ++ [c]) = 10 * value d + (c - 48).
Proof. unfold value. rewrite fold_left_app. reflexivity. Qed.
Lemma value_bound d : alld d -> 0 <= value d < 10 ^ Z.of_nat (length d).
Proof.
  induction d as [|c d IH] using rev_ind; intros D; [cbn; lia|]. rewrite value_snoc, app_length. cbn [length]. rewrite Nat.add_1_r, Nat2Z.inj_succ, Z.pow_succ_r by lia.
  assert (digit c = true) by (apply D, in_or_app; right; left; reflexivity). assert (alld d) by (intros y Y; apply D, in_or_app; auto). specialize (IH H0). unfold digit in H. lia.
Qed.
Lemma value_cons c d : value (c :: d) = (c - 48) * 10 ^ Z.of_nat (length d) + value d.
Proof.
  induction d as [|x d IH] using rev_ind; [unfold value; cbn; lia|]. rewrite app_comm_cons, !value_snoc, IH, app_length. cbn [length]. rewrite Nat.add_1_r, Nat2Z.inj_succ, Z.pow_succ_r by lia. lia.
Qed.
Lemma value_lead d : numeral d -> 10 ^ (Z.of_nat (length d) - 1) <= value d.
Proof.
  intros (N & D & H). destruct d as [|c d]; [congruence|]. cbn [hd] in H. rewrite value_cons. cbn [length]. rewrite Nat2Z.inj_succ. replace (Z.succ (Z.of_nat (length d)) - 1) with (Z.of_nat (length d)) by lia.
  assert (digit c = true) by (apply D; left; reflexivity). pose proof (value_bound d ltac:(intros y Y; apply D; right; exact Y)). unfold digit in *. pose proof (Z.pow_nonneg 10 (Z.of_nat (length d)) ltac:(lia)). nia.
Qed.
Lemma value_lex d1 : forall d2 r1 r2, alld d1 -> alld d2 -> length d1 = length d2 -> value d1 < value d2 -> lexc (d1 ++ r1) (d2 ++ r2) = -1.
Proof.
  induction d1 as [|c d1 IH]; intros [|e d2] r1 r2 D1 D2 L V; cbn in L; try lia.
  rewrite !value_cons in V. injection L as L. rewrite L in V. cbn [app]. assert (B1 : alld d1) by (intros y Y; apply D1; right; exact Y). assert (B2 : alld d2) by (intros y Y; apply D2; right; exact Y).
  pose proof (value_bound d1 B1) as V1. pose proof (value_bound d2 B2) as V2. rewrite L in V1. pose proof (Z.pow_nonneg 10 (Z.of_nat (length d2)) ltac:(lia)).
  destruct (Z.lt_trichotomy c e) as [X|[->|X]]; [rewrite lexc_ne by lia; rewrite Z.sgn_neg by lia; reflexivity | rewrite lexc_cons; apply IH; auto; lia | nia].
Qed.
Lemma ndig_plain0 x : starts_plain x -> ndig x = 0.
Proof. destruct x; cbn; [reflexivity|]. unfold starts_plain. cbn. intros ->. reflexivity. Qed.
Lemma key_T_digits d x : alld d -> exists r, key KT (d ++ x) = d ++ r.
Proof. induction d as [|c d IH]; intros D; [eexists; reflexivity|]. destruct IH as (r & E); [intros y Y; apply D; right; exact Y|]. exists r. cbn [app key kstep]. rewrite (D c (or_introl eq_refl)). cbn [fst snd app]. rewrite E. reflexivity. Qed.
Lemma key_numeral d x : numeral d -> starts_plain x -> exists r, key KN (d ++ x) = 48 :: Z.of_nat (length d) :: d ++ r.
Proof.
  intros (N & D & H) P. destruct d as [|c d]; [congruence|]. cbn [hd] in H. assert (B : alld d) by (intros y Y; apply D; right; exact Y). destruct (key_T_digits d x B) as (r & E). exists r.
  cbn [app key kstep]. replace (c =? 48) with false by lia. rewrite (D c (or_introl eq_refl)). cbn [fst snd app]. rewrite E, ndig_app, ndig_plain0 by assumption. f_equal. f_equal. cbn [length]. lia.
Qed.
Lemma number_order p d1 d2 x y : ends_plain p -> numeral d1 -> numeral d2 -> starts_plain x -> starts_plain y -> value d1 < value d2 -> lexc (key KN (p ++ d1 ++ x)) (key KN (p ++ d2 ++ y)) = -1.
Proof.
  intros P N1 N2 X Y V. rewrite key_common by exact P. destruct (key_numeral d1 x N1 X) as (r1 & ->), (key_numeral d2 y N2 Y) as (r2 & ->). rewrite lexc_cons. pose proof (value_lead d2 N2) as L2. pose proof (value_lead d1 N1) as L1. destruct N1 as (_ & D1 & _), N2 as (_ & D2 & _). pose proof (value_bound d1 D1). pose proof (value_bound d2 D2).
  destruct (Nat.lt_trichotomy (length d1) (length d2)) as [G|[G|G]].
  - rewrite lexc_ne by lia. rewrite Z.sgn_neg by lia. reflexivity.
  - rewrite G, lexc_cons. apply value_lex; auto.
  - exfalso. assert (10 ^ Z.of_nat (length d2) <= 10 ^ (Z.of_nat (length d1) - 1)) by (apply Z.pow_le_mono_r; lia). lia.
Qed.
(** names without digits *)
Lemma plain_key a : (forall c, In c a -> digit c = false) -> key KN a = a ++ [0].
Proof.
  induction a as [|c a IH]; intros D; [reflexivity|]. cbn [key kstep]. assert (digit c = false) by (apply D; left; reflexivity). destruct (c =? 48) eqn:E; [unfold digit in H; lia|]. rewrite H. cbn. rewrite IH; [reflexivity|]. intros x X. apply D. right. exact X.
Qed.
Lemma dict_lex a : forall b, ascii a -> ascii b -> lexc (a ++ [0]) (b ++ [0]) = dict a b.
Proof.
  induction a as [|x a IH]; intros [|y b] A B; cbn [app dict]; [reflexivity| | |].
  - apply ascii_cons in B. rewrite lexc_ne by lia. rewrite Z.sgn_neg by lia. reflexivity.
  - apply ascii_cons in A. rewrite lexc_ne by lia. rewrite Z.sgn_pos by lia. reflexivity.
  - apply ascii_cons in A, B. destruct (x =? y) eqn:E; [apply Z.eqb_eq in E; subst; rewrite lexc_cons; apply IH; tauto|]. apply lexc_ne. lia.
Qed.

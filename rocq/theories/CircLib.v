(** Circular-buffer algebra shared by the two ring implementations (proof library only,
    nothing of /repo is modelled here). *)
From Verif Require Import CBase.

Section Circ.
Context {A : Type}.
Implicit Types buf src : list A.

(** the [n] elements found from index [start] on, going around the end *)
Definition circ buf (start n : Z) : list A := zsub start n (buf ++ buf).
(** the two-part copy into the ring at index [p] *)
Definition cwrite buf (p : Z) src : list A :=
  let f := Z.min (zlen src) (zlen buf - p) in
  zwrite 0 (zdrop f src) (zwrite p (ztake f src) buf).

Lemma zlen_circ buf s n : 0 <= s <= zlen buf -> 0 <= n <= zlen buf -> zlen (circ buf s n) = n.
Proof. intros; unfold circ; apply zlen_zsub; rewrite ?zlen_app; lia. Qed.

Lemma mod_step a b : 0 < b -> 0 <= a < 2 * b -> a mod b = if a <? b then a else a - b.
Proof.
  intros Hb Ha. destruct (a <? b) eqn:E.
  - apply Z.mod_small; lia.
  - symmetry; apply Z.mod_unique with 1; lia.
Qed.

Lemma znth_circ buf s n i : 0 <= s < zlen buf -> 0 <= i < n -> n <= zlen buf ->
  znth i (circ buf s n) = znth ((s + i) mod zlen buf) buf.
Proof.
  intros Hs Hi Hn. unfold circ. rewrite znth_zsub by lia. rewrite znth_app, mod_step by lia.
  destruct (s + i <? zlen buf) eqn:E; reflexivity.
Qed.

Lemma circ_two_parts buf s n : 0 <= s < zlen buf -> 0 <= n <= zlen buf ->
  circ buf s n = zsub s (Z.min n (zlen buf - s)) buf
                 ++ zsub 0 (n - Z.min n (zlen buf - s)) buf.
Proof.
  intros Hs Hn. set (f := Z.min n (zlen buf - s)).
  apply zlist_ext.
  - rewrite zlen_circ, zlen_app, !zlen_zsub by lia. lia.
  - rewrite zlen_circ by lia. intros i Hi.
    unfold circ. rewrite znth_zsub by lia. rewrite znth_app.
    rewrite (znth_app i (zsub s f buf)), zlen_zsub by lia.
    destruct (i <? f) eqn:E1; destruct (s + i <? zlen buf) eqn:E2; try lia.
    + rewrite znth_zsub by lia. reflexivity.
    + rewrite znth_zsub by lia. f_equal; lia.
Qed.

Lemma ztake_circ buf s n k : 0 <= k <= n -> ztake k (circ buf s n) = circ buf s k.
Proof. intros; unfold circ, zsub. rewrite ztake_ztake. f_equal; lia. Qed.

Lemma zdrop_circ buf s n k : 0 <= s < zlen buf -> 0 <= k <= n -> n <= zlen buf ->
  zdrop k (circ buf s n) = circ buf ((s + k) mod zlen buf) (n - k).
Proof.
  intros Hs Hk Hn.
  assert (0 <= (s + k) mod zlen buf < zlen buf) by (apply Z.mod_pos_bound; lia).
  apply zlist_ext.
  - rewrite zlen_zdrop, !zlen_circ; rewrite ?zlen_circ; lia.
  - rewrite zlen_zdrop, zlen_circ by (rewrite ?zlen_circ; lia). intros i Hi.
    rewrite znth_zdrop by lia. rewrite !znth_circ by lia. f_equal.
    rewrite Zplus_mod_idemp_l. f_equal; lia.
Qed.

Lemma zlen_cwrite buf p src : 0 <= p < zlen buf -> zlen src <= zlen buf -> zlen (cwrite buf p src) = zlen buf.
Proof.
  intros Hp Hs. pose proof (zlen_nonneg src). unfold cwrite.
  set (f := Z.min (zlen src) (zlen buf - p)).
  assert (zlen (zwrite p (ztake f src) buf) = zlen buf) as L.
  { apply zlen_zwrite; rewrite ?zlen_ztake; lia. }
  rewrite zlen_zwrite; rewrite ?L; rewrite ?zlen_zdrop; lia.
Qed.

Lemma znth_cwrite buf p src i : 0 <= p < zlen buf -> zlen src <= zlen buf -> 0 <= i < zlen buf ->
  znth i (cwrite buf p src) =
  if (i - p) mod zlen buf <? zlen src then znth ((i - p) mod zlen buf) src else znth i buf.
Proof.
  intros Hp Hs Hi. pose proof (zlen_nonneg src). unfold cwrite.
  set (f := Z.min (zlen src) (zlen buf - p)).
  assert (zlen (zwrite p (ztake f src) buf) = zlen buf) as L.
  { apply zlen_zwrite; rewrite ?zlen_ztake; lia. }
  assert (zlen (ztake f src) = f) as Lf by (apply zlen_ztake; lia).
  assert (zlen (zdrop f src) = zlen src - f) as Lr by (apply zlen_zdrop; lia).
  rewrite znth_zwrite, Lr by (rewrite ?L, ?Lr; lia).
  rewrite znth_zwrite, Lf by (rewrite ?Lf; lia).
  assert ((i - p) mod zlen buf = if p <=? i then i - p else i - p + zlen buf) as M.
  { destruct (p <=? i) eqn:E; [apply Z.mod_small; lia|].
    symmetry; apply Z.mod_unique with (-1); lia. }
  rewrite M.
  destruct ((0 <=? i) && (i <? 0 + (zlen src - f))) eqn:E1.
  - destruct (p <=? i) eqn:E2; [lia|].
    destruct (i - p + zlen buf <? zlen src) eqn:E3; [|lia].
    rewrite znth_zdrop by lia. f_equal; lia.
  - destruct ((p <=? i) && (i <? p + f)) eqn:E4.
    + destruct (p <=? i) eqn:E2; [|lia]. destruct (i - p <? zlen src) eqn:E3; [|lia].
      apply znth_ztake; lia.
    + destruct (p <=? i) eqn:E2.
      * destruct (i - p <? zlen src) eqn:E3; [lia|reflexivity].
      * destruct (i - p + zlen buf <? zlen src) eqn:E3; [lia|reflexivity].
Qed.

Lemma circ_cwrite buf s n src : 0 <= s < zlen buf -> 0 <= n -> n + zlen src <= zlen buf ->
  circ (cwrite buf ((s + n) mod zlen buf) src) s (n + zlen src) = circ buf s n ++ src.
Proof.
  intros Hs Hn Hc. pose proof (zlen_nonneg src).
  set (b := zlen buf) in *. set (p := (s + n) mod b).
  assert (0 <= p < b) as Hp by (apply Z.mod_pos_bound; lia).
  assert (zlen (cwrite buf p src) = b) as Lw by (apply zlen_cwrite; lia).
  apply zlist_ext.
  - rewrite zlen_circ, zlen_app, zlen_circ; lia.
  - rewrite zlen_circ by lia. intros i Hi.
    rewrite znth_circ by lia. rewrite Lw.
    assert (0 <= (s + i) mod b < b) as Hm by (apply Z.mod_pos_bound; lia).
    rewrite znth_cwrite by lia. fold b.
    rewrite znth_app, zlen_circ by lia.
    assert (((s + i) mod b - p) mod b = (i - n) mod b) as M.
    { unfold p. rewrite <- Zminus_mod. f_equal; lia. }
    rewrite M. destruct (i <? n) eqn:E.
    + assert ((i - n) mod b = i - n + b) as M2 by (symmetry; apply Z.mod_unique with (-1); lia).
      rewrite M2. destruct (i - n + b <? zlen src) eqn:E2; [lia|].
      rewrite znth_circ by lia. reflexivity.
    + rewrite Z.mod_small by lia. destruct (i - n <? zlen src) eqn:E2; [|lia]. f_equal; lia.
Qed.
End Circ.

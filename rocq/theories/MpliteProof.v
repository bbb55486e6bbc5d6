From Verif Require Import CBase SeqLib MpliteModel.

(** ** ints in memory *)
Lemma zlen_le4 v : zlen (le4 v) = 4. Proof. reflexivity. Qed.
Lemma load_ext m m' off : zlen m = zlen m' -> (forall k, 0 <= k < 4 -> znth (off + k) m = znth (off + k) m') -> load_int m off = load_int m' off.
Proof.
  intros L E. unfold load_int, mread. rewrite L. destruct ((0 <=? off) && (0 <=? 4) && (off + 4 <=? zlen m')) eqn:R; [|reflexivity].
  assert (zsub off 4 m = zsub off 4 m') as ->; [|reflexivity].
  apply zlist_ext; [rewrite !zlen_zsub by lia; reflexivity|]. intros i Hi. rewrite zlen_zsub in Hi by lia. rewrite !znth_zsub by lia. apply E. lia.
Qed.
Lemma s32_le v : - two31 <= v < two31 ->
  s32 (u32 v mod 256 + 256 * (u32 v / 256 mod 256) + 65536 * (u32 v / 65536 mod 256) + 16777216 * (u32 v / 16777216)) = v.
Proof.
  intro R. assert (0 <= u32 v < two32) by (unfold u32; apply Z.mod_pos_bound; reflexivity).
  replace (u32 v mod 256 + 256 * (u32 v / 256 mod 256) + 65536 * (u32 v / 65536 mod 256) + 16777216 * (u32 v / 16777216)) with (u32 v).
  - unfold s32, u32, two31, two32 in *. lia.
  - generalize dependent (u32 v). intros u U. unfold two32 in U. lia.
Qed.
Lemma load_store m off v : - two31 <= v < two31 -> 0 <= off -> off + 4 <= zlen m ->
  exists m', store_int m off v = Ret m' /\ zlen m' = zlen m /\ load_int m' off = Ret v /\
    (forall a, a < off \/ off + 4 <= a -> znth a m' = znth a m).
Proof.
  intros R O L. unfold store_int. rewrite mwrite_ok by (rewrite ?zlen_le4; lia). eexists. split; [reflexivity|].
  assert (LZ : zlen (zwrite off (le4 v) m) = zlen m) by (apply zlen_zwrite; rewrite ?zlen_le4; lia).
  split; [exact LZ|]. split.
  - unfold load_int. rewrite mread_ok by lia. cbn [bind].
    assert (zsub off 4 (zwrite off (le4 v) m) = le4 v) as ->.
    { apply zlist_ext; [rewrite zlen_zsub by lia; reflexivity|]. intros i Hi. rewrite zlen_zsub in Hi by lia.
      rewrite znth_zsub, znth_zwrite by (rewrite ?zlen_le4; lia). rewrite zlen_le4.
      destruct ((off <=? off + i) && (off + i <? off + 4)) eqn:E; [|lia]. f_equal. lia. }
    unfold le4. rewrite s32_le by exact R. reflexivity.
  - intros a A. destruct (Z.ltb_spec a 0).
    + rewrite !(proj2 (znth_None_iff _ _)) by lia. reflexivity.
    + rewrite znth_zwrite by (rewrite ?zlen_le4; lia). rewrite zlen_le4. destruct ((off <=? a) && (a <? off + 4)) eqn:E; [lia|reflexivity].
Qed.

(** ** doubly linked segments *)
Fixpoint dseg (nx pv : Z -> outcome Z) (p : Z) (l : list Z) (q : Z) : Prop :=
  match l with [] => True | i :: r => nx i = Ret (hd q r) /\ pv i = Ret p /\ dseg nx pv i r q end.
Lemma hd_app (q : Z) a b : hd q (a ++ b) = hd (hd q b) a. Proof. destruct a; reflexivity. Qed.
Lemma dseg_app nx pv a : forall p b q, dseg nx pv p (a ++ b) q <-> dseg nx pv p a (hd q b) /\ dseg nx pv (last a p) b q.
Proof.
  induction a as [|x a IH]; intros p b q; [cbn; tauto|]. cbn [app dseg]. rewrite hd_app, IH.
  assert (last (x :: a) p = last a x) as ->; [|tauto]. clear. revert x p; induction a as [|y a IH]; intros x p; [reflexivity|].
  change (last (x :: y :: a) p) with (last (y :: a) p). rewrite IH, <- IH with (p := x). reflexivity.
Qed.
Lemma dseg_ext nx pv nx' pv' l : forall p q, (forall i, In i l -> nx' i = nx i /\ pv' i = pv i) -> dseg nx pv p l q -> dseg nx' pv' p l q.
Proof.
  induction l as [|x l IH]; intros p q E D; [exact I|]. destruct D as (A & B & C). destruct (E x (or_introl eq_refl)) as [E1 E2].
  cbn [dseg]. rewrite E1, E2. split; [exact A|]. split; [exact B|]. apply IH; [|exact C]. intros i Hi. apply E. right; exact Hi.
Qed.

(** ** tilings by aligned blocks *)
Inductive st := Free | Live | Held.
Definition leaves := Z -> option (Z * st).
Definition upd {A} (f : Z -> A) (i : Z) (x : A) : Z -> A := fun j => if j =? i then x else f j.
Lemma upd_eq {A} (f : Z -> A) i x : upd f i x i = x. Proof. unfold upd. rewrite Z.eqb_refl. reflexivity. Qed.
Lemma upd_ne {A} (f : Z -> A) i x j : j <> i -> upd f i x j = f j.
Proof. intro N. unfold upd. destruct (j =? i) eqn:E; [lia|reflexivity]. Qed.
Ltac upd_case j i := destruct (Z.eq_dec j i) as [?E|?N]; [subst j; rewrite ?upd_eq in *|rewrite ?(upd_ne _ i _ j) in * by assumption].

Definition buddy (L i : Z) : Z := if Z.odd (i / 2 ^ L) then i - 2 ^ L else i + 2 ^ L.
Record tiling (n : Z) (lf : leaves) : Prop := {
  t_leaf : forall i L s, lf i = Some (L, s) -> 0 <= L <= 30 /\ 0 <= i /\ (2 ^ L | i) /\ i + 2 ^ L <= n;
  t_disj : forall i L s j M t, lf i = Some (L, s) -> lf j = Some (M, t) -> i <> j -> i + 2 ^ L <= j \/ j + 2 ^ M <= i;
  t_cov : forall a, 0 <= a < n -> exists i L s, lf i = Some (L, s) /\ i <= a < i + 2 ^ L }.

Lemma pow_pos L : 0 <= L -> 0 < 2 ^ L. Proof. intro; apply Z.pow_pos_nonneg; lia. Qed.
Lemma pow_S L : 0 <= L -> 2 ^ (L + 1) = 2 * 2 ^ L. Proof. intro. rewrite Z.pow_add_r by lia. rewrite Z.pow_1_r. lia. Qed.
Lemma nest i L j M x : 0 <= M <= L -> (2 ^ L | i) -> (2 ^ M | j) -> i <= x < i + 2 ^ L -> j <= x < j + 2 ^ M -> i <= j /\ j + 2 ^ M <= i + 2 ^ L.
Proof.
  intros R [a A] [b B] X1 X2. pose proof (pow_pos M ltac:(lia)). pose proof (pow_pos (L - M) ltac:(lia)).
  assert (2 ^ L = 2 ^ (L - M) * 2 ^ M) as E by (rewrite <- Z.pow_add_r by lia; f_equal; lia).
  set (u := 2 ^ M) in *. set (w := 2 ^ (L - M)) in *. rewrite E in *. subst i j. 
  assert (a * w < b + 1) by nia. assert (b < a * w + w) by nia. nia.
Qed.
Lemma odd_mul a L : 0 <= L -> a * 2 ^ L / 2 ^ L = a. Proof. intro. apply Z.div_mul. pose proof (pow_pos L). lia. Qed.
(** the parent of an aligned block *)
Lemma parent i L : 0 <= L -> (2 ^ L | i) ->
  let p := if Z.odd (i / 2 ^ L) then i - 2 ^ L else i in
  (2 ^ (L + 1) | p) /\ p <= i /\ i + 2 ^ L <= p + 2 ^ (L + 1) /\ p <= buddy L i /\ buddy L i + 2 ^ L <= p + 2 ^ (L + 1) /\ (2 ^ L | buddy L i) /\ buddy L i <> i /\
  (0 <= i -> 0 <= p) /\ (p = i \/ p = buddy L i).
Proof.
  intros HL [a A] p. pose proof (pow_pos L HL). assert (i / 2 ^ L = a) as D by (rewrite A; apply odd_mul; lia). unfold buddy. subst p. rewrite D, pow_S by lia.
  pose proof (Zodd_mod a) as OM. destruct (Z.odd a) eqn:O.
  - assert (a = 2 * (a / 2) + 1) as E. { apply Z.odd_spec in O as [k K]. lia. }
    clear D OM O. set (c := a / 2) in *. clearbody c. subst i. set (w := 2 ^ L) in *. clearbody w.
    split; [exists c; nia|]. repeat split; try lia. { exists (a - 1). nia. } { intro P0. subst a. destruct (Z_lt_ge_dec c 0); [exfalso; assert ((2 * c + 1) * w <= - 1 * w) by (apply Z.mul_le_mono_nonneg_r; lia); lia|].
      assert (0 <= c * w) by (apply Z.mul_nonneg_nonneg; lia). lia. }
  - assert (a = 2 * (a / 2)) as E. { assert (Z.even a = true) as Ev by (rewrite <- Z.negb_odd, O; reflexivity). apply Z.even_spec in Ev as [k K]. lia. }
    clear D OM O. set (c := a / 2) in *. clearbody c. subst i. set (w := 2 ^ L) in *. clearbody w.
    split; [exists c; nia|]. repeat split; try lia. { exists (a + 1). nia. }
Qed.
Lemma buddy_buddy L i : 0 <= L -> (2 ^ L | i) -> buddy L (buddy L i) = i.
Proof.
  intros HL [a A]. pose proof (pow_pos L HL). assert (i / 2 ^ L = a) as D by (rewrite A; apply odd_mul; lia).
  unfold buddy at 2. rewrite D. destruct (Z.odd a) eqn:O; unfold buddy.
  - replace ((i - 2 ^ L) / 2 ^ L) with (a - 1) by (rewrite A; replace (a * 2 ^ L - 2 ^ L) with ((a - 1) * 2 ^ L) by ring; symmetry; apply odd_mul; lia).
    rewrite Z.odd_sub, O. cbn. lia.
  - replace ((i + 2 ^ L) / 2 ^ L) with (a + 1) by (rewrite A; replace (a * 2 ^ L + 2 ^ L) with ((a + 1) * 2 ^ L) by ring; symmetry; apply odd_mul; lia).
    rewrite Z.odd_add, O. cbn. lia.
Qed.

Section T.
Context (n : Z) (lf : leaves) (T : tiling n lf).
Lemma leaf_at x i L s j M t : lf i = Some (L, s) -> lf j = Some (M, t) -> i <= x < i + 2 ^ L -> j <= x < j + 2 ^ M -> i = j.
Proof. intros A B X Y. destruct (Z.eq_dec i j) as [|N]; [assumption|]. destruct (t_disj _ _ T _ _ _ _ _ _ A B N); lia. Qed.
Lemma buddy_leaf i L s : lf i = Some (L, s) -> buddy L i < n -> exists M t, lf (buddy L i) = Some (M, t) /\ M <= L.
Proof.
  intros A B. destruct (t_leaf _ _ T _ _ _ A) as (RL & RI & DI & RN). pose proof (parent i L ltac:(lia) DI) as (P1 & P2 & P3 & P4 & P5 & P6 & P7 & P8 & P9).
  specialize (P8 RI). set (p := if Z.odd (i / 2 ^ L) then i - 2 ^ L else i) in *. set (b := buddy L i) in *. pose proof (pow_pos L ltac:(lia)).
  destruct (t_cov _ _ T b ltac:(lia)) as (j & M & t & J & X). destruct (t_leaf _ _ T _ _ _ J) as (RM & RJ & DJ & RNJ). pose proof (pow_pos M ltac:(lia)).
  destruct (Z_le_gt_dec M L) as [ML|ML].
  - destruct (nest b L j M b ltac:(lia) P6 DJ ltac:(lia) X) as [Y1 Y2]. assert (j = b) as -> by lia. exists M, t. split; assumption.
  - exfalso. destruct (nest j M p (L + 1) b ltac:(lia) DJ P1 ltac:(lia)) as [Y1 Y2]; [rewrite pow_S in * by lia; lia|].
    assert (i = j) as E. { apply (leaf_at i i L s j M t A J); lia. }
    subst j. rewrite A in J. injection J as -> ->. lia.
Qed.
Lemma status_tiling i L s s' : lf i = Some (L, s) -> tiling n (upd lf i (Some (L, s'))).
Proof.
  intro A. split.
  - intros j M t H. upd_case j i; [injection H as <- <-; apply (t_leaf _ _ T _ _ _ A)|apply (t_leaf _ _ T _ _ _ H)].
  - intros j M t k K u H1 H2 N. upd_case j i; upd_case k i; try congruence.
    + injection H1 as <- <-. apply (t_disj _ _ T _ _ _ _ _ _ A H2 N).
    + injection H2 as <- <-. apply (t_disj _ _ T _ _ _ _ _ _ H1 A N).
    + apply (t_disj _ _ T _ _ _ _ _ _ H1 H2 N).
  - intros a R. destruct (t_cov _ _ T a R) as (j & M & t & H & X). destruct (Z.eq_dec j i) as [->|NE].
    + rewrite A in H. injection H as <- <-. exists i, L, s'. rewrite upd_eq. split; [reflexivity|exact X].
    + exists j, M, t. rewrite upd_ne by exact NE. split; assumption.
Qed.
Lemma split_none i L s : 0 <= L -> lf i = Some (L + 1, s) -> lf (i + 2 ^ L) = None.
Proof.
  intros HL A. destruct (lf (i + 2 ^ L)) as [[M t]|] eqn:E; [|reflexivity]. exfalso. pose proof (pow_pos L HL) as PPL.
  destruct (t_leaf _ _ T _ _ _ E) as (RM & _). pose proof (pow_pos M ltac:(lia)).
  destruct (t_disj _ _ T _ _ _ _ _ _ A E ltac:(lia)) as [X|X]; rewrite ?pow_S in X by lia; lia.
Qed.
Lemma split_tiling i L s s1 s2 : 0 <= L -> lf i = Some (L + 1, s) -> tiling n (upd (upd lf i (Some (L, s1))) (i + 2 ^ L) (Some (L, s2))).
Proof.
  intros HL A. pose proof (pow_pos L HL) as PP. destruct (t_leaf _ _ T _ _ _ A) as (RL & RI & [d DI] & RN). rewrite pow_S in * by lia.
  assert (D1 : (2 ^ L | i)) by (exists (2 * d); lia). assert (D2 : (2 ^ L | i + 2 ^ L)) by (exists (2 * d + 1); lia).
  assert (O : forall j M t, j <> i -> lf j = Some (M, t) -> i + 2 * 2 ^ L <= j \/ j + 2 ^ M <= i).
  { intros j M t N H. destruct (t_disj _ _ T _ _ _ _ _ _ A H ltac:(lia)) as [X|X]; rewrite ?pow_S in X by lia; lia. }
  split.
  - intros j M t H. upd_case j (i + 2 ^ L); [injection H as <- <-; split; [lia|split; [lia|split; [exact D2|lia]]]|].
    upd_case j i; [injection H as <- <-; split; [lia|split; [lia|split; [exact D1|lia]]]|apply (t_leaf _ _ T _ _ _ H)].
  - intros j M t k K u H1 H2 N.
    assert (POSM : forall x y z, lf x = Some (y, z) -> 0 < 2 ^ y) by (intros x y z H; apply pow_pos; apply (t_leaf _ _ T) in H; lia).
    upd_case j (i + 2 ^ L); [injection H1 as <- <-|upd_case j i; [injection H1 as <- <-|]];
    (upd_case k (i + 2 ^ L); [injection H2 as <- <-|upd_case k i; [injection H2 as <- <-|]]); try lia.
    + specialize (O _ _ _ N1 H2). specialize (POSM _ _ _ H2). lia.
    + specialize (O _ _ _ N2 H2). specialize (POSM _ _ _ H2). lia.
    + specialize (O _ _ _ N1 H1). specialize (POSM _ _ _ H1). lia.
    + specialize (O _ _ _ N1 H1). specialize (POSM _ _ _ H1). lia.
    + apply (t_disj _ _ T _ _ _ _ _ _ H1 H2 N).
  - intros a R. destruct (t_cov _ _ T a R) as (j & M & t & H & X). destruct (Z.eq_dec j i) as [->|NE].
    + rewrite A in H. injection H as <- <-. rewrite pow_S in X by lia. destruct (Z_lt_ge_dec a (i + 2 ^ L)).
      * exists i, L, s1. rewrite upd_ne by lia. rewrite upd_eq. split; [reflexivity|lia].
      * exists (i + 2 ^ L), L, s2. rewrite upd_eq. split; [reflexivity|lia].
    + exists j, M, t. rewrite !upd_ne; [split; assumption|exact NE|]. intros ->. rewrite (split_none i L s HL A) in H. discriminate.
Qed.
Lemma merge_tiling i L s s1 s2 : 0 <= L -> L + 1 <= 30 -> lf i = Some (L, s1) -> lf (i + 2 ^ L) = Some (L, s2) -> (2 ^ (L + 1) | i) ->
  tiling n (upd (upd lf (i + 2 ^ L) None) i (Some (L + 1, s))).
Proof.
  intros HL HL1 A B D. pose proof (pow_pos L HL) as PP. destruct (t_leaf _ _ T _ _ _ A) as (_ & RI & _ & _). destruct (t_leaf _ _ T _ _ _ B) as (_ & _ & _ & RN).
  assert (O : forall j M t, j <> i -> j <> i + 2 ^ L -> lf j = Some (M, t) -> i + 2 * 2 ^ L <= j \/ j + 2 ^ M <= i).
  { intros j M t N1 N2 H. assert (0 < 2 ^ M) by (apply pow_pos; apply (t_leaf _ _ T) in H; lia).
    destruct (t_disj _ _ T _ _ _ _ _ _ A H ltac:(lia)) as [X|X]; destruct (t_disj _ _ T _ _ _ _ _ _ B H ltac:(lia)) as [Y|Y]; lia. }
  split.
  - intros j M t H. upd_case j i; [injection H as <- <-; rewrite pow_S by lia; split; [lia|split; [lia|split; [rewrite <- pow_S by lia; exact D|lia]]]|].
    upd_case j (i + 2 ^ L); [discriminate|apply (t_leaf _ _ T _ _ _ H)].
  - intros j M t k K u H1 H2 N.
    upd_case j i; [injection H1 as <- <-|upd_case j (i + 2 ^ L); [discriminate|]];
    (upd_case k i; [injection H2 as <- <-|upd_case k (i + 2 ^ L); [discriminate|]]); try lia; rewrite ?pow_S by lia.
    + apply (O _ _ _ N0 N1 H2).
    + destruct (O _ _ _ N0 N1 H1); lia.
    + apply (t_disj _ _ T _ _ _ _ _ _ H1 H2 N).
  - intros a R. destruct (t_cov _ _ T a R) as (j & M & t & H & X).
    destruct (Z.eq_dec j i) as [->|N1]; [|destruct (Z.eq_dec j (i + 2 ^ L)) as [->|N2]].
    + rewrite A in H. injection H as <- <-. exists i, (L + 1), s. rewrite upd_eq, pow_S by lia. split; [reflexivity|lia].
    + rewrite B in H. injection H as <- <-. exists i, (L + 1), s. rewrite upd_eq, pow_S by lia. split; [reflexivity|lia].
    + exists j, M, t. rewrite !upd_ne by assumption. split; assumption.
Qed.
Lemma add_tiling L s : 0 <= L <= 30 -> 0 <= n -> (2 ^ L | n) -> tiling (n + 2 ^ L) (upd lf n (Some (L, s))).
Proof.
  intros HL HN D. pose proof (pow_pos L ltac:(lia)) as PP.
  assert (O : forall j M t, lf j = Some (M, t) -> j + 2 ^ M <= n /\ 0 < 2 ^ M).
  { intros j M t H. apply (t_leaf _ _ T) in H. split; [lia|apply pow_pos; lia]. }
  split.
  - intros j M t H. upd_case j n; [injection H as <- <-; repeat split; lia || exact D|]. pose proof (t_leaf _ _ T _ _ _ H). intuition lia.
  - intros j M t k K u H1 H2 N. upd_case j n; upd_case k n; try lia.
    + apply O in H2. lia.
    + apply O in H1. lia.
    + apply (t_disj _ _ T _ _ _ _ _ _ H1 H2 N).
  - intros a R. destruct (Z_lt_ge_dec a n).
    + destruct (t_cov _ _ T a ltac:(lia)) as (j & M & t & H & X). exists j, M, t. rewrite upd_ne; [split; assumption|]. apply O in H. lia.
    + exists n, L, s. rewrite upd_eq. split; [reflexivity|lia].
Qed.

(** a size-aligned region without live blocks lies in one free block *)
Lemma region_free : (forall i L, lf i = Some (L, Free) -> lf (buddy L i) = Some (L, Free) -> False) ->
  forall (K : nat) g, let L := Z.of_nat K in 0 <= g -> (2 ^ L | g) -> g + 2 ^ L <= n ->
  (forall j M t, lf j = Some (M, t) -> t <> Free -> j + 2 ^ M <= g \/ g + 2 ^ L <= j) ->
  exists j M, lf j = Some (M, Free) /\ L <= M /\ j <= g /\ g + 2 ^ L <= j + 2 ^ M.
Proof.
  intros CO. induction K as [|K IH]; intros g L G D B NL; subst L.
  - change (2 ^ Z.of_nat 0) with 1 in *. destruct (t_cov _ _ T g ltac:(lia)) as (j & M & t & H & X). exists j, M.
    pose proof (t_leaf _ _ T _ _ _ H) as (RM & _). pose proof (pow_pos M ltac:(lia)).
    assert (t = Free) as ->. { destruct t; [reflexivity| |]; exfalso; destruct (NL _ _ _ H); (discriminate || lia). }
    split; [exact H|]. lia.
  - replace (Z.of_nat (S K)) with (Z.of_nat K + 1) in * by lia. set (L := Z.of_nat K) in *. assert (0 <= L) as HL by lia. pose proof (pow_pos L HL) as PPL.
    rewrite pow_S in * by lia. destruct D as [d D].
    destruct (IH g G) as (j1 & M1 & H1 & A1 & B1 & C1); [exists (2 * d); lia|lia|intros j M t H0 N; destruct (NL j M t H0 N); lia|].
    destruct (IH (g + 2 ^ L)) as (j2 & M2 & H2 & A2 & B2 & C2); [lia|exists (2 * d + 1); lia|lia|intros j M t H0 N; destruct (NL j M t H0 N); lia|].
    pose proof (t_leaf _ _ T _ _ _ H1) as (R1 & _ & D1 & _). pose proof (t_leaf _ _ T _ _ _ H2) as (R2 & _ & D2 & _).
    assert (DG : (2 ^ (L + 1) | g)) by (rewrite pow_S by lia; exists d; lia).
    destruct (Z.eq_dec M1 L) as [->|N1].
    + destruct (Z.eq_dec M2 L) as [->|N2].
      * exfalso. assert (j1 = g) as -> by lia. assert (j2 = g + 2 ^ L) as -> by lia. apply (CO _ _ H1).
        assert (buddy L g = g + 2 ^ L) as ->; [|exact H2]. unfold buddy. replace (g / 2 ^ L) with (2 * d).
        { rewrite Z.odd_mul. reflexivity. } rewrite D. replace (d * (2 * 2 ^ L)) with (2 * d * 2 ^ L) by ring. rewrite odd_mul by lia. reflexivity.
      * exists j2, M2. destruct (nest j2 M2 g (L + 1) (g + 2 ^ L) ltac:(lia) D2 DG ltac:(lia)) as [Y1 Y2]; [rewrite pow_S by lia; lia|]. rewrite pow_S in Y2 by lia.
        split; [exact H2|]. lia.
    + exists j1, M1. destruct (nest j1 M1 g (L + 1) g ltac:(lia) D1 DG ltac:(lia)) as [Y1 Y2]; [rewrite pow_S by lia; lia|]. rewrite pow_S in Y2 by lia.
      split; [exact H1|]. lia.
Qed.
End T.

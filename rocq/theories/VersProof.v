From Verif Require Import CBase VersModel VersSpec.

(** ** the key of a name: its place in the order *)
Fixpoint ndig (l : list Z) : Z := match l with [] => 0 | c :: l => if digit c then 1 + ndig l else 0 end.
Inductive kst := KN | KZ | KT.
Definition kstep (s : kst) (c : Z) (l : list Z) : list Z * kst :=
  match s with
  | KN => if c =? 48 then ([-1], KZ) else if digit c then ([48; 1 + ndig l; c], KT) else ([c], KN)
  | KZ => if digit c then ([c - 100], if c =? 48 then KZ else KT) else ([c], KN)
  | KT => if digit c then ([c], KT) else ([c], KN)
  end.
Fixpoint key (s : kst) (l : list Z) : list Z :=
  match l with [] => [0] | c :: l' => fst (kstep s c l') ++ key (snd (kstep s c l')) l' end.
Fixpoint lexc (a b : list Z) : Z :=
  match a, b with
  | [], [] => 0 | [], _ => -1 | _, [] => 1
  | x :: a, y :: b => if x <? y then -1 else if y <? x then 1 else lexc a b
  end.
Lemma lexc_app w a b : lexc (w ++ a) (w ++ b) = lexc a b.
Proof. induction w as [|x w IH]; cbn; [reflexivity|]. rewrite !Z.ltb_irrefl. exact IH. Qed.
Lemma lexc_refl a : lexc a a = 0.
Proof. rewrite <- (app_nil_r a), lexc_app. reflexivity. Qed.
Lemma lexc_cons x a b : lexc (x :: a) (x :: b) = lexc a b.
Proof. exact (lexc_app [x] a b). Qed.
Lemma lexc_ne x y a b : x <> y -> lexc (x :: a) (y :: b) = Z.sgn (x - y).
Proof. intros N. cbn. destruct (x <? y) eqn:A; [rewrite Z.sgn_neg by lia; reflexivity|]. destruct (y <? x) eqn:B; [rewrite Z.sgn_pos by lia; reflexivity | lia]. Qed.
Lemma lexc_anti a : forall b, lexc b a = - lexc a b.
Proof. induction a as [|x a IH]; intros [|y b]; cbn; try reflexivity. destruct (x <? y) eqn:A, (y <? x) eqn:B; try lia; auto. Qed.
Lemma lexc_trans a : forall b c, lexc a b < 0 -> lexc b c < 0 -> lexc a c < 0.
Proof.
  induction a as [|x a IH]; intros [|y b] [|z c]; cbn; try lia. destruct (x <? y) eqn:A, (y <? x) eqn:B, (y <? z) eqn:C, (z <? y) eqn:D, (x <? z) eqn:E, (z <? x) eqn:F; try lia. apply IH.
Qed.

(** ** reading *)
Lemma rd_app p x i : rd (p ++ x) (length p + i) = rd x i.
Proof. unfold rd. rewrite nth_error_app2 by lia. replace (length p + i - length p)%nat with i by lia. rewrite app_length. destruct (nth_error x i); [reflexivity|]. destruct (Nat.eqb i (length x)) eqn:E; [apply Nat.eqb_eq in E; subst; rewrite Nat.eqb_refl; reflexivity|]. apply Nat.eqb_neq in E. destruct (Nat.eqb _ _) eqn:E2; [apply Nat.eqb_eq in E2; lia | reflexivity]. Qed.
Lemma rd0 x : rd x 0 = Ret (hd 0 x).
Proof. destruct x; reflexivity. Qed.
Lemma rd_at p x : rd (p ++ x) (length p) = Ret (hd 0 x).
Proof. rewrite <- (Nat.add_0_r (length p)), rd_app. apply rd0. Qed.
Definition asc0 (c : Z) : Prop := 0 <= c <= 127.
Lemma isdigit_ok c : asc0 c -> isdigit c = Ret (digit c).
Proof. intros H. unfold isdigit, asc0, digit in *. destruct ((128 <=? c) && (c <? 255)) eqn:E; [lia | reflexivity]. Qed.
Lemma hd_asc x : ascii x -> asc0 (hd 0 x).
Proof. intros A. destruct x as [|c x]; cbn; unfold asc0; [lia|]. specialize (A c (or_introl eq_refl)). lia. Qed.
Lemma ascii_app p x : ascii (p ++ x) <-> ascii p /\ ascii x.
Proof. unfold ascii. split; [intros H; split; intros c C; apply H, in_or_app; auto | intros (A & B) c C; apply in_app_or in C; destruct C; auto]. Qed.
Lemma ascii_cons c x : ascii (c :: x) <-> 1 <= c <= 127 /\ ascii x.
Proof. unfold ascii. split; [intros H; split; [apply H; left; reflexivity | intros y Y; apply H; right; exact Y] | intros (A & B) y [<-|Y]; auto]. Qed.

(** ** the first difference *)
Lemma diff_cases (a : list Z) : forall b : list Z, a = b \/ exists p x y, a = p ++ x /\ b = p ++ y /\ (match x, y with [], [] => False | c :: _, d :: _ => c <> d | _, _ => True end).
Proof.
  induction a as [|c a IH]; intros [|d b].
  - left. reflexivity.
  - right. exists [], [], (d :: b). auto.
  - right. exists [], (c :: a), []. auto.
  - destruct (Z.eq_dec c d) as [<-|N]; [|right; exists [], (c :: a), (d :: b); auto]. destruct (IH b) as [->|(p & x & y & -> & -> & D)]; [left; reflexivity|]. right. exists (c :: p), x, y. auto.
Qed.
Lemma first_diff_eq fuel p s : ascii s -> (length s < fuel)%nat -> first_diff fuel (p ++ s) (p ++ s) (length p) = Ret None.
Proof.
  revert p s. induction fuel as [|f IH]; intros p s A L; [lia|]. cbn [first_diff]. rewrite rd_at. cbn [bind]. rewrite Z.eqb_refl. destruct s as [|c s]; [reflexivity|]. cbn [hd]. apply ascii_cons in A. destruct A as (C & A). replace (c =? 0) with false by lia.
  replace (p ++ c :: s) with ((p ++ [c]) ++ s) by (rewrite <- app_assoc; reflexivity). replace (S (length p)) with (length (p ++ [c])) by (rewrite app_length; cbn; lia). apply IH; [exact A | cbn in L; lia].
Qed.
Lemma first_diff_ne fuel q p x y : ascii p -> hd 0 x <> hd 0 y -> (length p < fuel)%nat -> first_diff fuel (q ++ p ++ x) (q ++ p ++ y) (length q) = Ret (Some (length q + length p)%nat).
Proof.
  revert q p. induction fuel as [|f IH]; intros q p A D L; [lia|]. cbn [first_diff]. rewrite !rd_at. cbn [bind]. destruct p as [|c p]; cbn [hd app length].
  - replace (hd 0 x =? hd 0 y) with false by lia. rewrite Nat.add_0_r. reflexivity.
  - rewrite Z.eqb_refl. apply ascii_cons in A. destruct A as (C & A). replace (c =? 0) with false by lia.
    replace (q ++ c :: p ++ x) with ((q ++ [c]) ++ p ++ x) by (rewrite <- app_assoc; reflexivity). replace (q ++ c :: p ++ y) with ((q ++ [c]) ++ p ++ y) by (rewrite <- app_assoc; reflexivity).
    replace (S (length q)) with (length (q ++ [c])) by (rewrite app_length; cbn; lia). rewrite IH; [rewrite app_length; cbn; f_equal; f_equal; lia | exact A | exact D | cbn in L; lia].
Qed.
Lemma hd_diff x y : ascii x -> ascii y -> (match x, y with [], [] => False | c :: _, d :: _ => c <> d | _, _ => True end) -> hd 0 x <> hd 0 y.
Proof. destruct x as [|c x], y as [|d y]; cbn; intros A B D; auto; [apply ascii_cons in B; lia | apply ascii_cons in A; lia]. Qed.

(** ** splitting the common part at its trailing digits *)
Definition alld (d : list Z) : Prop := forall c, In c d -> digit c = true.
Lemma split_digits p : exists q d, p = q ++ d /\ alld d /\ ends_plain q.
Proof.
  induction p as [|c p IH] using rev_ind; [exists [], []; split; [reflexivity|]; split; [intros c [] | left; reflexivity]|].
  destruct (digit c) eqn:E.
  - destruct IH as (q & d & -> & A & B). exists q, (d ++ [c]). split; [rewrite app_assoc; reflexivity|]. split; [|exact B]. intros y Y. apply in_app_or in Y. destruct Y as [Y|[<-|[]]]; auto.
  - exists (p ++ [c]), []. split; [rewrite app_nil_r; reflexivity|]. split; [intros y [] | right; eauto].
Qed.
Lemma back_ok q d x : ascii q -> ascii d -> alld d -> ends_plain q -> back (q ++ d ++ x) (length q + length d) = Ret (length q).
Proof.
  intros Aq Ad D E. revert x Ad D. induction d as [|c d IH] using rev_ind; intros x Ad D.
  - cbn. rewrite Nat.add_0_r. destruct E as [->|(r & c & -> & N)]; [reflexivity|]. rewrite app_length. cbn [length]. rewrite Nat.add_1_r. cbn [back]. rewrite <- app_assoc. rewrite rd_at. cbn [bind hd app]. apply ascii_app in Aq. destruct Aq as (_ & Aq). rewrite isdigit_ok by (specialize (Aq c (or_introl eq_refl)); unfold asc0; lia). cbn [bind]. rewrite N. reflexivity.
  - rewrite app_length. cbn [length]. rewrite Nat.add_1_r, Nat.add_succ_r. cbn [back]. rewrite <- app_assoc. cbn [app]. rewrite app_assoc at 1. replace (length q + length d)%nat with (length (q ++ d)) by apply app_length. rewrite rd_at. cbn [bind hd].
    apply ascii_app in Ad. destruct Ad as (Ad & Ac). rewrite isdigit_ok by (specialize (Ac c (or_introl eq_refl)); unfold asc0; lia). cbn [bind]. rewrite (D c) by (apply in_or_app; right; left; reflexivity). rewrite app_length. apply IH; [exact Ad|]. intros y Y. apply D, in_or_app. auto.
Qed.

(** common zeros of u and v, from the start *)
Fixpoint zrun (u v : list Z) : nat := match u, v with c :: u, d :: v => if (c =? 48) && (c =? d) then S (zrun u v) else O | _, _ => O end.
Lemma skip0_ok fuel : forall p1 p2 u v, length p1 = length p2 -> ascii u -> ascii v -> (length u < fuel)%nat -> skip0 fuel (p1 ++ u) (p2 ++ v) (length p1) = Ret (length p1 + zrun u v)%nat.
Proof.
  induction fuel as [|f IH]; intros p1 p2 u v L Au Av F; [lia|]. cbn [skip0]. rewrite rd_at. cbn [bind]. destruct u as [|c u]; cbn [hd zrun]; [rewrite Nat.add_0_r; reflexivity|].
  destruct (c =? 48) eqn:C; [|cbn; destruct v; rewrite Nat.add_0_r; reflexivity]. rewrite L, rd_at. cbn [bind]. destruct v as [|d v]; cbn [hd]. { replace (c =? 0) with false by lia. rewrite Nat.add_0_r. reflexivity. }
  cbn [andb]. destruct (c =? d) eqn:D; [|rewrite Nat.add_0_r; reflexivity]. apply Z.eqb_eq in D. subst d. apply ascii_cons in Au, Av.
  replace (p1 ++ c :: u) with ((p1 ++ [c]) ++ u) by (rewrite <- app_assoc; reflexivity). replace (p2 ++ c :: v) with ((p2 ++ [c]) ++ v) by (rewrite <- app_assoc; reflexivity). replace (S (length p2)) with (length (p1 ++ [c])) by (rewrite app_length; cbn; lia).
  rewrite IH; [rewrite app_length; cbn; f_equal; lia | rewrite !app_length; cbn; lia | tauto | tauto | cbn in F; lia].
Qed.
Lemma digits_end_ok fuel : forall p u, ascii u -> (length u < fuel)%nat -> digits_end fuel (p ++ u) (length p) = Ret (length p + Z.to_nat (ndig u))%nat.
Proof.
  induction fuel as [|f IH]; intros p u A F; [lia|]. cbn [digits_end]. rewrite rd_at. cbn [bind]. rewrite isdigit_ok by (apply hd_asc, A). cbn [bind]. destruct u as [|c u]; [cbn; rewrite Nat.add_0_r; reflexivity|]. cbn [hd ndig]. destruct (digit c); [|cbn; rewrite Nat.add_0_r; reflexivity].
  apply ascii_cons in A. replace (p ++ c :: u) with ((p ++ [c]) ++ u) by (rewrite <- app_assoc; reflexivity). replace (S (length p)) with (length (p ++ [c])) by (rewrite app_length; cbn; lia). rewrite IH; [|tauto | cbn in F; lia]. rewrite app_length. cbn [length]. f_equal.
  assert (0 <= ndig u) by (clear; induction u as [|c u IHu]; cbn; [lia|]; destruct (digit c); lia). lia.
Qed.
Lemma ndig_nonneg u : 0 <= ndig u.
Proof. induction u as [|c u IHu]; cbn; [lia|]; destruct (digit c); lia. Qed.
Lemma skipn_rd p u n : (n <= length u)%nat -> rd (p ++ u) (length p + n) = Ret (hd 0 (skipn n u)).
Proof. intros L. rewrite rd_app. pose proof (rd_at (firstn n u) (skipn n u)) as H. rewrite firstn_skipn, (firstn_length_le _ L) in H. exact H. Qed.

(** what strverscmp computes, on the split names *)
Definition decide (d x y : list Z) : Z :=
  let u := d ++ x in let v := d ++ y in
  let al := hd 0 x - hd 0 y in
  if (hd 0 u =? 48) || (hd 0 v =? 48) then
    let n := zrun u v in
    let dx := digit (hd 0 (skipn n u)) in let dy := digit (hd 0 (skipn n v)) in
    if dx then (if dy then al else -1) else (if dy then 1 else al)
  else if digit (hd 0 u) then if digit (hd 0 v) then if ndig u <? ndig v then -1 else if ndig v <? ndig u then 1 else al else al else al.
Lemma zrun_le u : forall v, (zrun u v <= length u)%nat /\ (zrun u v <= length v)%nat.
Proof. induction u as [|c u IH]; intros [|d v]; cbn; try lia. destruct ((c =? 48) && (c =? d)); [|lia]. specialize (IH v). lia. Qed.
Lemma skipn_asc n u : ascii u -> ascii (skipn n u).
Proof. intros A. rewrite <- (firstn_skipn n u) in A. apply ascii_app in A. tauto. Qed.
Lemma strverscmp_ok q d x y : ascii (q ++ d ++ x) -> ascii (q ++ d ++ y) -> alld d -> ends_plain q -> hd 0 x <> hd 0 y -> strverscmp (q ++ d ++ x) (q ++ d ++ y) = Ret (decide d x y).
Proof.
  intros Aa Ab D E N. pose proof Aa as Aa'. pose proof Ab as Ab'. apply ascii_app in Aa, Ab. destruct Aa as (Aq & Au), Ab as (_ & Av). pose proof Au as Au'. pose proof Av as Av'. apply ascii_app in Au', Av'. destruct Au' as (Ad & Ax), Av' as (_ & Ay).
  unfold strverscmp. rewrite !app_assoc. rewrite <- (app_nil_l ((q ++ d) ++ x)) at 2. rewrite <- (app_nil_l ((q ++ d) ++ y)) at 2. replace 0%nat with (length (@nil Z)) at 1 by reflexivity.
  rewrite first_diff_ne; [|apply ascii_app; auto | exact N | rewrite !app_length; lia]. cbn [bind length app Nat.add]. rewrite !rd_at. cbn [bind]. rewrite <- !app_assoc, app_length. rewrite back_ok by assumption. cbn [bind]. rewrite !rd_at. cbn [bind]. unfold decide.
  destruct ((hd 0 (d ++ x) =? 48) || (hd 0 (d ++ y) =? 48)).
  - rewrite skip0_ok; [|reflexivity | exact Au | exact Av | rewrite !app_length; lia]. cbn [bind]. destruct (zrun_le (d ++ x) (d ++ y)) as (Z1 & Z2). rewrite !skipn_rd by assumption. cbn [bind].
    rewrite !isdigit_ok by (apply hd_asc, skipn_asc; assumption). cbn [bind]. destruct (digit _), (digit _); reflexivity.
  - rewrite !isdigit_ok by (apply hd_asc; assumption). cbn [bind]. destruct (digit (hd 0 (d ++ x))); [|reflexivity]. cbn [bind]. destruct (digit (hd 0 (d ++ y))); [|reflexivity].
    rewrite !digits_end_ok; try assumption; try (rewrite !app_length; lia). cbn [bind]. pose proof (ndig_nonneg (d ++ x)). pose proof (ndig_nonneg (d ++ y)).
    destruct (Nat.ltb_spec (length q + Z.to_nat (ndig (d ++ x))) (length q + Z.to_nat (ndig (d ++ y)))), (Z.ltb_spec (ndig (d ++ x)) (ndig (d ++ y))); try lia; [reflexivity|].
    destruct (Nat.ltb_spec (length q + Z.to_nat (ndig (d ++ y))) (length q + Z.to_nat (ndig (d ++ x)))), (Z.ltb_spec (ndig (d ++ y)) (ndig (d ++ x))); try lia; reflexivity.
Qed.

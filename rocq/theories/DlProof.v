From Verif Require Import CBase SeqLib DlModel DlSpec.

(** ** Memory *)
Lemma hset_spec : forall p n h m, hget p h = Ret m -> exists h', hset p n h = Ret h' /\ hget p h' = Ret n /\
  (forall q, q <> p -> hget q h' = hget q h) /\ length h' = length h /\ map fst h' = map fst h.
Proof.
  intros p n h. induction h as [|[q x] h IH]; intros m H; cbn [hget hset] in *; [discriminate|].
  destruct (Nat.eqb_spec p q) as [->|N].
  - eexists. split; [reflexivity|]. cbn [hget length map fst]. rewrite Nat.eqb_refl. split; [auto|]. split; [|auto].
    intros r R. cbn [hget]. destruct (Nat.eqb_spec r q); [congruence|auto].
  - destruct (IH m H) as (h' & E & A & B & C & D). rewrite E. cbn [bind]. eexists. split; [reflexivity|]. cbn [hget length map fst].
    destruct (Nat.eqb_spec p q); [congruence|]. split; [auto|]. split; [|split; congruence].
    intros r R. cbn [hget]. destruct (Nat.eqb r q); auto.
Qed.
Lemma hfree_spec : forall p h m, hget p h = Ret m -> exists h', hfree p h = Ret h' /\
  (forall q, q <> p -> hget q h' = hget q h) /\ S (length h') = length h /\ (forall x, In x (map fst h') -> In x (map fst h)) /\ (NoDup (map fst h) -> NoDup (map fst h')).
Proof.
  intros p h. induction h as [|[q x] h IH]; intros m H; cbn [hget hfree] in *; [discriminate|].
  destruct (Nat.eqb_spec p q) as [->|N].
  - eexists. split; [reflexivity|]. cbn [length map fst]. split; [|split; [auto|split; [intros y Y; right; auto|]]].
    + intros r R. cbn [hget]. destruct (Nat.eqb_spec r q); [congruence|auto].
    + intros K. inversion K; auto.
  - destruct (IH m H) as (h' & E & B & C & D & F). rewrite E. cbn [bind]. eexists. split; [reflexivity|]. cbn [hget length map fst].
    split; [|split; [lia|split]].
    + intros r R. cbn [hget]. destruct (Nat.eqb r q); auto.
    + intros y [<-|Y]; [left; auto|right; auto].
    + intros K. inversion K; subst. constructor; auto.
Qed.
Lemma hget_key : forall p h n, hget p h = Ret n -> In p (map fst h).
Proof. intros p h. induction h as [|[q x] h IH]; intros n H; cbn in *; [discriminate|]. destruct (Nat.eqb_spec p q); [left; auto|right; eauto]. Qed.

Lemma nodup_r : forall A (l l' : list A), NoDup (l ++ l') -> NoDup l'.
Proof. intros A l. induction l as [|a l IH]; intros l' N; cbn in N; auto. inversion N; auto. Qed.
(** ** A piece of the list: from node p, whose predecessor is a, to the link q after b *)
Fixpoint lseg (h : heap) (a p : nat) (ids : list nat) (L : list Z) (b q : nat) : Prop :=
  match ids, L with
  | [], [] => a = b /\ p = q
  | i :: ids, m :: L => p = i /\ i <> O /\ exists r, hget i h = Ret (mk_nd m a r) /\ lseg h i r ids L b q
  | _, _ => False
  end.
Lemma lseg_length : forall h ids L a p b q, lseg h a p ids L b q -> length ids = length L.
Proof. intros h ids. induction ids as [|i ids IH]; intros [|m L] a p b q H; cbn in *; try tauto. destruct H as (_ & _ & r & _ & H). f_equal. eauto. Qed.
Lemma lseg_app : forall h x X y Y a p b q, length x = length X ->
  (lseg h a p (x ++ y) (X ++ Y) b q <-> exists c r, lseg h a p x X c r /\ lseg h c r y Y b q).
Proof.
  intros h x. induction x as [|i x IH]; intros [|m X] y Y a p b q E; cbn [length app] in *; try discriminate.
  - split; [intros H; exists a, p; cbn; auto|]. intros (c & r & [-> ->] & H). auto.
  - injection E as E. cbn [lseg]. split.
    + intros (-> & N & r & G & H). apply IH in H; [|auto]. destruct H as (c & s & H1 & H2). exists c, s. split; [|auto]. eauto.
    + intros (c & s & (-> & N & r & G & H) & H2). split; [auto|]. split; [auto|]. exists r. split; [auto|]. apply IH; eauto.
Qed.
Lemma lseg_frame : forall h h' ids L a p b q, (forall i, In i ids -> hget i h' = hget i h) -> lseg h a p ids L b q -> lseg h' a p ids L b q.
Proof.
  intros h h' ids. induction ids as [|i ids IH]; intros [|m L] a p b q F H; cbn in *; try tauto.
  destruct H as (-> & N & r & G & H). split; [auto|]. split; [auto|]. exists r. split; [rewrite F; auto|]. apply IH; auto.
Qed.
Lemma lseg_last : forall h ids L a p b q, lseg h a p ids L b q -> ids <> [] -> In b ids.
Proof.
  intros h ids. induction ids as [|i ids IH]; intros [|m L] a p b q H N; cbn in H; try tauto.
  destruct H as (-> & _ & r & _ & H). destruct ids as [|j ids].
  - destruct L; cbn in H; [|tauto]. destruct H as [-> _]. left. auto.
  - right. eapply IH; eauto. discriminate.
Qed.

Lemma lseg_keys : forall h ids L a p b q i, lseg h a p ids L b q -> In i ids -> In i (map fst h).
Proof.
  intros h ids. induction ids as [|j ids IH]; intros [|m L] a p b q i H I; cbn in H; try tauto; [destruct I|].
  destruct H as (-> & _ & r & G & H). destruct I as [->|I]; [eapply hget_key; eauto|eauto].
Qed.
Definition chain (h : heap) (ids : list nat) (L : list Z) : Prop :=
  (exists b, lseg h 0 1 (1%nat :: ids) (0 :: L) b 0) /\ NoDup (1%nat :: ids) /\ length h = S (length ids) /\
  Forall (fun m => m <> 0) L /\ NoDup L.

Lemma search_spec : forall m h ids L a p b fuel, lseg h a p ids L b 0 -> (length ids < fuel)%nat ->
  (search fuel p m h = Ret O /\ ~ In m L) \/
  (exists r x y X Y, search fuel p m h = Ret r /\ ids = x ++ r :: y /\ L = X ++ m :: Y /\ length x = length X /\ r <> O).
Proof.
  intros m h ids. induction ids as [|i ids IH]; intros [|k L] a p b fuel H F; (destruct fuel as [|f]; [cbn in F; lia|]); cbn [lseg search] in *; try tauto.
  - destruct H as [_ ->]. left. cbn. auto.
  - destruct H as (-> & N & r & G & H). destruct (Nat.eqb_spec i 0); [congruence|]. rewrite G. cbn [bind nh nx].
    destruct (Z.eqb_spec k m) as [->|NE].
    + right. exists i, [], ids, [], L. auto 10.
    + cbn in F. destruct (IH L i r b f H ltac:(lia)) as [(E & NI)|(s & x & y & X & Y & E & E1 & E2 & E3 & E4)].
      * left. rewrite E. split; [auto|]. cbn. intros [Q|Q]; [congruence|auto].
      * right. exists s, (i :: x), y, (k :: X), Y. rewrite E, E1, E2. cbn. auto 10.
Qed.
Lemma local_search_spec : forall m h ids L, chain h ids L -> m <> 0 ->
  (local_search m h = Ret O /\ ~ In m L) \/
  (exists r x y X Y, local_search m h = Ret r /\ ids = x ++ r :: y /\ L = X ++ m :: Y /\ length x = length X /\ r <> O).
Proof.
  intros m h ids L ((b & S0) & ND & LN & NZ & NL) M. unfold local_search. destruct (Z.eqb_spec m 0); [tauto|].
  destruct (search_spec m h _ _ _ _ _ (S (length h)) S0) as [(E & NI)|(r & x & y & X & Y & E & E1 & E2 & E3 & E4)]; [cbn [length]; lia| |].
  - left. split; [auto|]. cbn in NI. tauto.
  - right. destruct x as [|i x]; destruct X as [|k X]; cbn [length] in E3; try discriminate; cbn [app] in *.
    + injection E2 as E2 _. congruence.
    + injection E1 as E1 E1'. injection E2 as E2 E2'. exists r, x, y, X, Y. auto 10.
Qed.
Lemma last_spec : forall h ids L a p b fuel, lseg h a p ids L b 0 -> ids <> [] -> (length ids <= fuel)%nat -> last_node fuel p h = Ret b.
Proof.
  intros h ids. induction ids as [|i ids IH]; intros [|k L] a p b fuel H N F; cbn [lseg] in H; try tauto.
  cbn in F. destruct fuel as [|f]; [lia|]. destruct H as (-> & Ni & r & G & H). cbn [last_node]. rewrite G. cbn [bind nx].
  destruct ids as [|j ids].
  - destruct L; cbn in H; [|tauto]. destruct H as [-> ->]. auto.
  - destruct L as [|l L]; cbn [lseg] in H; [tauto|]. pose proof H as (-> & Nj & _). destruct (Nat.eqb_spec j 0); [congruence|].
    apply (IH (l :: L) i j b f H); [discriminate|cbn in *; lia].
Qed.

(** ** local_add, local_rem on the list of hidden modules *)
Lemma existsb_In : forall m L, existsb (Z.eqb m) L = true <-> In m L.
Proof. intros. rewrite existsb_exists. split; [intros (x & I & E); apply Z.eqb_eq in E; subst; auto|]. intros I. exists m. split; [auto|apply Z.eqb_refl]. Qed.
Lemma add_ok : forall m h ids L fresh, chain h ids L -> m <> 0 -> (forall q, fresh = Some q -> q <> O /\ ~ In q (map fst h)) ->
  exists h' ids', chain h' ids' (if fst (match fresh with Some _ => true | None => existsb (Z.eqb m) L end, 0) then hide m L else L) /\
    local_add m fresh h = Ret (match fresh with Some _ => true | None => existsb (Z.eqb m) L end, h') /\
    (forall k, In k (map fst h') -> In k (map fst h) \/ fresh = Some k).
Proof.
  intros m h ids L fresh C M FR. unfold local_add. destruct (Z.eqb_spec m 0); [tauto|]. cbn [fst].
  destruct (local_search_spec m h ids L C M) as [(E & NI)|(r & x & y & X & Y & E & E1 & E2 & E3 & E4)]; rewrite E; cbn [bind].
  - cbn [Nat.eqb negb]. destruct C as ((b & S0) & ND & LN & NZ & NL).
    rewrite (last_spec h _ _ _ _ b (length h) S0); [|discriminate|cbn [length]; lia]. cbn [bind].
    assert (EX : existsb (Z.eqb m) L = false) by (destruct (existsb (Z.eqb m) L) eqn:Q; auto; apply existsb_In in Q; tauto).
    destruct fresh as [q|].
    2:{ rewrite EX. exists h, ids. split; [|split; [auto|auto]]. split; [eauto|auto]. }
    destruct (FR q eq_refl) as [Q0 QN]. set (h1 := (q, mk_nd 0 0 0) :: h).
    assert (NB : In b (1%nat :: ids)) by (eapply lseg_last; eauto; discriminate).
    assert (KEYS : forall i, In i (1%nat :: ids) -> In i (map fst h)).
    { intros i I. eapply lseg_keys; eauto. }
    assert (BQ : b <> q) by (intros ->; apply QN, KEYS; auto).
    (* split the list before b *)
    destruct (@exists_last _ (1%nat :: ids)) as (ids0 & b' & EI); [discriminate|].
    destruct (@exists_last _ (0 :: L)) as (L0 & z & EL); [discriminate|].
    assert (LE : length ids0 = length L0).
    { pose proof (lseg_length _ _ _ _ _ _ _ S0) as Q. rewrite EI, EL, !app_length in Q. cbn in Q. lia. }
    rewrite EI, EL in S0. apply lseg_app in S0; [|auto]. destruct S0 as (c & r & S1 & S2). cbn [lseg] in S2.
    destruct S2 as (-> & Nb & r2 & G & -> & ->).
    assert (G1 : hget b h1 = Ret (mk_nd z c 0)) by (unfold h1; cbn [hget]; destruct (Nat.eqb_spec b q); [congruence|auto]).
    rewrite G1. cbn [bind nh prv].
    destruct (hset_spec b (mk_nd z c q) h1 _ G1) as (h2 & E2 & A2 & B2 & C2 & D2). rewrite E2. cbn [bind].
    assert (G2 : hget q h2 = Ret (mk_nd 0 0 0)) by (rewrite B2 by auto; unfold h1; cbn; rewrite Nat.eqb_refl; auto).
    destruct (hset_spec q (mk_nd m b 0) h2 _ G2) as (h3 & E3 & A3 & B3 & C3 & D3). rewrite E3. cbn [bind].
    exists h3, (ids ++ [q]).
    assert (HE : hide m L = L ++ [m]) by (unfold hide; rewrite EX; auto).
    assert (NDb : NoDup (ids0 ++ [b])) by (rewrite <- EI; auto).
    assert (NIb : ~ In b ids0) by (apply NoDup_remove_2 in NDb; rewrite app_nil_r in NDb; auto).
    assert (OLD : forall i, In i ids0 -> hget i h3 = hget i h).
    { intros i I. assert (i <> b) by (intros ->; tauto). assert (i <> q).
      { intros ->. apply QN, KEYS. rewrite EI. apply in_or_app. auto. }
      rewrite B3, B2 by auto. unfold h1. cbn [hget]. destruct (Nat.eqb_spec i q); [congruence|auto]. }
    split; [|split; [auto|]].
    + rewrite HE. split; [|split; [|split; [|split]]].
      * exists q. change (1%nat :: ids ++ [q]) with ((1%nat :: ids) ++ [q]). change (0 :: L ++ [m]) with ((0 :: L) ++ [m]).
        rewrite EI, EL, <- !app_assoc. apply lseg_app; [auto|]. exists c, b. split; [apply lseg_frame with (h := h); auto|].
        cbn [app lseg]. split; [auto|]. split; [auto|]. exists q. split; [rewrite B3 by auto; exact A2|].
        split; [auto|]. split; [auto|]. exists O. split; [exact A3|]. auto.
      * change (1%nat :: ids ++ [q]) with ((1%nat :: ids) ++ [q]).
        apply NoDup_rev in ND. rewrite <- (rev_involutive ((1%nat :: ids) ++ [q])). apply NoDup_rev. rewrite rev_app_distr. cbn [rev app].
        constructor; [|exact ND]. intro I. change (rev ids ++ [1%nat]) with (rev (1%nat :: ids)) in I. apply in_rev in I. apply QN, KEYS. auto.
      * rewrite C3, C2. unfold h1. cbn [length]. rewrite app_length. cbn [length]. lia.
      * apply Forall_app. split; [auto|]. constructor; auto.
      * rewrite <- (rev_involutive (L ++ [m])). apply NoDup_rev. rewrite rev_app_distr. cbn [rev app]. constructor; [intro I; apply in_rev in I; tauto|]. apply NoDup_rev. auto.
    + intros k K. rewrite D3, D2 in K. cbn in K. destruct K as [->|K]; auto.
  - destruct (Nat.eqb_spec r 0); [congruence|]. cbn [negb]. exists h, ids.
    assert (IN : In m L) by (rewrite E2; apply in_or_app; right; left; auto).
    pose proof (proj2 (existsb_In m L) IN) as EX.
    assert (HE : hide m L = L) by (unfold hide; rewrite EX; auto). split; [|split; [|auto]].
    + destruct fresh; [rewrite HE; auto|]. destruct (existsb (Z.eqb m) L); [rewrite HE|]; auto.
    + destruct fresh; [auto|]. rewrite EX. auto.
Qed.
Lemma unhide_split : forall m X Y, NoDup (X ++ m :: Y) -> unhide m (X ++ m :: Y) = X ++ Y.
Proof.
  intros m X Y N. assert (K : forall l, ~ In m l -> filter (fun x => negb (m =? x)) l = l).
  { induction l as [|a l IH]; intros NI; cbn [filter]; [auto|]. destruct (Z.eqb_spec m a) as [->|Q]; [destruct NI; left; auto|]. cbn [negb]. rewrite IH; auto. intro; apply NI; right; auto. }
  apply NoDup_remove in N. destruct N as [_ N]. unfold unhide. rewrite filter_app. cbn [filter]. rewrite Z.eqb_refl. cbn [negb].
  rewrite !K; auto; intro; apply N; apply in_or_app; auto.
Qed.
Lemma unhide_absent : forall m L, ~ In m L -> unhide m L = L.
Proof.
  intros m. unfold unhide. induction L as [|a l IH]; intros NI; cbn [filter]; [auto|]. destruct (Z.eqb_spec m a) as [->|Q]; [destruct NI; left; auto|]. cbn [negb]. rewrite IH; auto. intro; apply NI; right; auto.
Qed.
Lemma rem_ok : forall m h ids L, chain h ids L -> m <> 0 -> exists h' ids', local_rem m h = Ret h' /\ chain h' ids' (unhide m L) /\
  (forall k, In k (map fst h') -> In k (map fst h)).
Proof.
  intros m h ids L C M. unfold local_rem. destruct (Z.eqb_spec m 0); [tauto|].
  destruct (local_search_spec m h ids L C M) as [(E & NI)|(r & x & y & X & Y & E & E1 & E2 & E3 & E4)]; rewrite E; cbn [bind].
  - cbn [Nat.eqb]. exists h, ids. rewrite unhide_absent by auto. auto.
  - destruct (Nat.eqb_spec r 0); [congruence|]. destruct C as ((b & S0) & ND & LN & NZ & NL).
    subst ids L. rewrite unhide_split by auto.
    change (1%nat :: x ++ r :: y) with ((1%nat :: x) ++ r :: y) in *. change (0 :: X ++ m :: Y) with ((0 :: X) ++ m :: Y) in S0.
    apply lseg_app in S0; [|cbn; auto]. destruct S0 as (a & r' & S1 & S2). cbn [lseg] in S2. destruct S2 as (-> & _ & s & G & S3).
    (* the predecessor a is the last of 1 :: x *)
    destruct (@exists_last _ (1%nat :: x)) as (x0 & a' & EX); [discriminate|].
    destruct (@exists_last _ (0 :: X)) as (X0 & z & EXX); [discriminate|].
    assert (LE : length x0 = length X0).
    { assert (Q : length (1%nat :: x) = length (0 :: X)) by (cbn; auto). rewrite EX, EXX, !app_length in Q. cbn in Q. lia. }
    rewrite EX, EXX in S1. apply lseg_app in S1; [|auto]. destruct S1 as (c & a2 & S1 & S1b). cbn [lseg] in S1b.
    destruct S1b as (-> & Na & r2 & Ga & -> & ->).
    rewrite EX in ND. rewrite <- app_assoc in ND. cbn [app] in ND.
    assert (D1 : ~ In a x0 /\ ~ In r x0 /\ a <> r /\ ~ In a y /\ ~ In r y /\ (forall i, In i x0 -> In i y -> False)).
    { apply NoDup_remove in ND. destruct ND as [N1 N2]. apply NoDup_remove in N1. destruct N1 as [N1 N3].
      rewrite in_app_iff in N2, N3. cbn [In] in N2. split; [tauto|]. split; [tauto|]. split; [intro; subst; tauto|]. split; [tauto|]. split; [tauto|].
      intros i I J. clear - N1 I J. induction x0 as [|k x0 IH]; [destruct I|]. cbn in N1. inversion N1; subst. destruct I as [->|I]; [|auto].
      apply H1. apply in_or_app. auto. }
    destruct D1 as (D1 & D2 & D3 & D4 & D5 & D6).
    rewrite G. cbn [bind nx].
    (* first store: the successor's back link *)
    assert (ST1 : exists h1, (if Nat.eqb s 0 then Ret h else do a0 <- hget s h; hset s (mk_nd (nh a0) (prv (mk_nd m a s)) (nx a0)) h) = Ret h1 /\
              length h1 = length h /\ map fst h1 = map fst h /\ hget r h1 = Ret (mk_nd m a s) /\ hget a h1 = Ret (mk_nd z c r) /\
              (forall i, In i x0 -> hget i h1 = hget i h) /\ lseg h1 a s y Y (match y with [] => a | _ => b end) 0).
    { destruct y as [|s' y]; (destruct Y as [|k Y]; cbn [lseg] in S3; try tauto).
      - destruct S3 as [-> ->]. cbn [Nat.eqb]. exists h. split; [auto|]. split; [auto|]. split; [auto|]. split; [auto|]. split; [auto|]. split; [auto|]. cbn. auto.
      - destruct S3 as (-> & Ns & t & Gs & S3). destruct (Nat.eqb_spec s' 0); [congruence|]. rewrite Gs. cbn [bind nh prv nx].
        destruct (hset_spec s' (mk_nd k a t) h _ Gs) as (h1 & E1 & A1 & B1 & C1 & K1). exists h1. split; [auto|]. split; [auto|]. split; [auto|].
        split; [rewrite B1; auto; intro; subst; apply D5; left; auto|]. split; [rewrite B1; auto; intro; subst; apply D4; left; auto|].
        split; [intros i I; apply B1; intro; subst; apply (D6 s' I); left; auto|].
        cbn [lseg]. split; [auto|]. split; [auto|]. exists t. split; [auto|].
        apply lseg_frame with (h := h); auto. intros i I. apply B1. intros ->. clear - ND I. apply nodup_r in ND. inversion ND as [|u v _ N1]; subst. inversion N1 as [|u v _ N2]; subst. inversion N2; auto. }
    destruct ST1 as (h1 & EQ1 & LN1 & KE1 & Gr1 & Ga1 & F1 & S4). rewrite EQ1. cbn [bind]. rewrite Gr1. cbn [bind prv nx].
    destruct (Nat.eqb_spec a 0); [congruence|]. rewrite Ga1. cbn [bind nh prv].
    destruct (hset_spec a (mk_nd z c s) h1 _ Ga1) as (h2 & EQ2 & A2 & B2 & C2 & K2). rewrite EQ2. cbn [bind].
    assert (Gr2 : hget r h2 = Ret (mk_nd m a s)) by (rewrite B2; auto).
    destruct (hfree_spec r h2 _ Gr2) as (h3 & EQ3 & B3 & C3 & K3 & _). rewrite EQ3.
    exists h3, (x ++ y). split; [auto|]. split; [|intros k K; rewrite <- KE1, <- K2; auto].
    split; [|split; [|split; [|split]]].
    + exists (match y with [] => a | _ => b end). change (1%nat :: x ++ y) with ((1%nat :: x) ++ y). change (0 :: X ++ Y) with ((0 :: X) ++ Y).
      rewrite EX, EXX, <- !app_assoc. apply lseg_app; [auto|]. exists c, a. split.
      * apply lseg_frame with (h := h); auto. intros i I. rewrite B3, B2 by (intro; subst; tauto). auto.
      * cbn [app lseg]. split; [auto|]. split; [auto|]. exists s. split; [rewrite B3 by auto; exact A2|].
        apply lseg_frame with (h := h1); auto. intros i I. rewrite B3, B2 by (intro; subst; tauto). auto.
    + change (1%nat :: x ++ y) with ((1%nat :: x) ++ y). rewrite EX, <- app_assoc. cbn [app].
      change (x0 ++ a :: r :: y) with (x0 ++ [a] ++ r :: y) in ND. rewrite app_assoc in ND. apply NoDup_remove_1 in ND. rewrite <- app_assoc in ND. exact ND.
    + rewrite app_length in *. cbn [length] in LN. lia.
    + apply Forall_app in NZ. destruct NZ as [N1 N2]. inversion N2; subst. apply Forall_app. auto.
    + eapply NoDup_remove_1; eauto.
Qed.

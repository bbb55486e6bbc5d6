(** The object in the heap *)
From Coq Require Import Permutation.
From Verif Require Import CBase LifeModel TpLifeSpec TpLifeProof TpLifeProof2 IniLifeModel IniLifeSpec IniLifeProof IniLifeProof2.
Open Scope nat_scope.

Lemma load_data s0 s l pre i post R k v : own s0 s (FL l (pre ++ i :: post) ++ R) -> nth_error (cnt i) k = Some v -> v <> VU -> load (VP (dat i) 0) k s = Ret (v, s).
Proof.
  intros O N V. unfold FL in O. rewrite db_app in O. cbn [db map] in O. fold (db post) in O.
  apply (r_load s0 s (HB l (pre ++ i :: post) :: nb (pre ++ i :: post) ++ db pre) (db post ++ R) (dat i) true (cnt i) 0 k v); auto. op O.
Qed.
Lemma FL_cnt l pre n d c c' post : FL l (pre ++ (n, d, c') :: post) = HB l (pre ++ (n, d, c) :: post) :: nb (pre ++ (n, d, c) :: post) ++ db pre ++ (d, mk_b true c') :: db post.
Proof.
  unfold FL, HB. rewrite db_app. cbn [db map]. assert (A : hd_ (pre ++ (n, d, c') :: post) = hd_ (pre ++ (n, d, c) :: post)) by (destruct pre; reflexivity).
  assert (B : map nod (pre ++ (n, d, c') :: post) = map nod (pre ++ (n, d, c) :: post)) by (rewrite !map_app; reflexivity).
  assert (C : zlen (pre ++ (n, d, c') :: post) = zlen (pre ++ (n, d, c) :: post)) by (rewrite !zlen_app, !zlen_cons; reflexivity).
  assert (D : nb (pre ++ (n, d, c') :: post) = nb (pre ++ (n, d, c) :: post)).
  { clear. induction pre as [|a pre IH]; [reflexivity|]. cbn [app nb]. rewrite IH. f_equal. f_equal. destruct pre; reflexivity. }
  rewrite A, B, C, D. reflexivity.
Qed.
Lemma store_data s0 s l pre n d c post R k v c' : own s0 s (FL l (pre ++ (n, d, c) :: post) ++ R) -> lput k v c = Some c' ->
  exists s', store (VP d 0) k v s = Ret (tt, s') /\ orc s' = orc s /\ own s0 s' (FL l (pre ++ (n, d, c') :: post) ++ R).
Proof.
  intros O P. rewrite (FL_cnt l pre n d c c post) in O. rewrite (FL_cnt l pre n d c c' post).
  destruct (r_store s0 s (HB l (pre ++ (n, d, c) :: post) :: nb (pre ++ (n, d, c) :: post) ++ db pre) (db post ++ R) d true c 0 k v c') as (s1 & E & O1 & Q); [op O|exact P|].
  exists s1. split; [exact E|]. split; [exact Q|]. op O1.
Qed.
Lemma load_head s0 s l its R : own s0 s (FL l its ++ R) -> load (VP l 0) 0 s = Ret (ptr (hd_ its), s) /\ load (VP l 0) 2 s = Ret (VI (zlen its), s).
Proof.
  intro O. unfold FL, HB in O. cbn [app] in O. split; [apply (r_load s0 s [] _ l true _ 0 0 _ O eq_refl); apply ptr_ne|apply (r_load s0 s [] _ l true _ 0 2 _ O eq_refl); discriminate].
Qed.
Lemma search_kv_ok s0 k R its fuel s l : own s0 s (FL l its ++ R) -> Forall named its -> length its < fuel ->
  (exists pre x post, its = pre ++ x :: post /\ nam x = k /\ Forall (fun i => nam i <> k) pre /\ search_kv fuel (VP l 0) k s = Ret (VP (dat x) 0, s)) \/
  (Forall (fun i => nam i <> k) its /\ search_kv fuel (VP l 0) k s = Ret (V0, s)).
Proof.
  intros O NM F. destruct (load_head s0 s l its R O) as (H0 & H2). unfold search_kv. rewrite (bnd_ret _ _ _ _ _ H2). cbn [num]. rewrite (bnd_ret (ret (zlen its)) _ s (zlen its) s eq_refl). destruct (Z.eqb_spec (zlen its) 0) as [E|N].
  - right. destruct its; [split; [constructor|reflexivity]|]. rewrite zlen_cons in E. pose proof (zlen_nonneg its). lia.
  - rewrite (bnd_ret _ _ _ _ _ H0). apply (find_ok s0 k (HB l its :: R) its fuel s); auto. unfold FL in O. op O.
Qed.
(** ** representation *)
Record sec := mk_sec { sn : nat; sa : nat; nm : Z; pl : nat; kvs : list (nat * nat * Z * Z) }.
Definition isec (x : sec) : item := (sn x, sa x, [VI (nm x); VP (pl x) 0]).
Definition ikv (y : nat * nat * Z * Z) : item := let '(n, d, k, v) := y in (n, d, [VI k; VI v]).
Definition kv2 (y : nat * nat * Z * Z) : Z * Z := let '(n, d, k, v) := y in (k, v).
Definition SUB (x : sec) : list (nat * block) := FL (pl x) (map ikv (kvs x)).
Definition lostb (W : list nat) : list (nat * block) := map (fun b => (b, mk_b true [V0; V0; VI 0])) W.
Definition REP (p ls : nat) (u : val) (xs : list sec) (W : list nat) : list (nat * block) := (p, mk_b true [VP ls 0; u]) :: FL ls (map isec xs) ++ flat_map SUB xs ++ lostb W.
Definition abs1 (x : sec) : Z * list (Z * Z) := (nm x, map kv2 (kvs x)).
Lemma named_sec xs : Forall named (map isec xs). Proof. apply Forall_forall. intros i I. apply in_map_iff in I. destruct I as (x & <- & _). eexists _, _. reflexivity. Qed.
Lemma named_kv ys : Forall named (map ikv ys). Proof. apply Forall_forall. intros i I. apply in_map_iff in I. destruct I as ([[[n d] k] v] & <- & _). eexists _, _. reflexivity. Qed.
Lemma pos_some {A} k (pre : list (Z * A)) x post : fst x = k -> Forall (fun y => fst y <> k) pre -> pos k (pre ++ x :: post) = Some (length pre).
Proof. intros E F. induction F as [|a pre N F IH]; cbn; [rewrite (proj2 (Z.eqb_eq _ _) E); reflexivity|]. apply Z.eqb_neq in N. rewrite N, IH. reflexivity. Qed.
Lemma pos_none {A} k (l : list (Z * A)) : Forall (fun y => fst y <> k) l -> pos k l = None.
Proof. intro F. induction F as [|a pre N F IH]; cbn; [reflexivity|]. apply Z.eqb_neq in N. rewrite N, IH. reflexivity. Qed.
Lemma set_mid {A} (pre : list A) x y post : set_at (length pre) y (pre ++ x :: post) = pre ++ y :: post. Proof. induction pre as [|a pre IH]; [reflexivity|]. cbn. rewrite IH. reflexivity. Qed.
Lemma drop_mid {A} (pre : list A) x post : drop_at (length pre) (pre ++ x :: post) = pre ++ post. Proof. induction pre as [|a pre IH]; [reflexivity|]. cbn. rewrite IH. reflexivity. Qed.
Lemma nth_mid {A} (pre : list A) x post : nth_error (pre ++ x :: post) (length pre) = Some x. Proof. induction pre as [|a pre IH]; [reflexivity|exact IH]. Qed.
Lemma map_split {A B} (f : A -> B) l p x q : map f l = p ++ x :: q -> exists p' x' q', l = p' ++ x' :: q' /\ map f p' = p /\ f x' = x /\ map f q' = q.
Proof.
  revert l. induction p as [|a p IH]; intros l E.
  - destruct l as [|y l]; [discriminate|]. cbn in E. injection E as <- <-. exists [], y, l. auto.
  - destruct l as [|y l]; [discriminate|]. cbn in E. injection E as <- E. destruct (IH l E) as (p' & x' & q' & -> & <- & <- & <-). exists (y :: p'), x', q'. auto.
Qed.
Lemma nam_kv ys k : Forall (fun i => nam i <> k) (map ikv ys) -> Forall (fun y => fst y <> k) (map kv2 ys).
Proof. induction ys as [|[[[n d] a] v] ys IH]; cbn; intro F; [constructor|]. inversion_clear F. constructor; auto. Qed.
Lemma nam_sec xs k : Forall (fun i => nam i <> k) (map isec xs) -> Forall (fun y => fst y <> k) (map abs1 xs).
Proof. induction xs as [|x xs IH]; cbn; intro F; [constructor|]. inversion_clear F. constructor; auto. Qed.
Definition small (m : nat) (xs : list sec) : Prop := length xs <= m /\ Forall (fun x => length (kvs x) <= m) xs.

Section P.
Variables (cut : Z -> Z) (s0 : st).
Hypothesis W0 : wf s0.
(** the entry part of put *)
Definition put_rest (fuel : nat) (t : val) (k v : Z) : M Z :=
  l <-- load t 1 ;; kv <-- search_kv fuel l k ;; z <-- isnull kv ;;
    if negb z then store kv 1 (VI v) ;;; ret 0%Z
    else kv <-- zeroed [VI 0; VI 0] ;; z <-- isnull kv ;; if z then ret 3%Z
      else store kv 0 (VI (cut k)) ;;; store kv 1 (VI v) ;;;
        ok <-- list_append l kv ;; if ok then ret 0%Z else free_ kv ;;; ret 1%Z.
Lemma load_plist s p ls u pre x post W : own s0 s (REP p ls u (pre ++ x :: post) W) -> load (VP (sa x) 0) 1 s = Ret (VP (pl x) 0, s).
Proof.
  intro O. apply (load_data s0 s ls (map isec pre) (isec x) (map isec post) ((p, mk_b true [VP ls 0; u]) :: flat_map SUB (pre ++ x :: post) ++ lostb W)); [|reflexivity|discriminate].
  unfold REP in O. rewrite map_app in O. cbn [map] in O. op O.
Qed.
(** everything but the list of section x *)
Definition OTH (p ls : nat) (u : val) (pre : list sec) (x : sec) (post : list sec) (W : list nat) : list (nat * block) :=
  (p, mk_b true [VP ls 0; u]) :: FL ls (map isec pre ++ isec x :: map isec post) ++ flat_map SUB pre ++ flat_map SUB post ++ lostb W.
Lemma rep_oth s p ls u pre x post W : own s0 s (REP p ls u (pre ++ x :: post) W) <-> own s0 s (SUB x ++ OTH p ls u pre x post W).
Proof. unfold REP, OTH. rewrite map_app, flat_map_app. cbn [map flat_map]. split; intro O; op O. Qed.
Definition with_kvs (x : sec) (l : list (nat * nat * Z * Z)) : sec := mk_sec (sn x) (sa x) (nm x) (pl x) l.
Lemma put_rest_ok fuel p ls u pre x post W m k v s a : own s0 s (REP p ls u (pre ++ x :: post) W) -> small m (pre ++ x :: post) -> m < fuel -> secs a = map abs1 (pre ++ x :: post) ->
  exists s' x' r a', put_rest fuel (VP (sa x) 0) k v s = Ret (r, s') /\ a_put_entry cut (length pre) k v a (orc s) = (r, a', orc s') /\
    own s0 s' (REP p ls u (pre ++ x' :: post) W) /\ small (S m) (pre ++ x' :: post) /\ secs a' = map abs1 (pre ++ x' :: post) /\ cache a' = cache a /\ lost a' = lost a /\ sa x' = sa x.
Proof.
  intros O (SM1 & SM2) F EA. unfold put_rest. rewrite (bnd_ret _ _ _ _ _ (load_plist _ _ _ _ _ _ _ _ O)). apply rep_oth in O. unfold SUB in O.
  assert (LX : length (kvs x) <= m) by (apply Forall_app in SM2; destruct SM2 as (_ & SM2); inversion_clear SM2; auto).
  assert (SMX : forall l, length l <= S m -> small (S m) (pre ++ with_kvs x l :: post)).
  { intros l L. split; [rewrite app_length in *; cbn [length] in *; lia|]. apply Forall_app in SM2. destruct SM2 as (A & B). inversion_clear B as [|? ? B1 B2]. apply Forall_app. split; [eapply Forall_impl; [|exact A]; cbn; intros; lia|]. constructor; [exact L|]. eapply Forall_impl; [|exact B2]; cbn; intros; lia. }
  assert (EN : nth_error (secs a) (length pre) = Some (abs1 x)) by (rewrite EA, map_app, <- (map_length abs1 pre); apply nth_mid).
  assert (EE : entries (length pre) a = map kv2 (kvs x)) by (unfold entries; rewrite EN; reflexivity).
  assert (EW : forall l, secs (with_entries (length pre) (map kv2 l) a) = map abs1 (pre ++ with_kvs x l :: post)).
  { intro l. unfold with_entries. cbn [secs]. rewrite EN, EA, !map_app. cbn [map abs1 fst]. rewrite <- (map_length abs1 pre). apply set_mid. }
  assert (OO : forall l s, own s0 s (FL (pl x) (map ikv l) ++ OTH p ls u pre x post W) -> own s0 s (REP p ls u (pre ++ with_kvs x l :: post) W)).
  { intros l s1 O1. apply rep_oth. exact O1. }
  assert (XX : with_kvs x (kvs x) = x) by (destruct x; reflexivity).
  destruct (search_kv_ok s0 k (OTH p ls u pre x post W) (map ikv (kvs x)) fuel s (pl x) O (named_kv _) ltac:(rewrite map_length; lia)) as [(q & y & q' & E1 & E2 & E3 & E4)|(E1 & E2)].
  - rewrite (bnd_ret _ _ _ _ _ E4). cbn [isnull]. rewrite (bnd_ret (ret false) _ s false s eq_refl). cbn [negb]. rewrite E1 in O. destruct (map_split _ _ _ _ _ E1) as (z & [[[n d] k'] v'] & z' & EK & M1 & M2 & M3).
    cbn [ikv] in M2. subst y. cbn [nam cnt snd] in E2. subst k'. cbn [dat fst snd].
    destruct (store_data s0 s (pl x) q n d _ q' _ 1 (VI v) _ O eq_refl) as (s1 & ES & Q1 & O1). rewrite (bnd_ret _ _ _ _ _ ES).
    exists s1, (with_kvs x (z ++ (n, d, k, v) :: z')), 0%Z, (with_entries (length pre) (map kv2 (z ++ (n, d, k, v) :: z')) a). split; [reflexivity|].
    assert (PS : pos k (entries (length pre) a) = Some (length z)).
    { rewrite EE, EK, map_app. cbn [map kv2]. rewrite <- (map_length kv2 z). apply pos_some; [reflexivity|]. apply nam_kv. rewrite M1. exact E3. }
    split; [|split; [|split; [|split; [apply EW|split; [reflexivity|split; [reflexivity|reflexivity]]]]]].
    + unfold a_put_entry. rewrite PS. rewrite Q1. f_equal. f_equal. f_equal. rewrite EE, EK, !map_app. cbn [map kv2]. rewrite <- (map_length kv2 z). rewrite nth_mid, set_mid. reflexivity.
    + apply OO. rewrite map_app. cbn [map ikv]. rewrite M1, M3. exact O1.
    + apply SMX. rewrite EK, app_length in LX. rewrite app_length. cbn [length] in *. lia.
  - rewrite (bnd_ret _ _ _ _ _ E2). cbn [isnull]. rewrite (bnd_ret (ret true) _ s true s eq_refl). cbn [negb].
    assert (PS : pos k (entries (length pre) a) = None) by (rewrite EE; apply pos_none, nam_kv; exact E1).
    assert (SAME : forall s2, own s0 s2 (FL (pl x) (map ikv (kvs x)) ++ OTH p ls u pre x post W) -> own s0 s2 (REP p ls u (pre ++ x :: post) W)) by (intros s2 O2; rewrite <- XX at 1; apply OO; exact O2).
    assert (SMS : small (S m) (pre ++ x :: post)) by (rewrite <- XX at 1; apply SMX; lia).
    destruct (zeroed_ok s0 s _ [VI 0; VI 0] O) as (b & s1 & E3 & Q3 & H). rewrite (bnd_ret _ _ _ _ _ E3). unfold a_put_entry. rewrite PS. destruct (nxt_answer (orc s)) as [g o]. cbn [fst snd] in *. destruct g; cbn [negb].
    + destruct H as (d & -> & O1). cbn [isnull]. rewrite (bnd_ret (ret false) _ s1 false s1 eq_refl). sto O1 Q3 (@nil (nat * block)). sto O1 Q3 (@nil (nat * block)).
      destruct (append_ok s0 s3 _ _ _ _ _ O1) as (s4 & E4 & Q4 & H). rewrite (bnd_ret _ _ _ _ _ E4). rewrite Q3 in *. destruct (nxt_answer o) as [g2 o2]. cbn [fst snd] in *. destruct g2; cbn [negb].
      * destruct H as (n & O4). exists s4, (with_kvs x (kvs x ++ [(n, d, cut k, v)])), 0%Z, (with_entries (length pre) (map kv2 (kvs x ++ [(n, d, cut k, v)])) a). split; [reflexivity|].
        split; [rewrite Q4, EE, map_app; reflexivity|]. split; [apply OO; rewrite map_app; exact O4|]. split; [apply SMX; rewrite app_length; cbn [length]; lia|]. split; [apply EW|]. auto.
      * destruct (r_free s0 s4 [] _ d _ W0 H) as (s5 & E5 & O5 & Q5). rewrite (bnd_ret _ _ _ _ _ E5). exists s5, x, 1%Z, a. split; [reflexivity|]. split; [rewrite Q5, Q4; reflexivity|]. split; [apply SAME; exact O5|]. auto 6.
    + destruct H as (-> & O1). cbn [isnull]. exists s1, x, 3%Z, a. split; [reflexivity|]. split; [rewrite Q3; reflexivity|]. split; [apply SAME; exact O1|]. auto 6.
Qed.
End P.

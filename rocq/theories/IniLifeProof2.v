(** Lists in the heap: freeing, removing, finding *)
From Coq Require Import Permutation.
From Verif Require Import CBase LifeModel TpLifeSpec TpLifeProof TpLifeProof2 IniLifeModel IniLifeSpec IniLifeProof.
Open Scope nat_scope.

Lemma free_node_ok s0 s l h t z n x d c R : wf s0 -> own s0 s ((l, mk_b true [h; t; VI z]) :: (n, mk_b true [x; VP d 0]) :: (d, mk_b true c) :: R) -> x <> VU ->
  exists s', free_node (VP l 0) (VP n 0) s = Ret (x, s') /\ orc s' = orc s /\ own s0 s' ((l, mk_b true [h; t; VI (z - 1)]) :: R).
Proof.
  intros W O X. unfold free_node. match type of O with own _ _ (?a :: _) => rewrite (bnd_ret _ _ _ _ _ (r_load s0 s [a] _ n true _ 0 0 x O eq_refl X)); ld [a] end.
  match type of O with own _ _ (?a :: ?b :: _) => destruct (r_free s0 s [a; b] _ d c W O) as (s1 & E1 & O1 & Q1) end. rewrite (bnd_ret _ _ _ _ _ E1). cbn [app] in O1.
  match type of O1 with own _ _ (?a :: _) => destruct (r_free s0 s1 [a] _ n _ W O1) as (s2 & E2 & O2 & Q2) end. rewrite (bnd_ret _ _ _ _ _ E2). cbn [app] in O2. clear O O1.
  ld (@nil (nat * block)). cbn [num]. rewrite (bnd_ret _ _ s2 z s2 eq_refl). assert (Q : orc s2 = orc s) by congruence. sto O2 Q (@nil (nat * block)). eexists. split; [reflexivity|]. split; [exact Q|exact O2].
Qed.
Lemma clear_ok s0 l h t R : wf s0 -> forall its fuel s z, own s0 s ((l, mk_b true [h; t; VI z]) :: nb its ++ db its ++ R) -> length its < fuel ->
  exists s', clear_loop fuel (VP l 0) (ptr (hd_ its)) s = Ret (tt, s') /\ orc s' = orc s /\ own s0 s' ((l, mk_b true [h; t; VI (z - zlen its)]) :: R).
Proof.
  intro W. induction its as [|[[n d] c] its IH]; intros fuel s z O F; (destruct fuel as [|f]; [cbn in F; lia|]); cbn [clear_loop].
  - exists s. split; [reflexivity|]. split; [reflexivity|]. change (zlen (@nil item)) with 0%Z. rewrite Z.sub_0_r. exact O.
  - cbn [hd_ ptr isnull nod fst]. rewrite (bnd_ret _ _ s false s eq_refl). cbn [nb db map nod dat cnt fst snd] in O.
    destruct (free_node_ok s0 s l h t z n (ptr (hd_ its)) d c (nb its ++ db its ++ R) W) as (s1 & E1 & Q1 & O1); [op O|apply ptr_ne|]. rewrite (bnd_ret _ _ _ _ _ E1).
    destruct (IH f s1 (z - 1)%Z O1 ltac:(cbn in F; lia)) as (s2 & E2 & Q2 & O2). exists s2. split; [exact E2|]. split; [congruence|]. rewrite zlen_cons. replace (z - (1 + zlen its))%Z with (z - 1 - zlen its)%Z by lia. exact O2.
Qed.
Lemma list_free_ok s0 s l its R fuel : wf s0 -> own s0 s (FL l its ++ R) -> length its < fuel ->
  exists s', list_free fuel (VP l 0) s = Ret (tt, s') /\ orc s' = orc s /\ own s0 s' R.
Proof.
  intros W O F. unfold list_free. unfold FL, HB in O. cbn [app] in O. ld (@nil (nat * block)).
  destruct (clear_ok s0 l (ptr (hd_ its)) (ptr (rr (map nod its))) R W its fuel s (zlen its)) as (s1 & E1 & Q1 & O1); [op O|exact F|]. rewrite (bnd_ret _ _ _ _ _ E1). clear O. rename O1 into O, Q1 into Q.
  sto O Q (@nil (nat * block)). sto O Q (@nil (nat * block)). sto O Q (@nil (nat * block)). destruct (r_free s0 _ [] _ l _ W O) as (s5 & E5 & O5 & Q5). exists s5. split; [exact E5|]. split; [congruence|exact O5].
Qed.
(** ** distinct addresses *)
Lemma NoDup_app_remove_l {A} (l l' : list A) : NoDup (l ++ l') -> NoDup l'.
Proof. induction l as [|a l IH]; [auto|]. cbn. intro H. inversion_clear H. auto. Qed.
Lemma NoDup_app_remove_r {A} (l l' : list A) : NoDup (l ++ l') -> NoDup l.
Proof. induction l as [|a l IH]; intro H; [constructor|]. cbn in H. inversion_clear H as [|? ? N1 N2]. constructor; [intro I; apply N1; apply in_or_app; auto|auto]. Qed.
Lemma own_nd s0 s L : own s0 s L -> NoDup (map fst L). Proof. intros (_ & H & _). exact H. Qed.
Lemma nb_fst its : map fst (nb its) = map nod its. Proof. induction its as [|i r IH]; [reflexivity|]. cbn. rewrite IH. reflexivity. Qed.
Lemma db_fst its : map fst (db its) = map dat its. Proof. unfold db. rewrite map_map. reflexivity. Qed.
Lemma nd_nod s0 s A its B : own s0 s (A ++ nb its ++ B) -> NoDup (map nod its).
Proof. intro O. apply own_nd in O. rewrite !map_app, nb_fst in O. apply NoDup_app_remove_l in O. apply NoDup_app_remove_r in O. exact O. Qed.
Lemma nd_dat s0 s A its B : own s0 s (A ++ db its ++ B) -> NoDup (map dat its).
Proof. intro O. apply own_nd in O. rewrite !map_app, db_fst in O. apply NoDup_app_remove_l in O. apply NoDup_app_remove_r in O. exact O. Qed.
Lemma rr_in l x : rr l = Some x -> In x l.
Proof. induction l as [|a l IH]; [discriminate|]. destruct l as [|b l]; [intros [= ->]; left; reflexivity|]. intro H. right. apply IH. exact H. Qed.
Lemma rr_cons a l : l <> [] -> rr (a :: l) = rr l. Proof. destruct l; [congruence|reflexivity]. Qed.
Lemma rr_some l : l <> [] -> exists x, rr l = Some x.
Proof. induction l as [|a l IH]; [congruence|]. intros _. destruct l as [|b l]; [eexists; reflexivity|]. apply IH. discriminate. Qed.
Lemma rr_app2 a b : b <> [] -> rr (a ++ b) = rr b.
Proof. intro H. induction a as [|x a IH]; [reflexivity|]. cbn [app]. rewrite rr_cons; [exact IH|]. destruct a; [exact H|discriminate]. Qed.
Lemma tail_is x post : NoDup (map nod (x :: post)) -> same (ptr (rr (map nod (x :: post)))) (VP (nod x) 0) = match post with [] => true | _ => false end.
Proof.
  intro ND. destruct post as [|y post]; [cbn; rewrite Nat.eqb_refl; reflexivity|]. cbn [map] in *. inversion_clear ND as [|? ? N1 _]. rewrite rr_cons by discriminate.
  destruct (rr_some (nod y :: map nod post) ltac:(discriminate)) as (e & E). rewrite E. cbn [ptr same]. apply rr_in in E. destruct (Nat.eqb_spec e (nod x)) as [->|]; [tauto|reflexivity].
Qed.
Lemma same_refl d : same (VP d 0) (VP d 0) = true. Proof. cbn. rewrite Nat.eqb_refl. reflexivity. Qed.
Lemma same_ne d e : d <> e -> same (VP d 0) (VP e 0) = false. Proof. cbn. intro N. apply Nat.eqb_neq in N. rewrite N. reflexivity. Qed.
Lemma remove_loop_ok s0 l h x post : wf s0 -> forall mid p fuel s z R, own s0 s ((l, mk_b true [h; ptr (rr (map nod (p :: mid ++ x :: post))); VI z]) :: nb (p :: mid ++ x :: post) ++ (dat x, mk_b true (cnt x)) :: R) ->
  Forall (fun i => dat i <> dat x) mid -> length mid < fuel ->
  exists s', remove_loop fuel (VP l 0) (VP (nod p) 0) (ptr (hd_ (mid ++ x :: post))) (VP (dat x) 0) s = Ret (true, s') /\ orc s' = orc s /\
    own s0 s' ((l, mk_b true [h; ptr (rr (map nod (p :: mid ++ post))); VI (z - 1)]) :: nb (p :: mid ++ post) ++ R).
Proof.
  intros W. induction mid as [|y mid IH]; intros p fuel s z R O FA F; (destruct fuel as [|f]; [cbn in F; lia|]); cbn [remove_loop].
  - cbn [app hd_ ptr isnull] in *. rewrite (bnd_ret _ _ s false s eq_refl). cbn [nb hd_ ptr] in O.
    match type of O with own _ _ (?a :: (?b :: ?c :: _) ++ _) => rewrite (bnd_ret _ _ _ _ _ (r_load s0 s [a; b] _ (nod x) true _ 0 1 (VP (dat x) 0) O eq_refl ltac:(discriminate))) end. rewrite same_refl. cbn [negb].
    assert (ND : NoDup (map nod (x :: post))). { apply (nd_nod s0 s [(l, mk_b true [h; ptr (rr (map nod (p :: x :: post))); VI z]); (nod p, mk_b true [VP (nod x) 0; VP (dat p) 0])] (x :: post) ((dat x, mk_b true (cnt x)) :: R)). cbn [nb]. op O. }
    destruct (free_node_ok s0 s l h (ptr (rr (map nod (p :: x :: post)))) z (nod x) (ptr (hd_ post)) (dat x) (cnt x) ((nod p, mk_b true [VP (nod x) 0; VP (dat p) 0]) :: nb post ++ R) W) as (s1 & E1 & Q1 & O1); [op O|apply ptr_ne|]. rewrite (bnd_ret _ _ _ _ _ E1). clear O E1.
    match type of O1 with own _ _ (?a :: _) => sto O1 Q1 [a] end. ld (@nil (nat * block)). cbn [map]. rewrite rr_cons by discriminate. change (nod x :: map nod post) with (map nod (x :: post)). rewrite (tail_is x post ND).
    destruct post as [|y post].
    + cbv iota. sto O1 Q1 (@nil (nat * block)). eexists. split; [reflexivity|]. split; [exact Q1|]. cbn [map rr ptr nb hd_ app] in *. exact O1.
    + cbv iota. rewrite (bnd_ret (ret tt) _ _ tt _ eq_refl). eexists. split; [reflexivity|]. split; [exact Q1|]. cbn [map] in *. rewrite rr_cons in O1 by discriminate. rewrite rr_cons in O1 by discriminate. rewrite rr_cons by discriminate. cbn [nb hd_ ptr app] in *. exact O1.
  - cbn [app hd_ ptr isnull] in *. rewrite (bnd_ret _ _ s false s eq_refl). inversion_clear FA as [|? ? Y1 Y2]. cbn [nb hd_] in O.
    match type of O with own _ _ (?a :: (?b :: ?c :: _) ++ _) => rewrite (bnd_ret _ _ _ _ _ (r_load s0 s [a; b] _ (nod y) true _ 0 1 (VP (dat y) 0) O eq_refl ltac:(discriminate))) end. rewrite (same_ne _ _ Y1). cbn [negb].
    match type of O with own _ _ (?a :: (?b :: ?c :: _) ++ _) => rewrite (bnd_ret _ _ _ _ _ (r_load s0 s [a; b] _ (nod y) true _ 0 0 _ O eq_refl ltac:(apply ptr_ne))) end.
    destruct (IH y f s z ((nod p, mk_b true [VP (nod y) 0; VP (dat p) 0]) :: R)) as (s1 & E1 & Q1 & O1); [|exact Y2|cbn in F; lia|].
    { cbn [map] in *. rewrite rr_cons in O by discriminate. cbn [nb app map] in *. op O. }
    exists s1. split; [exact E1|]. split; [exact Q1|]. cbn [map] in *. rewrite rr_cons by discriminate. cbn [nb app map hd_ ptr] in *. op O1.
Qed.
Lemma nd_mid (a : list item) x b : NoDup (map dat (a ++ x :: b)) -> Forall (fun i => dat i <> dat x) a.
Proof. intro H. rewrite map_app in H. cbn [map] in H. apply NoDup_remove_2 in H. apply Forall_forall. intros i I E. apply H. apply in_or_app. left. apply (in_map dat) in I. rewrite E in I. exact I. Qed.
Lemma list_remove_ok s0 s l pre x post R fuel : wf s0 -> own s0 s (FL l (pre ++ x :: post) ++ R) -> length pre < fuel ->
  exists s', list_remove fuel (VP l 0) (VP (dat x) 0) s = Ret (true, s') /\ orc s' = orc s /\ own s0 s' (FL l (pre ++ post) ++ R).
Proof.
  intros W O F. assert (NN : NoDup (map nod (pre ++ x :: post))) by (apply (nd_nod s0 s [HB l (pre ++ x :: post)] _ (db (pre ++ x :: post) ++ R)); unfold FL in O; op O).
  assert (ND : NoDup (map dat (pre ++ x :: post))) by (apply (nd_dat s0 s (HB l (pre ++ x :: post) :: nb (pre ++ x :: post)) _ R); unfold FL in O; op O).
  unfold list_remove. unfold FL, HB in O. cbn [app] in O. ld (@nil (nat * block)). cbn [num]. match goal with |- bnd (ret ?z) _ _ = _ \/ _ => idtac | |- context [bnd (ret ?z) _ s] => rewrite (bnd_ret _ _ s z s eq_refl) end.
  assert (Z0 : (zlen (pre ++ x :: post) =? 0)%Z = false) by (rewrite zlen_app, zlen_cons; pose proof (zlen_nonneg pre); pose proof (zlen_nonneg post); lia). rewrite Z0.
  ld (@nil (nat * block)). destruct pre as [|p pre].
  - cbn [app hd_ ptr] in *. cbn [nb db map] in O. assert (O' : own s0 s ((l, mk_b true [VP (nod x) 0; ptr (rr (map nod (x :: post))); VI (zlen (x :: post))]) :: (nod x, mk_b true [ptr (hd_ post); VP (dat x) 0]) :: (dat x, mk_b true (cnt x)) :: nb post ++ db post ++ R)) by (cbn [map]; unfold db; op O). clear O. rename O' into O.
    match type of O with own _ _ (?a :: _) => ld [a] end. rewrite same_refl.
    destruct (free_node_ok s0 s _ _ _ _ _ _ _ _ _ W O) as (s1 & E1 & Q1 & O1); [apply ptr_ne|]. rewrite (bnd_ret _ _ _ _ _ E1). clear O. ld (@nil (nat * block)). rewrite (tail_is x post NN). destruct post as [|y post]; cbv iota.
    + sto O1 Q1 (@nil (nat * block)). sto O1 Q1 (@nil (nat * block)). eexists. split; [reflexivity|]. split; [exact Q1|]. exact O1.
    + rewrite (bnd_ret (ret tt) _ _ tt _ eq_refl). sto O1 Q1 (@nil (nat * block)). eexists. split; [reflexivity|]. split; [exact Q1|]. unfold FL, HB. cbn [hd_ ptr]. cbn [map] in *. rewrite rr_cons in O1 by discriminate. replace (zlen (x :: y :: post) - 1)%Z with (zlen (y :: post)) in O1 by (rewrite !zlen_cons; lia). op O1.
  - pose proof (nd_mid (p :: pre) x post ND) as FA. inversion_clear FA as [|? ? Y1 Y2]. cbn [app hd_ ptr] in *. 
    assert (O' : own s0 s ((l, mk_b true [VP (nod p) 0; ptr (rr (map nod (p :: pre ++ x :: post))); VI (zlen (p :: pre ++ x :: post))]) :: nb (p :: pre ++ x :: post) ++ (dat x, mk_b true (cnt x)) :: db (p :: pre ++ post) ++ R)).
    { cbn [db map] in *. fold (db (pre ++ x :: post)) in O. fold (db (pre ++ post)). rewrite db_app in *. cbn [db map] in *. fold (db post) in *. op O. }
    clear O. rename O' into O. cbn [nb] in O. match type of O with own _ _ (?a :: _) => ld [a] end. rewrite (same_ne _ _ Y1). match type of O with own _ _ (?a :: _) => ld [a] end.
    destruct (remove_loop_ok s0 l (VP (nod p) 0) x post W pre p fuel s (zlen (p :: pre ++ x :: post)) (db (p :: pre ++ post) ++ R) O Y2 ltac:(cbn in F; lia)) as (s1 & E1 & Q1 & O1). exists s1. split; [exact E1|]. split; [exact Q1|].
    unfold FL, HB. cbn [hd_ ptr]. replace (zlen (p :: pre ++ x :: post) - 1)%Z with (zlen (p :: pre ++ post)) in O1 by (rewrite !zlen_cons, !zlen_app, zlen_cons; lia). op O1.
Qed.
(** ** finding by name *)
Definition nam (i : item) : Z := match cnt i with VI z :: _ => z | _ => 0 end.
Definition named (i : item) : Prop := exists z r, cnt i = VI z :: r.
Lemma find_ok s0 k R : forall its fuel s, own s0 s (nb its ++ db its ++ R) -> Forall named its -> length its < fuel ->
  (exists pre x post, its = pre ++ x :: post /\ nam x = k /\ Forall (fun i => nam i <> k) pre /\ find_loop fuel (ptr (hd_ its)) k s = Ret (VP (dat x) 0, s)) \/
  (Forall (fun i => nam i <> k) its /\ find_loop fuel (ptr (hd_ its)) k s = Ret (V0, s)).
Proof.
  enough (H : forall its fuel s L, own s0 s (nb its ++ db its ++ L) -> Forall named its -> length its < fuel ->
  (exists pre x post, its = pre ++ x :: post /\ nam x = k /\ Forall (fun i => nam i <> k) pre /\ find_loop fuel (ptr (hd_ its)) k s = Ret (VP (dat x) 0, s)) \/
  (Forall (fun i => nam i <> k) its /\ find_loop fuel (ptr (hd_ its)) k s = Ret (V0, s))) by (intros; eapply H; eauto).
  induction its as [|i its IH]; intros fuel s L O NM F; (destruct fuel as [|f]; [cbn in F; lia|]); cbn [find_loop].
  - right. split; [constructor|reflexivity].
  - cbn [hd_ ptr isnull]. rewrite (bnd_ret _ _ s false s eq_refl). inversion_clear NM as [|? ? (z & r & E) NM2]. cbn [nb db map] in O.
    assert (O' : own s0 s ((nod i, mk_b true [ptr (hd_ its); VP (dat i) 0]) :: (dat i, mk_b true (VI z :: r)) :: nb its ++ db its ++ L)) by (rewrite <- E; unfold db; op O).
    assert (O2 : own s0 s (nb its ++ db its ++ ((nod i, mk_b true [ptr (hd_ its); VP (dat i) 0]) :: (dat i, mk_b true (VI z :: r)) :: L))) by op O'. clear O. ld (@nil (nat * block)). ld (@nil (nat * block)). 
    match type of O' with own _ _ (?a :: _) => ld [a] end. cbn [num]. rewrite (bnd_ret _ _ s z s eq_refl). assert (EN : nam i = z) by (unfold nam; rewrite E; reflexivity).
    destruct (Z.eqb_spec z k) as [EK|NK].
    + left. exists [], i, its. split; [reflexivity|]. split; [congruence|]. split; [constructor|reflexivity].
    + destruct (IH f s _ O2 NM2 ltac:(cbn in F; lia)) as [(pre & w & post & E1 & E2 & E3 & E4)|(E1 & E2)].
      * left. exists (i :: pre), w, post. split; [rewrite E1; reflexivity|]. split; [auto|]. split; [constructor; [congruence|auto]|exact E4].
      * right. split; [constructor; [congruence|auto]|exact E2].
Qed.

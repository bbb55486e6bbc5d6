(** Lists in the heap *)
From Coq Require Import Permutation.
From Verif Require Import CBase LifeModel TpLifeSpec TpLifeProof TpLifeProof2 IniLifeModel IniLifeSpec.
Open Scope nat_scope.

(** ** permutations of concatenations *)
Lemma cons_app {A} (x : A) l : x :: l = [x] ++ l. Proof. reflexivity. Qed.
Ltac pn := repeat match goal with |- context [@cons (nat * block) ?x ?l] => lazymatch l with [] => fail | _ => rewrite (cons_app x l) end end; rewrite <- ?app_assoc; cbn [app]; repeat match goal with |- context [@cons (nat * block) ?x ?l] => lazymatch l with [] => fail | _ => rewrite (cons_app x l) end end.
Lemma p_move {A} (X Y L R : list A) : Permutation L (Y ++ R) -> Permutation (X ++ L) (Y ++ X ++ R).
Proof. intro H. etransitivity; [apply Permutation_app_head; exact H|]. apply Permutation_app_swap_app. Qed.
Lemma p_last {A} (X Y L : list A) : Permutation L Y -> Permutation (X ++ L) (Y ++ X).
Proof. intro H. etransitivity; [apply Permutation_app_head; exact H|]. apply Permutation_app_comm. Qed.
Lemma p_find {A} (X L Y R R' : list A) : Permutation R (X ++ R') -> Permutation L (Y ++ R') -> Permutation (X ++ L) (Y ++ R).
Proof. intros H1 H2. etransitivity; [apply Permutation_app_head; exact H2|]. etransitivity; [apply Permutation_app_swap_app|]. apply Permutation_app_head. symmetry. exact H1. Qed.
Lemma p_rot {A} (X R : list A) : Permutation (R ++ X) (X ++ R). Proof. apply Permutation_app_comm. Qed.
Lemma p_skip {A} (X Y R R' : list A) : Permutation R (X ++ R') -> Permutation (Y ++ R) (X ++ Y ++ R').
Proof. intro H. etransitivity; [apply Permutation_app_head; exact H|]. apply Permutation_app_swap_app. Qed.
Ltac pfind := (* goal Permutation R (X ++ ?R') *)
  first [apply Permutation_refl | apply p_rot | apply p_skip; pfind].
Ltac ps1 := tryif apply Permutation_refl then idtac else tryif apply Permutation_app_head then ps1 else tryif apply p_last then ps1 else (eapply p_find; [pfind|]; ps1).
Ltac ps := rewrite ?app_nil_r; pn; rewrite ?app_nil_r; first [reflexivity | ps1].
Goal forall (a b c : nat * block) (X Y Z : list (nat * block)), Permutation (a :: X ++ b :: (Y ++ c :: Z)) (Z ++ (c :: Y) ++ [b] ++ a :: X).
Proof. intros. ps. Qed.
Ltac op O := eapply own_perm; [exact O|]; ps.
Ltac perm O L := match type of O with own ?s0 ?s _ => let O' := fresh "O" in assert (O' : own s0 s L) by op O; clear O; rename O' into O end.

(** ** lists: a node, its data block and the contents of that *)
Notation item := (nat * nat * list val)%type.
Definition nod (i : item) : nat := fst (fst i).
Definition dat (i : item) : nat := snd (fst i).
Definition cnt (i : item) : list val := snd i.
Definition hd_ (its : list item) : option nat := match its with [] => None | i :: _ => Some (nod i) end.
Fixpoint nb (its : list item) : list (nat * block) := match its with [] => [] | i :: r => (nod i, mk_b true [ptr (hd_ r); VP (dat i) 0]) :: nb r end.
Definition db (its : list item) : list (nat * block) := map (fun i => (dat i, mk_b true (cnt i))) its.
Definition HB (l : nat) (its : list item) : nat * block := (l, mk_b true [ptr (hd_ its); ptr (rr (map nod its)); VI (zlen its)]).
Definition FL (l : nat) (its : list item) : list (nat * block) := HB l its :: nb its ++ db its.
Lemma db_app a b : db (a ++ b) = db a ++ db b. Proof. apply map_app. Qed.
(** the nodes up to one, with the pointer to it open *)
Fixpoint nseg (its : list item) (e : val) : list (nat * block) :=
  match its with [] => [] | i :: r => (nod i, mk_b true [match r with [] => e | j :: _ => VP (nod j) 0 end; VP (dat i) 0]) :: nseg r e end.
Lemma nseg_nb its : nb its = nseg its V0.
Proof. induction its as [|i r IH]; [reflexivity|]. cbn [nb nseg]. rewrite IH. destruct r; reflexivity. Qed.
Lemma nseg_app a b e : nseg (a ++ b) e = nseg a (match b with [] => e | j :: _ => VP (nod j) 0 end) ++ nseg b e.
Proof. induction a as [|i a IH]; [reflexivity|]. cbn [app nseg]. rewrite IH. f_equal. f_equal. destruct a; [destruct b; reflexivity|reflexivity]. Qed.
Lemma rr_app (l : list nat) x : rr (l ++ [x]) = Some x. Proof. apply rr_snoc. Qed.
Lemma zlen_snoc {A} (l : list A) x : zlen (l ++ [x]) = (zlen l + 1)%Z. Proof. rewrite zlen_app, zlen_cons, zlen_nil. lia. Qed.

Lemma zeroed_ok s0 s L c : own s0 s L -> exists v s', zeroed c s = Ret (v, s') /\ orc s' = snd (nxt_answer (orc s)) /\
  if fst (nxt_answer (orc s)) then exists b, v = VP b 0 /\ own s0 s' ((b, mk_b true c) :: L) else v = V0 /\ own s0 s' L.
Proof.
  intro O. unfold zeroed, bnd. destruct (r_tick s0 s L O) as (s1 & -> & O1 & E1). destruct (fst (nxt_answer (orc s))).
  - destruct (r_fresh s0 s1 L true c O1) as (b & s2 & E & O2 & E2). exists (VP b 0), s2. split; [exact E|]. split; [congruence|]. exists b. auto.
  - exists V0, s1. split; [reflexivity|]. auto.
Qed.
Ltac ld A := match goal with |- context [bnd (load (VP ?b ?o) ?i) ?f ?s] =>
  match goal with O : own _ s _ |- _ => let E := fresh "E" in assert (E := r_load _ s A _ b _ _ o i _ O eq_refl); rewrite (bnd_ret _ _ _ _ _ (E ltac:(first [discriminate|apply ptr_ne]))); clear E; cbv beta iota end end.
Lemma append_ok s0 s l its d c R : own s0 s ((d, mk_b true c) :: FL l its ++ R) ->
  exists s', list_append (VP l 0) (VP d 0) s = Ret (fst (nxt_answer (orc s)), s') /\ orc s' = snd (nxt_answer (orc s)) /\
    if fst (nxt_answer (orc s)) then exists n, own s0 s' (FL l (its ++ [(n, d, c)]) ++ R) else own s0 s' ((d, mk_b true c) :: FL l its ++ R).
Proof.
  intro O. unfold list_append. destruct (zeroed_ok s0 s _ [V0; V0] O) as (v & s1 & E1 & Q1 & H). rewrite (bnd_ret _ _ _ _ _ E1). set (o := snd (nxt_answer (orc s))) in *. destruct (fst (nxt_answer (orc s))).
  - destruct H as (n & -> & O1). clear O. rename O1 into O. cbn [isnull]. rewrite (bnd_ret _ _ s1 false s1 eq_refl). rename Q1 into Q. sto O Q (@nil (nat * block)). sto O Q (@nil (nat * block)).
    assert (F : forall s3 h t z L, own s0 s3 ((l, mk_b true [h; t; VI z]) :: L) -> orc s3 = o -> exists s', (k <-- load (VP l 0) 2 ;; k <-- num k ;; store (VP l 0) 2 (VI (k + 1)) ;;; ret true) s3 = Ret (true, s') /\ orc s' = o /\ own s0 s' ((l, mk_b true [h; t; VI (z + 1)]) :: L)).
    { clear. intros s3 h t z L O Q. ld (@nil (nat * block)). cbn [num]. rewrite (bnd_ret _ _ s3 z s3 eq_refl). sto O Q (@nil (nat * block)). eexists. split; [reflexivity|]. split; [exact Q|exact O]. }
    destruct (list_eq_dec Nat.eq_dec (map nod its) []) as [EN|NE].
    + destruct its; [|discriminate]. unfold FL, HB in O. cbn [hd_ map rr ptr nb db app] in O. change (zlen (@nil item)) with 0%Z in O. match type of O with own _ _ (?a :: ?b :: _) => ld [a; b] end. cbn [isnull map rr ptr]. rewrite (bnd_ret _ _ s3 true s3 eq_refl).
      match goal with |- context [bnd ?m _ s3] => assert (X : exists s', m s3 = Ret (tt, s') /\ orc s' = o /\ own s0 s' ((l, mk_b true [VP n 0; VP n 0; VI 0]) :: (n, mk_b true [V0; VP d 0]) :: (d, mk_b true c) :: R)) end.
      { match type of O with own _ _ (?a :: ?b :: _) => sto O Q [a; b]; stol O Q [a; b] end. eexists. split; [reflexivity|]. split; [exact Q|]. op O. }
      destruct X as (s4 & E4 & Q4 & O4). rewrite (bnd_ret _ _ _ _ _ E4). destruct (F _ _ _ _ _ O4 Q4) as (s5 & E5 & Q5 & O5). exists s5. split; [exact E5|]. split; [exact Q5|]. exists n. exact O5.
    + assert (NE' : its <> []) by (intros ->; apply NE; reflexivity). destruct (exists_last NE') as (pre & [[n' d'] c'] & EI). subst its.
      unfold FL, HB in O. rewrite map_app in O. cbn [map] in O. rewrite rr_app in O. cbn [nod fst ptr] in O. match type of O with own _ _ (?a :: ?b :: _) => ld [a; b] end. cbn [isnull]. rewrite (bnd_ret _ _ s3 false s3 eq_refl).
      rewrite nseg_nb, nseg_app in O. cbn [nseg nod dat fst snd] in O.
      match goal with |- context [bnd ?m _ s3] => assert (X : exists s', m s3 = Ret (tt, s') /\ orc s' = o /\ own s0 s' ((l, mk_b true [ptr (hd_ (pre ++ [(n', d', c')])); VP n 0; VI (zlen (pre ++ [(n', d', c')]))]) :: nseg pre (VP n' 0) ++ [(n', mk_b true [VP n 0; VP d' 0])] ++ [(n, mk_b true [V0; VP d 0])] ++ db (pre ++ [(n', d', c')]) ++ (d, mk_b true c) :: R)) end.
      { cbn [app] in O. match type of O with own _ _ (?a :: ?b :: ?h :: ((?x ++ [?y]) ++ ?D) ++ _) => assert (O' : own s0 s3 (y :: a :: b :: h :: x ++ D ++ R)) by op O end. sto O' Q (@nil (nat * block)). match type of O' with own _ _ (?a :: ?b :: ?c :: _) => stol O' Q [a; b; c] end. eexists. split; [reflexivity|]. split; [exact Q|]. op O'. }
      destruct X as (s4 & E4 & Q4 & O4). rewrite (bnd_ret _ _ _ _ _ E4). destruct (F _ _ _ _ _ O4 Q4) as (s5 & E5 & Q5 & O5). exists s5. split; [exact E5|]. split; [exact Q5|]. exists n.
      unfold FL, HB. rewrite nseg_nb, !nseg_app, map_app, !db_app. cbn [map nseg nod dat cnt fst snd app db]. rewrite rr_app. cbn [ptr]. rewrite zlen_snoc.
      assert (HH : hd_ ((pre ++ [(n', d', c')]) ++ [(n, d, c)]) = hd_ (pre ++ [(n', d', c')])) by (destruct pre; reflexivity). rewrite HH.
      rewrite db_app in O5. cbn [db map dat cnt fst snd] in O5. op O5.
  - destruct H as (-> & O1). exists s1. split; [reflexivity|]. auto.
Qed.

(** The queue of jobs *)
From Coq Require Import Permutation.
From Verif Require Import CBase LifeModel TpLifeModel TpLifeSpec TpLifeProof.
Open Scope nat_scope.

Definition ptr (o : option nat) : val := match o with Some b => VP b 0 | None => V0 end.
Definition fr (js : list nat) : option nat := match js with [] => None | j :: _ => Some j end.
Fixpoint rr (js : list nat) : option nat := match js with [] => None | [j] => Some j | _ :: r => rr r end.
Fixpoint jb (js : list nat) : list (nat * block) := match js with [] => [] | j :: r => (j, mk_b true [ptr (fr r)]) :: jb r end.
Record rest := mk_rest { x0 : val; x1 : val; c6 : val; c7 : val; c8 : val; c9 : val; h0 : val; h1 : val; h2 : val; h3 : val }.
Definition set3 (v : val) (y : rest) : rest := mk_rest (x0 y) (x1 y) (c6 y) (c7 y) (c8 y) (c9 y) (h0 y) (h1 y) (h2 y) v.
Definition pb (hj : nat) (f r : val) (z : Z) (y : rest) : block := mk_b true [x0 y; x1 y; f; r; VI z; VP hj 0; c6 y; c7 y; c8 y; c9 y].
Definition hb (y : rest) : block := mk_b true [h0 y; h1 y; h2 y; h3 y].
Definition QL (p hj : nat) (y : rest) (js : list nat) (R : list (nat * block)) : list (nat * block) :=
  (p, pb hj (ptr (fr js)) (ptr (rr js)) (zlen js) y) :: (hj, hb y) :: jb js ++ R.
Lemma ptr_ne o : ptr o <> VU. Proof. destruct o; discriminate. Qed.

Ltac sto O Q A := match goal with |- context [bnd (store (VP ?b ?o) ?i ?v) ?f ?s] =>
  let s' := fresh "s" in let E := fresh "E" in let O' := fresh "O" in let Q' := fresh "Q" in
  destruct (r_store _ s A _ b _ _ o i v _ O eq_refl) as (s' & E & O' & Q'); rewrite (bnd_ret _ _ _ _ _ E); clear E; clear O; rename O' into O; apply (fun z => eq_trans z Q) in Q'; clear Q; rename Q' into Q; cbv beta iota in O; cbn [app] in O end.
Ltac stol O Q A := match goal with |- context [store (VP ?b ?o) ?i ?v ?s] =>
  let s' := fresh "s" in let E := fresh "E" in let O' := fresh "O" in let Q' := fresh "Q" in
  destruct (r_store _ s A _ b _ _ o i v _ O eq_refl) as (s' & E & O' & Q'); rewrite E; clear E; clear O; rename O' into O; apply (fun z => eq_trans z Q) in Q'; clear Q; rename Q' into Q; cbv beta iota in O; cbn [app] in O end.
Ltac lod O A := match goal with |- context [bnd (load (VP ?b ?o) ?i) ?f ?s] =>
  let E := fresh "E" in assert (E := r_load _ s A _ b _ _ o i _ O eq_refl); rewrite (bnd_ret _ _ _ _ _ (E ltac:(first [discriminate|apply ptr_ne]))); clear E; cbv beta iota end.

Lemma pull_ok s0 s p hj y js R : own s0 s (QL p hj y js R) ->
  exists s', jobqueue_pull (VP p 0) s = Ret (ptr (fr js), s') /\ orc s' = orc s /\
    match js with [] => own s0 s' (QL p hj y [] R) | j :: r => exists v, own s0 s' ((j, mk_b true [v]) :: QL p hj (match r with [] => y | _ => set3 (VI 1) y end) r R) end.
Proof.
  intro O. unfold jobqueue_pull. unfold QL, pb in O. lod O (@nil (nat * block)). lod O (@nil (nat * block)). cbn [num]. unfold bnd at 1, ret at 1.
  destruct js as [|j [|j2 r]].
  - change (zlen (@nil nat)) with 0%Z. cbn [Z.eqb]. eexists. split; [reflexivity|]. split; [reflexivity|]. exact O.
  - change (zlen [j]) with 1%Z in *. cbn [Z.eqb Pos.eqb]. assert (Q : orc s = orc s) by reflexivity. cbn [fr rr ptr] in *. sto O Q (@nil (nat * block)). sto O Q (@nil (nat * block)). sto O Q (@nil (nat * block)).
    eexists. split; [reflexivity|]. split; [exact Q|]. eexists. eapply own_perm; [exact O|]. unfold QL, pb. cbn [fr rr ptr jb app]. change (zlen (@nil nat)) with 0%Z. apply Permutation_sym. apply (Permutation_middle [_; _] R).
  - assert (Z1 : (zlen (j :: j2 :: r) =? 0)%Z = false) by (rewrite !zlen_cons; pose proof (zlen_nonneg r); lia). assert (Z2 : (zlen (j :: j2 :: r) =? 1)%Z = false) by (rewrite !zlen_cons; pose proof (zlen_nonneg r); lia). rewrite Z1, Z2.
    cbn [fr ptr] in *. cbn [jb app fr ptr] in O. match type of O with own _ _ (?a :: ?b :: _) => lod O [a; b] end. assert (Q : orc s = orc s) by reflexivity.
    sto O Q (@nil (nat * block)). sto O Q (@nil (nat * block)). lod O (@nil (nat * block)). unfold hb in O. match type of O with own _ _ (?a :: _) => sto O Q [a] end.
    eexists. split; [reflexivity|]. split; [exact Q|]. eexists. eapply own_perm; [exact O|]. unfold QL, pb. apply Permutation_sym.
    replace (zlen (j :: j2 :: r) - 1)%Z with (zlen (j2 :: r)) by (rewrite !zlen_cons; lia). apply (Permutation_middle [_; _] _).
Qed.
Lemma rr_snoc js j : rr (js ++ [j]) = Some j.
Proof. induction js as [|a js IH]; [reflexivity|]. destruct js as [|b js]; [reflexivity|]. exact IH. Qed.
Lemma fr_snoc js j : fr (js ++ [j]) = match js with [] => Some j | a :: _ => Some a end. Proof. destruct js; reflexivity. Qed.
Lemma jb_snoc js r v : exists X, jb (js ++ [r]) = X ++ [(r, mk_b true [V0])] /\ jb (js ++ [r; v]) = X ++ [(r, mk_b true [VP v 0]); (v, mk_b true [V0])].
Proof.
  induction js as [|a js (X & E1 & E2)]; [exists []; split; reflexivity|]. cbn [app jb]. rewrite E1, E2. eexists (_ :: X). cbn [app]. split; [reflexivity|]. f_equal. f_equal. destruct js; reflexivity.
Qed.
Definition nil' : list (nat * block) := [].
Lemma push_ok s0 s p hj y js R j v : own s0 s ((j, mk_b true [v]) :: QL p hj y js R) ->
  exists s', jobqueue_push (VP p 0) (VP j 0) s = Ret (tt, s') /\ orc s' = orc s /\ own s0 s' (QL p hj (set3 (VI 1) y) (js ++ [j]) R).
Proof.
  intro O. assert (Q : exists o, orc s = o) by eauto. destruct Q as (o & Q). rewrite Q. unfold jobqueue_push. sto O Q (@nil (nat * block)). unfold QL, pb in O.
  match type of O with own _ _ (?a :: _) => lod O [a] end. cbn [num]. unfold bnd at 1, ret at 1.
  assert (HB : forall z (f r : val) s1 L, own s0 s1 ((p, pb hj f r z y) :: (hj, hb y) :: L) -> orc s1 = o ->
    exists s', (store (VP p 0) 4 (VI (z + 1)) ;;; h <-- load (VP p 0) 5 ;; store h 3 (VI 1)) s1 = Ret (tt, s') /\ orc s' = o /\ own s0 s' ((p, pb hj f r (z + 1) y) :: (hj, hb (set3 (VI 1) y)) :: L)).
  { clear. intros z f r s1 L O Q. unfold pb in O. sto O Q (@nil (nat * block)). lod O (@nil (nat * block)). unfold hb in O. match type of O with own _ _ (?a :: _) => stol O Q [a] end. eexists. split; [reflexivity|]. split; [exact Q|]. exact O. }
  assert (LS : zlen (js ++ [j]) = (zlen js + 1)%Z) by (rewrite zlen_app, zlen_cons, zlen_nil; lia).
  match goal with |- context [bnd (if zlen js =? 0 then ?a else ?b)%Z] => assert (BR : exists s', (if zlen js =? 0 then a else b)%Z s1 = Ret (tt, s') /\ orc s' = o /\
    own s0 s' ((p, pb hj (ptr (fr (js ++ [j]))) (VP j 0) (zlen js) y) :: (hj, hb y) :: jb (js ++ [j]) ++ R)) end.
  { destruct (list_eq_dec Nat.eq_dec js []) as [->|NE].
    - change (zlen (@nil nat)) with 0%Z in *. cbn [Z.eqb]. cbn [fr rr ptr jb app] in *.
      match type of O with own _ _ (?a :: _) => sto O Q [a] end. match type of O with own _ _ (?a :: _) => stol O Q [a] end.
      eexists. split; [reflexivity|]. split; [exact Q|]. eapply own_perm; [exact O|]. unfold pb. apply (Permutation_middle [_; _] R).
    - destruct (exists_last NE) as (l & r & ->). assert (Z0 : (zlen (l ++ [r]) =? 0)%Z = false) by (rewrite zlen_app, zlen_cons; pose proof (zlen_nonneg l); pose proof (zlen_nonneg (@nil nat)); lia). rewrite Z0.
      rewrite rr_snoc in O. cbn [ptr] in O. match type of O with own _ _ (?a :: _) => lod O [a] end.
      destruct (jb_snoc l r j) as (X & E1 & E2). rewrite E1 in O. rewrite <- !app_assoc in *. cbn [app] in *. rewrite E2.
      match type of O with own _ _ (?a :: ?b :: ?c :: _) => sto O Q (a :: b :: c :: X) end.
      match type of O with own _ _ (?a :: _) => stol O Q [a] end.
      eexists. split; [reflexivity|]. split; [exact Q|].
      assert (FR : fr (l ++ [r; j]) = fr (l ++ [r])) by (destruct l; reflexivity). rewrite FR. eapply own_perm; [exact O|]. unfold pb.
      rewrite <- app_assoc. cbn [app]. match goal with |- Permutation (?n :: ?a :: ?b :: ?X ++ ?c :: ?R) _ => change (n :: a :: b :: X ++ c :: R) with (n :: (a :: b :: X) ++ c :: R);
        change (a :: b :: X ++ c :: n :: R) with ((a :: b :: X) ++ c :: n :: R); etransitivity; [apply (Permutation_middle (a :: b :: X))|]; apply Permutation_app_head; apply perm_swap end. }
  destruct BR as (s2 & E2 & Q2 & O2). rewrite (bnd_ret _ _ _ _ _ E2). destruct (HB _ _ _ _ _ O2 Q2) as (s3 & E3 & Q3 & O3). exists s3. split; [exact E3|]. split; [exact Q3|].
  unfold QL. rewrite rr_snoc, LS. exact O3.
Qed.
Lemma add_ok s0 s p hj y js R : own s0 s (QL p hj y js R) ->
  exists s', orc s' = snd (nxt_answer (orc s)) /\
    if fst (nxt_answer (orc s)) then exists j, tp_add (VP p 0) s = Ret (0%Z, s') /\ own s0 s' (QL p hj (set3 (VI 1) y) (js ++ [j]) R)
    else tp_add (VP p 0) s = Ret ((-2)%Z, s') /\ own s0 s' (QL p hj y js R).
Proof.
  intro O. unfold tp_add. destruct (r_malloc s0 s _ 1 O) as (v & s1 & E & Q & H). rewrite (bnd_ret _ _ _ _ _ E). destruct (fst (nxt_answer (orc s))).
  - destruct H as (j & -> & O1). destruct (push_ok s0 s1 p hj y js R j VU O1) as (s2 & E2 & Q2 & O2). exists s2. split; [congruence|]. exists j. split; [|exact O2]. cbn [isnull]. unfold bnd at 1, ret at 1. rewrite (bnd_ret _ _ _ _ _ E2). reflexivity.
  - destruct H as (-> & O1). exists s1. split; [auto|]. split; [reflexivity|exact O1].
Qed.
Lemma turn_ok s0 s p hj y js R : wf s0 -> own s0 s (QL p hj y js R) ->
  exists s' y', orc s' = orc s /\ tp_turn (VP p 0) s = Ret (match js with [] => false | _ => true end, s') /\ own s0 s' (QL p hj y' (tl js) R) /\ (y' = y \/ y' = set3 (VI 1) y).
Proof.
  intros W O. unfold tp_turn. destruct (pull_ok s0 s p hj y js R O) as (s1 & E & Q & H). rewrite (bnd_ret _ _ _ _ _ E). destruct js as [|j r].
  - exists s1, y. split; [auto|]. split; [reflexivity|]. split; [exact H|auto].
  - destruct H as (v & H). destruct (r_free s0 s1 [] _ j [v] W H) as (s2 & E2 & O2 & Q2). cbn [fr ptr isnull]. unfold bnd at 1, ret at 1. rewrite (bnd_ret _ _ _ _ _ E2). eexists s2, _. split; [congruence|]. split; [reflexivity|]. split; [exact O2|]. destruct r; auto.
Qed.
(** the members that a history leaves alone *)
Definition keeps (y y' : rest) : Prop := exists v, v <> VU /\ y' = set3 v y.
Lemma clear_ok s0 p hj R : wf s0 -> forall js fuel s y, own s0 s (QL p hj y js R) -> h3 y <> VU -> (length js < fuel)%nat ->
  exists s' y', clear_loop fuel (VP p 0) s = Ret (tt, s') /\ orc s' = orc s /\ own s0 s' (QL p hj y' [] R) /\ keeps y y'.
Proof.
  intros W. induction js as [|j r IH]; intros fuel s y O H3 F; (destruct fuel as [|f]; [cbn in F; lia|]); cbn [clear_loop].
  - unfold QL, pb in O. lod O (@nil (nat * block)). cbn [num]. unfold bnd at 1, ret at 1. change (zlen (@nil nat) =? 0)%Z with true. cbv iota. exists s, y. split; [reflexivity|]. split; [reflexivity|]. split; [exact O|]. exists (h3 y). split; [auto|]. destruct y; reflexivity.
  - pose proof O as O'. unfold QL, pb in O'. lod O' (@nil (nat * block)). cbn [num]. unfold bnd at 1, ret at 1. clear O'. assert (Z0 : (zlen (j :: r) =? 0)%Z = false) by (rewrite zlen_cons; pose proof (zlen_nonneg r); lia). rewrite Z0.
    destruct (pull_ok s0 s p hj y (j :: r) R O) as (s1 & E & Q & v & H). rewrite (bnd_ret _ _ _ _ _ E). destruct (r_free s0 s1 [] _ j [v] W H) as (s2 & E2 & O2 & Q2). cbn [fr ptr]. rewrite (bnd_ret _ _ _ _ _ E2). cbn [app] in O2.
    destruct (IH f s2 _ O2) as (s3 & y3 & E3 & Q3 & O3 & K); [destruct r; [auto|discriminate]|cbn in F; lia|]. exists s3, y3. split; [exact E3|]. split; [congruence|]. split; [exact O3|]. destruct K as (w & NW & ->). exists w. split; [auto|]. destruct r; reflexivity.
Qed.

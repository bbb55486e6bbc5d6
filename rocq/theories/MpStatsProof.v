(** Proofs about the statistics *)
From Verif Require Import CBase MpliteModel MpliteSpec MpliteProof MpliteProof4 MpliteProof5 MpliteProof6 MpStatsSpec.

Definition stats (h : mp) : Z * Z * Z * Z * Z * Z := (mp_nalloc h, mp_total h, mp_excess h, mp_maxout h, mp_maxcount h, mp_maxreq h).
Ltac sb := repeat match goal with
  | H : bind ?m _ = Ret _ |- _ => let E := fresh "E" in destruct m eqn:E; cbn [bind] in H; [|discriminate H|discriminate H|discriminate H]
  | H : Ret _ = Ret _ |- _ => injection H; clear H; intros; subst
  | H : NoFuel = Ret _ |- _ => discriminate H
  | H : (if ?c then _ else _) = Ret _ |- _ => destruct c
  | H : (let '(_, _) := ?p in _) = Ret _ |- _ => destruct p
  end.
Lemma s_ctrl h i v h' : store_ctrl h i v = Ret h' -> stats h' = stats h. Proof. unfold store_ctrl. intro H. sb. reflexivity. Qed.
Lemma s_head h i v h' : store_head h i v = Ret h' -> stats h' = stats h. Proof. unfold store_head. intro H. sb. reflexivity. Qed.
Lemma s_next h i v h' : set_next h i v = Ret h' -> stats h' = stats h. Proof. unfold set_next. intro H. sb. reflexivity. Qed.
Lemma s_prev h i v h' : set_prev h i v = Ret h' -> stats h' = stats h. Proof. unfold set_prev. intro H. sb. reflexivity. Qed.
Ltac sa := repeat match goal with
  | H : store_ctrl _ _ _ = Ret _ |- _ => apply s_ctrl in H
  | H : store_head _ _ _ = Ret _ |- _ => apply s_head in H
  | H : set_next _ _ _ = Ret _ |- _ => apply s_next in H
  | H : set_prev _ _ _ = Ret _ |- _ => apply s_prev in H
  end.
Lemma s_link h i l h' : mplite_link h i l = Ret h' -> stats h' = stats h.
Proof. unfold mplite_link. intro H. sb; sa; congruence. Qed.
Lemma s_unlink h i l h' : mplite_unlink h i l = Ret h' -> stats h' = stats h.
Proof. unfold mplite_unlink. intro H. sb; sa; congruence. Qed.
Lemma s_split d : forall h i l h', split_loop d h i l = Ret h' -> stats h' = stats h.
Proof. induction d as [|d IH]; intros h i l h' H; cbn [split_loop] in H; [injection H as <-; reflexivity|]. cbv zeta in H. sb. apply IH in H. sa. match goal with X : mplite_link _ _ _ = Ret _ |- _ => apply s_link in X end. congruence. Qed.
Lemma s_merge fuel : forall h i l h' i' l', merge_loop fuel h i l = Ret (h', i', l') -> stats h' = stats h.
Proof.
  induction fuel as [|fuel IH]; intros h i l h' i' l' H; cbn [merge_loop] in H; cbv zeta in H; sb; try reflexivity; try discriminate; sa;
    match goal with X : mplite_unlink _ _ _ = Ret _ |- _ => apply s_unlink in X end; try (apply IH in H); congruence.
Qed.
Lemma s_free h p h' : mplite_free_unsafe h p = Ret h' -> stats h' = stats h.
Proof.
  unfold mplite_free_unsafe. cbv zeta. intro H. sb. apply s_link in H. match goal with X : merge_loop _ _ _ _ = Ret _ |- _ => apply s_merge in X end. sa.
  unfold stats in *. cbn [set_stats mp_nalloc mp_total mp_excess mp_maxout mp_maxcount mp_maxreq] in *. congruence.
Qed.
(** malloc *)
Lemma s_malloc k h n h' r : mp_sz h = 2 ^ k -> 0 <= k <= 30 -> mplite_malloc_unsafe h n = Ret (h', r) ->
  let q := if (0 <? n) && (n <=? 1073741824) then Z.max (mp_maxreq h) n else mp_maxreq h in
  match r with
  | None => stats h' = (mp_nalloc h, mp_total h, mp_excess h, mp_maxout h, mp_maxcount h, q)
  | Some _ => stats h' = (u64 (mp_nalloc h + 1), u64 (mp_total h + fit (mp_sz h) n), u64 (mp_excess h + (fit (mp_sz h) n - n)), Z.max (mp_maxout h) (mp_out h'), Z.max (mp_maxcount h) (mp_count h'), q) /\
      0 <= mp_out h' < two32 /\ 0 <= mp_count h' < two32
  end.
Proof.
  intros K RK. unfold mplite_malloc_unsafe. destruct ((n <=? 0) || (1073741824 <? n)) eqn:E.
  - intro H. injection H as <- <-. replace ((0 <? n) && (n <=? 1073741824)) with false by lia. reflexivity.
  - replace ((0 <? n) && (n <=? 1073741824)) with true by lia. cbv zeta. set (h1 := if mp_maxreq h <? n then _ else h).
    assert (S1 : stats h1 = (mp_nalloc h, mp_total h, mp_excess h, mp_maxout h, mp_maxcount h, Z.max (mp_maxreq h) n)).
    { unfold h1. destruct (Z.ltb_spec (mp_maxreq h) n); [rewrite Z.max_r by lia; reflexivity|rewrite Z.max_l by lia; reflexivity]. }
    assert (Z1 : mp_sz h1 = 2 ^ k) by (unfold h1; destruct (mp_maxreq h <? n); exact K). rewrite Z1.
    assert (UP : 0 <= Z.log2_up n <= 30) by (split; [apply Z.log2_up_nonneg|change 30 with (Z.log2_up 1073741824); apply Z.log2_up_le_mono; lia]).
    rewrite (round_loop_ok n ltac:(lia) 32 k (Z.max k (Z.log2_up n) - k) 0) by lia. replace (k + (Z.max k (Z.log2_up n) - k)) with (Z.max k (Z.log2_up n)) by lia. rewrite <- (fit_pow k n) by lia. rewrite <- K.
    cbn [bind]. intro H. clearbody h1. destruct (find_bin 31 h1 _) as [b| | |] eqn:EB; cbn [bind] in H; try discriminate. destruct (30 <? b); [injection H as <- <-; exact S1|].
    destruct (mload (mp_free h1) b) as [i| | |]; cbn [bind] in H; try discriminate.
    destruct (mplite_unlink h1 i b) as [h2| | |] eqn:EU; cbn [bind] in H; try discriminate. destruct (split_loop _ h2 i _) as [h3| | |] eqn:ES; cbn [bind] in H; try discriminate. destruct (store_ctrl h3 i _) as [h4| | |] eqn:EC; cbn [bind] in H; try discriminate.
    apply s_unlink in EU. apply s_split in ES. apply s_ctrl in EC. assert (S4 : stats h4 = stats h1) by congruence. rewrite S1 in S4. unfold stats in S4. injection S4 as A1 A2 A3 A4 A5 A6. injection H as <- <-.
    unfold stats. cbn [set_stats mp_nalloc mp_total mp_excess mp_maxout mp_maxcount mp_maxreq mp_out mp_count]. rewrite A1, A2, A3, A4, A5, A6.
    split; [|unfold u32; split; apply Z.mod_pos_bound; reflexivity].
    apply (f_equal2 pair); [apply (f_equal2 pair); [apply (f_equal2 pair); [reflexivity|]|]|reflexivity]; match goal with |- (if ?a <? ?b then _ else _) = _ => destruct (Z.ltb_spec a b); lia end.
Qed.

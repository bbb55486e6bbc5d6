(** Proofs for C72, part 1: settings *)
From Verif Require Import CBase CStr StringsModel TimeModel ThreadLib XlogModel XlogSpec XlogProof3 XlogMtModel XlogMtSpec.

Lemma flat_map_snoc {A B} (f : A -> list B) l x : flat_map f (l ++ [x]) = flat_map f l ++ f x.
Proof. rewrite flat_map_app. cbn. rewrite app_nil_r. reflexivity. Qed.
Lemma writes_snoc p t a : writes (p ++ [(t, a)]) = writes p ++ match a with AWrite o => [o] | _ => [] end.
Proof. apply flat_map_snoc. Qed.
Lemma outs_snoc p t a : outs (p ++ [(t, a)]) = outs p ++ match a with AOut o => [o] | _ => [] end.
Proof. apply flat_map_snoc. Qed.
Lemma proj_snoc u p t a : proj u (p ++ [(t, a)]) = proj u p ++ if Nat.eqb t u then [a] else [].
Proof. apply flat_map_snoc. Qed.

Lemma latest_snoc {V} (f : op -> option V) l : forall d o, latest f d (l ++ [o]) = match f o with Some v => v | None => latest f d l end.
Proof. induction l as [|x l IH]; intros d o; cbn; [reflexivity|apply IH]. Qed.

(** ** the current values of the settings *)
Definition good (h : list op) (c : cfg) : Prop :=
  x_target c = target h /\ x_min c = min_level h /\ x_format c = format h /\ x_flush c = flush h /\
  x_console c = negb (Z.land (target h) 4 =? 0) /\ x_usercb c = negb (Z.land (target h) 8 =? 0).
Lemma set_good h c o c' : good h c -> set c o = Ret c' -> good (h ++ [o]) c'.
Proof.
  intros (A & B & C & D & E & F) H. unfold good, target, min_level, format, flush in *. rewrite !latest_snoc.
  destruct o as [l|[t|]|z|b|t|l|f|m]; cbn [set] in H.
  all: try (injection H as <-; cbn; auto 10; fail).
  - destruct (strlcpy (x_tag c) t TAG_MAX) as [[g ?]| | |]; try discriminate. injection H as <-. cbn. auto 10.
  - destruct ((z >? 12) || (z <? -12)); injection H as <-; cbn; auto 10.
  - destruct (t <? 0) eqn:Q; injection H as <-; replace (0 <=? t) with (negb (t <? 0)) by lia; rewrite Q; cbn; auto 10.
  - destruct ((l <? 0) || (l >? 5)) eqn:Q; injection H as <-; [replace ((0 <=? l) && (l <=? 5)) with false by lia|replace ((0 <=? l) && (l <=? 5)) with true by lia]; cbn; auto 10.
  - destruct (f <? 0) eqn:Q; injection H as <-; replace (0 <=? f) with (negb (f <? 0)) by lia; rewrite Q; cbn; auto 10.
  - destruct (m <? 0) eqn:Q; injection H as <-; replace (0 <=? m) with (negb (m <? 0)) by lia; rewrite Q; cbn; auto 10.
Qed.
Lemma sets_good h : forall c, sets cfg0 h = Ret c -> good h c.
Proof.
  induction h as [|o h IH] using rev_ind; intros c H; [injection H as <-; repeat split|].
  rewrite sets_snoc in H. destruct (sets cfg0 h) as [c1| | |]; try discriminate. cbn [bind] in H. eapply set_good; [apply IH; reflexivity|exact H].
Qed.

(** ** the writes of a setter *)
Fixpoint applies (us : list upd) (c : cfg) : outcome cfg := match us with [] => Ret c | u :: us => do c <- apply u c; applies us c end.
Lemma set_applies o c : accepted o = true -> set c o = (do c <- apply (fst (writes_of o)) c; applies (snd (writes_of o)) c).
Proof.
  intro A. destruct c as [mi up tg cb ta fo fl tz co us st tl ti]. destruct o as [l|[t|]|z|b|t|l|f|m]; cbn [accepted] in A; try discriminate; cbn -[strlcpy TAG_MAX]; try reflexivity.
  - destruct (strlcpy tg t TAG_MAX) as [[g ?]| | |]; reflexivity.
  - destruct ((z >? 12) || (z <? -12)); [discriminate|reflexivity].
  - destruct (t <? 0); [discriminate|reflexivity].
  - destruct ((l <? 0) || (l >? 5)); [discriminate|reflexivity].
  - destruct (f <? 0); [discriminate|reflexivity].
  - destruct (m <? 0); [discriminate|reflexivity].
Qed.
Definition cache (u : upd) : bool := match u with UConsole | UUser | UStamp | UTagLevel | UTid => true | _ => false end.
Lemma apply_cache u c : cache u = true -> exists c', apply u c = Ret c' /\ forall v, value v c' = value v c.
Proof. destruct c, u; try discriminate; intros _; eexists; (split; [reflexivity|]); intros []; reflexivity. Qed.
Lemma applies_cache us : forall c, forallb cache us = true -> exists c', applies us c = Ret c' /\ forall v, value v c' = value v c.
Proof.
  induction us as [|u us IH]; intros c H; [exists c; auto|]. cbn in H. apply andb_prop in H as [H1 H2]. destruct (apply_cache u c H1) as (c1 & E1 & V1).
  destruct (IH c1 H2) as (c2 & E2 & V2). exists c2. cbn [applies]. rewrite E1. cbn [bind]. split; [exact E2|]. intro v. rewrite V2. apply V1.
Qed.
Lemma writes_cache o : forallb cache (snd (writes_of o)) = true. Proof. destruct o; reflexivity. Qed.
Lemma accepted_range o : accepted o = true <-> in_range o.
Proof. destruct o as [l|[t|]|z|b|t|l|f|m]; cbn; split; intro H; try reflexivity; try tauto; try discriminate; try lia. Qed.

(** ** the record *)
Lemma print_body sf c e level tag func line : xlog_print sf c e level tag func line = if negb (logable c level) then Ret [] else xlog_body sf c e level tag func line.
Proof. reflexivity. Qed.
Lemma body_min sf c c' e level tag func line : set c (SetMin 1) = Ret c' -> xlog_body sf c' e level tag func line = xlog_body sf c e level tag func line.
Proof. intro H. injection H as <-. destruct c. reflexivity. Qed.
Lemma body_silent sf c e level tag func line l : x_console c = false -> x_usercb c = false -> xlog_body sf c e level tag func line = Ret l -> l = [].
Proof.
  intros A B H. unfold xlog_body in H. rewrite A, B in H. destruct (header _ _ _ _ _ _) as [[b h]| | |]; try discriminate. cbn [bind] in H.
  match type of H with bind ?X _ = _ => destruct X as [[b1 n1]| | |]; try discriminate end. cbn [bind] in H.
  assert (E : forall lv b n, emit c false false lv b n = Ret []) by reflexivity.
  destruct (e_msg e) as [m|]; [|congruence]. destruct (snprintf_at _ _ _ _) as [[b2 r]| | |]; try discriminate. cbn [bind] in H. rewrite ?E in H.
  destruct (r <? _); [congruence|]. destruct (e_malloc e _) as [big|]; [|congruence]. destruct (strlcpy _ _ _) as [[b3 ?]| | |]; try discriminate. cbn [bind] in H.
  destruct (snprintf_at _ _ _ _) as [[b4 r4]| | |]; try discriminate. cbn [bind] in H. rewrite E in H. congruence.
Qed.
Lemma body_alone sf h c r l : sets cfg0 h = Ret c -> 1 <= r_level r < 6 -> xlog_body sf c (r_env r) (r_level r) (r_tag r) (r_func r) (r_line r) = Ret l -> alone sf h r l.
Proof.
  intros S L H. destruct (sets_good h c S) as (T & M & _ & _ & C1 & C2). unfold alone. destruct (target h =? 0) eqn:Q.
  - apply Z.eqb_eq in Q. rewrite Q in C1, C2. eapply body_silent; [exact C1|exact C2|exact H].
  - destruct (set c (SetMin 1)) as [c'| | |] eqn:E; try discriminate. exists c'. split; [rewrite sets_snoc, S; exact E|]. rewrite print_body, (body_min sf c c') by exact E. rewrite H.
    destruct (sets_good (h ++ [SetMin 1]) c') as (T' & M' & _); [rewrite sets_snoc, S; exact E|]. unfold logable. rewrite T', M'. unfold target, min_level in *. rewrite !latest_snoc. change ((0 <=? 1) && (1 <=? 5)) with true. cbv iota.
    rewrite Q. replace (r_level r <? 6) with true by lia. replace (r_level r >=? 1) with true by lia. reflexivity.
Qed.

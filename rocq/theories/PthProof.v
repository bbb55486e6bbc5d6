(** The invariant of thread records. *)
From Verif Require Import CBase ThreadLib PthModel PthSpec.

Definition past (w : wpc) : bool := match w with W478 | W480 | W481 | W483 | W484 | WEnd => true | _ => false end.
Definition hW (w : wpc) : bool := match w with W477 | W478 | W480 | W481 | W483 => true | _ => false end.
Definition hO (o : opc) : bool := match o with D68 | D70 | D71 | D73 | D77 | D79 => true | _ => false end.
Definition nW (w : wpc) : Prop := match w with WNone | W480 | W481 => False | _ => True end.

(** alive and attached *)
Definition stA (r : rec) : Prop := born r = true /\ frees r = 0 /\ closes r = 0 /\ det r = false /\ hnull r = false /\ nW (wp r) /\ id0 r = past (wp r).
(** detached while the worker ran *)
Definition stB (r : rec) : Prop := born r = true /\ det r = true /\ hnull r = false /\ id0 r = past (wp r) /\
  match wp r with WNone => False | W481 => closes r = 1 /\ frees r = 0 | W483 | W484 | WEnd => closes r = 1 /\ frees r = 1 | _ => closes r = 0 /\ frees r = 0 end.
(** released by the owner *)
Definition stF (k : Z) (r : rec) : Prop := wp r = WEnd /\ born r = true /\ closes r = 1 /\ frees r = k /\ hnull r = true.
Definition stN (h : bool) (r : rec) : Prop := wp r = WNone /\ born r = true /\ frees r = 0 /\ closes r = 0 /\ det r = false /\ hnull r = h /\ got r = false.

Definition rok (r : rec) : Prop :=
  match op r with
  | ONone => r = fresh
  | C25 | C29 => stN true r
  | C32 => stN false r /\ id0 r = false
  | C33 => stA r
  | OHave | J39 | J47 | D62 | D67 | D68 => stA r /\ got r = true
  | J49 | D71 => stA r /\ wp r = WEnd /\ got r = true
  | J53 | D73 => stF 0 r /\ got r = true
  | J56 v => stF 0 r /\ v = Some (ecode r) /\ got r = true
  | D70 => stA r /\ (wp r = W484 \/ wp r = WEnd) /\ got r = true
  | D77 => stA r /\ past (wp r) = false /\ got r = true
  | D79 => (stB r \/ stF 1 r) /\ got r = true
  | OEnd e v =>
      e = -1 /\ v = None /\ got r = false /\ wp r = WNone /\ born r = true /\ frees r = 1 /\ closes r = 0 \/
      e = EINVAL /\ v = None /\ got r = false /\ wp r = WNone /\ born r = false /\ frees r = 0 /\ closes r = 0 \/
      e = 0 /\ got r = true /\ (v = None /\ (stB r \/ stF 1 r) \/ v = Some (ecode r) /\ stF 1 r)
  end.

Ltac rp := cbn [wp op id0 det ecode hnull born frees closes got set_wp set_op set_id0 set_det set_ecode set_hnull set_born set_frees set_closes set_got do_free do_close live] in *.

(** the effect of a step on the lock *)
Definition lockstep (b b' : bool) (o : lockop) : Prop :=
  match o with Keep => b' = b | Take => b = false /\ b' = true | Drop => b = true /\ b' = false end.
Definition good (r : rec) (x : rstep) (own : bool) : Prop :=
  match x with
  | Ret None => True
  | Ret (Some (r', o)) => rok r' /\
      (if own then lockstep (hO (op r)) (hO (op r')) o /\ hW (wp r') = hW (wp r) else lockstep (hW (wp r)) (hW (wp r')) o /\ op r' = op r)
  | _ => False
  end.

Ltac fin := repeat match goal with
  | H : _ /\ _ |- _ => destruct H
  | H : _ \/ _ |- _ => destruct H
  | H : False |- _ => destruct H
  | H : mk_t _ _ _ _ _ _ _ _ _ _ = _ |- _ => injection H as ?; subst
  end; subst; try discriminate.

Lemma wexec_good : forall r, rok r -> (hO (op r) = true -> hW (wp r) = false /\ wp r <> W476) -> good r (wexec r) false.
Proof.
  intros r K L. destruct r as [w o i d e h b f c g]. unfold rok, wexec, good, use, useh, out, live, stA, stB, stF, stN, fresh in *. rp.
  destruct o; cbn [hO] in *; try specialize (L eq_refl); destruct w; cbn [hW nW past] in *; fin; try exact Logic.I; cbn in *; try congruence; unfold stA, stB, stF, stN, fresh in *; cbn in *; try (intuition congruence).
Qed.
Lemma oexec_good : forall r, rok r -> (hO (op r) = true -> hW (wp r) = false) -> good r (oexec r) true.
Proof.
  intros r K L. destruct r as [w o i d e h b f c g]. unfold rok, oexec, good, use, useh, out, live, stA, stB, stF, stN, fresh, signalled in *. rp.
  destruct o; cbn [hO] in *; try specialize (L eq_refl); try exact Logic.I; fin; rp; cbn [andb Z.eqb] in *; try exact Logic.I;
  try match goal with x : wpc |- _ => destruct x end; cbn [hW nW past] in *; fin; try exact Logic.I; cbn in *; try congruence; unfold stA, stB, stF, stN, fresh in *; cbn in *; try (intuition congruence).
Qed.

(** what the start routine returned *)
Definition vok (i : nat) (l : list act) (r : rec) : Prop :=
  match wp r with
  | WNone | W472 => forall v, ~ In (AReturn i v) l
  | W473 x => forall v, In (AReturn i v) l <-> v = x
  | _ => forall v, In (AReturn i v) l <-> v = ecode r
  end.
Record inv (n : nat) (l : list act) (s : tst) : Prop := {
  i_len : length (recs s) = n;
  i_ok : forall i r, nth_error (recs s) i = Some r -> rok r;
  i_O : forall i r, nth_error (recs s) i = Some r -> (hO (op r) = true <-> lk s = Some (i, true));
  i_W : forall i r, nth_error (recs s) i = Some r -> (hW (wp r) = true <-> lk s = Some (i, false));
  i_v : forall i r, nth_error (recs s) i = Some r -> vok i l r;
  i_lk : forall i o, lk s = Some (i, o) -> exists r, nth_error (recs s) i = Some r }.

Definition target (a : act) : nat := match a with AStep i _ | ACreate i _ | ACreateThread i _ | AReturn i _ | AJoin i | ADetach i => i end.
Lemma vok_other : forall i l a r, target a <> i -> vok i l r -> vok i (l ++ [a]) r.
Proof.
  intros i l a r N V. assert (K : forall v, In (AReturn i v) (l ++ [a]) <-> In (AReturn i v) l).
  { intros v. rewrite in_app_iff. cbn. split; [intros [X|[X|[]]]; [exact X|] | auto]. subst a. cbn in N. congruence. }
  unfold vok in *. destruct (wp r); intros v'; rewrite K; apply V.
Qed.
Lemma upd_inv : forall n l s i r o x a, inv n l s -> nth_error (recs s) i = Some r -> target a = i ->
  (lk s = None \/ (forall r', x <> Ret (Some (r', Take))) -> good r x o) ->
  (forall r' q, x = Ret (Some (r', q)) -> vok i (l ++ [a]) r') ->
  exists y, upd s i o x = Ret y /\ match y with Some s' => inv n (l ++ [a]) s' | None => True end.
Proof.
  intros n l s i r o x a I E T G V. pose proof (i_O _ _ _ I _ _ E) as LO. pose proof (i_W _ _ _ I _ _ E) as LW.
  assert (Y : (exists r', x = Ret (Some (r', Take))) /\ lk s <> None \/ good r x o).
  { destruct (lk s) as [q|] eqn:Q; [|right; apply G; auto]. destruct x as [[[r' [ | | ]]|]| | |]; try (right; apply G; right; intros; congruence). left. split; [eauto | discriminate]. }
  destruct Y as [((r' & ->) & Y)|Y]; [cbn; destruct (lk s); [exists None; auto | congruence]|].
  destruct x as [[(r', q)|]| | |]; cbn in Y; try contradiction; [|exists None; auto].
  specialize (V _ _ eq_refl). destruct Y as (K & Y).
  assert (C : forall lk', (hO (op r') = true <-> lk' = Some (i, true)) -> (hW (wp r') = true <-> lk' = Some (i, false)) ->
     (forall j b, j <> i -> (lk s = Some (j, b) <-> lk' = Some (j, b))) -> inv n (l ++ [a]) (mk_ts (lset i r' (recs s)) lk')).
  { intros lk' CO CW CK. constructor; cbn [recs lk].
    - rewrite lset_length. apply I.
    - intros j q' Ej. rewrite (lset_nth _ _ _ _ _ E) in Ej. destruct (Nat.eq_dec j i) as [->|N]; [injection Ej as <-; exact K | apply (i_ok _ _ _ I _ _ Ej)].
    - intros j q' Ej. rewrite (lset_nth _ _ _ _ _ E) in Ej. destruct (Nat.eq_dec j i) as [->|N]; [injection Ej as <-; exact CO|].
      rewrite (i_O _ _ _ I _ _ Ej). apply CK. exact N.
    - intros j q' Ej. rewrite (lset_nth _ _ _ _ _ E) in Ej. destruct (Nat.eq_dec j i) as [->|N]; [injection Ej as <-; exact CW|].
      rewrite (i_W _ _ _ I _ _ Ej). apply CK. exact N.
    - intros j q' Ej. rewrite (lset_nth _ _ _ _ _ E) in Ej. destruct (Nat.eq_dec j i) as [->|N]; [injection Ej as <-; exact V|].
      apply vok_other; [congruence | apply (i_v _ _ _ I _ _ Ej)].
    - intros j b H. rewrite (lset_nth _ _ _ _ _ E). destruct (Nat.eq_dec j i) as [->|N]; [eauto|].
      apply (CK _ _ N) in H. apply (i_lk _ _ _ I _ _ H). }
  destruct o; destruct q; cbn [lockstep upd] in *.
  - destruct Y as (Y1 & Y2). eexists. split; [reflexivity|]. apply C; [rewrite Y1; exact LO | rewrite Y2; exact LW | tauto].
  - destruct Y as ((Y1 & Y3) & Y2). destruct (lk s) eqn:Q; [exists None; auto|]. eexists. split; [reflexivity|].
    apply C; [tauto | rewrite Y2, LW; split; congruence | intros; split; congruence].
  - destruct Y as ((Y1 & Y3) & Y2). apply LO in Y1. eexists. split; [reflexivity|].
    apply C; [rewrite Y3; split; discriminate | rewrite Y2, LW, Y1; split; congruence | intros; rewrite Y1; split; congruence].
  - destruct Y as (Y1 & Y2). eexists. split; [reflexivity|]. apply C; [rewrite Y2; exact LO | rewrite Y1; exact LW | tauto].
  - destruct Y as ((Y1 & Y3) & Y2). destruct (lk s) eqn:Q; [exists None; auto|]. eexists. split; [reflexivity|].
    apply C; [rewrite Y2, LO; split; congruence | tauto | intros; split; congruence].
  - destruct Y as ((Y1 & Y3) & Y2). apply LW in Y1. eexists. split; [reflexivity|].
    apply C; [rewrite Y2, LO, Y1; split; congruence | rewrite Y3; split; discriminate | intros; rewrite Y1; split; congruence].
Qed.

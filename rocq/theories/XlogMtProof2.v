(** Proofs for C72, part 2: the invariant of all schedules *)
From Verif Require Import CBase CStr StringsModel TimeModel ThreadLib XlogModel XlogSpec XlogProof3 XlogMtModel XlogMtSpec XlogMtProof.

(** inside the lock *)
Definition crit (p : pc) : bool := match p with PWrite _ | PCache _ | PBody _ | PEmit _ | PInner _ | PUnlock => true | _ => false end.
(** what the thread still has to write and to output *)
Definition pend (p : pc) : list upd := match p with PCache us => us | _ => [] end.
Definition rest (p : pc) : list event := match p with PEmit l | PInner l => l | _ => [] end.
(** what a thread inside a call has done since the beginning of the call *)
Definition partial (p : pc) (l : list acc) : Prop :=
  match p with
  | PIdle => l = []
  | PLockS o | PWrite o => accepted o = true /\ l = [AStart (CSet o)]
  | PCache us => forallb cache us = true /\ exists o, in_range o /\ l = [AStart (CSet o); AWrite o]
  | PTarget r again => 1 <= r_level r /\ (again = r_hex r /\ l = [AStart (CLog r)] \/ again = false /\ r_hex r = true /\ exists g, passes (r_level r) g /\ l = AStart (CLog r) :: g)
  | PMin1 r again => 1 <= r_level r /\ exists a, a <> 0 /\ (again = r_hex r /\ l = [AStart (CLog r); ATarget a] \/ again = false /\ r_hex r = true /\ exists g, passes (r_level r) g /\ l = AStart (CLog r) :: g ++ [ATarget a])
  | PMin2 r again => 1 <= r_level r < 6 /\ exists a b, a <> 0 /\ b <> 0 /\ (again = r_hex r /\ l = [AStart (CLog r); ATarget a; AMin1 b] \/ again = false /\ r_hex r = true /\ exists g, passes (r_level r) g /\ l = AStart (CLog r) :: g ++ [ATarget a; AMin1 b])
  | PLockR r | PBody r => 1 <= r_level r < 6 /\ (r_hex r = false /\ (exists g, passes (r_level r) g /\ l = AStart (CLog r) :: g) \/ r_hex r = true /\ exists g g', passes (r_level r) g /\ passes (r_level r) g' /\ l = AStart (CLog r) :: g ++ g')
  | PEmit _ | PInner _ => exists r evs, (r_hex r = false /\ (exists g, passes (r_level r) g /\ l = AStart (CLog r) :: g ++ AMake r :: map AOut evs) \/ r_hex r = true /\ exists g g', passes (r_level r) g /\ passes (r_level r) g' /\ l = AStart (CLog r) :: g ++ g' ++ AMake r :: map AOut evs)
  | PGet v => l = [AStart (CGet v)]
  | PUnlock | PRet => exists c, does c (l ++ [AEnd])
  end.
(** the call a thread is in *)
Definition head (l : list acc) : list call := match l with AStart c :: _ => [c] | _ => [] end.
(** thread t of the program prog *)
Definition tok (prog : list call) (th : thr) (h : list acc) : Prop :=
  exists ls l cs, h = concat ls ++ l /\ Forall2 does cs ls /\ prog = cs ++ head l ++ todo th /\ partial (at_ th) l.

Record inv (sf : strftime_fn) (progs : list (list call)) (s : st) : Prop := {
  i_len : length (ths s) = length progs;
  i_thr : forall t th prog, nth_error (ths s) t = Some th -> nth_error progs t = Some prog -> tok prog th (proj t (history s));
  i_crit : forall t th, nth_error (ths s) t = Some th -> crit (at_ th) = true -> holder s = Some t;
  i_hold : forall t, holder s = Some t -> exists th, nth_error (ths s) t = Some th /\ crit (at_ th) = true;
  i_conf : exists us c, (forall t th, nth_error (ths s) t = Some th -> crit (at_ th) = true -> pend (at_ th) = us) /\ (holder s = None -> us = []) /\
           forallb cache us = true /\ applies us (conf s) = Ret c /\ sets cfg0 (writes (history s)) = Ret c;
  i_out : exists l, (forall t th, nth_error (ths s) t = Some th -> crit (at_ th) = true -> rest (at_ th) = l) /\ (holder s = None -> l = []) /\ made sf (history s) (outs (history s) ++ l);
  i_cur : forall p t a q, history s = p ++ (t, a) :: q -> current p a }.

Lemma inv_start sf progs : inv sf progs (start progs).
Proof.
  assert (TH : forall t th, nth_error (ths (start progs)) t = Some th -> exists p, nth_error progs t = Some p /\ th = mk_th p PIdle).
  { intros t th H. cbn [start ths] in H. rewrite nth_error_map in H. destruct (nth_error progs t) as [p|]; [|discriminate]. injection H as <-. eauto. }
  split.
  - cbn. apply map_length.
  - intros t th prog H1 H2. destruct (TH t th H1) as (p & E & ->). assert (p = prog) by congruence. subst p. exists [], [], []. cbn. repeat split; constructor.
  - intros t th H C. destruct (TH t th H) as (p & E & ->). discriminate.
  - discriminate.
  - exists [], cfg0. split; [|repeat split; reflexivity]. intros t th H C. destruct (TH t th H) as (p & E & ->). discriminate.
  - exists []. split; [|split; [reflexivity|constructor]]. intros t th H C. destruct (TH t th H) as (p & E & ->). discriminate.
  - intros p t a q H. cbn in H. destruct p; discriminate.
Qed.
(** what a history's new last entry has to satisfy *)
Lemma cur_snoc h t a : (forall p t a q, h = p ++ (t, a) :: q -> current p a) -> current h a -> forall p u b q, h ++ [(t, a)] = p ++ (u, b) :: q -> current p b.
Proof.
  intros H C p u b q E. destruct q as [|y q] using rev_ind.
  - apply app_inj_tail in E as [-> E]. injection E as -> ->. exact C.
  - rewrite app_comm_cons, app_assoc in E. apply app_inj_tail in E as [E _]. apply (H p u b q E).
Qed.

Definition lab (t : nat) (A : list acc) : list (nat * acc) := map (pair t) A.
Lemma proj_lab u t A : proj u (lab t A) = if Nat.eqb t u then A else [].
Proof. unfold lab. induction A as [|a A IH]; cbn; [destruct (Nat.eqb t u); reflexivity|]. destruct (Nat.eqb t u) eqn:Q; cbn; [f_equal; exact IH|exact IH]. Qed.
Lemma proj_app u a b : proj u (a ++ b) = proj u a ++ proj u b. Proof. apply flat_map_app. Qed.

Lemma upd_inv sf progs s t th c' hd' th' (A : option acc) :
  inv sf progs s -> nth_error (ths s) t = Some th ->
  let h := history s in let h' := h ++ match A with Some a => [(t, a)] | None => [] end in
  (forall prog, nth_error progs t = Some prog -> tok prog th (proj t h) -> tok prog th' (proj t h ++ match A with Some a => [a] | None => [] end)) ->
  ((hd' = holder s /\ crit (at_ th') = crit (at_ th)) \/ (holder s = None /\ hd' = Some t /\ crit (at_ th') = true) \/ (crit (at_ th) = true /\ hd' = None /\ crit (at_ th') = false)) ->
  (crit (at_ th) = true \/ c' = conf s) ->
  (forall us c, (crit (at_ th) = true -> us = pend (at_ th)) -> (holder s = None -> us = []) -> forallb cache us = true -> applies us (conf s) = Ret c -> sets cfg0 (writes h) = Ret c ->
     exists us' c2, (crit (at_ th') = true -> us' = pend (at_ th')) /\ (hd' = None -> us' = []) /\ (crit (at_ th) = false -> us' = us) /\ forallb cache us' = true /\ applies us' c' = Ret c2 /\ sets cfg0 (writes h') = Ret c2) ->
  (forall l, (crit (at_ th) = true -> l = rest (at_ th)) -> (holder s = None -> l = []) -> made sf h (outs h ++ l) ->
     exists l', (crit (at_ th') = true -> l' = rest (at_ th')) /\ (hd' = None -> l' = []) /\ (crit (at_ th) = false -> l' = l) /\ made sf h' (outs h' ++ l')) ->
  (forall a, A = Some a -> current h a) ->
  inv sf progs (mk_st c' hd' (lset t th' (ths s)) (match A with Some a => [(t, a)] | None => [] end ++ trace s)).
Proof.
  intros I N h h' TOK LK CF CONF OUT CUR. set (s' := mk_st _ _ _ _).
  assert (HH : history s' = h') by (unfold s', history, h', h; cbn [trace]; rewrite rev_app_distr; destruct A; reflexivity).
  assert (OTHER : forall u thu, nth_error (ths s') u = Some thu -> (u = t /\ thu = th') \/ (u <> t /\ nth_error (ths s) u = Some thu)).
  { intros u thu H. cbn [s' ths] in H. rewrite (lset_nth _ _ _ _ _ N) in H. destruct (Nat.eq_dec u t) as [->|NE]; [left; split; congruence|right; auto]. }
  assert (ME : nth_error (ths s') t = Some th') by (cbn [s' ths]; rewrite (lset_nth _ _ _ _ _ N); destruct (Nat.eq_dec t t); congruence).
  assert (EX : forall u thu, nth_error (ths s) u = Some thu -> crit (at_ thu) = true -> u <> t -> hd' = holder s /\ crit (at_ th) = false /\ crit (at_ th') = false).
  { intros u thu H C NE. pose proof (i_crit _ _ _ I u thu H C) as HU. assert (NC : crit (at_ th) = false).
    { destruct (crit (at_ th)) eqn:Q; [|reflexivity]. pose proof (i_crit _ _ _ I t th N Q). congruence. }
    destruct LK as [(L1 & L2)|[(L1 & _)|(L1 & _)]]; [rewrite L2; auto|congruence|congruence]. }
  split.
  - cbn [s' ths]. rewrite lset_length. apply I.
  - intros u thu prog H1 H2. rewrite HH. unfold h'. rewrite proj_app. replace (proj u match A with Some a => [(t, a)] | None => [] end) with (if Nat.eqb t u then match A with Some a => [a] | None => [] end else [])
      by (destruct A; cbn; destruct (Nat.eqb t u); reflexivity).
    destruct (OTHER u thu H1) as [[-> ->]|[NE H]].
    + rewrite Nat.eqb_refl. apply TOK; [exact H2|]. eapply i_thr; eassumption.
    + replace (Nat.eqb t u) with false by (symmetry; apply Nat.eqb_neq; congruence). rewrite app_nil_r. eapply i_thr; eassumption.
  - intros u thu H C. destruct (OTHER u thu H) as [[-> ->]|[NE H']].
    + cbn [s' holder]. destruct LK as [(L1 & L2)|[(_ & L2 & _)|(_ & _ & L2)]]; [rewrite L1; eapply i_crit; [exact I|exact N|congruence]|exact L2|congruence].
    + cbn [s' holder]. destruct (EX u thu H' C NE) as (-> & _). eapply i_crit; eassumption.
  - intros u H. cbn [s' holder] in H. destruct LK as [(L1 & L2)|[(L0 & L1 & L2)|(_ & L1 & _)]]; [|exists th'; split; [replace u with t by congruence; exact ME|exact L2]|congruence].
    rewrite L1 in H. destruct (i_hold _ _ _ I u H) as (thu & H1 & H2). destruct (Nat.eq_dec u t) as [->|NE].
    + exists th'. split; [exact ME|]. rewrite L2. congruence.
    + exists thu. split; [|exact H2]. cbn [s' ths]. rewrite lset_ne by exact NE. exact H1.
  - destruct (i_conf _ _ _ I) as (us & c & P1 & P2 & P3 & P4 & P5). destruct (CONF us c) as (us' & c2 & Q1 & Q2 & Q3 & Q4 & Q5 & Q6); auto.
    { intro C. symmetry. eapply P1; [exact N|exact C]. }
    exists us', c2. rewrite HH. cbn [s' holder conf]. split; [|auto]. intros u thu H C. destruct (OTHER u thu H) as [[-> ->]|[NE H']]; [symmetry; auto|].
    destruct (EX u thu H' C NE) as (_ & NC & _). rewrite (Q3 NC). eapply P1; eassumption.
  - destruct (i_out _ _ _ I) as (l & P1 & P2 & P3). destruct (OUT l) as (l' & Q1 & Q2 & Q3 & Q4); auto.
    { intro C. symmetry. eapply P1; [exact N|exact C]. }
    exists l'. rewrite HH. cbn [s' holder]. split; [|auto]. intros u thu H C. destruct (OTHER u thu H) as [[-> ->]|[NE H']]; [symmetry; auto|].
    destruct (EX u thu H' C NE) as (_ & NC & _). rewrite (Q3 NC). eapply P1; eassumption.
  - rewrite HH. unfold h'. destruct A as [a|]; [|rewrite app_nil_r; apply I]. apply cur_snoc; [apply I|apply CUR; reflexivity].
Qed.

(** Proofs for C72, part 5: no undefined behaviour, and progress *)
From Verif Require Import CBase CStr StringsModel TimeModel TimeSpec ThreadLib XlogModel XlogSpec XlogProof XlogProof2 XlogProof3 XlogProof4 Props_Xlog XlogMtModel XlogMtSpec XlogMtProof XlogMtProof2 XlogMtProof3 XlogMtProof4.

Lemma body_target sf c c' e level tag func line : x_console c = false -> x_usercb c = false -> set c (SetTarget 1) = Ret c' -> xlog_body sf c' e level tag func line = xlog_body sf c e level tag func line.
Proof. intros A B H. injection H as <-. destruct c. cbn in A, B. subst. reflexivity. Qed.

Lemma body_total sf h c r : strftime_ok sf -> Forall op_ok h -> sets cfg0 h = Ret c -> call_ok (CLog r) -> r_level r < 6 ->
  exists l, xlog_body sf c (r_env r) (r_level r) (r_tag r) (r_func r) (r_line r) = Ret l.
Proof.
  intros SF HO S (L1 & TI & LI & TG & FN & (m & M1 & M2 & M3) & ML) L.
  (* settings under which the record passes the level test *)
  assert (W : exists h' c', Forall op_ok h' /\ sets cfg0 h' = Ret c' /\ enabled h' (r_level r) /\ xlog_body sf c' (r_env r) (r_level r) (r_tag r) (r_func r) (r_line r) = xlog_body sf c (r_env r) (r_level r) (r_tag r) (r_func r) (r_line r)).
  { assert (A1 : exists h1 c1, Forall op_ok h1 /\ sets cfg0 h1 = Ret c1 /\ target h1 <> 0 /\ xlog_body sf c1 (r_env r) (r_level r) (r_tag r) (r_func r) (r_line r) = xlog_body sf c (r_env r) (r_level r) (r_tag r) (r_func r) (r_line r)).
    { destruct (Z.eq_dec (target h) 0) as [T|T].
      - destruct (sets_good h c S) as (_ & _ & _ & _ & C1 & C2). rewrite T in C1, C2. exists (h ++ [SetTarget 1]). destruct (set c (SetTarget 1)) as [c1| | |] eqn:E; try discriminate E.
        exists c1. split; [apply Forall_app; split; [exact HO|repeat constructor]|]. split; [rewrite sets_snoc, S; exact E|]. split; [unfold target; rewrite latest_snoc; cbn; discriminate|].
        apply body_target; [exact C1|exact C2|exact E].
      - exists h, c. auto. }
    destruct A1 as (h1 & c1 & O1 & S1 & T1 & B1). destruct (set c1 (SetMin 1)) as [c2| | |] eqn:E; try discriminate E. exists (h1 ++ [SetMin 1]), c2.
    split; [apply Forall_app; split; [exact O1|repeat constructor]|]. split; [rewrite sets_snoc, S1; exact E|]. split.
    - unfold enabled, target, min_level in *. rewrite !latest_snoc. cbn. repeat split; [exact T1|discriminate|exact L1|lia].
    - rewrite (body_min sf c1 c2) by exact E. exact B1. }
  destruct W as (h' & c' & O' & S' & EN & <-). destruct (default_tag_exists h' O') as (dtag & D).
  destruct (C43_records h' dtag O' D) as (c'' & S'' & R). rewrite S' in S''. injection S'' as <-.
  assert (FA : exists f, str_arg (r_func r) f /\ match f with Some f => zlen f <= 440 | None => True end).
  { destruct (r_func r) as [b|]; [|exists None; cbn; auto]. destruct (FN b eq_refl) as (f & F1 & F2). exists (Some f). auto. }
  destruct FA as (f & FA & FL).
  assert (TA : exists t, match r_tag r with None => t = dtag | Some b => cblock t b end).
  { destruct (r_tag r) as [b|]; [destruct (TG b eq_refl) as (t & T); exists t; exact T|exists dtag; reflexivity]. }
  destruct TA as (t & TA).
  destruct (R sf (r_env r) (r_level r) (r_tag r) t (r_func r) f (r_line r) m SF TI ltac:(lia) TA FA LI M1 M2 M3 ML) as (stm & Z1 & _ & _ & R2).
  destruct (C43_header_bounded h' stm t (shown_level h' (r_level r)) (e_tid (r_env r)) f (r_line r) Z1 LI) as (_ & HB). specialize (R2 EN (HB FL)).
  assert (LG : logable c' (r_level r) = true). { destruct (XlogProof3.history h' dtag D O') as (c3 & S3 & A). rewrite S' in S3. injection S3 as <-. apply (logable_ok h' dtag c' (r_level r) A). exact EN. }
  rewrite print_body, LG in R2. cbn [negb] in R2. eexists. exact R2.
Qed.

Lemma head_in prog th h c : tok prog th h -> (forall l, partial (at_ th) l -> head l = [c]) -> In c prog.
Proof. intros (ls & l & cs & _ & _ & -> & P) H. rewrite (H l P). apply in_or_app. right. left. reflexivity. Qed.

(** no step is undefined *)
Lemma step_total sf progs cbl s t : strftime_ok sf -> (forall p c, In p progs -> In c p -> call_ok c) -> inv sf progs s -> Forall op_ok (writes (history s)) ->
  exists o, step sf true cbl t s = Ret o /\ match o with Some s' => Forall op_ok (writes (history s')) | None => True end.
Proof.
  intros SF OK I W. unfold step. destruct (nth_error (ths s) t) as [[td p]|] eqn:N; [|eexists; split; [reflexivity|exact Logic.I]].
  assert (PG : exists prog, nth_error progs t = Some prog).
  { destruct (nth_error progs t) as [prog|] eqn:Q; [eauto|]. apply nth_error_None in Q. pose proof (i_len _ _ _ I). assert (nth_error (ths s) t <> None) as X by congruence. apply nth_error_Some in X. lia. }
  destruct PG as (prog & Q). pose proof (i_thr _ _ _ I t _ prog N Q) as TK. pose proof (nth_error_In _ _ Q) as IP.
  assert (G : forall c h p' a, match a with AWrite _ => False | _ => True end -> Forall op_ok (writes (history (mk_st c h (lset t (mk_th td p') (ths s)) ((t, a) :: trace s))))).
  { intros c h p' a A. unfold history. cbn [trace rev]. rewrite writes_snoc. destruct a; try contradiction; rewrite app_nil_r; exact W. }
  assert (G0 : forall td c h p' a, match a with AWrite _ => False | _ => True end -> Forall op_ok (writes (history (mk_st c h (lset t (mk_th td p') (ths s)) ((t, a) :: trace s))))) by (intros; apply (G c h p' a); assumption).
  (* inside the lock, with nothing left to write: the settings are those of the history *)
  assert (CF : crit p = true -> pend p = [] -> sets cfg0 (writes (history s)) = Ret (conf s)).
  { intros C P. destruct (i_conf _ _ _ I) as (us & c & P1 & _ & _ & P4 & P5). specialize (P1 t _ N C). cbn [at_] in P1. rewrite P in P1. subst us. cbn in P4. injection P4 as ->. exact P5. }
  cbv zeta. destruct p as [|o|o|us|r ag|r ag|r ag|r|r|l|l|v| |].
  - destruct td as [|c td']; [eexists; split; [reflexivity|exact Logic.I]|]. eexists. split; [reflexivity|]. apply G0. exact Logic.I.
  - destruct (free true s); eexists; (split; [reflexivity|]); [exact W|exact Logic.I].
  - specialize (CF eq_refl eq_refl). assert (IC : In (CSet o) prog) by (eapply head_in; [exact TK|]; intros l (_ & ->); reflexivity).
    assert (AC : accepted o = true) by (destruct TK as (? & ? & ? & _ & _ & _ & (X & _)); exact X).
    pose proof (OK prog (CSet o) IP IC) as O. cbn in O. assert (FO : Forall op_ok (writes (history s) ++ [o])) by (apply Forall_app; split; [exact W|constructor; [exact O|constructor]]).
    destruct (default_tag_exists _ FO) as (dt & D). destruct (XlogProof3.history _ dt D FO) as (c & S & _). rewrite sets_snoc, CF in S. cbn [bind] in S. rewrite (set_applies o (conf s) AC) in S.
    destruct (apply (fst (writes_of o)) (conf s)) as [c1| | |]; try discriminate S. cbn [bind]. eexists. split; [reflexivity|]. unfold history. cbn [app trace rev]. rewrite writes_snoc. exact FO.
  - destruct us as [|u us]; [eexists; split; [reflexivity|exact W]|]. assert (CU : cache u = true).
    { destruct TK as (? & ? & ? & _ & _ & _ & (X & _)). cbn in X. apply andb_prop in X as [X _]. exact X. }
    destruct (apply_cache u (conf s) CU) as (c' & -> & _). cbn [bind]. eexists. split; [reflexivity|exact W].
  - eexists. split; [reflexivity|]. apply G. exact Logic.I.
  - eexists. split; [reflexivity|]. apply G. exact Logic.I.
  - eexists. split; [reflexivity|]. apply G. exact Logic.I.
  - destruct (free true s); eexists; (split; [reflexivity|]); [exact W|exact Logic.I].
  - specialize (CF eq_refl eq_refl). assert (IC : In (CLog r) prog).
    { eapply head_in; [exact TK|]. intros l (_ & [(_ & g & _ & ->)|(_ & g & g' & _ & _ & ->)]); reflexivity. }
    assert (L : r_level r < 6) by (destruct TK as (? & ? & ? & _ & _ & _ & (X & _)); lia).
    destruct (body_total sf _ (conf s) r SF W CF (OK prog _ IP IC) L) as (l & ->). cbn [bind]. eexists. split; [reflexivity|]. apply G. exact Logic.I.
  - destruct l as [|e l]; eexists; (split; [reflexivity|]); [exact W|apply G; exact Logic.I].
  - destruct (free true s); eexists; (split; [reflexivity|]); [exact W|exact Logic.I].
  - eexists. split; [reflexivity|]. apply G. exact Logic.I.
  - eexists. split; [reflexivity|exact W].
  - eexists. split; [reflexivity|]. apply G. exact Logic.I.
Qed.
Lemma run_total sf progs cbl l : strftime_ok sf -> levels_ok progs -> (forall p c, In p progs -> In c p -> call_ok c) -> forall s, inv sf progs s -> Forall op_ok (writes (history s)) -> exists s', run sf true cbl l s = Ret s'.
Proof.
  intros SF LV OK. induction l as [|t l IH]; intros s I W; [eexists; reflexivity|]. cbn [run]. destruct (step_total sf progs cbl s t SF OK I W) as (o & E & X). rewrite E. cbn [bind].
  destruct o as [s'|]; [|apply IH; assumption]. apply IH; [eapply step_inv; eassumption|exact X].
Qed.

(** without a callback that logs nobody waits inside a callback *)
Definition plain (s : st) : Prop := forall t th, nth_error (ths s) t = Some th -> forall l, at_ th <> PInner l.
Lemma plain_step sf mx s t s' : plain s -> step sf mx false t s = Ret (Some s') -> plain s'.
Proof.
  intros P H. assert (G : forall c h td p a, (forall l, p <> PInner l) -> plain (mk_st c h (lset t (mk_th td p) (ths s)) a)).
  { intros c h td p a NI u th. cbn [ths]. destruct (Nat.eq_dec u t) as [->|NE].
    - intro X. assert (th = mk_th td p) as ->; [|exact NI]. assert (nth_error (lset t (mk_th td p) (ths s)) t <> None) as Y by congruence. apply nth_error_Some in Y. rewrite lset_length in Y. apply nth_error_Some in Y. destruct (nth_error (ths s) t) as [x|] eqn:N; [|congruence]. rewrite (lset_eq _ _ _ _ N) in X. congruence.
    - rewrite lset_ne by congruence. apply P. }
  unfold step in H. destruct (nth_error (ths s) t) as [[td p]|] eqn:N; [|discriminate]. cbv zeta in H. destruct p as [|o|o|us|r ag|r ag|r ag|r|r|l|l|v| |].
  - destruct td as [|c td']; [discriminate|]. injection H as <-. apply G. intros l X. destruct c; [destruct (accepted o)| |]; discriminate X.
  - destruct (free mx s); [|discriminate]. injection H as <-. apply G. discriminate.
  - destruct (apply _ _); try discriminate. cbn [bind] in H. injection H as <-. apply G. discriminate.
  - destruct us as [|u us]; [injection H as <-; apply G; discriminate|]. destruct (apply _ _); try discriminate. cbn [bind] in H. injection H as <-. apply G. discriminate.
  - injection H as <-. apply G. intros l X. destruct (x_target (conf s) =? 0); discriminate X.
  - injection H as <-. apply G. intros l X. destruct (negb (x_min (conf s) =? 0) && (r_level r <? 6)); discriminate X.
  - injection H as <-. apply G. intros l X. destruct (r_level r >=? x_min (conf s)); [destruct ag|]; discriminate X.
  - destruct (free mx s); [|discriminate]. injection H as <-. apply G. discriminate.
  - destruct (xlog_body _ _ _ _ _ _ _); try discriminate. cbn [bind] in H. injection H as <-. apply G. discriminate.
  - destruct l as [|e l]; injection H as <-; apply G; [discriminate|]. intros l' X. destruct e; discriminate X.
  - exfalso. exact (P t _ N l eq_refl).
  - injection H as <-. apply G. discriminate.
  - injection H as <-. apply G. discriminate.
  - injection H as <-. apply G. discriminate.
Qed.
Lemma plain_run sf mx l : forall s s', plain s -> run sf mx false l s = Ret s' -> plain s'.
Proof.
  induction l as [|t l IH]; intros s s' P H; cbn [run] in H; [injection H as <-; exact P|].
  destruct (step sf mx false t s) as [[s1|]| | |] eqn:E; try discriminate; cbn [bind] in H; eapply IH; [|exact H| |exact H]; [eapply plain_step; eassumption|exact P].
Qed.
Lemma plain_start progs : plain (start progs).
Proof. intros t th H l. cbn [start ths] in H. rewrite nth_error_map in H. destruct (nth_error progs t); [|discriminate]. injection H as <-. discriminate. Qed.
(** the thread inside the lock can go on; so can every other one that is in a call or has one left, when nobody is inside *)
Lemma holder_moves sf mx s t th : plain s -> nth_error (ths s) t = Some th -> crit (at_ th) = true -> step sf mx false t s <> Ret None.
Proof.
  intros P N C. unfold step. rewrite N. destruct th as [td p]. cbn [at_] in C. cbv zeta. destruct p as [|o|o|us|r ag|r ag|r ag|r|r|l|l|v| |]; try discriminate C.
  - destruct (apply _ _); cbn [bind]; discriminate.
  - destruct us as [|u us]; [discriminate|]. destruct (apply _ _); cbn [bind]; discriminate.
  - destruct (xlog_body _ _ _ _ _ _ _); cbn [bind]; discriminate.
  - destruct l; discriminate.
  - exfalso. exact (P t _ N l eq_refl).
  - discriminate.
Qed.
Lemma free_moves sf s t : plain s -> holder s = None -> ~ finished s t -> step sf true false t s <> Ret None.
Proof.
  intros P H F. unfold finished in F. destruct (nth_error (ths s) t) as [th|] eqn:N; [|exfalso; exact (F Logic.I)].
  destruct (crit (at_ th)) eqn:C; [exact (holder_moves sf true s t th P N C)|]. unfold step. rewrite N. destruct th as [td p]. cbn [at_ todo] in *. unfold free. rewrite H. cbv zeta.
  destruct p as [|o|o|us|r ag|r ag|r ag|r|r|l|l|v| |]; try discriminate C; try discriminate. destruct td; [exfalso; apply F; auto|discriminate].
Qed.

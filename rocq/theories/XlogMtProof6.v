(** Proofs for C72, part 6: a callback that logs *)
From Verif Require Import CBase CStr StringsModel TimeModel ThreadLib XlogModel XlogSpec XlogProof3 XlogMtModel XlogMtSpec XlogMtProof XlogMtProof2 XlogMtProof3 XlogMtProof4.
Definition stuck (t : nat) (s : st) : Prop := holder s = Some t /\ exists td l, nth_error (ths s) t = Some (mk_th td (PInner l)).
(** the thread keeps waiting for itself, and nobody outputs anything any more *)
Lemma stuck_step sf progs t s u o : levels_ok progs -> inv sf progs s -> stuck t s -> step sf true true u s = Ret o ->
  match o with Some s' => stuck t s' /\ outs (history s') = outs (history s) /\ u <> t | None => True end.
Proof.
  intros LV I (HD & td & l & N) H. destruct o as [s'|]; [|exact Logic.I]. unfold step in H. destruct (nth_error (ths s) u) as [[tu p]|] eqn:NU; [|discriminate].
  assert (FR : free true s = false) by (unfold free; rewrite HD; reflexivity). cbv zeta in H.
  assert (NE : u <> t). { intros ->. rewrite N in NU. injection NU as <- <-. rewrite FR in H. discriminate. }
  assert (NC : crit p = false). { destruct (crit p) eqn:C; [|reflexivity]. pose proof (i_crit _ _ _ I u _ NU C). congruence. }
  assert (G : forall c p' td' A, match A with Some (AOut _) => False | _ => True end -> stuck t (mk_st c (holder s) (lset u (mk_th td' p') (ths s)) (match A with Some a => [(u, a)] | None => [] end ++ trace s)) /\
    outs (history (mk_st c (holder s) (lset u (mk_th td' p') (ths s)) (match A with Some a => [(u, a)] | None => [] end ++ trace s))) = outs (history s) /\ u <> t).
  { intros c p' td' A NA. split; [split; [exact HD|exists td, l; cbn [ths]; rewrite lset_ne by congruence; exact N]|]. split; [|exact NE]. unfold history. cbn [trace]. destruct A as [a|]; [|reflexivity]. cbn [app rev]. rewrite outs_snoc. destruct a; try contradiction; apply app_nil_r. }
  destruct p as [|x|x|us|r ag|r ag|r ag|r|r|l1|l1|v| |]; try discriminate NC; try (rewrite FR in H; discriminate).
  - destruct tu as [|c tu]; [discriminate|]. injection H as <-. exact (G _ _ _ (Some (AStart c)) Logic.I).
  - injection H as <-. exact (G _ _ _ (Some (ATarget _)) Logic.I).
  - injection H as <-. exact (G _ _ _ (Some (AMin1 _)) Logic.I).
  - injection H as <-. exact (G _ _ _ (Some (AMin2 _)) Logic.I).
  - injection H as <-. exact (G _ _ _ (Some (AGet _ _)) Logic.I).
  - injection H as <-. exact (G _ _ _ (Some AEnd) Logic.I).
Qed.
Lemma stuck_run sf progs t l : levels_ok progs -> forall s s', inv sf progs s -> stuck t s -> run sf true true l s = Ret s' -> stuck t s' /\ outs (history s') = outs (history s).
Proof.
  intro LV. induction l as [|u l IH]; intros s s' I S H; cbn [run] in H; [injection H as <-; auto|].
  destruct (step sf true true u s) as [o| | |] eqn:E; try discriminate. cbn [bind] in H. pose proof (stuck_step sf progs t s u o LV I S E) as X. destruct o as [s1|]; [|apply (IH s s' I S H)].
  destruct X as (S1 & O1 & _). destruct (IH s1 s' (step_inv _ _ _ LV _ _ _ I E) S1 H) as (A & B). split; [exact A|congruence].
Qed.

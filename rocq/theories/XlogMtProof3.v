(** Proofs for C72, part 3: every step keeps the invariant *)
From Verif Require Import CBase CStr StringsModel TimeModel ThreadLib XlogModel XlogSpec XlogProof3 XlogMtModel XlogMtSpec XlogMtProof XlogMtProof2.

Section S.
Variables (sf : strftime_fn) (progs : list (list call)) (cbl : bool).
Hypothesis LV : levels_ok progs.

(** a step that touches neither the lock nor the settings nor the output *)
Lemma quiet s t th th' (A : option acc) : inv sf progs s -> nth_error (ths s) t = Some th -> crit (at_ th) = false -> crit (at_ th') = false ->
  (match A with Some (AWrite _) | Some (AMake _) | Some (AOut _) => False | _ => True end) ->
  (forall prog, nth_error progs t = Some prog -> tok prog th (proj t (history s)) -> tok prog th' (proj t (history s) ++ match A with Some a => [a] | None => [] end)) ->
  (forall a, A = Some a -> current (history s) a) ->
  inv sf progs (mk_st (conf s) (holder s) (lset t th' (ths s)) (match A with Some a => [(t, a)] | None => [] end ++ trace s)).
Proof.
  intros I N C C' NA TOK CUR. eapply upd_inv; [exact I|exact N|exact TOK|left; split; [reflexivity|congruence]|right; reflexivity| | |exact CUR].
  - intros us c U1 U2 U3 U4 U5. exists us, c. split; [congruence|]. split; [exact U2|]. split; [reflexivity|]. split; [exact U3|]. split; [exact U4|].
    destruct A as [a|]; [|rewrite app_nil_r; exact U5]. rewrite writes_snoc. destruct a; try contradiction; rewrite app_nil_r; exact U5.
  - intros l U1 U2 U3. exists l. split; [congruence|]. split; [exact U2|]. split; [reflexivity|]. destruct A as [a|]; [|rewrite app_nil_r; exact U3].
    rewrite outs_snoc. destruct a; try contradiction; rewrite app_nil_r; apply made_other; auto; discriminate.
Qed.
(** a step of the thread in the lock that changes nothing outside it *)
Lemma inside s t th th' : inv sf progs s -> nth_error (ths s) t = Some th -> crit (at_ th) = true -> crit (at_ th') = true -> pend (at_ th') = pend (at_ th) -> rest (at_ th') = rest (at_ th) ->
  (forall prog, nth_error progs t = Some prog -> tok prog th (proj t (history s)) -> tok prog th' (proj t (history s))) ->
  inv sf progs (mk_st (conf s) (holder s) (lset t th' (ths s)) (trace s)).
Proof.
  intros I N C C' P R TOK. apply (upd_inv sf progs s t th (conf s) (holder s) th' None); auto; try congruence.
  - intros prog H1 H2. rewrite app_nil_r. auto.
  - left. split; congruence.
  - intros us c U1 U2 U3 U4 U5. exists us, c. rewrite app_nil_r. split; [intros _; rewrite P; auto|]. split; [exact U2|]. split; [reflexivity|]. auto.
  - intros l U1 U2 U3. exists l. rewrite app_nil_r. split; [intros _; rewrite R; auto|]. auto.
Qed.
Lemma lock s t th th' : inv sf progs s -> nth_error (ths s) t = Some th -> holder s = None -> crit (at_ th') = true -> pend (at_ th') = [] -> rest (at_ th') = [] ->
  (forall prog, nth_error progs t = Some prog -> tok prog th (proj t (history s)) -> tok prog th' (proj t (history s))) ->
  inv sf progs (mk_st (conf s) (Some t) (lset t th' (ths s)) (trace s)).
Proof.
  intros I N C C' P R TOK. apply (upd_inv sf progs s t th (conf s) (Some t) th' None); auto; try congruence.
  - intros prog H1 H2. rewrite app_nil_r. auto.
  - intros us c U1 U2 U3 U4 U5. exists us, c. rewrite app_nil_r. split; [intros _; rewrite P; auto|]. split; [auto|]. split; [reflexivity|]. auto.
  - intros l U1 U2 U3. exists l. rewrite app_nil_r. split; [intros _; rewrite R; auto|]. auto.
Qed.
Lemma unlock s t th th' : inv sf progs s -> nth_error (ths s) t = Some th -> crit (at_ th) = true -> crit (at_ th') = false -> pend (at_ th) = [] -> rest (at_ th) = [] ->
  (forall prog, nth_error progs t = Some prog -> tok prog th (proj t (history s)) -> tok prog th' (proj t (history s))) ->
  inv sf progs (mk_st (conf s) None (lset t th' (ths s)) (trace s)).
Proof.
  intros I N C C' P R TOK. apply (upd_inv sf progs s t th (conf s) None th' None); auto; try congruence.
  - intros prog H1 H2. rewrite app_nil_r. auto.
  - intros us c U1 U2 U3 U4 U5. exists us, c. rewrite app_nil_r. split; [congruence|]. split; [intros _; rewrite U1; auto|]. split; [congruence|]. auto.
  - intros l U1 U2 U3. exists l. rewrite app_nil_r. split; [congruence|]. split; [intros _; rewrite U1; auto|]. split; [congruence|]. auto.
Qed.

(** the thread's own record of what it did *)
Lemma tok_step prog td p p' h A : (forall l, partial p l -> partial p' (l ++ A) /\ head (l ++ A) = head l) -> tok prog (mk_th td p) h -> tok prog (mk_th td p') (h ++ A).
Proof.
  intros H (ls & l & cs & E1 & E2 & E3 & E4). cbn [at_ todo] in *. destruct (H l E4) as (P & HD). exists ls, (l ++ A), cs. cbn [at_ todo]. rewrite E1, app_assoc, HD. auto.
Qed.
Lemma tok_step0 prog td p p' h : (forall l, partial p l -> partial p' l) -> tok prog (mk_th td p) h -> tok prog (mk_th td p') h.
Proof. intros H T. rewrite <- (app_nil_r h). apply (tok_step prog td p p' h []); [|exact T]. intros l P. rewrite !app_nil_r. auto. Qed.
(** a value read now is the current one *)
Lemma value_now s v : inv sf progs s -> value v (conf s) = setting v (writes (history s)).
Proof.
  intro I. destruct (i_conf _ _ _ I) as (us & c & _ & _ & P3 & P4 & P5). destruct (applies_cache us (conf s) P3) as (c' & E & V). rewrite P4 in E. injection E as <-. rewrite <- V.
  destruct (sets_good _ _ P5) as (A & B & C & D & _). destruct v; cbn; auto.
Qed.
Lemma head_app l A : l <> [] -> head (l ++ A) = head l. Proof. destruct l; [congruence|reflexivity]. Qed.

Theorem step_inv s t s' : inv sf progs s -> step sf true cbl t s = Ret (Some s') -> inv sf progs s'.
Proof.
  intros I H. unfold step in H. destruct (nth_error (ths s) t) as [[td p]|] eqn:N; [|discriminate].
  assert (PG : exists prog, nth_error progs t = Some prog).
  { destruct (nth_error progs t) eqn:Q; [eauto|]. apply nth_error_None in Q. pose proof (i_len _ _ _ I). assert (nth_error (ths s) t <> None) as X by congruence. apply nth_error_Some in X. lia. }
  pose proof (value_now s VTarget I) as VT. pose proof (value_now s VMin I) as VM. cbn [value setting] in VT, VM.
  destruct p as [|o|o|us|r again|r again|r again|r|r|l|l|v| |]; cbv zeta in H.
  - (* PIdle *)
    destruct td as [|c td]; [discriminate|]. injection H as <-. 
    set (p' := match c with CSet o => if accepted o then PLockS o else PRet | CLog r => PTarget r (r_hex r) | CGet v => PGet v end).
    apply (quiet s t (mk_th (c :: td) PIdle) (mk_th td p') (Some (AStart c)) I N eq_refl).
    + unfold p'. destruct c as [o|r|v]; cbn; [destruct (accepted o)|..]; reflexivity.
    + exact Logic.I.
    + intros prog H1 (ls & l & cs & E1 & E2 & E3 & E4). cbn [at_ todo partial] in *. subst l. exists ls, [AStart c], cs. cbn [at_ todo]. rewrite E1, app_nil_r. split; [reflexivity|]. split; [exact E2|]. split; [exact E3|].
      unfold p'. destruct c as [o|r|v]; cbn [partial].
      * destruct (accepted o) eqn:Q; cbn [partial]; [auto|]. exists (CSet o). cbn. apply does_ignore. intro X. apply accepted_range in X. congruence.
      * split; [|auto]. destruct PG as (prog' & PG). assert (prog' = prog) by congruence. subst prog'. apply (LV prog (CLog r)); [eapply nth_error_In; exact H1|]. rewrite E3. apply in_or_app. right. cbn. auto.
      * reflexivity.
    + intros a E. injection E as <-. exact Logic.I.
  - (* PLockS *)
    unfold free in H. destruct (holder s) eqn:HD; [discriminate|]. injection H as <-. eapply lock; [exact I|exact N|exact HD|reflexivity|reflexivity|reflexivity|].
    intros prog _. apply tok_step0. intros l X. exact X.
  - (* PWrite *)
    destruct (apply (fst (writes_of o)) (conf s)) as [c1| | |] eqn:A1; try discriminate. cbn [bind] in H. injection H as <-.
    assert (AC : accepted o = true). { destruct PG as (prog & PG). destruct (i_thr _ _ _ I t _ prog N PG) as (ls & l & cs & _ & _ & _ & X & _). exact X. }
    apply (upd_inv sf progs s t (mk_th td (PWrite o)) c1 (holder s) (mk_th td (PCache (snd (writes_of o)))) (Some (AWrite o)) I N).
    + intros prog _. apply tok_step. intros l (X & ->). cbn [partial app]. split; [|reflexivity]. split; [apply writes_cache|]. exists o. split; [apply accepted_range; exact AC|reflexivity].
    + left. auto.
    + left. reflexivity.
    + intros us c U1 U2 U3 U4 U5. rewrite (U1 eq_refl) in U4. cbn in U4. injection U4 as <-. destruct (applies_cache (snd (writes_of o)) c1 (writes_cache o)) as (c2 & E2 & _).
      exists (snd (writes_of o)), c2. split; [reflexivity|]. split; [|split; [discriminate|split; [apply writes_cache|split; [exact E2|]]]].
      * intro X. pose proof (i_crit _ _ _ I t _ N eq_refl). congruence.
      * rewrite writes_snoc, sets_snoc, U5. cbn [bind]. rewrite (set_applies o _ AC), A1. exact E2.
    + intros l U1 U2 U3. exists l. rewrite (U1 eq_refl) in *. cbn [at_ rest crit]. split; [reflexivity|]. split; [reflexivity|]. split; [discriminate|]. rewrite outs_snoc, !app_nil_r in *. apply made_other; [exact U3|discriminate].
    + intros a E. injection E as <-. exact Logic.I.
  - (* PCache *)
    destruct us as [|u us].
    + injection H as <-. eapply inside; [exact I|exact N|reflexivity|reflexivity|reflexivity|reflexivity|].
      intros prog _. apply tok_step0. intros l (_ & o & O & ->). exists (CSet o). cbn. apply does_set. exact O.
    + destruct (apply u (conf s)) as [c1| | |] eqn:A1; try discriminate. cbn [bind] in H. injection H as <-.
      apply (upd_inv sf progs s t (mk_th td (PCache (u :: us))) c1 (holder s) (mk_th td (PCache us)) None I N).
      * intros prog _. rewrite app_nil_r. apply tok_step0. intros l (X & Y). cbn in X. apply andb_prop in X as [_ X]. split; auto.
      * left. auto.
      * left. reflexivity.
      * intros vs c U1 U2 U3 U4 U5. rewrite (U1 eq_refl) in *. cbn [at_ pend applies] in *. rewrite A1 in U4. cbn [bind] in U4. exists us, c. rewrite app_nil_r. cbn in U3. apply andb_prop in U3 as [_ U3].
        split; [reflexivity|]. split; [intro X; pose proof (i_crit _ _ _ I t _ N eq_refl); congruence|]. split; [discriminate|]. auto.
      * intros l U1 U2 U3. exists l. rewrite (U1 eq_refl) in *. rewrite app_nil_r. cbn [at_ rest crit] in *. split; [reflexivity|]. split; [reflexivity|]. split; [discriminate|]. exact U3.
      * discriminate.
  - (* PTarget *)
    injection H as <-. set (p' := if x_target (conf s) =? 0 then PRet else PMin1 r again).
    apply (quiet s t (mk_th td (PTarget r again)) (mk_th td p') (Some (ATarget (x_target (conf s)))) I N eq_refl).
    + unfold p'. destruct (x_target (conf s) =? 0); reflexivity.
    + exact Logic.I.
    + intros prog _. apply tok_step. intros l (L & X). split; [|apply head_app; destruct X as [(_ & ->)|(_ & _ & g & _ & ->)]; discriminate]. unfold p'. destruct (x_target (conf s) =? 0) eqn:Q.
      * apply Z.eqb_eq in Q. rewrite Q. exists (CLog r). destruct X as [(_ & ->)|(_ & HX & g & G & ->)].
        -- apply (does_drop r [ATarget 0]). left. reflexivity.
        -- cbn [app]. rewrite <- app_assoc. apply (does_drop2 r g [ATarget 0]); auto. left. reflexivity.
      * apply Z.eqb_neq in Q. split; [exact L|]. exists (x_target (conf s)). split; [exact Q|]. destruct X as [(E & ->)|(E & HX & g & G & ->)]; [left; auto|right]. split; [exact E|]. split; [exact HX|]. exists g. auto.
    + intros a E. injection E as <-. exact VT.
  - (* PMin1 *)
    injection H as <-. set (p' := if negb (x_min (conf s) =? 0) && (r_level r <? 6) then PMin2 r again else PRet).
    apply (quiet s t (mk_th td (PMin1 r again)) (mk_th td p') (Some (AMin1 (x_min (conf s)))) I N eq_refl).
    + unfold p'. destruct (negb _ && _); reflexivity.
    + exact Logic.I.
    + intros prog _. apply tok_step. intros l (L & a & A0 & X). split; [|apply head_app; destruct X as [(_ & ->)|(_ & _ & g & _ & ->)]; discriminate]. unfold p'. destruct (negb (x_min (conf s) =? 0) && (r_level r <? 6)) eqn:Q.
      * split; [lia|]. exists a, (x_min (conf s)). split; [exact A0|]. split; [lia|]. destruct X as [(E & ->)|(E & HX & g & G & ->)]; [left; auto|right]. split; [exact E|]. split; [exact HX|]. exists g. split; [exact G|]. cbn [app]. rewrite <- app_assoc. reflexivity.
      * assert (F : fails (r_level r) [ATarget a; AMin1 (x_min (conf s))]). { right. left. exists a, (x_min (conf s)). split; [reflexivity|]. split; [exact A0|]. lia. }
        exists (CLog r). destruct X as [(_ & ->)|(_ & HX & g & G & ->)].
        -- exact (does_drop r _ F).
        -- cbn [app]. rewrite <- !app_assoc. exact (does_drop2 r g _ HX G F).
    + intros a E. injection E as <-. exact VM.
  - (* PMin2 *)
    injection H as <-. set (p' := if r_level r >=? x_min (conf s) then (if again then PTarget r false else PLockR r) else PRet).
    apply (quiet s t (mk_th td (PMin2 r again)) (mk_th td p') (Some (AMin2 (x_min (conf s)))) I N eq_refl).
    + unfold p'. destruct (_ >=? _); [destruct again|]; reflexivity.
    + exact Logic.I.
    + intros prog _. apply tok_step. intros l (L & a & b & A0 & B0 & X). split; [|apply head_app; destruct X as [(_ & ->)|(_ & _ & g & _ & ->)]; discriminate]. unfold p'. destruct (r_level r >=? x_min (conf s)) eqn:Q.
      * assert (F : passes (r_level r) [ATarget a; AMin1 b; AMin2 (x_min (conf s))]). { exists a, b, (x_min (conf s)). split; [reflexivity|]. split; [exact A0|]. split; [exact B0|]. lia. }
        destruct X as [(E & ->)|(E & HX & g & G & ->)].
        -- subst again. destruct (r_hex r) eqn:HX.
           ++ split; [lia|]. right. split; [reflexivity|]. split; [exact HX|]. eexists. split; [exact F|reflexivity].
           ++ split; [exact L|]. left. split; [exact HX|]. eexists. split; [exact F|reflexivity].
        -- subst again. split; [exact L|]. right. split; [exact HX|]. exists g. eexists. split; [exact G|]. split; [exact F|]. cbn [app]. rewrite <- app_assoc. reflexivity.
      * assert (F : fails (r_level r) [ATarget a; AMin1 b; AMin2 (x_min (conf s))]). { right. right. exists a, b, (x_min (conf s)). split; [reflexivity|]. split; [exact A0|]. split; [exact B0|]. lia. }
        exists (CLog r). destruct X as [(_ & ->)|(_ & HX & g & G & ->)].
        -- exact (does_drop r _ F).
        -- cbn [app]. rewrite <- !app_assoc. exact (does_drop2 r g _ HX G F).
    + intros a E. injection E as <-. exact VM.
  - (* PLockR *)
    unfold free in H. destruct (holder s) eqn:HD; [discriminate|]. injection H as <-. eapply lock; [exact I|exact N|exact HD|reflexivity|reflexivity|reflexivity|].
    intros prog _. apply tok_step0. intros l X. exact X.
  - (* PBody *)
    destruct (xlog_body _ _ _ _ _ _ _) as [l| | |] eqn:B; try discriminate. cbn [bind] in H. injection H as <-.
    assert (LR : 1 <= r_level r < 6). { destruct PG as (prog & PG). destruct (i_thr _ _ _ I t _ prog N PG) as (ls & l0 & cs & _ & _ & _ & X & _). exact X. }
    apply (upd_inv sf progs s t (mk_th td (PBody r)) (conf s) (holder s) (mk_th td (PEmit l)) (Some (AMake r)) I N).
    + intros prog _. apply tok_step. intros l0 (_ & X). split; [|apply head_app; destruct X as [(_ & g & _ & ->)|(_ & g & g' & _ & _ & ->)]; discriminate]. exists r, []. destruct X as [(HX & g & G & ->)|(HX & g & g' & G & G' & ->)].
      * left. split; [exact HX|]. exists g. split; [exact G|reflexivity].
      * right. split; [exact HX|]. exists g, g'. split; [exact G|]. split; [exact G'|]. cbn. rewrite <- app_assoc. reflexivity.
    + left. auto.
    + left. reflexivity.
    + intros us c U1 U2 U3 U4 U5. exists us, c. rewrite (U1 eq_refl) in *. split; [reflexivity|]. split; [reflexivity|]. split; [discriminate|]. split; [exact U3|]. split; [exact U4|]. rewrite writes_snoc, app_nil_r. exact U5.
    + intros l0 U1 U2 U3. rewrite (U1 eq_refl) in U3. cbn [at_ rest] in U3. rewrite app_nil_r in U3. exists l. split; [reflexivity|]. split; [intro X; pose proof (i_crit _ _ _ I t _ N eq_refl); congruence|]. split; [discriminate|].
      rewrite outs_snoc, app_nil_r. apply made_record; [exact U3|]. destruct (i_conf _ _ _ I) as (us & c & P1 & P2 & P3 & P4 & P5). rewrite <- (P1 t _ N eq_refl) in P4. cbn in P4. injection P4 as <-. eapply body_alone; eassumption.
    + intros a E. injection E as <-. exact Logic.I.
  - (* PEmit *)
    destruct l as [|e l].
    + injection H as <-. eapply inside; [exact I|exact N|reflexivity|reflexivity|reflexivity|reflexivity|].
      intros prog _. apply tok_step0. intros l (r & evs & X). exists (CLog r). destruct X as [(HX & g & G & ->)|(HX & g & g' & G & G' & ->)].
      * replace ((AStart (CLog r) :: g ++ AMake r :: map AOut evs) ++ [AEnd]) with (AStart (CLog r) :: g ++ AMake r :: map AOut evs ++ [AEnd]) by (cbn; rewrite <- app_assoc; reflexivity). apply does_log; assumption.
      * replace ((AStart (CLog r) :: g ++ g' ++ AMake r :: map AOut evs) ++ [AEnd]) with (AStart (CLog r) :: g ++ g' ++ AMake r :: map AOut evs ++ [AEnd]) by (cbn; rewrite <- !app_assoc; reflexivity). apply does_hex; assumption.
    + injection H as <-. set (p' := match e with Callback _ _ => if cbl then PInner l else PEmit l | _ => PEmit l end).
      assert (CP : crit p' = true /\ rest p' = l /\ pend p' = []) by (unfold p'; destruct e; [| |destruct cbl]; auto). destruct CP as (C1 & C2 & C3).
      apply (upd_inv sf progs s t (mk_th td (PEmit (e :: l))) (conf s) (holder s) (mk_th td p') (Some (AOut e)) I N).
      * intros prog _. apply tok_step. intros l0 (r & evs & X). split; [|apply head_app; destruct X as [(_ & g & _ & ->)|(_ & g & g' & _ & _ & ->)]; discriminate].
        assert (Y : partial (PEmit l) (l0 ++ [AOut e])).
        { exists r, (evs ++ [e]). rewrite map_app. destruct X as [(HX & g & G & ->)|(HX & g & g' & G & G' & ->)].
          - left. split; [exact HX|]. exists g. split; [exact G|]. cbn. rewrite <- app_assoc. reflexivity.
          - right. split; [exact HX|]. exists g, g'. split; [exact G|]. split; [exact G'|]. cbn. rewrite <- !app_assoc. reflexivity. }
        unfold p'. destruct e; [| |destruct cbl]; exact Y.
      * left. split; [reflexivity|]. cbn [at_]. exact C1.
      * left. reflexivity.
      * intros us c U1 U2 U3 U4 U5. exists us, c. rewrite (U1 eq_refl) in *. cbn [at_ pend]. rewrite C3. split; [reflexivity|]. split; [reflexivity|]. split; [discriminate|]. split; [exact U3|]. split; [exact U4|]. rewrite writes_snoc, app_nil_r. exact U5.
      * intros l0 U1 U2 U3. rewrite (U1 eq_refl) in U3. cbn [at_ rest] in U3. exists l. cbn [at_]. rewrite C2. split; [reflexivity|]. split; [intro X; pose proof (i_crit _ _ _ I t _ N eq_refl); congruence|]. split; [discriminate|].
        rewrite outs_snoc, <- app_assoc. apply made_other; [exact U3|discriminate].
      * intros a E. injection E as <-. exact Logic.I.
  - (* PInner *)
    unfold free in H. rewrite (i_crit _ _ _ I t _ N eq_refl) in H. discriminate.
  - (* PGet *)
    injection H as <-. apply (quiet s t (mk_th td (PGet v)) (mk_th td PRet) (Some (AGet v (value v (conf s)))) I N eq_refl eq_refl).
    + exact Logic.I.
    + intros prog _. apply tok_step. intros l ->. split; [|reflexivity]. exists (CGet v). apply does_get.
    + intros a E. injection E as <-. apply value_now; assumption.
  - (* PUnlock *)
    injection H as <-. eapply unlock; [exact I|exact N|reflexivity|reflexivity|reflexivity|reflexivity|].
    intros prog _. apply tok_step0. intros l X. exact X.
  - (* PRet *)
    injection H as <-. apply (quiet s t (mk_th td PRet) (mk_th td PIdle) (Some AEnd) I N eq_refl eq_refl).
    + exact Logic.I.
    + intros prog _ (ls & l & cs & E1 & E2 & E3 & c & D). cbn [at_ todo] in *. exists (ls ++ [l ++ [AEnd]]), [], (cs ++ [c]). cbn [at_ todo head app partial].
      rewrite concat_app, E1. cbn [concat]. rewrite !app_nil_r, <- app_assoc. split; [reflexivity|]. split; [apply Forall2_app; [exact E2|constructor; [exact D|constructor]]|]. split; [|reflexivity].
      rewrite E3, <- app_assoc. f_equal. assert (HL : head l = [c]); [|rewrite HL; reflexivity]. destruct l as [|a l]; [inversion D|]. cbn [app] in D. inversion D; subst; reflexivity.
    + intros a E. injection E as <-. exact Logic.I.
Qed.
Theorem run_inv l : forall s s', inv sf progs s -> run sf true cbl l s = Ret s' -> inv sf progs s'.
Proof.
  induction l as [|t l IH]; intros s s' I H; cbn [run] in H; [injection H as <-; exact I|].
  destruct (step sf true cbl t s) as [[s1|]| | |] eqn:E; try discriminate; cbn [bind] in H; eapply IH; [|exact H| |exact H]; [eapply step_inv; eassumption|exact I].
Qed.
End S.

(** C72: xlog.c used by several threads *)
From Verif Require Import CBase CStr StringsModel TimeModel TimeSpec Props_Time ThreadLib XlogModel XlogSpec XlogProof XlogProof2 XlogProof3 Props_Xlog XlogMtModel XlogMtSpec XlogMtProof XlogMtProof2 XlogMtProof3 XlogMtProof4 XlogMtProof5 XlogMtProof6.

Lemma reach_inv sf progs cbl sched s : levels_ok progs -> run sf true cbl sched (start progs) = Ret s -> inv sf progs s.
Proof. intros LV H. eapply run_inv; [exact LV|apply inv_start|exact H]. Qed.

(** Everything the threads print, flush and hand to the callback is the output of whole records, one after the other, each as a
    single-threaded program would get it after the settings made before it. l: what the record in progress still has to output; there is one
    only while a thread is in the middle of a record's call. *)
Theorem C72_output : forall sf progs cbl sched s, levels_ok progs -> run sf true cbl sched (start progs) = Ret s ->
  exists l, made sf (history s) (outs (history s) ++ l) /\ (l = [] \/ exists t p r evs, proj t (history s) = p ++ AMake r :: map AOut evs).
Proof.
  intros sf progs cbl sched s LV H. pose proof (reach_inv _ _ _ _ _ LV H) as I. destruct (i_out _ _ _ I) as (l & P1 & P2 & P3). exists l. split; [exact P3|].
  destruct l as [|e l]; [left; reflexivity|right]. destruct (holder s) as [t|] eqn:HD; [|specialize (P2 eq_refl); discriminate].
  destruct (i_hold _ _ _ I t HD) as (th & N & C). specialize (P1 t th N C). destruct (nth_error progs t) as [prog|] eqn:Q.
  - destruct (i_thr _ _ _ I t th prog N Q) as (ls & l0 & cs & E1 & _ & _ & X). assert (Y : exists r evs p, l0 = p ++ AMake r :: map AOut evs).
    { destruct (at_ th); cbn in P1; try discriminate; destruct X as (r & evs & [(_ & g & _ & ->)|(_ & g & g' & _ & _ & ->)]); exists r, evs.
      - exists (AStart (CLog r) :: g). reflexivity.
      - exists (AStart (CLog r) :: g ++ g'). cbn. rewrite <- app_assoc. reflexivity.
      - exists (AStart (CLog r) :: g). reflexivity.
      - exists (AStart (CLog r) :: g ++ g'). cbn. rewrite <- app_assoc. reflexivity. }
    destruct Y as (r & evs & p & ->). exists t, (concat ls ++ p), r, evs. rewrite E1, <- app_assoc. reflexivity.
  - apply nth_error_None in Q. pose proof (i_len _ _ _ I). assert (nth_error (ths s) t <> None) as X by congruence. apply nth_error_Some in X. lia.
Qed.
Print Assumptions C72_output.

(** Every read, of the level test and of the getters, gives the settings of that moment. *)
Theorem C72_reads : forall sf progs cbl sched s p t a q, levels_ok progs -> run sf true cbl sched (start progs) = Ret s -> history s = p ++ (t, a) :: q -> current p a.
Proof. intros sf progs cbl sched s p t a q LV H. apply (reach_inv _ _ _ _ _ LV H). Qed.
Print Assumptions C72_reads.

Lemma partial_go p l : p <> PIdle -> partial p l -> exists c l', l' <> [] /\ does c (l ++ l') /\ head l = [c].
Proof.
  assert (HD : forall c l l', l <> [] -> does c (l ++ l') -> head l = [c]) by (intros c [|a l0] l' NE D; [congruence|]; cbn [app] in D; inversion D; subst; reflexivity).
  assert (W : forall l, (exists c l', l <> [] /\ l' <> [] /\ does c (l ++ l')) -> exists c l', l' <> [] /\ does c (l ++ l') /\ head l = [c]).
  { intros l0 (c & l' & NE & N & D). exists c, l'. split; [exact N|]. split; [exact D|]. eapply HD; eassumption. }
  intros NP H. apply W. clear W HD. destruct p as [|o|o|us|r again|r again|r again|r|r|evs|evs|v| |]; cbn [partial] in H; try congruence.
  1,2: destruct H as (A & ->); exists (CSet o), [AWrite o; AEnd]; (split; [discriminate|split; [discriminate|]]); apply (does_set o); apply accepted_range; exact A.
  - destruct H as (_ & o & O & ->). exists (CSet o), [AEnd]. split; [discriminate|]. split; [discriminate|]. apply (does_set o O).
  - destruct H as (L & [(_ & ->)|(_ & HX & g & G & ->)]); exists (CLog r), [ATarget 0; AEnd]; (split; [discriminate|split; [discriminate|]]).
    + apply (does_drop r [ATarget 0]). left. reflexivity.
    + cbn [app]. apply (does_drop2 r g [ATarget 0]); auto. left. reflexivity.
  - destruct H as (L & a & A & X). assert (F : fails (r_level r) [ATarget a; AMin1 0]) by (right; left; exists a, 0; auto).
    destruct X as [(_ & ->)|(_ & HX & g & G & ->)]; exists (CLog r), [AMin1 0; AEnd]; (split; [discriminate|split; [discriminate|]]).
    + exact (does_drop r _ F).
    + cbn [app]. rewrite <- app_assoc. exact (does_drop2 r g _ HX G F).
  - destruct H as (L & a & b & A & B & X). assert (F : fails (r_level r) [ATarget a; AMin1 b; AMin2 (r_level r + 1)]) by (right; right; exists a, b, (r_level r + 1); repeat split; auto; lia).
    destruct X as [(_ & ->)|(_ & HX & g & G & ->)]; exists (CLog r), [AMin2 (r_level r + 1); AEnd]; (split; [discriminate|split; [discriminate|]]).
    + exact (does_drop r _ F).
    + cbn [app]. rewrite <- app_assoc. exact (does_drop2 r g _ HX G F).
  - destruct H as (L & [(HX & g & G & ->)|(HX & g & g' & G & G' & ->)]); exists (CLog r), [AMake r; AEnd]; (split; [discriminate|split; [discriminate|]]); cbn [app]; rewrite <- ?app_assoc.
    + exact (does_log r g [] HX G).
    + exact (does_hex r g g' [] HX G G').
  - destruct H as (L & [(HX & g & G & ->)|(HX & g & g' & G & G' & ->)]); exists (CLog r), [AMake r; AEnd]; (split; [discriminate|split; [discriminate|]]); cbn [app]; rewrite <- ?app_assoc.
    + exact (does_log r g [] HX G).
    + exact (does_hex r g g' [] HX G G').
  - destruct H as (r & ev & [(HX & g & G & ->)|(HX & g & g' & G & G' & ->)]); exists (CLog r), [AEnd]; (split; [discriminate|split; [discriminate|]]); cbn [app]; rewrite <- ?app_assoc; cbn [app].
    + exact (does_log r g ev HX G).
    + exact (does_hex r g g' ev HX G G').
  - destruct H as (r & ev & [(HX & g & G & ->)|(HX & g & g' & G & G' & ->)]); exists (CLog r), [AEnd]; (split; [discriminate|split; [discriminate|]]); cbn [app]; rewrite <- ?app_assoc; cbn [app].
    + exact (does_log r g ev HX G).
    + exact (does_hex r g g' ev HX G G').
  - subst l. exists (CGet v), [AGet v 0; AEnd]. split; [discriminate|]. split; [discriminate|]. apply does_get.
  - destruct H as (c & D). exists c, [AEnd]. split; [|split; [discriminate|exact D]]. intros ->. inversion D.
  - destruct H as (c & D). exists c, [AEnd]. split; [|split; [discriminate|exact D]]. intros ->. inversion D.
Qed.
(** Every thread does what its calls say, in order: the first n calls from beginning to end, and a beginning of the next one. *)
Theorem C72_calls : forall sf progs cbl sched s t prog, levels_ok progs -> run sf true cbl sched (start progs) = Ret s -> nth_error progs t = Some prog ->
  exists n ls l, Forall2 does (firstn n prog) ls /\ proj t (history s) = concat ls ++ l /\
  (l = [] \/ exists c l', nth_error prog n = Some c /\ l' <> [] /\ does c (l ++ l')).
Proof.
  intros sf progs cbl sched s t prog LV H Q. pose proof (reach_inv _ _ _ _ _ LV H) as I. destruct (nth_error (ths s) t) as [th|] eqn:N.
  - destruct (i_thr _ _ _ I t th prog N Q) as (ls & l & cs & E1 & E2 & E3 & X). exists (length cs), ls, l. rewrite E3, firstn_app, firstn_all, Nat.sub_diag, app_nil_r. split; [exact E2|]. split; [exact E1|].
    assert (DI : at_ th = PIdle \/ at_ th <> PIdle) by (destruct (at_ th); auto; right; discriminate). destruct DI as [P|P]; [rewrite P in X; left; exact X|right].
    destruct (partial_go _ l P X) as (c & l' & N1 & D & HD). exists c, l'. rewrite HD, nth_error_app2, Nat.sub_diag by lia. auto.
  - apply nth_error_None in N. pose proof (i_len _ _ _ I). assert (nth_error progs t <> None) as X by congruence. apply nth_error_Some in X. lia.
Qed.
Print Assumptions C72_calls.

(** Between two changes of the levels and the target, a call logs exactly if its level is enabled: also while other threads log, get, and change
    other settings. m: everything that happens during the call *)
Theorem C72_filter : forall sf progs cbl sched s t r p m q, levels_ok progs -> (t < length progs)%nat -> run sf true cbl sched (start progs) = Ret s ->
  history s = p ++ (t, AStart (CLog r)) :: m ++ (t, AEnd) :: q -> ~ In AEnd (proj t m) -> Forall keeps_levels (writes m) ->
  (In (AMake r) (proj t m) <-> enabled (writes p) (r_level r)).
Proof.
  intros sf progs cbl sched s t r p m q LV TL H E NE K.
  assert (RD : forall a, In a (proj t m) -> match a with ATarget v => v = target (writes p) | AMin1 v | AMin2 v => v = min_level (writes p) | _ => True end).
  { intros a I. destruct (in_proj t a m I) as (m1 & m2 & EM). rewrite EM in E, K. pose proof (C72_reads _ _ _ _ _ (p ++ (t, AStart (CLog r)) :: m1) t a (m2 ++ (t, AEnd) :: q) LV H) as C.
    rewrite E in C. specialize (C ltac:(rewrite <- !app_assoc; cbn; rewrite <- ?app_assoc; reflexivity)). rewrite writes_app in K. apply Forall_app in K as [K _].
    unfold current in C. rewrite writes_app in C. change (writes ((t, AStart (CLog r)) :: m1)) with (writes m1) in C. destruct (target_keep (writes p) (writes m1) K) as (T1 & T2). destruct a; auto; congruence. }
  destruct (nth_error progs t) as [prog|] eqn:Q.
  2:{ apply nth_error_None in Q. lia. }
  destruct (C72_calls _ _ _ _ _ t prog LV H Q) as (n & ls & l & F2 & EP & PL).
  assert (D : does (CLog r) (AStart (CLog r) :: proj t m ++ [AEnd])).
  { eapply (one_call _ ls F2 l (proj t p) (CLog r) (proj t m) (proj t q)); [destruct PL as [->|(c & l' & _ & X)]; [left; reflexivity|right; exists c, l'; exact X]| |exact NE].
    rewrite <- EP, E. assert (PC : forall a l, proj t ((t, a) :: l) = a :: proj t l) by (intros; unfold proj; cbn; rewrite Nat.eqb_refl; reflexivity). rewrite proj_app, PC, proj_app, PC. reflexivity. }
  assert (PASS : forall g, passes (r_level r) g -> (forall a, In a g -> In a (proj t m)) -> enabled (writes p) (r_level r)).
  { intros g (a & b & c & -> & A & B & C & X) SUB. pose proof (RD _ (SUB (ATarget a) (or_introl eq_refl))) as R1. pose proof (RD _ (SUB (AMin1 b) (or_intror (or_introl eq_refl)))) as R2. pose proof (RD _ (SUB (AMin2 c) (or_intror (or_intror (or_introl eq_refl))))) as R3. cbn in R1, R2, R3.
    unfold enabled. rewrite <- R1, <- R2. repeat split; auto; lia. }
  assert (FAIL : forall g, fails (r_level r) g -> (forall a, In a g -> In a (proj t m)) -> ~ enabled (writes p) (r_level r)).
  { intros g G SUB (E1 & E2 & E3). destruct G as [->|[(a & b & -> & A & X)|(a & b & c & -> & A & B & C & X)]].
    - pose proof (RD _ (SUB (ATarget 0) (or_introl eq_refl))) as R1. cbn in R1. congruence.
    - pose proof (RD _ (SUB (AMin1 b) (or_intror (or_introl eq_refl)))) as R2. cbn in R2. lia.
    - pose proof (RD _ (SUB (AMin2 c) (or_intror (or_intror (or_introl eq_refl))))) as R3. cbn in R3. lia. }
  assert (NOM : forall g x, (passes x g \/ fails x g) -> ~ In (AMake r) g).
  { intros g x [(a & b & c & -> & _)|[->|[(a & b & -> & _)|(a & b & c & -> & _)]]] X; cbn in X; intuition discriminate. }
  inversion D as [o O|o O|v x|r0 g G ER EM|r0 g g' HX G G' ER EM|r0 g evs HX G ER EM|r0 g g' evs HX G G' ER EM]; subst r0.
  - apply app_inj_tail in EM as [EM _]. rewrite <- EM in *. split; intro X; exfalso; [eapply NOM; [right; exact G|exact X]|eapply FAIL; [exact G|auto|exact X]].
  - rewrite app_assoc in EM. apply app_inj_tail in EM as [EM _]. rewrite <- EM in *. split; intro X; exfalso.
    + apply in_app_or in X as [X|X]; [eapply NOM; [left; exact G|exact X]|eapply NOM; [right; exact G'|exact X]].
    + eapply FAIL; [exact G'| |exact X]. intros a I. apply in_or_app. right. exact I.
  - rewrite app_comm_cons, app_assoc in EM. apply app_inj_tail in EM as [EM _]. rewrite <- EM in *. split; intro X; [|apply in_or_app; right; left; reflexivity]. eapply PASS; [exact G|]. intros a I. apply in_or_app. left. exact I.
  - rewrite app_comm_cons, !app_assoc in EM. apply app_inj_tail in EM as [EM _]. rewrite <- EM in *. split; intro X; [|apply in_or_app; right; left; reflexivity]. eapply PASS; [exact G|]. intros a I. rewrite <- app_assoc. apply in_or_app. left. exact I.
Qed.
Print Assumptions C72_filter.

(** Nothing the threads do is undefined, under C43's conditions on the single calls. *)
Theorem C72_safe : forall sf progs cbl sched, strftime_ok sf -> (forall p c, In p progs -> In c p -> call_ok c) -> exists s, run sf true cbl sched (start progs) = Ret s.
Proof.
  intros sf progs cbl sched SF OK. eapply (run_total sf progs cbl sched SF); [|exact OK|apply inv_start|constructor].
  intros p c IP IC. specialize (OK p c IP IC). destruct c; auto. apply OK.
Qed.
Print Assumptions C72_safe.

(** No deadlock: as long as a thread has not finished, some thread can take a step (unless the callback logs: see below). *)
Theorem C72_progress : forall sf progs sched s t, levels_ok progs -> run sf true false sched (start progs) = Ret s -> ~ finished s t -> exists u, step sf true false u s <> Ret None.
Proof.
  intros sf progs sched s t LV H F. pose proof (plain_run _ _ _ _ _ (plain_start progs) H) as P. pose proof (reach_inv _ _ _ _ _ LV H) as I.
  destruct (holder s) as [u|] eqn:HD; [|exists t; apply free_moves; assumption]. destruct (i_hold _ _ _ I u HD) as (th & N & C). exists u. eapply holder_moves; eassumption.
Qed.
Print Assumptions C72_progress.

(** ** What does not hold *)
Definition rec_demo (c level : Z) : rcall := mk_r {| e_sec := 0; e_usec := 0; e_tid := 1; e_msg := Some [c]; e_malloc := fun _ => None |} level None None 0 false.
Lemma rec_ok c level : c <> 0 -> 1 <= level -> call_ok (CLog (rec_demo c level)).
Proof.
  intros C L. split; [exact L|]. split; [cbn; lia|]. split; [cbn; lia|]. split; [discriminate|]. split; [discriminate|]. split; [|discriminate].
  exists [c]. split; [reflexivity|]. split; [repeat constructor; exact C|]. unfold zlen. cbn. lia.
Qed.
(** "A record is not logged if its level is disabled all through the call" fails: line 109 reads the minimum level twice. Here it goes from 5
    to 0 (XLOG_LEVEL_OFF) in between, and a record of level 1 is logged, with the mutex. p: before the call; m1: during the call, up to any moment *)
Definition progs_flip : list (list call) := [[CSet (SetFormat 0); CSet (SetMin 5); CSet (SetMin 0)]; [CLog (rec_demo 97 1)]].
Definition sched_flip : list nat := [0;0;0;0;0;0;0;0;0; 0;0;0;0;0;0; 1;1;1; 0;0;0;0;0;0; 1;1;1;1;1;1;1;1]%nat.
Theorem C72_never_enabled_refuted : forall sf, exists p m q s, levels_ok progs_flip /\ run sf true false sched_flip (start progs_flip) = Ret s /\
  history s = p ++ (1%nat, AStart (CLog (rec_demo 97 1))) :: m ++ (1%nat, AEnd) :: q /\
  (forall m1 m2, m = m1 ++ m2 -> ~ enabled (writes (p ++ m1)) 1) /\ In (1%nat, AOut (Print [97; 10])) m.
Proof.
  intro sf. destruct (run sf true false sched_flip (start progs_flip)) as [s| | |] eqn:R; try (exfalso; vm_compute in R; discriminate).
  set (h := history s). assert (HH : exists p m q, h = p ++ (1%nat, AStart (CLog (rec_demo 97 1))) :: m ++ (1%nat, AEnd) :: q /\ p = firstn 6 h /\ m = firstn 8 (skipn 7 h) /\ q = skipn 16 h).
  { assert (E : h = match run sf true false sched_flip (start progs_flip) with Ret s => history s | _ => [] end) by (rewrite R; reflexivity). rewrite E. do 3 eexists. split; [|split; [reflexivity|split; reflexivity]]. vm_compute. reflexivity. }
  destruct HH as (p & m & q & E & P & M & Q). exists p, m, q, s. split.
  - intros pr c [<-|[<-|[]]]; cbn; intuition (subst; cbn; auto; lia).
  - split; [reflexivity|]. split; [exact E|].
    assert (EH : h = match run sf true false sched_flip (start progs_flip) with Ret s => history s | _ => [] end) by (rewrite R; reflexivity). clearbody h. rewrite EH in P, M. clear E Q q R EH h s. vm_compute in P, M. subst p m. split.
    + intros m1 m2 EM.
      assert (F : m1 = firstn (length m1) (m1 ++ m2)) by (rewrite firstn_app, firstn_all, Nat.sub_diag, app_nil_r; reflexivity).
      assert (LM : (length m1 <= 8)%nat) by (apply (f_equal (@length _)) in EM; rewrite app_length in EM; cbn in EM; lia).
      rewrite <- EM in F. clear EM m2. rewrite F. generalize dependent (length m1). intros n F LM. clear F m1.
      do 9 (destruct n as [|n]; [intros (X1 & X2 & X3); vm_compute in X2, X3; first [exact (X2 eq_refl)|destruct X3 as [X3 _]; exact (X3 eq_refl)]|]). lia.
    + cbn. tauto.
Qed.
Print Assumptions C72_never_enabled_refuted.

(** Without xlog_global_init there is no mutex, and two records' outputs mix: the second record is printed and handed to the callback between
    the first one's print and its callback. *)
Definition progs_mix : list (list call) := [[CSet (SetFormat 0); CSet (SetTarget 12); CSet (SetCb true); CLog (rec_demo 97 1)]; [CLog (rec_demo 98 1)]].
Definition sched_mix : list nat := repeat 0%nat 30 ++ [1;1;1;1;1;1;1;1;1;1;1;1]%nat ++ [0;0;0;0;0;0]%nat.
Theorem C72_no_mutex_refuted : forall sf, match run sf false false sched_mix (start progs_mix) with
  | Ret s => outs (history s) = [Print [97; 10]; Print [98; 10]; Callback 1 [98; 0]; Callback 1 [97; 0]] /\ finished s 0 /\ finished s 1 | _ => False end.
Proof. intro sf. vm_compute. repeat split. Qed.
Print Assumptions C72_no_mutex_refuted.

(** If the user's callback logs a record itself, the thread waits for the mutex it holds: nobody outputs anything ever again, and the
    thread never returns. *)
Definition progs_cb : list (list call) := [[CSet (SetFormat 0); CSet (SetTarget 12); CSet (SetCb true); CLog (rec_demo 97 1)]; [CLog (rec_demo 98 1)]].
Theorem C72_callback_logs_refuted : forall sf, exists s, run sf true true (repeat 0%nat 40) (start progs_cb) = Ret s /\ outs (history s) = [Print [97; 10]; Callback 1 [97; 0]] /\
  forall sched s', run sf true true sched s = Ret s' -> outs (history s') = [Print [97; 10]; Callback 1 [97; 0]] /\ ~ finished s' 0.
Proof.
  intro sf. assert (LV : levels_ok progs_cb) by (intros pr c [<-|[<-|[]]]; cbn; intuition (subst; cbn; auto; lia)).
  destruct (run sf true true (repeat 0%nat 40) (start progs_cb)) as [s| | |] eqn:R; try (exfalso; vm_compute in R; discriminate).
  pose proof (reach_inv _ _ _ _ _ LV R) as I. vm_compute in R. injection R as R. exists s. split; [reflexivity|].
  assert (O : outs (history s) = [Print [97; 10]; Callback 1 [97; 0]]) by (rewrite <- R; reflexivity). split; [exact O|].
  intros sched s' RS. assert (S : stuck 0 s) by (rewrite <- R; split; [reflexivity|do 2 eexists; reflexivity]).
  destruct (stuck_run sf progs_cb 0 sched LV s s' I S RS) as ((_ & td & l & N) & O'). split; [congruence|]. unfold finished. rewrite N. intros (X & _). discriminate X.
Qed.
Print Assumptions C72_callback_logs_refuted.

(** ** The hypotheses are met: two threads, all six conditions; the first record is printed with the header of format 4 *)
Definition progs_demo : list (list call) :=
  [[CSet (SetFormat 4); CSet (SetTag (Some [97; 112; 112; 0])); CLog (rec_demo 97 2); CGet VFormat]; [CSet (SetMin 2); CLog (rec_demo 98 1); CLog (mk_r (r_env (rec_demo 99 3)) 3 None (Some [102; 0]) 7 true)]].
Definition sched_demo : list nat := concat (repeat [0; 1; 1]%nat 40).
Example C72_case : levels_ok progs_demo /\ (forall p c, In p progs_demo -> In c p -> call_ok c) /\
  match run sf_demo true false sched_demo (start progs_demo) with
  | Ret s => finished s 0 /\ finished s 1 /\ length (outs (history s)) = 2%nat /\ In (Print ([32; 68; 47; 97; 112; 112; 32; 32; 32; 32; 32; 58; 32; 97; 10])) (outs (history s)) /\ In (AGet VFormat 4) (proj 0 (history s))
  | _ => False end.
Proof.
  split; [intros pr c [<-|[<-|[]]]; cbn; intuition (subst; cbn; auto; lia)|]. split.
  - intros pr c [<-|[<-|[]]]; cbn [In]; intros X; repeat (destruct X as [<-|X]; [|]); try contradiction; try exact Logic.I; try (apply rec_ok; [discriminate|lia]).
    + exists [97; 112; 112]. split; [repeat constructor; lia|exists []; reflexivity].
    + split; [cbn; lia|]. split; [cbn; lia|]. split; [cbn; lia|]. split; [discriminate|]. split; [|split; [|discriminate]].
      * intros b E. injection E as <-. exists [102]. split; [split; [repeat constructor; lia|exists []; reflexivity]|unfold zlen; cbn; lia].
      * exists [99]. split; [reflexivity|]. split; [repeat constructor; lia|]. unfold zlen. cbn. lia.
  - vm_compute. repeat split; auto 20.
Qed.
(** C72_filter's hypotheses, in the middle of other threads' calls: thread 1's record of level 1 while thread 0 sets the tag *)
Definition sched_mid : list nat := repeat 1%nat 6 ++ [1; 0; 1; 0; 0; 0; 0; 0; 0; 0; 0; 0; 0; 0; 1; 1; 1; 1; 1; 1]%nat.
Example C72_filter_case : match run sf_demo true false sched_mid (start progs_demo) with
  | Ret s => exists p m q, history s = p ++ (1%nat, AStart (CLog (rec_demo 98 1))) :: m ++ (1%nat, AEnd) :: q /\ ~ In AEnd (proj 1 m) /\ Forall keeps_levels (writes m) /\ writes m <> [] /\ writes p = [SetMin 2]
  | _ => False end.
Proof.
  destruct (run sf_demo true false sched_mid (start progs_demo)) as [s| | |] eqn:R; try (vm_compute in R; discriminate).
  assert (E : history s = match run sf_demo true false sched_mid (start progs_demo) with Ret s => history s | _ => [] end) by (rewrite R; reflexivity). clear R.
  generalize dependent (history s). intros h E. vm_compute in E. exists (firstn 3 h), (firstn 8 (skipn 4 h)), (skipn 13 h). rewrite E. cbn.
  split; [reflexivity|]. split; [intuition discriminate|]. split; [repeat constructor|]. split; [discriminate|reflexivity].
Qed.

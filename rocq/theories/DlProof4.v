From Verif Require Import CBase SeqLib DlModel DlSpec DlProof DlProof2 DlProof3.

(** ** Modules that are open *)
Definition counts_ok (t : table) : Prop := Forall (fun e => 0 <= snd (fst e) /\ 0 <= snd e) t.
Definition opened (m : Z) (t : table) : Prop := exists e, In e t /\ handle_of e = m /\ 1 <= snd (fst e).
Lemma opened_loaded : forall m t, opened m t -> is_loaded m t = true.
Proof. intros m t (e & I & H & _). apply loaded_in. rewrite <- H. apply in_map. auto. Qed.
Lemma opened_upd : forall m x f t, opened m t -> (forall p, 1 <= fst p -> m = x -> 1 <= fst (f p)) -> opened m (upd x f t).
Proof.
  intros m x f t (e & I & H & O) F. unfold upd.
  exists (if handle_of e =? x then (handle_of e, fst (f (snd (fst e), snd e)), snd (f (snd (fst e), snd e))) else e). split; [|].
  - apply in_map_iff. exists e. auto.
  - destruct (Z.eqb_spec (handle_of e) x) as [E|N]; cbn [fst snd]; [|auto]. split; [auto|]. apply F; [auto|congruence].
Qed.
Lemma opened_filter : forall m t, counts_ok t -> opened m t -> opened m (filter in_use t).
Proof.
  intros m t C (e & I & H & O). exists e. split; [|auto]. apply filter_In. split; [auto|]. unfold in_use. unfold counts_ok in C. rewrite Forall_forall in C.
  specialize (C e I). apply Z.ltb_lt. lia.
Qed.
Lemma opened_app : forall m t t', opened m t -> opened m (t ++ t').
Proof. intros m t t' (e & I & H). exists e. split; [apply in_or_app; auto|auto]. Qed.
Lemma counts_upd : forall x f t, counts_ok t -> (forall p, In p (map (fun e => (snd (fst e), snd e)) t) -> 0 <= fst p -> 0 <= snd p -> 0 <= fst (f p) /\ 0 <= snd (f p)) -> counts_ok (upd x f t).
Proof.
  intros x f t C F. unfold counts_ok, upd. apply Forall_map. unfold counts_ok in C. rewrite Forall_forall in C |- *. intros e I. specialize (C e I).
  destruct (handle_of e =? x); cbn [fst snd]; [|auto]. apply F; cbn [fst snd]; try tauto. apply in_map_iff. exists e. auto.
Qed.
Lemma counts_filter : forall t, counts_ok t -> counts_ok (filter in_use t).
Proof. intros t C. unfold counts_ok in *. rewrite Forall_forall in *. intros e I. apply filter_In in I. apply C. tauto. Qed.
Lemma counts_app : forall t t', counts_ok t -> counts_ok t' -> counts_ok (t ++ t').
Proof. intros. apply Forall_app. auto. Qed.

Lemma add_deps : forall deps t, counts_ok t -> counts_ok (fold_left add_dep deps t) /\ (forall m, opened m t -> opened m (fold_left add_dep deps t)) /\
  (length t <= length (fold_left add_dep deps t))%nat.
Proof.
  intros deps. induction deps as [|d deps IH]; intros t C; cbn [fold_left]; [auto|].
  assert (A : counts_ok (add_dep t d) /\ (forall m, opened m t -> opened m (add_dep t d)) /\ (length t <= length (add_dep t d))%nat).
  { unfold add_dep. destruct (is_loaded d t).
    - split; [apply counts_upd; [auto|]; intros p _ A B; cbn [fst snd]; lia|]. split; [intros m O; apply opened_upd; auto|]. unfold upd. rewrite map_length. auto.
    - split; [apply counts_app; [auto|]; constructor; [cbn; lia|constructor]|]. split; [intros m O; apply opened_app; auto|]. rewrite app_length. lia. }
  destruct A as (A1 & A2 & A3). destruct (IH _ A1) as (B1 & B2 & B3). split; [auto|]. split; [auto|]. lia.
Qed.
Lemma load_facts : forall m deps t, counts_ok t -> counts_ok (load m deps t) /\ (forall x, opened x t -> opened x (load m deps t)) /\ opened m (load m deps t).
Proof.
  intros m deps t C. unfold load. destruct (is_loaded m t) eqn:L.
  - split; [apply counts_upd; [auto|]; intros p _ A B; cbn [fst snd]; lia|]. split; [intros x O; apply opened_upd; [auto|]; intros; cbn [fst]; lia|].
    apply loaded_in in L. apply in_map_iff in L. destruct L as (e & E & I). unfold counts_ok in C. rewrite Forall_forall in C. specialize (C e I).
    exists (handle_of e, fst (snd (fst e) + 1, snd e), snd (snd (fst e) + 1, snd e)). split; [|cbn [handle_of fst snd]; split; [auto|lia]].
    unfold upd. apply in_map_iff. exists e. rewrite E, Z.eqb_refl. cbn [fst snd]. auto.
  - destruct (add_deps deps t C) as (B1 & B2 & B3). split; [apply counts_app; [auto|]; constructor; [cbn; lia|constructor]|].
    split; [intros x O; apply opened_app; auto|]. exists (m, 1, 0). split; [apply in_or_app; right; left; auto|]. cbn. split; [auto|lia].
Qed.
Lemma load_length : forall m deps t, counts_ok t -> Nat.eqb (length t) (length (load m deps t)) = is_loaded m t.
Proof.
  intros m deps t C. unfold load. destruct (is_loaded m t).
  - unfold upd. rewrite map_length. apply Nat.eqb_refl.
  - destruct (add_deps deps t C) as (_ & _ & B). rewrite app_length. cbn. apply Nat.eqb_neq. lia.
Qed.
Lemma drop_deps : forall deps t, counts_ok t -> counts_ok (fold_left drop_dep deps t) /\ (forall m, opened m t -> opened m (fold_left drop_dep deps t)).
Proof.
  intros deps. induction deps as [|d deps IH]; intros t C; cbn [fold_left]; [auto|].
  assert (A : counts_ok (drop_dep t d) /\ (forall m, opened m t -> opened m (drop_dep t d))).
  { unfold drop_dep. assert (K : counts_ok (upd d (fun p => (fst p, Z.max 0 (snd p - 1))) t)) by (apply counts_upd; [auto|]; intros p _ A B; cbn [fst snd]; lia).
    split; [apply counts_filter; auto|]. intros m O. apply opened_filter; [auto|]. apply opened_upd; auto. }
  destruct A as (A1 & A2). destruct (IH _ A1) as (B1 & B2). auto.
Qed.
(** entries in use *)
Definition used (t : table) : Prop := Forall (fun e => in_use e = true) t.
Lemma unload_facts : forall m deps t t', counts_ok t -> used t -> unload m deps t = Some t' ->
  counts_ok t' /\ (forall x, x <> m -> opened x t -> opened x t').
Proof.
  intros m deps t t' C U H. unfold unload in H. destruct (is_loaded m t); [|discriminate]. injection H as <-.
  match goal with |- context [is_loaded m ?x] => set (t1 := x) end.
  assert (K : counts_ok (upd m (fun p => if 0 <? fst p then (fst p - 1, snd p) else (fst p, snd p - 1)) t)).
  { apply counts_upd; [auto|]. intros p I A B. apply in_map_iff in I. destruct I as (e & <- & I). cbn [fst snd] in *.
    unfold used in U. rewrite Forall_forall in U. specialize (U e I). unfold in_use in U. apply Z.ltb_lt in U. destruct (Z.ltb_spec 0 (snd (fst e))); cbn [fst snd]; lia. }
  assert (C1 : counts_ok t1) by (apply counts_filter; auto).
  assert (O1 : forall x, x <> m -> opened x t -> opened x t1) by (intros x N O; apply opened_filter; [auto|]; apply opened_upd; [auto|]; intros; congruence).
  destruct (is_loaded m t1); [auto|]. destruct (drop_deps deps t1 C1) as (D1 & D2). auto.
Qed.
Lemma used_upd : forall x f t, used t -> (forall p, In p (map (fun e => (snd (fst e), snd e)) t) -> 0 < fst p + snd p -> 0 < fst (f p) + snd (f p)) -> used (upd x f t).
Proof.
  intros x f t U F. unfold used, upd. apply Forall_map. unfold used in U. rewrite Forall_forall in *. intros e I. specialize (U e I).
  destruct (handle_of e =? x); [|auto]. unfold in_use in *. cbn [fst snd]. apply Z.ltb_lt in U. apply Z.ltb_lt. apply (F (snd (fst e), snd e)); [apply in_map_iff; exists e; auto|auto].
Qed.
Lemma used_filter : forall t, used (filter in_use t).
Proof. intros t. unfold used. apply Forall_forall. intros e I. apply filter_In in I. tauto. Qed.
Lemma load_used : forall m deps t, used t -> used (load m deps t).
Proof.
  intros m deps t U. unfold load. destruct (is_loaded m t); [apply used_upd; auto; intros p _ A; cbn [fst snd]; lia|].
  apply Forall_app. split; [|constructor; [auto|constructor]]. revert t U. induction deps as [|d deps IH]; intros t U; cbn [fold_left]; [auto|].
  apply IH. unfold add_dep. destruct (is_loaded d t); [apply used_upd; auto; intros p _ A; cbn [fst snd]; lia|]. apply Forall_app. split; [auto|]. constructor; [auto|constructor].
Qed.
Lemma unload_used : forall m deps t t', unload m deps t = Some t' -> used t'.
Proof.
  intros m deps t t' H. unfold unload in H. destruct (is_loaded m t); [|discriminate]. injection H as <-.
  match goal with |- context [is_loaded m ?x] => set (t1 := x); assert (T1 : used t1) by apply used_filter end.
  destruct (is_loaded m t1); [auto|]. clearbody t1. revert t1 T1. induction deps as [|d deps IH]; intros t1 T1; cbn [fold_left]; [auto|]. apply IH. apply used_filter.
Qed.

(** ** What holds after any history *)
Definition inv (p : sp) : Prop := counts_ok (sys p) /\ used (sys p) /\ (forall m, In m (hidden p) -> opened m (sys p)).
Lemma in_hide : forall m x l, In x (hide m l) <-> x = m \/ In x l.
Proof.
  intros m x l. unfold hide. destruct (existsb (Z.eqb m) l) eqn:E.
  - apply existsb_In in E. split; [auto|]. intros [->|I]; auto.
  - rewrite in_app_iff. cbn [In]. intuition.
Qed.
Lemma in_unhide : forall m x l, In x (unhide m l) <-> x <> m /\ In x l.
Proof.
  intros m x l. unfold unhide. rewrite filter_In. rewrite negb_true_iff, Z.eqb_neq. split; intros [A B]; auto.
Qed.
Lemma sstep_inv : forall size prog p o, inv p -> inv (snd (sstep size prog p o)).
Proof.
  intros size prog p o (C & U & H). destruct o as [file mode ans eb ea ok msg|m deps msg|handle name gpa caller e1 e2 ok msg|]; cbn [sstep].
  - destruct file as [file|]; [|repeat split; auto]. destruct (260 <=? zlen file); [repeat split; auto|]. destruct ans as [[m deps]|]; [|repeat split; auto].
    destruct (load_facts m deps (sys p) C) as (L1 & L2 & L3). pose proof (load_used m deps _ U) as L4.
    match goal with |- context [negb (Nat.eqb ?a ?b)] => destruct (negb (Nat.eqb a b)) end; destruct (Z.testbit mode 2); cbn [snd].
    + destruct (existsb (Z.eqb m) (hidden p)) eqn:EX; [rewrite orb_true_r|destruct ok; cbn [orb]]; cbn [snd].
      * split; [auto|]. split; [auto|]. cbn [hidden sys]. intros x I. apply in_hide in I. destruct I as [->|I]; auto.
      * split; [auto|]. split; [auto|]. cbn [hidden sys]. intros x I. apply in_hide in I. destruct I as [->|I]; auto.
      * destruct (unload m deps (load m deps (sys p))) as [t'|] eqn:E; [|repeat split; auto].
        destruct (unload_facts _ _ _ _ L1 L4 E) as (F1 & F2). split; [auto|]. split; [cbn [sys]; eapply unload_used; eauto|]. cbn [hidden sys]. intros x I. apply F2; [|auto].
        intros ->. apply existsb_In in I. congruence.
    + split; [auto|]. split; [auto|]. cbn [hidden sys]. intros x I. auto.
    + split; [auto|]. split; [auto|]. cbn [hidden sys]. intros x I. auto.
    + split; [auto|]. split; [auto|]. cbn [hidden sys]. intros x I. apply in_unhide in I. apply L2, H. tauto.
  - destruct (unload m deps (sys p)) as [t'|] eqn:E; [|repeat split; auto].
    destruct (unload_facts _ _ _ _ C U E) as (F1 & F2). split; [auto|]. split; [cbn [snd sys]; eapply unload_used; eauto|]. cbn [snd hidden sys]. intros x I. apply in_unhide in I. apply F2; [tauto|]. apply H. tauto.
  - repeat split; auto.
  - repeat split; auto.
Qed.
Lemma ssteps_inv : forall size prog os p, inv p -> inv (snd (ssteps size prog p os)).
Proof.
  intros size prog os. induction os as [|o os IH]; intros p I; cbn [ssteps]; [auto|]. pose proof (sstep_inv size prog p o I) as J.
  destruct (sstep size prog p o) as [v q]. cbn [snd] in J. specialize (IH q J). destruct (ssteps size prog q os) as [vs r]. auto.
Qed.

(** operations that concern module m *)
Definition opens_it (m : Z) (o : op) : Prop := match o with Open (Some _) _ (Some (x, _)) _ _ _ _ => x = m | _ => False end.
Definition closes_it (m : Z) (o : op) : Prop := match o with Close x _ _ => x = m | _ => False end.
(** an open that could list the modules before and after *)
Definition lists_modules (o : op) : Prop := match o with Open _ _ _ eb ea _ _ => eb = true /\ ea = true | _ => True end.

Lemma stays_hidden : forall size prog m o p, ~ opens_it m o -> ~ closes_it m o -> (In m (hidden (snd (sstep size prog p o))) <-> In m (hidden p)).
Proof.
  intros size prog m o p NO NC. destruct o as [file mode ans eb ea ok msg|x deps msg|handle name gpa caller e1 e2 ok msg|]; cbn [sstep opens_it closes_it] in *.
  - destruct file as [file|]; [|tauto]. destruct (260 <=? zlen file); [tauto|]. destruct ans as [[x deps]|]; [|tauto].
    match goal with |- context [negb (Nat.eqb ?a ?b)] => destruct (negb (Nat.eqb a b)) end; destruct (Z.testbit mode 2); cbn [snd hidden]; try tauto.
    + destruct (ok || existsb (Z.eqb x) (hidden p)); cbn [snd hidden]; [|tauto]. rewrite in_hide. intuition congruence.
    + rewrite in_unhide. intuition congruence.
  - destruct (unload x deps (sys p)); cbn [snd hidden]; [|tauto]. rewrite in_unhide. intuition congruence.
  - tauto.
  - tauto.
Qed.
Lemma stays_hidden_all : forall size prog m os p, Forall (fun o => ~ opens_it m o /\ ~ closes_it m o) os -> (In m (hidden (snd (ssteps size prog p os))) <-> In m (hidden p)).
Proof.
  intros size prog m os. induction os as [|o os IH]; intros p F; cbn [ssteps]; [tauto|]. inversion F as [|a b [A B] D]; subst.
  pose proof (stays_hidden size prog m o p A B) as E. destruct (sstep size prog p o) as [v q]. cbn [snd] in E. specialize (IH q D). destruct (ssteps size prog q os) as [vs r]. cbn [snd] in *. tauto.
Qed.
Definition global (m : Z) (p : sp) : Prop := inv p /\ opened m (sys p) /\ ~ In m (hidden p).
Lemma stays_global : forall size prog m o p, lists_modules o -> ~ closes_it m o -> global m p -> global m (snd (sstep size prog p o)).
Proof.
  intros size prog m o p LM NC (I & O & NI). split; [apply sstep_inv; auto|]. destruct I as (C & U & H).
  destruct o as [file mode ans eb ea ok msg|x deps msg|handle name gpa caller e1 e2 ok msg|]; cbn [sstep closes_it lists_modules] in *.
  - destruct file as [file|]; [|auto]. destruct (260 <=? zlen file); [auto|]. destruct ans as [[x deps]|]; [|auto].
    destruct LM as [-> ->]. rewrite load_length by auto.
    destruct (load_facts x deps (sys p) C) as (L1 & L2 & L3). pose proof (load_used x deps _ U) as L4.
    destruct (is_loaded x (sys p)) eqn:LX; cbn [negb]; destruct (Z.testbit mode 2); cbn [snd hidden sys]; auto.
    + split; [auto|]. rewrite in_unhide. tauto.
    + assert (XM : x <> m) by (intros ->; rewrite (opened_loaded _ _ O) in LX; discriminate).
      destruct (ok || existsb (Z.eqb x) (hidden p)); cbn [snd hidden sys].
      * split; [auto|]. rewrite in_hide. intuition congruence.
      * split; [|auto]. destruct (unload x deps (load x deps (sys p))) as [t'|] eqn:E; [|auto]. destruct (unload_facts _ _ _ _ L1 L4 E) as (F1 & F2). auto.
  - destruct (unload x deps (sys p)) as [t'|] eqn:E; cbn [snd hidden sys]; [|auto]. destruct (unload_facts _ _ _ _ C U E) as (F1 & F2).
    split; [apply F2; auto|]. rewrite in_unhide. tauto.
  - auto.
  - auto.
Qed.
Lemma stays_global_all : forall size prog m os p, Forall (fun o => lists_modules o /\ ~ closes_it m o) os -> global m p -> global m (snd (ssteps size prog p os)).
Proof.
  intros size prog m os. induction os as [|o os IH]; intros p F G; cbn [ssteps]; [auto|]. inversion F as [|a b [A B] D]; subst.
  pose proof (stays_global size prog m o p A B G) as E. destruct (sstep size prog p o) as [v q]. cbn [snd] in E. specialize (IH q D E). destruct (ssteps size prog q os) as [vs r]. auto.
Qed.
Lemma ssteps_app : forall size prog a b p, ssteps size prog p (a ++ b) =
  (fst (ssteps size prog p a) ++ fst (ssteps size prog (snd (ssteps size prog p a)) b), snd (ssteps size prog (snd (ssteps size prog p a)) b)).
Proof.
  intros size prog a b. induction a as [|o a IH]; intros p; cbn [app ssteps fst snd].
  - destruct (ssteps size prog p b); auto.
  - destruct (sstep size prog p o) as [v q]. rewrite IH. destruct (ssteps size prog q a) as [vs r]. cbn [fst snd]. destruct (ssteps size prog r b). auto.
Qed.
Lemma ssteps_length : forall size prog os p, length (fst (ssteps size prog p os)) = length os.
Proof.
  intros size prog os. induction os as [|o os IH]; intros p; cbn [ssteps]; [auto|]. destruct (sstep size prog p o) as [v q]. specialize (IH q). destruct (ssteps size prog q os). cbn in *. auto.
Qed.

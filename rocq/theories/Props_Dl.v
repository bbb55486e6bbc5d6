(** C63: dlopen, dlsym, dlclose, dlerror on Windows *)
From Verif Require Import CBase SeqLib DlModel DlSpec DlProof DlProof2 DlProof3 DlProof4.

(** a system at program start: handles are not NULL or RTLD_NEXT, a module is there because something uses it *)
Definition good_start (t : table) : Prop := table_ok t /\ counts_ok t /\ used t.
(** a state reached by the program: after some calls from the start *)
Definition reached (size prog : Z) (t : table) (s : st) : Prop := exists os vs, Forall op_ok os /\ do_all prog (start size t) os = Ret (vs, s).
Lemma reached_inv : forall size prog t s, 5 <= size -> handle_ok prog -> good_start t -> reached size prog t s -> exists p, rel size s p /\ inv p.
Proof.
  intros size prog t s SZ PG (T1 & T2 & T3) (os & vs & F & E).
  destruct (do_all_ok size prog os _ _ SZ PG F (start_rel size t ltac:(lia) T1)) as (s' & E2 & R). rewrite E in E2. injection E2 as -> <-.
  exists (snd (ssteps size prog (mk_sp [] None t) os)). split; [auto|]. apply ssteps_inv. split; [auto|]. split; [auto|]. intros m [].
Qed.

(** every history of calls runs without undefined behaviour (no use of freed memory, no write outside the error
    buffer), gives the results of the specification and keeps one node per hidden module *)
Theorem C63_matches : forall size prog t os, 5 <= size -> handle_ok prog -> good_start t -> Forall op_ok os ->
  exists s, do_all prog (start size t) os = Ret (fst (ssteps size prog (mk_sp [] None t) os), s) /\
    length (hp s) = S (length (hidden (snd (ssteps size prog (mk_sp [] None t) os)))).
Proof.
  intros size prog t os SZ PG (T1 & _) F. destruct (do_all_ok size prog os _ _ SZ PG F (start_rel size t ltac:(lia) T1)) as (s & E & R).
  exists s. split; [auto|]. destruct R as ((ids & (b & S) & _ & L & _) & _). apply lseg_length in S. cbn [length] in S. rewrite L. lia.
Qed.

(** a plain handle: the module is asked, hidden or not *)
Theorem C63_dlsym_handle : forall size prog t s h name gpa c e1 e2 ok msg, 5 <= size -> handle_ok prog -> good_start t -> reached size prog t s ->
  op_ok (Sym h name gpa c e1 e2 ok msg) -> h <> 0 -> h <> prog -> h <> RTLD_NEXT ->
  exists s', dlsym prog h name gpa c e1 e2 ok msg s = Ret (gpa h, s').
Proof.
  intros size prog t s h name gpa c e1 e2 ok msg SZ PG GS RE OK H0 HP HN. destruct (reached_inv _ _ _ _ SZ PG GS RE) as (p & R & I).
  destruct (do1_ok size prog s p _ SZ PG OK R) as (s' & E & _). cbn [do1] in E. destruct (dlsym prog h name gpa c e1 e2 ok msg s) as [[v x]| | |]; try discriminate.
  cbn [bind fst snd] in E. injection E as E1 ->. exists s'. do 2 f_equal. rewrite E1. cbn [sstep fst].
  destruct (Z.eqb_spec h RTLD_NEXT); [congruence|]. destruct (Z.eqb_spec h 0); [congruence|]. destruct (Z.eqb_spec h prog); [congruence|]. auto.
Qed.
Definition outs (prog : Z) (s : st) (os : list op) : outcome (list obs) := do r <- do_all prog s os; Ret (fst r).
Lemma outs_ok : forall size prog s p os, 5 <= size -> handle_ok prog -> Forall op_ok os -> rel size s p -> outs prog s os = Ret (fst (ssteps size prog p os)).
Proof. intros size prog s p os SZ PG F R. destruct (do_all_ok size prog os s p SZ PG F R) as (s' & E & _). unfold outs. rewrite E. auto. Qed.

Lemma first_hit_in : forall gpa l, first_hit gpa l = 0 \/ (exists x, In x l /\ first_hit gpa l = gpa x).
Proof.
  intros gpa l. induction l as [|m l IH]; cbn [first_hit]; [auto|]. destruct (gpa m =? 0).
  - destruct IH as [E|(x & I & E)]; [auto|]. right. exists x. split; [right; auto|auto].
  - right. exists m. split; [left; auto|auto].
Qed.
Lemma first_hit_app : forall gpa a b, Forall (fun x => gpa x = 0) a -> first_hit gpa (a ++ b) = first_hit gpa b.
Proof. intros gpa a b F. induction F as [|x a Hx Ha IH]; cbn [app first_hit]; [auto|]. rewrite Hx. auto. Qed.
Lemma snoc_outs : forall size prog p os o, ssteps size prog p (os ++ [o]) =
  (fst (ssteps size prog p os) ++ [fst (sstep size prog (snd (ssteps size prog p os)) o)], snd (sstep size prog (snd (ssteps size prog p os)) o)).
Proof.
  intros size prog p os o. rewrite ssteps_app. cbn [ssteps]. destruct (sstep size prog (snd (ssteps size prog p os)) o). auto.
Qed.

(** a library first loaded with RTLD_LOCAL is found by neither RTLD_DEFAULT, the program's handle nor RTLD_NEXT, whatever
    happens to other libraries, until it is opened again or closed *)
Theorem C63_local_hidden : forall size prog t s file mode m deps msg os h name gpa c e1 e2 ok2 msg2,
  5 <= size -> handle_ok prog -> good_start t -> reached size prog t s ->
  is_loaded m (mods s) = false -> zlen file < 260 -> Z.testbit mode 2 = true ->
  op_ok (Open (Some file) mode (Some (m, deps)) true true true msg) -> Forall op_ok os ->
  Forall (fun o => ~ opens_it m o /\ ~ closes_it m o) os ->
  op_ok (Sym h name gpa c e1 e2 ok2 msg2) -> h = 0 \/ h = prog \/ h = RTLD_NEXT -> m <> prog ->
  gpa m <> 0 -> (forall x, x <> m -> gpa x <> gpa m) ->
  exists vs a, outs prog s (Open (Some file) mode (Some (m, deps)) true true true msg :: os ++ [Sym h name gpa c e1 e2 ok2 msg2]) = Ret (VPtr m :: vs ++ [VPtr a]) /\ a <> gpa m.
Proof.
  intros size prog t s file mode m deps msg os h name gpa c e1 e2 ok2 msg2 SZ PG GS RE NL ZL TB OK1 OKS UN OK2 HH MP GM GX.
  destruct (reached_inv _ _ _ _ SZ PG GS RE) as (p & R & I).
  match goal with |- context [outs prog s ?l] => assert (FL : Forall op_ok l) by (constructor; [exact OK1|]; apply Forall_app; split; [exact OKS|]; constructor; [exact OK2|constructor]) end.
  rewrite (outs_ok size prog s p) by auto. clear FL.
  assert (MS : mods s = sys p) by (destruct R as (_ & _ & _ & _ & _ & MS & _); auto). rewrite MS in NL.
  cbn [ssteps]. destruct (sstep size prog p (Open (Some file) mode (Some (m, deps)) true true true msg)) as [v q] eqn:E1.
  assert (Q : v = VPtr m /\ In m (hidden q)).
  { cbn [sstep] in E1. destruct (Z.leb_spec 260 (zlen file)); [lia|]. rewrite TB in E1. destruct I as (C & _). rewrite load_length in E1 by auto. rewrite NL in E1. cbn [negb orb] in E1.
    injection E1 as <- <-. split; [auto|]. cbn [hidden]. apply in_hide. auto. }
  destruct Q as [-> Q]. apply (stays_hidden_all size prog m os q UN) in Q. rewrite snoc_outs. cbn [fst].
  set (r := snd (ssteps size prog q os)) in *.
  assert (V : forall l, first_hit gpa (filter (fun x => negb (existsb (Z.eqb x) (hidden r))) l) <> gpa m).
  { intros l A. destruct (first_hit_in gpa (filter (fun x => negb (existsb (Z.eqb x) (hidden r))) l)) as [E|(x & I1 & E)]; [congruence|].
    rewrite E in A. destruct (Z.eq_dec x m) as [->|N]; [|apply (GX x N A)]. apply filter_In in I1. destruct I1 as [_ I1]. apply negb_true_iff in I1.
    apply existsb_In in Q. congruence. }
  cbn [sstep fst]. eexists _, _. split; [reflexivity|]. destruct (Z.eqb_spec h RTLD_NEXT) as [HN|HN].
  - destruct (c =? 0); [congruence|apply V].
  - assert (T : (h =? 0) || (h =? prog) = true) by (destruct HH as [->|[->|HH]]; [auto|rewrite Z.eqb_refl; apply orb_true_r|congruence]).
    rewrite T. destruct (gpa prog =? 0); [apply V|]. apply GX. auto.
Qed.

(** a library opened without RTLD_LOCAL, be it new, hidden or visible before, is found by RTLD_DEFAULT and the program's
    handle as long as it is not closed, even if opened with RTLD_LOCAL later *)
Theorem C63_global_visible : forall size prog t s file mode m deps ok msg os h name gpa c l1 l2 msg2,
  5 <= size -> handle_ok prog -> good_start t -> reached size prog t s -> zlen file < 260 -> Z.testbit mode 2 = false ->
  op_ok (Open (Some file) mode (Some (m, deps)) true true ok msg) -> Forall op_ok os ->
  Forall (fun o => lists_modules o /\ ~ closes_it m o) os ->
  op_ok (Sym h name gpa c (Some (l1 ++ m :: l2)) (Some (l1 ++ m :: l2)) true msg2) -> h = 0 \/ h = prog ->
  gpa prog = 0 -> Forall (fun x => gpa x = 0) l1 -> gpa m <> 0 ->
  exists vs, outs prog s (Open (Some file) mode (Some (m, deps)) true true ok msg :: os ++ [Sym h name gpa c (Some (l1 ++ m :: l2)) (Some (l1 ++ m :: l2)) true msg2])
    = Ret (VPtr m :: vs ++ [VPtr (gpa m)]).
Proof.
  intros size prog t s file mode m deps ok msg os h name gpa c l1 l2 msg2 SZ PG GS RE ZL TB OK1 OKS UN OK2 HH GP G1 GM.
  destruct (reached_inv _ _ _ _ SZ PG GS RE) as (p & R & I).
  match goal with |- context [outs prog s ?l] => assert (FL : Forall op_ok l) by (constructor; [exact OK1|]; apply Forall_app; split; [exact OKS|]; constructor; [exact OK2|constructor]) end.
  rewrite (outs_ok size prog s p) by auto. clear FL.
  cbn [ssteps]. pose proof (sstep_inv size prog p (Open (Some file) mode (Some (m, deps)) true true ok msg) I) as J.
  destruct (sstep size prog p (Open (Some file) mode (Some (m, deps)) true true ok msg)) as [v q] eqn:E1. cbn [snd] in J.
  assert (Q : v = VPtr m /\ global m q).
  { cbn [sstep] in E1. destruct (Z.leb_spec 260 (zlen file)); [lia|]. rewrite TB in E1. destruct I as (C & U & HO). rewrite load_length in E1 by auto. injection E1 as <- <-.
    split; [auto|]. split; [exact J|]. cbn [sys hidden]. destruct (load_facts m deps (sys p) C) as (_ & _ & L3). split; [auto|].
    destruct (is_loaded m (sys p)) eqn:L; cbn [negb]; [rewrite in_unhide; tauto|]. intro N. rewrite (opened_loaded _ _ (HO m N)) in L. discriminate. }
  destruct Q as [-> Q]. apply (stays_global_all size prog m os q UN) in Q. rewrite snoc_outs. cbn [fst].
  set (r := snd (ssteps size prog q os)) in *. exists (fst (ssteps size prog q os)). do 4 f_equal. cbn [sstep fst]. f_equal.
  destruct (Z.eqb_spec h RTLD_NEXT) as [HN|HN].
  { exfalso. destruct PG. unfold RTLD_NEXT, two64 in *. destruct HH; lia. }
  assert (TT : (h =? 0) || (h =? prog) = true) by (destruct HH as [-> | ->]; [auto|rewrite Z.eqb_refl; apply orb_true_r]).
  rewrite TT, GP. cbn [Z.eqb]. rewrite Nat.eqb_refl. cbn [andb]. rewrite filter_app. cbn [filter].
  assert (X : existsb (Z.eqb m) (hidden r) = false) by (destruct (existsb (Z.eqb m) (hidden r)) eqn:X; auto; apply existsb_In in X; destruct Q as (_ & _ & Q); tauto).
  rewrite X. cbn [negb]. rewrite first_hit_app.
  - cbn [first_hit]. destruct (Z.eqb_spec (gpa m) 0); [congruence|auto].
  - apply Forall_forall. intros x Ix. apply filter_In in Ix. rewrite Forall_forall in G1. apply G1. tauto.
Qed.

(** the program itself comes first *)
Theorem C63_program_first : forall size prog t s h name gpa c e1 e2 ok msg, 5 <= size -> handle_ok prog -> good_start t -> reached size prog t s ->
  op_ok (Sym h name gpa c e1 e2 ok msg) -> h = 0 \/ h = prog -> gpa prog <> 0 -> exists s', dlsym prog h name gpa c e1 e2 ok msg s = Ret (gpa prog, s').
Proof.
  intros size prog t s h name gpa c e1 e2 ok msg SZ PG GS RE OK HH GP. destruct (reached_inv _ _ _ _ SZ PG GS RE) as (p & R & I).
  destruct (do1_ok size prog s p _ SZ PG OK R) as (s' & E & _). cbn [do1] in E. destruct (dlsym prog h name gpa c e1 e2 ok msg s) as [[v x]| | |]; try discriminate.
  cbn [bind fst snd] in E. injection E as E1 ->. exists s'. do 2 f_equal. rewrite E1. cbn [sstep fst].
  destruct (Z.eqb_spec h RTLD_NEXT) as [HN|HN]; [exfalso; destruct PG; unfold RTLD_NEXT, two64 in *; destruct HH; lia|].
  assert (T : (h =? 0) || (h =? prog) = true) by (destruct HH as [-> | ->]; [auto|rewrite Z.eqb_refl; apply orb_true_r]).
  rewrite T. destruct (Z.eqb_spec (gpa prog) 0); [congruence|auto].
Qed.
(** RTLD_NEXT: only modules loaded after the caller *)
Theorem C63_next_after_caller : forall size prog t s name gpa c l1 l2 ok msg, 5 <= size -> handle_ok prog -> good_start t -> reached size prog t s ->
  op_ok (Sym RTLD_NEXT name gpa c (Some (l1 ++ c :: l2)) (Some (l1 ++ c :: l2)) ok msg) -> ~ In c l1 ->
  exists a s', dlsym prog RTLD_NEXT name gpa c (Some (l1 ++ c :: l2)) (Some (l1 ++ c :: l2)) ok msg s = Ret (a, s') /\ (a = 0 \/ exists x, In x l2 /\ a = gpa x).
Proof.
  intros size prog t s name gpa c l1 l2 ok msg SZ PG GS RE OK NI. destruct (reached_inv _ _ _ _ SZ PG GS RE) as (p & R & I).
  destruct (do1_ok size prog s p _ SZ PG OK R) as (s' & E & _). cbn [do1] in E. destruct (dlsym prog RTLD_NEXT name gpa c (Some (l1 ++ c :: l2)) (Some (l1 ++ c :: l2)) ok msg s) as [[v x]| | |]; try discriminate.
  cbn [bind fst snd] in E. injection E as E1 ->. exists v, s'. split; [auto|]. rewrite E1. cbn [sstep fst]. destruct (Z.eqb_spec RTLD_NEXT RTLD_NEXT); [|congruence]. destruct (c =? 0); [auto|]. rewrite Nat.eqb_refl, andb_true_r.
  destruct (first_hit_in gpa (filter (fun x => negb (existsb (Z.eqb x) (hidden p))) (after c (if ok then l1 ++ c :: l2 else [])))) as [->|(x & Ix & ->)]; [auto|].
  right. exists x. split; [|auto]. apply filter_In in Ix. destruct Ix as [Ix _]. destruct ok; [|destruct Ix].
  replace (after c (l1 ++ c :: l2)) with l2 in Ix; [auto|]. clear -NI. induction l1 as [|y l1 IH]; cbn [app after]; [rewrite Z.eqb_refl; auto|].
  destruct (Z.eqb_spec c y) as [->|N]; [destruct NI; left; auto|]. apply IH. intro Q. apply NI. right. auto.
Qed.

(** dlerror: the text of the failure of the last call, once *)
Definition failed (v : obs) : bool := match v with VPtr p => p =? 0 | VRet r => negb (r =? 0) | VText _ => false end.
(** what a call was about *)
Definition argument (o : op) (x : list Z) : Prop :=
  match o with Open (Some f) _ _ _ _ _ _ => x = f \/ x = backslashes f | Open None _ _ _ _ _ _ => False | Close m _ _ => x = hex_text m | Sym _ n _ _ _ _ _ _ => x = n | Error => False end.
Definition system_text (o : op) : list Z := match o with Open _ _ _ _ _ _ m => m | Close _ _ m => m | Sym _ _ _ _ _ _ _ m => m | Error => [] end.
Theorem C63_dlerror : forall size prog t s o, 5 <= size -> handle_ok prog -> good_start t -> reached size prog t s -> op_ok o -> o <> Error ->
  exists v e, outs prog s [o; Error; Error; Error] = Ret [v; VText e; VText None; VText None] /\
    (if failed v then exists x, argument o x /\ e = Some (message size x (system_text o)) else e = None).
Proof.
  intros size prog t s o SZ PG GS RE OK NE. destruct (reached_inv _ _ _ _ SZ PG GS RE) as (p & R & I).
  assert (FL : Forall op_ok [o; Error; Error; Error]) by (constructor; [exact OK|]; repeat (constructor; [exact Logic.I|]); constructor).
  rewrite (outs_ok size prog s p) by auto. clear FL.
  cbn [ssteps]. destruct (sstep size prog p o) as [v q] eqn:E. cbn [sstep fst report]. exists v, (report q). split; [auto|].
  destruct PG as [P1 P2].
  destruct o as [file mode ans eb ea ok msg|m deps msg|handle name gpa caller e1 e2 ok msg|]; cbn [sstep argument system_text] in *; [| | |congruence].
  - destruct file as [file|]; [|injection E as <- <-; cbn; destruct (Z.eqb_spec prog 0); [lia|auto]].
    destruct (260 <=? zlen file); [injection E as <- <-; cbn; eauto|]. destruct ans as [[m deps]|]; [|injection E as <- <-; cbn; eauto].
    assert (M0 : (m =? 0) = false) by (destruct OK as (_ & _ & _ & (M & _)); apply Z.eqb_neq; destruct M; lia).
    match type of E with context [negb (Nat.eqb ?a ?b)] => destruct (negb (Nat.eqb a b)) end; destruct (Z.testbit mode 2).
    + destruct (ok || existsb (Z.eqb m) (hidden p)); injection E as <- <-; cbn [failed report]; [rewrite M0; auto|]. cbn. eauto.
    + injection E as <- <-. cbn [failed report]. rewrite M0. auto.
    + injection E as <- <-. cbn [failed report]. rewrite M0. auto.
    + injection E as <- <-. cbn [failed report]. rewrite M0. auto.
  - destruct (unload m deps (sys p)); injection E as <- <-; cbn; eauto.
  - injection E as <- <-. cbn [failed report]. match goal with |- context [if (if ?a =? 0 then _ else _) then _ else _] => fail | |- _ => idtac end.
    match goal with |- if ?b then _ else _ => destruct b; eauto end.
Qed.
(** the text: all of it when it fits; never more than the buffer *)
Theorem C63_message : forall size str msg, 5 <= size -> zlen (message size str msg) < size /\
  (zlen str + zlen msg + 5 <= size -> message size str msg = [34] ++ str ++ [34; 58; 32] ++ strip_crlf msg).
Proof.
  intros size str msg SZ. unfold message.
  assert (SL : zlen (strip_crlf msg) <= zlen msg).
  { unfold strip_crlf. destruct (rev msg) as [|a [|b r]] eqn:E; try lia. assert (E2 : msg = rev (a :: b :: r)) by (rewrite <- E, rev_involutive; auto).
    destruct ((a =? 10) && (b =? 13)); [|lia]. rewrite E2. unfold zlen. rewrite !rev_length. cbn [length]. lia. }
  assert (TL : zlen (ztake (size - 5) str) <= size - 5) by (unfold zlen, ztake; rewrite firstn_length; lia).
  split.
  - destruct (Z.leb_spec (zlen msg + 1) (size - (zlen (ztake (size - 5) str) + 4))); rewrite zlen_cons, !zlen_app, !zlen_cons, !zlen_nil; lia.
  - intros F. pose proof (zlen_nonneg str). pose proof (zlen_nonneg msg). assert (TK : ztake (size - 5) str = str) by (unfold ztake; apply firstn_all2; unfold zlen in *; lia).
    rewrite TK. destruct (Z.leb_spec (zlen msg + 1) (size - (zlen str + 4))); [auto|lia].
Qed.
(** the hexadecimal text of a handle: 0x and sixteen digits that denote it *)
Definition digit_value (c : Z) : Z := if c <? 58 then c - 48 else c - 55.
Definition hex_value (l : list Z) : Z := fold_left (fun a c => 16 * a + digit_value c) l 0.
Definition is_hex (c : Z) : Prop := 48 <= c <= 57 \/ 65 <= c <= 70.
Theorem C63_hex : forall p, 0 <= p < two64 -> exists l, hex_text p = 48 :: 120 :: l /\ length l = 16%nat /\ Forall is_hex l /\ hex_value l = p.
Proof.
  intros p B. exists (map (fun i => hex_digit (p / 16 ^ (15 - Z.of_nat i) mod 16)) (seq 0 16)). split; [reflexivity|]. split; [reflexivity|].
  assert (D : forall v, 0 <= v < 16 -> is_hex (hex_digit v) /\ digit_value (hex_digit v) = v).
  { intros v V. unfold hex_digit, is_hex, digit_value. destruct (Z.ltb_spec v 10).
    - destruct (Z.ltb_spec (48 + v) 58); split; try lia; left; lia.
    - destruct (Z.ltb_spec (65 + (v - 10)) 58); split; try lia; right; lia. }
  split.
  - apply Forall_map. apply Forall_forall. intros i _. apply D. apply Z.mod_pos_bound. lia.
  - unfold hex_value. cbn [map seq fold_left].
    repeat match goal with |- context [digit_value (hex_digit ?x)] => replace (digit_value (hex_digit x)) with x by (symmetry; apply D; apply Z.mod_pos_bound; lia) end.
    clear D.
    change (15 - Z.of_nat 0) with 15.
    change (15 - Z.of_nat 1) with 14.
    change (15 - Z.of_nat 2) with 13.
    change (15 - Z.of_nat 3) with 12.
    change (15 - Z.of_nat 4) with 11.
    change (15 - Z.of_nat 5) with 10.
    change (15 - Z.of_nat 6) with 9.
    change (15 - Z.of_nat 7) with 8.
    change (15 - Z.of_nat 8) with 7.
    change (15 - Z.of_nat 9) with 6.
    change (15 - Z.of_nat 10) with 5.
    change (15 - Z.of_nat 11) with 4.
    change (15 - Z.of_nat 12) with 3.
    change (15 - Z.of_nat 13) with 2.
    change (15 - Z.of_nat 14) with 1.
    change (15 - Z.of_nat 15) with 0.
    assert (N : forall k q, 0 <= k -> 16 * (q / 16 ^ (k + 1)) + q / 16 ^ k mod 16 = q / 16 ^ k).
    { intros k q K. rewrite Z.pow_add_r by lia. rewrite <- Z.div_div by (try apply Z.pow_nonzero; lia). change (16 ^ 1) with 16.
      pose proof (Z.div_mod (q / 16 ^ k) 16 ltac:(lia)). lia. }
    assert (T : p / 16 ^ 16 = 0) by (apply Z.div_small; unfold two64 in B; lia).
    rewrite <- T at 1.
    pose proof (N 15 p ltac:(lia)) as A. change (15 + 1) with 16 in A. rewrite A. clear A.
    pose proof (N 14 p ltac:(lia)) as A. change (14 + 1) with 15 in A. rewrite A. clear A.
    pose proof (N 13 p ltac:(lia)) as A. change (13 + 1) with 14 in A. rewrite A. clear A.
    pose proof (N 12 p ltac:(lia)) as A. change (12 + 1) with 13 in A. rewrite A. clear A.
    pose proof (N 11 p ltac:(lia)) as A. change (11 + 1) with 12 in A. rewrite A. clear A.
    pose proof (N 10 p ltac:(lia)) as A. change (10 + 1) with 11 in A. rewrite A. clear A.
    pose proof (N 9 p ltac:(lia)) as A. change (9 + 1) with 10 in A. rewrite A. clear A.
    pose proof (N 8 p ltac:(lia)) as A. change (8 + 1) with 9 in A. rewrite A. clear A.
    pose proof (N 7 p ltac:(lia)) as A. change (7 + 1) with 8 in A. rewrite A. clear A.
    pose proof (N 6 p ltac:(lia)) as A. change (6 + 1) with 7 in A. rewrite A. clear A.
    pose proof (N 5 p ltac:(lia)) as A. change (5 + 1) with 6 in A. rewrite A. clear A.
    pose proof (N 4 p ltac:(lia)) as A. change (4 + 1) with 5 in A. rewrite A. clear A.
    pose proof (N 3 p ltac:(lia)) as A. change (3 + 1) with 4 in A. rewrite A. clear A.
    pose proof (N 2 p ltac:(lia)) as A. change (2 + 1) with 3 in A. rewrite A. clear A.
    pose proof (N 1 p ltac:(lia)) as A. change (1 + 1) with 2 in A. rewrite A. clear A.
    pose proof (N 0 p ltac:(lia)) as A. change (0 + 1) with 1 in A. rewrite A. clear A.
    change (16 ^ 0) with 1. apply Z.div_1_r.
Qed.

(** ** What does not hold. Programs: handle 100; libraries 7 and 8 *)
Definition only (m : Z) : Z -> Z := fun x => if x =? m then 5 else 0.
Definition t0 : table := [(100, 1, 0)].
Definition find (m : Z) (l : list Z) : op := Sym 0 [102] (only m) 0 (Some l) (Some l) true [].
Definition open_l (mode m : Z) (deps : list Z) : op := Open (Some [97]) mode (Some (m, deps)) true true true [].
(** opened twice with RTLD_LOCAL and closed once: still open, and found by everyone *)
Theorem C63_local_after_close_refuted : exists s,
  do_all 100 (start 64 t0) [open_l 4 7 []; find 7 [100; 7]; open_l 4 7 []; find 7 [100; 7]; Close 7 [] []; find 7 [100; 7]] =
    Ret ([VPtr 7; VPtr 0; VPtr 7; VPtr 0; VRet 0; VPtr 5], s) /\ opened 7 (mods s).
Proof. eexists. split; [vm_compute; reflexivity|]. exists (7, 1, 0). cbn. split; [auto|]. split; [auto|lia]. Qed.
(** only the library itself is hidden, not what it brings along; and opening that with RTLD_LOCAL does not hide it *)
Theorem C63_local_dependency_refuted : exists s,
  do_all 100 (start 64 t0) [open_l 4 7 [8]; find 7 [100; 8; 7]; find 8 [100; 8; 7]; open_l 4 8 []; find 8 [100; 8; 7]] =
    Ret ([VPtr 7; VPtr 0; VPtr 5; VPtr 8; VPtr 5], s).
Proof. eexists. vm_compute. reflexivity. Qed.
(** a module loaded by another thread between the two enumerations hides every library *)
Theorem C63_dlsym_race_refuted : exists s,
  do_all 100 (start 64 t0) [open_l 0 7 []; Sym 0 [102] (only 7) 0 (Some [100; 7]) (Some [100; 7; 9]) true []] = Ret ([VPtr 7; VPtr 0], s).
Proof. eexists. vm_compute. reflexivity. Qed.

(** ** A history *)
Example demo : exists s,
  do_all 100 (start 64 t0) [open_l 4 7 []; find 7 [100; 7]; Error; open_l 0 7 []; find 7 [100; 7]; Error; open_l 4 7 []; find 7 [100; 7];
    Open (Some [97; 47; 98]) 0 None true true true [120; 13; 10]; Error; Error; Close 9 [] []; Error; Close 7 [] []] =
    Ret ([VPtr 7; VPtr 0; VText (Some [34; 102; 34; 58; 32]); VPtr 7; VPtr 5; VText None; VPtr 7; VPtr 5;
      VPtr 0; VText (Some [34; 97; 92; 98; 34; 58; 32; 120]); VText None; VRet 1;
      VText (Some ([34; 48; 120] ++ repeat 48 15 ++ [57; 34; 58; 32])); VRet 0], s).
Proof. eexists. vm_compute. reflexivity. Qed.
Example demo_start : good_start t0 /\ handle_ok 100 /\ reached 64 100 t0 (start 64 t0) /\ op_ok (open_l 4 7 []) /\ op_ok (find 7 [100; 7]) /\
  is_loaded 7 t0 = false /\ only 7 7 <> 0 /\ (forall x, x <> 7 -> only 7 x <> only 7 7).
Proof.
  split. { repeat split; repeat constructor; unfold two64; cbn; lia. }
  split; [unfold handle_ok, two64; lia|]. split; [exists [], []; auto|].
  split. { repeat split; repeat constructor; unfold two64; cbn; lia. }
  split. { repeat split; repeat constructor; unfold two64; cbn; lia. }
  split; [reflexivity|]. split; [discriminate|]. intros x N. unfold only. destruct (Z.eqb_spec x 7); [congruence|discriminate].
Qed.

Print Assumptions C63_matches.
Print Assumptions C63_dlsym_handle.
Print Assumptions C63_local_hidden.
Print Assumptions C63_global_visible.
Print Assumptions C63_program_first.
Print Assumptions C63_next_after_caller.
Print Assumptions C63_dlerror.
Print Assumptions C63_message.
Print Assumptions C63_hex.
Print Assumptions C63_local_after_close_refuted.
Print Assumptions C63_local_dependency_refuted.
Print Assumptions C63_dlsym_race_refuted.

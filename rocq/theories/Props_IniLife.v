(** C70: the memory of an ini_parser. *)
From Verif Require Import CBase LifeModel TpLifeSpec IniLifeModel IniLifeSpec IniLifeProof4 IniLifeProof5.

(** ini_parser_create needs two blocks; it gives an object only if it gets both, and a NULL leaves the heap as it was *)
Theorem C70_what_ini_parser_create_does : forall s o b1 b2, wf s -> orc s = b1 :: b2 :: o ->
  (b1 && b2 = true -> exists p s', create s = Ret (VP p 0, s')) /\
  (b1 && b2 = false -> exists s', create s = Ret (V0, s') /\ forall b, hp s' b = hp s b).
Proof.
  intros s o b1 b2 W E. pose proof (create_ok s W) as H. rewrite E in H. cbn [nxt_answer] in H. split; intro B; rewrite B in H.
  - destruct H as (p & s' & E1 & _). eauto.
  - destruct H as (s' & E1 & O). exists s'. split; [exact E1|]. apply leaks_none. exact (own_leaks _ _ _ O W).
Qed.
Print Assumptions C70_what_ini_parser_create_does.

Lemma created s s1 p : wf s -> create s = Ret (VP p 0, s1) -> rel s s1 p fresh_ini 0.
Proof.
  intros W E. pose proof (create_ok s W) as H. destruct (nxt_answer (orc s)) as [b1 o1]. destruct (nxt_answer o1) as [b2 o2]. destruct (b1 && b2).
  - destruct H as (p' & s' & E1 & _ & R). rewrite E in E1. injection E1 as <- <-. exact R.
  - destruct H as (s' & E1 & _). rewrite E in E1. discriminate.
Qed.
(** every history of puts, gets and deletions, whatever allocations are refused on the way: its results are those of the
    specification, or it is undefined if the specification says so; in the first case ini_parser_destroy then gives back
    everything but the blocks the specification counts as lost *)
Theorem C70_every_history : forall cut s s1 p, wf s -> create s = Ret (VP p 0, s1) -> forall l fuel, (2 * length l < fuel)%nat ->
  match a_run cut l fresh_ini (orc s1) with
  | Some (rs, a, _) => exists s2 s3, run cut fuel (VP p 0) l s1 = Ret (rs, s2) /\ destroy fuel (VP p 0) s2 = Ret (tt, s3) /\ leaks (lost a) s s3
  | None => run cut fuel (VP p 0) l s1 = Ub
  end.
Proof.
  intros cut s s1 p W E l fuel F. pose proof (created _ _ _ W E) as R. pose proof (run_ok cut s W fuel p l fresh_ini 0 s1 R ltac:(lia)) as H.
  destruct (a_run cut l fresh_ini (orc s1)) as [[[rs a] o]|]; [|exact H]. destruct H as (s2 & E2 & _ & R2). destruct (destroy_ok s W fuel p a _ s2 R2 ltac:(lia)) as (s3 & E3 & L). eauto 6.
Qed.
Print Assumptions C70_every_history.

Lemma nxt_true o : Forall (eq true) o -> fst (nxt_answer o) = true /\ Forall (eq true) (snd (nxt_answer o)).
Proof. intro F. destruct o as [|b o]; [split; [reflexivity|exact F]|]. inversion_clear F. cbn. auto. Qed.
Ltac nx F := match goal with |- context [nxt_answer ?o] => let A := fresh in let B := fresh in destruct (nxt_true o F) as (A & B); destruct (nxt_answer o) as [? ?]; cbn [fst snd] in A, B; subst; cbn [negb]; clear F; rename B into F end.
Lemma put_entry_lost cut i k v a o : Forall (eq true) o -> let '(_, a', o') := a_put_entry cut i k v a o in lost a' = lost a /\ Forall (eq true) o'.
Proof. intro F. unfold a_put_entry. destruct (pos k (entries i a)); [cbn; auto|]. nx F. nx F. cbn. auto. Qed.
Lemma run_lost cut : forall l a o, Forall (eq true) o -> match a_run cut l a o with Some (_, a', _) => lost a' = lost a | None => True end.
Proof.
  induction l as [|x l IH]; intros a o F; cbn [a_run]; [reflexivity|].
  assert (S : match a_step cut x a o with Some (_, a', o') => lost a' = lost a /\ Forall (eq true) o' | None => True end).
  { assert (PU : forall q k v, let '(_, a', o') := a_put cut q k v a o in lost a' = lost a /\ Forall (eq true) o').
    { intros q k v. unfold a_put. destruct (place a q) as [i|]; [apply put_entry_lost; exact F|]. nx F. nx F. nx F. match goal with |- context [a_put_entry cut ?i k v ?a ?o] => exact (put_entry_lost cut i k v a o F) end. }
    unfold a_step. destruct x as [q k v|q k|q k|q].
    - specialize (PU q k v). destruct (a_put cut q k v a o) as [[? ?] ?]. destruct (cache a); auto.
    - destruct (cache a); auto.
    - destruct (cache a); auto; (destruct (place a q) as [i|]; [|auto]; destruct (pos k (entries i a)); auto).
    - destruct (cache a); auto; destruct (place a q) as [i|]; auto. }
  destruct (a_step cut x a o) as [[[r a1] o1]|]; [|exact I]. destruct S as (S1 & S2). specialize (IH a1 o1 S2). destruct (a_run cut l a1 o1) as [[[rs a2] o2]|]; [|exact I]. congruence.
Qed.
(** while no allocation fails, nothing is lost: the heap is exactly as before ini_parser_create *)
Theorem C70_everything_is_given_back : forall cut s s1 p, wf s -> create s = Ret (VP p 0, s1) -> Forall (eq true) (orc s1) -> forall l fuel rs s2, (2 * length l < fuel)%nat ->
  run cut fuel (VP p 0) l s1 = Ret (rs, s2) -> exists s3, destroy fuel (VP p 0) s2 = Ret (tt, s3) /\ forall b, hp s3 b = hp s b.
Proof.
  intros cut s s1 p W E F l fuel rs s2 L R. pose proof (C70_every_history cut s s1 p W E l fuel L) as H. pose proof (run_lost cut l fresh_ini (orc s1) F) as N. destruct (a_run cut l fresh_ini (orc s1)) as [[[rs' a] o]|]; [|rewrite R in H; discriminate].
  destruct H as (s2' & s3 & E2 & E3 & K). rewrite R in E2. injection E2 as -> ->. exists s3. split; [exact E3|]. apply leaks_none. rewrite N in K. exact K.
Qed.
Print Assumptions C70_everything_is_given_back.

(** refuted: a put into a new section whose node is refused (the third allocation) loses the section's list for good *)
Theorem C70_a_refused_section_loses_its_list_refuted : forall cut s s1 p q k v o, wf s -> create s = Ret (VP p 0, s1) -> orc s1 = true :: true :: false :: o ->
  forall fuel, (2 < fuel)%nat -> exists s2 s3, run cut fuel (VP p 0) [Put q k v] s1 = Ret ([RCode 3], s2) /\ destroy fuel (VP p 0) s2 = Ret (tt, s3) /\ leaks 1 s s3.
Proof.
  intros cut s s1 p q k v o W E O fuel F. pose proof (C70_every_history cut s s1 p W E [Put q k v] fuel ltac:(cbn [length]; lia)) as H. rewrite O in H. exact H.
Qed.
Print Assumptions C70_a_refused_section_loses_its_list_refuted.

Lemma deleted_newest cut : forall l a o rs a' o' x, a_run cut l a o = Some (rs, a', o') -> cache a' = Deleted -> a_run cut (l ++ [x]) a o = None.
Proof.
  induction l as [|y l IH]; intros a o rs a' o' x E C; cbn [a_run app] in *.
  - injection E as <- <- <-. unfold a_step. rewrite C. reflexivity.
  - destruct (a_step cut y a o) as [[[r a1] o1]|]; [|reflexivity]. destruct (a_run cut l a1 o1) as [[[rs1 a2] o2]|] eqn:R; [|discriminate]. injection E as <- <- <-. rewrite (IH a1 o1 rs1 a2 o2 x R C). reflexivity.
Qed.
(** refuted: when the section made last was deleted, the next operation of any kind reads the freed section (undefined);
    only ini_parser_destroy is still fine *)
Theorem C70_after_deleting_the_newest_section_refuted : forall cut s s1 p q k v, wf s -> create s = Ret (VP p 0, s1) -> Forall (eq true) (orc s1) -> cut q = q ->
  (forall x fuel, (6 < fuel)%nat -> run cut fuel (VP p 0) [Put q k v; DeleteSection q; x] s1 = Ub) /\
  (forall fuel, (4 < fuel)%nat -> exists s2 s3, run cut fuel (VP p 0) [Put q k v; DeleteSection q] s1 = Ret ([RCode 0; RCode 0], s2) /\ destroy fuel (VP p 0) s2 = Ret (tt, s3) /\ forall b, hp s3 b = hp s b).
Proof.
  intros cut s s1 p q k v W E F C. 
  assert (A : exists o, a_run cut [Put q k v; DeleteSection q] fresh_ini (orc s1) = Some ([RCode 0; RCode 0], mk_a [] Deleted 0, o)).
  { cbn [a_run]. unfold a_step, a_put. cbn [cache fresh_ini place pos secs]. nx F. nx F. nx F. unfold a_put_entry. cbn [entries secs app length nth_error snd pos]. nx F. nx F. cbn. rewrite C, Z.eqb_refl. cbn. eexists. reflexivity. }
  destruct A as (o & A). split.
  - intros x fuel L. pose proof (C70_every_history cut s s1 p W E [Put q k v; DeleteSection q; x] fuel ltac:(cbn [length]; lia)) as H. pose proof (deleted_newest cut _ _ _ _ _ _ x A eq_refl) as D. cbn [app] in D. rewrite D in H. exact H.
  - intros fuel L. pose proof (C70_every_history cut s s1 p W E [Put q k v; DeleteSection q] fuel ltac:(cbn [length]; lia)) as H. rewrite A in H. destruct H as (s2 & s3 & E2 & E3 & K). exists s2, s3. split; [exact E2|]. split; [exact E3|]. apply leaks_none. exact K.
Qed.
Print Assumptions C70_after_deleting_the_newest_section_refuted.

Definition bare (o : list bool) : st := mk_s o (fun _ => None) 0.
Lemma bare_wf o : wf (bare o). Proof. intros b _. reflexivity. Qed.
Definition in_use (s : st) : nat := length (filter (fun b => match hp s b with Some _ => true | None => false end) (seq 0 (nxt s))).
Definition id_cut (z : Z) : Z := z.
Definition script : list op := [Put 1 10 100; Put 2 20 200; Put 1 11 101; Get 2 20; DeleteKey 1 10; Get 1 10; DeleteSection 1; Get 1 11; Put 2 20 201; Get 2 20].
Example ini_results : match a_run id_cut script fresh_ini [] with Some (rs, a, _) => rs = [RCode 0; RCode 0; RCode 0; RVal (Some 200%Z); RCode 0; RVal None; RCode 0; RVal None; RCode 0; RVal (Some 201%Z)] /\ secs a = [(2, [(20, 201)])]%Z /\ lost a = 0%nat | None => False end.
Proof. vm_compute. auto. Qed.
Example ini_blocks : match (p <-- create ;; run id_cut 30 p script) (bare []) with Ret (_, s) => in_use s = 7%nat | _ => False end.
Proof. vm_compute. reflexivity. Qed.
Example ini_end : match (p <-- create ;; rs <-- run id_cut 30 p script ;; destroy 30 p) (bare []) with Ret (_, s) => in_use s = 0%nat | _ => False end.
Proof. vm_compute. reflexivity. Qed.
Example ini_lost : match (p <-- create ;; rs <-- run id_cut 30 p [Put 1 2 3; Put 1 2 4; Get 1 2] ;; destroy 30 p) (bare [true; true; true; true; false]) with Ret (_, s) => in_use s = 1%nat | _ => False end.
Proof. vm_compute. reflexivity. Qed.

(** Proofs for C74, part 4: runs that are not atomic *)
From Verif Require Import CBase HashmapModel HashmapSpec LockModel LockSpec LockProof LockObjModel LockObjSpec.
Section Play.
Context {S C R : Type} (code : C -> body S R) (locked : C -> bool) (ok : C -> Prop).
(** thread, and the call it makes if it is idle *)
Definition do1 (s : st S C R) (m : nat * option C) : option (st S C R) :=
  let t := fst m in
  match pcs s t with
  | Idle => match snd m with Some c => Some (mk_st (obj s) (holder s) (upd (pcs s) t (begin code locked c)) (log s ++ [ECall t c])) | None => None end
  | Wait c => match holder s with None => Some (mk_st (obj s) (Some t) (upd (pcs s) t (In c (code c))) (log s)) | Some _ => None end
  | In c (Step f) => match f (obj s) with Ret (o, b) => Some (mk_st o (holder s) (upd (pcs s) t (In c b)) (log s)) | _ => None end
  | In c (Enter b) => None
  | In c (Done r) => Some (mk_st (obj s) None (upd (pcs s) t (Out c r)) (log s))
  | Bare c (Step f) => match f (obj s) with Ret (o, b) => Some (mk_st o (holder s) (upd (pcs s) t (Bare c b)) (log s)) | _ => None end
  | Bare c (Enter b) => None
  | Bare c (Done r) => Some (mk_st (obj s) (holder s) (upd (pcs s) t (Out c r)) (log s))
  | Out c r => Some (mk_st (obj s) (holder s) (upd (pcs s) t Idle) (log s ++ [ERet t c r]))
  end.
Fixpoint play (ms : list (nat * option C)) (s : st S C R) : option (st S C R) :=
  match ms with [] => Some s | m :: ms => match do1 s m with Some s => play ms s | None => None end end.
Lemma do1_step s m s' : do1 s m = Some s' -> (forall c, snd m = Some c -> ok c) -> tstep code locked ok (fst m) s s'.
Proof.
  destruct m as [t o]. unfold do1. cbn [fst snd]. intros H OK. destruct (pcs s t) as [|c|c b|c b|c r] eqn:E.
  - destruct o as [c|]; [|discriminate]. injection H as <-. apply t_call; auto.
  - destruct (holder s) eqn:HO; [discriminate|]. injection H as <-. apply t_acquire; auto.
  - destruct b as [r|f|b]; [injection H as <-; eapply t_release; eauto| |discriminate]. destruct (f (obj s)) as [[o' b']| | |] eqn:F; try discriminate. injection H as <-. eapply t_step; eauto.
  - destruct b as [r|f|b]; [injection H as <-; eapply t_bare_end; eauto| |discriminate]. destruct (f (obj s)) as [[o' b']| | |] eqn:F; try discriminate. injection H as <-. eapply t_bare; eauto.
  - injection H as <-. eapply t_return; eauto.
Qed.
Lemma play_reach o ms : forall s s', reach code locked ok o s -> play ms s = Some s' -> Forall (fun m => match snd m with Some c => ok c | None => True end) ms -> reach code locked ok o s'.
Proof.
  induction ms as [|m ms IH]; intros s s' RE P F; cbn [play] in P; [congruence|]. destruct (do1 s m) as [s1|] eqn:D; [|discriminate]. inversion_clear F as [|? ? F1 F2]. apply (IH s1); [|exact P|exact F2]. eapply r_step; [exact RE|]. eapply do1_step; [exact D|]. intros c E. rewrite E in F1. exact F1.
Qed.
Lemma do1_any s m s' : do1 s m = Some s' -> tstep code locked (fun _ => True) (fst m) s s'.
Proof.
  destruct m as [t o]. unfold do1. cbn [fst snd]. intros H. destruct (pcs s t) as [|c|c b|c b|c r] eqn:E.
  - destruct o as [c|]; [|discriminate]. injection H as <-. apply t_call; auto.
  - destruct (holder s) eqn:HO; [discriminate|]. injection H as <-. apply t_acquire; auto.
  - destruct b as [r|f|b]; [injection H as <-; eapply t_release; eauto| |discriminate]. destruct (f (obj s)) as [[o' b']| | |] eqn:F; try discriminate. injection H as <-. eapply t_step; eauto.
  - destruct b as [r|f|b]; [injection H as <-; eapply t_bare_end; eauto| |discriminate]. destruct (f (obj s)) as [[o' b']| | |] eqn:F; try discriminate. injection H as <-. eapply t_bare; eauto.
  - injection H as <-. eapply t_return; eauto.
Qed.
Lemma play_other u ms : forall s s', play ms s = Some s' -> (forall m, List.In m ms -> fst m <> u) -> pcs s' u = pcs s u.
Proof.
  induction ms as [|m ms IH]; intros s s' P N; cbn [play] in P; [congruence|]. destruct (do1 s m) as [s1|] eqn:D; [|discriminate]. rewrite (IH s1 s' P) by (intros; apply N; right; assumption).
  assert (NE : u <> fst m) by (intro X; apply (N m); [left; reflexivity|auto]). destruct (do1_any s m s1 D); cbn [pcs]; apply upd_ne; exact NE.
Qed.
End Play.

Definition okS (c : hcall) : Prop := match c with HOp c => sane_table (c_okx c) | HForeach _ uses => uses = fun _ _ => false end.
Definition small (n : Z) : bool := n <=? 16.
Definition hop (o : hm_op) : hcall := HOp (mk_call true small o).
Lemma small_sane : sane_table small. Proof. intros n H. unfold small in H. lia. Qed.
Lemma hop_ok o : okS (hop o). Proof. exact small_sane. Qed.
Definition mv (t : nat) (n : nat) : list (nat * option hcall) := repeat (t, None) n.
Definition call_ (t : nat) (o : hm_op) : list (nat * option hcall) := [(t, Some (hop o))].
Definition demo : hmap := mk_hm (repeat [] 2) 0.
Lemma demo_create : hm_create true small 1 = Ret (Some demo). Proof. reflexivity. Qed.
Definition ret0 := mk_res 0 [] [].
Lemma moves_ok ms : (forall m, List.In m ms -> snd m = None \/ exists o, snd m = Some (hop o)) -> Forall (fun m : nat * option hcall => match snd m with Some c => okS c | None => True end) ms.
Proof. intro H. apply Forall_forall. intros m I. destruct (H m I) as [-> | (o & ->)]; [exact Logic.I|apply hop_ok]. Qed.
Ltac moves := apply moves_ok; cbn; intros m; repeat (intros [<- | H]; [cbn; eauto|revert H]); intros [].

(** ** all the ways to choose the moments at which the calls of two threads take effect *)
Inductive ph := PhN | PhC (c : hcall) | PhD (v : Z).
Definition abs (a : ph) (p : phase hcall res) : Prop :=
  match a, p with PhN, PNone => True | PhC c, PCalled c' => c' = c | PhD v, PDone _ r => r_val r = v | _, _ => False end.
Section Can.
Variables (eqf : Z -> Z -> bool) (kfree vfree : bool).
(** false: there is none *)
Fixpoint can (n : nat) (p0 p1 : ph) (s : fmap) (l : list (ev hcall res)) : bool :=
  match n with
  | O => true
  | S n =>
      match p0 with PhC (HOp c) => can n (PhD (snd (s_step eqf s c))) p1 (fst (s_step eqf s c)) l | PhC _ => true | _ => false end
      || match p1 with PhC (HOp c) => can n p0 (PhD (snd (s_step eqf s c))) (fst (s_step eqf s c)) l | PhC _ => true | _ => false end
      || match l with
         | [] => true
         | ECall O c :: l => match p0 with PhN => can n (PhC c) p1 s l | _ => false end
         | ECall _ c :: l => match p1 with PhN => can n p0 (PhC c) s l | _ => false end
         | ERet O c r :: l => match p0 with PhD v => (r_val r =? v) && can n PhN p1 s l | _ => false end
         | ERet _ c r :: l => match p1 with PhD v => (r_val r =? v) && can n p0 PhN s l | _ => false end
         end
  end.
Lemma phases_cons t p (e : lev hcall res) h q : phases t p (e :: h) q -> exists p', next_phase t p e p' /\ phases t p' h q.
Proof. inversion 1; subst; eauto. Qed.
Definition two (l : list (ev hcall res)) : Prop := Forall (fun e => match e with ECall t _ | ERet t _ _ => (t < 2)%nat end) l.
Lemma can_sound n : forall p0 p1 s l h a0 a1 q0 q1 fin, abs a0 p0 -> abs a1 p1 -> phases 0 p0 h q0 -> phases 1 p1 h q1 -> (forall t, (2 <= t)%nat -> exists q, phases t PNone h q) ->
  seen h = l -> two l -> m_run eqf kfree vfree s (points h) fin -> can n a0 a1 s l = true.
Proof.
  induction n as [|n IH]; intros p0 p1 s l h a0 a1 q0 q1 fin A0 A1 H0 H1 HO SE TW MR; [reflexivity|]. destruct h as [|e h].
  - cbn in SE. subst l. cbn [can]. apply orb_true_r.
  - destruct (phases_cons _ _ _ _ _ H0) as (p0' & N0 & K0). destruct (phases_cons _ _ _ _ _ H1) as (p1' & N1 & K1).
    assert (HO' : forall t, (2 <= t)%nat -> exists p' q, next_phase t PNone e p' /\ phases t p' h q).
    { intros t T. destruct (HO t T) as (q & P). destruct (phases_cons _ _ _ _ _ P) as (p' & X & Y). eauto. }
    destruct e as [t c|t c r|t c r]; cbn [seen points] in *.
    + subst l. inversion_clear TW as [|? ? T TW']. destruct t as [|[|t]]; [| |exfalso; clear - T; lia]; cbn in N0, N1.
      * destruct N0 as (-> & ->). subst p1'. destruct a0; try contradiction. cbn [can]. apply orb_true_iff. right. eapply (IH (PCalled c) p1 s (seen h) h (PhC c) a1); [reflexivity|exact A1|exact K0|exact K1| |reflexivity|exact TW'|exact MR].
        intros u U. destruct (HO' u U) as (p' & q & X & Y). cbn in X. destruct u as [|u]; [clear - U; lia|]. subst p'. eauto.
      * destruct N1 as (-> & ->). subst p0'. destruct a1; try contradiction. cbn [can]. apply orb_true_iff. right. eapply (IH p0 (PCalled c) s (seen h) h a0 (PhC c)); [exact A0|reflexivity|exact K0|exact K1| |reflexivity|exact TW'|exact MR].
        intros u U. destruct (HO' u U) as (p' & q & X & Y). cbn in X. destruct u as [|[|u]]; try (clear - U; lia). subst p'. eauto.
    + assert (T : (t < 2)%nat).
      { destruct (Nat.lt_ge_cases t 2) as [?|G]; [assumption|]. destruct (HO' t G) as (p' & q & X & Y). cbn in X. rewrite Nat.eqb_refl in X. destruct X as (X & _). discriminate. }
      inversion MR as [|? ? ? s' ? ? ST MR']; subst. destruct t as [|[|t]]; [| |exfalso; clear - T; lia]; cbn in N0, N1.
      * destruct N0 as (-> & ->). subst p1'. destruct a0 as [|c0|]; try contradiction. cbn in A0. subst c0. cbn [can]. apply orb_true_iff. left. apply orb_true_iff. left. destruct c as [c|]; [|reflexivity]. cbn in ST. destruct ST as (ST & _). destruct (s_step eqf s c) as [s1 v]. injection ST as <- <-. cbn [fst snd].
        eapply (IH (PDone (HOp c) r) p1 s' (seen h) h (PhD (r_val r)) a1); [reflexivity|exact A1|exact K0|exact K1| |reflexivity|exact TW|exact MR'].
        intros u U. destruct (HO' u U) as (p' & q & X & Y). cbn in X. destruct u as [|u]; [clear - U; lia|]. subst p'. eauto.
      * destruct N1 as (-> & ->). subst p0'. destruct a1 as [|c0|]; try contradiction. cbn in A1. subst c0. cbn [can]. apply orb_true_iff. left. apply orb_true_iff. right. destruct c as [c|]; [|reflexivity]. cbn in ST. destruct ST as (ST & _). destruct (s_step eqf s c) as [s1 v]. injection ST as <- <-. cbn [fst snd].
        eapply (IH p0 (PDone (HOp c) r) s' (seen h) h a0 (PhD (r_val r))); [exact A0|reflexivity|exact K0|exact K1| |reflexivity|exact TW|exact MR'].
        intros u U. destruct (HO' u U) as (p' & q & X & Y). cbn in X. destruct u as [|[|u]]; try (clear - U; lia). subst p'. eauto.
    + subst l. inversion_clear TW as [|? ? T TW']. destruct t as [|[|t]]; [| |exfalso; clear - T; lia]; cbn in N0, N1.
      * destruct N0 as (-> & ->). subst p1'. destruct a0 as [| |v]; try contradiction. cbn in A0. subst v. cbn [can]. apply orb_true_iff. right. rewrite Z.eqb_refl. cbn [andb]. eapply (IH PNone p1 s (seen h) h PhN a1); [exact Logic.I|exact A1|exact K0|exact K1| |reflexivity|exact TW'|exact MR].
        intros u U. destruct (HO' u U) as (p' & q & X & Y). cbn in X. destruct u as [|u]; [clear - U; lia|]. subst p'. eauto.
      * destruct N1 as (-> & ->). subst p0'. destruct a1 as [| |v]; try contradiction. cbn in A1. subst v. cbn [can]. apply orb_true_iff. right. rewrite Z.eqb_refl. cbn [andb]. eapply (IH p0 PNone s (seen h) h a0 PhN); [exact A0|exact Logic.I|exact K0|exact K1| |reflexivity|exact TW'|exact MR].
        intros u U. destruct (HO' u U) as (p' & q & X & Y). cbn in X. destruct u as [|[|u]]; try (clear - U; lia). subst p'. eauto.
Qed.
Lemma not_lin n l : two l -> can n PhN PhN [] l = false -> ~ linearizable (fun ps => exists fin, m_run eqf kfree vfree [] ps fin) l.
Proof.
  intros T C (h & SE & TH & fin & MR). destruct (TH 0%nat) as (q0 & Q0). destruct (TH 1%nat) as (q1 & Q1).
  rewrite (can_sound n PNone PNone [] l h PhN PhN q0 q1 fin Logic.I Logic.I Q0 Q1 (fun t _ => TH t) SE T MR) in C. discriminate.
Qed.
End Can.

Definition demo_code := hm_code (fun _ => 0) Z.eqb true true.
Lemma play_log ok given ms l : match play demo_code (hm_locked given) ms (boot demo) with Some s => log s = l | None => False end ->
  Forall (fun m : nat * option hcall => match snd m with Some c => ok c | None => True end) ms -> exists s, reach demo_code (hm_locked given) ok demo s /\ log s = l.
Proof. intros P F. destruct (play _ _ ms (boot demo)) as [s|] eqn:E; [|contradiction]. exists s. split; [|exact P]. eapply play_reach; [apply r_boot|exact E|exact F]. Qed.

Definition put1 := hop (HPut 1 11).
Definition put2 := hop (HPut 2 22).
Definition size_log : list (ev hcall res) :=
  [ECall 0 put1; ERet 0 put1 ret0; ECall 0 put2; ERet 0 put2 ret0; ECall 0 (hop HClear); ECall 1 (hop HSize); ERet 1 (hop HSize) (mk_res 1 [] [])].
Lemma size_run : exists s, reach demo_code (hm_locked true) okS demo s /\ log s = size_log.
Proof.
  apply (play_log okS true (call_ 0 (HPut 1 11) ++ mv 0 7 ++ call_ 0 (HPut 2 22) ++ mv 0 7 ++ call_ 0 HClear ++ mv 0 4 ++ call_ 1 HSize ++ mv 1 3)); [vm_compute; reflexivity|moves].
Qed.
Lemma size_not : ~ linearizable (fun ps => exists fin, m_run Z.eqb true true [] ps fin) size_log.
Proof. apply (not_lin Z.eqb true true 20); [repeat constructor|vm_compute; reflexivity]. Qed.

Definition get2 := hop (HGet 2).
Definition lost_log : list (ev hcall res) :=
  [ECall 0 put1; ECall 1 put2; ERet 1 put2 ret0; ERet 0 put1 ret0; ECall 1 get2; ERet 1 get2 ret0].
Lemma lost_run : exists s, reach demo_code (hm_locked false) okS demo s /\ log s = lost_log.
Proof.
  apply (play_log okS false (call_ 0 (HPut 1 11) ++ mv 0 1 ++ call_ 1 (HPut 2 22) ++ mv 1 6 ++ mv 0 5 ++ call_ 1 (HGet 2) ++ mv 1 3)); [vm_compute; reflexivity|moves].
Qed.
Lemma lost_not : ~ linearizable (fun ps => exists fin, m_run Z.eqb true true [] ps fin) lost_log.
Proof. apply (not_lin Z.eqb true true 20); [repeat constructor|vm_compute; reflexivity]. Qed.

(** ** a foreach callback that uses the map *)
Section Dead.
Context {S C R : Type} (code : C -> body S R) (locked : C -> bool) (ok : C -> Prop).
Hypothesis LK : forall c, ok c -> locked c = true.
Inductive steps (s : st S C R) : st S C R -> Prop :=
| ss_refl : steps s s
| ss_step s1 t s2 : steps s s1 -> tstep code locked ok t s1 s2 -> steps s s2.
Definition stuck (t : nat) (c : C) (b : body S R) (s : st S C R) : Prop :=
  pcs s t = In c (Enter b) /\ holder s = Some t /\ forall u, u <> t -> pcs s u = Idle \/ exists d, pcs s u = Wait d.
Definition is_ret (e : ev C R) : bool := match e with ERet _ _ _ => true | _ => false end.
Lemma stuck_step t c b s u s' : stuck t c b s -> tstep code locked ok u s s' -> stuck t c b s' /\ filter is_ret (log s') = filter is_ret (log s) /\ (forall v d, pcs s v = Wait d -> pcs s' v = Wait d).
Proof.
  intros (P & H & O) ST. assert (NE : u <> t -> pcs s u = Idle \/ exists d, pcs s u = Wait d) by auto.
  destruct (Nat.eq_dec u t) as [->|NU]; [inversion ST; subst; congruence|]. specialize (NE NU).
  destruct ST as [s c' I K|s c' W F|s c' f o b' E F|s c' b' E F|s c' r E|s c' f o b' E F|s c' r E|s c' r E]; try (destruct NE as [X|(d & X)]; congruence).
  cbn [log pcs holder obj]. split; [|split].
  - split; [|split; [exact H|]]; cbn [pcs].
    + rewrite upd_ne by congruence. exact P.
    + intros v V. destruct (Nat.eq_dec v u) as [->|NV]; [rewrite upd_eq|rewrite upd_ne by exact NV; auto]. unfold begin. rewrite LK by exact K. eauto.
  - rewrite filter_app. cbn. apply app_nil_r.
  - intros v d V. destruct (Nat.eq_dec v u) as [->|NV]; [congruence|rewrite upd_ne by exact NV; exact V].
Qed.
Lemma stuck_forever t c b s : stuck t c b s -> forall s', steps s s' -> stuck t c b s' /\ filter is_ret (log s') = filter is_ret (log s) /\ (forall v d, pcs s v = Wait d -> pcs s' v = Wait d).
Proof.
  intros ST s' SS. induction SS as [|s1 u s2 SS IH TS]; [auto|]. destruct IH as (A & B & D). destruct (stuck_step t c b s1 u s2 A TS) as (A2 & B2 & D2). split; [exact A2|]. split; [congruence|]. auto.
Qed.
End Dead.
Definition visit_all : hcall := HForeach (fun _ _ => true) (fun _ _ => true).
(** here the callback may use the map *)
Definition okD (c : hcall) : Prop := match c with HOp c => c_op c <> HSize /\ sane_table (c_okx c) | HForeach _ _ => True end.
Lemma okD_locked c : okD c -> hm_locked true c = true.
Proof. destruct c as [c|]; cbn; [|reflexivity]. intros (H & _). destruct (c_op c); congruence. Qed.
Definition dead_log : list (ev hcall res) := [ECall 0 put1; ERet 0 put1 ret0; ECall 0 visit_all; ECall 1 get2].
Definition is_enter (x : pc hmap hcall res) : bool := match x with In _ (Enter _) => true | _ => false end.
Definition dead_moves : list (nat * option hcall) := call_ 0 (HPut 1 11) ++ mv 0 7 ++ [(0%nat, Some visit_all)] ++ mv 0 3 ++ call_ 1 (HGet 2).
Lemma dead_run : exists s c b, reach demo_code (hm_locked true) okD demo s /\ log s = dead_log /\ stuck 0 c b s.
Proof.
  assert (F : Forall (fun m : nat * option hcall => match snd m with Some c => okD c | None => True end) dead_moves).
  { repeat first [apply Forall_nil | apply Forall_cons; [first [exact Logic.I | split; [discriminate|exact small_sane]]|]]. }
  assert (L : match play demo_code (hm_locked true) dead_moves (boot demo) with Some s => log s = dead_log | None => False end) by (vm_compute; reflexivity).
  assert (H : match play demo_code (hm_locked true) dead_moves (boot demo) with Some s => holder s = Some 0%nat /\ is_enter (pcs s 0%nat) = true | None => False end) by (vm_compute; split; reflexivity).
  assert (O : match play demo_code (hm_locked true) dead_moves (boot demo) with Some s => forall u, u <> 0%nat -> pcs s u = Idle \/ exists d, pcs s u = Wait d | None => False end).
  { assert (W : match play demo_code (hm_locked true) dead_moves (boot demo) with Some s => match pcs s 1%nat with Wait _ => true | _ => false end = true | None => False end) by (vm_compute; reflexivity).
    pose proof (fun u => play_other demo_code (hm_locked true) u dead_moves (boot demo)) as K.
    destruct (play demo_code (hm_locked true) dead_moves (boot demo)) as [s|]; [|contradiction]. intros [|[|u]] NE; [congruence| |left].
    - right. destruct (pcs s 1%nat); try discriminate. eauto.
    - rewrite (K (S (S u)) s eq_refl); [reflexivity|]. intros m M E. repeat (destruct M as [<- | M]; [cbn in E; discriminate|]). destruct M. }
  destruct (play demo_code (hm_locked true) dead_moves (boot demo)) as [s|] eqn:E; [|contradiction]. destruct H as (H & X).
  destruct (pcs s 0%nat) as [| |c [|f|b]| |] eqn:P; try discriminate X. exists s, c, b. split; [|split; [exact L|split; [exact P|split; [exact H|exact O]]]].
  eapply play_reach; [apply r_boot|exact E|exact F].
Qed.
Lemma dead_forever : exists s, reach demo_code (hm_locked true) okD demo s /\ log s = dead_log /\
  forall s', steps demo_code (hm_locked true) okD s s' -> filter is_ret (log s') = [ERet 0 put1 ret0].
Proof.
  destruct dead_run as (s & c & b & R & L & ST). exists s. split; [exact R|]. split; [exact L|]. intros s' SS. destruct (stuck_forever _ _ _ okD_locked 0%nat c b s ST s' SS) as (_ & E & _). rewrite E, L. reflexivity.
Qed.

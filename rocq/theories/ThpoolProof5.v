(** Thread pool: pending calls of thpool_wait; a scheduler for concrete runs. *)
From Verif Require Import CBase ThpoolModel ThpoolSpec ThpoolProof ThpoolProof2 ThpoolProof3 ThpoolProof4.

(** ---- pending calls ---- *)
Lemma pendw_snoc t l e : pendw t (l ++ [e]) -> e = ECall t \/ pendw t l /\ e <> ERet t.
Proof.
  intros (l1 & l2 & E & Nr). destruct l2 as [|e2 l2].
  - apply app_inj_tail in E. left. tauto.
  - destruct (@exists_last _ (e2 :: l2)) as (l3 & e3 & E3); [easy|]. rewrite E3 in *. rewrite app_comm_cons, app_assoc in E.
    apply app_inj_tail in E. destruct E as (-> & ->). right. rewrite in_snoc in Nr. split; [|intros ->; tauto]. exists l1, l3. tauto.
Qed.
Definition calls (x : state) : Prop := forall t, pendw t (log (shr x)) -> waiting (pcs x t) = true.
Lemma calls_step N W x y : calls x -> step N W x y -> calls y.
Proof.
  intros I H u Hu. destruct (step_local _ _ _ _ H) as (t & L & O).
  assert (log (shr y) = log (shr x) /\ (waiting (pcs x t) = true -> waiting (pcs y t) = true) \/ exists e, log (shr y) = log (shr x) ++ [e] /\
    (waiting (pcs x t) = true -> waiting (pcs y t) = true \/ e = ERet t) /\ (forall v, e = ECall v -> v = t /\ waiting (pcs y t) = true)) as [(El & K)|(e & El & K1 & K2)].
  { abs x y t. clear - L. ldes L; cbn; auto; right; eexists; repeat split; auto; try (intros; discriminate); try congruence. }
  - rewrite El in Hu. apply I in Hu. destruct (Nat.eq_dec u t) as [->|Hut]; [auto|]. rewrite (sim_f waiting (pcs x u) (pcs y u)); auto.
  - rewrite El in Hu. apply pendw_snoc in Hu. destruct Hu as [->|(Hu & Ne)]; [destruct (K2 u eq_refl); now subst|]. apply I in Hu.
    destruct (Nat.eq_dec u t) as [->|Hut]; [destruct (K1 Hu); [easy|congruence]|]. rewrite (sim_f waiting (pcs x u) (pcs y u)); auto.
Qed.
Lemma calls_reach N W x : reach N W x -> calls x.
Proof. induction 1; [|eauto using calls_step]. intros t (l1 & l2 & E & _). destruct l1; discriminate. Qed.

(** ---- consequences of legality ---- *)
Lemma legal_starts l : legal l -> NoDup (starts l).
Proof.
  induction l as [|e l IH] using rev_ind; intros H; [constructor|].
  assert (Hl : legal l) by (intros l1 e' l2 E; apply (H l1 e' (l2 ++ [e])); rewrite E, <- app_assoc; reflexivity).
  pose proof (H l e [] eq_refl) as A. rewrite starts_app. destruct e; cbn; rewrite ?app_nil_r; auto.
  destruct A as (_ & A). rewrite starts_in in A. apply nodup_snoc; auto.
Qed.
Lemma legal_dones l : legal l -> NoDup (dones l).
Proof.
  induction l as [|e l IH] using rev_ind; intros H; [constructor|].
  assert (Hl : legal l) by (intros l1 e' l2 E; apply (H l1 e' (l2 ++ [e])); rewrite E, <- app_assoc; reflexivity).
  pose proof (H l e [] eq_refl) as A. rewrite dones_app. destruct e; cbn; rewrite ?app_nil_r; auto.
  destruct A as (_ & A). rewrite dones_in in A. apply nodup_snoc; auto.
Qed.
Lemma app_split_call t (l1 l2 a b : list ev) : l1 ++ ECall t :: l2 = a ++ b -> ~ In (ECall t) b -> exists c, a = l1 ++ ECall t :: c.
Proof.
  intros E Nb. apply app_eq_app in E. destruct E as (l & [(-> & ->)|(-> & E)]).
  - exfalso. apply Nb, in_or_app. right. now left.
  - destruct l as [|e c]; [cbn in E; subst b; exfalso; apply Nb; now left|]. injection E as <- _. now exists c.
Qed.

(** ---- concrete runs ---- *)
Inductive cmd := X (t : nat) | Sg (t u : nat) | Sg0 (t : nat) | Al (t u : nat) | Bc (t : nat) | Up | Ad (t : nat) | Wa (t : nat) | De (t : nat).
Definition all_below (M : nat) (f : nat -> bool) : bool := forallb f (seq 0 M).
Definition go1 (N M : nat) (c : cmd) (x : state) : option state :=
  if freed (shr x) then None else
  match c with
  | X t => match exec t (pcs x t) (shr x) with Ret (Some (s', p')) => if (t <? M)%nat then Some (mk_st s' (upd_pc (pcs x) t p')) else None | _ => None end
  | Sg t u => match pcs x t, pcs x u with B547 b, Wblk => Some (mk_st (shr x) (upd_pc (upd_pc (pcs x) u Wwoken) t (B548 b))) | _, _ => None end
  | Sg0 t => match pcs x t with B547 b => if all_below M (fun u => match pcs x u with Wblk => false | _ => true end) then Some (mk_st (shr x) (upd_pc (pcs x) t (B548 b))) else None | _ => None end
  | Al t u => match pcs x t, pcs x u with T395, Qblk => Some (mk_st (shr x) (upd_pc (upd_pc (pcs x) u Qwoken) t T397)) | _, _ => None end
  | Bc t => match pcs x t with D556 => Some (mk_st (shr x) (upd_pc (fun u => match pcs x u with Wblk => Wwoken | p => p end) t D557)) | _ => None end
  | Up => if (alv (shr x) =? Z.of_nat N) && negb (up (shr x)) then Some (mk_st (set_up (shr x) true) (pcs x)) else None
  | Ad t => match pcs x t with Cidle => if (N <=? t)%nat && (t <? M)%nat && up (shr x) && keep (shr x) then Some (mk_st (shr x) (upd_pc (pcs x) t (A190 None))) else None | _ => None end
  | Wa t => match pcs x t with Cidle => if (N <=? t)%nat && (t <? M)%nat && up (shr x) && keep (shr x) then Some (mk_st (emit (shr x) (ECall t)) (upd_pc (pcs x) t Q209)) else None | _ => None end
  | De t => if (N <=? t)%nat && (t <? M)%nat && up (shr x) && keep (shr x) && all_below M (fun u => (u <? N)%nat || match pcs x u with Cidle => true | _ => false end)
            then Some (mk_st (shr x) (upd_pc (pcs x) t D225)) else None
  end.
Fixpoint go (N M : nat) (cs : list cmd) (x : state) : option state :=
  match cs with [] => Some x | c :: cs => match go1 N M c x with Some y => go N M cs y | None => None end end.
Definition any (t : nat) : Prop := True.
Definition fin (M : nat) (x : state) : Prop := forall u, (M <= u)%nat -> pcs x u = Cidle.
Lemma all_below_ok M f : all_below M f = true -> forall u, (u < M)%nat -> f u = true.
Proof. unfold all_below. rewrite forallb_forall. intros H u Hu. apply H, in_seq. lia. Qed.
Ltac bools := repeat match goal with H : _ && _ = true |- _ => apply andb_prop in H; destruct H end;
  repeat match goal with H : (_ <=? _)%nat = true |- _ => apply Nat.leb_le in H | H : (_ <? _)%nat = true |- _ => apply Nat.ltb_lt in H end.
Lemma go1_ok N M c x y : fin M x -> go1 N M c x = Some y -> step N any x y /\ fin M y.
Proof.
  intros F H. unfold go1 in H. destruct (freed (shr x)) eqn:Ef; [discriminate|].
  assert (FU : forall s t p, (t < M)%nat -> fin M (mk_st s (upd_pc (pcs x) t p))).
  { intros s t p Ht u Hu. cbn. rewrite upd_ne by lia. now apply F. }
  assert (LT : forall t, pcs x t <> Cidle -> (t < M)%nat). { intros t E. destruct (Nat.ltb_spec t M); [easy|]. now rewrite F in E. }
  destruct c.
  - destruct (exec t (pcs x t) (shr x)) as [[[s' p']|]| | |] eqn:E; try discriminate. destruct (t <? M)%nat eqn:Et; [|discriminate]. injection H as <-. bools.
    split; [split; [easy|left; now constructor]|now apply FU].
  - destruct (pcs x t) eqn:Et; try discriminate. destruct (pcs x u) eqn:Eu; try discriminate. injection H as <-.
    split; [split; [easy|left; now constructor]|]. intros v Hv. cbn. pose proof (LT t ltac:(congruence)). pose proof (LT u ltac:(congruence)). rewrite !upd_ne by lia. now apply F.
  - destruct (pcs x t) eqn:Et; try discriminate. destruct (all_below M _) eqn:Ea; [|discriminate]. injection H as <-.
    split; [split; [easy|left; apply s_sig0; [easy|]]|apply FU, LT; congruence].
    intros u Eu. pose proof (all_below_ok _ _ Ea u (LT u ltac:(congruence))) as K. cbn in K. now rewrite Eu in K.
  - destruct (pcs x t) eqn:Et; try discriminate. destruct (pcs x u) eqn:Eu; try discriminate. injection H as <-.
    split; [split; [easy|left; now constructor]|]. intros v Hv. cbn. pose proof (LT t ltac:(congruence)). pose proof (LT u ltac:(congruence)). rewrite !upd_ne by lia. now apply F.
  - destruct (pcs x t) eqn:Et; try discriminate. injection H as <-.
    split; [split; [easy|left; now constructor]|]. intros v Hv. cbn. pose proof (LT t ltac:(congruence)). rewrite !upd_ne by lia. now rewrite F.
  - destruct ((alv (shr x) =? Z.of_nat N) && negb (up (shr x))) eqn:E; [|discriminate]. injection H as <-. bools. apply Z.eqb_eq in H.
    split; [split; [easy|left; constructor; [easy|now apply negb_true_iff]]|exact F].
  - destruct (pcs x t) eqn:Et; try discriminate. destruct ((N <=? t)%nat && _ && _ && _) eqn:E; [|discriminate]. injection H as <-. bools.
    split; [split; [easy|right; now constructor]|now apply FU].
  - destruct (pcs x t) eqn:Et; try discriminate. destruct ((N <=? t)%nat && _ && _ && _) eqn:E; [|discriminate]. injection H as <-. bools.
    split; [split; [easy|right; now constructor]|now apply FU].
  - destruct ((N <=? t)%nat && _ && _ && _ && _) eqn:E; [|discriminate]. injection H as <-. bools.
    split; [split; [easy|right; constructor; auto]|now apply FU]. intros u Hu. destruct (Nat.ltb_spec u M); [|now apply F].
    pose proof (all_below_ok _ _ H0 u H4) as K. cbv beta in K. assert ((u <? N)%nat = false) as Z by (apply Nat.ltb_ge; lia). rewrite Z in K. cbn in K. destruct (pcs x u); easy.
Qed.
Lemma go_ok N M cs x y : fin M x -> reach N any x -> go N M cs x = Some y -> reach N any y /\ fin M y.
Proof.
  revert x. induction cs as [|c cs IH]; cbn; intros x F R H; [injection H as <-; auto|].
  destruct (go1 N M c x) eqn:E; [|discriminate]. destruct (go1_ok _ _ _ _ _ F E). eapply IH; eauto. econstructor; eauto.
Qed.
Lemma go_start N M cs (P : state -> bool) : (N <= M)%nat -> match go N M cs (start N) with Some y => P y | None => false end = true ->
  exists y, reach N any y /\ fin M y /\ P y = true.
Proof.
  intros HM H. destruct (go N M cs (start N)) as [y|] eqn:E; [|discriminate]. exists y.
  destruct (go_ok N M cs (start N) y) as (A & B); auto. { intros u Hu. cbn [start pcs]. replace (u <? N)%nat with false; [easy|]. symmetry. apply Nat.ltb_ge. lia. }
  constructor.
Qed.
Lemma stopped_quiescent N M x : fin M x -> all_below M (fun u => stopped (pcs x u)) = true -> up (shr x) = true -> quiescent N x.
Proof.
  intros F A U y H. assert (S : forall t, stopped (pcs x t) = true).
  { intros t. destruct (Nat.ltb_spec t M); [now apply (all_below_ok _ _ A)|]. now rewrite F. }
  inversion H; subst; clear H; try (specialize (S t); rewrite H0 in S; discriminate); try congruence.
  specialize (S t). destruct (pcs x t); try discriminate S; cbn in *; discriminate.
Qed.

Definition ev_dec (a b : ev) : {a = b} + {a <> b}.
Proof. decide equality; apply Nat.eq_dec. Defined.
Definition log_is (l : list ev) (y : state) : bool := if list_eq_dec ev_dec (log (shr y)) l then true else false.
Lemma log_is_ok l y : log_is l y = true -> log (shr y) = l.
Proof. unfold log_is. now destruct (list_eq_dec ev_dec (log (shr y)) l). Qed.

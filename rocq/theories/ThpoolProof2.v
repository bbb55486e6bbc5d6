(** Invariants of the thread pool: job numbers, queue contents, jobs taken. *)
From Verif Require Import CBase ThpoolModel ThpoolSpec ThpoolProof.

Lemma adds_app l l' : adds (l ++ l') = adds l ++ adds l'.
Proof. induction l as [|e l IH]; cbn; [reflexivity|]. destruct e; rewrite IH; reflexivity. Qed.
Lemma takes_app l l' : takes (l ++ l') = takes l ++ takes l'.
Proof. induction l as [|e l IH]; cbn; [reflexivity|]. destruct e; rewrite IH; reflexivity. Qed.
Lemma starts_app l l' : starts (l ++ l') = starts l ++ starts l'.
Proof. induction l as [|e l IH]; cbn; [reflexivity|]. destruct e; rewrite IH; reflexivity. Qed.
Lemma dones_app l l' : dones (l ++ l') = dones l ++ dones l'.
Proof. induction l as [|e l IH]; cbn; [reflexivity|]. destruct e; rewrite IH; reflexivity. Qed.
Lemma adds_in l j : In (EAdd j) l <-> In j (adds l).
Proof. induction l as [|e l IH]; cbn; [tauto|]. destruct e; cbn; rewrite <- IH; intuition congruence. Qed.
Lemma takes_in l j : In (ETake j) l <-> In j (takes l).
Proof. induction l as [|e l IH]; cbn; [tauto|]. destruct e; cbn; rewrite <- IH; intuition congruence. Qed.
Lemma starts_in l j : In (EStart j) l <-> In j (starts l).
Proof. induction l as [|e l IH]; cbn; [tauto|]. destruct e; cbn; rewrite <- IH; intuition congruence. Qed.
Lemma dones_in l j : In (EDone j) l <-> In j (dones l).
Proof. induction l as [|e l IH]; cbn; [tauto|]. destruct e; cbn; rewrite <- IH; intuition congruence. Qed.
Lemma in_snoc {X} (a b : X) l : In a (l ++ [b]) <-> In a l \/ a = b.
Proof. rewrite in_app_iff. cbn. intuition. Qed.
Lemma nodup_snoc {X} (a : X) l : NoDup l -> ~ In a l -> NoDup (l ++ [a]).
Proof.
  induction l as [|b l IH]; cbn; intros H Ha; [repeat constructor; auto|]. inversion H; subst. constructor; [|apply IH; tauto].
  rewrite in_snoc. intuition congruence.
Qed.
Lemma nodup_app_r {X} (a : X) l l' : NoDup (l ++ l') -> In a l' -> ~ In a l.
Proof.
  induction l as [|b l IH]; cbn; intros H I; [tauto|]. inversion H; subst. intros [->|J]; [|now apply IH].
  apply H2. apply in_or_app. now right.
Qed.

(** ---- job numbers ---- *)
Definition pend (p : pc) : option nat :=
  match p with A456 _ j | A457 _ j | A459 _ j | A462 _ j | A463 _ j | A467 _ j | A472 _ j => Some j | _ => None end.
Definition added (p : pc) : option nat :=
  match p with B545 (BPush _ j) | B546 (BPush _ j) | B547 (BPush _ j) | B548 (BPush _ j) | A475 _ j | A203 _ j => Some j | _ => None end.
Record jobs (x : state) : Prop := mk_jobs {
  j_lt : forall j, In j (adds (log (shr x))) -> (j < next_job (shr x))%nat;
  j_nd : NoDup (adds (log (shr x)));
  j_pend : forall t j, pend (pcs x t) = Some j -> (j < next_job (shr x))%nat /\ ~ In j (adds (log (shr x)));
  j_uniq : forall t u j, pend (pcs x t) = Some j -> pend (pcs x u) = Some j -> t = u;
  j_added : forall t j, added (pcs x t) = Some j -> In j (adds (log (shr x))) }.

Lemma lstep_pend N W t s p s' p' : lstep N W t s p s' p' ->
  (next_job s' = next_job s /\ adds (log s') = adds (log s) /\ (pend p' = pend p \/ pend p' = None) /\ (added p' = added p \/ added p' = None)) \/
  (next_job s' = S (next_job s) /\ adds (log s') = adds (log s) /\ pend p' = Some (next_job s) /\ added p' = None) \/
  (exists j, next_job s' = next_job s /\ adds (log s') = adds (log s) ++ [j] /\ pend p = Some j /\ pend p' = None /\ added p' = Some j).
Proof.
  intros L. ldes L; cbn; rewrite ?adds_app; cbn [adds]; rewrite ?app_nil_r;
    try (left; repeat split; auto; fail); try (right; left; repeat split; auto; fail);
    try (right; right; eexists; repeat split; reflexivity); try (destruct b; left; repeat split; auto; fail).
Qed.
Lemma jobs_step N W x y : jobs x -> step N W x y -> jobs y.
Proof.
  intros [A B C D E] H. destruct (step_local _ _ _ _ H) as (t & L & O).
  assert (Op : forall u, u <> t -> pend (pcs y u) = pend (pcs x u)) by (intros; apply sim_f; auto).
  assert (Oa : forall u, u <> t -> added (pcs y u) = added (pcs x u)) by (intros; apply sim_f; auto).
  destruct (lstep_pend _ _ _ _ _ _ _ L) as [(N1 & L1 & P & Q) | [(N1 & L1 & P & Q) | (j & N1 & L1 & P & P' & Q)]]; split; rewrite ?N1, ?L1.
  - exact A.
  - exact B.
  - intros u j Hj. destruct (Nat.eq_dec u t) as [->|Hu]; [destruct P as [P|P]; rewrite P in Hj; [|easy]|rewrite Op in Hj by easy]; eauto.
  - intros u v j Hu Hv. apply (D u v j).
    + destruct (Nat.eq_dec u t) as [->|]; [destruct P; congruence|now rewrite <- Op].
    + destruct (Nat.eq_dec v t) as [->|]; [destruct P; congruence|now rewrite <- Op].
  - intros u j Hj. destruct (Nat.eq_dec u t) as [->|Hu]; [destruct Q as [Q|Q]; rewrite Q in Hj; [|easy]|rewrite Oa in Hj by easy]; eauto.
  - intros j Hj. specialize (A j Hj). lia.
  - exact B.
  - intros u j Hj. destruct (Nat.eq_dec u t) as [->|Hu].
    + rewrite P in Hj. injection Hj as <-. split; [lia|]. intros K. specialize (A _ K). lia.
    + rewrite Op in Hj by easy. destruct (C u j Hj). split; [lia|easy].
  - intros u v j Hu Hv. destruct (Nat.eq_dec u t) as [->|Ut]; destruct (Nat.eq_dec v t) as [->|Vt]; auto.
    + rewrite P in Hu. injection Hu as <-. rewrite Op in Hv by easy. destruct (C v _ Hv). lia.
    + rewrite P in Hv. injection Hv as <-. rewrite Op in Hu by easy. destruct (C u _ Hu). lia.
    + rewrite Op in Hu, Hv by easy. eauto.
  - intros u j Hj. destruct (Nat.eq_dec u t) as [->|Hu]; [congruence|]. rewrite Oa in Hj by easy. eauto.
  - intros i [Hi| ->]%in_snoc; [now apply A|]. now apply C in P.
  - apply nodup_snoc; [easy|]. now apply C in P.
  - intros u i Hi. destruct (Nat.eq_dec u t) as [->|Hu]; [congruence|]. rewrite Op in Hi by easy. destruct (C u i Hi). split; [easy|].
    rewrite in_snoc. intros [K| ->]; [easy|]. apply Hu. eauto.
  - intros u v i Hu Hv. destruct (Nat.eq_dec u t) as [->|Ut]; destruct (Nat.eq_dec v t) as [->|Vt]; auto; try congruence.
    rewrite Op in Hu, Hv by easy. eauto.
  - intros u i Hi. rewrite in_snoc. destruct (Nat.eq_dec u t) as [->|Hu]; [right; congruence|]. rewrite Oa in Hi by easy. left. eauto.
Qed.
Lemma jobs_0 N : jobs (start N).
Proof. split; cbn [start shr pcs log adds]; try easy; try (intros t; destruct (t <? N)%nat; easy). constructor. Qed.

(** ---- the queue ---- *)
Fixpoint lasto (q : list nat) : option nat := match q with [] => None | [a] => Some a | _ :: r => lasto r end.
Fixpoint chain (jp : nat -> option nat) (q : list nat) : Prop := match q with a :: ((b :: _) as r) => jp a = Some b /\ chain jp r | _ => True end.
Definition zl (q : list nat) : Z := Z.of_nat (length q).
Definition linked (s : sh) (q : list nat) : Prop := len s = zl q /\ front s = hd_error q /\ rear s = lasto q /\ chain (jprev s) q.
Definition qok (p : pc) (s : sh) (q : list nat) : Prop :=
  match p with
  | A462 _ j => linked s q /\ q = []
  | A463 _ j => len s = zl q /\ front s = hd_error (q ++ [j]) /\ chain (jprev s) (q ++ [j])
  | A467 _ j => linked s q /\ q <> []
  | A472 _ j => len s = zl q /\ front s = hd_error (q ++ [j]) /\ rear s = Some j /\ chain (jprev s) (q ++ [j])
  | P487 o => linked s q /\ o = hd_error q
  | P493 j => linked s q /\ q = [j]
  | P494 j => len s = 1 /\ front s = None /\ q = [j]
  | P495 j => len s = 1 /\ front s = None /\ rear s = None /\ q = [j]
  | P499 j => linked s q /\ exists q', q = j :: q' /\ q' <> []
  | P500 j => len s = zl q /\ exists q', q = j :: q' /\ q' <> [] /\ front s = hd_error q' /\ rear s = lasto q' /\ chain (jprev s) q'
  | _ => linked s q
  end.
Definition queue (x : state) : Prop :=
  exists q, adds (log (shr x)) = takes (log (shr x)) ++ q /\ match rw (shr x) with None => linked (shr x) q | Some t => qok (pcs x t) (shr x) q end.

Lemma lasto_snoc q j : lasto (q ++ [j]) = Some j.
Proof. induction q as [|a q IH]; [reflexivity|]. cbn. destruct (q ++ [j]) eqn:E; [destruct q; discriminate|]. exact IH. Qed.
Lemma lasto_some (q : list nat) : q <> [] -> exists q0 r, q = q0 ++ [r].
Proof. intros H. exists (removelast q), (last q 0%nat). now apply app_removelast_last. Qed.
Lemma chain_ext jp jp' q : (forall a, In a q -> jp' a = jp a) -> chain jp q -> chain jp' q.
Proof.
  induction q as [|a [|b q] IH]; intros H C; [exact I..|]. destruct C as (C1 & C2). split; [rewrite H; [easy|now left]|].
  apply IH; [|easy]. intros c Hc. apply H. now right.
Qed.
Lemma chain_snoc jp q r j : NoDup (q ++ [r]) -> chain jp (q ++ [r]) -> chain (fun i => if Nat.eqb i r then Some j else jp i) ((q ++ [r]) ++ [j]).
Proof.
  intros D C. rewrite <- app_assoc. cbn [app]. revert D C. induction q as [|a q IH]; intros D C.
  - cbn. now rewrite Nat.eqb_refl.
  - cbn [app] in *. inversion D; subst. assert (Ha : a <> r) by (intros ->; apply H1, in_or_app; right; now left).
    destruct q as [|b q]; cbn [app] in *.
    + cbn in *. destruct (Nat.eqb_spec a r); [easy|]. rewrite Nat.eqb_refl. intuition.
    + destruct C as (C1 & C2). split; [destruct (Nat.eqb_spec a r); easy|]. now apply IH.
Qed.
Lemma hd_snoc (q : list nat) j : q <> [] -> hd_error (q ++ [j]) = hd_error q.
Proof. now destruct q. Qed.
Lemma zl_snoc q j : zl (q ++ [j]) = zl q + 1.
Proof. unfold zl. rewrite app_length. cbn. lia. Qed.

(** a thread that does not hold the queue lock leaves the queue alone *)
Definition qsame (s s' : sh) : Prop :=
  len s' = len s /\ front s' = front s /\ rear s' = rear s /\ jprev s' = jprev s /\ adds (log s') = adds (log s) /\ takes (log s') = takes (log s).
Lemma lstep_out N W t s p s' p' : lstep N W t s p s' p' -> hold_rw p = false -> qsame s s'.
Proof. intros L H. unfold qsame. ldes L; cbn in *; rewrite ?adds_app, ?takes_app; cbn; rewrite ?app_nil_r; try discriminate; repeat split; reflexivity. Qed.
Lemma linked_same s s' q : qsame s s' -> linked s q -> linked s' q.
Proof. intros (A & B & C & D & _ & _) (E & F & G & H). unfold linked. now rewrite A, B, C, D. Qed.
Lemma qok_same p s s' q : qsame s s' -> qok p s q -> qok p s' q.
Proof.
  intros Q. pose proof Q as (A & B & C & D & _ & _). pose proof (linked_same s s' q Q) as LS.
  destruct p; cbn; try exact LS; rewrite ?A, ?B, ?C, ?D; auto; intros (H1 & H2); auto.
Qed.
(** what the holder does *)
Lemma zl_0 q : zl q = 0 -> q = []. Proof. destruct q; [easy|]. unfold zl. cbn [length]. lia. Qed.
Lemma zl_1 q : zl q = 1 -> exists j, q = [j]. Proof. destruct q as [|a [|b q]]; unfold zl; cbn [length]; try lia. eauto. Qed.
Lemma linked_app s q q' : linked s q -> q = q' -> linked s q'. Proof. now intros ? <-. Qed.
Lemma lstep_in N W t s p s' p' q : lstep N W t s p s' p' -> hold_rw p = true -> rw s = Some t ->
  qok p s q -> adds (log s) = takes (log s) ++ q -> NoDup (adds (log s)) -> (forall j, pend p = Some j -> ~ In j (adds (log s))) ->
  exists q', adds (log s') = takes (log s') ++ q' /\ match rw s' with None => linked s' q' | Some _ => qok p' s' q' end.
Proof.
  intros L Hh Hr Q Eq ND PD.
  assert (NQ : NoDup q). { rewrite Eq in ND. clear - ND. induction (takes (log s)); [exact ND|]. inversion ND; auto. }
  assert (PQ : forall j, pend p = Some j -> ~ In j q). { intros j Hj K. apply (PD j Hj). rewrite Eq. apply in_or_app. now right. }
  ldes L; cbn [hold_rw] in Hh; try discriminate Hh; cbn [qok pend] in Q, PQ;
    cbn [rw set_rw set_bm set_bv set_front set_rear set_len set_jprev set_up emit]; rewrite ?Hr; cbn [qok];
    try (exists q; cbn -[linked]; repeat split; auto; apply Q; fail).
  - (* P487, one job *) exists q. split; [easy|]. split; [apply Q|]. destruct Q as ((A & _) & B). apply Z.eqb_eq in F1.
    destruct (zl_1 q ltac:(lia)) as (j & ->). cbn in B. congruence.
  - exists q. split; [easy|]. split; [apply Q|]. destruct Q as ((A & _) & B). apply Z.eqb_neq in F, F1.
    destruct q as [|a q']; [discriminate|]. injection B as <-. exists q'. split; [easy|]. intros ->. unfold zl in A. cbn in A. lia.
  - (* P493 *) exists q. split; [easy|]. destruct Q as ((A & _) & ->). cbn. auto.
  - (* P495 *) destruct Q as (A & B & C & ->). exists []. cbn [log emit set_len]. rewrite adds_app, takes_app, Eq. cbn. rewrite !app_nil_r. repeat split; auto.
  - (* P499 *) exists q. split; [easy|]. destruct Q as ((A & B & C & D) & q' & -> & E). cbn [len front rear jprev set_front]. split; [easy|]. exists q'.
    destruct q' as [|b q']; [easy|]. destruct D as (D1 & D2). repeat split; auto.
  - (* P500 *) destruct Q as (A & q' & -> & E & B & C & D). exists q'. cbn [log emit set_len]. rewrite adds_app, takes_app, Eq. cbn [adds takes app].
    rewrite app_nil_r, <- app_assoc. split; [reflexivity|]. repeat split; auto. cbn. rewrite A. unfold zl. cbn [length]. lia.
  - (* A457 *) exists q. split; [easy|]. destruct Q as (A & B & C & D). repeat split; auto. cbn. eapply chain_ext, D.
    intros a Ha. destruct (Nat.eqb_spec a j); [subst; now destruct (PQ j)|reflexivity].
  - (* A459 *) exists q. split; [easy|]. split; [exact Q|]. destruct Q as (A & _). apply Z.eqb_eq in F. apply zl_0. lia.
  - exists q. split; [easy|]. split; [exact Q|]. destruct Q as (A & _). apply Z.eqb_neq in F. intros ->. unfold zl in A. cbn in A. lia.
  - (* A462 *) exists q. split; [easy|]. destruct Q as ((A & B & C & D) & ->). cbn. auto.
  - (* A467 *) exists q. split; [easy|]. destruct Q as ((A & B & C & D) & E). destruct (lasto_some q E) as (q0 & r & ->).
    rewrite lasto_snoc in C. assert (r = n) by congruence. subst r. cbn [len front rear jprev set_jprev]. rewrite hd_snoc by easy.
    repeat split; auto. now apply chain_snoc.
  - (* A472 *) exists (q ++ [j]). destruct Q as (A & B & C & D). cbn [log emit set_len]. rewrite adds_app, takes_app, Eq. cbn [adds takes].
    rewrite app_nil_r, <- app_assoc. split; [reflexivity|]. repeat split; auto; cbn; rewrite ?zl_snoc, ?lasto_snoc; auto. lia.
Qed.
Lemma qok_len p s q : qok p s q -> len s = zl q.
Proof. destruct p; cbn; intros Q; try apply Q; destruct Q as (A & B); try apply A; destruct B as (B & C); subst; try exact A; destruct C as (_ & ->); exact A. Qed.
Lemma queue_step N W x y : locks x -> jobs x -> queue x -> step N W x y -> queue y.
Proof.
  intros Lk J (q & Eq & Q) H. pose proof (locks_step _ _ _ _ Lk H) as Lk'. destruct (step_local _ _ _ _ H) as (t & L & O).
  destruct (hold_rw (pcs x t)) eqn:Eh.
  - pose proof (proj1 (l_rw _ Lk t) Eh) as Er. rewrite Er in Q.
    destruct (lstep_in _ _ _ _ _ _ _ _ L Eh Er Q Eq (j_nd _ J)) as (q' & Eq' & Q').
    { intros j Hj. now apply (j_pend _ J) in Hj. }
    exists q'. split; [exact Eq'|]. destruct (rw (shr y)) as [u|] eqn:Eu; [|exact Q'].
    assert (u = t) as ->; [|exact Q'].
    destruct (Nat.eq_dec u t) as [|Hu]; [easy|]. apply (l_rw _ Lk') in Eu.
    rewrite (sim_f hold_rw (pcs x u) (pcs y u) eq_refl eq_refl (O u Hu)) in Eu. apply (l_rw _ Lk) in Eu. congruence.
  - pose proof (lstep_out _ _ _ _ _ _ _ L Eh) as S. exists q. split; [destruct S as (_ & _ & _ & _ & -> & ->); exact Eq|].
    destruct (rw (shr y)) as [u|] eqn:Eu.
    + apply (l_rw _ Lk') in Eu. destruct (Nat.eq_dec u t) as [->|Hu].
      * assert (rw (shr x) = None /\ forall s, qok (pcs y t) s q = linked s q) as (En & Ql).
        { remember (pcs x t) as p. remember (pcs y t) as p'. remember (shr x) as s. remember (shr y) as s'. clear - L Eh Eu.
          ldes L; cbn [hold_rw] in *; try congruence; cbn; auto. }
        rewrite En in Q. rewrite Ql. eapply linked_same; eauto.
      * assert (E : hold_rw (pcs x u) = true) by (rewrite <- (sim_f hold_rw (pcs x u) (pcs y u)); auto).
        apply (l_rw _ Lk) in E. rewrite E in Q.
        destruct (O u Hu) as [<- | [[K _] | [K _]]]; [|rewrite K in *; rewrite <- (l_rw _ Lk), K in E; easy..].
        eapply qok_same; eauto.
    + eapply linked_same; [exact S|]. destruct (rw (shr x)) as [u|] eqn:Ex; [|exact Q].
      exfalso. pose proof (proj2 (l_rw _ Lk u) Ex) as E. destruct (Nat.eq_dec u t) as [->|Hu]; [congruence|].
      rewrite <- (sim_f hold_rw (pcs x u) (pcs y u) eq_refl eq_refl (O u Hu)) in E. apply (l_rw _ Lk') in E. congruence.
Qed.
Lemma queue_0 N : queue (start N).
Proof. exists []. cbn. repeat split. Qed.
Lemma queue_len x : queue x -> exists q, adds (log (shr x)) = takes (log (shr x)) ++ q /\ len (shr x) = zl q.
Proof. intros (q & E & Q). exists q. split; [easy|]. destruct (rw (shr x)); [now apply qok_len in Q|apply Q]. Qed.

(** ---- jobs taken ---- *)
Definition bheld (b : back) : option nat := match b with BPull j => Some j | BPush own _ => own end.
Definition held (p : pc) : option nat :=
  match p with
  | B545 b | B546 b | B547 b | B548 b => bheld b
  | A190 own | A456 own _ | A457 own _ | A459 own _ | A462 own _ | A463 own _ | A467 own _ | A472 own _ | A475 own _ | A203 own _ => own
  | P507 o => o
  | T388 j | Trun j => Some j
  | _ => None end.
Definition running (p : pc) : bool :=
  match p with
  | B545 b | B546 b | B547 b | B548 b => match b with BPull _ => false | _ => true end
  | P507 _ | T388 _ => false
  | _ => true end.
Record taken (x : state) : Prop := mk_taken {
  h_held : forall t j, held (pcs x t) = Some j -> In j (takes (log (shr x))) /\ ~ In j (dones (log (shr x))) /\
             (if running (pcs x t) then In j (starts (log (shr x))) else ~ In j (starts (log (shr x))));
  h_uniq : forall t u j, held (pcs x t) = Some j -> held (pcs x u) = Some j -> t = u;
  h_tk : forall j, In j (takes (log (shr x))) -> In j (dones (log (shr x))) \/ exists t, held (pcs x t) = Some j;
  h_st : forall j, In j (starts (log (shr x))) -> In j (takes (log (shr x)));
  h_dn : forall j, In j (dones (log (shr x))) -> In j (starts (log (shr x))) }.

Lemma lstep_held N W t s p s' p' : lstep N W t s p s' p' -> (forall o, p = P487 o -> len s = 0 -> o = None) ->
  (held p' = held p /\ (held p <> None -> running p' = running p) /\ takes (log s') = takes (log s) /\ starts (log s') = starts (log s) /\ dones (log s') = dones (log s)) \/
  (exists j, (p = P495 j \/ p = P500 j) /\ held p = None /\ held p' = Some j /\ running p' = false /\ log s' = log s ++ [ETake j]) \/
  (exists j, p = T388 j /\ p' = Trun j /\ log s' = log s ++ [EStart j]) \/
  (exists j, p = Trun j /\ p' = T389 j /\ log s' = log s ++ [EDone j]).
Proof.
  intros L P. ldes L; cbn; rewrite ?takes_app, ?starts_app, ?dones_app; cbn; rewrite ?app_nil_r;
    try (left; repeat split; auto; fail); try (left; repeat split; auto; try discriminate; fail);
    try (right; left; eexists; repeat split; eauto; fail); try (right; right; left; eexists; repeat split; eauto; fail); try (right; right; right; eexists; repeat split; eauto; fail).
  - apply Z.eqb_eq in F. rewrite (P _ eq_refl F). left. repeat split; auto.
  - left. repeat split. congruence.
Qed.

Lemma q_nodup l q j : NoDup (adds l) -> adds l = takes l ++ q -> In j q -> ~ In j (takes l).
Proof. intros ND E. rewrite E in ND. now apply nodup_app_r. Qed.
(** the worker about to take a job has it at the head of the queue *)
Lemma take_head x t j : locks x -> queue x -> pcs x t = P495 j \/ pcs x t = P500 j ->
  exists q, adds (log (shr x)) = takes (log (shr x)) ++ j :: q.
Proof.
  intros Lk (q & E & Q) P. assert (rw (shr x) = Some t) as R by (apply (l_rw _ Lk); destruct P as [-> | ->]; reflexivity).
  rewrite R in Q. destruct P as [P|P]; rewrite P in Q; cbn in Q.
  - destruct Q as (_ & _ & _ & ->). eauto.
  - destruct Q as (_ & q' & -> & _). eauto.
Qed.
Lemma p487_none x t o : locks x -> queue x -> pcs x t = P487 o -> len (shr x) = 0 -> o = None.
Proof.
  intros Lk (q & E & Q) P H0. assert (rw (shr x) = Some t) as R by (apply (l_rw _ Lk); now rewrite P).
  rewrite R, P in Q. cbn in Q. destruct Q as ((A & _) & ->). rewrite A in H0. now rewrite (zl_0 q H0).
Qed.
Lemma taken_step N W x y : locks x -> jobs x -> queue x -> taken x -> step N W x y -> taken y.
Proof.
  intros Lk J Q [A B C D E] H. destruct (step_local _ _ _ _ H) as (t & L & O).
  assert (Oh : forall u, u <> t -> held (pcs y u) = held (pcs x u)) by (intros; apply sim_f; auto).
  assert (Or : forall u, u <> t -> running (pcs y u) = running (pcs x u)) by (intros; apply sim_f; auto).
  destruct (lstep_held _ _ _ _ _ _ _ L) as [(H1 & R1 & T1 & S1 & D1) | [(j & P & H1 & H1' & R1 & L1) | [(j & P & P' & L1) | (j & P & P' & L1)]]].
  { intros o Ho. now apply (p487_none x t). }
  - split; rewrite ?T1, ?S1, ?D1; auto.
    + intros u i Hi. destruct (Nat.eq_dec u t) as [->|Hu].
      * rewrite H1 in Hi. rewrite R1 by congruence. now apply A.
      * rewrite Oh in Hi by easy. rewrite Or by easy. now apply A.
    + intros u v i Hu Hv. apply (B u v i); [destruct (Nat.eq_dec u t) as [->|]|destruct (Nat.eq_dec v t) as [->|]]; try congruence; now rewrite <- Oh.
    + intros i Hi. destruct (C i Hi) as [K|(u & K)]; [now left|]. right. exists u. destruct (Nat.eq_dec u t) as [->|]; [congruence|now rewrite Oh].
  - (* take *)
    destruct (take_head x t j Lk Q P) as (q & Eq).
    assert (Nt : ~ In j (takes (log (shr x)))) by (eapply q_nodup; [apply J|exact Eq|now left]).
    split; rewrite ?L1, ?takes_app, ?starts_app, ?dones_app; cbn [takes starts dones]; rewrite ?app_nil_r.
    + intros u i Hi. rewrite in_snoc. destruct (Nat.eq_dec u t) as [->|Hu].
      * assert (i = j) by congruence. subst i. rewrite R1. repeat split; auto.
      * rewrite Oh in Hi by easy. rewrite Or by easy. destruct (A u i Hi). auto.
    + intros u v i Hu Hv. destruct (Nat.eq_dec u t) as [->|Ut]; destruct (Nat.eq_dec v t) as [->|Vt]; auto.
      * rewrite Oh in Hv by easy. apply A in Hv. assert (i = j) by congruence. subst. now destruct Hv.
      * rewrite Oh in Hu by easy. apply A in Hu. assert (i = j) by congruence. subst. now destruct Hu.
      * rewrite Oh in Hu, Hv by easy. eauto.
    + intros i [Hi| ->]%in_snoc; [|right; eauto]. destruct (C i Hi) as [K|(u & K)]; [now left|]. right. exists u.
      destruct (Nat.eq_dec u t) as [->|]; [congruence|now rewrite Oh].
    + intros i Hi. rewrite in_snoc. left. auto.
    + auto.
  - (* start *)
    assert (Hx : held (pcs x t) = Some j) by now rewrite P. assert (Hy : held (pcs y t) = Some j) by now rewrite P'.
    destruct (A t j Hx) as (A1 & A2 & A3). rewrite P in A3. cbn in A3.
    split; rewrite ?L1, ?takes_app, ?starts_app, ?dones_app; cbn [takes starts dones]; rewrite ?app_nil_r.
    + intros u i Hi. destruct (Nat.eq_dec u t) as [->|Hu].
      * assert (i = j) by congruence. subst i. rewrite P'. cbn. rewrite in_snoc. auto.
      * rewrite Oh in Hi by easy. rewrite Or by easy. destruct (A u i Hi) as (? & ? & K). repeat split; auto.
        assert (i <> j) by (intros ->; apply Hu; eauto). destruct (running (pcs x u)); rewrite in_snoc; [auto|]. intuition.
    + intros u v i Hu Hv. apply (B u v i); [destruct (Nat.eq_dec u t) as [->|]|destruct (Nat.eq_dec v t) as [->|]]; try congruence; now rewrite <- Oh.
    + intros i Hi. destruct (C i Hi) as [K|(u & K)]; [now left|]. right. exists u. destruct (Nat.eq_dec u t) as [->|]; [congruence|now rewrite Oh].
    + intros i [Hi| ->]%in_snoc; auto.
    + intros i Hi. rewrite in_snoc. left. auto.
  - (* done *)
    assert (Hx : held (pcs x t) = Some j) by now rewrite P. assert (Hy : held (pcs y t) = None) by now rewrite P'.
    destruct (A t j Hx) as (A1 & A2 & A3). rewrite P in A3. cbn in A3.
    split; rewrite ?L1, ?takes_app, ?starts_app, ?dones_app; cbn [takes starts dones]; rewrite ?app_nil_r; auto.
    + intros u i Hi. destruct (Nat.eq_dec u t) as [->|Hu]; [congruence|].
      rewrite Oh in Hi by easy. rewrite Or by easy. destruct (A u i Hi) as (? & ? & K). repeat split; auto. rewrite in_snoc.
      intros [Z| ->]; [easy|]. apply Hu. eauto.
    + intros u v i Hu Hv. destruct (Nat.eq_dec u t) as [->|Ut]; destruct (Nat.eq_dec v t) as [->|Vt]; auto; try congruence.
      rewrite Oh in Hu, Hv by easy. eauto.
    + intros i Hi. rewrite in_snoc. destruct (C i Hi) as [K|(u & K)]; [auto|]. destruct (Nat.eq_dec u t) as [->|].
      * left. right. congruence.
      * right. exists u. now rewrite Oh.
    + intros i [Hi| ->]%in_snoc; auto.
Qed.
Lemma taken_0 N : taken (start N).
Proof. split; cbn [start shr pcs log takes starts dones]; try easy; try (intros t; destruct (t <? N)%nat; easy). Qed.
Lemma held_inW p j : held p = Some j -> inW p = true.
Proof. destruct p; cbn; try discriminate; try reflexivity; try (destruct b; cbn; try reflexivity); try destruct own; try discriminate; reflexivity. Qed.

(** ---- thpool_wait ---- *)
Definition waiting (p : pc) : bool := match p with Q209 | Q210 | Q210b | Q211 | Qblk | Qwoken | Q213 | Q214 => true | _ => false end.
Record waits (W : nat -> Prop) (x : state) : Prop := mk_waits {
  w_call : forall t, waiting (pcs x t) = true -> W t /\ In (ECall t) (log (shr x));
  w_10b : forall t, pcs x t = Q210b -> wrk (shr x) = 0 -> idle_since t (log (shr x));
  w_13 : forall t, pcs x t = Q213 \/ pcs x t = Q214 -> idle_since t (log (shr x)) }.
Lemma idle_since_app t l l' : ~ In (ECall t) l' -> idle_since t l -> idle_since t (l ++ l').
Proof. intros N (l2 & l3 & -> & A & B & C). exists l2, (l3 ++ l'). rewrite app_assoc. repeat split; auto. rewrite in_app_iff. tauto. Qed.
Lemma lstep_log N W t s p s' p' : lstep N W t s p s' p' -> exists l, log s' = log s ++ l /\ (forall u, In (ECall u) l -> u = t /\ p' = Q209).
Proof.
  intros L. ldes L; cbn; try (exists []; rewrite app_nil_r; split; [reflexivity|easy]);
    (eexists; split; [reflexivity|]; intros u [K|[]]; try discriminate K; injection K as <-; auto).
Qed.
Lemma idle_now N x t : roles N x -> counts N x -> queue x -> taken x -> len (shr x) = 0 -> wrk (shr x) = 0 -> In (ECall t) (log (shr x)) -> idle_since t (log (shr x)).
Proof.
  intros R Cn Q T Hl Hw Hc. exists (log (shr x)), []. rewrite app_nil_r. repeat split; auto. intros j Hj.
  destruct (queue_len _ Q) as (q & E & El). assert (q = []) as -> by (apply zl_0; lia). rewrite app_nil_r in E.
  apply adds_in in Hj. rewrite E in Hj. apply dones_in. destruct (h_tk _ T j Hj) as [|(u & Hu)]; [easy|]. exfalso.
  apply held_inW in Hu. pose proof (inW_worker _ Hu) as K. rewrite (R u) in K. apply Nat.ltb_lt in K.
  pose proof (cnt_in inW (pcs x) N u K Hu). pose proof (c_wrk _ _ Cn). lia.
Qed.
Lemma tc_wrk N W t s p s' p' : lstep N W t s p s' p' -> hold_tc p = false -> wrk s' = wrk s.
Proof. intros L H. ldes L; cbn in *; try reflexivity; discriminate. Qed.
Lemma waits_step N W x y : locks x -> roles N x -> counts N x -> queue x -> taken x -> waits W x -> step N W x y -> waits W y.
Proof.
  intros Lk R Cn Q T [A B C] H. destruct (step_local _ _ _ _ H) as (t & L & O).
  destruct (lstep_log _ _ _ _ _ _ _ L) as (l & El & Hl). split.
  - intros u Hu. destruct (Nat.eq_dec u t) as [->|Hut].
    + assert (waiting (pcs x t) = true \/ W t /\ In (ECall t) (log (shr y))) as [K|K]; [|rewrite El, in_app_iff; destruct (A t K); auto|exact K].
      remember (pcs x t) as p. remember (pcs y t) as p'. remember (shr x) as s. remember (shr y) as s'. clear - L Hu. ldes L; cbn in *; try discriminate; auto.
      right. rewrite in_app_iff. cbn. auto.
    + assert (K : waiting (pcs x u) = true) by (rewrite <- (sim_f waiting (pcs x u) (pcs y u)); auto). destruct (A u K). rewrite El, in_app_iff. auto.
  - intros u Hu Hw. destruct (Nat.eq_dec u t) as [->|Hut].
    + destruct (up (shr x)) eqn:Eu.
      * assert (pcs x t = Q210 /\ len (shr x) = 0 /\ wrk (shr y) = wrk (shr x) /\ log (shr y) = log (shr x)) as (K1 & K2 & K3 & K4).
        { remember (pcs x t) as p. remember (pcs y t) as p'. remember (shr x) as s. remember (shr y) as s'. clear - L Hu Eu.
          ldes L; cbn in *; try discriminate; try congruence. apply Z.eqb_eq in F. auto. }
        rewrite K4. eapply idle_now; eauto; try congruence. apply A. now rewrite K1.
      * assert (pcs x t = Q210b /\ wrk (shr y) = wrk (shr x) /\ log (shr y) = log (shr x) \/
                pcs x t = Q210 /\ len (shr x) = 0 /\ wrk (shr y) = wrk (shr x) /\ log (shr y) = log (shr x)) as [(K1 & K2 & K3)|(K1 & K2 & K3 & K4)].
        { remember (pcs x t) as p. remember (pcs y t) as p'. remember (shr x) as s. remember (shr y) as s'. clear - L Hu Eu.
          ldes L; cbn in *; try discriminate; try congruence; auto. apply Z.eqb_eq in F. auto. }
        -- rewrite K3. apply B; congruence.
        -- rewrite K4. eapply idle_now; eauto; try congruence. apply A. now rewrite K1.
    + assert (K : pcs x u = Q210b). { destruct (O u Hut) as [E|[[_ E]|[_ E]]]; congruence. }
      rewrite El. apply idle_since_app. { intros I. now destruct (Hl _ I). }
      apply B; [exact K|]. rewrite <- Hw. symmetry. eapply tc_wrk; [exact L|]. destruct (hold_tc (pcs x t)) eqn:Et; [|reflexivity].
      apply (l_tc _ Lk) in Et. assert (Eu : hold_tc (pcs x u) = true) by now rewrite K. apply (l_tc _ Lk) in Eu. congruence.
  - intros u Hu. destruct (Nat.eq_dec u t) as [->|Hut].
    + assert (((pcs x t = Q210b /\ wrk (shr x) = 0) \/ pcs x t = Q213 \/ pcs x t = Q214) /\ log (shr y) = log (shr x)) as (K & ->).
      { remember (pcs x t) as p. remember (pcs y t) as p'. remember (shr x) as s. remember (shr y) as s'. clear - L Hu.
        ldes L; cbn in *; try (destruct Hu; discriminate); auto. apply Z.eqb_eq in F. auto. }
      destruct K as [(K1 & K2)|K]; auto.
    + rewrite El. apply idle_since_app. { intros I. now destruct (Hl _ I). }
      apply C. destruct (O u Hut) as [E|[[_ E]|[_ E]]]; destruct Hu; rewrite ?E in *; try discriminate; auto.
Qed.
Lemma waits_0 N W : waits W (start N).
Proof. split; cbn [start shr pcs log]; intros t; destruct (t <? N)%nat; try easy; intros [|]; easy. Qed.

(** ---- the log is legal ---- *)
Lemma legal_snoc l e : legal l -> allowed l e -> legal (l ++ [e]).
Proof.
  intros H A l1 e' l2 E. destruct l2 as [|e2 l2].
  - apply app_inj_tail in E. destruct E as (-> & ->). exact A.
  - destruct (@exists_last _ (e2 :: l2)) as (l3 & e3 & E3); [easy|]. rewrite E3 in E.
    rewrite app_comm_cons, app_assoc in E. apply app_inj_tail in E. destruct E as (-> & _). eapply H. reflexivity.
Qed.
Lemma legal_step N W x y : locks x -> jobs x -> queue x -> taken x -> waits W x -> legal (log (shr x)) -> step N W x y -> legal (log (shr y)).
Proof.
  intros Lk J Q T Wt Lg H. destruct (step_local _ _ _ _ H) as (t & L & _).
  assert (log (shr y) = log (shr x) \/ exists e, log (shr y) = log (shr x) ++ [e] /\ allowed (log (shr x)) e) as [-> | (e & -> & A)];
    [|exact Lg|now apply legal_snoc].
  pose proof (take_head x t) as TH. pose proof (j_pend _ J t) as JP. pose proof (j_added _ J t) as JA. pose proof (h_held _ T t) as HH. pose proof (w_13 _ _ Wt t) as W13.
  specialize (fun j => TH j Lk Q).
  remember (pcs x t) as p. remember (pcs y t) as p'. remember (shr x) as s. remember (shr y) as s'. clear - L TH JP JA HH W13.
  ldes L; auto; right; eexists; (split; [reflexivity|]); cbn -[In adds takes]; auto; cbn in JP, JA, HH, W13.
  - destruct (HH j eq_refl) as (A & B & C). rewrite takes_in, starts_in. auto.
  - destruct (HH j eq_refl) as (A & B & C). rewrite starts_in, dones_in. auto.
  - destruct (JP j eq_refl). now rewrite adds_in.
  - apply adds_in. now apply JA.
  - apply adds_in. now apply JA.
Qed.

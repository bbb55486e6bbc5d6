(** Consequences of the invariant, and runs. *)
From Verif Require Import CBase McsModel McsSpec McsProof McsProof2 McsProof3 McsProof6.

Lemma granted_unique s q d t u : inv s q d -> granted (pcs s t) = true -> granted (pcs s u) = true -> t = u.
Proof.
  intros I H H'.
  assert (X : forall v, granted (pcs s v) = true -> exists n r, q = (n, v) :: r).
  { intros v G. assert (O : exists n, inq (pcs s v) = Some n) by (destruct (pcs s v); try discriminate; try destruct k; try discriminate; cbn; eauto).
    destruct O as (n & O). apply (i_in _ _ _ I) in O. destruct (granted_head _ _ _ _ _ I O G) as (r & E). eauto. }
  destruct (X t H) as (n & r & E). destruct (X u H') as (n' & r' & E'). rewrite E in E'. congruence.
Qed.

Lemma in_lock_cases p : (p = PIdle \/ exists n, p = PHeld n) \/ (exists n, own p = Some n /\ (forall n, p <> PHeld n)).
Proof. destruct p; try (left; eauto; fail); right; try (eexists; split; [reflexivity | discriminate]); destruct k; eexists; (split; [reflexivity | discriminate]). Qed.

(** if nobody can move, everybody in a lock function waits for the one that holds the lock *)
Lemma stuck_means_held s : good s -> (forall t, mexec s t true = Ret None) ->
  forall u n, own (pcs s u) = Some n -> exists t, holds_lock s t.
Proof.
  intros (q & d & I) H u n O.
  assert (NM : forall v, match pcs s v with
                         | PIdle | PHeld _ => True
                         | PWait4 k (Some e) => evs s e = EvOpen false
                         | _ => False end).
  { intros v. specialize (H v). unfold mexec in H. pose proof (i_evs _ _ _ I v) as ES.
    destruct (pcs s v) eqn:P; auto; try discriminate; try contradiction.
    - destruct (tail s); discriminate.
    - destruct (tail s); discriminate.
    - destruct (sflag s k); discriminate.
    - destruct (evs s e); discriminate.
    - destruct (wflag s k); discriminate.
    - destruct (wflag s k); discriminate.
    - destruct e as [e|]; [|discriminate]. destruct (evs s e) as [|[]]; try discriminate. reflexivity.
    - destruct e; discriminate.
    - destruct (nxt s n0); discriminate.
    - destruct (tail s) as [x|]; [destruct (x =? n0)|]; discriminate.
    - destruct (nxt s n0); discriminate. }
  destruct q as [|[n0 t0] r].
  - (* nobody queued *)
    exfalso. pose proof (NM u) as X. assert (Q : inq (pcs s u) = None).
    { destruct (inq (pcs s u)) eqn:Q; auto. apply (i_in _ _ _ I) in Q. contradiction. }
    destruct (pcs s u); try contradiction; try discriminate; destruct k; discriminate.
  - exists t0. pose proof (NM t0) as X. pose proof (i_head _ _ _ I _ _ _ eq_refl) as HH.
    assert (Q : inq (pcs s t0) = Some n0) by (apply (i_in _ _ _ I); left; reflexivity).
    destruct (pcs s t0) eqn:P; try contradiction; try discriminate.
    + destruct e as [e|]; [|contradiction]. exfalso. destruct k as [n1|n1]; cbn in Q; injection Q as ->.
      * destruct HH as [HH | HH]; rewrite P in HH; [discriminate|]. destruct HH as (_ & [HH | (v & n' & HH)]); [congruence|].
        specialize (NM v). rewrite HH in NM. exact NM.
      * destruct (succ_cases ((n0, t0) :: r) n0 t0 (or_introl eq_refl)) as [(r' & E) | (m & tm & A)].
        -- pose proof (i_last _ _ _ I _ _ _ E) as (_ & _ & L). rewrite P in L. exact L.
        -- pose proof (i_adj _ _ _ I _ _ _ _ A) as (L & _). rewrite P in L. specialize (NM tm).
           destruct (pcs s tm); try contradiction. destruct k; try contradiction. destruct e0 as [e0|]; [|contradiction].
           cbn in L. destruct L as (_ & (_ & L) & _). congruence.
    + eexists. exact P.
Qed.

Lemma busy_occupied s t n x : good s -> pcs s t = PTry n -> tail s = Some x -> exists u m, u <> t /\ inq (pcs s u) = Some m.
Proof.
  intros (q & d & I) P T. destruct (i_tail _ _ _ I) as [(_ & X) | (r & y & u & E & X)]; [congruence|].
  assert (Q : inq (pcs s u) = Some y) by (apply (i_in _ _ _ I); rewrite E; apply in_app_iff; right; left; reflexivity).
  exists u, y. split; [|exact Q]. intros ->. rewrite P in Q. discriminate.
Qed.

Lemma mexec_left s t ok s' : mexec s t ok = Ret (Some s') ->
  0 <= left_steps (pcs s' t) < left_steps (pcs s t) /\ forall u, u <> t -> pcs s' u = pcs s u.
Proof.
  unfold mexec. intros H.
  assert (U : forall (x : mst) p u, u <> t -> upd (pcs x) t p u = pcs x u) by (intros; apply upd_ne; auto).
  destruct (pcs s t) eqn:P; try discriminate;
    repeat match type of H with
    | Ret (Some (if ?b then _ else _)) = _ => destruct b
    | match ?b with _ => _ end = _ => destruct b eqn:?
    | (if ?b then _ else _) = _ => destruct b eqn:?
    end; try discriminate; injection H as <-;
    try destruct k; cbn [go memit set_tail set_nxt set_nfl set_rfl set_ev set_sflag set_wflag after_wait after_set pcs]; 
    (split; [rewrite upd_eq; cbn [left_steps]; try (destruct try); cbn [left_steps]; lia | intros u N; apply U; exact N]).
Qed.

(** executable runs: only the threads in [ts] ever do something *)
Definition mgo (ts : list Z) (strict : bool) (s : mst) (a : mact) : option mst :=
  let free n := forallb (fun u => match own (pcs s u) with Some x => negb (x =? n) | None => true end) ts in
  let still n := forallb (fun u => match pcs s u with PSet (SNext _ x) => negb (x =? n) | _ => true end) ts in
  let mine t := existsb (Z.eqb t) ts in
  match a with
  | MAcquire t n => if mine t && free n && (negb strict || still n) then match pcs s t with PIdle => Some (go s t (PInit1 n false)) | _ => None end else None
  | MTry t n => if mine t && free n && (negb strict || still n) then match pcs s t with PIdle => Some (go s t (PInit1 n true)) | _ => None end else None
  | MStep t ok => if negb strict || ok then match mexec s t ok with Ret (Some s') => Some s' | _ => None end else None
  | MRelease t => match pcs s t with PHeld n => Some (memit (go s t (PRel1 n)) (ERelease n t)) | _ => None end
  end.
Fixpoint mrun (ts : list Z) (strict : bool) (s : mst) (l : list mact) : option mst :=
  match l with [] => Some s | a :: l => match mgo ts strict s a with Some s' => mrun ts strict s' l | None => None end end.
Definition others_idle (ts : list Z) (s : mst) : Prop := forall u, ~ In u ts -> pcs s u = PIdle.

Lemma mgo_ok ts strict s a s' : others_idle ts s -> mgo ts strict s a = Some s' ->
  mstep s a s' /\ others_idle ts s' /\ (strict = true -> calm s a).
Proof.
  intros O H. unfold mgo in H.
  assert (INV : forall t, existsb (Z.eqb t) ts = true -> In t ts).
  { intros t X. apply existsb_exists in X. destruct X as (x & X & Y). apply Z.eqb_eq in Y. subst. exact X. }
  assert (FR : forall n, forallb (fun u => match own (pcs s u) with Some x => negb (x =? n) | None => true end) ts = true -> forall u, own (pcs s u) <> Some n).
  { intros n X u E. rewrite forallb_forall in X. destruct (in_dec Z.eq_dec u ts) as [Y | Y].
    - specialize (X u Y). rewrite E in X. rewrite Z.eqb_refl in X. discriminate.
    - rewrite (O u Y) in E. discriminate. }
  assert (ST : forall n, forallb (fun u => match pcs s u with PSet (SNext _ x) => negb (x =? n) | _ => true end) ts = true -> quiet s n).
  { intros n X u m E. rewrite forallb_forall in X. destruct (in_dec Z.eq_dec u ts) as [Y | Y].
    - specialize (X u Y). rewrite E in X. rewrite Z.eqb_refl in X. discriminate.
    - rewrite (O u Y) in E. discriminate. }
  assert (OI : forall x t p, In t ts -> pcs x = pcs s -> others_idle ts (go x t p)).
  { intros x t p X Y u N. cbn. rewrite upd_ne by congruence. rewrite Y. apply O. exact N. }
  destruct a as [t n | t n | t ok | t].
  - match type of H with (if ?b then _ else _) = _ => destruct b eqn:B end; [|discriminate]. apply andb_true_iff in B. destruct B as (B & B3). apply andb_true_iff in B. destruct B as (B1 & B2).
    destruct (pcs s t) eqn:P; try discriminate. injection H as <-. split; [constructor; auto|]. split; [apply OI; auto|].
    intros ->. apply ST. exact B3.
  - match type of H with (if ?b then _ else _) = _ => destruct b eqn:B end; [|discriminate]. apply andb_true_iff in B. destruct B as (B & B3). apply andb_true_iff in B. destruct B as (B1 & B2).
    destruct (pcs s t) eqn:P; try discriminate. injection H as <-. split; [constructor; auto|]. split; [apply OI; auto|].
    intros ->. apply ST. exact B3.
  - destruct (negb strict || ok) eqn:B; [|discriminate]. destruct (mexec s t ok) as [[x|]| | |] eqn:E; try discriminate. injection H as <-.
    split; [constructor; exact E|]. destruct (mexec_left _ _ _ _ E) as (_ & X). split; [|intros ->; exact B].
    intros u N. destruct (Z.eq_dec u t) as [-> | Y]; [|rewrite X by exact Y; apply O; exact N].
    unfold mexec in E. rewrite (O t N) in E. discriminate.
  - destruct (pcs s t) eqn:P; try discriminate. injection H as <-. split; [constructor; exact P|]. split; [|intros; exact Logic.I].
    assert (In t ts). { destruct (in_dec Z.eq_dec t ts) as [X|X]; [exact X|]. rewrite (O t X) in P. discriminate. }
    intros u N. cbn. rewrite upd_ne by congruence. apply O. exact N.
Qed.
Lemma mrun_calm ts s l s' : mreach calm s -> others_idle ts s -> mrun ts true s l = Some s' -> mreach calm s'.
Proof.
  revert s. induction l as [|a l IH]; intros s R O H; cbn in H; [injection H as <-; exact R|].
  destruct (mgo ts true s a) as [s1|] eqn:E; [|discriminate]. destruct (mgo_ok _ _ _ _ _ O E) as (H1 & H2 & H3).
  apply (IH s1); auto. eapply MRS; eauto.
Qed.
Lemma mrun_any ts s l s' (P : mst -> mact -> Prop) : (forall s a, P s a) -> mreach P s -> others_idle ts s -> mrun ts false s l = Some s' -> mreach P s'.
Proof.
  intros HP. revert s. induction l as [|a l IH]; intros s R O H; cbn in H; [injection H as <-; exact R|].
  destruct (mgo ts false s a) as [s1|] eqn:E; [|discriminate]. destruct (mgo_ok _ _ _ _ _ O E) as (H1 & H2 & H3).
  apply (IH s1); auto. eapply MRS; eauto.
Qed.
Definition m0 : mst := mk_m None (fun _ => None) (fun _ => F0) (fun _ => F0) (fun _ => EvNone) 0 (fun _ => PIdle) [].
Lemma m0_boot : boot m0. Proof. repeat split. Qed.
Lemma m0_idle ts : others_idle ts m0. Proof. intros u _. reflexivity. Qed.

(** The invariant of the queue lock. *)
From Verif Require Import CBase McsModel McsSpec.

Definition evof (p : pc) : option Z :=
  match p with PWait3 _ e | PWait4 _ e | PWait5 _ e => e | _ => None end.
Definition evsome (p : pc) : Prop :=
  match p with PWait3 _ None | PWait4 _ None | PWait5 _ None => False | _ => True end.
(** the thread has been given the lock *)
Definition granted (p : pc) : bool :=
  match p with
  | PHeld _ | PRel1 _ | PRel2 _ | PRel3 _ | PSet (SReady _ _) => true
  | PWait1 (WNext _) | PWait2 (WNext _) | PWait3 (WNext _) _ | PWait4 (WNext _) _ | PWait5 (WNext _) _ => true
  | _ => false
  end.

(** predecessor's nextFlag before the successor has set it *)
Definition early (fp : flagv) (pp : pc) (ev : Z -> evst) : Prop :=
  match pp with
  | PWait4 (WNext _) (Some e) => fp = FE e /\ ev e = EvOpen false
  | PWait5 (WNext _) _ | PRel3 _ => False
  | _ => fp = F0
  end.
Definition late (fp : flagv) (pp : pc) (ev : Z -> evst) : Prop :=
  match pp with
  | PWait4 (WNext _) (Some e) => fp = FE e /\ ev e = EvOpen true
  | PWait5 (WNext _) _ | PRel3 _ | PSet (SReady _ _) => True
  | _ => fp = F1
  end.
Definition is_set (pp : pc) : bool := match pp with PSet (SReady _ _) => true | _ => false end.
(** two neighbours in the queue: the predecessor p (its next and nextFlag, its thread's place) and the
    successor m (its readyFlag, its thread's place) *)
Definition linkP (np : option Z) (fp rm : flagv) (pp pm : pc) (ev : Z -> evst) (p m : Z) : Prop :=
  match pm with
  | PLink _ p' => p' = p /\ np = None /\ early fp pp ev /\ is_set pp = false /\ rm = F0
  | PSet (SNext _ p') => p' = p /\ np = Some m /\ early fp pp ev /\ rm = F0
  | PSetEv (SNext _ p') e => p' = p /\ np = Some m /\ pp = PWait4 (WNext p) (Some e) /\ fp = FE e /\ ev e = EvOpen false /\ rm = F0
  | PWait1 (WReady _) | PWait2 (WReady _) | PWait3 (WReady _) _ => np = Some m /\ late fp pp ev /\ rm = F0
  | PWait4 (WReady _) (Some e) => np = Some m /\ late fp pp ev /\ rm = FE e /\ ev e = EvOpen false
  | _ => False
  end /\ match pp with PSet (SReady _ m') => m' = m | _ => True end.
Definition link s p tp m tm := linkP (nxt s p) (nfl s p) (rfl s m) (pcs s tp) (pcs s tm) (evs s) p m.

Definition headok s n t : Prop :=
  granted (pcs s t) = true \/
  match pcs s t with
  | PSet (SNext _ p) => rfl s n = F1 /\ nfl s p = F0 /\ (forall u, own (pcs s u) <> Some p)
  | PWait1 (WReady _) | PWait2 (WReady _) | PWait3 (WReady _) _ => rfl s n = F1
  | PWait4 (WReady _) (Some e) => rfl s n = FE e /\ (evs s e = EvOpen true \/ exists u n', pcs s u = PSetEv (SReady n' n) e)
  | PWait5 (WReady _) _ => True
  | _ => False
  end.
Definition lastP (np : option Z) (fp : flagv) (pp : pc) : Prop :=
  np = None /\ fp = F0 /\
  match pp with
  | PWait1 (WNext _) | PWait2 (WNext _) | PWait3 (WNext _) _ | PWait4 (WNext _) _ | PWait5 (WNext _) _ => False
  | PRel3 _ | PSet (SReady _ _) => False
  | _ => True
  end.
Definition initok s (p : pc) : Prop :=
  match p with
  | PInit2 n _ => nfl s n = F0
  | PInit3 n _ => nfl s n = F0 /\ rfl s n = F0
  | PTry n | PXchg n => nfl s n = F0 /\ rfl s n = F0 /\ nxt s n = None
  | _ => True
  end.
Definition adj (q : list (Z * Z)) p tp m tm := exists a b, q = a ++ (p, tp) :: (m, tm) :: b.
Definition headgot s (q : list (Z * Z)) : list (Z * Z) :=
  match q with [] => [] | (n, t) :: _ => if granted (pcs s t) then [(n, t)] else [] end.

Record inv (s : mst) (q d : list (Z * Z)) : Prop := mk_inv {
  i_tail : (q = [] /\ tail s = None) \/ (exists r n t, q = r ++ [(n, t)] /\ tail s = Some n);
  i_nd : NoDup (map fst q);
  i_in : forall n t, inq (pcs s t) = Some n <-> In (n, t) q;
  i_own : forall t u n, own (pcs s t) = Some n -> own (pcs s u) = Some n -> t = u;
  i_init : forall t, initok s (pcs s t);
  i_ev : forall t e, evof (pcs s t) = Some e -> e < nev s /\ exists b, evs s e = EvOpen b;
  i_evu : forall t u e, evof (pcs s t) = Some e -> evof (pcs s u) = Some e -> t = u;
  i_ev3 : forall t k e, pcs s t = PWait3 k (Some e) -> evs s e = EvOpen false;
  i_evs : forall t, evsome (pcs s t);
  i_adj : forall p tp m tm, adj q p tp m tm -> link s p tp m tm;
  i_head : forall n t r, q = (n, t) :: r -> headok s n t;
  i_last : forall n t r, q = r ++ [(n, t)] -> lastP (nxt s n) (nfl s n) (pcs s t);
  i_set : forall t n m e, pcs s t = PSetEv (SReady n m) e ->
          exists tm r, q = (m, tm) :: r /\ pcs s tm = PWait4 (WReady m) (Some e) /\ evs s e = EvOpen false;
  i_setu : forall t u n m e n' m' e', pcs s t = PSetEv (SReady n m) e -> pcs s u = PSetEv (SReady n' m') e' -> t = u;
  i_arr : arrived (mlog s) = d ++ q;
  i_got : got (mlog s) = d ++ headgot s q
}.

Lemma inq_own p n : inq p = Some n -> own p = Some n.
Proof. destruct p; cbn; try discriminate; auto; destruct k; auto; discriminate. Qed.

Lemma adj_in q p tp m tm : adj q p tp m tm -> In (p, tp) q /\ In (m, tm) q.
Proof. intros (a & b & ->). rewrite !in_app_iff. cbn. auto. Qed.

Lemma adj_l q p tp m tm : adj q p tp m tm -> In (p, tp) q.
Proof. intros H. apply adj_in in H. tauto. Qed.
Lemma adj_r q p tp m tm : adj q p tp m tm -> In (m, tm) q.
Proof. intros H. apply adj_in in H. tauto. Qed.

Lemma nodup_split (a b a' b' : list (Z * Z)) n t t' :
  NoDup (map fst (a ++ (n, t) :: b)) -> a ++ (n, t) :: b = a' ++ (n, t') :: b' -> a = a' /\ t = t' /\ b = b'.
Proof.
  revert a'. induction a as [|[x y] a IH]; intros [|[x' y'] a'] ND E; cbn in *.
  - injection E as -> ->. auto.
  - injection E as -> -> ->. exfalso. inversion ND as [|? ? H1 H2]; subst. apply H1.
    rewrite map_app. apply in_app_iff. right. cbn. auto.
  - injection E as -> -> <-. exfalso. inversion ND as [|? ? H1 H2]; subst. apply H1.
    rewrite map_app. apply in_app_iff. right. cbn. auto.
  - injection E as -> -> E. inversion ND; subst. destruct (IH a' H2 E) as (-> & -> & ->). auto.
Qed.

Lemma adj_next q p tp m tm tp' m' tm' : NoDup (map fst q) -> adj q p tp m tm -> adj q p tp' m' tm' -> m = m' /\ tm = tm' /\ tp = tp'.
Proof.
  intros ND (a & b & E) (a' & b' & E'). rewrite E in ND, E'.
  destruct (nodup_split _ _ _ _ _ _ _ ND E') as (_ & -> & Z). injection Z as -> -> ->. auto.
Qed.
Lemma adj_prev q p tp m tm p' tp' tm' : NoDup (map fst q) -> adj q p tp m tm -> adj q p' tp' m tm' -> p = p' /\ tp = tp' /\ tm = tm'.
Proof.
  intros ND (a & b & E) (a' & b' & E'). rewrite E in ND, E'.
  replace (a ++ (p, tp) :: (m, tm) :: b) with ((a ++ [(p, tp)]) ++ (m, tm) :: b) in ND, E' by (rewrite <- app_assoc; reflexivity).
  replace (a' ++ (p', tp') :: (m, tm') :: b') with ((a' ++ [(p', tp')]) ++ (m, tm') :: b') in E' by (rewrite <- app_assoc; reflexivity).
  destruct (nodup_split _ _ _ _ _ _ _ ND E') as (X & -> & _).
  apply app_inj_tail in X. destruct X as (_ & X). injection X as -> ->. auto.
Qed.
Lemma adj_neq q p tp m tm : NoDup (map fst q) -> adj q p tp m tm -> p <> m.
Proof.
  intros ND (a & b & ->) ->. rewrite map_app in ND. apply NoDup_remove_2 in ND. apply ND. apply in_app_iff. cbn. auto.
Qed.
Lemma adj_nothead q p tp m tm n t r : NoDup (map fst q) -> adj q p tp m tm -> q = (n, t) :: r -> m <> n.
Proof.
  intros ND (a & b & E) H ->. rewrite H in *. destruct a as [|x a]; cbn in E; injection E as ? ?; subst.
  - inversion ND as [|? ? H1 H2]; subst. apply H1. cbn. auto.
  - cbn in ND. inversion ND as [|? ? H1 H2]; subst. apply H1. rewrite map_app. apply in_app_iff. cbn. auto.
Qed.
Lemma adj_notlast q p tp m tm n t r : NoDup (map fst q) -> adj q p tp m tm -> q = r ++ [(n, t)] -> p <> n.
Proof.
  intros ND (a & b & E) H ->. rewrite H in *. symmetry in E.
  assert (ND' : NoDup (map fst (a ++ (n, tp) :: (m, tm) :: b))) by (rewrite E; exact ND).
  destruct (nodup_split _ _ _ _ _ _ _ ND' E) as (_ & _ & X). discriminate.
Qed.
Lemma snoc_cases {A} (l : list A) : l = [] \/ exists r x, l = r ++ [x].
Proof. destruct l as [|a l]; [auto|right]. destruct (exists_last (l := a :: l)) as (r & x & E); [discriminate|eauto]. Qed.
(** an element is first or has a predecessor; last or has a successor *)
Lemma pred_cases (q : list (Z * Z)) n t : In (n, t) q -> (exists r, q = (n, t) :: r) \/ (exists p tp, adj q p tp n t).
Proof.
  intros H. apply in_split in H. destruct H as (a & b & ->).
  destruct (snoc_cases a) as [-> | (a0 & [p tp] & ->)]; [left; exists b; reflexivity|right]. exists p, tp, a0, b.
  rewrite <- app_assoc. reflexivity.
Qed.
Lemma succ_cases (q : list (Z * Z)) n t : In (n, t) q -> (exists r, q = r ++ [(n, t)]) \/ (exists m tm, adj q n t m tm).
Proof.
  intros H. apply in_split in H. destruct H as (a & [|[m tm] b] & ->); [left; eauto|right; exists m, tm, a, b; reflexivity].
Qed.
Lemma adj_snoc q n t p tp m tm : adj (q ++ [(n, t)]) p tp m tm ->
  adj q p tp m tm \/ (exists r, q = r ++ [(p, tp)] /\ m = n /\ tm = t).
Proof.
  intros (a & b & E). induction b as [|x b _] using rev_ind.
  - right. exists a. change (a ++ [(p, tp); (m, tm)]) with (a ++ [(p, tp)] ++ [(m, tm)]) in E.
    rewrite app_assoc in E. apply app_inj_tail in E. destruct E as (-> & X). injection X as -> ->. auto.
  - left. change (a ++ (p, tp) :: (m, tm) :: b ++ [x]) with (a ++ ((p, tp) :: (m, tm) :: b) ++ [x]) in E.
    rewrite app_assoc in E. apply app_inj_tail in E. destruct E as (-> & _). exists a, b. reflexivity.
Qed.
Lemma adj_cons x q p tp m tm : adj q p tp m tm -> adj (x :: q) p tp m tm.
Proof. intros (a & b & ->). exists (x :: a), b. reflexivity. Qed.


Lemma linkP_ev np fp rm pp pm ev ev' p m :
  (forall e, granted pp = true -> evof pp = Some e -> ev' e = ev e) ->
  (forall e, granted pm = false -> evof pm = Some e -> ev' e = ev e) ->
  linkP np fp rm pp pm ev p m -> linkP np fp rm pp pm ev' p m.
Proof.
  intros H H' (A & B). split; [|exact B].
  assert (EA : early fp pp ev -> early fp pp ev').
  { unfold early. destruct pp; auto. destruct k; auto. destruct e; auto. rewrite H; cbn; auto. }
  assert (LA : late fp pp ev -> late fp pp ev').
  { unfold late. destruct pp; auto. destruct k; auto. destruct e; auto. rewrite H; cbn; auto. }
  destruct pm; auto; try (destruct k; auto); try (destruct e; auto); intuition auto;
    first [subst pp; rewrite H; cbn; solve [auto] | rewrite H'; cbn; solve [auto]].
Qed.
Lemma linkP_notgranted np fp rm pp pm ev p m : linkP np fp rm pp pm ev p m -> granted pm = false.
Proof. intros (A & _). destruct pm; try destruct A; auto; destruct k; try destruct A; auto. Qed.

Lemma pred_of s q d t n x : inv s q d -> (pcs s t = PLink n x \/ pcs s t = PSet (SNext n x)) ->
  (exists tp, adj q x tp n t) \/ (pcs s t = PSet (SNext n x) /\ (forall u, own (pcs s u) <> Some x) /\ exists r, q = (n, t) :: r).
Proof.
  intros I H.
  assert (Q : In (n, t) q) by (apply (i_in _ _ _ I); destruct H as [-> | ->]; reflexivity).
  destruct (pred_cases _ _ _ Q) as [(r & E) | (p & tp & A)].
  - right. pose proof (i_head _ _ _ I _ _ _ E) as HH. unfold headok in HH.
    destruct H as [H | H]; rewrite H in *; cbn in HH; destruct HH as [HH | HH]; try discriminate; try contradiction.
    repeat split; try tauto. eauto.
  - left. exists tp. pose proof (i_adj _ _ _ I _ _ _ _ A) as (L & _).
    destruct H as [H | H]; rewrite H in L; cbn in L; destruct L as (-> & _); exact A.
Qed.
Lemma q_own s q d n t : inv s q d -> In (n, t) q -> own (pcs s t) = Some n.
Proof. intros I H. apply inq_own. apply (i_in _ _ _ I). exact H. Qed.
Lemma q_tid s q d n n' t : inv s q d -> In (n, t) q -> In (n', t) q -> n = n'.
Proof. intros I H H'. apply (i_in _ _ _ I) in H, H'. congruence. Qed.
Lemma q_node s q d n t t' : inv s q d -> In (n, t) q -> In (n, t') q -> t = t'.
Proof. intros I H H'. apply (i_own _ _ _ I t t' n); eapply q_own; eauto. Qed.

(** steps that leave the queue as it is *)
Lemma inv_keep s q d s' t p' :
  inv s q d ->
  tail s' = tail s -> pcs s' t = p' -> (forall u, u <> t -> pcs s' u = pcs s u) -> nev s <= nev s' ->
  inq p' = inq (pcs s t) ->
  (forall x, own p' = Some x -> own (pcs s t) = Some x \/ ((forall u, own (pcs s u) <> Some x) /\ quiet s x)) ->
  (forall x, nxt s' x = nxt s x \/ own (pcs s t) = Some x \/ exists n, pcs s t = PLink n x) ->
  (forall x, nfl s' x = nfl s x \/ own (pcs s t) = Some x \/ exists n, pcs s t = PSet (SNext n x)) ->
  (forall x, rfl s' x = rfl s x \/ own (pcs s t) = Some x) ->
  initok s' p' ->
  (forall u e, u <> t -> evof (pcs s u) = Some e ->
     evs s' e = evs s e \/ (evs s' e = EvOpen true /\ exists k, pcs s t = PSetEv k e)) ->
  (forall e, evof p' = Some e -> e < nev s' /\ (exists b, evs s' e = EvOpen b) /\ forall u, u <> t -> evof (pcs s u) <> Some e) ->
  (forall k e, p' = PWait3 k (Some e) -> evs s' e = EvOpen false) ->
  evsome p' ->
  (forall p tp m tm, adj q p tp m tm -> tp = t \/ tm = t -> link s' p tp m tm) ->
  (forall n r, q = (n, t) :: r -> headok s' n t) ->
  (forall n r, q = r ++ [(n, t)] -> lastP (nxt s' n) (nfl s' n) p') ->
  (forall n m e, p' <> PSetEv (SReady n m) e) ->
  (forall k e, pcs s t = PWait4 k (Some e) -> evs s e <> EvOpen false) ->
  (forall k e, pcs s t = PSetEv k e -> evs s' e = EvOpen true) ->
  arrived (mlog s') = arrived (mlog s) ->
  ((got (mlog s') = got (mlog s) /\ granted p' = granted (pcs s t)) \/
   (exists n r, q = (n, t) :: r /\ got (mlog s') = got (mlog s) ++ [(n, t)] /\ granted p' = true /\ granted (pcs s t) = false)) ->
  inv s' q d.
Proof.
  intros I Ht Hp Hpo Hnev Hinq Hown Hnx Hnf Hrf Hinit Hev Hevn Hev3 Hevs Hadj Hhead Hlast Hset Hnb Hse Harr Hgot.
  assert (PR : forall n x, pcs s t = PLink n x \/ pcs s t = PSet (SNext n x) ->
     (exists tp, adj q x tp n t) \/ (pcs s t = PSet (SNext n x) /\ (forall u, own (pcs s u) <> Some x) /\ exists r, q = (n, t) :: r))
    by (intros; eapply pred_of; eauto).
  assert (NXu : forall u x, u <> t -> own (pcs s u) = Some x -> nxt s' x = nxt s x \/ exists n, adj q x u n t).
  { intros u x Hu Ho. destruct (Hnx x) as [? | [H | (n & H)]]; auto.
    - exfalso. apply Hu. eapply (i_own _ _ _ I); eauto.
    - destruct (PR n x (or_introl H)) as [(tp & A) | (_ & U & _)]; [|exfalso; eapply U; eauto].
      right. exists n. replace u with tp; auto. eapply (i_own _ _ _ I _ _ x); eauto. eapply q_own; [eauto|]. eapply adj_l; eauto. }
  assert (NFu : forall u x, u <> t -> own (pcs s u) = Some x -> nfl s' x = nfl s x \/ exists n, adj q x u n t).
  { intros u x Hu Ho. destruct (Hnf x) as [? | [H | (n & H)]]; auto.
    - exfalso. apply Hu. eapply (i_own _ _ _ I); eauto.
    - destruct (PR n x (or_intror H)) as [(tp & A) | (_ & U & _)]; [|exfalso; eapply U; eauto].
      right. exists n. replace u with tp; auto. eapply (i_own _ _ _ I _ _ x); eauto. eapply q_own; [eauto|]. eapply adj_l; eauto. }
  assert (RFu : forall u x, u <> t -> own (pcs s u) = Some x -> rfl s' x = rfl s x).
  { intros u x Hu Ho. destruct (Hrf x) as [? | H]; auto. exfalso. apply Hu. eapply (i_own _ _ _ I); eauto. }
  (* events of waiting threads *)
  assert (EVL : forall p tp m tm, adj q p tp m tm -> tp <> t -> tm <> t -> forall e,
     (granted (pcs s tp) = true -> evof (pcs s tp) = Some e -> evs s' e = evs s e) /\
     (granted (pcs s tm) = false -> evof (pcs s tm) = Some e -> evs s' e = evs s e)).
  { intros p tp m tm A N1 N2 e. destruct (adj_in _ _ _ _ _ A) as (A1 & A2).
    split; intros G E.
    - destruct (Hev tp e N1 E) as [? | (_ & [n' p0 | n' m0] & K)]; auto; exfalso.
      + assert (Q : In (n', t) q) by (apply (i_in _ _ _ I); rewrite K; reflexivity).
        destruct (pred_cases _ _ _ Q) as [(r & E0) | (p1 & tp1 & B)].
        * pose proof (i_head _ _ _ I _ _ _ E0) as HH. unfold headok in HH. rewrite K in HH. cbn in HH. destruct HH; [discriminate|contradiction].
        * pose proof (i_adj _ _ _ I _ _ _ _ B) as (L & _). rewrite K in L. cbn in L. destruct L as (-> & _ & L & _).
          assert (tp1 = tp) by (eapply (i_evu _ _ _ I tp1 tp e); [rewrite L; reflexivity | exact E]). subst tp1.
          assert (p1 = p) by (eapply q_tid; [exact I | eapply adj_l; exact B | exact A1]). subst p1.
          destruct (adj_next _ _ _ _ _ _ _ _ (i_nd _ _ _ I) A B) as (_ & X & _). auto.
      + destruct (i_set _ _ _ I _ _ _ _ K) as (th & r & E0 & P4 & _).
        assert (th = tp) by (eapply (i_evu _ _ _ I th tp e); [rewrite P4; reflexivity | exact E]). subst th.
        rewrite P4 in G. discriminate.
    - destruct (Hev tm e N2 E) as [? | (_ & [n' p0 | n' m0] & K)]; auto; exfalso.
      + assert (Q : In (n', t) q) by (apply (i_in _ _ _ I); rewrite K; reflexivity).
        destruct (pred_cases _ _ _ Q) as [(r & E0) | (p1 & tp1 & B)].
        * pose proof (i_head _ _ _ I _ _ _ E0) as HH. unfold headok in HH. rewrite K in HH. cbn in HH. destruct HH; [discriminate|contradiction].
        * pose proof (i_adj _ _ _ I _ _ _ _ B) as (L & _). rewrite K in L. cbn in L. destruct L as (-> & _ & L & _).
          assert (tp1 = tm) by (eapply (i_evu _ _ _ I tp1 tm e); [rewrite L; reflexivity | exact E]). subst tp1.
          rewrite L in G. discriminate.
      + destruct (i_set _ _ _ I _ _ _ _ K) as (th & r & E0 & P4 & _).
        assert (th = tm) by (eapply (i_evu _ _ _ I th tm e); [rewrite P4; reflexivity | exact E]). subst th.
        assert (m0 = m) by (eapply q_tid; [exact I | rewrite E0; left; reflexivity | exact A2]). subst m0.
        eapply adj_nothead; [apply (i_nd _ _ _ I) | exact A | exact E0 | reflexivity]. }
  constructor.
  - rewrite Ht. apply (i_tail _ _ _ I).
  - apply (i_nd _ _ _ I).
  - intros n u. destruct (Z.eq_dec u t) as [-> | N].
    + rewrite Hp, Hinq. apply (i_in _ _ _ I).
    + rewrite Hpo by auto. apply (i_in _ _ _ I).
  - intros u v n. destruct (Z.eq_dec u t) as [-> | N]; destruct (Z.eq_dec v t) as [-> | N']; auto.
    + rewrite Hp, (Hpo v) by auto. intros H H'. destruct (Hown n H) as [H0 | (U & _)]; [eapply (i_own _ _ _ I); eauto | exfalso; eapply U; eauto].
    + rewrite Hp, (Hpo u) by auto. intros H H'. destruct (Hown n H') as [H0 | (U & _)]; [eapply (i_own _ _ _ I); eauto | exfalso; eapply U; eauto].
    + rewrite !Hpo by auto. apply (i_own _ _ _ I).
  - intros u. destruct (Z.eq_dec u t) as [-> | N]; [rewrite Hp; exact Hinit|]. rewrite Hpo by auto.
    pose proof (i_init _ _ _ I u) as H.
    assert (X : forall n, own (pcs s u) = Some n -> inq (pcs s u) = None -> nxt s' n = nxt s n /\ nfl s' n = nfl s n /\ rfl s' n = rfl s n).
    { intros n O Q.
      assert (NA : forall n0, ~ adj q n u n0 t) by (intros n0 A; destruct (adj_in _ _ _ _ _ A) as (A1 & _); apply (i_in _ _ _ I) in A1; congruence).
      split; [|split]; [destruct (NXu u n N O) as [? | (n0 & A)] | destruct (NFu u n N O) as [? | (n0 & A)] | apply (RFu u); auto]; auto; exfalso; eapply NA; eauto. }
    destruct (pcs s u); cbn in *; auto; specialize (X n eq_refl eq_refl); destruct X as (X1 & X2 & X3); rewrite ?X1, ?X2, ?X3; auto.
  - intros u e. destruct (Z.eq_dec u t) as [-> | N].
    + rewrite Hp. intros E. destruct (Hevn e E) as (? & ? & _). auto.
    + rewrite Hpo by auto. intros E. destruct (i_ev _ _ _ I u e E) as (L & b & O). split; [lia|].
      destruct (Hev u e N E) as [-> | (-> & _)]; eauto.
  - intros u v e. destruct (Z.eq_dec u t) as [-> | N]; destruct (Z.eq_dec v t) as [-> | N']; auto.
    + rewrite Hp, (Hpo v) by auto. intros H H'. destruct (Hevn e H) as (_ & _ & U). exfalso. eapply U; eauto.
    + rewrite Hp, (Hpo u) by auto. intros H H'. destruct (Hevn e H') as (_ & _ & U). exfalso. eapply U; eauto.
    + rewrite !Hpo by auto. apply (i_evu _ _ _ I).
  - intros u k e. destruct (Z.eq_dec u t) as [-> | N]; [rewrite Hp; apply Hev3|]. rewrite Hpo by auto. intros E.
    assert (E' : evof (pcs s u) = Some e) by (rewrite E; reflexivity).
    destruct (Hev u e N E') as [-> | (_ & [n' p0 | n' m0] & K)]; [eapply (i_ev3 _ _ _ I); eauto | exfalso | exfalso].
    + assert (Q : In (n', t) q) by (apply (i_in _ _ _ I); rewrite K; reflexivity).
      destruct (pred_cases _ _ _ Q) as [(r & E0) | (p1 & tp1 & B)].
      * pose proof (i_head _ _ _ I _ _ _ E0) as HH. unfold headok in HH. rewrite K in HH. cbn in HH. destruct HH; [discriminate|contradiction].
      * pose proof (i_adj _ _ _ I _ _ _ _ B) as (L & _). rewrite K in L. cbn in L. destruct L as (-> & _ & L & _).
        assert (tp1 = u) by (eapply (i_evu _ _ _ I tp1 u e); [rewrite L; reflexivity | exact E']). subst tp1. congruence.
    + destruct (i_set _ _ _ I _ _ _ _ K) as (th & r & E0 & P4 & _).
      assert (th = u) by (eapply (i_evu _ _ _ I th u e); [rewrite P4; reflexivity | exact E']). subst th. congruence.
  - intros u. destruct (Z.eq_dec u t) as [-> | N]; [rewrite Hp; exact Hevs|]. rewrite Hpo by auto. apply (i_evs _ _ _ I).
  - intros p tp m tm A.
    destruct (Z.eq_dec tp t) as [-> | N1]; [apply Hadj; auto|]. destruct (Z.eq_dec tm t) as [-> | N2]; [apply Hadj; auto|].
    pose proof (i_adj _ _ _ I _ _ _ _ A) as L. destruct (adj_in _ _ _ _ _ A) as (A1 & A2).
    unfold link in *. rewrite !Hpo by auto.
    rewrite (RFu tm m N2) by (eapply q_own; eauto).
    assert (NA : forall n0, ~ adj q p tp n0 t).
    { intros n0 B. destruct (adj_next _ _ _ _ _ _ _ _ (i_nd _ _ _ I) A B) as (_ & X & _). auto. }
    replace (nxt s' p) with (nxt s p) by (destruct (NXu tp p N1) as [? | (n0 & B)]; [eapply q_own; eauto | auto | exfalso; eapply NA; eauto]).
    replace (nfl s' p) with (nfl s p) by (destruct (NFu tp p N1) as [? | (n0 & B)]; [eapply q_own; eauto | auto | exfalso; eapply NA; eauto]).
    eapply linkP_ev; [| |exact L]; intros e; destruct (EVL p tp m tm A N1 N2 e); auto.
  - intros n u r E. destruct (Z.eq_dec u t) as [-> | N]; [eapply Hhead; eauto|].
    assert (Q : In (n, u) q) by (rewrite E; left; reflexivity).
    assert (O : own (pcs s u) = Some n) by (eapply q_own; eauto).
    pose proof (i_head _ _ _ I _ _ _ E) as HH. unfold headok in *. rewrite Hpo by auto.
    destruct HH as [G | HH]; [left; exact G | right].
    rewrite (RFu u n N O). destruct (pcs s u) eqn:P; auto; destruct k; auto.
    + destruct HH as (R & F & U). split; [exact R|]. split.
      * destruct (Hnf p) as [-> | [H | (n1 & H)]]; auto.
        -- exfalso. eapply U; eauto.
        -- destruct (PR n1 p (or_intror H)) as [(tp & A) | (_ & _ & r' & E')].
           ++ exfalso. apply (U tp). eapply q_own; [eauto|]. eapply adj_l; eauto.
           ++ exfalso. rewrite E in E'. injection E' as _ X _. auto.
      * intros v. destruct (Z.eq_dec v t) as [-> | Nv]; [|rewrite Hpo by auto; apply U]. rewrite Hp. intros X.
        destruct (Hown _ X) as [X' | (_ & Y)]; [eapply U; eauto|]. apply (Y u n0). exact P.
    + destruct e as [e|]; [|exact HH]. destruct HH as (R & S). split; [exact R|].
      assert (EV : evof (pcs s u) = Some e) by (rewrite P; reflexivity).
      destruct (Hev u e N EV) as [EQ | (EQ & _)]; [|left; exact EQ].
      destruct S as [S | (w & n' & S)]; [left; congruence|]. destruct (Z.eq_dec w t) as [-> | Nw].
      * left.
        eapply Hse; eauto.
      * right. exists w, n'. rewrite Hpo by auto. exact S.
  - intros n u r E. destruct (Z.eq_dec u t) as [-> | N]; [rewrite Hp; eapply Hlast; eauto|].
    assert (Q : In (n, u) q) by (rewrite E; apply in_app_iff; right; left; reflexivity).
    rewrite Hpo by auto.
    assert (NA : forall n0, ~ adj q n u n0 t).
    { intros n0 B. eapply adj_notlast; [apply (i_nd _ _ _ I) | exact B | exact E | reflexivity]. }
    replace (nxt s' n) with (nxt s n) by (destruct (NXu u n N) as [? | (n0 & B)]; [eapply q_own; eauto | auto | exfalso; eapply NA; eauto]).
    replace (nfl s' n) with (nfl s n) by (destruct (NFu u n N) as [? | (n0 & B)]; [eapply q_own; eauto | auto | exfalso; eapply NA; eauto]).
    eapply (i_last _ _ _ I); eauto.
  - intros u n m e. destruct (Z.eq_dec u t) as [-> | N]; [rewrite Hp; intros X; exfalso; eapply Hset; eauto|].
    rewrite Hpo by auto. intros P. destruct (i_set _ _ _ I _ _ _ _ P) as (th & r & E & P4 & EF).
    exists th, r. split; [exact E|].
    assert (Nt : th <> t) by (intros ->; eapply Hnb; eauto).
    rewrite Hpo by auto. split; [exact P4|].
    destruct (Hev th e Nt) as [-> | (_ & [n' p0 | n' m0] & K)]; [rewrite P4; reflexivity | exact EF | exfalso | exfalso].
    + assert (Q : In (n', t) q) by (apply (i_in _ _ _ I); rewrite K; reflexivity).
      destruct (pred_cases _ _ _ Q) as [(r' & E0) | (p1 & tp1 & B)].
      * rewrite E in E0. injection E0 as _ X _. auto.
      * pose proof (i_adj _ _ _ I _ _ _ _ B) as (L & _). rewrite K in L. cbn in L. destruct L as (-> & _ & L & _).
        assert (tp1 = th) by (eapply (i_evu _ _ _ I tp1 th e); [rewrite L; reflexivity | rewrite P4; reflexivity]). subst tp1. congruence.
    + apply N. eapply (i_setu _ _ _ I); eauto.
  - intros u v n m e n' m' e'. destruct (Z.eq_dec u t) as [-> | N]; [rewrite Hp; intros X; exfalso; eapply Hset; eauto|].
    destruct (Z.eq_dec v t) as [-> | N']; [rewrite Hp; intros _ X; exfalso; eapply Hset; eauto|].
    rewrite !Hpo by auto. apply (i_setu _ _ _ I).
  - rewrite Harr. apply (i_arr _ _ _ I).
  - destruct Hgot as [(-> & G) | (n & r & -> & -> & G & G0)].
    + rewrite (i_got _ _ _ I). f_equal. unfold headgot. destruct q as [|(n, u) r]; auto.
      destruct (Z.eq_dec u t) as [-> | N]; [rewrite Hp, G; reflexivity | rewrite Hpo by auto; reflexivity].
    + rewrite (i_got _ _ _ I). unfold headgot. rewrite Hp, G, G0, app_nil_r. reflexivity.
Qed.

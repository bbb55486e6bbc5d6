(** Proofs for C75, part 1: the invariant and how a step of one thread keeps it *)
From Verif Require Import CBase CStr SeqLib AllocModel AlMtModel AlMtSpec.

(** ** the map *)
Lemma lookup_del m p q : lookup (del m p) q = if q =? p then None else lookup m q.
Proof.
  induction m as [|[k e] m IH]; cbn [del filter lookup fst]; [destruct (q =? p); reflexivity|]. destruct (Z.eqb_spec k p) as [->|N]; cbn [negb lookup].
  - fold (del m p). rewrite IH. destruct (Z.eqb_spec p q) as [->|M]; [rewrite Z.eqb_refl; reflexivity|reflexivity].
  - fold (del m p). rewrite IH. destruct (Z.eqb_spec k q) as [->|M]; [|reflexivity]. destruct (Z.eqb_spec q p); [congruence|reflexivity].
Qed.
Lemma lookup_put m p e q : lookup ((p, e) :: del m p) q = if q =? p then Some e else lookup m q.
Proof. cbn [lookup]. rewrite lookup_del. rewrite (Z.eqb_sym p q). destruct (q =? p); reflexivity. Qed.
Lemma lookup_in m p e : lookup m p = Some e -> List.In (p, e) m.
Proof. induction m as [|[k x] m IH]; cbn; [discriminate|]. destruct (Z.eqb_spec k p) as [->|N]; [injection 1 as ->; auto|auto]. Qed.
Lemma in_lookup m p e : NoDup (map fst m) -> List.In (p, e) m -> lookup m p = Some e.
Proof.
  induction m as [|[k x] m IH]; cbn; intros N I; [contradiction|]. inversion_clear N as [|? ? N1 N2]. destruct I as [E|I]; [injection E as -> ->; rewrite Z.eqb_refl; reflexivity|].
  destruct (Z.eqb_spec k p) as [->|_]; [|auto]. exfalso. apply N1. apply (in_map fst) in I. exact I.
Qed.
Lemma lookup_none m p : lookup m p = None -> ~ List.In p (map fst m).
Proof. induction m as [|[k x] m IH]; cbn; [auto|]. destruct (Z.eqb_spec k p) as [->|N]; [discriminate|]. intros H [E|I]; [contradiction|]. exact (IH H I). Qed.
Lemma filter_nodup {A} (f : Z * A -> bool) m : NoDup (map fst m) -> NoDup (map fst (filter f m)).
Proof.
  induction m as [|x m IH]; cbn; intro N; [constructor|]. inversion_clear N as [|? ? N1 N2]. destruct (f x); cbn; [|auto]. constructor; [|auto]. intro I. apply N1. apply in_map_iff in I. destruct I as (y & E & I). apply filter_In in I. rewrite <- E. apply in_map. apply I.
Qed.

(** ** what is known of each block *)
Inductive stage := SRaw | SPut (e : Z) | SSet (i : nat) (e : Z) | SFull (e : Z) | SMark (e : Z) | SOut.
(** owner (None: the user), size, stage *)
Notation claim := (option (option nat * Z * stage)).
Notation ghost := (Z -> claim).
Definition rec_of (x : stage) : option Z := match x with SRaw | SOut => None | SPut e | SSet _ e | SFull e | SMark e => Some e end.
Definition crec (c : claim) : option Z := match c with Some (_, _, x) => rec_of x | None => None end.
Definition sealed (b : list Z) (n : Z) : Prop := exists u, b = canary ++ u ++ canary /\ zlen u = n.
Definition facts (s : st) (a n : Z) (x : stage) (b : list Z) : Prop :=
  match x with
  | SRaw | SOut => lookup (tmap s) (a + 8) = None
  | SPut e => lookup (tmap s) (a + 8) = None /\ recs s e = Some zero_rec
  | SSet i e => lookup (tmap s) (a + 8) = Some e /\ exists r, recs s e = Some r /\ r_freed r = false /\
      ((1 <= i)%nat -> r_id r = ALLOCTOR_ID) /\ ((3 <= i)%nat -> r_size r = n) /\ ((4 <= i)%nat -> r_ptr r = a + 8) /\ ((5 <= i)%nat -> ztake 8 b = canary)
  | SFull e => lookup (tmap s) (a + 8) = Some e /\ recs s e = Some (mk_rec ALLOCTOR_ID n false (a + 8)) /\ sealed b n
  | SMark e => lookup (tmap s) (a + 8) = Some e /\ recs s e = Some (mk_rec ALLOCTOR_ID n true (a + 8)) /\ sealed b n
  end.
Definition blk_ok (s : st) (a : Z) (c : claim) : Prop :=
  match c with
  | None => heap s a = None /\ lookup (tmap s) (a + 8) = None
  | Some (w, n, x) => 0 < a /\ 0 <= n /\ exists b, heap s a = Some b /\ zlen b = n + 16 /\ facts s a n x b
  end.
Lemma facts_keep s s' a n x b : lookup (tmap s') (a + 8) = lookup (tmap s) (a + 8) -> (forall e, rec_of x = Some e -> recs s' e = recs s e) -> facts s a n x b -> facts s' a n x b.
Proof. intros L R F. destruct x; cbn in *; rewrite ?L, ?R by reflexivity; exact F. Qed.
Lemma blk_keep s s' a c : heap s' a = heap s a -> lookup (tmap s') (a + 8) = lookup (tmap s) (a + 8) -> (forall e, crec c = Some e -> recs s' e = recs s e) -> blk_ok s a c -> blk_ok s' a c.
Proof.
  intros H L R B. destruct c as [[[w n] x]|]; cbn in *; [|rewrite H, L; exact B]. destruct B as (A & N & b & E & Z1 & F). split; [exact A|]. split; [exact N|]. exists b. rewrite H. split; [exact E|]. split; [exact Z1|]. eapply facts_keep; eassumption.
Qed.
Lemma blk_rec s a c e : blk_ok s a c -> crec c = Some e -> recs s e <> None.
Proof. destruct c as [[[w n] x]|]; cbn; [|discriminate]. intros (_ & _ & b & _ & _ & F) R. destruct x; cbn in *; try discriminate; injection R as <-; first [destruct F as (_ & r & F & _); congruence | destruct F as (_ & F & _); congruence | destruct F as (_ & F); congruence]. Qed.

(** ** what each thread knows *)
Section Pc.
Variables (g : ghost) (le : list (nat * (Z * Z))) (tm hd : list (Z * Z)) (t : nat).
Definition kok (n : Z) (k : option (Z * Z)) : Prop :=
  match k with None => True | Some (p, cur) => (exists e, g (p - 8) = Some (Some t, cur, SFull e)) /\ List.In (t, (p, cur)) le /\ cur <= n end.
Definition gok (q : blocks) : Prop := match q with [] => True | [(p, n)] => exists e, g (p - 8) = Some (Some t, n, SFull e) | _ => False end.
(** q comes after the release of p *)
Definition gokp (p : Z) (q : blocks) : Prop := gok q /\ ~ List.In (p - 8) (map (fun x => fst x - 8) q).
Definition mine (p e : Z) : Prop := exists n, g (p - 8) = Some (Some t, n, SFull e) /\ List.In (t, (p, n)) le.
(** leak check: reps: reported; pend: the one looked at *)
Definition ecore (pend : blocks) (rest : list (Z * Z)) (reps l : blocks) : Prop :=
  (forall a w n e, g a = Some (w, n, SFull e) -> List.In (a + 8, n) l) /\ incl rest tm /\ NoDup (map fst (reps ++ pend) ++ map fst rest) /\ incl (reps ++ pend) l /\
  (forall p n, List.In (p, n) hd -> List.In (p, n) (reps ++ pend) \/ List.In p (map fst rest)).
Definition looked (p n e : Z) : Prop := exists w x, g (p - 8) = Some (w, n, x) /\ (x = SFull e \/ x = SMark e).
Definition pc_ok (x : pc) : Prop :=
  match x with
  | Idle => True
  | MAlloc n k => 0 <= n /\ kok n k
  | MGet a n k | MNew a n k => g a = Some (Some t, n, SRaw) /\ kok n k
  | MOld _ _ _ _ => False
  | MPut a n e k => g a = Some (Some t, n, SPut e) /\ kok n k
  | MSet i a n e k => (i <= 5)%nat /\ g a = Some (Some t, n, SSet i e) /\ kok n k
  | FGet p q => (exists e, mine p e) /\ gokp p q
  | FFreed p e q | FId p e q | FSet p e q => mine p e /\ gokp p q
  | FCheck p e q => (exists n, g (p - 8) = Some (Some t, n, SMark e)) /\ gokp p q
  | FRem p q => (exists n e, g (p - 8) = Some (Some t, n, SMark e)) /\ gokp p q
  | FFree p q => (exists n, g (p - 8) = Some (Some t, n, SOut)) /\ gokp p q
  | RGet p size => 0 <= size /\ exists e, mine p e
  | RId p e size | RSize p e size => 0 <= size /\ mine p e
  | RCopy p cur a n => ((exists e, g a = Some (Some t, n, SFull e)) /\ a <> p - 8) /\ kok n (Some (p, cur))
  | EWait l => forall a w n e, g a = Some (w, n, SFull e) -> List.In (a + 8, n) l
  | EFreed rest sum reps l => ecore [] rest reps l /\ sum = bytes_of reps mod two64
  | ESize e rest sum reps l => exists p n, looked p n e /\ ecore [(p, n)] rest reps l /\ sum = bytes_of reps mod two64
  | ECheck e rest sum reps l | EReport e rest sum reps l => exists p n, looked p n e /\ ecore [(p, n)] rest reps l /\ sum = bytes_of (reps ++ [(p, n)]) mod two64
  | Out q => gok q
  end.
End Pc.
Definition kbase (k : option (Z * Z)) : list Z := match k with Some (p, _) => [p - 8] | None => [] end.
Definition qbase (q : blocks) : list Z := map (fun x => fst x - 8) q.
Definition bases (x : pc) : list Z :=
  match x with
  | MAlloc _ k => kbase k
  | MGet a _ k | MNew a _ k | MOld a _ _ k | MPut a _ _ k | MSet _ a _ _ k => a :: kbase k
  | FGet p q | FFreed p _ q | FId p _ q | FSet p _ q | FCheck p _ q | FRem p q | FFree p q => (p - 8) :: qbase q
  | RGet p _ | RId p _ _ | RSize p _ _ => [p - 8]
  | RCopy p _ a _ => [a; p - 8]
  | Out q => qbase q
  | _ => []
  end.
Definition in_check (x : pc) : bool := match x with EFreed _ _ _ _ | ESize _ _ _ _ _ | ECheck _ _ _ _ _ | EReport _ _ _ _ _ => true | _ => false end.
Lemma in_check_checking x : in_check x = true -> checking x = true. Proof. destruct x; cbn; congruence. Qed.

Record inv (s : st) (g : ghost) : Prop := {
  i_blk : forall a, blk_ok s a (g a);
  i_rec : forall e, recs s e <> None -> exists a, crec (g a) = Some e;
  i_inj : forall a b e, crec (g a) = Some e -> crec (g b) = Some e -> a = b;
  i_held : forall p n, List.In (p, n) (held s) <-> exists e, g (p - 8) = Some (None, n, SFull e);
  i_nd : NoDup (map fst (held s));
  i_pc : forall t, pc_ok g (lent s) (tmap s) (held s) t (pcs s t);
  i_own : forall a t n x, g a = Some (Some t, n, x) -> List.In a (bases (pcs s t));
  i_user : forall a n x, g a = Some (None, n, x) -> exists e, x = SFull e;
  i_map : NoDup (map fst (tmap s));
  i_lock : forall t, lock s = Some t <-> in_check (pcs s t) = true;
  i_excl : forall t u, checking (pcs s t) = true -> allocating (pcs s u) = false;
  i_done : Forall report_ok (done s) }.

Definition gset (g : ghost) (a : Z) (v : claim) : ghost := fun b => if b =? a then v else g b.
Lemma gset_eq g a v : gset g a v a = v. Proof. unfold gset. rewrite Z.eqb_refl. reflexivity. Qed.
Lemma gset_ne g a v b : b <> a -> gset g a v b = g b. Proof. unfold gset. intro. destruct (Z.eqb_spec b a); congruence. Qed.

(** ** one thread moves; one block may change its stage or its owner *)
Record move (s : st) (g : ghost) (t : nat) (a0 : Z) (v : claim) (x : pc) (s' : st) : Prop := {
  m_pcs : forall u, pcs s' u = if Nat.eqb u t then x else pcs s u;
  m_heap : forall a, a <> a0 -> heap s' a = heap s a;
  m_look : forall a, a <> a0 -> lookup (tmap s') (a + 8) = lookup (tmap s) (a + 8);
  m_recs : forall e, recs s' e = recs s e \/ crec (g a0) = Some e \/ recs s e = None;
  m_blk : blk_ok s' a0 v;
  m_new : forall e, crec v = Some e -> crec (g a0) = Some e \/ recs s e = None;
  m_rec : forall e, recs s' e <> None -> (recs s e <> None /\ crec (g a0) <> Some e) \/ crec v = Some e;
  m_own : forall u n y, g a0 = Some (Some u, n, y) -> u = t;
  m_own' : forall u n y, v = Some (Some u, n, y) -> u = t /\ List.In a0 (bases x);
  m_user : forall n y, v = Some (None, n, y) -> exists e, y = SFull e;
  m_bases : forall a, List.In a (bases (pcs s t)) -> a <> a0 -> g a <> None -> (exists n y, g a = Some (Some t, n, y)) -> List.In a (bases x);
  m_pc : pc_ok (gset g a0 v) (lent s') (tmap s') (held s') t x;
  m_held : forall p n, List.In (p, n) (held s') <-> (if p - 8 =? a0 then exists e, v = Some (None, n, SFull e) else List.In (p, n) (held s));
  m_nd : NoDup (map fst (held s'));
  m_lent : forall u y, u <> t -> List.In (u, y) (lent s) -> List.In (u, y) (lent s');
  m_map : NoDup (map fst (tmap s'));
  m_lock : (lock s' = lock s /\ in_check x = in_check (pcs s t)) \/ (lock s = None /\ lock s' = Some t /\ in_check x = true) \/ (lock s = Some t /\ lock s' = None /\ in_check x = false);
  m_tm : forall u, u <> t -> lock s = Some u -> tmap s' = tmap s;
  m_al : allocating x = true -> allocating (pcs s t) = true \/ forall u, u <> t -> checking (pcs s u) = false;
  m_ch : checking x = true -> checking (pcs s t) = true \/ forall u, u <> t -> allocating (pcs s u) = false;
  m_both : checking x = true -> allocating x = false;
  m_full : forall u, u <> t -> checking (pcs s u) = true -> forall w n e, v = Some (w, n, SFull e) -> exists w', g a0 = Some (w', n, SFull e);
  m_hd : forall u, u <> t -> checking (pcs s u) = true -> incl (held s') (held s);
  m_look' : forall u, u <> t -> lock s = Some u -> forall w n e y, g a0 = Some (w, n, y) -> (y = SFull e \/ y = SMark e) -> exists w' y', v = Some (w', n, y') /\ (y' = SFull e \/ y' = SMark e);
  m_done : Forall report_ok (done s') }.

Lemma move_inv s g t a0 v x s' : inv s g -> move s g t a0 v x s' -> inv s' (gset g a0 v).
Proof.
  intros I M. set (g' := gset g a0 v).
  assert (KEEP : forall u, u <> t -> forall a n y, g a = Some (Some u, n, y) -> g' a = Some (Some u, n, y)).
  { intros u NU a n y E. destruct (Z.eq_dec a a0) as [->|N]; [destruct (NU (m_own _ _ _ _ _ _ _ M _ _ _ E))|]. unfold g'. rewrite gset_ne by exact N. exact E. }
  assert (EC : forall u, u <> t -> checking (pcs s u) = true -> forall l, (forall a w n e, g a = Some (w, n, SFull e) -> List.In (a + 8, n) l) -> forall a w n e, g' a = Some (w, n, SFull e) -> List.In (a + 8, n) l).
  { intros u NU C l L a w n e E. destruct (Z.eq_dec a a0) as [->|N].
    - unfold g' in E. rewrite gset_eq in E. destruct (m_full _ _ _ _ _ _ _ M u NU C w n e E) as (w' & E'). eauto.
    - unfold g' in E. rewrite gset_ne in E by exact N. eauto. }
  assert (EK : forall u, u <> t -> in_check (pcs s u) = true -> forall pend rest reps l, ecore g (tmap s) (held s) pend rest reps l -> ecore g' (tmap s') (held s') pend rest reps l).
  { intros u NU C pend rest reps l (A & B & D & E & F). pose proof (in_check_checking _ C) as C'. assert (LK : lock s = Some u) by (apply (i_lock _ _ I); exact C). split; [eapply EC; eauto|]. split; [rewrite (m_tm _ _ _ _ _ _ _ M u NU LK); exact B|]. split; [exact D|]. split; [exact E|]. intros p n H. apply F. eapply (m_hd _ _ _ _ _ _ _ M); eassumption. }
  assert (LO : forall u, u <> t -> in_check (pcs s u) = true -> forall p n e, looked g p n e -> looked g' p n e).
  { intros u NU C p n e (w & y & E & Y). assert (LK : lock s = Some u) by (apply (i_lock _ _ I); exact C). unfold looked, g'. destruct (Z.eq_dec (p - 8) a0) as [Q|N].
    - rewrite Q, gset_eq. rewrite Q in E. destruct (m_look' _ _ _ _ _ _ _ M u NU LK w n e y E Y) as (w' & y' & V & Y'). eauto.
    - rewrite gset_ne by exact N. eauto. }
  assert (PC : forall u, u <> t -> pc_ok g' (lent s') (tmap s') (held s') u (pcs s u)).
  { intros u NU. pose proof (i_pc _ _ I u) as P. pose proof (KEEP u NU) as K. pose proof (fun y => m_lent _ _ _ _ _ _ _ M u y NU) as L.
    pose proof (EC u NU) as X1. pose proof (EK u NU) as X2. pose proof (LO u NU) as X3.
    assert (KK : forall n k, kok g (lent s) u n k -> kok g' (lent s') u n k).
    { intros n [[p cur]|]; cbn; [|auto]. intros ((e & E) & H & C). split; [exists e; eauto|auto]. }
    assert (GG : forall q, gok g u q -> gok g' u q).
    { intros [|[p n] [|? ?]]; cbn; auto. intros (e & E). exists e. eauto. }
    assert (GP : forall p q, gokp g u p q -> gokp g' u p q) by (intros p q (A & B); split; auto).
    assert (MM : forall p e, mine g (lent s) u p e -> mine g' (lent s') u p e).
    { intros p e (n & E & H). exists n. eauto. }
    destruct (pcs s u) as [|n k|a n k|a n e k|a n k|a n e k|i a n e k|p q|p e q|p e q|p e q|p e q|p q|p q|p size|p e size|p e size|p cur a n|l|rest sum reps l|e rest sum reps l|e rest sum reps l|e rest sum reps l|q]; cbn [pc_ok checking in_check] in *;
      try (destruct P as (P1 & P2); split; eauto; fail); eauto; try contradiction.
    - destruct P as (P1 & P2 & P3). split; [exact P1|]. split; eauto.
    - destruct P as ((e & P1) & P2). split; eauto.
    - destruct P as ((n & P1) & P2). split; eauto.
    - destruct P as ((n & e & P1) & P2). split; eauto.
    - destruct P as ((n & P1) & P2). split; eauto.
    - destruct P as (P0 & e & P1). split; eauto.
    - destruct P as (((e & P1) & P0) & P2). split; [eauto|]. apply (KK n (Some (p, cur))). exact P2.
    - destruct P as (p & n & P1 & P2 & P3). exists p, n. split; [eauto|]. split; eauto.
    - destruct P as (p & n & P1 & P2 & P3). exists p, n. split; [eauto|]. split; eauto.
    - destruct P as (p & n & P1 & P2 & P3). exists p, n. split; [eauto|]. split; eauto. }
  split.
  - intro a. destruct (Z.eq_dec a a0) as [->|N]; unfold g'; [rewrite gset_eq; exact (m_blk _ _ _ _ _ _ _ M)|]. rewrite gset_ne by exact N. eapply blk_keep; [apply (m_heap _ _ _ _ _ _ _ M); exact N|apply (m_look _ _ _ _ _ _ _ M); exact N| |apply (i_blk _ _ I)].
    intros e E. destruct (m_recs _ _ _ _ _ _ _ M e) as [R|[R|R]]; [exact R| |].
    + destruct (N (i_inj _ _ I a a0 e E R)).
    + destruct (blk_rec s a _ e (i_blk _ _ I a) E R).
  - intros e R. destruct (m_rec _ _ _ _ _ _ _ M e R) as [(A & B)|V]; [|exists a0; unfold g'; rewrite gset_eq; exact V]. destruct (i_rec _ _ I e A) as (a & E). exists a. unfold g'. rewrite gset_ne; [exact E|]. intros ->. contradiction.
  - assert (X : forall a e, a <> a0 -> crec (g a) = Some e -> crec v = Some e -> False).
    { intros a e N E V. destruct (m_new _ _ _ _ _ _ _ M e V) as [R|R]; [exact (N (i_inj _ _ I a a0 e E R))|exact (blk_rec s a _ e (i_blk _ _ I a) E R)]. }
    intros a b e A B. unfold g', gset in A, B. destruct (Z.eqb_spec a a0) as [->|NA], (Z.eqb_spec b a0) as [->|NB]; auto.
    + destruct (X b e NB B A).
    + destruct (X a e NA A B).
    + exact (i_inj _ _ I a b e A B).
  - intros p n. rewrite (m_held _ _ _ _ _ _ _ M p n). unfold g', gset. destruct (p - 8 =? a0); [tauto|apply (i_held _ _ I)].
  - exact (m_nd _ _ _ _ _ _ _ M).
  - intro u. rewrite (m_pcs _ _ _ _ _ _ _ M u). destruct (Nat.eqb_spec u t) as [->|NU]; [exact (m_pc _ _ _ _ _ _ _ M)|apply PC; exact NU].
  - intros a u n y E. rewrite (m_pcs _ _ _ _ _ _ _ M u). destruct (Z.eq_dec a a0) as [->|N].
    + unfold g' in E. rewrite gset_eq in E. destruct (m_own' _ _ _ _ _ _ _ M _ _ _ E) as (-> & B). rewrite Nat.eqb_refl. exact B.
    + unfold g' in E. rewrite gset_ne in E by exact N. pose proof (i_own _ _ I _ _ _ _ E) as B. destruct (Nat.eqb_spec u t) as [->|NU]; [|exact B]. apply (m_bases _ _ _ _ _ _ _ M); eauto. congruence.
  - intros a n y E. unfold g', gset in E. destruct (a =? a0); [exact (m_user _ _ _ _ _ _ _ M n y E)|exact (i_user _ _ I a n y E)].
  - exact (m_map _ _ _ _ _ _ _ M).
  - intro u. rewrite (m_pcs _ _ _ _ _ _ _ M u). pose proof (i_lock _ _ I u) as L. pose proof (i_lock _ _ I t) as Lt. destruct (m_lock _ _ _ _ _ _ _ M) as [(A & B)|[(A & B & C)|(A & B & C)]].
    + rewrite A. destruct (Nat.eqb_spec u t) as [->|NU]; [rewrite B|]; exact L.
    + rewrite B. destruct (Nat.eqb_spec u t) as [->|NU]; [rewrite C; tauto|]. split; [intro X; congruence|]. intro X. apply L in X. congruence.
    + rewrite B. destruct (Nat.eqb_spec u t) as [->|NU]; [rewrite C; split; discriminate|]. split; [discriminate|]. intro X. apply L in X. congruence.
  - intros u w. rewrite !(m_pcs _ _ _ _ _ _ _ M). pose proof (i_excl _ _ I) as X. destruct (Nat.eqb_spec u t) as [->|NU], (Nat.eqb_spec w t) as [->|NW]; intro C.
    + exact (m_both _ _ _ _ _ _ _ M C).
    + destruct (m_ch _ _ _ _ _ _ _ M C) as [Y|Y]; eauto.
    + destruct (allocating x) eqn:E; [|reflexivity]. destruct (m_al _ _ _ _ _ _ _ M E) as [Y|Y]; [|rewrite (Y u NU) in C; discriminate]. rewrite (X u t C) in Y. discriminate.
    + eauto.
  - exact (m_done _ _ _ _ _ _ _ M).
Qed.

From Verif Require Import CBase RingBuffer2Model LifeModel LifeSpec LifeProof LifeProof2 LifeProof3 LifeProof4 LifeProof5 LifeProof6.

Definition inv (p : prog) : Prop :=
  wf (snd p) /\ exists fps, Forall2 (holds (hp (snd p))) (fst p) fps /\ NoDup (concat fps) /\ forall b, liblive (hp (snd p)) b -> In b (concat fps).
Lemma holds_in s x bs : wf s -> holds (hp s) x bs -> inside bs s.
Proof. intros W H. destruct x as (k & [| | |z|b o]); unfold holds in H; cbn [fst snd] in H; try (eapply obj_in; eassumption). subst. intros y []. Qed.
Lemma holds_same h h' x bs : holds h x bs -> same_on bs h h' -> holds h' x bs.
Proof. intros H S. destruct x as (k & [| | |z|b o]); unfold holds in *; cbn [fst snd] in *; try (eapply obj_same; eassumption). exact H. Qed.
Lemma holds_nodup h x bs : holds h x bs -> NoDup bs.
Proof. intros H. destruct x as (k & [| | |z|b o]); unfold holds in *; cbn [fst snd] in *; try (eapply obj_nodup; eassumption). subst. constructor. Qed.
Lemma holds_null h k bs : holds h (k, V0) bs <-> bs = [].
Proof. reflexivity. Qed.
Lemma holds_obj h k v bs : v <> V0 -> (holds h (k, v) bs <-> obj h k v bs).
Proof. intros N. destruct v; try reflexivity. congruence. Qed.
Lemma obj_ptr h k v bs : obj h k v bs -> v <> V0.
Proof. intros (b & -> & _). discriminate. Qed.
Lemma obj_holds h k v bs : obj h k v bs -> holds h (k, v) bs.
Proof. intros O. apply holds_obj; [eapply obj_ptr; eassumption | exact O]. Qed.

Lemma put_mid {A} (l1 l2 : list A) a b : put (length l1) b (l1 ++ a :: l2) = l1 ++ b :: l2.
Proof. induction l1; cbn; congruence. Qed.
Lemma pick vs fps h x k v : Forall2 (holds h) vs fps -> nth_error vs x = Some (k, v) ->
  exists l1 l2 f1 f2 bs, vs = l1 ++ (k, v) :: l2 /\ length l1 = x /\ fps = f1 ++ bs :: f2 /\ Forall2 (holds h) l1 f1 /\ Forall2 (holds h) l2 f2 /\ holds h (k, v) bs.
Proof.
  intros F E. apply nth_error_split in E. destruct E as (l1 & l2 & -> & Lx). apply Forall2_app_inv_l in F. destruct F as (f1 & f' & F1 & F2 & ->). inversion F2; subst. exists l1, l2, f1, l', y. auto 8.
Qed.
Lemma setv_mid l1 l2 k v v' : setv (length l1) v' (l1 ++ (k, v) :: l2) = l1 ++ (k, v') :: l2.
Proof. unfold setv. rewrite nth_error_app2, Nat.sub_diag by lia. cbn. apply put_mid. Qed.
Lemma Forall2_impl {A B} (P Q : A -> B -> Prop) l r : Forall2 P l r -> (forall a b, In a l -> In b r -> P a b -> Q a b) -> Forall2 Q l r.
Proof. induction 1; intros I; constructor; [apply I; cbn; auto | apply IHForall2; intros a b U V; apply I; cbn; auto]. Qed.
Lemma NoDup_app2 (a b : list nat) : NoDup a -> NoDup b -> apart a b -> NoDup (a ++ b).
Proof.
  induction a as [|x a IH]; cbn; intros Na Nb Ap; [exact Nb|]. inversion Na; subst. constructor; [rewrite in_app_iff; intros [X|X]; [contradiction | exact (Ap x (or_introl eq_refl) X)]|]. apply IH; auto. intros y Y. apply Ap. right. exact Y.
Qed.
Lemma in_concat_l (bs : list nat) fs x : In bs fs -> In x bs -> In x (concat fs).
Proof. intros A B. apply in_concat. eauto. Qed.
Lemma step_inv l1 l2 f1 f2 bs k v s v' s' bs' : wf s -> Forall2 (holds (hp s)) l1 f1 -> Forall2 (holds (hp s)) l2 f2 -> holds (hp s) (k, v) bs -> NoDup (concat (f1 ++ bs :: f2)) ->
  (forall b, liblive (hp s) b -> In b (concat (f1 ++ bs :: f2))) -> local bs bs' s s' -> holds (hp s') (k, v') bs' -> inv (l1 ++ (k, v') :: l2, s').
Proof.
  intros W F1 F2 H N C L H'. split; [exact (local_wf _ _ _ _ L)|]. exists (f1 ++ bs' :: f2). cbn [fst snd].
  assert (In1 : forall x, In x (concat f1) -> (x < nxt s)%nat). { intros x X. apply in_concat in X. destruct X as (fs & A & B). clear -W F1 A B. induction F1; [contradiction|]. destruct A as [<-|A]; [exact (holds_in _ _ _ W H x B) | auto]. }
  assert (In2 : forall x, In x (concat f2) -> (x < nxt s)%nat). { intros x X. apply in_concat in X. destruct X as (fs & A & B). clear -W F2 A B. induction F2; [contradiction|]. destruct A as [<-|A]; [exact (holds_in _ _ _ W H x B) | auto]. }
  rewrite concat_app in *. cbn [concat] in *. apply nodup_app in N. destruct N as (N1 & N & A1). apply nodup_app in N. destruct N as (N3 & N2 & A2).
  assert (Old1 : forall x, In x (concat f1) -> ~ In x bs) by (intros x X Y; apply (A1 x X), in_or_app; auto).
  assert (Old2 : forall x, In x (concat f2) -> ~ In x bs) by (intros x X Y; exact (A2 x Y X)).
  assert (O1 : forall x, In x (concat f1) -> ~ In x bs') by (intros x X; eapply new_out; [exact L | auto | auto]).
  assert (O2 : forall x, In x (concat f2) -> ~ In x bs') by (intros x X; eapply new_out; [exact L | auto | auto]).
  split; [|split].
  - apply Forall2_app; [|constructor; [exact H'|]].
    + eapply Forall2_impl; [exact F1|]. intros a b _ B P. eapply holds_same; [exact P|]. intros x X. pose proof (in_concat_l _ _ _ B X). apply (local_old _ _ _ _ x L); auto.
    + eapply Forall2_impl; [exact F2|]. intros a b _ B P. eapply holds_same; [exact P|]. intros x X. pose proof (in_concat_l _ _ _ B X). apply (local_old _ _ _ _ x L); auto.
  - apply NoDup_app2; [exact N1 | | ].
    + apply NoDup_app2; [eapply holds_nodup; exact H' | exact N2 |]. intros x X Y. exact (O2 x Y X).
    + intros x X Y. apply in_app_or in Y. destruct Y as [Y|Y]; [exact (O1 x X Y)|]. apply (A1 x X), in_or_app. auto.
  - intros b B. rewrite !in_app_iff. destruct (in_dec Nat.eq_dec b bs') as [I|I]; [auto|]. destruct L as (_ & _ & O & _ & LL & _).
    destruct (Nat.lt_ge_cases b (nxt s)) as [X|X]; [|elim I; apply LL; auto]. destruct (in_dec Nat.eq_dec b bs) as [Y|Y]; [elim I; apply LL; auto|].
    assert (B' : liblive (hp s) b) by (unfold liblive in *; rewrite (O b X Y) in B; exact B). apply C in B'. rewrite !in_app_iff in B'. tauto.
Qed.

(** what one operation does *)
Lemma put_same {A} (l : list A) x a : nth_error l x = Some a -> put x a l = l.
Proof. revert x. induction l as [|y l IH]; intros [|x]; cbn; intros E; try congruence. rewrite IH; auto. Qed.
Lemma op_spec o vs s : inv (vs, s) -> legal o vs ->
  match o with
  | Create x n m r => (nth_error vs x = None /\ do_op o (vs, s) = Ret (vs, s)) \/ exists k v s' bs, nth_error vs x = Some (k, V0) /\ create k n m r s = Ret (v, s') /\ do_op o (vs, s) = Ret (setv x v vs, s') /\ local [] bs s s' /\ holds (hp s') (k, v) bs /\ inv (setv x v vs, s')
  | Destroy x l => (nth_error vs x = None /\ do_op o (vs, s) = Ret (vs, s)) \/ exists k v s' bs, nth_error vs x = Some (k, v) /\ holds (hp s) (k, v) bs /\ destroy k l v s = Ret (V0, s') /\ do_op o (vs, s) = Ret (setv x V0 vs, s') /\ local bs [] s s' /\ inv (setv x V0 vs, s')
  | Grow x => do_op o (vs, s) = Ret (vs, s) \/ exists k v s' bs bs', nth_error vs x = Some (k, v) /\ obj (hp s) k v bs /\ grow k v s = Ret (tt, s') /\ do_op o (vs, s) = Ret (vs, s') /\ local bs bs' s s' /\ obj (hp s') k v bs' /\ inv (vs, s')
  end.
Proof.
  intros (W & fps & F & N & C) Lg. cbn [fst snd] in *. destruct o as [x n m r|x l|x]; cbn [do_op].
  - destruct (nth_error vs x) as [(k & v)|] eqn:E; [|auto]. right. destruct (Lg k v E) as (-> & Z). destruct (create_spec k n m r s W Z) as (v & s' & Ec & D).
    assert (D' : exists bs, local [] bs s s' /\ holds (hp s') (k, v) bs). { destruct D as [(-> & L)|(bs & L & O)]; [exists []; split; [exact L | reflexivity] | exists bs; split; [exact L | apply obj_holds, O]]. } destruct D' as (bs & L & H).
    exists k, v, s', bs. rewrite Ec. do 5 (split; [auto|]). destruct (pick _ _ _ _ _ _ F E) as (l1 & l2 & f1 & f2 & b0 & -> & <- & -> & F1 & F2 & H0). rewrite setv_mid. apply holds_null in H0. subst b0. exact (step_inv l1 l2 f1 f2 [] k V0 s v s' bs W F1 F2 eq_refl N C L H).
  - destruct (nth_error vs x) as [(k & v)|] eqn:E; [|auto]. right. destruct (pick _ _ _ _ _ _ F E) as (l1 & l2 & f1 & f2 & bs & -> & <- & -> & F1 & F2 & H0).
    assert (D : exists s', destroy k l v s = Ret (V0, s') /\ local bs [] s s').
    { destruct (match v with V0 => true | _ => false end) eqn:V.
      - destruct v; try discriminate. apply holds_null in H0. subst bs. exists s. split; [apply destroy_null; intros ->; apply Lg; exact E | apply local_refl; [exact W | apply in_none]].
      - apply destroy_spec; [exact W|]. apply holds_obj; [intros ->; discriminate | exact H0]. }
    destruct D as (s' & Ed & L). exists k, v, s', bs. rewrite Ed. do 5 (split; [auto|]). rewrite setv_mid. exact (step_inv l1 l2 f1 f2 bs k v s V0 s' [] W F1 F2 H0 N C L eq_refl).
  - destruct (nth_error vs x) as [(k & v)|] eqn:E; [|auto]. destruct (pick _ _ _ _ _ _ F E) as (l1 & l2 & f1 & f2 & bs & -> & <- & -> & F1 & F2 & H0).
    destruct (match v with V0 => true | _ => false end) eqn:V; [destruct v; try discriminate; auto|]. right. assert (Nv : v <> V0) by (intros ->; discriminate). apply holds_obj in H0; [|exact Nv].
    destruct (grow_spec k s v bs W H0) as (s' & bs' & Eg & L & O). exists k, v, s', bs, bs'. rewrite Eg. split; [auto|]. split; [auto|]. split; [auto|]. split; [destruct v; auto; congruence|]. split; [auto|]. split; [auto|].
    exact (step_inv l1 l2 f1 f2 bs k v s v s' bs' W F1 F2 (obj_holds _ _ _ _ H0) N C L (obj_holds _ _ _ _ O)).
Qed.
Lemma op_total o vs s : inv (vs, s) -> legal o vs -> exists p', do_op o (vs, s) = Ret p' /\ inv p'.
Proof.
  intros I Lg. pose proof (op_spec o vs s I Lg) as S. destruct o as [x n m r|x l|x].
  - destruct S as [(_ & ->)|(k & v & s' & bs & _ & _ & -> & _ & _ & I')]; eauto.
  - destruct S as [(_ & ->)|(k & v & s' & bs & _ & _ & _ & -> & _ & I')]; eauto.
  - destruct S as [->|(k & v & s' & bs & bs' & _ & _ & _ & -> & _ & _ & I')]; eauto.
Qed.
Lemma reach_inv o ks p : reach o ks p -> inv p.
Proof.
  induction 1 as [|o' p p' R IH Lg E].
  - split; [intros b _; reflexivity|]. exists (map (fun _ => []) ks). cbn [fst snd]. split; [|split].
    + induction ks; constructor; auto. reflexivity.
    + replace (concat (map (fun _ => []) ks)) with (@nil nat); [constructor|]. induction ks; auto.
    + intros b (c & B). discriminate.
  - destruct p as (vs & s). destruct (op_total o' vs s IH Lg) as (q & E' & I). rewrite E in E'. injection E' as ->. exact I.
Qed.

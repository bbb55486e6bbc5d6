From Verif Require Import CBase RingBuffer2Model RingBuffer2Proof LifeModel LifeSpec.

Definition wf (s : st) : Prop := forall b, (nxt s <= b)%nat -> hp s b = None.
(** f changed only the blocks A and new ones; of these, the library's are in B *)
Definition local (A B : list nat) (s s' : st) : Prop :=
  (nxt s <= nxt s')%nat /\ wf s' /\ (forall b, (b < nxt s)%nat -> ~ In b A -> hp s' b = hp s b) /\
  (forall b, In b B -> (In b A \/ (nxt s <= b)%nat) /\ (b < nxt s')%nat) /\
  (forall b, liblive (hp s') b -> In b A \/ (nxt s <= b)%nat -> In b B) /\
  (forall b c, (b < nxt s)%nat -> hp s b = Some (mk_b false c) -> exists c', hp s' b = Some (mk_b false c')).
Definition inside (A : list nat) (s : st) : Prop := forall b, In b A -> (b < nxt s)%nat.

Lemma upd_eq h b x : upd h b x b = x.
Proof. unfold upd. rewrite Nat.eqb_refl. reflexivity. Qed.
Lemma upd_ne h b x c : c <> b -> upd h b x c = h c.
Proof. intros N. unfold upd. apply Nat.eqb_neq in N. rewrite N. reflexivity. Qed.

Lemma local_refl A s : wf s -> inside A s -> local A A s s.
Proof.
  intros W I. split; [lia|]. split; [exact W|]. split; [auto|]. split; [intros b B; split; [left; exact B | apply I, B]|]. split; [|eauto].
  intros b (c & L) [B|B]; [exact B|]. rewrite (W b B) in L. discriminate.
Qed.
Lemma local_trans A B C s s1 s2 : local A B s s1 -> local B C s1 s2 -> local A C s s2.
Proof.
  intros (N1 & W1 & O1 & R1 & L1 & U1) (N2 & W2 & O2 & R2 & L2 & U2).
  assert (Out : forall b, (b < nxt s)%nat -> ~ In b A -> ~ In b B). { intros b X Y Z. destruct (R1 b Z) as ([|] & _); [auto | lia]. }
  split; [lia|]. split; [exact W2|]. split; [|split; [|split]].
  - intros b X Y. rewrite O2, O1; auto; lia.
  - intros b Z. destruct (R2 b Z) as ([X|X] & Y); split; try lia. apply R1 in X. tauto.
  - intros b L X. destruct (in_dec Nat.eq_dec b B) as [I|I]; [auto|]. destruct (Nat.lt_ge_cases b (nxt s1)) as [Y|Y]; [|auto].
    exfalso. apply I, L1; [|exact X]. unfold liblive in *. rewrite O2 in L; auto.
  - intros b c X Y. destruct (U1 b c X Y) as (c' & Y'). apply (U2 b c'); [lia | exact Y'].
Qed.
Lemma local_frame A B F s s' : local A B s s' -> inside F s -> local (A ++ F) (B ++ F) s s'.
Proof.
  intros (N1 & W1 & O1 & R1 & L1 & U1) I. split; [exact N1|]. split; [exact W1|]. split; [|split; [|split; [|exact U1]]].
  - intros b X Y. apply O1; [exact X|]. intros Z. apply Y, in_or_app. auto.
  - intros b Z. apply in_app_or in Z. destruct Z as [Z|Z]; [destruct (R1 b Z) as ([|] & ?); rewrite in_app_iff; auto|]. specialize (I b Z). rewrite in_app_iff. split; [auto | lia].
  - intros b L X. rewrite in_app_iff in *. destruct X as [[X|X]|X]; auto.
Qed.
Lemma local_eqv A B A' B' s s' : local A B s s' -> (forall b, In b A <-> In b A') -> (forall b, In b B <-> In b B') -> local A' B' s s'.
Proof.
  intros (N1 & W1 & O1 & R1 & L1 & U1) EA EB. split; [exact N1|]. split; [exact W1|]. split; [|split; [|split; [|exact U1]]].
  - intros b X Y. apply O1; [exact X|]. rewrite EA. exact Y.
  - intros b Z. rewrite <- EA. apply R1, EB, Z.
  - intros b L X. apply EB, L1; [exact L|]. rewrite EA. exact X.
Qed.
(** blocks released need not be listed *)
Lemma local_drop A B B' s s' : local A B s s' -> (forall b, In b B' -> In b B) -> (forall b, In b B -> liblive (hp s') b -> In b B') -> local A B' s s'.
Proof.
  intros (N1 & W1 & O1 & R1 & L1 & U1) EA EB. split; [exact N1|]. split; [exact W1|]. split; [exact O1|]. split; [|split; [|exact U1]].
  - intros b Z. apply R1, EA, Z.
  - intros b L X. apply EB; auto.
Qed.
Lemma local_wf A B s s' : local A B s s' -> wf s'.
Proof. intros (_ & W & _). exact W. Qed.
Lemma local_in A B s s' : local A B s s' -> inside B s'.
Proof. intros (_ & _ & _ & R & _) b I. apply R, I. Qed.
Lemma local_old A B s s' b : local A B s s' -> (b < nxt s)%nat -> ~ In b A -> hp s' b = hp s b.
Proof. intros (_ & _ & O & _). apply O. Qed.
Lemma live_lt s b x : wf s -> hp s b = Some x -> (b < nxt s)%nat.
Proof. intros W H. destruct (Nat.lt_ge_cases b (nxt s)); [assumption|]. rewrite W in H by assumption. discriminate. Qed.

(** primitive steps *)
Definition set_h (s : st) (h : nat -> option block) : st := mk_s (orc s) h (nxt s).
Lemma local_store A s b k c : wf s -> inside A s -> In b A -> hp s b = Some k -> local A A s (set_h s (upd (hp s) b (Some (mk_b (mine k) c)))).
Proof.
  intros W I Ib H. split; [cbn; lia|]. split; [|split; [|split; [|split]]].
  - intros x X. cbn in *. rewrite upd_ne; [apply W, X|]. specialize (I b Ib). lia.
  - intros x X Y. cbn. apply upd_ne. intros ->. contradiction.
  - intros x X. cbn. split; [auto | apply I, X].
  - intros x (c' & L) [X|X]; [exact X|]. cbn in *. rewrite upd_ne in L; [|specialize (I b Ib); lia]. rewrite W in L by exact X. discriminate.
  - intros x c' X Y. cbn. destruct (Nat.eq_dec x b) as [->|N]; [|rewrite upd_ne by exact N; eauto]. rewrite upd_eq. rewrite H in Y. injection Y as ->. cbn. eauto.
Qed.
Lemma local_fresh A s own c : wf s -> inside A s -> local A (nxt s :: A) s (mk_s (orc s) (upd (hp s) (nxt s) (Some (mk_b own c))) (S (nxt s))).
Proof.
  intros W I. split; [cbn; lia|]. split; [|split; [|split; [|split]]].
  - intros x X. cbn in *. rewrite upd_ne by lia. apply W. lia.
  - intros x X Y. cbn. apply upd_ne. lia.
  - intros x [<-|X]; cbn; [lia|]. specialize (I x X). split; [auto | lia].
  - intros x L [X|X]; [right; exact X|]. cbn in *. destruct (Nat.eq_dec x (nxt s)) as [->|N]; [auto|]. destruct L as (c' & L). rewrite upd_ne in L by exact N. rewrite W in L by exact X. discriminate.
  - intros x c' X Y. cbn. rewrite upd_ne by lia. eauto.
Qed.
Lemma local_free A s b c : wf s -> inside (b :: A) s -> hp s b = Some (mk_b true c) -> ~ In b A -> local (b :: A) A s (set_h s (upd (hp s) b None)).
Proof.
  intros W I H Nb. pose proof (I b (or_introl eq_refl)) as Lb. split; [cbn; lia|]. split; [|split; [|split; [|split]]].
  - intros x X. cbn in *. rewrite upd_ne by lia. apply W, X.
  - intros x X Y. cbn. apply upd_ne. intros ->. apply Y. left. reflexivity.
  - intros x X. cbn. split; [auto | apply I; right; exact X].
  - intros x (c' & L) [[<-|X]|X]; cbn in *; [rewrite upd_eq in L; discriminate | exact X|]. rewrite upd_ne in L by lia. rewrite W in L by exact X. discriminate.
  - intros x c' X Y. cbn. rewrite upd_ne; [eauto|]. intros ->. rewrite H in Y. discriminate.
Qed.
Lemma local_orc A B s s' o : local A B s s' -> local A B s (mk_s o (hp s') (nxt s')).
Proof. intros L. exact L. Qed.
Lemma local_orc' A B s s' o : local A B (mk_s o (hp s) (nxt s)) s' -> local A B s s'.
Proof. intros L. exact L. Qed.

(** evaluation of the primitives *)
Lemma free_ok s b c : hp s b = Some (mk_b true c) -> free_ (VP b 0) s = Ret (tt, set_h s (upd (hp s) b None)).
Proof. intros H. unfold free_. rewrite H. reflexivity. Qed.
Lemma load_ok s b o i k v : hp s b = Some k -> nth_error (cells k) (o + i) = Some v -> v <> VU -> load (VP b o) i s = Ret (v, s).
Proof. intros H N V. unfold load. rewrite H, N. destruct v; congruence. Qed.
Lemma store_ok s b o i k v c : hp s b = Some k -> lput (o + i) v (cells k) = Some c -> store (VP b o) i v s = Ret (tt, set_h s (upd (hp s) b (Some (mk_b (mine k) c)))).
Proof. intros H L. unfold store. rewrite H, L. reflexivity. Qed.
Lemma upd_upd h b x y : forall c, upd (upd h b x) b y c = upd h b y c.
Proof. intros c. unfold upd. destruct (Nat.eqb c b); reflexivity. Qed.
Lemma bnd_ok {A B} (m : M A) (f : A -> M B) s a s1 : m s = Ret (a, s1) -> bnd m f s = f a s1.
Proof. intros H. unfold bnd. rewrite H. reflexivity. Qed.
Lemma isnull_0 s : isnull V0 s = Ret (true, s). Proof. reflexivity. Qed.
Lemma isnull_p s b o : isnull (VP b o) s = Ret (false, s). Proof. reflexivity. Qed.
Ltac ev E := rewrite (bnd_ok _ _ _ _ _ E); cbv beta iota.
Lemma in_one b s x : wf s -> hp s b = Some x -> inside [b] s.
Proof. intros W H y [<-|[]]. eapply live_lt; eassumption. Qed.
Lemma in_none s : inside [] s. Proof. intros b []. Qed.

Lemma store_step s b o i k v c : wf s -> hp s b = Some k -> lput (o + i) v (cells k) = Some c ->
  exists s', store (VP b o) i v s = Ret (tt, s') /\ local [b] [b] s s' /\ hp s' b = Some (mk_b (mine k) c).
Proof.
  intros W H L. exists (set_h s (upd (hp s) b (Some (mk_b (mine k) c)))). split; [apply store_ok; assumption|]. split; [apply local_store; auto; [eapply in_one; eassumption | left; reflexivity]|]. apply upd_eq.
Qed.
Lemma free_step s b c : wf s -> hp s b = Some (mk_b true c) -> exists s', free_ (VP b 0) s = Ret (tt, s') /\ local [b] [] s s' /\ hp s' b = None.
Proof.
  intros W H. exists (set_h s (upd (hp s) b None)). split; [eapply free_ok; eassumption|]. split; [eapply local_free; eauto; eapply in_one; eassumption | apply upd_eq].
Qed.
Lemma fresh_step s own c : wf s -> exists b s', fresh own c s = Ret (VP b 0, s') /\ local [] [b] s s' /\ (nxt s <= b)%nat /\ hp s' b = Some (mk_b own c).
Proof.
  intros W. exists (nxt s). eexists. split; [reflexivity|]. split; [apply local_fresh; [exact W | apply in_none]|]. split; [lia | apply upd_eq].
Qed.
Lemma tick_step s : wf s -> exists b s', tick s = Ret (b, s') /\ local [] [] s s'.
Proof.
  intros W. unfold tick. destruct (orc s) as [|b t]; eexists; eexists; (split; [reflexivity|]); [|apply local_orc]; apply local_refl; auto; apply in_none.
Qed.
Definition got (n : nat) (x : val) (v : val) (s s' : st) : Prop :=
  (v = V0 /\ local [] [] s s') \/ (exists b, v = VP b 0 /\ local [] [b] s s' /\ (nxt s <= b)%nat /\ hp s' b = Some (mk_b true (repeat x n))).
Lemma alloc_step s n (x : val) : wf s -> exists v s', (ok <-- tick ;; if ok then fresh true (repeat x n) else ret V0) s = Ret (v, s') /\ got n x v s s'.
Proof.
  intros W. destruct (tick_step s W) as (ok & s1 & E1 & L1). ev E1. destruct ok.
  - destruct (fresh_step s1 true (repeat x n) (local_wf _ _ _ _ L1)) as (b & s2 & E2 & L2 & B2 & H2). exists (VP b 0), s2. split; [exact E2|]. right. exists b. split; [reflexivity|].
    split; [exact (local_trans _ _ _ _ _ _ L1 L2)|]. split; [destruct L1; lia | exact H2].
  - exists V0, s1. split; [reflexivity|]. left. auto.
Qed.
Lemma malloc_step s n : wf s -> exists v s', malloc_ n s = Ret (v, s') /\ got n VU v s s'.
Proof. exact (alloc_step s n VU). Qed.
Lemma calloc_step s n : wf s -> exists v s', calloc_ n s = Ret (v, s') /\ got n V0 v s s'.
Proof. exact (alloc_step s n V0). Qed.

(** a call within a function *)
Lemma call A0 A T B s0 s s' : local A0 A s0 s -> local T B s s' -> (forall x, In x T -> In x A) -> local A0 (B ++ A) s0 s'.
Proof.
  intros L L' Sub. eapply local_trans; [exact L|]. pose proof (local_frame _ _ A _ _ L' (local_in _ _ _ _ L)) as F. eapply local_eqv; [exact F | | intros b; reflexivity].
  intros b. rewrite in_app_iff. split; [intros [X|X]; auto | auto].
Qed.
Lemma call0 A0 A T s0 s s' : local A0 A s0 s -> local T T s s' -> (forall x, In x T -> In x A) -> local A0 A s0 s'.
Proof. intros L L' Sub. eapply local_eqv; [exact (call _ _ _ _ _ _ _ L L' Sub) | intros b; reflexivity|]. intros b. rewrite in_app_iff. split; [intros [X|X]; auto | auto]. Qed.
Lemma call1 A0 A T s0 s s' : local A0 A s0 s -> local T [] s s' -> (forall x, In x T -> In x A) -> local A0 A s0 s'.
Proof. intros L L' Sub. exact (call _ _ _ _ _ _ _ L L' Sub). Qed.
Lemma neq_fresh A0 A s0 s b x : local A0 A s0 s -> (nxt s <= b)%nat -> In x A -> x <> b.
Proof. intros L B I. pose proof (local_in _ _ _ _ L x I). lia. Qed.
(** Tactics. The context holds one cumulative fact L : local A0 A s0 s about the current state s and facts
    hp s x = ... about the blocks of A. *)
Ltac sub := cbn [In app]; intros; tauto.
Ltac ninl := cbn [In]; let X := fresh in intros X; repeat (destruct X as [X|X]); try contradiction; congruence.
Ltac carry L L' :=
  match type of L' with local _ _ ?s ?s' =>
    repeat match goal with HH : hp s ?x = ?v |- _ =>
      let K := fresh "K" in
      first [assert (K : hp s' x = v) by (rewrite (local_old _ _ _ _ x L'); [exact HH | apply (local_in _ _ _ _ L); sub | ninl]); clear HH; rename K into HH
            | clear HH] end end.
(** after the call E : f s = Ret (v, s') with L' : local T B s s' *)
Ltac done_call L L' := carry L L';
  first [ let K := fresh in pose proof (call0 _ _ _ _ _ _ L L') as K; specialize (K ltac:(sub)); clear L L'; rename K into L
        | let K := fresh in pose proof (call1 _ _ _ _ _ _ L L') as K; specialize (K ltac:(sub)); clear L L'; rename K into L
        | let K := fresh in pose proof (call _ _ _ _ _ _ _ L L') as K; specialize (K ltac:(sub)); clear L L'; rename K into L; cbn [app] in L ].
Ltac dostore L :=
  match goal with |- context [bnd (store (VP ?b ?o) ?i ?v) ?f ?s] =>
    match goal with H : hp s b = Some ?k |- _ =>
      let s' := fresh "s" in let E := fresh "E" in let L' := fresh "L" in let H' := fresh "H" in
      edestruct (store_step s b o i k v) as (s' & E & L' & H'); [exact (local_wf _ _ _ _ L) | exact H | cbn; reflexivity |]; ev E; clear E; cbn [mine] in H'; clear H; rename H' into H; done_call L L'
    end end.
Ltac dofree L :=
  match goal with |- context [bnd (free_ (VP ?b 0)) ?f ?s] =>
    match goal with H : hp s b = Some (mk_b true ?c) |- _ =>
      let s' := fresh "s" in let E := fresh "E" in let L' := fresh "L" in let H' := fresh "H" in
      destruct (free_step s b c (local_wf _ _ _ _ L) H) as (s' & E & L' & H'); ev E; clear E; clear H; rename H' into H; done_call L L'
    end end.
Ltac doload :=
  match goal with |- context [bnd (load (VP ?b ?o) ?i) ?f ?s] =>
    match goal with H : hp s b = Some ?k |- _ =>
      let E := fresh "E" in epose proof (load_ok s b o i k _ H) as E; cbn [cells nth_error plus] in E; specialize (E eq_refl ltac:(first [discriminate | assumption])); ev E; clear E
    end end.
Ltac donull := match goal with |- context [bnd (isnull V0) ?f ?s] => ev (isnull_0 s) | |- context [bnd (isnull (VP ?b ?o)) ?f ?s] => ev (isnull_p s b o) end.
Ltac start L s W A := assert (L : local A A s s); [apply local_refl; [exact W|]|].
(** forget the blocks that are no longer allocated *)
Ltac drop L := eapply local_drop; [exact L | sub |]; cbn [In app]; let x := fresh in let X := fresh in let c := fresh in let Y := fresh in intros x X (c & Y); repeat (destruct X as [X|X]); try contradiction; subst; try tauto; congruence.

(** ** rings *)
Lemma round_ok n : 1 < n <= 1073741824 -> exists r, (if is_power_of_2 n then Ret n else roundup_pow_of_two n) = Ret r /\ 2 <= r <= 1073741824.
Proof.
  intros H. destruct (is_power_of_2 n) eqn:E; [exists n; split; [reflexivity | lia]|]. destruct (roundup_spec n H) as (k & Hk & -> & _). exists (2 ^ k). split; [reflexivity|].
  split; [change 2 with (2 ^ 1) at 1; apply Z.pow_le_mono_r; lia | change 1073741824 with (2 ^ 30); apply Z.pow_le_mono_r; lia].
Qed.
(** five cells at offset o of block b become a ring structure *)
Definition ringlike (m : bool) (pre : list val) (b : nat) (s : st) : Prop := exists i o z, hp s b = Some (mk_b m (pre ++ [V0; VI i; VI o; VI z; VP b (length pre + 5)])).
Lemma rb_with_mem_step s b size m pre x0 x1 x2 x3 x4 : wf s -> (length pre <= 2)%nat -> hp s b = Some (mk_b m (pre ++ [x0; x1; x2; x3; x4])) -> 0 <= size <= 1073741824 + 24 ->
  exists v s', rb_with_mem (VP b (length pre)) size s = Ret (v, s') /\ local [b] [b] s s' /\
    ((v = V0 /\ hp s' b = hp s b /\ size < 28) \/ (v = VP b (length pre) /\ 28 <= size /\ ringlike m pre b s')).
Proof.
  intros W Lp H Hs. unfold rb_with_mem. donull. change (u32 (24 + 4)) with 28. start L s W [b]. { eapply in_one; eassumption. }
  destruct (size <? 28) eqn:E.
  { apply Z.ltb_lt in E. exists V0, s. split; [reflexivity|]. split; [exact L|]. left. auto. }
  apply Z.ltb_ge in E. replace (u32 (size - 24)) with (size - 24) by (unfold u32; rewrite Z.mod_small; unfold two32; lia).
  assert (X : exists z, (if is_power_of_2 (size - 24) then Ret (size - 24) else do r <- roundup_pow_of_two (size - 24); Ret (Z.shiftr r 1)) = Ret z).
  { destruct (round_ok (size - 24)) as (r & R & _); [lia|]. destruct (is_power_of_2 (size - 24)); [eauto|]. rewrite R. cbn. eauto. }
  destruct X as (z & X). rewrite X. unfold bnd at 1. cbn [pure].
  destruct pre as [|p0 [|p1 [|]]]; cbn [length app Nat.add] in *; try lia; do 5 dostore L; eexists; eexists; (split; [reflexivity|]); (split; [exact L|]); right; (split; [reflexivity|]); (split; [exact E|]); exists 0, 0, z; exact H.
Qed.
Lemma rb_create_step s n : wf s -> 0 <= n <= 1073741824 ->
  exists v s', rb_create_ n s = Ret (v, s') /\ ((v = V0 /\ local [] [] s s') \/ (exists b, v = VP b 0 /\ local [] [b] s s' /\ (nxt s <= b)%nat /\ ring_at (hp s') b)).
Proof.
  intros W Hn. unfold rb_create_. start L s W (@nil nat). { apply in_none. } destruct (n <? 2) eqn:C. { exists V0, s. split; [reflexivity|]. left. auto. }
  apply Z.ltb_ge in C. destruct (round_ok n) as (r & R & Hr); [lia|]. rewrite R. unfold bnd at 1. cbn [pure].
  destruct (calloc_step s 5 W) as (raw & s1 & E1 & [(-> & L1)|(b & -> & L1 & B & H)]); ev E1; donull.
  { exists V0, s1. split; [reflexivity|]. left. auto. }
  done_call L L1. replace (u32 (24 + r)) with (24 + r) by (unfold u32; rewrite Z.mod_small; unfold two32; lia).
  destruct (rb_with_mem_step s1 b (24 + r) true [] V0 V0 V0 V0 V0 (local_wf _ _ _ _ L)) as (v & s2 & E2 & L2 & D); [cbn; lia | exact H | lia |]. ev E2.
  destruct D as [(-> & H2 & _)|(-> & _ & i & o & z & H2)].
  - rewrite H in H2. clear H. done_call L L2. cbn [repeat] in H2. donull. dofree L. exists V0. eexists. split; [reflexivity|]. left. split; [reflexivity|]. drop L.
  - clear H. done_call L L2. cbn [length] in *. donull. dostore L. exists (VP b 0). eexists. split; [reflexivity|]. right. exists b. split; [reflexivity|]. split; [exact L|]. split; [exact B|]. exists i, o, z. exact H2.
Qed.
Lemma rb_destroy_emb s b m pre : wf s -> (length pre <= 2)%nat -> ringlike m pre b s ->
  exists s', rb_destroy_ (VP b (length pre)) s = Ret (V0, s') /\ local [b] [b] s s' /\ ringlike m pre b s'.
Proof.
  intros W Lp (i & o & z & H). unfold rb_destroy_. donull. start L s W [b]. { eapply in_one; eassumption. }
  destruct pre as [|p0 [|p1 [|]]]; cbn [length app Nat.add] in *; try lia; do 3 dostore L; doload; unfold bnd; cbn [truth ret]; eexists; (split; [reflexivity|]); (split; [exact L|]); exists 0, 0, 0; exact H.
Qed.
Lemma rb_destroy_own s b : wf s -> ring_at (hp s) b -> exists s', rb_destroy_ (VP b 0) s = Ret (V0, s') /\ local [b] [] s s' /\ hp s' b = None.
Proof.
  intros W (i & o & z & H). unfold rb_destroy_. donull. start L s W [b]. { eapply in_one; eassumption. }
  do 3 dostore L. doload. cbn [truth]. match goal with |- context [bnd (ret true) _ ?s0] => ev (eq_refl : ret true s0 = Ret (true, s0)) end.
  match goal with |- context [bnd (bnd ?m ?f) ?g ?s0] => assert (X : exists s1, bnd m f s0 = Ret (tt, s1) /\ local [b] [] s s1 /\ hp s1 b = None) end.
  { do 2 dostore L. match goal with |- context [free_ _ ?s0] => destruct (free_step s0 b _ (local_wf _ _ _ _ L) H) as (sz & E4 & L4 & H4) end. rewrite E4. eexists. split; [reflexivity|]. split; [exact (local_trans _ _ _ _ _ _ L L4) | exact H4]. }
  destruct X as (sy & Ey & Ly & Hy). ev Ey. eexists. split; [reflexivity|]. auto.
Qed.
(** ** ring_buf *)
Definition rglike (m : bool) (own : val) (b : nat) (h : nat -> option block) : Prop := exists i o z, h b = Some (mk_b m [own; VP b 5; VI z; VI i; VI o]).
Lemma rg_with_mem_step s b size m x0 x1 x2 x3 x4 : wf s -> hp s b = Some (mk_b m [x0; x1; x2; x3; x4]) ->
  exists v s', rg_with_mem (VP b 0) size s = Ret (v, s') /\ local [b] [b] s s' /\ ((v = V0 /\ hp s' b = hp s b) \/ (v = VP b 0 /\ rglike m V0 b (hp s'))).
Proof.
  intros W H. unfold rg_with_mem. donull. start L s W [b]. { eapply in_one; eassumption. } destruct (size <? 40 + 3).
  { exists V0, s. split; [reflexivity|]. split; [exact L|]. auto. }
  cbn [off Nat.add]. do 5 dostore L. eexists; eexists. split; [reflexivity|]. split; [exact L|]. right. split; [reflexivity|]. eexists _, _, _. exact H.
Qed.
Lemma rg_create_step s n : wf s ->
  exists v s', rg_create n s = Ret (v, s') /\ ((v = V0 /\ local [] [] s s') \/ (exists b, v = VP b 0 /\ local [] [b] s s' /\ (nxt s <= b)%nat /\ rglike true VT b (hp s'))).
Proof.
  intros W. unfold rg_create. start L s W (@nil nat). { apply in_none. } destruct (n <? 3). { exists V0, s. split; [reflexivity|]. left. auto. }
  destruct (malloc_step s 5 W) as (raw & s1 & E1 & [(-> & L1)|(b & -> & L1 & B & H)]); ev E1; donull.
  { exists V0, s1. split; [reflexivity|]. left. auto. }
  done_call L L1. destruct (rg_with_mem_step s1 b (u64 (n + 40)) true VU VU VU VU VU (local_wf _ _ _ _ L) H) as (v & s2 & E2 & L2 & D). ev E2.
  destruct D as [(-> & H2)|(-> & i & o & z & H2)].
  - rewrite H in H2. clear H. done_call L L2. donull. dofree L. exists V0. eexists. split; [reflexivity|]. left. split; [reflexivity|]. drop L.
  - clear H. done_call L L2. donull. dostore L. exists (VP b 0). eexists. split; [reflexivity|]. right. exists b. split; [reflexivity|]. split; [exact L|]. split; [exact B|]. exists i, o, z. exact H2.
Qed.
Lemma rg_destroy_mem s b m : wf s -> rglike m V0 b (hp s) -> exists s', rg_destroy (VP b 0) s = Ret (V0, s') /\ local [b] [b] s s' /\ hp s' b = hp s b.
Proof.
  intros W (i & o & z & H). unfold rg_destroy. donull. start L s W [b]. { eapply in_one; eassumption. } doload. cbn [truth]. exists s. split; [reflexivity|]. auto.
Qed.
Lemma rg_destroy_own s b : wf s -> rglike true VT b (hp s) -> exists s', rg_destroy (VP b 0) s = Ret (V0, s') /\ local [b] [] s s' /\ hp s' b = None.
Proof.
  intros W (i & o & z & H). unfold rg_destroy. donull. start L s W [b]. { eapply in_one; eassumption. }
  doload. cbn [truth]. ev (eq_refl : ret true s = Ret (true, s)).
  match goal with |- context [bnd (bnd ?m ?f) ?g ?s0] => assert (X : exists s1, bnd m f s0 = Ret (tt, s1) /\ local [b] [] s s1 /\ hp s1 b = None) end.
  { do 2 dostore L. match goal with |- context [free_ _ ?s0] => destruct (free_step s0 b _ (local_wf _ _ _ _ L) H) as (sz & E4 & L4 & H4) end. rewrite E4. eexists. split; [reflexivity|]. split; [exact (local_trans _ _ _ _ _ _ L L4) | exact H4]. }
  destruct X as (sy & Ey & Ly & Hy). ev Ey. eexists. split; [reflexivity|]. auto.
Qed.
(** ** queues *)
Lemma mq_create_step s n : wf s -> 0 <= n <= 1073741824 ->
  exists v s', mq_create_ n s = Ret (v, s') /\ ((v = V0 /\ local [] [] s s') \/ (exists b, v = VP b 0 /\ local [] [b] s s' /\ (nxt s <= b)%nat /\ queue_at false (hp s') b)).
Proof.
  intros W Hn. unfold mq_create_. start L s W (@nil nat). { apply in_none. } destruct (n <? 4 + 4). { exists V0, s. split; [reflexivity|]. left. auto. }
  destruct (malloc_step s 6 W) as (raw & s1 & E1 & [(-> & L1)|(b & -> & L1 & B & H)]); ev E1; donull.
  { exists V0, s1. split; [reflexivity|]. left. auto. }
  done_call L L1. destruct (rb_with_mem_step s1 b n true [VU] VU VU VU VU VU (local_wf _ _ _ _ L)) as (v & s2 & E2 & L2 & D); [cbn; lia | exact H | lia |]. cbn [off Nat.add length] in *. ev E2.
  destruct D as [(-> & H2 & _)|(-> & _ & i & o & z & H2)].
  - rewrite H in H2. clear H. done_call L L2. cbn [repeat] in H2. dostore L. donull. dofree L. exists V0. eexists. split; [reflexivity|]. left. split; [reflexivity|]. drop L.
  - clear H. done_call L L2. cbn [length app Nat.add] in *. dostore L. donull. exists (VP b 0). eexists. split; [reflexivity|]. right. exists b. split; [reflexivity|]. split; [exact L|]. split; [exact B|]. exists i, o, z, 0. exact H2.
Qed.
Lemma fq_create_step s n m : wf s -> 0 <= n < two32 -> 0 <= m < two32 -> n * m <= 1073741824 ->
  exists v s', fq_create_ n m s = Ret (v, s') /\ ((v = V0 /\ local [] [] s s') \/ (exists b, v = VP b 0 /\ local [] [b] s s' /\ (nxt s <= b)%nat /\ queue_at true (hp s') b)).
Proof.
  intros W Hn Hm P. unfold fq_create_. start L s W (@nil nat). { apply in_none. } destruct ((n <? 1) || (m <? 1)) eqn:C. { exists V0, s. split; [reflexivity|]. left. auto. }
  destruct (malloc_step s 7 W) as (raw & s1 & E1 & [(-> & L1)|(b & -> & L1 & B & H)]); ev E1; donull.
  { exists V0, s1. split; [reflexivity|]. left. auto. }
  done_call L L1. cbn [repeat] in H. dostore L. assert (0 <= n * m) by nia. replace (u32 (n * m)) with (n * m) by (unfold u32; rewrite Z.mod_small; unfold two32; lia).
  destruct (rb_with_mem_step s0 b (n * m) true [VU; VI n] VU VU VU VU VU (local_wf _ _ _ _ L)) as (v & s2 & E2 & L2 & D); [cbn; lia | exact H | lia |]. cbn [off Nat.add length] in *. ev E2.
  destruct D as [(-> & H2 & _)|(-> & _ & i & o & z & H2)].
  - rewrite H in H2. clear H. done_call L L2. dostore L. donull. dofree L. exists V0. eexists. split; [reflexivity|]. left. split; [reflexivity|]. drop L.
  - clear H. done_call L L2. cbn [length app Nat.add] in *. dostore L. donull. exists (VP b 0). eexists. split; [reflexivity|]. right. exists b. split; [reflexivity|]. split; [exact L|]. split; [exact B|]. exists i, o, z, n. exact H2.
Qed.
Lemma q_create_step (fixed : bool) s n : wf s -> 0 <= n <= (if fixed then 1000000 else 1073741824) ->
  exists v s', q_create fixed n s = Ret (v, s') /\ ((v = V0 /\ local [] [] s s') \/ (exists b, v = VP b 0 /\ local [] [b] s s' /\ (nxt s <= b)%nat /\ queue_at fixed (hp s') b)).
Proof. destruct fixed; intros W H; cbn [q_create]; [apply fq_create_step; auto; unfold two32; lia | apply mq_create_step; auto]. Qed.
Lemma q_destroy_step fixed s b : wf s -> queue_at fixed (hp s) b -> exists s', q_destroy fixed (VP b 0) s = Ret (V0, s') /\ local [b] [] s s' /\ hp s' b = None.
Proof.
  intros W (i & o & z & w & H). start L s W [b]. { eapply in_one; eassumption. } destruct fixed; cbn [q_destroy]; unfold fq_destroy, mq_destroy.
  - donull. doload. destruct (rb_destroy_emb s b true [VP b 2; VI w] W) as (s1 & E1 & L1 & (i' & o' & z' & H1)); [cbn; lia | exists i, o, z; exact H|]. cbn [length] in *. ev E1. clear H. done_call L L1. cbn [app length Nat.add] in *. dostore L. dofree L.
    eexists. split; [reflexivity|]. split; [drop L | exact H1].
  - doload. donull. destruct (rb_destroy_emb s b true [VP b 1] W) as (s1 & E1 & L1 & (i' & o' & z' & H1)); [cbn; lia | exists i, o, z; exact H|]. cbn [length] in *. ev E1. clear H. done_call L L1. cbn [app length Nat.add] in *. dostore L. dofree L.
    eexists. split; [reflexivity|]. split; [drop L | exact H1].
Qed.
(** ** autocover buffer, string builder *)
Lemma ac_create_step s n : wf s -> 0 <= n <= 1073741824 ->
  exists v s', ac_create_ n s = Ret (v, s') /\ ((v = V0 /\ local [] [] s s') \/ (exists b r, v = VP b 0 /\ local [] [b; r] s s' /\ (nxt s <= b)%nat /\ (nxt s <= r)%nat /\ b <> r /\ hp s' b = Some (mk_b true [VP r 0]) /\ ring_at (hp s') r)).
Proof.
  intros W Hn. unfold ac_create_. start L s W (@nil nat). { apply in_none. }
  destruct (calloc_step s 1 W) as (a & s1 & E1 & [(-> & L1)|(b & -> & L1 & B & H)]); ev E1; donull.
  { exists V0, s1. split; [reflexivity|]. left. auto. }
  done_call L L1. destruct (rb_create_step s1 n (local_wf _ _ _ _ L) Hn) as (v & s2 & E2 & [(-> & L2)|(r & -> & L2 & R & (i & o & z & H2))]); ev E2.
  - done_call L L2. cbn [repeat] in *. dostore L. donull. dofree L. exists V0. eexists. split; [reflexivity|]. left. split; [reflexivity|]. drop L.
  - assert (N : b <> r) by (eapply neq_fresh; [exact L | exact R | sub]). assert (R' : (nxt s <= r)%nat) by (destruct L; lia). done_call L L2. cbn [repeat] in *. dostore L. donull. exists (VP b 0). eexists. split; [reflexivity|]. right. exists b, r. split; [reflexivity|].
    split; [eapply local_eqv; [exact L | sub | cbn [In]; intros; tauto]|]. split; [exact B|]. split; [exact R'|]. split; [exact N|]. split; [exact H|]. exists i, o, z. exact H2.
Qed.
Lemma ac_destroy_step s b r : wf s -> b <> r -> hp s b = Some (mk_b true [VP r 0]) -> ring_at (hp s) r -> exists s', ac_destroy (VP b 0) s = Ret (V0, s') /\ local [b; r] [] s s'.
Proof.
  intros W N H R. unfold ac_destroy. donull. start L s W [b; r]. { intros x [<-|[<-|[]]]; [eapply live_lt; eauto|]. destruct R as (? & ? & ? & R). eapply live_lt; eauto. }
  doload. destruct (rb_destroy_own s r W R) as (s1 & E1 & L1 & H1). ev E1. done_call L L1. dostore L. dofree L. eexists. split; [reflexivity|]. drop L.
Qed.
Lemma sb_create_step s : wf s ->
  exists v s', sb_create_ s = Ret (v, s') /\ ((v = V0 /\ local [] [] s s') \/ (exists b d, v = VP b 0 /\ local [] [b; d] s s' /\ (nxt s <= b)%nat /\ (nxt s <= d)%nat /\ b <> d /\ hp s' b = Some (mk_b true [VP d 0]) /\ liblive (hp s') d)).
Proof.
  intros W. unfold sb_create_. start L s W (@nil nat). { apply in_none. }
  destruct (malloc_step s 1 W) as (a & s1 & E1 & [(-> & L1)|(b & -> & L1 & B & H)]); ev E1; donull.
  { exists V0, s1. split; [reflexivity|]. left. auto. }
  done_call L L1. destruct (malloc_step s1 1 (local_wf _ _ _ _ L)) as (v & s2 & E2 & [(-> & L2)|(d & -> & L2 & R & H2)]); ev E2; donull; cbn [repeat] in *.
  - done_call L L2. dofree L. exists V0. eexists. split; [reflexivity|]. left. split; [reflexivity|]. drop L.
  - assert (N : b <> d) by (eapply neq_fresh; [exact L | exact R | sub]). assert (R' : (nxt s <= d)%nat) by (destruct L; lia). done_call L L2. dostore L. exists (VP b 0). eexists. split; [reflexivity|]. right. exists b, d. split; [reflexivity|].
    split; [eapply local_eqv; [exact L | sub | cbn [In]; intros; tauto]|]. split; [exact B|]. split; [exact R'|]. split; [exact N|]. split; [exact H|]. eexists. exact H2.
Qed.
Lemma sb_destroy_step s b d : wf s -> b <> d -> hp s b = Some (mk_b true [VP d 0]) -> liblive (hp s) d -> exists s', sb_destroy (VP b 0) s = Ret (V0, s') /\ local [b; d] [] s s'.
Proof.
  intros W N H (c & R). unfold sb_destroy. donull. start L s W [b; d]. { intros x [<-|[<-|[]]]; eapply live_lt; eauto. }
  doload. dofree L. dostore L. dofree L. eexists. split; [reflexivity|]. drop L.
Qed.

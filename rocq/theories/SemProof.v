(** Proofs about semaphores. *)
From Verif Require Import CBase SeqLib ThreadLib CStr SemModel SemSpec.

Lemma s32_le : forall x, 0 <= x -> s32 x <= x.
Proof.
  intros x H. unfold s32. pose proof (Z.mod_le (x + two31) two32). assert (two32 > 0) by reflexivity. assert (0 < two31) by reflexivity. lia.
Qed.
Lemma s32_small : forall x, 0 <= x < two31 -> s32 x = x.
Proof. intros x H. unfold s32. rewrite Z.mod_small; unfold two31, two32 in *; lia. Qed.
Lemma text_take : forall n l, text l -> text (ztake n l).
Proof. intros n l T. unfold ztake, text in *. generalize (Z.to_nat n). intros k. revert k. induction T as [|c l H T IH]; intros [|k]; cbn; auto. Qed.

Lemma full_name_ok : forall junk name value, zlen junk = 512 -> text name ->
  full_name junk name value = Ret (if (SEM_VALUE_MAX <? value) || (504 <? s32 (zlen name)) || (s32 (zlen name) <? 1) then None else Some (prefix ++ ztake (s32 (zlen name)) name)).
Proof.
  intros junk name value J T. unfold full_name. change (512 - 8) with 504. set (len := s32 (zlen name)).
  destruct ((SEM_VALUE_MAX <? value) || (504 <? len) || (len <? 1)) eqn:C; [reflexivity|].
  apply orb_false_elim in C. destruct C as (C & C1). apply orb_false_elim in C. destruct C as (_ & C2). apply Z.ltb_ge in C1, C2.
  pose proof (s32_le (zlen name) (zlen_nonneg _)) as LE. fold len in LE.
  destruct (split_first_n 7 junk ltac:(lia)) as (a & r & -> & La). rewrite zlen_app in J. destruct (split_first_n len r ltac:(lia)) as (b & r2 & -> & Lb).
  rewrite zlen_app in J. destruct (zlen_pos_cons r2 ltac:(lia)) as (x & r3 & ->).
  pose proof (mwrite_app [] prefix a (b ++ x :: r3) 0 eq_refl ltac:(exact (eq_sym La))) as W1. cbn [app] in W1. 
  change (a ++ b ++ x :: r3) with ([] ++ a ++ b ++ x :: r3). cbn [app]. rewrite W1. cbn [bind].
  rewrite mread_ok by (rewrite ?zlen_app; change (zlen [0]) with 1; lia). cbn [bind].
  assert (Z : zsub 0 len (name ++ [0]) = ztake len name) by (unfold zsub; rewrite zdrop_0; apply ztake_app_l; lia). rewrite Z.
  rewrite (mwrite_app prefix (ztake len name) b (x :: r3) 7 eq_refl) by (rewrite zlen_ztake; lia). cbn [bind].
  unfold mstore. pose proof (mwrite_app (prefix ++ ztake len name) [0] [x] r3 (len + 7)) as W2. rewrite <- !app_assoc in W2. cbn [app] in W2.
  change ([x] ++ r3) with (x :: r3) in W2. replace (prefix ++ ztake len name ++ x :: r3) with ((prefix ++ ztake len name) ++ x :: r3) by (rewrite <- app_assoc; reflexivity).
  pose proof (mwrite_app (prefix ++ ztake len name) [0] [x] r3 (len + 7)) as W3. change ([x] ++ r3) with (x :: r3) in W3. change ([0] ++ r3) with (0 :: r3) in W3.
  rewrite W3; [|rewrite zlen_app, zlen_ztake by lia; change (zlen prefix) with 7; lia | reflexivity]. cbn [bind].
  pose proof (cstr_at_text [] (prefix ++ ztake len name) r3 0 eq_refl) as K. cbn [app] in K.
  rewrite <- (app_assoc _ [0]). cbn [app]. rewrite K; [reflexivity|].
  apply text_app. split; [repeat constructor; discriminate | apply text_take, T].
Qed.

(** the kernel's names *)
Lemma zeqb_eq : forall a b, zeqb a b = true <-> a = b.
Proof.
  induction a as [|x a IH]; intros [|y b]; cbn; split; try discriminate; try reflexivity.
  - intros H. apply andb_prop in H. destruct H as (H1 & H2). apply Z.eqb_eq in H1. apply IH in H2. congruence.
  - intros H. injection H as -> ->. rewrite Z.eqb_refl. apply IH. reflexivity.
Qed.
Lemma lookup_from_Some : forall k n name i, lookup_from n name k = Some i -> exists j o, i = (n + j)%nat /\ nth_error k j = Some o /\ kname o = name /\ 0 < krefs o.
Proof.
  induction k as [|o k IH]; intros n name i H; cbn in H; [discriminate|]. destruct (zeqb (kname o) name && (0 <? krefs o)) eqn:E.
  - injection H as <-. apply andb_prop in E. destruct E as (E1 & E2). apply zeqb_eq in E1. exists O, o. split; [lia|]. split; [reflexivity|]. split; [exact E1 | lia].
  - destruct (IH _ _ _ H) as (j & o' & -> & A & B & C). exists (S j), o'. split; [lia | auto].
Qed.
Lemma lookup_from_None : forall k n name, lookup_from n name k = None <-> forall o, In o k -> kname o = name -> krefs o <= 0.
Proof.
  induction k as [|o k IH]; intros n name; cbn; [split; [intros _ ? [] | reflexivity]|]. destruct (zeqb (kname o) name && (0 <? krefs o)) eqn:E.
  - split; [discriminate|]. intros H. apply andb_prop in E. destruct E as (E1 & E2). apply zeqb_eq in E1. specialize (H o (or_introl eq_refl) E1). lia.
  - rewrite IH. split; intros H o' X N; [|apply H; auto]. destruct X as [<-|X]; [|apply H; auto].
    apply andb_false_iff in E. destruct E as [E|E]; [|lia]. apply zeqb_eq in N. congruence.
Qed.
Lemma lookup_Some : forall k name i, lookup name k = Some i -> exists o, nth_error k i = Some o /\ kname o = name /\ 0 < krefs o.
Proof. intros k name i H. destruct (lookup_from_Some _ _ _ _ H) as (j & o & -> & X). exists o. exact X. Qed.
Lemma lookup_app : forall k n name o, lookup_from n name k = None -> kname o = name -> 0 < krefs o -> lookup_from n name (k ++ [o]) = Some (n + length k)%nat.
Proof.
  induction k as [|o' k IH]; intros n name o H N R; cbn in *.
  - apply zeqb_eq in N. rewrite N. replace (0 <? krefs o) with true by lia. cbn. f_equal. lia.
  - destruct (_ && _); [discriminate|]. rewrite (IH _ _ _ H N R). f_equal. lia.
Qed.
Lemma add_ref_add_ref : forall k i o d1 d2, nth_error k i = Some o -> add_ref i d2 (add_ref i d1 k) = add_ref i (d1 + d2) k.
Proof.
  intros k i o d1 d2 E. unfold add_ref. rewrite E. rewrite (lset_eq _ _ _ _ E). cbn. rewrite lset_lset. rewrite Z.add_assoc. reflexivity.
Qed.
Lemma add_ref_0 : forall k i, add_ref i 0 k = k.
Proof. intros k i. unfold add_ref. destruct (nth_error k i) as [o|] eqn:E; [|reflexivity]. apply lset_same. rewrite E. destruct o. cbn. rewrite Z.add_0_r. reflexivity. Qed.
Lemma open_close : forall k name i, lookup name k = Some i -> close_handle i (add_ref i 1 k) = (true, k).
Proof.
  intros k name i H. destruct (lookup_Some _ _ _ H) as (o & E & _ & R). unfold close_handle. unfold add_ref at 1. rewrite E. rewrite (lset_eq _ _ _ _ E). cbn [krefs].
  replace (0 <? krefs o + 1) with true by lia. rewrite (add_ref_add_ref _ _ _ _ _ E). rewrite add_ref_0. reflexivity.
Qed.

(** printing an address *)
Lemma hex_len : forall n x, zlen (hex n x) = Z.of_nat n.
Proof. induction n as [|n IH]; intros x; [reflexivity|]. cbn [hex]. rewrite zlen_snoc, IH. lia. Qed.
Lemma hexdigit : forall d, 0 <= d < 16 -> (if d <? 10 then 48 + d else 55 + d) <> 0.
Proof. intros d H. destruct (d <? 10) eqn:E; lia. Qed.
Lemma hex_text : forall n x, text (hex n x).
Proof.
  induction n as [|n IH]; intros x; [constructor|]. cbn [hex]. apply text_app. split; [apply IH|]. constructor; [|constructor]. apply hexdigit. apply Z.mod_pos_bound. lia.
Qed.
Lemma hex_inj : forall n x y, 0 <= x < 16 ^ Z.of_nat n -> 0 <= y < 16 ^ Z.of_nat n -> hex n x = hex n y -> x = y.
Proof.
  induction n as [|n IH]; intros x y X Y H; [cbn in X, Y; lia|]. cbn [hex] in H. apply app_inj_tail in H. destruct H as (H1 & H2).
  rewrite Nat2Z.inj_succ, Z.pow_succ_r in X, Y by lia.
  apply IH in H1; [|split; [apply Z.div_pos; lia | apply Z.div_lt_upper_bound; lia] | split; [apply Z.div_pos; lia | apply Z.div_lt_upper_bound; lia]].
  assert (M : x mod 16 = y mod 16).
  { pose proof (Z.mod_pos_bound x 16 ltac:(lia)). pose proof (Z.mod_pos_bound y 16 ltac:(lia)). destruct (x mod 16 <? 10) eqn:A, (y mod 16 <? 10) eqn:B; lia. }
  rewrite (Z.div_mod x 16), (Z.div_mod y 16) by lia. congruence.
Qed.
Lemma init_name_ok : forall addr, init_name addr = Ret (prefix ++ hex 16 addr).
Proof.
  intros addr. unfold init_name, snprintf_at. change (24 =? 0) with false. cbv iota. change (24 - 1) with 23.
  assert (L : zlen (prefix ++ hex 16 addr) = 23) by (rewrite zlen_app, hex_len; reflexivity).
  rewrite ztake_all by lia. pose proof (mwrite_app [] ((prefix ++ hex 16 addr) ++ [0]) (repeat 0 24) [] 0 eq_refl) as W. rewrite app_nil_r in W. cbn [app] in W.
  rewrite W by (rewrite zlen_snoc, L; reflexivity). cbn [bind fst]. rewrite app_nil_r.
  apply (cstr_at_text [] (prefix ++ hex 16 addr) [] 0 eq_refl). apply text_app. split; [repeat constructor; discriminate | apply hex_text].
Qed.

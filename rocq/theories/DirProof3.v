From Verif Require Import CBase SeqLib DirModel DirSpec DirProof.
From Coq Require Import Permutation.

Lemma release_perm : forall i rest w, sane w -> Permutation (live w) (i :: rest) ->
  exists w', release i w = Ret w' /\ Permutation (live w') rest /\ sane w' /\ orc w' = orc w.
Proof.
  intros i rest w S P. assert (I : In i (live w)) by (eapply Permutation_in; [apply Permutation_sym; eauto|left; auto]).
  apply in_split in I. destruct I as (a & b & E). destruct (release_at i a b w S E) as (w' & R & L & _ & O & S').
  exists w'. split; [auto|]. split; [|auto]. rewrite L. rewrite E in P.
  apply Permutation_cons_inv with (a := i). eapply Permutation_trans; [apply Permutation_middle|]. auto.
Qed.
Lemma release_all_perm : forall l rest w, sane w -> Permutation (live w) (l ++ rest) ->
  exists w', release_all l w = Ret w' /\ Permutation (live w') rest /\ sane w' /\ orc w' = orc w.
Proof.
  induction l as [|i l IH]; intros rest w S P; cbn [release_all]; [eauto|].
  destruct (release_perm i (l ++ rest) w S P) as (w1 & E & P1 & S1 & O1). rewrite E. cbn [bind].
  destruct (IH rest w1 S1 P1) as (w2 & E2 & P2 & S2 & O2). exists w2. split; [auto|]. split; [auto|]. split; [auto|]. congruence.
Qed.
Lemma release_opt_perm : forall o rest w, sane w -> Permutation (live w) (opt_list o ++ rest) ->
  exists w', release_opt o w = Ret w' /\ Permutation (live w') rest /\ sane w' /\ orc w' = orc w.
Proof. intros [i|] rest w S P; cbn in *; [apply release_perm; auto|eauto]. Qed.

Lemma move_front : forall (rest l base : list nat), Permutation (rest ++ l ++ base) (l ++ rest ++ base).
Proof. intros. rewrite !app_assoc. apply Permutation_app_tail. apply Permutation_app_comm. Qed.
(** closing among other blocks *)
Lemma close_perm : forall base p d w0 w rest, stands base p d w0 -> sane w -> Permutation (live w) (rest ++ live w0) ->
  exists w', closedir d w = Ret (0, w') /\ Permutation (live w') (rest ++ base) /\ sane w'.
Proof.
  intros base p d w0 w rest X S P.
  assert (A : exists w1, match hnd d with Some (i, _) => release i w | None => Ret w end = Ret w1 /\ sane w1 /\
            Permutation (live w1) (p_id d :: w_id d :: d_id d :: rest ++ base) /\ (1 <= p_id d)%nat).
  { destruct p; destruct X as (S0 & P0 & X).
    - destruct X as (I & i & t & H & L & V). rewrite H.
      destruct (release_perm i (p_id d :: w_id d :: d_id d :: rest ++ base) w S) as (w1 & E1 & P1 & S1 & _); [|eauto].
      eapply Permutation_trans; [eassumption|]. rewrite V. apply (move_front rest [i; p_id d; w_id d; d_id d] base).
    - destruct X as (I & i & t & H & V). rewrite H.
      destruct (release_perm i (p_id d :: w_id d :: d_id d :: rest ++ base) w S) as (w1 & E1 & P1 & S1 & _); [|eauto].
      eapply Permutation_trans; [eassumption|]. rewrite V. apply (move_front rest [i; p_id d; w_id d; d_id d] base).
    - destruct X as (I & H & V). rewrite H. exists w. split; [auto|]. split; [auto|]. split; [|auto].
      eapply Permutation_trans; [eassumption|]. rewrite V. apply (move_front rest [p_id d; w_id d; d_id d] base). }
  destruct A as (w1 & E1 & S1 & P1 & N). unfold closedir, wclosedir. rewrite E1. cbn [bind].
  destruct (Nat.eqb_spec (p_id d) 0) as [Q|Q]; [lia|].
  destruct (release_perm _ _ w1 S1 P1) as (w2 & E2 & P2 & S2 & _). rewrite E2. cbn [bind].
  destruct (release_perm _ _ w2 S2 P2) as (w3 & E3 & P3 & S3 & _). rewrite E3. cbn [bind].
  destruct (release_perm _ _ w3 S3 P3) as (w4 & E4 & P4 & S4 & _). rewrite E4. cbn [bind]. eauto.
Qed.

Definition tab_ok (tab : option (nat * nat)) (n : nat) : Prop := match tab with Some (_, c) => (n <= c)%nat /\ (1 <= n)%nat | None => n = O end.
Definition mine (tmp : option nat) (tab : option (nat * nat)) (files : list (nat * dirent)) : list nat :=
  opt_list tmp ++ opt_list (option_map (@fst nat nat) tab) ++ map fst files.

Lemma scan_ok : forall conv flt base l fuel tmp files tab d w0 w,
  stands base (At l) d w0 -> sane w -> Permutation (live w) (mine tmp tab files ++ live w0) -> tab_ok tab (length files) ->
  (length l < fuel)%nat ->
  exists ok tmp' files' tab' d' w' p, scan fuel conv flt tmp files tab d w = Ret (ok, tmp', files', tab', d', w') /\
    stands base p d' w0 /\ sane w' /\ Permutation (live w') (mine tmp' tab' files' ++ live w0) /\ tab_ok tab' (length files') /\
    (ok = true -> map snd files' = map snd files ++ filter flt (entries conv l)) /\
    (orc w = [] -> ok = true).
Proof.
  intros conv flt base l. induction l as [|e r IH]; intros fuel tmp files tab d w0 w X S P T F; (destruct fuel as [|f]; [cbn in F; lia|]); cbn [scan].
  - assert (A : exists tmp1 w1, match tmp with Some t => (Some t, w) | None => malloc_ w end = (tmp1, w1) /\ sane w1 /\
       Permutation (live w1) (mine tmp1 tab files ++ live w0) /\ (tmp1 = None -> orc w <> [])).
    { destruct tmp as [t|]; [exists (Some t), w; split; [auto|]; split; [auto|]; split; [auto|discriminate]|].
      destruct (malloc_cases w S) as [(w1 & E1 & L1 & S1 & _)|(i & w1 & E1 & L1 & S1 & _)]; rewrite E1.
      - exists None, w1. split; [auto|]. split; [auto|]. split; [rewrite L1; auto|]. intros _ O. unfold malloc_ in E1. rewrite O in E1. discriminate.
      - exists (Some i), w1. split; [auto|]. split; [auto|]. split; [|discriminate]. rewrite L1. cbn. apply perm_skip. exact P. }
    destruct A as (tmp1 & w1 & E1 & S1 & P1 & O1). rewrite E1. destruct tmp1 as [t|].
    + destruct (read_ok conv _ _ _ _ X) as (d' & Er & X'). rewrite Er.
      exists true, (Some t), files, tab, d', w1, (At []). split; [auto|]. split; [auto|]. split; [auto|]. split; [auto|]. split; [auto|].
      split; [|auto]. intros _. cbn. rewrite app_nil_r. auto.
    + exists false, None, files, tab, d, w1, (At []). split; [auto|]. split; [auto|]. split; [auto|]. split; [auto|]. split; [auto|].
      split; [discriminate|]. intros O. destruct (O1 eq_refl O).
  - assert (A : exists tmp1 w1, match tmp with Some t => (Some t, w) | None => malloc_ w end = (tmp1, w1) /\ sane w1 /\
       Permutation (live w1) (mine tmp1 tab files ++ live w0) /\ (tmp1 = None -> orc w <> []) /\ (orc w = [] -> orc w1 = [])).
    { destruct tmp as [t|]; [exists (Some t), w; split; [auto|]; split; [auto|]; split; [auto|]; split; [discriminate|auto]|].
      destruct (malloc_cases w S) as [(w1 & E1 & L1 & S1 & _)|(i & w1 & E1 & L1 & S1 & _)]; rewrite E1.
      - exists None, w1. split; [auto|]. split; [auto|]. split; [rewrite L1; auto|]. unfold malloc_ in E1. split; intros; rewrite ?H in E1; [intro O; rewrite O in E1|]; discriminate.
      - exists (Some i), w1. split; [auto|]. split; [auto|]. split; [rewrite L1; cbn; apply perm_skip; exact P|]. split; [discriminate|].
        intros O. unfold malloc_ in E1. rewrite O in E1. unfold acquire in E1. injection E1 as _ <-. auto. }
    destruct A as (tmp1 & w1 & E1 & S1 & P1 & O1 & O2). rewrite E1. destruct tmp1 as [t|].
    2:{ exists false, None, files, tab, d, w1, (At (e :: r)). split; [auto|]. split; [auto|]. split; [auto|]. split; [auto|]. split; [auto|].
        split; [discriminate|]. intros O. destruct (O1 eq_refl O). }
    destruct (read_ok conv _ _ _ _ X) as (d' & Er & X'). rewrite Er. cbn in F.
    cbn [entries filter]. destruct (flt (entry conv e r)); cbn [negb].
    2:{ destruct (IH f (Some t) files tab d' w0 w1 X' S1 P1 T ltac:(lia)) as (ok & tmp' & files' & tab' & d2 & w2 & p & E & Q).
        exists ok, tmp', files', tab', d2, w2, p. split; [auto|]. destruct Q as (Q1 & Q2 & Q3 & Q4 & Q5 & Q6). auto 10. }
    assert (B : exists ok tab2 w2, (if Nat.leb (match tab with Some (_, c) => c | None => O end) (length files) then
                    match malloc_ w1 with
                    | (None, w) => (Ret false, tab, w)
                    | (Some i, w) => match tab with
                                     | Some (j, _) => match release j w with Ret w => (Ret true, Some (i, (length files * 2 + 16)%nat), w) | _ => (Ub, tab, w) end
                                     | None => (Ret true, Some (i, (length files * 2 + 16)%nat), w)
                                     end
                    end
                  else (Ret true, tab, w1)) = (Ret ok, tab2, w2) /\ sane w2 /\ Permutation (live w2) (mine (Some t) tab2 files ++ live w0) /\
        (ok = true -> exists i c, tab2 = Some (i, c) /\ (length files < c)%nat) /\ (ok = false -> tab_ok tab2 (length files)) /\ (orc w = [] -> ok = true /\ orc w2 = [])).
    { destruct (Nat.leb_spec (match tab with Some (_, c) => c | None => O end) (length files)) as [C|C].
      - destruct (malloc_cases w1 S1) as [(w2 & E2 & L2 & S2 & _)|(i & w2 & E2 & L2 & S2 & _)]; rewrite E2.
        + exists false, tab, w2. split; [auto|]. split; [auto|]. split; [rewrite L2; auto|]. split; [discriminate|]. split; [auto|].
          intros O. specialize (O2 O). unfold malloc_ in E2. rewrite O2 in E2. discriminate.
        + assert (O3 : orc w = [] -> orc w2 = []).
          { intros O. specialize (O2 O). unfold malloc_ in E2. rewrite O2 in E2. unfold acquire in E2. injection E2 as _ <-. auto. }
          destruct tab as [[j c]|].
          * destruct (release_perm j (i :: t :: map fst files ++ live w0) w2 S2) as (w3 & E3 & P3 & S3 & Oo).
            { rewrite L2. eapply Permutation_trans; [apply perm_skip; exact P1|]. cbn.
              eapply Permutation_trans; [apply perm_skip; apply perm_swap|]. apply perm_swap. }
            rewrite E3. exists true, (Some (i, (length files * 2 + 16)%nat)), w3. split; [auto|]. split; [auto|].
            split; [eapply Permutation_trans; [exact P3|]; cbn; apply perm_swap|]. split; [intros _; eexists _, _; split; [reflexivity|lia]|]. split; [discriminate|].
            intros O. split; [auto|]. rewrite Oo. auto.
          * exists true, (Some (i, (length files * 2 + 16)%nat)), w2. split; [auto|]. split; [auto|].
            split; [rewrite L2; eapply Permutation_trans; [apply perm_skip; exact P1|]; cbn; apply perm_swap|].
            split; [intros _; eexists _, _; split; [reflexivity|lia]|]. split; [discriminate|]. auto.
      - exists true, tab, w1. split; [auto|]. split; [auto|]. split; [auto|]. split; [|split; [discriminate|auto]].
        intros _. destruct tab as [[j c]|]; [eauto|lia]. }
    destruct B as (ok & tab2 & w2 & E2 & S2 & P2 & K1 & K2 & K3). rewrite E2. cbn [bind]. destruct ok; cbn [negb].
    2:{ exists false, (Some t), files, tab2, d', w2, (At r). split; [auto|]. split; [auto|]. split; [auto|]. split; [auto|]. split; [auto|].
        split; [discriminate|]. intros O. destruct (K3 O) as [K _]. discriminate K. }
    destruct (K1 eq_refl) as (i & c & -> & C). destruct (Nat.ltb_spec (length files) c) as [_|Q]; [|lia].
    destruct (IH f None (files ++ [(t, entry conv e r)]) (Some (i, c)) d' w0 w2 X' S2) as (ok & tmp' & files' & tab' & d2 & w3 & p & E & Q).
    + eapply Permutation_trans; [exact P2|]. unfold mine. cbn. rewrite map_app. cbn.
      eapply Permutation_trans; [apply perm_swap|]. apply perm_skip. rewrite <- app_assoc. cbn. apply Permutation_middle.
    + rewrite app_length. cbn. lia.
    + lia.
    + exists ok, tmp', files', tab', d2, w3, p. split; [auto|]. destruct Q as (Q1 & Q2 & Q3 & Q4 & Q5 & Q6).
      split; [auto|]. split; [auto|]. split; [auto|]. split; [auto|]. split.
      * intros H. rewrite (Q5 H), map_app, <- app_assoc. auto.
      * intros O. apply Q6. apply K3. auto.
Qed.

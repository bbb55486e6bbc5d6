(** C61: scandir *)
From Verif Require Import CBase DirModel DirSpec DirProof DirProof3.
From Coq Require Import Permutation.

(** scandir always comes back. Either it fails, and nothing is kept; or the caller has exactly the entries that pass the
    filter, in the order of its comparison, each in a block of its own, with one table for all unless there are none.
    It does not fail when there is memory and the directory can be opened. fuel: more than there are entries *)
Theorem C61_scandir : forall conv flt sort fuel name path ans w,
  sane w -> (forall l, Permutation (sort l) l) -> (length (listing ans) < fuel)%nat ->
  exists code out w', scandir conv flt sort fuel name path path ans w = Ret (code, out, w') /\
    ((code = -1 /\ out = None /\ Permutation (live w') (live w)) \/
     (exists tab files, out = Some (tab, sort files) /\ map snd files = filter flt (entries conv (listing ans)) /\
        code = Z.of_nat (length (sort files)) /\ (tab = None <-> sort files = []) /\
        Permutation (live w') (opt_list tab ++ map fst (sort files) ++ live w) /\ NoDup (live w'))) /\
    (orc w = [] -> name <> None -> name <> Some [] -> path <> None -> path <> Some [] -> listing ans <> [] -> code <> -1).
Proof.
  intros conv flt sort fuel name path ans w S SP F. unfold scandir.
  destruct (open_ok name path path ans w S eq_refl) as (r & w1 & E & S1 & R). rewrite E. cbn [bind].
  assert (NF : orc w = [] -> name <> None -> name <> Some [] -> path <> None -> path <> Some [] -> listing ans <> [] -> r <> None /\ orc w1 = []).
  { intros O N1 N2 P1 P2 L. destruct name as [[|c n]|]; try tauto. destruct path as [[|x p]|]; try tauto. clear - E O L S.
    unfold opendir in E.
    assert (M : forall v, orc v = [] -> malloc_ v = (Some (nxt v), mk_w [] (Datatypes.S (nxt v)) (nxt v :: live v))).
    { intros v Q. unfold malloc_, acquire. rewrite Q. auto. }
    rewrite (M w O), M, M in E by auto.
    destruct (pattern_ok (x :: p) ltac:(discriminate)) as (t & Et & _). rewrite Et in E. cbn [bind] in E.
    destruct ans as [[|e r0]|]; cbn [listing] in L; [tauto| |tauto]. cbn [first acquire] in E. injection E as <- <-. split; [discriminate|auto]. }
  destruct r as [[d t]|].
  2:{ exists (-1), None, w1. split; [auto|]. split; [left; rewrite R; auto|]. intros. destruct NF; auto. }
  destruct R as (_ & _ & _ & X & _).
  destruct (scan_ok conv flt (live w) (listing ans) fuel None [] None d w1 w1 X S1 (Permutation_refl _) eq_refl F)
    as (ok & tmp & files & tab & d' & w2 & p & E2 & X2 & S2 & P2 & T2 & K1 & K2).
  rewrite E2. cbn [bind]. destruct ok.
  - destruct (release_opt_perm tmp (opt_list (option_map (@fst nat nat) tab) ++ map fst files ++ live w1) w2 S2) as (w3 & E3 & P3 & S3 & _).
    { eapply Permutation_trans; [exact P2|]. unfold mine. rewrite <- !app_assoc. apply Permutation_refl. }
    cbn [bind]. rewrite E3. cbn [bind].
    destruct (close_perm (live w) p d' w1 w3 (opt_list (option_map (@fst nat nat) tab) ++ map fst files) X2 S3) as (w4 & E4 & P4 & S4).
    { rewrite <- app_assoc. exact P3. }
    rewrite E4. cbn [bind snd]. eexists _, _, w4. split; [reflexivity|]. split.
    + right. exists (option_map (@fst nat nat) tab), files. specialize (K1 eq_refl). cbn in K1.
      split; [auto|]. split; [auto|]. split; [rewrite (Permutation_length (SP files)); auto|]. split.
      * destruct tab as [[j c]|]; cbn in T2 |- *.
        -- split; [discriminate|]. intros Q. pose proof (SP files) as SF. rewrite Q in SF. apply Permutation_nil in SF. subst files. cbn in T2. lia.
        -- split; [|auto]. intros _. destruct files; [|discriminate]. apply Permutation_nil. apply Permutation_sym. apply SP.
      * split; [|apply S4]. eapply Permutation_trans; [exact P4|]. rewrite <- app_assoc. apply Permutation_app_head. apply Permutation_app_tail.
        apply Permutation_map. apply Permutation_sym. apply SP.
    + intros. lia.
  - cbn [bind]. 
    destruct (release_all_perm (map fst files) (opt_list (option_map (@fst nat nat) tab) ++ opt_list tmp ++ live w1) w2 S2) as (w3 & E3 & P3 & S3 & _).
    { eapply Permutation_trans; [exact P2|]. unfold mine. rewrite <- !app_assoc.
      eapply Permutation_trans; [apply move_front|]. rewrite !app_assoc. rewrite <- !app_assoc.
      eapply Permutation_trans; [|apply move_front]. apply Permutation_app_head. apply move_front. }
    rewrite E3. cbn [bind].
    destruct (release_opt_perm (option_map (@fst nat nat) tab) (opt_list tmp ++ live w1) w3 S3 P3) as (w4 & E4 & P4 & S4 & _). rewrite E4. cbn [bind].
    destruct (release_opt_perm tmp (live w1) w4 S4 P4) as (w5 & E5 & P5 & S5 & _). rewrite E5. cbn [bind].
    destruct (close_perm (live w) p d' w1 w5 [] X2 S5 P5) as (w6 & E6 & P6 & S6). rewrite E6. cbn [bind snd].
    exists (-1), None, w6. split; [auto|]. split; [left; auto|].
    intros O N1 N2 Q1 Q2 L. destruct (NF O N1 N2 Q1 Q2 L) as [_ O1]. specialize (K2 O1). discriminate.
Qed.
(** non-vacuity: three entries, one filtered out, the table sorted in reverse; and the same without memory for the third *)
Example C61_demo : exists w1 w2,
  scandir (@Some (list Z)) (fun e => negb (Z.eqb (d_namlen e) 2)) (@rev (nat * dirent)) 10 (Some [97]) (Some [97]) (Some [97])
    (Some [mk_en [46] [] 16; mk_en [97; 98] [] 0; mk_en [98] [] 0]) (mk_w [] 1 [])
  = Ret (2, Some (Some 6%nat, [(7%nat, mk_de [98] 1 DT_REG 2147483647); (5%nat, mk_de [46] 1 DT_DIR 5863208)]), w1) /\
  scandir (@Some (list Z)) (fun e => negb (Z.eqb (d_namlen e) 2)) (@rev (nat * dirent)) 10 (Some [97]) (Some [97]) (Some [97])
    (Some [mk_en [46] [] 16; mk_en [97; 98] [] 0; mk_en [98] [] 0]) (mk_w [true; true; true; true; true; false] 1 [])
  = Ret (-1, None, w2) /\ live w1 = [7; 6; 5]%nat /\ live w2 = [].
Proof. eexists _, _. split; [vm_compute; reflexivity|]. split; [vm_compute; reflexivity|]. split; reflexivity. Qed.
Print Assumptions C61_scandir.

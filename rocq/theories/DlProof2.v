From Verif Require Import CBase SeqLib DlModel DlSpec DlProof.

Ltac zl := rewrite ?zlen_app, ?zlen_cons, ?zlen_nil; lia.
Lemma upto0_app : forall t r, text t -> upto0 (t ++ 0 :: r) = t.
Proof. intros t r T. induction t as [|c t IH]; cbn [app upto0]; [auto|]. inversion T; subst. destruct (Z.eqb_spec c 0); [congruence|]. rewrite IH; auto. Qed.
(** split a list of known length *)
Lemma split_at : forall (l : list Z) n, 0 <= n <= zlen l -> exists a b, l = a ++ b /\ zlen a = n.
Proof. intros l n H. exists (ztake n l), (zdrop n l). split; [symmetry; apply ztake_zdrop|]. apply zlen_ztake. auto. Qed.
Lemma strip_cases : forall msg, (exists r, msg = r ++ [13; 10] /\ strip_crlf msg = r) \/ ((forall r, msg <> r ++ [13; 10]) /\ strip_crlf msg = msg).
Proof.
  intros msg. unfold strip_crlf. destruct (rev msg) as [|a [|b r]] eqn:E.
  - right. split; [|auto]. intros r ->. rewrite rev_app_distr in E. discriminate.
  - right. split; [|auto]. intros r ->. rewrite rev_app_distr in E. discriminate.
  - destruct ((a =? 10) && (b =? 13)) eqn:C.
    + left. exists (rev r). split; [|auto]. apply andb_true_iff in C. destruct C as [C1 C2]. apply Z.eqb_eq in C1, C2. subst.
      rewrite <- (rev_involutive msg), E. cbn [rev]. rewrite <- app_assoc. auto.
    + right. split; [|auto]. intros q ->. rewrite rev_app_distr in E. cbn in E. injection E as <- <- _. discriminate.
Qed.
Lemma save_err_ok : forall str msg b, 5 <= zlen b -> text str -> text msg ->
  exists b', save_err_str str msg b = Ret b' /\ zlen b' = zlen b /\ upto0 b' = message (zlen b) str msg.
Proof.
  intros str msg b SZ TS TM. unfold save_err_str, message.
  set (size := zlen b) in *.
  assert (LEN : (if zlen str >? size - 5 then size - 5 else zlen str) = zlen (ztake (size - 5) str)).
  { rewrite zlen_ztake_le. pose proof (zlen_nonneg str). destruct (zlen str >? size - 5) eqn:C; lia. }
  assert (ARG : ztake (if zlen str >? size - 5 then size - 5 else zlen str) str = ztake (size - 5) str).
  { destruct (zlen str >? size - 5) eqn:C; [auto|]. rewrite !ztake_all by lia. auto. }
  rewrite ARG, LEN. set (arg := ztake (size - 5) str) in *.
  assert (AL : 0 <= zlen arg <= size - 5) by (unfold arg; rewrite zlen_ztake_le; pose proof (zlen_nonneg str); lia).
  assert (TA : text arg) by (unfold arg, ztake; apply Forall_forall; intros c C; unfold text in TS; rewrite Forall_forall in TS; apply TS; (rewrite <- (firstn_skipn (Z.to_nat (size - 5)) str); apply in_or_app; auto)).
  (* the parts of the buffer *)
  destruct (zlen_pos_cons b ltac:(fold size; lia)) as (x0 & r0 & ->).
  change (x0 :: r0) with ([] ++ x0 :: r0). rewrite mstore_app by reflexivity. cbn [bind]. change (([] ++ [34]) ++ r0) with ([34] ++ r0).
  assert (R0 : zlen r0 = size - 1) by (unfold size; rewrite zlen_cons; lia).
  destruct (split_at r0 (zlen arg) ltac:(lia)) as (b1 & r1 & -> & L1). rewrite zlen_app in R0.
  rewrite (mwrite_app [34]) with (t := b1) by (auto || reflexivity). cbn [bind].
  destruct r1 as [|x1 [|x2 [|x3 r1]]]; rewrite ?zlen_cons in R0; try (change (zlen (@nil Z)) with 0 in R0; lia).
  rewrite mstore_app by (rewrite zlen_app; reflexivity). cbn [bind].
  rewrite mstore_app by (zl). cbn [bind].
  rewrite mstore_app by (zl). cbn [bind].
  set (pre := [34] ++ arg ++ [34; 58; 32]).
  replace ((((([34] ++ arg) ++ [34]) ++ [58]) ++ [32]) ++ r1) with (pre ++ r1) by (unfold pre; rewrite <- !app_assoc; auto).
  assert (PL : zlen pre = zlen arg + 4) by (unfold pre; zl).
  replace (1 + zlen arg + 3) with (zlen pre) by lia. replace (size - (zlen arg + 4)) with (zlen r1) by lia.
  assert (R1 : 1 <= zlen r1) by lia.
  assert (TP : text pre) by (unfold pre; apply Forall_app; split; [constructor; [lia|constructor]|]; apply Forall_app; split; [auto|]; repeat (constructor; [lia|]); constructor).
  replace (size - zlen pre) with (zlen r1) by lia.
  assert (MSG : 34 :: arg ++ [34; 58; 32] ++ (if zlen msg + 1 <=? zlen r1 then strip_crlf msg else []) = pre ++ (if zlen msg + 1 <=? zlen r1 then strip_crlf msg else [])).
  { unfold pre. rewrite <- !app_assoc. auto. }
  rewrite MSG. clear MSG.
  assert (SZP : size = zlen pre + zlen r1) by lia.
  change (zlen ([] ++ x0 :: b1 ++ x1 :: x2 :: x3 :: r1)) with size in *. clearbody size.
  destruct ((zlen msg >? 0) && (zlen msg + 1 <=? zlen r1)) eqn:C.
  - apply andb_true_iff in C. destruct C as [C1 C2]. rewrite C2.
    destruct (Z.eqb_spec (zlen msg) 0) as [Q|Q]; [lia|].
    destruct (split_at r1 (zlen msg + 1) ltac:(lia)) as (b2 & r2 & -> & L2).
    rewrite mwrite_app with (t := b2) by (auto || (zl)). cbn [bind].
    rewrite zlen_app in SZP, R1.
    replace ((pre ++ msg ++ [0]) ++ r2) with (pre ++ (msg ++ [0]) ++ r2) by (rewrite <- !app_assoc; auto).
    destruct (zlen pre + zlen msg >? 1) eqn:C3; [|lia].
    destruct (@exists_last _ msg) as (m1 & c2 & EM); [intros ->; apply Q; reflexivity|].
    assert (M1 : zlen msg = zlen m1 + 1) by (rewrite EM; zl).
    (* the last two characters before the terminator *)
    assert (LD2 : mload (pre ++ (msg ++ [0]) ++ r2) (zlen pre + zlen msg - 1) = Ret c2).
    { rewrite EM at 1. rewrite <- !app_assoc. rewrite (app_assoc pre m1). cbn [app]. apply mload_app0. rewrite zlen_app. lia. }
    destruct (strip_cases msg) as [(r & E1 & E2)|(NE & E2)].
    + assert (LD1 : mload (pre ++ (msg ++ [0]) ++ r2) (zlen pre + zlen msg - 2) = Ret 13).
      { rewrite E1 at 1. rewrite <- !app_assoc. rewrite (app_assoc pre r). cbn [app]. apply mload_app0. rewrite zlen_app, E1. zl. }
      assert (c2 = 10). { rewrite E1 in EM. change [13; 10] with ([13] ++ [10]) in EM. rewrite app_assoc in EM. apply app_inj_tail in EM. destruct EM; congruence. }
      subst c2. rewrite LD1, LD2. cbn [bind]. cbn [Z.eqb Pos.eqb andb].
      replace (pre ++ (msg ++ [0]) ++ r2) with ((pre ++ r) ++ 13 :: [10; 0] ++ r2) by (rewrite E1, <- !app_assoc; auto).
      rewrite mstore_app by (rewrite zlen_app, E1; zl).
      eexists. split; [reflexivity|]. split.
      * rewrite E1 in *. rewrite ?zlen_app, ?zlen_cons, ?zlen_nil in *. lia.
      * rewrite E2. rewrite <- !app_assoc. rewrite app_assoc. cbn [app]. apply upto0_app. apply Forall_app. split; [auto|]. rewrite E1 in TM. apply Forall_app in TM. tauto.
    + assert (LD1 : exists c1, mload (pre ++ (msg ++ [0]) ++ r2) (zlen pre + zlen msg - 2) = Ret c1 /\ (c1 = 13 -> c2 <> 10)).
      { destruct (list_eq_dec Z.eq_dec m1 []) as [->|Nm].
        - exists 32. split; [|discriminate].
          replace (pre ++ (msg ++ [0]) ++ r2) with (([34] ++ arg ++ [34; 58]) ++ 32 :: (msg ++ [0]) ++ r2) by (unfold pre; rewrite <- !app_assoc; auto).
          apply mload_app0. rewrite PL, M1. zl.
        - destruct (@exists_last _ m1 Nm) as (m0 & c1 & E0). exists c1. split.
          + rewrite EM at 1. rewrite E0 at 1. rewrite <- !app_assoc. rewrite (app_assoc pre m0). cbn [app]. apply mload_app0. rewrite zlen_app, M1, E0. zl.
          + intros -> ->. apply (NE m0). rewrite EM, E0, <- app_assoc. auto. }
      destruct LD1 as (c1 & LD1 & NC). rewrite LD1, LD2. cbn [bind].
      destruct ((c1 =? 13) && (c2 =? 10)) eqn:CC; [apply andb_true_iff in CC; exfalso; apply NC; lia|].
      eexists. split; [reflexivity|]. split.
      * rewrite !zlen_app. change (zlen [0]) with 1. lia.
      * rewrite E2. rewrite <- app_assoc, app_assoc. cbn [app]. apply upto0_app. apply Forall_app. auto.
  - cbn [Z.eqb]. assert (NIL : (if zlen msg + 1 <=? zlen r1 then strip_crlf msg else []) = []).
    { apply andb_false_iff in C. destruct (zlen msg + 1 <=? zlen r1) eqn:C2; [|auto]. destruct C as [C|C]; [|discriminate].
      pose proof (zlen_nonneg msg). assert (zlen msg = 0) as Q by lia. apply zlen_0_nil in Q. subst msg. auto. }
    rewrite NIL, app_nil_r. cbn [bind]. replace (zlen pre + 0) with (zlen pre) by lia.
    destruct r1 as [|y r1]; [rewrite zlen_nil in R1; lia|]. rewrite mstore_app by auto. cbn [bind].
    replace ((pre ++ [0]) ++ r1) with (pre ++ 0 :: r1) by (rewrite <- app_assoc; auto).
    destruct (zlen pre >? 1) eqn:C3; [|lia].
    assert (LD1 : mload (pre ++ 0 :: r1) (zlen pre - 2) = Ret 58).
    { replace (pre ++ 0 :: r1) with (([34] ++ arg ++ [34]) ++ 58 :: 32 :: 0 :: r1) by (unfold pre; rewrite <- !app_assoc; auto).
      apply mload_app0. rewrite PL. zl. }
    assert (LD2 : mload (pre ++ 0 :: r1) (zlen pre - 1) = Ret 32).
    { replace (pre ++ 0 :: r1) with (([34] ++ arg ++ [34; 58]) ++ 32 :: 0 :: r1) by (unfold pre; rewrite <- !app_assoc; auto).
      apply mload_app0. rewrite PL. zl. }
    rewrite LD1, LD2. cbn [bind Z.eqb Pos.eqb andb]. eexists. split; [reflexivity|]. split; [|apply upto0_app; auto].
    rewrite zlen_app, zlen_cons in *. lia.
Qed.

From Verif Require Import CBase CStr SeqLib FileModel IniReaderModel IniReaderSpec FileProof2.

Lemma mstore_mid (pre rest : list Z) x y i : i = zlen pre -> mstore (pre ++ y :: rest) i x = Ret (pre ++ x :: rest).
Proof. intro H. rewrite mstore_app by exact H. rewrite <- app_assoc. reflexivity. Qed.
(** ** trimming *)
Lemma rtrim_snoc t c : rtrim (t ++ [c]) = if isspace c then rtrim t else t ++ [c].
Proof.
  unfold rtrim. rewrite rev_app_distr. cbn [rev app skip_space]. destruct (isspace c); [reflexivity|].
  cbn [rev]. rewrite rev_involutive. reflexivity.
Qed.
Lemma skip_split t : exists w, t = w ++ skip_space t /\ Forall (fun c => isspace c = true) w.
Proof.
  induction t as [|c t IH]; [exists []; split; [reflexivity|constructor]|]. cbn [skip_space].
  destruct (isspace c) eqn:E; [|exists []; split; [reflexivity|constructor]].
  destruct IH as (w & Ew & F). exists (c :: w). split; [cbn [app]; f_equal; exact Ew|constructor; assumption].
Qed.
Lemma skip_head t c s : skip_space t = c :: s -> isspace c = false.
Proof. induction t as [|x t IH]; [discriminate|]. cbn [skip_space]. destruct (isspace x) eqn:E; [auto|]. intro H. injection H as -> ->. exact E. Qed.
Lemma rtrim_split t : exists w, t = rtrim t ++ w /\ Forall (fun c => isspace c = true) w.
Proof.
  induction t as [|c t IH] using rev_ind; [exists []; split; [reflexivity|constructor]|]. rewrite rtrim_snoc.
  destruct (isspace c) eqn:E.
  - destruct IH as (w & Ew & F). exists (w ++ [c]). split; [rewrite app_assoc, <- Ew; reflexivity|]. apply Forall_app. split; [exact F|constructor; [exact E|constructor]].
  - exists []. split; [rewrite app_nil_r; reflexivity|constructor].
Qed.
Lemma text_sub a b : text (a ++ b) -> text a /\ text b. Proof. apply text_app. Qed.
Lemma text_rtrim t : text t -> text (rtrim t).
Proof. intro T. destruct (rtrim_split t) as (w & E & _). rewrite E in T. apply text_sub in T. apply T. Qed.
Lemma text_skip t : text t -> text (skip_space t).
Proof. intro T. destruct (skip_split t) as (w & E & _). rewrite E in T. apply text_sub in T. apply T. Qed.
Lemma zlen_rtrim t : zlen (rtrim t) <= zlen t.
Proof. destruct (rtrim_split t) as (w & E & _). rewrite E at 2. rewrite zlen_app. pose proof (zlen_nonneg w). lia. Qed.
Lemma zlen_skip t : zlen (skip_space t) <= zlen t.
Proof. destruct (skip_split t) as (w & E & _). rewrite E at 2. rewrite zlen_app. pose proof (zlen_nonneg w). lia. Qed.

(** the zero bytes rstrip leaves behind *)
Definition pad (t : list Z) : list Z := repeat 0 (Z.to_nat (zlen t - zlen (rtrim t))).
Lemma pad_len t : zlen (pad t) = zlen t - zlen (rtrim t).
Proof. unfold pad. unfold zlen at 1. rewrite repeat_length. pose proof (zlen_rtrim t). lia. Qed.
Lemma repeat0_cons n x : exists y, repeat 0 n ++ 0 :: x = 0 :: y.
Proof. destruct n; cbn [repeat app]; eauto. Qed.

Lemma rstrip_loop_ok t : forall pre tail, 
  rstrip_loop (Z.to_nat (zlen t)) (pre ++ t ++ tail) (zlen pre) (zlen pre + zlen t) = Ret (pre ++ rtrim t ++ pad t ++ tail).
Proof.
  induction t as [|c t IH] using rev_ind; intros pre tail.
  - change (zlen (@nil Z)) with 0. change (Z.to_nat 0) with O. cbn [rstrip_loop].
    destruct (Z.ltb_spec (zlen pre) (zlen pre + 0)); [lia|]. reflexivity.
  - rewrite zlen_snoc. pose proof (zlen_nonneg t). pose proof (zlen_nonneg pre).
    replace (Z.to_nat (zlen t + 1)) with (S (Z.to_nat (zlen t))) by lia. cbn [rstrip_loop].
    destruct (Z.ltb_spec (zlen pre) (zlen pre + (zlen t + 1))); [|lia].
    replace (pre ++ (t ++ [c]) ++ tail) with ((pre ++ t) ++ c :: tail) by (rewrite <- !app_assoc; reflexivity).
    replace (zlen pre + (zlen t + 1) - 1) with (zlen (pre ++ t)) by (rewrite zlen_app; lia).
    rewrite mload_app0 by reflexivity. cbn [bind].
    destruct (isspace c) eqn:E.
    + rewrite mstore_app by reflexivity. cbn [bind]. rewrite <- !app_assoc. cbn [app].
      rewrite zlen_app. change (pre ++ t ++ 0 :: tail) with (pre ++ t ++ (0 :: tail)). rewrite IH. f_equal. f_equal.
      unfold pad. rewrite rtrim_snoc, E. f_equal. rewrite zlen_snoc.
      pose proof (zlen_rtrim t). replace (Z.to_nat (zlen t + 1 - zlen (rtrim t))) with (Z.to_nat (zlen t - zlen (rtrim t)) + 1)%nat by lia.
      rewrite repeat_app, <- app_assoc. reflexivity.
    + unfold pad. rewrite rtrim_snoc, E, zlen_snoc, Z.sub_diag. cbn [Z.to_nat repeat app]. rewrite <- !app_assoc. reflexivity.
Qed.
Lemma rstrip_ok pre t r s : s = zlen pre -> text t ->
  ini_rstrip (pre ++ t ++ 0 :: r) s = Ret (pre ++ rtrim t ++ pad t ++ 0 :: r).
Proof. intros -> T. unfold ini_rstrip. rewrite strlen_at_text by (try reflexivity; exact T). cbn [bind]. apply rstrip_loop_ok. Qed.

Lemma lskip_ok : forall t pre r s f, s = zlen pre -> text t -> (length t <= f)%nat ->
  lskip_loop f (pre ++ t ++ 0 :: r) s = Ret (s + (zlen t - zlen (skip_space t))).
Proof.
  induction t as [|c t IH]; intros pre r s f -> T L; cbn [app].
  - destruct f; cbn [lskip_loop]; rewrite mload_app0 by reflexivity; cbn; f_equal; change (zlen (@nil Z)) with 0; lia.
  - apply text_cons in T as [Hc T]. destruct f as [|f]; cbn [length] in L; [lia|]. cbn [lskip_loop].
    rewrite mload_app0 by reflexivity. cbn [bind skip_space]. destruct (Z.eqb_spec c 0); [contradiction|]. cbn [negb andb].
    destruct (isspace c) eqn:E; [|f_equal; lia].
    replace (pre ++ c :: t ++ 0 :: r) with ((pre ++ [c]) ++ t ++ 0 :: r) by (rewrite <- app_assoc; reflexivity).
    rewrite (IH (pre ++ [c])); [|rewrite zlen_snoc; reflexivity|exact T|lia]. f_equal. rewrite zlen_cons. lia.
Qed.
Lemma lskip_ok' pre t r s : s = zlen pre -> text t -> ini_lskip (pre ++ t ++ 0 :: r) s = Ret (s + (zlen t - zlen (skip_space t))).
Proof. intros E T. unfold ini_lskip. apply lskip_ok; try assumption. rewrite !app_length. lia. Qed.

Definition stops (chars : option (list Z)) : list Z := match chars with None => [] | Some cs => cs end.
Lemma find_ok chars : forall t pre r s f w, s = zlen pre -> text t -> (length t <= f)%nat ->
  find_loop f (pre ++ t ++ 0 :: r) s chars w = Ret (s + zlen (until (stops chars) w t)).
Proof.
  induction t as [|c t IH]; intros pre r s f w -> T L; cbn [app].
  - destruct f; cbn [find_loop]; rewrite mload_app0 by reflexivity; cbn; f_equal; change (zlen (@nil Z)) with 0; lia.
  - apply text_cons in T as [Hc T]. destruct f as [|f]; cbn [length] in L; [lia|]. cbn [find_loop].
    rewrite mload_app0 by reflexivity. cbn [bind until]. destruct (Z.eqb_spec c 0); [contradiction|]. cbn [negb andb].
    assert (E : (match chars with None => true | Some cs => negb (inset c cs) end) && negb (w && inset c [59])
            = negb (inset c (stops chars) || (w && (c =? 59)))).
    { rewrite negb_orb. f_equal; [destruct chars; reflexivity|]. unfold inset. cbn [existsb]. rewrite orb_false_r. reflexivity. }
    rewrite E. destruct (inset c (stops chars) || (w && (c =? 59))); cbn [negb].
    + f_equal. change (zlen (@nil Z)) with 0. lia.
    + replace (pre ++ c :: t ++ 0 :: r) with ((pre ++ [c]) ++ t ++ 0 :: r) by (rewrite <- app_assoc; reflexivity).
      rewrite (IH (pre ++ [c])); [|rewrite zlen_snoc; reflexivity|exact T|lia]. f_equal. rewrite zlen_cons. lia.
Qed.
Lemma find_ok' chars pre t r s : s = zlen pre -> text t ->
  ini_find_chars_or_comment (pre ++ t ++ 0 :: r) s chars = Ret (s + zlen (until (stops chars) false t)).
Proof. intros E T. unfold ini_find_chars_or_comment. apply find_ok; try assumption. rewrite !app_length. lia. Qed.
Lemma until_split stop : forall t w, exists x, t = until stop w t ++ x.
Proof.
  induction t as [|c t IH]; intro w; [exists []; reflexivity|]. cbn [until]. destruct (_ || _); [exists (c :: t); reflexivity|].
  destruct (IH (isspace c)) as [x E]. exists x. cbn [app]. f_equal. exact E.
Qed.

Lemma strncpy0_loop_ok : forall t pre r f done old src i, src + i = zlen pre -> text t -> i = zlen done ->
  zlen old > Z.min (Z.of_nat f) (zlen t) ->
  exists rest, strncpy0_loop f (done ++ old) (pre ++ t ++ 0 :: r) src i = Ret (done ++ ztake (Z.of_nat f) t ++ 0 :: rest) /\
    zlen (done ++ ztake (Z.of_nat f) t ++ 0 :: rest) = zlen (done ++ old).
Proof.
  induction t as [|c t IH]; intros pre r f done old src i Es T Ei L; pose proof (zlen_nonneg old).
  - change (zlen (@nil Z)) with 0 in L. destruct (zlen_pos_cons old) as (o & old' & ->); [lia|].
    exists old'. assert (ztake (Z.of_nat f) (@nil Z) = []) as -> by (unfold ztake; apply firstn_nil). cbn [app].
    assert (forall m, mstore (done ++ o :: old') i m = Ret (done ++ m :: old')) as W by (intro m; apply mstore_mid; exact Ei).
    split; [|rewrite !zlen_app, !zlen_cons; reflexivity].
    destruct f; cbn [strncpy0_loop]; [apply W|]. rewrite Es, mload_app0 by reflexivity. cbn [bind Z.eqb]. apply W.
  - rewrite zlen_cons in L. pose proof (zlen_nonneg t). destruct f as [|f].
    + destruct (zlen_pos_cons old) as (o & old' & ->); [lia|]. exists old'. cbn [strncpy0_loop].
      change (Z.of_nat 0) with 0. rewrite ztake_neg by lia. cbn [app]. split; [apply mstore_mid; exact Ei|rewrite !zlen_app, !zlen_cons; reflexivity].
    + destruct (zlen_pos_cons old) as (o & old' & ->); [lia|]. rewrite zlen_cons in L.
      apply text_cons in T as [Hc T]. cbn [strncpy0_loop]. rewrite Es. cbn [app]. rewrite mload_app0 by reflexivity. cbn [bind].
      destruct (Z.eqb_spec c 0); [contradiction|]. rewrite mstore_mid by exact Ei. cbn [bind].
      replace (done ++ c :: old') with ((done ++ [c]) ++ old') by (rewrite <- app_assoc; reflexivity).
      replace (pre ++ c :: t ++ 0 :: r) with ((pre ++ [c]) ++ t ++ 0 :: r) by (rewrite <- app_assoc; reflexivity).
      destruct (IH (pre ++ [c]) r f (done ++ [c]) old' src (i + 1)) as (rest & R & Lr).
      * rewrite zlen_snoc. lia.
      * exact T.
      * rewrite zlen_snoc. lia.
      * lia.
      * exists rest. rewrite R. rewrite <- !app_assoc in *. cbn [app] in *.
        replace (ztake (Z.of_nat (S f)) (c :: t)) with (c :: ztake (Z.of_nat f) t).
        -- cbn [app]. split; [reflexivity|]. rewrite Lr, !zlen_app, !zlen_cons. reflexivity.
        -- unfold ztake. rewrite !Nat2Z.id. reflexivity.
Qed.
(** an array of 50 bytes holding a text of at most 49 *)
Definition arr (a t : list Z) : Prop := exists r, a = t ++ 0 :: r /\ text t /\ zlen a = 50.
Lemma strncpy0_ok dest pre t r src : src = zlen pre -> text t -> zlen dest = 50 ->
  exists d, ini_strncpy0 dest (pre ++ t ++ 0 :: r) src 50 = Ret d /\ arr d (ztake 49 t).
Proof.
  intros E T L. unfold ini_strncpy0. change (Z.to_nat (50 - 1)) with 49%nat.
  destruct (strncpy0_loop_ok t pre r 49 [] dest src 0) as (rest & R & Lr); [lia|exact T|reflexivity|lia|].
  cbn [app] in *. change (Z.of_nat 49) with 49 in *. eexists. split; [exact R|]. exists rest. split; [reflexivity|]. split; [|lia].
  destruct (Z.leb_spec 49 (zlen t)).
  - rewrite <- (ztake_zdrop 49 t) in T. apply text_sub in T. apply T.
  - rewrite ztake_all by lia. exact T.
Qed.
Lemma arr_str a t : arr a t -> cstr_at a 0 = Ret t.
Proof. intros (r & -> & T & _). apply (cstr_at_text [] t r 0); [reflexivity|exact T]. Qed.
Lemma arr_head a t : arr a t -> exists c, mload a 0 = Ret c /\ negb (c =? 0) = negb (zlen t =? 0).
Proof.
  intros (r & -> & T & L). destruct t as [|c t].
  - exists 0. split; [reflexivity|reflexivity].
  - exists c. split; [reflexivity|]. apply text_cons in T as [Hc _]. rewrite zlen_cons. pose proof (zlen_nonneg t).
    destruct (Z.eqb_spec c 0); [contradiction|]. destruct (Z.eqb_spec (1 + zlen t) 0); [lia|reflexivity].
Qed.

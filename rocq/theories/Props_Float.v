(** C68: floating-point numbers in str_params. *)
From Coq Require Import Qabs Lqa.
From Verif Require Import CBase CStr StrParamsModel StrParamsSpec StrParamsProof FloatModel FloatSpec FloatProof FloatProof2 FloatProof3 FloatProof4 FloatText.
Open Scope Z_scope.

Lemma val_of x y d : neg y = neg x -> (mag x - d <= mag y)%Q -> (mag y <= mag x + d)%Q -> (val x - d <= val y)%Q /\ (val y <= val x + d)%Q.
Proof. intros N A B. unfold val. rewrite N. destruct (neg x); lra. Qed.
Lemma val_eq x y : neg y = neg x -> (mag y == mag x)%Q -> (val y == val x)%Q.
Proof. intros N A. unfold val. rewrite N. destruct (neg x); lra. Qed.
Lemma abs_mag x : 0 <= mant x -> (Qabs (val x) == mag x)%Q.
Proof. intro M. pose proof (mag_nonneg x M) as P. unfold val. destruct (neg x); [rewrite Qabs_opp|]; apply Qabs_pos; auto. Qed.
Lemma trip2 a p1 k x v : reached p1 -> enough a -> cstring k -> 0 <= mant x -> reads x v ->
  exists p2, add_double a p1 k x = Ret (p2, 0) /\ get_double p2 k = Ret (0, Some (round_double (neg x) v)).
Proof.
  intros (okx & t & r & p & h & res & H1 & H2 & H3 & H4 & H5 & H6) (E1 & E2 & E3 & E4) K M R. apply (trip a p h okx t r p1 res k x v); auto.
Qed.

(** A double of at least 2^20 and less than 10^30, in absolute value, is read back as it was, although its text is
    cut to 31 characters. *)
Theorem C68_large_double_exact :
  forall (p1 : sp) (a : sp_alloc) (k : list Z) (x : fl), reached p1 -> enough a -> cstring k -> is_double x ->
  (inject_Z (2 ^ 20) <= Qabs (val x))%Q -> (Qabs (val x) < inject_Z (10 ^ 30))%Q ->
  exists p2 y, add_double a p1 k x = Ret (p2, 0) /\ get_double p2 k = Ret (0, Some y) /\ (val y == val x)%Q.
Proof.
  intros p1 a k x R A K [M _] L U. rewrite abs_mag in L, U by lia. destruct (read_exact x M U) as (v & RV & E & N).
  { left. rewrite pow2_Z by lia. exact L. }
  destruct (trip2 a p1 k x v R A K ltac:(lia) RV) as (p2 & E1 & E2). exists p2. eexists. split; [exact E1|]. split; [exact E2|]. apply val_eq; auto.
Qed.
Print Assumptions C68_large_double_exact.
(** So is every multiple of 2^-10. *)
Theorem C68_multiple_of_1024th_exact :
  forall (p1 : sp) (a : sp_alloc) (k : list Z) (x : fl) (n : Z), reached p1 -> enough a -> cstring k -> is_double x ->
  (val x * inject_Z 1024 == inject_Z n)%Q -> (Qabs (val x) < inject_Z (10 ^ 30))%Q ->
  exists p2 y, add_double a p1 k x = Ret (p2, 0) /\ get_double p2 k = Ret (0, Some y) /\ (val y == val x)%Q.
Proof.
  intros p1 a k x n R A K [M _] L U. rewrite abs_mag in U by lia. destruct (read_exact x M U) as (v & RV & E & N).
  { right. exists (if neg x then - n else n). change (inject_Z (2 ^ 10)) with (inject_Z 1024). unfold val in L. destruct (neg x); [rewrite inject_Z_opp; lra|auto]. }
  destruct (trip2 a p1 k x v R A K ltac:(lia) RV) as (p2 & E1 & E2). exists p2. eexists. split; [exact E1|]. split; [exact E2|]. apply val_eq; auto.
Qed.
Print Assumptions C68_multiple_of_1024th_exact.
(** A smaller double is read back with an error of at most 2 * 10^-10. *)
Theorem C68_small_double_close :
  forall (p1 : sp) (a : sp_alloc) (k : list Z) (x : fl), reached p1 -> enough a -> cstring k -> is_double x ->
  (Qabs (val x) <= inject_Z (2 ^ 20))%Q ->
  exists p2 y, add_double a p1 k x = Ret (p2, 0) /\ get_double p2 k = Ret (0, Some y) /\ (Qabs (val y - val x) <= 2 # 10000000000)%Q.
Proof.
  intros p1 a k x R A K [M _] U. rewrite abs_mag in U by lia. destruct (read_close x 20 ltac:(lia) M) as (v & RV & N & B1 & B2).
  { rewrite pow2_Z by lia. exact U. }
  destruct (trip2 a p1 k x v R A K ltac:(lia) RV) as (p2 & E1 & E2). exists p2. eexists. split; [exact E1|]. split; [exact E2|].
  destruct (val_of x (round_double (neg x) v) _ N B1 B2) as [C1 C2]. change (pow2 (20 - 53)) with (1 # 8589934592) in *. apply Qabs_Qle_condition. lra.
Qed.
Print Assumptions C68_small_double_close.
(** A float of at least 2^-9 and less than 10^30 is read back as it was. *)
Theorem C68_float_exact :
  forall (p1 : sp) (a : sp_alloc) (k : list Z) (x : fl), reached p1 -> enough a -> cstring k -> is_float x ->
  (1 # 512 <= Qabs (val x))%Q -> (Qabs (val x) < inject_Z (10 ^ 30))%Q ->
  exists p2 y, add_float a p1 k x = Ret (p2, 0) /\ get_float p2 k = Ret (0, Some y) /\ (val y == val x)%Q.
Proof.
  intros p1 a k x R A K [M _] L U. rewrite abs_mag in L, U by lia. destruct (float_exact x M L U) as (v & RV & E & N).
  destruct (trip2 a p1 k x v R A K ltac:(lia) RV) as (p2 & E1 & E2). exists p2. eexists. split; [exact E1|]. unfold get_float. rewrite E2. cbn [bind option_map]. split; [reflexivity|]. apply val_eq; auto.
Qed.
Print Assumptions C68_float_exact.
(** Of any stored text: an absent key gives -ENOENT, a text that is not wholly a number -EINVAL, and nothing is stored in the
    caller's variable; otherwise the number strtod finds. *)
Theorem C68_get_codes :
  forall (okx : Z -> bool) (t r : list Z) (p p1 : sp) (h : list sp_op) (res : list sp_res) (k : list Z),
  tables_ok okx -> text t -> sp_create true true okx (Some (t ++ 0 :: r)) = Ret (Some p) -> Forall valid_op h -> zlen h < 288230376151711744 ->
  sp_run p h = Ret (p1, res) -> cstring k ->
  match lookup (fst (m_run [] h)) k with
  | None => get_double p1 k = Ret (-2, None) /\ get_float p1 k = Ret (-2, None)
  | Some v =>
    if (0 <? zlen v) && (snd (strtod v) =? zlen v)
    then get_double p1 k = Ret (0, Some (fst (strtod v))) /\ get_float p1 k = Ret (0, Some (round_float (neg (fst (strtod v))) (mag (fst (strtod v)))))
    else get_double p1 k = Ret (-22, None) /\ get_float p1 k = Ret (-22, None)
  end.
Proof.
  intros okx t r p p1 h res k TO TT E V B ER K. destruct (sp_create_ok true true okx t r (Some (t ++ 0%Z :: r)) TO TT (or_intror eq_refl)) as [(p0 & E0 & R & _)|(X & _)]; [|congruence].
  rewrite E in E0. injection E0 as <-. destruct (sp_run_ok h p [] R V ltac:(rewrite zlen_nil; unfold big; lia)) as (q & E' & R' & _). rewrite ER in E'. injection E' as <- _.
  unfold get_float, get_double. rewrite (sp_get_ok p1 _ k R' K). cbn [bind]. destruct (lookup (fst (m_run [] h)) k) as [v|] eqn:L; [|auto].
  assert (CV : cstring v) by (eapply lookup_c; [apply R'|exact L]). rewrite code_nz, decode_code by auto. cbv zeta. pose proof (zlen_nonneg v).
  replace ((zlen v =? 0) || negb (snd (strtod v) =? zlen v)) with (negb ((0 <? zlen v) && (snd (strtod v) =? zlen v))) by (destruct (snd (strtod v) =? zlen v), (zlen v =? 0) eqn:?, (0 <? zlen v) eqn:?; try reflexivity; lia).
  destruct ((0 <? zlen v) && (snd (strtod v) =? zlen v)); cbn [negb bind option_map]; auto.
Qed.
Print Assumptions C68_get_codes.
(** In terms of the text: a number in decimal notation is read as the double (float) nearest to it; a text without letters (so
    without exponent, hexadecimal digits or names, which are not modelled) that is no such number gives -EINVAL. *)
Theorem C68_number_texts :
  forall (okx : Z -> bool) (t r : list Z) (p p1 : sp) (h : list sp_op) (res : list sp_res) (k v : list Z),
  tables_ok okx -> text t -> sp_create true true okx (Some (t ++ 0 :: r)) = Ret (Some p) -> Forall valid_op h -> zlen h < 288230376151711744 ->
  sp_run p h = Ret (p1, res) -> cstring k -> lookup (fst (m_run [] h)) k = Some v ->
  (forall ng n d, number v ng n d -> let x := round_double ng (n # Z.to_pos (10 ^ d)) in
     get_double p1 k = Ret (0, Some x) /\ get_float p1 k = Ret (0, Some (round_float (neg x) (mag x)))) /\
  (letterless v -> ~ (exists ng n d, number v ng n d) -> get_double p1 k = Ret (-22, None) /\ get_float p1 k = Ret (-22, None)).
Proof.
  intros okx t r p p1 h res k v TO TT E V B ER K L. pose proof (C68_get_codes okx t r p p1 h res k TO TT E V B ER K) as H. rewrite L in H. split.
  - intros ng n d N. destruct (strtod_number v ng n d N) as (S & P). rewrite S in H. cbn [fst snd] in H. destruct (0 <? zlen v) eqn:Q; [|lia]. rewrite Z.eqb_refl in H. exact H.
  - intros _ N. destruct ((0 <? zlen v) && (snd (strtod v) =? zlen v)) eqn:Q; [|exact H]. exfalso. apply N, number_iff. apply andb_prop in Q. lia.
Qed.
Print Assumptions C68_number_texts.
Example ex_number : number [32; 45; 49; 46; 53; 48] true 150 2 /\ ~ (exists ng n d, number [46] ng n d) /\ letterless [49; 46; 53; 46].
Proof.
  split; [exists [32], [45], [49], [53; 48], [46]; repeat (split; [first [reflexivity | repeat constructor; lia | discriminate | auto]|]); reflexivity|]. split.
  - intro H. apply number_iff in H. destruct H as (_ & H). revert H. vm_compute. discriminate.
  - repeat constructor; lia.
Qed.
(** Not every double survives: one of at most 5 * 10^-11 is read back as 0, with the code of success, *)
Theorem C68_tiny_is_lost_refuted :
  forall (p1 : sp) (a : sp_alloc) (k : list Z) (x : fl), reached p1 -> enough a -> cstring k -> is_double x ->
  (Qabs (val x) <= 1 # 20000000000)%Q ->
  exists p2 y, add_double a p1 k x = Ret (p2, 0) /\ get_double p2 k = Ret (0, Some y) /\ (val y == 0)%Q.
Proof.
  intros p1 a k x R A K [M _] U. rewrite abs_mag in U by lia. destruct (read_lost x M U) as (v & RV & E).
  destruct (trip2 a p1 k x v R A K ltac:(lia) RV) as (p2 & E1 & E2). exists p2. eexists. split; [exact E1|]. split; [exact E2|]. set (y := round_double (neg x) v) in *. unfold val. destruct (neg y); lra.
Qed.
Print Assumptions C68_tiny_is_lost_refuted.
(** and one of at least 10^31 loses digits of its integer part, and is read back as a fifth of it, or less. *)
Theorem C68_huge_is_cut_refuted :
  forall (p1 : sp) (a : sp_alloc) (k : list Z) (x : fl), reached p1 -> enough a -> cstring k -> is_double x ->
  (inject_Z (10 ^ 31) <= Qabs (val x))%Q ->
  exists p2 y, add_double a p1 k x = Ret (p2, 0) /\ get_double p2 k = Ret (0, Some y) /\ (Qabs (val y) <= Qabs (val x) * (1 # 5))%Q.
Proof.
  intros p1 a k x R A K [M _] U. rewrite abs_mag in U by lia. destruct (read_huge x ltac:(lia) U) as (v & RV & E).
  destruct (trip2 a p1 k x v R A K ltac:(lia) RV) as (p2 & E1 & E2). exists p2. eexists. split; [exact E1|]. split; [exact E2|]. rewrite (abs_mag x) by lia.
  pose proof (mag_nonneg x ltac:(lia)) as P. set (y := round_double (neg x) v) in *. apply Qabs_Qle_condition.
  assert (MY : (0 <= mag y)%Q). { destruct RV as [_ _]. unfold y, round_double, round. destruct (Qle_bool v 0) eqn:V0; [apply mag_nonneg; cbn; lia|]. apply mag_nonneg. cbn [mant]. apply nearest_nonneg.
    assert (VP : (0 <= v)%Q) by (destruct (Qlt_le_dec 0 v) as [X|X]; [lra|]; apply Qle_bool_iff in X; congruence). apply Qle_shift_div_l; [apply pow2_pos|]. lra. }
  unfold val. destruct (neg y); lra.
Qed.
Print Assumptions C68_huge_is_cut_refuted.

(** Examples: the float nearest to 0.1 comes back, the double nearest to 1/3 does not, 10^31 comes back as 10^30 *)
Definition sa0 := mk_sa true true true (fun n => n <=? 1152921504606846976).
Definition trip_of (float : bool) (x : fl) : list Z * Z * option fl :=
  match sp_create true true (fun n => n <=? 1152921504606846976) (Some [59; 0]) with
  | Ret (Some p) =>
    match (if float then add_float else add_double) sa0 p [107] x with
    | Ret (p2, 0) => match (if float then get_float else get_double) p2 [107], sp_get_str p2 [107] (repeat 1 40) with Ret (c, y), Ret (b, _) => (match cstr_at b 0 with Ret t => t | _ => [] end, c, y) | _, _ => ([], 1, None) end
    | _ => ([], 2, None)
    end
  | _ => ([], 3, None)
  end.
Example ex_float : trip_of true (mk_f false 13421773 (-27)) = ([48; 46; 49; 48; 48; 48; 48; 48; 48; 48; 49; 53], 0, Some (mk_f false 13421773 (-27))).
Proof. vm_compute. reflexivity. Qed.
Example ex_double : match trip_of false (mk_f true 6004799503160661 (-54)) with
  | (t, 0, Some y) => t = [45; 48; 46; 51; 51; 51; 51; 51; 51; 51; 51; 51; 51] /\ ~ (val y == val (mk_f true 6004799503160661 (-54)))%Q
  | _ => False end.
Proof. vm_compute. split; [reflexivity|discriminate]. Qed.
Example ex_cut : match trip_of false (mk_f true 4930380657631324 51) with
  | (t, 0, Some y) => zlen t = 31 /\ is_double (mk_f true 4930380657631324 51) /\ (inject_Z (10 ^ 31) <= Qabs (val (mk_f true 4930380657631324 51)))%Q /\ (10 * Qabs (val y) <= Qabs (val (mk_f true 4930380657631324 51)))%Q
  | _ => False end.
Proof. vm_compute. intuition discriminate. Qed.
Example ex_reached : exists p, reached p /\ enough sa0.
Proof.
  assert (TK : tables_ok (fun n => n <=? 1152921504606846976)) by (intro n; apply Z.leb_le).
  destruct (sp_create_ok true true _ [59] [] (Some [59; 0]) TK ltac:(repeat constructor; lia) (or_intror eq_refl)) as [(p & E & _)|(_ & [X|X])]; try discriminate.
  exists p. split; [|repeat split; apply TK]. exists (fun n => n <=? 1152921504606846976), [59], [], p, [], []. split; [exact TK|]. split; [repeat constructor; lia|]. split; [exact E|]. split; [constructor|]. split; [reflexivity|reflexivity].
Qed.

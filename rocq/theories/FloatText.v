(** Which texts strtod takes for a number *)
From Verif Require Import CBase CStr StrParamsModel StrParamsProof FloatModel FloatSpec FloatProof2.
Open Scope Z_scope.

Lemma space_iff c : is_space c = true <-> c = 32 \/ 9 <= c <= 13. Proof. unfold is_space. lia. Qed.
Lemma digit_iff c : digit_val c < 10 <-> 48 <= c <= 57.
Proof. unfold digit_val. destruct ((48 <=? c) && (c <=? 57)) eqn:A; [lia|]. destruct ((97 <=? c) && (c <=? 122)) eqn:B; [lia|]. destruct ((65 <=? c) && (c <=? 90)) eqn:C; lia. Qed.
Lemma space_run sp r : Forall (fun c => c = 32 \/ 9 <= c <= 13) sp -> match r with c :: _ => is_space c = false | [] => True end -> count_space (sp ++ r) = zlen sp.
Proof.
  intros F H. induction F as [|c sp R F IH]; cbn [app count_space].
  - destruct r as [|c r]; [reflexivity|]. cbn [count_space]. rewrite H. reflexivity.
  - apply space_iff in R. rewrite R, IH, zlen_cons. reflexivity.
Qed.
Lemma space_split s : exists sp r, s = sp ++ r /\ Forall (fun c => c = 32 \/ 9 <= c <= 13) sp /\ match r with c :: _ => is_space c = false | [] => True end.
Proof.
  induction s as [|c s IH]; [exists [], []; auto|]. destruct (is_space c) eqn:E.
  - destruct IH as (sp & r & -> & F & H). exists (c :: sp), r. split; [reflexivity|]. split; [|exact H]. constructor; [apply space_iff; exact E|exact F].
  - exists [], (c :: s). auto.
Qed.
Lemma digits_split s : exists ds r, s = ds ++ r /\ dig ds /\ match r with c :: _ => 10 <= digit_val c | [] => True end.
Proof.
  induction s as [|c s IH]; [exists [], []; repeat split; constructor|]. destruct (Z_lt_le_dec (digit_val c) 10) as [E|E].
  - destruct IH as (ds & r & -> & F & H). exists (c :: ds), r. split; [reflexivity|]. split; [|exact H]. constructor; [apply digit_iff; exact E|exact F].
  - exists [], (c :: s). repeat split; [constructor|exact E].
Qed.
(** what strtod does with a text taken apart *)
Lemma strto_parts rnd sp sgn ng ds tl fs r :
  Forall (fun c => c = 32 \/ 9 <= c <= 13) sp -> (sgn = [45] /\ ng = true \/ sgn = [43] /\ ng = false \/ sgn = [] /\ ng = false /\ match ds ++ tl with c :: _ => is_space c = false /\ c <> 45 /\ c <> 43 | [] => True end) ->
  dig ds -> dig fs -> (tl = 46 :: fs ++ r /\ match r with c :: _ => 10 <= digit_val c | [] => True end \/ fs = [] /\ tl = r /\ match tl with c :: _ => 10 <= digit_val c /\ c <> 46 | [] => True end) ->
  strto rnd (sp ++ sgn ++ ds ++ tl) = if zlen ds + zlen fs =? 0 then (mk_f false 0 0, 0) else (rnd ng (dv 0 (ds ++ fs) # Z.to_pos (10 ^ zlen fs)), zlen (sp ++ sgn ++ ds ++ tl) - zlen r).
Proof.
  intros SP SG D F T. unfold strto.
  assert (CS : count_space (sp ++ sgn ++ ds ++ tl) = zlen sp).
  { apply space_run; [exact SP|]. destruct SG as [(-> & _)|[(-> & _)|(-> & _ & H)]]; cbn [app]; auto. destruct (ds ++ tl); [auto|apply H]. }
  rewrite CS. cbv zeta. rewrite zdrop_app_len.
  assert (E1 : match sgn ++ ds ++ tl with [] => 0 | c :: _ => if (c =? 45) || (c =? 43) then 1 else 0 end = zlen sgn).
  { destruct SG as [(-> & _)|[(-> & _)|(-> & _ & H)]]; try reflexivity. cbn [app]. destruct (ds ++ tl); [reflexivity|]. destruct H as (_ & H1 & H2). apply Z.eqb_neq in H1, H2. rewrite H1, H2. reflexivity. }
  assert (E2 : match sgn ++ ds ++ tl with [] => false | c :: _ => c =? 45 end = ng).
  { destruct SG as [(-> & ->)|[(-> & ->)|(-> & -> & H)]]; try reflexivity. cbn [app]. destruct (ds ++ tl); [reflexivity|]. apply Z.eqb_neq. apply H. }
  rewrite E1, E2. rewrite zdrop_app_len.
  assert (HT : match tl with c :: _ => 10 <= digit_val c | [] => True end).
  { destruct T as [(-> & _)|(_ & _ & H)]; [vm_compute; discriminate|]. destruct tl; [auto|apply H]. }
  rewrite (digits_stop ds tl 0 D HT). cbn [fst snd]. rewrite zdrop_app_len.
  destruct T as [(-> & H)|(-> & -> & H)].
  - change (46 =? 46) with true. cbv iota. change (zdrop 1 (46 :: fs ++ r)) with (fs ++ r). rewrite (digits_stop fs r _ F H). cbn [fst snd].
    destruct (zlen ds + zlen fs =? 0); [reflexivity|]. rewrite <- dv_app. f_equal. rewrite !zlen_app, zlen_cons, zlen_app. lia.
  - assert (E3 : match r with [] => false | c :: _ => c =? 46 end = false) by (destruct r; [reflexivity|]; apply Z.eqb_neq; apply H). rewrite E3. cbn [fst snd]. change (zlen (@nil Z)) with 0; rewrite app_nil_r.
    destruct (zlen ds + 0 =? 0); [reflexivity|]. f_equal. rewrite !zlen_app. lia.
Qed.
Lemma dv_value ds : dv 0 ds = digits_value ds.
Proof. unfold dv, digits_value. enough (H : forall a, fold_left (fun a c => a * 10 + (c - 48)) ds a = fold_left (fun n c => 10 * n + (c - 48)) ds a) by apply H. induction ds as [|c ds IH]; intro a; [reflexivity|]. cbn [fold_left]. rewrite <- IH. f_equal. lia. Qed.
Lemma strto_number rnd v ng n k : number v ng n k -> strto rnd v = (rnd ng (n # Z.to_pos (10 ^ k)), zlen v) /\ 0 < zlen v.
Proof.
  intros (sp & sgn & ip & fp & pt & -> & SP & SG & D & N & P & -> & ->). apply Forall_app in D. destruct D as (D1 & D2).
  assert (LN : 0 < zlen ip + zlen fp) by (destruct ip as [|c ip]; [destruct fp as [|c fp]; [cbn in N; congruence|]|]; rewrite zlen_cons; [pose proof (zlen_nonneg fp); pose proof (zlen_nonneg (@nil Z))|pose proof (zlen_nonneg fp); pose proof (zlen_nonneg ip)]; lia).
  assert (NS : forall c, 48 <= c <= 57 \/ c = 46 -> is_space c = false /\ c <> 45 /\ c <> 43) by (intros c H; unfold is_space; lia).
  split; [|rewrite !zlen_app; pose proof (zlen_nonneg sp); pose proof (zlen_nonneg sgn); pose proof (zlen_nonneg pt); lia].
  rewrite (strto_parts rnd sp sgn ng ip (pt ++ fp) fp []); auto.
  - destruct (zlen ip + zlen fp =? 0) eqn:E; [lia|]. change (zlen (@nil Z)) with 0; rewrite dv_value, Z.sub_0_r. reflexivity.
  - destruct SG as [SG|([-> | ->] & ->)]; auto. right. right. split; [auto|]. split; [auto|]. destruct ip as [|c ip]; [destruct P as [-> |(-> & ->)]; cbn [app]; [apply NS; auto|exact I]|]. cbn [app]. apply NS. inversion_clear D1. auto.
  - destruct P as [-> |(-> & ->)]; [left; rewrite app_nil_r; auto|right; cbn; auto].
Qed.
Lemma strtod_number v ng n k : number v ng n k -> strtod v = (round_double ng (n # Z.to_pos (10 ^ k)), zlen v) /\ 0 < zlen v.
Proof. apply strto_number. Qed.
(** which texts are numbers does not depend on the type *)
Lemma strto_end rnd v : snd (strto rnd v) = snd (strtod v).
Proof. unfold strtod, strto. cbv zeta. destruct (_ =? 0); reflexivity. Qed.
Lemma number_iff v : (zlen v <> 0 /\ snd (strtod v) = zlen v) <-> exists ng n k, number v ng n k.
Proof.
  split; [|intros (ng & n & k & N); destruct (strtod_number v ng n k N) as (-> & L); cbn; lia].
  intros (NZ & E). destruct (space_split v) as (sp & s1 & -> & SP & H1).
  assert (G : exists sgn ng s2, s1 = sgn ++ s2 /\ (sgn = [45] /\ ng = true \/ (sgn = [] \/ sgn = [43]) /\ ng = false) /\ (sgn = [45] /\ ng = true \/ sgn = [43] /\ ng = false \/ sgn = [] /\ ng = false /\ match s2 with c :: _ => is_space c = false /\ c <> 45 /\ c <> 43 | [] => True end)).
  { destruct s1 as [|c s1]; [exists [], false, []; cbn; auto 8|]. destruct (Z.eq_dec c 45) as [-> |N1]; [exists [45], true, s1; auto|]. destruct (Z.eq_dec c 43) as [-> |N2]; [exists [43], false, s1; auto 6|]. exists [], false, (c :: s1). cbn. auto 9. }
  destruct G as (sgn & ng & s2 & -> & SG & SG2). destruct (digits_split s2) as (ds & tl & -> & D & HT).
  assert (K : forall fs r, dig fs -> (tl = 46 :: fs ++ r /\ match r with c :: _ => 10 <= digit_val c | [] => True end \/ fs = [] /\ tl = r /\ match tl with c :: _ => 10 <= digit_val c /\ c <> 46 | [] => True end) -> exists ng n k, number (sp ++ sgn ++ ds ++ tl) ng n k).
  { intros fs r F T. unfold strtod in E. rewrite (strto_parts _ sp sgn ng ds tl fs r SP SG2 D F T) in E. destruct (zlen ds + zlen fs =? 0) eqn:Z0; [cbn [snd] in E; lia|]. cbn [snd] in E.
    assert (r = []) as -> by (destruct r as [|c r]; [auto|]; rewrite zlen_cons in E; pose proof (zlen_nonneg r); lia).
    exists ng, (digits_value (ds ++ fs)), (zlen fs), sp, sgn, ds, fs, (match tl with [] => [] | _ => [46] end).
    assert (ETL : tl = match tl with [] => [] | _ => [46] end ++ fs) by (destruct T as [(-> & _)|(-> & -> & _)]; [rewrite app_nil_r; reflexivity|reflexivity]).
    split; [rewrite <- ETL; reflexivity|]. split; [auto|]. split; [auto|]. split; [apply Forall_app; auto|]. split; [intro X; apply app_eq_nil in X; destruct X as (-> & ->); discriminate|]. split; [|auto].
    destruct T as [(-> & _)|(-> & -> & _)]; [left; reflexivity|right; auto]. }
  destruct tl as [|c tl]; [apply (K [] []); [constructor|auto]|]. destruct (Z.eq_dec c 46) as [-> |N].
  - destruct (digits_split tl) as (fs & r & -> & F & H). apply (K fs r); auto.
  - apply (K [] (c :: tl)); [constructor|auto].
Qed.

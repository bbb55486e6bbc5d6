From Verif Require Import CBase SeqLib DirModel DirSpec DirProof.

Lemma steps_app : forall conv a p b, steps conv p (a ++ b) =
  (fst (steps conv p a) ++ fst (steps conv (snd (steps conv p a)) b), snd (steps conv (snd (steps conv p a)) b)).
Proof.
  intros conv a. induction a as [|o a IH]; intros p b; cbn [app steps fst snd].
  - apply surjective_pairing.
  - destruct (step conv p o) as [v q]. rewrite IH. destruct (steps conv q a) as [vs q2]. cbn [fst snd].
    destruct (steps conv q2 b) as [vs2 q3]. auto.
Qed.
Lemma reads_all : forall conv L k,
  steps conv (At L) (repeat ORead (length L + k)) =
  (map (fun i => VEntry (Some (entry conv (nth i L (mk_en [] [] 0)) (skipn (S i) L)))) (seq 0 (length L)) ++ repeat (VEntry None) k, At []).
Proof.
  intros conv L k. induction L as [|e r IH].
  - cbn [length Nat.add seq map app]. induction k as [|k IH]; [reflexivity|]. cbn [repeat steps step]. rewrite IH. reflexivity.
  - cbn [length Nat.add repeat steps step]. rewrite IH. cbn [seq map]. rewrite <- seq_shift, map_map. cbn [app].
    f_equal; reflexivity.
Qed.

(** the directory does not change *)
Definition steady (L : list ent) (os : list op) : Prop :=
  forall o, In o os -> match o with OSeek _ a | ORewind a => a = Some L | _ => True end.
Definition suffix (l L : list ent) : Prop := exists p, L = p ++ l.
Definition inside (L : list ent) (p : place) : Prop := match p with At l => suffix l L | Nowhere => True | Lost => False end.
Lemma from_hash_inside : forall loc l, inside l (from_hash loc l).
Proof.
  intros loc l. induction l as [|e r IH]; cbn [from_hash]; [exact I|]. destruct (hash (nm e) =? loc); [exists []; auto|].
  destruct (from_hash loc r) as [q| |]; cbn in *; auto. destruct IH as (p & ->). exists (e :: p). auto.
Qed.
Lemma step_inside : forall conv L o p, L <> [] -> steady L [o] -> inside L p -> inside L (snd (step conv p o)).
Proof.
  intros conv L o p NE ST IN. specialize (ST o (or_introl eq_refl)). destruct o as [| |loc ans|ans]; cbn [step].
  - destruct p as [[|e r]| |]; cbn [snd]; auto. destruct IN as (q & ->). exists (q ++ [e]). rewrite <- app_assoc. auto.
  - destruct p; auto.
  - subst ans. cbn [snd listing]. destruct p; [| |tauto]; (destruct (loc <? 0); [exact I|]); (destruct L as [|e r]; [tauto|]); apply from_hash_inside.
  - subst ans. cbn [snd listing]. destruct p; [| |tauto]; (destruct L as [|e r]; [tauto|]); [exists []; auto|exact I].
Qed.
Lemma steps_inside : forall conv L os p, L <> [] -> steady L os -> inside L p -> inside L (snd (steps conv p os)).
Proof.
  intros conv L os. induction os as [|o os IH]; intros p NE ST IN; cbn [steps]; auto.
  assert (A : inside L (snd (step conv p o))) by (apply step_inside; auto; intros q [<-|[]]; apply (ST o); left; auto).
  destruct (step conv p o) as [v q]. cbn [snd] in A. specialize (IH q NE).
  destruct (steps conv q os) as [vs q2]. cbn [snd] in *. apply IH; auto. intros x X. apply ST. right. auto.
Qed.
Lemma from_hash_at : forall L e r p, L = p ++ e :: r -> NoDup (map (fun e => hash (nm e)) L) -> from_hash (hash (nm e)) L = At (e :: r).
Proof.
  intros L e r p. revert L. induction p as [|a p IH]; intros L -> N; cbn [app from_hash map] in *.
  - rewrite Z.eqb_refl. auto.
  - inversion N as [|x y N1 N2]; subst. destruct (Z.eqb_spec (hash (nm a)) (hash (nm e))) as [Q|Q].
    + destruct N1. rewrite Q. rewrite map_app. apply in_or_app. right. left. auto.
    + apply (IH (p ++ e :: r)); auto.
Qed.
Lemma hash_range : forall n, 0 <= hash n <= 2147483647.
Proof.
  intros n. unfold hash. change 2147483647 with (Z.ones 31). rewrite Z.land_ones by lia.
  match goal with |- context [?x mod ?m] => pose proof (Z.mod_pos_bound x m ltac:(lia)) end. change (Z.ones 31) with 2147483647. lia.
Qed.
Lemma seek_back : forall conv L l p, L <> [] -> suffix l L -> l <> [] -> NoDup (map (fun e => hash (nm e)) L) -> inside L p ->
  step conv p (OSeek (pos_of l) (Some L)) = (VDone, At l).
Proof.
  intros conv L l p NE (q & E) NL N IN. destruct l as [|e r]; [tauto|]. cbn [step pos_of listing].
  pose proof (hash_range (nm e)) as R. destruct (Z.ltb_spec (hash (nm e)) 0); [lia|].
  pose proof (from_hash_at L e r q E N) as F. destruct p; [| |destruct IN]; (destruct L; [tauto|]); rewrite F; auto.
Qed.

Lemma types : forall a, (type_of a = DT_CHR <-> Z.testbit a 6 = true) /\ (type_of a = DT_DIR <-> Z.testbit a 6 = false /\ Z.testbit a 4 = true) /\
  (type_of a = DT_REG <-> Z.testbit a 6 = false /\ Z.testbit a 4 = false).
Proof.
  assert (B : forall a n, 0 <= n -> negb (Z.land a (2 ^ n) =? 0) = Z.testbit a n).
  { intros a n N. destruct (Z.testbit a n) eqn:T.
    - apply negb_true_iff. apply Z.eqb_neq. intro Q. assert (Z.testbit (Z.land a (2 ^ n)) n = true) as R by (rewrite Z.land_spec, T, Z.pow2_bits_true; auto).
      rewrite Q, Z.bits_0 in R. discriminate.
    - apply negb_false_iff. apply Z.eqb_eq. apply Z.bits_inj'. intros k K. rewrite Z.land_spec, Z.bits_0.
      destruct (Z.eq_dec n k) as [<-|E]; [rewrite T; auto|]. rewrite Z.pow2_bits_false; auto. apply andb_false_r. }
  intros a. unfold type_of. change 64 with (2 ^ 6). change 16 with (2 ^ 4). rewrite !B by lia.
  destruct (Z.testbit a 6), (Z.testbit a 4); repeat split; intros; try discriminate; try tauto; destruct H; discriminate.
Qed.

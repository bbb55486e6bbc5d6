(** Lemmas for sequential reading and writing of blocks, and finite sweeps. Nothing of /repo is modelled here. *)
From Verif Require Import CBase.

Section S.
Context {A : Type}.
Implicit Types l pre rest : list A.

Lemma mload_znth l i x : znth i l = Some x -> mload l i = Ret x.
Proof. unfold mload; intros ->; reflexivity. Qed.
Lemma mload_app pre l i k : i = zlen pre + k -> 0 <= k -> mload (pre ++ l) i = mload l k.
Proof.
  intros -> H. unfold mload. rewrite znth_app_r by lia.
  replace (zlen pre + k - zlen pre) with k by lia. reflexivity.
Qed.
Lemma mload_app0 pre l x i : i = zlen pre -> mload (pre ++ x :: l) i = Ret x.
Proof. intros ->. rewrite (mload_app pre (x :: l) (zlen pre) 0) by lia. reflexivity. Qed.
Lemma mload_cons_0 x l : mload (x :: l) 0 = Ret x. Proof. reflexivity. Qed.
Lemma mload_cons x l i : 0 < i -> mload (x :: l) i = mload l (i - 1).
Proof. intro H; unfold mload; rewrite znth_cons by lia; reflexivity. Qed.
Lemma mwrite_app pre (s t rest : list A) i : i = zlen pre -> zlen s = zlen t ->
  mwrite (pre ++ t ++ rest) i s = Ret ((pre ++ s) ++ rest).
Proof.
  intros -> E. pose proof (zlen_nonneg pre). pose proof (zlen_nonneg t). pose proof (zlen_nonneg rest).
  rewrite mwrite_ok by (rewrite ?zlen_app; lia). unfold zwrite.
  rewrite ztake_app_len. f_equal. rewrite E, <- app_assoc. f_equal. f_equal.
  rewrite zdrop_app. rewrite zdrop_all by lia. cbn [app].
  replace (zlen pre + zlen t - zlen pre) with (zlen t) by lia. apply zdrop_app_len.
Qed.
Lemma mstore_app pre rest x y i : i = zlen pre ->
  mstore (pre ++ y :: rest) i x = Ret ((pre ++ [x]) ++ rest).
Proof. intro H. unfold mstore. apply (mwrite_app pre [x] [y] rest); [exact H|reflexivity]. Qed.
Lemma split_first_n (n : Z) l : 0 <= n <= zlen l -> exists a b, l = a ++ b /\ zlen a = n.
Proof.
  intro H. exists (ztake n l), (zdrop n l). split; [symmetry; apply ztake_zdrop|apply zlen_ztake; exact H].
Qed.
Lemma zlen_pos_cons l : 0 < zlen l -> exists x r, l = x :: r.
Proof. destruct l as [|x r]; [change (zlen (@nil A)) with 0; lia|eauto]. Qed.
Lemma zlen_snoc l x : zlen (l ++ [x]) = zlen l + 1.
Proof. rewrite zlen_app, zlen_cons. change (zlen (@nil A)) with 0. lia. Qed.
End S.

(** finite sweeps: a boolean check for all i in [0, n) *)
Definition zrange (n : Z) : list Z := map Z.of_nat (seq 0 (Z.to_nat n)).
Lemma In_zrange n i : 0 <= i < n -> In i (zrange n).
Proof.
  intro H. unfold zrange. apply in_map_iff. exists (Z.to_nat i). split; [lia|]. apply in_seq. lia.
Qed.
Definition sweep (n : Z) (f : Z -> bool) : bool := forallb f (zrange n).
Lemma sweep_ok n f : sweep n f = true -> forall i, 0 <= i < n -> f i = true.
Proof. intros H i Hi. eapply forallb_forall in H; [exact H|]. apply In_zrange; exact Hi. Qed.
Definition sweep2 (n m : Z) (f : Z -> Z -> bool) : bool := sweep n (fun i => sweep m (f i)).
Lemma sweep2_ok n m f : sweep2 n m f = true -> forall i j, 0 <= i < n -> 0 <= j < m -> f i j = true.
Proof.
  intros H i j Hi Hj. exact (sweep_ok m (f i) (sweep_ok n (fun i => sweep m (f i)) H i Hi) j Hj).
Qed.

(** equality of constructor applications whose numeric arguments agree by arithmetic *)
Ltac eqlia := first [reflexivity | lia | progress f_equal; eqlia].

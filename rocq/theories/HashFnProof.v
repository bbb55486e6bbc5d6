From Verif Require Import CBase CStr HashFnModel.
Ltac Zify.zify_post_hook ::= Z.to_euclidean_division_equations.

Lemma bind_ret {A B} (x : A) (f : A -> outcome B) : bind (Ret x) f = f x.
Proof. reflexivity. Qed.
Lemma s32_eqm a b : s32 a = s32 b -> (a - b) mod two32 = 0.
Proof. unfold s32, two31, two32. intros H. lia. Qed.
Lemma hash_integer_inj a b : -2147483648 <= a < 2147483648 -> -2147483648 <= b < 2147483648 ->
  hash_function_integer a = hash_function_integer b -> a = b.
Proof.
  intros HA HB H. unfold hash_function_integer in H.
  assert (s32 a = a) as Ea by (unfold s32, two31, two32; lia).
  assert (s32 b = b) as Eb by (unfold s32, two31, two32; lia). rewrite Ea, Eb in H.
  apply s32_eqm in H. apply Z.mod_divide in H; [|discriminate].
  replace (a * 2654435761 - b * 2654435761) with (2654435761 * (a - b)) in H by ring.
  apply Z.gauss in H; [|reflexivity]. destruct H as [q Q]. unfold two32 in Q. lia.
Qed.
Lemma hash_string_ext : forall t r r', text t -> hash_function_string (t ++ 0 :: r) = hash_function_string (t ++ 0 :: r').
Proof.
  intros t r r' T. unfold hash_function_string. generalize 5381 as h. induction T as [|c t H T IH]; intro h; [reflexivity|].
  cbn [app hash_loop]. destruct (c =? 0) eqn:E; [lia|]. apply IH.
Qed.
Lemma hash_string_total : forall t r, text t -> exists h, hash_function_string (t ++ 0 :: r) = Ret h /\ - two31 <= h < two31.
Proof.
  intros t r T. unfold hash_function_string. assert (- two31 <= 5381 < two31) as B by (unfold two31; lia). revert B.
  generalize 5381 as h. induction T as [|c t H T IH]; intros h B; [exists h; split; [reflexivity|exact B]|].
  cbn [app hash_loop]. destruct (c =? 0) eqn:E; [lia|]. apply IH. unfold s32, two31, two32. lia.
Qed.
Lemma hash_bytes_total t r : exists h, hashmap_hash (t ++ r) (zlen t) = Ret h /\ hashmap_hash t (zlen t) = Ret h.
Proof.
  unfold hashmap_hash, zlen. rewrite Nat2Z.id. generalize (s32 (Z.of_nat (length t))) as h.
  induction t as [|c t IH]; intro h; [exists h; split; reflexivity|]. cbn [length app hashmap_hash_loop]. apply IH.
Qed.
Lemma hash_strict_ub a b c d t r : text (a :: b :: c :: d :: t) -> Forall is_byte [a; b; c; d] ->
  hash_function_string_strict ((a :: b :: c :: d :: t) ++ 0 :: r) = Ub.
Proof.
  intros T F. inversion_clear T as [|? ? Ha T1]. inversion_clear T1 as [|? ? Hb T2]. inversion_clear T2 as [|? ? Hc T3].
  inversion_clear T3 as [|? ? Hd _].
  repeat match goal with H : Forall _ (_ :: _) |- _ => inversion_clear H end.
  assert (forall x, is_byte x -> -128 <= schar x <= 127) as S by (unfold is_byte, schar; intros x ?; destruct (x <? 128) eqn:?; lia).
  unfold hash_function_string_strict. cbn [app hash_loop_strict].
  destruct (a =? 0) eqn:E1; [lia|]. destruct (b =? 0) eqn:E2; [lia|]. destruct (c =? 0) eqn:E3; [lia|]. destruct (d =? 0) eqn:E4; [lia|].
  pose proof (S a ltac:(assumption)) as Sa. pose proof (S b ltac:(assumption)) as Sb. pose proof (S c ltac:(assumption)) as Sc.
  assert (forall x, - two31 <= x < two31 -> sint x = Ret x) as K.
  { intros x Hx. unfold sint, int_ok. destruct ((- two31 <=? x) && (x <? two31)) eqn:E; [reflexivity|lia]. }
  unfold two31 in K. change (5381 <? 0) with false. cbv iota.
  rewrite (K (5381 * 32)), bind_ret by lia. rewrite (K (5381 * 32 + 5381)), bind_ret by lia.
  remember (5381 * 32 + 5381 + schar a) as h1 eqn:D1. rewrite (K h1), bind_ret by lia.
  destruct (h1 <? 0) eqn:N1; [lia|]. rewrite (K (h1 * 32)), bind_ret by lia. rewrite (K (h1 * 32 + h1)), bind_ret by lia.
  remember (h1 * 32 + h1 + schar b) as h2 eqn:D2. rewrite (K h2), bind_ret by lia.
  destruct (h2 <? 0) eqn:N2; [lia|]. rewrite (K (h2 * 32)), bind_ret by lia. rewrite (K (h2 * 32 + h2)), bind_ret by lia.
  remember (h2 * 32 + h2 + schar c) as h3 eqn:D3. rewrite (K h3), bind_ret by lia.
  destruct (h3 <? 0) eqn:N3; [reflexivity|]. unfold sint at 1, int_ok, two31.
  destruct ((- (2147483648) <=? h3 * 32) && (h3 * 32 <? 2147483648)) eqn:N4; [lia|reflexivity].
Qed.

(** Common base of the model: outcomes of C computations, machine integers,
    bounds-checked memory blocks. No file of /repo is modelled here. *)
From Coq Require Export List ZArith Lia Bool.
From Coq Require Export ZifyBool.
Export ListNotations.
Ltac Zify.zify_post_hook ::= Z.div_mod_to_equations.
Global Open Scope Z_scope.

(** ** Outcomes *)
Inductive outcome (A : Type) : Type :=
| Ret (a : A)   (* normal return *)
| Ub            (* undefined behaviour: out-of-bounds, NULL, use after free, signed overflow *)
| Abrt          (* the program calls abort() *)
| NoFuel.       (* the loop did not end within the fuel supplied *)
Arguments Ret {A} a. Arguments Ub {A}. Arguments Abrt {A}. Arguments NoFuel {A}.

Definition bind {A B : Type} (m : outcome A) (f : A -> outcome B) : outcome B :=
  match m with Ret a => f a | Ub => Ub | Abrt => Abrt | NoFuel => NoFuel end.
Notation "'do' x <- m ; k" := (bind m (fun x => k))
  (at level 200, x pattern, m at level 100, k at level 200, right associativity).

(** ** Machine integers *)
Definition two32 : Z := 4294967296.
Definition two31 : Z := 2147483648.
Definition two64 : Z := 18446744073709551616.
Definition u32 (x : Z) : Z := x mod two32.
Definition u64 (x : Z) : Z := x mod two64.
Definition is_u32 (x : Z) : Prop := 0 <= x < two32.
Definition is_u64 (x : Z) : Prop := 0 <= x < two64.
Definition is_byte (x : Z) : Prop := 0 <= x < 256.
(** conversion of a value to int (implementation defined in C, two's complement) *)
Definition s32 (x : Z) : Z := (x + two31) mod two32 - two31.
(** signed int arithmetic result: overflow is UB *)
Definition int_ok (x : Z) : bool := (- two31 <=? x) && (x <? two31).
Definition sint (x : Z) : outcome Z := if int_ok x then Ret x else Ub.

(** ** Z-indexed lists *)
Section ZList.
Context {A : Type}.
Implicit Types l s : list A.

Definition zlen l : Z := Z.of_nat (length l).
Definition ztake (n : Z) l : list A := firstn (Z.to_nat n) l.
Definition zdrop (n : Z) l : list A := skipn (Z.to_nat n) l.
Definition zsub (off n : Z) l : list A := ztake n (zdrop off l).
Definition znth (i : Z) l : option A := if i <? 0 then None else nth_error l (Z.to_nat i).
Definition zwrite (off : Z) s l : list A := ztake off l ++ s ++ zdrop (off + zlen s) l.

(** bounds-checked block access *)
Definition mread l (off n : Z) : outcome (list A) :=
  if (0 <=? off) && (0 <=? n) && (off + n <=? zlen l) then Ret (zsub off n l) else Ub.
Definition mwrite l (off : Z) s : outcome (list A) :=
  if (0 <=? off) && (off + zlen s <=? zlen l) then Ret (zwrite off s l) else Ub.
Definition mload l (i : Z) : outcome A :=
  match znth i l with Some x => Ret x | None => Ub end.
Definition mstore l (i : Z) (x : A) : outcome (list A) := mwrite l i [x].

Lemma zlen_nonneg l : 0 <= zlen l. Proof. unfold zlen; lia. Qed.
Lemma zlen_nil : zlen (@nil A) = 0. Proof. reflexivity. Qed.
Lemma zlen_cons x l : zlen (x :: l) = 1 + zlen l. Proof. unfold zlen; cbn [length]; lia. Qed.
Lemma zlen_app l1 l2 : zlen (l1 ++ l2) = zlen l1 + zlen l2.
Proof. unfold zlen; rewrite app_length; lia. Qed.
Lemma zlen_rev l : zlen (rev l) = zlen l.
Proof. unfold zlen; rewrite rev_length; lia. Qed.
Lemma zlen_ztake_le n l : zlen (ztake n l) = Z.max 0 (Z.min n (zlen l)).
Proof. unfold zlen, ztake; rewrite firstn_length; lia. Qed.
Lemma zlen_ztake n l : 0 <= n <= zlen l -> zlen (ztake n l) = n.
Proof. intro H; rewrite zlen_ztake_le; lia. Qed.
Lemma zlen_zdrop_max n l : zlen (zdrop n l) = Z.min (zlen l) (Z.max 0 (zlen l - n)).
Proof. unfold zlen, zdrop; rewrite skipn_length; lia. Qed.
Lemma zlen_zdrop n l : 0 <= n <= zlen l -> zlen (zdrop n l) = zlen l - n.
Proof. intro H; rewrite zlen_zdrop_max; lia. Qed.
Lemma zlen_zsub off n l : 0 <= off -> 0 <= n -> off + n <= zlen l -> zlen (zsub off n l) = n.
Proof. intros; unfold zsub; rewrite zlen_ztake; [lia|rewrite zlen_zdrop; lia]. Qed.
Lemma zlen_zwrite off s l : 0 <= off -> off + zlen s <= zlen l -> zlen (zwrite off s l) = zlen l.
Proof.
  intros Ho Hs; pose proof (zlen_nonneg s); unfold zwrite.
  rewrite !zlen_app, zlen_ztake, zlen_zdrop; lia.
Qed.
Lemma zlen_0_nil l : zlen l = 0 -> l = [].
Proof. destruct l; [reflexivity|rewrite zlen_cons; pose proof (zlen_nonneg l); lia]. Qed.

Lemma ztake_0 l : ztake 0 l = []. Proof. reflexivity. Qed.
Lemma ztake_neg n l : n <= 0 -> ztake n l = [].
Proof. intro H; unfold ztake; replace (Z.to_nat n) with 0%nat by lia; reflexivity. Qed.
Lemma zdrop_0 l : zdrop 0 l = l. Proof. reflexivity. Qed.
Lemma zdrop_neg n l : n <= 0 -> zdrop n l = l.
Proof. intro H; unfold zdrop; replace (Z.to_nat n) with 0%nat by lia; reflexivity. Qed.
Lemma ztake_all n l : zlen l <= n -> ztake n l = l.
Proof. intro H; unfold ztake; apply firstn_all2; unfold zlen in H; lia. Qed.
Lemma zdrop_all n l : zlen l <= n -> zdrop n l = [].
Proof. intro H; unfold zdrop; apply skipn_all2; unfold zlen in H; lia. Qed.
Lemma ztake_zdrop n l : ztake n l ++ zdrop n l = l.
Proof. apply firstn_skipn. Qed.
Lemma ztake_nil n : ztake n (@nil A) = []. Proof. unfold ztake; apply firstn_nil. Qed.
Lemma zdrop_nil n : zdrop n (@nil A) = []. Proof. unfold zdrop; apply skipn_nil. Qed.

Lemma ztake_app n l1 l2 : ztake n (l1 ++ l2) = ztake n l1 ++ ztake (n - zlen l1) l2.
Proof. unfold ztake, zlen; rewrite firstn_app; do 2 f_equal; lia. Qed.
Lemma zdrop_app n l1 l2 : zdrop n (l1 ++ l2) = zdrop n l1 ++ zdrop (n - zlen l1) l2.
Proof. unfold zdrop, zlen; rewrite skipn_app; do 2 f_equal; lia. Qed.
Lemma ztake_app_l n l1 l2 : n <= zlen l1 -> ztake n (l1 ++ l2) = ztake n l1.
Proof. intro H; rewrite ztake_app, (ztake_neg (n - zlen l1)); [apply app_nil_r|lia]. Qed.
Lemma ztake_app_len l1 l2 : ztake (zlen l1) (l1 ++ l2) = l1.
Proof. rewrite ztake_app_l by lia; apply ztake_all; lia. Qed.
Lemma zdrop_app_len l1 l2 : zdrop (zlen l1) (l1 ++ l2) = l2.
Proof. rewrite zdrop_app, zdrop_all by lia; rewrite zdrop_neg by lia; reflexivity. Qed.
Lemma zdrop_app_l n l1 l2 : n <= zlen l1 -> zdrop n (l1 ++ l2) = zdrop n l1 ++ l2.
Proof. intro H; rewrite zdrop_app, (zdrop_neg (n - zlen l1)); [reflexivity|lia]. Qed.

Lemma ztake_ztake m n l : ztake m (ztake n l) = ztake (Z.min m n) l.
Proof. unfold ztake; rewrite firstn_firstn; f_equal; lia. Qed.
Lemma skipn_skipn_add (m n : nat) l : skipn m (skipn n l) = skipn (n + m) l.
Proof.
  revert l; induction n as [|n IH]; intro l; [reflexivity|].
  destruct l as [|x l]; [apply skipn_nil|]. cbn. apply IH.
Qed.
Lemma zdrop_zdrop m n l : 0 <= m -> 0 <= n -> zdrop m (zdrop n l) = zdrop (m + n) l.
Proof. intros; unfold zdrop; rewrite skipn_skipn_add; f_equal; lia. Qed.
Lemma zdrop_ztake m n l : 0 <= m -> zdrop m (ztake n l) = ztake (n - m) (zdrop m l).
Proof. intros; unfold zdrop, ztake. rewrite skipn_firstn_comm. f_equal; lia. Qed.

Lemma ztake_cons n x l : 0 < n -> ztake n (x :: l) = x :: ztake (n - 1) l.
Proof. intro H; unfold ztake; replace (Z.to_nat n) with (S (Z.to_nat (n-1))) by lia; reflexivity. Qed.
Lemma zdrop_cons n x l : 0 < n -> zdrop n (x :: l) = zdrop (n - 1) l.
Proof. intro H; unfold zdrop; replace (Z.to_nat n) with (S (Z.to_nat (n-1))) by lia; reflexivity. Qed.

(** ** znth *)
Lemma znth_None_iff i l : znth i l = None <-> i < 0 \/ zlen l <= i.
Proof.
  unfold znth, zlen; destruct (i <? 0) eqn:E; [split; intros; [lia|reflexivity]|].
  rewrite nth_error_None; lia.
Qed.
Lemma znth_Some_range i l x : znth i l = Some x -> 0 <= i < zlen l.
Proof.
  intro H. assert (~ (i < 0 \/ zlen l <= i)) as N; [|lia].
  rewrite <- znth_None_iff, H; discriminate.
Qed.
Lemma znth_in_range i l : 0 <= i < zlen l -> exists x, znth i l = Some x.
Proof.
  intro H; destruct (znth i l) eqn:E; [eauto|]. apply znth_None_iff in E; lia.
Qed.
Lemma znth_nil i : znth i (@nil A) = None.
Proof. apply znth_None_iff; rewrite zlen_nil; lia. Qed.
Lemma znth_cons_0 x l : znth 0 (x :: l) = Some x. Proof. reflexivity. Qed.
Lemma znth_cons i x l : 0 < i -> znth i (x :: l) = znth (i - 1) l.
Proof.
  intro H; unfold znth. destruct (i <? 0) eqn:E1; [lia|]. destruct (i - 1 <? 0) eqn:E2; [lia|].
  replace (Z.to_nat i) with (S (Z.to_nat (i-1))) by lia; reflexivity.
Qed.
Lemma znth_app i l1 l2 : znth i (l1 ++ l2) = if i <? zlen l1 then znth i l1 else znth (i - zlen l1) l2.
Proof.
  unfold znth, zlen. destruct (i <? 0) eqn:E1.
  - destruct (i <? Z.of_nat (length l1)) eqn:E2; [reflexivity|lia].
  - destruct (i <? Z.of_nat (length l1)) eqn:E2.
    + rewrite nth_error_app1 by lia; reflexivity.
    + destruct (i - Z.of_nat (length l1) <? 0) eqn:E3; [lia|].
      rewrite nth_error_app2 by lia; f_equal; lia.
Qed.
Lemma znth_app_l i l1 l2 : i < zlen l1 -> znth i (l1 ++ l2) = znth i l1.
Proof. intro H; rewrite znth_app; destruct (i <? zlen l1) eqn:E; [reflexivity|lia]. Qed.
Lemma znth_app_r i l1 l2 : zlen l1 <= i -> znth i (l1 ++ l2) = znth (i - zlen l1) l2.
Proof. intro H; rewrite znth_app; destruct (i <? zlen l1) eqn:E; [lia|reflexivity]. Qed.
Lemma nth_error_firstn_lt (n i : nat) l : (i < n)%nat -> nth_error (firstn n l) i = nth_error l i.
Proof.
  revert i l; induction n as [|n IH]; intros i l H; [lia|].
  destruct l as [|x l]; [reflexivity|]. destruct i as [|i]; [reflexivity|]. cbn. apply IH; lia.
Qed.
Lemma nth_error_skipn_add (n i : nat) l : nth_error (skipn n l) i = nth_error l (n + i).
Proof.
  revert l; induction n as [|n IH]; intro l; [reflexivity|].
  destruct l as [|x l]; [cbn; destruct i; reflexivity|]. cbn. apply IH.
Qed.
Lemma znth_ztake i n l : i < n -> znth i (ztake n l) = znth i l.
Proof.
  intro H; unfold znth, ztake. destruct (i <? 0) eqn:E; [reflexivity|].
  apply nth_error_firstn_lt; lia.
Qed.
Lemma znth_zdrop i n l : 0 <= i -> 0 <= n -> znth i (zdrop n l) = znth (n + i) l.
Proof.
  intros Hi Hn; unfold znth, zdrop. destruct (i <? 0) eqn:E; [lia|].
  destruct (n + i <? 0) eqn:E2; [lia|].
  rewrite nth_error_skipn_add. f_equal; lia.
Qed.
Lemma znth_zsub i off n l : 0 <= i < n -> 0 <= off -> znth i (zsub off n l) = znth (off + i) l.
Proof. intros; unfold zsub; rewrite znth_ztake, znth_zdrop by lia; reflexivity. Qed.
Lemma znth_zwrite i off s l : 0 <= off -> off + zlen s <= zlen l -> 0 <= i ->
  znth i (zwrite off s l) = if (off <=? i) && (i <? off + zlen s) then znth (i - off) s else znth i l.
Proof.
  intros Ho Hs Hi. unfold zwrite. rewrite znth_app, zlen_ztake by (pose proof (zlen_nonneg s); lia).
  destruct (i <? off) eqn:E1.
  - destruct ((off <=? i) && (i <? off + zlen s)) eqn:E2; [lia|]. apply znth_ztake; lia.
  - rewrite znth_app. destruct (i - off <? zlen s) eqn:E2.
    + destruct ((off <=? i) && (i <? off + zlen s)) eqn:E3; [reflexivity|lia].
    + destruct ((off <=? i) && (i <? off + zlen s)) eqn:E3; [lia|].
      rewrite znth_zdrop by (pose proof (zlen_nonneg s); lia). f_equal; lia.
Qed.
Lemma nth_error_ext l1 l2 : (forall i, nth_error l1 i = nth_error l2 i) -> l1 = l2.
Proof.
  revert l2; induction l1 as [|x l1 IH]; intros l2 H.
  - destruct l2 as [|y l2]; [reflexivity|]. specialize (H O); discriminate.
  - destruct l2 as [|y l2]; [specialize (H O); discriminate|].
    pose proof (H O) as H0; injection H0 as ->. f_equal. apply IH; intro i; apply (H (S i)).
Qed.
Lemma zlist_ext l1 l2 :
  zlen l1 = zlen l2 -> (forall i, 0 <= i < zlen l1 -> znth i l1 = znth i l2) -> l1 = l2.
Proof.
  intros HL H; apply nth_error_ext; intro i.
  destruct (Z_lt_dec (Z.of_nat i) (zlen l1)) as [Hi|Hi].
  - specialize (H (Z.of_nat i) ltac:(lia)). unfold znth in H.
    destruct (Z.of_nat i <? 0) eqn:E; [lia|]. rewrite Nat2Z.id in H; exact H.
  - unfold zlen in *. rewrite (proj2 (nth_error_None l1 i)) by lia.
    rewrite (proj2 (nth_error_None l2 i)) by lia. reflexivity.
Qed.
Lemma znth_In i l x : znth i l = Some x -> In x l.
Proof. unfold znth; destruct (i <? 0); [discriminate|]. apply nth_error_In. Qed.
Lemma In_znth x l : In x l -> exists i, 0 <= i < zlen l /\ znth i l = Some x.
Proof.
  intro H; apply In_nth_error in H as [n Hn]. exists (Z.of_nat n).
  unfold znth. destruct (Z.of_nat n <? 0) eqn:E; [lia|]. rewrite Nat2Z.id. split; [|exact Hn].
  unfold zlen. assert (nth_error l n <> None) as N by (rewrite Hn; discriminate).
  apply nth_error_Some in N; lia.
Qed.

(** ** block access lemmas *)
Lemma mread_ok l off n : 0 <= off -> 0 <= n -> off + n <= zlen l -> mread l off n = Ret (zsub off n l).
Proof. intros; unfold mread; destruct ((0 <=? off) && (0 <=? n) && (off + n <=? zlen l)) eqn:E; [reflexivity|lia]. Qed.
Lemma mwrite_ok l off s : 0 <= off -> off + zlen s <= zlen l -> mwrite l off s = Ret (zwrite off s l).
Proof. intros; unfold mwrite; destruct ((0 <=? off) && (off + zlen s <=? zlen l)) eqn:E; [reflexivity|lia]. Qed.
Lemma mread_Ret l off n s : mread l off n = Ret s -> 0 <= off /\ 0 <= n /\ off + n <= zlen l /\ s = zsub off n l.
Proof.
  unfold mread; destruct ((0 <=? off) && (0 <=? n) && (off + n <=? zlen l)) eqn:E; [|discriminate].
  intro H; injection H as <-. repeat split; lia.
Qed.
Lemma mwrite_Ret l off s l' : mwrite l off s = Ret l' -> 0 <= off /\ off + zlen s <= zlen l /\ l' = zwrite off s l.
Proof.
  unfold mwrite; destruct ((0 <=? off) && (off + zlen s <=? zlen l)) eqn:E; [|discriminate].
  intro H; injection H as <-. repeat split; lia.
Qed.

Lemma zwrite_nil off l : 0 <= off <= zlen l -> zwrite off [] l = l.
Proof. intro H; unfold zwrite. rewrite zlen_nil, Z.add_0_r. cbn [app]. apply ztake_zdrop. Qed.

Lemma zsub_full l : zsub 0 (zlen l) l = l.
Proof. unfold zsub; rewrite zdrop_0; apply ztake_all; lia. Qed.
Lemma zsub_split off n m l : 0 <= off -> 0 <= n -> 0 <= m ->
  zsub off (n + m) l = zsub off n l ++ zsub (off + n) m l.
Proof.
  intros Ho Hn Hm. unfold zsub.
  rewrite <- (ztake_zdrop n (ztake (n + m) (zdrop off l))).
  rewrite ztake_ztake, zdrop_ztake by lia. rewrite zdrop_zdrop by lia.
  f_equal; [f_equal; lia|f_equal; [lia|f_equal; lia]].
Qed.
Lemma zsub_0 off l : zsub off 0 l = []. Proof. reflexivity. Qed.
End ZList.

Lemma zlen_map {A B} (f : A -> B) l : zlen (map f l) = zlen l.
Proof. unfold zlen; rewrite map_length; reflexivity. Qed.
Lemma zlen_repeat {A} (x : A) n : zlen (repeat x n) = Z.of_nat n.
Proof. unfold zlen; rewrite repeat_length; reflexivity. Qed.

Arguments Z.add : simpl never. Arguments Z.sub : simpl never. Arguments Z.mul : simpl never.
Arguments Z.of_nat : simpl never. Arguments Z.to_nat : simpl never.
Arguments Z.div : simpl never. Arguments Z.modulo : simpl never.
Arguments Z.pow : simpl never.
Arguments Z.land : simpl never. Arguments Z.lor : simpl never. Arguments Z.lxor : simpl never.
Arguments Z.shiftl : simpl never. Arguments Z.shiftr : simpl never.

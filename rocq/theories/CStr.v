(** C strings in bounds-checked memory, and the libc functions of <string.h> the repository calls, modelled
    by their ISO C / POSIX meaning (trusted; not part of /repo). Bytes are 0..255, the terminator is 0. *)
From Verif Require Import CBase SeqLib.

(** strlen on the block suffix l: number of bytes before the first NUL; reading past the block is Ub *)
Fixpoint find0 (l : list Z) : outcome Z :=
  match l with
  | [] => Ub
  | c :: l' => if c =? 0 then Ret 0 else do n <- find0 l'; Ret (1 + n)
  end.
Definition strlen_at (buf : list Z) (off : Z) : outcome Z :=
  if (0 <=? off) && (off <=? zlen buf) then find0 (zdrop off buf) else Ub.
(** the C string at an offset *)
Definition cstr_at (buf : list Z) (off : Z) : outcome (list Z) :=
  do n <- strlen_at buf off; Ret (zsub off n buf).

(** t has no terminator inside *)
Definition text (t : list Z) : Prop := Forall (fun c => c <> 0) t.

(** membership of a byte in a string, strchr(set, c) != NULL for c <> 0 *)
Definition inset (c : Z) (set : list Z) : bool := existsb (Z.eqb c) set.

(** does s start with p *)
Fixpoint starts_with (p s : list Z) : bool :=
  match p, s with
  | [], _ => true
  | a :: p', b :: s' => (a =? b) && starts_with p' s'
  | _, [] => false
  end.
(** strstr: offset of the first occurrence *)
Fixpoint strstr (s p : list Z) : option Z :=
  if starts_with p s then Some 0
  else match s with
       | [] => None
       | _ :: s' => match strstr s' p with Some k => Some (1 + k) | None => None end
       end.
(** strspn / strcspn *)
Fixpoint span_in (d s : list Z) : Z :=
  match s with c :: s' => if inset c d then 1 + span_in d s' else 0 | [] => 0 end.
Fixpoint span_out (d s : list Z) : Z :=
  match s with c :: s' => if inset c d then 0 else 1 + span_out d s' | [] => 0 end.

(** snprintf of the finished text t into buf at off with size argument size; the return value is the full
    length of t *)
Definition snprintf_at (buf : list Z) (off size : Z) (t : list Z) : outcome (list Z * Z) :=
  if size =? 0 then Ret (buf, zlen t)
  else do buf <- mwrite buf off (ztake (size - 1) t ++ [0]); Ret (buf, zlen t).

(** decimal digits of a non-negative number, most significant first (printf %zu, %d, %u ...) *)
Fixpoint dec_digits_rev (fuel : nat) (n : Z) : list Z :=
  match fuel with
  | O => []
  | S fuel => if n <? 10 then [48 + n] else (48 + n mod 10) :: dec_digits_rev fuel (n / 10)
  end.
Definition decimal (n : Z) : list Z := rev (dec_digits_rev (S (Z.to_nat (Z.log2 n))) n).

Lemma find0_text t r : text t -> find0 (t ++ 0 :: r) = Ret (zlen t).
Proof.
  induction 1 as [|c t H T IH]; [reflexivity|]. cbn [app find0]. destruct (c =? 0) eqn:E; [lia|].
  rewrite IH. cbn [bind]. rewrite zlen_cons. reflexivity.
Qed.
Lemma strlen_at_text pre t r off : off = zlen pre -> text t -> strlen_at (pre ++ t ++ 0 :: r) off = Ret (zlen t).
Proof.
  intros -> T. unfold strlen_at. pose proof (zlen_nonneg pre). pose proof (zlen_nonneg (t ++ 0 :: r)).
  rewrite zlen_app. destruct ((0 <=? zlen pre) && (zlen pre <=? zlen pre + zlen (t ++ 0 :: r))) eqn:E; [|lia].
  rewrite zdrop_app_len. apply find0_text; exact T.
Qed.
Lemma cstr_at_text pre t r off : off = zlen pre -> text t -> cstr_at (pre ++ t ++ 0 :: r) off = Ret t.
Proof.
  intros H T. unfold cstr_at. rewrite strlen_at_text by assumption. cbn [bind]. subst off. f_equal.
  unfold zsub. rewrite zdrop_app_len. apply ztake_app_len.
Qed.
Lemma text_app a b : text (a ++ b) <-> text a /\ text b. Proof. apply Forall_app. Qed.
Lemma text_cons c t : text (c :: t) <-> c <> 0 /\ text t.
Proof. split; [intro H; inversion H; auto|intros [H1 H2]; constructor; auto]. Qed.
(** every block that contains a NUL starts with a C string *)
Lemma find0_Ret l n : find0 l = Ret n -> exists t r, l = t ++ 0 :: r /\ text t /\ zlen t = n.
Proof.
  revert n; induction l as [|c l IH]; intros n H; [discriminate|]. cbn [find0] in H.
  destruct (c =? 0) eqn:E.
  - injection H as <-. exists [], l. repeat split; [|constructor]. cbn; f_equal; lia.
  - destruct (find0 l) as [m| | |] eqn:F; try discriminate. cbn [bind] in H. injection H as <-.
    destruct (IH m eq_refl) as (t & r & -> & T & L). exists (c :: t), r. repeat split.
    + constructor; [lia|exact T].
    + rewrite zlen_cons; lia.
Qed.
Lemma starts_with_app p s : starts_with p (p ++ s) = true.
Proof. induction p as [|a p IH]; [reflexivity|]. cbn. rewrite Z.eqb_refl, IH. reflexivity. Qed.
Lemma starts_with_iff p s : starts_with p s = true <-> exists r, s = p ++ r.
Proof.
  split.
  - revert s; induction p as [|a p IH]; intros s H; [exists s; reflexivity|].
    destruct s as [|b s]; [discriminate|]. cbn in H. apply andb_true_iff in H as [H1 H2].
    destruct (IH s H2) as [r ->]. exists r. cbn. f_equal. lia.
  - intros [r ->]. apply starts_with_app.
Qed.
Lemma strstr_unfold s p : strstr s p =
  if starts_with p s then Some 0
  else match s with [] => None | _ :: s' => match strstr s' p with Some k => Some (1 + k) | None => None end end.
Proof. destruct s; reflexivity. Qed.
Lemma strstr_Some s p k : strstr s p = Some k -> exists a b, s = a ++ p ++ b /\ zlen a = k.
Proof.
  revert k; induction s as [|c s IH]; intros k; rewrite strstr_unfold.
  - destruct (starts_with p []) eqn:E; [|discriminate]. intro H; injection H as <-.
    apply starts_with_iff in E as [r ->]. exists [], r. split; reflexivity.
  - destruct (starts_with p (c :: s)) eqn:E.
    + intro H; injection H as <-. apply starts_with_iff in E as [r ->]. exists [], r. split; reflexivity.
    + destruct (strstr s p) as [m|]; [|discriminate]. intro H; injection H as <-.
      destruct (IH m eq_refl) as (a & b & -> & L). exists (c :: a), b. split; [reflexivity|]. rewrite zlen_cons; lia.
Qed.

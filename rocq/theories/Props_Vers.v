(** C59: versionsort's comparison (Windows) is a strict total order on names and orders numbers by value *)
From Verif Require Import CBase VersModel VersSpec VersProof VersProof2.

(** Every comparison of ASCII names is defined; it reads nothing beyond the terminators. 0 means equal names. *)
Theorem C59_defined a b : ascii a -> ascii b -> exists r, strverscmp a b = Ret r /\ (r = 0 <-> a = b).
Proof. intros A B. destruct (verscmp_key a b A B) as (r & E & _ & Z). eauto. Qed.
Theorem C59_antisymmetric a b r1 r2 : ascii a -> ascii b -> strverscmp a b = Ret r1 -> strverscmp b a = Ret r2 -> Z.sgn r2 = - Z.sgn r1.
Proof.
  intros A B E1 E2. destruct (verscmp_key a b A B) as (r & F1 & S1 & _), (verscmp_key b a B A) as (r' & F2 & S2 & _). rewrite E1 in F1. rewrite E2 in F2. injection F1 as ->. injection F2 as ->. rewrite S1, S2. apply lexc_anti.
Qed.
Theorem C59_transitive a b c r1 r2 r3 : ascii a -> ascii b -> ascii c -> strverscmp a b = Ret r1 -> strverscmp b c = Ret r2 -> strverscmp a c = Ret r3 -> r1 < 0 -> r2 < 0 -> r3 < 0.
Proof.
  intros A B C E1 E2 E3 L1 L2. destruct (verscmp_key a b A B) as (r & F1 & S1 & _), (verscmp_key b c B C) as (r' & F2 & S2 & _), (verscmp_key a c A C) as (r'' & F3 & S3 & _).
  rewrite E1 in F1. rewrite E2 in F2. rewrite E3 in F3. injection F1 as <-. injection F2 as <-. injection F3 as <-. rewrite Z.sgn_neg in S1, S2 by assumption.
  pose proof (lexc_trans (key KN a) (key KN b) (key KN c) ltac:(lia) ltac:(lia)) as T. rewrite <- S3 in T. destruct (Z.sgn_spec r3) as [H|[H|H]]; lia.
Qed.
(** Numbers without leading zeros at the same place are compared by value, whatever follows. *)
Theorem C59_numbers p d1 d2 x y : ascii (p ++ d1 ++ x) -> ascii (p ++ d2 ++ y) -> ends_plain p -> numeral d1 -> numeral d2 -> starts_plain x -> starts_plain y ->
  value d1 < value d2 -> exists r, strverscmp (p ++ d1 ++ x) (p ++ d2 ++ y) = Ret r /\ r < 0.
Proof.
  intros A B P N1 N2 X Y V. destruct (verscmp_key _ _ A B) as (r & E & S & _). exists r. split; [exact E|]. rewrite number_order in S by assumption. destruct (Z.sgn_spec r) as [H|[H|H]]; lia.
Qed.
(** Names without digits are in dictionary order. *)
Theorem C59_plain a b : ascii a -> ascii b -> (forall c, In c a -> digit c = false) -> (forall c, In c b -> digit c = false) ->
  exists r, strverscmp a b = Ret r /\ Z.sgn r = dict a b.
Proof.
  intros A B DA DB. destruct (verscmp_key _ _ A B) as (r & E & S & _). exists r. split; [exact E|]. rewrite S, !plain_key by assumption. apply dict_lex; assumption.
Qed.
(** Not every name sorts before its extensions: "img0" goes before "img". *)
Theorem C59_prefix_first_refuted : strverscmp [105; 109; 103] [105; 109; 103; 48] = Ret 1.
Proof. reflexivity. Qed.
(** A byte from 128 to 254 at the first difference is passed to isdigit as a negative number: undefined. *)
Theorem C59_non_ascii_refuted p c x y : ascii p -> ends_plain p -> 128 <= c < 255 -> hd 0 y <> c -> strverscmp (p ++ c :: x) (p ++ y) = Ub.
Proof.
  intros A E C N. unfold strverscmp. pose proof (first_diff_ne (S (S (length (p ++ c :: x) + length (p ++ y)))) [] p (c :: x) y A ltac:(cbn; lia) ltac:(rewrite !app_length; cbn; lia)) as F. cbn [app length Nat.add] in F. rewrite F. cbn [bind].
  pose proof (back_ok p [] (c :: x) A ltac:(intros z []) ltac:(intros z []) E) as Bk. cbn [app length] in Bk. rewrite Nat.add_0_r in Bk. rewrite Bk. cbn [bind]. rewrite !rd_at. cbn [bind hd].
  assert (Bad : isdigit c = Ub) by (unfold isdigit; replace ((128 <=? c) && (c <? 255)) with true by lia; reflexivity). replace (c =? 48) with false by lia. cbn [orb].
  destruct (hd 0 y =? 48); [|rewrite Bad; reflexivity]. cbn [skip0]. rewrite rd_at. cbn [bind hd]. replace (c =? 48) with false by lia. cbn [bind]. rewrite rd_at. cbn [bind hd]. rewrite Bad. reflexivity.
Qed.
(** file9.txt before file10.txt before fileA.txt *)
Example C59_demo :
  let f9 := [102; 105; 108; 101; 57; 46; 116; 120; 116] in let f10 := [102; 105; 108; 101; 49; 48; 46; 116; 120; 116] in let fA := [102; 105; 108; 101; 65; 46; 116; 120; 116] in
  ascii f9 /\ ascii f10 /\ strverscmp f9 f10 = Ret (-1) /\ strverscmp f10 fA = Ret (-16) /\ strverscmp f9 fA = Ret (-8) /\
  numeral [57] /\ numeral [49; 48] /\ value [57] = 9 /\ value [49; 48] = 10 /\ ends_plain [102; 105; 108; 101] /\ starts_plain [46; 116; 120; 116].
Proof.
  cbv zeta. split; [intros c; cbn [In]; intuition lia|]. split; [intros c; cbn [In]; intuition lia|]. do 3 (split; [reflexivity|]).
  split; [split; [discriminate|]; split; [intros c [<-|[]]; reflexivity | discriminate]|]. split; [split; [discriminate|]; split; [intros c [<-|[<-|[]]]; reflexivity | discriminate]|].
  do 2 (split; [reflexivity|]). split; [right; exists [102; 105; 108], 101; split; reflexivity | reflexivity].
Qed.
Print Assumptions C59_defined.
Print Assumptions C59_antisymmetric.
Print Assumptions C59_transitive.
Print Assumptions C59_numbers.
Print Assumptions C59_plain.
Print Assumptions C59_non_ascii_refuted.

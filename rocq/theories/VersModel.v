(** Model of strverscmp and versionsort, inc/sys/dirent_windows.h:1076-1144. A C string is the list of its bytes
    (1..255); reading the terminator gives 0, reading beyond it is undefined. *)
From Verif Require Import CBase.

Definition rd (s : list Z) (i : nat) : outcome Z :=
  match nth_error s i with Some c => Ret c | None => if Nat.eqb i (length s) then Ret 0 else Ub end.
(** isdigit of a plain (signed) char: the argument must be EOF or 0..255, so bytes 128..254 (-128..-2) are undefined;
    byte 255 is EOF *)
Definition isdigit (c : Z) : outcome bool := if (128 <=? c) && (c <? 255) then Ub else Ret ((48 <=? c) && (c <=? 57)).
(** lines 1091-1097: None: no difference *)
Fixpoint first_diff (fuel : nat) (a b : list Z) (i : nat) : outcome (option nat) :=
  match fuel with
  | O => NoFuel
  | S f => do x <- rd a i; do y <- rd b i;
           if x =? y then if x =? 0 then Ret None else first_diff f a b (S i) else Ret (Some i)
  end.
(** lines 1100-1103 *)
Fixpoint back (a : list Z) (j : nat) : outcome nat :=
  match j with
  | O => Ret O
  | S j' => do c <- rd a j'; do d <- isdigit c; if d then back a j' else Ret j
  end.
(** lines 1108-1110 *)
Fixpoint skip0 (fuel : nat) (a b : list Z) (j : nat) : outcome nat :=
  match fuel with
  | O => NoFuel
  | S f => do x <- rd a j;
           if x =? 48 then do y <- rd b j; if x =? y then skip0 f a b (S j) else Ret j else Ret j
  end.
(** lines 1128-1133 *)
Fixpoint digits_end (fuel : nat) (a : list Z) (k : nat) : outcome nat :=
  match fuel with
  | O => NoFuel
  | S f => do x <- rd a k; do d <- isdigit x; if d then digits_end f a (S k) else Ret k
  end.
Definition strverscmp (a b : list Z) : outcome Z :=
  let fuel := S (S (length a + length b)) in
  do r <- first_diff fuel a b 0;
  match r with
  | None => Ret 0
  | Some i =>
      let alpha := do x <- rd a i; do y <- rd b i; Ret (x - y) in                    (* 1143 *)
      do j <- back a i;
      do x <- rd a j; do y <- rd b j;
      if (x =? 48) || (y =? 48) then                                                  (* 1106 *)
        do j <- skip0 fuel a b j;
        do x <- rd a j; do dx <- isdigit x;                                           (* 1113 *)
        do y <- rd b j; do dy <- isdigit y;
        if dx then (if dy then alpha else Ret (-1)) else (if dy then Ret 1 else alpha)
      else
        do dx <- isdigit x;                                                           (* 1122 *)
        if dx then
          do dy <- isdigit y;
          if dy then
            do k1 <- digits_end fuel a j; do k2 <- digits_end fuel b j;
            if (k1 <? k2)%nat then Ret (-1) else if (k2 <? k1)%nat then Ret 1 else alpha
          else alpha
        else alpha
  end.

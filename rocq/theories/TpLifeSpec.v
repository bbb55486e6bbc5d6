(** Specification of the memory of a thread pool. *)
From Verif Require Import CBase LifeModel TpLifeModel.

(** What thpool_init does, from the answers of the system to come: pool, semaphore, array of threads, and then for each thread
    its structure and pthread_create (no further answer: success). *)
Inductive init_end := Gives | Refuses | Hangs | Crashes.
Definition nxt_answer (o : list bool) : bool * list bool := match o with [] => (true, []) | b :: o => (b, o) end.
Fixpoint threads_end (n : nat) (o : list bool) : init_end :=
  match n with
  | O => Gives
  | S n =>
    let '(got, o) := nxt_answer o in
    if got then let '(created, o) := nxt_answer o in if created then threads_end n o else Crashes
    else match threads_end n o with Crashes => Crashes | _ => Hangs end
  end.
Definition init_end_of (n : nat) (o : list bool) : init_end :=
  let '(a, o) := nxt_answer o in if negb a then Refuses else
  let '(b, o) := nxt_answer o in if negb b then Refuses else
  let '(c, o) := nxt_answer o in if negb c then Refuses else threads_end n o.

(** nothing is allocated beyond the next free address *)
Definition wf (s : st) : Prop := forall b, (nxt s <= b)%nat -> hp s b = None.
(** the same blocks as before, with the same contents, and besides exactly n more *)
Definition leaks (n : nat) (s s' : st) : Prop := exists l, length l = n /\ NoDup l /\
  (forall b, In b l -> hp s b = None /\ hp s' b <> None) /\ (forall b, ~ In b l -> hp s' b = hp s b).
(** the jobs waiting, given what malloc answers: the results of the calls, and how many wait in the end *)
Fixpoint history (w : nat) (o : list bool) (l : list op) : list Z * nat :=
  match l with
  | [] => ([], w)
  | Add :: l => let '(got, o) := nxt_answer o in if got then let r := history (S w) o l in (0 :: fst r, snd r) else let r := history w o l in (-2 :: fst r, snd r)
  | Turn :: l => match w with O => let r := history O o l in (0 :: fst r, snd r) | S w => let r := history w o l in (1 :: fst r, snd r) end
  end.

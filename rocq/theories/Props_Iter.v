(** C62: file_iterator_foreach *)
From Verif Require Import CBase IterModel.

(** the entries that count: all but "." and ".." *)
Definition real (names : list (list Z)) : list (list Z) :=
  filter (fun n => negb (if list_eq_dec Z.eq_dec n [46] then true else if list_eq_dec Z.eq_dec n [46; 46] then true else false)) names.
Definition type_code (b : bool) : Z := if b then 1 else 0.
Lemma dots : forall n, is_dots n = (if list_eq_dec Z.eq_dec n [46] then true else if list_eq_dec Z.eq_dec n [46; 46] then true else false).
Proof.
  intros n. unfold is_dots. destruct n as [|a [|b [|c n]]]; cbn [length].
  - destruct (list_eq_dec Z.eq_dec [] [46]); [discriminate|]. destruct (list_eq_dec Z.eq_dec [] [46; 46]); [discriminate|]. reflexivity.
  - destruct (list_eq_dec Z.eq_dec [a] [46]) as [E|E]; [injection E as ->; reflexivity|].
    destruct (list_eq_dec Z.eq_dec [a] [46; 46]); [discriminate|]. cbn. destruct (Z.eqb_spec a 46); [congruence|]. reflexivity.
  - destruct (list_eq_dec Z.eq_dec [a; b] [46]) as [E|E]; [discriminate|].
    destruct (list_eq_dec Z.eq_dec [a; b] [46; 46]) as [F|F]; [injection F as -> ->; reflexivity|]. cbn.
    destruct (Z.eqb_spec a 46), (Z.eqb_spec b 46); subst; try reflexivity. destruct (F eq_refl).
  - destruct (list_eq_dec Z.eq_dec (a :: b :: c :: n) [46]); [discriminate|]. destruct (list_eq_dec Z.eq_dec (a :: b :: c :: n) [46; 46]); [discriminate|].
    destruct (Z.ltb_spec (Z.of_nat (S (S (S (length n))))) 3); [lia|]. reflexivity.
Qed.

Section S.
  Context {W : Type}.
  Variable stat : W -> list Z -> option bool.
  Variable list_dir : W -> list Z -> option (list (list Z)).
  Variable handler : list Z -> list Z -> Z -> W -> Z * W.
  Definition name_of (c : list Z * Z * Z * W * W) : list Z := fst (fst (fst (fst c))).
  (** a call is right: made for an entry whose kind was found under its path, and its result is recorded *)
  Definition right_call (dir : list Z) (c : list Z * Z * Z * W * W) : Prop :=
    let '(n, st, r, w, w') := c in
    (exists b, stat w (path_buf dir n) = Some b /\ st = type_code b) /\ handler dir n st w = (r, w').
  (** the calls follow each other: one begins where the one before ended *)
  Fixpoint chained (w : W) (l : list (list Z * Z * Z * W * W)) (wend : W) : Prop :=
    match l with [] => w = wend | (_, _, _, a, b) :: l => w = a /\ chained b l wend end.
  Definition answer_of (c : list Z * Z * Z * W * W) : Z := snd (fst (fst c)).

  Lemma iter_ok : forall dir names w l w', iter stat handler dir names w = (l, w') ->
    map name_of l = firstn (length l) (real names) /\ Forall (right_call dir) l /\ chained w l w' /\
    (forall a b c, l = a ++ b :: c :: [] -> answer_of b = 0) /\ Forall (fun c => answer_of c = 0) (removelast l) /\
    (length l = length (real names) \/ (exists a c, l = a ++ [c] /\ answer_of c <> 0) \/
     (exists n, nth_error (real names) (length l) = Some n /\ stat w' (path_buf dir n) = None)).
  Proof.
    intros dir names. induction names as [|n ns IH]; intros w l w' H; cbn [iter] in H.
    - injection H as <- <-. cbn. split; [auto|]. split; [constructor|]. split; [auto|]. split; [intros [|? [|]]; discriminate|]. split; [constructor|]. auto.
    - rewrite dots in H. unfold real. cbn [filter].
      destruct (if list_eq_dec Z.eq_dec n [46] then true else if list_eq_dec Z.eq_dec n [46; 46] then true else false); cbn [negb]; [apply IH; auto|].
      fold (real ns). unfold get_stat in H. destruct (stat w (path_buf dir n)) as [b|] eqn:ST.
      2:{ cbn in H. injection H as <- <-. cbn. split; [auto|]. split; [constructor|]. split; [auto|]. split; [intros [|? [|]]; discriminate|]. split; [constructor|].
          right. right. exists n. auto. }
      change (if b then 1 else 0) with (type_code b) in H. destruct (Z.eqb_spec (type_code b) (-1)) as [Q|Q]; [destruct b; discriminate|].
      destruct (handler dir n (type_code b) w) as [r w1] eqn:HD.
      assert (RC : right_call dir (n, type_code b, r, w, w1)) by (split; eauto).
      destruct (Z.eqb_spec r 0) as [->|NZ]; cbn [negb] in H.
      + destruct (iter stat handler dir ns w1) as [l2 w2] eqn:I. injection H as <- <-.
        destruct (IH _ _ _ I) as (K1 & K2 & K3 & K4 & K5 & K6). cbn [map length firstn name_of fst].
        split; [rewrite K1; auto|]. split; [constructor; auto|]. split; [cbn; auto|]. split.
        { intros [|x a] b2 c E; injection E as E1 E2; [rewrite <- E1; reflexivity|]. eapply K4; eauto. }
        split. { destruct l2 as [|c l2]; [constructor|]. change (removelast ((n, type_code b, 0, w, w1) :: c :: l2)) with ((n, type_code b, 0, w, w1) :: removelast (c :: l2)). constructor; auto. }
        destruct K6 as [K|[(a & c & E & N)|(m & M1 & M2)]]; [left; cbn; auto| |right; right; exists m; auto].
        right. left. exists ((n, type_code b, 0, w, w1) :: a), c. split; [rewrite E; reflexivity|auto].
      + injection H as <- <-. split; [reflexivity|]. split; [constructor; auto|]. split; [cbn; auto|].
        split; [intros [|x [|y a]] b2 c E; discriminate|]. split; [constructor|]. right. left. exists [], (n, type_code b, r, w, w1). auto.
  Qed.

  (** The handler is called for the entries other than . and .., in the order of the directory, once each, with the
      kind found under their path, each call beginning with what the one before left, and stops only after the last
      entry, after a call that did not return 0, or before an entry that stat does not know. A directory stream
      that was opened is closed once. *)
  Theorem C62_foreach : forall dir w code l w' opened closed,
    foreach stat list_dir handler dir w = (code, l, w', (opened, closed)) ->
    opened = closed /\
    ((code = 1 /\ l = [] /\ w' = w /\ opened = 0%nat /\ (stat w dir <> Some true \/ list_dir w dir = None)) \/
     (code = 0 /\ opened = 1%nat /\ stat w dir = Some true /\ exists names, list_dir w dir = Some names /\
        map name_of l = firstn (length l) (real names) /\ Forall (right_call dir) l /\ chained w l w' /\
        Forall (fun c => answer_of c = 0) (removelast l) /\
        (length l = length (real names) \/ (exists a c, l = a ++ [c] /\ answer_of c <> 0) \/
         (exists n, nth_error (real names) (length l) = Some n /\ stat w' (path_buf dir n) = None)))).
  Proof.
    intros dir w code l w' o c H. unfold foreach, get_stat in H. destruct (stat w dir) as [[]|] eqn:ST; cbn in H.
    - destruct (list_dir w dir) as [names|] eqn:LD.
      + destruct (iter stat handler dir names w) as [l2 w2] eqn:I. injection H as <- <- <- <- <-. split; [auto|]. right.
        destruct (iter_ok _ _ _ _ _ I) as (K1 & K2 & K3 & _ & K5 & K6). split; [auto|]. split; [auto|]. split; [auto|]. exists names. auto 8.
      + injection H as <- <- <- <- <-. split; [auto|]. left. auto 8.
    - injection H as <- <- <- <- <-. split; [auto|]. left. split; [auto|]. split; [auto|]. split; [auto|]. split; [auto|]. left. discriminate.
    - injection H as <- <- <- <- <-. split; [auto|]. left. split; [auto|]. split; [auto|]. split; [auto|]. split; [auto|]. left. discriminate.
  Qed.
  (** a path that fits is the path of the entry *)
  Theorem C62_path : forall dir name, Z.of_nat (length dir) + 1 + Z.of_nat (length name) < PATH_MAX -> path_buf dir name = dir ++ [47] ++ name.
  Proof. intros dir name H. unfold path_buf. apply firstn_all2. apply Nat2Z.inj_le. rewrite Z2Nat.id by (unfold PATH_MAX; lia). rewrite app_length, Nat2Z.inj_add. change (length ([47] ++ name)) with (S (length name)). rewrite Nat2Z.inj_succ. lia. Qed.
  (** with every entry known to stat and a handler that returns 0, every entry is handled *)
  Theorem C62_handles_all : forall dir w names code l w' oc,
    foreach stat list_dir handler dir w = (code, l, w', oc) -> stat w dir = Some true -> list_dir w dir = Some names ->
    (forall v n, In n names -> stat v (path_buf dir n) <> None) -> (forall n t v, fst (handler dir n t v) = 0) ->
    code = 0 /\ map name_of l = real names.
  Proof.
    intros dir w names code l w' [o c] H S L ALL HD. destruct (C62_foreach _ _ _ _ _ _ _ H) as (_ & [(_ & _ & _ & _ & [K|K])|(E & _ & _ & names' & L' & K1 & K2 & _ & _ & K6)]); try congruence.
    rewrite L in L'. injection L' as <-. split; [auto|]. rewrite K1. destruct K6 as [K|[(a & x & E2 & N)|(n & M1 & M2)]].
    - rewrite K. apply firstn_all.
    - exfalso. subst l. apply Forall_app in K2. destruct K2 as [_ K2]. inversion K2 as [|q q2 RC _]; subst. destruct x as [[[[n t] r] v] v'].
      cbn in RC, N. destruct RC as [_ RC]. specialize (HD n t v). rewrite RC in HD. cbn in HD. congruence.
    - exfalso. apply nth_error_In in M1. unfold real in M1. apply filter_In in M1. apply (ALL w' n); tauto.
  Qed.
End S.
(** one entry that stat does not know (a dangling link, a file removed meanwhile) hides all entries after it, and the
    result is 0 all the same *)
Theorem C62_unknown_entry_refuted : exists (stat : unit -> list Z -> option bool) list_dir handler dir w',
  list_dir tt dir = Some [[97]; [98]; [99]] /\ stat tt (dir ++ [47; 97]) = Some false /\ stat tt (dir ++ [47; 98]) = None /\ stat tt (dir ++ [47; 99]) = Some false /\
  (forall d n t u, fst (handler d n t u) = 0) /\
  foreach stat list_dir handler dir tt = (0, [([97], 0, 0, tt, tt)], w', (1, 1)%nat).
Proof.
  exists (fun _ p => match p with [100] => Some true | [100; 47; 98] => None | _ => Some false end), (fun _ _ => Some [[97]; [98]; [99]]),
    (fun _ _ _ u => (0, u)), [100], tt. repeat split.
Qed.
(** a path that does not fit is cut, and the kind of another file is reported: here a file for a directory *)
Theorem C62_long_path_refuted : exists (stat : unit -> list Z -> option bool) list_dir handler dir w',
  list_dir tt dir = Some [[97; 98]] /\ stat tt (dir ++ [47; 97; 98]) = Some true /\
  foreach stat list_dir handler dir tt = (0, [([97; 98], 0, 0, tt, tt)], w', (1, 1)%nat).
Proof.
  exists (fun _ p => if Nat.eqb (length p) 4095 then Some false else Some true), (fun _ _ => Some [[97; 98]]),
    (fun _ _ _ u => (0, u)), (repeat 100 4093), tt. split; [reflexivity|]. split; vm_compute; reflexivity.
Qed.
(** non-vacuity: a directory with ., .., a file, a hidden file and a directory; the handler counts and stops at the directory *)
Example C62_demo : foreach (fun (_ : Z) p => match p with [100] | [100; 47; 98] => Some true | _ => Some false end)
   (fun _ _ => Some [[46]; [46; 46]; [97]; [46; 97]; [98]; [99]]) (fun _ _ t w => (t, w + 1)) [100] 7 =
  (0, [([97], 0, 0, 7, 8); ([46; 97], 0, 0, 8, 9); ([98], 1, 1, 9, 10)], 10, (1, 1)%nat).
Proof. vm_compute. reflexivity. Qed.
Print Assumptions C62_foreach.
Print Assumptions C62_path.
Print Assumptions C62_handles_all.
Print Assumptions C62_unknown_entry_refuted.
Print Assumptions C62_long_path_refuted.

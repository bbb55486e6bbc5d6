From Verif Require Import CBase SeqLib DlModel DlSpec DlProof DlProof2.

Lemma local_bit : forall m, negb (Z.land m RTLD_LOCAL =? 0) = Z.testbit m 2.
Proof.
  intros a. change RTLD_LOCAL with (2 ^ 2). destruct (Z.testbit a 2) eqn:T.
  - apply negb_true_iff. apply Z.eqb_neq. intro Q. assert (Z.testbit (Z.land a (2 ^ 2)) 2 = true) as R by (rewrite Z.land_spec, T, Z.pow2_bits_true; auto; lia).
    rewrite Q, Z.bits_0 in R. discriminate.
  - apply negb_false_iff. apply Z.eqb_eq. apply Z.bits_inj'. intros k K. rewrite Z.land_spec, Z.bits_0.
    destruct (Z.eq_dec 2 k) as [<-|E]; [rewrite T; auto|]. rewrite Z.pow2_bits_false; auto. apply andb_false_r.
Qed.
Lemma ptr_hex : forall p, ptr_str p = hex_text p.
Proof.
  intros p. unfold ptr_str, hex_text. cbn [app]. do 2 f_equal. apply map_ext_in. intros i I. apply in_seq in I.
  assert (E : Z.land (Z.shiftr p (64 - 4 * (Z.of_nat i + 1))) 15 = p / 16 ^ (15 - Z.of_nat i) mod 16).
  { change 15 with (Z.ones 4) at 1. rewrite Z.land_ones by lia. rewrite Z.shiftr_div_pow2 by lia. f_equal. f_equal.
    change 16 with (2 ^ 4). rewrite <- Z.pow_mul_r by lia. f_equal. lia. }
  rewrite E. unfold hex_digit. destruct (p / 16 ^ (15 - Z.of_nat i) mod 16 <? 10); lia.
Qed.
Lemma hex_plain : forall p, text (hex_text p).
Proof.
  intros p. unfold hex_text. apply Forall_app. split; [repeat (constructor; [lia|]); constructor|].
  apply Forall_forall. intros c C. apply in_map_iff in C. destruct C as (i & <- & _). unfold hex_digit.
  pose proof (Z.mod_pos_bound (p / 16 ^ (15 - Z.of_nat i)) 16 ltac:(lia)). destruct (p / 16 ^ (15 - Z.of_nat i) mod 16 <? 10); lia.
Qed.

(** ** The module table *)
Definition table_ok (t : table) : Prop := Forall (fun e => handle_ok (handle_of e)) t.
Lemma upd_handles : forall m f t, map handle_of (upd m f t) = map handle_of t.
Proof. intros m f t. unfold upd. rewrite map_map. apply map_ext. intros e. destruct (handle_of e =? m); auto. Qed.
Lemma ok_handles : forall t, table_ok t <-> Forall handle_ok (map handle_of t).
Proof. intros t. unfold table_ok. symmetry. apply Forall_map. Qed.
Lemma upd_ok : forall m f t, table_ok t -> table_ok (upd m f t).
Proof. intros m f t H. apply ok_handles. rewrite upd_handles. apply ok_handles. auto. Qed.
Lemma loaded_in : forall m t, is_loaded m t = true <-> In m (map handle_of t).
Proof.
  intros m t. unfold is_loaded. rewrite existsb_exists, in_map_iff. split; intros (e & A & B).
  - apply Z.eqb_eq in B. eauto.
  - exists e. rewrite A, Z.eqb_refl. auto.
Qed.
Lemma add_dep_ok : forall t d, table_ok t -> handle_ok d -> table_ok (add_dep t d).
Proof. intros t d T D. unfold add_dep. destruct (is_loaded d t); [apply upd_ok; auto|]. apply Forall_app. split; [auto|]. constructor; [auto|constructor]. Qed.
Lemma load_ok : forall m deps t, table_ok t -> handle_ok m -> Forall handle_ok deps -> table_ok (load m deps t).
Proof.
  intros m deps t T M D. unfold load. destruct (is_loaded m t); [apply upd_ok; auto|]. apply Forall_app. split; [|constructor; [auto|constructor]].
  revert t T. induction D as [|d deps Hd Hds IH]; intros t T; cbn [fold_left]; [auto|]. apply IH. apply add_dep_ok; auto.
Qed.
Lemma filter_ok : forall t, table_ok t -> table_ok (filter in_use t).
Proof. intros t T. apply Forall_forall. intros e E. apply filter_In in E. unfold table_ok in T. rewrite Forall_forall in T. apply T. tauto. Qed.
Lemma unload_ok : forall m deps t t', table_ok t -> unload m deps t = Some t' -> table_ok t'.
Proof.
  intros m deps t t' T H. unfold unload in H. destruct (is_loaded m t); [|discriminate]. injection H as <-.
  match goal with |- context [is_loaded m ?x] => set (t1 := x); assert (T1 : table_ok t1) by (apply filter_ok, upd_ok; auto) end.
  destruct (is_loaded m t1); [auto|]. clearbody t1. clear T t. revert t1 T1. induction deps as [|d deps IH]; intros t T; cbn [fold_left]; [auto|].
  apply IH. apply filter_ok, upd_ok. auto.
Qed.

(** ** Searching *)
Lemma lookup_none : forall gpa h ids L ms, chain h ids L -> Forall handle_ok ms ->
  lookup gpa None ms h = Ret (first_hit gpa (filter (fun m => negb (existsb (Z.eqb m) L)) ms)).
Proof.
  intros gpa h ids L ms C F. induction F as [|m ms Hm Hms IH]; cbn [lookup filter]; [auto|].
  assert (M0 : m <> 0) by (destruct Hm; lia).
  destruct (local_search_spec m h ids L C M0) as [(E & NI)|(r & x & y & X & Y & E & E1 & E2 & E3 & E4)]; rewrite E; cbn [bind].
  - assert (EX : existsb (Z.eqb m) L = false) by (destruct (existsb (Z.eqb m) L) eqn:Q; auto; apply existsb_In in Q; tauto).
    rewrite EX. cbn [Nat.eqb negb first_hit]. destruct (gpa m =? 0); cbn [negb]; auto.
  - assert (EX : existsb (Z.eqb m) L = true) by (apply existsb_In; rewrite E2; apply in_or_app; right; left; auto).
    rewrite EX. destruct (Nat.eqb_spec r 0); [congruence|]. cbn [negb]. auto.
Qed.
Lemma lookup_after : forall gpa h c ms, lookup gpa (Some c) ms h = lookup gpa None (after c ms) h.
Proof. intros gpa h c ms. induction ms as [|m ms IH]; cbn [lookup after]; [auto|]. destruct (c =? m); auto. Qed.
Lemma after_ok : forall c ms, Forall handle_ok ms -> Forall handle_ok (after c ms).
Proof. intros c ms F. induction F as [|m ms Hm Hms IH]; cbn [after]; [constructor|]. destruct (c =? m); auto. Qed.

(** ** The code follows the specification *)
Definition rel (size : Z) (s : st) (p : sp) : Prop :=
  (exists ids, chain (hp s) ids (hidden p)) /\ (1 < fr s)%nat /\ (forall k, In k (map fst (hp s)) -> (k < fr s)%nat) /\
  zlen (buf s) = size /\ report p = (if err s then Some (upto0 (buf s)) else None) /\ mods s = sys p /\ table_ok (mods s).
Lemma fail_ok : forall size s p str msg, 5 <= size -> text str -> text msg -> rel size s p ->
  exists s', fail s str msg = Ret s' /\ rel size s' (mk_sp (hidden p) (Some (message size str msg)) (sys p)) /\ hp s' = hp s /\ fr s' = fr s /\ mods s' = mods s /\
    err s' = true /\ zlen (buf s') = size /\ upto0 (buf s') = message size str msg.
Proof.
  intros size s p str msg SZ TS TM (C & F1 & F2 & B & R & M & T). unfold fail.
  destruct (save_err_ok str msg (buf s) ltac:(lia) TS TM) as (b' & E & L & U). rewrite E. cbn [bind]. eexists. split; [reflexivity|].
  rewrite B in *. split; [|auto 10]. unfold rel. cbn [hp fr buf err mods hidden report sys]. split; [auto|]. split; [auto|]. split; [auto|]. split; [auto|]. split; [rewrite U; auto|]. auto.
Qed.
Lemma slash_text : forall f, text f -> text (backslashes f).
Proof. intros f T. unfold backslashes, text. apply Forall_map. eapply Forall_impl; [|exact T]. intros c N. cbn. destruct (c =? 47); [lia|auto]. Qed.
Lemma same_count : forall a b (x y : table), ((if a : bool then 8 * zlen x else 0) =? (if b : bool then 8 * zlen y else 0)) =
  Nat.eqb (if a then length x else O) (if b then length y else O).
Proof.
  intros a b x y. unfold zlen. destruct (Nat.eqb_spec (if a then length x else O) (if b then length y else O)) as [E|N].
  - apply Z.eqb_eq. destruct a, b; lia.
  - apply Z.eqb_neq. destruct a, b; lia.
Qed.
Lemma clear_rel : forall size s p, rel size s p -> rel size (mk_st (hp s) (fr s) (buf s) false (mods s)) (mk_sp (hidden p) None (sys p)).
Proof. intros size s p (C & F1 & F2 & B & R & M & T). repeat (split; [assumption|]). auto. Qed.

Lemma do1_ok : forall size prog s p o, 5 <= size -> handle_ok prog -> op_ok o -> rel size s p ->
  exists s', do1 prog s o = Ret (fst (sstep size prog p o), s') /\ rel size s' (snd (sstep size prog p o)).
Proof.
  intros size prog s p o SZ PG OK REL. destruct o as [file mode ans eb ea ok msg|m deps msg|handle name gpa caller e1 e2 ok msg|].
  - (* dlopen *)
    destruct OK as (TM & MO & TF & AN). cbn [do1 sstep]. unfold dlopen. pose proof (clear_rel _ _ _ REL) as REL1.
    destruct file as [file|]; [|cbn [bind fst snd]; eexists; split; [reflexivity|exact REL1]].
    rewrite Z.geb_leb. change MAX_PATH with 260. destruct (260 <=? zlen file).
    { destruct (fail_ok size _ _ file msg SZ TF TM REL1) as (s' & E & R & _). rewrite E. cbn [bind fst snd]. eauto. }
    destruct ans as [[m deps]|].
    2:{ destruct (fail_ok size _ _ (backslashes file) msg SZ (slash_text _ TF) TM REL1) as (s' & E & R & _). rewrite E. cbn [bind fst snd]. eauto. }
    destruct AN as [HM HD]. cbn [hp fr buf err mods]. rewrite local_bit, same_count.
    destruct REL as (C & F1 & F2 & B & R & M & T). destruct C as (ids & C). rewrite M in *.
    pose proof (load_ok m deps _ T HM HD) as T1. set (t := load m deps (sys p)) in *.
    assert (M0 : m <> 0) by (destruct HM; lia).
    destruct (Nat.eqb_spec (if eb then length (sys p) else O) (if ea then length t else O)) as [Q|Q]; cbn [negb andb].
    + rewrite andb_false_r, andb_true_r. destruct (Z.testbit mode 2); cbn [negb].
      * eexists. split; [reflexivity|]. cbn [snd fst]. split; [exists ids; auto|]. auto 10.
      * destruct (rem_ok m _ _ _ C M0) as (h' & ids' & E & C' & K). rewrite E. cbn [bind fst snd]. eexists. split; [reflexivity|].
        split; [exists ids'; auto|]. cbn [hp fr buf err mods report sys]. auto 10.
    + rewrite andb_true_r, andb_false_r. destruct (Z.testbit mode 2).
      2:{ eexists. split; [reflexivity|]. cbn [snd fst]. split; [exists ids; auto|]. auto 10. }
      destruct (add_ok m (hp s) ids (hidden p) (if ok then Some (fr s) else None) C M0) as (h' & ids' & C' & E & K).
      { intros q. destruct ok; [|discriminate]. intros Q2. injection Q2 as <-. split; [lia|]. intro I. apply F2 in I. lia. }
      rewrite E. cbn [bind fst snd]. destruct ok; cbn [orb].
      * cbn [fst] in C'. eexists. split; [reflexivity|]. split; [exists ids'; auto|]. cbn [fst snd hp fr buf err mods report sys hidden].
        split; [lia|]. split; [|auto 10]. intros k Kk. destruct (K k Kk) as [I|I]; [apply F2 in I; lia|]. injection I as ->. lia.
      * cbn [fst] in C'. destruct (existsb (Z.eqb m) (hidden p)) eqn:EX.
        -- eexists. split; [reflexivity|]. split; [exists ids'; auto|]. cbn [fst snd hp fr buf err mods report sys hidden].
           split; [lia|]. split; [|auto 10]. intros k Kk. destruct (K k Kk) as [I|I]; [apply F2 in I; lia|discriminate].
        -- assert (RX : rel size (mk_st h' (fr s) (buf s) false t) (mk_sp (hidden p) None t)).
           { split; [exists ids'; auto|]. cbn [fst snd hp fr buf err mods report sys hidden]. split; [auto|]. split; [|auto 10].
             intros k Kk. destruct (K k Kk) as [I|I]; [auto|discriminate]. }
           destruct (fail_ok size _ _ (backslashes file) msg SZ (slash_text _ TF) TM RX) as (s' & E2 & R2 & H1 & H2 & H3 & H4 & H5 & H6).
           rewrite E2. cbn [bind fst snd]. cbn [mods] in H3. rewrite H3. eexists. split; [reflexivity|].
           destruct R2 as (C2 & G1 & G2 & G3 & G4 & G5 & G6). split; [exact C2|]. cbn [fst snd hp fr buf err mods report sys hidden].
           split; [auto|]. split; [auto|]. split; [auto|]. split; [rewrite H4, H6; auto|]. split; [auto|].
           destruct (unload m deps t) as [t0|] eqn:U; [exact (unload_ok _ _ _ _ T1 U)|exact T1].
  - (* dlclose *)
    destruct OK as (TM & MB). cbn [do1 sstep]. unfold dlclose. cbn [mods hp fr buf err]. pose proof (clear_rel _ _ _ REL) as REL1.
    destruct REL as (C & F1 & F2 & B & R & M & T). destruct C as (ids & C). rewrite M in *.
    destruct (unload m deps (sys p)) as [t|] eqn:U.
    + assert (M0 : m <> 0).
      { intros ->. unfold unload in U. destruct (is_loaded 0 (sys p)) eqn:L; [|discriminate]. apply loaded_in in L. apply ok_handles in T.
        rewrite Forall_forall in T. specialize (T _ L). destruct T. lia. }
      destruct (rem_ok m _ _ _ C M0) as (h' & ids' & E & C' & K). rewrite E. cbn [bind fst snd]. eexists. split; [reflexivity|].
      split; [exists ids'; auto|]. cbn [hp fr buf err mods report sys]. pose proof (unload_ok _ _ _ _ T U). auto 10.
    + rewrite ptr_hex. rewrite <- M in REL1. rewrite M in REL1.
      destruct (fail_ok size _ _ (hex_text m) msg SZ (hex_plain m) TM REL1) as (s' & E & R2 & _).
      rewrite E. cbn [bind fst snd]. eauto.
  - (* dlsym *)
    destruct OK as (TM & TN & HB & E2). cbn [do1 sstep]. unfold dlsym. pose proof (clear_rel _ _ _ REL) as REL1. cbn [hp].
    assert (PN : prog <> RTLD_NEXT) by (destruct PG; unfold RTLD_NEXT; lia).
    assert (N0 : RTLD_NEXT <> 0) by (unfold RTLD_NEXT, two64; lia).
    destruct REL as ((ids & C) & _).
    match goal with |- context [bind (bind ?x _) _] => set (X := x) end.
    match goal with |- context [if ?y =? 0 then Some _ else None] => set (Y := y) end.
    assert (EXY : X = Ret Y).
    { unfold X, Y. clear X Y. set (vis := filter (fun m => negb (existsb (Z.eqb m) (hidden p)))).
      assert (LK : forall sk, (match e1 with
         | None => Ret 0
         | Some l1 => if negb ok then Ret 0 else match e2 with
                  | Some l2 => if zlen l1 =? zlen l2 then lookup gpa sk l2 (hp s) else Ret 0
                  | None => Ret 0
                  end
         end) = Ret (first_hit gpa (vis (let all := match e1, e2 with Some l1, Some l2 => if ok && Nat.eqb (length l1) (length l2) then l2 else [] | _, _ => [] end in
                     match sk with Some c => after c all | None => all end)))).
      { intros sk. destruct e1 as [l1|]; [|destruct sk; auto]. destruct ok; cbn [negb andb]; [|destruct e2, sk; auto].
        destruct e2 as [l2|]; [|destruct sk; auto].
        replace (zlen l1 =? zlen l2) with (Nat.eqb (length l1) (length l2)) by (unfold zlen; destruct (Nat.eqb_spec (length l1) (length l2)); symmetry; [apply Z.eqb_eq|apply Z.eqb_neq]; lia).
        destruct (Nat.eqb (length l1) (length l2)); [|destruct sk; auto]. cbn zeta. destruct sk as [c|].
        - rewrite lookup_after. apply lookup_none with (ids := ids); auto. apply after_ok. auto.
        - apply lookup_none with (ids := ids); auto. }
      destruct (Z.eqb_spec handle RTLD_NEXT) as [->|HN].
      - destruct (Z.eqb_spec RTLD_NEXT 0); [congruence|]. rewrite Z.eqb_refl. cbn [andb]. destruct (caller =? 0); [auto|].
        cbn [Z.eqb negb]. destruct (Z.eqb_spec prog RTLD_NEXT); [congruence|]. cbn [orb]. apply (LK (Some caller)).
      - destruct (Z.eqb_spec handle 0) as [->|H0]; cbn [orb].
        + destruct (Z.eqb_spec prog RTLD_NEXT); [congruence|]. cbn [andb]. rewrite Z.eqb_refl. cbn [orb].
          destruct (Z.eqb_spec (gpa prog) 0); cbn [negb]; [|auto]. apply (LK None).
        + destruct (Z.eqb_spec handle RTLD_NEXT); [congruence|]. cbn [andb].
          destruct (Z.eqb_spec handle prog) as [->|HP].
          * destruct (Z.eqb_spec (gpa prog) 0); cbn [negb]; [|auto]. rewrite Z.eqb_refl. cbn [orb]. apply (LK None).
          * destruct (Z.eqb_spec prog handle); [congruence|]. cbn [orb]. destruct (Z.eqb_spec (gpa handle) 0) as [G|G]; cbn [negb]; [rewrite G|]; auto. }
    rewrite EXY. cbn [bind]. clearbody Y. destruct (Z.eqb_spec Y 0) as [->|NY].
    + destruct (fail_ok size _ _ name msg SZ TN TM REL1) as (s' & E & R2 & _). rewrite E. cbn [bind fst snd]. eauto.
    + cbn [bind fst snd]. eauto.
  - (* dlerror *)
    cbn [do1 sstep]. unfold dlerror. pose proof (clear_rel _ _ _ REL) as REL1. destruct REL as (C & F1 & F2 & B & R & M & T).
    destruct (err s) eqn:E; cbn [negb]; rewrite R; eexists; (split; [reflexivity|]); [exact REL1|].
    cbn [snd]. split; [auto|]. rewrite E. auto 10.
Qed.
Lemma do_all_ok : forall size prog os s p, 5 <= size -> handle_ok prog -> Forall op_ok os -> rel size s p ->
  exists s', do_all prog s os = Ret (fst (ssteps size prog p os), s') /\ rel size s' (snd (ssteps size prog p os)).
Proof.
  intros size prog os. induction os as [|o os IH]; intros s p SZ PG F R; cbn [do_all ssteps]; [exists s; auto|].
  inversion F as [|x y Fo Fos]; subst. destruct (do1_ok size prog s p o SZ PG Fo R) as (s1 & E1 & R1). rewrite E1. cbn [bind fst snd].
  destruct (sstep size prog p o) as [v q]. cbn [fst snd] in *. destruct (IH s1 q SZ PG Fos R1) as (s2 & E2 & R2). rewrite E2. cbn [bind fst snd].
  destruct (ssteps size prog q os) as [vs q2]. cbn [fst snd] in *. eauto.
Qed.
Lemma start_rel : forall size t, 0 <= size -> table_ok t -> rel size (start size t) (mk_sp [] None t).
Proof.
  intros size t SZ T. split; [exists []|].
  - split; [exists 1%nat; cbn; split; [auto|]; split; [lia|]; exists O; auto|]. split; [repeat constructor; auto|]. split; [auto|]. split; constructor.
  - cbn [hp fr buf err mods start report sys]. split; [lia|]. split; [cbn; intros k [<-|[]]; lia|]. split; [unfold zlen; rewrite repeat_length; lia|]. auto.
Qed.

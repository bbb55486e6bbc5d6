(** Proofs about the xlog model: the header and the whole record. *)
From Verif Require Import CBase SeqLib CStr StringsModel StringsProof TimeModel TimeSpec TimeProof TimeProof2
  FileProof2 StrParamsProof XlogModel XlogSpec XlogProof XlogProof2 XlogProof3.

Lemma testbit_pos a k : 0 <= a -> Z.testbit a k = true -> a <> 0.
Proof. intros _ H ->. rewrite Z.bits_0 in H. discriminate. Qed.
Lemma zlen_tid_field tid : zlen (tid_field tid) = 5. Proof. reflexivity. Qed.
Lemma text_tid tid : text (tid_field tid).
Proof.
  unfold tid_field. cbn [map]. set (n := Z.abs tid). assert (0 <= n) by lia.
  repeat constructor; match goal with |- context [if ?b then _ else _] => destruct b end; try lia;
  match goal with |- 48 + ?x mod 10 <> 0 => pose proof (Z.mod_pos_bound x 10); lia end.
Qed.
Lemma text_tag_field t : text t -> text (tag_field t).
Proof.
  intro T. unfold tag_field. apply text_app. split; [apply text_ztake; exact T|].
  apply Forall_forall. intros x H. apply repeat_spec in H. lia.
Qed.
Lemma level_char_ne l : level_char l <> 0.
Proof. unfold level_char. destruct l as [|[[p|[]|]|[p|[]|]|]|]; try discriminate; try (destruct p; discriminate). Qed.
Lemma text_decimal n : 0 <= n -> text (decimal n).
Proof. intro H. destruct (decimal_ok n H) as (D & _). eapply Forall_impl; [|exact D]. cbn. intros; lia. Qed.
Lemma text_func f line : text f -> text (func_field (Some f) line).
Proof.
  intro T. unfold func_field. destruct (Z.ltb_spec 0 line) as [L|L]; [|constructor].
  assert (T4 : text (decimal line)) by (apply text_decimal; lia).
  apply text_app; split; [repeat constructor; lia|]. apply text_app; split; [exact T|].
  apply text_app; split; [repeat constructor; lia|]. apply text_app; split; [exact T4|repeat constructor; lia].
Qed.

(** the parts of the header *)
Definition parts (h : list op) (st tag : list Z) (level tid : Z) : list Z :=
  (if Z.testbit (format h) 1 then st else [])
  ++ (if Z.testbit (format h) 2 then [32; level_char level; 47] ++ tag_field tag else [])
  ++ (if Z.testbit (format h) 3 then [40] ++ tid_field tid ++ [41] else []).
Lemma header_parts h st tag level tid : header_text h st tag level tid =
  if zlen (parts h st tag level tid) =? 0 then [] else parts h st tag level tid ++ [58; 32].
Proof.
  unfold header_text. fold (parts h st tag level tid). destruct (parts h st tag level tid) as [|x l]; [reflexivity|].
  rewrite zlen_cons. pose proof (zlen_nonneg l). destruct (1 + zlen l =? 0) eqn:E; [lia|reflexivity].
Qed.
Lemma parts_len h st tag level tid : zlen st <= 23 -> zlen (parts h st tag level tid) <= 55.
Proof.
  intro H. unfold parts. rewrite !zlen_app. pose proof (zlen_tag_field tag).
  destruct (Z.testbit (format h) 1), (Z.testbit (format h) 2), (Z.testbit (format h) 3);
    cbn [app]; rewrite ?zlen_cons, ?zlen_app, ?zlen_tid_field, ?zlen_cons; change (zlen (@nil Z)) with 0; lia.
Qed.
Lemma header_len h st tag level tid : zlen st <= 23 -> zlen (header_text h st tag level tid) <= 57.
Proof.
  intro H. pose proof (parts_len h st tag level tid H). rewrite header_parts.
  destruct (_ =? 0); [change (zlen (@nil Z)) with 0; lia|]. rewrite zlen_app. change (zlen [58;32]) with 2. lia.
Qed.
Lemma parts_text h st tag level tid : text st -> text tag -> text (parts h st tag level tid).
Proof.
  intros T1 T2. unfold parts. apply text_app; split; [destruct (Z.testbit _ _); [exact T1|constructor]|].
  apply text_app; split; destruct (Z.testbit _ _); try constructor; try lia.
  - constructor; [apply level_char_ne|]. constructor; [lia|]. apply text_tag_field; exact T2.
  - apply text_app; split; [apply text_tid|repeat constructor; lia].
Qed.
Lemma header_text_text h st tag level tid : text st -> text tag -> text (header_text h st tag level tid).
Proof.
  intros T1 T2. rewrite header_parts. destruct (_ =? 0); [constructor|]. apply text_app; split; [apply parts_text; assumption|repeat constructor; lia].
Qed.

(** a buffer that is the text, its terminator and the rest *)
Definition buf_is (buf t : list Z) : Prop := exists rest, buf = t ++ 0 :: rest /\ zlen buf = BUF_SIZE.

Lemma header_ok sf h dtag c e level t r :
  agrees h dtag c -> strftime_ok sf -> - two31 < e_tid e < two31 -> 0 <= level <= 6 -> text t ->
  exists st, zlen st <= 23 /\ text st /\
    (strftime_std sf -> 0 <= e_sec e < 2 ^ 31 -> 0 <= e_sec e / 3600 + zone h -> 0 <= e_usec e < 1000000 ->
     st = stamp_text (e_sec e) (e_usec e) (zone h)) /\
  let H := if Z.testbit (target h) 2 || Z.testbit (target h) 3 then header_text h st t level (e_tid e) else [] in
  exists buf, header sf c e level (t ++ 0 :: r) (repeat 0 (Z.to_nat BUF_SIZE)) = Ret (buf, zlen H) /\ buf_is buf H.
Proof.
  intros A Hs Htid Hlev T. set (b0 := repeat 0 (Z.to_nat BUF_SIZE)).
  assert (Lb : zlen b0 = 512) by (unfold b0; rewrite zlen_repeat; reflexivity).
  assert (B0 : buf_is b0 []) by (exists (repeat 0 511); split; reflexivity).
  clearbody b0.
  destruct (stamp_ok sf e (zone h) b0 Hs (a_rtz _ _ _ A)) as (st & rest & S1 & S2 & S3 & S4 & S5); [lia|].
  exists st. split; [lia|]. split; [exact S4|]. split; [exact S5|]. cbv zeta. unfold header.
  rewrite (a_format _ _ _ A), (a_console _ _ _ A), (a_usercb _ _ _ A), (a_stamp _ _ _ A), (a_taglevel _ _ _ A), (a_tid _ _ _ A), (a_tz _ _ _ A).
  destruct (Z.testbit (target h) 2 || Z.testbit (target h) 3) eqn:Et; [|rewrite andb_false_r; exists b0; split; [reflexivity|exact B0]].
  rewrite andb_true_r. rewrite header_parts. unfold parts.
  destruct (Z.eqb_spec (format h) 0) as [Ef|Ef]; cbn [negb].
  { rewrite Ef, !Z.bits_0. cbn [app]. change (zlen (@nil Z) =? 0) with true. cbv iota. exists b0. split; [reflexivity|exact B0]. }
  (* stamp *)
  set (p1 := if Z.testbit (format h) 1 then st else []).
  assert (exists b1, (if Z.testbit (format h) 1 then stamp sf e (zone h) b0 else Ret (b0, 0)) = Ret (b1, zlen p1) /\ buf_is b1 p1) as (b1 & -> & (r1 & -> & L1)).
  { unfold p1. destruct (Z.testbit (format h) 1).
    - eexists. split; [exact S1|]. exists rest. split; [reflexivity|]. rewrite zlen_app, zlen_cons. unfold BUF_SIZE. lia.
    - exists b0. split; [reflexivity|exact B0]. }
  cbn [bind]. assert (Lp1 : zlen p1 <= 23) by (unfold p1; destruct (Z.testbit (format h) 1); [lia|change (zlen (@nil Z)) with 0; lia]).
  set (p2 := if Z.testbit (format h) 2 then [32; level_char level; 47] ++ tag_field t else []).
  pose proof (zlen_tag_field t) as Ltf.
  assert (Lp2 : zlen p2 <= 25) by (unfold p2; destruct (Z.testbit (format h) 2); [rewrite zlen_app; change (zlen [32; level_char level; 47]) with 3; lia|change (zlen (@nil Z)) with 0; lia]).
  pose proof (zlen_nonneg p1). unfold BUF_SIZE in L1. rewrite zlen_app, zlen_cons in L1.
  assert (exists b2, (if Z.testbit (format h) 2 then do (buf, n) <- print_level_tag (p1 ++ 0 :: r1) (zlen p1) level (t ++ 0 :: r); Ret (buf, zlen p1 + n)
                      else Ret (p1 ++ 0 :: r1, zlen p1)) = Ret (b2, zlen (p1 ++ p2)) /\ buf_is b2 (p1 ++ p2)) as (b2 & -> & (r2 & -> & L2)).
  { unfold p2. destruct (Z.testbit (format h) 2).
    - destruct (level_tag_ok p1 (0 :: r1) level t r Hlev T) as (r' & R1 & R2); [rewrite zlen_cons; lia|].
      rewrite R2. cbn [bind]. eexists. split; [rewrite (zlen_app p1), (zlen_app [_;_;_]); reflexivity|]. exists r'. split.
      + rewrite <- !app_assoc. reflexivity.
      + rewrite zlen_app, !zlen_app, !zlen_cons. change (zlen (@nil Z)) with 0. rewrite zlen_cons in R1. unfold BUF_SIZE. lia.
    - rewrite app_nil_r. eexists. split; [reflexivity|]. exists r1. split; [reflexivity|]. rewrite zlen_app, zlen_cons. unfold BUF_SIZE. lia. }
  cbn [bind]. set (q := p1 ++ p2) in *. assert (Lq : zlen q <= 48) by (unfold q; rewrite zlen_app; lia).
  pose proof (zlen_nonneg q). unfold BUF_SIZE in L2. rewrite zlen_app, zlen_cons in L2.
  set (p3 := if Z.testbit (format h) 3 then [40] ++ tid_field (e_tid e) ++ [41] else []).
  assert (Lp3 : zlen p3 <= 7) by (unfold p3; destruct (Z.testbit (format h) 3); vm_compute; congruence).
  assert (exists b3, (if Z.testbit (format h) 3 then do (buf, n) <- print_tid (q ++ 0 :: r2) (zlen q) (e_tid e); Ret (buf, zlen q + n)
                      else Ret (q ++ 0 :: r2, zlen q)) = Ret (b3, zlen (q ++ p3)) /\ buf_is b3 (q ++ p3)) as (b3 & -> & (r3 & -> & L3)).
  { unfold p3. destruct (Z.testbit (format h) 3).
    - destruct (tid_ok q (0 :: r2) (e_tid e) Htid) as (r' & R1 & R2); [rewrite zlen_cons; lia|].
      rewrite R2. cbn [bind]. eexists. split; [rewrite (zlen_app q); reflexivity|]. exists r'. split; [reflexivity|].
      repeat rewrite zlen_app; rewrite zlen_tid_field, (zlen_cons 0 r'). change (zlen [40]) with 1. change (zlen [41]) with 1. rewrite zlen_cons in R1. unfold BUF_SIZE. lia.
    - rewrite app_nil_r. eexists. split; [reflexivity|]. exists r2. split; [reflexivity|]. rewrite zlen_app, zlen_cons. unfold BUF_SIZE. lia. }
  cbn [bind]. rewrite app_assoc. fold q. set (w := q ++ p3) in *. assert (Lw : zlen w <= 55) by (unfold w; rewrite zlen_app; lia).
  pose proof (zlen_nonneg w). unfold BUF_SIZE in L3. rewrite zlen_app, zlen_cons in L3.
  destruct (Z.eqb_spec (zlen w) 0) as [E0|E0].
  { exists (w ++ 0 :: r3). apply zlen_0_nil in E0. rewrite E0 in *. split; [reflexivity|]. exists r3. split; [reflexivity|].
    cbn [app]. rewrite zlen_cons. unfold BUF_SIZE. change (zlen (@nil Z)) with 0 in L3. lia. }
  destruct (zlen_pos_cons r3) as (y & r4 & ->); [lia|]. rewrite zlen_cons in L3.
  destruct (zlen_pos_cons r4) as (z & r5 & ->); [lia|]. rewrite zlen_cons in L3.
  rewrite mstore_app by reflexivity. cbn [bind]. rewrite mstore_app by (rewrite zlen_snoc; lia). cbn [bind].
  rewrite mstore_app by (rewrite !zlen_snoc; lia). cbn [bind]. eexists. split; [rewrite (zlen_app w); reflexivity|].
  exists r5. split; [rewrite <- !app_assoc; reflexivity|]. rewrite <- !app_assoc. cbn [app]. rewrite zlen_app, !zlen_cons. unfold BUF_SIZE. lia.
Qed.

(** ** the outputs *)
Lemma emit_ok h dtag c level rec buf r : agrees h dtag c -> text rec -> buf = rec ++ 0 :: r ->
  0 <= level -> forall lv, lv = shown_level h level ->
  emit c (x_console c) (x_usercb c) lv buf (zlen rec) = Ret (outputs h level rec).
Proof.
  intros A T -> Hl lv ->. unfold emit, outputs, to_console, to_callback.
  rewrite (a_console _ _ _ A), (a_usercb _ _ _ A), (a_flush _ _ _ A), (a_cb _ _ _ A).
  rewrite (cstr_at_text [] rec r 0 eq_refl T : cstr_at (rec ++ 0 :: r) 0 = Ret rec).
  pose proof (zlen_nonneg rec). pose proof (zlen_nonneg r).
  assert (E : mread (rec ++ 0 :: r) 0 (zlen rec + 1) = Ret (rec ++ [0])).
  { rewrite mread_ok by (rewrite ?zlen_app, ?zlen_cons; lia). f_equal. unfold zsub. rewrite zdrop_0.
    replace (rec ++ 0 :: r) with ((rec ++ [0]) ++ r) by (rewrite <- app_assoc; reflexivity).
    rewrite <- (zlen_snoc rec 0). apply ztake_app_len. }
  destruct (Z.testbit (target h) 2); cbn [bind]; destruct (Z.testbit (target h) 3 && has_cb h); cbn [bind]; rewrite ?E; reflexivity.
Qed.

(** malloc returns blocks of the requested size *)
Definition malloc_ok (m : Z -> option (list Z)) : Prop := forall n b, m n = Some b -> zlen b = n.
(** the level test *)
Lemma logable_ok h dtag c level : agrees h dtag c -> (logable c level = true <-> enabled h level).
Proof.
  intro A. unfold logable, enabled. rewrite (a_target _ _ _ A), (a_min _ _ _ A). lia.
Qed.
Lemma snprintf_short pre rest m size : zlen m < size -> size <= zlen rest ->
  snprintf_at (pre ++ rest) (zlen pre) size m = Ret (pre ++ m ++ 0 :: zdrop (zlen m + 1) rest, zlen m).
Proof.
  intros H1 H2. pose proof (zlen_nonneg m). unfold snprintf_at. destruct (size =? 0) eqn:E; [lia|].
  rewrite ztake_all by lia. destruct (split_first_n (zlen m + 1) rest) as (a & b & -> & La); [lia|].
  rewrite mwrite_app by (rewrite ?zlen_snoc; lia). cbn [bind]. rewrite <- La, zdrop_app_len. rewrite <- !app_assoc. reflexivity.
Qed.
Lemma snprintf_long pre rest m size : size <= zlen m -> 0 < size <= zlen rest ->
  snprintf_at (pre ++ rest) (zlen pre) size m = Ret (pre ++ ztake (size - 1) m ++ 0 :: zdrop size rest, zlen m).
Proof.
  intros H1 H2. unfold snprintf_at. destruct (size =? 0) eqn:E; [lia|].
  assert (L : zlen (ztake (size - 1) m) = size - 1) by (apply zlen_ztake; lia).
  destruct (split_first_n size rest) as (a & b & -> & La); [lia|].
  rewrite mwrite_app by (rewrite ?zlen_snoc; lia). cbn [bind]. rewrite <- La, zdrop_app_len. rewrite <- !app_assoc. reflexivity.
Qed.

(** ** __xlog_internal_print *)
Definition str_arg (p : option (list Z)) (t : option (list Z)) : Prop :=
  match p, t with None, None => True | Some b, Some t => cblock t b | _, _ => False end.

(** the part after the header *)
Lemma record_ok h dtag c level lv (H : list Z) buf funcp func line e m :
  agrees h dtag c -> 0 <= level -> lv = shown_level h level -> buf_is buf H -> text H -> zlen H <= 57 ->
  str_arg funcp func -> line < two31 -> e_msg e = Some m -> text m -> zlen m < 2147483647 -> malloc_ok (e_malloc e) ->
  zlen (H ++ func_field func line) <= 511 ->
  let rec := H ++ func_field func line ++ m in
  (do (buf, len) <-
    match funcp with
    | Some f => if (line >? 0) && (u64 (BUF_SIZE - zlen H - 1) >? 32)
                then do (buf, n) <- print_func_line buf (zlen H) f line; Ret (buf, zlen H + n)
                else Ret (buf, zlen H)
    | None => Ret (buf, zlen H)
    end;
  let remaining := u64 (BUF_SIZE - len) in
  match e_msg e with
  | None => Ret []
  | Some m =>
    do (buf, r) <- snprintf_at buf len remaining m;
    if r <? s32 remaining then emit c (x_console c) (x_usercb c) lv buf (len + r)
    else
      let need := r + 1 in
      match e_malloc e (u64 (len + need)) with
      | None => Ret []
      | Some big =>
        do (big, _) <- strlcpy big buf (len + 1);
        do (big, r) <- snprintf_at big len need m;
        emit c (x_console c) (x_usercb c) lv big (len + r)
      end
  end) = Ret (if zlen rec <=? 511 then outputs h level rec
              else match e_malloc e (zlen rec + 1) with Some _ => outputs h level rec | None => [] end).
Proof.
  intros A Hlev Elv (r0 & -> & L0) TH LH Hf Hline Em Tm Lm Hmal Hfit rec. rewrite Em.
  unfold BUF_SIZE in *. rewrite zlen_app, zlen_cons in L0. rewrite zlen_app in Hfit.
  pose proof (zlen_nonneg H). pose proof (zlen_nonneg m). pose proof (zlen_nonneg (func_field func line)) as PF.
  set (F := func_field func line) in *.
  assert (TF : text F) by (unfold F; destruct func as [f|]; [apply text_func; destruct funcp; [apply Hf|destruct Hf]|constructor]).
  assert (exists r1, match funcp with
    | Some f => if (line >? 0) && (u64 (512 - zlen H - 1) >? 32)
                then do (buf, n) <- print_func_line (H ++ 0 :: r0) (zlen H) f line; Ret (buf, zlen H + n)
                else Ret (H ++ 0 :: r0, zlen H)
    | None => Ret (H ++ 0 :: r0, zlen H)
    end = Ret ((H ++ F) ++ 0 :: r1, zlen (H ++ F)) /\ zlen (H ++ F) + 1 + zlen r1 = 512) as (r1 & -> & L1).
  { assert (Hu : (u64 (512 - zlen H - 1) >? 32) = true).
    { unfold u64, two64. rewrite Z.mod_small by lia. lia. }
    rewrite Hu, andb_true_r. unfold F in *.
    destruct funcp as [fb|], func as [f|]; cbn [str_arg] in Hf; [|contradiction|contradiction|].
    - destruct Hf as [Tf [rf ->]]. unfold func_field in *. destruct (Z.gtb_spec line 0) as [L|L].
      + destruct (Z.ltb_spec 0 line) as [L'|L']; [|lia].
        destruct (func_line_ok H (0 :: r0) f rf line) as (r' & R1 & R2); [assumption|lia| |].
        { unfold func_field. destruct (Z.ltb_spec 0 line); [|lia]. rewrite zlen_cons. lia. }
        unfold func_field in R1, R2. destruct (Z.ltb_spec 0 line); [|lia]. rewrite R2. cbn [bind].
        exists r'. split; [rewrite (zlen_app H); reflexivity|]. rewrite (zlen_app H). rewrite zlen_cons in R1. lia.
      + destruct (Z.ltb_spec 0 line) as [L'|L']; [lia|]. rewrite app_nil_r. exists r0. split; [reflexivity|]. lia.
    - cbn [func_field]. rewrite app_nil_r. exists r0. split; [reflexivity|]. lia. }
  cbn [bind]. cbv zeta. assert (Erec : rec = (H ++ F) ++ m) by (unfold rec; rewrite app_assoc; reflexivity).
  set (P := H ++ F) in *. assert (LP : 0 <= zlen P <= 511) by (unfold P; rewrite zlen_app; lia).
  assert (TP : text P) by (apply text_app; split; assumption).
  assert (Tr : text rec) by (rewrite Erec; apply text_app; split; assumption).
  assert (Lr : zlen rec = zlen P + zlen m) by (rewrite Erec, zlen_app; reflexivity).
  assert (E1 : u64 (512 - zlen P) = 512 - zlen P) by (unfold u64, two64; rewrite Z.mod_small by lia; lia).
  assert (E2 : s32 (512 - zlen P) = 512 - zlen P) by (apply s32_small; unfold two31; lia).
  rewrite E1, E2. clearbody rec P.
  destruct (Z.leb_spec (zlen rec) 511) as [S|S].
  - rewrite (snprintf_short P (0 :: r1) m) by (rewrite ?zlen_cons; lia). cbn [bind].
    destruct (Z.ltb_spec (zlen m) (512 - zlen P)); [|lia].
    rewrite <- Lr. eapply emit_ok; [exact A|exact Tr| |exact Hlev|exact Elv]. rewrite Erec, <- app_assoc. reflexivity.
  - rewrite (snprintf_long P (0 :: r1) m) by (rewrite ?zlen_cons; lia). cbn [bind].
    destruct (Z.ltb_spec (zlen m) (512 - zlen P)); [lia|].
    assert (E3 : u64 (zlen P + (zlen m + 1)) = zlen rec + 1) by (unfold u64, two64; rewrite Z.mod_small by lia; lia).
    rewrite E3. destruct (e_malloc e (zlen rec + 1)) as [big|] eqn:Eb; [|reflexivity].
    pose proof (Hmal _ _ Eb) as Lbig.
    set (mt := ztake (512 - zlen P - 1) m). assert (Tmt : text mt) by (apply text_ztake; exact Tm).
    assert (Lmt : zlen mt = 511 - zlen P) by (unfold mt; rewrite zlen_ztake by lia; lia).
    rewrite app_assoc. rewrite strlcpy_lemma by (try (apply text_app; split; assumption); lia). cbn [bind].
    destruct (zlen P + 1 =? 0) eqn:E0; [lia|].
    replace (zlen P + 1 - 1) with (zlen P) by lia. rewrite ztake_app_len.
    assert (LZ : zlen (zdrop (zlen P + 1) big) = zlen m) by (rewrite zlen_zdrop; lia).
    rewrite (snprintf_short P (0 :: zdrop (zlen P + 1) big) m) by (rewrite ?zlen_cons; lia). cbn [bind].
    rewrite <- Lr. eapply emit_ok; [exact A|exact Tr| |exact Hlev|exact Elv]. rewrite Erec, <- app_assoc. reflexivity.
Qed.
Lemma shown_ok h dtag c level : agrees h dtag c -> 0 <= level ->
  (if negb (x_up c =? 0) && (level <? x_up c) then x_up c else level) = shown_level h level.
Proof.
  intros A Hl. rewrite (a_up _ _ _ A). unfold shown_level. pose proof (a_rup _ _ _ A).
  destruct (Z.eqb_spec (up_level h) 0), (Z.ltb_spec level (up_level h)); cbn [negb andb]; lia.
Qed.
Lemma outputs_none h level rec rec' : Z.testbit (target h) 2 || Z.testbit (target h) 3 = false ->
  outputs h level rec = outputs h level rec' /\ outputs h level rec = [].
Proof.
  intro E. apply orb_false_iff in E as [E1 E2]. unfold outputs, to_console, to_callback. rewrite E1, E2. split; reflexivity.
Qed.
Lemma print_ok sf h dtag c e level tagp tag funcp func line m :
  agrees h dtag c -> strftime_ok sf -> - two31 < e_tid e < two31 -> 0 <= level ->
  (match tagp with None => tag = dtag | Some b => cblock tag b end) ->
  str_arg funcp func -> line < two31 -> e_msg e = Some m -> text m -> zlen m < 2147483647 -> malloc_ok (e_malloc e) ->
  exists st, zlen st <= 23 /\
    (strftime_std sf -> 0 <= e_sec e < 2 ^ 31 -> 0 <= e_sec e / 3600 + zone h -> 0 <= e_usec e < 1000000 ->
     st = stamp_text (e_sec e) (e_usec e) (zone h)) /\
  let H := header_text h st tag (shown_level h level) (e_tid e) in
  let rec := H ++ func_field func line ++ m in
  (~ enabled h level -> xlog_print sf c e level tagp funcp line = Ret []) /\
  (enabled h level -> zlen (H ++ func_field func line) <= 511 ->
   xlog_print sf c e level tagp funcp line =
     Ret (if zlen rec <=? 511 then outputs h level rec
          else match e_malloc e (zlen rec + 1) with Some _ => outputs h level rec | None => [] end)) /\
  (enabled h level -> to_console h || to_callback h = true -> 511 < zlen (H ++ func_field func line) ->
   xlog_print sf c e level tagp funcp line = Ub).
Proof.
  intros A Hs Htid Hlev Htag Hfun Hline Em Tm Lm Hmal.
  assert (Etag : exists r, (match tagp with None => x_tag c | Some t => t end) = tag ++ 0 :: r /\ text tag).
  { destruct tagp as [b|]; [destruct Htag as [T [r ->]]; exists r; split; [reflexivity|exact T]|].
    subst tag. destruct (a_tag _ _ _ A) as [r E]. exists r. split; [exact E|exact (a_tagtext _ _ _ A)]. }
  destruct Etag as (rt & Etag & Ttag).
  destruct (Z_le_dec level 5) as [L5|L5].
  2:{ destruct (stamp_ok sf e (zone h) (repeat 0 512) Hs (a_rtz _ _ _ A)) as (st & rest & S1 & S2 & S3 & S4 & S5);
        [rewrite zlen_repeat; lia|].
      exists st. split; [lia|]. split; [exact S5|]. cbv zeta. split; [|split; intros (_ & _ & X); lia].
      intros _. unfold xlog_print.
      destruct (logable c level) eqn:El; [apply (logable_ok h dtag c level A) in El; destruct El as (_ & _ & El); lia|reflexivity]. }
  assert (Hsl : 0 <= shown_level h level <= 6) by (unfold shown_level; pose proof (a_rup _ _ _ A); lia).
  destruct (header_ok sf h dtag c e (shown_level h level) tag rt A Hs Htid Hsl Ttag) as (st & S3 & S4 & S5 & buf & Hh & Hb).
  exists st. split; [exact S3|]. split; [exact S5|]. cbv zeta.
  set (H := header_text h st tag (shown_level h level) (e_tid e)) in *.
  assert (LH : zlen H <= 57) by (apply header_len; exact S3).
  assert (TH : text H) by (apply header_text_text; assumption).
  set (T := Z.testbit (target h) 2 || Z.testbit (target h) 3) in *.
  split; [|split].
  - intro N. unfold xlog_print. destruct (logable c level) eqn:El; [apply (logable_ok h dtag c level A) in El; contradiction|reflexivity].
  - intros En Fit. apply (logable_ok h dtag c level A) in En. unfold xlog_print. rewrite En. cbn [negb]. cbv zeta.
    rewrite (shown_ok h dtag c level A Hlev), Etag, Hh. cbn [bind].
    pose proof (record_ok h dtag c level (shown_level h level) (if T then H else []) buf funcp func line e m A Hlev eq_refl Hb) as R.
    assert (zlen ((if T then H else []) ++ func_field func line) <= 511) as Fit'.
    { rewrite zlen_app in *. destruct T; [lia|]. change (zlen (@nil Z)) with 0. pose proof (zlen_nonneg H). lia. }
    cbv zeta in R. rewrite R; clear R; try assumption; [|destruct T; [exact TH|constructor]|destruct T; [lia|change (zlen (@nil Z)) with 0; lia]].
    destruct T eqn:ET; [reflexivity|]. f_equal.
    destruct (outputs_none h level ([] ++ func_field func line ++ m) (H ++ func_field func line ++ m) ET) as [O1 O2].
    rewrite <- O1, O2. repeat match goal with |- context [if ?b then _ else _] => destruct b end;
    repeat match goal with |- context [match ?b with Some _ => _ | None => _ end] => destruct b end; reflexivity.
  - intros En Out Big. apply (logable_ok h dtag c level A) in En. unfold xlog_print. rewrite En. cbn [negb]. cbv zeta.
    rewrite (shown_ok h dtag c level A Hlev), Etag, Hh. cbn [bind].
    assert (T = true) as ET.
    { unfold T. unfold to_console, to_callback in Out. destruct (Z.testbit (target h) 2), (Z.testbit (target h) 3); try reflexivity. discriminate. }
    rewrite ET in *. destruct Hb as (r0 & -> & L0). unfold BUF_SIZE in *. rewrite zlen_app, zlen_cons in L0. rewrite zlen_app in Big.
    pose proof (zlen_nonneg H).
    destruct funcp as [fb|], func as [f|]; cbn [str_arg] in Hfun; try contradiction.
    2:{ cbn [func_field] in Big. change (zlen (@nil Z)) with 0 in Big. lia. }
    destruct Hfun as [Tf [rf ->]].
    assert (0 < line) as Hpos.
    { unfold func_field in Big. destruct (Z.ltb_spec 0 line); [assumption|]. change (zlen (@nil Z)) with 0 in Big. lia. }
    assert (Hu : (line >? 0) && (u64 (512 - zlen H - 1) >? 32) = true).
    { unfold u64, two64. rewrite Z.mod_small by lia. lia. }
    rewrite Hu. rewrite func_line_overflow; [reflexivity|exact Tf|lia|rewrite zlen_cons; lia].
Qed.

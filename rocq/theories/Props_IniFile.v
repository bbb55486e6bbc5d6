(** C65: ini files *)
From Verif Require Import CBase CStr SeqLib StringBuilderModel StringBuilderSpec IniReaderModel IniReaderSpec IniReaderProof IniReaderProof2 IniModel IniSpec IniProof IniProof2 IniProof3 IniProof4 IniProof5 IniProof6 IniFileModel Props_Ini.
From Verif Require FileModel FileProof2.

(** the part of a text before its first zero byte *)
Definition before_zero (t r : list Z) : Prop := text r /\ (t = r \/ exists y, t = r ++ 0 :: y).
Lemma upto0_ok : forall t, before_zero t (upto0 t).
Proof.
  intros t. induction t as [|c t [T IH]]; cbn [upto0]; [split; [constructor|auto]|]. destruct (Z.eqb_spec c 0) as [->|N].
  - split; [constructor|]. right. exists t. auto.
  - split; [constructor; [lia|auto]|]. destruct IH as [E|(y & E)]; [left; f_equal; auto|]. right. exists y. cbn. f_equal. auto.
Qed.
Lemma upto0_app : forall t y, text t -> upto0 (t ++ 0 :: y) = t.
Proof. intros t y T. induction T as [|c t N T IH]; cbn; [auto|]. destruct (Z.eqb_spec c 0); [lia|]. f_equal. auto. Qed.
Lemma before_app0 : forall c r, before_zero c r -> upto0 (c ++ [0]) = r.
Proof. intros c r (T & [->|(y & ->)]); [apply upto0_app; auto|]. rewrite <- app_assoc. cbn [app]. apply upto0_app. auto. Qed.
Lemma world_same : forall w, free1 (close1 (malloc1 (open1 w))) = w.
Proof. intros [f s b]. unfold free1, close1, malloc1, open1. cbn [files streams blocks]. f_equal; lia. Qed.
Lemma world_same2 : forall w, close1 (open1 w) = w.
Proof. intros [f s b]. unfold close1, open1. cbn [files streams blocks]. f_equal; lia. Qed.
Lemma read_buffer : forall c n, 0 <= n <= zlen c -> exists b, (do b <- mstore (repeat 205 (Z.to_nat (zlen c + 1))) (zlen c) 0; mwrite b 0 (ztake n c)) = Ret b /\ (n = zlen c -> b = c ++ [0]).
Proof.
  intros c n B. pose proof (zlen_nonneg c) as Z0.
  assert (L : repeat 205 (Z.to_nat (zlen c + 1)) = repeat 205 (length c) ++ [205]) by (replace (Z.to_nat (zlen c + 1)) with (length c + 1)%nat by (unfold zlen; lia); rewrite repeat_app; auto).
  rewrite L. assert (R : zlen (repeat 205 (length c)) = zlen c) by (unfold zlen; rewrite repeat_length; auto).
  rewrite (mstore_app (repeat 205 (length c)) [] 0 205 (zlen c)) by auto. cbn [bind]. rewrite <- app_assoc. cbn [app].
  exists (ztake n c ++ zdrop n (repeat 205 (length c)) ++ [0]). split.
  - assert (S0 : repeat 205 (length c) ++ [0] = [] ++ ztake n (repeat 205 (length c)) ++ zdrop n (repeat 205 (length c)) ++ [0]) by (cbn [app]; rewrite app_assoc, ztake_zdrop; auto).
    rewrite S0. rewrite (mwrite_app [] (ztake n c) (ztake n (repeat 205 (length c))) _ 0); [cbn [app]; auto|auto|]. rewrite !zlen_ztake by lia. auto.
  - intros ->. rewrite (ztake_all (zlen c) c) by lia. f_equal. rewrite zdrop_all by (rewrite R; lia). auto.
Qed.

(** ** Reading *)
(** what parse_file gives: the object of the text before the first zero byte; nothing stays open or allocated, nothing is changed *)
Theorem C65_parse_file : forall parse path c t w, content path w = Some c -> path <> [] -> 6 <= zlen c -> before_zero c t ->
  parse_file true true (zlen c) parse (Some path) w = do r <- parse t; Ret (r, w).
Proof.
  intros parse path c t w C NP SZ BZ. unfold parse_file. destruct path as [|a path]; [congruence|]. rewrite C. destruct (Z.ltb_spec (zlen c) 6); [lia|]. cbn [negb].
  rewrite Z.min_id, Z.max_r by lia. destruct (read_buffer c (zlen c) ltac:(lia)) as (b & E & EB).
  destruct (mstore (repeat 205 (Z.to_nat (zlen c + 1))) (zlen c) 0) as [b0| | |]; try discriminate. cbn [bind] in *. rewrite E. cbn [bind]. rewrite Z.eqb_refl. cbn [negb].
  rewrite EB, (before_app0 _ _ BZ) by auto. destruct (parse t); cbn [bind]; auto. rewrite world_same. auto.
Qed.
(** in every other case NULL; the world is left as it was *)
Theorem C65_parse_file_null : forall can_open ok got parse path w,
  (path = None \/ path = Some [] \/ can_open = false \/ (exists p, path = Some p /\ (content p w = None \/ exists c, content p w = Some c /\ (zlen c < 6 \/ ok = false \/ got < zlen c)))) ->
  parse_file can_open ok got parse path w = Ret (None, w).
Proof.
  intros can_open ok got parse path w H. unfold parse_file. destruct path as [path|]; [|auto]. destruct path as [|a path]; [auto|].
  destruct H as [H|[H|[->|(p & E & H)]]]; [discriminate|discriminate|auto|]. injection E as <-.
  destruct can_open; [|auto]. destruct H as [->|(c & -> & H)]; [auto|]. pose proof (zlen_nonneg c).
  destruct (Z.ltb_spec (zlen c) 6) as [L|L]; [rewrite world_same2; auto|]. destruct ok; cbn [negb]; [|rewrite world_same2; auto].
  assert (G : got < zlen c) by (destruct H as [H|[H|H]]; [lia|discriminate|auto]).
  set (n := Z.max 0 (Z.min got (zlen c))). destruct (read_buffer c n ltac:(lia)) as (b & E & _).
  destruct (mstore (repeat 205 (Z.to_nat (zlen c + 1))) (zlen c) 0) as [b0| | |]; try discriminate. cbn [bind] in *. rewrite E. cbn [bind].
  destruct (Z.eqb_spec n (zlen c)); [lia|]. cbn [negb bind]. rewrite world_same. auto.
Qed.
(** for every file and every failure it is defined and balanced *)
Theorem C65_parse_file_balanced : forall can_open ok got ok1 ok2 oks junk path w, zlen junk = 200 ->
  (forall p c, content p w = Some c -> zlen c < two31) ->
  exists r, parse_file can_open ok got (fun t => ini_parse_str ok1 ok2 oks junk (Some t)) path w = Ret (r, w).
Proof.
  intros can_open ok got ok1 ok2 oks junk path w J SZ.
  destruct path as [path|]; [|exists None; apply C65_parse_file_null; auto]. destruct path as [|a path]; [exists None; apply C65_parse_file_null; auto|].
  destruct can_open; [|exists None; apply C65_parse_file_null; auto].
  destruct (content (a :: path) w) as [c|] eqn:C; [|exists None; apply C65_parse_file_null; right; right; right; exists (a :: path); auto].
  destruct (Z.ltb_spec (zlen c) 6) as [L|L]; [exists None; apply C65_parse_file_null; right; right; right; exists (a :: path); split; [auto|]; right; exists c; auto|].
  destruct ok; [|exists None; apply C65_parse_file_null; right; right; right; exists (a :: path); split; [auto|]; right; exists c; auto].
  destruct (Z.ltb_spec got (zlen c)) as [G|G]; [exists None; apply C65_parse_file_null; right; right; right; exists (a :: path); split; [auto|]; right; exists c; auto|].
  assert (EQ : forall parse, parse_file true true got parse (Some (a :: path)) w = parse_file true true (zlen c) parse (Some (a :: path)) w).
  { intros parse. unfold parse_file. rewrite C. rewrite (Z.min_r got (zlen c)), Z.min_id by lia. auto. }
  rewrite EQ. rewrite (C65_parse_file _ _ c (upto0 c)); [|auto|discriminate|auto|apply upto0_ok].
  destruct (upto0_ok c) as (T & HC).
  assert (zlen (upto0 c) < two31). { specialize (SZ _ _ C). destruct HC as [HC|(y & HC)]; rewrite HC in SZ at 1; [lia|]. rewrite zlen_app, zlen_cons in SZ. pose proof (zlen_nonneg y). lia. }
  destruct (C38_parsing_any_text_is_defined ok1 ok2 oks junk (Some (upto0 c)) J) as (r & E); [auto|]. rewrite E. cbn [bind]. eauto.
Qed.

(** the reader on a file: whatever bytes the file has, the calls are those of the meanings of its lines, each cut at its
    first zero byte *)
Fixpoint lines_meaning {U} (fuel : nat) (h : ini_handler U) (q : sp_rd U) (lineno : Z) (t : list Z) : outcome (Z * U) :=
  match t with
  | [] => Ret (q_error q, q_user q)
  | _ => match fuel with
         | O => NoFuel
         | S fuel => let '(a, b) := piece 199 t in do q <- sp_line h q (lineno + 1) (upto0 a); lines_meaning fuel h q (lineno + 1) b
         end
  end.
Lemma stream_any : forall U (h : ini_handler U) f x q lineno t, R x q -> (length t <= f)%nat -> 0 <= lineno -> lineno + zlen t < two31 ->
  stream_loop f h x lineno t = lines_meaning f h q lineno t.
Proof.
  intros U h f. induction f as [|f IH]; intros x q lineno t HR Lf Hl Hm.
  - destruct t; [|cbn in Lf; lia]. destruct HR as (_ & _ & _ & E1 & E2). cbn. rewrite E1, E2. reflexivity.
  - destruct t as [|c t]. { destruct HR as (_ & _ & _ & E1 & E2). cbn. rewrite E1, E2. reflexivity. }
    set (tt0 := c :: t) in *. assert (Hne : tt0 <> []) by discriminate.
    assert (E1 : stream_loop (S f) h x lineno tt0 =
      do (line, rest) <- reader_loop (Z.to_nat (INI_MAX_LINE - 1)) (r_line x) 0 tt0;
      do lineno <- sint (lineno + 1);
      do x <- parse_line h (mk_rd line (r_section x) (r_prev x) (r_error x) (r_user x)) lineno;
      stream_loop f h x lineno rest) by reflexivity.
    assert (E2 : lines_meaning (S f) h q lineno tt0 =
      (let '(a, b) := piece 199 tt0 in do q <- sp_line h q (lineno + 1) (upto0 a); lines_meaning f h q (lineno + 1) b)) by reflexivity.
    rewrite E1, E2. clear E1 E2. clearbody tt0. clear c t. pose proof HR as (L0 & As & Ap & Ee & Eu).
    change (Z.to_nat (INI_MAX_LINE - 1)) with 199%nat.
    destruct (reader_ok 199 tt0 [] (r_line x) 0 eq_refl) as (r & E & Lr); [lia|]. cbn [app] in *. rewrite E. cbn [bind].
    pose proof (piece_split 199 tt0) as Sp. pose proof (piece_nonempty 198 tt0 Hne) as Np. change (S 198) with 199%nat in Np.
    destruct (piece 199 tt0) as [a b]. cbn [fst snd] in *.
    assert (La : 0 < zlen a) by (destruct a; [congruence|rewrite zlen_cons; pose proof (zlen_nonneg a); lia]).
    pose proof (zlen_nonneg b). rewrite Sp, zlen_app in Hm. rewrite FileProof2.sint_ok by (unfold two31 in *; lia). cbn [bind].
    destruct (upto0_ok a) as (Ta & Ca).
    assert (Q : exists r2, a ++ 0 :: r = upto0 a ++ 0 :: r2).
    { destruct Ca as [Ca|(y & Ca)]; [exists r; rewrite Ca at 1; auto|]. exists (y ++ 0 :: r). rewrite Ca at 1. rewrite <- app_assoc. auto. }
    destruct Q as (r2 & Q). rewrite Q. rewrite Q in Lr.
    pose proof (line_ok h (mk_rd (upto0 a ++ 0 :: r2) (r_section x) (r_prev x) (r_error x) (r_user x)) q (lineno + 1) (upto0 a) r2) as LK.
    specialize (LK (R_line x q (upto0 a ++ 0 :: r2) HR ltac:(rewrite Lr; exact L0)) eq_refl Ta).
    destruct (parse_line h _ (lineno + 1)) as [x'| | |]; destruct (sp_line h q (lineno + 1) (upto0 a)) as [q'| | |]; cbn [sim] in LK; try contradiction; cbn [bind]; try reflexivity.
    apply IH; [exact LK| |lia|lia]. rewrite Sp, app_length in Lf. unfold zlen in La. lia.
Qed.
Theorem C65_reader_reads_any_bytes : forall U (h : ini_handler U) junk path c (u : U) w, content path w = Some c -> zlen junk = 200 -> zlen c < two31 ->
  reader_parse h junk true path u w = do r <- lines_meaning (length c) h (mk_sp_rd [] [] 0 u) 0 c; Ret (fst r, snd r, w).
Proof.
  intros U h junk path c u w C J SZ. unfold reader_parse. rewrite C. rewrite (stream_any U h (length c) _ (mk_sp_rd [] [] 0 u) 0 c); [|split; [auto|]|lia|lia|lia].
  - rewrite world_same2. auto.
  - cbn. split; [exists (repeat 0 49); split; [reflexivity|]; split; [constructor|reflexivity]|]. split; [|auto]. exists (repeat 0 49). split; [reflexivity|]. split; [constructor|reflexivity].
Qed.
(** a text without zero bytes means the same from a file and from a string *)
Lemma piece_text : forall n t, text t -> text (fst (piece n t)) /\ text (snd (piece n t)).
Proof. intros n t T. rewrite (piece_split n t) in T. apply text_sub in T. auto. Qed.
Theorem C65_reader_file_is_string : forall U (h : ini_handler U) junk junk2 path c (u : U) w, content path w = Some c -> zlen junk = 200 -> zlen junk2 = 200 -> zlen c < two31 -> text c ->
  reader_parse h junk true path u w = do r <- ini_reader_parse_string h junk2 c u; Ret (fst r, snd r, w).
Proof.
  intros U h junk junk2 path c u w C J J2 SZ T. rewrite (C65_reader_reads_any_bytes U h junk path c u w C J SZ). rewrite (C38_the_reader_follows_the_line_meanings U h junk2 c u J2 T SZ). f_equal.
  unfold sp_parse. generalize (mk_sp_rd [] [] 0 u : sp_rd U) as q. generalize 0 as ln. generalize (length c) as f. clear -T. intros f. revert c T.
  induction f as [|f IH]; intros t T ln q; destruct t as [|x t]; cbn [lines_meaning sp_stream]; auto. pose proof (piece_text 199 (x :: t) T) as [T1 T2].
  destruct (piece 199 (x :: t)) as [a b]. cbn [fst snd] in *. assert (U0 : upto0 a = a) by (rewrite <- (app_nil_r a) at 1; clear -T1; induction T1 as [|y l N L IHl]; cbn; [auto|]; destruct (Z.eqb_spec y 0); [lia|]; f_equal; auto).
  rewrite U0. destruct (sp_line h q (ln + 1) a); cbn [bind]; auto.
Qed.

(** ** Saving *)
Lemma content_store : forall p c w q, content q (store p c w) = if list_eq_dec Z.eq_dec p q then Some c else content q w.
Proof.
  intros p c w q. unfold content, store. cbn [files find fst]. destruct (list_eq_dec Z.eq_dec p q) as [E|N]; [auto|].
  induction (files w) as [|[k v] l IH]; cbn [filter find fst]; [auto|]. destruct (list_eq_dec Z.eq_dec k p) as [Ep|Np]; cbn [negb].
  - destruct (list_eq_dec Z.eq_dec k q); [congruence|auto].
  - cbn [find fst]. destruct (list_eq_dec Z.eq_dec k q); auto.
Qed.
Lemma content_open : forall p w, content p (open1 w) = content p w. Proof. auto. Qed.
(** all went well: the file holds exactly the text, the result is 0, everything is closed and freed *)
Theorem C65_save : forall path t put w, path <> [] -> t <> [] -> zlen t <= put ->
  exists w' ms, save true (Ret (Some t)) put (Some path) w = Ret (0, w', ms) /\ content path w' = Some t /\ (forall q, q <> path -> content q w' = content q w) /\
    streams w' = streams w /\ blocks w' = blocks w.
Proof.
  intros path t put w NP NT PT. unfold save. destruct path as [|a path]; [congruence|]. cbn [negb bind]. destruct t as [|c t]; [congruence|]. pose proof (zlen_nonneg (c :: t)).
  eexists _, _. split; [reflexivity|]. rewrite Z.min_r, Z.max_r by lia. assert (L : Z.to_nat (zlen (c :: t)) = length (c :: t)) by (unfold zlen; lia). rewrite L, firstn_all.
  split; [|split; [|split; cbn; lia]].
  - change (content (a :: path) (store (a :: path) (c :: t) (malloc1 (open1 (store (a :: path) [] w)))) = Some (c :: t)). rewrite content_store. destruct (list_eq_dec Z.eq_dec (a :: path) (a :: path)); congruence.
  - intros q Q. change (content q (store (a :: path) (c :: t) (malloc1 (open1 (store (a :: path) [] w)))) = content q w). rewrite content_store. destruct (list_eq_dec Z.eq_dec (a :: path) q); [congruence|].
    change (content q (store (a :: path) [] w) = content q w). rewrite content_store. destruct (list_eq_dec Z.eq_dec (a :: path) q); congruence.
Qed.
(** saving and reading back: the same object *)
Theorem C65_save_then_parse : forall al1 al2 (al : Z -> allocator) junk p m path put w, hist p m -> plain m -> m <> [] ->
  sane al1 -> sane al2 -> (forall n, sane (al n)) -> sb_create al1 al2 (u64 (pred p + 64)) <> Ret None ->
  (forall n, serves (al n) (2 * (zlen (dump_text m) + 1))) -> zlen (dump_text m) < two31 -> zlen junk = 200 -> path <> [] -> zlen (dump_text m) <= put ->
  exists w' ms p', save true (ini_dump al1 al2 al true p) put (Some path) w = Ret (0, w', ms) /\
    parse_file true true (zlen (dump_text m)) (fun t => ini_parse_str true true all_ok junk (Some t)) (Some path) w' = Ret (Some p', w') /\ hist p' m /\
    (forall s k blk size, 0 <= size -> match blk with Some b => size <= zlen b | None => True end -> ini_get p' s k blk size = ini_get p s k blk size).
Proof.
  intros al1 al2 al junk p m path put w H P NM S1 S2 S3 C SV LB LJ NP PT.
  destruct (C38_dump_then_parse_gives_the_same_object al1 al2 al junk p m H P S1 S2 S3 C SV LB LJ) as (t & p' & E & E2 & H' & G & _).
  destruct (C38_dump_text_is_exact al1 al2 al p m H S1 S2 S3 C SV) as [E3 _]; [unfold two31 in LB; lia|]. rewrite E in E3. injection E3 as ->. rewrite E.
  assert (L6 : 6 <= zlen (dump_text m)).
  { destruct m as [|[s l] m]; [congruence|]. unfold dump_text. cbn [flat_map]. unfold section_text. cbn [fst snd]. rewrite !zlen_app, !zlen_cons, !zlen_nil.
    pose proof (zlen_nonneg s). pose proof (zlen_nonneg (flat_map line_of l)). pose proof (zlen_nonneg (flat_map section_text m)). change (fun x : list Z * list (list Z * list Z) => [91] ++ fst x ++ [93; 13; 10] ++ flat_map line_of (snd x) ++ [13; 10]) with section_text.
    lia. }
  destruct (C65_save path (dump_text m) put w NP) as (w' & ms & ES & CT & _); [intro Q; rewrite Q in L6; clear -L6; exfalso; apply L6; reflexivity|auto|].
  exists w', ms, p'. split; [auto|]. split; [|auto]. rewrite (C65_parse_file _ path (dump_text m) (dump_text m)); [rewrite E2; auto|auto|auto|auto|].
  split; [eapply hist_dump_text; eauto|auto].
Qed.
(** at every moment of a save - the points where a crash can strike - the file is untouched or holds a beginning of the new text, and
    other files are untouched *)
Theorem C65_crash_leaves_a_prefix : forall can_open dump put path w r w' ms, save can_open dump put (Some path) w = Ret (r, w', ms) ->
  Forall (fun x => (exists t k, (dump = Ret (Some t) \/ k = O) /\ content path x = Some (firstn k t)) /\ forall q, q <> path -> content q x = content q w) ms.
Proof.
  intros can_open dump put path w r w' ms H. unfold save in H. destruct path as [|a path]; [injection H as <- <- <-; constructor|].
  destruct can_open; cbn [negb] in H; [|injection H as <- <- <-; constructor].
  assert (A : forall c, content (a :: path) (store (a :: path) c (malloc1 (open1 (store (a :: path) [] w)))) = Some c /\ forall q, q <> a :: path -> content q (store (a :: path) c (malloc1 (open1 (store (a :: path) [] w)))) = content q w).
  { intros c. split; [rewrite content_store; destruct (list_eq_dec Z.eq_dec (a :: path) (a :: path)); congruence|]. intros q Q. rewrite content_store. destruct (list_eq_dec Z.eq_dec (a :: path) q); [congruence|].
    change (content q (store (a :: path) [] w) = content q w). rewrite content_store. destruct (list_eq_dec Z.eq_dec (a :: path) q); congruence. }
  assert (B : content (a :: path) (store (a :: path) [] w) = Some [] /\ forall q, q <> a :: path -> content q (store (a :: path) [] w) = content q w).
  { split; [rewrite content_store; destruct (list_eq_dec Z.eq_dec (a :: path) (a :: path)); congruence|]. intros q Q. rewrite content_store. destruct (list_eq_dec Z.eq_dec (a :: path) q); congruence. }
  assert (B1 : (exists t k, (dump = Ret (Some t) \/ k = O) /\ content (a :: path) (store (a :: path) [] w) = Some (firstn k t)) /\ forall q, q <> a :: path -> content q (store (a :: path) [] w) = content q w).
  { split; [|apply B]. exists [], O. split; [auto|]. apply B. }
  destruct dump as [[[|c t]|]| | |]; try discriminate; cbn [bind] in H; injection H as <- <- <-.
  - repeat (constructor; [exact B1|]). constructor.
  - constructor; [exact B1|]. constructor; [exact B1|]. apply Forall_app. split.
    + apply Forall_map. apply Forall_forall. intros k _. split; [exists (c :: t), k; split; [auto|]; apply A|apply A].
    + assert (L : (exists t0 k, (Ret (Some (c :: t)) = Ret (Some t0) \/ k = O) /\ content (a :: path) (store (a :: path) (firstn (Z.to_nat (Z.max 0 (Z.min put (zlen (c :: t))))) (c :: t)) (malloc1 (open1 (store (a :: path) [] w)))) = Some (firstn k t0)) /\
        forall q, q <> a :: path -> content q (store (a :: path) (firstn (Z.to_nat (Z.max 0 (Z.min put (zlen (c :: t))))) (c :: t)) (malloc1 (open1 (store (a :: path) [] w)))) = content q w).
      { split; [|apply A]. exists (c :: t), (Z.to_nat (Z.max 0 (Z.min put (zlen (c :: t))))). split; [auto|]. apply A. }
      constructor; [exact L|]. constructor; [exact L|constructor].
  - constructor; [exact B1|constructor].
Qed.
(** the result and what is left behind, in all cases *)
Theorem C65_save_result : forall can_open d put path w, exists r w' ms, save can_open (Ret d) put path w = Ret (r, w', ms) /\ blocks w' = blocks w /\
  (r = 0 <-> can_open = true /\ (exists p, path = Some p /\ p <> []) /\ (exists t, d = Some t /\ t <> [])) /\
  (r = 0 \/ r = 2 -> streams w' = streams w) /\ (r = 2 -> w' = w).
Proof.
  intros can_open d put path w. unfold save. destruct path as [path|].
  2:{ exists 2, w, []. split; [auto|]. split; [auto|]. split; [split; [discriminate|intros (_ & (p & E & _) & _); discriminate]|]. auto. }
  destruct path as [|a path]. { exists 2, w, []. split; [auto|]. split; [auto|]. split; [split; [discriminate|intros (_ & (p & E & N) & _); congruence]|]. auto. }
  destruct can_open; cbn [negb bind]. 2:{ exists 2, w, []. split; [auto|]. split; [auto|]. split; [split; [discriminate|intros (E & _); discriminate]|]. auto. }
  destruct d as [[|c t]|].
  - eexists 1, _, _. split; [reflexivity|]. split; [cbn; lia|]. split; [split; [discriminate|intros (_ & _ & (t & E & N)); congruence]|]. split; [intros [Q|Q]; discriminate|discriminate].
  - eexists 0, _, _. split; [reflexivity|]. split; [cbn; lia|]. split; [split; [intros _; split; [auto|]; split; [exists (a :: path); split; [auto|discriminate]|exists (c :: t); split; [auto|discriminate]]|auto]|].
    split; [cbn; lia|discriminate].
  - eexists 1, _, _. split; [reflexivity|]. split; [cbn; lia|]. split; [split; [discriminate|intros (_ & _ & (t & E & N)); discriminate]|]. split; [intros [Q|Q]; discriminate|discriminate].
Qed.

(** ** ini_parser_is_file_path *)
Theorem C65_is_file_path : forall s, is_file_path (Some s) = true <->
  s <> [] /\ ~ In 10 s /\ (forall a c r, s = a ++ c :: r -> Forall (fun x => FileModel.isspace x = true) a -> FileModel.isspace c = false -> c <> 35 /\ c <> 91).
Proof.
  intros s. assert (FM : first_mark s = true <-> forall a c r, s = a ++ c :: r -> Forall (fun x => FileModel.isspace x = true) a -> FileModel.isspace c = false -> c <> 35 /\ c <> 91).
  { induction s as [|x s IH]; cbn [first_mark]; [split; [intros _ [|] ? ? Q; discriminate|auto]|]. destruct (FileModel.isspace x) eqn:SX.
    - rewrite IH. split.
      + intros H [|y a] c r E F S; injection E as -> E; [congruence|]. inversion F; subst. eapply H; eauto.
      + intros H a c r E F S. apply (H (x :: a) c r); [rewrite E; auto|constructor; auto|auto].
    - split.
      + intros H [|y a] c r E F S; injection E as -> E; [|inversion F; subst; congruence]. apply negb_true_iff, orb_false_iff in H. rewrite !Z.eqb_neq in H. auto.
      + intros H. destruct (H [] x s eq_refl ltac:(constructor) SX). apply negb_true_iff, orb_false_iff. rewrite !Z.eqb_neq. auto. }
  unfold is_file_path. destruct s as [|x s]; [split; [discriminate|intros (Q & _); congruence]|]. set (l := x :: s) in *. assert (NE : l <> []) by discriminate. clearbody l.
  destruct (existsb (Z.eqb 10) l) eqn:E.
  - split; [discriminate|]. intros (_ & N & _). exfalso. apply N. apply existsb_exists in E. destruct E as (y & I & Y). apply Z.eqb_eq in Y. subst. auto.
  - rewrite FM. split; [|tauto]. intros H. split; [auto|]. split; [|auto]. intros I. assert (existsb (Z.eqb 10) l = true) by (apply existsb_exists; exists 10; auto). congruence.
Qed.

(** ** What does not hold *)
(** a save that fails after the file was opened - for instance of an object without sections - has emptied the file and never closes it *)
Theorem C65_failed_save_refuted : forall path put d old w, path <> [] -> d = None \/ d = Some [] -> content path w = Some old ->
  exists w' ms, save true (Ret d) put (Some path) w = Ret (1, w', ms) /\ content path w' = Some [] /\ streams w' = streams w + 1.
Proof.
  intros path put d old w NP D C. unfold save. destruct path as [|a path]; [congruence|]. cbn [negb bind].
  assert (B : content (a :: path) (store (a :: path) [] w) = Some []) by (rewrite content_store; destruct (list_eq_dec Z.eq_dec (a :: path) (a :: path)); congruence).
  destruct D as [-> | ->]; eexists _, _; (split; [reflexivity|]); (split; [exact B|]); cbn; lia.
Qed.
Theorem C65_empty_object_refuted : exists al, (forall n, ini_dump al al (fun _ : Z => al) n ini_new = Ret (if n then Some [] else None)) /\ sane al.
Proof.
  exists (fun k => if (k <? 0) || (200 <? k) then None else Some (repeat 7 (Z.to_nat k))). split; [intros [|]; vm_compute; reflexivity|].
  intros k b E. destruct (Z.ltb_spec k 0), (Z.ltb_spec 200 k); cbn [orb] in E; try discriminate. injection E as <-. unfold zlen. rewrite repeat_length. lia.
Qed.
(** a full disk: only a part of the text is written, and the result is success *)
Theorem C65_short_write_refuted : forall path t put w, path <> [] -> t <> [] -> 0 <= put < zlen t ->
  exists w' ms, save true (Ret (Some t)) put (Some path) w = Ret (0, w', ms) /\ content path w' = Some (ztake put t).
Proof.
  intros path t put w NP NT PT. unfold save. destruct path as [|a path]; [congruence|]. cbn [negb bind]. destruct t as [|c t]; [congruence|].
  eexists _, _. split; [reflexivity|]. rewrite Z.min_l, Z.max_r by lia.
  change (content (a :: path) (store (a :: path) (ztake put (c :: t)) (malloc1 (open1 (store (a :: path) [] w)))) = Some (ztake put (c :: t))). rewrite content_store. destruct (list_eq_dec Z.eq_dec (a :: path) (a :: path)); congruence.
Qed.
(** a crash during a save can lose both the old and the new contents *)
Theorem C65_crash_refuted : forall path t put w, path <> [] -> t <> [] ->
  exists w' ms x, save true (Ret (Some t)) put (Some path) w = Ret (0, w', ms) /\ In x ms /\ content path x = Some [].
Proof.
  intros path t put w NP NT. unfold save. destruct path as [|a path]; [congruence|]. cbn [negb bind]. destruct t as [|c t]; [congruence|].
  eexists _, _, (open1 (store (a :: path) [] w)). split; [reflexivity|]. split; [left; auto|].
  change (content (a :: path) (store (a :: path) [] w) = Some []). rewrite content_store. destruct (list_eq_dec Z.eq_dec (a :: path) (a :: path)); congruence.
Qed.
(** a file of fewer than six bytes is refused, whatever its text; a comment on one line is taken for a path *)
Definition yes_parse (t : list Z) : outcome (option ini) := ini_parse_str true true all_ok (repeat 7 200) (Some t).
Theorem C65_tiny_files_refuted : yes_parse [35; 97; 10] = Ret (Some ini_new) /\
  parse_file true true 3 yes_parse (Some [102]) (mk_w [([102], [35; 97; 10])] 0 0) = Ret (None, mk_w [([102], [35; 97; 10])] 0 0) /\
  yes_parse [59; 97] = Ret (Some ini_new) /\ is_file_path (Some [59; 97]) = true.
Proof. repeat split; vm_compute; reflexivity. Qed.

(** ** A file *)
Definition a_text : list Z := [91; 97; 93; 10; 98; 61; 99; 10].
Example demo_file : (do r <- parse_file true true 8 yes_parse (Some [102]) (mk_w [([102], a_text)] 3 5);
    match fst r with Some p => do g <- ini_get p (Some [97]) (Some [98]) (Some [0; 0]) 2; Ret (g, snd r) | None => Ub end) = Ret ((0, Some [99; 0]), mk_w [([102], a_text)] 3 5) /\
  before_zero (a_text ++ [0; 1]) a_text /\ content [102] (mk_w [([102], a_text)] 3 5) = Some a_text.
Proof.
  split; [vm_compute; reflexivity|]. split; [|reflexivity]. split; [repeat (constructor; [lia|]); constructor|]. right. exists [1]. auto.
Qed.
Example demo_plain : plain ex_mini /\ (exists p, hist p ex_mini) /\ ex_mini <> [].
Proof. split; [exact C38_ex_plain|]. split; [exact C38_ex_reachable|discriminate]. Qed.
Example demo_path : is_file_path (Some [47; 97]) = true /\ is_file_path (Some [32; 91; 97; 93]) = false /\ is_file_path (Some [97; 10]) = false.
Proof. repeat split. Qed.

Print Assumptions C65_parse_file.
Print Assumptions C65_parse_file_null.
Print Assumptions C65_parse_file_balanced.
Print Assumptions C65_reader_reads_any_bytes.
Print Assumptions C65_reader_file_is_string.
Print Assumptions C65_save.
Print Assumptions C65_save_then_parse.
Print Assumptions C65_crash_leaves_a_prefix.
Print Assumptions C65_save_result.
Print Assumptions C65_is_file_path.
Print Assumptions C65_failed_save_refuted.
Print Assumptions C65_empty_object_refuted.
Print Assumptions C65_short_write_refuted.
Print Assumptions C65_crash_refuted.
Print Assumptions C65_tiny_files_refuted.

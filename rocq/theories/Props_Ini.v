(** C37, C38: the ini parser (src/file/ini_parser.c, src/file/ini_reader.c). *)
From Verif Require Import CBase CStr SeqLib FileModel IniReaderModel IniReaderSpec IniReaderProof IniReaderProof2 StringsModel StrParamsModel StrParamsProof
  StringBuilderModel StringBuilderSpec StringBuilderProof IniModel IniSpec IniProof IniProof2 IniProof3 IniProof4 IniProof5 IniProof6.

(** C37: after every history of puts and deletions the return code of the next call, and the object it leaves, are those
    of an ordered map of maps with names compared without regard to case, including every allocation failure. *)
Theorem C37_every_history_answers_like_the_map : forall (p : ini) (m : mini) (o : iop),
  hist p m -> iop_ok m o -> exists p', run_iop p o = Ret (fst (sp_iop m o), p') /\ hist p' (snd (sp_iop m o)).
Proof.
  intros p m o H K. destruct (iop_lemma p m o (hist_inv _ _ H) K) as (p' & E & _). exists p'. split; [exact E|]. eapply hist_step; eassumption.
Qed.
(** reading: exact code and exact content of the caller's block *)
Theorem C37_get_reads_the_map : forall (p : ini) (m : mini) (s k blk : option (list Z)) (size : Z),
  hist p m -> 0 <= size -> match blk with Some b => size <= zlen b | None => True end ->
  ini_get p s k blk size = Ret (sp_get m s k blk size).
Proof. intros p m s k blk size H. apply get_ok. apply hist_inv. exact H. Qed.
Theorem C37_has_section_and_key : forall (p : ini) (m : mini) (s k : list Z), hist p m -> s <> [] -> k <> [] ->
  ini_has_section p (Some s) = Ret (match assoc s m with Some _ => 0 | None => 4 end) /\
  ini_has_key p (Some s) (Some k) = Ret (match m_get m s k with Some _ => 0 | None => 4 end).
Proof.
  intros p m s k H Ns Nk. unfold ini_has_section, ini_has_key. rewrite !(get_ok p m) by (try (apply hist_inv; exact H); try exact I; lia). unfold sp_get, m_get.
  destruct s as [|c s]; [congruence|]. destruct k as [|d k]; [congruence|]. cbn [bind]. destruct (assoc (c :: s) m) as [l|]; [|split; reflexivity].
  split; [reflexivity|]. destruct (assoc (d :: k) l); reflexivity.
Qed.
(** in that map the last put of a (section, key) wins, a deletion removes exactly its target *)
Theorem C37_last_put_wins : forall (m : mini) (s k v s' k' : list Z),
  m_get (m_put m s k v) s' k' = (if same s s' && same k k' then Some v else m_get m s' k') /\
  m_get (m_del_key m s k) s' k' = (if same s s' && same k k' then None else m_get m s' k') /\
  m_get (without s m) s' k' = (if same s s' then None else m_get m s' k').
Proof. intros. split; [apply m_get_put|]. split; [apply m_get_del_key|apply m_get_without]. Qed.
(** put, then read under any spelling of the names *)
Theorem C37_put_then_get : forall (p : ini) (m : mini) (s k v s' k' blk : list Z) (size : Z),
  hist p m -> s <> [] -> k <> [] -> text s -> text k -> text v -> zlen s <= 63 -> zlen k <= 63 -> zlen v <= 255 ->
  same s s' = true -> same k k' = true -> zlen v < size <= zlen blk ->
  exists p', ini_put all_ok p (Some s) (Some k) (Some v) = Ret (0, p') /\
    ini_get p' (Some s') (Some k') (Some blk) size = Ret (0, Some (v ++ 0 :: zdrop (zlen v + 1) blk)).
Proof.
  intros p m s k v s' k' blk size H Ns Nk Ts Tk Tv Ls Lk Lv Ss Sk Hs.
  destruct (put_hist p m s k v H Ns Nk Ts Tk Tv Ls Lk Lv) as (p' & E & Hp). unfold ini_handler_cb in E.
  destruct (ini_put all_ok p (Some s) (Some k) (Some v)) as [[c q]| | |]; cbn [bind] in E; try discriminate. injection E as Ec ->.
  exists p'. split; [f_equal; f_equal; unfold SUCCEED in Ec; lia|]. pose proof (zlen_nonneg v).
  rewrite (get_ok p' (m_put m s k v)) by (try (apply hist_inv; exact Hp); lia). unfold sp_get.
  pose proof (m_get_put m s k v s' k') as G. rewrite Ss, Sk in G. cbn [andb] in G. unfold m_get in G.
  apply same_len in Ss, Sk. destruct s as [|c0 s]; [congruence|]. destruct k as [|d0 k]; [congruence|]. rewrite zlen_cons in Ss, Sk.
  pose proof (zlen_nonneg s). pose proof (zlen_nonneg k).
  destruct s' as [|c1 s']; [change (zlen (@nil Z)) with 0 in Ss; lia|]. destruct k' as [|d1 k']; [change (zlen (@nil Z)) with 0 in Sk; lia|].
  destruct (assoc (c1 :: s') _) as [l|]; [|discriminate]. rewrite G. destruct (Z.eqb_spec size 0); [lia|]. destruct (Z.leb_spec size (zlen v)); [lia|]. reflexivity.
Qed.
(** numbers written as decimal text read back exactly *)
Theorem C37_numbers_read_back : forall (p : ini) (m : mini) (s k : list Z) (n : Z), hist p m -> s <> [] -> k <> [] ->
  m_get m s k = Some (dec_long n) ->
  (-9223372036854775808 <= n <= 9223372036854775807 -> ini_get_long p (Some s) (Some k) = Ret (0, Some n)) /\
  (-2147483648 <= n <= 2147483647 -> ini_get_int p (Some s) (Some k) = Ret (0, Some n)) /\
  (-2147483648 <= n <= 2147483647 -> ini_get_bool p (Some s) (Some k) = Ret (0, Some (negb (n =? 0)))).
Proof.
  intros p m s k n H Ns Nk G. assert (T : text (dec_long n)).
  { unfold text. pose proof (dec_long_c n) as C. unfold StrParamsSpec.cstring in C. revert C. apply Forall_impl. intros a. lia. }
  pose proof (hist_inv _ _ H) as I. split; [|split].
  - intro Hn. apply (get_number (fun x => x) p m s k n I Ns Nk Hn G T).
  - intro Hn. unfold ini_get_int. rewrite (get_number _ p m s k n I Ns Nk ltac:(unfold is_long; lia) G T). f_equal. f_equal. f_equal.
    unfold s32. assert ((n + two31) mod two32 = n + two31) as -> by (apply Z.mod_small; unfold two31, two32; lia). lia.
  - intro Hn. assert (L : is_long n) by (unfold is_long; lia). pose proof (dec_long_len n L) as LL.
    destruct (get_value p m s k (dec_long n) I Ns Nk G T ltac:(lia)) as (blk & E & C). unfold ini_get_bool. rewrite E. cbn [bind].
    change (negb (0 =? SUCCEED)) with false. cbn iota. rewrite C. cbn [bind].
    destruct (Z.eqb_spec (zlen (dec_long n)) 0) as [Z0|_]; [apply zlen_0_nil in Z0; exfalso; exact (dec_long_ne n Z0)|].
    assert (W : forall w r, lower w <> lower 45 -> ~ (48 <= lower w <= 57) -> starts_nocase (w :: r) (dec_long n) = false).
    { intros w r W1 W2. unfold starts_nocase. assert (D : exists c t, dec_long n = c :: t /\ (c = 45 \/ 48 <= c <= 57)).
      { unfold dec_long. destruct (Z.ltb_spec n 0); [eauto|]. destruct (decimal_ok n ltac:(lia)) as (D1 & _ & c & t & Ed & _).
        rewrite Ed in *. exists c, t. split; [reflexivity|]. right. inversion D1; subst; assumption. }
      destruct D as (c & t & -> & D). cbn [map starts_with].
      destruct (Z.eqb_spec (lower w) (lower c)) as [Eq|]; [|reflexivity]. exfalso.
      destruct D as [->|D]; [congruence|]. unfold lower in *. destruct (Z.leb_spec 65 c); cbn [andb] in *; lia. }
    rewrite !W by (cbn; lia). rewrite (strtol_long n L). cbn [fst snd]. rewrite Z.eqb_refl. f_equal. f_equal. f_equal. f_equal. f_equal.
    unfold s32. assert ((n + two31) mod two32 = n + two31) as -> by (apply Z.mod_small; unfold two31, two32; lia). lia.
Qed.
(** foreach shows every pair once, in order *)
Theorem C37_foreach_visits_everything_in_order : forall (p : ini) (m : mini), hist p m ->
  (forall C (cb : C -> list Z -> list Z -> list Z -> Z * C) (c : C), (forall c s k v, fst (cb c s k v) = 0) ->
     ini_foreach cb c p = fold_left (fun c x => snd (cb c (fst (fst x)) (snd (fst x)) (snd x))) (triples m) c) /\
  ini_foreach (fun seen s k v => (0, seen ++ [(s, k, v)])) [] p = triples m.
Proof.
  intros p m H. split; [intros; apply foreach_ok; [apply hist_inv|]; assumption|].
  rewrite (foreach_ok _ p m) by (try (apply hist_inv; exact H); reflexivity).
  assert (G : forall l acc, fold_left (fun (c : list (list Z * list Z * list Z)) x => snd (0, c ++ [(fst (fst x), snd (fst x), snd x)])) l acc = acc ++ l).
  { induction l as [|[[a b] c] l IH]; intro acc; cbn [fold_left]; [rewrite app_nil_r; reflexivity|]. rewrite IH. cbn [fst snd]. rewrite <- app_assoc. reflexivity. }
  apply G.
Qed.
(** a value that starts with true/yes or false/no in any case reads as that boolean *)
Theorem C37_boolean_words : forall (p : ini) (m : mini) (s k v w r : list Z), hist p m -> s <> [] -> k <> [] -> m_get m s k = Some v -> v = w ++ r ->
  (same w [116;114;117;101] = true \/ same w [121;101;115] = true -> ini_get_bool p (Some s) (Some k) = Ret (0, Some true)) /\
  (same w [102;97;108;115;101] = true \/ same w [110;111] = true -> ini_get_bool p (Some s) (Some k) = Ret (0, Some false)).
Proof.
  intros p m s k v w r H Ns Nk G Ev. pose proof (hist_inv _ _ H) as I.
  assert (TV : text v /\ zlen v <= 255).
  { unfold m_get in G. destruct (assoc s m) as [l|] eqn:E; [|discriminate]. apply assoc_Some in E as (a & s' & b & -> & _).
    apply assoc_Some in G as (a' & k' & b' & -> & _).
    assert (Im : In (s', a' ++ (k', v) :: b') (a ++ (s', a' ++ (k', v) :: b') :: b)) by (apply in_or_app; right; left; reflexivity).
    assert (Ik : In (k', v) (a' ++ (k', v) :: b')) by (apply in_or_app; right; left; reflexivity).
    split; [apply (proj2 (i_kv _ _ I _ Im) _ Ik)|]. apply (proj2 (hist_short _ _ H _ Im) _ Ik). }
  destruct TV as [T L]. destruct (get_value p m s k v I Ns Nk G T L) as (blk & E & C).
  assert (SW : forall x, same w x = true -> starts_nocase x v = true).
  { intros x Sx. rewrite same_lower in Sx. unfold strcase_eq in Sx. apply list_eqb_iff in Sx. unfold starts_nocase. rewrite Ev, map_app, <- Sx. apply starts_with_app. }
  assert (NS : forall x c c', (exists x', x = c :: x') -> (exists w', map lower w = lower c' :: w') -> lower c <> lower c' -> starts_nocase x v = false).
  { intros x c c' (x' & ->) (w' & Ew) N. unfold starts_nocase. rewrite Ev, map_app, Ew. cbn [map app starts_with]. destruct (Z.eqb_spec (lower c) (lower c')); [congruence|reflexivity]. }
  assert (W : forall x, same w x = true -> map lower w = map lower x).
  { intros x Sx. rewrite same_lower in Sx. apply list_eqb_iff. exact Sx. }
  assert (NZ : forall x, same w x = true -> x <> [] -> (zlen v =? 0) = false).
  { intros x Sx Nx. apply same_len in Sx. apply Z.eqb_neq. rewrite Ev, zlen_app. pose proof (zlen_nonneg r). destruct x as [|a x]; [congruence|]. rewrite zlen_cons in Sx. pose proof (zlen_nonneg x). lia. }
  unfold ini_get_bool. rewrite E. cbn [bind]. change (negb (0 =? SUCCEED)) with false. cbn iota. rewrite C. cbn [bind].
  split; (intros [Sx|Sx]; rewrite (NZ _ Sx) by discriminate; pose proof (W _ Sx) as Wx; cbn [map] in Wx).
  - rewrite (SW _ Sx). reflexivity.
  - rewrite (NS _ 116 121), (NS _ 102 121), (SW _ Sx) by (eauto; discriminate). reflexivity.
  - rewrite (NS _ 116 102), (SW _ Sx) by (eauto; discriminate). reflexivity.
  - rewrite (NS _ 116 110), (NS _ 102 110), (NS _ 121 110), (SW _ Sx) by (eauto; discriminate). reflexivity.
Qed.

(** what fails outside those conditions *)
(** deleting the section created last leaves the object unusable: every later lookup reads freed memory *)
Theorem C37_deleting_the_newest_section_refuted : forall (p : ini) (m : mini) (s : list Z), hist p m -> newest m s ->
  exists p', ini_del_section p (Some s) = Ret (0, p') /\
    forall (s' : list Z), s' <> [] -> (forall k blk size, ini_get p' (Some s') k blk size = Ub) /\
      (forall ok k v, k <> [] -> ini_put ok p' (Some s') (Some k) v = Ub) /\ (forall k, ini_del_key p' (Some s') (Some k) = Ub).
Proof.
  intros p m s H (m' & s0 & l & Em & Ss). pose proof (hist_inv _ _ H) as I. unfold ini_del_section.
  pose proof (i_last _ _ I) as L. assert (Ne : secs p <> []).
  { intro E. pose proof (i_abs _ _ I) as A. rewrite E, Em in A. destruct m'; discriminate. }
  destruct (last p) as [id|] eqn:El; [|congruence]. destruct L as (ls & x & Es & Ei).
  assert (Nx : sname x = s0).
  { pose proof (i_abs _ _ I) as A. rewrite Es, Em in A. unfold absl in A. rewrite map_app in A. cbn [map] in A. apply app_inj_tail in A as [_ A]. congruence. }
  assert (Ix : In x (secs p)) by (rewrite Es; apply in_or_app; right; left; reflexivity).
  destruct (lookup_ok all_ok p m s I) as [[A _]|(y & F & Iy & Sy & A & E)].
  { exfalso. rewrite assoc_None in A. specialize (A (s0, l)). rewrite Em in A. cbn [fst] in A.
    rewrite A in Ss; [discriminate|apply in_or_app; right; left; reflexivity]. }
  rewrite E. cbn [bind]. assert (y = x) as ->.
  { apply (name_inj (secs p)); try assumption; [rewrite (i_abs _ _ I); apply (i_keys _ _ I)|]. rewrite Nx, (same_trans s (sname y) s0 Sy). exact Ss. }
  eexists. split; [reflexivity|]. intros s' Ns.
  set (p' := mk_ini (filter (fun s1 => negb (sid s1 =? sid x)) (secs p)) (Some id) (pred p) (nid p)).
  assert (SA : sec_at id (secs p') = None).
  { cbn [p' secs]. pose proof (sec_at_ok id (filter (fun s1 => negb (sid s1 =? sid x)) (secs p))) as S.
    destruct (sec_at id _) as [z|]; [|reflexivity]. exfalso. destruct S as [Iz Ez]. apply filter_In in Iz as [_ Iz]. rewrite Ez, Ei, Z.eqb_refl in Iz. discriminate. }
  assert (SE : forall ok auto, search_target_section ok p' auto s' = Ub).
  { intros ok auto. unfold search_target_section. destruct (Z.eqb_spec (zlen s') 0) as [Z0|_]; [apply zlen_0_nil in Z0; congruence|].
    unfold p' at 1. cbn [last]. rewrite SA. reflexivity. }
  assert (Z1 : (zlen s' =? 0) = false) by (apply Z.eqb_neq; intro Z0; apply zlen_0_nil in Z0; congruence).
  split; [|split].
  - intros. unfold ini_get. rewrite Z1, SE. reflexivity.
  - intros ok k v Nk. unfold ini_put. destruct (Z.eqb_spec (zlen k) 0) as [Z0|_]; [apply zlen_0_nil in Z0; congruence|].
    destruct (Z.ltb_spec (zlen s') 1); [pose proof (zlen_nonneg s'); lia|]. rewrite SE. reflexivity.
  - intros. unfold ini_del_key. rewrite SE. reflexivity.
Qed.
(** a section name of 64 or more characters: the put reports success, the value can never be read *)
Theorem C37_long_section_names_refuted : forall (p : ini) (m : mini) (s k v : list Z), hist p m ->
  text s -> text k -> text v -> 63 < zlen s -> k <> [] ->
  exists p', ini_put all_ok p (Some s) (Some k) (Some v) = Ret (0, p') /\ ini_has_section p' (Some s) = Ret 4 /\
    (forall blk size, ini_get p' (Some s) (Some k) blk size = Ret (4, blk)) /\ zlen (secs p') = zlen (secs p) + 1.
Proof.
  intros p m s k v H Ts Tk Tv Ls Nk. pose proof (hist_inv _ _ H) as I. pose proof (hist_short _ _ H) as Sh.
  assert (FN : forall l, (forall x, In x l -> zlen (sname x) <= 63) -> find_sec s l = None).
  { intros l Hl. pose proof (find_sec_ok s l) as F. destruct (find_sec s l) as [x|]; [|reflexivity]. destruct F as (Ix & Sx & _). apply same_len in Sx. specialize (Hl x Ix). lia. }
  assert (SH : forall x, In x (secs p) -> zlen (sname x) <= 63).
  { intros x Ix. apply (Sh (sname x, kvs x)). rewrite <- (i_abs _ _ I). apply (in_map (fun s => (sname s, kvs s))). exact Ix. }
  assert (NZ : (zlen s =? 0) = false) by (apply Z.eqb_neq; lia).
  assert (W : winv p).
  { unfold winv. pose proof (i_last _ _ I) as L. destruct (last p) as [id|]; [|exact Logic.I]. destruct L as (l & x & -> & Ei). apply sec_at_last. exact Ei. }
  assert (SN : forall q, winv q -> (forall x, In x (secs q) -> zlen (sname x) <= 63) -> search_target_section all_ok q false s = Ret (None, q)).
  { intros q Wq Hq. destruct (search_weak all_ok q false s Wq Ts) as (t & q' & E & _ & Ht). revert E. unfold search_target_section. rewrite NZ.
    assert (match last q with None => Ret None | Some id => match sec_at id (secs q) with None => Ub | Some s0 => Ret (if strcase_eq s (sname s0) then Some id else None) end end = Ret None) as ->.
    { unfold winv in Wq. destruct (last q) as [id|]; [|reflexivity]. pose proof (sec_at_ok id (secs q)) as S. destruct (sec_at id (secs q)) as [x|]; [|congruence].
      destruct S as [Ix _]. rewrite <- same_lower. destruct (same s (sname x)) eqn:E; [|reflexivity]. apply same_len in E. specialize (Hq x Ix). lia. }
    cbn [bind]. rewrite FN by exact Hq. cbn [negb andb]. intros _. destruct (zlen (secs q) =? 0); reflexivity. }
  unfold ini_put. destruct (Z.eqb_spec (zlen k) 0) as [Z0|_]; [apply zlen_0_nil in Z0; congruence|]. destruct (Z.ltb_spec (zlen s) 1); [lia|].
  set (q := mk_ini (secs p ++ [mk_sec (nid p) (ztake 63 s) []]) (Some (nid p)) (u64 (pred p + (zlen s + 6))) (nid p + 1)).
  assert (E1 : search_target_section all_ok p true s = Ret (Some (nid p), q)).
  { unfold search_target_section. rewrite NZ.
    assert (match last p with None => Ret None | Some id => match sec_at id (secs p) with None => Ub | Some s0 => Ret (if strcase_eq s (sname s0) then Some id else None) end end = Ret None) as ->.
    { unfold winv in W. destruct (last p) as [id|]; [|reflexivity]. pose proof (sec_at_ok id (secs p)) as S. destruct (sec_at id (secs p)) as [x|]; [|congruence].
      destruct S as [Ix _]. rewrite <- same_lower. destruct (same s (sname x)) eqn:E; [|reflexivity]. apply same_len in E. specialize (SH x Ix). lia. }
    cbn [bind negb andb]. rewrite FN by exact SH. cbn [all_ok ok_sec ok_list ok_snode negb]. rewrite strlcpy_arr_ok by (try exact Ts; reflexivity). cbn [bind]. reflexivity. }
  rewrite E1. cbn [bind]. assert (KA : kvs_at (nid p) q = Ret []).
  { unfold kvs_at. cbn [q secs]. pose proof (i_fresh _ _ I) as Fr. clear - Fr. induction (secs p) as [|x l IH]; cbn [app sec_at sid kvs].
    - rewrite Z.eqb_refl. reflexivity.
    - specialize (Fr x (or_introl eq_refl)) as Fx. destruct (Z.eqb_spec (sid x) (nid p)); [lia|]. apply IH. intros y Iy. apply Fr. right. exact Iy. }
  rewrite KA. cbn [bind]. rewrite strlcpy_arr_ok by (try exact Tv; reflexivity). cbn [bind find_kv all_ok ok_kv negb].
  rewrite strlcpy_arr_ok by (try exact Tk; reflexivity). cbn [bind ok_knode].
  eexists. split; [reflexivity|]. set (q2 := upd_sec _ _ q).
  assert (W2 : winv q2) by (apply winv_upd; unfold winv; cbn [q last secs]; apply sec_at_last; reflexivity).
  assert (SH2 : forall x, In x (secs q2) -> zlen (sname x) <= 63).
  { intros x Ix. unfold q2, upd_sec in Ix. cbn [secs] in Ix. apply in_map_iff in Ix as (y & <- & Iy).
    assert (zlen (sname y) <= 63).
    { cbn [q secs] in Iy. apply in_app_or in Iy as [Iy|[<-|[]]]; [auto|]. cbn [sname]. unfold ztake. unfold zlen. rewrite firstn_length. lia. }
    destruct (sid y =? nid p); exact H1. }
  specialize (SN q2 W2 SH2). split; [|split].
  - unfold ini_has_section, ini_has_key, ini_get. rewrite NZ, SN. reflexivity.
  - intros. unfold ini_get. rewrite NZ, SN. reflexivity.
  - unfold q2, upd_sec. cbn [secs q]. unfold zlen. rewrite map_length, app_length. cbn [length]. lia.
Qed.
(** a value of 256 or more characters is stored without its tail, and the call still reports success *)
Theorem C37_long_values_refuted : forall (ok : oks) (p : ini) (s k : option (list Z)) (v : list Z), text v ->
  ini_put ok p s k (Some v) = ini_put ok p s k (Some (ztake 255 v)).
Proof.
  intros ok p s k v T. unfold ini_put. destruct k as [k|]; [|reflexivity]. destruct (zlen k =? 0); [reflexivity|]. destruct s as [s|]; [|reflexivity].
  destruct (zlen s <? 1); [reflexivity|]. destruct (search_target_section ok p true s) as [[t q]| | |]; cbn [bind]; try reflexivity. destruct t as [id|]; [|reflexivity].
  destruct (kvs_at id q); cbn [bind]; try reflexivity. rewrite (strlcpy_arr_ok INI_VALUE_STACK_SIZE v T eq_refl), (strlcpy_arr_ok INI_VALUE_STACK_SIZE (ztake 255 v) (text_take _ _ T) eq_refl).
  change (INI_VALUE_STACK_SIZE - 1) with 255. rewrite (ztake_all 255 (ztake 255 v)); [reflexivity|]. unfold ztake, zlen. rewrite firstn_length. lia.
Qed.
(** a NULL section crashes put; an int too large for int reads as another number with success; ending a foreach
    only ends the current section *)
Theorem C37_other_corners_refuted :
  (forall ok p k v, k <> [] -> ini_put ok p None (Some k) v = Ub) /\
  (exists p, ini_put all_ok ini_new (Some [97]) (Some [98]) (Some (dec_long 4294967297)) = Ret (0, p) /\ ini_get_int p (Some [97]) (Some [98]) = Ret (0, Some 1)) /\
  (exists p m, hist p m /\ zlen (triples m) = 3 /\ ini_foreach (fun seen s k v => (1, seen ++ [(s, k)])) [] p = [([97], [98]); ([99], [100])]).
Proof.
  split; [|split].
  - intros ok p k v N. unfold ini_put. destruct (Z.eqb_spec (zlen k) 0) as [Z0|_]; [apply zlen_0_nil in Z0; congruence|reflexivity].
  - remember (ini_put all_ok ini_new (Some [97]) (Some [98]) (Some (dec_long 4294967297))) as x eqn:E. vm_compute in E. subst x. eexists. split; [reflexivity|]. vm_compute. reflexivity.
  - destruct (put_hist ini_new [] [97] [98] [49]) as (p1 & _ & H1); try discriminate; try (repeat constructor; lia); try (vm_compute; discriminate); try constructor.
    destruct (put_hist p1 _ [97] [101] [49] H1) as (p2 & _ & H2); try discriminate; try (repeat constructor; lia); try (vm_compute; discriminate).
    destruct (put_hist p2 _ [99] [100] [49] H2) as (p3 & _ & H3); try discriminate; try (repeat constructor; lia); try (vm_compute; discriminate).
    exists p3, (m_put (m_put (m_put [] [97] [98] [49]) [97] [101] [49]) [99] [100] [49]). split; [exact H3|]. split; [reflexivity|].
    pose proof (i_abs _ _ (hist_inv _ _ H3)) as A. unfold ini_foreach. destruct p3 as [l la pr ni]. cbn [secs] in *. 
    change (m_put (m_put (m_put [] [97] [98] [49]) [97] [101] [49]) [99] [100] [49]) with [([97], [([98], [49]); ([101], [49])]); ([99], [([100], [49])])] in A.
    destruct l as [|[i1 n1 k1] [|[i2 n2 k2] [|]]]; try discriminate. cbn in A. injection A as -> -> -> ->. reflexivity.
Qed.
Print Assumptions C37_every_history_answers_like_the_map.
Print Assumptions C37_put_then_get.
Print Assumptions C37_numbers_read_back.
Print Assumptions C37_foreach_visits_everything_in_order.
Print Assumptions C37_deleting_the_newest_section_refuted.
Print Assumptions C37_long_section_names_refuted.

(** C38. Reading: for every text, every handler, the calls the reader makes are those of the line-by-line meaning in
    IniReaderSpec (200-byte line buffer and 50-byte name buffers included); in particular nothing outside the buffers
    is read or written. *)
Theorem C38_the_reader_follows_the_line_meanings : forall (U : Type) (h : ini_handler U) (junk t : list Z) (u : U),
  zlen junk = 200 -> text t -> zlen t < two31 -> ini_reader_parse_string h junk t u = sp_parse h t u.
Proof. intros. apply parse_string_ok; assumption. Qed.
(** parsing any text, with any allocation failing, is defined *)
Theorem C38_parsing_any_text_is_defined : forall (ok1 ok2 : bool) (ok : oks) (junk : list Z) (content : option (list Z)),
  zlen junk = 200 -> match content with Some t => text t /\ zlen t < two31 | None => True end ->
  exists r, ini_parse_str ok1 ok2 ok junk content = Ret r.
Proof. exact parse_total. Qed.
(** dumping, with any allocation failing, is defined; when memory suffices the text is exactly the sections in order *)
Theorem C38_dump_is_defined : forall al1 al2 (al : Z -> allocator) (ok : bool) (p : ini) (m : mini), hist p m ->
  sane al1 -> sane al2 -> (forall n, sane (al n)) -> exists r, ini_dump al1 al2 al ok p = Ret r.
Proof.
  intros al1 al2 al ok p m H S1 S2 S3. unfold ini_dump, pri_dump_ini.
  assert (0 <= u64 (pred p + 64)) as H0 by (unfold u64; apply Z.mod_pos_bound; reflexivity).
  destruct (create_ok al1 al2 _ S1 S2 H0) as [->|(sb & -> & Hh)]; [cbn [bind]; eauto|]. cbn [bind].
  destruct (dump_secs_ok al 0 S3 (secs p) sb 0 [] (sec_text_of p m (hist_inv _ _ H) (hist_short _ _ H)) Hh) as (sb' & r & t' & -> & H' & T' & _); [constructor|].
  cbn [bind]. destruct (r =? 0); cbn [negb bind]; [|eauto]. rewrite (holds_cstr sb' t' H' T'). cbn [bind]. destruct ok; eauto.
Qed.
Lemma hist_dump_text p m : hist p m -> text (dump_text m).
Proof.
  intro H. pose proof (hist_inv _ _ H) as I. pose proof (i_names _ _ I) as N. pose proof (i_kv _ _ I) as K. clear H I.
  induction m as [|[s l] m IH]; [constructor|]. unfold dump_text in *. cbn [flat_map]. apply text_app. split; [|apply IH; intros x Ix; [apply N|apply K]; right; exact Ix].
  destruct (N _ (or_introl eq_refl)) as [_ Ts]. destruct (K _ (or_introl eq_refl)) as [_ Kl]. cbn [fst snd] in *. unfold section_text. cbn [fst snd].
  apply text_cons'; [lia|]. apply text_app. split; [exact Ts|]. repeat (apply text_cons'; [lia|]). apply text_app. split; [|repeat constructor; lia].
  clear - Kl. induction l as [|kv l IH]; [constructor|]. cbn [flat_map]. apply text_app. split; [|apply IH; intros x Ix; apply Kl; right; exact Ix].
  destruct (Kl _ (or_introl eq_refl)) as (_ & A & B). apply line_text; assumption.
Qed.
Theorem C38_dump_text_is_exact : forall al1 al2 (al : Z -> allocator) (p : ini) (m : mini), hist p m ->
  sane al1 -> sane al2 -> (forall n, sane (al n)) -> sb_create al1 al2 (u64 (pred p + 64)) <> Ret None ->
  (forall n, serves (al n) (2 * (zlen (dump_text m) + 1))) -> zlen (dump_text m) + 1 < 9223372036854775808 ->
  ini_dump al1 al2 al true p = Ret (Some (dump_text m)) /\
  (forall mem mem_size, u64 (pred p + 64) <= mem_size <= zlen mem -> m <> [] ->
     ini_dump_to_mem al1 al2 al p mem mem_size =
     Ret (if mem_size <? zlen (dump_text m) + 1 then (3, mem, mem_size) else (0, dump_text m ++ 0 :: zdrop (zlen (dump_text m) + 1) mem, zlen (dump_text m) + 1))).
Proof.
  intros al1 al2 al p m H S1 S2 S3 C SV LB.
  destruct (pri_dump_serves al1 al2 al p m (hist_inv _ _ H) (hist_short _ _ H) S1 S2 S3 C SV LB) as (sb & E & Hh).
  pose proof (holds_cstr sb _ Hh (hist_dump_text p m H)) as Cs. split.
  - unfold ini_dump. rewrite E. cbn [bind]. rewrite Cs. reflexivity.
  - intros mem sz Hs Nm. unfold ini_dump_to_mem. destruct (Z.ltb_spec sz (u64 (pred p + 64))); [lia|]. rewrite E. cbn [bind]. rewrite Cs. cbn [bind].
    destruct (Z.eqb_spec (zlen (dump_text m)) 0) as [Z0|_].
    { apply zlen_0_nil in Z0. destruct m as [|[s l] m]; [congruence|]. discriminate. }
    destruct (Z.ltb_spec sz (zlen (dump_text m) + 1)); [reflexivity|]. pose proof (zlen_nonneg (dump_text m)).
    assert (Hl : zlen (dump_text m ++ [0]) = zlen (dump_text m) + 1) by (rewrite zlen_app; reflexivity).
    rewrite mwrite_ok by lia. cbn [bind]. unfold zwrite. rewrite ztake_0, Hl. cbn [app]. rewrite <- app_assoc. reflexivity.
Qed.
(** the round trip: same sections, keys and values in the same order, and every later read agrees *)
Theorem C38_dump_then_parse_gives_the_same_object : forall al1 al2 (al : Z -> allocator) (junk : list Z) (p : ini) (m : mini), hist p m -> plain m ->
  sane al1 -> sane al2 -> (forall n, sane (al n)) -> sb_create al1 al2 (u64 (pred p + 64)) <> Ret None ->
  (forall n, serves (al n) (2 * (zlen (dump_text m) + 1))) -> zlen (dump_text m) < two31 -> zlen junk = 200 ->
  exists t p', ini_dump al1 al2 al true p = Ret (Some t) /\ ini_parse_str true true all_ok junk (Some t) = Ret (Some p') /\ hist p' m /\
    (forall s k blk size, 0 <= size -> match blk with Some b => size <= zlen b | None => True end -> ini_get p' s k blk size = ini_get p s k blk size) /\
    (forall C (cb : C -> list Z -> list Z -> list Z -> Z * C) c, ini_foreach cb c p' = ini_foreach cb c p).
Proof.
  intros al1 al2 al junk p m H P S1 S2 S3 C SV LB LJ.
  destruct (C38_dump_text_is_exact al1 al2 al p m H S1 S2 S3 C SV) as [E _]; [unfold two31 in LB; lia|].
  destruct (round_trip junk m P LJ LB) as (p' & E' & H'). exists (dump_text m), p'. split; [exact E|]. split; [exact E'|]. split; [exact H'|]. split.
  - intros s k blk size H0 Hb. rewrite (get_ok p m) by (try (apply hist_inv; exact H); assumption). apply get_ok; [apply hist_inv; exact H'|exact H0|exact Hb].
  - intros A cb c. unfold ini_foreach. pose proof (i_abs _ _ (hist_inv _ _ H)) as A1. pose proof (i_abs _ _ (hist_inv _ _ H')) as A2. rewrite <- A2 in A1.
    revert c A1. generalize (secs p). generalize (secs p'). induction l as [|s l IH]; intros [|s2 l2] c A1; try discriminate; [reflexivity|].
    cbn [absl map] in A1. injection A1 as En Ek El. cbn [fold_left]. rewrite <- En, <- Ek. symmetry. rewrite En, Ek. rewrite (IH l2); [reflexivity|exact El].
Qed.

(** what does not survive *)
Definition one (s k v : list Z) : mini := [(s, [(k, v)])].
Definition reads (t : list Z) : outcome (option (list (list Z * list Z * list Z))) :=
  do r <- ini_parse_str true true all_ok (repeat 7 200) (Some t);
  match r with Some p => Ret (Some (ini_foreach (fun seen s k v => (0, seen ++ [(s, k, v)])) [] p)) | None => Ret None end.
Theorem C38_other_objects_refuted :
  (* a value containing " ;" loses its tail, one starting with ';' is read as empty *)
  reads (dump_text (one [97] [98] [99; 32; 59; 100])) = Ret (Some [([97], [98], [99])]) /\
  reads (dump_text (one [97] [98] [59; 100])) = Ret (Some [([97], [98], [])]) /\
  (* a section without keys disappears *)
  reads (dump_text [([97], [])]) = Ret (Some []) /\
  (* a section name of 50 characters loses its last one *)
  reads (dump_text (one (repeat 97 50) [98] [99])) = Ret (Some [(repeat 97 49, [98], [99])]) /\
  (* a line longer than 199 characters is split and the rest makes the parse fail or becomes another key *)
  reads (dump_text (one [97] [98] (repeat 99 200))) = Ret (Some [([97], [98], repeat 99 195); ([97], repeat 99 5, [])]) /\
  (* an indented line replaces the value of the key before it *)
  reads [91; 97; 93; 10; 98; 61; 99; 10; 32; 100; 10] = Ret (Some [([97], [98], [100])]) /\
  (* a key before any section header makes the whole parse fail *)
  reads [98; 61; 99; 10; 91; 97; 93; 10] = Ret None.
Proof. do 6 (split; [vm_compute; reflexivity|]). vm_compute. reflexivity. Qed.
(** the header of a section is silently left out when its append fails: the pairs then belong to the section before *)
Definition al_first_fails (n : Z) : allocator := fun k => if (n =? 0) || (k <? 0) || (100 <? k) then None else Some (repeat 7 (Z.to_nat k)).
Theorem C38_dump_ignores_failed_header_refuted : exists (p : ini) (m : mini) (sb : sbuilder),
  hist p m /\ (forall n, sane (al_first_fails n)) /\ sb_create (al_first_fails 1) (al_first_fails 1) 2 = Ret (Some sb) /\
  exists sb', dump_secs al_first_fails sb 0 (secs p) = Ret (sb', 0) /\ cstr_at (sb_buf sb') 0 = Ret ([98; 32; 61; 32; 49; 13; 10] ++ [13; 10]).
Proof.
  assert (PH : exists p', ini_handler_cb all_ok ini_new [97] [98] (Some [49]) = Ret (true, p') /\ hist p' (m_put [] [97] [98] [49])).
  { apply put_hist; try discriminate; try (repeat constructor; lia); try (vm_compute; discriminate); try constructor. }
  destruct PH as (p1 & E1 & H1).
  remember (sb_create (al_first_fails 1) (al_first_fails 1) 2) as x eqn:E. vm_compute in E.
  match type of E with _ = Ret (Some ?b) => exists p1, (m_put [] [97] [98] [49]), b end. subst x.
  split; [exact H1|]. split; [|split; [reflexivity|]].
  - intros n k b. unfold al_first_fails. destruct (Z.eqb_spec n 0); [discriminate|]. destruct (Z.ltb_spec k 0), (Z.ltb_spec 100 k); cbn [orb]; try discriminate.
    intro E. injection E as <-. unfold zlen. rewrite repeat_length. lia.
  - vm_compute in E1. injection E1 as <-. remember (dump_secs _ _ _ _) as y eqn:E. vm_compute in E. subst y. eexists. split; [reflexivity|]. vm_compute. reflexivity.
Qed.

(** a concrete object meeting the hypotheses of the round trip: two sections, three pairs *)
Definition ex_mini : mini := [([110; 101; 116], [([104; 111; 115; 116], [108; 111; 99; 97; 108; 32; 49]); ([112], [])]); ([76; 111; 103], [([76; 118; 108], [51])])].
Lemma isspace_dec_lemma t : forallb (fun i => negb (isspace (nth i t 0) && (nth (S i) t 0 =? 59))) (seq 0 (length t)) = true -> no_comment t.
Proof.
  intros F a x b E. rewrite forallb_forall in F. specialize (F (length a)). rewrite E in F.
  assert (N1 : nth (length a) (a ++ x :: 59 :: b) 0 = x) by (rewrite app_nth2 by lia; rewrite Nat.sub_diag; reflexivity).
  assert (N2 : nth (S (length a)) (a ++ x :: 59 :: b) 0 = 59) by (rewrite app_nth2 by lia; replace (S (length a) - length a)%nat with 1%nat by lia; reflexivity).
  rewrite N1, N2 in F. destruct (isspace x); [|reflexivity]. exfalso.
  assert (I : In (length a) (seq 0 (length (a ++ x :: 59 :: b)))) by (apply in_seq; rewrite app_length; cbn [length]; lia). specialize (F I). discriminate.
Qed.
Lemma ends_lemma t : isspace (hd 65 t) = false -> isspace (List.last t 65) = false -> no_space_ends t.
Proof.
  intros A B. split.
  - intros c r ->. exact A.
  - intros c r ->. rewrite last_last in B. exact B.
Qed.
Example C38_ex_plain : plain ex_mini.
Proof.
  assert (NT : forall t, forallb (fun c => negb (c =? 0)) t = true -> text t).
  { intros t F. unfold text. apply Forall_forall. intros c Ic. rewrite forallb_forall in F. specialize (F c Ic). destruct (Z.eqb_spec c 0); [discriminate|]. congruence. }
  split; [repeat constructor; cbn; intuition discriminate|]. unfold ex_mini.
  assert (PS : forall s, s <> [] -> forallb (fun c => negb (c =? 0) && negb (c =? 10) && negb (c =? 93)) s = true -> zlen s <= 49 ->
     forallb (fun i => negb (isspace (nth i s 0) && (nth (S i) s 0 =? 59))) (seq 0 (length s)) = true -> plain_section s).
  { intros s N F L C. rewrite forallb_forall in F. assert (NI : forall c, In c s -> c <> 0 /\ c <> 10 /\ c <> 93).
    { intros c Ic. specialize (F c Ic). destruct (Z.eqb_spec c 0), (Z.eqb_spec c 10), (Z.eqb_spec c 93); try discriminate. auto. }
    split; [exact N|]. split; [apply Forall_forall; intros c Ic; apply NI; exact Ic|]. split; [exact L|]. split; [intro I; apply NI in I; lia|]. split; [intro I; apply NI in I; lia|].
    apply isspace_dec_lemma. exact C. }
  assert (PP : forall k v, k <> [] -> forallb (fun c => negb (c =? 0) && negb (c =? 10) && negb (c =? 61) && negb (c =? 58)) k = true ->
     forallb (fun c => negb (c =? 0) && negb (c =? 10)) v = true -> zlen k <= 63 -> zlen k + zlen v <= 194 ->
     forallb (fun i => negb (isspace (nth i k 0) && (nth (S i) k 0 =? 59))) (seq 0 (length k)) = true ->
     forallb (fun i => negb (isspace (nth i (32 :: v) 0) && (nth (S i) (32 :: v) 0 =? 59))) (seq 0 (length (32 :: v))) = true ->
     isspace (hd 65 k) = false -> isspace (List.last k 65) = false -> isspace (hd 65 v) = false -> isspace (List.last v 65) = false ->
     (hd 65 k <> 59 /\ hd 65 k <> 35 /\ hd 65 k <> 91) -> plain_pair (k, v)).
  { intros k v N F G L1 L2 C1 C2 A B A' B' HD. rewrite forallb_forall in F, G.
    assert (NI : forall c, In c k -> c <> 0 /\ c <> 10 /\ c <> 61 /\ c <> 58).
    { intros c Ic. specialize (F c Ic). destruct (Z.eqb_spec c 0), (Z.eqb_spec c 10), (Z.eqb_spec c 61), (Z.eqb_spec c 58); try discriminate. auto. }
    assert (NV : forall c, In c v -> c <> 0 /\ c <> 10).
    { intros c Ic. specialize (G c Ic). destruct (Z.eqb_spec c 0), (Z.eqb_spec c 10); try discriminate. auto. }
    split; [exact N|]. split; [apply Forall_forall; intros c Ic; apply NI; exact Ic|]. split; [apply Forall_forall; intros c Ic; apply NV; exact Ic|].
    split; [exact L1|]. split; [exact L2|]. split; [intro I; apply NI in I; lia|]. split; [intro I; apply NI in I; lia|]. split; [intro I; apply NI in I; lia|].
    split; [apply isspace_dec_lemma; exact C1|]. split; [apply ends_lemma; assumption|]. split; [intros c r ->; exact HD|].
    split; [intro I; apply NV in I; lia|]. split; [apply isspace_dec_lemma; exact C2|apply ends_lemma; assumption]. }
  assert (DI : forall (x y : list Z), same x y = false -> map up x <> map up y) by (intros x y S E; apply same_iff in E; congruence).
  constructor; [|constructor; [|constructor]]; cbn [fst snd].
  - split; [apply PS; try discriminate; reflexivity|]. split; [discriminate|]. split.
    + unfold distinct. cbn [map fst]. constructor; [|repeat constructor; intros []]. intros [E|[]]. discriminate.
    + constructor; [|constructor; [|constructor]]; (apply PP; try discriminate; try reflexivity; cbn; lia).
  - split; [apply PS; try discriminate; reflexivity|]. split; [discriminate|]. split.
    + unfold distinct. cbn [map fst]. repeat constructor. intros [].
    + constructor; [|constructor]. apply PP; try discriminate; try reflexivity; cbn; lia.
Qed.
Example C38_ex_reachable : exists p, hist p ex_mini.
Proof.
  destruct (round_trip (repeat 7 200) ex_mini C38_ex_plain) as (p & _ & H); [reflexivity|vm_compute; reflexivity|]. exists p. exact H.
Qed.
Print Assumptions C38_the_reader_follows_the_line_meanings.
Print Assumptions C38_parsing_any_text_is_defined.
Print Assumptions C38_dump_text_is_exact.
Print Assumptions C38_dump_then_parse_gives_the_same_object.
Print Assumptions C38_other_objects_refuted.

Print Assumptions C37_get_reads_the_map.
Print Assumptions C37_has_section_and_key.
Print Assumptions C37_last_put_wins.
Print Assumptions C37_boolean_words.
Print Assumptions C37_long_values_refuted.
Print Assumptions C37_other_corners_refuted.
Print Assumptions C38_dump_is_defined.
Print Assumptions C38_dump_ignores_failed_header_refuted.

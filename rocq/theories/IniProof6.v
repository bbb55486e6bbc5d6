From Verif Require Import CBase CStr SeqLib FileModel IniReaderModel IniReaderSpec IniReaderProof IniReaderProof2 StringsModel StrParamsModel StrParamsProof IniModel IniSpec IniProof IniProof2 IniProof3 IniProof4 IniProof5.

(** ** any text, any allocation failures: parsing is defined *)
Lemma text_until stop t w : text t -> text (until stop w t).
Proof. intro T. destruct (until_split stop t w) as [x E]. rewrite E in T. apply text_app in T. apply T. Qed.
Lemma text_drop n t : text t -> text (zdrop n t).
Proof.
  intro T. unfold text, zdrop in *. rewrite <- (firstn_skipn (Z.to_nat n) t) in T. apply Forall_app in T. apply T.
Qed.
Lemma text_take n t : text t -> text (ztake n t).
Proof.
  intro T. unfold text, ztake in *. rewrite <- (firstn_skipn (Z.to_nat n) t) in T. apply Forall_app in T. apply T.
Qed.
Lemma meaning_text first prev t : text t -> match meaning_of first prev t with
  | MCont v => text v | MSection s => text s | MPair k v => text k /\ text v | MName k => text k | _ => True end.
Proof.
  intro T. unfold meaning_of. set (t0 := rtrim (if first && starts_with [239; 187; 191] t then zdrop 3 t else t)).
  assert (T0 : text t0) by (unfold t0; apply text_rtrim; destruct (_ && _); [apply text_drop|]; exact T). clearbody t0.
  pose proof (text_skip _ T0) as Ts. destruct (skip_space t0) as [|c s']; [exact I|]. destruct (inset c [59; 35]); [exact I|].
  destruct (prev && _); [apply text_rtrim, text_until; exact Ts|]. destruct (c =? 91).
  - apply text_cons in Ts as [_ Ts]. destruct (rest_of s' _) as [|d r]; [exact I|]. destruct (d =? 93); [|exact I]. apply text_until. exact Ts.
  - pose proof (text_until [61; 58] _ false Ts) as Tk. unfold rest_of.
    pose proof (text_drop (zlen (until [61; 58] false (c :: s'))) _ Ts) as Td. destruct (zdrop _ (c :: s')) as [|d v]; [apply text_rtrim; exact Tk|].
    destruct (inset d [61; 58]); [|apply text_rtrim; exact Tk]. split; [apply text_rtrim; exact Tk|]. apply text_rtrim, text_skip, text_until. apply text_cons in Td. apply Td.
Qed.
Section Total.
Context {U : Type} (h : ini_handler U) (P : U -> Prop).
Hypothesis hP : forall u s k v, P u -> text s -> text k -> match v with Some v => text v | None => True end -> exists ok u', h u s k v = Ret (ok, u') /\ P u'.
Definition Q (q : sp_rd U) : Prop := text (q_section q) /\ text (q_prev q) /\ P (q_user q).
Lemma sp_line_total q lineno t : Q q -> text t -> exists q', sp_line h q lineno t = Ret q' /\ Q q'.
Proof.
  intros (A & B & C) T. unfold sp_line. pose proof (meaning_text (lineno =? 1) (negb (zlen (q_prev q) =? 0)) t T) as M.
  destruct (meaning_of _ _ t) as [|v|s| |k v|k].
  - exists q. split; [reflexivity|]. repeat split; assumption.
  - destruct (hP (q_user q) (q_section q) (q_prev q) (Some v) C A B M) as (ok & u' & -> & C'). cbn [bind]. eexists. split; [reflexivity|]. repeat split; assumption.
  - eexists. split; [reflexivity|]. repeat split; cbn; try assumption; [apply text_take; exact M|constructor].
  - eexists. split; [reflexivity|]. repeat split; assumption.
  - destruct M as [M1 M2]. destruct (hP (q_user q) (q_section q) k (Some v) C A M1 M2) as (ok & u' & -> & C'). cbn [bind]. eexists. split; [reflexivity|].
    repeat split; cbn; try assumption. apply text_take. exact M1.
  - destruct (q_error q =? 0); [|exists q; split; [reflexivity|]; repeat split; assumption].
    destruct (hP (q_user q) (q_section q) k None C A M I) as (ok & u' & -> & C'). cbn [bind]. eexists. split; [reflexivity|]. repeat split; assumption.
Qed.
Lemma sp_stream_total : forall f q lineno t, (length t <= f)%nat -> Q q -> text t -> exists e u, sp_stream f h q lineno t = Ret (e, u) /\ P u.
Proof.
  induction f as [|f IH]; intros q lineno t L Hq T; (destruct t as [|c t0] eqn:Et; [cbn [sp_stream]; exists (q_error q), (q_user q); split; [reflexivity|apply Hq]|]).
  - cbn in L. lia.
  - cbn [sp_stream]. clear t Et. set (t := c :: t0) in *. assert (N : t <> []) by discriminate.
    pose proof (piece_split 199 t) as Sp. pose proof (piece_nonempty 198 t N) as Pn. destruct (piece 199 t) as [a b] eqn:Ep.
    change (fst (a, b) <> []) in Pn. cbn [fst snd] in *. assert (Tab : text a /\ text b) by (apply text_app; rewrite <- Sp; exact T).
    destruct (sp_line_total q (lineno + 1) a Hq (proj1 Tab)) as (q' & -> & Hq'). cbn [bind]. apply IH; [|exact Hq'|apply Tab].
    apply (f_equal (@length Z)) in Sp. rewrite app_length in Sp. destruct a; [congruence|]. cbn [length] in Sp. lia.
Qed.
Lemma sp_parse_total t u : text t -> P u -> exists e u', sp_parse h t u = Ret (e, u') /\ P u'.
Proof. intros T Hu. apply sp_stream_total; [lia| |exact T]. repeat split; try constructor. exact Hu. Qed.
End Total.

Definition winv (p : ini) : Prop := match last p with None => True | Some id => sec_at id (secs p) <> None end.
Lemma sec_at_app id a b : sec_at id a <> None -> sec_at id (a ++ b) <> None.
Proof. induction a as [|s a IH]; [intro H; cbn in H; congruence|]. cbn [app sec_at]. destruct (sid s =? id); [discriminate|exact IH]. Qed.
Lemma sec_at_last id a s : sid s = id -> sec_at id (a ++ [s]) <> None.
Proof.
  intro E. induction a as [|x a IH]; cbn [app sec_at].
  - rewrite E, Z.eqb_refl. discriminate.
  - destruct (sid x =? id); [discriminate|exact IH].
Qed.
Lemma search_weak ok p auto name : winv p -> text name -> exists t p', search_target_section ok p auto name = Ret (t, p') /\ winv p' /\
  match t with Some id => sec_at id (secs p') <> None | None => True end.
Proof.
  intros W T. unfold search_target_section. destruct (zlen name =? 0); [exists None, p; auto|].
  unfold winv in W. assert (exists hit, match last p with None => Ret None | Some id => match sec_at id (secs p) with None => Ub | Some s => Ret (if strcase_eq name (sname s) then Some id else None) end end = Ret hit /\
    match hit with Some id => sec_at id (secs p) <> None | None => True end) as (hit & -> & Hh).
  { destruct (last p) as [id|]; [|exists None; auto]. destruct (sec_at id (secs p)) as [s|] eqn:E; [|congruence].
    destruct (strcase_eq name (sname s)); eexists; (split; [reflexivity|]); [cbv iota beta; congruence|exact I]. }
  cbn [bind]. destruct hit as [id|]; [exists (Some id), p; auto|].
  destruct (negb auto && (zlen (secs p) =? 0)); [exists None, p; auto|].
  pose proof (find_sec_ok name (secs p)) as F. destruct (find_sec name (secs p)) as [s|].
  { exists (Some (sid s)), p. split; [reflexivity|]. split; [exact W|]. destruct F as (Is & _ & _). pose proof (sec_at_ok (sid s) (secs p)) as S.
    destruct (sec_at (sid s) (secs p)); [discriminate|]. exfalso. exact (S s Is eq_refl). }
  destruct auto; cbn [negb]; [|exists None, p; auto]. destruct (ok_sec ok); cbn [negb]; [|exists None, p; auto].
  destruct (ok_list ok); cbn [negb]; [|exists None, p; auto]. rewrite strlcpy_arr_ok by (try exact T; reflexivity). cbn [bind].
  destruct (ok_snode ok); cbn [negb]; [|exists None, p; auto]. eexists _, _. split; [reflexivity|]. unfold winv. cbn [secs last].
  split; apply sec_at_last; reflexivity.
Qed.
Lemma sec_at_updl id id' f l : sec_at id l <> None -> sec_at id (updl id' f l) <> None.
Proof.
  induction l as [|s l IH]; [intro H; cbn in H; congruence|]. unfold updl in *. cbn [map sec_at].
  destruct (sid s =? id') eqn:E; cbn [sid]; (destruct (sid s =? id); [discriminate|exact IH]).
Qed.
Lemma winv_upd id f p : winv p -> winv (upd_sec id f p).
Proof. unfold winv, upd_sec. cbn [last secs]. fold (updl id f (secs p)). destruct (last p); [apply sec_at_updl|auto]. Qed.
Lemma put_weak ok p s k v : winv p -> text s -> text k -> match v with Some v => text v | None => True end ->
  exists c p', ini_put ok p (Some s) (Some k) v = Ret (c, p') /\ winv p'.
Proof.
  intros W Ts Tk Tv. unfold ini_put. destruct (zlen k =? 0); [eauto|]. destruct (zlen s <? 1); [eauto|].
  destruct (search_weak ok p true s W Ts) as (t & p1 & -> & W1 & H1). cbn [bind]. destruct t as [id|]; [|eauto].
  unfold kvs_at. destruct (sec_at id (secs p1)) as [x|]; [|congruence]. cbn [bind].
  rewrite strlcpy_arr_ok; [|destruct v; [exact Tv|constructor]|reflexivity]. cbn [bind].
  destruct (find_kv k (kvs x)); [eexists _, _; split; [reflexivity|apply winv_upd; exact W1]|].
  destruct (ok_kv ok); cbn [negb]; [|eauto]. rewrite strlcpy_arr_ok by (try exact Tk; reflexivity). cbn [bind].
  destruct (ok_knode ok); [eexists _, _; split; [reflexivity|apply winv_upd; exact W1]|eauto].
Qed.
Lemma parse_total ok1 ok2 ok junk content : zlen junk = 200 -> match content with Some t => text t /\ zlen t < two31 | None => True end ->
  exists r, ini_parse_str ok1 ok2 ok junk content = Ret r.
Proof.
  intros Lj Hc. unfold ini_parse_str. destruct ok1; cbn [negb]; [|eauto]. destruct ok2; cbn [negb]; [|eauto]. destruct content as [t|]; [|eauto].
  destruct Hc as [T L]. rewrite parse_string_ok by assumption.
  destruct (sp_parse_total (ini_handler_cb ok) winv) with (t := t) (u := ini_new) as (e & u & -> & _); [|exact T|exact I|].
  - intros u s k v W A B C. unfold ini_handler_cb. destruct (put_weak ok u s k v W A B C) as (c & p' & -> & W'). cbn [bind]. eauto.
  - cbn [bind]. destruct (e =? 0); cbn [negb]; eauto.
Qed.

(** ** reading the map back *)
Lemma m_get_put m s k v s' k' : m_get (m_put m s k v) s' k' = if same s s' && same k k' then Some v else m_get m s' k'.
Proof.
  unfold m_get, m_put.
  assert (AA : forall {V} k f k' (l : list (list Z * V)), assoc k' (alter k f l) = if same k k' then Some (f (assoc k l)) else assoc k' l).
  { intros V k0 f k1 l. induction l as [|[k2 w] l IH]; cbn [alter assoc].
    - rewrite (same_sym k1 k0). destruct (same k0 k1); reflexivity.
    - destruct (same k0 k2) eqn:E; cbn [assoc].
      + rewrite (same_sym k1 k2). rewrite (same_trans _ _ k1 E). destruct (same k0 k1); reflexivity.
      + rewrite IH. destruct (same k1 k2) eqn:E2; [|reflexivity].
        destruct (same k0 k1) eqn:E3; [|reflexivity]. rewrite (same_trans _ _ k2 E3) in E2. congruence. }
  rewrite AA. destruct (same s s') eqn:E; cbn [andb]; [|reflexivity]. rewrite AA. rewrite (assoc_same s s' m E).
  destruct (same k k'); [reflexivity|]. destruct (assoc s' m); reflexivity.
Qed.
Lemma assoc_without {V} k k' (l : list (list Z * V)) : assoc k' (without k l) = if same k k' then None else assoc k' l.
Proof.
  induction l as [|[k2 w] l IH]; [destruct (same k k'); reflexivity|]. unfold without in *. cbn [filter fst assoc].
  destruct (same k k2) eqn:E; cbn [negb assoc].
  - rewrite IH. destruct (same k k') eqn:E2; [reflexivity|]. rewrite (same_sym k' k2), (same_trans k k2 k' E), E2. reflexivity.
  - rewrite IH. destruct (same k' k2) eqn:E2; [|reflexivity]. destruct (same k k') eqn:E3; [|reflexivity]. rewrite (same_trans _ _ k2 E3) in E2. congruence.
Qed.
Lemma m_get_del_key m s k s' k' : m_get (m_del_key m s k) s' k' = if same s s' && same k k' then None else m_get m s' k'.
Proof.
  unfold m_del_key. destruct (assoc s m) as [l|] eqn:E.
  - unfold m_get. assert (AA : assoc s' (alter s (fun o => without k (od o)) m) = if same s s' then Some (without k l) else assoc s' m).
    { clear - E. induction m as [|[k2 w] m IH]; [discriminate|]. cbn [alter assoc] in *. destruct (same s k2) eqn:E2; cbn [assoc].
      - injection E as ->. rewrite (same_sym s' k2), (same_trans _ _ s' E2). destruct (same s s'); reflexivity.
      - rewrite IH by exact E. destruct (same s' k2) eqn:E3; [|reflexivity]. destruct (same s s') eqn:E4; [|reflexivity].
        rewrite (same_trans _ _ k2 E4) in E3. congruence. }
    unfold od in AA. rewrite AA. destruct (same s s') eqn:E2; cbn [andb]; [|reflexivity]. rewrite <- (assoc_same s s' m E2), E.
    rewrite assoc_without. destruct (same k k'); reflexivity.
  - destruct (same s s') eqn:E2; cbn [andb]; [|reflexivity]. unfold m_get. rewrite <- (assoc_same s s' m E2), E. destruct (same k k'); reflexivity.
Qed.
Lemma m_get_without m s s' k' : m_get (without s m) s' k' = if same s s' then None else m_get m s' k'.
Proof. unfold m_get. rewrite assoc_without. destruct (same s s'); reflexivity. Qed.

(** ** numbers *)
Lemma get_value p m s k v : inv p m -> s <> [] -> k <> [] -> m_get m s k = Some v -> text v -> zlen v <= 255 ->
  exists blk, ini_get p (Some s) (Some k) (Some (repeat 0 256)) INI_VALUE_STACK_SIZE = Ret (0, Some blk) /\ cstr_at blk 0 = Ret v.
Proof.
  intros I Ns Nk G T L. rewrite (get_ok p m) by (try exact I; reflexivity || (unfold INI_VALUE_STACK_SIZE; try lia; reflexivity)).
  unfold sp_get, m_get in *. destruct s as [|c s]; [congruence|]. destruct (assoc (c :: s) m) as [l|]; [|discriminate].
  destruct k as [|d k]; [congruence|]. rewrite G. change (INI_VALUE_STACK_SIZE =? 0) with false. cbn iota.
  destruct (Z.leb_spec INI_VALUE_STACK_SIZE (zlen v)) as [H|_]; [unfold INI_VALUE_STACK_SIZE in H; lia|]. eexists. split; [reflexivity|].
  apply (cstr_at_text [] v _ 0 eq_refl T).
Qed.
Lemma get_number conv p m s k n : inv p m -> s <> [] -> k <> [] -> is_long n -> m_get m s k = Some (dec_long n) -> text (dec_long n) ->
  ini_get_number conv p (Some s) (Some k) = Ret (0, Some (conv n)).
Proof.
  intros I Ns Nk Hn G T. pose proof (dec_long_len n Hn) as L.
  destruct (get_value p m s k (dec_long n) I Ns Nk G T ltac:(lia)) as (blk & E & C). unfold ini_get_number. rewrite E. cbn [bind].
  change (negb (0 =? SUCCEED)) with false. cbn iota. rewrite C. cbn [bind].
  destruct (Z.eqb_spec (zlen (dec_long n)) 0) as [Z0|_]; [apply zlen_0_nil in Z0; exfalso; exact (dec_long_ne n Z0)|].
  rewrite (strtol_long n Hn). cbn [fst snd]. rewrite Z.eqb_refl. reflexivity.
Qed.

From Verif Require Import CBase CStr SeqLib StringsModel StringsProof StrParamsModel StrParamsProof IniReaderModel IniModel IniSpec IniProof.

Lemma find_kv_assoc key l : find_kv key l = assoc key l.
Proof. induction l as [|[k v] l IH]; [reflexivity|]. cbn [find_kv assoc]. rewrite same_lower, IH. reflexivity. Qed.
Lemma set_kv_alter key v l w : assoc key l = Some w -> set_kv key v l = alter key (fun _ => v) l.
Proof.
  induction l as [|[k v0] l IH]; [discriminate|]. cbn [set_kv alter assoc]. rewrite <- same_lower. destruct (same key k); [reflexivity|].
  intro H. rewrite IH by exact H. reflexivity.
Qed.
Lemma alter_new {V} key f (l : list (list Z * V)) : assoc key l = None -> alter key f l = l ++ [(key, f None)].
Proof. intro H. rewrite <- (app_nil_r l) at 1. rewrite alter_app by exact H. reflexivity. Qed.
Lemma without_none {V} key (l : list (list Z * V)) : assoc key l = None -> without key l = l.
Proof.
  induction l as [|[k v] l IH]; [reflexivity|]. unfold without in *. cbn [assoc filter fst]. destruct (same key k); [discriminate|].
  intro H. cbn [negb]. f_equal. auto.
Qed.
Lemma keys_tail {V} x (l : list (list Z * V)) : keys_ok (x :: l) -> keys_ok l /\ assoc (fst x) l = None.
Proof.
  unfold keys_ok. cbn [map]. intro H. inversion H; subst. split; [assumption|]. apply assoc_None. intros y Iy.
  apply not_true_is_false. intro S. apply same_iff in S. apply H2. rewrite S. apply (in_map (fun x => map up (fst x))). exact Iy.
Qed.
Lemma assoc_same {V} a b (l : list (list Z * V)) : same a b = true -> assoc a l = assoc b l.
Proof. intro S. induction l as [|[k v] l IH]; [reflexivity|]. cbn [assoc]. rewrite (same_trans a b k S), IH. reflexivity. Qed.
Lemma del_kv_without key l : keys_ok l -> del_kv key l = without key l.
Proof.
  induction l as [|[k v] l IH]; [reflexivity|]. intro K. destruct (keys_tail _ _ K) as [K' N]. cbn [fst] in N.
  unfold without in *. cbn [del_kv filter fst]. rewrite <- same_lower. destruct (same key k) eqn:E; cbn [negb].
  - symmetry. apply without_none. rewrite (assoc_same _ _ l E). exact N.
  - f_equal. auto.
Qed.
Lemma alter_id {V} key f (l : list (list Z * V)) v : assoc key l = Some v -> f (Some v) = v -> alter key f l = l.
Proof.
  induction l as [|[k v0] l IH]; [discriminate|]. cbn [alter assoc]. destruct (same key k); intros E F.
  - injection E as ->. rewrite F. reflexivity.
  - rewrite IH by assumption. reflexivity.
Qed.
Definition od (o : option (list (list Z * list Z))) : list (list Z * list Z) := match o with Some l => l | None => [] end.
Definition updl (id : Z) f (l : list section) := map (fun s => if sid s =? id then mk_sec (sid s) (sname s) (f (kvs s)) else s) l.
Lemma updl_other id f l : (forall s, In s l -> sid s <> id) -> updl id f l = l.
Proof.
  induction l as [|s l IH]; [reflexivity|]. intro H. unfold updl in *. cbn [map]. destruct (Z.eqb_spec (sid s) id) as [E|N].
  - exfalso. apply (H s (or_introl eq_refl) E).
  - f_equal. apply IH. intros x I. apply H. right. exact I.
Qed.
Lemma updl_abs name s f l : NoDup (map sid l) -> keys_ok (absl l) -> In s l -> same name (sname s) = true ->
  absl (updl (sid s) f l) = alter name (fun o => f (od o)) (absl l).
Proof.
  intros D K I S. apply in_split in I as (a & b & ->). unfold absl in *.
  rewrite map_app in D. cbn [map] in D. apply NoDup_remove in D as [_ D].
  assert (Ha : updl (sid s) f a = a) by (apply updl_other; intros x Ix E; apply D; rewrite in_app_iff; left; rewrite <- E; apply in_map; exact Ix).
  assert (Hb : updl (sid s) f b = b) by (apply updl_other; intros x Ix E; apply D; rewrite in_app_iff; right; rewrite <- E; apply in_map; exact Ix).
  unfold updl in *. rewrite map_app. cbn [map]. rewrite Ha, Hb, Z.eqb_refl. rewrite !map_app. cbn [map sname kvs].
  rewrite alter_app.
  - cbn [alter]. rewrite S. reflexivity.
  - apply assoc_None. intros x Ix. apply not_true_is_false. intro E. rewrite map_app in K. cbn [map] in K. unfold keys_ok in K.
    rewrite map_app in K. cbn [map fst] in K. apply NoDup_remove_2 in K. apply K. apply in_or_app. left.
    apply same_iff in E. apply same_iff in S. rewrite <- S, E. apply (in_map (fun x => map up (fst x))). exact Ix.
Qed.
Lemma sid_updl id f l : map sid (updl id f l) = map sid l.
Proof. unfold updl. rewrite map_map. apply map_ext. intro s. destruct (sid s =? id); reflexivity. Qed.
Definition kv_good (l : list (list Z * list Z)) : Prop := keys_ok l /\ forall kv, In kv l -> fst kv <> [] /\ text (fst kv) /\ text (snd kv).
Lemma In_alter {V} key f (l : list (list Z * V)) x : In x (alter key f l) -> In x l \/ (exists k v, x = (k, f (Some v)) /\ In (k, v) l /\ same key k = true /\ assoc key l = Some v) \/ (x = (key, f None) /\ assoc key l = None).
Proof.
  induction l as [|[k v] l IH]; cbn [alter assoc].
  - intros [<-|[]]. right. right. auto.
  - destruct (same key k) eqn:E.
    + intros [<-|I]; [right; left; exists k, v; split; [reflexivity|]; split; [left; reflexivity|]; split; [exact E|reflexivity]|left; right; exact I].
    + intros [<-|I]; [left; left; reflexivity|]. destruct (IH I) as [A|[(k' & v' & -> & A & B & C)|[-> A]]]; [left; right; exact A| |right; right; auto].
      right. left. exists k', v'. split; [reflexivity|]. split; [right; exact A|]. auto.
Qed.
Lemma upd_inv p m name s f : inv p m -> find_sec name (secs p) = Some s -> (kv_good (kvs s) -> kv_good (f (kvs s))) ->
  inv (upd_sec (sid s) f p) (alter name (fun o => f (od o)) m).
Proof.
  intros I F G. pose proof (find_sec_ok name (secs p)) as FS. rewrite F in FS. destruct FS as (Is & Sn & As). rewrite (i_abs _ _ I) in As.
  destruct I as [I1 I2 I3 I4 I5 I6 I7]. unfold upd_sec. fold (updl (sid s) f (secs p)). constructor; cbn [secs last pred nid].
  - rewrite (updl_abs name s f) by (try assumption; rewrite I1; exact I2). rewrite I1. reflexivity.
  - apply keys_alter. exact I2.
  - intros x Ix. apply In_alter in Ix as [Ix|[(k & v & -> & Ik & Sk & Ak)|[-> Ak]]]; [auto| |rewrite As in Ak; discriminate].
    cbn [snd]. rewrite As in Ak. injection Ak as <-. cbn [od]. destruct (I3 _ Ik) as [A B]. apply G. split; assumption.
  - intros x Ix. apply In_alter in Ix as [Ix|[(k & v & -> & Ik & Sk & Ak)|[-> Ak]]]; [auto| |rewrite As in Ak; discriminate].
    apply (I4 _ Ik).
  - rewrite sid_updl. exact I5.
  - intros x Ix. unfold updl in Ix. apply in_map_iff in Ix as (y & <- & Iy). destruct (sid y =? sid s); cbn [sid]; auto.
  - destruct (last p) as [id|]; [|rewrite I7; reflexivity]. destruct I7 as (l & s' & Es & Ei).
    exists (updl (sid s) f l), (if sid s' =? sid s then mk_sec (sid s') (sname s') (f (kvs s')) else s').
    split; [rewrite Es; unfold updl; rewrite map_app; reflexivity|]. destruct (sid s' =? sid s); exact Ei.
Qed.
Lemma new_inv p m name : inv p m -> assoc name m = None -> name <> [] -> text name -> inv (new_sec p name) (m ++ [(name, [])]).
Proof.
  intros [I1 I2 I3 I4 I5 I6 I7] A N T. unfold new_sec. constructor; cbn [secs last pred nid].
  - unfold absl in *. rewrite map_app, I1. reflexivity.
  - rewrite <- (alter_new name (fun _ => []) m A). apply keys_alter. exact I2.
  - intros x Ix. apply in_app_or in Ix as [Ix|[<-|[]]]; [auto|]. cbn [snd]. split; [constructor|intros kv []].
  - intros x Ix. apply in_app_or in Ix as [Ix|[<-|[]]]; [auto|]. cbn [fst]. auto.
  - rewrite map_app. cbn [map sid]. apply NoDup_Add with (a := nid p) (l := map sid (secs p)).
    { replace (map sid (secs p)) with (map sid (secs p) ++ []) at 1 by apply app_nil_r. apply Add_app. }
    split; [exact I5|]. intro H. apply in_map_iff in H as (s & E & Hs). apply I6 in Hs. lia.
  - intros s Hs. apply in_app_or in Hs as [Hs|[<-|[]]]; [apply I6 in Hs; lia|]. cbn [sid]. lia.
  - exists (secs p), (mk_sec (nid p) name []). split; reflexivity.
Qed.
Lemma kv_good_alter key v l : kv_good l -> key <> [] -> text key -> text v -> kv_good (alter key (fun _ => v) l).
Proof.
  intros [K G] N T Tv. split; [apply keys_alter; exact K|]. intros kv Ik.
  apply In_alter in Ik as [Ik|[(k & v' & -> & Ik & _)|[-> _]]]; [auto| |cbn [fst snd]; auto].
  cbn [fst snd]. destruct (G _ Ik) as (A & B & _). auto.
Qed.
Lemma kv_good_without key l : kv_good l -> kv_good (without key l).
Proof. intros [K G]. split; [apply keys_filter; exact K|]. intros kv Ik. apply filter_In in Ik. apply G. apply Ik. Qed.
Lemma kvs_at_ok p m s : inv p m -> In s (secs p) -> kvs_at (sid s) p = Ret (kvs s).
Proof.
  intros I Hs. unfold kvs_at. pose proof (sec_at_ok (sid s) (secs p)) as S. destruct (sec_at (sid s) (secs p)) as [s'|].
  - destruct S as [Is E]. rewrite (sid_inj (secs p) s' s (i_ids _ _ I) Is Hs E). reflexivity.
  - exfalso. exact (S s Hs eq_refl).
Qed.
Lemma good_of p m s : inv p m -> In s (secs p) -> kv_good (kvs s).
Proof.
  intros I Hs. assert (In (sname s, kvs s) m) as H by (rewrite <- (i_abs _ _ I); apply (in_map (fun s => (sname s, kvs s))); exact Hs).
  apply (i_kv _ _ I) in H. exact H.
Qed.
Lemma alter_ext {V} key (f g : option V -> V) (l : list (list Z * V)) : f (assoc key l) = g (assoc key l) -> alter key f l = alter key g l.
Proof.
  induction l as [|[k v] l IH]; cbn [alter assoc]; [intros ->; reflexivity|]. destruct (same key k); [intros ->; reflexivity|].
  intro H. rewrite IH by exact H. reflexivity.
Qed.

(** putting, once the section is there *)
Lemma put_tail ok p m name s key v : inv p m -> find_sec name (secs p) = Some s -> key <> [] -> text key -> zlen key <= 63 -> text v -> zlen v <= 255 ->
  (do l <- kvs_at (sid s) p;
   do v' <- strlcpy_arr INI_VALUE_STACK_SIZE v;
   match find_kv key l with
   | Some _ => Ret (SUCCEED, upd_sec (sid s) (set_kv key v') p)
   | None => if negb (ok_kv ok) then Ret (NO_ENOUGH_MEMORY, p)
             else do k <- strlcpy_arr SECTION_NAME_MAX_SIZE key;
                  if ok_knode ok then Ret (SUCCEED, upd_sec (sid s) (fun l => l ++ [(k, v')]) p) else Ret (FAILED, p)
   end) =
  match assoc key (kvs s) with
  | None => if negb (ok_kv ok) then Ret (3, p) else if ok_knode ok then Ret (0, upd_sec (sid s) (fun l => l ++ [(key, v)]) p) else Ret (1, p)
  | Some _ => Ret (0, upd_sec (sid s) (set_kv key v) p)
  end.
Proof.
  intros I F N T L Tv Lv. pose proof (find_sec_ok name (secs p)) as FS. rewrite F in FS. destruct FS as (Is & _ & _).
  rewrite (kvs_at_ok p m s I Is). cbn [bind]. rewrite strlcpy_arr_ok by (try exact Tv; reflexivity). cbn [bind].
  rewrite ztake_all by (unfold INI_VALUE_STACK_SIZE; lia). rewrite find_kv_assoc. destruct (assoc key (kvs s)); [reflexivity|].
  destruct (ok_kv ok); [|reflexivity]. cbn [negb]. rewrite strlcpy_arr_ok by (try exact T; reflexivity). cbn [bind].
  rewrite ztake_all by (unfold SECTION_NAME_MAX_SIZE; lia). reflexivity.
Qed.
Lemma put_tail_inv p m name s key v : inv p m -> find_sec name (secs p) = Some s -> key <> [] -> text key -> text v ->
  inv (upd_sec (sid s) (match assoc key (kvs s) with Some _ => set_kv key v | None => fun l => l ++ [(key, v)] end) p) (m_put m name key v).
Proof.
  intros I F N T Tv. pose proof (find_sec_ok name (secs p)) as FS. rewrite F in FS. destruct FS as (Is & _ & As). rewrite (i_abs _ _ I) in As.
  set (f := match assoc key (kvs s) with Some _ => set_kv key v | None => fun l => l ++ [(key, v)] end).
  assert (Ef : f (kvs s) = alter key (fun _ => v) (kvs s)).
  { unfold f. destruct (assoc key (kvs s)) eqn:E; [eapply set_kv_alter; exact E|]. rewrite alter_new by exact E. reflexivity. }
  unfold m_put. rewrite (alter_ext name _ (fun o => f (od o)) m).
  - apply upd_inv; [exact I|exact F|]. intro G. rewrite Ef. apply kv_good_alter; assumption.
  - rewrite As. cbn [od]. symmetry. exact Ef.
Qed.
Lemma put_ok ok p m s k v : inv p m -> iop_ok m (IPut ok s k v) ->
  exists p', ini_put ok p s k v = Ret (fst (sp_iop m (IPut ok s k v)), p') /\ inv p' (snd (sp_iop m (IPut ok s k v))).
Proof.
  intros I (Ns & Ss & Sk & Sv). destruct s as [s|]; [|congruence]. cbn [short] in *. destruct Ss as [Ts Ls]. unfold ini_put.
  destruct k as [key|]; [|exists p; split; [destruct s; reflexivity|destruct s; exact I]]. destruct Sk as [Tk Lk].
  destruct key as [|d key]; [exists p; split; [destruct s; reflexivity|destruct s; exact I]|].
  destruct s as [|c s]; [exists p; split; [destruct d; reflexivity|exact I]|].
  cbn [sp_iop]. set (sn := c :: s) in *. set (kn := d :: key) in *. assert (Nsn : sn <> []) by discriminate. assert (Nkn : kn <> []) by discriminate.
  assert (Ek : (zlen kn =? 0) = false) by (apply Z.eqb_neq; unfold kn; rewrite zlen_cons; pose proof (zlen_nonneg key); lia).
  assert (Es : (zlen sn <? 1) = false) by (apply Z.ltb_ge; unfold sn; rewrite zlen_cons; pose proof (zlen_nonneg s); lia).
  rewrite Ek, Es. clearbody sn kn. clear Ek Es c d s key.
  set (vv := match v with Some v => v | None => [] end). assert (Tv : text vv /\ zlen vv <= 255).
  { unfold vv. destruct v; [exact Sv|split; [constructor|change (zlen (@nil Z)) with 0; lia]]. }
  clearbody vv. destruct Tv as [Tv Lv].
  rewrite (search_ok ok p m true sn I Nsn (fun _ => conj Ts Ls)). pose proof (find_sec_ok sn (secs p)) as FS. rewrite (i_abs _ _ I) in FS.
  destruct (find_sec sn (secs p)) as [s|] eqn:F.
  - destruct FS as (Is & Sn & As). cbn [bind]. rewrite (put_tail ok p m sn s kn vv) by assumption. unfold m_get. rewrite As.
    pose proof (put_tail_inv p m sn s kn vv I F Nkn Tk Tv) as PI. cbn [orb negb].
    assert (ES : m_section m sn = m) by (unfold m_section; eapply alter_id; [exact As|reflexivity]).
    destruct (assoc kn (kvs s)) as [w|] eqn:Ew; cbn [orb negb]; [eexists; split; [reflexivity|exact PI]|].
    destruct (ok_kv ok); cbn [negb]; [|rewrite ES; exists p; split; [reflexivity|exact I]].
    destruct (ok_knode ok); cbn [negb]; [eexists; split; [reflexivity|exact PI]|rewrite ES; exists p; split; [reflexivity|exact I]].
  - unfold m_get. rewrite FS. cbn [orb andb]. destruct (ok_sec ok && ok_list ok && ok_snode ok); cbn [negb andb bind].
    2:{ exists p. split; [reflexivity|exact I]. }
    assert (I' : inv (new_sec p sn) (m ++ [(sn, [])])) by (apply new_inv; assumption).
    set (s := mk_sec (nid p) sn []). assert (Is : In s (secs (new_sec p sn))) by (cbn [new_sec secs]; apply in_or_app; right; left; reflexivity).
    assert (F' : find_sec sn (secs (new_sec p sn)) = Some s) by (apply (find_unique _ _ sn s I' Is); apply same_refl).
    pose proof (put_tail ok (new_sec p sn) _ sn s kn vv I' F' Nkn Tk Lk Tv Lv) as PT.
    pose proof (put_tail_inv _ _ sn s kn vv I' F' Nkn Tk Tv) as PI.
    unfold s in PT, PI. cbn [sid kvs assoc] in PT, PI. rewrite PT. clear PT.
    assert (ES : m_section m sn = m ++ [(sn, [])]) by (unfold m_section; apply alter_new; exact FS).
    assert (EP : m_put m sn kn vv = m_put (m ++ [(sn, [])]) sn kn vv).
    { unfold m_put. rewrite alter_new by exact FS. rewrite alter_app by exact FS. cbn [alter]. rewrite same_refl. reflexivity. }
    destruct (ok_kv ok); cbn [negb]; [|rewrite ES; eexists; split; [reflexivity|exact I']].
    destruct (ok_knode ok); cbn [negb]; [rewrite EP; eexists; split; [reflexivity|exact PI]|rewrite ES; eexists; split; [reflexivity|exact I']].
Qed.

From Verif Require Import CBase CStr SeqLib StringsModel StringsProof StrParamsModel StrParamsProof IniReaderModel IniModel IniSpec IniProof IniProof2.

Lemma find_sec_nil name : name = [] -> forall p m, inv p m -> assoc name m = None.
Proof.
  intros -> p m I. apply assoc_None. intros x Ix. apply not_true_is_false. intro S. apply same_len in S.
  destruct (i_names _ _ I _ Ix) as [N _]. destruct (fst x); [congruence|]. rewrite zlen_cons in S. pose proof (zlen_nonneg l).
  change (zlen (@nil Z)) with 0 in S. lia.
Qed.
(** looking a section up without creating it *)
Lemma lookup_ok ok p m name : inv p m ->
  (assoc name m = None /\ search_target_section ok p false name = Ret (None, p)) \/
  (exists s, find_sec name (secs p) = Some s /\ In s (secs p) /\ same name (sname s) = true /\ assoc name m = Some (kvs s) /\
     search_target_section ok p false name = Ret (Some (sid s), p)).
Proof.
  intro I. destruct name as [|c n].
  - left. split; [eapply find_sec_nil; eauto|reflexivity].
  - set (name := c :: n). assert (N : name <> []) by discriminate. clearbody name.
    rewrite (search_ok ok p m false name I N) by discriminate. pose proof (find_sec_ok name (secs p)) as F. rewrite (i_abs _ _ I) in F.
    destruct (find_sec name (secs p)) as [s|] eqn:E; [right; exists s; destruct F as (A & B & C); auto|left; auto].
Qed.
Lemma m_del_key_eq m s k l : assoc s m = Some l -> m_del_key m s k = alter s (fun o => without k (od o)) m.
Proof. intro E. unfold m_del_key. rewrite E. reflexivity. Qed.
Lemma del_key_ok p m s k : inv p m ->
  exists p', ini_del_key p s k = Ret (fst (sp_iop m (IDelKey s k)), p') /\ inv p' (snd (sp_iop m (IDelKey s k))).
Proof.
  intro I. unfold ini_del_key. cbn [sp_iop]. destruct s as [s|]; [|exists p; split; [reflexivity|exact I]].
  destruct k as [k|]; [|exists p; split; [reflexivity|exact I]]. unfold m_get.
  destruct (lookup_ok all_ok p m s I) as [[A ->]|(x & F & Ix & Sx & A & ->)]; rewrite A; cbn [bind]; [exists p; split; [reflexivity|exact I]|].
  rewrite (kvs_at_ok p m x I Ix). cbn [bind]. rewrite find_kv_assoc. destruct (assoc k (kvs x)) as [v|] eqn:E; [|exists p; split; [reflexivity|exact I]].
  eexists. split; [reflexivity|]. cbn [snd]. rewrite (m_del_key_eq _ _ _ _ A).
  pose proof (good_of p m x I Ix) as G. rewrite (alter_ext s _ (fun o => del_kv k (od o)) m).
  - apply upd_inv; [exact I|exact F|]. intros _. rewrite del_kv_without by apply G. apply kv_good_without. exact G.
  - rewrite A. cbn [od]. symmetry. apply del_kv_without. apply G.
Qed.
Lemma filter_all {A} f (l : list A) : (forall x, In x l -> f x = true) -> filter f l = l.
Proof. induction l as [|x l IH]; [reflexivity|]. intro H. cbn [filter]. rewrite (H x (or_introl eq_refl)). f_equal. apply IH. intros y Iy. apply H. right. exact Iy. Qed.
Lemma del_sec_abs l s name : NoDup (map sid l) -> keys_ok (absl l) -> In s l -> same name (sname s) = true ->
  absl (filter (fun x => negb (sid x =? sid s)) l) = without name (absl l).
Proof.
  intros D K I S. assert (H : forall x, In x l -> (sid x =? sid s) = same name (sname x)).
  { intros x Ix. destruct (Z.eqb_spec (sid x) (sid s)) as [E|N].
    - rewrite (sid_inj l x s D Ix I E). auto.
    - symmetry. apply not_true_is_false. intro E. apply N. f_equal. apply (name_inj l); try assumption.
      rewrite <- (same_trans name (sname x) (sname s) E) in S. exact S. }
  clear D K I S. unfold absl, without in *. induction l as [|x l IH]; [reflexivity|]. cbn [filter map fst].
  rewrite <- (H x (or_introl eq_refl)). destruct (sid x =? sid s); cbn [negb map]; [|f_equal]; (apply IH; intros y Iy; apply H; right; exact Iy).
Qed.
Lemma without_In {V} k (l : list (list Z * V)) x : In x (without k l) -> In x l.
Proof. intro H. apply filter_In in H. apply H. Qed.
Lemma del_section_ok p m s : inv p m -> iop_ok m (IDelSection s) ->
  exists p', ini_del_section p s = Ret (fst (sp_iop m (IDelSection s)), p') /\ inv p' (snd (sp_iop m (IDelSection s))).
Proof.
  intros I N. unfold ini_del_section. cbn [sp_iop]. destruct s as [s|]; [|exists p; split; [reflexivity|exact I]]. cbn [iop_ok] in N.
  destruct (lookup_ok all_ok p m s I) as [[A ->]|(x & F & Ix & Sx & A & ->)]; rewrite A; cbn [bind]; [exists p; split; [reflexivity|exact I]|].
  eexists. split; [reflexivity|]. cbn [snd]. destruct I as [I1 I2 I3 I4 I5 I6 I7]. constructor; cbn [secs last pred nid].
  - rewrite (del_sec_abs _ _ s) by (try assumption; rewrite I1; exact I2). rewrite I1. reflexivity.
  - apply keys_filter. exact I2.
  - intros y Iy. apply without_In in Iy. auto.
  - intros y Iy. apply without_In in Iy. auto.
  - clear - I5. induction (secs p) as [|y l IH]; [constructor|]. cbn [map] in I5. inversion I5; subst. cbn [filter].
    destruct (negb _); [|auto]. cbn [map]. constructor; [|auto]. intro H. apply H1. apply in_map_iff in H as (z & E & Iz). apply filter_In in Iz.
    rewrite <- E. apply in_map. apply Iz.
  - intros y Iy. apply filter_In in Iy. apply I6. apply Iy.
  - destruct (last p) as [id|]; [|rewrite I7; reflexivity]. destruct I7 as (l & z & Ez & Ei).
    exists (filter (fun y => negb (sid y =? sid x)) l), z. split; [|exact Ei]. rewrite Ez, filter_app. f_equal. cbn [filter].
    destruct (Z.eqb_spec (sid z) (sid x)) as [E|E]; [|reflexivity]. exfalso. apply N.
    assert (z = x) as ->. { apply (sid_inj (secs p)); try assumption. rewrite Ez. apply in_or_app. right. left. reflexivity. }
    exists (absl l), (sname x), (kvs x). split; [|exact Sx]. rewrite <- I1, Ez. unfold absl. rewrite map_app. reflexivity.
Qed.
Lemma inv_new : inv ini_new [].
Proof.
  constructor; cbn [ini_new secs last pred nid map]; [reflexivity|constructor|intros x []|intros x []|constructor|intros x []|reflexivity].
Qed.
Lemma iop_lemma p m o : inv p m -> iop_ok m o -> exists p', run_iop p o = Ret (fst (sp_iop m o), p') /\ inv p' (snd (sp_iop m o)).
Proof.
  intros I H. destruct o; cbn [run_iop]; [apply put_ok; assumption|apply del_key_ok; assumption|apply del_section_ok; assumption].
Qed.
Lemma hist_inv p m : hist p m -> inv p m.
Proof.
  induction 1; [exact inv_new|]. destruct (iop_lemma p m o IHhist H0) as (q & E & I). rewrite E in H1. injection H1 as _ <-. exact I.
Qed.
Lemma get_ok p m s k blk size : inv p m -> 0 <= size -> match blk with Some b => size <= zlen b | None => True end ->
  ini_get p s k blk size = Ret (sp_get m s k blk size).
Proof.
  intros I H0 Hb. unfold ini_get, sp_get. destruct s as [[|c s]|]; try reflexivity. set (sn := c :: s).
  assert ((zlen sn =? 0) = false) as -> by (apply Z.eqb_neq; unfold sn; rewrite zlen_cons; pose proof (zlen_nonneg s); lia). clearbody sn.
  destruct (lookup_ok all_ok p m sn I) as [[A ->]|(x & F & Ix & Sx & A & ->)]; rewrite A; cbn [bind]; [reflexivity|].
  destruct k as [[|d k]|].
  - destruct blk; reflexivity.
  - set (kn := d :: k). assert ((zlen kn =? 0) = false) as -> by (apply Z.eqb_neq; unfold kn; rewrite zlen_cons; pose proof (zlen_nonneg k); lia).
    clearbody kn. rewrite (kvs_at_ok p m x I Ix). cbn [bind]. rewrite find_kv_assoc. destruct (assoc kn (kvs x)) as [v|]; [|reflexivity].
    destruct blk as [b|]; [|reflexivity]. destruct (Z.eqb_spec size 0); [reflexivity|]. destruct (Z.leb_spec size (zlen v)); [reflexivity|].
    assert (Hl : zlen (v ++ [0]) = zlen v + 1) by (rewrite zlen_app; reflexivity).
    rewrite mwrite_ok by lia. cbn [bind]. unfold zwrite. rewrite Hl. rewrite ztake_0 || idtac. cbn [app]. f_equal. f_equal. f_equal.
    rewrite <- app_assoc. reflexivity.
  - destruct blk as [b|]; [reflexivity|]. destruct (size =? 0); reflexivity.
Qed.

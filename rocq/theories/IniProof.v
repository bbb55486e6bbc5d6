From Verif Require Import CBase CStr SeqLib StringsModel StringsProof StrParamsModel StrParamsProof IniReaderModel IniModel IniSpec.

(** ** names *)
Lemma lower_up a b : (lower a = lower b) <-> (up a = up b).
Proof.
  unfold lower, up.
  destruct (Z.leb_spec 65 a), (Z.leb_spec a 90), (Z.leb_spec 65 b), (Z.leb_spec b 90), (Z.leb_spec 97 a), (Z.leb_spec a 122), (Z.leb_spec 97 b), (Z.leb_spec b 122);
    cbn [andb]; lia.
Qed.
Lemma same_lower a b : same a b = strcase_eq a b.
Proof.
  unfold same, strcase_eq. destruct (list_eq_dec Z.eq_dec (map up a) (map up b)) as [E|N].
  - symmetry. apply list_eqb_iff. revert b E; induction a as [|x a IH]; intros [|y b] E; try discriminate; [reflexivity|].
    cbn [map] in *. injection E as E1 E2. f_equal; [apply lower_up; exact E1|auto].
  - symmetry. apply not_true_is_false. intro H. apply N. apply list_eqb_iff in H. clear N.
    revert b H; induction a as [|x a IH]; intros [|y b] E; try discriminate; [reflexivity|].
    cbn [map] in *. injection E as E1 E2. f_equal; [apply lower_up; exact E1|auto].
Qed.
Lemma same_iff a b : same a b = true <-> map up a = map up b.
Proof. unfold same. destruct (list_eq_dec _ _ _); split; congruence. Qed.
Lemma same_refl a : same a a = true. Proof. apply same_iff. reflexivity. Qed.
Lemma same_sym a b : same a b = same b a.
Proof. destruct (same b a) eqn:E; [apply same_iff in E; apply same_iff; congruence|]. apply not_true_is_false. intro H. apply same_iff in H. symmetry in H. apply same_iff in H. congruence. Qed.
Lemma same_trans a b c : same a b = true -> same b c = same a c.
Proof.
  intro H. apply same_iff in H. destruct (same a c) eqn:E; [apply same_iff in E; apply same_iff; congruence|].
  apply not_true_is_false. intro K. apply same_iff in K. assert (same a c = true) by (apply same_iff; congruence). congruence.
Qed.
Lemma same_len a b : same a b = true -> zlen a = zlen b.
Proof. intro H. apply same_iff in H. apply (f_equal (@length Z)) in H. rewrite !map_length in H. unfold zlen. lia. Qed.

Lemma strlcpy_arr_ok size t : text t -> 0 < size -> strlcpy_arr size t = Ret (ztake (size - 1) t).
Proof.
  intros T Hs. unfold strlcpy_arr. rewrite (strlcpy_lemma t [] (repeat 0 (Z.to_nat size)) size T).
  2:{ unfold zlen. rewrite repeat_length. lia. }
  cbn [bind]. destruct (Z.eqb_spec size 0); [lia|]. apply (cstr_at_text [] _ _ 0 eq_refl).
  destruct (Z.leb_spec (size - 1) (zlen t)).
  - rewrite <- (ztake_zdrop (size - 1) t) in T. apply text_app in T. apply T.
  - rewrite ztake_all by lia. exact T.
Qed.

(** ** association lists with names distinct but for case *)
Definition keys_ok {V} (l : list (list Z * V)) : Prop := NoDup (map (fun x => map up (fst x)) l).
Lemma assoc_None {V} k (l : list (list Z * V)) : assoc k l = None <-> (forall x, In x l -> same k (fst x) = false).
Proof.
  induction l as [|[k' v] l IH]; cbn [assoc]; [split; [intros _ x []|reflexivity]|].
  destruct (same k k') eqn:E; split; intro H.
  - discriminate.
  - specialize (H _ (or_introl eq_refl)). cbn [fst] in H. congruence.
  - intros x [<-|I]; [exact E|]. apply IH; assumption.
  - apply IH. intros x I. apply H. right. exact I.
Qed.
Lemma assoc_Some {V} k (l : list (list Z * V)) v : assoc k l = Some v -> exists a k' b, l = a ++ (k', v) :: b /\ same k k' = true /\ assoc k a = None.
Proof.
  induction l as [|[k' w] l IH]; cbn [assoc]; [discriminate|]. destruct (same k k') eqn:E; intro H.
  - injection H as ->. exists [], k', l. split; [reflexivity|]. split; [exact E|reflexivity].
  - destruct (IH H) as (a & k2 & b & -> & S & N). exists ((k', w) :: a), k2, b. split; [reflexivity|]. split; [exact S|].
    cbn [assoc]. rewrite E. exact N.
Qed.
Lemma assoc_app {V} k (a b : list (list Z * V)) : assoc k (a ++ b) = match assoc k a with Some v => Some v | None => assoc k b end.
Proof. induction a as [|[k' v] a IH]; [reflexivity|]. cbn [app assoc]. destruct (same k k'); [reflexivity|exact IH]. Qed.
Lemma alter_app {V} k f (a b : list (list Z * V)) : assoc k a = None -> alter k f (a ++ b) = a ++ alter k f b.
Proof. induction a as [|[k' v] a IH]; [reflexivity|]. cbn [app assoc alter]. destruct (same k k'); [discriminate|]. intro H. rewrite IH by exact H. reflexivity. Qed.
Lemma assoc_alter {V} k f k' (l : list (list Z * V)) : keys_ok l ->
  assoc k' (alter k f l) = if same k k' then Some (f (assoc k l)) else assoc k' l.
Proof.
  intros _. induction l as [|[k2 v] l IH]; cbn [alter assoc].
  - rewrite (same_sym k' k). destruct (same k k'); reflexivity.
  - destruct (same k k2) eqn:E; cbn [assoc].
    + rewrite (same_sym k' k2). rewrite (same_trans _ _ k' E). destruct (same k k'); reflexivity.
    + rewrite IH. destruct (same k' k2) eqn:E2; [|reflexivity].
      destruct (same k k') eqn:E3; [|reflexivity]. rewrite (same_trans _ _ k2 E3) in E2. congruence.
Qed.
Lemma keys_app {V} (a b : list (list Z * V)) : map (fun x => map up (fst x)) (a ++ b) = map (fun x => map up (fst x)) a ++ map (fun x => map up (fst x)) b.
Proof. apply map_app. Qed.
Lemma keys_alter {V} k f (l : list (list Z * V)) : keys_ok l -> keys_ok (alter k f l).
Proof.
  unfold keys_ok. intro H. destruct (assoc k l) as [v|] eqn:E.
  - destruct (assoc_Some _ _ _ E) as (a & k' & b & -> & S & N). rewrite alter_app by exact N. cbn [alter]. rewrite S.
    rewrite keys_app in *. exact H.
  - assert (alter k f l = l ++ [(k, f None)]) as ->.
    { rewrite <- (app_nil_r l) at 1. rewrite alter_app by exact E. reflexivity. }
    rewrite keys_app. cbn [map fst]. apply NoDup_Add with (a := map up k) (l := map (fun x => map up (fst x)) l).
    { replace (map (fun x => map up (fst x)) l) with (map (fun x : list Z * V => map up (fst x)) l ++ []) at 1 by apply app_nil_r. apply Add_app. }
    split; [exact H|]. intro I. apply in_map_iff in I. destruct I as (x & Ex & Ix).
    apply (proj1 (assoc_None k l) E) in Ix. assert (same k (fst x) = true) by (apply same_iff; congruence). congruence.
Qed.
Lemma keys_filter {V} f (l : list (list Z * V)) : keys_ok l -> keys_ok (filter f l).
Proof.
  unfold keys_ok. induction l as [|x l IH]; intro H; [constructor|]. cbn [map] in H. inversion H; subst. cbn [filter].
  destruct (f x); [|auto]. cbn [map]. constructor; [|auto]. intro I. apply H2. apply in_map_iff in I. destruct I as (y & Ey & Iy).
  apply filter_In in Iy. apply in_map_iff. exists y. split; [exact Ey|apply Iy].
Qed.
(** with distinct names every entry of the list is the one found *)
Lemma assoc_In {V} (l : list (list Z * V)) x : keys_ok l -> In x l -> assoc (fst x) l = Some (snd x).
Proof.
  unfold keys_ok. induction l as [|y l IH]; [intros _ []|]. intros H [->|I]; cbn [map] in H; inversion H; subst.
  - destruct x as [k v]. cbn [assoc fst snd]. rewrite same_refl. reflexivity.
  - destruct y as [k v]. cbn [assoc]. destruct (same (fst x) k) eqn:E; [|auto]. exfalso. apply H2.
    apply same_iff in E. cbn [fst]. rewrite <- E. apply (in_map (fun x => map up (fst x))). exact I.
Qed.

(** ** the invariant *)
Definition absl (l : list section) : mini := map (fun s => (sname s, kvs s)) l.
Record inv (p : ini) (m : mini) : Prop := {
  i_abs : absl (secs p) = m;
  i_keys : keys_ok m;
  i_kv : forall x, In x m -> keys_ok (snd x) /\ (forall kv, In kv (snd x) -> fst kv <> [] /\ text (fst kv) /\ text (snd kv));
  i_names : forall x, In x m -> fst x <> [] /\ text (fst x);
  i_ids : NoDup (map sid (secs p));
  i_fresh : forall s, In s (secs p) -> sid s < nid p;
  i_last : match last p with None => secs p = [] | Some id => exists l s, secs p = l ++ [s] /\ sid s = id end
}.
Lemma find_sec_ok name l : match find_sec name l with
  | Some s => In s l /\ same name (sname s) = true /\ assoc name (absl l) = Some (kvs s)
  | None => assoc name (absl l) = None
  end.
Proof.
  induction l as [|s l IH]; [reflexivity|]. cbn [find_sec absl map assoc]. rewrite same_lower. destruct (strcase_eq name (sname s)) eqn:E.
  - rewrite same_lower. split; [left; reflexivity|]. split; [exact E|reflexivity].
  - destruct (find_sec name l) as [s'|]; [|exact IH]. destruct IH as (I & S & A). split; [right; exact I|]. split; assumption.
Qed.
Lemma sec_at_ok id l : match sec_at id l with Some s => In s l /\ sid s = id | None => forall s, In s l -> sid s <> id end.
Proof.
  induction l as [|s l IH]; [intros s []|]. cbn [sec_at]. destruct (Z.eqb_spec (sid s) id) as [E|N].
  - split; [left; reflexivity|exact E].
  - destruct (sec_at id l) as [s'|]; [destruct IH; split; [right|]; assumption|]. intros x [<-|I]; auto.
Qed.
Lemma sid_inj l a b : NoDup (map sid l) -> In a l -> In b l -> sid a = sid b -> a = b.
Proof.
  induction l as [|s l IH]; [intros _ []|]. cbn [map]. intro D. inversion D; subst. intros [->|A] [->|B] E; auto.
  - exfalso. apply H1. rewrite E. apply in_map. exact B.
  - exfalso. apply H1. rewrite <- E. apply in_map. exact A.
Qed.
Lemma name_inj l a b : keys_ok (absl l) -> In a l -> In b l -> same (sname a) (sname b) = true -> a = b.
Proof.
  unfold keys_ok, absl. rewrite map_map. cbn [fst].
  induction l as [|s l IH]; [intros _ []|]. cbn [map]. intro D. inversion D; subst. intros [->|A] [->|B] E; auto.
  - exfalso. apply H1. apply same_iff in E. rewrite E. apply (in_map (fun x => map up (sname x))). exact B.
  - exfalso. apply H1. apply same_iff in E. rewrite <- E. apply (in_map (fun x => map up (sname x))). exact A.
Qed.
Lemma find_unique p m name s : inv p m -> In s (secs p) -> same name (sname s) = true -> find_sec name (secs p) = Some s.
Proof.
  intros I Hi Hs. pose proof (find_sec_ok name (secs p)) as F. destruct (find_sec name (secs p)) as [s'|].
  - destruct F as (I' & S' & _). f_equal. apply (name_inj (secs p)); try assumption; [rewrite (i_abs _ _ I); apply (i_keys _ _ I)|].
    rewrite (same_trans name (sname s') (sname s) S'). exact Hs.
  - exfalso. rewrite assoc_None in F. specialize (F (sname s, kvs s)). cbn [fst] in F.
    rewrite F in Hs; [discriminate|]. apply (in_map (fun s => (sname s, kvs s))). exact Hi.
Qed.
Definition new_sec (p : ini) (name : list Z) : ini :=
  mk_ini (secs p ++ [mk_sec (nid p) name []]) (Some (nid p)) (u64 (pred p + (zlen name + 6))) (nid p + 1).
Lemma search_ok ok p m auto name : inv p m -> name <> [] -> (auto = true -> text name /\ zlen name <= 63) ->
  search_target_section ok p auto name =
  match find_sec name (secs p) with
  | Some s => Ret (Some (sid s), p)
  | None => if auto && (ok_sec ok && ok_list ok && ok_snode ok) then Ret (Some (nid p), new_sec p name) else Ret (None, p)
  end.
Proof.
  intros I Hn Ht. unfold search_target_section.
  destruct (Z.eqb_spec (zlen name) 0) as [E|_]; [destruct name; [congruence|rewrite zlen_cons in E; pose proof (zlen_nonneg name); lia]|].
  assert (B : (do hit <- match last p with
              | None => Ret None
              | Some id => match sec_at id (secs p) with
                           | None => Ub
                           | Some s => Ret (if strcase_eq name (sname s) then Some id else None)
                           end
              end; Ret hit) = Ret (match last p with
              | None => None
              | Some id => match sec_at id (secs p) with Some s => if same name (sname s) then Some id else None | None => None end end)).
  { pose proof (i_last _ _ I) as L. destruct (last p) as [id|]; [|reflexivity]. destruct L as (l & s & Es & Ei).
    pose proof (sec_at_ok id (secs p)) as S. destruct (sec_at id (secs p)) as [s'|].
    - rewrite same_lower. reflexivity.
    - exfalso. apply (S s); [rewrite Es; apply in_or_app; right; left; reflexivity|exact Ei]. }
  destruct (match last p with None => Ret None | Some id => _ end) as [hit| | |]; cbn [bind] in B; try discriminate. injection B as ->. cbn [bind].
  pose proof (i_last _ _ I) as L. destruct (last p) as [id|] eqn:El.
  - pose proof (sec_at_ok id (secs p)) as S. destruct (sec_at id (secs p)) as [s'|] eqn:Ea.
    + destruct S as [Is Ei]. destruct (same name (sname s')) eqn:En.
      * rewrite (find_unique p m name s' I Is En), Ei. reflexivity.
      * destruct (Z.eqb_spec (zlen (secs p)) 0) as [Z0|_].
        { destruct (secs p); [destruct Is|rewrite zlen_cons in Z0; pose proof (zlen_nonneg l); lia]. }
        rewrite andb_false_r. destruct (find_sec name (secs p)) as [s|]; [reflexivity|].
        destruct auto; cbn [negb andb]; [|reflexivity]. destruct (Ht eq_refl) as [Tn Ln].
        destruct (ok_sec ok), (ok_list ok); cbn [negb andb]; try reflexivity.
        rewrite strlcpy_arr_ok by (try exact Tn; reflexivity). cbn [bind]. rewrite ztake_all by (unfold SECTION_NAME_MAX_SIZE; lia).
        destruct (ok_snode ok); reflexivity.
    + exfalso. destruct L as (l & s & Es & Ei). apply (S s); [rewrite Es; apply in_or_app; right; left; reflexivity|exact Ei].
  - rewrite L. change (zlen (@nil section) =? 0) with true. rewrite andb_true_r. cbn [find_sec].
    destruct auto; cbn [negb andb]; [|reflexivity]. destruct (Ht eq_refl) as [Tn Ln].
    destruct (ok_sec ok), (ok_list ok); cbn [negb andb]; try reflexivity.
    rewrite strlcpy_arr_ok by (try exact Tn; reflexivity). cbn [bind]. rewrite ztake_all by (unfold SECTION_NAME_MAX_SIZE; lia).
    destruct (ok_snode ok); [|reflexivity]. unfold new_sec. rewrite L. reflexivity.
Qed.
Lemma search_empty ok p auto : search_target_section ok p auto [] = Ret (None, p). Proof. reflexivity. Qed.

(** Proofs for C72, part 4: one call in a history *)
From Verif Require Import CBase CStr StringsModel TimeModel ThreadLib XlogModel XlogSpec XlogMtModel XlogMtSpec XlogMtProof.

Definition plain (a : acc) : Prop := match a with AStart _ | AEnd => False | _ => True end.
Lemma passes_plain v g : passes v g -> Forall plain g. Proof. intros (a & b & c & -> & _). repeat constructor. Qed.
Lemma fails_plain v g : fails v g -> Forall plain g. Proof. intros [->|[(a & b & -> & _)|(a & b & c & -> & _)]]; repeat constructor. Qed.
Lemma outs_plain evs : Forall plain (map AOut evs). Proof. induction evs; constructor; auto. exact Logic.I. Qed.
Lemma does_shape c b : does c b -> exists m, b = AStart c :: m ++ [AEnd] /\ Forall plain m.
Proof.
  intro D. inversion D as [o O|o O|v x|r g G|r g g' HX G G'|r g evs HX G|r g g' evs HX G G']; subst.
  - exists [AWrite o]. split; [reflexivity|repeat constructor].
  - exists []. split; [reflexivity|constructor].
  - exists [AGet v x]. split; [reflexivity|repeat constructor].
  - exists g. split; [reflexivity|]. eapply fails_plain; exact G.
  - exists (g ++ g'). rewrite <- app_assoc. split; [reflexivity|]. apply Forall_app. split; [eapply passes_plain; exact G|eapply fails_plain; exact G'].
  - exists (g ++ AMake r :: map AOut evs). rewrite <- app_assoc. split; [reflexivity|]. apply Forall_app. split; [eapply passes_plain; exact G|]. constructor; [exact Logic.I|apply outs_plain].
  - exists (g ++ g' ++ AMake r :: map AOut evs). rewrite <- !app_assoc. split; [reflexivity|]. apply Forall_app. split; [eapply passes_plain; exact G|]. apply Forall_app. split; [eapply passes_plain; exact G'|]. constructor; [exact Logic.I|apply outs_plain].
Qed.
Lemma plain_notin l a : Forall plain l -> ~ plain a -> ~ In a l.
Proof. intros F N H. rewrite Forall_forall in F. apply N, F, H. Qed.
(** x occurs in neither of two parts: the parts are equal *)
Lemma split_at {A} (x : A) a b c d : ~ In x a -> ~ In x c -> a ++ x :: b = c ++ x :: d -> a = c /\ b = d.
Proof.
  revert c. induction a as [|y a IH]; intros [|z c] H1 H2 E; cbn in E.
  - injection E as ->. auto.
  - injection E as -> _. destruct H2. left. reflexivity.
  - injection E as -> _. destruct H1. left. reflexivity.
  - injection E as -> E. destruct (IH c) as [-> ->]; auto; intro X; [apply H1|apply H2]; right; exact X.
Qed.
Lemma one_call cs ls : Forall2 does cs ls -> forall l P c M Q, (l = [] \/ exists c l', l' <> [] /\ does c (l ++ l')) ->
  concat ls ++ l = P ++ AStart c :: M ++ AEnd :: Q -> ~ In AEnd M -> does c (AStart c :: M ++ [AEnd]).
Proof.
  induction 1 as [|c0 b cs ls D F IH]; intros l P c M Q L E NE.
  - exfalso. cbn in E. destruct L as [->|(c1 & l' & N & D)]; [destruct P; discriminate|]. destruct (does_shape _ _ D) as (m & Em & PM). destruct (exists_last N) as (l1 & x & ->). rewrite app_assoc in Em.
    change (AStart c1 :: m ++ [AEnd]) with ((AStart c1 :: m) ++ [AEnd]) in Em. apply app_inj_tail in Em as [Em _]. assert (I : In AEnd (AStart c1 :: m)) by (rewrite <- Em, E; apply in_or_app; left; apply in_or_app; right; right; apply in_or_app; right; left; reflexivity).
    destruct I as [I|I]; [discriminate|]. eapply plain_notin; [exact PM| |exact I]. cbn. tauto.
  - cbn [concat] in E. rewrite <- app_assoc in E. destruct (does_shape _ _ D) as (m & -> & PM). cbn [app] in E. rewrite <- app_assoc in E. cbn [app] in E.
    assert (NM : ~ In AEnd m) by (eapply plain_notin; [exact PM|cbn; tauto]). destruct P as [|a P]; cbn [app] in E.
    + injection E as -> E. destruct (split_at AEnd _ _ _ _ NM NE E) as [-> _]. exact D.
    + injection E as <- E. assert (IA : In AEnd P).
      { assert (NS : ~ In (AStart c) m) by (eapply plain_notin; [exact PM|cbn; tauto]). clear - E NM NS. revert P E. induction m as [|x m IHm]; intros [|y P] E; cbn in E.
        - discriminate.
        - injection E as <- _. left. reflexivity.
        - injection E as -> _. destruct NS. left. reflexivity.
        - injection E as <- E. right. apply IHm; [| |exact E]; intro X; [apply NM|apply NS]; right; exact X. }
      apply in_split in IA as (P1 & P2 & ->). assert (EX : exists P1 P2', P1 ++ AEnd :: P2' = P1 ++ AEnd :: P2') by (exists [], []; reflexivity). clear EX.
      (* take the first AEnd of P *)
      assert (FI : exists A B, P1 ++ AEnd :: P2 = A ++ AEnd :: B /\ ~ In AEnd A).
      { clear. induction P1 as [|x P1 IH]; [exists [], P2; split; [reflexivity|intros []]|]. destruct IH as (A & B & E & N). assert (DX : x = AEnd \/ x <> AEnd) by (destruct x; auto; right; discriminate).
        destruct DX as [->|NX]; [exists [], (P1 ++ AEnd :: P2); split; [reflexivity|intros []]|]. exists (x :: A), B. split; [cbn; f_equal; exact E|]. intros [X|X]; [congruence|exact (N X)]. }
      destruct FI as (A & B & EAB & NA). rewrite EAB, <- app_assoc in E. cbn [app] in E. destruct (split_at AEnd _ _ _ _ NM NA E) as [_ E2]. eapply IH; [exact L|exact E2|exact NE].
Qed.

Lemma keep_levels h : Forall keeps_levels h -> forall d, latest (fun o => match o with SetTarget t => if 0 <=? t then Some t else None | _ => None end) d h = d /\
  latest (fun o => match o with SetMin l => if (0 <=? l) && (l <=? 5) then Some l else None | _ => None end) d h = d.
Proof. induction 1 as [|o h K F IH]; intro d; [auto|]. destruct o; try contradiction; cbn; apply IH. Qed.
Lemma latest_app {V} (f : op -> option V) a : forall d b, latest f d (a ++ b) = latest f (latest f d a) b.
Proof. induction a as [|x a IH]; intros d b; cbn; [reflexivity|apply IH]. Qed.
Lemma target_keep a b : Forall keeps_levels b -> target (a ++ b) = target a /\ min_level (a ++ b) = min_level a.
Proof. intro K. unfold target, min_level. rewrite !latest_app. destruct (keep_levels b K (latest (fun o => match o with SetTarget t => if 0 <=? t then Some t else None | _ => None end) 4 a)) as (-> & _).
  destruct (keep_levels b K (latest (fun o => match o with SetMin l => if (0 <=? l) && (l <=? 5) then Some l else None | _ => None end) 1 a)) as (_ & ->). auto. Qed.
Lemma writes_app a b : writes (a ++ b) = writes a ++ writes b. Proof. apply flat_map_app. Qed.
Lemma in_proj t a m : In a (proj t m) -> exists m1 m2, m = m1 ++ (t, a) :: m2.
Proof.
  intro H. apply in_flat_map in H as ((u, x) & I & E). cbn in E. destruct (Nat.eqb u t) eqn:Q; [|contradiction]. apply Nat.eqb_eq in Q. destruct E as [E|[]]. subst. apply in_split. exact I.
Qed.

From Verif Require Import CBase SeqLib DirModel DirSpec.
From Coq Require Import Permutation.

Lemma release_at : forall i pre post w, sane w -> live w = pre ++ i :: post ->
  exists w', release i w = Ret w' /\ live w' = pre ++ post /\ nxt w' = nxt w /\ orc w' = orc w /\ sane w'.
Proof.
  intros i pre post w (H1 & H2 & H3) L. unfold release.
  assert (E : existsb (Nat.eqb i) (live w) = true).
  { apply existsb_exists. exists i. split; [rewrite L; apply in_or_app; right; left; auto | apply Nat.eqb_refl]. }
  rewrite E. eexists. split; [reflexivity|]. cbn [live nxt orc].
  assert (F : filter (fun j => negb (Nat.eqb i j)) (live w) = pre ++ post).
  { rewrite L in *. apply NoDup_remove in H3. destruct H3 as [_ N].
    assert (K : forall l, ~ In i l -> filter (fun j => negb (Nat.eqb i j)) l = l).
    { clear. induction l as [|a l IH]; intros N; auto. cbn [filter]. destruct (Nat.eqb_spec i a) as [->|Q]; [destruct N; left; auto|].
      cbn [negb]. rewrite IH; auto. intro; apply N; right; auto. }
    rewrite filter_app. cbn [filter]. rewrite Nat.eqb_refl. cbn [negb].
    rewrite !K; auto; intro; apply N; apply in_or_app; auto. }
  rewrite F. split; [auto|]. split; [auto|]. split; [auto|]. split; [|split]; cbn [live nxt].
  - lia.
  - intros j J. apply H2. rewrite L. apply in_app_or in J. apply in_or_app. cbn [In]. tauto.
  - rewrite L in H3. apply NoDup_remove in H3. tauto.
Qed.
Lemma acquire_sane : forall w, sane w -> sane (snd (acquire w)) /\ live (snd (acquire w)) = nxt w :: live w.
Proof.
  intros w (H1 & H2 & H3). cbn. split; [|auto]. split; [cbn; lia|]. split; cbn.
  - intros i [<-|I]; [lia|]. specialize (H2 _ I). lia.
  - constructor; auto. intro I. specialize (H2 _ I). lia.
Qed.
Lemma malloc_cases : forall w, sane w ->
  (exists w', malloc_ w = (None, w') /\ live w' = live w /\ sane w' /\ nxt w' = nxt w) \/
  (exists i w', malloc_ w = (Some i, w') /\ live w' = i :: live w /\ sane w' /\ (1 <= i)%nat /\ ~ In i (live w)).
Proof.
  intros w S. pose proof S as (H1 & H2 & H3). unfold malloc_. destruct (orc w) as [|[] t].
  - right. exists (nxt w), (snd (acquire w)). split; [reflexivity|]. destruct (acquire_sane w S) as [A B].
    split; [auto|]. split; [auto|]. split; [lia|]. intro I. specialize (H2 _ I). lia.
  - right. set (v := mk_w t (nxt w) (live w)). assert (S' : sane v) by exact S.
    exists (nxt v), (snd (acquire v)). split; [reflexivity|]. destruct (acquire_sane v S') as [A B].
    split; [auto|]. split; [auto|]. split; [cbn; lia|]. intro I. specialize (H2 _ I). cbn in *. lia.
  - left. eexists. split; [reflexivity|]. cbn. auto.
Qed.

(** a stream stands at a place, and holds exactly what it should; base: what others hold *)
Definition stands (base : list nat) (p : place) (d : dir) (w : world) : Prop :=
  sane w /\ (1 <= p_id d)%nat /\
  match p with
  | At l => invalid d = false /\ exists i t, hnd d = Some (i, t) /\ l = (if cached d then [data d] else []) ++ t /\
            live w = i :: p_id d :: w_id d :: d_id d :: base
  | Nowhere => invalid d = true /\ exists i t, hnd d = Some (i, t) /\ live w = i :: p_id d :: w_id d :: d_id d :: base
  | Lost => invalid d = true /\ hnd d = None /\ live w = p_id d :: w_id d :: d_id d :: base
  end.
Definition same (d d' : dir) : Prop := d_id d' = d_id d /\ w_id d' = w_id d /\ p_id d' = p_id d.

Lemma next_at : forall base e r d w, stands base (At (e :: r)) d w ->
  exists d', next d = (Some e, d') /\ data d' = e /\ cached d' = false /\ stands base (At r) d' w /\ stands base (At (e :: r)) (set_cached d') w.
Proof.
  intros base e r d w (S & P & I & i & t & H & L & V). unfold next. rewrite I.
  destruct (cached d) eqn:C; cbn [app] in L.
  - injection L as E1 E2. rewrite E1. eexists. split; [reflexivity|]. cbn [data cached].
    split; [auto|]. split; [auto|].
    split; (split; [auto|]; split; [auto|]; cbn; split; [auto|]; exists i, t; rewrite <- ?E1, ?E2; auto).
  - rewrite H. subst t. eexists. split; [reflexivity|]. cbn [data cached].
    split; [auto|]. split; [auto|].
    split; (split; [auto|]; split; [auto|]; cbn; split; [auto|]; exists i, r; auto).
Qed.
Lemma next_none : forall base p d w, stands base p d w -> (match p with At (_ :: _) => False | _ => True end) -> next d = (None, d).
Proof.
  intros base p d w (S & P & X) N. unfold next. destruct p as [[|e r]| |]; [|tauto| |].
  - destruct X as (I & i & t & H & L & V). rewrite I. destruct (cached d); [discriminate L|]. cbn in L. subst t. rewrite H. auto.
  - destruct X as (I & _). rewrite I. auto.
  - destruct X as (I & _). rewrite I. auto.
Qed.

Lemma read_ok : forall conv base p d w, stands base p d w ->
  exists d', readdir conv d = (match p with At (e :: r) => Some (entry conv e r) | _ => None end, d') /\
    stands base (match p with At (_ :: r) => At r | _ => p end) d' w.
Proof.
  intros conv base p d w X.
  assert (D : (exists e r, p = At (e :: r)) \/ (match p with At (_ :: _) => False | _ => True end)) by (destruct p as [[|e r]| |]; eauto).
  destruct D as [(e & r & ->)|N].
  - destruct (next_at _ _ _ _ _ X) as (d1 & E1 & D1 & C1 & X1 & _). unfold readdir. rewrite E1.
    unfold entry, shown.
    replace (if (length (alt e) =? 0)%nat then None else conv (alt e)) with (match alt e with [] => None | _ => conv (alt e) end)
      by (destruct (alt e); auto).
    destruct (match conv (nm e) with Some s => Some s | None => match alt e with [] => None | _ => conv (alt e) end end) as [s|]; [|eauto].
    destruct r as [|e2 r].
    + rewrite (next_none _ _ _ _ X1 I). eauto.
    + destruct (next_at _ _ _ _ _ X1) as (d2 & E2 & D2 & C2 & X2 & X3). rewrite E2. eauto.
  - unfold readdir. rewrite (next_none _ _ _ _ X N). exists d. destruct p as [[|e r]| |]; try tauto; auto.
Qed.
Lemma tell_ok : forall base p d w, stands base p d w ->
  exists d', telldir d = (match p with At l => pos_of l | Nowhere => LONG_MAX | Lost => -1 end, d') /\ stands base p d' w.
Proof.
  intros base p d w X. unfold telldir. destruct p as [[|e r]| |].
  - pose proof X as (S & P & I & i & t & H & L & V). rewrite H, (next_none _ _ _ _ X Logic.I). eauto.
  - pose proof X as (S & P & I & i & t & H & L & V). rewrite H. destruct (next_at _ _ _ _ _ X) as (d2 & E2 & D2 & C2 & X2 & X3). rewrite E2. cbn [pos_of]. eauto.
  - pose proof X as (S & P & I & i & t & H & V). rewrite H, (next_none _ _ _ _ X Logic.I). eauto.
  - pose proof X as (S & P & I & H & V). rewrite H. eauto.
Qed.

(** dirent_first *)
Lemma first_at : forall base ans d w, sane w -> (1 <= p_id d)%nat -> live w = p_id d :: w_id d :: d_id d :: base ->
  match listing ans with
  | [] => exists d' w', first ans d w = (false, d', w') /\ stands base Lost d' w' /\ same d d'
  | l => exists d' w', first ans d w = (true, d', w') /\ invalid d' = invalid d /\ stands base (At l) (set_invalid d' false) w' /\
           (exists i t, hnd d' = Some (i, t) /\ live w' = i :: p_id d' :: w_id d' :: d_id d' :: base) /\ sane w' /\ (1 <= p_id d')%nat /\ same d d'
  end.
Proof.
  intros base ans d w S P L. destruct ans as [[|e r]|]; cbn [listing first].
  - eexists _, _. split; [reflexivity|]. split; [|repeat split]. split; [auto|]. cbn. auto.
  - pose proof (acquire_sane w S) as (A & B). destruct (acquire w) as [i w'] eqn:Q. cbn [snd] in *.
    assert (i = nxt w) by (unfold acquire in Q; congruence). subst i.
    eexists _, _. split; [reflexivity|]. cbn. split; [auto|].
    assert (K : live w' = nxt w :: p_id d :: w_id d :: d_id d :: base) by congruence.
    split; [split; [auto|]; cbn; split; [auto|]; split; [auto|]; exists (nxt w), r; auto|].
    split; [exists (nxt w), r; auto|]. split; [auto|]. split; [auto|]. repeat split.
  - eexists _, _. split; [reflexivity|]. split; [|repeat split]. split; [auto|]. cbn. auto.
Qed.
Lemma loop_ok : forall loc l fuel base d w, stands base (At l) d w -> (length l < fuel)%nat ->
  exists b d', seek_loop fuel loc d = Ret (b, d') /\
    stands base (from_hash loc l) (if b then set_invalid (set_cached d') false else set_invalid d' true) w.
Proof.
  intros loc l. induction l as [|e r IH]; intros fuel base d w X F; (destruct fuel as [|f]; [cbn in F; lia|]); cbn [seek_loop from_hash].
  - rewrite (next_none _ _ _ _ X I). exists false, d. split; [auto|]. destruct X as (S & P & J & i & t & H & L & V).
    split; [auto|]. split; [auto|]. cbn. split; [auto|]. eauto.
  - destruct (next_at _ _ _ _ _ X) as (d2 & E2 & D2 & C2 & X2 & X3). rewrite E2.
    destruct (Z.eqb_spec (hash (nm e)) loc) as [Q|Q].
    + exists true, d2. split; [auto|]. cbn iota. destruct X3 as (S & P & J & i & t & H & L & V).
      split; [auto|]. split; [auto|]. cbn in *. split; [auto|]. eauto 8.
    + cbn in F. destruct (IH f base d2 w X2) as (b & d' & E & Y); [lia|]. eauto.
Qed.

Lemma search_again : forall base i d w, sane w -> (1 <= p_id d)%nat -> live w = i :: p_id d :: w_id d :: d_id d :: base ->
  exists w', release i w = Ret w' /\ live w' = p_id d :: w_id d :: d_id d :: base /\ sane w'.
Proof.
  intros base i d w S P L. destruct (release_at i [] (p_id d :: w_id d :: d_id d :: base) w S L) as (w' & E & V & _ & _ & S'). eauto.
Qed.
Lemma handle_of : forall base p d w, stands base p d w -> p <> Lost ->
  exists i t, hnd d = Some (i, t) /\ live w = i :: p_id d :: w_id d :: d_id d :: base /\ sane w /\ (1 <= p_id d)%nat /\
    invalid d = match p with At _ => false | _ => true end.
Proof. intros base p d w (S & P & X) N. destruct p; [| |tauto]; destruct X as (I & i & t & H & X); exists i, t; [destruct X as [_ X]|]; auto. Qed.
Lemma seek_lost : forall base p d w, stands base p d w -> p <> Lost -> stands base Nowhere (set_invalid d true) w.
Proof. intros base p d w X N. destruct (handle_of _ _ _ _ X N) as (i & t & H & L & S & P & _). split; [auto|]. split; [auto|]. cbn. eauto. Qed.

Lemma seek_ok : forall base loc ans p d w, stands base p d w ->
  exists d' w', seekdir ans loc d w = Ret (d', w') /\ stands base (snd (step (fun _ => None) p (OSeek loc ans))) d' w'.
Proof.
  intros base loc ans p d w X. unfold seekdir.
  destruct (match p with Lost => true | _ => false end) eqn:Q.
  - destruct p; try discriminate. destruct X as (S & P & I & H & V). rewrite H. eexists _, _. split; [reflexivity|]. cbn [step snd].
    split; [auto|]. split; [auto|]. cbn. auto.
  - assert (N : p <> Lost) by (intro; subst; discriminate).
    destruct (handle_of _ _ _ _ X N) as (i & t & H & L & S & P & _). rewrite H.
    replace (snd (step (fun _ => None) p (OSeek loc ans))) with
      (if loc <? 0 then Nowhere else match listing ans with [] => Lost | l => from_hash loc l end) by (destruct p; [| |tauto]; reflexivity).
    destruct (loc <? 0) eqn:Z0; [eexists _, _; split; [reflexivity|]; eapply seek_lost; eauto|].
    destruct (search_again base i d w S P L) as (w1 & E1 & L1 & S1). rewrite E1. cbn [bind].
    pose proof (first_at base ans d w1 S1 P L1) as F. change (match ans with Some l => l | None => [] end) with (listing ans).
    destruct (listing ans) as [|e r] eqn:LA.
    + destruct F as (d' & w' & E & Y & _). rewrite E. cbn [negb]. eexists _, _. split; [reflexivity|].
      destruct Y as (Ys & Yp & Yi & Yh & Yv). split; [auto|]. split; [auto|]. cbn. auto.
    + destruct F as (d' & w' & E & I & Y & _). rewrite E. cbn [negb].
      destruct (loop_ok loc (e :: r) (2 + length (e :: r)) base (set_invalid d' false) w' Y ltac:(lia)) as (b & d2 & E2 & Y2).
      rewrite E2. cbn [bind fst snd]. eexists _, _. split; [reflexivity|]. exact Y2.
Qed.
Lemma rewind_ok : forall base ans p d w, stands base p d w ->
  exists d' w', rewinddir ans d w = Ret (d', w') /\ stands base (snd (step (fun _ => None) p (ORewind ans))) d' w'.
Proof.
  intros base ans p d w X. unfold rewinddir.
  destruct (match p with Lost => true | _ => false end) eqn:Q.
  - destruct p; try discriminate. pose proof X as (S & P & I & H & V). rewrite H. eexists _, _. split; [reflexivity|]. exact X.
  - assert (N : p <> Lost) by (intro; subst; discriminate).
    destruct (handle_of _ _ _ _ X N) as (i & t & H & L & S & P & J). rewrite H.
    destruct (search_again base i d w S P L) as (w1 & E1 & L1 & S1). rewrite E1. cbn [bind].
    pose proof (first_at base ans d w1 S1 P L1) as F.
    replace (snd (step (fun _ => None) p (ORewind ans))) with
      (match listing ans with [] => Lost | l => match p with Nowhere => Nowhere | _ => At l end end) by (destruct p; [| |tauto]; reflexivity).
    destruct (listing ans) as [|e r] eqn:LA.
    + destruct F as (d' & w' & E & Y & _). rewrite E. eauto.
    + destruct F as (d' & w' & E & I & Y & (i2 & t2 & H2 & L2) & S2 & P2 & _). rewrite E. eexists _, _. split; [reflexivity|].
      destruct p; [| |tauto].
      * destruct Y as (Ys & Yp & Yi & i3 & t3 & Yh & Yl & Yv). split; [auto|]. split; [auto|]. cbn in *. split; [congruence|]. eauto.
      * split; [auto|]. split; [auto|]. split; [congruence|]. eauto.
Qed.
Lemma do1_ok : forall conv base o p d w, stands base p d w ->
  exists d' w', do1 conv d w o = Ret (fst (step conv p o), d', w') /\ stands base (snd (step conv p o)) d' w'.
Proof.
  intros conv base o p d w X. destruct o as [| |loc ans|ans]; cbn [do1].
  - destruct (read_ok conv _ _ _ _ X) as (d' & E & Y). rewrite E. exists d', w. cbn [step].
    destruct p as [[|e r]| |]; auto.
  - destruct (tell_ok _ _ _ _ X) as (d' & E & Y). rewrite E. exists d', w. cbn [step fst snd]. auto.
  - destruct (seek_ok base loc ans _ _ _ X) as (d' & w' & E & Y). rewrite E. cbn [bind fst snd]. exists d', w'. auto.
  - destruct (rewind_ok base ans _ _ _ X) as (d' & w' & E & Y). rewrite E. cbn [bind fst snd]. exists d', w'. auto.
Qed.
Lemma do_all_ok : forall conv base os p d w, stands base p d w ->
  exists d' w', do_all conv d w os = Ret (fst (steps conv p os), d', w') /\ stands base (snd (steps conv p os)) d' w'.
Proof.
  intros conv base os. induction os as [|o os IH]; intros p d w X; cbn [do_all steps]; [exists d, w; auto|].
  destruct (do1_ok conv base o p d w X) as (d1 & w1 & E1 & X1). rewrite E1. cbn [bind].
  destruct (step conv p o) as [v q]. cbn [fst snd] in *.
  destruct (IH q d1 w1 X1) as (d2 & w2 & E2 & X2). rewrite E2. cbn [bind].
  destruct (steps conv q os) as [vs q2]. cbn [fst snd] in *. eauto.
Qed.

(** ** Closing and opening *)
Lemma close_ok : forall base p d w, stands base p d w -> exists w', closedir d w = Ret (0, w') /\ live w' = base /\ sane w'.
Proof.
  intros base p d w X. unfold closedir, wclosedir.
  assert (A : exists w1, match hnd d with Some (i, _) => release i w | None => Ret w end = Ret w1 /\ sane w1 /\ live w1 = p_id d :: w_id d :: d_id d :: base /\ (1 <= p_id d)%nat).
  { destruct p; destruct X as (S & P & X).
    - destruct X as (I & i & t & H & L & V). rewrite H. destruct (search_again base i d w S P V) as (w1 & E1 & L1 & S1). eauto.
    - destruct X as (I & i & t & H & V). rewrite H. destruct (search_again base i d w S P V) as (w1 & E1 & L1 & S1). eauto.
    - destruct X as (I & H & V). rewrite H. eauto. }
  destruct A as (w1 & E1 & S1 & L1 & P). rewrite E1. cbn [bind].
  destruct (Nat.eqb_spec (p_id d) 0) as [Q|Q]; [lia|].
  destruct (release_at (p_id d) [] (w_id d :: d_id d :: base) w1 S1 L1) as (w2 & E2 & L2 & _ & _ & S2). rewrite E2. cbn [bind].
  destruct (release_at (w_id d) [] (d_id d :: base) w2 S2 L2) as (w3 & E3 & L3 & _ & _ & S3). rewrite E3. cbn [bind].
  destruct (release_at (d_id d) [] base w3 S3 L3) as (w4 & E4 & L4 & _ & _ & S4). rewrite E4. cbn [bind]. eauto.
Qed.

Lemma sepb : forall p, ((last p 0 =? 92) || (last p 0 =? 47) || (last p 0 =? 58) = true -> ends_in_sep p) /\
  (ends_in_sep p -> (last p 0 =? 92) || (last p 0 =? 47) || (last p 0 =? 58) = true).
Proof.
  intros p. split.
  - intros H. destruct p as [|a p0] eqn:E; [cbn in H; discriminate|]. rewrite <- E in *.
    assert (N : p <> []) by (rewrite E; discriminate).
    exists (removelast p), (last p 0). split; [apply app_removelast_last; auto|]. lia.
  - intros (q & c & -> & C). rewrite last_last. lia.
Qed.
Lemma pattern_ok : forall p, p <> [] -> exists t, pattern (Some p) (Some p) = Ret (Some t) /\
  (ends_in_sep p -> t = p ++ [42]) /\ (~ ends_in_sep p -> t = p ++ [92; 42]).
Proof.
  intros p N. unfold pattern. destruct (Z.eqb_spec (Z.of_nat (length p)) 0) as [Q|Q]; [destruct p; [tauto|cbn in Q; lia]|].
  destruct (Z.leb_spec (Z.of_nat (length p) + 1) (Z.of_nat (length p))) as [R|R]; [lia|].
  destruct (sepb p) as [S1 S2].
  set (b := (last p 0 =? 92) || (last p 0 =? 47) || (last p 0 =? 58)) in *.
  destruct (Z.ltb_spec (Z.of_nat (length (if b then p ++ [42] else p ++ [92; 42]))) (Z.of_nat (length p) + 1 + 8)) as [T|T].
  - eexists. split; [reflexivity|]. destruct b; split; intros H; auto.
    + destruct (H (S1 eq_refl)).
    + specialize (S2 H). discriminate.
  - exfalso. destruct b; rewrite app_length in T; cbn in T; lia.
Qed.
Lemma pattern_stable : forall p, exists r, pattern p p = Ret r /\ (r = None <-> p = None \/ p = Some []).
Proof.
  intros [p|].
  - destruct p as [|a p]; [exists None; split; [reflexivity|]; tauto|].
    destruct (pattern_ok (a :: p)) as (t & E & _); [discriminate|]. exists (Some t). split; [auto|]. split; [discriminate|]. intros [H|H]; discriminate.
  - exists None. cbn. split; [auto|]. tauto.
Qed.

Lemma wclose_partial : forall d w b1 base, sane w -> hnd d = None ->
  live w = (if Nat.eqb (p_id d) 0 then [] else [p_id d]) ++ w_id d :: b1 :: base -> (do w <- wclosedir d w; do w <- release b1 w; Ret (@None (dir * list Z), w)) =
    Ret (None, match (do w <- wclosedir d w; release b1 w) with Ret w' => w' | _ => w end) /\
  live (match (do w <- wclosedir d w; release b1 w) with Ret w' => w' | _ => w end) = base /\
  sane (match (do w <- wclosedir d w; release b1 w) with Ret w' => w' | _ => w end).
Proof.
  intros d w b1 base S H L. unfold wclosedir. rewrite H. cbn [bind].
  assert (A : exists w1, (if Nat.eqb (p_id d) 0 then Ret w else release (p_id d) w) = Ret w1 /\ sane w1 /\ live w1 = w_id d :: b1 :: base).
  { destruct (Nat.eqb (p_id d) 0); cbn [app] in L; [eauto|].
    destruct (release_at (p_id d) [] (w_id d :: b1 :: base) w S L) as (w2 & E2 & L2 & _ & _ & S2). eauto. }
  destruct A as (w1 & E1 & S1 & L1). rewrite E1. cbn [bind].
  destruct (release_at (w_id d) [] (b1 :: base) w1 S1 L1) as (w3 & E3 & L3 & _ & _ & S3). rewrite E3. cbn [bind].
  destruct (release_at b1 [] base w3 S3 L3) as (w4 & E4 & L4 & _ & _ & S4). rewrite E4. cbn [bind]. auto.
Qed.

Lemma open_ok : forall name p1 p2 ans w, sane w -> p1 = p2 ->
  exists r w', opendir name p1 p2 ans w = Ret (r, w') /\ sane w' /\
    match r with
    | None => live w' = live w
    | Some (d, t) => name <> None /\ name <> Some [] /\ listing ans <> [] /\ stands (live w) (At (listing ans)) d w' /\ pattern p1 p2 = Ret (Some t)
    end.
Proof.
  intros name p1 p2 ans w S <-. unfold opendir.
  destruct (malloc_cases w S) as [(w1 & E1 & L1 & S1 & _)|(di & w1 & E1 & L1 & S1 & P1 & F1)]; rewrite E1; [exists None, w1; auto|].
  assert (R1 : exists w', release di w1 = Ret w' /\ live w' = live w /\ sane w').
  { destruct (release_at di [] (live w) w1 S1 L1) as (w' & E & L & _ & _ & S'). eauto. }
  destruct R1 as (wr & Er & Lr & Sr).
  destruct name as [[|c name]|]; try (rewrite Er; cbn [bind]; exists None, wr; auto; fail).
  destruct (malloc_cases w1 S1) as [(w2 & E2 & L2 & S2 & _)|(wi & w2 & E2 & L2 & S2 & P2 & F2)]; rewrite E2.
  { destruct (release_at di [] (live w) w2 S2) as (w' & E & L & _ & _ & S'); [rewrite L2; exact L1|]. rewrite E. cbn [bind]. exists None, w'. auto. }
  destruct (malloc_cases w2 S2) as [(w3 & E3 & L3 & S3 & _)|(pi & w3 & E3 & L3 & S3 & P3 & F3)]; rewrite E3.
  { edestruct (wclose_partial (mk_d di wi 0 None (mk_en [] [] 0) false false) w3 di (live w) S3 eq_refl) as (E & L & S').
    - cbn. rewrite L3, L2, L1. auto.
    - rewrite E. eexists None, _. split; [reflexivity|]. auto. }
  destruct (pattern_stable p1) as (t & Et & _). rewrite Et. cbn [bind].
  assert (L4 : live w3 = pi :: wi :: di :: live w) by congruence.
  assert (LF : forall w4, live w4 = pi :: wi :: di :: live w -> live w4 = (if Nat.eqb pi 0 then [] else [pi]) ++ wi :: di :: live w).
  { intros w4 ->. destruct (Nat.eqb_spec pi 0); [lia|]. auto. }
  destruct t as [t|].
  - set (d1 := mk_d di wi pi None (mk_en [] [] 0) false false).
    pose proof (first_at (live w) ans d1 w3 S3 P3 L4) as F.
    destruct (listing ans) as [|e r] eqn:LA.
    + destruct F as (d' & w' & E & Y & Q1 & Q2 & Q3). rewrite E. cbn iota.
      destruct Y as (Ys & Yp & Yi & Yh & Yv).
      edestruct (wclose_partial d' w' di (live w) Ys Yh) as (E5 & L5 & S5).
      * rewrite Yv. change (d_id d1) with di in Q1. rewrite Q1. destruct (Nat.eqb_spec (p_id d') 0); [lia|]. auto.
      * rewrite E5. eexists None, _. split; [reflexivity|]. auto.
    + destruct F as (d' & w' & E & I & Y & _ & S5 & P5 & _). rewrite E. cbn iota. eexists (Some (d', t)), w'. split; [reflexivity|].
      split; [auto|]. split; [discriminate|]. split; [discriminate|]. split; [discriminate|]. split; [|auto].
      destruct Y as (Ys & Yp & Yi & i3 & t3 & Yh & Yl & Yv). split; [auto|]. split; [auto|]. cbn in *. split; [rewrite I; auto|]. eauto.
  - set (d1 := mk_d di wi pi None (mk_en [] [] 0) false false).
    edestruct (wclose_partial d1 w3 di (live w) S3 eq_refl) as (E5 & L5 & S5); [apply LF; auto|].
    rewrite E5. eexists None, _. split; [reflexivity|]. auto.
Qed.
(** a stream is opened when there is memory, a name, a path and an entry *)
Lemma open_success : forall c name p ans w, sane w -> orc w = [] -> p <> [] -> listing ans <> [] ->
  exists d t w', opendir (Some (c :: name)) (Some p) (Some p) ans w = Ret (Some (d, t), w').
Proof.
  intros c name p ans w S O P L. unfold opendir.
  assert (M : forall v, orc v = [] -> malloc_ v = (Some (nxt v), mk_w [] (Datatypes.S (nxt v)) (nxt v :: live v))).
  { intros v Q. unfold malloc_, acquire. rewrite Q. auto. }
  rewrite (M w O), M, M by auto.
  destruct (pattern_ok p P) as (t & E & _). rewrite E. cbn [bind].
  destruct ans as [[|e r]|]; cbn [listing] in L; [tauto| |tauto]. cbn [first acquire]. eexists _, _, _. reflexivity.
Qed.

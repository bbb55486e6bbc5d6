From Verif Require Import CBase McsModel McsSpec McsProof McsProof2 McsProof6 McsProof7 McsTsoModel McsTsoSpec.

(** ** the machine without store buffers that does the same: each thread is where its last store to reach memory has put it *)
Definition wpcs (s : mst) (f : Z -> pc) : mst := mk_m (McsModel.tail s) (nxt s) (nfl s) (rfl s) (evs s) (nev s) f (mlog s).
Lemma mexec_wpcs s t ok f : f t = pcs s t ->
  mexec (wpcs s f) t ok = (do r <- mexec s t ok; Ret (match r with Some s' => Some (wpcs s' (upd f t (pcs s' t))) | None => None end)).
Proof.
  intro H. unfold mexec. change (pcs (wpcs s f) t) with (f t). rewrite H.
  assert (U : forall (g : Z -> pc) v, upd g t v t = v) by (intros; apply upd_eq).
  destruct (pcs s t) as [|n y|n y|n y|n|n|n p|k|k e|k|k|k eo|k eo|k eo|n|n|n|n] eqn:EP; cbn [bind]; unfold wpcs, after_wait, go, memit, set_tail, set_nxt, set_nfl, set_rfl, set_ev; cbn; rewrite ?U; try reflexivity.
  all: unfold wpcs, set_wflag, set_sflag, after_wait, go, memit, set_tail, set_nxt, set_nfl, set_rfl, set_ev; cbn.
  - destruct (McsModel.tail s); cbn; rewrite ?U; reflexivity.
  - destruct (McsModel.tail s); cbn; rewrite ?U; reflexivity.
  - destruct k; cbn; [destruct (nfl s p)|destruct (rfl s m)]; cbn; rewrite ?U; reflexivity.
  - destruct (evs s e); cbn; rewrite ?U; reflexivity.
  - destruct k; cbn; [destruct (rfl s n)|destruct (nfl s n)]; cbn; rewrite ?U; reflexivity.
  - destruct ok; cbn; rewrite ?U; reflexivity.
  - destruct k; cbn; [destruct (rfl s n)|destruct (nfl s n)]; cbn; rewrite ?U; reflexivity.
  - destruct eo as [e|]; cbn; [destruct (evs s e) as [|[|]]|]; cbn; rewrite ?U; reflexivity.
  - destruct eo as [e|]; destruct k; cbn; rewrite ?U; reflexivity.
  - destruct (nxt s n); cbn; rewrite ?U; reflexivity.
  - destruct (McsModel.tail s); [destruct (_ =? _)|]; cbn; rewrite ?U; reflexivity.
  - destruct (nxt s n); cbn; rewrite ?U; reflexivity.
Qed.
Lemma mexec_others s t ok s' : mexec s t ok = Ret (Some s') -> forall u, u <> t -> pcs s' u = pcs s u.
Proof. intros H u N. destruct (mexec_left s t ok s' H) as (_ & B). auto. Qed.

Definition data (e : lw) : Prop := match e with LD _ _ => True | _ => False end.
Definition rpc (p : pc) (b : list lw) (p' : pc) : Prop :=
  match p with
  | PInit2 n y => (b = [] /\ p' = p) \/ (b = [LNf n] /\ p' = PInit1 n y)
  | PInit3 n y => (b = [] /\ p' = p) \/ (b = [LRf n] /\ p' = PInit2 n y) \/ (b = [LNf n; LRf n] /\ p' = PInit1 n y)
  | PTry n => (b = [] /\ p' = p) \/ (b = [LNx n None] /\ p' = PInit3 n true) \/ (b = [LRf n; LNx n None] /\ p' = PInit2 n true) \/
              (b = [LNf n; LRf n; LNx n None] /\ p' = PInit1 n true)
  | PXchg n => (b = [] /\ p' = p) \/ (b = [LNx n None] /\ p' = PInit3 n false) \/ (b = [LRf n; LNx n None] /\ p' = PInit2 n false) \/
              (b = [LNf n; LRf n; LNx n None] /\ p' = PInit1 n false)
  | PSet (SNext n x) => (b = [] /\ p' = p) \/ (b = [LNx x (Some n)] /\ p' = PLink n x)
  | PHeld _ | PRel1 _ => p' = p /\ Forall data b
  | _ => b = [] /\ p' = p
  end.
Ltac rc H := cbn [rpc] in H; repeat match type of H with _ \/ _ => destruct H as [H|H] end; destruct H as [? ?]; subst; try discriminate.
Lemma rpc_own p b p' : rpc p b p' -> own p' = own p /\ inq p' = inq p /\ (b = [] -> p' = p).
Proof. intro H. destruct p as [| | | | | | |[]| | | | | | | | | |]; rc H; cbn; auto; repeat split; auto; discriminate. Qed.
Lemma rpc_held p b p' n : rpc p b p' -> (p = PHeld n <-> p' = PHeld n).
Proof. intro H. destruct p as [| | | | | | |[]| | | | | | | | | |]; rc H; split; intro; congruence. Qed.
Lemma rpc_data p b p' a v : rpc p b p' -> In (LD a v) b -> p' = p /\ granted p' = true.
Proof.
  intros H K. destruct p as [| | | | | | |[]| | | | | | | | | |]; rc H; cbn in K;
    try contradiction; auto; repeat (destruct K as [K|K]; try discriminate K; try contradiction).
Qed.
Lemma rpc_snext p b p' m n : rpc p b p' -> p' = PSet (SNext m n) -> p = PSet (SNext m n).
Proof. intros H K. destruct p as [| | | | | | |[]| | | | | | | | | |]; rc H; congruence. Qed.

Record sim (d0 : Z -> Z) (m : tm) (f : Z -> pc) : Prop := mk_sim {
  s_reach : mreach calm (wpcs (mk m) f);
  s_pc : forall t, rpc (pcs (mk m) t) (mb m t) (f t);
  s_dat : forall t a, (forall u, u <> t -> published m u) -> fwd (mb m t) a (md m a) = latest d0 a (ml m);
  s_log : forall l2 t a v l, ml m = l2 ++ DR t a v :: l -> v = latest d0 a l
}.
Lemma sim_alone d0 m f t u : sim d0 m f -> granted (f t) = true -> u <> t -> published m u.
Proof.
  intros [R P _ _] G N a v K. destruct (rpc_data _ _ _ a v (P u) K) as [_ G'].
  destruct (good_reach _ R) as (q & d & I). apply N. eapply (granted_unique _ q d); eauto.
Qed.
Lemma fwd_nodata b : forall a x, (forall a v, ~ In (LD a v) b) -> fwd b a x = x.
Proof.
  induction b as [|e b IH]; intros a x H; [reflexivity|]. destruct e; cbn; try (apply IH; intros a' v' K; apply (H a' v'); right; exact K).
  exfalso. apply (H a0 v). left; reflexivity.
Qed.
Lemma fwd_snoc b e : forall a x, fwd (b ++ [e]) a x = match e with LD a' v => if a' =? a then v else fwd b a x | _ => fwd b a x end.
Proof. induction b as [|c b IH]; intros a x; [destruct e; reflexivity|]. destruct c; cbn; rewrite IH; reflexivity. Qed.
Lemma calm_step s t s' : mexec s t true = Ret (Some s') -> mreach calm s -> mreach calm s'.
Proof. intros H R. eapply MRS with (a := MStep t true); [exact R|reflexivity|]. apply MSStep. exact H. Qed.

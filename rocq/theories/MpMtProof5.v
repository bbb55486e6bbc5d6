(** Proofs for C77, part 5: the invariant *)
From Coq Require Import Permutation.
From Verif Require Import CBase SeqLib HashmapProof MpliteModel MpliteSpec MpliteProof MpliteProof2 MpliteProof3 MpliteProof4 MpliteProof5 MpliteProof6 MpMtModel MpMtSpec MpMtProof MpMtProof2 MpMtProof3 MpMtProof4.

Lemma serial_reach h0 l h own : serial h0 l h own -> MpliteSpec.reach h0 h own.
Proof.
  induction 1 as [|l h own t c S IH|l h own t c r S IH|l h own t p off bytes m S IH OK W|l h own t c r h' S IH OK A]; [constructor|exact IH|exact IH| |].
  - eapply (MpliteSpec.reach_S h0 h own (OWrite p off bytes) _ None); [exact IH|exact OK|]. cbn [mp_step]. rewrite W. reflexivity.
  - destruct c as [m|m|p|p m|p m| |]; cbn [atomic size_ok_of own_step] in *.
    + destruct A as (x & A & ->). eapply (MpliteSpec.reach_S h0 h own (OMalloc m)); [exact IH|exact OK|exact A].
    + destruct A as (x & A & ->). eapply (MpliteSpec.reach_S h0 h own (OMalloc m)); [exact IH|exact OK|exact A].
    + destruct A as (A & -> & K). eapply (MpliteSpec.reach_S h0 h own (OFree p) _ None); [exact IH|exact K|]. cbn [mp_step]. rewrite A. reflexivity.
    + destruct A as (x & A & -> & K). eapply (MpliteSpec.reach_S h0 h own (ORealloc p m)); [exact IH|exact K|exact A].
    + destruct A as (b & _ & -> & -> & _). exact IH.
    + destruct A as (v & _ & -> & ->). exact IH.
    + destruct A as (v & _ & -> & ->). exact IH.
Qed.
Lemma upd_pc_eq p t x : upd_pc p t x t = x. Proof. unfold upd_pc. rewrite Nat.eqb_refl. reflexivity. Qed.
Lemma upd_pc_ne p t u x : u <> t -> upd_pc p t x u = p u. Proof. unfold upd_pc. intro H. destruct (Nat.eqb_spec u t); congruence. Qed.
Lemma phases_snoc t p h q e q' : phases t p h q -> next_phase t q e q' -> phases t p (h ++ [e]) q'.
Proof. induction 1; intro N; cbn; econstructor; eauto. constructor. Qed.

(** ** what the callers own *)
Definition zeros (d : list (option Z)) (k : Z) : Prop := forall j, 0 <= j < k -> znth j d = Some (Some 0).
Definition pc_ok (l : list blk) (x : pc) : Prop :=
  (forall p, busy x = Some p -> exists b, List.In b l /\ b_ptr b = p) /\
  match x with
  | PSize (CRealloc p m) | PSize (CResize p m) => bad_size m = false /\ m < two31
  | PSize _ => False
  | Wait c old | In c old _ => size_arg l c old
  | Fill q m k => 0 <= k <= m /\ exists b, List.In b l /\ b_ptr b = q /\ zlen (b_data b) = m /\ zeros (b_data b) k
  | Out (CCalloc m) (RPtr (Some q)) => exists b, List.In b l /\ b_ptr b = q /\ zlen (b_data b) = m /\ zeros (b_data b) m
  | _ => True
  end.
Definition ph_ok (x : pc) (p : phase) : Prop :=
  match x with
  | Idle => p = PNone
  | PSize c | Wait c _ | In c _ _ => p = PCalled c
  | Fill q m _ => p = PDone (CCalloc m) (RPtr (Some q))
  | Out c r => p = PDone c r
  end.
Definition is_in (x : pc) : Prop := match x with In _ _ _ => True | _ => False end.
Definition Gs (s : st) (c : call) : Z -> Prop := Gb (ext (live s)) (ptr_of c).
Definition Cs (s : st) (c : call) : Z -> Prop := Gc (mp_sz (obj s)) (ext (live s)) (ptr_of c).
Record Inv (k : Z) (h0 : mp) (s : st) (hl : mp) : Prop := {
  i_ser : serial h0 (log s) hl (live s);
  i_ci : cinv k hl (live s);
  i_sz : mp_sz h0 = 2 ^ k;
  i_osz : mp_sz (obj s) = mp_sz hl; i_on : mp_n (obj s) = mp_n hl;
  i_pc : forall t, pc_ok (live s) (pcs s t);
  i_busy : forall t u p, busy (pcs s t) = Some p -> busy (pcs s u) = Some p -> t = u;
  i_ph : forall t, exists p, phases t PNone (log s) p /\ ph_ok (pcs s t) p;
  i_hold : match holder s with
           | None => obj s = hl /\ forall t, ~ is_in (pcs s t)
           | Some t => (forall u, u <> t -> ~ is_in (pcs s u)) /\ exists c old b he r, pcs s t = In c old b /\ ends (Gs s c) (Cs s c) b (obj s) he r /\ ends (Gs s c) (Cs s c) (section (mp_sz hl) (mp_n hl) c old) hl he r /\
               zlen (mp_mem (obj s)) = zlen (mp_mem hl) /\ (forall a, Gs s c a -> znth a (mp_mem (obj s)) = znth a (mp_mem hl)) /\ (forall i, Cs s c i -> znth i (mp_ctrl (obj s)) = znth i (mp_ctrl hl))
           end }.
(** a block that no section is working on *)
Definition quiet_blk (s : st) (b : blk) : Prop := forall u c old pr, pcs s u = In c old pr -> ptr_of c <> Some (b_ptr b).
Lemma blk_Gs s b c a : List.In b (live s) -> ptr_of c <> Some (b_ptr b) -> b_ptr b <= a < b_ptr b + b_size b -> Gs s c a.
Proof. intros B N R. exists (b_ptr b), (b_size b). split; [apply in_ext; exists b; auto|auto]. Qed.
Lemma obj_mem k h0 s hl b a : Inv k h0 s hl -> List.In b (live s) -> quiet_blk s b -> b_ptr b <= a < b_ptr b + b_size b -> znth a (mp_mem (obj s)) = znth a (mp_mem hl).
Proof.
  intros I B QB R. pose proof (i_hold _ _ _ _ I) as H. destruct (holder s) as [t|]; [|destruct H as (-> & _); reflexivity].
  destruct H as (_ & c & old & pr & he & r & E & _ & _ & _ & EQ & _). apply EQ. eapply blk_Gs; [exact B|exact (QB _ _ _ _ E)|exact R].
Qed.
Lemma obj_len k h0 s hl : Inv k h0 s hl -> zlen (mp_mem (obj s)) = zlen (mp_mem hl).
Proof. intro I. pose proof (i_hold _ _ _ _ I) as H. destruct (holder s) as [t|]; [destruct H as (_ & c & old & pr & he & r & _ & _ & _ & L & _); exact L|destruct H as (-> & _); reflexivity]. Qed.
Lemma obj_size k h0 s hl b : Inv k h0 s hl -> List.In b (live s) -> quiet_blk s b -> mplite_size (obj s) (b_ptr b) = Ret (b_size b) /\ mplite_size hl (b_ptr b) = Ret (b_size b).
Proof.
  intros I B QB. pose proof (i_ci _ _ _ _ I) as (lf & fl & V). pose proof (size_ok _ _ _ _ _ b V B) as S. split; [|exact S]. rewrite <- S. destruct (c_blk _ _ _ _ _ V b B) as (i & L & P & A & SB & _).
  pose proof (v_sz _ _ _ _ (c_inv _ _ _ _ _ V)) as SZ. pose proof (i_osz _ _ _ _ I) as OZ. unfold mplite_size. rewrite OZ, (i_on _ _ _ _ I), P, Z.quot_mul by lia. cbv zeta.
  assert (mload (mp_ctrl (obj s)) i = mload (mp_ctrl hl) i) as ->; [|reflexivity]. unfold mload. pose proof (i_hold _ _ _ _ I) as H. destruct (holder s) as [t|]; [|destruct H as (-> & _); reflexivity].
  destruct H as (_ & c & old & pr & he & r & E & _ & _ & _ & _ & EQ). rewrite EQ; [reflexivity|]. exists (b_size b). rewrite OZ, <- P. split; [apply in_ext; exists b; auto|]. exact (QB _ _ _ _ E).
Qed.
Lemma quiet_not_busy s b t : (forall u, busy (pcs s u) = Some (b_ptr b) -> u = t) -> ~ is_in (pcs s t) -> quiet_blk s b.
Proof. intros H N u c old pr E X. assert (u = t) as -> by (apply H; rewrite E; exact X). rewrite E in N. apply N. exact Logic.I. Qed.

(** ** changes of what the callers own *)
Lemma pc_ok_keep l l' x : pc_ok l x -> (forall b, List.In b l -> busy x = Some (b_ptr b) -> List.In b l') -> pc_ok l' x.
Proof.
  intros (P1 & P2) K. split.
  - intros p B. destruct (P1 p B) as (b & I & E). exists b. split; [apply K; [exact I|congruence]|exact E].
  - destruct x as [|c|c old|c old b|q m k|c r]; cbn [busy] in *; [exact Logic.I|exact P2| | | |].
    + destruct c; cbn [size_arg ptr_of] in *; auto; [destruct P2 as (b & I & E); exists b; split; [apply K; [exact I|congruence]|exact E]|].
      destruct P2 as (A1 & A2 & A3 & b & I & E & S). split; [exact A1|]. split; [exact A2|]. split; [exact A3|]. exists b. split; [apply K; [exact I|congruence]|auto].
    + destruct c; cbn [size_arg ptr_of] in *; auto; [destruct P2 as (b0 & I & E); exists b0; split; [apply K; [exact I|congruence]|exact E]|].
      destruct P2 as (A1 & A2 & A3 & b0 & I & E & S). split; [exact A1|]. split; [exact A2|]. split; [exact A3|]. exists b0. split; [apply K; [exact I|congruence]|auto].
    + destruct P2 as (R & b & I & E & S). split; [exact R|]. exists b. split; [apply K; [exact I|congruence]|auto].
    + destruct c; auto. destruct r as [|[q|]|]; auto. destruct P2 as (b & I & E & S). exists b. split; [apply K; [exact I|congruence]|auto].
Qed.
Lemma own_keep sz l c r b : List.In b l -> ptr_of c <> Some (b_ptr b) -> List.In b (own_step sz l c r).
Proof.
  intros B N. destruct c as [m|m|p|p m|p m| |]; cbn [own_step ptr_of] in *; try (destruct r; exact B).
  - destruct r as [|[q|]|]; cbn [c_step]; auto. right. exact B.
  - destruct r as [|[q|]|]; cbn [c_step]; auto. right. exact B.
  - cbn [c_step]. apply filter_In. split; [exact B|]. destruct (Z.eqb_spec (b_ptr b) p); [congruence|reflexivity].
  - destruct r as [|[q|]|]; cbn [c_step]; auto. apply in_map_iff. exists b. split; [|exact B]. destruct (Z.eqb_spec (b_ptr b) p); [congruence|reflexivity].
Qed.
Lemma write_keep sz l p off bs b : List.In b l -> b_ptr b <> p -> List.In b (c_step sz l (OWrite p off bs) None).
Proof. intros B N. cbn [c_step]. apply in_map_iff. exists b. split; [|exact B]. destruct (Z.eqb_spec (b_ptr b) p); [congruence|reflexivity]. Qed.
Lemma write_ext sz l p off bs : ext (c_step sz l (OWrite p off bs) None) = ext l.
Proof. cbn [c_step]. unfold ext. rewrite map_map. apply map_ext. intro b. destruct (Z.eqb_spec (b_ptr b) p) as [<-|]; reflexivity. Qed.
Lemma write_has sz l p off bs b : List.In b l -> b_ptr b = p -> List.In (mk_b p (b_size b) (zwrite off (map Some bs) (b_data b))) (c_step sz l (OWrite p off bs) None).
Proof. intros B E. cbn [c_step]. apply in_map_iff. exists b. split; [|exact B]. rewrite E, Z.eqb_refl. reflexivity. Qed.

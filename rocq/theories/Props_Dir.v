(** C60: directory streams *)
From Verif Require Import CBase DirModel DirSpec DirProof DirProof2.

(** A stream is a position in the listing of its directory, whatever is done with it and whatever the system answers
    when the directory is searched again: nothing is used after it was released, and closing gives everything back. *)
Theorem C60_streams_are_positions : forall conv name path ans w d t w1 os,
  sane w -> opendir name path path ans w = Ret (Some (d, t), w1) ->
  exists d' w2 w3, do_all conv d w1 os = Ret (fst (steps conv (At (listing ans)) os), d', w2) /\
    closedir d' w2 = Ret (0, w3) /\ live w3 = live w.
Proof.
  intros conv name path ans w d t w1 os S O.
  destruct (open_ok name path path ans w S eq_refl) as (r & w' & E & S' & R). rewrite O in E. injection E as <- <-.
  destruct R as (_ & _ & _ & X & _).
  destruct (do_all_ok conv (live w) os _ _ _ X) as (d' & w2 & E2 & X2).
  destruct (close_ok _ _ _ _ X2) as (w3 & E3 & L3 & _). eauto 8.
Qed.
(** Opening always comes back; when it fails nothing is held, and it does not fail without a reason. *)
Theorem C60_open_or_nothing : forall name path ans w, sane w ->
  exists r w', opendir name path path ans w = Ret (r, w') /\ (r = None -> live w' = live w) /\
    (orc w = [] -> name <> None -> name <> Some [] -> path <> None -> path <> Some [] -> listing ans <> [] -> r <> None).
Proof.
  intros name path ans w S. destruct (open_ok name path path ans w S eq_refl) as (r & w' & E & S' & R). exists r, w'.
  split; [auto|]. split.
  - intros ->. auto.
  - intros O N1 N2 P1 P2 L. destruct name as [[|c n]|]; try tauto. destruct path as [[|x p]|]; try tauto.
    destruct (open_success c n (x :: p) ans w S O ltac:(discriminate) L) as (d & t & w2 & E2). rewrite E in E2. injection E2 as -> ->. discriminate.
Qed.
(** Reading gives the entries once each, in order, then nothing for ever. *)
Theorem C60_reads_every_entry : forall conv name path ans w d t w1 k,
  sane w -> opendir name path path ans w = Ret (Some (d, t), w1) ->
  exists d' w2, do_all conv d w1 (repeat ORead (length (listing ans) + k)) =
    Ret (map (fun i => VEntry (Some (entry conv (nth i (listing ans) (mk_en [] [] 0)) (skipn (S i) (listing ans))))) (seq 0 (length (listing ans)))
         ++ repeat (VEntry None) k, d', w2).
Proof.
  intros conv name path ans w d t w1 k S O.
  destruct (C60_streams_are_positions conv name path ans w d t w1 (repeat ORead (length (listing ans) + k)) S O) as (d' & w2 & _ & E & _).
  rewrite reads_all in E. eauto.
Qed.
(** A position told is one to come back to, whatever was done in between, as long as the directory does not change
    and no two of its entries have the same hash. l: the entries not read yet when the position was asked. *)
Theorem C60_seek_goes_back : forall conv name path L w d t w1 os1 v1 l os2 os3,
  sane w -> opendir name path path (Some L) w = Ret (Some (d, t), w1) ->
  NoDup (map (fun e => hash (nm e)) L) -> steady L os1 -> steady L os2 ->
  steps conv (At L) os1 = (v1, At l) -> l <> [] ->
  exists v2 d' w2, do_all conv d w1 (os1 ++ OTell :: os2 ++ OSeek (pos_of l) (Some L) :: os3) =
    Ret (v1 ++ VPos (pos_of l) :: v2 ++ VDone :: fst (steps conv (At l) os3), d', w2).
Proof.
  intros conv name path L w d t w1 os1 v1 l os2 os3 S O N S1 S2 E1 NL.
  assert (NE : L <> []).
  { destruct (open_ok name path path (Some L) w S eq_refl) as (r & w' & E & _ & R). rewrite O in E. injection E as <- <-. tauto. }
  destruct (C60_streams_are_positions conv name path (Some L) w d t w1 (os1 ++ OTell :: os2 ++ OSeek (pos_of l) (Some L) :: os3) S O) as (d' & w2 & _ & E & _).
  cbn [listing] in E. rewrite steps_app, E1 in E. cbn [fst snd steps step] in E.
  assert (I1 : inside L (At l)).
  { change (At l) with (snd (v1, At l)). rewrite <- E1. apply steps_inside; auto. exists []. auto. }
  pose proof (steps_inside conv L os2 (At l) NE S2 I1) as I2.
  rewrite steps_app in E. cbn [steps] in E. rewrite (seek_back conv L l _ NE I1 NL N I2) in E.
  destruct (steps conv (At l) os3) as [v3 q3]. cbn [fst snd] in *. eauto.
Qed.
(** the offset in an entry is the position after it *)
Theorem C60_offset_is_position : forall conv name path ans w d t w1 os v e r,
  sane w -> opendir name path path ans w = Ret (Some (d, t), w1) ->
  steps conv (At (listing ans)) os = (v, At (e :: r)) -> shown conv e <> None ->
  exists de d' w2, do_all conv d w1 (os ++ [ORead; OTell]) = Ret (v ++ [VEntry (Some de); VPos (d_off de)], d', w2) /\
    Some (d_name de) = shown conv e /\ d_namlen de = Z.of_nat (length (d_name de)) /\ 
    (d_type de = DT_CHR <-> Z.testbit (attr e) 6 = true) /\ (d_type de = DT_DIR <-> Z.testbit (attr e) 6 = false /\ Z.testbit (attr e) 4 = true) /\
    (d_type de = DT_REG <-> Z.testbit (attr e) 6 = false /\ Z.testbit (attr e) 4 = false).
Proof.
  intros conv name path ans w d t w1 os v e r S O E SH.
  destruct (C60_streams_are_positions conv name path ans w d t w1 (os ++ [ORead; OTell]) S O) as (d' & w2 & _ & X & _).
  rewrite steps_app, E in X. cbn [fst snd steps step] in X. exists (entry conv e r), d', w2.
  unfold entry in *. destruct (shown conv e) as [s|]; [|tauto]. cbn [d_off d_name d_namlen d_type]. pose proof (types (attr e)). tauto.
Qed.
(** rewinding reads the directory as it is now *)
Theorem C60_rewind_starts_again : forall conv name path ans w d t w1 os v l ans2 os2,
  sane w -> opendir name path path ans w = Ret (Some (d, t), w1) ->
  steps conv (At (listing ans)) os = (v, At l) -> listing ans2 <> [] ->
  exists d' w2, do_all conv d w1 (os ++ ORewind ans2 :: os2) = Ret (v ++ VDone :: fst (steps conv (At (listing ans2)) os2), d', w2).
Proof.
  intros conv name path ans w d t w1 os v l ans2 os2 S O E NE.
  destruct (C60_streams_are_positions conv name path ans w d t w1 (os ++ ORewind ans2 :: os2) S O) as (d' & w2 & _ & X & _).
  rewrite steps_app, E in X. cbn [fst snd steps step] in X. destruct (listing ans2) as [|e2 r2]; [tauto|].
  destruct (steps conv (At (e2 :: r2)) os2) as [v3 q3]. cbn [fst snd] in X. eauto.
Qed.
(** what is searched for: everything in the directory; the buffer is large enough *)
Theorem C60_search_pattern : forall name p ans w d t w1, sane w ->
  opendir name (Some p) (Some p) ans w = Ret (Some (d, t), w1) ->
  p <> [] /\ (ends_in_sep p -> t = p ++ [42]) /\ (~ ends_in_sep p -> t = p ++ [92; 42]).
Proof.
  intros name p ans w d t w1 S O. destruct (open_ok name (Some p) (Some p) ans w S eq_refl) as (r & w' & E & _ & R). rewrite O in E. injection E as <- <-.
  destruct R as (_ & _ & _ & _ & P).
  assert (N : p <> []) by (intros ->; discriminate P). split; [auto|].
  destruct (pattern_ok p N) as (t' & E' & A & B). rewrite E' in P. injection P as ->. auto.
Qed.
(** another thread changes to a directory with a longer name between the two questions for the full path *)
Theorem C60_chdir_while_opening_refuted : exists name p1 p2 ans w, sane w /\ opendir name (Some p1) (Some p2) ans w = Ub.
Proof.
  exists (Some [97]), [67; 58; 92; 97], [67; 58; 92; 98; 92; 97], None, (mk_w [] 1 []). split; [|reflexivity].
  split; [cbn; lia|]. split; [cbn; tauto|constructor].
Qed.
(** after a position that is not there, rewinding does not start again: nothing is read any more *)
Theorem C60_rewind_after_failed_seek_refuted : exists conv d w1 w L t,
  sane w /\ opendir (Some [97]) (Some [97]) (Some [97]) (Some L) w = Ret (Some (d, t), w1) /\ L <> [] /\
  exists d' w2, do_all conv d w1 [OSeek 5 (Some L); ORewind (Some L); ORead] = Ret ([VDone; VDone; VEntry None], d', w2).
Proof.
  exists (@Some (list Z)). set (w := mk_w [] 1 []). assert (S : sane w) by (split; [cbn; lia|]; split; [cbn; tauto|constructor]).
  eexists _, _, w, [mk_en [97] [] 0], _. split; [auto|]. split; [reflexivity|]. split; [discriminate|]. eexists _, _. reflexivity.
Qed.
(** ... and the position at the end is such a position *)
Theorem C60_rewind_after_end_refuted : exists conv d w1 w L t,
  sane w /\ opendir (Some [97]) (Some [97]) (Some [97]) (Some L) w = Ret (Some (d, t), w1) /\ L <> [] /\
  exists e p d' w2, do_all conv d w1 [ORead; OTell; OSeek p (Some L); ORewind (Some L); ORead] = Ret ([VEntry (Some e); VPos p; VDone; VDone; VEntry None], d', w2).
Proof.
  exists (@Some (list Z)). set (w := mk_w [] 1 []). assert (S : sane w) by (split; [cbn; lia|]; split; [cbn; tauto|constructor]).
  eexists _, _, w, [mk_en [97] [] 0], _. split; [auto|]. split; [reflexivity|]. split; [discriminate|]. eexists _, 2147483647, _, _. reflexivity.
Qed.
(** two names with the same hash, "Ab" and "BA": the position of the second leads to the first *)
Theorem C60_equal_hashes_refuted : exists conv d w1 w L t e1 e2,
  sane w /\ opendir (Some [97]) (Some [97]) (Some [97]) (Some L) w = Ret (Some (d, t), w1) /\
  exists p d' w2, do_all conv d w1 [ORead; OTell; ORead; OSeek p (Some L); ORead] = Ret ([VEntry (Some e1); VPos p; VEntry (Some e2); VDone; VEntry (Some e1)], d', w2) /\
  d_name e1 = [65; 98] /\ d_name e2 = [66; 65].
Proof.
  exists (@Some (list Z)). set (w := mk_w [] 1 []). assert (S : sane w) by (split; [cbn; lia|]; split; [cbn; tauto|constructor]).
  eexists _, _, w, [mk_en [65; 98] [] 0; mk_en [66; 65] [] 0], _, _, _. split; [auto|]. split; [reflexivity|].
  eexists 5862152, _, _. split; [vm_compute; reflexivity|]. split; reflexivity.
Qed.
(** an entry whose name cannot be shown has no position after it *)
Theorem C60_offset_of_unshown_entry_refuted : exists conv d w1 w L t,
  sane w /\ opendir (Some [97]) (Some [97]) (Some [97]) (Some L) w = Ret (Some (d, t), w1) /\
  exists e p d' w2, do_all conv d w1 [ORead; OTell; OSeek (d_off e) (Some L); ORead] = Ret ([VEntry (Some e); VPos p; VDone; VEntry None], d', w2) /\
  p <> d_off e /\ p <> LONG_MAX.
Proof.
  exists (fun n => if Nat.eqb (length n) 1 then Some n else None). set (w := mk_w [] 1 []). assert (S : sane w) by (split; [cbn; lia|]; split; [cbn; tauto|constructor]).
  eexists _, _, w, [mk_en [65; 98] [] 0; mk_en [66] [] 0], _. split; [auto|]. split; [reflexivity|].
  eexists (mk_de [63] 1 DT_UNKNOWN (-1)), 177639, _, _. split; [vm_compute; reflexivity|]. split; discriminate.
Qed.
(** non-vacuity: a stream over three entries, read, told, read on, taken back *)
Example C60_demo : exists d w1 d' w2 e1 e2 e3 p t,
  opendir (Some [97]) (Some [67; 58; 92; 97]) (Some [67; 58; 92; 97]) (Some [mk_en [46] [] 16; mk_en [97] [] 0; mk_en [98] [] 64]) (mk_w [] 1 [])
    = Ret (Some (d, t), w1) /\
  do_all (@Some (list Z)) d w1 [ORead; OTell; ORead; ORead; ORead; OSeek p (Some [mk_en [46] [] 16; mk_en [97] [] 0; mk_en [98] [] 64]); ORead] =
    Ret ([VEntry (Some e1); VPos p; VEntry (Some e2); VEntry (Some e3); VEntry None; VDone; VEntry (Some e2)], d', w2) /\
  d_name e1 = [46] /\ d_type e1 = DT_DIR /\ d_name e2 = [97] /\ d_type e2 = DT_REG /\ d_name e3 = [98] /\ d_type e3 = DT_CHR /\
  t = [67; 58; 92; 97; 92; 42] /\ live w1 <> [].
Proof.
  eexists _, _, _, _, _, _, _, 177670, _. split; [reflexivity|]. split; [vm_compute; reflexivity|]. repeat split. discriminate.
Qed.
Print Assumptions C60_streams_are_positions.
Print Assumptions C60_open_or_nothing.
Print Assumptions C60_reads_every_entry.
Print Assumptions C60_seek_goes_back.
Print Assumptions C60_offset_is_position.
Print Assumptions C60_rewind_starts_again.
Print Assumptions C60_search_pattern.
Print Assumptions C60_chdir_while_opening_refuted.
Print Assumptions C60_rewind_after_failed_seek_refuted.
Print Assumptions C60_rewind_after_end_refuted.
Print Assumptions C60_equal_hashes_refuted.
Print Assumptions C60_offset_of_unshown_entry_refuted.

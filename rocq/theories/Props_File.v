(** C41, C42, C48: file_util.c *)
From Verif Require Import CBase CStr SeqLib FileModel FileSpec FileProof FileProof2.

(** ** C41 *)
(** The buffer holds the path q x followed by n spaces and its terminator, x not a space. Whatever lies behind,
    the function writes only inside [size] bytes, never changes a byte behind the new terminator, and: the path
    stays as it is when its last non-space character is the path's slash, else the trailing spaces are replaced
    by the slash; when the slash does not fit it takes the place of the last character. *)
Theorem C41_append_slash :
  forall q x n post size,
  let p := q ++ [x] ++ repeat 32 n in let buf := p ++ 0 :: post in
  text q -> x <> 0 -> x <> 32 -> 3 <= size -> zlen p < size <= zlen buf ->
  let sl := if inset 92 p then 92 else 47 in
  append_slash buf size =
    Ret (if x =? sl then buf
         else if zlen q + 2 <? size then q ++ [x; sl; 0] ++ zdrop (zlen q + 3) buf
         else q ++ [sl; 0] ++ zdrop (zlen q + 2) buf, 0).
Proof. exact append_slash_ok. Qed.
Print Assumptions C41_append_slash.
(** "/ab" in 8 bytes becomes "/ab/"; "ab " in 4 bytes becomes "ab/"; "abc" in 4 bytes becomes "ab/" *)
Example C41_append_case :
  append_slash ([47;97;98;0] ++ [9;9;9;9]) 8 = Ret ([47;97;98;47;0;9;9;9], 0) /\
  append_slash [97;98;32;0] 4 = Ret ([97;98;47;0], 0) /\
  append_slash [97;98;99;0] 4 = Ret ([97;98;47;0], 0).
Proof.
  split; [|split].
  - exact (C41_append_slash [47;97] 98 0 [9;9;9;9] 8 ltac:(repeat constructor; lia) ltac:(lia) ltac:(lia) ltac:(lia) ltac:(vm_compute; split; [reflexivity|discriminate])).
  - exact (C41_append_slash [97] 98 1 [] 4 ltac:(repeat constructor; lia) ltac:(lia) ltac:(lia) ltac:(lia) ltac:(vm_compute; split; [reflexivity|discriminate])).
  - exact (C41_append_slash [97;98] 99 0 [] 4 ltac:(repeat constructor; lia) ltac:(lia) ltac:(lia) ltac:(lia) ltac:(vm_compute; split; [reflexivity|discriminate])).
Qed.
(** Rejected paths are left alone: empty, too small a buffer, nothing but spaces. *)
Theorem C41_append_slash_rejects :
  (forall rest size, append_slash (0 :: rest) size = Ret (0 :: rest, -1)) /\
  (forall c rest size, size < 3 -> append_slash (c :: rest) size = Ret (c :: rest, -1)) /\
  (forall n post size, (0 < n)%nat -> 3 <= size -> Z.of_nat n < size ->
     append_slash (repeat 32 n ++ 0 :: post) size = Ret (repeat 32 n ++ 0 :: post, -2)).
Proof.
  split; [|split].
  - intros. unfold append_slash. rewrite mload_cons_0. reflexivity.
  - intros c rest size H. unfold append_slash. rewrite mload_cons_0. cbn [bind].
    destruct (Z.ltb_spec size 3); [|lia]. rewrite orb_true_r. reflexivity.
  - intros n post size Hn H3 Hs. unfold append_slash.
    destruct n as [|n]; [lia|]. cbn [repeat app]. rewrite mload_cons_0. cbn [bind].
    destruct (Z.ltb_spec size 3); [lia|]. cbn [orb Z.eqb].
    change (32 :: repeat 32 n ++ 0 :: post) with (repeat 32 (S n) ++ 0 :: post).
    rewrite strnlen_text by (try apply text_repeat; rewrite repeat_length; lia). cbn [bind].
    rewrite zlen_repeat. rewrite trim_all by lia. reflexivity.
Qed.
Print Assumptions C41_append_slash_rejects.

(** "terminates the path with exactly one slash where it fits" fails in two ways although there is room:
    "a/ " keeps its trailing space, and "\a/" (which already ends with a slash) gets a second one. *)
Theorem C41_append_slash_refuted :
  append_slash ([97;47;32;0] ++ repeat 7 8) 12 = Ret ([97;47;32;0] ++ repeat 7 8, 0) /\
  append_slash ([92;97;47;0] ++ repeat 7 8) 12 = Ret ([92;97;47;92;0] ++ repeat 7 7, 0).
Proof. split; vm_compute; reflexivity. Qed.
Print Assumptions C41_append_slash_refuted.
(** A path that fills the buffer without a terminator: with a backslash in it the function writes one byte
    behind the buffer, without one it reads on behind it. *)
Theorem C41_unterminated_refuted :
  forall t, text t -> 3 <= zlen t -> (forall q, t <> q ++ [32]) -> (forall q, t <> q ++ [92]) ->
  append_slash t (zlen t) = Ub.
Proof.
  intros t T H3 N32 N92. unfold append_slash.
  assert (t <> []) as Hne by (intros ->; change (zlen (@nil Z)) with 0 in H3; lia).
  destruct (exists_last Hne) as (q & x & E).
  assert (x <> 32) by (intros ->; apply (N32 q); exact E). assert (x <> 92) by (intros ->; apply (N92 q); exact E).
  destruct t as [|c r] eqn:Et; [congruence|]. rewrite mload_cons_0. cbn [bind]. inversion T; subst.
  destruct (Z.eqb_spec c 0); [contradiction|]. destruct (Z.ltb_spec (zlen (c :: r)) 3); [lia|]. cbn [orb].
  assert (Sn : forall l, text l -> strnlen l (length l) = Ret (zlen l)).
  { induction 1 as [|a l Ha Hl IH]; [reflexivity|]. cbn [length strnlen]. destruct (Z.eqb_spec a 0); [contradiction|].
    rewrite IH. cbn [bind]. rewrite zlen_cons. reflexivity. }
  replace (Z.to_nat (zlen (c :: r))) with (length (c :: r)) by (unfold zlen; lia).
  rewrite Sn by exact T. cbn [bind]. rewrite E.
  pose proof (zlen_nonneg q).
  replace (zlen (q ++ [x])) with (zlen q + 1 + Z.of_nat 0) by (rewrite zlen_snoc; lia).
  pose proof (trim_ok 0 (S (Z.to_nat (zlen q + 1 + Z.of_nat 0))) q x [] ltac:(assumption) ltac:(lia)) as K.
  cbn [repeat app] in K. rewrite K. cbn [bind]. destruct (Z.ltb_spec (zlen q + 1) 1); [lia|].
  rewrite E in T.
  assert (HB : forall l, text l -> has_backslash l = Ub \/ has_backslash l = Ret true).
  { induction 1 as [|a l Ha Hl IH]; [left; reflexivity|]. cbn [has_backslash]. destruct (a =? 92); [right; reflexivity|].
    destruct (Z.eqb_spec a 0); [contradiction|]. exact IH. }
  destruct (HB _ T) as [-> | ->]; [reflexivity|]. cbn [bind].
  rewrite mload_app0 by lia. cbn [bind]. destruct (Z.eqb_spec x 92); [contradiction|].
  destruct (Z.ltb_spec (zlen q + 1 + 1) (zlen q + 1 + Z.of_nat 0)); [lia|].
  rewrite mstore_app by lia. cbn [bind]. unfold mstore, mwrite.
  destruct (Z.leb_spec (zlen q + 1 - 1 + 1 + zlen [0]) (zlen ((q ++ [92]) ++ []))) as [L|L].
  - rewrite app_nil_r, zlen_snoc in L. change (zlen [0]) with 1 in L. lia.
  - rewrite andb_false_r. reflexivity.
Qed.
Print Assumptions C41_unterminated_refuted.
Example C41_unterminated_case : append_slash [92;97;98] 3 = Ub /\ append_slash [97;98;99] 3 = Ub.
Proof. split; vm_compute; reflexivity. Qed.

(** file_util_mkdirs, paths up to 255 bytes, any file system: exactly the prefix directories are looked up, in
    order from the outermost; the missing ones are created; the first failure is returned. *)
Theorem C41_mkdirs_exact :
  forall F (ops : fsys F) path f, text path -> zlen path <= 255 ->
  mkdirs ops path f = Ret (create_missing ops (dirs_of path) f []).
Proof. intros F ops path f T H. apply mkdirs_ok; [exact T|left; lia]. Qed.
Print Assumptions C41_mkdirs_exact.
(** ... so on a file system where a successful mkdir creates the directory and none disappears: after a return
    of 0 every directory of the path exists, and only missing ones were created, each once, outermost first. *)
Theorem C41_mkdirs_creates_all :
  forall F (ops : fsys F) path f, fs_sane ops -> text path -> zlen path <= 255 ->
  exists r f' calls, mkdirs ops path f = Ret (r, f', rev calls) /\
    (r = 0 -> forall d, In d (dirs_of path) -> fs_exists ops f' d = true) /\
    (forall p, fs_exists ops f p = true -> fs_exists ops f' p = true) /\
    subseq calls (dirs_of path) /\ (forall d, In d calls -> fs_exists ops f d = false).
Proof.
  intros F ops path f Hs T H. rewrite (C41_mkdirs_exact F ops path f T H).
  destruct (create_missing ops (dirs_of path) f []) as [[r f'] calls'] eqn:E.
  destruct (create_missing_sane ops Hs _ _ _ _ _ _ E) as [P Q].
  destruct (create_missing_calls ops _ _ _ _ _ _ E) as (m & -> & S). rewrite app_nil_r.
  exists r, f', m. split; [reflexivity|]. split; [exact Q|]. split; [exact P|]. split; [exact S|].
  assert (G : forall ds f g c r f' c', create_missing ops ds g c = (r, f', c') ->
     (forall p, fs_exists ops f p = true -> fs_exists ops g p = true) ->
     (forall d, In d c -> fs_exists ops f d = false) -> forall d, In d c' -> fs_exists ops f d = false).
  { clear -Hs. induction ds as [|d ds IH]; intros f g c r f' c' E Hfg Hc; cbn [create_missing] in E.
    - injection E as <- <- <-. exact Hc.
    - destruct (fs_exists ops g d) eqn:X; [eapply IH; eassumption|].
      assert (Hd : fs_exists ops f d = false).
      { destruct (fs_exists ops f d) eqn:Y; [|reflexivity]. apply Hfg in Y. congruence. }
      assert (Hc2 : forall d0, In d0 (d :: c) -> fs_exists ops f d0 = false) by (intros d0 [<-|I]; auto).
      destruct (fs_mkdir ops g d) as [r1 g1] eqn:M. destruct (Hs _ _ _ _ M) as [_ M2].
      destruct (r1 =? 0); [eapply (IH f g1); [exact E|auto|exact Hc2]|]. injection E as <- <- <-. exact Hc2. }
  intros d I. apply (G _ f f [] r f' (rev m ++ []) E); [auto|intros ? []|]. rewrite app_nil_r. apply -> in_rev. exact I.
Qed.
Print Assumptions C41_mkdirs_creates_all.
(** a file system as a list of existing directories, read-only below "/r/" *)
Definition demo_fs : fsys (list (list Z)) :=
  {| fs_exists := fun f p => existsb (fun q => if list_eq_dec Z.eq_dec p q then true else false) f;
     fs_mkdir := fun f p => if starts_with [47;114;47] p then (-1, f) else (0, p :: f) |}.
Example C41_mkdirs_case : fs_sane demo_fs /\
  mkdirs demo_fs [47;97;47;98;47;99] [[47]] = Ret (0, [[47;97;47;98;47]; [47;97;47]; [47]], [[47;97;47;98;47]; [47;97;47]]) /\
  mkdirs demo_fs [47;114;47;98;47] [[47];[47;114;47]] = Ret (-1, [[47];[47;114;47]], [[47;114;47;98;47]]).
Proof.
  split; [|split; vm_compute; reflexivity].
  intros f d r f'. cbn [fs_mkdir fs_exists demo_fs]. destruct (starts_with _ d); intro E; injection E as <- <-.
  - split; [discriminate|auto].
  - split; intros; cbn [existsb]; [destruct (list_eq_dec Z.eq_dec d d); [reflexivity|congruence]|].
    destruct (list_eq_dec Z.eq_dec p d); [reflexivity|assumption].
Qed.
(** A path of 256 bytes passes the length check; when it ends with a separator, as the header asks, the whole
    buffer is filled and access() is given an unterminated string. *)
Theorem C41_mkdirs_256_refuted :
  forall F (ops : fsys F) t f, text t -> zlen t = 255 -> (forall c, In c t -> is_sep c = false) -> mkdirs ops (t ++ [47]) f = Ub.
Proof.
  intros F ops t f T L Hn. unfold mkdirs. rewrite zlen_snoc, L. change (256 <? 255 + 1) with false. cbv iota.
  assert (G : forall rest pre k, t = pre ++ rest -> zlen pre + Z.of_nat k = 256 ->
    mkdirs_loop ops (length (rest ++ [47])) (t ++ [47]) (pre ++ repeat 0 k) (zlen pre) f [] = Ub).
  { induction rest as [|c rest IH]; intros pre k E Hk; pose proof (zlen_nonneg pre).
    - rewrite app_nil_r in E. subst pre. cbn [app length mkdirs_loop]. rewrite zlen_snoc.
      destruct (Z.ltb_spec (zlen t) (zlen t + 1)); [|lia]. rewrite mload_app0 by reflexivity. cbn [bind].
      assert (k = 1%nat) as -> by lia. cbn [repeat]. rewrite mstore_app by reflexivity. cbn [bind Z.eqb Pos.eqb negb andb].
      rewrite app_nil_r. unfold cstr_at, strlen_at. rewrite zlen_snoc.
      destruct (Z.leb_spec 0 (zlen t + 1)); [|lia]. cbn [Z.leb Z.compare andb]. rewrite zdrop_0.
      rewrite find0_none by (apply Forall_app; split; [exact T|constructor; [lia|constructor]]). reflexivity.
    - assert (Lt : zlen t = zlen pre + 1 + zlen rest) by (rewrite E, zlen_app, zlen_cons; lia). pose proof (zlen_nonneg rest).
      cbn [app length mkdirs_loop]. rewrite zlen_snoc. destruct (Z.ltb_spec (zlen pre) (zlen t + 1)); [|lia].
      rewrite E at 1. rewrite <- app_assoc. cbn [app]. rewrite mload_app0 by reflexivity. cbn [bind].
      destruct k as [|k]; [lia|]. cbn [repeat]. rewrite mstore_app by reflexivity. cbn [bind].
      assert (S : is_sep c = false) by (apply Hn; rewrite E; apply in_or_app; right; left; reflexivity).
      unfold is_sep in S. apply orb_false_iff in S. destruct S as [-> ->]. cbn [negb andb].
      rewrite <- zlen_snoc with (x := c). apply IH; [rewrite <- app_assoc; exact E|rewrite zlen_snoc; lia]. }
  pose proof (G t [] 256%nat eq_refl eq_refl) as K. rewrite app_length in *. cbn [length app] in K. exact K.
Qed.
Print Assumptions C41_mkdirs_256_refuted.
Example C41_mkdirs_256_case : let t := repeat 97 255 in text t /\ zlen t = 255 /\ (forall c, In c t -> is_sep c = false).
Proof.
  cbv zeta. split; [apply Forall_forall|split; [reflexivity|]]; intros c I; apply repeat_spec in I; subst; [lia|reflexivity].
Qed.

(** ** C42 *)
(** file_util_read, any splitting of the transfer by the stream, errors included: the n bytes reported are the
    next n bytes of the stream, stored at the start of the buffer, nothing else is touched or consumed; fewer
    than min(requested, available) only if the stream once answered with an error or no progress. *)
Theorem C42_read :
  forall s buf max, 0 <= max <= zlen buf -> max < 2 ^ 31 ->
  exists n s', file_read s buf max = Ret (n, ztake n (r_data s) ++ zdrop n buf, s') /\
    r_data s' = zdrop n (r_data s) /\ 0 <= n <= Z.min max (zlen (r_data s)) /\
    (n < Z.min max (zlen (r_data s)) -> exists j, (r_k s <= j < r_k s')%nat /\ r_io s j <= 0).
Proof. exact file_read_ok. Qed.
Print Assumptions C42_read.
Theorem C42_read_everything :
  forall s buf max, 0 <= max <= zlen buf -> max < 2 ^ 31 -> (forall j, 1 <= r_io s j) ->
  exists s', let n := Z.min max (zlen (r_data s)) in
    file_read s buf max = Ret (n, ztake n (r_data s) ++ zdrop n buf, s') /\ r_data s' = zdrop n (r_data s).
Proof.
  intros s buf max H1 H2 Hp. destruct (file_read_ok s buf max H1 H2) as (n & s' & E & D & B & J).
  assert (n = Z.min max (zlen (r_data s))) as <-.
  { destruct (Z.eq_dec n (Z.min max (zlen (r_data s)))) as [Q|Q]; [exact Q|]. destruct J as (j & _ & K); [lia|]. specialize (Hp j). lia. }
  exists s'. split; assumption.
Qed.
Print Assumptions C42_read_everything.
(** file_util_write *)
Theorem C42_write :
  forall s buf max, 0 <= max <= zlen buf -> max < 2 ^ 31 ->
  exists n s', file_write s buf max = Ret (n, buf, s') /\
    r_data s' = r_data s ++ ztake n buf /\ 0 <= n <= max /\
    (n < max -> exists j, (r_k s <= j < r_k s')%nat /\ r_io s j <= 0).
Proof. exact file_write_ok. Qed.
Print Assumptions C42_write.
Example C42_case :
  let s := {| r_data := [1;2;3;4;5;6;7;8]; r_io := fun j => if Nat.eqb j 1 then 100 else 2; r_k := 0 |} in
  file_read s (repeat 0 6) 6 = Ret (6, [1;2;3;4;5;6], {| r_data := [7;8]; r_io := r_io s; r_k := 2 |}) /\
  file_write s [9;9;9] 3 = Ret (3, [9;9;9], {| r_data := [1;2;3;4;5;6;7;8;9;9;9]; r_io := r_io s; r_k := 2 |}).
Proof. split; vm_compute; reflexivity. Qed.
(** A request of 2^31 bytes or more overflows the int counter as soon as two transfers exceed INT_MAX (Linux
    transfers at most 0x7ffff000 bytes at once). *)
Theorem C42_huge_request_refuted :
  forall s buf max h, h < 2 ^ 31 <= 2 * h -> 2 * h <= max -> zlen buf = max -> zlen (r_data s) = max ->
  (forall j, r_io s j = h) -> file_read s buf max = Ub.
Proof. exact file_read_overflow. Qed.
Print Assumptions C42_huge_request_refuted.
Example C42_huge_case : exists (s : rstream) (buf : list Z), zlen buf = 2 * 2147479552 /\ zlen (r_data s) = 2 * 2147479552 /\ (forall j, r_io s j = 2147479552) /\ 2147479552 < 2 ^ 31 <= 2 * 2147479552.
Proof.
  assert (E : exists l : list Z, zlen l = 2 * 2147479552).
  { exists (repeat 0 (Z.to_nat (2 * 2147479552))). rewrite zlen_repeat, Z2Nat.id by lia. reflexivity. }
  destruct E as (l & E). exists {| r_data := l; r_io := fun _ => 2147479552; r_k := 0 |}, l.
  split; [exact E|]. split; [exact E|]. split; [reflexivity|]. lia.
Qed.

(** file_util_read_all: on success the memory holds the whole file followed by a NUL and the length is the
    file's; otherwise there is no memory to free. *)
Theorem C42_read_all :
  forall data malloc got, (forall n b, malloc n = Some b -> zlen b = n) -> zlen data < 2 ^ 31 -> 0 <= got ->
  exists r mem, read_all (Some data) (zlen data) malloc got = Ret (r, mem, zlen data) /\
    (r = 0 -> mem = Some (data ++ [0]) /\ 0 < zlen data <= got) /\
    (r <> 0 -> mem = None /\ (zlen data = 0 \/ malloc (zlen data + 1) = None \/ got < zlen data)).
Proof.
  intros data malloc got Hm Hl Hg. unfold read_all. pose proof (zlen_nonneg data).
  rewrite s32_small by (unfold two31; lia).
  destruct (Z.ltb_spec (zlen data) 1).
  { exists (-3), None. split; [reflexivity|]. split; [lia|]. intros _. split; [reflexivity|left; lia]. }
  destruct (malloc (zlen data + 1)) as [m|] eqn:E.
  2:{ exists (-4), None. split; [reflexivity|]. split; [lia|]. intros _. split; [reflexivity|right; left; reflexivity]. }
  pose proof (Hm _ _ E) as Lm. destruct (split_first_n (zlen data) m) as (a & b & -> & La); [lia|].
  rewrite zlen_app in Lm. destruct b as [|x b]; [change (zlen (@nil Z)) with 0 in Lm; lia|].
  rewrite zlen_cons in Lm. assert (b = []) as -> by (apply zlen_0_nil; pose proof (zlen_nonneg b); lia).
  rewrite mstore_app by lia. cbn [bind]. rewrite app_nil_r.
  assert (Lt : zlen (ztake (Z.min got (zlen data)) data) = Z.min got (zlen data)) by (rewrite zlen_ztake; lia).
  rewrite mwrite_ok by (rewrite ?zlen_snoc; lia). cbn [bind]. rewrite Lt.
  destruct (Z.eqb_spec (zlen data) (Z.min got (zlen data))) as [Q|Q]; cbn [negb].
  - exists 0. eexists. split; [reflexivity|]. split; [|lia]. intros _. split; [|lia]. f_equal.
    rewrite <- Q, ztake_all by lia. unfold zwrite. rewrite ztake_0. cbn [app]. f_equal.
    rewrite Z.add_0_l, <- La. apply zdrop_app_len.
  - exists (-5), None. split; [reflexivity|]. split; [lia|]. intros _. split; [reflexivity|right; right; lia].
Qed.
Print Assumptions C42_read_all.
Example C42_read_all_case : read_all (Some [65;66]) 2 (fun n => Some (repeat 9 (Z.to_nat n))) 2 = Ret (0, Some [65;66;0], 2) /\
  read_all (Some []) 0 (fun n => None) 0 = Ret (-3, None, 0).
Proof. split; vm_compute; reflexivity. Qed.

(** ** C48: the line reader. Every file whatsoever: it is cut at newlines and after every 1023 bytes without one,
    a piece is shown up to its first NUL, and the non-blank ones go to the callback with their number. *)
Theorem C48_read_txt_every_file :
  forall U (fn : U -> Z -> list Z -> Z * U) file u, zlen (pieces_of file) < 2 ^ 31 ->
  read_txt fn (Some file) u = Ret (deliver fn (map upto0 (pieces_of file)) 0 u).
Proof. exact @read_txt_all. Qed.
Print Assumptions C48_read_txt_every_file.
Theorem C48_pieces_are_lines :
  forall file, (forall l, In l (lines_of file) -> zlen l <= 1022) -> pieces_of file = lines_of file.
Proof. exact pieces_are_lines. Qed.
Print Assumptions C48_pieces_are_lines.
(** so for text files (no NUL) whose lines have at most 1022 bytes, exactly the lines are delivered *)
Theorem C48_read_txt_short_lines :
  forall U (fn : U -> Z -> list Z -> Z * U) file u, text file ->
  (forall l, In l (lines_of file) -> zlen l <= 1022) -> zlen (lines_of file) < 2 ^ 31 ->
  read_txt fn (Some file) u = Ret (deliver fn (lines_of file) 0 u).
Proof. exact @read_txt_ok. Qed.
Print Assumptions C48_read_txt_short_lines.
(** " a\r\n\n  \nb" : line 0 is "a", lines 1 and 2 are blank, line 3 is "b" *)
Example C48_case : read_txt (fun u i t => (0, u ++ [(i, t)])) (Some [32;97;13;10;10;32;32;10;98]) []
  = Ret (0, [(0, [97]); (3, [98])]).
Proof. rewrite C48_read_txt_short_lines; [vm_compute; reflexivity|repeat constructor; lia| |vm_compute; reflexivity].
  intros l I. vm_compute in I. repeat destruct I as [<-|I]; try (vm_compute; discriminate). destruct I. Qed.
(** A longer line is delivered in pieces, and the line numbers of everything after it are wrong: the file
    "x"*1024 "\n" "b" has two lines, but three are delivered and "b" gets number 2. *)
Theorem C48_long_line_refuted :
  let file := repeat 120 1024 ++ [10; 98] in
  lines_of file = [repeat 120 1024; [98]] /\
  read_txt (fun u i t => (0, u ++ [(i, t)])) (Some file) [] = Ret (0, [(0, repeat 120 1023); (1, [120]); (2, [98])]).
Proof. split; vm_compute; reflexivity. Qed.
Print Assumptions C48_long_line_refuted.
(** a file that cannot be opened: -1, the callback is not called *)
Theorem C48_no_file : forall U (fn : U -> Z -> list Z -> Z * U) u, read_txt fn None u = Ret (-1, u).
Proof. reflexivity. Qed.
Print Assumptions C48_no_file.

(** What dladdr is about: modules in memory and their exports. *)
From Verif Require Import CBase AddrModel.

(** a table of values of w bytes in memory *)
Definition array (mem : memory) (a : Z) (w : nat) (l : list Z) : Prop :=
  forall i x, nth_error l i = Some x -> rd mem (a + Z.of_nat w * Z.of_nat i) w = Ret x.
(** the exports of a module: offsets of functions by ordinal; offsets of names with the ordinal they name *)
Record exports := mk_ex { funcs : list Z; names : list (Z * Z) }.
(** an export directory at address dir *)
Definition export_dir (mem : memory) (m dir : Z) (e : exports) : Prop :=
  exists af an ao, rd mem (dir + 20) 4 = Ret (zlen (funcs e)) /\ rd mem (dir + 24) 4 = Ret (zlen (names e)) /\
    rd mem (dir + 28) 4 = Ret af /\ rd mem (dir + 32) 4 = Ret an /\ rd mem (dir + 36) 4 = Ret ao /\
    array mem (m + af) 4 (funcs e) /\ array mem (m + an) 4 (map fst (names e)) /\ array mem (m + ao) 2 (map snd (names e)).
(** the module at m has data directory k at address m + va with the size given *)
Definition has_dir (mem : memory) (m k va size : Z) : Prop :=
  exists lf, rd mem m 2 = Ret 0x5A4D /\ rd mem (m + 60) 4 = Ret lf /\ rd mem (m + s32 lf + 24) 2 = Ret 0x20b /\
    rd mem (m + s32 lf + 24 + 112 + 8 * k) 4 = Ret va /\ rd mem (m + s32 lf + 24 + 112 + 8 * k + 4) 4 = Ret size.
(** a module with these exports *)
Definition module_at (mem : memory) (m : Z) (e : exports) : Prop :=
  0 < m /\ Forall (fun f => 0 <= f) (funcs e) /\ zlen (funcs e) < two31 /\ Forall (fun n => 0 <= fst n) (names e) /\
  exists va size, has_dir mem m 0 va size /\ va <> 0 /\ size <> 0 /\ export_dir mem m (m + va) e.

(** ordinal i is the nearest export at or below addr, the first one at its address *)
Definition nearest (m addr : Z) (e : exports) (i : nat) : Prop :=
  exists f, nth_error (funcs e) i = Some f /\ m + f <= addr /\
    (forall j g, nth_error (funcs e) j = Some g -> m + g <= addr -> g <= f) /\
    (forall j, nth_error (funcs e) j = Some f -> (i <= j)%nat).
(** no export at or below addr *)
Definition none_below (m addr : Z) (e : exports) : Prop := Forall (fun f => addr < m + f) (funcs e).
(** the first name of ordinal i, 0 when it has none *)
Fixpoint name_of (l : list (Z * Z)) (i : Z) : option Z := match l with [] => None | (n, o) :: l => if o =? i then Some n else name_of l i end.
(** what is known about an address in this module *)
Definition about (m addr : Z) (e : exports) (x : info) : Prop :=
  fbase x = m /\
  ((none_below m addr e /\ sname x = 0 /\ saddr x = 0) \/
   (exists i f, nearest m addr e i /\ nth_error (funcs e) i = Some f /\
      match name_of (names e) (Z.of_nat i) with Some n => sname x = m + n /\ saddr x = m + f | None => sname x = 0 /\ saddr x = 0 end)).
Definition valid (sy : sysv) (a : Z) : Prop := a <> 0 /\ exists ab pr, vq sy a = Some (ab, pr) /\ ab <> 0 /\ pr <> 0 /\ pr <> 1.
(** jmp [rip + off] *)
Definition thunk_at (mem : memory) (a slot : Z) : Prop := rd mem a 2 = Ret 0x25ff /\ exists off, rd mem (a + 2) 4 = Ret off /\ slot = a + 6 + s32 off.

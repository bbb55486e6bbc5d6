(** The file logger (/repo/src/log/file_logger.c) with what its files hold on disk, to say what is left when the process dies at any moment. The threads are
    those of FileLoggerModel. stdio keeps the output of an open file in a buffer and hands bytes to the system in order, when it likes; file_logger.c never
    calls fflush; fclose (lines 172, 199, 248) hands over the rest. fopen(name, "wb") empties the file at once, fopen(name, "a") creates it. fclose is a
    step of its own here. Simplified: what the system has received survives (death of the process, not of the machine); fclose and write do not fail. *)
From Verif Require Import CBase RingBuffer2Model MsgQueueModel SpscModel HandlerModel FileLoggerModel.

(** c_disk: files as the system has them; c_closing: file whose fclose (line 248) is under way; c_lost: name and rest of the output to the "lost" file *)
Record cst := mk_c { c_l : lst; c_disk : fsys; c_closing : option (list Z); c_lost : list Z * list Z }.
Definition content (name : list Z) (fs : fsys) : list Z := match fs_get name fs with Some t => t | None => [] end.
(** output printed to a file that the system has not received *)
Definition pending (c : cst) (name : list Z) : list Z := zdrop (zlen (content name (c_disk c))) (content name (w_fs (l_w (c_l c)))).
Definition handed (c : cst) (name : list Z) (k : Z) : fsys := fs_append name (ztake k (pending c name)) (c_disk c).

(** one step of the worker; at msg_queue_handler.c:96 it runs handle_log_queue_msg, file_logger.c:207-247, up to the fclose *)
Definition cwexec (cfg : fcfg) (e : fenv) (mem : option (list Z)) (c : cst) : outcome (option cst) :=
  match c_closing c with
  | Some _ => Ret None
  | None =>
      do o <- lwexec cfg e mem (c_l c);
      match o with
      | None => Ret None
      | Some s' =>
          match wk (l_h (c_l c)) with
          | W96 =>
              do n <- load_int (buf (l_h (c_l c))) 12;
              do w1 <- open_file cfg e (l_w (c_l c));
              if n <? 1 then Ret (Some (mk_c s' (c_disk c) None (c_lost c)))
              else
                match w_fp w1 with
                | None => Ret (Some (mk_c s' (c_disk c) None (c_lost c)))
                | Some name =>
                    let d := match w_fp (l_w (c_l c)) with None => fs_create name (c_disk c) | Some _ => c_disk c end in
                    Ret (Some (mk_c s' d (match w_fp (l_w s') with None => Some name | Some _ => None end) (c_lost c)))
                end
          | _ => Ret (Some (mk_c s' (c_disk c) None (c_lost c)))
          end
      end
  end.
(** one step of the thread inside file_logger_log; lines 165-172: the "lost" file is opened, its output is written by the next steps *)
Definition cexec (cfg : fcfg) (fill : option (list Z)) (ok : bool) (c : cst) : outcome (option cst) :=
  match snd (c_lost c) with
  | _ :: _ => Ret None
  | [] =>
      do o <- lexec cfg fill ok (c_l c);
      match o with
      | None => Ret None
      | Some s' =>
          match l_pc (c_l c) with
          | L161 m status =>
              if negb (status =? MQ_SUCCESS) && f_keep cfg && ok then
                do name <- path_of (f_folder cfg ++ f_prefix cfg ++ LOST_LOG);
                do t <- prec_s (Z.to_nat (s32 (u32 (zlen m)))) m;
                Ret (Some (mk_c s' (fs_append name [] (c_disk c)) (c_closing c) (name, t ++ [10; 10])))
              else Ret (Some (mk_c s' (c_disk c) (c_closing c) (c_lost c)))
          | _ => Ret (Some (mk_c s' (c_disk c) (c_closing c) (c_lost c)))
          end
      end
  end.

Inductive cstep (cfg : fcfg) : cst -> cst -> Prop :=
| CSW c e mem c' : time_text (e_time e) -> cwexec cfg e mem c = Ret (Some c') -> cstep cfg c c'
| CSP c fill ok c' : fill_ok fill (c_l c) -> cexec cfg fill ok c = Ret (Some c') -> cstep cfg c c'
(* stdio hands over part of the output of the open file *)
| CSFlush c name k : w_fp (l_w (c_l c)) = Some name \/ c_closing c = Some name -> 0 <= k -> cstep cfg c (mk_c (c_l c) (handed c name k) (c_closing c) (c_lost c))
(* fclose, file_logger.c:248 *)
| CSClose c name : c_closing c = Some name -> cstep cfg c (mk_c (c_l c) (handed c name (zlen (pending c name))) None (c_lost c))
(* output to the "lost" file, file_logger.c:171-172 *)
| CSLost c k : snd (c_lost c) <> [] -> 0 <= k -> cstep cfg c (mk_c (c_l c) (fs_append (fst (c_lost c)) (ztake k (snd (c_lost c))) (c_disk c)) (c_closing c) (fst (c_lost c), zdrop k (snd (c_lost c))))
(* file_logger_deinit; its last step closes the open file, file_logger.c:197-201 *)
| CSD c s' : ldexec (c_l c) = Some s' ->
    cstep cfg c (mk_c s' (match l_d s', w_fp (l_w (c_l c)) with DEnd, Some name => handed c name (zlen (pending c name)) | _, _ => c_disk c end) (c_closing c) (c_lost c))
| CSCall c m : snd (c_lost c) = [] -> l_pc (c_l c) = LIdle -> l_d (c_l c) = DLive -> zlen m < two64 ->
    cstep cfg c (mk_c (lset_pc (lemit (c_l c) (LCall m)) (L131 m 0 MQ_BUF_NOT_ENOUGH)) (c_disk c) (c_closing c) (c_lost c))
| CSDeinit c : snd (c_lost c) = [] -> l_pc (c_l c) = LIdle -> l_d (c_l c) = DLive ->
    cstep cfg c (mk_c (lset_d (lset_h (lemit (c_l c) LDeinit) (set_ds (hemit (l_h (c_l c)) HDestroy) D174)) DDestroying) (c_disk c) (c_closing c) (c_lost c)).
Definition cboot (q : rb Z) (fs : fsys) : cst := mk_c (lboot q fs) fs None ([], []).
(** every state is a moment at which the process may die *)
Inductive creach (cfg : fcfg) (q : rb Z) (fs : fsys) : cst -> Prop :=
| CR0 : creach cfg q fs (cboot q fs)
| CRS c c' : creach cfg q fs c -> cstep cfg c c' -> creach cfg q fs c'.

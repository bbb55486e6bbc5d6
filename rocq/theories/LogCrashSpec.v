(** Specification for C82. lines, lsent, nonempty, opened, lost_name, lost_lines, lrefused, file_text are those of FileLoggerSpec. *)
From Verif Require Import CBase FileLoggerModel FileLoggerSpec LogCrashModel.
Definition starts {A} (a b : list A) : Prop := exists x, b = a ++ x.
(** the files on disk, in the order they were opened *)
Definition on_disk (c : cst) (texts : list (list Z)) : Prop := Forall2 (fun name t => fs_get name (c_disk c) = Some t) (opened (w_log (l_w (c_l c)))) texts.
(** no file_logger_log call has output to the "lost" file under way *)
Definition lost_idle (c : cst) : Prop := snd (c_lost c) = [].

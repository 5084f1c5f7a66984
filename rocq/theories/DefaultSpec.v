(** What the library does when nothing has been configured. *)
From Verif Require Import GoStr LevelModel EventModel LevelSpec FormatSpec LayoutModel ConfModel WorldModel WorldSpec.
Local Open Scope Z_scope.

(** Histories in which loggers are only got and used. *)
Definition use (o : op) : Prop :=
  match o with OGetLogger _ | OLog _ _ _ _ _ _ _ _ | OClose => True | _ => False end.
Inductive out_of_the_box (P : params) : world -> Prop :=
| ob_start : out_of_the_box P (init_world P)
| ob_use W o W' r : out_of_the_box P W -> use o -> op_ok W o -> exec P W o = Ok (W', r) -> out_of_the_box P W'.

(** The line for a message [m] of logger [n] at level [lvl], logged at time [now] from the frame [fr] of function [fs]:
    time|level|pid|logger >> message (function@package/file:line). *)
Inductive plain_line (E : env) (n m : str) (lvl now : Z) (fr : frame) (fs : str) : str -> Prop :=
| pl lv pkg fn file : named_level lvl lv -> func_name fs pkg fn -> last_elem (fr_file fr) file ->
    plain_line E n m lvl now fr fs
      (e_timefmt E now ($"2006-01-02T15:04:05.000Z07:00") ++ $"|" ++ e_sprintf E ($"%-5s") [VStr lv] ++ $"|" ++
       e_sprintf E ($"%6d") [VInt (e_pid E)] ++ $"|" ++ n ++ $" >> " ++ m ++ $" (" ++ fn ++ $"@" ++ pkg ++ $"/" ++ file ++
       $":" ++ e_sprintf E ($"%v") [VInt (fr_line fr)] ++ $") " ++ ["010"%char]).
(** The message of a call. *)
Inductive said (E : env) (fmt : str) (args : list value) : str -> Prop :=
| sd_noargs : args = [] -> said E fmt args fmt
| sd_format : args <> [] -> fmt <> [] -> said E fmt args (e_sprintf E fmt args)
| sd_plain : args <> [] -> fmt = [] -> said E fmt args (e_sprint E args).

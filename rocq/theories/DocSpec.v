(** What the README says about the example configuration. *)
From Verif Require Import GoStr LevelModel EventModel LevelSpec FormatSpec LayoutModel ConfModel WorldModel WorldSpec ManagerSpec DefaultSpec DocModel.
Local Open Scope Z_scope.

(** Programs as in the README: the configuration file is loaded first, then loggers are got and used. *)
Inductive as_documented (P : params) : world -> Prop :=
| ad_load file bs err W r : p_read P file = Some bs -> extension file ($"yaml") -> p_yaml P bs = (doc_config, err) ->
    exec P (init_world P) (OLoadConfigFile file []) = Ok (W, r) -> as_documented P W
| ad_use W o W' r : as_documented P W -> use o -> op_ok W o -> exec P W o = Ok (W', r) -> as_documented P W'.

(** The line for a message [m] of logger [n] at level [lvl], logged at time [now] from the frame [fr]:
    time level logger pid >> message (file:line). *)
Inductive doc_line (E : env) (n m : str) (lvl now : Z) (fr : frame) : str -> Prop :=
| dl lv : named_level lvl lv -> doc_line E n m lvl now fr
    (e_timefmt E now ($"2006-01-02T15:04:05.000Z07:00") ++ $" " ++ lv ++ $" " ++ n ++ $" " ++ e_sprintf E ($"%6d") [VInt (e_pid E)] ++
     $" >> " ++ m ++ $" (" ++ fr_file fr ++ $":" ++ e_sprintf E ($"%v") [VInt (fr_line fr)] ++ $") " ++ ["010"%char]).
(** Output r1, apart from its size: the file log/rf.log with mode 0640 in a directory made with mode 0750, five backups of mode 0550 named
    rf.log.1 and so on, no archive; written by the caller, from info up. *)
Record file_as_documented (s : out_spec) (c : roll_conf) : Prop := {
  fd_sink : os_sink s = SinkRolling c;
  fd_sync : os_async s = None;
  fd_threshold : os_threshold s = 4;
  fd_dir : rc_dir c = $"log/";
  fd_file : rc_file c = $"rf.log";
  fd_filePerm : rc_filePerm c = 6 * 8 ^ 2 + 4 * 8 + 0;
  fd_backPerm : rc_backPerm c = 5 * 8 ^ 2 + 5 * 8 + 0;
  fd_dirPerm : rc_dirPerm c = 7 * 8 ^ 2 + 5 * 8 + 0;
  fd_backups : rc_maxRolls c = 5;
  fd_archive : rc_archive c = ArchiveNone;
  fd_names : rc_nameMode c = Postfix }.
(** Its size: one megabyte. *)
Definition size_as_documented (c : roll_conf) : Prop := rc_kind c = BySize (1024 * 1024).
(** Output c1: the console, written by the caller, from info up. *)
Record console_as_documented (s : out_spec) : Prop := {
  cd_sink : os_sink s = SinkStdout;
  cd_sync : os_async s = None;
  cd_threshold : os_threshold s = 4 }.

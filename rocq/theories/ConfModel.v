(** Model of the option parsing in internal/output_base.go and internal/output_rolling.go, and of
    the built-in output creators (what object they build from a configuration entry). *)
From Verif Require Import GoStr Utf8 LevelModel EventModel Strconv.
Local Open Scope Z_scope.

(** api/logger_mange.go:86 [CfgOutput], api/logger_mange.go:104 [CfgFormat]: map[string]string; [None] is the nil map.
    Reading a missing key (or a nil map) gives "". *)
Definition cfgmap := option (smap str).
Definition cget (k : str) (c : cfgmap) : str :=
  match c with
  | None => []
  | Some m => match mlookup k m with Some v => v | None => [] end
  end.
(** api/logger_mange.go:88-101,106-114 [Name], [Type], [FormatName]. *)
Definition cfg_Name (c : cfgmap) : str := cget ($"name") c.
Definition cfg_Type (c : cfgmap) : str := cget ($"type") c.
Definition cfg_FormatName (c : cfgmap) : str := cget ($"format") c.

(** internal/output_base.go:77-86 [GetQueueSize]. *)
Definition GetQueueSize (s : str) : Z :=
  let mr := atoi s in
  let mr := if mr <=? 0 then 1000 else mr in
  if 100000 <? mr then 100000 else mr.
(** internal/output_base.go:89-98 [GetBatchNum]. *)
Definition GetBatchNum (s : str) : Z :=
  let mr := atoi s in
  let mr := if mr <=? 0 then 20 else mr in
  if 500 <? mr then 500 else mr.
(** internal/output_base.go:101-107 [GetThresholdLvl]. *)
Definition GetThresholdLvl (up : rune -> rune) (s : str) : level :=
  let lvl := LevelFrom up s in
  if lvl =? Uninitialized then All else lvl.

(** internal/output_rolling.go:75-101 [getMaxSize]; [size * 1024 ...] is computed in Go's int
    (64 bit), hence the wrap. *)
Definition getMaxSize (s : str) : Z :=
  if has_suffix s ($"K") then
    let size := atoi s in
    let size := if size <=? 0 then 10 * 1024 else size in
    wrap64 (size * 1024)
  else if has_suffix s ($"M") then
    let size := atoi s in
    let size := if size <=? 0 then 10 else size in
    wrap64 (size * 1024 * 1024)
  else if has_suffix s ($"G") then
    let size := atoi s in
    let size := if size <=? 0 then 1 else size in
    wrap64 (size * 1024 * 1024 * 1024)
  else
    let size := atoi s in
    if size <=? 0 then 10 * 1024 * 1024 else size.

(** internal/output_rolling.go:103-112 [getMaxRolls]. *)
Definition getMaxRolls (s : str) : Z :=
  let mr := atoi s in
  let mr := if mr <=? 0 then 5 else mr in
  if 20 <? mr then 20 else mr.

(** internal/output_rolling.go:114-124 [getFileMode]; 0777 = 511. *)
Definition getFileMode (s : str) (mode : Z) : Z :=
  let fm := fst (ParseInt s 0 32) in
  let ret := if fm <=? 0 then mode else fm in
  if 511 <? fm then mode else ret.

(** internal/output_fsutil.go:11-15 *)
Definition defaultFilePermissions : Z := 384.      (* 0600 *)
Definition defaultDirectoryPermissions : Z := 496. (* 0760 *)
Definition defaultBackupPermissions : Z := 320.    (* 0500 *)

(** filepath.Split on Unix: everything up to and including the last '/', and the rest. *)
Definition path_split (p : str) : str * str :=
  match last_index_byte "/" p with
  | Some i => (firstn (S i) p, skipn (S i) p)
  | None => ([], p)
  end.

Inductive archive_type := ArchiveNone | ArchiveZip | ArchiveGzip.
Inductive name_mode := Postfix | Prefix.
Inductive roll_kind := BySize (maxFileSize : Z) | ByTime (timePattern : str).

(** The configuration part of internal/output_rollingwriter.go:180-198 [rollingFileWriter]
    (fullName and archiveExploded included: no configuration sets them). *)
Record roll_conf := {
  rc_kind : roll_kind;
  rc_dir : str;              (* currentDirPath *)
  rc_file : str;             (* fileName *)
  rc_archive : archive_type;
  rc_archivePath : str;
  rc_archiveExploded : bool;
  rc_fullName : bool;
  rc_maxRolls : Z;
  rc_nameMode : name_mode;
  rc_dirPerm : Z;
  rc_filePerm : Z;
  rc_backPerm : Z
}.

(** internal/output_rollingwriter.go:200-218 [newRollingFileWriter(fpath, apath)]: the directory,
    file name and archive path it computes. *)
Definition new_dir (fpath : str) : str :=
  match fst (path_split fpath) with [] => $"." | d => d end.
Definition new_archivePath (fpath apath : str) : str :=
  match apath with [] => new_dir fpath | _ => apath end.

Inductive sink :=
| SinkStdout
| SinkMemory
| SinkRolling (rc : roll_conf)
| SinkSyslog (prefix : str)
| SinkCustom (send : event -> bool).   (* an output supplied by the user: whether its Send returns, or panics; its CallerInfoFlag is its formatter's *)
Record out_spec := {
  os_sink : sink;
  os_async : option (Z * Z);   (* queue size, batch number *)
  os_threshold : level
}.
Inductive created := Created (o : out_spec) | CreateErr | CreatePanic.

Definition async_of (cfg : cfgmap) : option (Z * Z) :=
  if str_eqb (cget ($"async") cfg) ($"true")
  then Some (GetQueueSize (cget ($"queue_size") cfg), GetBatchNum (cget ($"batch_num") cfg))
  else None.

(** internal/output_console.go:18-28 [NewConsoleOutput] ([cfg != nil &&] is subsumed: a nil map
    reads as ""). *)
Definition NewConsoleOutput (up : rune -> rune) (cfg : cfgmap) : created :=
  Created {| os_sink := SinkStdout; os_async := async_of cfg;
             os_threshold := GetThresholdLvl up (cget ($"threshold") cfg) |}.
(** internal/output_memory.go:23-27 [NewMemoryOutput]: ignores its configuration. *)
Definition NewMemoryOutput (cfg : cfgmap) : created :=
  Created {| os_sink := SinkMemory; os_async := None; os_threshold := All |}.
(** internal/output_rolling.go:22-73 [NewRollingOutput]. *)
Definition NewRollingOutput (up : rune -> rune) (cfg : cfgmap) : created :=
  let fpath := cget ($"file") cfg in
  let mk k := Created {|
    os_sink := SinkRolling {|
      rc_kind := k;
      rc_dir := new_dir fpath;
      rc_file := snd (path_split fpath);
      rc_archive := if str_eqb (cget ($"archive") cfg) ($"zip") then ArchiveZip
                    else if str_eqb (cget ($"archive") cfg) ($"gzip") then ArchiveGzip
                    else ArchiveNone;
      rc_archivePath := new_archivePath fpath [];
      rc_archiveExploded := false;
      rc_fullName := false;
      rc_maxRolls := getMaxRolls (cget ($"backups") cfg);
      rc_nameMode := if str_eqb (cget ($"name_mode") cfg) ($"prefix") then Prefix else Postfix;
      rc_dirPerm := getFileMode (cget ($"dir_perm") cfg) defaultDirectoryPermissions;
      rc_filePerm := getFileMode (cget ($"file_perm") cfg) defaultFilePermissions;
      rc_backPerm := getFileMode (cget ($"back_perm") cfg) defaultBackupPermissions |};
    os_async := async_of cfg;
    os_threshold := GetThresholdLvl up (cget ($"threshold") cfg) |} in
  if str_eqb (cfg_Type cfg) ($"size_rolling_file") then mk (BySize (getMaxSize (cget ($"size") cfg)))
  else if str_eqb (cfg_Type cfg) ($"time_rolling_file") then mk (ByTime (cget ($"pattern") cfg))
  else CreatePanic.
(** internal/output_syslog.go:66-76 [NewSyslogOutput]; [dial] tells whether syslog.New succeeds. *)
Definition NewSyslogOutput (up : rune -> rune) (dial : bool) (cfg : cfgmap) : created :=
  if dial then Created {| os_sink := SinkSyslog (cget ($"prefix") cfg); os_async := None;
                          os_threshold := GetThresholdLvl up (cget ($"threshold") cfg) |}
  else CreateErr.

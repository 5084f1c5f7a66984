(** What exploded archives should be. *)
From Verif Require Import GoStr ConfModel RollModel RollSpec ExplodeModel.

(** The name of the archive of a file. *)
Inductive archive_of (c : roll_conf) (n : str) : str -> Prop :=
| ao_zip : rc_archive c = ArchiveZip -> archive_of c n (n ++ $".zip")
| ao_gzip : rc_archive c = ArchiveGzip -> archive_of c n (n ++ $".gz").
(** Operations that went well, those on archives included. *)
Definition well (x : xop * fsres) : Prop :=
  match x with (XFs o, r) => smooth (o, r) | (_, r) => r <> RErr end.
Definition whatever (x : xop * fsres) : Prop := True.
(** The same configuration without archiving. *)
Definition unarchived (c : roll_conf) : roll_conf :=
  {| rc_kind := rc_kind c; rc_dir := rc_dir c; rc_file := rc_file c; rc_archive := ArchiveNone; rc_archivePath := rc_archivePath c;
     rc_archiveExploded := rc_archiveExploded c; rc_fullName := rc_fullName c; rc_maxRolls := rc_maxRolls c; rc_nameMode := rc_nameMode c;
     rc_dirPerm := rc_dirPerm c; rc_filePerm := rc_filePerm c; rc_backPerm := rc_backPerm c |}.
(** The log file was moved to this name. *)
Definition moved_to (c : roll_conf) (n : str) (tr : list (xop * fsres)) : Prop := In (XFs (ORename (rc_file c) n), ROk) tr.

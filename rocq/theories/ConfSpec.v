(** What an output entry of a configuration asks for, key by key. *)
From Verif Require Import GoStr Utf8 LevelModel LevelSpec Strconv ConfModel.
Local Open Scope Z_scope.

(** A number: the default if there is none, [hi] if it is greater than that. *)
Definition resolves (dflt hi : Z) (s : str) (z : Z) : Prop :=
  (s = [] -> z = dflt) /\ (forall n, 1 <= n <= max_int64 -> s = Itoa n -> z = Z.min n hi) /\ 1 <= z <= hi.
(** A permission, three octal digits after a zero. *)
Definition permission (dflt : Z) (s : str) (z : Z) : Prop :=
  (s = [] -> z = dflt) /\
  (forall a b c, 0 <= a <= 7 -> 0 <= b <= 7 -> 0 <= c <= 7 -> 0 < a * 64 + b * 8 + c ->
     s = ["0"%char; digit_char a; digit_char b; digit_char c] -> z = a * 64 + b * 8 + c) /\
  (z = dflt \/ 1 <= z <= 511).
(** A size in bytes (without a unit: C29). *)
Definition bytes_setting (s : str) (z : Z) : Prop :=
  (s = [] -> z = 10485760) /\ (forall n, 1 <= n <= max_int64 -> s = Itoa n -> z = n).
(** A threshold: the level of that name, else 1 (All). *)
Definition threshold (up : rune -> rune) (s : str) (l : level) : Prop :=
  named_level l (to_upper up s) \/ (l = 1 /\ forall k, ~ named_level k (to_upper up s)).
(** A path and its directory and file name. *)
Definition located (path d file : str) : Prop :=
  ~ In "/"%char file /\ ((d = $"." /\ file = path) \/ (exists d', d = d' ++ $"/" /\ path = d ++ file)).
(** Asynchronous if and only if the entry says "true". *)
Definition queued (get : str -> str) (a : option (Z * Z)) : Prop :=
  match a with
  | None => get ($"async") <> $"true"
  | Some (q, n) => get ($"async") = $"true" /\ resolves 1000 100000 (get ($"queue_size")) q /\
                   resolves 20 500 (get ($"batch_num")) n
  end.

(** The output described by the values [get] of the keys. *)
Inductive described (up : rune -> rune) (get : str -> str) : str -> out_spec -> Prop :=
| de_console q t : queued get q -> threshold up (get ($"threshold")) t ->
    described up get ($"console") {| os_sink := SinkStdout; os_async := q; os_threshold := t |}
| de_memory : described up get ($"memory") {| os_sink := SinkMemory; os_async := None; os_threshold := 1 |}
| de_syslog t : threshold up (get ($"threshold")) t ->
    described up get ($"syslog") {| os_sink := SinkSyslog (get ($"prefix")); os_async := None; os_threshold := t |}
| de_rolling ty c q t : queued get q -> threshold up (get ($"threshold")) t ->
    (ty = $"size_rolling_file" /\ (exists z, rc_kind c = BySize z /\ bytes_setting (get ($"size")) z) \/
     ty = $"time_rolling_file" /\ rc_kind c = ByTime (get ($"pattern"))) ->
    located (get ($"file")) (rc_dir c) (rc_file c) ->
    rc_archivePath c = rc_dir c ->
    rc_archive c = (if str_eqb (get ($"archive")) ($"zip") then ArchiveZip
                    else if str_eqb (get ($"archive")) ($"gzip") then ArchiveGzip else ArchiveNone) ->
    rc_archiveExploded c = false -> rc_fullName c = false ->
    resolves 5 20 (get ($"backups")) (rc_maxRolls c) ->
    (rc_nameMode c = Prefix <-> get ($"name_mode") = $"prefix") ->
    permission 496 (get ($"dir_perm")) (rc_dirPerm c) ->
    permission 384 (get ($"file_perm")) (rc_filePerm c) ->
    permission 320 (get ($"back_perm")) (rc_backPerm c) ->
    described up get ty {| os_sink := SinkRolling c; os_async := q; os_threshold := t |}.

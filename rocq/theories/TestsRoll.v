(** The project's own tests of the rolling writer, run in the model: evidence that the model does
    what the code does. internal/output_rollingwriter_test.go:252-255 [TestRollingFileWriter].

    A test creates empty files, writes ten bytes a number of times, and compares the names of all
    files with a list. The model has one directory, so names are given without their directory (a
    test uses one directory only). The last two of the thirty cases explode the archive; they are in
    P_Explode.v. *)
From Verif Require Import GoStr Strconv LevelModel ConfModel RollModel RollSpec RollExec.
Local Open Scope Z_scope.

(** internal/output_rollingwriter_test.go:19-32 [fileWriterTestCase]; [c_line] is the line of the case. *)
Record roll_case := mkCase {
  c_line : Z; c_files : list str; c_fileName : str; c_fileSize : Z; c_maxRolls : Z; c_writeCount : nat;
  c_resFiles : list str; c_nameMode : name_mode; c_exploded : bool }.
(** internal/output_rollingwriter_test.go:259-277 [rollingFileWriterGetter]. *)
Definition getter (t : roll_case) : roll_conf := {|
  rc_kind := BySize (c_fileSize t); rc_dir := new_dir (c_fileName t); rc_file := snd (path_split (c_fileName t));
  rc_archive := ArchiveNone; rc_archivePath := new_archivePath (c_fileName t) []; rc_archiveExploded := c_exploded t;
  rc_fullName := false; rc_maxRolls := c_maxRolls t; rc_nameMode := c_nameMode t;
  rc_dirPerm := defaultDirectoryPermissions; rc_filePerm := defaultFilePermissions; rc_backPerm := defaultBackupPermissions |}.
Definition present (s : sim) (n : str) : bool := match s_dir s n with Some _ => true | None => false end.
(** internal/output_rollingwriter_test.go:55-104 [testCase]: no error, all the files, no other. *)
Definition passes (t : roll_case) : bool :=
  match execs (fun _ _ => None) (getter t) w_new (repeat (SWrite ($"AAAAAAAAAA")) (c_writeCount t))
          (sim_of (map (fun n => (n, Reg [])) (c_files t)) AAbsent [] []) with
  | None => false
  | Some (hs, _, s, _) =>
    forallb (fun h => match h with HWrite _ _ e => negb e | _ => false end) hs &&
    forallb (present s) (c_resFiles t) &&
    forallb (fun n => implb (present s n) (existsb (str_eqb n) (c_resFiles t))) (s_names s)
  end.
(** internal/output_rollingwriter_test.go:280-308 *)
Definition rolling_tests : list roll_case := [
   mkCase 281 [] ($"log.testlog") 10 10 1 [$"log.testlog"] Postfix false;
   mkCase 282 [] ($"log.testlog") 10 10 2 [$"log.testlog"; $"log.testlog.1"] Postfix false;
   mkCase 283 [$"1.log.testlog"] ($"log.testlog") 10 10 2 [$"log.testlog"; $"1.log.testlog"; $"2.log.testlog"] Prefix false;
   mkCase 284 [$"log.testlog.1"] ($"log.testlog") 10 1 2 [$"log.testlog"; $"log.testlog.2"] Postfix false;
   mkCase 285 [] ($"log.testlog") 10 1 2 [$"log.testlog"; $"log.testlog.1"] Postfix false;
   mkCase 286 [$"log.testlog.9"] ($"log.testlog") 10 1 2 [$"log.testlog"; $"log.testlog.10"] Postfix false;
   mkCase 287 [$"log.testlog.a"; $"log.testlog.1b"] ($"log.testlog") 10 1 2 [$"log.testlog"; $"log.testlog.1"; $"log.testlog.a"; $"log.testlog.1b"] Postfix false;
   mkCase 288 [] ($"dir/log.testlog") 10 10 1 [$"log.testlog"] Postfix false;
   mkCase 289 [] ($"dir/log.testlog") 10 10 2 [$"log.testlog"; $"1.log.testlog"] Prefix false;
   mkCase 290 [$"log.testlog.1"] ($"dir/dir/log.testlog") 10 10 2 [$"log.testlog"; $"log.testlog.1"; $"log.testlog.2"] Postfix false;
   mkCase 291 [$"log.testlog.1"] ($"dir/dir/dir/log.testlog") 10 1 2 [$"log.testlog"; $"log.testlog.2"] Postfix false;
   mkCase 292 [] ($"./log.testlog") 10 1 2 [$"log.testlog"; $"log.testlog.1"] Postfix false;
   mkCase 293 [$"log.testlog.9"] ($"log.testlog") 10 1 2 [$"log.testlog"; $"log.testlog.10"] Postfix false;
   mkCase 294 [$"log.testlog.a"; $"log.testlog.1b"] ($"dir/dir/log.testlog") 10 1 2 [$"log.testlog"; $"log.testlog.1"; $"log.testlog.a"; $"log.testlog.1b"] Postfix false;
   mkCase 295 [] ($"././dir/log.testlog") 10 10 1 [$"log.testlog"] Postfix false;
   mkCase 296 [] ($"././dir/log.testlog") 10 10 2 [$"log.testlog"; $"log.testlog.1"] Postfix false;
   mkCase 297 [$"log.testlog.1"] ($"dir/dir/log.testlog") 10 10 2 [$"log.testlog"; $"log.testlog.1"; $"log.testlog.2"] Postfix false;
   mkCase 298 [$"log.testlog.1"] ($"dir/dir/dir/log.testlog") 10 1 2 [$"log.testlog"; $"log.testlog.2"] Postfix false;
   mkCase 299 [] ($"././log.testlog") 10 1 2 [$"log.testlog"; $"log.testlog.1"] Postfix false;
   mkCase 300 [$"log.testlog.9"] ($"log.testlog") 10 1 2 [$"log.testlog"; $"log.testlog.10"] Postfix false;
   mkCase 301 [$"log.testlog.a"; $"log.testlog.1b"] ($"dir/dir/log.testlog") 10 1 2 [$"log.testlog"; $"log.testlog.1"; $"log.testlog.a"; $"log.testlog.1b"] Postfix true;
   mkCase 302 [] ($"././dir/log.testlog") 10 10 1 [$"log.testlog"] Postfix false;
   mkCase 303 [] ($"././dir/log.testlog") 10 10 2 [$"log.testlog"; $"log.testlog.1"] Postfix false;
   mkCase 304 [$"log.testlog.1"] ($"dir/dir/log.testlog") 10 10 2 [$"log.testlog"; $"log.testlog.1"; $"log.testlog.2"] Postfix false;
   mkCase 305 [$"log.testlog.1"] ($"dir/dir/dir/log.testlog") 10 1 2 [$"log.testlog"; $"log.testlog.2"] Postfix false;
   mkCase 306 [] ($"././log.testlog") 10 1 2 [$"log.testlog"; $"log.testlog.1"] Postfix false;
   mkCase 307 [$"log.testlog.9"] ($"log.testlog") 10 1 2 [$"log.testlog"; $"log.testlog.10"] Postfix false;
   mkCase 308 [$"log.testlog.a"; $"log.testlog.1b"] ($"dir/dir/log.testlog") 10 1 2 [$"log.testlog"; $"log.testlog.1"; $"log.testlog.a"; $"log.testlog.1b"] Postfix true].

Example TestRollingFileWriter : length rolling_tests = 28%nat /\ forallb passes rolling_tests = true.
Proof. vm_compute. auto. Qed.

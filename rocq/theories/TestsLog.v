(** The project's own tests of levels, loggers, formats, the manager and the asynchronous output, run
    in the model: evidence that the model does what the code does. What the code takes from package
    fmt, package time and the runtime is given here for the calls the tests make. *)
From Verif Require Import GoStr Utf8 Strconv LevelModel EventModel LayoutModel ConfModel OutputModel WorldModel WorldSpec AsyncModel.
Local Open Scope Z_scope.

(** api/logger_level_test.go:9-17 [TestLevel] *)
Example TestLevel :
  LevelFrom (fun r => r) ($"error") = Error /\ LevelFrom (fun r => r) ($"Error") = Error /\
  LevelFrom (fun r => r) ($"eRror") = Error /\ LevelFrom (fun r => r) ($"xx") = Uninitialized /\
  level_String Error = $"ERROR" /\ level_ShortStr Error = $"ERR".
Proof. vm_compute. auto 10. Qed.

(** ** Package fmt, time and the runtime, as far as needed *)
Definition show_value (v : value) : str :=
  match v with VStr s => s | VInt 1 => $"1" | VNil => $"<nil>" | _ => $"?" end.
Definition pad (n : nat) (s : str) : str := repeat " "%char (n - length s).
Definition t_sprintf (f : str) (args : list value) : str :=
  match args with
  | [v] =>
    let s := show_value v in
    if str_eqb f ($"%v") then s else
    if str_eqb f ($"%-5s") then s ++ pad 5 s else
    if str_eqb f ($"%5s") then pad 5 s ++ s else
    if str_eqb f ($"%.1s") then firstn 1 s else
    if str_eqb f ($"xxxx  %d") then $"xxxx  " ++ s else $"?"
  | _ => $"?"
  end.
Definition t_sprint (args : list value) : str := flat_map show_value args.
(** The zero time is 0. *)
Definition t_time (t : Z) (layout : str) : str :=
  if (t =? 0) && str_eqb layout ($"2006-01-02T15:04:05") then $"0001-01-01T00:00:00" else $"?".
(** The functions of the tests that log: pcs 100 and on. *)
Definition t_func (pc : Z) : option str :=
  if pc =? 100 then Some ($"github.com/xtfly/log4g/internal.realFunc") else
  if pc =? 101 then Some ($"github.com/xtfly/log4g/internal.structFunc.Log") else
  if pc =? 102 then Some ($"github.com/xtfly/log4g/internal.TestFormat5.func1") else
  if pc =? 103 then Some ($"github.com/xtfly/log4g/internal.TestFormat2") else None.
Definition t_env : env := mkEnv t_sprintf t_sprint t_time 7 ($"internal.test") t_func.
Definition src (f : str) (pc line : Z) : frame := mkFrame pc ($"/go/src/github.com/xtfly/log4g/internal/" ++ f) line.
Definition test_frame (pc : Z) : frame := src ($"format_text_test.go") pc 40.
Definition testing_frame : frame := mkFrame 99 ($"/usr/lib/go/src/testing/testing.go") 909.
(** yaml.Unmarshal of the text in internal/logger_manager_test.go:13-54 *)
Definition perms : smap str := [($"file_perm", $"0640"); ($"back_perm", $"0550"); ($"dir_perm", $"0650"); ($"backups", $"5"); ($"threshold", $"info")].
Definition test_cfg : config := mkCfg
  [Some [($"name", $"f1"); ($"type", $"text");
         ($"layout", $"%{time} %{level} ${module} %{pid:6d} >> %{msg} (%{longfile}:%{line}) " ++ ["010"%char])]]
  [Some [($"name", $"c1"); ($"type", $"console"); ($"format", $"f1"); ($"threshold", $"info")];
   Some ([($"name", $"r1"); ($"type", $"size_rolling_file"); ($"format", $"f1"); ($"file", $"log/rf.log"); ($"size", $"1M")] ++ perms);
   Some ([($"name", $"r2"); ($"type", $"time_rolling_file"); ($"format", $"f1"); ($"file", $"log/rf.log"); ($"pattern", $"2006-01-02")] ++ perms);
   Some [($"name", $"s1"); ($"type", $"syslog"); ($"format", $"f1"); ($"prefix", $"module")]]
  [mkCL ($"root") ($"info") [$"r1"; $"c1"]; mkCL ($"a/b") ($"error") [$"r2"; $"s1"]].
Definition t_P : params :=
  mkParams t_env (fun r => r) (fun r => r) (fun _ => true) (fun _ => (test_cfg, true)) (fun _ => (empty_config, false)) (fun _ => None)
    (src ($"logger.go") 1 170) (src ($"logger.go") 2 162) (src ($"logger.go") 3 122) (src ($"logger_callerinfo.go") 4 33)
    [src ($"format_parser.go") 5 226; src ($"format_parser.go") 6 176; src ($"format_text.go") 7 35; src ($"output_base.go") 8 60].

(** ** internal/log4g_test.go *)
(** internal/log4g_test.go:15-32 [init] *)
Definition log4g_cfg : config := mkCfg
  [Some [($"type", $"text"); ($"name", $"f1"); ($"layout", $"%{module}|%{lvl}>>%{msg}")];
   Some [($"type", $"text"); ($"name", $"f2"); ($"layout", $"%{f1:-5s}|%{f2:-5s}|%{module}|%{lvl:5s}>>%{msg}")]]
  [Some [($"type", $"memory"); ($"name", $"m1"); ($"format", $"f1")]; Some [($"type", $"memory"); ($"name", $"m2"); ($"format", $"f2")]]
  [mkCL ($"test") ($"all") [$"m1"]; mkCL ($"test2") ($"debug") [$"m2"]].
(** A history; at its end, the writes of an output of the manager (internal/log4g_test.go:10-13
    [getOutput]). Truncating the buffer between two calls is left out: the writes are listed. *)
Definition writes_of (name : str) (ops : list op) : option (list str) :=
  match run t_P (init_world t_P) ops with
  | Panic => None
  | Ok W => match mlookup name (w_outputs W) with
            | None => None
            | Some o => option_map o_writes (nth_error (w_heap W) o)
            end
  end.
(** Nothing has asked for the root logger before [init]: SetConfig visits no logger. *)
Definition begin : list op := [OSetConfig log4g_cfg []].
Definition stk0 : stack := [test_frame 103; testing_frame].
(** Debug("xxxx") and the like, and Debugf("xxxx  %d", 1) and the like. *)
Definition says (id : nat) (c : ctx) (lvl : level) : op := OLog id c Named lvl [] [VStr ($"xxxx")] 1 stk0.
Definition saysf (id : nat) (lvl : level) : op := OLog id CtxBackground Named lvl ($"xxxx  %d") [VInt 1] 1 stk0.
(** internal/log4g_test.go:34-86 [TestLoggerFormat]. The logger is number 1: the root is made first. *)
Example TestLoggerFormat :
  writes_of ($"m1") (begin ++ [OGetLogger ($"test")] ++
    flat_map (fun lvl => [says 1 CtxBackground lvl; saysf 1 lvl]) [Debug; Trace; Info; Warn; Error; Critical]) =
  Some [$"test|DBG>>xxxx"; $"test|DBG>>xxxx  1"; $"test|TAC>>xxxx"; $"test|TAC>>xxxx  1"; $"test|INF>>xxxx"; $"test|INF>>xxxx  1";
        $"test|WRN>>xxxx"; $"test|WRN>>xxxx  1"; $"test|ERR>>xxxx"; $"test|ERR>>xxxx  1"; $"test|CRI>>xxxx"; $"test|CRI>>xxxx  1"].
Proof. vm_compute. reflexivity. Qed.
(** internal/log4g_test.go:88-95 [TestLoggerFields] *)
Example TestLoggerFields :
  writes_of ($"m2") (begin ++ [OGetLogger ($"test2"); says 1 (fields_ctx [($"f1", VStr ($"v1")); ($"f2", VStr ($"v2"))]) Debug]) =
  Some [$"v1   |v2   |test2|  DBG>>xxxx"].
Proof. vm_compute. reflexivity. Qed.
(** internal/log4g_test.go:97-110 [TestLoggerParent]: loggers root 0, test 1, test/1 2, test/1/2 3. *)
Example TestLoggerParent :
  writes_of ($"m1") (begin ++ [OGetLogger ($"test"); says 1 CtxBackground Debug; OGetLogger ($"test/1/2"); says 3 CtxBackground Debug]) =
  Some [$"test|DBG>>xxxx"; $"test/1/2|DBG>>xxxx"].
Proof. vm_compute. reflexivity. Qed.

(** ** internal/format_text_test.go *)
Definition text (layout : str) : option formatter :=
  match NewTextFormatter (Some [($"type", $"text"); ($"name", $"f1"); ($"layout", layout)]) with Ok f => f | Panic => None end.
(** internal/format_text_test.go:12-25 [TestFormat]: no output, no logger; the formatter is called
    from the test, and getCallerInfo from a verb function called from two Format methods. *)
Example TestFormat :
  match text ($"%{shortfile} %{time:2006-01-02T15:04:05} %{level:.1s} %{module} %{msg}") with
  | Some f => option_map fst (match fmt_Format t_env
                [src ($"logger_callerinfo.go") 4 33; src ($"format_parser.go") 5 226; src ($"format_parser.go") 6 176;
                 src ($"format_text.go") 7 35; test_frame 103; testing_frame] f
                (mkEvent ($"hello") [] ($"module") Debug 0 2 CtxBackground) with Ok r => Some r | Panic => None end)
  | None => None
  end = Some ($"format_text.go 0001-01-01T00:00:00 D module hello").
Proof. vm_compute. reflexivity. Qed.
(** internal/format_text_test.go:27-39 [TestFormat2] and the following ones: an output of the test's
    own for the logger test_format, and one call. The [init] above has run before. *)
Definition format_test (layout : str) (ustk : stack) : option (list str) :=
  match run t_P (init_world t_P) (begin ++ [OGetLogger ($"test_format")]) with
  | Panic => None
  | Ok W0 =>
    let sp := {| os_sink := SinkMemory; os_async := None; os_threshold := All |} in
    match run t_P W0 [ONewOutput sp (text layout); OSetOutputs 1 [length (w_heap W0)];
                      OLog 1 CtxBackground Named Debug [] [VStr ($"xx")] 1 ustk] with
    | Panic => None
    | Ok W => option_map o_writes (nth_error (w_heap W) (length (w_heap W0)))
    end
  end.
Example TestFormat2 : format_test ($"%{shortfile}") [test_frame 103; testing_frame] = Some [$"format_text_test.go"].
Proof. vm_compute. reflexivity. Qed.
(** internal/format_text_test.go:51-63 *)
Example TestFormat3 : format_test ($"%{shortfunc}") [test_frame 100; test_frame 103; testing_frame] = Some [$"realFunc"].
Proof. vm_compute. reflexivity. Qed.
(** internal/format_text_test.go:65-77 *)
Example TestFormat4 : format_test ($"%{longfunc}") [test_frame 101; test_frame 103; testing_frame] = Some [$"structFunc.Log"].
Proof. vm_compute. reflexivity. Qed.
(** internal/format_text_test.go:79-95 *)
Example TestFormat5 : format_test ($"%{shortfunc}") [test_frame 102; test_frame 103; testing_frame] = Some [$"func1"].
Proof. vm_compute. reflexivity. Qed.

(** ** internal/logger_manager_test.go:57-84 [TestManager] *)
(** The test uses a manager of its own, with the creators of internal/log4g.go registered; the
    model has one manager, with the same creators. *)
Definition answer (ops : list op) (o : op) : option (bool * level * nat) :=
  match run t_P (init_world t_P) ops with
  | Panic => None
  | Ok W => match exec t_P W o with
            | Ok (_, ROuts g) => Some (g_err g, g_lvl g, length (g_ops g))
            | _ => None
            end
  end.
Definition load : op := OLoadConfig [] ($"yaml") [].
Example TestManager :
  answer [load] (OGetLoggerOutputs ($"root")) = Some (false, Info, 2%nat) /\
  answer [load; OGetLoggerOutputs ($"root")] (OGetLoggerOutputs ($"a/b")) = Some (false, Error, 2%nat) /\
  answer [load; OGetLoggerOutputs ($"root"); OGetLoggerOutputs ($"a/b"); OClose] (OGetLoggerOutputs ($"a/b")) = Some (false, Error, 2%nat).
Proof. vm_compute. auto. Qed.

(** ** internal/output_base_test.go:13-33 [TestAsyncOutput] *)
Definition async_test : aconf := async_conf t_env [] (text ($"%{module}|%{lvl} >> %{msg}")) Info 1 1.
Definition test_event (msg : str) (lvl : level) : event := mkEvent msg [] ($"test") lvl 0 0 CtxBackground.
Definition async_sends : list call := [CSend (test_event ($"debug") Debug); CSend (test_event ($"abcdef") Info)].
(** Six seconds are enough for everything to happen that can: all schedules that go on until only
    the ticker can do something (which flushes what is buffered), and what the test then reads. *)
Fixpoint finals (fuel : nat) (s : astate) : list (option (list str * str)) :=
  match fuel with
  | O => [None]
  | S n =>
    let nexts := flat_map (fun c => match anext async_test s c with Some (_, s') => [s'] | None => [] end)
                   [Thread 0; WStart; WRecv; WDone] in
    match nexts with
    | [] => [Some (a_out s, a_buf s)]
    | _ => flat_map (finals n) nexts
    end
  end.
Example TestAsyncOutput : (exists l, finals 20 (a_init [async_sends]) = Some ([$"test|INF >> abcdef"], []) :: l) /\
  forallb (fun r => match r with
                    | Some (out, buf) => str_eqb (concat out ++ buf) ($"test|INF >> abcdef")
                    | None => false end) (finals 20 (a_init [async_sends])) = true.
Proof. split; [eexists|]; vm_compute; reflexivity. Qed.

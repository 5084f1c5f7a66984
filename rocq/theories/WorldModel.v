(** Model of internal/logger.go, internal/logger_factory.go, internal/logger_manager.go,
    api/logger_mange.go and internal/log4g.go: one state machine whose steps are API calls.

    Loggers and outputs are heap cells, pointers are indices. A call that panics has result
    [Panic]; nil or dangling pointers panic. Goroutines are not in this file: a call is one step
    (see LockModel.v for the calls taken apart at their lock operations). *)
From Verif Require Import GoStr Utf8 LevelModel EventModel LayoutModel ConfModel OutputModel.
Local Open Scope Z_scope.

(** ** Configuration: api/logger_mange.go:42-83 [Config], [CfgLogger] *)
Record cfg_logger := mkCL { cl_name : str; cl_level : str; cl_outputs : list str }.
Record config := mkCfg {
  c_formats : list cfgmap;
  c_outputs : list cfgmap;
  c_loggers : list cfg_logger
}.
Definition empty_config : config := mkCfg [] [] [].
(** api/logger_mange.go:49-56 [GetCfgLogger]. *)
Definition GetCfgLogger (c : config) (name : str) : option cfg_logger :=
  find (fun l => str_eqb (cl_name l) name) (c_loggers c).
(** api/logger_mange.go:59-66 [GetCfgOutput], api/logger_mange.go:69-76 [GetCfgFormat]: the first
    entry with that name; [None] is the nil map (no entry, or an entry that is itself nil). *)
Definition GetCfgOutput (c : config) (name : str) : cfgmap :=
  match find (fun o => str_eqb (cfg_Name o) name) (c_outputs c) with Some o => o | None => None end.
Definition GetCfgFormat (c : config) (name : str) : cfgmap :=
  match find (fun f => str_eqb (cfg_Name f) name) (c_formats c) with Some f => f | None => None end.

(** ** State *)
(** internal/logger.go:16-25 [defLogger]. *)
Record logger := mkLogger {
  l_name : str;
  l_level : level;
  l_parent : option nat;
  l_outputs : list nat;
  l_skip : Z;          (* callerSkip; Go int, not wrapped here *)
  l_flag : Z           (* callerInfoFlag *)
}.
(** An output object: what it writes to, its threshold and queue, its formatter, what it wrote
    (synchronous outputs), the syslog calls it made, how often it was closed. *)
Record output := mkOut {
  o_spec : out_spec;
  o_fmt : option formatter;
  o_writes : list str;
  o_sys : list (severity * str);
  o_closed : nat
}.
(** Creators (api/logger_mange.go:8-11 [FormatterFuncCreator], [OutputFuncCreator]). They may
    answer differently each time: the first argument counts creator calls. They do not call back
    into the library, and give an error or something that is not nil. *)
Definition fcreator := nat -> cfgmap -> res (option formatter).
Definition ocreator := nat -> cfgmap -> created.

(** internal/logger_manager.go:21-29 [defManager] and internal/logger_factory.go:16-21 [factory].
    The one factory is the one configuration listener. [w_sent] records the Send calls made on
    outputs (which output, on which stack, which event), [w_warn] the names in the warning of write (log.Println). *)
Record world := mkWorld {
  w_loggers : list logger;      (* heap *)
  w_root : option nat;
  w_names : smap nat;           (* factory.loggers *)
  w_fcreators : smap fcreator;
  w_ocreators : smap ocreator;
  w_formats : smap formatter;
  w_outputs : smap nat;         (* manager.outputs *)
  w_config : config;
  w_heap : list output;
  w_ticks : nat;                (* creator calls so far *)
  w_sent : list (nat * (stack * event));
  w_warn : list str
}.

(** Everything outside the library. [p_f*] are the stack frames of library functions. *)
Record params := mkParams {
  p_env : env;
  p_up : rune -> rune;               (* unicode.ToUpper above ASCII *)
  p_low : rune -> rune;              (* unicode.ToLower above ASCII *)
  p_dial : nat -> bool;              (* does syslog.New succeed *)
  p_yaml : str -> config * bool;     (* yaml.Unmarshal: what it stored, and whether it failed *)
  p_json : str -> config * bool;
  p_read : str -> option str;        (* ioutil.ReadFile *)
  p_fwrite : frame;                  (* defWriter.write *)
  p_fprintf : frame;                 (* defWriter.Printf *)
  p_fmethod : frame;                 (* the level method *)
  p_fgetci : frame;                  (* getCallerInfo *)
  p_fsend : list frame               (* frames above write while an output formats *)
}.

(** ** Updating cells *)
Fixpoint upd {A} (n : nat) (f : A -> A) (l : list A) : list A :=
  match l, n with
  | [], _ => []
  | x :: l', O => f x :: l'
  | x :: l', S n' => x :: upd n' f l'
  end.
Definition set_loggers (W : world) (ls : list logger) : world :=
  mkWorld ls (w_root W) (w_names W) (w_fcreators W) (w_ocreators W) (w_formats W) (w_outputs W)
    (w_config W) (w_heap W) (w_ticks W) (w_sent W) (w_warn W).
Definition set_config (W : world) (c : config) : world :=
  mkWorld (w_loggers W) (w_root W) (w_names W) (w_fcreators W) (w_ocreators W) (w_formats W)
    (w_outputs W) c (w_heap W) (w_ticks W) (w_sent W) (w_warn W).
Definition set_heap (W : world) (h : list output) : world :=
  mkWorld (w_loggers W) (w_root W) (w_names W) (w_fcreators W) (w_ocreators W) (w_formats W)
    (w_outputs W) (w_config W) h (w_ticks W) (w_sent W) (w_warn W).
Definition set_warn (W : world) (ws : list str) : world :=
  mkWorld (w_loggers W) (w_root W) (w_names W) (w_fcreators W) (w_ocreators W) (w_formats W)
    (w_outputs W) (w_config W) (w_heap W) (w_ticks W) (w_sent W) ws.
Definition set_sent (W : world) (s : list (nat * (stack * event))) : world :=
  mkWorld (w_loggers W) (w_root W) (w_names W) (w_fcreators W) (w_ocreators W) (w_formats W)
    (w_outputs W) (w_config W) (w_heap W) (w_ticks W) s (w_warn W).
Definition set_factory (W : world) (ls : list logger) (r : option nat) (ns : smap nat) : world :=
  mkWorld ls r ns (w_fcreators W) (w_ocreators W) (w_formats W) (w_outputs W)
    (w_config W) (w_heap W) (w_ticks W) (w_sent W) (w_warn W).
Definition set_caches (W : world) (fs : smap formatter) (os : smap nat) (h : list output) (t : nat) : world :=
  mkWorld (w_loggers W) (w_root W) (w_names W) (w_fcreators W) (w_ocreators W) fs os
    (w_config W) h t (w_sent W) (w_warn W).

(** ** Loggers *)
(** internal/logger.go:84-93 [defLogger.Level]: the loop over [parent]; [fuel] bounds it (a parent
    is older than its child, so [S id] steps are enough: WorldProofs.v). *)
Fixpoint level_up (ls : list logger) (fuel : nat) (id : nat) : level :=
  match fuel with
  | O => Off
  | S fuel' =>
    match nth_error ls id with
    | None => Off
    | Some l => if l_level l =? Uninitialized
                then match l_parent l with Some p => level_up ls fuel' p | None => Off end
                else l_level l
    end
  end.
Definition Level (W : world) (id : nat) : level := level_up (w_loggers W) (S id) id.
(** internal/logger.go:76-78 [LevelEnabled]. *)
Definition LevelEnabled (W : world) (id : nat) (lvl : level) : bool := Level W id <=? lvl.

(** internal/logger.go:80-82 [SetLevel], internal/logger.go:95-97 [SetCallerSkip]. *)
Definition with_level (lvl : level) (l : logger) : logger :=
  mkLogger (l_name l) lvl (l_parent l) (l_outputs l) (l_skip l) (l_flag l).
Definition with_skip (skip : Z) (l : logger) : logger :=
  mkLogger (l_name l) (l_level l) (l_parent l) (l_outputs l) (3 + skip) (l_flag l).
(** internal/logger.go:99-106 [SetOutputs]: [flags] are the CallerInfoFlag of the outputs. *)
Definition raise_flag (flag : Z) (flags : list Z) : Z :=
  fold_left (fun a f => if a <? f then f else a) flags flag.
Definition with_outputs (ops : list nat) (flags : list Z) (l : logger) : logger :=
  mkLogger (l_name l) (l_level l) (l_parent l) ops (l_skip l) (raise_flag (l_flag l) flags).
(** The outputs' flags; a nil output panics. *)
Fixpoint flags_of (h : list output) (ops : list nat) : res (list Z) :=
  match ops with
  | [] => Ok []
  | o :: ops' => match nth_error h o with
                 | None => Panic
                 | Some op => bind (flags_of h ops') (fun fs => Ok (out_flag (o_fmt op) :: fs))
                 end
  end.
Definition SetLevel (W : world) (id : nat) (lvl : level) : world :=
  set_loggers W (upd id (with_level lvl) (w_loggers W)).
Definition SetOutputs (W : world) (id : nat) (ops : list nat) : res world :=
  bind (flags_of (w_heap W) ops) (fun fs => Ok (set_loggers W (upd id (with_outputs ops fs) (w_loggers W)))).
Definition SetCallerSkip (W : world) (id : nat) (skip : Z) : world :=
  set_loggers W (upd id (with_skip skip) (w_loggers W)).

(** ** Sending *)
(** One Send on an output object. Asynchronous outputs only take the event over (AsyncModel.v has
    their worker); a user's own output may panic, and is assumed not to modify the event. *)
Definition with_writes (ws : list str) (o : output) : output :=
  mkOut (o_spec o) (o_fmt o) (o_writes o ++ ws) (o_sys o) (o_closed o).
Definition with_sys (ws : list (severity * str)) (o : output) : output :=
  mkOut (o_spec o) (o_fmt o) (o_writes o) (o_sys o ++ ws) (o_closed o).
Definition out_Send (E : env) (stk : stack) (o : output) (e : event) : res (output * event) :=
  match os_sink (o_spec o), os_async (o_spec o) with
  | SinkCustom send, _ => if send e then Ok (o, e) else Panic
  | _, Some _ => Ok (o, e)
  | SinkSyslog _, None =>
    bind (syslog_Send E stk (o_fmt o) (os_threshold (o_spec o)) e)
      (fun '(ws, e') => Ok (with_sys ws o, e'))
  | _, None =>
    bind (base_Send E stk (o_fmt o) (os_threshold (o_spec o)) e)
      (fun '(ws, e') => Ok (with_writes ws o, e'))
  end.
(** internal/logger.go:196-198: dispatch to all outputs. The event is one object: what an output's
    formatter adds to it is seen by the next output. *)
Fixpoint dispatch (E : env) (stk : stack) (W : world) (ops : list nat) (e : event) : res world :=
  match ops with
  | [] => Ok W
  | i :: ops' =>
    match nth_error (w_heap W) i with
    | None => Panic
    | Some o =>
      bind (out_Send E stk o e) (fun '(o', e') =>
      dispatch E stk (set_sent (set_heap W (upd i (fun _ => o') (w_heap W))) (w_sent W ++ [(i, (stk, e))])) ops' e')
    end
  end.
(** internal/logger.go:189-193: capture of caller information. *)
Definition capture (E : env) (stk : stack) (flag : Z) (e : event) : res event :=
  if flag =? 2 then bind (getCallerInfo E stk e true) (fun p => Ok (snd p))
  else if flag =? 1 then bind (getCallerInfo E stk e false) (fun p => Ok (snd p))
  else Ok e.
(** internal/logger.go:165-199 [defWriter.write]. [c] is the writer's own context; delegation goes
    through the parent's plain writer, whose context is the background (logger.go:33). [stk] is the
    stack of the caller; [now] is time.Now(). [fuel] bounds the delegation ([S id] is enough). *)
Fixpoint write (P : params) (fuel : nat) (W : world) (id : nat) (c : ctx) (name : str) (skip : Z)
  (lvl : level) (fmt : str) (args : list value) (now : Z) (stk : stack) : res world :=
  match fuel with
  | O => Panic
  | S fuel' =>
    match nth_error (w_loggers W) id with
    | None => Panic
    | Some l =>
      if negb (LevelEnabled W id lvl) then Ok W
      else
        let stk' := p_fwrite P :: stk in
        match l_outputs l, l_parent l with
        | [], Some p => write P fuel' W p CtxBackground name (skip + 1) lvl fmt args now stk'
        | ops, _ =>
          let W1 := match ops with [] => set_warn W (w_warn W ++ [name]) | _ => W end in
          let evt := mkEvent fmt args name lvl now skip c in
          bind (capture (p_env P) (p_fgetci P :: stk') (l_flag l) evt) (fun evt =>
          dispatch (p_env P) (p_fsend P ++ stk') W1 ops evt)
        end
    end
  end.
(** internal/logger.go:161-163 [Printf], called directly ([Direct]) or through a level method such
    as Infof or Info (internal/logger.go:113-159 [Tracef] and the others). [ustk] is the stack of
    the user's function making the call. *)
Inductive via := Direct | Named.
Definition Printf (P : params) (W : world) (id : nat) (c : ctx) (v : via) (lvl : level) (fmt : str)
  (args : list value) (now : Z) (ustk : stack) : res world :=
  match nth_error (w_loggers W) id with
  | None => Panic
  | Some l => write P (S id) W id c (l_name l) (l_skip l) lvl fmt args now
                (p_fprintf P :: match v with Direct => ustk | Named => p_fmethod P :: ustk end)
  end.

(** ** Manager *)
(** Result of GetLoggerOutputs: outputs, level, error or not. *)
Record glo := mkGlo { g_ops : list nat; g_lvl : level; g_err : bool }.
(** internal/logger_manager.go:63-101: the loop of [GetLoggerOutputs] over OutputNames. *)
Fixpoint glo_loop (W : world) (names : list str) (lvl : level) (acc : list nat) : res (world * glo) :=
  match names with
  | [] => Ok (W, mkGlo acc lvl false)
  | n :: names' =>
    match GetCfgOutput (w_config W) n with
    | None => Ok (W, mkGlo [] lvl true)
    | opcfg =>
      match GetCfgFormat (w_config W) (cfg_FormatName opcfg) with
      | None => Ok (W, mkGlo [] lvl true)
      | fmtcfg =>
        match mlookup (cfg_Type fmtcfg) (w_fcreators W) with
        | None => Ok (W, mkGlo [] lvl true)
        | Some fc =>
          bind (match mlookup (cfg_Name fmtcfg) (w_formats W) with
                | Some f => Ok (W, Some f)
                | None => bind (fc (w_ticks W) fmtcfg) (fun r =>
                   match r with
                   | None => Ok (set_caches W (w_formats W) (w_outputs W) (w_heap W) (S (w_ticks W)), None)
                   | Some f => Ok (set_caches W (minsert (cfg_Name fmtcfg) f (w_formats W)) (w_outputs W)
                                     (w_heap W) (S (w_ticks W)), Some f)
                   end)
                end) (fun '(W1, of) =>
          match of with
          | None => Ok (W1, mkGlo acc lvl true)
          | Some f =>
            match mlookup (cfg_Type opcfg) (w_ocreators W1) with
            | None => Ok (W1, mkGlo [] Uninitialized true)
            | Some oc =>
              match mlookup (cfg_Name opcfg) (w_outputs W1) with
              | Some o => glo_loop W1 names' lvl (acc ++ [o])
              | None =>
                match oc (w_ticks W1) opcfg with
                | CreatePanic => Panic
                | CreateErr => Ok (set_caches W1 (w_formats W1) (w_outputs W1) (w_heap W1) (S (w_ticks W1)),
                                   mkGlo acc lvl true)
                | Created sp =>
                  let o := length (w_heap W1) in
                  glo_loop (set_caches W1 (w_formats W1) (minsert (cfg_Name opcfg) o (w_outputs W1))
                              (w_heap W1 ++ [mkOut sp (Some f) [] [] 0]) (S (w_ticks W1)))
                    names' lvl (acc ++ [o])
                end
              end
            end
          end)
        end
      end
    end
  end.
(** internal/logger_manager.go:53-103 [GetLoggerOutputs]. *)
Definition GetLoggerOutputs (P : params) (W : world) (name : str) : res (world * glo) :=
  match GetCfgLogger (w_config W) name with
  | None => Ok (W, mkGlo [] Uninitialized true)
  | Some lc => glo_loop W (cl_outputs lc) (LevelFrom (p_up P) (cl_level lc)) []
  end.

(** internal/logger_manager.go:142-183 [validateConfig]; true = no error. The logger loop looks
    names up in a map that is never filled, so it never reports a duplicate. *)
Fixpoint validate_formats (seen : list str) (fs : list cfgmap) : option (list str) :=
  match fs with
  | [] => Some seen
  | f :: fs' => if existsb (str_eqb (cfg_Name f)) seen then None
                else validate_formats (cfg_Name f :: seen) fs'
  end.
Fixpoint validate_outputs (formats seen : list str) (os : list cfgmap) : option (list str) :=
  match os with
  | [] => Some seen
  | o :: os' => if existsb (str_eqb (cfg_Name o)) seen then None
                else if existsb (str_eqb (cfg_FormatName o)) formats
                     then validate_outputs formats (cfg_Name o :: seen) os'
                     else None
  end.
Definition validate_loggers (outputs loggers : list str) (ls : list cfg_logger) : bool :=
  forallb (fun l => negb (existsb (str_eqb (cl_name l)) loggers) &&
                    forallb (fun n => existsb (str_eqb n) outputs) (cl_outputs l)) ls.
Definition validateConfig (c : config) : bool :=
  match validate_formats [] (c_formats c) with
  | None => false
  | Some fs =>
    match validate_outputs fs [] (c_outputs c) with
    | None => false
    | Some os => validate_loggers os [] (c_loggers c)
    end
  end.

(** Applying what the manager answered to a logger: internal/logger_factory.go:34-39 and 94-99. *)
Definition apply_glo (W : world) (id : nat) (g : glo) : res world :=
  if g_err g then Ok W else SetOutputs (SetLevel W id (g_lvl g)) id (g_ops g).
(** internal/logger_factory.go:90-101 [notify]; [ord] is the order in which the runtime visits the
    loggers map. *)
Fixpoint notify (P : params) (W : world) (ord : list nat) : res world :=
  match ord with
  | [] => Ok W
  | id :: ord' =>
    match nth_error (w_loggers W) id with
    | None => Panic
    | Some l =>
      bind (GetLoggerOutputs P W (l_name l)) (fun '(W1, g) =>
      bind (apply_glo W1 id g) (fun W2 => notify P W2 ord'))
    end
  end.
(** internal/logger_manager.go:128-140 [setConfig]; true = no error. *)
Definition setConfig (P : params) (W : world) (c : config) (ord : list nat) : res (world * bool) :=
  if validateConfig c
  then bind (notify P (set_config W c) ord) (fun W' => Ok (W', true))
  else Ok (W, false).
(** internal/logger_manager.go:114-126 [LoadConfig]: [err] is overwritten and never returned. *)
Definition lower_byte (c : ascii) : ascii := if is_upper c then byte_of (code c + 32) else c.
Definition to_lower_rune (low : rune -> rune) (r : rune) : rune :=
  if (r <? 128)%N then (if ((65 <=? r) && (r <=? 90))%N then (r + 32)%N else r) else low r.
Definition to_lower (low : rune -> rune) (s : str) : str :=
  if forallb is_ascii7 s then map lower_byte s
  else flat_map (fun ir => encode_rune (to_lower_rune low (snd ir))) (range_str s).
Definition decoded (P : params) (bs ext : str) : config :=
  let ext := to_lower (p_low P) ext in
  if str_eqb ext ($"yaml") || str_eqb ext ($"yml") then fst (p_yaml P bs)
  else if str_eqb ext ($"json") then fst (p_json P bs)
  else empty_config.
Definition LoadConfig (P : params) (W : world) (bs ext : str) (ord : list nat) : res (world * bool) :=
  setConfig P W (decoded P bs ext) ord.
(** path.Ext: the suffix beginning at the final dot in the final slash-separated element. *)
Definition path_Ext (p : str) : str :=
  let base := match last_index_byte "/" p with Some i => skipn (S i) p | None => p end in
  match last_index_byte "." base with Some i => skipn i base | None => [] end.
(** internal/logger_manager.go:105-112 [LoadConfigFile]; [ext[1:]] of "" is out of range. *)
Definition LoadConfigFile (P : params) (W : world) (file : str) (ord : list nat) : res (world * bool) :=
  match p_read P file with
  | None => Ok (W, false)
  | Some bs => match path_Ext file with
               | [] => Panic
               | _ :: ext => LoadConfig P W bs ext ord
               end
  end.
(** internal/logger_manager.go:41-51 [RegisterFormatterCreator], [RegisterOutputCreator]. *)
Definition RegisterFormatterCreator (W : world) (t : str) (f : fcreator) : world :=
  mkWorld (w_loggers W) (w_root W) (w_names W) (minsert t f (w_fcreators W)) (w_ocreators W)
    (w_formats W) (w_outputs W) (w_config W) (w_heap W) (w_ticks W) (w_sent W) (w_warn W).
Definition RegisterOutputCreator (W : world) (t : str) (f : ocreator) : world :=
  mkWorld (w_loggers W) (w_root W) (w_names W) (w_fcreators W) (minsert t f (w_ocreators W))
    (w_formats W) (w_outputs W) (w_config W) (w_heap W) (w_ticks W) (w_sent W) (w_warn W).
(** internal/logger_manager.go:189-195 [defManager.Close]: every managed output once. *)
Definition close_out (o : output) : output :=
  mkOut (o_spec o) (o_fmt o) (o_writes o) (o_sys o) (S (o_closed o)).
Definition Close (W : world) : world :=
  set_heap W (fold_left (fun h p => upd (snd p) close_out h) (w_outputs W) (w_heap W)).

(** ** Factory *)
Definition rootName : str := $"root".
(** internal/logger.go:27-36 [newLogger]. *)
Definition newLogger (name : str) (parent : option nat) : logger :=
  mkLogger name Uninitialized parent [] 3 0.
(** internal/logger_factory.go:61-69 [createLogger]. *)
Definition createLogger (W : world) (name : str) (parent : nat) : world * nat :=
  match mlookup name (w_names W) with
  | Some id => (W, id)
  | None => let id := length (w_loggers W) in
            (set_factory W (w_loggers W ++ [newLogger name (Some parent)]) (w_root W)
               (minsert name id (w_names W)), id)
  end.
(** internal/logger_factory.go:71-88 [getRootLogger]. Without a usable configuration: level Debug
    and a console output of its own. The cell is added to the heap first, as newLogger does. *)
Definition add_output (W : world) (o : output) : world * nat :=
  (set_heap W (w_heap W ++ [o]), length (w_heap W)).
Definition console_of (c : created) : out_spec :=
  match c with
  | Created sp => sp
  | _ => {| os_sink := SinkStdout; os_async := None; os_threshold := All |}
  end.
Definition getRootLogger (P : params) (W : world) : res (world * nat) :=
  match w_root W with
  | Some r => Ok (W, r)
  | None =>
    let id := length (w_loggers W) in
    let W0 := set_factory W (w_loggers W ++ [newLogger rootName None]) (Some id) (w_names W) in
    bind (GetLoggerOutputs P W0 rootName) (fun '(W1, g) =>
    bind (if g_err g
          then let (W2, o) := add_output (SetLevel W1 id Debug)
                                (mkOut (console_of (NewConsoleOutput (p_up P) None)) None [] [] 0) in
               SetOutputs W2 id [o]
          else SetOutputs (SetLevel W1 id (g_lvl g)) id (g_ops g)) (fun W3 =>
    Ok (set_factory W3 (w_loggers W3) (w_root W3) (minsert rootName id (w_names W3)), id)))
  end.
(** internal/logger_factory.go:46-58 [getParent]: the loop over the runes of the name. *)
Fixpoint parent_loop (W : world) (name : str) (rs : list (nat * rune)) (parent : nat) : world * nat :=
  match rs with
  | [] => (W, parent)
  | (i, c) :: rs' =>
    if ((c =? code "/") || (c =? code "."))%N
    then match firstn i name with
         | [] => parent_loop W name rs' parent
         | pn => let (W1, p) := createLogger W pn parent in parent_loop W1 name rs' p
         end
    else parent_loop W name rs' parent
  end.
Definition getParent (P : params) (W : world) (name : str) : res (world * nat) :=
  bind (getRootLogger P W) (fun '(W1, r) => Ok (parent_loop W1 name (range_str name) r)).
(** internal/logger_factory.go:23-43 [GetLogger]. *)
Definition GetLogger (P : params) (W : world) (name : str) : res (world * nat) :=
  if str_eqb name [] || str_eqb name rootName then getRootLogger P W
  else match mlookup name (w_names W) with
       | Some id => Ok (W, id)
       | None =>
         bind (getParent P W name) (fun '(W1, p) =>
         let (W2, id) := createLogger W1 name p in
         bind (GetLoggerOutputs P W2 name) (fun '(W3, g) =>
         bind (apply_glo W3 id g) (fun W4 => Ok (W4, id))))
       end.

(** ** API calls *)
Inductive op :=
| OGetLogger (name : str)
| OSetLevel (id : nat) (lvl : level)
| OSetOutputs (id : nat) (ops : list nat)
| OSetCallerSkip (id : nat) (skip : Z)
| OLog (id : nat) (c : ctx) (v : via) (lvl : level) (fmt : str) (args : list value) (now : Z) (ustk : stack)
| ORegisterFormatter (t : str) (f : fcreator)
| ORegisterOutput (t : str) (f : ocreator)
| OGetLoggerOutputs (name : str)
| OSetConfig (c : config) (ord : list nat)
| OLoadConfig (bs ext : str) (ord : list nat)
| OLoadConfigFile (file : str) (ord : list nat)
| OClose
| ONewOutput (sp : out_spec) (f : option formatter)    (* the user makes an output of their own *)
| OSetFormatter (o : nat) (f : option formatter).      (* Output.SetFormatter *)
Inductive ret := RUnit | RLogger (id : nat) | RErr (ok : bool) | ROuts (g : glo) | ROutput (o : nat).

Definition with_fmt (f : option formatter) (o : output) : output :=
  mkOut (o_spec o) f (o_writes o) (o_sys o) (o_closed o).
Definition exec (P : params) (W : world) (o : op) : res (world * ret) :=
  match o with
  | OGetLogger n => bind (GetLogger P W n) (fun '(W', id) => Ok (W', RLogger id))
  | OSetLevel id lvl => match nth_error (w_loggers W) id with
                        | None => Panic | Some _ => Ok (SetLevel W id lvl, RUnit) end
  | OSetOutputs id ops => match nth_error (w_loggers W) id with
                          | None => Panic | Some _ => bind (SetOutputs W id ops) (fun W' => Ok (W', RUnit)) end
  | OSetCallerSkip id s => match nth_error (w_loggers W) id with
                           | None => Panic | Some _ => Ok (SetCallerSkip W id s, RUnit) end
  | OLog id c v lvl fmt args now ustk =>
      bind (Printf P W id c v lvl fmt args now ustk) (fun W' => Ok (W', RUnit))
  | ORegisterFormatter t f => Ok (RegisterFormatterCreator W t f, RUnit)
  | ORegisterOutput t f => Ok (RegisterOutputCreator W t f, RUnit)
  | OGetLoggerOutputs n => bind (GetLoggerOutputs P W n) (fun '(W', g) => Ok (W', ROuts g))
  | OSetConfig c ord => bind (setConfig P W c ord) (fun '(W', ok) => Ok (W', RErr ok))
  | OLoadConfig bs ext ord => bind (LoadConfig P W bs ext ord) (fun '(W', ok) => Ok (W', RErr ok))
  | OLoadConfigFile f ord => bind (LoadConfigFile P W f ord) (fun '(W', ok) => Ok (W', RErr ok))
  | OClose => Ok (Close W, RUnit)
  | ONewOutput sp f => let (W', o) := add_output W (mkOut sp f [] [] 0) in Ok (W', ROutput o)
  | OSetFormatter o f => match nth_error (w_heap W) o with
                         | None => Panic
                         | Some _ => Ok (set_heap W (upd o (with_fmt f) (w_heap W)), RUnit) end
  end.
(** The visiting order of a map is some order of all its entries. *)
Definition op_ok (W : world) (o : op) : Prop :=
  match o with
  | OSetConfig _ ord | OLoadConfig _ _ ord | OLoadConfigFile _ ord => Permutation ord (map snd (w_names W))
  | OLog _ _ Named lvl _ _ _ _ => Trace <= lvl <= Critical
  | _ => True
  end.

(** ** Start: internal/log4g.go:11-45 [init] (the signal handler is in SignalModel.v). *)
Definition new_world : world := mkWorld [] None [] [] [] [] [] empty_config [] 0 [] [].
Definition default_layout : str :=
  $"%{time}|%{level:-5s}|%{pid:6d}|%{module} >> %{msg} (%{longfunc}@%{longpkg}/%{shortfile}:%{line}) " ++ ["010"%char].
Definition default_config : config := mkCfg
  [Some [($"type", $"text"); ($"name", $"f1"); ($"layout", default_layout)]]
  [Some [($"type", $"console"); ($"name", $"c1"); ($"format", $"f1")]]
  [mkCL ($"root") ($"all") [$"c1"]].
Definition init_world (P : params) : world :=
  let W := RegisterFormatterCreator new_world ($"text") (fun _ => NewTextFormatter) in
  let W := RegisterOutputCreator W ($"console") (fun _ => NewConsoleOutput (p_up P)) in
  let W := RegisterOutputCreator W ($"memory") (fun _ => NewMemoryOutput) in
  let W := RegisterOutputCreator W ($"size_rolling_file") (fun _ => NewRollingOutput (p_up P)) in
  let W := RegisterOutputCreator W ($"time_rolling_file") (fun _ => NewRollingOutput (p_up P)) in
  let W := RegisterOutputCreator W ($"syslog") (fun t => NewSyslogOutput (p_up P) (p_dial P t)) in
  set_config W default_config.

(** Model of calls in which a creator panics, and of log calls in which a formatter does, when the caller recovers:
    what is stored when the panic passes through. The functions are those of WorldModel.v that can call a creator, and those
    that log; the locks are given back by deferred calls (internal/logger_manager.go:56, internal/logger_factory.go:25 and 92),
    and logging formats an event before it takes a lock (internal/output_base.go:40-55), so that the state is all that is left of the call. *)
From Verif Require Import GoStr Utf8 LevelModel EventModel LayoutModel ConfModel OutputModel WorldModel.
Local Open Scope Z_scope.

Inductive pres (A : Type) := Done (W : world) (a : A) | Raised (W : world).
Arguments Done {A}. Arguments Raised {A}.
Definition pbind {A B} (r : pres A) (f : world -> A -> pres B) : pres B :=
  match r with Done W a => f W a | Raised W => Raised W end.
(** One more creator call. *)
Definition tick (W : world) : world := set_caches W (w_formats W) (w_outputs W) (w_heap W) (S (w_ticks W)).

(** internal/logger_manager.go:63-101: the loop of [GetLoggerOutputs]. A creator that answers a nil
    output counts as one that panics: SetFormatter is called on what it answers before that is stored (line 95-96). *)
Fixpoint try_glo_loop (W : world) (names : list str) (lvl : level) (acc : list nat) : pres glo :=
  match names with
  | [] => Done W (mkGlo acc lvl false)
  | n :: names' =>
    match GetCfgOutput (w_config W) n with
    | None => Done W (mkGlo [] lvl true)
    | opcfg =>
      match GetCfgFormat (w_config W) (cfg_FormatName opcfg) with
      | None => Done W (mkGlo [] lvl true)
      | fmtcfg =>
        match mlookup (cfg_Type fmtcfg) (w_fcreators W) with
        | None => Done W (mkGlo [] lvl true)
        | Some fc =>
          pbind (match mlookup (cfg_Name fmtcfg) (w_formats W) with
                 | Some f => Done W (Some f)
                 | None => match fc (w_ticks W) fmtcfg with
                           | Panic => Raised (tick W)
                           | Ok None => Done (tick W) None
                           | Ok (Some f) => Done (set_caches W (minsert (cfg_Name fmtcfg) f (w_formats W)) (w_outputs W)
                                                   (w_heap W) (S (w_ticks W))) (Some f)
                           end
                 end) (fun W1 of =>
          match of with
          | None => Done W1 (mkGlo acc lvl true)
          | Some f =>
            match mlookup (cfg_Type opcfg) (w_ocreators W1) with
            | None => Done W1 (mkGlo [] Uninitialized true)
            | Some oc =>
              match mlookup (cfg_Name opcfg) (w_outputs W1) with
              | Some o => try_glo_loop W1 names' lvl (acc ++ [o])
              | None =>
                match oc (w_ticks W1) opcfg with
                | CreatePanic => Raised (tick W1)
                | CreateErr => Done (tick W1) (mkGlo acc lvl true)
                | Created sp =>
                  let o := length (w_heap W1) in
                  try_glo_loop (set_caches W1 (w_formats W1) (minsert (cfg_Name opcfg) o (w_outputs W1))
                                (w_heap W1 ++ [mkOut sp (Some f) [] [] 0]) (S (w_ticks W1)))
                    names' lvl (acc ++ [o])
                end
              end
            end
          end)
        end
      end
    end
  end.
(** internal/logger_manager.go:53-103 [GetLoggerOutputs]. *)
Definition try_GetLoggerOutputs (P : params) (W : world) (name : str) : pres glo :=
  match GetCfgLogger (w_config W) name with
  | None => Done W (mkGlo [] Uninitialized true)
  | Some lc => try_glo_loop W (cl_outputs lc) (LevelFrom (p_up P) (cl_level lc)) []
  end.
(** internal/logger_factory.go:90-101 [notify]. [apply_glo] gets outputs that exist and does not panic; neither
    does the visit of a logger. *)
Definition try_apply_glo (W : world) (id : nat) (g : glo) : pres unit :=
  match apply_glo W id g with Ok W' => Done W' tt | Panic => Raised W end.
Fixpoint try_notify (P : params) (W : world) (ord : list nat) : pres unit :=
  match ord with
  | [] => Done W tt
  | id :: ord' =>
    match nth_error (w_loggers W) id with
    | None => Raised W
    | Some l =>
      pbind (try_GetLoggerOutputs P W (l_name l)) (fun W1 g =>
      pbind (try_apply_glo W1 id g) (fun W2 _ => try_notify P W2 ord'))
    end
  end.
(** internal/logger_manager.go:128-140 [setConfig]: the configuration is stored before anything is created. *)
Definition try_setConfig (P : params) (W : world) (c : config) (ord : list nat) : pres bool :=
  if validateConfig c
  then pbind (try_notify P (set_config W c) ord) (fun W' _ => Done W' true)
  else Done W false.
(** internal/logger_factory.go:71-88 [getRootLogger]: f.root is set before, f.loggers after the outputs are made. *)
Definition try_getRootLogger (P : params) (W : world) : pres nat :=
  match w_root W with
  | Some r => Done W r
  | None =>
    let id := length (w_loggers W) in
    let W0 := set_factory W (w_loggers W ++ [newLogger rootName None]) (Some id) (w_names W) in
    pbind (try_GetLoggerOutputs P W0 rootName) (fun W1 g =>
    match (if g_err g
           then let (W2, o) := add_output (SetLevel W1 id Debug)
                                 (mkOut (console_of (NewConsoleOutput (p_up P) None)) None [] [] 0) in
                SetOutputs W2 id [o]
           else SetOutputs (SetLevel W1 id (g_lvl g)) id (g_ops g)) with
    | Ok W3 => Done (set_factory W3 (w_loggers W3) (w_root W3) (minsert rootName id (w_names W3))) id
    | Panic => Raised W1
    end)
  end.
(** internal/logger_factory.go:23-43 [GetLogger]: the loggers of the path exist when the outputs are made. *)
Definition try_GetLogger (P : params) (W : world) (name : str) : pres nat :=
  if str_eqb name [] || str_eqb name rootName then try_getRootLogger P W
  else match mlookup name (w_names W) with
       | Some id => Done W id
       | None =>
         pbind (try_getRootLogger P W) (fun W0 r =>
         let (W1, p) := parent_loop W0 name (range_str name) r in
         let (W2, id) := createLogger W1 name p in
         pbind (try_GetLoggerOutputs P W2 name) (fun W3 g =>
         pbind (try_apply_glo W3 id g) (fun W4 _ => Done W4 id)))
       end.
(** internal/logger.go:196-198: what the outputs before the one that panics got stays with them. A Send that panics does so
    while the event is formatted, before anything is written (internal/output_base.go:40-55 [Send], internal/output_syslog.go:19-43 [Send]). *)
Fixpoint try_dispatch (E : env) (stk : stack) (W : world) (ops : list nat) (e : event) : pres unit :=
  match ops with
  | [] => Done W tt
  | i :: ops' =>
    match nth_error (w_heap W) i with
    | None => Raised W
    | Some o =>
      match out_Send E stk o e with
      | Panic => Raised W
      | Ok (o', e') =>
        try_dispatch E stk (set_sent (set_heap W (upd i (fun _ => o') (w_heap W))) (w_sent W ++ [(i, (stk, e))])) ops' e'
      end
    end
  end.
(** internal/logger.go:165-199 [defWriter.write]: the warning of a logger without outputs is printed before the caller is looked up. *)
Fixpoint try_write (P : params) (fuel : nat) (W : world) (id : nat) (c : ctx) (name : str) (skip : Z)
  (lvl : level) (fmt : str) (args : list value) (now : Z) (stk : stack) : pres unit :=
  match fuel with
  | O => Raised W
  | S fuel' =>
    match nth_error (w_loggers W) id with
    | None => Raised W
    | Some l =>
      if negb (LevelEnabled W id lvl) then Done W tt
      else
        let stk' := p_fwrite P :: stk in
        match l_outputs l, l_parent l with
        | [], Some p => try_write P fuel' W p CtxBackground name (skip + 1) lvl fmt args now stk'
        | ops, _ =>
          let W1 := match ops with [] => set_warn W (w_warn W ++ [name]) | _ => W end in
          match capture (p_env P) (p_fgetci P :: stk') (l_flag l) (mkEvent fmt args name lvl now skip c) with
          | Panic => Raised W1
          | Ok evt => try_dispatch (p_env P) (p_fsend P ++ stk') W1 ops evt
          end
        end
    end
  end.
(** internal/logger.go:161-163 [Printf], as in WorldModel.v. *)
Definition try_Printf (P : params) (W : world) (id : nat) (c : ctx) (v : via) (lvl : level) (fmt : str)
  (args : list value) (now : Z) (ustk : stack) : pres unit :=
  match nth_error (w_loggers W) id with
  | None => Raised W
  | Some l => try_write P (S id) W id c (l_name l) (l_skip l) lvl fmt args now
                (p_fprintf P :: match v with Direct => ustk | Named => p_fmethod P :: ustk end)
  end.
(** The calls that can call a creator, and the log calls. LoadConfigFile panics besides for a file without extension, before it has done anything
    (internal/logger_manager.go:105-112 [LoadConfigFile]). *)
Definition try_exec (P : params) (W : world) (o : op) : option (pres ret) :=
  match o with
  | OGetLogger n => Some (pbind (try_GetLogger P W n) (fun W' id => Done W' (RLogger id)))
  | OGetLoggerOutputs n => Some (pbind (try_GetLoggerOutputs P W n) (fun W' g => Done W' (ROuts g)))
  | OSetConfig c ord => Some (pbind (try_setConfig P W c ord) (fun W' ok => Done W' (RErr ok)))
  | OLoadConfig bs ext ord => Some (pbind (try_setConfig P W (decoded P bs ext) ord) (fun W' ok => Done W' (RErr ok)))
  | OLoadConfigFile f ord =>
    Some (match p_read P f with
          | None => Done W (RErr false)
          | Some bs => match path_Ext f with
                       | [] => Raised W
                       | _ :: ext => pbind (try_setConfig P W (decoded P bs ext) ord) (fun W' ok => Done W' (RErr ok))
                       end
          end)
  | OLog id c v lvl fmt args now ustk => Some (pbind (try_Printf P W id c v lvl fmt args now ustk) (fun W' _ => Done W' RUnit))
  | _ => None
  end.
(** The call panics, and this is what it leaves. *)
Definition raised (P : params) (W : world) (o : op) (W' : world) : Prop := try_exec P W o = Some (Raised W').

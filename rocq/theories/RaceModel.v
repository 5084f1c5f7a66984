(** Model of log calls and of calls on a logger made by several goroutines at once: internal/logger.go takes no
    lock, so that the reads of a log call (level, outputs, caller-info flag) may fall between the stores of
    SetLevel, SetOutputs or a reconfiguration in another goroutine.

    Each read or store of one field of a logger is one step, and so is each Send. Reads and stores of a field are
    atomic (a Go slice header is not; the data race as such is not in the model). The name and the parent of a
    logger never change once others can see it (internal/logger_factory.go:61-69), so when they are read does not matter.
    Calls that touch no logger another goroutine can see are one step ([ROne]): GetLogger, which sets up only the
    loggers it makes, under the lock of the factory; the calls of the manager; Output.SetFormatter. Nothing here keeps two
    reconfigurations apart, as the lock of the factory does (LockModel.v): the executions of the program are among
    those of this file. *)
From Verif Require Import GoStr Utf8 LevelModel EventModel LayoutModel ConfModel OutputModel WorldModel.
Local Open Scope Z_scope.

(** What a call has still to do. [RCell]: read a field of a logger; [RSet]: store a field of a logger; [RHeap]: read
    the formatter of an output; [RFail]: the call panics. *)
Inductive rprog :=
| RRet (r : ret)
| RFail
| RCell (id : nat) (k : logger -> rprog)
| RSet (id : nat) (f : logger -> logger) (k : rprog)
| RHeap (o : nat) (k : output -> rprog)
| RSend (o : nat) (stk : stack) (e : event) (k : event -> rprog)
| RWarn (name : str) (k : rprog)
| RCfg (c : config) (k : rprog)
| ROne (o : op) (k : ret -> rprog).

(** internal/logger.go:84-93 [defLogger.Level]: the level is read once for the test and again to be returned. *)
Fixpoint p_level (fuel : nat) (id : nat) (k : level -> rprog) : rprog :=
  match fuel with
  | O => k Off
  | S fuel' =>
    RCell id (fun l =>
      if l_level l =? Uninitialized
      then match l_parent l with Some p => p_level fuel' p k | None => k Off end
      else RCell id (fun l' => k (l_level l')))
  end.
(** internal/logger.go:196-198: the slice is read once, before the loop. *)
Fixpoint p_dispatch (stk : stack) (ops : list nat) (e : event) : rprog :=
  match ops with
  | [] => RRet RUnit
  | o :: ops' => RSend o stk e (fun e' => p_dispatch stk ops' e')
  end.
(** internal/logger.go:178-198: the event, the capture of caller information (the flag is read for each of the two
    tests), and the outputs read a second time. *)
Definition p_capture (P : params) (id : nat) (stk : stack) (e : event) (k : event -> rprog) : rprog :=
  RCell id (fun l =>
    if l_flag l =? 2
    then match getCallerInfo (p_env P) stk e true with Ok p => k (snd p) | Panic => RFail end
    else RCell id (fun l' =>
      if l_flag l' =? 1
      then match getCallerInfo (p_env P) stk e false with Ok p => k (snd p) | Panic => RFail end
      else k e)).
Definition p_emit (P : params) (id : nat) (stk : stack) (e : event) : rprog :=
  p_capture P id (p_fgetci P :: stk) e (fun e' =>
  RCell id (fun l => p_dispatch (p_fsend P ++ stk) (l_outputs l) e')).
(** internal/logger.go:165-199 [defWriter.write]. *)
Fixpoint p_write (P : params) (fuel : nat) (id : nat) (c : ctx) (name : str) (skip : Z)
  (lvl : level) (fmt : str) (args : list value) (now : Z) (stk : stack) : rprog :=
  match fuel with
  | O => RFail
  | S fuel' =>
    p_level (S id) id (fun e =>
      if negb (e <=? lvl) then RRet RUnit
      else
        let stk' := p_fwrite P :: stk in
        let evt := mkEvent fmt args name lvl now skip c in
        RCell id (fun l =>
          match l_outputs l, l_parent l with
          | [], Some p => p_write P fuel' p CtxBackground name (skip + 1) lvl fmt args now stk'
          | [], None => RWarn name (p_emit P id stk' evt)
          | _, _ => p_emit P id stk' evt
          end))
  end.
(** internal/logger.go:161-163 [Printf]. *)
Definition p_Printf (P : params) (id : nat) (c : ctx) (v : via) (lvl : level) (fmt : str) (args : list value)
  (now : Z) (ustk : stack) : rprog :=
  RCell id (fun l => p_write P (S id) id c (l_name l) (l_skip l) lvl fmt args now
    (p_fprintf P :: match v with Direct => ustk | Named => p_fmethod P :: ustk end)).

(** internal/logger.go:99-106 [SetOutputs]: first the outputs, then the flag, output by output. *)
Definition store_outputs (ops : list nat) (l : logger) : logger :=
  mkLogger (l_name l) (l_level l) (l_parent l) ops (l_skip l) (l_flag l).
Definition store_flag (z : Z) (l : logger) : logger :=
  mkLogger (l_name l) (l_level l) (l_parent l) (l_outputs l) (l_skip l) z.
Fixpoint p_flags (id : nat) (ops : list nat) (k : rprog) : rprog :=
  match ops with
  | [] => k
  | o :: ops' =>
    RCell id (fun l => RHeap o (fun x =>
      if l_flag l <? out_flag (o_fmt x)
      then RHeap o (fun x' => RSet id (store_flag (out_flag (o_fmt x'))) (p_flags id ops' k))
      else p_flags id ops' k))
  end.
Definition p_SetOutputs (id : nat) (ops : list nat) (k : rprog) : rprog :=
  RSet id (store_outputs ops) (p_flags id ops k).
(** internal/logger_factory.go:90-101 [notify]: level and outputs of a logger are stored one after the other. *)
Fixpoint p_notify (ord : list nat) (k : rprog) : rprog :=
  match ord with
  | [] => k
  | id :: ord' =>
    RCell id (fun l => ROne (OGetLoggerOutputs (l_name l)) (fun r =>
      match r with
      | ROuts g => if g_err g then p_notify ord' k
                   else RSet id (with_level (g_lvl g)) (p_SetOutputs id (g_ops g) (p_notify ord' k))
      | _ => RFail
      end))
  end.
(** internal/logger_manager.go:128-140 [setConfig]. *)
Definition p_setConfig (c : config) (ord : list nat) : rprog :=
  if validateConfig c then RCfg c (p_notify ord (RRet (RErr true))) else RRet (RErr false).
(** One API call. internal/logger_manager.go:105-126 [LoadConfigFile], [LoadConfig]. *)
Definition p_op (P : params) (o : op) : rprog :=
  match o with
  | OSetLevel id lvl => RSet id (with_level lvl) (RRet RUnit)
  | OSetOutputs id ops => RCell id (fun _ => p_SetOutputs id ops (RRet RUnit))
  | OSetCallerSkip id s => RSet id (with_skip s) (RRet RUnit)
  | OLog id c v lvl fmt args now ustk => p_Printf P id c v lvl fmt args now ustk
  | OSetConfig c ord => p_setConfig c ord
  | OLoadConfig bs ext ord => p_setConfig (decoded P bs ext) ord
  | OLoadConfigFile file ord =>
    match p_read P file with
    | None => RRet (RErr false)
    | Some bs => match path_Ext file with
                 | [] => RFail
                 | _ :: ext => p_setConfig (decoded P bs ext) ord
                 end
    end
  | o => ROne o RRet
  end.

(** What the next step of a call does to the world, what is left of the call, and the Send it made, if any. *)
Definition delivery := (nat * (stack * event))%type.
Definition ract (P : params) (W : world) (p : rprog) : option (world * rprog * option delivery) :=
  match p with
  | RRet _ | RFail => None
  | RCell id k => Some (W, match nth_error (w_loggers W) id with Some l => k l | None => RFail end, None)
  | RSet id f k =>
    match nth_error (w_loggers W) id with
    | Some _ => Some (set_loggers W (upd id f (w_loggers W)), k, None)
    | None => Some (W, RFail, None)
    end
  | RHeap o k => Some (W, match nth_error (w_heap W) o with Some x => k x | None => RFail end, None)
  | RSend o stk e k =>
    match nth_error (w_heap W) o with
    | None => Some (W, RFail, None)
    | Some x =>
      match out_Send (p_env P) stk x e with
      | Panic => Some (W, RFail, None)
      | Ok (x', e') => Some (set_sent (set_heap W (upd o (fun _ => x') (w_heap W))) (w_sent W ++ [(o, (stk, e))]),
                             k e', Some (o, (stk, e)))
      end
    end
  | RWarn name k => Some (set_warn W (w_warn W ++ [name]), k, None)
  | RCfg c k => Some (set_config W c, k, None)
  | ROne o k => match exec P W o with Ok (W', r) => Some (W', k r, None) | Panic => Some (W, RFail, None) end
  end.

(** Goroutines: the call each one is in, if any. *)
Record rstate := mkR { r_w : world; r_threads : list (option rprog) }.
(** What a goroutine does in a step. A panic is recovered by the goroutine's own code. *)
Inductive rlabel :=
| Called (o : op)
| Stepped
| Sent (d : delivery)
| Returned (r : ret)
| Panicked.
(** The outputs a caller passes to SetOutputs exist. *)
Definition held (W : world) (o : op) : Prop :=
  match o with OSetOutputs _ ops => Forall (fun i => (i < length (w_heap W))%nat) ops | _ => True end.
Definition go (s : rstate) (W : world) (i : nat) (x : option rprog) : rstate :=
  mkR W (upd i (fun _ => x) (r_threads s)).
Inductive rstep (P : params) : rstate -> nat -> rlabel -> rstate -> Prop :=
| r_call s i o : nth_error (r_threads s) i = Some None -> held (r_w s) o ->
    rstep P s i (Called o) (go s (r_w s) i (Some (p_op P o)))
| r_act s i p W p' : nth_error (r_threads s) i = Some (Some p) -> ract P (r_w s) p = Some (W, p', None) ->
    rstep P s i Stepped (go s W i (Some p'))
| r_send s i p W p' d : nth_error (r_threads s) i = Some (Some p) -> ract P (r_w s) p = Some (W, p', Some d) ->
    rstep P s i (Sent d) (go s W i (Some p'))
| r_return s i r : nth_error (r_threads s) i = Some (Some (RRet r)) ->
    rstep P s i (Returned r) (go s (r_w s) i None)
| r_panic s i : nth_error (r_threads s) i = Some (Some RFail) ->
    rstep P s i Panicked (go s (r_w s) i None).
(** Executions: who did what, and the world after it. *)
Inductive rexec (P : params) : rstate -> list (nat * rlabel * world) -> rstate -> Prop :=
| re_nil s : rexec P s [] s
| re_more s i a s1 tr s2 : rstep P s i a s1 -> rexec P s1 tr s2 -> rexec P s ((i, a, r_w s1) :: tr) s2.
(** [n] goroutines, none of them in a call. *)
Definition r_start (W : world) (n : nat) : rstate := mkR W (repeat None n).

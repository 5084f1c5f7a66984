(** Model of the locking in internal/logger_factory.go and internal/logger_manager.go: goroutines making API calls,
    the mutex of the factory, the lock of the manager, and the queues and workers of asynchronous outputs, for
    which Close of the manager waits while it holds its lock.

    Between two operations on a lock or a queue, what a call does to the fields guarded by a lock it holds is one
    step ([LAct]). Not in this file: log calls and the calls on a logger itself, which take neither lock (events
    that other goroutines put into a queue are: [l_send]). Creators do not call back into the library. *)
From Verif Require Import GoStr Utf8 LevelModel EventModel LayoutModel ConfModel OutputModel WorldModel PanicModel.
Local Open Scope Z_scope.

(** internal/logger_factory.go:17 and internal/logger_manager.go:22, the two embedded locks. The one of the manager
    is a RWMutex that is never locked for reading. *)
Inductive lk := Fac | Man.
Definition lk_eqb (a b : lk) : bool := match a, b with Fac, Fac | Man, Man => true | _, _ => false end.

(** What a call has still to do. [LRet None]: the call has panicked (and the caller has recovered). The second
    continuation of [LAct] is taken when the step panics: it has the deferred unlocks; what the step had stored by then stays. [KLoad] to [KClose] are the
    operations of Close of an asynchronous output (as in AsyncModel.v). *)
Inductive lprog :=
| LRet (r : option ret)
| LLock (m : lk) (k : lprog)
| LUnlock (m : lk) (k : lprog)
| LAct (m : lk) (A : Type) (f : world -> pres A) (k : A -> lprog) (e : lprog)
| KLoad (o : nat) (open shut : lprog)
| KPush (o : nat) (k : lprog)
| KWait (o : nat) (k : lprog)
| KStore (o : nat) (k : lprog).
Arguments LAct m {A}.

Section Calls.
Context (P : params).
(** Outputs of the user whose Close panics. *)
Context (boom : nat -> bool).

(** internal/logger_manager.go:53-103 [GetLoggerOutputs], unlocked by a deferred call. *)
Definition p_outputs (name : str) (k : glo -> lprog) (e : lprog) : lprog :=
  LLock Man (LAct Man (fun W => try_GetLoggerOutputs P W name) (fun g => LUnlock Man (k g)) (LUnlock Man e)).
(** internal/logger_factory.go:71-88 [getRootLogger]. *)
Definition root_start (W : world) : pres (nat + nat) :=
  match w_root W with
  | Some r => Done W (inl r)
  | None => let id := length (w_loggers W) in
            Done (set_factory W (w_loggers W ++ [newLogger rootName None]) (Some id) (w_names W)) (inr id)
  end.
Definition root_end (id : nat) (g : glo) (W1 : world) : pres nat :=
  match (if g_err g
         then let (W2, o) := add_output (SetLevel W1 id Debug)
                               (mkOut (console_of (NewConsoleOutput (p_up P) None)) None [] [] 0) in
              SetOutputs W2 id [o]
         else SetOutputs (SetLevel W1 id (g_lvl g)) id (g_ops g)) with
  | Ok W3 => Done (set_factory W3 (w_loggers W3) (w_root W3) (minsert rootName id (w_names W3))) id
  | Panic => Raised W1
  end.
Definition p_root (k : nat -> lprog) (e : lprog) : lprog :=
  LAct Fac root_start (fun x =>
    match x with
    | inl r => k r
    | inr id => p_outputs rootName (fun g => LAct Fac (root_end id g) k e) e
    end) e.
(** internal/logger_factory.go:23-43 [GetLogger], with [getParent] and [createLogger] of 46-69. *)
Definition find_name (name : str) (W : world) : pres (option nat) := Done W (mlookup name (w_names W)).
Definition make_name (name : str) (r : nat) (W : world) : pres nat :=
  let (W1, p) := parent_loop W name (range_str name) r in
  let (W2, id) := createLogger W1 name p in Done W2 id.
Definition set_glo (id : nat) (g : glo) (W : world) : pres unit := try_apply_glo W id g.
Definition fac_return (id : nat) : lprog := LUnlock Fac (LRet (Some (RLogger id))).
Definition fac_panic : lprog := LUnlock Fac (LRet None).
Definition p_GetLogger (name : str) : lprog :=
  LLock Fac
    (if str_eqb name [] || str_eqb name rootName then p_root fac_return fac_panic
     else LAct Fac (find_name name) (fun x =>
            match x with
            | Some id => fac_return id
            | None =>
              p_root (fun r =>
                LAct Fac (make_name name r) (fun id =>
                p_outputs name (fun g =>
                LAct Fac (set_glo id g) (fun _ => fac_return id) fac_panic) fac_panic) fac_panic) fac_panic
            end) fac_panic).
(** internal/logger_factory.go:90-101 [notify]; [sh] is the order in which the runtime visits the map. *)
Definition name_of (id : nat) (W : world) : pres str :=
  match nth_error (w_loggers W) id with Some l => Done W (l_name l) | None => Raised W end.
Fixpoint p_notify_all (ids : list nat) (k : lprog) : lprog :=
  match ids with
  | [] => k
  | id :: ids' =>
    LAct Fac (name_of id) (fun n =>
    p_outputs n (fun g =>
    LAct Fac (set_glo id g) (fun _ => p_notify_all ids' k) fac_panic) fac_panic) fac_panic
  end.
Definition p_notify (sh : list nat -> list nat) (k : lprog) : lprog :=
  LLock Fac (LAct Fac (fun W => Done W (sh (map snd (w_names W)))) (fun ids => p_notify_all ids (LUnlock Fac k)) fac_panic).
(** internal/logger_manager.go:128-140 [setConfig], 114-126 [LoadConfig], 105-112 [LoadConfigFile]. *)
Definition p_setConfig (c : config) (sh : list nat -> list nat) : lprog :=
  if validateConfig c
  then LLock Man (LAct Man (fun W => Done (set_config W c) tt) (fun _ =>
       LUnlock Man (p_notify sh (LRet (Some (RErr true))))) (LRet None))
  else LRet (Some (RErr false)).
Definition p_LoadConfigFile (file : str) (sh : list nat -> list nat) : lprog :=
  match p_read P file with
  | None => LRet (Some (RErr false))
  | Some bs => match path_Ext file with
               | [] => LRet None
               | _ :: ext => p_setConfig (decoded P bs ext) sh
               end
  end.
(** internal/logger_manager.go:41-51 [RegisterFormatterCreator], [RegisterOutputCreator]. *)
Definition p_register (f : world -> world) : lprog :=
  LLock Man (LAct Man (fun W => Done (f W) tt) (fun _ => LUnlock Man (LRet (Some RUnit))) (LRet None)).
(** internal/output_base.go:137-146 [asyncOutput.Close]; the output closed here is one of the manager, and the
    channel is closed by nobody else, so that close(o.evtChan) has no effect on a call of this file. Close of any
    other output of the library returns at once (internal/output_base.go:69-72). *)
Definition p_close_one (o : nat) (k : lprog) : lprog :=
  if boom o then LRet None
  else LAct Man (fun W => Done (set_heap W (upd o close_out (w_heap W))) tt) (fun _ =>
       KLoad o (KPush o (KWait o (KStore o k))) k) (LRet None).
(** internal/logger_manager.go:189-195 [Close]: not unlocked when an output panics. *)
Definition p_Close (sh : list nat -> list nat) : lprog :=
  LLock Man (LAct Man (fun W => Done W (sh (map snd (w_outputs W)))) (fun os =>
    fold_right p_close_one (LUnlock Man (LRet (Some RUnit))) os) (LRet None)).

Inductive call :=
| CGetLogger (name : str)
| CGetLoggerOutputs (name : str)
| CSetConfig (c : config) (sh : list nat -> list nat)
| CLoadConfig (bs ext : str) (sh : list nat -> list nat)
| CLoadConfigFile (file : str) (sh : list nat -> list nat)
| CRegisterFormatter (t : str) (f : fcreator)
| CRegisterOutput (t : str) (f : ocreator)
| CClose (sh : list nat -> list nat).
Definition p_call (c : call) : lprog :=
  match c with
  | CGetLogger n => p_GetLogger n
  | CGetLoggerOutputs n => p_outputs n (fun g => LRet (Some (ROuts g))) (LRet None)
  | CSetConfig c sh => p_setConfig c sh
  | CLoadConfig bs ext sh => p_setConfig (decoded P bs ext) sh
  | CLoadConfigFile f sh => p_LoadConfigFile f sh
  | CRegisterFormatter t f => p_register (fun W => RegisterFormatterCreator W t f)
  | CRegisterOutput t f => p_register (fun W => RegisterOutputCreator W t f)
  | CClose sh => p_Close sh
  end.
End Calls.

(** The queue of an asynchronous output and its worker, internal/output_base.go:120-128; what matters of an
    element is whether it is nil. The capacity is at least one (GetQueueSize, internal/output_base.go:77-86). *)
Record qst := mkQ { q_cap : nat; q_items : list bool; q_started : bool; q_gone : bool; q_flag : bool }.
(** internal/output_base.go:110-118 [NewAsyncOutput]. [None] for an output that is not asynchronous. *)
Definition q_new (o : output) : option qst :=
  match os_async (o_spec o) with
  | Some (n, _) => Some (mkQ (Nat.max 1 (Z.to_nat n)) [] false false false)
  | None => None
  end.
Definition q_set (q : qst) (items : list bool) : qst := mkQ (q_cap q) items (q_started q) (q_gone q) (q_flag q).

(** A goroutine: what its finished calls returned, the call it is in, the calls to come. *)
Record thread := mkT { t_done : list (call * option ret); t_now : option (call * lprog); t_todo : list call }.
Record lstate := mkL {
  l_fac : option nat;          (* who has locked the factory *)
  l_man : option nat;          (* who has locked the manager *)
  l_w : world;
  l_q : list (option qst);     (* one for each output of the heap *)
  l_threads : list thread
}.
Definition owner (s : lstate) (m : lk) : option nat := match m with Fac => l_fac s | Man => l_man s end.
Definition set_owner (s : lstate) (m : lk) (x : option nat) : lstate :=
  match m with
  | Fac => mkL x (l_man s) (l_w s) (l_q s) (l_threads s)
  | Man => mkL (l_fac s) x (l_w s) (l_q s) (l_threads s)
  end.
(** The world has changed: queues are made for new outputs. *)
Definition set_world (s : lstate) (W : world) : lstate :=
  mkL (l_fac s) (l_man s) W (l_q s ++ map q_new (skipn (length (l_q s)) (w_heap W))) (l_threads s).
Definition set_q (s : lstate) (o : nat) (q : qst) : lstate :=
  mkL (l_fac s) (l_man s) (l_w s) (upd o (fun _ => Some q) (l_q s)) (l_threads s).
Definition put (s : lstate) (i : nat) (t : thread) : lstate :=
  mkL (l_fac s) (l_man s) (l_w s) (l_q s) (upd i (fun _ => t) (l_threads s)).
Definition queue (s : lstate) (o : nat) : option qst := match nth_error (l_q s) o with Some x => x | None => None end.

(** The next operation of a call of goroutine [i]: the state and the rest of the call; [None] while it has to wait. *)
Definition act (s : lstate) (i : nat) (p : lprog) : option (lstate * lprog) :=
  match p with
  | LRet _ => None
  | LLock m k => match owner s m with None => Some (set_owner s m (Some i), k) | Some _ => None end
  | LUnlock m k => Some (set_owner s m None, k)
  | LAct _ f k e => match f (l_w s) with Done W a => Some (set_world s W, k a) | Raised W => Some (set_world s W, e) end
  | KLoad o op sh => Some (s, match queue s o with Some q => if q_flag q then sh else op | None => sh end)
  | KPush o k =>
    match queue s o with
    | Some q => if (length (q_items q) <? q_cap q)%nat then Some (set_q s o (q_set q (q_items q ++ [true])), k) else None
    | None => None
    end
  | KWait o k =>
    match queue s o with
    | Some q => if q_started q && negb (q_gone q) then None else Some (s, k)
    | None => None
    end
  | KStore o k =>
    match queue s o with
    | Some q => Some (set_q s o (mkQ (q_cap q) (q_items q) (q_started q) (q_gone q) true), k)
    | None => None
    end
  end.
(** internal/output_base.go:155-181 [loop]: the worker of output [o] starts, or takes one element. *)
Definition work (s : lstate) (o : nat) : option lstate :=
  match queue s o with
  | None => None
  | Some q =>
    if negb (q_started q) then Some (set_q s o (mkQ (q_cap q) (q_items q) true (q_gone q) (q_flag q)))
    else if q_gone q then None
    else match q_items q with
         | [] => None
         | x :: items => Some (set_q s o (mkQ (q_cap q) items true x (q_flag q)))
         end
  end.
Inductive label := ByCall (i : nat) | ByWorker (o : nat) | BySend (o : nat).
Inductive lstep (P : params) (boom : nat -> bool) : lstate -> label -> lstate -> Prop :=
| l_call s i d c cs : nth_error (l_threads s) i = Some (mkT d None (c :: cs)) ->
    lstep P boom s (ByCall i) (put s i (mkT d (Some (c, p_call P boom c)) cs))
| l_act s i d c p cs s' p' : nth_error (l_threads s) i = Some (mkT d (Some (c, p)) cs) -> act s i p = Some (s', p') ->
    lstep P boom s (ByCall i) (put s' i (mkT d (Some (c, p')) cs))
| l_return s i d c r cs : nth_error (l_threads s) i = Some (mkT d (Some (c, LRet r)) cs) ->
    lstep P boom s (ByCall i) (put s i (mkT (d ++ [(c, r)]) None cs))
| l_work s o s' : work s o = Some s' -> lstep P boom s (ByWorker o) s'
| l_send s o q : queue s o = Some q -> (length (q_items q) < q_cap q)%nat ->
    lstep P boom s (BySend o) (set_q s o (q_set q (q_items q ++ [false]))).
Inductive lsteps (P : params) (boom : nat -> bool) : lstate -> list label -> lstate -> Prop :=
| ls_nil s : lsteps P boom s [] s
| ls_more s l s1 a s2 : lsteps P boom s l s1 -> lstep P boom s1 a s2 -> lsteps P boom s (l ++ [a]) s2.
(** Goroutines about to make calls, no lock taken. *)
Definition l_start (W : world) (q : list (option qst)) (todo : list (list call)) : lstate :=
  mkL None None W q (map (mkT [] None) todo).

(** Model of what the library shares with its caller: the configuration object given to SetConfig
    (internal/logger_manager.go:128-140 stores the pointer), the slice of outputs given to SetOutputs
    (internal/logger.go:99-106 stores the slice), the arguments of a log call
    (internal/logger.go:178-187 stores the slice in the event, internal/output_base.go:126-131 passes the event to
    the worker of an asynchronous output, which formats it later), and the fields given to WithFields
    (internal/logger.go:38-46 copies them). What the caller does with the memory in between is part of the model.
    Everything else is WorldModel.v. *)
From Verif Require Import GoStr LevelModel EventModel ConfModel OutputModel WorldModel.

(** The caller's memory: configurations, slices of outputs, slices of arguments and of fields, by address. *)
Record memory := mkMem {
  m_cfgs : nat -> config;
  m_outs : nat -> list nat;
  m_args : nat -> list value;
  m_fields : nat -> list field
}.
Definition aset {A} (f : nat -> A) (a : nat) (v : A) : nat -> A := fun b => if Nat.eqb b a then v else f b.

(** Who logs: a logger, or a writer that WithFields or WithCtx returned (the [w]-th of them). *)
Inductive who := Logger (id : nat) | Writer (w : nat).
(** What happens: a call with data nobody else has; the calls that are given the caller's memory; the caller storing
    something; the worker of an asynchronous output taking the next event and formatting it. *)
Inductive act :=
| ACall (o : op)
| ASetConfig (a : nat) (ord : list nat)
| ASetOutputs (id : nat) (s : nat)
| AWithFields (id : nat) (s : nat)
| AWithCtx (id : nat) (c : ctx)
| ALog (w : who) (v : via) (lvl : level) (fmt : str) (s : nat) (now : Z) (ustk : stack)
| AStoreConfig (a : nat) (c : config)
| AStoreOutput (s i : nat) (o : nat)
| AStoreArg (s i : nat) (v : value)
| AStoreField (s i : nat) (f : field)
| AWorker (o : nat).

(** The library's state: WorldModel.v's with the shared memory read, and which parts of it are shared: the configuration
    object in force, per logger the slice of outputs, the events waiting for a worker, each with the slice of its
    arguments. [a_done]: what the workers got to format. [a_writers]: logger and context of the writers made. *)
Record astate := mkA {
  a_W : world;
  a_mem : memory;
  a_cfg : option nat;
  a_slices : list (nat * nat);
  a_queue : list (nat * (option nat * event));
  a_done : list (nat * event);
  a_writers : list (nat * ctx)
}.
Definition a_start (P : params) (m : memory) : astate := mkA (init_world P) m None [] [] [] [].

(** The call of WorldModel.v that is made, if one is. *)
Definition op_for (s : astate) (a : act) : option op :=
  match a with
  | ACall o => Some o
  | ASetConfig a ord => Some (OSetConfig (m_cfgs (a_mem s) a) ord)
  | ASetOutputs id sl => Some (OSetOutputs id (m_outs (a_mem s) sl))
  | ALog (Logger id) v lvl fmt sl now ustk => Some (OLog id CtxBackground v lvl fmt (m_args (a_mem s) sl) now ustk)
  | ALog (Writer w) v lvl fmt sl now ustk =>
      match nth_error (a_writers s) w with
      | Some (id, c) => Some (OLog id c v lvl fmt (m_args (a_mem s) sl) now ustk)
      | None => None
      end
  | _ => None
  end.
(** The loggers to which [notify] gives outputs, in a slice of their own
    (internal/logger_factory.go:90-101 [notify], internal/logger_manager.go:100-100). *)
Fixpoint notify_told (P : params) (W : world) (ord : list nat) : list nat :=
  match ord with
  | [] => []
  | id :: ord' =>
    match nth_error (w_loggers W) id with
    | None => []
    | Some l =>
      match GetLoggerOutputs P W (l_name l) with
      | Ok (W1, g) =>
        match apply_glo W1 id g with
        | Ok W2 => (if g_err g then [] else [id]) ++ notify_told P W2 ord'
        | Panic => []
        end
      | Panic => []
      end
    end
  end.
(** The loggers whose outputs a call replaces, by a slice that nobody else has or by the caller's. A logger that the call
    makes has no other slice before. *)
Definition told (P : params) (W : world) (o : op) : list nat :=
  match o with
  | OSetOutputs id _ => [id]
  | OSetConfig c ord => if validateConfig c then notify_told P (set_config W c) ord else []
  | OLoadConfig bs ext ord => let c := decoded P bs ext in if validateConfig c then notify_told P (set_config W c) ord else []
  | OLoadConfigFile f ord =>
      match p_read P f with
      | Some bs => match path_Ext f with
                   | _ :: ext => let c := decoded P bs ext in if validateConfig c then notify_told P (set_config W c) ord else []
                   | [] => []
                   end
      | None => []
      end
  | _ => []
  end.
Definition dropped (ids : list nat) (ls : list (nat * nat)) : list (nat * nat) :=
  filter (fun x => negb (existsb (Nat.eqb (fst x)) ids)) ls.
(** A configuration call that was accepted stored its object. *)
Definition configures (o : op) (r : ret) : bool :=
  match o, r with
  | (OSetConfig _ _ | OLoadConfig _ _ _ | OLoadConfigFile _ _), RErr true => true
  | _, _ => false
  end.
(** The events that the call handed to workers. *)
Definition is_async (W : world) (o : nat) : bool :=
  match nth_error (w_heap W) o with
  | Some x => match os_sink (o_spec x), os_async (o_spec x) with SinkCustom _, _ => false | _, Some _ => true | _, None => false end
  | None => false
  end.
Definition handed (W W' : world) : list (nat * event) :=
  map (fun x => (fst x, snd (snd x))) (filter (fun x => is_async W' (fst x)) (skipn (length (w_sent W)) (w_sent W'))).
(** What a call leaves shared. *)
Definition shared_cfg (s : astate) (a : act) (o : op) (r : ret) : option nat :=
  if configures o r then match a with ASetConfig a _ => Some a | _ => None end else a_cfg s.
Definition shared_slices (P : params) (s : astate) (a : act) (o : op) : list (nat * nat) :=
  match a with ASetOutputs id sl => [(id, sl)] | _ => [] end ++ dropped (told P (a_W s) o) (a_slices s).
Definition args_at (a : act) : option nat := match a with ALog _ _ _ _ sl _ _ => Some sl | _ => None end.

(** The caller stores: what the library shares changes with it. A slice keeps its length. *)
Definition seen_outputs (mem : memory) (ls : list (nat * nat)) (id : nat) (l : logger) : logger :=
  match find (fun x => Nat.eqb (fst x) id) ls with
  | Some (_, sl) => mkLogger (l_name l) (l_level l) (l_parent l) (m_outs mem sl) (l_skip l) (l_flag l)
  | None => l
  end.
Fixpoint mapi {A B} (f : nat -> A -> B) (n : nat) (l : list A) : list B :=
  match l with [] => [] | x :: l => f n x :: mapi f (S n) l end.
(** The event a worker sees. *)
Definition with_args (e : event) (args : list value) : event :=
  mkEvent (ev_format e) args (ev_name e) (ev_level e) (ev_time e) (ev_depth e) (ev_ctx e).
Definition resolved (mem : memory) (x : option nat * event) : event :=
  match fst x with Some sl => with_args (snd x) (m_args mem sl) | None => snd x end.
(** The next event of output [o], and the others. *)
Fixpoint take (o : nat) (q : list (nat * (option nat * event))) : option ((option nat * event) * list (nat * (option nat * event))) :=
  match q with
  | [] => None
  | (i, x) :: q => if Nat.eqb i o then Some (x, q) else match take o q with Some (y, q') => Some (y, (i, x) :: q') | None => None end
  end.

Definition aexec (P : params) (s : astate) (a : act) : option astate :=
  match a with
  | AStoreConfig a c =>
      Some (mkA (match a_cfg s with Some b => if Nat.eqb b a then set_config (a_W s) c else a_W s | None => a_W s end)
              (mkMem (aset (m_cfgs (a_mem s)) a c) (m_outs (a_mem s)) (m_args (a_mem s)) (m_fields (a_mem s)))
              (a_cfg s) (a_slices s) (a_queue s) (a_done s) (a_writers s))
  | AStoreOutput sl i o =>
      let mem := mkMem (m_cfgs (a_mem s)) (aset (m_outs (a_mem s)) sl (upd i (fun _ => o) (m_outs (a_mem s) sl))) (m_args (a_mem s)) (m_fields (a_mem s)) in
      Some (mkA (set_loggers (a_W s) (mapi (seen_outputs mem (a_slices s)) 0 (w_loggers (a_W s)))) mem
              (a_cfg s) (a_slices s) (a_queue s) (a_done s) (a_writers s))
  | AStoreArg sl i v =>
      Some (mkA (a_W s)
              (mkMem (m_cfgs (a_mem s)) (m_outs (a_mem s)) (aset (m_args (a_mem s)) sl (upd i (fun _ => v) (m_args (a_mem s) sl))) (m_fields (a_mem s)))
              (a_cfg s) (a_slices s) (a_queue s) (a_done s) (a_writers s))
  | AStoreField sl i f =>
      Some (mkA (a_W s)
              (mkMem (m_cfgs (a_mem s)) (m_outs (a_mem s)) (m_args (a_mem s)) (aset (m_fields (a_mem s)) sl (upd i (fun _ => f) (m_fields (a_mem s) sl))))
              (a_cfg s) (a_slices s) (a_queue s) (a_done s) (a_writers s))
  | AWithFields id sl =>
      Some (mkA (a_W s) (a_mem s) (a_cfg s) (a_slices s) (a_queue s) (a_done s) (a_writers s ++ [(id, fields_ctx (m_fields (a_mem s) sl))]))
  | AWithCtx id c => Some (mkA (a_W s) (a_mem s) (a_cfg s) (a_slices s) (a_queue s) (a_done s) (a_writers s ++ [(id, c)]))
  | AWorker o =>
      match take o (a_queue s) with
      | Some (x, q) => Some (mkA (a_W s) (a_mem s) (a_cfg s) (a_slices s) q (a_done s ++ [(o, resolved (a_mem s) x)]) (a_writers s))
      | None => None
      end
  | ACall _ | ASetConfig _ _ | ASetOutputs _ _ | ALog _ _ _ _ _ _ _ =>
      match op_for s a with
      | None => None
      | Some o =>
        match exec P (a_W s) o with
        | Panic => None
        | Ok (W', r) =>
          Some (mkA W' (a_mem s) (shared_cfg s a o r) (shared_slices P s a o)
                  (a_queue s ++ map (fun x => (fst x, (args_at a, snd x))) (handed (a_W s) W')) (a_done s) (a_writers s))
        end
      end
  end.

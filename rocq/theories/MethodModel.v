(** Model of the methods of a logger and of its writers: internal/logger.go. *)
From Verif Require Import GoStr LevelModel EventModel WorldModel.

(** internal/logger.go:108-111 [type defWriter]: a logger and a context. *)
Record writer := mkWriter { wr_logger : nat; wr_ctx : ctx }.
(** internal/logger.go:27-36 [newLogger]: the writer that is embedded in each logger. *)
Definition own_writer (id : nat) : writer := mkWriter id CtxBackground.
(** internal/logger.go:38-46 [WithFields]; 48-50 [WithCtx]. *)
Definition WithFields (id : nat) (fs : list (str * value)) : writer := mkWriter id (fields_ctx fs).
Definition WithCtx (id : nat) (c : ctx) : writer := mkWriter id c.

(** internal/logger.go:113-159: two methods for each level. [now] is the time and [ustk] the stack of the function that calls. *)
Definition leveled (lvl : level) (w : writer) (fmt : str) (args : list value) (now : Z) (ustk : stack) : op :=
  OLog (wr_logger w) (wr_ctx w) Named lvl fmt args now ustk.
(** internal/logger.go:113-115 [Tracef]; 117-119 [Trace]. *)
Definition Tracef (w : writer) (fmt : str) (args : list value) (now : Z) (ustk : stack) : op := leveled Trace w fmt args now ustk.
Definition TraceMsg (w : writer) (msg : list value) (now : Z) (ustk : stack) : op := leveled Trace w [] msg now ustk.
(** internal/logger.go:121-123 [Debugf]; 125-127 [Debug]. *)
Definition Debugf (w : writer) (fmt : str) (args : list value) (now : Z) (ustk : stack) : op := leveled Debug w fmt args now ustk.
Definition DebugMsg (w : writer) (msg : list value) (now : Z) (ustk : stack) : op := leveled Debug w [] msg now ustk.
(** internal/logger.go:129-131 [Infof]; 133-135 [Info]. *)
Definition Infof (w : writer) (fmt : str) (args : list value) (now : Z) (ustk : stack) : op := leveled Info w fmt args now ustk.
Definition InfoMsg (w : writer) (msg : list value) (now : Z) (ustk : stack) : op := leveled Info w [] msg now ustk.
(** internal/logger.go:137-139 [Warnf]; 141-143 [Warn]. *)
Definition Warnf (w : writer) (fmt : str) (args : list value) (now : Z) (ustk : stack) : op := leveled Warn w fmt args now ustk.
Definition WarnMsg (w : writer) (msg : list value) (now : Z) (ustk : stack) : op := leveled Warn w [] msg now ustk.
(** internal/logger.go:145-147 [Errorf]; 149-151 [Error]. *)
Definition Errorf (w : writer) (fmt : str) (args : list value) (now : Z) (ustk : stack) : op := leveled Error w fmt args now ustk.
Definition ErrorMsg (w : writer) (msg : list value) (now : Z) (ustk : stack) : op := leveled Error w [] msg now ustk.
(** internal/logger.go:153-155 [Criticalf]; 157-159 [Critical]. *)
Definition Criticalf (w : writer) (fmt : str) (args : list value) (now : Z) (ustk : stack) : op := leveled Critical w fmt args now ustk.
Definition CriticalMsg (w : writer) (msg : list value) (now : Z) (ustk : stack) : op := leveled Critical w [] msg now ustk.
(** internal/logger.go:52-54 [TraceEnabled]; 56-58 [DebugEnabled]; 60-62 [InfoEnabled]; 64-66 [WarnEnabled]; 68-70 [ErrorEnabled];
    72-74 [CriticalEnabled]. *)
Definition TraceEnabled (W : world) (id : nat) : bool := LevelEnabled W id Trace.
Definition DebugEnabled (W : world) (id : nat) : bool := LevelEnabled W id Debug.
Definition InfoEnabled (W : world) (id : nat) : bool := LevelEnabled W id Info.
Definition WarnEnabled (W : world) (id : nat) : bool := LevelEnabled W id Warn.
Definition ErrorEnabled (W : world) (id : nat) : bool := LevelEnabled W id Error.
Definition CriticalEnabled (W : world) (id : nat) : bool := LevelEnabled W id Critical.

(** The methods under their names in Go; internal/logger.go:52-74 and 113-159. *)
Definition format_methods : list (str * (writer -> str -> list value -> Z -> stack -> op)) :=
  [($"Tracef", Tracef); ($"Debugf", Debugf); ($"Infof", Infof); ($"Warnf", Warnf); ($"Errorf", Errorf); ($"Criticalf", Criticalf)].
Definition message_methods : list (str * (writer -> list value -> Z -> stack -> op)) :=
  [($"Trace", TraceMsg); ($"Debug", DebugMsg); ($"Info", InfoMsg); ($"Warn", WarnMsg); ($"Error", ErrorMsg); ($"Critical", CriticalMsg)].
Definition enabled_methods : list (str * (world -> nat -> bool)) :=
  [($"TraceEnabled", TraceEnabled); ($"DebugEnabled", DebugEnabled); ($"InfoEnabled", InfoEnabled); ($"WarnEnabled", WarnEnabled);
   ($"ErrorEnabled", ErrorEnabled); ($"CriticalEnabled", CriticalEnabled)].

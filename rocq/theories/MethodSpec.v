(** Vocabulary for the methods of loggers: what their names and the comments in api/logger_api.go say. *)
From Verif Require Import GoStr EventModel WorldModel MethodModel.

(** The level that a method has in its name. *)
Inductive level_word : str -> Z -> Prop :=
| lw_trace : level_word ($"Trace") 2
| lw_debug : level_word ($"Debug") 3
| lw_info : level_word ($"Info") 4
| lw_warn : level_word ($"Warn") 5
| lw_error : level_word ($"Error") 6
| lw_critical : level_word ($"Critical") 7.
(** A call of the method Xf with a format and operands, of the method X with operands; the text that the comments promise, with Go's Sprintf and
    Sprint. *)
Inductive asks_f (x : str) (w : writer) (fmt : str) (args : list value) (now : Z) (ustk : stack) : op -> Prop :=
| af_call m : In (x ++ $"f", m) format_methods -> asks_f x w fmt args now ustk (m w fmt args now ustk).
Inductive asks_m (x : str) (w : writer) (args : list value) (now : Z) (ustk : stack) : op -> Prop :=
| am_call m : In (x, m) message_methods -> asks_m x w args now ustk (m w args now ustk).
Inductive promises (E : env) (x : str) (w : writer) (now : Z) (ustk : stack) : op -> str -> Prop :=
| pm_f fmt args o : asks_f x w fmt args now ustk o -> promises E x w now ustk o (e_sprintf E fmt args)
| pm_m args o : asks_m x w args now ustk o -> promises E x w now ustk o (e_sprint E args).
(** A call of one of the two methods of a level. *)
Definition logs_at (x : str) (w : writer) (o : op) : Prop :=
  exists now ustk, (exists fmt args, asks_f x w fmt args now ustk o) \/ (exists args, asks_m x w args now ustk o).
(** The method XEnabled. *)
Definition guard_of (x : str) (g : world -> nat -> bool) : Prop := In (x ++ $"Enabled", g) enabled_methods.

(** Vocabulary for the property of panicking creators. *)
From Verif Require Import GoStr LevelModel EventModel LayoutModel ConfModel WorldModel PanicModel WorldSpec.

(** The calls that ask creators for formats and outputs. *)
Inductive asks : op -> Prop :=
| as_logger n : asks (OGetLogger n)
| as_outputs n : asks (OGetLoggerOutputs n)
| as_set c ord : asks (OSetConfig c ord)
| as_load bs ext ord : asks (OLoadConfig bs ext ord)
| as_file f ord : asks (OLoadConfigFile f ord).
(** The log calls. *)
Inductive log_call : op -> Prop := ls_log id c v lvl fmt args now ustk : log_call (OLog id c v lvl fmt args now ustk).
(** An output as it is made. *)
Definition unused (x : output) : Prop := o_writes x = [] /\ o_sys x = [] /\ o_closed x = 0.
(** Histories in which nobody sets level or outputs of logger [r] by hand. *)
Definition hands_off (r : nat) (o : op) : Prop :=
  match o with OSetLevel id _ | OSetOutputs id _ => id <> r | _ => True end.
Inductive goes_on (P : params) (r : nat) : world -> world -> Prop :=
| go_here W : goes_on P r W W
| go_call W o W1 x W' : op_ok W o -> hands_off r o -> exec P W o = Ok (W1, x) -> goes_on P r W1 W' -> goes_on P r W W'
| go_panic W o W1 W' : op_ok W o -> raised P W o W1 -> goes_on P r W1 W' -> goes_on P r W W'.

(** Vocabulary for the property that what was logged has no influence on later calls. *)
From Verif Require Import GoStr LevelModel EventModel LayoutModel ConfModel WorldModel PanicModel.

(** Two states that differ in nothing but what the outputs have written and been sent. *)
Definition same_output (x y : output) : Prop := o_spec y = o_spec x /\ o_fmt y = o_fmt x /\ o_closed y = o_closed x.
Record same_but_logged (W V : world) : Prop := {
  sl_loggers : w_loggers V = w_loggers W;
  sl_root : w_root V = w_root W;
  sl_names : w_names V = w_names W;
  sl_fcreators : w_fcreators V = w_fcreators W;
  sl_ocreators : w_ocreators V = w_ocreators W;
  sl_formats : w_formats V = w_formats W;
  sl_outputs : w_outputs V = w_outputs W;
  sl_config : w_config V = w_config W;
  sl_ticks : w_ticks V = w_ticks W;
  sl_heap : Forall2 same_output (w_heap W) (w_heap V)
}.
(** A call took [W] to [W'] and [V] to [V'], and has the same effect on the outputs in both: the same events sent to the same outputs, the same
    bytes written and messages passed to syslog, the same new outputs, the same warnings. *)
Record same_effect (W W' V V' : world) : Prop := {
  se_sent : exists new, w_sent W' = w_sent W ++ new /\ w_sent V' = w_sent V ++ new;
  se_warn : exists new, w_warn W' = w_warn W ++ new /\ w_warn V' = w_warn V ++ new;
  se_outputs : forall i x y, nth_error (w_heap W) i = Some x -> nth_error (w_heap V) i = Some y ->
    exists x' y' ws ss, nth_error (w_heap W') i = Some x' /\ nth_error (w_heap V') i = Some y' /\
      o_writes x' = o_writes x ++ ws /\ o_writes y' = o_writes y ++ ws /\ o_sys x' = o_sys x ++ ss /\ o_sys y' = o_sys y ++ ss;
  se_new : forall i, length (w_heap W) <= i -> nth_error (w_heap W') i = nth_error (w_heap V') i
}.
(** One call with what it answers, [None] for a panic that is recovered. *)
Inductive made (P : params) (W : world) (o : op) : option ret -> world -> Prop :=
| md_returns W' r : exec P W o = Ok (W', r) -> made P W o (Some r) W'
| md_panics W' : raised P W o W' -> made P W o None W'.
(** A run of calls: each with its answer and what it sent. *)
Notation deed := (op * option ret * list (nat * (stack * event)))%type.
Inductive life (P : params) : world -> list deed -> world -> Prop :=
| lf_end W : life P W [] W
| lf_call W o r W1 new h W' : made P W o r W1 -> w_sent W1 = w_sent W ++ new -> life P W1 h W' -> life P W ((o, r, new) :: h) W'.
(** The same run with some log calls left out. *)
Inductive fewer_logs : list deed -> list deed -> Prop :=
| fl_end : fewer_logs [] []
| fl_kept d h g : fewer_logs h g -> fewer_logs (d :: h) (d :: g)
| fl_out id c v lvl fmt args now ustk r new h g : fewer_logs h g -> fewer_logs ((OLog id c v lvl fmt args now ustk, r, new) :: h) g.

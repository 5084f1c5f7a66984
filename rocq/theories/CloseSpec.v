(** Vocabulary for the property of closing. *)
From Verif Require Import GoStr LevelModel EventModel LayoutModel ConfModel WorldModel PanicModel WorldSpec.

(** An output the manager made, under some name. *)
Definition managed (W : world) (i : nat) : Prop := exists n, mlookup n (w_outputs W) = Some i.
(** The same output, closed [k] more times. *)
Definition closed_more (k : nat) (x x' : output) : Prop :=
  o_spec x' = o_spec x /\ o_fmt x' = o_fmt x /\ o_writes x' = o_writes x /\ o_sys x' = o_sys x /\
  o_closed x' = o_closed x + k.
(** Histories in which the user makes no output of their own. *)
Inductive plain_reach (P : params) : world -> Prop :=
| pr_init : plain_reach P (init_world P)
| pr_step W o W' r : plain_reach P W -> op_ok W o -> (forall sp f, o <> ONewOutput sp f) ->
    exec P W o = Ok (W', r) -> plain_reach P W'
| pr_panic W o W' : plain_reach P W -> op_ok W o -> raised P W o W' -> root_made W' -> plain_reach P W'.

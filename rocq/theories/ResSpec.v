(** Vocabulary for what the library holds on to. *)
From Verif Require Import GoStr Utf8 LevelModel EventModel LayoutModel ConfModel OutputModel WorldModel PanicModel WorldSpec CloseSpec.
From Coq Require Import Ascii.

(** The names of the outputs in the configuration in force. *)
Definition out_names (W : world) : list str := map cfg_Name (c_outputs (w_config W)).
Definition made_by (o : op) : nat := match o with ONewOutput _ _ => 1 | _ => 0 end.
(** Histories with a tally: how many outputs the user made, and the names of outputs in all configurations that were in force after some call. *)
Inductive tally (P : params) : nat -> list str -> world -> Prop :=
| ty_init : tally P 0 [] (init_world P)
| ty_step u ns W o W' r : tally P u ns W -> op_ok W o -> exec P W o = Ok (W', r) -> tally P (u + made_by o) (ns ++ out_names W') W'
| ty_panic u ns W o W' : tally P u ns W -> op_ok W o -> raised P W o W' -> root_made W' -> tally P u (ns ++ out_names W') W'.
(** How many different names there are in a list. *)
Definition str_dec (a b : str) : {a = b} + {a <> b} := list_eq_dec ascii_dec a b.
Definition different (ns : list str) : nat := length (nodup str_dec ns).
(** No logger has the output, and the configuration in force has no entry for it. *)
Definition unused (W : world) (i : nat) : Prop :=
  (forall id l, nth_error (w_loggers W) id = Some l -> ~ In i (l_outputs l)) /\
  (forall n, mlookup n (w_outputs W) = Some i -> ~ In n (out_names W)).

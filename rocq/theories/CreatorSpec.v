(** Vocabulary for the property about registered creators. *)
From Verif Require Import GoStr LevelModel EventModel ConfModel OutputModel WorldModel PanicModel WorldSpec.

(** One call: it returns, or a creator panics in it and the caller recovers (as in [reach]). *)
Inductive made_call (P : params) (W : world) (o : op) (W' : world) : Prop :=
| mc_ret r : exec P W o = Ok (W', r) -> made_call P W o W'
| mc_panic : raised P W o W' -> root_made W' -> made_call P W o W'.
(** The calls made since the start of the program, the latest first. *)
Inductive past (P : params) : list op -> world -> Prop :=
| past_start : past P [] (init_world P)
| past_call h W o W' : past P h W -> op_ok W o -> made_call P W o W' -> past P (o :: h) W'.
(** The creator registered last for a type of outputs: by the program, or by the library at the start. *)
Inductive last_output (P : params) (ty : str) (oc : ocreator) : list op -> Prop :=
| lo_start : mlookup ty (w_ocreators (init_world P)) = Some oc -> last_output P ty oc []
| lo_here h : last_output P ty oc (ORegisterOutput ty oc :: h)
| lo_before o h : (forall c, o <> ORegisterOutput ty c) -> last_output P ty oc h -> last_output P ty oc (o :: h).
(** The same for formatters. *)
Inductive last_formatter (P : params) (ty : str) (fc : fcreator) : list op -> Prop :=
| lf_start : mlookup ty (w_fcreators (init_world P)) = Some fc -> last_formatter P ty fc []
| lf_here h : last_formatter P ty fc (ORegisterFormatter ty fc :: h)
| lf_before o h : (forall c, o <> ORegisterFormatter ty c) -> last_formatter P ty fc h -> last_formatter P ty fc (o :: h).
(** All but the creators is the same. *)
Definition but_creators (W W' : world) : Prop :=
  W' = mkWorld (w_loggers W) (w_root W) (w_names W) (w_fcreators W') (w_ocreators W') (w_formats W) (w_outputs W)
         (w_config W) (w_heap W) (w_ticks W) (w_sent W) (w_warn W).

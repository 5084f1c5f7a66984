(** Calls made as the API asks for, in plain words. *)
From Verif Require Import GoStr EventModel LayoutModel ConfModel OutputModel WorldModel PanicModel WorldSpec ManagerSpec.

(** A formatter is made from a layout by the library, or it is the user's own (a function that answers every event). *)
Definition honest (f : formatter) : Prop :=
  match f with FText ps => exists layout, Parser layout = Some ps | FUser g _ => exists f, forall e, g e = Ok (f e) end.
Definition honest_opt (f : option formatter) : Prop := match f with Some f => honest f | None => True end.
(** What a call brings of the user's own is fit: creators that do not panic on entries of the type they are registered for, formatters that answer,
    and outputs whose Send returns. *)
Definition fair (o : op) : Prop :=
  match o with
  | ORegisterFormatter ty fc => forall t m, (cfg_Type (Some m) = ty -> fc t (Some m) <> Panic) /\
      (forall f, fc t (Some m) = Ok (Some f) -> honest f)
  | ORegisterOutput ty oc => forall t m, (cfg_Type (Some m) = ty -> oc t (Some m) <> CreatePanic) /\
      (forall sp, oc t (Some m) = Created sp -> returning sp)
  | ONewOutput sp f => honest_opt f /\ returning sp
  | OSetFormatter _ f => honest_opt f
  | _ => True
  end.
(** The arguments of a call are there: loggers and outputs that were handed out before, a context that
    answers and holds nothing under the library's own key, and a configuration file, if it can be read, with an extension. *)
Definition present (P : params) (W : world) (o : op) : Prop :=
  match o with
  | OSetLevel id _ | OSetCallerSkip id _ => exists n, has_name W n id
  | OSetOutputs id ops => (exists n, has_name W n id) /\ Forall (fun i => exists x, nth_error (w_heap W) i = Some x) ops
  | OLog id c _ _ _ _ _ _ => (exists n, has_name W n id) /\ good_ctx c
  | OLoadConfigFile file _ => p_read P file <> None -> exists ext, extension file ext
  | OSetFormatter i _ => exists x, nth_error (w_heap W) i = Some x
  | _ => True
  end.
Definition proper (P : params) (W : world) (o : op) : Prop := fair o /\ present P W o.
Inductive proper_reach (P : params) : world -> Prop :=
| pr_init : proper_reach P (init_world P)
| pr_step W o W' r : proper_reach P W -> op_ok W o -> proper P W o -> exec P W o = Ok (W', r) -> proper_reach P W'.
(** The same with calls whose arguments are not all there, the panics recovered from. *)
Inductive fair_reach (P : params) : world -> Prop :=
| fa_init : fair_reach P (init_world P)
| fa_step W o W' r : fair_reach P W -> op_ok W o -> fair o -> exec P W o = Ok (W', r) -> fair_reach P W'
| fa_panic W o W' : fair_reach P W -> op_ok W o -> fair o -> raised P W o W' -> root_made W' -> fair_reach P W'.

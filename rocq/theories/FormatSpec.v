(** The documented meaning of the layout verbs (README.md "layout" and the comment in
    format_parser.go), independently of how the parser stores them. *)
From Verif Require Import GoStr EventModel LayoutSpec LevelSpec.
Local Open Scope Z_scope.

(** Short level names: README.md. *)
Inductive short_level : Z -> str -> Prop :=
| sl_all : short_level 1 ($"ALL")
| sl_trace : short_level 2 ($"TAC")
| sl_debug : short_level 3 ($"DBG")
| sl_info : short_level 4 ($"INF")
| sl_warn : short_level 5 ($"WRN")
| sl_error : short_level 6 ($"ERR")
| sl_critical : short_level 7 ($"CRI")
| sl_off : short_level 8 ($"OFF").
(** A level outside the table prints as the empty string. *)
Definition level_text (tbl : Z -> str -> Prop) (l : Z) (s : str) : Prop :=
  tbl l s \/ (s = [] /\ forall t, ~ tbl l t).

(** The message of an event: Sprintf with a format, Sprint without one, the format alone when
    there are no arguments. *)
Inductive message (E : env) (e : event) : str -> Prop :=
| msg_noargs : ev_args e = [] -> message E e (ev_format e)
| msg_format : ev_args e <> [] -> ev_format e <> [] -> message E e (e_sprintf E (ev_format e) (ev_args e))
| msg_plain : ev_args e <> [] -> ev_format e = [] -> message E e (e_sprint E (ev_args e)).

(** [last_elem p b]: b is the last element of the slash separated path p, as path.Base defines it. *)
Inductive last_elem : str -> str -> Prop :=
| le_empty : last_elem [] ($".")
| le_slashes p : p <> [] -> Forall (eq "/"%char) p -> last_elem p ($"/")
| le_elem d b t : b <> [] -> ~ In "/"%char b -> Forall (eq "/"%char) t ->
    (d = [] \/ exists d', d = d' ++ $"/") -> last_elem (d ++ b ++ t) b.
(** The part of a function name after its last dot. *)
Inductive after_last_dot : str -> str -> Prop :=
| ald_none f : ~ In "."%char f -> after_last_dot f f
| ald_some a b : ~ In "."%char b -> after_last_dot (a ++ $"." ++ b) b.

(** Reserved verb names. *)
Definition reserved : list str :=
  [ $"pid"; $"program"; $"module"; $"msg"; $"level"; $"lvl"; $"line"; $"longfile"; $"shortfile";
    $"longpkg"; $"shortpkg"; $"longfunc"; $"shortfunc"; $"time" ].

(** The value a verb stands for, for an event [e] whose call site is [ci]. *)
Inductive verb_value (E : env) (ci : caller_info) (e : event) : str -> value -> Prop :=
| vv_pid : verb_value E ci e ($"pid") (VInt (e_pid E))
| vv_program : verb_value E ci e ($"program") (VStr (e_program E))
| vv_module : verb_value E ci e ($"module") (VStr (ev_name e))
| vv_msg m : message E e m -> verb_value E ci e ($"msg") (VStr m)
| vv_level s : level_text named_level (ev_level e) s -> verb_value E ci e ($"level") (VStr s)
| vv_lvl s : level_text short_level (ev_level e) s -> verb_value E ci e ($"lvl") (VStr s)
| vv_line : verb_value E ci e ($"line") (VInt (ci_line ci))
| vv_longfile : verb_value E ci e ($"longfile") (VStr (ci_file ci))
| vv_shortfile b : last_elem (ci_file ci) b -> verb_value E ci e ($"shortfile") (VStr b)
| vv_longpkg : verb_value E ci e ($"longpkg") (VStr (ci_pkg ci))
| vv_shortpkg b : last_elem (ci_pkg ci) b -> verb_value E ci e ($"shortpkg") (VStr b)
| vv_longfunc : verb_value E ci e ($"longfunc") (VStr (ci_fun ci))
| vv_shortfunc b : after_last_dot (ci_fun ci) b -> verb_value E ci e ($"shortfunc") (VStr b)
| vv_time : verb_value E ci e ($"time") (VStr (e_timefmt E (ev_time e) ($"2006-01-02T15:04:05.000Z07:00")))
| vv_field n v : ~ In n reserved -> ctx_Value (ev_ctx e) n = Ok v -> verb_value E ci e n v.

Definition is_str (v : value) : Prop := match v with VStr _ => True | _ => False end.
(** How an item of a layout is rendered. *)
Inductive renders (E : env) (ci : caller_info) (e : event) : layout_item -> str -> Prop :=
| rd_lit s : renders E ci e (Lit s) s
| rd_str n s : verb_value E ci e n (VStr s) -> renders E ci e (Verb n None) s
| rd_other n v : verb_value E ci e n v -> ~ is_str v ->
    renders E ci e (Verb n None) (e_sprintf E ($"%v") [v])
| rd_fmt n x v : n <> $"time" -> verb_value E ci e n v ->
    renders E ci e (Verb n (Some x)) (e_sprintf E ("%"%char :: x) [v])
| rd_time x : renders E ci e (Verb ($"time") (Some x)) (e_timefmt E (ev_time e) x).

(** Splitting a runtime function name "path/pkg.func": package path and function, or unknown. *)
Inductive func_name : str -> str -> str -> Prop :=
| fn_split dir pkg f : (dir = [] \/ exists d, dir = d ++ $"/") -> pkg <> [] ->
    ~ In "/"%char pkg -> ~ In "."%char pkg -> ~ In "/"%char f ->
    func_name (dir ++ pkg ++ $"." ++ f) (dir ++ pkg) f
| fn_unknown s : (forall dir pkg f, (dir = [] \/ exists d, dir = d ++ $"/") -> pkg <> [] ->
    ~ In "/"%char pkg -> ~ In "."%char pkg -> ~ In "/"%char f -> s <> dir ++ pkg ++ $"." ++ f) ->
    func_name s ($"???") ($"???").

(** The call site of an event as far as formatting is concerned: what the event already carries,
    else what the stack [stk] at formatting time shows at the event's depth; package and function
    resolved from the program counter if they are not there yet. *)
Inductive raw_site (stk : stack) (e : event) : caller_info -> Prop :=
| rs_captured ci : ctx_Value (ev_ctx e) ($"__caller_info") = Ok (VCaller ci) -> raw_site stk e ci
| rs_stack fr : ctx_Value (ev_ctx e) ($"__caller_info") = Ok VNil -> 0 <= ev_depth e + 1 ->
    nth_error stk (Z.to_nat (ev_depth e + 1)) = Some fr ->
    raw_site stk e (mkCI (fr_file fr) (fr_line fr) [] [] (fr_pc fr))
| rs_none : ctx_Value (ev_ctx e) ($"__caller_info") = Ok VNil ->
    (ev_depth e + 1 < 0 \/ nth_error stk (Z.to_nat (ev_depth e + 1)) = None) ->
    raw_site stk e (mkCI ($"???") 0 [] [] 0).
Inductive resolved (E : env) (c : caller_info) : caller_info -> Prop :=
| rv_done : ci_pkg c <> [] -> resolved E c c
| rv_unknown : ci_pkg c = [] -> e_funcForPC E (ci_pc c) = None -> resolved E c c
| rv_split fs p f : ci_pkg c = [] -> e_funcForPC E (ci_pc c) = Some fs -> func_name fs p f ->
    resolved E c (mkCI (ci_file c) (ci_line c) p f (ci_pc c)).

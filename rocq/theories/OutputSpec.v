(** What the outputs are documented to write, independently of how they are programmed. *)
From Verif Require Import GoStr EventModel LayoutSpec LevelSpec FormatSpec.
Local Open Scope Z_scope.

(** How an output was told to format: not at all, by a text layout, by the user's own formatter. *)
Inductive how := ByDefault | ByLayout (layout : str) | ByUser (f : event -> str).

(** The default line: level padded to five columns, time in brackets, logger name, message. *)
Inductive default_text (E : env) (e : event) : str -> Prop :=
| dt lvl k m : level_text named_level (ev_level e) lvl -> message E e m ->
    ((5 <= length lvl)%nat /\ k = 0%nat \/ (length lvl + k = 5)%nat) ->
    default_text E e (lvl ++ repeat " "%char k ++ $" [" ++
      e_timefmt E (ev_time e) ($"2006-01-02T15:04:05.000Z07:00") ++ $"] " ++ ev_name e ++ $": " ++ m ++ [nl]).

(** The text an event is formatted to, on the stack [stk]. *)
Inductive text_of (E : env) : how -> stack -> event -> str -> Prop :=
| to_default stk e b : default_text E e b -> text_of E ByDefault stk e b
| to_layout layout items ss stk e raw site :
    splits layout items -> raw_site stk e raw -> resolved E raw site ->
    Forall2 (renders E site e) items ss -> text_of E (ByLayout layout) stk e (concat ss)
| to_user f stk e : text_of E (ByUser f) stk e (f e).

(** The writes of an output with threshold [t] on a sequence of events: one per event at or above
    the threshold, in order. *)
Inductive written (E : env) (h : how) (t : Z) : list (stack * event) -> list str -> Prop :=
| wr_nil : written E h t [] []
| wr_skip stk e evs ws : ev_level e < t -> written E h t evs ws -> written E h t ((stk, e) :: evs) ws
| wr_send stk e evs b ws : t <= ev_level e -> text_of E h stk e b -> written E h t evs ws ->
    written E h t ((stk, e) :: evs) (b :: ws).

(** Events a text layout can format: the context answers every lookup, and the key reserved for
    caller information is not bound to something else by the user. *)
Definition formattable (e : event) : Prop :=
  (forall k, exists v, ctx_Value (ev_ctx e) k = Ok v) /\
  (ctx_Value (ev_ctx e) ($"__caller_info") = Ok VNil \/
   exists ci, ctx_Value (ev_ctx e) ($"__caller_info") = Ok (VCaller ci)).

(** The syslog severity documented for a level. *)
Inductive sev_of : Z -> nat -> Prop :=   (* 7 debug, 6 info, 4 warning, 3 err, 2 crit: RFC 5424 *)
| sv_trace : sev_of 2 7
| sv_debug : sev_of 3 7
| sv_info : sev_of 4 6
| sv_warn : sev_of 5 4
| sv_error : sev_of 6 3
| sv_critical : sev_of 7 2.
(** Syslog text: as formatted, or the bare message. *)
Inductive sys_text (E : env) : how -> stack -> event -> str -> Prop :=
| st_default stk e m : message E e m -> sys_text E ByDefault stk e m
| st_formatted h stk e b : h <> ByDefault -> text_of E h stk e b -> sys_text E h stk e b.
Inductive sys_written (E : env) (h : how) (t : Z) : list (stack * event) -> list (nat * str) -> Prop :=
| sw_nil : sys_written E h t [] []
| sw_low stk e evs ws : ev_level e < t -> sys_written E h t evs ws -> sys_written E h t ((stk, e) :: evs) ws
| sw_nosev stk e evs ws : (forall n, ~ sev_of (ev_level e) n) -> sys_written E h t evs ws ->
    sys_written E h t ((stk, e) :: evs) ws
| sw_send stk e evs n b ws : t <= ev_level e -> sev_of (ev_level e) n -> sys_text E h stk e b ->
    sys_written E h t evs ws -> sys_written E h t ((stk, e) :: evs) ((n, b) :: ws).

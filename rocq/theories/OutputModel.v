(** Model of the synchronous outputs: internal/output_base.go (baseOutput), and
    internal/output_syslog.go. An output's effect is the list of calls it makes on its writer. *)
From Verif Require Import GoStr LevelModel EventModel LayoutModel.
Local Open Scope Z_scope.

(** Go's fmt verb %-5s on an ASCII string: blanks appended up to five characters. *)
Definition pad5 (s : str) : str := s ++ repeat " "%char (5 - length s).
(** internal/output_base.go:16 [defaultLayout] "%-5s [%s] %s: %s\n" applied to level, time, name
    and message (fmt.Fprintf issues one Write). The level text is ASCII. *)
Definition default_line (E : env) (e : event) : str :=
  pad5 (level_String (ev_level e)) ++ $" [" ++ e_timefmt E (ev_time e) defaultTimeLayout ++ $"] " ++
  ev_name e ++ $": " ++ ev_Message E e ++ ["010"%char].

(** internal/output_base.go:40-55 [baseOutput.Send]: the Write calls made and the event afterwards
    (formatting may store caller information in it). Errors from Write are ignored by the code. *)
Definition base_Send (E : env) (stk : stack) (f : option formatter) (t : level) (e : event)
  : res (list str * event) :=
  if ev_level e <? t then Ok ([], e)
  else match f with
       | Some f => bind (fmt_Format E stk f e) (fun '(b, e') => Ok ([b], e'))
       | None => Ok ([default_line E e], e)
       end.
(** internal/output_base.go:62-67 [baseOutput.CallerInfoFlag], internal/output_syslog.go:51-56
    [syslogOutput.CallerInfoFlag]. *)
Definition out_flag (f : option formatter) : Z :=
  match f with Some f => fmt_CallerInfoFlag f | None => 0 end.

(** A sequence of Sends on one output, each with the stack it is made on. *)
Fixpoint base_run (E : env) (f : option formatter) (t : level) (evs : list (stack * event))
  : res (list str) :=
  match evs with
  | [] => Ok []
  | (stk, e) :: evs' =>
    bind (base_Send E stk f t e) (fun '(w, _) =>
    bind (base_run E f t evs') (fun w' => Ok (w ++ w')))
  end.

(** The methods of log/syslog.Writer the output uses. *)
Inductive severity := SevDebug | SevInfo | SevWarning | SevErr | SevCrit.
(** internal/output_syslog.go:19-43 [syslogOutput.Send]. *)
Definition syslog_Send (E : env) (stk : stack) (f : option formatter) (t : level) (e : event)
  : res (list (severity * str) * event) :=
  if ev_level e <? t then Ok ([], e)
  else
    bind (match f with Some f => fmt_Format E stk f e | None => Ok (ev_Message E e, e) end)
      (fun '(m, e') =>
       let l := ev_level e' in
       Ok ((if (l =? Trace) || (l =? Debug) then [(SevDebug, m)]
            else if l =? Info then [(SevInfo, m)]
            else if l =? Warn then [(SevWarning, m)]
            else if l =? Error then [(SevErr, m)]
            else if l =? Critical then [(SevCrit, m)]
            else []), e')).
Fixpoint syslog_run (E : env) (f : option formatter) (t : level) (evs : list (stack * event))
  : res (list (severity * str)) :=
  match evs with
  | [] => Ok []
  | (stk, e) :: evs' =>
    bind (syslog_Send E stk f t e) (fun '(w, _) =>
    bind (syslog_run E f t evs') (fun w' => Ok (w ++ w')))
  end.

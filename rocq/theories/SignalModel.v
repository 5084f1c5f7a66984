(** Model of the signal handler installed at start (internal/log4g.go:40-45, at the end of init) in a process that calls the
    API. One call of the API is one step, as in WorldModel.v. *)
From Verif Require Import GoStr EventModel WorldModel.

(** Signals of the operating system: the two that signal.Notify is called with, and others, which by default
    end the process or do not. *)
Inductive sig := Interrupt | Terminate | Other (fatal : bool).
(** The goroutine: before [<-listenSig]; before gmanager.Close(); returned. *)
Inductive handler := Waiting | Closing | Over.
(** [pr_chan]: signals in listenSig, a channel of capacity one. *)
Record process := mkProc { pr_world : world; pr_chan : nat; pr_handler : handler; pr_alive : bool }.
Definition pr_start (P : params) : process := mkProc (init_world P) 0 Waiting true.

Inductive plabel := Got (s : sig) | Received | ClosedAll | Did (o : op) | Returned.
(** internal/log4g.go:40-45. signal.Notify: the signals no longer have their default effect; sending to the channel
    does not block, so that a signal is dropped while the channel is full. [ps_return]: main returns, or the program exits. *)
Inductive pstep (P : params) : process -> plabel -> process -> Prop :=
| ps_notify s W n h : s = Interrupt \/ s = Terminate ->
    pstep P (mkProc W n h true) (Got s) (mkProc W (Nat.min 1 (S n)) h true)
| ps_other W n h fatal :
    pstep P (mkProc W n h true) (Got (Other fatal)) (mkProc W n h (negb fatal))
| ps_receive W n : pstep P (mkProc W (S n) Waiting true) Received (mkProc W n Closing true)
| ps_close W n W' r : exec P W OClose = Ok (W', r) ->
    pstep P (mkProc W n Closing true) ClosedAll (mkProc W' n Over true)
| ps_call W n h o W' r : op_ok W o -> exec P W o = Ok (W', r) ->
    pstep P (mkProc W n h true) (Did o) (mkProc W' n h true)
| ps_return W n h : pstep P (mkProc W n h true) Returned (mkProc W n h false).
Inductive psteps (P : params) : process -> list plabel -> process -> Prop :=
| pss_nil s : psteps P s [] s
| pss_more s tr s1 a s2 : psteps P s tr s1 -> pstep P s1 a s2 -> psteps P s (tr ++ [a]) s2.

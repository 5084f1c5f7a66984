(** Loggers, asynchronous outputs and rolling files put together: what the log calls of one goroutine
    send to an asynchronous output (WorldModel.v) goes through its channel and its worker
    (AsyncModel.v), which writes to the directory with the rolling writer (RollModel.v). *)
From Verif Require Import GoStr EventModel ConfModel RollModel RollSpec OutputModel AsyncModel WorldModel WorldSpec EndModel.
Local Open Scope Z_scope.

(** An execution of the output's goroutines, every Write of the worker (internal/output_base.go:148-153
    [flush], which ignores the result) being one rollingFileWriter.Write on the directory
    (internal/output_rollingwriter.go:512-532 [Write]). Nobody else writes there. [f0] is the file
    system at the start. *)
Inductive stores (C : aconf) (T : tparse) (c : roll_conf) (good : fsop * fsres -> Prop) (progs : list (list call)) (f0 : fs)
  : list label -> astate -> fs -> wst -> Prop :=
| st_init : stores C T c good progs f0 [] (a_init progs) f0 w_new
| st_quiet tr s f w ch l s' : stores C T c good progs f0 tr s f w -> anext C s ch = Some (l, s') ->
    (forall y b, l <> Wrote y b) -> stores C T c good progs f0 (tr ++ [l]) s' f w
| st_write tr s f w ch y b s' k err f' w' : stores C T c good progs f0 tr s f w -> anext C s ch = Some (Wrote y b, s') ->
    happens T c good f w [HWrite b k err] f' w' -> stores C T c good progs f0 (tr ++ [Wrote y b]) s' f' w'.

(** The calls of [Send] and [Close] on output [i] that calls of the API make, one after the other
    (internal/logger.go:196-198, internal/logger_manager.go:189-195). *)
Inductive passes (P : params) (i : nat) : world -> list WorldModel.op -> world -> list call -> Prop :=
| pa_nil W : passes P i W [] W []
| pa_op W o W1 r new evs x x1 os W2 cs : op_ok W o -> fair i o -> WorldModel.exec P W o = Ok (W1, r) ->
    w_sent W1 = w_sent W ++ new -> sent_to i new evs ->
    nth_error (w_heap W) i = Some x -> nth_error (w_heap W1) i = Some x1 -> passes P i W1 os W2 cs ->
    passes P i W (o :: os) W2
      (map (fun p => CSend (snd p)) evs ++ repeat CClose (o_closed x1 - o_closed x) ++ cs).

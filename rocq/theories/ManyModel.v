(** Goroutines that log at the same time through one output. Log calls change no logger, so that what
    a goroutine's calls hand to an output does not depend on the calls of the others; the goroutines
    meet at the output: at the channel of an asynchronous one (AsyncModel.v), at the lock of the
    rolling writer behind a synchronous one (RollConcModel.v). *)
From Verif Require Import GoStr EventModel ConfModel OutputModel WorldModel WorldSpec EndModel.

(** The Write calls the calls of one goroutine make on the writer of output [i], one after the other
    (internal/output_base.go:40-55 [Send]). *)
Inductive puts (P : params) (i : nat) : world -> list op -> world -> list str -> Prop :=
| pu_nil W : puts P i W [] W []
| pu_op W o W1 r ws os W2 rest : op_ok W o -> fair i o -> exec P W o = Ok (W1, r) -> wrote i W W1 ws ->
    puts P i W1 os W2 rest -> puts P i W (o :: os) W2 (ws ++ rest).

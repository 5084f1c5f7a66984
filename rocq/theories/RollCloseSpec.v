(** Histories of one file writer that is also closed in between. *)
From Verif Require Import GoStr ConfModel RollModel RollSpec.
Local Open Scope Z_scope.

(** A write with its result; a close with the size the writer had noted and whether there was an error. *)
Inductive wop := WWrite (b : str) (k : nat) (err : bool) | WClose (size : Z) (err : bool).
Inductive uses (P : tparse) (c : roll_conf) (good : fsop * fsres -> Prop) : fs -> wst -> list wop -> fs -> wst -> Prop :=
| us_nil f w : uses P c good f w [] f w
| us_write f w b tr f1 w1 k err os f2 w2 : runs (rw_Write P c w b) f tr f1 (w1, (k, err)) -> Forall good tr ->
    uses P c good f1 w1 os f2 w2 -> uses P c good f w (WWrite b k err :: os) f2 w2
| us_close f w tr f1 w1 err os f2 w2 : runs (rw_Close w) f tr f1 (w1, err) -> Forall good tr ->
    uses P c good f1 w1 os f2 w2 -> uses P c good f w (WClose (w_size w) err :: os) f2 w2.
(** The same with a restart of the process instead of the close. *)
Definition as_restart (o : wop) : hop := match o with WWrite b k e => HWrite b k e | WClose _ _ => HRestart end.

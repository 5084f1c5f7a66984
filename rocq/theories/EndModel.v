(** Loggers and rolling files put together: what a synchronous rolling-file output writes
    (WorldModel.v) is written by its rolling writer to the directory (RollModel.v). *)
From Verif Require Import GoStr ConfModel RollModel RollSpec EventModel OutputModel WorldModel WorldSpec.
Local Open Scope Z_scope.

(** What a call made output [i] write. *)
Definition wrote (i : nat) (W W' : world) (ws : list str) : Prop :=
  exists x x', nth_error (w_heap W) i = Some x /\ nth_error (w_heap W') i = Some x' /\ o_writes x' = o_writes x ++ ws.
(** What may happen while one watches output [i]: any call; its formatter stays, and log calls come
    with a usable context. *)
Definition fair (i : nat) (o : op) : Prop :=
  match o with
  | OLog _ c _ _ _ _ _ _ => good_ctx c
  | OSetFormatter j _ => j <> i
  | _ => True
  end.
(** API calls one after the other; every Write the output [i] makes on its writer
    (internal/output_base.go:40-55 [Send], which ignores the result) is one
    rollingFileWriter.Write on the directory (internal/output_rollingwriter.go:512-532 [Write]). Nobody
    else writes there. *)
Inductive session (P : params) (T : tparse) (c : roll_conf) (good : fsop * fsres -> Prop) (i : nat)
  : world -> fs -> wst -> list op -> world -> fs -> wst -> Prop :=
| se_nil W f w : session P T c good i W f w [] W f w
| se_op W f w o W1 r ws hs f1 w1 os W2 f2 w2 :
    op_ok W o -> fair i o -> exec P W o = Ok (W1, r) -> wrote i W W1 ws ->
    Forall2 (fun b h => exists k err, h = HWrite b k err) ws hs -> happens T c good f w hs f1 w1 ->
    session P T c good i W1 f1 w1 os W2 f2 w2 -> session P T c good i W f w (o :: os) W2 f2 w2.
(** The same without looking at the disk. *)
Inductive goes (P : params) (i : nat) : world -> list op -> world -> Prop :=
| go_nil W : goes P i W [] W
| go_op W o W1 r os W2 : op_ok W o -> fair i o -> exec P W o = Ok (W1, r) -> goes P i W1 os W2 -> goes P i W (o :: os) W2.

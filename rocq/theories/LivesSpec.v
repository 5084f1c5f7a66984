(** What several runs of a program, one after the other, leave in the files of one rolling output. *)
From Verif Require Import GoStr LevelModel EventModel ConfModel OutputModel OutputSpec OutputProofs WorldModel WorldSpec EndModel EndSpec RollModel RollSpec.
Local Open Scope Z_scope.

(** A run: API calls from a state of the program in which output [i] is there, with the file writer new (C50). It ends
    after its calls or is killed while the output writes in one of them: the writes before are made, this one partly. *)
Inductive life (P : params) (T : tparse) (c : roll_conf) (good : fsop * fsres -> Prop) (i : nat) (W : world) (f : fs) : list WorldModel.op -> fs -> Prop :=
| lf_ends os W1 f1 w1 : session P T c good i W f w_new os W1 f1 w1 -> life P T c good i W f os f1
| lf_killed os o W1 f1 w1 W2 r pre b post hs f2 w2 tr f3 : session P T c good i W f w_new os W1 f1 w1 ->
    op_ok W1 o -> fair i o -> WorldModel.exec P W1 o = Ok (W2, r) -> wrote i W1 W2 (pre ++ b :: post) ->
    Forall2 (fun b h => exists k err, h = HWrite b k err) pre hs -> happens T c good f1 w1 hs f2 w2 ->
    partly (rw_Write T c w2 b) f2 tr f3 -> Forall good tr -> life P T c good i W f (os ++ [o]) f3.
(** A run with its state at the beginning, its output and its calls. *)
Record run := mkRun { r_world : world; r_output : nat; r_calls : list WorldModel.op }.
(** The output of a run: synchronous, to the files of [c], formatting in this way, with this threshold. *)
Definition logs_to (P : params) (c : roll_conf) (r : run) (h : how) (t : Z) : Prop :=
  reach P (r_world r) /\ exists x, nth_error (w_heap (r_world r)) (r_output r) = Some x /\
    os_sink (o_spec x) = SinkRolling c /\ os_async (o_spec x) = None /\ os_threshold (o_spec x) = t /\ built h (o_fmt x).
Inductive lives_of (P : params) (T : tparse) (c : roll_conf) (good : fsop * fsres -> Prop) : fs -> list run -> fs -> Prop :=
| lo_nil f : lives_of P T c good f [] f
| lo_run f r f1 rs f2 : life P T c good (r_output r) (r_world r) f (r_calls r) f1 -> lives_of P T c good f1 rs f2 ->
    lives_of P T c good f (r :: rs) f2.
(** What is left of the texts of a run: beginnings of the first ones. *)
Definition beginnings (ts ps : list str) : Prop :=
  exists whole rest, ts = whole ++ rest /\ Forall2 (fun p t => exists k, p = firstn k t) ps whole.
(** All texts, or all before one, and a beginning of that one. *)
Definition all_or_killed (ts ps : list str) : Prop :=
  ps = ts \/ exists before t k after, ts = before ++ t :: after /\ ps = before ++ [firstn k t].

(** Several time-rolling writers of one log file (internal/output_rolling.go:27 makes each output its own writer): the
    writers of RollModel over the file system of SameModel, with a clock. Calls come one at a time. *)
From Verif Require Import GoStr ConfModel RollModel SameModel.

(** A program that nobody else comes in between, in period [t]: time.Now().Format(pattern) (634-644 [needsToRoll], 679-683
    [getNewHistoryRollFileName] of internal/output_rollingwriter.go) gives [t]. Simplification: no period ends during a call. *)
Inductive goes_in (t : str) (i : nat) {A} : prog A -> ifs -> ifs -> A -> Prop :=
| gi_done a F : goes_in t i (Done a) F F a
| gi_op o k r F F1 F2 a : does i o r F F1 -> (forall p, o = ONow p -> r = RText t) -> goes_in t i (k r) F1 F2 a -> goes_in t i (Op o k) F F2 a.

(** [Write] (internal/output_rollingwriter.go:512-532) in period [t], and the end of a writer (534-543 [Close]) in whose
    place a new one will write. *)
Inductive turn_in (P : tparse) (cs : nat -> roll_conf) (t : str) : shared -> nat -> act -> option (nat * bool) -> shared -> Prop :=
| ti_put F ws i b F' w r : goes_in t i (rw_Write P (cs i) (ws i) b) F F' (w, r) ->
    turn_in P cs t (mkSh F ws) i (Put b) (Some r) (mkSh F' (hput ws i w))
| ti_renew F ws i F' w e : goes_in t i (rw_Close (ws i)) F F' (w, e) ->
    turn_in P cs t (mkSh F ws) i Renew None (mkSh F' (hput ws i w_new)).
Inductive turns_in (P : tparse) (cs : nat -> roll_conf) : shared -> list (str * (nat * act)) -> list (option (nat * bool)) -> shared -> Prop :=
| tis_nil s : turns_in P cs s [] [] s
| tis_snoc s hs rs s1 t i a r s2 : turns_in P cs s hs rs s1 -> turn_in P cs t s1 i a r s2 ->
    turns_in P cs s (hs ++ [(t, (i, a))]) (rs ++ [r]) s2.

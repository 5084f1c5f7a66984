(** Vocabulary for a logger's list of outputs under unsynchronised access. *)
From Verif Require Import GoStr WordModel.

(** Executions from the state [st0], with what was seen on the way. *)
Inductive wsteps (A : list arr) (fl : nat -> nat) (st0 : wstate) : list label -> wstate -> Prop :=
| ws_init : wsteps A fl st0 [] st0
| ws_step tr st i l st' : wsteps A fl st0 tr st -> wnext A fl st i = Some (l, st') -> wsteps A fl st0 (tr ++ [l]) st'.
(** The slice [s] holds the list [os]. *)
Definition holds (A : list arr) (s : slice) (os : list nat) : Prop :=
  length os = s_len s /\ exists a, nth_error A (s_ptr s) = Some a /\ firstn (s_len s) a = map Some os.
(** A call of SetOutputs that has begun and not ended. *)
Definition is_set (c : call) : bool := match c with CSet _ _ => true | _ => false end.
Definition setting (st : wstate) : Prop := exists i t c p, nth_error (w_threads st) i = Some t /\ t_now t = Some (c, p) /\ is_set c = true.
(** Executions in which these calls do not overlap, as the lock of the factory sees to for reconfigurations (internal/logger_factory.go:91). *)
Inductive sreach (A : list arr) (fl : nat -> nat) (c : cell) (progs : list (list call)) : list label -> wstate -> Prop :=
| sr_init : sreach A fl c progs [] (w_init c progs)
| sr_step tr st i l st' : sreach A fl c progs tr st -> wnext A fl st i = Some (l, st') ->
    (forall j k, l = Began j k -> is_set k = true -> ~ setting st) -> sreach A fl c progs (tr ++ [l]) st'.
(** The slice set last, beginning with [s]. *)
Fixpoint last_set (s : slice) (tr : list label) : slice :=
  match tr with
  | [] => s
  | Ended _ (CSet _ s') :: tr' => last_set s' tr'
  | _ :: tr' => last_set s tr'
  end.
(** What goroutine [i] sent to which outputs; how many log calls it began. *)
Fixpoint sent_by (i : nat) (tr : list label) : list nat :=
  match tr with
  | [] => []
  | Sent j o :: tr' => if i =? j then o :: sent_by i tr' else sent_by i tr'
  | _ :: tr' => sent_by i tr'
  end.
Fixpoint logs_of (i : nat) (tr : list label) : nat :=
  match tr with
  | [] => 0
  | Began j (CLog _) :: tr' => if i =? j then S (logs_of i tr') else logs_of i tr'
  | _ :: tr' => logs_of i tr'
  end.
Definition idle (st : wstate) (i : nat) : Prop := exists cs, nth_error (w_threads st) i = Some (mkT None cs).
(** The cell has the slice [s]; its flag is enough for the outputs [os]. *)
Definition has (c : cell) (s : slice) : Prop := c_ptr c = s_ptr s /\ c_len c = s_len s.
Definition flagged (fl : nat -> nat) (c : cell) (os : list nat) : Prop := Forall (fun o => fl o <= c_flag c) os.

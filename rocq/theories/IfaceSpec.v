(** Vocabulary for an output's formatter under unsynchronised access. *)
From Verif Require Import GoStr IfaceModel.

(** Executions from the state [st0], with what was seen on the way. *)
Inductive fsteps (st0 : fstate) : list label -> fstate -> Prop :=
| fs_init : fsteps st0 [] st0
| fs_step tr st i l st' : fsteps st0 tr st -> fnext st i = Some (l, st') -> fsteps st0 (tr ++ [l]) st'.
(** A call of SetFormatter that has begun and not ended. *)
Definition is_set (c : call) : bool := match c with CSet _ _ => true | _ => false end.
Definition setting (st : fstate) : Prop := exists i t c p, nth_error (f_threads st) i = Some t /\ t_now t = Some (c, p) /\ is_set c = true.
(** Executions in which calls of SetFormatter do not overlap one another. *)
Inductive sreach (c : iface) (progs : list (list call)) : list label -> fstate -> Prop :=
| sr_init : sreach c progs [] (f_init c progs)
| sr_step tr st i l st' : sreach c progs tr st -> fnext st i = Some (l, st') ->
    (forall j k, l = Began j k -> is_set k = true -> ~ setting st) -> sreach c progs (tr ++ [l]) st'.
(** The formatter set last, beginning with [f]. *)
Fixpoint last_set (f : iface) (tr : list label) : iface :=
  match tr with
  | [] => f
  | Ended _ (CSet _ f') :: tr' => last_set f' tr'
  | _ :: tr' => last_set f tr'
  end.
(** What came of the uses of the formatter by goroutine [i]; how many of them it began. *)
Fixpoint results (i : nat) (tr : list label) : list result :=
  match tr with
  | [] => []
  | Got j r :: tr' => if i =? j then r :: results i tr' else results i tr'
  | _ :: tr' => results i tr'
  end.
Fixpoint uses (i : nat) (tr : list label) : nat :=
  match tr with
  | [] => 0
  | Began j (CUse _ _) :: tr' => if i =? j then S (uses i tr') else uses i tr'
  | _ :: tr' => uses i tr'
  end.
Definition idle (st : fstate) (i : nat) : Prop := exists cs, nth_error (f_threads st) i = Some (mkT None cs).
(** What should come of a use of the formatter [c]: the formatter itself, the default if there is none; a panic only if there is none and nobody checks. *)
Definition right (c : iface) (r : result) : Prop :=
  match r with
  | RUsed f => f = c /\ i_type c <> None
  | RDefault => i_type c = None
  | RPanic k => i_type c = None /\ k = Unchecked
  end.

(** Model of the formatter of one output at the level of machine words. In Go a value of an interface type is two words: one for the type
    (nil for a nil interface) and one for the data. internal/output_base.go:58-60 [SetFormatter] stores them one after the other, and
    internal/output_base.go:45-46, 63-64 and 173 load them, all without a lock.

    Each load or store of a word is a step; steps of different goroutines interleave in any way. Which word goes first, and whether the type
    that was compared with nil is loaded again for the call, are the compiler's choices: parameters of each call. *)
From Verif Require Import GoStr WorldModel.

(** A formatter: its type, [None] for nil, and its data. *)
Record iface := mkI { i_type : option nat; i_data : nat }.

(** What a call has still to do. [Use f k]: a method of [f] is called; [Default k]: there is no formatter, so the default text, or the flag for no
    caller information, is used; [Crash]: the nil interface's method is called, which panics; [Dead]: it has panicked. *)
Inductive prog :=
| Ret
| Dead
| GetType (k : option nat -> prog)
| GetData (k : nat -> prog)
| SetType (t : option nat) (k : prog)
| SetData (d : nat) (k : prog)
| Use (f : iface) (k : prog)
| Default (k : prog)
| Crash.
(** internal/output_base.go:58-60 [SetFormatter]; [tf]: the type is stored first. *)
Definition p_set (tf : bool) (f : iface) : prog :=
  if tf then SetType (i_type f) (SetData (i_data f) Ret) else SetData (i_data f) (SetType (i_type f) Ret).
(** The call of a method of the formatter as loaded. *)
Definition p_method (t : option nat) (d : nat) : prog := match t with None => Crash | Some _ => Use (mkI t d) Ret end.
Definition p_load (tf : bool) : prog :=
  if tf then GetType (fun t => GetData (fun d => p_method t d)) else GetData (fun d => GetType (fun t => p_method t d)).
(** internal/output_base.go:45-54 (Send of an event that is not below the threshold) and 62-67 [CallerInfoFlag]: the formatter is compared
    with nil first; [again]: its type is loaded again afterwards. internal/output_base.go:173: the asynchronous output's goroutine does not compare. *)
Inductive look := Checked (again : bool) | Unchecked.
Definition p_use (k : look) (tf : bool) : prog :=
  match k with
  | Checked true => GetType (fun t => match t with None => Default Ret | Some _ => p_load tf end)
  | Checked false => GetType (fun t => match t with None => Default Ret | Some _ => GetData (fun d => p_method t d) end)
  | Unchecked => p_load tf
  end.
Inductive call := CSet (tf : bool) (f : iface) | CUse (k : look) (tf : bool).
Definition p_call (c : call) : prog := match c with CSet tf f => p_set tf f | CUse k tf => p_use k tf end.

(** Goroutines: the call each is in, the calls to come. *)
Record thread := mkT { t_now : option (call * prog); t_todo : list call }.
Record fstate := mkF { f_cell : iface; f_threads : list thread }.
Definition put (st : fstate) (c : iface) (i : nat) (t : thread) : fstate := mkF c (upd i (fun _ => t) (f_threads st)).
Inductive result := RUsed (f : iface) | RDefault | RPanic (k : look).
Inductive label := Began (i : nat) (c : call) | Ended (i : nat) (c : call) | Got (i : nat) (r : result) | Tau.
Definition look_of (c : call) : look := match c with CUse k _ => k | _ => Unchecked end.
(** The next step of goroutine [i]. *)
Definition fnext (st : fstate) (i : nat) : option (label * fstate) :=
  match nth_error (f_threads st) i with
  | None => None
  | Some (mkT None []) => None
  | Some (mkT None (c :: cs)) => Some (Began i c, put st (f_cell st) i (mkT (Some (c, p_call c)) cs))
  | Some (mkT (Some (c, p)) cs) =>
    let go l cell q := Some (l, put st cell i (mkT (Some (c, q)) cs)) in
    match p with
    | Ret => Some (Ended i c, put st (f_cell st) i (mkT None cs))
    | Dead => None
    | GetType k => go Tau (f_cell st) (k (i_type (f_cell st)))
    | GetData k => go Tau (f_cell st) (k (i_data (f_cell st)))
    | SetType t k => go Tau (mkI t (i_data (f_cell st))) k
    | SetData d k => go Tau (mkI (i_type (f_cell st)) d) k
    | Use f k => go (Got i (RUsed f)) (f_cell st) k
    | Default k => go (Got i RDefault) (f_cell st) k
    | Crash => go (Got i (RPanic (look_of c))) (f_cell st) Dead
    end
  end.
Definition f_init (c : iface) (progs : list (list call)) : fstate := mkF c (map (mkT None) progs).
(** A schedule. *)
Fixpoint frun (st : fstate) (sc : list nat) : option (list label * fstate) :=
  match sc with
  | [] => Some ([], st)
  | i :: sc' => match fnext st i with
                | None => None
                | Some (l, st1) => match frun st1 sc' with Some (ls, st2) => Some (l :: ls, st2) | None => None end
                end
  end.

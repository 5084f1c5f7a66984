(** Model of the list of outputs of one logger at the level of machine words. In Go a slice is a pointer and a length (and a capacity,
    which nobody reads here), stored and loaded one after the other; internal/logger.go:99-106 stores the slice and
    internal/logger.go:170 and 196 load it without a lock. (RaceModel.v takes loads and stores of a slice to be atomic.)

    Each load or store of a word is a step; steps of different goroutines interleave in any way. Whether pointer or length goes first is
    the compiler's choice: a parameter of each call. The arrays behind the slices are written before the slices are handed over and not changed
    afterwards (internal/logger_manager.go:100 appends to a slice of its own; for the caller's see AliasModel.v). *)
From Verif Require Import GoStr WorldModel.

(** An array: its cells; [None] is a nil interface, in the part of the array beyond the slice. *)
Definition arr := list (option nat).
Record slice := mkS { s_ptr : nat; s_len : nat }.
(** The fields outputs and callerInfoFlag of internal/logger.go:16-25 [defLogger]. *)
Inductive word := Ptr | Len | Flag.
Record cell := mkC { c_ptr : nat; c_len : nat; c_flag : nat }.
Definition load (w : word) (c : cell) : nat := match w with Ptr => c_ptr c | Len => c_len c | Flag => c_flag c end.
Definition store (w : word) (v : nat) (c : cell) : cell :=
  match w with
  | Ptr => mkC v (c_len c) (c_flag c)
  | Len => mkC (c_ptr c) v (c_flag c)
  | Flag => mkC (c_ptr c) (c_len c) v
  end.

(** What a call has still to do. [Broken]: memory beyond an array, or a nil interface, was used as an output. *)
Inductive prog :=
| Ret
| Broken
| Get (w : word) (k : nat -> prog)
| Store (w : word) (v : nat) (k : prog)
| Cell (p i : nat) (k : nat -> prog)
| Send (o : nat) (k : prog).

Section Calls.
(** CallerInfoFlag of each output (output_base.go:61-66). *)
Context (fl : nat -> nat).
(** internal/logger.go:101-105: the loop over the argument. *)
Fixpoint p_flags (p i n : nat) : prog :=
  match n with
  | O => Ret
  | S n' => Cell p i (fun o => Get Flag (fun f => if f <? fl o then Store Flag (fl o) (p_flags p (S i) n') else p_flags p (S i) n'))
  end.
(** internal/logger.go:99-106 [SetOutputs]; [pf]: the pointer is stored first. *)
Definition p_set (pf : bool) (s : slice) : prog :=
  if pf then Store Ptr (s_ptr s) (Store Len (s_len s) (p_flags (s_ptr s) 0 (s_len s)))
  else Store Len (s_len s) (Store Ptr (s_ptr s) (p_flags (s_ptr s) 0 (s_len s))).
(** internal/logger.go:196-198: the loop over the slice as loaded before. *)
Fixpoint p_send (p i n : nat) : prog :=
  match n with
  | O => Ret
  | S n' => Cell p i (fun o => Send o (p_send p (S i) n'))
  end.
(** internal/logger.go:165-199 [write] of an enabled event, as far as the outputs go: the length is looked at (170), then the slice is loaded
    (196). Without outputs the call goes on with the parent, which is not part of this model: it ends here. *)
Definition p_log (pf : bool) : prog :=
  Get Len (fun n => match n with
    | O => Ret
    | S _ => if pf then Get Ptr (fun p => Get Len (fun n => p_send p 0 n)) else Get Len (fun n => Get Ptr (fun p => p_send p 0 n))
    end).

Inductive call := CSet (pf : bool) (s : slice) | CLog (pf : bool).
Definition p_call (c : call) : prog := match c with CSet pf s => p_set pf s | CLog pf => p_log pf end.
End Calls.

(** Goroutines: the call each is in, the calls to come. *)
Record thread := mkT { t_now : option (call * prog); t_todo : list call }.
Record wstate := mkW { w_cell : cell; w_threads : list thread }.
Definition put (st : wstate) (c : cell) (i : nat) (t : thread) : wstate := mkW c (upd i (fun _ => t) (w_threads st)).
Inductive label := Began (i : nat) (c : call) | Ended (i : nat) (c : call) | Sent (i : nat) (o : nat) | Broke (i : nat) | Tau.
(** The next step of goroutine [i]; [A] are the arrays. A call that is [Broken] stops there. *)
Definition wnext (A : list arr) (fl : nat -> nat) (st : wstate) (i : nat) : option (label * wstate) :=
  match nth_error (w_threads st) i with
  | None => None
  | Some (mkT None []) => None
  | Some (mkT None (c :: cs)) => Some (Began i c, put st (w_cell st) i (mkT (Some (c, p_call fl c)) cs))
  | Some (mkT (Some (c, p)) cs) =>
    match p with
    | Ret => Some (Ended i c, put st (w_cell st) i (mkT None cs))
    | Broken => None
    | Get w k => Some (Tau, put st (w_cell st) i (mkT (Some (c, k (load w (w_cell st)))) cs))
    | Store w v k => Some (Tau, put st (store w v (w_cell st)) i (mkT (Some (c, k)) cs))
    | Cell q j k =>
      match nth_error A q with
      | Some a => match nth_error a j with
                  | Some (Some o) => Some (Tau, put st (w_cell st) i (mkT (Some (c, k o)) cs))
                  | _ => Some (Broke i, put st (w_cell st) i (mkT (Some (c, Broken)) cs))
                  end
      | None => Some (Broke i, put st (w_cell st) i (mkT (Some (c, Broken)) cs))
      end
    | Send o k => Some (Sent i o, put st (w_cell st) i (mkT (Some (c, k)) cs))
    end
  end.
Definition w_init (c : cell) (progs : list (list call)) : wstate := mkW c (map (mkT None) progs).
(** A schedule. *)
Fixpoint wrun (A : list arr) (fl : nat -> nat) (st : wstate) (sc : list nat) : option (list label * wstate) :=
  match sc with
  | [] => Some ([], st)
  | i :: sc' => match wnext A fl st i with
                | None => None
                | Some (l, st1) => match wrun A fl st1 sc' with Some (ls, st2) => Some (l :: ls, st2) | None => None end
                end
  end.

(** Vocabulary for what must happen in the end on an asynchronous output. *)
From Verif Require Import GoStr EventModel AsyncModel AsyncSpec.

(** The ticker may fire at any time and any number of times; all other steps are work. *)
Definition is_work (l : label) : bool := match l with Wrote ByTick _ => false | _ => true end.
Definition work (tr : list label) : nat := length (filter is_work tr).
(** How much work calls can cause at most: a Send is called, looks at the flag, pushes, returns, and its event is taken; a Close is
    called, looks, pushes, waits, sets the flag, closes, returns, and its nil is taken. *)
Definition cost (c : call) : nat := match c with CSend _ => 5 | CClose => 8 end.
Definition costs (progs : list (list call)) : nat := list_sum (map (fun cs => list_sum (map cost cs)) progs).
(** Some work can be done; nothing but the ticker can do anything. *)
Definition can_work (C : aconf) (s : astate) : Prop := exists c l s', anext C s c = Some (l, s') /\ is_work l = true.
Definition idle (C : aconf) (s : astate) : Prop := forall c l s', anext C s c = Some (l, s') -> is_work l = false.
(** All calls of all goroutines have returned, or the goroutine has panicked. *)
Definition ended (s : astate) : Prop := forall i t, nth_error (a_threads s) i = Some t -> t = mkTh Idle [] \/ th_pc t = Dead.
Definition all_returned (s : astate) : Prop := forall i t, nth_error (a_threads s) i = Some t -> t = mkTh Idle [].

(** Executions without end (they may stand still), in which work is not put off for ever. *)
Definition endless (C : aconf) (r : nat -> astate) : Prop := forall n, r (S n) = r n \/ exists c l, anext C (r n) c = Some (l, r (S n)).
Definition fair (C : aconf) (r : nat -> astate) : Prop := forall n, can_work C (r n) ->
  exists m c l, (n <= m)%nat /\ anext C (r m) c = Some (l, r (S m)) /\ is_work l = true.
(** Work within the rules for Close (see [orderly]). *)
Definition orderly_idle (C : aconf) (s : astate) : Prop := forall c l s', anext C s c = Some (l, s') -> orderly s l -> is_work l = false.

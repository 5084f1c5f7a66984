(** Vocabulary for the properties of asynchronous outputs: executions and what was asked for. *)
From Verif Require Import GoStr EventModel LayoutModel AsyncModel.
Local Open Scope Z_scope.

(** Executions of an output with goroutines running the given calls: labels so far, state now. *)
Inductive areach (C : aconf) (progs : list (list call)) : list label -> astate -> Prop :=
| ar_init : areach C progs [] (a_init progs)
| ar_step tr s c l s' : areach C progs tr s -> anext C s c = Some (l, s') -> areach C progs (tr ++ [l]) s'.
Inductive asteps (C : aconf) : astate -> list label -> astate -> Prop :=
| as_nil s : asteps C s [] s
| as_cons s c l s1 tr s2 : anext C s c = Some (l, s1) -> asteps C s1 tr s2 -> asteps C s (l :: tr) s2.

(** The texts of the events at or above the threshold, in order. *)
Inductive texts (C : aconf) : list event -> list str -> Prop :=
| tx_nil : texts C [] []
| tx_low e es ts : ev_level e < ac_threshold C -> texts C es ts -> texts C (e :: es) ts
| tx_text e es b ts : ac_threshold C <= ev_level e -> ac_fmt C e = Ok b -> texts C es ts -> texts C (e :: es) (b :: ts).

(** The events accepted, in order: by all goroutines, by goroutine [i]. *)
Inductive accepted : list label -> list event -> Prop :=
| ac_nil : accepted [] []
| ac_push i e tr es : accepted tr es -> accepted (Push i (Some e) :: tr) (e :: es)
| ac_other l tr es : (forall i e, l <> Push i (Some e)) -> accepted tr es -> accepted (l :: tr) es.
Inductive accepted_from (i : nat) : list label -> list event -> Prop :=
| af_nil : accepted_from i [] []
| af_push e tr es : accepted_from i tr es -> accepted_from i (Push i (Some e) :: tr) (e :: es)
| af_other l tr es : (forall e, l <> Push i (Some e)) -> accepted_from i tr es -> accepted_from i (l :: tr) es.
(** The events whose Send by goroutine [i] has returned, in order. *)
Inductive returned (i : nat) : list label -> list event -> Prop :=
| rt_nil : returned i [] []
| rt_ret e tr es : returned i tr es -> returned i (Ret i (CSend e) :: tr) (e :: es)
| rt_other l tr es : (forall e, l <> Ret i (CSend e)) -> returned i tr es -> returned i (l :: tr) es.
(** The events goroutine [i] was to send. *)
Inductive sends : list call -> list event -> Prop :=
| se_nil : sends [] []
| se_send e cs es : sends cs es -> sends (CSend e :: cs) (e :: es)
| se_close cs es : sends cs es -> sends (CClose :: cs) es.
(** [a] is [b] with some elements left out. *)
Inductive sublist {A} : list A -> list A -> Prop :=
| sl_nil b : sublist [] b
| sl_take x a b : sublist a b -> sublist (x :: a) (x :: b)
| sl_drop x a b : sublist a b -> sublist a (x :: b).

(** What is still in the channel. *)
Inductive queued : list (option event) -> list event -> Prop :=
| qu_nil : queued [] []
| qu_event e q es : queued q es -> queued (Some e :: q) (e :: es)
| qu_end q es : queued q es -> queued (None :: q) es.

(** Goroutines in a call. *)
Definition closing (s : astate) : Prop :=
  exists i p todo, nth_error (a_threads s) i = Some (mkTh p todo) /\ In p [KLoad; KPush; KWait; KStore; KClose; KRet].
Definition busy (s : astate) : Prop :=
  exists i p todo, nth_error (a_threads s) i = Some (mkTh p todo) /\ p <> Idle /\ p <> Dead.
(** Executions in which Close is called when no other call is under way, and no call begins while
    a Close is under way. *)
Definition orderly (s : astate) (l : label) : Prop :=
  match l with
  | Call _ CClose => ~ busy s
  | Call _ (CSend _) => ~ closing s
  | _ => True
  end.
Inductive oreach (C : aconf) (progs : list (list call)) : list label -> astate -> Prop :=
| or_init : oreach C progs [] (a_init progs)
| or_step tr s c l s' : oreach C progs tr s -> orderly s l -> anext C s c = Some (l, s') -> oreach C progs (tr ++ [l]) s'.
(** A formatter that handles every event. *)
Definition formats_all (C : aconf) : Prop := forall e, exists b, ac_fmt C e = Ok b.
(** Steps of the worker and the ticker alone. *)
Inductive wsteps (C : aconf) : astate -> list label -> astate -> Prop :=
| wss_nil s : wsteps C s [] s
| wss_cons s c l s1 tr s2 : (forall i, c <> Thread i) -> anext C s c = Some (l, s1) -> wsteps C s1 tr s2 ->
    wsteps C s (l :: tr) s2.
(** The bytes of the writes in a trace. *)
Definition out_of_l (l : label) : list str := match l with Wrote _ b => [b] | _ => [] end.
Definition outf := flat_map out_of_l.
Definition no_close (tr : list label) : Prop := forall i, ~ In (Call i CClose) tr.
Definition started (tr : list label) : Prop := In Start tr.

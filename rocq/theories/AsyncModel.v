(** Model of the asynchronous output (internal/output_base.go, asyncOutput): a machine with any
    number of calling goroutines, the worker goroutine and the ticker. One step of the machine is
    one operation on shared memory (the closed flag, the channel, the wait group, the writer); what
    the worker does with its own buffer between two such operations belongs to the same step. *)
From Verif Require Import GoStr LevelModel EventModel LayoutModel WorldModel.
Local Open Scope Z_scope.

(** The parameters of one output: internal/output_base.go:110-118 [NewAsyncOutput]. [ac_fmt] is
    Format of the formatter, on the worker's stack; a nil formatter or one that panics gives
    [Panic]. Simplification: the formatter is set before the first Send and not replaced, and
    formatting does not depend on what other outputs do with the same event. *)
Record aconf := mkAC { ac_fmt : event -> res str; ac_threshold : Z; ac_batch : Z; ac_cap : nat }.

(** API calls a goroutine makes on the output. *)
Inductive call := CSend (e : event) | CClose.
(** Where a goroutine is: between calls, or before an operation of internal/output_base.go:130-135
    [Send] or 137-146 [Close], or before returning; [Dead] after a panic. *)
Inductive pc :=
| Idle
| SLoad (e : event)     (* LoadInt32(&o.closed) *)
| SPush (e : event)     (* o.evtChan <- e *)
| SRet (e : event)
| KLoad                 (* LoadInt32(&o.closed) *)
| KPush                 (* o.evtChan <- nil *)
| KWait                 (* o.wait.Wait() *)
| KStore                (* StoreInt32(&o.closed, 1) *)
| KClose                (* close(o.evtChan) *)
| KRet
| Dead.
Record thread := mkTh { th_pc : pc; th_todo : list call }.
(** The worker: not started; in its loop; returned from the loop with the deferred Done still to
    come; gone. *)
Inductive wstate := WNew | WRun | WLeave | WGone.

(** internal/output_base.go:120-128 [asyncOutput]. [None] in the queue is the nil event. [a_out]
    are the Write calls made so far; [a_crashed]: the worker panicked, which ends the process. *)
Record astate := mkA {
  a_queue : list (option event);
  a_shut : bool;                (* the channel is closed *)
  a_flag : bool;                (* o.closed *)
  a_wg : nat;                   (* counter of o.wait *)
  a_worker : wstate;
  a_buf : str;
  a_num : Z;                    (* o.currNum *)
  a_out : list str;
  a_threads : list thread;
  a_crashed : bool
}.
Definition a_init (progs : list (list call)) : astate :=
  mkA [] false false 0 WNew [] 0 [] (map (mkTh Idle) progs) false.

(** What happens in a step, as seen from outside. *)
Inductive why := ByTick | ByBatch | ByClose.
Inductive label :=
| Call (i : nat) (c : call)
| Push (i : nat) (e : option event)
| Ret (i : nat) (c : call)
| Boom (i : nat)
| Start
| Wrote (w : why) (b : str)
| Crash
| Tau.

Definition set_th (s : astate) (i : nat) (p : pc) (todo : list call) : astate :=
  mkA (a_queue s) (a_shut s) (a_flag s) (a_wg s) (a_worker s) (a_buf s) (a_num s) (a_out s)
    (upd i (fun _ => mkTh p todo) (a_threads s)) (a_crashed s).
Definition set_queue (s : astate) (q : list (option event)) : astate :=
  mkA q (a_shut s) (a_flag s) (a_wg s) (a_worker s) (a_buf s) (a_num s) (a_out s) (a_threads s) (a_crashed s).
Definition set_flags (s : astate) (shut flag : bool) : astate :=
  mkA (a_queue s) shut flag (a_wg s) (a_worker s) (a_buf s) (a_num s) (a_out s) (a_threads s) (a_crashed s).
Definition set_work (s : astate) (wg : nat) (w : wstate) : astate :=
  mkA (a_queue s) (a_shut s) (a_flag s) wg w (a_buf s) (a_num s) (a_out s) (a_threads s) (a_crashed s).
Definition set_buf (s : astate) (b : str) (n : Z) (out : list str) : astate :=
  mkA (a_queue s) (a_shut s) (a_flag s) (a_wg s) (a_worker s) b n out (a_threads s) (a_crashed s).
Definition set_crashed (s : astate) : astate :=
  mkA (a_queue s) (a_shut s) (a_flag s) (a_wg s) (a_worker s) (a_buf s) (a_num s) (a_out s) (a_threads s) true.

(** Sending on a channel: panics if it is closed, waits while it is full. Capacities are at least
    one (GetQueueSize), so there is no direct hand-over. *)
Definition chan_send (C : aconf) (s : astate) (i : nat) (x : option event) (p' : pc) (todo : list call)
  : option (label * astate) :=
  if a_shut s then Some (Boom i, set_th s i Dead todo)
  else if (length (a_queue s) <? ac_cap C)%nat
       then Some (Push i x, set_th (set_queue s (a_queue s ++ [x])) i p' todo)
       else None.
(** internal/output_base.go:130-146: the next operation of goroutine [i]. *)
Definition thread_step (C : aconf) (s : astate) (i : nat) : option (label * astate) :=
  match nth_error (a_threads s) i with
  | None => None
  | Some (mkTh p todo) =>
    match p with
    | Idle => match todo with
              | [] => None
              | CSend e :: rest => Some (Call i (CSend e), set_th s i (SLoad e) rest)
              | CClose :: rest => Some (Call i CClose, set_th s i KLoad rest)
              end
    | SLoad e => Some (Tau, set_th s i (if a_flag s then SRet e else SPush e) todo)
    | SPush e => chan_send C s i (Some e) (SRet e) todo
    | SRet e => Some (Ret i (CSend e), set_th s i Idle todo)
    | KLoad => Some (Tau, set_th s i (if a_flag s then KRet else KPush) todo)
    | KPush => chan_send C s i None KWait todo
    | KWait => match a_wg s with O => Some (Tau, set_th s i KStore todo) | S _ => None end
    | KStore => Some (Tau, set_th (set_flags s (a_shut s) true) i KClose todo)
    | KClose => if a_shut s then Some (Boom i, set_th s i Dead todo)
                else Some (Tau, set_th (set_flags s true (a_flag s)) i KRet todo)
    | KRet => Some (Ret i CClose, set_th s i Idle todo)
    | Dead => None
    end
  end.

(** internal/output_base.go:148-153 [flush]. *)
Definition flush (s : astate) : astate := set_buf s [] 0 (a_out s ++ [a_buf s]).
(** internal/output_base.go:166-178: one event taken from the channel. *)
Definition take_event (C : aconf) (s : astate) (e : event) : label * astate :=
  if ac_threshold C <=? ev_level e then
    match ac_fmt C e with
    | Panic => (Crash, set_crashed s)
    | Ok b =>
      let s1 := set_buf s (a_buf s ++ b) (a_num s + 1) (a_out s) in
      if ac_batch C <=? a_num s1 then (Wrote ByBatch (a_buf s1), flush s1) else (Tau, s1)
    end
  else (Tau, s).
(** internal/output_base.go:155-181 [loop]; receiving from a closed and empty channel gives nil. *)
Definition recv_step (C : aconf) (s : astate) : option (label * astate) :=
  match a_worker s with
  | WRun =>
    match a_queue s with
    | Some e :: q => Some (take_event C (set_queue s q) e)
    | None :: q => Some (Wrote ByClose (a_buf s), set_work (flush (set_queue s q)) (a_wg s) WLeave)
    | [] => if a_shut s then Some (Wrote ByClose (a_buf s), set_work (flush s) (a_wg s) WLeave) else None
    end
  | _ => None
  end.

(** What the scheduler lets happen next: goroutine [i] goes on; the worker starts, takes from the
    channel, finishes; the ticker's channel is chosen. *)
Inductive choice := Thread (i : nat) | WStart | WRecv | WTick | WDone.
Definition anext (C : aconf) (s : astate) (c : choice) : option (label * astate) :=
  if a_crashed s then None else
  match c with
  | Thread i => thread_step C s i
  | WStart => match a_worker s with WNew => Some (Start, set_work s (S (a_wg s)) WRun) | _ => None end
  | WRecv => recv_step C s
  | WTick => match a_worker s with WRun => Some (Wrote ByTick (a_buf s), flush s) | _ => None end
  | WDone => match a_worker s with WLeave => Some (Tau, set_work s (pred (a_wg s)) WGone) | _ => None end
  end.
(** A schedule, and the labels it leaves. *)
Fixpoint arun (C : aconf) (s : astate) (cs : list choice) : option (list label * astate) :=
  match cs with
  | [] => Some ([], s)
  | c :: cs' =>
    match anext C s c with
    | None => None
    | Some (l, s1) => match arun C s1 cs' with Some (ls, s2) => Some (l :: ls, s2) | None => None end
    end
  end.

(** The output the creators build (internal/output_console.go, output_memory.go,
    output_rolling.go: NewAsyncOutput followed by SetFormatter). internal/output_base.go:173 calls
    Format of a nil formatter if none was set. [stk] is the worker's stack. *)
Definition async_fmt (E : env) (stk : stack) (f : option formatter) (e : event) : res str :=
  match f with
  | None => Panic
  | Some f => bind (fmt_Format E stk f e) (fun '(b, _) => Ok b)
  end.
Definition async_conf (E : env) (stk : stack) (f : option formatter) (t : level) (queue batch : Z) : aconf :=
  mkAC (async_fmt E stk f) t batch (Z.to_nat queue).

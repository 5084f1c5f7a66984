(** What it means that concurrent calls do not get stuck. *)
From Coq Require Import Permutation.
From Verif Require Import GoStr LevelModel EventModel ConfModel OutputModel WorldModel PanicModel LockModel.

(** All calls have returned. *)
Definition returned (s : lstate) : Prop := forall i t, nth_error (l_threads s) i = Some t -> t_now t = None /\ t_todo t = [].
(** A queue with no Close under way: a nil event in it, or a worker that has left, only after Close has returned. *)
Definition resting (x : option qst) : Prop :=
  match x with
  | None => True
  | Some q => (1 <= q_cap q)%nat /\ (In true (q_items q) \/ q_gone q = true -> q_flag q = true)
  end.
(** A step that is not a new event from elsewhere. *)
Definition ours (a : label) : Prop := match a with BySend _ => False | _ => True end.
Definition by_call (a : label) : Prop := match a with ByCall _ => True | _ => False end.
Definition by_worker (a : label) : Prop := match a with ByWorker _ => True | _ => False end.
(** [s'] comes after [s] in one step. *)
Definition after (P : params) (boom : nat -> bool) (s' s : lstate) : Prop := exists a, ours a /\ lstep P boom s a s'.
(** A call that has returned [r]. *)
Definition ended (s : lstate) (c : call) (r : option ret) : Prop :=
  exists i t, nth_error (l_threads s) i = Some t /\ In (c, r) (t_done t).
(** The name of the logger that is asked for. *)
Definition meant (n : str) : str := match n with [] => $"root" | _ => n end.
(** Every name in the table of loggers is the name of its logger; so is that of the root. *)
Definition well_named (W : world) : Prop :=
  (forall n id, mlookup n (w_names W) = Some id -> exists l, nth_error (w_loggers W) id = Some l /\ l_name l = n) /\
  (forall id, w_root W = Some id -> exists l, nth_error (w_loggers W) id = Some l /\ l_name l = $"root").
(** A call made while no other goroutine does anything: locks are free, a worker finishes at once. *)
Fixpoint alone (p : lprog) (W : world) : world * option ret :=
  match p with
  | LRet r => (W, r)
  | LLock _ k | LUnlock _ k | KPush _ k | KWait _ k | KStore _ k => alone k W
  | LAct _ f k e => match f W with Done W' a => alone (k a) W' | Raised W' => alone e W' end
  | KLoad _ _ k => alone k W
  end.
(** The same call in WorldModel.v. *)
Definition op_of (W : world) (c : call) : op :=
  match c with
  | CGetLogger n => OGetLogger n
  | CGetLoggerOutputs n => OGetLoggerOutputs n
  | CSetConfig c sh => OSetConfig c (sh (map snd (w_names W)))
  | CLoadConfig bs ext sh => OLoadConfig bs ext (sh (map snd (w_names W)))
  | CLoadConfigFile f sh => OLoadConfigFile f (sh (map snd (w_names W)))
  | CRegisterFormatter t f => ORegisterFormatter t f
  | CRegisterOutput t f => ORegisterOutput t f
  | CClose _ => OClose
  end.
(** Close visits each output once. *)
Definition in_order (c : call) : Prop := match c with CClose sh => forall l, Permutation (sh l) l | _ => True end.

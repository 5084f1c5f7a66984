(** Vocabulary for C58: what a log call may have seen while other goroutines were changing loggers. *)
From Verif Require Import GoStr LevelModel EventModel LayoutModel ConfModel WorldModel WorldSpec RaceModel.
Local Open Scope Z_scope.

(** Goroutines that start after any history of calls. *)
Definition r_reach (P : params) (s : rstate) : Prop :=
  exists W n tr, reach P W /\ rexec P (r_start W n) tr s.
(** Goroutine [i] neither begins nor ends a call. *)
Definition busy (i : nat) (tr : list (nat * rlabel * world)) : Prop :=
  forall a W, In (i, a, W) tr -> a = Stepped \/ exists d, a = Sent d.
(** All that happens from the moment goroutine [i] calls [o]: so far, and until the call returns. *)
Definition in_call (i : nat) (o : op) (tr : list (nat * rlabel * world)) : Prop :=
  exists W mid, tr = (i, Called o, W) :: mid /\ busy i mid.
Definition whole_call (i : nat) (o : op) (r : ret) (tr : list (nat * rlabel * world)) : Prop :=
  exists tr0 W, tr = tr0 ++ [(i, Returned r, W)] /\ in_call i o tr0.
(** The Sends of goroutine [i], in order. *)
Fixpoint sent_by (i : nat) (tr : list (nat * rlabel * world)) : list delivery :=
  match tr with
  | [] => []
  | (j, Sent d, _) :: tr' => if Nat.eqb j i then d :: sent_by i tr' else sent_by i tr'
  | _ :: tr' => sent_by i tr'
  end.
(** The worlds from the start on. *)
Definition moments (W : world) (tr : list (nat * rlabel * world)) : list world := W :: map snd tr.

(** A level the logger may have been found to have: the level of the nearest logger found with one, where "found"
    may refer to another moment for each logger (and the level of the last one is looked at twice). *)
Inductive found_level (ms : list world) : nat -> Z -> Prop :=
| fd_own W1 W2 id l1 l2 : In W1 ms -> In W2 ms -> nth_error (w_loggers W1) id = Some l1 ->
    nth_error (w_loggers W2) id = Some l2 -> l_level l1 <> 0 -> found_level ms id (l_level l2)
| fd_up W1 id l p v : In W1 ms -> nth_error (w_loggers W1) id = Some l -> l_level l = 0 -> l_parent l = Some p ->
    found_level ms p v -> found_level ms id v
| fd_none W1 id l : In W1 ms -> nth_error (w_loggers W1) id = Some l -> l_level l = 0 -> l_parent l = None ->
    found_level ms id 8.
(** The call went from logger [id] to logger [x]: each logger on the way was found to allow the level, and those
    left behind were found without outputs. *)
Inductive found_way (ms : list world) (v : Z) : nat -> nat -> Prop :=
| fw_here id e : found_level ms id e -> e <= v -> found_way ms v id id
| fw_up W1 id l p e x : found_level ms id e -> e <= v -> In W1 ms -> nth_error (w_loggers W1) id = Some l ->
    l_outputs l = [] -> l_parent l = Some p -> found_way ms v p x -> found_way ms v id x.
(** The outputs of [x] at some moment. *)
Definition had_outputs (ms : list world) (x : nat) (ops : list nat) : Prop :=
  exists W l, In W ms /\ nth_error (w_loggers W) x = Some l /\ l_outputs l = ops.
(** Level and outputs of the logger and its ancestors are the same at all these moments. *)
Definition left_alone (ms : list world) (id : nat) : Prop :=
  forall W W' k x l l', In W ms -> In W' ms -> up W id k x -> nth_error (w_loggers W) x = Some l ->
  nth_error (w_loggers W') x = Some l' -> l_level l' = l_level l /\ l_outputs l' = l_outputs l.
(** At all these moments: no logger from [id] up forbids the level [v], and root has a level; *)
Definition open_all_along (ms : list world) (v : Z) (id : nat) : Prop :=
  forall W k x l, In W ms -> up W id k x -> nth_error (w_loggers W) x = Some l ->
  l_level l <= v /\ (l_parent l = None -> l_level l <> 0).
(** the nearest logger with outputs is [x]. *)
Definition served_all_along (ms : list world) (id x : nat) : Prop :=
  exists k, forall W, In W ms -> up W id k x /\
    (forall l, nth_error (w_loggers W) x = Some l -> l_outputs l <> []) /\
    forall j y l, (j < k)%nat -> up W id j y -> nth_error (w_loggers W) y = Some l -> l_outputs l = [].

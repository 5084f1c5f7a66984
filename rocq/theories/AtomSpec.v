(** What it means that calls made at the same time act one after the other. *)
From Coq Require Import Permutation.
From Verif Require Import GoStr LevelModel EventModel ConfModel OutputModel WorldModel LockModel LockSpec.

(** One call after the other, each by a goroutine and with its answer. *)
Inductive seq (P : params) (boom : nat -> bool) : world -> list (nat * (call * option ret)) -> world -> Prop :=
| seq_nil W : seq P boom W [] W
| seq_more W h V i c V' r : seq P boom W h V -> alone (p_call P boom c) V = (V', r) -> seq P boom W (h ++ [(i, (c, r))]) V'.
(** Those of one goroutine. *)
Definition only (i : nat) (h : list (nat * (call * option ret))) : list (call * option ret) :=
  map snd (filter (fun x => fst x =? i) h).
(** [h] explains [s]: it has, for each goroutine in its order and with the answers it got, the calls that have
    returned, perhaps the one it is in (which will get that answer), and no other; when no call is under way, it leads to
    the same world. *)
Definition explains (P : params) (boom : nat -> bool) (W : world) (h : list (nat * (call * option ret))) (s : lstate) : Prop :=
  exists V, seq P boom W h V /\
  (forall i t, nth_error (l_threads s) i = Some t ->
     match t_now t with
     | None => only i h = t_done t
     | Some (c, _) => only i h = t_done t \/ exists r, only i h = t_done t ++ [(c, r)]
     end) /\
  Forall (fun x => fst x < length (l_threads s)) h /\
  ((forall i t, nth_error (l_threads s) i = Some t -> t_now t = None) -> l_w s = V).
(** A call that does not store a configuration: any but a configuration call that is accepted. *)
Definition quiet (P : params) (c : call) : Prop :=
  match c with
  | CSetConfig c _ => validateConfig c = false
  | CLoadConfig bs ext _ => validateConfig (decoded P bs ext) = false
  | CLoadConfigFile f _ => forall bs x ext, p_read P f = Some bs -> path_Ext f = x :: ext -> validateConfig (decoded P bs ext) = false
  | _ => True
  end.
Definition gets (c : call) : Prop := match c with CGetLogger _ => True | _ => False end.
(** The loggers and outputs that a call goes through are visited once each. *)
Definition fair (c : call) : Prop :=
  match c with
  | CSetConfig _ sh | CLoadConfig _ _ sh | CLoadConfigFile _ sh | CClose sh => forall ids, Permutation (sh ids) ids
  | _ => True
  end.

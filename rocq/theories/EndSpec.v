(** What should arrive at an output during a sequence of calls. *)
From Verif Require Import GoStr LevelModel EventModel ConfModel OutputModel WorldModel WorldSpec.
Local Open Scope Z_scope.

(** The event of a log call. *)
Definition carries (n : str) (lvl : level) (fmt : str) (args : list value) (now : Z) (e : event) : Prop :=
  ev_name e = n /\ ev_level e = lvl /\ ev_format e = fmt /\ ev_args e = args /\ ev_time e = now.
Definition logs (o : op) : Prop := match o with OLog _ _ _ _ _ _ _ _ => True | _ => False end.
(** A log call sends its event to output [i] once for every time [i] is on its route; nothing else
    sends anything. *)
Inductive deliveries (P : params) (i : nat) : world -> list op -> list (stack * event) -> Prop :=
| dl_nil W : deliveries P i W [] []
| dl_log W n id c v lvl fmt args now ustk W1 r os outs evs rest : has_name W n id ->
    exec P W (OLog id c v lvl fmt args now ustk) = Ok (W1, r) -> route W lvl n outs ->
    length evs = count_occ Nat.eq_dec outs i -> Forall (fun p => carries n lvl fmt args now (snd p)) evs ->
    deliveries P i W1 os rest -> deliveries P i W (OLog id c v lvl fmt args now ustk :: os) (evs ++ rest)
| dl_other W o W1 r os evs : ~ logs o -> exec P W o = Ok (W1, r) -> deliveries P i W1 os evs ->
    deliveries P i W (o :: os) evs.

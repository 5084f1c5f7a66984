(** Processes that write one log, one after the other, with the readings of the clock that each write makes. *)
From Verif Require Import GoStr ConfModel RollModel RollSpec.

Inductive turns (P : tparse) (c : roll_conf) (good : fsop * fsres -> Prop) : fs -> list (list (str * list str)) -> fs -> Prop :=
| tu_nil f : turns P c good f [] f
| tu_one f rs f1 w1 rss f2 : timed P c good f w_new rs f1 w1 -> turns P c good f1 rss f2 -> turns P c good f (rs :: rss) f2.
(** The clock stands still during the first write. *)
Definition starts_in_one (rs : list (str * list str)) : Prop :=
  forall r0 rest, rs = r0 :: rest -> exists t, Forall (eq t) (snd r0).

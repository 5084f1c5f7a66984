(** Several sequences in one. *)
From Verif Require Import GoStr.

(** [l] takes the elements of the lists [ls] one by one, each list in its order. *)
Inductive interleave {A} : list (list A) -> list A -> Prop :=
| il_done ls : Forall (eq []) ls -> interleave ls []
| il_take ls1 x l ls2 r : interleave (ls1 ++ l :: ls2) r -> interleave (ls1 ++ (x :: l) :: ls2) (x :: r).

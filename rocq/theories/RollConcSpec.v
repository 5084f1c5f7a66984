(** What concurrent writes should amount to: writes one after the other. *)
From Verif Require Import GoStr ConfModel RollModel RollSpec RollConcModel.

(** A finished write: by whom, of what, with what result. *)
Definition call := (nat * (str * (nat * bool)))%type.
Definition hop_of (x : call) : hop := let '(_, (b, (k, e))) := x in HWrite b k e.
Definition mine (i : nat) (l : list call) : list (str * (nat * bool)) := map snd (filter (fun x => Nat.eqb (fst x) i) l).
Definition own (i : nat) (tr : list (fsop * fsres)) : list (nat * (fsop * fsres)) := map (pair i) tr.
(** Writes one after the other, with the operations made by each. *)
Inductive serial (P : tparse) (c : roll_conf) : fs -> wst -> list call -> list (nat * (fsop * fsres)) -> fs -> wst -> Prop :=
| se_nil f w : serial P c f w [] [] f w
| se_more f w l tr f1 w1 i b tr1 f2 w2 r : serial P c f w l tr f1 w1 -> runs (rw_Write P c w1 b) f1 tr1 f2 (w2, r) ->
    serial P c f w (l ++ [(i, (b, r))]) (tr ++ own i tr1) f2 w2.

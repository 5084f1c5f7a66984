(** How much disk a log may use. *)
From Verif Require Import GoStr ConfModel RollModel RollSpec.
Local Open Scope Z_scope.

(** [n] is a file of this log, with contents [x]: the log file or a backup. *)
Definition log_file (P : tparse) (c : roll_conf) (d : dir) (n x : str) : Prop :=
  d n = Some (Reg x) /\ (n = rc_file c \/ exists z, backup P c n z).
(** Every set of files of the log has at most [files] elements, none longer than [each]. *)
Definition uses_at_most (P : tparse) (c : roll_conf) (d : dir) (files each : Z) : Prop :=
  forall ns, NoDup (map fst ns) -> (forall n x, In (n, x) ns -> log_file P c d n x) ->
    Z.of_nat (length ns) <= files /\ Forall (fun p => Z.of_nat (length (snd p)) <= each) ns.
(** All bytes of some files. *)
Definition total (ns : list (str * str)) : Z := Z.of_nat (length (concat (map snd ns))).
(** No write is longer. *)
Definition writes_up_to (L : Z) (hs : list hop) : Prop := forall b k e, In (HWrite b k e) hs -> Z.of_nat (length b) <= L.
(** Processes after the first. *)
Fixpoint restarts (hs : list hop) : Z :=
  match hs with
  | [] => 0
  | HRestart :: hs' => 1 + restarts hs'
  | _ :: hs' => restarts hs'
  end.
(** No process but perhaps the last writes exactly once. *)
Definition never_once (hs : list hop) : Prop :=
  forall h1 b k e h2, HRestart :: hs <> h1 ++ HRestart :: HWrite b k e :: HRestart :: h2.

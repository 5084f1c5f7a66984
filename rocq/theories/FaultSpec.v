(** What a disk that fails now and then may cost. *)
From Verif Require Import GoStr ConfModel RollModel RollSpec.
Local Open Scope Z_scope.

(** So many of these operations failed. *)
Inductive failures : list (fsop * fsres) -> nat -> Prop :=
| fl_nil : failures [] 0
| fl_ok x tr n : smooth x -> failures tr n -> failures (x :: tr) n
| fl_bad x tr n : ~ smooth x -> failures tr n -> failures (x :: tr) (S n).
(** A text given to the file writer, the number of operations that failed during that write, and the number of bytes
    that the write said it wrote. *)
Record attempt := mkAt { t_text : str; t_failed : nat; t_wrote : nat }.
(** Writes of one process, one after the other. *)
Inductive attempts (P : tparse) (c : roll_conf) (good : fsop * fsres -> Prop) : fs -> wst -> list attempt -> fs -> wst -> Prop :=
| at_nil f w : attempts P c good f w [] f w
| at_write f w b n k e tr f1 w1 rest f2 w2 : runs (rw_Write P c w b) f tr f1 (w1, (k, e)) -> Forall good tr -> failures tr n ->
    attempts P c good f1 w1 rest f2 w2 -> attempts P c good f w (mkAt b n k :: rest) f2 w2.
(** The same with the readings of the clock. *)
Inductive clocked (P : tparse) (c : roll_conf) (good : fsop * fsres -> Prop) : fs -> wst -> list attempt -> list str -> fs -> wst -> Prop :=
| ck_nil f w : clocked P c good f w [] [] f w
| ck_write f w b n k e tr f1 w1 rest R f2 w2 : runs (rw_Write P c w b) f tr f1 (w1, (k, e)) -> Forall good tr -> failures tr n ->
    clocked P c good f1 w1 rest R f2 w2 -> clocked P c good f w (mkAt b n k :: rest) (times tr ++ R) f2 w2.
(** What is left of a text: as much from its beginning as the write said. *)
Definition remains (a : attempt) : str := firstn (t_wrote a) (t_text a).
Definition whole (a : attempt) : Prop := t_wrote a = length (t_text a).
(** A text is whole unless something failed during its own write. *)
Definition own_faults_only (l : list attempt) : Prop := Forall (fun a => t_failed a = 0%nat -> whole a) l.
(** At most this operation fails. *)
Definition only (o : fsop) (x : fsop * fsres) : Prop := smooth x \/ x = (o, RErr).

(** A history of one log: writes, writes in which the process died, and new processes (C40), with the readings of the clock. *)
Inductive dated (P : tparse) (c : roll_conf) (good : fsop * fsres -> Prop) : fs -> wst -> list hop -> list str -> fs -> wst -> Prop :=
| dt_nil f w : dated P c good f w [] [] f w
| dt_write f w b tr f1 w1 k err hs R f2 w2 : runs (rw_Write P c w b) f tr f1 (w1, (k, err)) -> Forall good tr ->
    dated P c good f1 w1 hs R f2 w2 -> dated P c good f w (HWrite b k err :: hs) (times tr ++ R) f2 w2
| dt_crash f w b tr f1 hs R f2 w2 : partly (rw_Write P c w b) f tr f1 -> Forall good tr ->
    dated P c good f1 w_new hs R f2 w2 -> dated P c good f w (HCrash b :: hs) (times tr ++ R) f2 w2
| dt_restart f w hs R f2 w2 : dated P c good f w_new hs R f2 w2 -> dated P c good f w (HRestart :: hs) R f2 w2.

(** Model of several outputs, in one process or in several, that name the same log file. Every output has a
    rolling file writer of its own (internal/output_rolling.go:27 calls 200-218 [newRollingFileWriter] of
    internal/output_rollingwriter.go for each of them), so the writers share nothing but the directory. The writers' programs are those of
    RollModel.v; here they run on a file system in which an open file stays the same file when its name is
    given away or removed. *)
From Verif Require Import GoStr Strconv ConfModel RollModel.
From Coq Require Import Permutation Sorted.
Local Open Scope Z_scope.

(** The directory maps names to files, numbered as they were created; [i_data] has what is in them, and
    [i_open] the file a writer has open. All entries of the directory are regular files, and nothing fails
    but what cannot be done. *)
Record ifs := mkI { i_dir : str -> option nat; i_data : list str; i_open : nat -> option nat }.
Definition iput {A} (d : str -> A) (n : str) (x : A) : str -> A := fun m => if str_eqb m n then x else d m.
Definition hput {A} (h : nat -> A) (i : nat) (x : A) : nat -> A := fun j => if Nat.eqb j i then x else h j.
Definition data (F : ifs) (ino : nat) : str := nth ino (i_data F) [].
Fixpoint append_at {A} (l : list (list A)) (n : nat) (b : list A) : list (list A) :=
  match l, n with
  | [], _ => []
  | x :: l', O => (x ++ b) :: l'
  | x :: l', S n' => x :: append_at l' n' b
  end.

(** What an operation of writer [i] does: POSIX semantics of the calls named at [fsop] in RollModel.v. Write, Stat
    and Close go through the open file (internal/output_rollingwriter.go:529, 283, 458), Open appends
    (278). Archiving is left out. *)
Inductive does (i : nat) : fsop -> fsres -> ifs -> ifs -> Prop :=
| d_close F x : i_open F i = Some x -> does i OClose ROk F (mkI (i_dir F) (i_data F) (hput (i_open F) i None))
| d_closeE F : i_open F i = None -> does i OClose RErr F F
| d_read F cs : NoDup (map fst (concat cs)) -> (forall n k, In (n, k) (concat cs) <-> i_dir F n <> None /\ k = true) ->
    does i OReadDir (RDir (map RdSome cs ++ [RdEOF])) F F
| d_sort key l l' F : Permutation l l' -> Sorted (fun a b => key a <= key b) l' -> does i (OSort key l) (RNames l') F F
| d_rename a b x F : i_dir F a = Some x ->
    does i (ORename a b) ROk F (mkI (iput (iput (i_dir F) a None) b (Some x)) (i_data F) (i_open F))
| d_renameE a b F : i_dir F a = None -> does i (ORename a b) RErr F F
| d_chmod n p F : i_dir F n <> None -> does i (OChmod n p) ROk F F
| d_chmodE n p F : i_dir F n = None -> does i (OChmod n p) RErr F F
| d_remove n F : i_dir F n <> None -> does i (ORemove n) ROk F (mkI (iput (i_dir F) n None) (i_data F) (i_open F))
| d_removeE n F : i_dir F n = None -> does i (ORemove n) RErr F F
| d_mkdir p F : does i (OMkdir p) ROk F F
| d_open_new n p F : i_dir F n = None ->
    does i (OOpen n p) ROk F (mkI (iput (i_dir F) n (Some (length (i_data F)))) (i_data F ++ [[]]) (hput (i_open F) i (Some (length (i_data F)))))
| d_open_old n p x F : i_dir F n = Some x -> does i (OOpen n p) ROk F (mkI (i_dir F) (i_data F) (hput (i_open F) i (Some x)))
| d_stat n x F : i_open F i = Some x -> does i (OStat n) (RSize (Z.of_nat (length (data F x)))) F F
| d_statE n F : i_open F i = None -> does i (OStat n) RErr F F
| d_write n b x F : i_open F i = Some x ->
    does i (OWrite n b) (RWrote (length b) true) F (mkI (i_dir F) (append_at (i_data F) x b) (i_open F))
| d_writeE n b F : i_open F i = None -> does i (OWrite n b) (RWrote 0 false) F F
| d_now p s F : (p = [] -> s = []) -> does i (ONow p) (RText s) F F.

(** A program of writer [i] that nobody else comes in between. *)
Inductive goes_by (i : nat) {A} : prog A -> ifs -> ifs -> A -> Prop :=
| g_done a F : goes_by i (Done a) F F a
| g_op o k r F F1 F2 a : does i o r F F1 -> goes_by i (k r) F1 F2 a -> goes_by i (Op o k) F F2 a.

(** ** Whole calls, one at a time *)
(** [Write] (internal/output_rollingwriter.go:512-532), and the end of a writer (534-543 [Close]) in whose place
    a new one will write: the process was restarted, or the output was made again. *)
Inductive act := Put (b : str) | Renew.
Record shared := mkSh { s_fs : ifs; s_w : nat -> wst }.
Inductive turn (P : tparse) (cs : nat -> roll_conf) : shared -> nat -> act -> option (nat * bool) -> shared -> Prop :=
| t_put F ws i b F' w r : goes_by i (rw_Write P (cs i) (ws i) b) F F' (w, r) ->
    turn P cs (mkSh F ws) i (Put b) (Some r) (mkSh F' (hput ws i w))
| t_renew F ws i F' w e : goes_by i (rw_Close (ws i)) F F' (w, e) ->
    turn P cs (mkSh F ws) i Renew None (mkSh F' (hput ws i w_new)).
Inductive turns (P : tparse) (cs : nat -> roll_conf) : shared -> list (nat * act) -> list (option (nat * bool)) -> shared -> Prop :=
| ts_nil s : turns P cs s [] [] s
| ts_snoc s hs rs s1 i a r s2 : turns P cs s hs rs s1 -> turn P cs s1 i a r s2 ->
    turns P cs s (hs ++ [(i, a)]) (rs ++ [r]) s2.

(** ** Calls that overlap *)
(** Between any two operations of one writer the others may do theirs; the lock of a writer
    (internal/output_rollingwriter.go:513-514) keeps out only its own calls. *)
Record inter := mkIn { n_fs : ifs; n_w : nat -> wst; n_now : nat -> option (str * prog (wst * (nat * bool))) }.
Inductive istep (P : tparse) (cs : nat -> roll_conf) : inter -> list (nat * str * (nat * bool)) -> inter -> Prop :=
| n_call F ws nw i b : nw i = None -> istep P cs (mkIn F ws nw) [] (mkIn F ws (hput nw i (Some (b, rw_Write P (cs i) (ws i) b))))
| n_op F ws nw i b o k r F' : nw i = Some (b, Op o k) -> does i o r F F' ->
    istep P cs (mkIn F ws nw) [] (mkIn F' ws (hput nw i (Some (b, k r))))
| n_ret F ws nw i b w r : nw i = Some (b, Done (w, r)) ->
    istep P cs (mkIn F ws nw) [(i, b, r)] (mkIn F (hput ws i w) (hput nw i None)).
Inductive isteps (P : tparse) (cs : nat -> roll_conf) : inter -> list (nat * str * (nat * bool)) -> inter -> Prop :=
| ns_nil s : isteps P cs s [] s
| ns_snoc s l s1 l' s2 : isteps P cs s l s1 -> istep P cs s1 l' s2 -> isteps P cs s (l ++ l') s2.

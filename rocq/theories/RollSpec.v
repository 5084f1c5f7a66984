(** What rolling files are supposed to do, independently of how the writer is programmed. *)
From Verif Require Import GoStr Strconv ConfModel RollModel.
From Coq Require Import Permutation Sorted.
Local Open Scope Z_scope.

(** Decimal numerals with optional sign, in the range of int64, and their values. *)
Inductive dec_value : str -> Z -> Prop :=
| dv_one d : 0 <= d <= 9 -> dec_value [ascii_of_N (Z.to_N (48 + d))] d
| dv_more s v d : dec_value s v -> 0 <= d <= 9 -> dec_value (s ++ [ascii_of_N (Z.to_N (48 + d))]) (10 * v + d).
Inductive numeral : str -> Z -> Prop :=
| nu_plain s v : dec_value s v -> v < 2 ^ 63 -> numeral s v
| nu_plus s v : dec_value s v -> v < 2 ^ 63 -> numeral ("+"%char :: s) v
| nu_minus s v : dec_value s v -> v <= 2 ^ 63 -> numeral ("-"%char :: s) (- v).
(** [n] is the name of the backup with roll name [r]. *)
Definition backup_name (c : roll_conf) (r n : str) : Prop :=
  match rc_nameMode c with
  | Postfix => n = rc_file c ++ $"." ++ r
  | Prefix => n = r ++ $"." ++ rc_file c
  end.
(** [n] is the name of a backup, with this number (by size) or instant (by time). *)
Definition backup (P : tparse) (c : roll_conf) (n : str) (z : Z) : Prop :=
  exists r, backup_name c r n /\
    match rc_kind c with BySize _ => numeral r z | ByTime p => r <> [] /\ P p r = Some z end.

(** Operations that went well. Archiving is best effort (C45). *)
Definition smooth (x : fsop * fsres) : Prop :=
  match x with
  | (OArcMkdir _, _) | (OArcTmpDir _, _) | (OArcTmpFile, _) | (OArcOpen, _) | (OArcRead, _) | (OArcAdd _, _)
  | (OArcClose, _) | (OArcRename _, _) | (OArcDrop, _) => True
  | (_, RErr) => False
  | (_, RWrote _ ok) => ok = true
  | (_, RDir l) => ~ In RdErr l
  | _ => True
  end.

(** Histories of one log file: writes with their results (bytes written, error or not), writes
    during which the process dies, and restarts. After a death or a restart there is a new writer on
    the same directory. *)
Inductive hop := HWrite (b : str) (k : nat) (err : bool) | HCrash (b : str) | HRestart.
Inductive happens (P : tparse) (c : roll_conf) (good : fsop * fsres -> Prop) : fs -> wst -> list hop -> fs -> wst -> Prop :=
| h_nil f w : happens P c good f w [] f w
| h_write f w b tr f1 w1 k err hs f2 w2 : runs (rw_Write P c w b) f tr f1 (w1, (k, err)) -> Forall good tr ->
    happens P c good f1 w1 hs f2 w2 -> happens P c good f w (HWrite b k err :: hs) f2 w2
| h_crash f w b tr f1 hs f2 w2 : partly (rw_Write P c w b) f tr f1 -> Forall good tr ->
    happens P c good f1 w_new hs f2 w2 -> happens P c good f w (HCrash b :: hs) f2 w2
| h_restart f w hs f2 w2 : happens P c good f w_new hs f2 w2 -> happens P c good f w (HRestart :: hs) f2 w2.
Definition any (x : fsop * fsres) : Prop := True.

(** ** Rolling by size: what the directory should hold *)

(** Backups by number, oldest first, and the log file. *)
Record log := mkLog { l_backups : list (Z * str); l_current : option str }.
Definition bytes (x : option str) : str := match x with Some c => c | None => [] end.
(** The newest [m] (all if [m <= 0]) and the others. *)
Definition cut {A} (m : Z) (l : list A) : nat := if m <=? 0 then 0%nat else (length l - Z.to_nat m)%nat.
Definition newest {A} (m : Z) (l : list A) : list A := skipn (cut m l) l.
Definition oldest {A} (m : Z) (l : list A) : list A := firstn (cut m l) l.
(** The number of the next backup. *)
Definition next_number (bs : list (Z * str)) (n : Z) : Prop :=
  (bs = [] /\ n = 1) \/ exists bs' z x, bs = bs' ++ [(z, x)] /\ n = z + 1.

(** Without faults. The flag: this process has written to the log file already. *)
Inductive log_step (limit m : Z) : log * bool -> hop -> log * bool -> Prop :=
| ls_append bs cur (o : bool) b : (o = true -> Z.of_nat (length (bytes cur)) < limit) ->
    log_step limit m (mkLog bs cur, o) (HWrite b (length b) false) (mkLog bs (Some (bytes cur ++ b)), true)
| ls_roll bs cur b n : limit <= Z.of_nat (length cur) -> next_number bs n ->
    log_step limit m (mkLog bs (Some cur), true) (HWrite b (length b) false)
      (mkLog (newest m (bs ++ [(n, cur)])) (Some b), true)
| ls_restart l o : log_step limit m (l, o) HRestart (l, false).
(** With any faults and crashes: [b] was written as far as [k] says. *)
Inductive put (m : Z) (b : str) (k : nat) : log -> log -> Prop :=
| pt_none l : k = 0%nat -> put m b k l l
| pt_append bs cur : (k <= length b)%nat -> put m b k (mkLog bs cur) (mkLog bs (Some (bytes cur ++ firstn k b)))
| pt_roll bs cur n keep new : next_number bs n -> (k <= length b)%nat ->
    (new = None /\ k = 0%nat \/ new = Some (firstn k b)) ->
    put m b k (mkLog bs (Some cur))
      (mkLog (filter keep (oldest m (bs ++ [(n, cur)])) ++ newest m (bs ++ [(n, cur)])) new).
Inductive fault_step (m : Z) : log -> hop -> log -> Prop :=
| ft_write b k err l l' : put m b k l l' -> (err = false -> k = length b) -> fault_step m l (HWrite b k err) l'
| ft_crash b k l l' : put m b k l l' -> fault_step m l (HCrash b) l'
| ft_restart l : fault_step m l HRestart l.
Inductive steps {S} (step : S -> hop -> S -> Prop) : S -> list hop -> S -> Prop :=
| st_nil s : steps step s [] s
| st_cons s h s1 hs s2 : step s h s1 -> steps step s1 hs s2 -> steps step s (h :: hs) s2.

(** Numbers strictly increasing, in range. *)
Definition ordered (bs : list (Z * str)) : Prop :=
  StronglySorted (fun a b => fst a < fst b) bs /\ Forall (fun p => - 2 ^ 63 <= fst p < 2 ^ 63) bs.
(** The directory holds exactly this log (and anything else under other names). *)
Definition holds (c : roll_conf) (d : dir) (l : log) : Prop :=
  ordered (l_backups l) /\
  d (rc_file c) = match l_current l with Some x => Some (Reg x) | None => None end /\
  (forall z x, In (z, x) (l_backups l) -> exists n, backup_name c (Itoa z) n /\ d n = Some (Reg x)) /\
  (forall r n z, backup_name c r n -> numeral r z -> d n <> None -> r = Itoa z /\ exists x, In (z, x) (l_backups l)).
(** Without this the log file itself could be taken for the archive's temporary directory. *)
Definition tmp_ok (c : roll_conf) : Prop := rc_archive c = ArchiveNone \/ rc_file c <> $".log4g_tmp".
(** On any directory: no backup has the greatest number there is. *)
Definition roomy (P : tparse) (c : roll_conf) (d : dir) : Prop :=
  forall n z y, backup P c n z -> d n = Some (Reg y) -> z < 2 ^ 63 - 1.
(** There are numbers left for this many backups. *)
Definition room (bs : list (Z * str)) (n : nat) : Prop := Forall (fun p => fst p + Z.of_nat n < 2 ^ 63) bs /\ Z.of_nat n < 2 ^ 63.
(** All that is on disk, oldest first. *)
Definition on_disk (l : log) : str := concat (map snd (l_backups l)) ++ bytes (l_current l).

(** Chunks: [fs] are the files closed so far, [cur] the current one, as lists of chunks. A file is
    closed at the first write after it has reached the limit. *)
Definition size (l : list str) : Z := Z.of_nat (length (concat l)).
Inductive segments (limit : Z) : list str -> list (list str) -> list str -> Prop :=
| sg_nil : segments limit [] [] []
| sg_more cs fs cur b : segments limit cs fs cur -> size cur < limit -> segments limit (cs ++ [b]) fs (cur ++ [b])
| sg_roll cs fs cur b : segments limit cs fs cur -> limit <= size cur -> segments limit (cs ++ [b]) (fs ++ [cur]) [b].
Definition chunk_of (h : hop) : list str := match h with HWrite b _ _ => [b] | _ => [] end.
(** Files numbered from 1. *)
Definition numbered (files : list (list str)) : list (Z * str) :=
  combine (map Z.of_nat (seq 1 (length files))) (map (@concat _) files).
(** What is put on disk by a history when nothing is removed: of a finished write as much as it said, of
    an unfinished one any part from its beginning. *)
Inductive parts : list hop -> list str -> Prop :=
| pa_nil : parts [] []
| pa_write b k err hs ps : (k <= length b)%nat -> (err = false -> k = length b) -> parts hs ps -> parts (HWrite b k err :: hs) (firstn k b :: ps)
| pa_crash b k hs ps : (k <= length b)%nat -> parts hs ps -> parts (HCrash b :: hs) (firstn k b :: ps)
| pa_restart hs ps : parts hs ps -> parts (HRestart :: hs) ([] :: ps).

(** Faults in writing, removing or chmod only. *)
Definition harmless (x : fsop * fsres) : Prop :=
  match fst x with OWrite _ _ | ORemove _ | OChmod _ _ => True | _ => smooth x end.
(** The clock's readings are names that isFileRollNameValid accepts. *)
Definition clock_parses (P : tparse) (c : roll_conf) (x : fsop * fsres) : Prop :=
  forall p q s, rc_kind c = ByTime p -> x = (ONow q, RText s) -> s = [] \/ P p s <> None.

(** ** Rolling by time *)

(** The readings of the clock, in order. *)
Fixpoint times (tr : list (fsop * fsres)) : list str :=
  match tr with
  | [] => []
  | (ONow _, RText s) :: tr' => s :: times tr'
  | _ :: tr' => times tr'
  end.
(** Writes of one process with the readings each of them made. *)
Inductive timed (P : tparse) (c : roll_conf) (good : fsop * fsres -> Prop) : fs -> wst -> list (str * list str) -> fs -> wst -> Prop :=
| ti_nil f w : timed P c good f w [] f w
| ti_write f w b tr f1 w1 k err hs f2 w2 : runs (rw_Write P c w b) f tr f1 (w1, (k, err)) -> Forall good tr ->
    timed P c good f1 w1 hs f2 w2 -> timed P c good f w ((b, times tr) :: hs) f2 w2.
(** A clock whose readings never come back. *)
Definition never_returns (l : list str) : Prop :=
  forall l1 a l2 l3, l = l1 ++ a :: l2 ++ a :: l3 -> Forall (eq a) l2.
(** The period of a write: the last reading it made. *)
Definition period (h : str * list str) : str := last (snd h) [].
(** What was written in a period. *)
Definition written_in (s : str) (hs : list (str * list str)) : str :=
  concat (map fst (filter (fun h => str_eqb (period h) s) hs)).

(** ** Archiving *)
(** Nothing fails, archiving included. *)
Definition unfailing (x : fsop * fsres) : Prop := smooth x /\ snd x <> RErr.
(** What is in the archive. *)
Definition archived (f : fs) : list (str * str) := match f_arch f with AFile es => es | _ => [] end.

(** The temporary archive as the operations make it: its entries so far, and whether it was closed without an error
    since; nothing after an operation on it that failed. *)
Definition temp_next (a : option (bool * list (str * str))) (x : fsop * fsres) : option (bool * list (str * str)) :=
  match x, a with
  | (OArcOpen, RAbsent), _ => Some (false, [])
  | (OArcRead, REntries old), _ => Some (false, old)
  | (OArcAdd n, RBytes b), Some (false, es) => Some (false, es ++ [(n, b)])
  | (OArcClose, ROk), Some (false, es) => Some (true, es)
  | _, _ => None
  end.
(** It is moved into place only when all of it was written and it was closed without an error. *)
Fixpoint sealed (a : option (bool * list (str * str))) (tr : list (fsop * fsres)) : Prop :=
  match tr with
  | [] => True
  | x :: tr' => (forall es, fst x = OArcRename es -> a = Some (true, es)) /\ sealed (temp_next a x) tr'
  end.

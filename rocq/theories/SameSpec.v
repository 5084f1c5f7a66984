(** What writers that share a log file do to it, independently of how they are programmed. *)
From Verif Require Import GoStr Strconv ConfModel RollModel RollSpec SameModel.
Local Open Scope Z_scope.

(** All log files there ever were, oldest first, the last one being the log file itself: who wrote what into
    them. [g_gone]: so many of them, from the oldest, have been removed. [g_at]: the file a writer writes to;
    [g_size]: how large it takes that file to be. *)
Record slog := mkSlog { g_files : list (list (nat * str)); g_gone : nat; g_at : nat -> option nat; g_size : nat -> Z }.
Definition text_of (l : list (nat * str)) : str := concat (map snd l).
Definition size_of (l : list (nat * str)) : Z := Z.of_nat (length (text_of l)).
(** The file a writer opens: the newest, or the first if there is none. *)
Definition opened (fs : list (list (nat * str))) : list (list (nat * str)) := match fs with [] => [[]] | _ => fs end.
Definition at_end (fs : list (list (nat * str))) : nat := (length fs - 1)%nat.

Inductive slog_step (limit m : nat -> Z) : slog -> nat -> act -> slog -> Prop :=
(* A new writer goes to the newest file. *)
| sl_open fs gone at_ sz i b fs1 : at_ i = None -> fs1 = opened fs ->
    slog_step limit m (mkSlog fs gone at_ sz) i (Put b)
      (mkSlog (append_at fs1 (at_end fs1) [(i, b)]) gone (hput at_ i (Some (at_end fs1)))
        (hput sz i (size_of (last fs1 []) + Z.of_nat (length b))))
(* It stays with its file, whatever its name is by now, until it takes it to have reached the limit. *)
| sl_stay fs gone at_ sz i b j : at_ i = Some j -> sz i < limit i ->
    slog_step limit m (mkSlog fs gone at_ sz) i (Put b)
      (mkSlog (append_at fs j [(i, b)]) gone at_ (hput sz i (sz i + Z.of_nat (length b))))
(* Then the newest file, not this one, becomes a backup, and a new one is begun. Of the backups the newest [m i] stay. *)
| sl_roll fs gone at_ sz i b j : at_ i = Some j -> limit i <= sz i ->
    slog_step limit m (mkSlog fs gone at_ sz) i (Put b)
      (mkSlog (fs ++ [[(i, b)]]) (if m i <=? 0 then gone else Nat.max gone (length fs - Z.to_nat (m i)))
        (hput at_ i (Some (length fs))) (hput sz i (Z.of_nat (length b))))
| sl_renew fs gone at_ sz i :
    slog_step limit m (mkSlog fs gone at_ sz) i Renew (mkSlog fs gone (hput at_ i None) sz).
Inductive slog_steps (limit m : nat -> Z) : slog -> list (nat * act) -> slog -> Prop :=
| sls_nil g : slog_steps limit m g [] g
| sls_snoc g hs g1 i a g2 : slog_steps limit m g hs g1 -> slog_step limit m g1 i a g2 -> slog_steps limit m g (hs ++ [(i, a)]) g2.
Definition slog_none : slog := mkSlog [] 0 (fun _ => None) (fun _ => 0).

(** What is under a name. *)
Definition content (F : ifs) (n : str) : option str := option_map (data F) (i_dir F n).
(** The directory has these files: the newest under the log file's name, the others under their numbers (the first
    is number 1) unless they are gone, and no other backups. *)
Definition shows (c : roll_conf) (F : ifs) (g : slog) : Prop :=
  content F (rc_file c) = (match g_files g with [] => None | _ => Some (text_of (last (g_files g) [])) end) /\
  (forall j n, backup_name c (Itoa (Z.of_nat j + 1)) n -> (g_gone g <= j)%nat -> (S j < length (g_files g))%nat ->
     content F n = Some (text_of (nth j (g_files g) []))) /\
  (forall r n z, backup_name c r n -> numeral r z -> content F n <> None ->
     exists j, r = Itoa (Z.of_nat j + 1) /\ (g_gone g <= j)%nat /\ (S j < length (g_files g))%nat).
(** A name that neither is the log file nor has the form of a backup. *)
Definition foreign (c : roll_conf) (n : str) : Prop := n <> rc_file c /\ forall r z, numeral r z -> ~ backup_name c r n.

(** A directory without log files, and nobody writing yet. *)
Definition before (c : roll_conf) (s : shared) : Prop :=
  (forall n x, i_dir (s_fs s) n = Some x -> (x < length (i_data (s_fs s)))%nat) /\
  (forall n, i_dir (s_fs s) n <> None -> foreign c n) /\
  (forall i, i_open (s_fs s) i = None /\ s_w s i = w_new).
(** Outputs with the same file and naming, rolling by size without an archive. Limits and numbers of backups may
    differ. *)
Definition alike (c : roll_conf) (limit m : nat -> Z) (cs : nat -> roll_conf) : Prop :=
  forall i, rc_file (cs i) = rc_file c /\ rc_nameMode (cs i) = rc_nameMode c /\ rc_kind (cs i) = BySize (limit i) /\
    0 < limit i /\ rc_maxRolls (cs i) = m i /\ rc_archive (cs i) = ArchiveNone.

(** What was written: all of it, by one writer. *)
Fixpoint puts (hs : list (nat * act)) : list (nat * str) :=
  match hs with [] => [] | (i, Put b) :: hs' => (i, b) :: puts hs' | (_, Renew) :: hs' => puts hs' end.
Definition of_writer (i : nat) (l : list (nat * str)) : list (nat * str) := filter (fun x => Nat.eqb (fst x) i) l.
(** [l] dealt out to files, each keeping the order. *)
Inductive dealt {A} : list A -> list (list A) -> Prop :=
| de_nil : dealt [] []
| de_new l fs : dealt l fs -> dealt l (fs ++ [[]])
| de_put l fs j x : dealt l fs -> (j < length fs)%nat -> dealt (l ++ [x]) (append_at fs j [x]).

(** Calls that have returned, and whether they wrote all. *)
Definition returned (l : list (nat * str * (nat * bool))) : list (nat * str) := map fst l.
(** What a log file has, if there is one. *)
Definition made (L : option (list (nat * str))) : list (nat * str) := match L with Some l => l | None => [] end.
(** All bytes in all files. *)
Definition total (F : ifs) : Z := Z.of_nat (length (concat (i_data F))).
(** Nobody is in a call. *)
Definition idle (s : inter) : Prop := forall i, n_now s i = None.
(** The sum of [g 0] to [g (n - 1)]. *)
Fixpoint sum_to (n : nat) (g : nat -> Z) : Z := match n with O => 0 | S k => sum_to k g + g k end.

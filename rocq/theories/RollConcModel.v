(** Model of concurrent writes to one rolling file writer: goroutines interleave at every access to a
    field of the writer, every file-system operation and every lock operation. *)
From Verif Require Import GoStr Strconv ConfModel RollModel.
Local Open Scope Z_scope.

(** Programs with shared fields and the mutex rollLock. *)
Inductive mprog (A : Type) :=
| MDone (a : A)
| MLock (k : mprog A)
| MUnlock (k : mprog A)
| MGet (k : wst -> mprog A)                 (* read a field *)
| MUpd (g : wst -> wst) (k : mprog A)       (* assign a field *)
| MOp (o : fsop) (k : fsres -> mprog A).
Arguments MDone {A}. Arguments MLock {A}. Arguments MUnlock {A}. Arguments MGet {A}. Arguments MUpd {A}. Arguments MOp {A}.
Fixpoint mbind {A B} (p : mprog A) (f : A -> mprog B) : mprog B :=
  match p with
  | MDone a => f a
  | MLock k => MLock (mbind k f)
  | MUnlock k => MUnlock (mbind k f)
  | MGet k => MGet (fun w => mbind (k w) f)
  | MUpd g k => MUpd g (mbind k f)
  | MOp o k => MOp o (fun r => mbind (k r) f)
  end.
Notation "x <-- p ;; q" := (mbind p (fun x => q)) (at level 61, p at next level, right associativity).
Definition get {A} (field : wst -> A) : mprog A := MGet (fun w => MDone (field w)).
Definition upd (g : wst -> wst) : mprog unit := MUpd g (MDone tt).
Definition mop (o : fsop) : mprog fsres := MOp o MDone.
(** Parts of the code that access no mutable field. *)
Fixpoint lift {A} (p : prog A) : mprog A :=
  match p with Done a => MDone a | Op o k => MOp o (fun r => lift (k r)) end.

(** internal/output_rollingwriter.go:567-569 and 634-644 [needsToRoll]. *)
Definition c_needsToRoll (c : roll_conf) : mprog bool :=
  match rc_kind c with
  | BySize m => z <-- get w_size ;; MDone (m <=? z)
  | ByTime p =>
    s <-- lift (now p) ;;
    t <-- get w_period ;;
    match t with
    | [] => _ <-- upd (fun w => set_period w s) ;; MDone false
    | _ => t <-- get w_period ;; MDone (negb (str_eqb s t))
    end
  end.
(** internal/output_rollingwriter.go:601-608 and 679-683 [getNewHistoryRollFileName]. *)
Definition c_newName (c : roll_conf) (history : list str) : mprog str :=
  match rc_kind c with
  | BySize _ => MDone (Itoa (wrap64 (match history with [] => 0 | _ => atoi (getFileRollName c (last history [])) end + 1)))
  | ByTime p =>
    t <-- get w_period ;;
    s <-- lift (now p) ;;
    _ <-- upd (fun w => set_period w s) ;;
    MDone t
  end.
(** internal/output_rollingwriter.go:267-292 [createFileAndFolderIfNeeded]. *)
Definition c_createFile (c : roll_conf) : mprog bool :=
  r <-- mop (OMkdir (rc_dirPerm c)) ;;
  match r with
  | ROk =>
    n <-- lift (getCurrentFileName c) ;;
    _ <-- upd (fun w => set_name w n) ;;
    n <-- get w_name ;;
    r <-- mop (OOpen n (rc_filePerm c)) ;;
    match r with
    | ROk =>
      _ <-- upd (fun w => set_file w (Some (n, true))) ;;
      r <-- mop (OStat n) ;;
      match r with
      | RSize z => _ <-- upd (fun w => set_size w z) ;; MDone false
      | _ => _ <-- mop OClose ;; _ <-- upd (fun w => set_file w None) ;; MDone true
      end
    | _ => _ <-- upd (fun w => set_file w None) ;; MDone true
    end
  | _ => MDone true
  end.
(** internal/output_rollingwriter.go:456-510 [roll]. *)
Definition c_roll (P : tparse) (c : roll_conf) : mprog bool :=
  f <-- get w_file ;;
  match f with
  | Some (n, true) =>
    r <-- mop OClose ;;
    match r with
    | ROk =>
      _ <-- upd (fun w => set_file w None) ;;
      h <-- lift (getSortedLogHistory P c) ;;
      match h with
      | None => MDone true
      | Some history =>
        rname <-- c_newName c history ;;
        n <-- get w_name ;;
        let dest := createFullFileName c (rc_file c) rname in
        r <-- mop (ORename n dest) ;;
        match r with
        | ROk =>
          _ <-- mop (OChmod dest (rc_backPerm c)) ;;
          let history := history ++ [dest] in
          _ <-- lift (if rc_maxRolls c <? Z.of_nat (length history) then deleteOldRolls c history else Done tt) ;;
          MDone false
        | _ => MDone true
        end
      end
    | _ => _ <-- upd (fun w => set_file w (Some (n, false))) ;; MDone true
    end
  | _ => MDone true
  end.
(** internal/output_rollingwriter.go:512-532 [Write] between Lock and Unlock. *)
Definition c_body (P : tparse) (c : roll_conf) (b : str) : mprog (nat * bool) :=
  need <-- c_needsToRoll c ;;
  err <-- (if need : bool then c_roll P c else MDone false) ;;
  if err : bool then MDone (0%nat, true)
  else
    f <-- get w_file ;;
    err <-- (match f with None => c_createFile c | Some _ => MDone false end) ;;
    if err : bool then MDone (0%nat, true)
    else
      f <-- get w_file ;;
      match f with
      | Some (n, true) =>
        r <-- mop (OWrite n b) ;;
        match r with
        | RWrote k ok =>
          z <-- get w_size ;;
          _ <-- upd (fun w => set_size w (z + Z.of_nat k)) ;;
          MDone (k, negb ok)
        | _ => MDone (0%nat, true)
        end
      | _ => MDone (0%nat, true)
      end.
(** internal/output_rollingwriter.go:512-532 [Write]; the deferred Unlock comes last. *)
Definition c_Write (P : tparse) (c : roll_conf) (b : str) : mprog (nat * bool) :=
  MLock (r <-- c_body P c b ;; MUnlock (MDone r)).

(** A goroutine: its finished writes with their results, the write it is in, the writes to come. *)
Record thread := mkT { t_done : list (str * (nat * bool)); t_now : option (str * mprog (nat * bool)); t_todo : list str }.
Record cstate := mkC { c_lock : option nat; c_w : wst; c_fs : fs; c_threads : nat -> thread }.
Definition set_thread (s : cstate) (i : nat) (t : thread) : nat -> thread := fun j => if Nat.eqb j i then t else c_threads s j.
Definition at_ (s : cstate) (i : nat) (b : str) (p : mprog (nat * bool)) : Prop := t_now (c_threads s i) = Some (b, p).
Definition goto (s : cstate) (i : nat) (b : str) (p : mprog (nat * bool)) : nat -> thread :=
  set_thread s i (mkT (t_done (c_threads s i)) (Some (b, p)) (t_todo (c_threads s i))).
(** One step of goroutine [i]; the label has the file-system operation if there is one. A sync.Mutex can be
    unlocked by anybody. *)
Inductive cstep (P : tparse) (c : roll_conf) : cstate -> list (nat * (fsop * fsres)) -> cstate -> Prop :=
| c_call s i d b bs : c_threads s i = mkT d None (b :: bs) ->
    cstep P c s [] (mkC (c_lock s) (c_w s) (c_fs s) (set_thread s i (mkT d (Some (b, c_Write P c b)) bs)))
| c_acquire s i b k : at_ s i b (MLock k) -> c_lock s = None -> cstep P c s [] (mkC (Some i) (c_w s) (c_fs s) (goto s i b k))
| c_release s i b k : at_ s i b (MUnlock k) -> cstep P c s [] (mkC None (c_w s) (c_fs s) (goto s i b k))
| c_get s i b k : at_ s i b (MGet k) -> cstep P c s [] (mkC (c_lock s) (c_w s) (c_fs s) (goto s i b (k (c_w s))))
| c_upd s i b g k : at_ s i b (MUpd g k) -> cstep P c s [] (mkC (c_lock s) (g (c_w s)) (c_fs s) (goto s i b k))
| c_op s i b o k r f : at_ s i b (MOp o k) -> eff o r (c_fs s) f -> cstep P c s [(i, (o, r))] (mkC (c_lock s) (c_w s) f (goto s i b (k r)))
| c_return s i b r : at_ s i b (MDone r) ->
    cstep P c s [] (mkC (c_lock s) (c_w s) (c_fs s) (set_thread s i (mkT (t_done (c_threads s i) ++ [(b, r)]) None (t_todo (c_threads s i))))).
Inductive csteps (P : tparse) (c : roll_conf) : cstate -> list (nat * (fsop * fsres)) -> cstate -> Prop :=
| cs_nil s : csteps P c s [] s
| cs_more s tr s1 tr1 s2 : csteps P c s tr s1 -> cstep P c s1 tr1 s2 -> csteps P c s (tr ++ tr1) s2.
(** Goroutines about to write. *)
Definition c_start (f : fs) (w : wst) (todo : nat -> list str) : cstate := mkC None w f (fun i => mkT [] None (todo i)).

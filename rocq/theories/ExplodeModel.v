(** Model of the rolling writer that puts every old backup into an archive of its own: the branch of
    internal/output_rollingwriter.go:410-444 [deleteOldRolls] for which archiveExploded is set. No
    configuration sets it (ConfModel.v); only code inside the package, such as the tests, can. *)
From Verif Require Import GoStr Strconv LevelModel ConfModel RollModel RollSpec.
Local Open Scope Z_scope.

(** ** The archive directory
    [archivePath] is a directory here. The model is of one other than the log directory. *)
Inductive aent := Archive (name content : str)   (* an archive with this one entry *)
                | AnyFile | AnyDir.              (* anything else *)
Record xfs := mkX { x_fs : fs; x_arcs : str -> option aent }.

Inductive xop :=
| XFs (o : fsop)                    (* an operation on the log directory *)
| XMkdir (perm : Z)                 (* os.MkdirAll(archivePath) *)
| XOpen (n : str)                   (* os.Open of a backup *)
| XTmpDir (perm : Z) | XTmpFile     (* tempArchiveFile *)
| XAdd (n : str)                    (* Stat, NextFile, io.Copy *)
| XClose                            (* closing the archive writer and the temporary file *)
| XRename (to n b : str)            (* the temporary file, which has the entry n with content b, over archivePath/to *)
| XDrop.                            (* os.Remove of the temporary file *)
Inductive xeff : xop -> fsres -> xfs -> xfs -> Prop :=
| xe_fs o r f f' a : eff o r f f' -> xeff (XFs o) r (mkX f a) (mkX f' a)
| xe_mkdir p x : xeff (XMkdir p) ROk x x
| xe_mkdirE p x : xeff (XMkdir p) RErr x x
| xe_open n b x : f_dir (x_fs x) n = Some (Reg b) -> xeff (XOpen n) ROk x x
| xe_openE n x : xeff (XOpen n) RErr x x
| xe_tmpdir p x : xeff (XTmpDir p) ROk x x
| xe_tmpdirE p x : xeff (XTmpDir p) RErr x x
| xe_tmpfile x : xeff XTmpFile ROk x x
| xe_tmpfileE x : xeff XTmpFile RErr x x
| xe_add n b x : f_dir (x_fs x) n = Some (Reg b) -> xeff (XAdd n) (RBytes b) x x
| xe_addE n x : xeff (XAdd n) RErr x x
| xe_close x : xeff XClose ROk x x
| xe_closeE x : xeff XClose RErr x x
| xe_rename to n b f a : a to <> Some AnyDir ->
    xeff (XRename to n b) ROk (mkX f a) (mkX f (fun m => if str_eqb m to then Some (Archive n b) else a m))
| xe_renameE to n b x : xeff (XRename to n b) RErr x x
| xe_drop x : xeff XDrop ROk x x
| xe_dropE x : xeff XDrop RErr x x.

(** ** Programs *)
Inductive xprog (A : Type) :=
| XDone (a : A)
| XOp (o : xop) (k : fsres -> xprog A).
Arguments XDone {A}. Arguments XOp {A}.
Fixpoint xbind {A B} (p : xprog A) (f : A -> xprog B) : xprog B :=
  match p with XDone a => f a | XOp o k => XOp o (fun r => xbind (k r) f) end.
Notation "x <~ p ;; q" := (xbind p (fun x => q)) (at level 61, p at next level, right associativity).
Notation "' x <~ p ;; q" := (xbind p (fun x => q)) (at level 61, x pattern, p at next level, right associativity).
Definition xact (o : xop) : xprog fsres := XOp o XDone.
Fixpoint lift {A} (p : prog A) : xprog A :=
  match p with Done a => XDone a | Op o k => XOp (XFs o) (fun r => lift (k r)) end.

(** internal/output_rollingwriter.go:90-146, the extensions, and 148-153 [rollingArchiveTypeName]. *)
Definition extension (t : archive_type) : str := match t with ArchiveNone => [] | ArchiveZip => $".zip" | ArchiveGzip => $".gz" end.
Definition handleMultipleEntries (t : archive_type) : bool := match t with ArchiveZip => true | _ => false end.
Definition rollingArchiveTypeName (t : archive_type) (name : str) (exploded : bool) : str :=
  if negb (handleMultipleEntries t) && negb exploded then name ++ $".tar" ++ extension t else name ++ extension t.

(** internal/output_rollingwriter.go:294-338 [archiveExplodedLogs], with 545-551 [tempArchiveFile]. Its
    error is ignored by the caller. As in RollModel.v, the entry of the temporary archive is passed
    along instead of being stored in it, and closing is one operation. *)
Definition archiveExplodedLogs (c : roll_conf) (n : str) : xprog unit :=
  r <~ xact (XOpen n) ;;
  match r with
  | ROk =>
    r <~ xact (XTmpDir (rc_dirPerm c)) ;;
    match r with
    | ROk =>
      r <~ xact XTmpFile ;;
      match r with
      | ROk =>
        e <~ xact (XAdd n) ;;
        r <~ xact XClose ;;
        match e, r with
        | RBytes b, ROk => _ <~ xact (XRename (rollingArchiveTypeName (rc_archive c) n true) n b) ;; XDone tt
        | _, _ => _ <~ xact XDrop ;; XDone tt
        end
      | _ => XDone tt
      end
    | _ => XDone tt
    end
  | _ => XDone tt
  end.
Fixpoint archiveEach (c : roll_conf) (l : list str) : xprog unit :=
  match l with [] => XDone tt | n :: rest => _ <~ archiveExplodedLogs c n ;; archiveEach c rest end.
(** internal/output_rollingwriter.go:410-444 [deleteOldRolls], archiveExploded set. *)
Definition deleteOldRollsX (c : roll_conf) (history : list str) : xprog unit :=
  if rc_maxRolls c <=? 0 then XDone tt
  else
    let n := Z.of_nat (length history) - rc_maxRolls c in
    if n <=? 0 then XDone tt
    else
      let old := firstn (Z.to_nat n) history in
      _ <~ match rc_archive c with
           | ArchiveNone => XDone tt
           | _ => _ <~ xact (XMkdir (rc_dirPerm c)) ;; archiveEach c old
           end ;;
      lift (removeAll old).
(** internal/output_rollingwriter.go:456-510 [roll] and 512-532 [Write], as in RollModel.v. *)
Definition rollX (P : tparse) (c : roll_conf) (w : wst) : xprog (wst * bool) :=
  match w_file w with
  | Some (n, true) =>
    r <~ xact (XFs OClose) ;;
    match r with
    | ROk =>
      let w := set_file w None in
      h <~ lift (getSortedLogHistory P c) ;;
      match h with
      | None => XDone (w, true)
      | Some history =>
        '(w, rname) <~ lift (getNewHistoryRollFileName c w history) ;;
        let dest := createFullFileName c (rc_file c) rname in
        r <~ xact (XFs (ORename (w_name w) dest)) ;;
        match r with
        | ROk =>
          _ <~ xact (XFs (OChmod dest (rc_backPerm c))) ;;
          let history := history ++ [dest] in
          _ <~ (if rc_maxRolls c <? Z.of_nat (length history) then deleteOldRollsX c history else XDone tt) ;;
          XDone (w, false)
        | _ => XDone (w, true)
        end
      end
    | _ => XDone (set_file w (Some (n, false)), true)
    end
  | _ => XDone (w, true)
  end.
Definition rw_WriteX (P : tparse) (c : roll_conf) (w : wst) (b : str) : xprog (wst * (nat * bool)) :=
  '(w, need) <~ lift (needsToRoll c w) ;;
  '(w, err) <~ (if need then rollX P c w else XDone (w, false)) ;;
  if err : bool then XDone (w, (0%nat, true))
  else
    '(w, err) <~ (match w_file w with None => lift (createFile c w) | Some _ => XDone (w, false) end) ;;
    if err : bool then XDone (w, (0%nat, true))
    else match w_file w with
         | Some (n, true) =>
           r <~ xact (XFs (OWrite n b)) ;;
           match r with
           | RWrote k ok => XDone (set_size w (w_size w + Z.of_nat k), (k, negb ok))
           | _ => XDone (w, (0%nat, true))
           end
         | _ => XDone (w, (0%nat, true))
         end.

(** ** Runs, complete and stopped anywhere *)
Inductive xruns {A} : xprog A -> xfs -> list (xop * fsres) -> xfs -> A -> Prop :=
| xr_done a x : xruns (XDone a) x [] x a
| xr_op o k r x x1 tr x2 a : xeff o r x x1 -> xruns (k r) x1 tr x2 a -> xruns (XOp o k) x ((o, r) :: tr) x2 a.
Inductive xpartly {A} : xprog A -> xfs -> list (xop * fsres) -> xfs -> Prop :=
| xp_here p x : xpartly p x [] x
| xp_op o k r x x1 tr x2 : xeff o r x x1 -> xpartly (k r) x1 tr x2 -> xpartly (XOp o k) x ((o, r) :: tr) x2.
(** Histories as in RollSpec.v: writes, a process killed in one, restarts. *)
Inductive xhappens (P : tparse) (c : roll_conf) (good : xop * fsres -> Prop) : xfs -> wst -> list hop -> xfs -> wst -> Prop :=
| xh_nil x w : xhappens P c good x w [] x w
| xh_write x w b tr x1 w1 k err hs x2 w2 : xruns (rw_WriteX P c w b) x tr x1 (w1, (k, err)) -> Forall good tr ->
    xhappens P c good x1 w1 hs x2 w2 -> xhappens P c good x w (HWrite b k err :: hs) x2 w2
| xh_crash x w b tr x1 hs x2 w2 : xpartly (rw_WriteX P c w b) x tr x1 -> Forall good tr ->
    xhappens P c good x1 w_new hs x2 w2 -> xhappens P c good x w (HCrash b :: hs) x2 w2
| xh_restart x w hs x2 w2 : xhappens P c good x w_new hs x2 w2 -> xhappens P c good x w (HRestart :: hs) x2 w2.

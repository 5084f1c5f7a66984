(** Model of the rolling file writer (internal/output_rollingwriter.go) and of the directory scan
    (internal/output_fsutil.go). The code is a program over file-system operations; what an
    operation does and answers is given by a relation that allows every fault. *)
From Verif Require Import GoStr Strconv LevelModel ConfModel.
From Coq Require Import Permutation Sorted.
Local Open Scope Z_scope.

(** ** File system

    One directory, as a map from names; no other process changes it. [Special] is a symbolic link,
    device, socket or pipe: what is written through it does not end up in the directory. *)
Inductive entry := Reg (content : str) | Dir | Special.
Definition dir := str -> option entry.
Definition dput (d : dir) (n : str) (x : option entry) : dir := fun m => if str_eqb m n then x else d m.
(** The archive file: the path is a directory; or there is no file; or a file with these entries. *)
Inductive arch := ADir | AAbsent | AFile (entries : list (str * str)).
Record fs := mkFs { f_dir : dir; f_arch : arch }.

(** Answers of dfi.Readdir(64): some entries (name, is regular), end of directory, an error. *)
Inductive readdir := RdSome (l : list (str * bool)) | RdEOF | RdErr.

Inductive fsop :=
| OClose                                  (* currentFile.Close() on an open file *)
| OReadDir                                (* os.Open, Abs and the Readdir calls of getDirFilePaths *)
| OSort (key : str -> Z) (l : list str)   (* sort.Sort *)
| ORename (from to : str)
| OChmod (n : str) (perm : Z)
| ORemove (n : str)
| OMkdir (perm : Z)                       (* os.MkdirAll(currentDirPath) *)
| OOpen (n : str) (perm : Z)              (* os.OpenFile, O_WRONLY|O_APPEND|O_CREATE *)
| OStat (n : str)
| OWrite (n : str) (b : str)
| ONow (pattern : str)                    (* time.Now().Format(pattern) *)
| OArcMkdir (perm : Z)                    (* os.MkdirAll(filepath.Dir(archivePath)) *)
| OArcTmpDir (perm : Z) | OArcTmpFile     (* tempArchiveFile *)
| OArcOpen                                (* os.Open(archivePath) *)
| OArcRead                                (* unarchiver and archive.Copy *)
| OArcAdd (n : str)                       (* a roll opened, stat, NextFile, io.Copy *)
| OArcClose                               (* closing the archive writer and the temporary file *)
| OArcRename (entries : list (str * str)) (* the temporary file over archivePath *)
| OArcDrop.                               (* os.Remove of the temporary file *)
Inductive fsres :=
| RErr | ROk | RAbsent
| RDir (l : list readdir)
| RNames (l : list str)
| RSize (z : Z)
| RWrote (n : nat) (ok : bool)
| RText (s : str)
| REntries (l : list (str * str))
| RBytes (b : str).

Definition is_reg (x : entry) : bool := match x with Reg _ => true | _ => false end.
(** [l] lists all entries once. *)
Definition lists (d : dir) (l : list (str * bool)) : Prop :=
  NoDup (map fst l) /\ forall n k, In (n, k) l <-> exists x, d n = Some x /\ is_reg x = k.
Definition tmp_name : str := $".log4g_tmp".

(** What operations may do: POSIX semantics of the calls, with faults. A call that fails leaves the
    file system as it was, except that Write may have written part of its bytes. *)
Inductive eff : fsop -> fsres -> fs -> fs -> Prop :=
| e_close f : eff OClose ROk f f
| e_closeE f : eff OClose RErr f f
| e_read f cs : lists (f_dir f) (concat cs) -> eff OReadDir (RDir (map RdSome cs ++ [RdEOF])) f f
| e_readE f cs : eff OReadDir (RDir (map RdSome cs ++ [RdErr])) f f
| e_readE0 f : eff OReadDir RErr f f
| e_sort key l l' f : Permutation l l' -> Sorted (fun a b => key a <= key b) l' -> eff (OSort key l) (RNames l') f f
| e_rename a b x d ar : d a = Some x -> d b <> Some Dir ->
    eff (ORename a b) ROk (mkFs d ar) (mkFs (dput (dput d a None) b (Some x)) ar)
| e_renameE a b f : eff (ORename a b) RErr f f
| e_chmod n p f : eff (OChmod n p) ROk f f
| e_chmodE n p f : eff (OChmod n p) RErr f f
| e_remove n x d ar : d n = Some x -> eff (ORemove n) ROk (mkFs d ar) (mkFs (dput d n None) ar)
| e_removeE n f : eff (ORemove n) RErr f f
| e_mkdir p f : eff (OMkdir p) ROk f f
| e_mkdirE p f : eff (OMkdir p) RErr f f
| e_open_new n p d ar : d n = None -> eff (OOpen n p) ROk (mkFs d ar) (mkFs (dput d n (Some (Reg []))) ar)
| e_open_old n p x f : f_dir f n = Some x -> x <> Dir -> eff (OOpen n p) ROk f f
| e_openE n p f : eff (OOpen n p) RErr f f
| e_stat n c f : f_dir f n = Some (Reg c) -> eff (OStat n) (RSize (Z.of_nat (length c))) f f
| e_stat_special n z f : f_dir f n = Some Special -> 0 <= z -> eff (OStat n) (RSize z) f f
| e_statE n f : eff (OStat n) RErr f f
| e_write n b k ok c d ar : d n = Some (Reg c) -> (k <= length b)%nat -> (ok = true -> k = length b) ->
    eff (OWrite n b) (RWrote k ok) (mkFs d ar) (mkFs (dput d n (Some (Reg (c ++ firstn k b)))) ar)
| e_write_special n b k ok f : f_dir f n = Some Special -> (k <= length b)%nat -> (ok = true -> k = length b) ->
    eff (OWrite n b) (RWrote k ok) f f
| e_now p s f : (p = [] -> s = []) -> eff (ONow p) (RText s) f f
| e_arcmk p f : eff (OArcMkdir p) ROk f f
| e_arcmkE p f : eff (OArcMkdir p) RErr f f
| e_tmpdir_here p d : d tmp_name = None -> eff (OArcTmpDir p) ROk (mkFs d ADir) (mkFs (dput d tmp_name (Some Dir)) ADir)
| e_tmpdir_old p d : d tmp_name = Some Dir -> eff (OArcTmpDir p) ROk (mkFs d ADir) (mkFs d ADir)
| e_tmpdir_away p f : f_arch f <> ADir -> eff (OArcTmpDir p) ROk f f
| e_tmpdirE p f : eff (OArcTmpDir p) RErr f f
| e_tmpfile f : eff OArcTmpFile ROk f f      (* the file is inside the temporary directory *)
| e_tmpfileE f : eff OArcTmpFile RErr f f
| e_arcopen f : f_arch f <> AAbsent -> eff OArcOpen ROk f f
| e_arcopen_absent f : f_arch f = AAbsent -> eff OArcOpen RAbsent f f
| e_arcopenE f : eff OArcOpen RErr f f
| e_arcread es f : f_arch f = AFile es -> eff OArcRead (REntries es) f f
| e_arcreadE f : eff OArcRead RErr f f       (* always, if the path is a directory *)
| e_arcadd n c f : f_dir f n = Some (Reg c) -> eff (OArcAdd n) (RBytes c) f f
| e_arcaddE n f : eff (OArcAdd n) RErr f f
| e_arcclose f : eff OArcClose ROk f f
| e_arccloseE f : eff OArcClose RErr f f
| e_arcrename es d ar : ar <> ADir -> eff (OArcRename es) ROk (mkFs d ar) (mkFs d (AFile es))
| e_arcrenameE es f : eff (OArcRename es) RErr f f
| e_arcdrop f : eff OArcDrop ROk f f
| e_arcdropE f : eff OArcDrop RErr f f.

(** Programs over these operations. *)
Inductive prog (A : Type) :=
| Done (a : A)
| Op (o : fsop) (k : fsres -> prog A).
Arguments Done {A}. Arguments Op {A}.
Fixpoint pbind {A B} (p : prog A) (f : A -> prog B) : prog B :=
  match p with Done a => f a | Op o k => Op o (fun r => pbind (k r) f) end.
Notation "x <- p ;; q" := (pbind p (fun x => q)) (at level 61, p at next level, right associativity).
Notation "' x <- p ;; q" := (pbind p (fun x => q)) (at level 61, x pattern, p at next level, right associativity).
Definition op (o : fsop) : prog fsres := Op o Done.

(** ** The scan: internal/output_fsutil.go:56-113 [getDirFilePaths] with no filter and pathIsName:
    the names of the regular entries, chunk by chunk; any error but EOF is returned. *)
Fixpoint dir_loop (acc : list str) (rs : list readdir) : option (list str) :=
  match rs with
  | RdSome fis :: rs' => dir_loop (acc ++ map fst (filter snd fis)) rs'
  | RdEOF :: _ => Some acc
  | RdErr :: _ | [] => None
  end.
Definition getDirFilePaths : prog (option (list str)) :=
  r <- op OReadDir ;;
  Done (match r with RDir rs => dir_loop [] rs | _ => None end).

(** ** Names *)
Definition delim : str := $".".     (* internal/output_rollingwriter.go:48 rollingLogHistoryDelimiter *)
(** internal/output_rollingwriter.go:220-230 [hasRollName]. *)
Definition hasRollName (c : roll_conf) (file : str) : bool :=
  match rc_nameMode c with
  | Postfix => has_prefix file (rc_file c ++ delim)
  | Prefix => has_suffix file (delim ++ rc_file c)
  end.
(** internal/output_rollingwriter.go:232-240 [createFullFileName]. *)
Definition createFullFileName (c : roll_conf) (orig rname : str) : str :=
  match rc_nameMode c with
  | Postfix => orig ++ delim ++ rname
  | Prefix => rname ++ delim ++ orig
  end.
(** internal/output_rollingwriter.go:446-454 [getFileRollName]; called on names for which
    hasRollName holds, so the slices are in range. *)
Definition getFileRollName (c : roll_conf) (file : str) : str :=
  match rc_nameMode c with
  | Postfix => skipn (length (rc_file c ++ delim)) file
  | Prefix => firstn (length file - length (rc_file c ++ delim)) file
  end.

(** time.ParseInLocation(pattern, name, time.Local), as an instant. *)
Definition tparse := str -> str -> option Z.
(** internal/output_rollingwriter.go:571-577 [rollingFileWriterSize.isFileRollNameValid] and
    646-652 [rollingFileWriterTime.isFileRollNameValid]. *)
Definition isFileRollNameValid (P : tparse) (c : roll_conf) (rname : str) : bool :=
  match rname with
  | [] => false
  | _ => match rc_kind c with
         | BySize _ => atoi_ok rname
         | ByTime p => match P p rname with Some _ => true | None => false end
         end
  end.
(** What the sorters compare: internal/output_rollingwriter.go:585-589 [Less] and 663-667 [Less]
    (values of failed parses do not occur: the names are valid). *)
Definition sort_key (P : tparse) (c : roll_conf) (rname : str) : Z :=
  match rc_kind c with
  | BySize _ => atoi rname
  | ByTime p => match P p rname with Some t => t | None => 0 end
  end.

(** ** The writer *)
(** The mutable part of internal/output_rollingwriter.go:180-198 [rollingFileWriter] and of
    628-632 [rollingFileWriterTime]. [w_file]: the open file's name and whether it is still open (a
    Close that failed leaves a closed file behind). Sizes do not overflow. *)
Record wst := mkW { w_file : option (str * bool); w_name : str; w_size : Z; w_period : str }.
Definition w_new : wst := mkW None [] 0 [].
Definition set_file (w : wst) (f : option (str * bool)) : wst := mkW f (w_name w) (w_size w) (w_period w).
Definition set_name (w : wst) (n : str) : wst := mkW (w_file w) n (w_size w) (w_period w).
Definition set_size (w : wst) (z : Z) : wst := mkW (w_file w) (w_name w) z (w_period w).
Definition set_period (w : wst) (p : str) : wst := mkW (w_file w) (w_name w) (w_size w) p.

Definition now (p : str) : prog str := r <- op (ONow p) ;; Done (match r with RText s => s | _ => [] end).

(** internal/output_rollingwriter.go:242-265 [getSortedLogHistory]. *)
Definition getSortedLogHistory (P : tparse) (c : roll_conf) : prog (option (list str)) :=
  fl <- getDirFilePaths ;;
  match fl with
  | None => Done None
  | Some files =>
    let valid := filter (isFileRollNameValid P c) (map (getFileRollName c) (filter (hasRollName c) files)) in
    r <- op (OSort (sort_key P c) valid) ;;
    Done (match r with
          | RNames sorted => Some (map (createFullFileName c (rc_file c)) sorted)
          | _ => None
          end)
  end.

(** internal/output_rollingwriter.go:567-569 [rollingFileWriterSize.needsToRoll] and 634-644
    [rollingFileWriterTime.needsToRoll]. *)
Definition needsToRoll (c : roll_conf) (w : wst) : prog (wst * bool) :=
  match rc_kind c with
  | BySize m => Done (w, m <=? w_size w)
  | ByTime p =>
    s <- now p ;;
    match w_period w with
    | [] => Done (set_period w s, false)
    | _ => Done (w, negb (str_eqb s (w_period w)))
    end
  end.
(** internal/output_rollingwriter.go:601-608 [getNewHistoryRollFileName] (by size; Go ints wrap)
    and 679-683 [getNewHistoryRollFileName] (by time). *)
Definition getNewHistoryRollFileName (c : roll_conf) (w : wst) (history : list str) : prog (wst * str) :=
  match rc_kind c with
  | BySize _ =>
    let v := match history with [] => 0 | _ => atoi (getFileRollName c (last history [])) end in
    Done (w, Itoa (wrap64 (v + 1)))
  | ByTime p => s <- now p ;; Done (set_period w s, w_period w)
  end.
(** internal/output_rollingwriter.go:610-612 [getCurrentFileName] and 685-690
    [getCurrentFileName]. *)
Definition getCurrentFileName (c : roll_conf) : prog str :=
  match rc_kind c with
  | BySize _ => Done (rc_file c)
  | ByTime p => if rc_fullName c then s <- now p ;; Done (createFullFileName c (rc_file c) s) else Done (rc_file c)
  end.

(** internal/output_rollingwriter.go:267-292 [createFileAndFolderIfNeeded] (the directory path is
    never empty). The result says whether there was an error. *)
Definition createFile (c : roll_conf) (w : wst) : prog (wst * bool) :=
  r <- op (OMkdir (rc_dirPerm c)) ;;
  match r with
  | ROk =>
    n <- getCurrentFileName c ;;
    let w := set_name w n in
    r <- op (OOpen n (rc_filePerm c)) ;;
    match r with
    | ROk =>
      r <- op (OStat n) ;;
      match r with
      | RSize z => Done (set_size (set_file w (Some (n, true))) z, false)
      | _ => _ <- op OClose ;; Done (set_file w None, true)
      end
    | _ => Done (set_file w None, true)
    end
  | _ => Done (w, true)
  end.

(** internal/output_rollingwriter.go:340-408 [archiveUnexplodedLogs], with 545-551
    [tempArchiveFile]. Simplifications: the entries of the temporary archive are passed along
    instead of being stored in it; closing the writer and the file is one operation (call by call in DeferModel.v); the archive
    entry is named by the roll (the code uses its path). *)
Fixpoint addRolls (es : list (str * str)) (rolls : list str) : prog (option (list (str * str))) :=
  match rolls with
  | [] => Done (Some es)
  | n :: rest =>
    r <- op (OArcAdd n) ;;
    match r with RBytes b => addRolls (es ++ [(n, b)]) rest | _ => Done None end
  end.
Definition archiveUnexploded (c : roll_conf) (rolls : list str) : prog unit :=
  r <- op (OArcTmpDir (rc_dirPerm c)) ;;
  match r with
  | ROk =>
    r <- op OArcTmpFile ;;
    match r with
    | ROk =>
      r <- op OArcOpen ;;
      es <- match r with
            | ROk => r <- op OArcRead ;;
                     match r with REntries old => addRolls old rolls | _ => Done None end
            | RAbsent => addRolls [] rolls
            | _ => Done None
            end ;;
      r <- op OArcClose ;;
      match es, r with
      | Some es, ROk => _ <- op (OArcRename es) ;; Done tt
      | _, _ => _ <- op OArcDrop ;; Done tt
      end
    | _ => Done tt
    end
  | _ => Done tt
  end.
(** internal/output_rollingwriter.go:434-441: remove, reporting errors only (117-124
    [tryRemoveFile] of internal/output_fsutil.go). *)
Fixpoint removeAll (l : list str) : prog unit :=
  match l with [] => Done tt | n :: rest => _ <- op (ORemove n) ;; removeAll rest end.
(** internal/output_rollingwriter.go:410-444 [deleteOldRolls]. archiveExploded is never set by a
    configuration (ConfModel); the exploded branch is in ExplodeModel.v. *)
Definition deleteOldRolls (c : roll_conf) (history : list str) : prog unit :=
  if rc_maxRolls c <=? 0 then Done tt
  else
    let n := Z.of_nat (length history) - rc_maxRolls c in
    if n <=? 0 then Done tt
    else
      let old := firstn (Z.to_nat n) history in
      _ <- match rc_archive c with
           | ArchiveNone => Done tt
           | _ => _ <- op (OArcMkdir (rc_dirPerm c)) ;; archiveUnexploded c old
           end ;;
      removeAll old.

(** internal/output_rollingwriter.go:456-510 [roll]. Close on a nil or a closed file is an error. *)
Definition roll (P : tparse) (c : roll_conf) (w : wst) : prog (wst * bool) :=
  match w_file w with
  | Some (n, true) =>
    r <- op OClose ;;
    match r with
    | ROk =>
      let w := set_file w None in
      h <- getSortedLogHistory P c ;;
      match h with
      | None => Done (w, true)
      | Some history =>
        '(w, rname) <- getNewHistoryRollFileName c w history ;;
        let dest := createFullFileName c (rc_file c) rname in
        r <- op (ORename (w_name w) dest) ;;
        match r with
        | ROk =>
          _ <- op (OChmod dest (rc_backPerm c)) ;;
          let history := history ++ [dest] in
          _ <- (if rc_maxRolls c <? Z.of_nat (length history) then deleteOldRolls c history else Done tt) ;;
          Done (w, false)
        | _ => Done (w, true)
        end
      end
    | _ => Done (set_file w (Some (n, false)), true)
    end
  | _ => Done (w, true)
  end.

(** internal/output_rollingwriter.go:512-532 [Write], without the lock (see RollConcModel): the number
    of bytes written and whether there was an error. *)
Definition rw_Write (P : tparse) (c : roll_conf) (w : wst) (b : str) : prog (wst * (nat * bool)) :=
  '(w, need) <- needsToRoll c w ;;
  '(w, err) <- (if need then roll P c w else Done (w, false)) ;;
  if err : bool then Done (w, (0%nat, true))
  else
    '(w, err) <- (match w_file w with None => createFile c w | Some _ => Done (w, false) end) ;;
    if err : bool then Done (w, (0%nat, true))
    else match w_file w with
         | Some (n, true) =>
           r <- op (OWrite n b) ;;
           match r with
           | RWrote k ok => Done (set_size w (w_size w + Z.of_nat k), (k, negb ok))
           | _ => Done (w, (0%nat, true))
           end
         | _ => Done (w, (0%nat, true))
         end.

(** internal/output_rollingwriter.go:534-543 [Close]. *)
Definition rw_Close (w : wst) : prog (wst * bool) :=
  match w_file w with
  | None => Done (w, false)
  | Some (n, false) => Done (w, true)
  | Some (n, true) =>
    r <- op OClose ;;
    match r with ROk => Done (set_file w None, false) | _ => Done (set_file w (Some (n, false)), true) end
  end.

(** ** Runs *)
(** Complete runs, with the operations made and their answers. *)
Inductive runs {A} : prog A -> fs -> list (fsop * fsres) -> fs -> A -> Prop :=
| r_done a f : runs (Done a) f [] f a
| r_op o k r f f1 tr f2 a : eff o r f f1 -> runs (k r) f1 tr f2 a -> runs (Op o k) f ((o, r) :: tr) f2 a.
(** Runs stopped between two operations: the process dies there. *)
Inductive partly {A} : prog A -> fs -> list (fsop * fsres) -> fs -> Prop :=
| p_here p f : partly p f [] f
| p_op o k r f f1 tr f2 : eff o r f f1 -> partly (k r) f1 tr f2 -> partly (Op o k) f ((o, r) :: tr) f2.

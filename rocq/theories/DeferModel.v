(** Model of the functions that open files and archives and leave closing them to deferred calls. What they read and write is in
    RollModel.v and ArchModel.v; here it matters which calls are made, in which order, and which of them fail. *)
From Verif Require Import GoStr ConfModel.

(** ** Go functions with deferred calls *)
(** What can be open: the directory that is listed, the temporary archive, the archive there was (as a file, and through its reader), a
    backup, the buffer of copyBuffer, an entry of a zip file. *)
Inductive handle := HDir | HTemp | HArchive | HReader | HBackup (n : str) | HBuffer | HEntry.
(** The writers that put an archive together, and what may remain to be written when one is closed. *)
Inductive packer := PZip | PTar | PGzip.
Inductive call :=
| Open (h : handle) | Close (h : handle)
| Finish (p : packer)                (* Close of an archive writer *)
| MkTemp                             (* os.MkdirAll of the directory for temporary files *)
| CopyOld                            (* archive.Copy *)
| Stat (n : str) | Header (n : str) | Data (n : str)  (* os.File.Stat, NextFile, io.Copy for one backup *)
| Place | Drop                       (* os.Rename of the temporary archive, os.Remove of it *)
| AbsPath | ReadDir                  (* filepath.Abs, File.Readdir *)
| NextEntry | Fill | Rewind | ChmodBuffer | StatBuffer | NextOut | Pour | Cut | DropBuffer   (* copyBuffer *)
| CreateHeader | CopyEntry.          (* copyZipFile *)
(** A call succeeds, fails, or fails because there is no such file (or no more of them). *)
Inductive answer := Good | Bad | Absent.
Definition bad (a : answer) : bool := match a with Good => false | _ => true end.

(** The body of a function: the calls it makes, the functions it defers, whether it returns an error. Deferred functions see whether
    an error is about to be returned, and may change that. [Forever]: it does not return (used to bound loops). *)
Inductive dbody := DRet (e : bool) | DCall (o : call) (k : answer -> dbody).
Inductive body := Return (e : bool) | Call (o : call) (k : answer -> body) | Defer (d : bool -> dbody) (p : body) | Forever.
(** Any call may have any answer. The deferred functions are called when the function returns, the last one first. *)
Inductive druns : dbody -> list (call * answer) -> bool -> Prop :=
| dr_ret e : druns (DRet e) [] e
| dr_call o k a tr e : druns (k a) tr e -> druns (DCall o k) ((o, a) :: tr) e.
Inductive unwinds : list (bool -> dbody) -> bool -> list (call * answer) -> bool -> Prop :=
| uw_nil e : unwinds [] e [] e
| uw_cons d ds e tr1 e1 tr2 e2 : druns (d e) tr1 e1 -> unwinds ds e1 tr2 e2 -> unwinds (d :: ds) e (tr1 ++ tr2) e2.
Inductive fruns : list (bool -> dbody) -> body -> list (call * answer) -> bool -> Prop :=
| fr_ret ds e tr e' : unwinds ds e tr e' -> fruns ds (Return e) tr e'
| fr_call ds o k a tr e : fruns ds (k a) tr e -> fruns ds (Call o k) ((o, a) :: tr) e
| fr_defer ds d p tr e : fruns (d :: ds) p tr e -> fruns ds (Defer d p) tr e.
(** A whole call of a function. *)
Definition called (p : body) (tr : list (call * answer)) (e : bool) : Prop := fruns [] p tr e.

(** Call, and return the error if there is one. *)
Definition try (o : call) (p : body) : body := Call o (fun a => match a with Good => p | _ => Return true end).
(** [defer f.Close()], the error being ignored. *)
Definition close_after (h : handle) : bool -> dbody := fun e => DCall (Close h) (fun _ => DRet e).
(** internal/output_rollingwriter.go:295-299 and 341-345: closeWithError keeps an earlier error. *)
Definition with_error (o : call) (e : bool) (k : bool -> dbody) : dbody := DCall o (fun a => k (orb e (bad a))).

(** ** Archiving *)
(** internal/output_rollingwriter.go:94-146 [compressionTypes]: Close of the archive writer made at 98-100 and 116-122, which is a
    zip.Writer, a gzip.Writer, or a tar.Writer on a gzip.Writer; the last one's is internal/archive/tar/tar.go:64-72 [Close]. *)
Definition finish (t : archive_type) (exploded : bool) (e : bool) (k : bool -> dbody) : dbody :=
  match t with
  | ArchiveGzip => if exploded then with_error (Finish PGzip) e k
                   else DCall (Finish PTar) (fun a => with_error (Finish PGzip) (bad a) (fun e' => k (orb e e')))
  | _ => with_error (Finish PZip) e k
  end.
(** internal/output_rollingwriter.go:353-362 and 314-324: the temporary file is closed, and then removed or put in place. *)
Definition settle : bool -> dbody := fun e =>
  with_error (Close HTemp) e (fun e' => if e' then DCall Drop (fun _ => DRet e') else DCall Place (fun a => DRet (bad a))).
(** internal/output_rollingwriter.go:389-406, the loop. *)
Fixpoint add_backups (l : list str) : body :=
  match l with
  | [] => Return false
  | n :: l' => try (Open (HBackup n)) (Defer (close_after (HBackup n)) (try (Stat n) (try (Header n) (try (Data n) (add_backups l')))))
  end.
(** internal/output_rollingwriter.go:340-408 [archiveUnexplodedLogs], with 545-551 [tempArchiveFile]. Making the reader of
    the old archive (101-111, 123-144) is one call. *)
Definition archiveUnexplodedLogs (t : archive_type) (l : list str) : body :=
  try MkTemp (try (Open HTemp) (
  Defer settle (
  Defer (fun e => finish t false e DRet) (
  Call (Open HArchive) (fun a => match a with
    | Good => Defer (close_after HArchive) (try (Open HReader) (Defer (close_after HReader) (try CopyOld (add_backups l))))
    | Absent => add_backups l
    | Bad => Return true
    end))))).
(** internal/output_rollingwriter.go:294-338 [archiveExplodedLogs]. *)
Definition archiveExplodedLogs (t : archive_type) (n : str) : body :=
  try (Open (HBackup n)) (
  Defer (close_after (HBackup n)) (
  try MkTemp (try (Open HTemp) (
  Defer settle (
  Defer (fun e => finish t true e DRet) (
  try (Stat n) (try (Header n) (try (Data n) (Return false))))))))).

(** ** Others *)
(** internal/output_fsutil.go:56-113 [getDirFilePaths]; only calls that read fewer than [n] chunks return. *)
Fixpoint read_chunks (n : nat) : body :=
  match n with
  | O => Forever
  | S n' => Call ReadDir (fun a => match a with Good => read_chunks n' | Absent => Return false | Bad => Return true end)
  end.
Definition getDirFilePaths (absolute : bool) (n : nat) : body :=
  try (Open HDir) (Defer (close_after HDir) (if absolute then read_chunks n else try AbsPath (read_chunks n))).
(** internal/archive/archive.go:76-129 [copyBuffer]; only calls that copy fewer than [n] files return. *)
Fixpoint copy_files (n : nat) : body :=
  match n with
  | O => Forever
  | S n' => Call NextEntry (fun a => match a with
    | Good => try Fill (try Rewind (try ChmodBuffer (try StatBuffer (try NextOut (try Pour (try Cut (try Rewind (copy_files n'))))))))
    | Absent => Return false
    | Bad => Return true
    end)
  end.
Definition copyBuffer (n : nat) : body :=
  try (Open HBuffer) (Defer (fun e => DCall DropBuffer (fun _ => DRet e)) (Defer (close_after HBuffer) (copy_files n))).
(** internal/archive/archive.go:183-198 [copyZipFile]. *)
Definition copyZipFile : body :=
  try (Open HEntry) (Defer (close_after HEntry) (try CreateHeader (Call CopyEntry (fun a => Return (bad a))))).

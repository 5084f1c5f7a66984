(** Vocabulary for functions that open files: what is open, and what happened to the temporary archive. *)
From Verif Require Import GoStr ConfModel RollModel DeferModel.

Definition handle_eqb (a b : handle) : bool :=
  match a, b with
  | HDir, HDir | HTemp, HTemp | HArchive, HArchive | HReader, HReader | HBuffer, HBuffer | HEntry, HEntry => true
  | HBackup m, HBackup n => str_eqb m n
  | _, _ => false
  end.
(** How often something was opened, and how often closed (closing may report an error). *)
Definition opened (h : handle) (tr : list (call * answer)) : nat :=
  length (filter (fun '(o, a) => match o, a with Open h', Good => handle_eqb h h' | _, _ => false end) tr).
Definition closed (h : handle) (tr : list (call * answer)) : nat :=
  length (filter (fun '(o, _) => match o with Close h' => handle_eqb h h' | _ => false end) tr).
(** Nothing stays open, and nothing is closed that is not open. *)
Definition nothing_open (tr : list (call * answer)) : Prop := forall h, opened h tr = closed h tr.
Definition closes_open_only (tr : list (call * answer)) : Prop := forall h pre suf, tr = pre ++ suf -> (closed h pre <= opened h pre)%nat.

(** How often a call was made, with any answer. *)
Definition call_eqb (a b : call) : bool :=
  match a, b with Place, Place | Drop, Drop | DropBuffer, DropBuffer => true | _, _ => false end.
Definition times (o : call) (tr : list (call * answer)) : nat := length (filter (fun '(o', _) => call_eqb o o') tr).
(** What closing an archive writer consists of. *)
Definition finishers (t : archive_type) (exploded : bool) : list packer :=
  match t with ArchiveGzip => if exploded then [PGzip] else [PTar; PGzip] | _ => [PZip] end.
(** The backups whose text was copied, in order. *)
Definition copied (tr : list (call * answer)) : list str :=
  flat_map (fun '(o, a) => match o, a with Data n, Good => [n] | _, _ => [] end) tr.
(** Calls that may fail without spoiling the archive: closing what was only read, and looking for an archive that is not there. *)
Definition harmless (x : call * answer) : Prop :=
  match x with
  | (Close HTemp, a) => a = Good
  | (Close _, _) => True
  | (Open HArchive, Absent) => True
  | (_, a) => a = Good
  end.
(** An archive is complete: the old one, if there is one, was copied, then all backups in turn, nothing failed, then the writers
    were closed from the outermost to the innermost, then the file. *)
Definition complete (t : archive_type) (exploded : bool) (l : list str) (tr : list (call * answer)) : Prop :=
  exists pre, tr = pre ++ map (fun p => (Finish p, Good)) (finishers t exploded) ++ [(Close HTemp, Good)] /\ Forall harmless pre /\ copied pre = l /\
    (In (Open HArchive, Good) pre -> In (CopyOld, Good) pre).

(** Calls whose failure does not matter when reading: closing, and removing the buffer. A directory or an archive may come to its end. *)
Definition went_well (x : call * answer) : Prop :=
  match x with
  | (Close _, _) | (DropBuffer, _) => True
  | (ReadDir, a) | (NextEntry, a) => a <> Bad
  | (_, a) => a = Good
  end.

(** ** The coarse model *)
(** The runs of a program of RollModel.v with any answers. *)
Inductive follows {A} : prog A -> list (fsop * fsres) -> A -> Prop :=
| fo_done a : follows (Done a) [] a
| fo_op o k r tr a : follows (k r) tr a -> follows (Op o k) ((o, r) :: tr) a.
Definition fs_answer (a : answer) : fsres := match a with Good => ROk | _ => RErr end.
(** What the calls of archiveUnexplodedLogs are there, when the old archive has the entries [old] and the backups the texts
    [bytes]; [es] is what has been put into the new archive, [fin] whether closing the writers went well so far. *)
Fixpoint coarse (perm : Z) (old : list (str * str)) (bytes : str -> str) (fin : bool) (es : list (str * str)) (tr : list (call * answer))
    : list (fsop * fsres) :=
  match tr with
  | [] => []
  | (o, a) :: tr' =>
    let skip := coarse perm old bytes fin es tr' in
    match o with
    | MkTemp => (OArcTmpDir perm, fs_answer a) :: skip
    | Open HTemp => (OArcTmpFile, fs_answer a) :: skip
    | Open HArchive => (OArcOpen, match a with Good => ROk | Absent => RAbsent | Bad => RErr end) :: skip
    | Open HReader => match a with Good => skip | _ => (OArcRead, RErr) :: skip end
    | CopyOld => match a with Good => (OArcRead, REntries old) :: coarse perm old bytes fin old tr' | _ => (OArcRead, RErr) :: skip end
    | Open (HBackup n) | Stat n | Header n => match a with Good => skip | _ => (OArcAdd n, RErr) :: skip end
    | Data n => match a with Good => (OArcAdd n, RBytes (bytes n)) :: coarse perm old bytes fin (es ++ [(n, bytes n)]) tr' | _ => (OArcAdd n, RErr) :: skip end
    | Finish _ => coarse perm old bytes (andb fin (negb (bad a))) es tr'
    | Close HTemp => (OArcClose, if andb fin (negb (bad a)) then ROk else RErr) :: skip
    | Place => (OArcRename es, fs_answer a) :: skip
    | Drop => (OArcDrop, fs_answer a) :: skip
    | _ => skip
    end
  end.

(** ** The log file *)
(** What a writer has open. *)
Definition held (w : wst) : nat := match w_file w with Some (_, true) => 1 | _ => 0 end.
Definition log_opened (tr : list (fsop * fsres)) : nat := length (filter (fun '(o, r) => match o, r with OOpen _ _, ROk => true | _, _ => false end) tr).
Definition log_closed (tr : list (fsop * fsres)) : nat := length (filter (fun '(o, _) => match o with OClose => true | _ => false end) tr).
(** The life of a writer: writes and closings, with any faults. *)
Inductive life (P : tparse) (c : roll_conf) : wst -> list (fsop * fsres) -> wst -> Prop :=
| lf_nil w : life P c w [] w
| lf_write w b f tr f1 w1 x tr2 w2 : runs (rw_Write P c w b) f tr f1 (w1, x) -> life P c w1 tr2 w2 -> life P c w (tr ++ tr2) w2
| lf_close w f tr f1 w1 x tr2 w2 : runs (rw_Close w) f tr f1 (w1, x) -> life P c w1 tr2 w2 -> life P c w (tr ++ tr2) w2.

(** Specification for archive.Copy (C46). *)
From Verif Require Import GoStr ArchModel.

(** What a file is for the destination: its name and contents. *)
Definition plain_file (x : afile) : str * str := (a_name x, a_data x).
(** The files in an archive writer. *)
Definition files_in (w : writer) : list (str * str) :=
  match w with WTar fs _ | WZip fs => fs | WGzip n false [] => [] | WGzip n _ d => [(n, d)] end.
(** The files a copy is to append: between tar files directories are left out. *)
Definition to_copy (r : reader) (w : writer) : list afile :=
  match rd_format r, rd_wrapped r, w with
  | Tar, false, WTar _ _ => filter (fun x => negb (a_dir x)) (rd_files r)
  | _, _, _ => rd_files r
  end.
(** Readers as NewReader makes them. *)
Definition fresh (r : reader) : Prop :=
  rd_rest r = rd_files r /\
  match rd_format r with
  | Gzip => exists x, rd_files r = [x] /\ rd_cur r = a_data x
  | _ => True
  end.
(** The destination accepts several files. *)
Definition accepts_many (w : writer) : Prop := match w with WGzip _ _ _ => False | _ => True end.
(** [l] is the beginning of [l'] with the last file possibly cut short. *)
Definition cut_short (l l' : list (str * str)) : Prop :=
  exists l1, (l = l1 /\ exists l2, l' = l1 ++ l2) \/
    (exists n d d' l2, l = l1 ++ [(n, d)] /\ l' = l1 ++ (n, d ++ d') :: l2).
(** Nothing fails. *)
Definition no_faults (E : env) : Prop := forall t, exists k, E t = Good k.
(** Files a destination can take: archive/zip has no data in files whose names end in a slash. *)
Definition can_take (w : writer) (x : afile) : Prop :=
  match w with WZip _ => (exists dir, a_name x = dir ++ $"/") -> a_data x = [] | _ => True end.
(** A tar or zip destination with no file half written. *)
Definition ready_dst (w : writer) : Prop := match w with WTar _ t => t = 0 | WZip _ => True | _ => False end.

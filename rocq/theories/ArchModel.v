(** Model of internal/archive: readers and writers of tar, zip and gzip, and Copy. An archive is the
    list of its files; the encodings themselves (archive/tar, archive/zip, compress/gzip) are not
    modelled. Every operation may fail, and every read or write may be cut short. *)
From Verif Require Import GoStr.

(** What the environment makes of an operation: [Good k] goes well, a read delivering at most k+1
    bytes; [Bad k] fails, a write having written at most k bytes. *)
Inductive outcome := Good (k : nat) | Bad (k : nat).
Definition env := nat -> outcome.

(** A file of an archive; [a_dir] as archive/tar's FileInfo().IsDir() says. *)
Record afile := mkFile { a_name : str; a_dir : bool; a_data : str }.
Inductive format := Tar | Zip | Gzip.
(** internal/archive/tar/tar.go:10-12, zip/zip.go:10-14, gzip/gzip.go:14-18 [Reader], and
    internal/archive/archive.go:39-47 [nopCloser] around one of them ([rd_wrapped]). [rd_files]: all the
    files; [rd_rest]: those NextFile has not come to; [rd_cur]: the bytes still to be read of the
    current file. A gzip reader has one file, under the name it was made with, and can be read before
    NextFile. *)
Record reader := mkReader { rd_format : format; rd_wrapped : bool; rd_files : list afile; rd_rest : list afile; rd_cur : str }.
Definition new_reader (f : format) (wrapped : bool) (files : list afile) : reader :=
  mkReader f wrapped files files (match f, files with Gzip, x :: _ => a_data x | _, _ => [] end).
(** internal/archive/tar/tar.go:29-32, zip/zip.go:62-65, gzip/gzip.go:44-48 [Writer]: the files written,
    the last one still open; for tar, how many bytes its header still promises; a gzip writer keeps the
    name and whether NextFile was called. *)
Inductive writer :=
| WTar (files : list (str * str)) (todo : nat)
| WZip (files : list (str * str))
| WGzip (name : str) (noMoreFiles : bool) (data : str).
Definition w_format (w : writer) : format := match w with WTar _ _ => Tar | WZip _ => Zip | WGzip _ _ _ => Gzip end.

(** The state: the tick numbers the operations. The buffer is the temporary file of copyBuffer with its
    offset. *)
Record st := mkSt { s_tick : nat; s_src : reader; s_buf : str; s_off : nat; s_dst : writer }.
Inductive res := ROk | RErr | RPanic | RFuel.   (* RFuel: the model ran out of fuel *)
Definition tick (s : st) : st := mkSt (S (s_tick s)) (s_src s) (s_buf s) (s_off s) (s_dst s).
Definition set_src (s : st) r : st := mkSt (s_tick s) r (s_buf s) (s_off s) (s_dst s).
Definition set_buf (s : st) b o : st := mkSt (s_tick s) (s_src s) b o (s_dst s).
Definition set_dst (s : st) w : st := mkSt (s_tick s) (s_src s) (s_buf s) (s_off s) w.

(** io.Copy from a reader to a writer of the state (ReadFrom and WriteTo shortcuts do the same). *)
Inductive chunk := Chunk (p : str) | ChEOF | ChErr.
Fixpoint iocopy (fuel : nat) (rd : st -> st * chunk) (wr : str -> st -> st * res) (s : st) : st * res :=
  match fuel with
  | O => (s, RFuel)
  | S n =>
    match rd s with
    | (s, Chunk p) => match wr p s with (s, ROk) => iocopy n rd wr s | y => y end
    | (s, ChEOF) => (s, ROk)
    | (s, ChErr) => (s, RErr)
    end
  end.

Section Env.
Variable (E : env).
(** internal/archive/tar/tar.go:20-26, zip/zip.go:27-50, gzip/gzip.go:34-41 [NextFile]. *)
Definition src_next (s : st) : st * option (option afile) :=   (* None: error; Some None: EOF *)
  let r := s_src s in
  match E (s_tick s) with
  | Bad _ => (tick s, None)
  | Good _ =>
    match rd_rest r with
    | [] => (tick s, Some None)
    | x :: rest =>
      (set_src (tick s) (mkReader (rd_format r) (rd_wrapped r) (rd_files r) rest (match rd_format r with Gzip => rd_cur r | _ => a_data x end)), Some (Some x))
    end
  end.
(** Read of the reader: internal/archive/zip/zip.go:52-54; promoted from archive/tar and compress/gzip. *)
Definition src_read (s : st) : st * chunk :=
  let r := s_src s in
  match E (s_tick s) with
  | Bad _ => (tick s, ChErr)
  | Good k =>
    match rd_cur r with
    | [] => (tick s, ChEOF)
    | d => (set_src (tick s) (mkReader (rd_format r) (rd_wrapped r) (rd_files r) (rd_rest r) (skipn (S k) d)), Chunk (firstn (S k) d))
    end
  end.
(** internal/archive/tar/tar.go:50-61, zip/zip.go:74-85, gzip/gzip.go:51-58 [NextFile]; [fname] and [size]
    are fi.Name() and fi.Size(). archive/tar refuses the next header before the last file is complete. *)
Definition dst_next (name fname : str) (size : nat) (s : st) : st * res :=
  match E (s_tick s) with
  | Bad _ => (tick s, RErr)
  | Good _ =>
    let name' := match name with [] => fname | _ => name end in
    match s_dst s with
    | WTar files todo => match todo with O => (set_dst (tick s) (WTar (files ++ [(name', [])]) size), ROk) | _ => (tick s, RErr) end
    | WZip files => (set_dst (tick s) (WZip (files ++ [(name', [])])), ROk)
    | WGzip n true d => (tick s, RErr)
    | WGzip _ false d => (set_dst (tick s) (WGzip name true d), ROk)
    end
  end.
(** Write: internal/archive/zip/zip.go:87-89; promoted from archive/tar and compress/gzip. archive/tar takes no
    more than the header promised. archive/zip takes nothing for a file whose name ends in a slash. *)
Definition add_last (files : list (str * str)) (p : str) : list (str * str) :=
  match rev files with [] => [] | (n, d) :: t => rev t ++ [(n, d ++ p)] end.
Definition is_dirname (n : str) : bool := match rev n with c :: _ => Ascii.eqb c "/" | [] => false end.
Definition dst_write (p : str) (s : st) : st * res :=
  let '(q, ok) := match E (s_tick s) with Good _ => (p, true) | Bad k => (firstn k p, false) end in
  match s_dst s with
  | WTar files todo =>
    if Nat.leb (length q) todo then (set_dst (tick s) (WTar (add_last files q) (todo - length q)), if ok then ROk else RErr)
    else (set_dst (tick s) (WTar (add_last files (firstn todo q)) 0), RErr)
  | WZip files =>
    match rev files with
    | [] => (tick s, RPanic)
    | (n, _) :: _ =>
      if is_dirname n then (tick s, match q with [] => if ok then ROk else RErr | _ => RErr end)
      else (set_dst (tick s) (WZip (add_last files q)), if ok then ROk else RErr)
    end
  | WGzip n f d => (set_dst (tick s) (WGzip n f (d ++ q)), if ok then ROk else RErr)
  end.
(** The temporary file. *)
Definition overwrite (buf : str) (off : nat) (p : str) : str :=
  firstn off buf ++ repeat "000"%char (off - length buf) ++ p ++ skipn (off + length p) buf.
Definition buf_write (p : str) (s : st) : st * res :=
  let '(q, ok) := match E (s_tick s) with Good _ => (p, true) | Bad k => (firstn k p, false) end in
  (set_buf (tick s) (overwrite (s_buf s) (s_off s) q) (s_off s + length q), if ok then ROk else RErr).
Definition buf_read (s : st) : st * chunk :=
  match E (s_tick s) with
  | Bad _ => (tick s, ChErr)
  | Good k =>
    match skipn (s_off s) (s_buf s) with
    | [] => (tick s, ChEOF)
    | d => let p := firstn (S k) d in (set_buf (tick s) (s_buf s) (s_off s + length p), Chunk p)
    end
  end.
Definition may_fail (f : st -> st) (s : st) : st * res :=
  match E (s_tick s) with Bad _ => (tick s, RErr) | Good _ => (f (tick s), ROk) end.
Definition buf_seek : st -> st * res := may_fail (fun s => set_buf s (s_buf s) 0).
Definition buf_truncate : st -> st * res := may_fail (fun s => set_buf s [] (s_off s)).
Definition no_effect : st -> st * res := may_fail (fun s => s).

Definition seq (a b : st -> st * res) (s : st) : st * res := match a s with (s, ROk) => b s | y => y end.
Infix ">>" := seq (at level 60, right associativity).

(** internal/archive/archive.go:76-129 [copyBuffer]; [tmp] is the name of the temporary file. Chmod and
    Stat may fail and change nothing. *)
Fixpoint copy_loop (tmp : str) (fuel : nat) (s : st) : st * res :=
  match fuel with
  | O => (s, RFuel)
  | S n =>
    match src_next s with
    | (s, None) => (s, RErr)
    | (s, Some None) => (s, ROk)
    | (s, Some (Some x)) =>
      (iocopy n src_read buf_write >> buf_seek >> no_effect >> no_effect >>
       (fun s => dst_next (a_name x) tmp (length (s_buf s)) s) >>
       iocopy n buf_read dst_write >> buf_truncate >> buf_seek >> copy_loop tmp n) s
    end
  end.
Definition copyBuffer (tmp : str) (fuel : nat) : st -> st * res :=
  may_fail (fun s => set_buf s [] 0) >> copy_loop tmp fuel.

(** internal/archive/archive.go:149-172 [copyTar]; WriteHeader as in [dst_next], with the source's header. *)
Fixpoint copyTar (fuel : nat) (s : st) : st * res :=
  match fuel with
  | O => (s, RFuel)
  | S n =>
    match src_next s with
    | (s, None) => (s, RErr)
    | (s, Some None) => (s, ROk)
    | (s, Some (Some x)) =>
      if a_dir x then copyTar n s
      else ((fun s => match E (s_tick s), s_dst s with
                      | Good _, WTar files O => (set_dst (tick s) (WTar (files ++ [(a_name x, [])]) (length (a_data x))), ROk)
                      | _, _ => (tick s, RErr)
                      end) >>
            iocopy n src_read dst_write >> copyTar n) s
    end
  end.

(** internal/archive/archive.go:174-198 [copyZip], [copyZipFile]: all files of the reader, whatever has been
    read; opening one may fail. *)
Fixpoint copyZip (fuel : nat) (files : list afile) (s : st) : st * res :=
  match files with
  | [] => (s, ROk)
  | x :: rest =>
    (may_fail (fun s => let r := s_src s in set_src s (mkReader (rd_format r) (rd_wrapped r) (rd_files r) (rd_rest r) (a_data x))) >>
     (fun s => match E (s_tick s), s_dst s with
               | Good _, WZip fs => (set_dst (tick s) (WZip (fs ++ [(a_name x, [])])), ROk)
               | _, _ => (tick s, RErr)
               end) >>
     iocopy fuel src_read dst_write >> copyZip fuel rest) s
  end.

(** internal/archive/archive.go:49-74 [Copy]: the cases by the dynamic types; a nopCloser has none of the
    methods asked for. *)
Definition Copy (tmp : str) (fuel : nat) (s : st) : st * res :=
  let r := s_src s in
  match rd_wrapped r, rd_format r, w_format (s_dst s) with
  | false, Tar, Tar => copyTar fuel s
  | false, Zip, Zip => copyZip fuel (rd_files r) s
  | false, Gzip, Gzip => iocopy fuel src_read dst_write s
  | _, _, _ => copyBuffer tmp fuel s
  end.
End Env.

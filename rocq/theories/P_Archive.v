(** C46: archive.Copy. *)
From Verif Require Import GoStr ArchModel ArchSpec ArchProofs.

(** An empty name makes copyBuffer use the name of its temporary file. *)
Definition named (s : st) : Prop :=
  forall x, In x (rd_files (s_src s)) -> a_name x = [] -> rd_wrapped (s_src s) = false /\ w_format (s_dst s) = rd_format (s_src s).

(** C46. A copy that reports success has appended exactly the files of the source (without the
    directories from tar to tar), in order, with their names and contents. Missing: sources with an empty
    file name, see [C46_empty_name_refuted]. *)
Theorem C46_copied_partial : forall E tmp fuel s s',
  fresh (s_src s) -> accepts_many (s_dst s) -> named s ->
  Copy E tmp fuel s = (s', ROk) ->
  files_in (s_dst s') = files_in (s_dst s) ++ map plain_file (to_copy (s_src s) (s_dst s)) /\ w_format (s_dst s') = w_format (s_dst s).
Proof.
  intros E tmp fuel s s' FR AM NE H. destruct (Copy_ok E tmp fuel s s' ROk FR AM NE H) as (F & _ & l & A & _ & OK).
  rewrite <- (OK eq_refl). auto.
Qed.
Print Assumptions C46_copied_partial.

(** C46. Whatever fails, the copy does not panic, what was in the destination stays, and what is added is
    the beginning of what was to be copied, the last file possibly cut short. *)
Theorem C46_cut_short_partial : forall E tmp fuel s s' r,
  fresh (s_src s) -> accepts_many (s_dst s) -> named s ->
  Copy E tmp fuel s = (s', r) ->
  r <> RPanic /\ exists l, files_in (s_dst s') = files_in (s_dst s) ++ l /\ cut_short l (map plain_file (to_copy (s_src s) (s_dst s))).
Proof.
  intros E tmp fuel s s' r FR AM NE H. destruct (Copy_ok E tmp fuel s s' r FR AM NE H) as (_ & NP & l & A & C & _). eauto.
Qed.
Print Assumptions C46_cut_short_partial.

(** C46. Without faults the copy succeeds, in time linear in the files copied. *)
Theorem C46_succeeds_partial : forall E tmp s,
  fresh (s_src s) -> ready_dst (s_dst s) -> named s -> (forall x, In x (rd_files (s_src s)) -> can_take (s_dst s) x) -> no_faults E ->
  forall fuel, length (rd_files (s_src s)) + length (flat_map a_data (rd_files (s_src s))) < fuel ->
  exists s', Copy E tmp fuel s = (s', ROk) /\
    files_in (s_dst s') = files_in (s_dst s) ++ map plain_file (to_copy (s_src s) (s_dst s)).
Proof.
  intros E tmp s FR RD NE CT NF fuel FU. destruct (Copy_total E NF tmp s FR RD NE CT fuel FU) as [s' H]. exists s'. split; [exact H|].
  apply (C46_copied_partial E tmp fuel s s'); auto. destruct (s_dst s); cbn in *; auto.
Qed.
Print Assumptions C46_succeeds_partial.

(** C46. A new gzip destination takes at most one file when the source is not itself an unwrapped gzip
    reader: nothing but (the beginning of) the first file gets in, and success means there was no other. *)
Theorem C46_gzip_one_file_partial : forall E tmp fuel s s' r n,
  fresh (s_src s) -> s_dst s = WGzip n false [] -> rd_format (s_src s) <> Gzip \/ rd_wrapped (s_src s) = true ->
  Copy E tmp fuel s = (s', r) ->
  r <> RPanic /\
  (files_in (s_dst s') = [] /\ (r = ROk -> rd_files (s_src s) = []) \/
   exists x rest q q', rd_files (s_src s) = x :: rest /\ a_data x = q ++ q' /\ files_in (s_dst s') = [(a_name x, q)] /\ (r = ROk -> q' = [] /\ rest = [])).
Proof.
  intros E tmp fuel s s' r n FR DS BUF H. destruct (Copy_gzip E tmp fuel s s' r n FR DS BUF H) as [NP [[A B]|(x & rest & q & q' & A & B & C & D)]]; (split; [exact NP|]).
  - left. rewrite A, DS. auto.
  - right. exists x, rest, q, q'. rewrite C. auto.
Qed.
Print Assumptions C46_gzip_one_file_partial.

Definition fine : env := fun _ => Good 2.
Definition f1 := mkFile $"a" false $"hello".
Definition f2 := mkFile $"b" false $"xy".
Definition fd := mkFile $"d/" true [].

(** C46 refuted. A file without a name gets that of the temporary file. *)
Theorem C46_empty_name_refuted : exists E tmp fuel s s',
  fresh (s_src s) /\ accepts_many (s_dst s) /\ no_faults E /\ Copy E tmp fuel s = (s', ROk) /\
  files_in (s_dst s) = [] /\ map plain_file (to_copy (s_src s) (s_dst s)) = [([], $"hello")] /\ files_in (s_dst s') = [($"archive_copy_buffer1", $"hello")].
Proof.
  exists fine, $"archive_copy_buffer1", 20, (mkSt 0 (new_reader Gzip false [mkFile [] false $"hello"]) [] 0 (WTar [] 0)).
  eexists. split; [split; [reflexivity|]; eexists; split; reflexivity|]. split; [exact I|]. split; [intros t; exists 2; reflexivity|].
  split; [vm_compute; reflexivity|]. split; [reflexivity|]. split; reflexivity.
Qed.
Print Assumptions C46_empty_name_refuted.

(** C46 refuted. From gzip to gzip NextFile is not called: a gzip destination takes two files without an
    error, their contents run together and their names are lost. *)
Theorem C46_gzip_two_files_refuted : exists E tmp fuel s s1 s',
  fresh (s_src s) /\ no_faults E /\ s_dst s = WGzip [] false [] /\
  Copy E tmp fuel s = (s1, ROk) /\ Copy E tmp fuel (set_src s1 (new_reader Gzip false [f2])) = (s', ROk) /\
  map plain_file (rd_files (s_src s)) = [($"a", $"hello")] /\ files_in (s_dst s1) = [([], $"hello")] /\ files_in (s_dst s') = [([], $"helloxy")].
Proof.
  exists fine, $"t", 20, (mkSt 0 (new_reader Gzip false [f1]) [] 0 (WGzip [] false [])).
  eexists. eexists. split; [split; [reflexivity|]; eexists; split; reflexivity|]. split; [intros t; exists 2; reflexivity|]. split; [reflexivity|].
  split; [vm_compute; reflexivity|]. split; [vm_compute; reflexivity|]. split; [reflexivity|]. split; reflexivity.
Qed.
Print Assumptions C46_gzip_two_files_refuted.

(** Examples: from tar to tar, tar to zip, zip to zip, gzip to tar; a fault in the second file; a gzip
    destination refusing the second file. *)
Definition run1 (E : env) (src : reader) (dst : writer) : list (str * str) * res :=
  let '(s, r) := Copy E $"tmp1" 40 (mkSt 0 src [] 0 dst) in (files_in (s_dst s), r).
Example C46_ex_tar_tar : run1 fine (new_reader Tar false [fd; f1; f2]) (WTar [($"z", $"1")] 0) = ([($"z", $"1"); ($"a", $"hello"); ($"b", $"xy")], ROk).
Proof. reflexivity. Qed.
Example C46_ex_tar_zip : run1 fine (new_reader Tar false [f1; fd; f2]) (WZip [($"z", $"1")]) = ([($"z", $"1"); ($"a", $"hello"); ($"d/", []); ($"b", $"xy")], ROk).
Proof. reflexivity. Qed.
Example C46_ex_zip_zip : run1 fine (new_reader Zip false [f2; fd; f1]) (WZip []) = ([($"b", $"xy"); ($"d/", []); ($"a", $"hello")], ROk).
Proof. reflexivity. Qed.
Example C46_ex_gzip_tar : run1 fine (new_reader Gzip true [f1]) (WTar [] 0) = ([($"a", $"hello")], ROk).
Proof. reflexivity. Qed.
Example C46_ex_fault : run1 (fun t => if Nat.eqb t 6 then Bad 1 else Good 0) (new_reader Zip false [f2; f1]) (WZip []) = ([($"b", $"xy")], RErr).
Proof. reflexivity. Qed.
Example C46_ex_cut : run1 (fun t => if Nat.eqb t 12 then Bad 0 else Good 0) (new_reader Zip false [f2; f1]) (WZip []) = ([($"b", $"xy"); ($"a", $"h")], RErr).
Proof. reflexivity. Qed.
Example C46_ex_gzip_one : run1 fine (new_reader Tar false [f1]) (WGzip [] false []) = ([($"a", $"hello")], ROk).
Proof. reflexivity. Qed.
Example C46_ex_gzip_refuses : run1 fine (new_reader Tar false [f1; f2]) (WGzip [] false []) = ([($"a", $"hello")], RErr).
Proof. reflexivity. Qed.
Example C46_ex_hyps : let s := mkSt 0 (new_reader Tar false [f1; fd; f2]) [] 0 (WZip [($"z", $"1")]) in
  fresh (s_src s) /\ ready_dst (s_dst s) /\ named s /\ (forall x, In x (rd_files (s_src s)) -> can_take (s_dst s) x) /\ no_faults fine.
Proof.
  cbv zeta. split; [split; [reflexivity|exact I]|]. split; [exact I|]. split.
  - intros x [<- |[<- |[<- |[]]]]; discriminate.
  - split; [intros x [<- |[<- |[<- |[]]]] [dir E]; first [reflexivity|destruct dir as [|? [|? ?]]; discriminate E]|]. intros t; exists 2; reflexivity.
Qed.

(** Properties C36 to C42 and C49: files rolled by size, and what any rolling does to a directory. *)
From Verif Require Import GoStr Strconv StrconvProofs LevelModel ConfModel ConfProofs RollModel RollSpec RollProofs RollSizeProofs
  RollExec RollRunProofs RollDirProofs.
From Coq Require Import Permutation Sorted.
Local Open Scope Z_scope.

(** Examples: log file a, backups a.1, a.2 or 1.a, 2.a. *)
Definition exc (k : roll_kind) (mr : Z) (mode : name_mode) (ar : archive_type) : roll_conf := {|
  rc_kind := k; rc_dir := $"logs/"; rc_file := $"a"; rc_archive := ar; rc_archivePath := $"logs/"; rc_archiveExploded := false;
  rc_fullName := false; rc_maxRolls := mr; rc_nameMode := mode;
  rc_dirPerm := defaultDirectoryPermissions; rc_filePerm := defaultFilePermissions; rc_backPerm := defaultBackupPermissions |}.
Definition noP : tparse := fun _ _ => None.
(** The history, whether all went well, and what is there under some names. *)
Definition show (P : tparse) (c : roll_conf) (hs : list shop) (s : sim) (names : list str) : option (list hop * bool * list (option entry)) :=
  match execs P c w_new hs s with
  | Some (l, _, s', tr) => Some (l, forallb smoothb tr, map (s_dir s') names)
  | None => None
  end.
Lemma show_happens P c hs s names l ok es : finite (s_dir s) (s_names s) -> show P c hs s names = Some (l, ok, es) ->
  exists f' w', happens P c (if ok then smooth else any) (fs_of s) w_new l f' w' /\ map (f_dir f') names = es.
Proof.
  intros F H. unfold show in H. destruct (execs P c w_new hs s) as [[[[l' w'] s'] tr]|] eqn:E; [|discriminate].
  injection H as <- <- <-. exists (fs_of s'), w'. split; [|reflexivity].
  apply (execs_sound P c _ _ _ _ _ _ _ _ F E). destruct (forallb smoothb tr) eqn:S; [now apply smoothb_ok|].
  apply Forall_forall. intros x _. exact I.
Qed.

(** ** C36 *)
(** Outputs made from a configuration satisfy what the theorems below ask for. Sizes of more than 20
    characters may overflow to a negative limit (C18). *)
Theorem C36_configured : forall up cfg o c, NewRollingOutput up cfg = Created o -> os_sink o = SinkRolling c ->
  rc_fullName c = false /\ rc_archiveExploded c = false /\
  (forall m, rc_kind c = BySize m -> (length (cget ($"size") cfg) <= 20)%nat -> 0 < m).
Proof.
  intros up cfg o c H S. unfold NewRollingOutput in H.
  destruct (str_eqb (cfg_Type cfg) _); [|destruct (str_eqb (cfg_Type cfg) _); [|discriminate]];
    injection H as <-; cbn in S; injection S as <-; cbn; (split; [reflexivity|split; [reflexivity|]]); intros m [= <-] L.
  now apply maxSize_short_pos.
Qed.
Print Assumptions C36_configured.
(** Any history of writes and restarts without faults does to the directory what [log_step] says:
    append, or make a new backup, keep the newest maxRolls and start a new file. *)
Theorem C36_as_specified : forall P c m f hs f' w' l, rc_kind c = BySize m -> 0 < m -> tmp_ok c ->
  happens P c smooth f w_new hs f' w' -> (forall b, ~ In (HCrash b) hs) ->
  holds c (f_dir f) l -> room (l_backups l) (length hs) ->
  exists l' o', steps (log_step m (rc_maxRolls c)) (l, false) hs (l', o') /\ holds c (f_dir f') l'.
Proof.
  intros P c m f hs f' w' l K MP TO H NC HO RM.
  destruct (smooth_history P c m K _ _ _ _ _ _ _ MP TO H NC (winv_new c l) HO RM) as (l' & o' & S & HO' & _). eauto.
Qed.
Print Assumptions C36_as_specified.
(** From no log file: the files are the segments of the written chunks, in order. *)
Theorem C36_split_at_writes : forall P c m f hs f' w', rc_kind c = BySize m -> 0 < m -> tmp_ok c ->
  happens P c smooth f w_new hs f' w' -> (forall h, In h hs -> exists b k e, h = HWrite b k e) ->
  holds c (f_dir f) (mkLog [] None) -> Z.of_nat (length hs) < 2 ^ 63 ->
  exists files cur l, segments m (flat_map chunk_of hs) files cur /\
    holds c (f_dir f') l /\ l_backups l = newest (rc_maxRolls c) (numbered files) /\ bytes (l_current l) = concat cur.
Proof.
  intros P c m f hs f' w' K MP TO H HW HO RM.
  assert (NC : forall b, ~ In (HCrash b) hs). { intros b I. destruct (HW _ I) as (x & k & e & X). discriminate. }
  destruct (C36_as_specified P c m f hs f' w' _ K MP TO H NC HO) as (l' & o' & S & HO'); [split; [constructor|exact RM]|].
  apply log_segments in S as (files & cur & SG & B & C & _); [|exact MP|].
  - exists files, cur, l'. auto.
  - intros h I ->. destruct (HW _ I) as (x & k & e & X). discriminate.
Qed.
Print Assumptions C36_split_at_writes.
(** Segments: nothing is lost, reordered or split; a file is closed exactly when it has reached the
    limit. *)
Theorem C36_segments : forall limit cs files cur, 0 < limit -> segments limit cs files cur ->
  concat files ++ cur = cs /\
  Forall (fun f => limit <= size f /\ size (removelast f) < limit) files /\ size (removelast cur) < limit.
Proof. exact segments_facts. Qed.
Print Assumptions C36_segments.
(** ... and this determines them. *)
Theorem C36_segments_unique : forall limit cs files cur files' cur', segments limit cs files cur ->
  segments limit cs files' cur' -> files = files' /\ cur = cur'.
Proof.
  intros limit cs files cur files' cur' S. revert files' cur'.
  induction S as [|cs fs cur b S IH L|cs fs cur b S IH L]; intros files' cur' S'.
  - inversion S' as [E|? ? ? ? ? ? E|? ? ? ? ? ? E]; [auto|destruct cs; discriminate|destruct cs; discriminate].
  - inversion S' as [E|cs' fs' c2 b' S2 L2 E|cs' fs' c2 b' S2 L2 E]; subst; [destruct cs; discriminate| |];
      apply app_inj_tail in E as [-> ->]; destruct (IH _ _ S2) as [-> ->]; [auto|lia].
  - inversion S' as [E|cs' fs' c2 b' S2 L2 E|cs' fs' c2 b' S2 L2 E]; subst; [destruct cs; discriminate| |];
      apply app_inj_tail in E as [-> ->]; destruct (IH _ _ S2) as [-> ->]; [lia|auto].
Qed.
Print Assumptions C36_segments_unique.
(** Such histories exist: no write need fail for reasons of its own, whatever the directory. *)
Theorem C36_writes_can_succeed : forall P c m f l ws, rc_kind c = BySize m -> 0 < m -> tmp_ok c ->
  holds c (f_dir f) l -> room (l_backups l) (length ws) -> (exists l, lists (f_dir f) l) ->
  exists f' w', happens P c smooth f w_new (map (fun b => HWrite b (length b) false) ws) f' w'.
Proof.
  intros P c m f l ws K MP TO HO RM [ns [ND LS]].
  destruct (history_exists P c m w_new l false f (map Some ws) K MP TO (winv_new c l) HO) as (f' & w' & H).
  - now rewrite map_length.
  - exists (map fst ns). split; [exact ND|]. intros n D. destruct (f_dir f n) as [x|] eqn:E; [|contradiction].
    apply in_map_iff. exists (n, is_reg x). split; [reflexivity|]. apply LS. eauto.
  - exists f', w'. rewrite map_map in H. exact H.
Qed.
Print Assumptions C36_writes_can_succeed.
Example C36_ex : show noP (exc (BySize 3) 2 Prefix ArchiveNone) (map (fun b => SWrite b) [$"ab"; $"cd"; $"e"; $"fghi"; $"j"; $"klm"; $"n"])
    (sim_of [($"x", Dir)] ADir [] []) [$"1.a"; $"2.a"; $"3.a"; $"4.a"; $"a"; $"x"] =
  Some ([HWrite ($"ab") 2 false; HWrite ($"cd") 2 false; HWrite ($"e") 1 false; HWrite ($"fghi") 4 false; HWrite ($"j") 1 false;
         HWrite ($"klm") 3 false; HWrite ($"n") 1 false], true,
    [None; Some (Reg ($"efghi")); Some (Reg ($"jklm")); None; Some (Reg ($"n")); Some Dir]).
Proof. vm_compute. reflexivity. Qed.

(** ** C37 *)
(** Whatever the directory and the faults: a backup keeps its content, or is removed; then maxRolls is
    positive and there are maxRolls others with numbers at least as great, all still there. *)
Theorem C37_only_the_oldest : forall P c m f0 hs f w b tr f' n z y, rc_kind c = BySize m ->
  happens P c any f0 w_new hs f w -> partly (rw_Write P c w b) f tr f' ->
  roomy P c (f_dir f) -> backup P c n z -> f_dir f n = Some (Reg y) ->
  f_dir f' n = Some (Reg y) \/
  (f_dir f' n = None /\ 0 < rc_maxRolls c /\
   exists l, NoDup l /\ Z.of_nat (length l) = rc_maxRolls c /\
     forall n', In n' l -> n' <> n /\ f_dir f' n' <> None /\ exists z', backup P c n' z' /\ z <= z').
Proof.
  intros P c m f0 hs f w b tr f' n z y K H G RM B D.
  apply partly_goes in G. apply happens_ok in H; [|right; eauto|now apply w_ok_none].
  destruct (size_dir P c m K _ _ _ _ _ _ _ _ _ H RM G B D) as [X|(X & _ & MR & l & ND & L & Q)]; [auto|].
  right. split; [exact X|]. split; [exact MR|]. exists l. split; [exact ND|]. split; [exact L|].
  intros n' I. destruct (Q n' I) as (z' & B' & ZZ & NN & _ & E). repeat split; eauto.
Qed.
Print Assumptions C37_only_the_oldest.
(** After a write that rolled without faults at most maxRolls backups are there. *)
Theorem C37_at_most_maxRolls : forall P c m f0 hs f w b tr f' w' k l, rc_kind c = BySize m ->
  happens P c any f0 w_new hs f w -> runs (rw_Write P c w b) f tr f' (w', (k, false)) -> Forall smooth tr ->
  roomy P c (f_dir f) -> (exists from to, In (ORename from to, ROk) tr) -> 0 < rc_maxRolls c ->
  NoDup l -> (forall n, In n l -> exists z y, backup P c n z /\ f_dir f' n = Some (Reg y)) ->
  Z.of_nat (length l) <= rc_maxRolls c.
Proof.
  intros P c m f0 hs f w b tr f' w' k l K H G S RM (from & to & RN) MR ND L.
  apply happens_ok in H; [|right; eauto|now apply w_ok_none].
  apply (size_bound P c m K _ _ _ _ _ _ _ _ H RM G S); auto.
  destruct (Z.lt_ge_cases (w_size w) m) as [LT|GE]; [exfalso|exact GE].
  now apply (no_roll_no_rename P c m K _ _ _ _ _ _ LT G from to).
Qed.
Print Assumptions C37_at_most_maxRolls.
(** 10 is newer than 9; the sign and leading zeros count as part of numbers; names that are not
    numbers are not backups. *)
Example C37_ex : show noP (exc (BySize 1) 3 Postfix ArchiveNone) [SWrite ($"u"); SWrite ($"v")]
    (sim_of [($"a", Reg []); ($"a.10", Reg ($"ten")); ($"a.9", Reg ($"nine")); ($"a.07", Reg ($"seven")); ($"a.-1", Reg ($"minus"));
             ($"a.x", Reg ($"x")); ($"a.1e3", Reg ($"e")); ($"a.", Reg ($"dot")); ($"b.1", Reg ($"b"))] ADir [] [])
    [$"a"; $"a.11"; $"a.10"; $"a.9"; $"a.07"; $"a.-1"; $"a.x"; $"a.1e3"; $"a."; $"b.1"] =
  Some ([HWrite ($"u") 1 false; HWrite ($"v") 1 false], true,
    [Some (Reg ($"v")); Some (Reg ($"u")); Some (Reg ($"ten")); Some (Reg ($"nine")); None; None;
     Some (Reg ($"x")); Some (Reg ($"e")); Some (Reg ($"dot")); Some (Reg ($"b"))]).
Proof. vm_compute. reflexivity. Qed.

(** ** C38 *)
(** Through any history with any faults, crashes and restarts: entries under other names than the log
    file's and its backups' are as before. Missing: the temporary directory of archiving. *)
Theorem C38_other_files_partial : forall P c (good : fsop * fsres -> Prop) f hs f' w' n, rc_fullName c = false -> (forall x, good x -> clock_parses P c x) ->
  happens P c good f w_new hs f' w' ->
  n <> rc_file c -> (forall z, ~ backup P c n z) -> (rc_archive c = ArchiveNone \/ n <> $".log4g_tmp") ->
  f_dir f' n = f_dir f n.
Proof.
  intros P c good f hs f' w' n FN GC H NF NB NT.
  apply (foreign_history P c good f w_new hs f' w' n (or_introl FN) GC H); auto. now apply w_ok_none.
Qed.
Print Assumptions C38_other_files_partial.
(** With a configured archive a directory .log4g_tmp is made among the log files. *)
Theorem C38_archive_leaves_a_directory_refuted :
  exists up cfg o P c f hs f' w', NewRollingOutput up cfg = Created o /\ os_sink o = SinkRolling c /\
    happens P c smooth f w_new hs f' w' /\
    rc_file c <> $".log4g_tmp" /\ (forall z, ~ backup P c ($".log4g_tmp") z) /\
    f_dir f ($".log4g_tmp") = None /\ f_dir f' ($".log4g_tmp") = Some Dir.
Proof.
  set (cfg := Some [($"type", $"size_rolling_file"); ($"file", $"logs/a"); ($"size", $"1"); ($"backups", $"1"); ($"archive", $"zip")] : cfgmap).
  destruct (NewRollingOutput (fun r => r) cfg) as [o| |] eqn:N; try discriminate.
  exists (fun r => r), cfg, o, noP, (exc (BySize 1) 1 Postfix ArchiveZip).
  destruct (show_happens noP (exc (BySize 1) 1 Postfix ArchiveZip) [SWrite ($"u"); SWrite ($"v"); SWrite ($"w")] (sim_of [] ADir [] []) [$".log4g_tmp"]
    [HWrite ($"u") 1 false; HWrite ($"v") 1 false; HWrite ($"w") 1 false] true [Some Dir]) as (f' & w' & H & E).
  - apply sim_finite. constructor.
  - vm_compute. reflexivity.
  - exists (fs_of (sim_of [] ADir [] [])), [HWrite ($"u") 1 false; HWrite ($"v") 1 false; HWrite ($"w") 1 false], f', w'.
    split; [exact N|]. split; [vm_compute in N; injection N as <-; reflexivity|]. split; [exact H|].
    split; [discriminate|]. split; [|split; [reflexivity|now injection E]].
    intros z (r & B & _). discriminate.
Qed.
Print Assumptions C38_archive_leaves_a_directory_refuted.
Example C38_ex : exists f' w', happens noP (exc (BySize 1) 1 Prefix ArchiveNone) any
    (fs_of (sim_of [($"x.a", Reg ($"x")); ($"a.1", Reg ($"y")); ($"0x1.a", Special)] ADir [true; true; true; true; true; false] [])) w_new
    [HWrite ($"u") 1 false; HWrite ($"v") 0 true; HRestart; HWrite ($"w") 1 false; HWrite ($"z") 1 false] f' w' /\
    map (f_dir f') [$"x.a"; $"a.1"; $"0x1.a"; $"1.a"; $"a"] =
      [Some (Reg ($"x")); Some (Reg ($"y")); Some Special; Some (Reg ($"uw")); Some (Reg ($"z"))].
Proof.
  apply (show_happens noP _ [SWrite ($"u"); SWrite ($"v"); SRestart; SWrite ($"w"); SWrite ($"z")]
    (sim_of [($"x.a", Reg ($"x")); ($"a.1", Reg ($"y")); ($"0x1.a", Special)] ADir [true; true; true; true; true; false] []) _ _ false).
  - apply sim_finite. repeat constructor; cbn; intuition discriminate.
  - vm_compute. reflexivity.
Qed.

(** ** C39 *)
(** Rolling by size overwrites no regular file and no directory, as long as no backup has the greatest
    number: an entry stays as it is, unless retention removes it. Missing: see the refutations. *)
Theorem C39_nothing_overwritten_partial : forall P c m f0 hs f w b tr f' n e, rc_kind c = BySize m ->
  happens P c any f0 w_new hs f w -> partly (rw_Write P c w b) f tr f' ->
  roomy P c (f_dir f) -> n <> rc_file c -> f_dir f n = Some e -> e <> Special ->
  f_dir f' n = Some e \/ (f_dir f' n = None /\ 0 < rc_maxRolls c /\ (exists z, backup P c n z) /\ exists y, e = Reg y).
Proof.
  intros P c m f0 hs f w b tr f' n e K H G RM NF D NS.
  apply partly_goes in G. apply happens_ok in H; [|right; eauto|now apply w_ok_none].
  exact (size_keep P c m K _ _ _ _ _ _ _ _ H RM G NF D NS).
Qed.
Print Assumptions C39_nothing_overwritten_partial.
Lemma overwritten_ex l (n : str) (y : entry) hs out : NoDup (map fst l) -> forall P c,
  show P c hs (sim_of l ADir [] []) [n] = Some (out, true, [Some y]) ->
  exists f' w', happens P c smooth (fs_of (sim_of l ADir [] [])) w_new out f' w' /\ f_dir f' n = Some y.
Proof.
  intros ND P c S. apply show_happens in S as (f' & w' & H & E); [|now apply sim_finite].
  exists f', w'. split; [exact H|]. now injection E.
Qed.
(** A symbolic link with the name of the next backup is not seen in the listing, and replaced. *)
Theorem C39_symlink_refuted : exists P c m f b1 b2 f' w' n z, rc_kind c = BySize m /\ rc_maxRolls c = 0 /\
  happens P c smooth f w_new [HWrite b1 (length b1) false; HWrite b2 (length b2) false] f' w' /\
  backup P c n z /\ f_dir f n = Some Special /\ f_dir f' n = Some (Reg b1).
Proof.
  destruct (overwritten_ex [($"a.1", Special)] ($"a.1") (Reg ($"u")) [SWrite ($"u"); SWrite ($"v")]
    [HWrite ($"u") 1 false; HWrite ($"v") 1 false] ltac:(repeat constructor; cbn; intuition discriminate) noP (exc (BySize 1) 0 Postfix ArchiveNone)
    ltac:(vm_compute; reflexivity)) as (f' & w' & H & E).
  exists noP, (exc (BySize 1) 0 Postfix ArchiveNone), 1, (fs_of (sim_of [($"a.1", Special)] ADir [] [])), ($"u"), ($"v"), f', w', ($"a.1"), 1.
  split; [reflexivity|]. split; [reflexivity|]. split; [exact H|]. split; [|split; [reflexivity|exact E]].
  exists ($"1"). split; [reflexivity|]. apply (numeral_Itoa 1). lia.
Qed.
Print Assumptions C39_symlink_refuted.
(** After the greatest number comes the smallest, which may be there. *)
Theorem C39_wrap_refuted : exists P c m f b1 b2 f' w' n z y, rc_kind c = BySize m /\ rc_maxRolls c = 0 /\
  happens P c smooth f w_new [HWrite b1 (length b1) false; HWrite b2 (length b2) false] f' w' /\
  backup P c n z /\ f_dir f n = Some (Reg y) /\ y <> b1 /\ f_dir f' n = Some (Reg b1).
Proof.
  set (l := [($"a.9223372036854775807", Reg ($"x")); ($"a.-9223372036854775808", Reg ($"y"))]).
  destruct (overwritten_ex l ($"a.-9223372036854775808") (Reg ($"u")) [SWrite ($"u"); SWrite ($"v")]
    [HWrite ($"u") 1 false; HWrite ($"v") 1 false] ltac:(repeat constructor; cbn; intuition discriminate) noP (exc (BySize 1) 0 Postfix ArchiveNone)
    ltac:(vm_compute; reflexivity)) as (f' & w' & H & E).
  exists noP, (exc (BySize 1) 0 Postfix ArchiveNone), 1, (fs_of (sim_of l ADir [] [])), ($"u"), ($"v"), f', w', ($"a.-9223372036854775808"), (- 2 ^ 63), ($"y").
  split; [reflexivity|]. split; [reflexivity|]. split; [exact H|]. split; [|split; [reflexivity|split; [discriminate|exact E]]].
  exists ($"-9223372036854775808"). split; [reflexivity|]. apply (numeral_Itoa (- 2 ^ 63)). lia.
Qed.
Print Assumptions C39_wrap_refuted.
Example C39_ex : show noP (exc (BySize 1) 0 Postfix ArchiveNone) [SWrite ($"u"); SWrite ($"v")]
    (sim_of [($"a.2", Reg ($"two")); ($"a.+3", Reg ($"three")); ($"a.5", Dir)] ADir [] []) [$"a.2"; $"a.+3"; $"a.4"; $"a.5"; $"a"] =
  Some ([HWrite ($"u") 1 false; HWrite ($"v") 1 false], true,
    [Some (Reg ($"two")); Some (Reg ($"three")); Some (Reg ($"u")); Some Dir; Some (Reg ($"v"))]).
Proof. vm_compute. reflexivity. Qed.

(** ** C40 *)
(** Crashes between any two operations, faults anywhere, restarts: the directory always holds a log that
    [fault_step] allows. *)
Theorem C40_any_faults : forall P c m good f hs f' w' l, rc_kind c = BySize m -> tmp_ok c ->
  happens P c good f w_new hs f' w' -> holds c (f_dir f) l -> room (l_backups l) (length hs) ->
  exists l', steps (fault_step (rc_maxRolls c)) l hs l' /\ holds c (f_dir f') l'.
Proof.
  intros P c m good f hs f' w' l K TO H HO RM.
  destruct (fault_history P c m K good _ _ _ _ _ _ TO H (w_ok_none c w_new eq_refl) HO RM) as (l' & S & HO' & _). eauto.
Qed.
Print Assumptions C40_any_faults.
(** Unless retention is on, everything is still there, in order: of finished writes what they said they
    wrote, of interrupted writes some beginning. *)
Theorem C40_nothing_lost : forall P c m good f hs f' w' l, rc_kind c = BySize m -> tmp_ok c -> rc_maxRolls c <= 0 ->
  happens P c good f w_new hs f' w' -> holds c (f_dir f) l -> room (l_backups l) (length hs) ->
  exists l' ps, holds c (f_dir f') l' /\ parts hs ps /\ on_disk l' = on_disk l ++ concat ps.
Proof.
  intros P c m good f hs f' w' l K TO MR H HO RM.
  destruct (C40_any_faults P c m good f hs f' w' l K TO H HO RM) as (l' & S & HO').
  apply steps_disk in S as (ps & PA & E); [|exact MR]. exists l', ps. auto.
Qed.
Print Assumptions C40_nothing_lost.
(** With retention: a backup that is gone was, at some moment, not among the newest maxRolls. *)
Theorem C40_lost_only_to_retention : forall m l b k l' p, put m b k l l' -> In p (l_backups l) ->
  In p (l_backups l') \/
  exists n cur, l_current l = Some cur /\ next_number (l_backups l) n /\ In p (oldest m (l_backups l ++ [(n, cur)])).
Proof.
  intros m l b k l' p PT I. destruct PT as [l E|bs cur KL|bs cur n keep new NX KL NW]; cbn [l_backups l_current] in *; auto.
  assert (J : In p (bs ++ [(n, cur)])) by (apply in_or_app; now left).
  rewrite <- (split_old m (bs ++ [(n, cur)])) in J. apply in_app_or in J as [J|J].
  - right. exists n, cur. auto.
  - left. apply in_or_app. now right.
Qed.
Print Assumptions C40_lost_only_to_retention.
(** A write interrupted after renaming, before creating the new file, and one in retention. *)
Example C40_ex : show noP (exc (BySize 1) 1 Postfix ArchiveNone) [SWrite ($"u"); SCrash ($"v") 4; SWrite ($"w"); SCrash ($"x") 5]
    (sim_of [] ADir [] []) [$"a.1"; $"a.2"; $"a"] =
  Some ([HWrite ($"u") 1 false; HCrash ($"v"); HWrite ($"w") 1 false; HCrash ($"x")], true,
    [Some (Reg ($"u")); Some (Reg ($"w")); None]).
Proof. vm_compute. reflexivity. Qed.

(** ** C41 *)
(** No later write of this process succeeds. *)
Definition stuck (P : tparse) (c : roll_conf) (f : fs) (w : wst) : Prop :=
  forall hs f' w', happens P c any f w hs f' w' -> (forall h, In h hs -> exists b k e, h = HWrite b k e) ->
    f' = f /\ forall b k e, In (HWrite b k e) hs -> k = 0%nat /\ e = true.
Lemma dead_stuck P c m f w : rc_kind c = BySize m -> w_ok c w -> dead c m w -> stuck P c f w.
Proof.
  intros K OK D hs f' w' H. revert OK D.
  induction H as [f w|f w b tr f1 w1 k err hs f2 w2 R S HS IH|f w b tr f1 hs f2 w2 R S HS IH|f w hs f2 w2 HS IH]; intros OK D HW.
  - split; [reflexivity|]. intros b k e [].
  - destruct (dead_write P c m K _ _ _ _ _ _ _ _ OK D R) as (OK1 & D1 & -> & -> & ->).
    destruct (IH OK1 D1) as [-> Q]; [intros h I; apply HW; now right|]. split; [reflexivity|].
    intros b' k' e' [X|I]; [injection X as <- <- <-; auto|eauto].
  - destruct (HW (HCrash b) (or_introl eq_refl)) as (x & k & e & X). discriminate.
  - destruct (HW HRestart (or_introl eq_refl)) as (x & k & e & X). discriminate.
Qed.
Lemma nth_error_split' {A} (l : list A) i x : nth_error l i = Some x -> l = firstn i l ++ x :: skipn (S i) l.
Proof.
  revert i. induction l as [|y l IH]; intros [|i] H; try discriminate; cbn in *; [congruence|]. f_equal. now apply IH.
Qed.
(** Runs the first write and then, with the script, the second. *)
Lemma stuck_ex script o i :
  let c := exc (BySize 1) 0 Postfix ArchiveNone in
  (match execs noP c w_new [SWrite ($"u")] (sim_of [] ADir (repeat true 4 ++ script) []) with
   | Some (l, w1, s1, tr0) =>
     match exec (rw_Write noP c w1 ($"v")) s1 with
     | Some ((w2, (k, e)), tr, s2) => l = [HWrite ($"u") 1 false] /\ forallb smoothb tr0 = true /\
         k = 0%nat /\ e = true /\ nth_error tr i = Some (o, RErr) /\
         forallb smoothb (firstn i tr) = true /\ forallb smoothb (skipn (S i) tr) = true /\ w_size w2 = 1 /\
         w_file w2 <> Some (rc_file c, true)
     | None => False
     end
   | None => False
   end) -> ~ smooth (o, RErr) ->
  exists P c m f b1 f1 w1 b2 tr f2 w2, rc_kind c = BySize m /\ 0 < m /\
    happens P c smooth f w_new [HWrite b1 (length b1) false] f1 w1 /\
    runs (rw_Write P c w1 b2) f1 tr f2 (w2, (0%nat, true)) /\
    (exists tr1 r tr2, tr = tr1 ++ (o, r) :: tr2 /\ ~ smooth (o, r) /\ Forall smooth tr1 /\ Forall smooth tr2) /\
    stuck P c f2 w2.
Proof.
  intros c H NS. destruct (execs noP c w_new [SWrite ($"u")] (sim_of [] ADir (repeat true 4 ++ script) [])) as [[[[l w1] s1] tr0]|] eqn:E1; [|destruct H].
  destruct (exec (rw_Write noP c w1 ($"v")) s1) as [[[[w2 [k e]] tr] s2]|] eqn:E2; [|destruct H].
  destruct H as (-> & S0 & -> & -> & N & S1 & S2 & WS & WF).
  assert (TR : tr = firstn i tr ++ (o, RErr) :: skipn (S i) tr) by now apply nth_error_split'.
  assert (F0 : finite (s_dir (sim_of [] ADir (repeat true 4 ++ script) [])) (s_names (sim_of [] ADir (repeat true 4 ++ script) []))) by (apply sim_finite; constructor).
  destruct (execs_sound noP c smooth _ _ _ _ _ _ _ F0 E1 (smoothb_ok _ S0)) as [H1 F1].
  destruct (exec_sound _ _ _ _ _ F1 E2) as [R2 F2].
  exists noP, c, 1, (fs_of (sim_of [] ADir (repeat true 4 ++ script) [])), ($"u"), (fs_of s1), w1, ($"v"), tr, (fs_of s2), w2. split; [reflexivity|]. split; [lia|]. split; [exact H1|]. split; [exact R2|].
  split; [exists (firstn i tr), RErr, (skipn (S i) tr); auto using smoothb_ok|].
  assert (PL : plain c) by (left; reflexivity).
  assert (OK1 : w_ok c w1) by (apply (happens_ok _ _ _ _ _ _ _ _ PL H1); now apply w_ok_none).
  apply (dead_stuck noP c 1); [reflexivity| |split; [lia|exact WF]].
  apply runs_goes in R2. exact (write_ok _ _ _ _ _ _ _ _ _ PL OK1 R2).
Qed.
(** A write fails because of one failing close, listing, rename or open, and no later write succeeds
    until the process is restarted, although nothing else fails. *)
Theorem C41_stuck_after_a_failed_roll_refuted : forall o, In o [OClose; OReadDir; ORename ($"a") ($"a.1"); OOpen ($"a") 384] ->
  exists P c m f b1 f1 w1 b2 tr f2 w2, rc_kind c = BySize m /\ 0 < m /\
    happens P c smooth f w_new [HWrite b1 (length b1) false] f1 w1 /\
    runs (rw_Write P c w1 b2) f1 tr f2 (w2, (0%nat, true)) /\
    (exists tr1 r tr2, tr = tr1 ++ (o, r) :: tr2 /\ ~ smooth (o, r) /\ Forall smooth tr1 /\ Forall smooth tr2) /\
    stuck P c f2 w2.
Proof.
  intros o I. destruct I as [<- |[<- |[<- |[<- |[]]]]].
  - apply (stuck_ex [false] OClose 0); [vm_compute; repeat split; discriminate|cbn; tauto].
  - apply (stuck_ex [true; false] OReadDir 1); [vm_compute; repeat split; discriminate|cbn; tauto].
  - apply (stuck_ex [true; true; false] (ORename ($"a") ($"a.1")) 3); [vm_compute; repeat split; discriminate|cbn; tauto].
  - apply (stuck_ex [true; true; true; true; true; false] (OOpen ($"a") 384) 6); [vm_compute; repeat split; discriminate|cbn; tauto].
Qed.
Print Assumptions C41_stuck_after_a_failed_roll_refuted.
(** After any history whatever: either every write succeeds once the faults are gone, or the writer is
    stuck as above. *)
Theorem C41_succeeds_or_stuck_partial : forall P c m f0 hs f w, rc_kind c = BySize m -> 0 < m ->
  happens P c any f0 w_new hs f w ->
  (forall f b tr f' w' k e, runs (rw_Write P c w b) f tr f' (w', (k, e)) -> Forall smooth tr -> k = length b /\ e = false) \/
  (forall f, stuck P c f w).
Proof.
  intros P c m f0 hs f w K MP H.
  assert (OK : w_ok c w) by (apply (happens_ok _ _ _ _ _ _ _ _ (or_intror (ex_intro _ m K)) H); now apply w_ok_none).
  destruct (live_or_dead P c m any _ _ _ _ K H MP) as [L|D].
  - left. intros f1 b tr f' w' k e R S. exact (live_write P c m w b f1 tr f' w' k e K OK L R S).
  - right. intros f1. exact (dead_stuck P c m f1 w K OK D).
Qed.
Print Assumptions C41_succeeds_or_stuck_partial.
(** Faults in write itself, chmod, removing and archiving leave the writer working; so do crashes and
    restarts. *)
Theorem C41_recovers_from_other_faults_partial : forall P c m f0 hs f w b tr f' w' k e, rc_kind c = BySize m -> 0 < m ->
  happens P c harmless f0 w_new hs f w -> runs (rw_Write P c w b) f tr f' (w', (k, e)) -> Forall smooth tr ->
  k = length b /\ e = false.
Proof.
  intros P c m f0 hs f w b tr f' w' k e K MP H R S.
  assert (PL : plain c) by (right; eauto).
  assert (OK : w_ok c w) by (apply (happens_ok _ _ _ _ _ _ _ _ PL H); now apply w_ok_none).
  assert (MP' : match rc_kind c with BySize m => 0 < m | ByTime _ => True end) by now rewrite K.
  pose proof (alive_history P c PL _ _ _ _ _ MP' H (alive_new c MP')) as AL.
  apply (live_write P c m w b f tr f' w' k e K OK); auto.
  destruct AL as [[A _]|[A B]]; [now left|right]. rewrite K in B. auto.
Qed.
Print Assumptions C41_recovers_from_other_faults_partial.
(** A short write (disk full) is followed by a good one. *)
Example C41_ex : show noP (exc (BySize 9) 0 Postfix ArchiveNone) [SWrite ($"u"); SWrite ($"v"); SWrite ($"w")]
    (sim_of [] ADir [true; true; true; true; false] []) [$"a"] =
  Some ([HWrite ($"u") 1 false; HWrite ($"v") 0 true; HWrite ($"w") 1 false], false, [Some (Reg ($"uw"))]).
Proof. vm_compute. reflexivity. Qed.

(** ** C42 *)
(** The first write of a process appends to the log file, however large it is already. *)
Theorem C42_restart_appends : forall P c m f b k e f' w' l, rc_kind c = BySize m -> 0 < m -> tmp_ok c ->
  happens P c smooth f w_new [HWrite b k e] f' w' -> holds c (f_dir f) l -> room (l_backups l) 1 ->
  holds c (f_dir f') (mkLog (l_backups l) (Some (bytes (l_current l) ++ b))).
Proof.
  intros P c m f b k e f' w' l K MP TO H HO RM.
  destruct (C36_as_specified P c m f _ f' w' l K MP TO H) as (l' & o' & S & HO'); auto.
  { intros x [X|[]]; discriminate. }
  inversion S as [|? ? ? ? ? ST S2]; subst. inversion S2; subst. inversion ST; subst; exact HO'.
Qed.
Print Assumptions C42_restart_appends.
(** Through any history with any faults, crashes and restarts, a backup is one there was or has a greater
    number than all there were. *)
Theorem C42_numbers_go_up : forall P c m good f hs f' w' l, rc_kind c = BySize m -> tmp_ok c ->
  happens P c good f w_new hs f' w' -> holds c (f_dir f) l -> room (l_backups l) (length hs) ->
  exists l', holds c (f_dir f') l' /\
    forall p, In p (l_backups l') -> In p (l_backups l) \/ forall q, In q (l_backups l) -> fst q < fst p.
Proof.
  intros P c m good f hs f' w' l K TO H HO RM.
  destruct (C40_any_faults P c m good f hs f' w' l K TO H HO RM) as (l' & S & HO').
  exists l'. split; [exact HO'|]. apply steps_above with (bs0 := l_backups l) in S; [now destruct S as (_ & _ & S)|].
  destruct HO as ((A & _) & _). split; [exact A|]. split; [|auto]. intros q I. exists q. split; [exact I|lia].
Qed.
Print Assumptions C42_numbers_go_up.
(** The same on any directory, whatever names its backups have: what a write rolls gets a number
    greater than those of all regular backups. *)
Theorem C42_new_number_above_all : forall P c m f0 hs f w b tr f', rc_kind c = BySize m ->
  happens P c any f0 w_new hs f w -> partly (rw_Write P c w b) f tr f' -> roomy P c (f_dir f) ->
  (forall n, n <> rc_file c -> f_dir f' n = f_dir f n) \/
  exists n z e, backup P c n z /\ f_dir f (rc_file c) = Some e /\ f_dir f' n = Some e /\
    forall n' z' y, backup P c n' z' -> f_dir f n' = Some (Reg y) -> z' < z.
Proof.
  intros P c m f0 hs f w b tr f' K H G RM.
  apply partly_goes in G. apply happens_ok in H; [|right; eauto|now apply w_ok_none].
  destruct (size_roll P c m K _ _ _ _ _ _ H RM G) as [X|(n & z & e & B & A & E & E' & _)]; [auto|].
  right. exists n, z, e. auto.
Qed.
Print Assumptions C42_new_number_above_all.
Example C42_ex : show noP (exc (BySize 2) 0 Postfix ArchiveNone) [SWrite ($"uv"); SWrite ($"w"); SRestart; SWrite ($"xy"); SWrite ($"z")]
    (sim_of [($"a", Reg ($"0123")); ($"a.41", Reg ($"q"))] ADir [] []) [$"a.41"; $"a.42"; $"a.43"; $"a"] =
  Some ([HWrite ($"uv") 2 false; HWrite ($"w") 1 false; HRestart; HWrite ($"xy") 2 false; HWrite ($"z") 1 false], true,
    [Some (Reg ($"q")); Some (Reg ($"0123uv")); Some (Reg ($"wxy")); Some (Reg ($"z"))]).
Proof. vm_compute. reflexivity. Qed.

(** ** C49 *)
(** A listing, if there is no error, has every regular file once and nothing else, however the
    directory is read. *)
Theorem C49_complete : forall f tr f' x, runs getDirFilePaths f tr f' x ->
  f' = f /\ (Forall smooth tr -> x <> None) /\
  forall l, x = Some l -> NoDup l /\ forall n, In n l <-> exists b, f_dir f n = Some (Reg b).
Proof.
  intros f tr f' x H. unfold getDirFilePaths in H. apply runs_bind in H as (tr1 & f1 & r & tr2 & -> & H1 & H2).
  apply runs_op in H1 as [-> E]. apply runs_done in H2 as (-> & -> & ->).
  apply eff_readdir in E as [-> [(cs & -> & L)|[(cs & ->)| ->]]]; (split; [reflexivity|]).
  - rewrite dir_loop_ok. split; [discriminate|]. intros l [= <-]. now apply lists_regular.
  - rewrite dir_loop_err. split; [|discriminate]. intros S. inversion S as [|? ? S1 _]; subst. exfalso. apply S1.
    apply in_or_app. right. now left.
  - split; [|discriminate]. intros S. inversion S as [|? ? S1 _]; subst. destruct S1.
Qed.
Print Assumptions C49_complete.
(** Every way of cutting the directory into chunks gives such a listing. *)
Theorem C49_any_chunks : forall f cs, lists (f_dir f) (concat cs) ->
  exists tr l, runs getDirFilePaths f tr f (Some l) /\ In (OReadDir, RDir (map RdSome cs ++ [RdEOF])) tr /\
    l = map fst (filter snd (concat cs)).
Proof.
  intros f cs L. exists ([(OReadDir, RDir (map RdSome cs ++ [RdEOF]))] ++ []), (map fst (filter snd (concat cs))).
  split; [|split; [now left|reflexivity]]. unfold getDirFilePaths.
  apply (bind_runs _ _ f _ f (RDir (map RdSome cs ++ [RdEOF])) _ f); [apply op_runs; constructor; exact L|]. rewrite dir_loop_ok. constructor.
Qed.
Print Assumptions C49_any_chunks.
Example C49_ex : dir_loop [] [RdSome [($"a", true); ($"d", false)]; RdSome []; RdSome [($"b", true)]; RdEOF] = Some [$"a"; $"b"] /\
  lists (dir_of [($"a", Reg []); ($"d", Dir); ($"b", Reg ($"x"))]) (concat [[($"a", true); ($"d", false)]; []; [($"b", true)]]).
Proof.
  split; [reflexivity|].
  apply (listing_lists (dir_of [($"a", Reg []); ($"d", Dir); ($"b", Reg ($"x"))]) [$"a"; $"d"; $"b"]).
  apply (sim_finite [($"a", Reg []); ($"d", Dir); ($"b", Reg ($"x"))]). repeat constructor; cbn; intuition discriminate.
Qed.

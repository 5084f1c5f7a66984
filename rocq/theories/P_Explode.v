(** Property C66: exploded archives. Nothing in a configuration sets archiveExploded; the code for it is there
    and is tested, and the properties are about it. *)
From Verif Require Import GoStr Strconv StrconvProofs ConfModel RollModel RollSpec RollProofs RollSizeProofs RollDirProofs RollExec TestsRoll
  ExplodeModel ExplodeSpec ExplodeProofs ExplodeSizeProofs ExplodeExec.
Local Open Scope Z_scope.

(** ** The log directory is treated as without archiving: whatever holds of it there (C36-C44) holds here *)
Theorem C66_like_unarchived : forall P c (good : xop * fsres -> Prop) (good' : fsop * fsres -> Prop) x w hs x' w',
  (forall o r, good (XFs o, r) -> good' (o, r)) -> xhappens P c good x w hs x' w' ->
  happens P (unarchived c) good' (x_fs x) w hs (x_fs x') w'.
Proof. exact like_unarchived. Qed.
Print Assumptions C66_like_unarchived.

(** ** What an archive holds
    Whatever fails, and wherever the process is killed: an archive is as it was, or it is the archive of a
    backup, whole, with that backup as its only entry. (A run that is complete is also one that was stopped
    after its last operation.) *)
Theorem C66_archives_hold_backups : forall P c good x0 hs x w b tr x' a, rc_fullName c = false \/ (exists m, rc_kind c = BySize m) ->
  xhappens P c good x0 w_new hs x w -> xpartly (rw_WriteX P c w b) x tr x' ->
  x_arcs x' a = x_arcs x a \/
  exists n y, archive_of c n a /\ x_arcs x' a = Some (Archive n y) /\ (exists r, backup_name c r n) /\
    (f_dir (x_fs x) n = Some (Reg y) /\ ~ moved_to c n tr \/ f_dir (x_fs x) (rc_file c) = Some (Reg y) /\ moved_to c n tr).
Proof.
  intros P c good x0 hs x w b tr x' a PL H R. apply xpartly_goes in R.
  assert (OK : w_ok c w).
  { apply (like_unarchived P c good any) in H; [|intros; exact Logic.I].
    exact (happens_ok P (unarchived c) any _ _ _ _ _ PL H (w_ok_none (unarchived c) w_new eq_refl)). }
  apply writeX_goes in R as [(EA & _)|(s & rname & e & R)]; [left; now rewrite EA| |exact PL|exact OK].
  destruct R as (_ & _ & _ & EN & MT & MU & PK & _). destruct (PK a) as [Q|(n & y & I & NA & -> & D & Q)]; [now left|right].
  exists n, y. split; [now apply arc_of|]. split; [exact Q|]. split.
  - assert (J : In n (map (full c) (s ++ [rname]))).
    { revert I. unfold old_rolls. destruct (rc_maxRolls c <=? 0); [intros []|]. intros I. rewrite <- (firstn_skipn (length (map (full c) (s ++ [rname])) - Z.to_nat (rc_maxRolls c)) (map (full c) (s ++ [rname]))). apply in_or_app. now left. }
    apply in_map_iff in J as (r & <- & _). exists r. apply full_backup.
  - unfold moved in D. destruct (str_dec n (full c rname)) as [-> |N].
    + right. rewrite dput_same in D. injection D as ->. auto.
    + left. rewrite dput_other in D by exact N. split; [|intros M; apply N; now apply MU].
      destruct (str_dec n (rc_file c)) as [-> |N']; [rewrite dput_same in D; discriminate|]. now rewrite dput_other in D.
Qed.
Print Assumptions C66_archives_hold_backups.

(** ** What is removed is in its archive
    If nothing fails: a file that is gone after a write, or under whose name the log file went, is in its
    archive with what it held. *)
Theorem C66_removed_is_archived : forall P c good x0 hs x w b tr x' r n y a, rc_fullName c = false \/ (exists m, rc_kind c = BySize m) ->
  xhappens P c good x0 w_new hs x w -> xruns (rw_WriteX P c w b) x tr x' r -> Forall well tr -> archive_of c n a ->
  n <> rc_file c -> f_dir (x_fs x') n = None ->
  (f_dir (x_fs x) n = Some (Reg y) /\ ~ moved_to c n tr \/ f_dir (x_fs x) (rc_file c) = Some (Reg y) /\ moved_to c n tr) ->
  x_arcs x' a = Some (Archive n y).
Proof.
  intros P c good x0 hs x w b tr x' r n y a PL H R W AO NF D' C. apply xruns_goes in R.
  assert (NA : rc_archive c <> ArchiveNone) by (destruct AO; congruence). apply arc_of in AO; [subst a|exact NA].
  assert (OK : w_ok c w).
  { apply (like_unarchived P c good any) in H; [|intros; exact Logic.I].
    exact (happens_ok P (unarchived c) any _ _ _ _ _ PL H (w_ok_none (unarchived c) w_new eq_refl)). }
  apply writeX_goes in R as [(_ & ED & NM)|(s & rname & e & R)]; [exfalso| |exact PL|exact OK].
  { destruct C as [[D _]|[_ M]]; [|exact (NM n M)]. rewrite ED in D' by exact NF. congruence. }
  destruct R as (_ & _ & _ & EN & MT & MU & _ & KP & AP). cbv zeta in *.
  set (old := old_rolls c (map (full c) (s ++ [rname]))) in *.
  assert (D1 : moved (f_dir (x_fs x)) (rc_file c) (full c rname) e n = Some (Reg y)).
  { unfold moved. destruct C as [[D M]|[D M]].
    - rewrite dput_other by (intros ->; now apply M). now rewrite dput_other.
    - rewrite (MU n M), dput_same. congruence. }
  assert (I : In n old).
  { destruct (in_dec str_dec n old) as [I|I]; [exact I|]. rewrite (KP n NF I), D1 in D'. discriminate. }
  destruct (AP W eq_refl NA n I) as (y' & D2 & A). rewrite D1 in D2. injection D2 as <-. exact A.
Qed.
Print Assumptions C66_removed_is_archived.

(** ** Nothing is lost
    By size, from a directory with at most maxRolls backups, restarts included, if nothing fails: all the files
    there have been, in order of their numbers, hold what was there and what was written; the newest maxRolls
    are in the directory and every other one is in its archive. *)
Theorem C66_nothing_lost : forall P c m x hs x' w' l, rc_kind c = BySize m -> 0 < m -> rc_archive c <> ArchiveNone ->
  xhappens P c well x w_new hs x' w' -> (forall b, ~ In (HCrash b) hs) ->
  holds c (f_dir (x_fs x)) l -> newest (rc_maxRolls c) (l_backups l) = l_backups l -> room (l_backups l) (length hs) ->
  exists more l', let all := l_backups l ++ more in
    ordered all /\ concat (map snd all) ++ bytes (l_current l') = on_disk l ++ concat (flat_map chunk_of hs) /\
    holds c (f_dir (x_fs x')) l' /\ l_backups l' = newest (rc_maxRolls c) all /\
    forall z y n a, In (z, y) (oldest (rc_maxRolls c) all) -> backup_name c (Itoa z) n -> archive_of c n a -> x_arcs x' a = Some (Archive n y).
Proof.
  intros P c m x hs x' w' l K MP NA H NC HO NW RM. pose proof HO as (OR & _).
  assert (ON : oldest (rc_maxRolls c) (l_backups l) = []).
  { apply (app_inv_tail (newest (rc_maxRolls c) (l_backups l))). rewrite split_old. now rewrite NW. }
  destruct (archived_history P c m K MP NA x w_new hs x' w' l false (l_backups l) H NC (winv_new c l) HO (eq_sym NW) OR RM) as (l' & more & A & B & C & D & E).
  { rewrite ON. intros z y []. }
  exists more, l'. split; [exact C|]. split.
  - rewrite map_app, concat_app, <- app_assoc, E. unfold on_disk. now rewrite app_assoc.
  - split; [exact A|]. split; [exact B|]. intros z y n a I BN AO. apply backup_name_full in BN. subst n. apply arc_of in AO; [|exact NA]. subst a.
    now apply D.
Qed.
Print Assumptions C66_nothing_lost.

(** ** Where it is not so *)
Definition exx (mr : Z) (ar : archive_type) : roll_conf := {|
  rc_kind := BySize 1; rc_dir := $"logs/"; rc_file := $"a"; rc_archive := ar; rc_archivePath := $"old"; rc_archiveExploded := true;
  rc_fullName := false; rc_maxRolls := mr; rc_nameMode := Postfix;
  rc_dirPerm := defaultDirectoryPermissions; rc_filePerm := defaultFilePermissions; rc_backPerm := defaultBackupPermissions |}.
Definition exP : tparse := fun _ _ => None.
Lemma exx_finite l arcs ok xok : NoDup (map fst l) -> xfinite (xsim_of l arcs ok xok).
Proof. intros N. now apply sim_finite. Qed.
Fixpoint goes_well (tr : list (xop * fsres)) : nat := match tr with x :: tr' => if wellb x then S (goes_well tr') else O | [] => O end.
(** The operation at place [i] of those that archive the first backup fails; what there is afterwards. *)
Definition one_fails (i : nat) : option (list hop * bool * (nat * bool) * list (xop * fsres) * list (xop * fsres) * list (xop * fsres) * option entry * option entry * option aent) :=
  match xexecs exP (exx 1 ArchiveZip) w_new [$"u"; $"v"] (xsim_of [] [] [] (repeat true i ++ [false])) with
  | None => None
  | Some (l, w1, s1, tr1) =>
    match xexec (rw_WriteX exP (exx 1 ArchiveZip) w1 ($"w")) s1 with
    | None => None
    | Some ((_, r), tr, s2) =>
      let j := goes_well tr in
      Some (l, forallb wellb tr1, r, firstn j tr, firstn 1 (skipn j tr), skipn (S j) tr,
            s_dir (xs_sim s1) ($"a.1"), s_dir (xs_sim s2) ($"a.1"), xs_arcs s2 ($"a.1.zip"))
    end
  end.
(** A step of archiving that fails: the backup is removed all the same, and there is no archive of it. *)
Theorem C66_failed_archive_refuted : forall o,
  In o [XOpen ($"a.1"); XTmpDir defaultDirectoryPermissions; XTmpFile; XAdd ($"a.1"); XClose; XRename ($"a.1.zip") ($"a.1") ($"u")] ->
  exists P c m x b1 b2 b3 x1 w1 tr x2 w2 n y, rc_kind c = BySize m /\ 0 < m /\ rc_archive c <> ArchiveNone /\
    xhappens P c well x w_new [HWrite b1 (length b1) false; HWrite b2 (length b2) false] x1 w1 /\
    xruns (rw_WriteX P c w1 b3) x1 tr x2 (w2, (length b3, false)) /\
    (exists tr1 tr2, tr = tr1 ++ (o, RErr) :: tr2 /\ Forall well tr1 /\ Forall well tr2) /\
    f_dir (x_fs x1) n = Some (Reg y) /\ f_dir (x_fs x2) n = None /\ forall a, archive_of c n a -> x_arcs x2 a = None.
Proof.
  assert (G : forall i o, match one_fails i with
      | Some (l, ok, r, tr1, [x], tr2, e1, e2, ea) =>
          l = [HWrite ($"u") 1 false; HWrite ($"v") 1 false] /\ ok = true /\ r = (1%nat, false) /\ x = (o, RErr) /\ forallb wellb tr1 = true /\ forallb wellb tr2 = true /\
          e1 = Some (Reg ($"u")) /\ e2 = None /\ ea = None
      | _ => False end ->
    exists P c m x b1 b2 b3 x1 w1 tr x2 w2 n y, rc_kind c = BySize m /\ 0 < m /\ rc_archive c <> ArchiveNone /\
    xhappens P c well x w_new [HWrite b1 (length b1) false; HWrite b2 (length b2) false] x1 w1 /\
    xruns (rw_WriteX P c w1 b3) x1 tr x2 (w2, (length b3, false)) /\
    (exists tr1 tr2, tr = tr1 ++ (o, RErr) :: tr2 /\ Forall well tr1 /\ Forall well tr2) /\
    f_dir (x_fs x1) n = Some (Reg y) /\ f_dir (x_fs x2) n = None /\ forall a, archive_of c n a -> x_arcs x2 a = None).
  { intros i o H. unfold one_fails in H.
    destruct (xexecs exP (exx 1 ArchiveZip) w_new [$"u"; $"v"] (xsim_of [] [] [] (repeat true i ++ [false]))) as [[[[l w1] s1] tr1]|] eqn:E1; [|destruct H].
    destruct (xexec (rw_WriteX exP (exx 1 ArchiveZip) w1 ($"w")) s1) as [[[[w2 r] tr] s2]|] eqn:E2; [|destruct H].
    cbv zeta in H. set (j := goes_well tr) in H. clearbody j.
    destruct (firstn 1 (skipn j tr)) as [|x [|x' t]] eqn:E3; [destruct H| |destruct H].
    destruct H as (-> & OK & -> & -> & W1 & W2 & D1 & D2 & DA).
    apply (xexecs_sound exP (exx 1 ArchiveZip) well) in E1 as [HH F1]; [|apply exx_finite; constructor|now apply wellb_ok].
    apply xexec_sound in E2 as [R _]; [|exact F1].
    exists exP, (exx 1 ArchiveZip), 1, (xfs_of (xsim_of [] [] [] (repeat true i ++ [false]))), ($"u"), ($"v"), ($"w"), (xfs_of s1), w1, tr, (xfs_of s2), w2, ($"a.1"), ($"u").
    split; [reflexivity|]. split; [lia|]. split; [discriminate|]. split; [exact HH|]. split; [exact R|]. split; [|split; [exact D1|split; [exact D2|]]].
    - exists (firstn j tr), (skipn (S j) tr). split; [|split; now apply wellb_ok].
      rewrite <- (firstn_skipn j tr) at 1. f_equal. clear - E3. revert tr E3. induction j as [|j IH]; intros [|y tr] E; cbn in *; try discriminate; [now injection E as ->|].
      now apply IH.
    - intros a [Q|Q]; [exact DA|discriminate Q]. }
  intros o [<- |[<- |[<- |[<- |[<- |[<- |[]]]]]]].
  - apply (G 1%nat). vm_compute. auto 12.
  - apply (G 2%nat). vm_compute. auto 12.
  - apply (G 3%nat). vm_compute. auto 12.
  - apply (G 4%nat). vm_compute. auto 12.
  - apply (G 5%nat). vm_compute. auto 12.
  - apply (G 6%nat). vm_compute. auto 12.
Qed.
Print Assumptions C66_failed_archive_refuted.
(** An archive that is there already, of an earlier log, is replaced. *)
Theorem C66_archive_replaced_refuted : exists P c m x hs x' w' a n y y', rc_kind c = BySize m /\ 0 < m /\
  holds c (f_dir (x_fs x)) (mkLog [] None) /\ xhappens P c well x w_new hs x' w' /\
  x_arcs x a = Some (Archive n y) /\ x_arcs x' a = Some (Archive n y') /\ y <> y'.
Proof.
  set (s := xsim_of [] [($"a.1.gz", Archive ($"a.1") ($"x"))] [] []).
  destruct (xshow_happens exP (exx 1 ArchiveGzip) [$"u"; $"v"; $"w"] s [] [$"a.1.gz"]
    [HWrite ($"u") 1 false; HWrite ($"v") 1 false; HWrite ($"w") 1 false] [] [Some (Archive ($"a.1") ($"u"))]) as (x' & w' & H & _ & A).
  { apply exx_finite. constructor. } { vm_compute. reflexivity. }
  exists exP, (exx 1 ArchiveGzip), 1, (xfs_of s). eexists. exists x', w', ($"a.1.gz"), ($"a.1"), ($"x"), ($"u").
  split; [reflexivity|]. split; [lia|]. split.
  { split; [split; constructor|]. split; [reflexivity|]. split; [intros z y []|]. intros r n z _ _ D. now destruct D. }
  split; [exact H|]. split; [reflexivity|]. split; [now injection A|discriminate].
Qed.
Print Assumptions C66_archive_replaced_refuted.

(** ** Examples *)
(** Five writes, two backups kept: two backups are in archives. *)
Example C66_ex : exists x' w', xhappens exP (exx 2 ArchiveZip) well (xfs_of (xsim_of [] [] [] [])) w_new
    (map (fun b => HWrite b 1 false) [$"u"; $"v"; $"w"; $"x"; $"y"]) x' w' /\
  map (f_dir (x_fs x')) [$"a"; $"a.1"; $"a.2"; $"a.3"; $"a.4"] = [Some (Reg ($"y")); None; None; Some (Reg ($"w")); Some (Reg ($"x"))] /\
  map (x_arcs x') [$"a.1.zip"; $"a.2.zip"; $"a.3.zip"] = [Some (Archive ($"a.1") ($"u")); Some (Archive ($"a.2") ($"v")); None].
Proof.
  apply (xshow_happens exP (exx 2 ArchiveZip) [$"u"; $"v"; $"w"; $"x"; $"y"]); [apply exx_finite; constructor|vm_compute; reflexivity].
Qed.
(** The last two cases of the project's test: internal/output_rollingwriter_test.go:309-310. *)
Definition exploded_passes (t : roll_case) (ar : archive_type) (arcs : list str) : bool :=
  let c := {| rc_kind := rc_kind (getter t); rc_dir := rc_dir (getter t); rc_file := rc_file (getter t); rc_archive := ar;
              rc_archivePath := $"dir"; rc_archiveExploded := true; rc_fullName := false; rc_maxRolls := c_maxRolls t; rc_nameMode := c_nameMode t;
              rc_dirPerm := defaultDirectoryPermissions; rc_filePerm := defaultFilePermissions; rc_backPerm := defaultBackupPermissions |} in
  match xexecs exP c w_new (repeat ($"AAAAAAAAAA") (c_writeCount t)) (xsim_of (map (fun n => (n, Reg [])) (c_files t)) [] [] []) with
  | None => false
  | Some (hs, _, s, tr) =>
    forallb (fun h => match h with HWrite _ _ e => negb e | _ => false end) hs &&
    forallb (TestsRoll.present (xs_sim s)) (c_resFiles t) &&
    forallb (fun n => implb (TestsRoll.present (xs_sim s) n) (existsb (str_eqb n) (c_resFiles t))) (s_names (xs_sim s)) &&
    forallb (fun a => match xs_arcs s a with Some _ => true | None => false end) arcs &&
    forallb (fun x => match x with (XRename a _ _, ROk) => existsb (str_eqb a) arcs | _ => true end) tr
  end.
Example C66_tests :
  exploded_passes (mkCase 309 [$"log.testlog"; $"log.testlog.1"] ($"log.testlog") 10 1 2 [$"log.testlog"; $"log.testlog.2"] Postfix true) ArchiveZip [$"log.testlog.1.zip"] = true /\
  exploded_passes (mkCase 310 [$"log.testlog"; $"log.testlog.1"] ($"log.testlog") 10 1 2 [$"log.testlog"; $"log.testlog.2"] Postfix true) ArchiveGzip [$"log.testlog.1.gz"] = true.
Proof. vm_compute. auto. Qed.

(** Property C77: rolling and archiving leave nothing open, and no archive half done. *)
From Verif Require Import GoStr ConfModel RollModel DeferModel DeferSpec DeferProofs.

(** Whatever fails, each function closes what it has opened, exactly once. *)
Theorem C77_nothing_open : forall p tr e,
  (exists t l, p = archiveUnexplodedLogs t l) \/ (exists t n, p = archiveExplodedLogs t n) \/ (exists b n, p = DeferModel.getDirFilePaths b n) \/
  (exists n, p = copyBuffer n) \/ p = copyZipFile -> called p tr e -> nothing_open tr /\ closes_open_only tr.
Proof.
  intros p tr e H F. eapply tidy_called; [|exact F].
  destruct H as [(t & l & ->)|[(t & n & ->)|[(b & n & ->)|[(n & ->)| ->]]]].
  - apply tidy_unexploded.
  - apply tidy_exploded.
  - apply tidy_dir.
  - apply tidy_copyBuffer.
  - apply tidy_zipFile.
Qed.
Print Assumptions C77_nothing_open.

(** A temporary archive, once made, is either put in place or removed, not both; without one neither happens. An error is reported
    unless it was put in place. *)
Theorem C77_settled : forall t l tr e, called (archiveUnexplodedLogs t l) tr e ->
  (times Place tr + times Drop tr = opened HTemp tr)%nat /\ (opened HTemp tr <= 1)%nat /\ (e = false <-> In (Place, Good) tr).
Proof.
  intros t l tr e F. pose proof (unexploded_runs _ _ _ _ F) as R. destruct R as [a Na|a Na|hs e0 mid cs fin e' Hf Hc He].
  - split; [reflexivity|]. split; [unfold opened; cbn; lia|]. split; [discriminate|]. intros [X|[]]. discriminate.
  - split; [destruct a; [congruence|reflexivity..]|]. split; [destruct a; unfold opened; cbn; lia|]. split; [discriminate|]. intros [X|[X|[]]]; discriminate.
  - destruct (ends_once _ _ _ _ _ He) as (A & B & _).
    change ((MkTemp, Good) :: (Open HTemp, Good) :: mid ++ cs ++ fin) with ([(MkTemp, Good); (Open HTemp, Good)] ++ mid ++ cs ++ fin).
    rewrite !times_app, (fills_times Place l hs e0 mid), (fills_times Drop l hs e0 mid), !(closings_times _ hs cs Hc) by auto.
    assert (O : opened HTemp (mid ++ cs ++ fin) = 0%nat) by exact (made_once _ _ _ _ _ _ _ _ _ Hf Hc He).
    rewrite opened_app, O. split; [cbn; lia|]. split; [cbn; lia|]. rewrite B. rewrite !in_app_iff. split; [auto|].
    intros [[X|[X|[]]]|[X|[X|X]]]; try discriminate; auto; exfalso.
    + exact (fills_place _ _ _ _ _ Hf X).
    + apply (in_map fst) in X. rewrite Hc in X. apply in_map_iff in X as (h & X & _). discriminate.
Qed.
Print Assumptions C77_settled.
Theorem C77_settled_exploded : forall t n tr e, called (archiveExplodedLogs t n) tr e ->
  (times Place tr + times Drop tr = opened HTemp tr)%nat /\ (opened HTemp tr <= 1)%nat /\ (e = false <-> In (Place, Good) tr).
Proof.
  intros t n tr e F. pose proof (exploded_runs _ _ _ _ F) as R. destruct R as [a Na|a c Na|a c Na|e0 mid fin c e' Hm He].
  - split; [destruct a; reflexivity|]. split; [destruct a; unfold opened; cbn; lia|]. split; [discriminate|]. intros [X|[]]. discriminate.
  - split; [destruct a; reflexivity|]. split; [unfold opened; cbn; lia|]. split; [discriminate|]. intros [X|[X|[X|[]]]]; discriminate.
  - split; [destruct a; [congruence|reflexivity..]|]. split; [destruct a; unfold opened; cbn; lia|]. split; [discriminate|]. intros [X|[X|[X|[X|[]]]]]; discriminate.
  - destruct (ends_once _ _ _ _ _ He) as (A & B & _).
    change ((Open (HBackup n), Good) :: (MkTemp, Good) :: (Open HTemp, Good) :: mid ++ fin ++ [(Close (HBackup n), c)])
      with ([(Open (HBackup n), Good); (MkTemp, Good); (Open HTemp, Good)] ++ mid ++ fin ++ [(Close (HBackup n), c)]).
    assert (M : times Place mid = 0%nat /\ times Drop mid = 0%nat /\ opened HTemp mid = 0%nat /\ forall x, ~ In (Place, x) mid).
    { destruct Hm as [[_ ->]|(a & _ & _ & [-> |[-> | ->]])]; repeat split; intros x; cbn; intuition discriminate. }
    destruct M as (M1 & M2 & M3 & M4). rewrite !times_app, M1, M2, !opened_app, M3, (ends_opened _ _ _ _ _ He).
    split; [cbn; lia|]. split; [cbn; lia|]. rewrite B, !in_app_iff. split; [auto|].
    intros [[X|[X|[X|[]]]]|[X|[X|[X|[]]]]]; try discriminate; auto. destruct (M4 _ X).
Qed.
Print Assumptions C77_settled_exploded.

(** What is put in place is complete. *)
Theorem C77_placed_complete : forall t l pre a suf e, called (archiveUnexplodedLogs t l) (pre ++ (Place, a) :: suf) e -> complete t false l pre /\ suf = [].
Proof.
  intros t l pre a suf e F. pose proof (unexploded_runs _ _ _ _ F) as R. remember (pre ++ (Place, a) :: suf) as tr eqn:E.
  destruct R as [b Nb|b Nb|hs e0 mid cs fin e' Hf Hc He].
  - destruct pre as [|? [|]]; try discriminate E; injection E as -> E; try discriminate E.
  - destruct pre as [|? [|? [|]]]; try discriminate E; injection E as -> E; try discriminate E; injection E; intros; discriminate.
  - assert (I : In (Place, a) fin).
    { assert (X : In (Place, a) ((MkTemp, Good) :: (Open HTemp, Good) :: mid ++ cs ++ fin)) by (rewrite E; apply in_or_app; right; now left).
      destruct X as [X|[X|X]]; try discriminate. rewrite !in_app_iff in X. destruct X as [X|[X|X]]; [destruct (fills_place _ _ _ _ _ Hf X)| |exact X].
      apply (in_map fst) in X. rewrite Hc in X. apply in_map_iff in X as (h & X & _). discriminate. }
    destruct (ends_once _ _ _ _ _ He) as (_ & _ & C). destruct C as [-> (b & ->)]; [destruct a; auto|].
    destruct (fills_harmless _ _ _ Hf) as (NT & H1 & H2 & H3). destruct (closings_harmless _ _ Hc NT) as (G1 & G2 & G3).
    assert (E' : ((MkTemp, Good) :: (Open HTemp, Good) :: mid ++ cs ++ map (fun p => (Finish p, Good)) (finishers t false) ++ [(Close HTemp, Good)]) ++ [(Place, b)] = pre ++ (Place, a) :: suf).
    { rewrite <- E. cbn [app]. now rewrite <- !app_assoc. }
    destruct suf as [|x suf].
    + apply app_inj_tail in E' as [E' _]. split; [|reflexivity]. exists ((MkTemp, Good) :: (Open HTemp, Good) :: mid ++ cs).
      split; [rewrite <- E'; cbn [app]; now rewrite <- !app_assoc|].
      split; [repeat constructor; apply Forall_app; auto|]. split; [cbn; rewrite copied_app, G2, app_nil_r; exact H2|].
      intros [X|[X|X]]; try discriminate. right. right. rewrite in_app_iff in *. destruct X as [X|X]; [auto|destruct (G3 _ X)].
    + exfalso. assert (T : times Place (pre ++ (Place, a) :: x :: suf) = 1%nat /\ exists z, last (pre ++ (Place, a) :: x :: suf) (Drop, Good) = (Place, z)).
      { rewrite <- E'. split; [|exists b; apply last_last]. destruct (C77_settled t l _ _ F) as (T & T' & _). rewrite E, <- E' in T, T'.
        rewrite times_app in T |- *. change (times Place [(Place, b)]) with 1%nat in *. lia. }
      destruct T as [T (z & L)]. change (pre ++ (Place, a) :: x :: suf) with (pre ++ [(Place, a)] ++ (x :: suf)) in *. rewrite !times_app in T.
      destruct (@exists_last _ (x :: suf)) as (m & y & Em); [discriminate|]. rewrite Em, !app_assoc, last_last in L. rewrite Em, L, times_app in T. cbn in T. lia.
Qed.
Print Assumptions C77_placed_complete.
Theorem C77_placed_complete_exploded : forall t n pre a suf e, called (archiveExplodedLogs t n) (pre ++ (Place, a) :: suf) e ->
  complete t true [n] pre /\ exists c, suf = [(Close (HBackup n), c)].
Proof.
  intros t n pre a suf e F. pose proof (exploded_runs _ _ _ _ F) as R. remember (pre ++ (Place, a) :: suf) as tr eqn:E.
  assert (I : In (Place, a) tr) by (rewrite E; apply in_or_app; right; now left).
  destruct R as [b Nb|b c Nb|b c Nb|e0 mid fin c e' Hm He].
  - destruct I as [X|[]]; discriminate.
  - destruct I as [X|[X|[X|[]]]]; discriminate.
  - destruct I as [X|[X|[X|[X|[]]]]]; discriminate.
  - assert (M : forall x, ~ In (Place, x) mid).
    { destruct Hm as [[_ ->]|(x & _ & _ & [-> |[-> | ->]])]; intros y; cbn; intuition discriminate. }
    assert (J : In (Place, a) fin).
    { destruct I as [X|[X|[X|I]]]; try discriminate. rewrite !in_app_iff in I. destruct I as [X|[X|[X|[]]]]; [destruct (M _ X)|exact X|discriminate]. }
    destruct (ends_once _ _ _ _ _ He) as (_ & _ & C). destruct C as [-> (b & ->)]; [destruct a; auto|].
    destruct Hm as [[_ ->]|(x & _ & X & _)]; [|discriminate X].
    destruct t; cbn in E; do 8 (destruct pre as [|? pre]; [try discriminate E; injection E; intros; discriminate|injection E as <- E]); cbn in E;
      try (destruct pre as [|? pre]; [|injection E as <- E]); cbn in E.
    all: repeat (destruct pre as [|? pre]; [|try discriminate E; injection E as <- E]); try discriminate E; cbn in E; injection E as _ <-.
    all: split; [|exists c; reflexivity]; exists [(Open (HBackup n), Good); (MkTemp, Good); (Open HTemp, Good); (Stat n, Good); (Header n, Good); (Data n, Good)]; split; [reflexivity|]; split; [do 6 (apply Forall_cons; [reflexivity|]); apply Forall_nil|]; split; [reflexivity|]; cbn; intuition discriminate.
Qed.
Print Assumptions C77_placed_complete_exploded.
(** The buffer file of archive.Copy is removed whenever it was made: once, last, right after it was closed. *)
Theorem C77_buffer_removed : forall n tr e, called (copyBuffer n) tr e ->
  (exists a, a <> Good /\ tr = [(Open HBuffer, a)] /\ e = true) \/
  (exists mid c a, tr = (Open HBuffer, Good) :: mid ++ [(Close HBuffer, c); (DropBuffer, a)] /\ times DropBuffer mid = 0%nat).
Proof.
  intros n tr e F. destruct (try_runs _ _ _ _ _ F) as [(t1 & -> & F1)|(a & t1 & Na & -> & U)].
  - right. do 2 apply defer_runs in F1. destruct (straight_runs _ _ _ _ _ (straight_files n) F1) as (mid & b & u & -> & T & U).
    apply unwinds_step in U as (v1 & e1 & v2 & -> & D & U). apply druns_call in D as (c & v & -> & D). apply druns_ret in D as [-> ->].
    apply unwinds_step in U as (v3 & e2 & v4 & -> & D & U). apply druns_call in D as (a & v' & -> & D). apply druns_ret in D as [-> ->].
    apply unwinds_nil in U as [-> ->]. exists mid, c, a. auto.
  - left. apply unwinds_nil in U as [-> ->]. exists a. auto.
Qed.
Print Assumptions C77_buffer_removed.
(** Listing a directory and the two ways of copying report an error exactly if a call failed that matters: the end of a directory or of an
    archive is none, and neither is a failure to close what was read or to remove the buffer. *)
Theorem C77_reported : forall p tr e, (exists b n, p = DeferModel.getDirFilePaths b n) \/ (exists n, p = copyBuffer n) \/ p = copyZipFile ->
  called p tr e -> (e = false <-> Forall went_well tr).
Proof.
  intros p tr e H F. eapply honest_runs; [|apply Forall_nil|exact F].
  destruct H as [(b & n & ->)|[(n & ->)| ->]]; [apply honest_dir|apply honest_buffer|apply honest_zip].
Qed.
Print Assumptions C77_reported.
Example C77_reported_ex :
  called (DeferModel.getDirFilePaths false 3) [(Open HDir, Good); (AbsPath, Good); (ReadDir, Good); (ReadDir, Absent); (Close HDir, Bad)] false /\
  called (DeferModel.getDirFilePaths false 3) [(Open HDir, Good); (AbsPath, Good); (ReadDir, Good); (ReadDir, Bad); (Close HDir, Good)] true.
Proof.
  split; apply fr_call, fr_defer, fr_call, fr_call, fr_call, fr_ret; [apply (uw_cons _ _ _ [(Close HDir, Bad)] false [])|apply (uw_cons _ _ _ [(Close HDir, Good)] true [])]; repeat constructor.
Qed.

(** The model of RollModel.v, in which closing is one operation, has all these runs: whatever archiveUnexplodedLogs does call by call
    is there, with the same outcome for the temporary file. *)
Theorem C77_coarse : forall c t l tr e old bytes, called (archiveUnexplodedLogs t l) tr e ->
  follows (archiveUnexploded c l) (coarse (rc_dirPerm c) old bytes true [] tr) tt.
Proof. intros c t l tr e old bytes F. eapply unexploded_coarse; [reflexivity|]. exact (unexploded_runs _ _ _ _ F). Qed.
Print Assumptions C77_coarse.

(** A rolling writer has at most one log file open at any time, and nothing else is closed; what it thinks is open is open. *)
Theorem C77_one_log_file : forall P c tr w pre suf, life P c w_new tr w -> tr = pre ++ suf ->
  (log_closed pre <= log_opened pre <= log_closed pre + 1)%nat /\ log_opened tr = (log_closed tr + held w)%nat.
Proof.
  intros P c tr w pre suf L E. pose proof (life_slot _ _ _ _ _ L) as S. cbn in S. destruct (slot_prefix _ _ _ S _ _ E) as (s1 & S1).
  destruct (slot_counts _ _ _ S) as [_ B]; [lia|]. destruct (slot_counts _ _ _ S1) as [A1 B1]; [lia|]. lia.
Qed.
Print Assumptions C77_one_log_file.
(** Closing the writer leaves nothing open, even if the close reports an error. *)
Theorem C77_closed : forall P c tr w f tr2 f2 w2 x, life P c w_new tr w -> runs (rw_Close w) f tr2 f2 (w2, x) ->
  log_opened (tr ++ tr2) = log_closed (tr ++ tr2).
Proof.
  intros P c tr w f tr2 f2 w2 x L R. destruct (slot_counts _ _ _ (slot_app _ _ _ _ _ (life_slot _ _ _ _ _ L) (slots_rwClose _ _ _ _ _ R))) as [_ B]; [cbn; lia|].
  assert (H : held w2 = 0%nat); [|cbn [fst held w_new w_file] in B; rewrite H in B; lia]. unfold rw_Close in R. destruct (w_file w) as [[n []]|] eqn:Ew.
  - inversion R; subst. destruct r; match goal with H : runs (Done _) _ _ _ _ |- _ => inversion H; subst; reflexivity end.
  - inversion R; subst. unfold held. now rewrite Ew.
  - inversion R; subst. unfold held. now rewrite Ew.
Qed.
Print Assumptions C77_closed.

(** ** What does not hold *)
(** If the temporary archive cannot be put in place, it stays behind. *)
Theorem C77_leftover_refuted : exists t l tr, called (archiveUnexplodedLogs t l) tr true /\ opened HTemp tr = 1%nat /\ In (Place, Bad) tr /\ times Drop tr = 0%nat.
Proof.
  exists ArchiveZip, [], [(MkTemp, Good); (Open HTemp, Good); (Open HArchive, Absent); (Finish PZip, Good); (Close HTemp, Good); (Place, Bad)].
  split; [|split; [reflexivity|split; [cbn; tauto|reflexivity]]]. apply fr_call, fr_call, fr_defer, fr_defer, fr_call, fr_ret.
  apply (uw_cons _ _ _ [(Finish PZip, Good)] false [(Close HTemp, Good); (Place, Bad)]); [repeat constructor|].
  apply (uw_cons _ _ _ [(Close HTemp, Good); (Place, Bad)] true []); repeat constructor.
Qed.
Print Assumptions C77_leftover_refuted.

(** ** Examples *)
(** Two backups added to a gzip archive; the second cannot be read: both are closed, the writers too, and the temporary file is removed. *)
Definition df_run : list (call * answer) :=
  [(MkTemp, Good); (Open HTemp, Good); (Open HArchive, Good); (Open HReader, Good); (CopyOld, Good);
   (Open (HBackup ($"a.1")), Good); (Stat ($"a.1"), Good); (Header ($"a.1"), Good); (Data ($"a.1"), Good);
   (Open (HBackup ($"a.2")), Good); (Stat ($"a.2"), Good); (Header ($"a.2"), Good); (Data ($"a.2"), Bad);
   (Close (HBackup ($"a.2")), Good); (Close (HBackup ($"a.1")), Good); (Close HReader, Good); (Close HArchive, Good);
   (Finish PTar, Bad); (Finish PGzip, Good); (Close HTemp, Good); (Drop, Good)].
Example C77_ex : called (archiveUnexplodedLogs ArchiveGzip [$"a.1"; $"a.2"]) df_run true.
Proof.
  repeat (apply fr_call || apply fr_defer). apply fr_ret.
  apply (uw_cons _ _ _ [_] true (_ :: _)); [repeat constructor|]. apply (uw_cons _ _ _ [_] true (_ :: _)); [repeat constructor|].
  apply (uw_cons _ _ _ [_] true (_ :: _)); [repeat constructor|]. apply (uw_cons _ _ _ [_] true (_ :: _)); [repeat constructor|].
  apply (uw_cons _ _ _ [_; _] true (_ :: _)); [repeat constructor|]. apply (uw_cons _ _ _ [_; _] true []); repeat constructor.
Qed.
(** A complete one. *)
Example C77_ex_placed : called (archiveExplodedLogs ArchiveZip ($"a.1"))
  [(Open (HBackup ($"a.1")), Good); (MkTemp, Good); (Open HTemp, Good); (Stat ($"a.1"), Good); (Header ($"a.1"), Good); (Data ($"a.1"), Good);
   (Finish PZip, Good); (Close HTemp, Good); (Place, Good); (Close (HBackup ($"a.1")), Bad)] false.
Proof.
  repeat (apply fr_call || apply fr_defer). apply fr_ret. apply (uw_cons _ _ _ [_] false (_ :: _)); [repeat constructor|].
  apply (uw_cons _ _ _ [_; _] false (_ :: _)); [repeat constructor|]. apply (uw_cons _ _ _ [_] false []); repeat constructor.
Qed.
(** The first of them in the terms of RollModel.v. *)
Example C77_coarse_ex : coarse 493 [($"o", $"x")] (fun n => n) true [] df_run =
  [(OArcTmpDir 493, ROk); (OArcTmpFile, ROk); (OArcOpen, ROk); (OArcRead, REntries [($"o", $"x")]); (OArcAdd ($"a.1"), RBytes ($"a.1"));
   (OArcAdd ($"a.2"), RErr); (OArcClose, RErr); (OArcDrop, ROk)].
Proof. vm_compute. reflexivity. Qed.

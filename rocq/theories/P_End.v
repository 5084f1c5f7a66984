(** Property C50: from the log call to the bytes on disk. *)
From Verif Require Import GoStr Utf8 LevelModel EventModel LayoutModel LayoutSpec FormatSpec ConfModel OutputModel OutputSpec OutputProofs
  WorldModel WorldSpec WorldBase WorldInv WorldProofs LogProofs P_Hier P_Log EndModel EndSpec EndProofs.
From Verif Require Import RollModel RollSpec RollExec RollArchProofs RollDirProofs P_Output P_RollSize.
Local Open Scope Z_scope.

Lemma rolling_sync x c : os_sink (o_spec x) = SinkRolling c -> os_async (o_spec x) = None -> sync_base x.
Proof. intros S A. unfold sync_base. rewrite S, A. split; [reflexivity|exact Logic.I]. Qed.
Lemma no_crash hs : (forall h, In h hs -> exists b k e, h = HWrite b k e) -> forall b, ~ In (HCrash b) hs.
Proof. intros H b I. destruct (H _ I) as (x & k & e & X). discriminate. Qed.
Lemma no_restart hs : (forall h, In h hs -> exists b k e, h = HWrite b k e) -> forall h, In h hs -> h <> HRestart.
Proof. intros H h I ->. destruct (H _ I) as (x & k & e & X). discriminate. Qed.

(** A synchronous output rolling by size, on a directory without a log of that name. Whatever calls are
    made (getting and configuring loggers, changing levels and outputs, logging), if the file system
    does not fail then the files on disk are these: the events that the log calls deliver to the
    output, formatted, those below the threshold left out, cut into files at the limit, the newest
    maxRolls of the closed files under their numbers and the last one under its own name. *)
Theorem C50_end_to_end : forall P T c m i x x' h W f os W' f' w',
  reach P W -> nth_error (w_heap W) i = Some x -> os_sink (o_spec x) = SinkRolling c -> os_async (o_spec x) = None ->
  built h (o_fmt x) -> rc_kind c = BySize m -> 0 < m -> tmp_ok c -> holds c (f_dir f) (mkLog [] None) ->
  session P T c smooth i W f w_new os W' f' w' ->
  nth_error (w_heap W') i = Some x' -> Z.of_nat (length (o_writes x')) < 2 ^ 63 ->
  exists evs texts files cur l, deliveries P i W os evs /\ written (p_env P) h (os_threshold (o_spec x)) evs texts /\
    segments m texts files cur /\ holds c (f_dir f') l /\
    l_backups l = newest (rc_maxRolls c) (numbered files) /\ bytes (l_current l) = concat cur.
Proof.
  intros P T c m i x x' h W f os W' f' w' R Hx S A B K MP TO HO HS Hx' RM.
  destruct (session_runs _ _ _ _ _ _ _ _ _ _ _ _ HS x h R Hx (rolling_sync _ _ S A) B)
    as (evs & ws & hs & x2 & D & WR & PU & HA & _ & Hx2 & E & _ & _).
  rewrite Hx' in Hx2. injection Hx2 as <-. destruct (put_chunks _ _ PU) as (CH & LN & HW).
  destruct (C36_split_at_writes T c m f hs f' w' K MP TO HA HW HO) as (files & cur & l & SG & HL & BK & CU).
  { rewrite LN. rewrite E, app_length in RM. lia. }
  rewrite CH in SG. exists evs, ws, files, cur, l. auto 7.
Qed.
Print Assumptions C50_end_to_end.
(** On any log left by earlier processes: what is on disk then is what was there, followed by the
    formatted events, up to a number of the oldest pieces (a piece being an earlier backup, the
    earlier log file, or one event). Without a bound on the number of backups nothing is missing. *)
Theorem C50_suffix : forall P T c m i x x' h W f os W' f' w' l,
  reach P W -> nth_error (w_heap W) i = Some x -> os_sink (o_spec x) = SinkRolling c -> os_async (o_spec x) = None ->
  built h (o_fmt x) -> rc_kind c = BySize m -> 0 < m -> tmp_ok c -> holds c (f_dir f) l ->
  session P T c smooth i W f w_new os W' f' w' ->
  nth_error (w_heap W') i = Some x' -> room (l_backups l) (length (o_writes x') - length (o_writes x)) ->
  exists evs texts l' k, deliveries P i W os evs /\ written (p_env P) h (os_threshold (o_spec x)) evs texts /\
    holds c (f_dir f') l' /\ on_disk l' = concat (skipn k (map snd (l_backups l) ++ [bytes (l_current l)] ++ texts)) /\
    (rc_maxRolls c <= 0 -> k = 0%nat).
Proof.
  intros P T c m i x x' h W f os W' f' w' l R Hx S A B K MP TO HO HS Hx' RM.
  destruct (session_runs _ _ _ _ _ _ _ _ _ _ _ _ HS x h R Hx (rolling_sync _ _ S A) B)
    as (evs & ws & hs & x2 & D & WR & PU & HA & _ & Hx2 & E & _ & _).
  rewrite Hx' in Hx2. injection Hx2 as <-. destruct (put_chunks _ _ PU) as (CH & LN & HW).
  destruct (C36_as_specified T c m f hs f' w' l K MP TO HA (no_crash _ HW) HO) as (l' & o' & ST & HO').
  { rewrite E, app_length in RM. replace (length hs) with (length (o_writes x) + length ws - length (o_writes x))%nat by lia. exact RM. }
  destruct (pieces_left _ _ _ _ _ _ _ ST (no_restart _ HW)) as (k & OD & Z). rewrite CH in OD. unfold pieces in OD. rewrite <- app_assoc in OD.
  exists evs, ws, l', k. auto.
Qed.
Print Assumptions C50_suffix.
(** With the default format the file is determined by the calls alone: all executions of the same calls
    write the same texts. *)
Theorem C50_default_determined : forall P i W os W' t evs texts evs' texts', reach P W -> goes P i W os W' ->
  deliveries P i W os evs -> written (p_env P) ByDefault t evs texts ->
  deliveries P i W os evs' -> written (p_env P) ByDefault t evs' texts' -> texts = texts'.
Proof.
  intros P i W os W' t evs texts evs' texts' R G D WR D' WR'.
  pose proof (deliveries_twins _ _ _ _ _ G R _ _ D D') as TW.
  exact (C26_writes_determined _ _ _ _ _ _ (written_twin _ _ _ _ _ TW WR) WR').
Qed.
Print Assumptions C50_default_determined.
(** Such sessions exist for all sequences of calls that return. *)
Theorem C50_sessions_exist : forall P T c m i x x' h W f os W' l,
  reach P W -> nth_error (w_heap W) i = Some x -> os_sink (o_spec x) = SinkRolling c -> os_async (o_spec x) = None ->
  built h (o_fmt x) -> rc_kind c = BySize m -> 0 < m -> tmp_ok c -> holds c (f_dir f) l -> (exists ns, lists (f_dir f) ns) ->
  goes P i W os W' -> nth_error (w_heap W') i = Some x' -> room (l_backups l) (length (o_writes x') - length (o_writes x)) ->
  exists f' w', session P T c smooth i W f w_new os W' f' w'.
Proof.
  intros P T c m i x x' h W f os W' l R Hx S A B K MP TO HO LS G Hx' RM.
  destruct (goes_session P T c smooth i W os W' G x h R Hx (rolling_sync _ _ S A) B) as (x2 & ws & Hx2 & E & SE).
  rewrite Hx' in Hx2. injection Hx2 as <-.
  destruct (C36_writes_can_succeed T c m f l ws K MP TO HO) as (f' & w' & H); [|exact LS|].
  - rewrite E, app_length in RM. replace (length ws) with (length (o_writes x) + length ws - length (o_writes x))%nat by lia. exact RM.
  - exists f', w'. apply SE. exact H.
Qed.
Print Assumptions C50_sessions_exist.

(** Example: output 1 rolls at 20 bytes, keeps one backup and takes Info and above; it is attached to
    "a"; "a/b" inherits it. The debug event is below the threshold, the info event below the level of
    "a" at that time. *)
Definition end_conf : roll_conf := exc (BySize 20) 1 Postfix ArchiveNone.
Definition end_out : out_spec := {| os_sink := SinkRolling end_conf; os_async := None; os_threshold := Info |}.
Definition end_W : world := ran ex_P [OGetLogger ($"a/b"); ONewOutput end_out None; OSetOutputs 1 [1%nat]].
Definition end_log (id : nat) (lvl : level) (m : str) : WorldModel.op := OLog id CtxBackground Named lvl m [] 0 ex_user.
Definition end_os : list WorldModel.op :=
  [end_log 2 Warn ($"one"); end_log 1 Debug ($"two"); OSetLevel 1 Warn; end_log 2 Info ($"three"); OSetLevel 1 Trace;
   OGetLogger ($"a/c"); end_log 3 Error ($"four"); WorldModel.OClose; end_log 1 Info ($"five"); end_log 2 Info ($"six"); end_log 2 Info ($"seven")].
Definition end_texts : list str :=
  map (fun s => s ++ ["010"%char]) [$"WARN  [T] a/b: one"; $"ERROR [T] a/c: four"; $"INFO  [T] a: five"; $"INFO  [T] a/b: six"; $"INFO  [T] a/b: seven"].
Definition end_sim : sim := sim_of [($"x", Dir)] ADir [] [].
Definition goes_b (i : nat) (o : WorldModel.op) : bool := free o &&
  match o with OLog _ CtxBackground _ _ _ _ _ _ => true | OLog _ _ _ _ _ _ _ _ => false | OSetFormatter j _ => negb (Nat.eqb j i) | _ => true end.
Lemma run_goes P i os : forall W W', forallb (goes_b i) os = true -> run P W os = Ok W' -> goes P i W os W'.
Proof.
  induction os as [|o os IH]; intros W W' G H; cbn [run forallb] in *; [injection H as <-; constructor|].
  apply andb_true_iff in G as [Go G]. destruct (WorldModel.exec P W o) as [[W1 r]|] eqn:E; [|discriminate].
  apply andb_true_iff in Go as [G1 G2].
  apply (go_op P i W o W1 r); [| |exact E|now apply IH].
  - destruct o; cbn in *; auto; try discriminate. destruct v; auto. apply andb_true_iff in G1. lia.
  - destruct o; cbn in *; auto; try discriminate.
    + destruct c; try discriminate. exact good_background.
    + intros ->. rewrite Nat.eqb_refl in G2. discriminate.
Qed.
Definition end_W' : world := match run ex_P end_W end_os with Ok W => W | Panic => end_W end.
Lemma end_goes : goes ex_P 1 end_W end_os end_W'.
Proof.
  unfold end_W'. destruct (run ex_P end_W end_os) as [W|] eqn:E.
  - apply run_goes; [vm_compute; reflexivity|exact E].
  - exfalso. assert (H : match run ex_P end_W end_os with Ok _ => true | Panic => false end = true) by (vm_compute; reflexivity).
    rewrite E in H. discriminate.
Qed.
Lemma end_cell : nth_error (w_heap end_W) 1 = Some (mkOut end_out None [] [] 0).
Proof. vm_compute. reflexivity. Qed.
Lemma end_reach : reach ex_P end_W.
Proof. apply ran_reach. vm_compute. reflexivity. Qed.
Lemma end_written : option_map o_writes (nth_error (w_heap end_W') 1) = Some end_texts.
Proof. vm_compute. reflexivity. Qed.
Example C50_ex : exists f' w', session ex_P noP end_conf smooth 1 end_W (fs_of end_sim) w_new end_os end_W' f' w' /\
    map (f_dir f') [$"a.1"; $"a.2"; $"a.3"; $"a"] =
      [None; Some (Reg ($"INFO  [T] a: five" ++ nl :: $"INFO  [T] a/b: six" ++ [nl])); None; Some (Reg ($"INFO  [T] a/b: seven" ++ [nl]))].
Proof.
  destruct (goes_session ex_P noP end_conf smooth 1 _ _ _ end_goes _ ByDefault end_reach end_cell
    (rolling_sync (mkOut end_out None [] [] 0) end_conf eq_refl eq_refl) b_default) as (x' & ws & E1 & E2 & SE).
  pose proof end_written as EW. rewrite E1 in EW. cbn [option_map] in EW. injection EW as EW. rewrite E2 in EW. cbn [o_writes app] in EW. subst ws.
  assert (H : show noP end_conf (map (fun b => SWrite b) end_texts) end_sim [$"a.1"; $"a.2"; $"a.3"; $"a"] =
    Some (map well_put end_texts, true, [None; Some (Reg ($"INFO  [T] a: five" ++ nl :: $"INFO  [T] a/b: six" ++ [nl])); None;
      Some (Reg ($"INFO  [T] a/b: seven" ++ [nl]))])) by (vm_compute; reflexivity).
  apply show_happens in H as (f' & w' & H & E); [|apply sim_finite; repeat constructor; intros []].
  exists f', w'. split; [apply SE; exact H|exact E].
Qed.
Example C50_ex_hypotheses : tmp_ok end_conf /\ holds end_conf (f_dir (fs_of end_sim)) (mkLog [] None).
Proof.
  split; [left; reflexivity|]. split; [split; constructor|]. split; [reflexivity|]. split; [intros z x []|].
  intros r n z -> _ D. exfalso. apply D. reflexivity.
Qed.

(** Property C64: from the log call to the file of its period. *)
From Verif Require Import GoStr Utf8 LevelModel EventModel LayoutModel LayoutSpec FormatSpec ConfModel OutputModel OutputSpec OutputProofs
  WorldModel WorldSpec WorldBase WorldInv WorldProofs LogProofs P_Hier P_Log EndModel EndSpec EndProofs P_End.
From Verif Require Import RollModel RollSpec RollExec RollArchProofs RollDirProofs P_Output P_RollSize P_RollTime.
Local Open Scope Z_scope.

(** Writes one after the other, with the readings of the clock they made. *)
Lemma happens_timed T c (good : fsop * fsres -> Prop) ws : forall hs f w f' w', Forall2 put_of ws hs -> happens T c good f w hs f' w' ->
  exists rs, map fst rs = ws /\ timed T c good f w rs f' w'.
Proof.
  induction ws as [|b ws IH]; intros hs f w f' w' PU H; inversion PU as [|? h ? hs' (k & e & ->) PU']; subst.
  - inversion H; subst. exists []. split; [reflexivity|constructor].
  - inversion H; subst. match goal with X : happens _ _ _ _ _ hs' _ _ |- _ => destruct (IH _ _ _ _ _ PU' X) as (rs & E & TI) end.
    eexists ((b, _) :: rs). split; [cbn; now rewrite E|]. econstructor; eassumption.
Qed.
Lemma timed_happens T c (good : fsop * fsres -> Prop) rs : forall f w f' w', timed T c good f w rs f' w' ->
  exists hs, Forall2 put_of (map fst rs) hs /\ happens T c good f w hs f' w'.
Proof.
  induction rs as [|r rs IH]; intros f w f' w' H; inversion H; subst.
  - exists []. split; constructor.
  - match goal with X : timed _ _ _ _ _ rs _ _ |- _ => destruct (IH _ _ _ _ X) as (hs & E & HA) end.
    eexists (HWrite _ _ _ :: hs). split; [cbn; constructor; [unfold put_of; eauto|exact E]|]. econstructor; eassumption.
Qed.

(** A synchronous output rolling by time. Whatever calls are made, if the file system does not fail and
    the clock does not come back to an earlier period: every formatted event that the log calls deliver
    to the output and that passes its threshold is, in order, in the file of the period it was written
    in; the log file has those of the latest period. What the log file had before counts for the first
    period. A backup may be missing only if maxRolls is positive. *)
Theorem C64_end_to_end : forall P T c p i x h x0 W f os W' f' w',
  reach P W -> nth_error (w_heap W) i = Some x -> os_sink (o_spec x) = SinkRolling c -> os_async (o_spec x) = None ->
  built h (o_fmt x) -> rc_kind c = ByTime p -> rc_fullName c = false ->
  (f_dir f (rc_file c) = None /\ x0 = []) \/ f_dir f (rc_file c) = Some (Reg x0) ->
  session P T c smooth i W f w_new os W' f' w' ->
  exists evs rs, deliveries P i W os evs /\ written (p_env P) h (os_threshold (o_spec x)) evs (map fst rs) /\
    timed T c smooth f w_new rs f' w' /\
    (rs = [] -> f_dir f' = f_dir f) /\
    forall r0 rest, rs = r0 :: rest -> (forall s, In s (flat_map snd rs) -> s <> []) -> never_returns (flat_map snd rs) ->
      (rc_archive c = ArchiveNone \/ (rc_file c <> $".log4g_tmp" /\ forall s, In s (flat_map snd rs) -> ~ backup_name c s ($".log4g_tmp"))) ->
      let all := (x0, snd r0) :: rs in
      let latest := period (last rs r0) in
      f_dir f' (rc_file c) = Some (Reg (written_in latest all)) /\
      forall s n, In s (map period rs) -> s <> latest -> backup_name c s n ->
        f_dir f' n = Some (Reg (written_in s all)) \/ (0 < rc_maxRolls c /\ f_dir f' n = None).
Proof.
  intros P T c p i x h x0 W f os W' f' w' R Hx S A B K FN F0 HS.
  destruct (session_runs _ _ _ _ _ _ _ _ _ _ _ _ HS x h R Hx (rolling_sync _ _ S A) B)
    as (evs & ws & hs & x2 & D & WR & PU & HA & _ & _ & _ & _ & _).
  destruct (happens_timed _ _ _ _ _ _ _ _ _ PU HA) as (rs & E & TI). subst ws.
  exists evs, rs. split; [exact D|]. split; [exact WR|]. split; [exact TI|]. split.
  - intros ->. inversion TI; subst. reflexivity.
  - intros r0 rest -> NE NR TM. exact (C43_each_period_its_file T c p x0 f r0 rest f' w' K FN TI F0 TM NE NR).
Qed.
Print Assumptions C64_end_to_end.

Lemma concat_part (l : list str) x : In x l -> exists a b, concat l = a ++ x ++ b.
Proof.
  induction l as [|y l IH]; intros []; cbn.
  - subst. exists [], (concat l). reflexivity.
  - destruct (IH H) as (a & b & E). exists (y ++ a), b. now rewrite E, <- app_assoc.
Qed.
Lemma in_its_period all r : In r all -> exists a b, written_in (period r) all = a ++ fst r ++ b.
Proof.
  intros I. apply concat_part. apply in_map. apply filter_In. split; [exact I|now apply str_eqb_eq].
Qed.
(** Without a bound on the number of backups, what the output wrote is in the file of its period and
    nothing is missing. *)
Theorem C64_nothing_lost : forall P T c p i x h x0 W f os W' f' w',
  reach P W -> nth_error (w_heap W) i = Some x -> os_sink (o_spec x) = SinkRolling c -> os_async (o_spec x) = None ->
  built h (o_fmt x) -> rc_kind c = ByTime p -> rc_fullName c = false -> rc_maxRolls c <= 0 ->
  (f_dir f (rc_file c) = None /\ x0 = []) \/ f_dir f (rc_file c) = Some (Reg x0) ->
  session P T c smooth i W f w_new os W' f' w' ->
  exists evs rs, deliveries P i W os evs /\ written (p_env P) h (os_threshold (o_spec x)) evs (map fst rs) /\
    timed T c smooth f w_new rs f' w' /\
    ((forall s, In s (flat_map snd rs) -> s <> []) -> never_returns (flat_map snd rs) ->
     (rc_archive c = ArchiveNone \/ (rc_file c <> $".log4g_tmp" /\ forall s, In s (flat_map snd rs) -> ~ backup_name c s ($".log4g_tmp"))) ->
     forall r, In r rs -> exists n a b, f_dir f' n = Some (Reg (a ++ fst r ++ b)) /\ (n = rc_file c \/ backup_name c (period r) n)).
Proof.
  intros P T c p i x h x0 W f os W' f' w' R Hx S A B K FN MR F0 HS.
  destruct (C64_end_to_end P T c p i x h x0 W f os W' f' w' R Hx S A B K FN F0 HS) as (evs & rs & D & WR & TI & _ & G).
  exists evs, rs. split; [exact D|]. split; [exact WR|]. split; [exact TI|].
  intros NE NR TM r I. destruct rs as [|r0 rest]; [destruct I|].
  destruct (G r0 rest eq_refl NE NR TM) as [GF GB].
  destruct (str_dec (period r) (period (last (r0 :: rest) r0))) as [E|NEQ].
  - destruct (in_its_period ((x0, snd r0) :: r0 :: rest) r) as (a & b & Q); [now right|].
    exists (rc_file c), a, b. split; [|now left]. rewrite GF, <- E, Q. reflexivity.
  - destruct (in_its_period ((x0, snd r0) :: r0 :: rest) r) as (a & b & Q); [now right|].
    assert (NX : exists n, backup_name c (period r) n) by (unfold backup_name; destruct (rc_nameMode c); eauto).
    destruct NX as [n NX]. exists n, a, b. split; [|now right].
    destruct (GB (period r) n (in_map period _ _ I) NEQ NX) as [H|[H _]]; [now rewrite H, Q|lia].
Qed.
Print Assumptions C64_nothing_lost.

(** Example: the calls of C50_ex on an output rolling by the hour. *)
Definition etime_out : out_spec := {| os_sink := SinkRolling (hours 0); os_async := None; os_threshold := Info |}.
Definition etime_W : world := ran ex_P [OGetLogger ($"a/b"); ONewOutput etime_out None; OSetOutputs 1 [1%nat]].
Definition etime_W' : world := match run ex_P etime_W end_os with Ok W => W | Panic => etime_W end.
Definition etime_sim : sim := sim_of [($"a", Reg ($"old;"))] ADir [] [$"01"; $"01"; $"02"; $"02"; $"03"; $"03"; $"03"].
Lemma etime_goes : goes ex_P 1 etime_W end_os etime_W'.
Proof.
  unfold etime_W'. destruct (run ex_P etime_W end_os) as [W|] eqn:E.
  - apply run_goes; [vm_compute; reflexivity|exact E].
  - exfalso. assert (H : match run ex_P etime_W end_os with Ok _ => true | Panic => false end = true) by (vm_compute; reflexivity).
    rewrite E in H. discriminate.
Qed.
Lemma etime_cell : nth_error (w_heap etime_W) 1 = Some (mkOut etime_out None [] [] 0).
Proof. vm_compute. reflexivity. Qed.
Lemma etime_reach : reach ex_P etime_W.
Proof. apply ran_reach. vm_compute. reflexivity. Qed.
Lemma etime_written : option_map o_writes (nth_error (w_heap etime_W') 1) = Some end_texts.
Proof. vm_compute. reflexivity. Qed.
Example C64_ex : exists f' w', session ex_P hourP (hours 0) smooth 1 etime_W (fs_of etime_sim) w_new end_os etime_W' f' w' /\
    map (f_dir f') [$"a.01"; $"a.02"; $"a"] =
      [Some (Reg ($"old;WARN  [T] a/b: one" ++ nl :: $"ERROR [T] a/c: four" ++ [nl])); Some (Reg ($"INFO  [T] a: five" ++ [nl]));
       Some (Reg ($"INFO  [T] a/b: six" ++ nl :: $"INFO  [T] a/b: seven" ++ [nl]))].
Proof.
  destruct (goes_session ex_P hourP (hours 0) smooth 1 _ _ _ etime_goes _ ByDefault etime_reach etime_cell
    (rolling_sync (mkOut etime_out None [] [] 0) (hours 0) eq_refl eq_refl) b_default) as (x' & ws & E1 & E2 & SE).
  pose proof etime_written as EW. rewrite E1 in EW. cbn [option_map] in EW. injection EW as EW. rewrite E2 in EW. cbn [o_writes app] in EW. subst ws.
  assert (H : show hourP (hours 0) (map (fun b => SWrite b) end_texts) etime_sim [$"a.01"; $"a.02"; $"a"] =
    Some (map well_put end_texts, true,
      [Some (Reg ($"old;WARN  [T] a/b: one" ++ nl :: $"ERROR [T] a/c: four" ++ [nl])); Some (Reg ($"INFO  [T] a: five" ++ [nl]));
       Some (Reg ($"INFO  [T] a/b: six" ++ nl :: $"INFO  [T] a/b: seven" ++ [nl]))])) by (vm_compute; reflexivity).
  apply show_happens in H as (f' & w' & H & E); [|apply sim_finite; repeat constructor; cbn; intuition discriminate].
  exists f', w'. split; [apply SE; exact H|exact E].
Qed.

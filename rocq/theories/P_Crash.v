(** Property C86: a log rolled by time, crashes and restarts. *)
From Verif Require Import GoStr Strconv ConfModel RollModel RollSpec RollExec RollProofs RollDirProofs RollTimeProofs P_RollSize P_RollTime AsyncSpec FaultSpec FaultTimeProofs.
Local Open Scope Z_scope.

Lemma dated_happens P c good f w hs R f' w' : dated P c good f w hs R f' w' -> happens P c good f w hs f' w'.
Proof. induction 1; econstructor; eassumption. Qed.
Lemma happens_dated P c good f w hs f' w' : happens P c good f w hs f' w' -> exists R, dated P c good f w hs R f' w'.
Proof.
  induction 1 as [f w|f w b tr f1 w1 k err hs f2 w2 RN G _ (R & IH)|f w b tr f1 hs f2 w2 RN G _ (R & IH)|f w hs f2 w2 _ (R & IH)].
  - exists []. constructor.
  - exists (times tr ++ R). econstructor; eassumption.
  - exists (times tr ++ R). econstructor; eassumption.
  - exists R. now constructor.
Qed.
(** Whatever fails, wherever processes die and are started again: if the clock does not come back, the backups made, in the
    order of their periods, and the log file hold what was in the log file before and then all that was written: of finished
    writes what they said, of interrupted writes some beginning. Retention removes whole files. No period gets two backups. *)
Theorem C86_nothing_lost : forall P c p good f x0 hs R f' w', rc_kind c = ByTime p -> rc_fullName c = false ->
  dated P c good f w_new hs R f' w' -> f_dir f (rc_file c) = option_map Reg x0 ->
  (rc_archive c = ArchiveNone \/ (rc_file c <> $".log4g_tmp" /\ forall s, In s R -> ~ backup_name c s ($".log4g_tmp"))) ->
  (forall s, In s R -> s <> []) -> never_returns R ->
  exists bs cur ps, f_dir f' (rc_file c) = option_map Reg cur /\ sublist (map fst bs) R /\ NoDup (map fst bs) /\
    parts hs ps /\ concat (map snd bs) ++ bytes cur = bytes x0 ++ concat ps /\
    forall s y n, In (s, y) bs -> backup_name c s n -> f_dir f' n = Some (Reg y) \/ (0 < rc_maxRolls c /\ f_dir f' n = None).
Proof.
  intros P c p good f x0 hs R f' w' K FN DT F0 TM NE NR.
  destruct (kept_history P c p K FN good f w_new hs R f' w' DT [] [] x0) as (bs & cur & ps & _ & (CUR & SL & ND & BK) & PA & E).
  - split; [now apply w_ok_none|now left].
  - split; [exact F0|]. split; [constructor|]. split; [constructor|intros s y []].
  - destruct TM as [TM|[TM _]]; auto.
  - intros s I. split; [now apply NE|]. destruct TM as [TM|[_ TM]]; [now left|]. right. intros X. apply (TM s I).
    pose proof (full_backup c s) as FB. unfold tmp_name in X. rewrite X in FB. exact FB.
  - exact NR.
  - exists bs, cur, ps. cbn [app] in *. repeat (split; [assumption|]).
    intros s y n I BN. assert (EN : n = full c s) by (now apply backup_name_full). subst n. now apply BK.
Qed.
Print Assumptions C86_nothing_lost.

(** Other files are not touched: whatever fails and wherever processes die, an entry that is neither the log file nor a backup
    of a period seen stays as it is, unless it is an older backup that retention removes. *)
Lemma others_step P c p w b f tr f' x (R : list str) n : rc_kind c = ByTime p -> rc_fullName c = false -> w_ok c w ->
  (w_period w = [] \/ In (w_period w) R) -> goes (rw_Write P c w b) f tr f' x -> n <> rc_file c -> (rc_archive c = ArchiveNone \/ n <> tmp_name) ->
  (forall s, In s R -> n <> full c s) ->
  f_dir f' n = f_dir f n \/ (f_dir f' n = None /\ 0 < rc_maxRolls c /\ exists z y, backup P c n z /\ f_dir f n = Some (Reg y)).
Proof.
  intros K FN OK WP G NF NT NB. apply write_dir in G as [G|(s & rname & e & DU & SH & NN & E & ED & G)]; auto; [|now left].
  unfold due in DU. rewrite K in DU. destruct WP as [WP|WP]; [contradiction|].
  unfold new_name in NN. rewrite K in NN. subst rname.
  destruct (time_swept P c (w_period w) s e (f_dir f) n (f_dir f' n) SH NF NT (G n NF)) as [X|X]; [|now right].
  left. rewrite X. destruct (str_eqb_spec n (full c (w_period w))) as [Y|]; [|reflexivity]. now elim (NB _ WP).
Qed.
Theorem C86_others_kept : forall P c p good f hs R f' w' n, rc_kind c = ByTime p -> rc_fullName c = false ->
  dated P c good f w_new hs R f' w' -> n <> rc_file c -> (rc_archive c = ArchiveNone \/ n <> $".log4g_tmp") ->
  (forall s, In s R -> ~ backup_name c s n) ->
  f_dir f' n = f_dir f n \/ (f_dir f' n = None /\ 0 < rc_maxRolls c /\ exists z y, backup P c n z /\ f_dir f n = Some (Reg y)).
Proof.
  intros P c p good f hs R f' w' n K FN DT NF NT NB.
  assert (NB' : forall s, In s R -> n <> full c s) by (intros s I ->; apply (NB s I), full_backup). clear NB.
  enough (X : forall f w hs R f' w', dated P c good f w hs R f' w' -> forall R0, w_ok c w -> (w_period w = [] \/ In (w_period w) R0) ->
    (forall s, In s (R0 ++ R) -> n <> full c s) ->
    f_dir f' n = f_dir f n \/ (f_dir f' n = None /\ 0 < rc_maxRolls c /\ exists z y, backup P c n z /\ f_dir f n = Some (Reg y))).
  { apply (X _ _ _ _ _ _ DT []); [now apply w_ok_none|now left|exact NB']. }
  clear - K FN NF NT.
  assert (TWO : forall d1 d2 d3 : dir, (d2 n = d1 n \/ (d2 n = None /\ 0 < rc_maxRolls c /\ exists z y, backup P c n z /\ d1 n = Some (Reg y))) ->
    (d3 n = d2 n \/ (d3 n = None /\ 0 < rc_maxRolls c /\ exists z y, backup P c n z /\ d2 n = Some (Reg y))) ->
    d3 n = d1 n \/ (d3 n = None /\ 0 < rc_maxRolls c /\ exists z y, backup P c n z /\ d1 n = Some (Reg y))).
  { intros d1 d2 d3 [A|(A1 & A2 & A3)] [B|(B1 & B2 & z & y & B3 & B4)].
    - left. congruence.
    - right. split; [exact B1|]. split; [exact B2|]. exists z, y. split; [exact B3|]. congruence.
    - right. split; [congruence|]. auto.
    - congruence. }
  induction 1 as [f w|f w b tr f1 w1 k err hs R1 f2 w2 RN G DT IH|f w b tr f1 hs R1 f2 w2 RN G DT IH|f w hs R1 f2 w2 DT IH]; intros R0 OK WP NB.
  - now left.
  - apply (TWO (f_dir f) (f_dir f1)).
    + apply runs_goes in RN. apply (others_step P c p w b f tr f1 _ R0 n K FN OK WP RN NF NT). intros s I. apply NB. apply in_or_app. now left.
    + destruct (time_write P c p w b f tr f1 w1 k err K FN OK RN) as (s & ts & ET & OK' & CASES). rewrite app_assoc in NB. apply (IH (R0 ++ times tr)); [exact OK'| |exact NB].
      rewrite ET. destruct CASES as [(_ & _ & -> & _)|[(_ & _ & _ & _ & _ & [(_ & ->)|(-> & _)])|(_ & _ & _ & -> & _)]].
      * right. apply in_or_app. right. now left.
      * destruct WP as [WP|WP]; [now left|]. right. apply in_or_app. now left.
      * right. apply in_or_app. right. right. now left.
      * right. apply in_or_app. right. right. now left.
  - apply (TWO (f_dir f) (f_dir f1)).
    + apply partly_goes in RN. apply (others_step P c p w b f tr f1 _ R0 n K FN OK WP RN NF NT). intros s I. apply NB. apply in_or_app. now left.
    + rewrite app_assoc in NB. apply (IH (R0 ++ times tr)); [now apply w_ok_none|now left|exact NB].
  - apply (IH R0); [now apply w_ok_none|now left|exact NB].
Qed.
Print Assumptions C86_others_kept.

(** Executions. *)
Lemma execs_dated P c good hs : forall w s l w' s' tr, finite (s_dir s) (s_names s) -> execs P c w hs s = Some (l, w', s', tr) ->
  Forall good tr -> dated P c good (fs_of s) w l (times tr) (fs_of s') w'.
Proof.
  induction hs as [|[b|b n|] hs IH]; cbn; intros w s l w' s' tr F H G.
  - inversion H; subst. constructor.
  - destruct (exec (rw_Write P c w b) s) as [[[[w1 [k e]] tr1] s1]|] eqn:E; [|discriminate].
    destruct (execs P c w1 hs s1) as [[[[l2 w2] s2] tr2]|] eqn:E2; [|discriminate]. inversion H; subst.
    apply Forall_app in G as [G1 G2]. apply exec_sound in E as [R F1]; [|exact F]. rewrite times_app. econstructor; eauto.
  - destruct (exec_part n (rw_Write P c w b) s) as [[tr1 s1]|] eqn:E; [|discriminate].
    destruct (execs P c w_new hs s1) as [[[[l2 w2] s2] tr2]|] eqn:E2; [|discriminate]. inversion H; subst.
    apply Forall_app in G as [G1 G2]. apply exec_part_sound in E as [R F1]; [|exact F]. rewrite times_app. econstructor; eauto.
  - destruct (execs P c w_new hs s) as [[[[l2 w2] s2] tr2]|] eqn:E2; [|discriminate]. inversion H; subst. constructor. eauto.
Qed.
Definition dshow (P : tparse) (c : roll_conf) (hs : list shop) (s : sim) (names : list str) :=
  match execs P c w_new hs s with
  | Some (l, _, s', tr) => Some (l, times tr, forallb smoothb tr, map (s_dir s') names)
  | None => None
  end.
Lemma dshow_dated P c hs s names l R es : finite (s_dir s) (s_names s) -> dshow P c hs s names = Some (l, R, true, es) ->
  exists f' w', dated P c smooth (fs_of s) w_new l R f' w' /\ map (f_dir f') names = es.
Proof.
  intros F H. unfold dshow in H. destruct (execs P c w_new hs s) as [[[[l' w'] s'] tr]|] eqn:E; [|discriminate].
  injection H as <- <- G <-. exists (fs_of s'), w'. split; [|reflexivity]. apply (execs_dated P c smooth hs _ _ _ _ _ _ F E). now apply smoothb_ok.
Qed.
Lemma hours_in_order l : Sorted.Sorted (fun a b => match hourP [] a with Some z => z | None => 0 end <= match hourP [] b with Some z => z | None => 0 end) l ->
  Forall (fun s => In s [$"01"; $"02"; $"03"]) l -> never_returns l.
Proof.
  intros S H. apply (C43_monotone_clock (fun s => match hourP [] s with Some z => z | None => 0 end)); [exact S|].
  rewrite Forall_forall in H. intros a b Ia Ib. apply H in Ia, Ib. cbn in Ia, Ib.
  destruct Ia as [<- |[<- |[<- |[]]]], Ib as [<- |[<- |[<- |[]]]]; vm_compute; congruence.
Qed.
(** The process dies after renaming, before it creates the new file; the next one begins in the same period. *)
Example C86_ex : exists f' w', dated hourP (hours 0) smooth (fs_of (sim_of [] ADir [] [$"01"; $"02"; $"02"; $"02"; $"03"; $"03"])) w_new
    [HWrite ($"u;") 2 false; HCrash ($"v;"); HWrite ($"w;") 2 false; HWrite ($"x;") 2 false] [$"01"; $"02"; $"02"; $"02"; $"03"; $"03"] f' w' /\
  map (f_dir f') [$"a.01"; $"a.02"; $"a"] = [Some (Reg ($"u;")); Some (Reg ($"w;")); Some (Reg ($"x;"))] /\
  never_returns [$"01"; $"02"; $"02"; $"02"; $"03"; $"03"].
Proof.
  destruct (dshow_dated hourP (hours 0) [SWrite ($"u;"); SCrash ($"v;") 6; SWrite ($"w;"); SWrite ($"x;")]
    (sim_of [] ADir [] [$"01"; $"02"; $"02"; $"02"; $"03"; $"03"]) [$"a.01"; $"a.02"; $"a"]
    [HWrite ($"u;") 2 false; HCrash ($"v;"); HWrite ($"w;") 2 false; HWrite ($"x;") 2 false] [$"01"; $"02"; $"02"; $"02"; $"03"; $"03"]
    [Some (Reg ($"u;")); Some (Reg ($"w;")); Some (Reg ($"x;"))]) as (f' & w' & D & E).
  - exact (sim_finite [] (NoDup_nil _)).
  - vm_compute. reflexivity.
  - exists f', w'. split; [exact D|]. split; [exact E|]. apply hours_in_order.
    + vm_compute. repeat constructor; discriminate.
    + repeat constructor; cbn; tauto.
Qed.
(** Not each in the file of its period: what a process leaves in the log file goes into the backup of the period in which the
    next one writes first. *)
Theorem C86_own_period_refuted : exists P c p f hs R f' w', rc_kind c = ByTime p /\ rc_fullName c = false /\ rc_maxRolls c <= 0 /\ rc_archive c = ArchiveNone /\
  dated P c smooth f w_new hs R f' w' /\ never_returns R /\ (forall s, In s R -> s <> []) /\
  hs = [HWrite ($"u;") 2 false; HRestart; HWrite ($"v;") 2 false; HWrite ($"x;") 2 false] /\ R = [$"01"; $"02"; $"03"; $"03"] /\
  map (f_dir f') [$"a.01"; $"a.02"; $"a"] = [None; Some (Reg ($"u;v;")); Some (Reg ($"x;"))].
Proof.
  destruct (dshow_dated hourP (hours 0) [SWrite ($"u;"); SRestart; SWrite ($"v;"); SWrite ($"x;")]
    (sim_of [] ADir [] [$"01"; $"02"; $"03"; $"03"]) [$"a.01"; $"a.02"; $"a"]
    [HWrite ($"u;") 2 false; HRestart; HWrite ($"v;") 2 false; HWrite ($"x;") 2 false] [$"01"; $"02"; $"03"; $"03"]
    [None; Some (Reg ($"u;v;")); Some (Reg ($"x;"))]) as (f' & w' & D & E).
  - exact (sim_finite [] (NoDup_nil _)).
  - vm_compute. reflexivity.
  - exists hourP, (hours 0), ($"15"), (fs_of (sim_of [] ADir [] [$"01"; $"02"; $"03"; $"03"])). eexists. eexists. exists f', w'.
    do 4 (split; [reflexivity || (cbn; lia)|]). split; [exact D|]. split.
    + apply hours_in_order; [vm_compute; repeat constructor; discriminate|repeat constructor; cbn; tauto].
    + split; [|auto]. intros s I. cbn in I. destruct I as [<- |[<- |[<- |[<- |[]]]]]; discriminate.
Qed.
Print Assumptions C86_own_period_refuted.

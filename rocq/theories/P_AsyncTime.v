(** Property C83: from the log call through an asynchronous output to the file of a period. *)
From Verif Require Import GoStr Utf8 LevelModel EventModel LayoutModel LayoutSpec LayoutProofs FormatSpec ConfModel OutputModel OutputSpec OutputProofs
  WorldModel WorldSpec WorldBase WorldInv WorldProofs LogProofs P_Hier P_Log EndModel EndSpec EndProofs.
From Verif Require Import RollModel RollSpec RollExec RollArchProofs RollDirProofs P_Output P_RollSize P_RollTime P_End P_EndTime.
From Verif Require Import AsyncModel AsyncSpec AsyncProofs P_Async AsyncEndModel AsyncEndSpec AsyncEndProofs P_AsyncEnd.
Local Open Scope Z_scope.

Lemma reach_stores_any C T c good progs f0 tr s : areach C progs tr s -> forall hs f w,
  Forall2 put_of (a_out s) hs -> happens T c good f0 w_new hs f w -> stores C T c good progs f0 tr s f w.
Proof.
  intros R. pose proof (areach_cont _ _ _ _ R) as (_ & _ & _ & _ & _ & _ & _ & OL & _). rewrite <- OL. clear OL.
  induction R as [|tr s ch l s' R IH H]; intros hs f w PU HA.
  - inversion PU; subst. inversion HA; subst. constructor.
  - unfold outf in PU. rewrite flat_map_app in PU. apply Forall2_app_inv_l in PU as (h1 & h2 & P1 & P2 & ->).
    apply happens_app in HA as (f1 & w1 & H1 & H2). specialize (IH _ _ _ P1 H1).
    destruct l; cbn in P2; try (inversion P2; subst; inversion H2; subst; eapply st_quiet; [exact IH|exact H|discriminate]).
    inversion P2 as [|? ? ? ? (k & e & ->) P3]; subst. inversion P3; subst. eapply st_write; eassumption.
Qed.

Lemma timed_first T c (good : fsop * fsres -> Prop) h hs f w f' w' : timed T c good f w (h :: hs) f' w' ->
  exists f1 w1, timed T c good f w [h] f1 w1 /\ timed T c good f1 w1 hs f' w'.
Proof.
  intros H. inversion H; subst. eexists _, _. split; [|eassumption]. econstructor; [eassumption|assumption|constructor].
Qed.
Lemma gone_wrote C progs tr s : areach C progs tr s -> a_worker s = WLeave \/ a_worker s = WGone -> a_out s <> [].
Proof.
  induction 1 as [|tr s ch l s' R IH H]; [cbn; intros [X|X]; discriminate|].
  unfold anext in H. destruct (a_crashed s); [discriminate|]. destruct ch as [i| | | |].
  - assert (E : a_worker s' = a_worker s /\ a_out s' = a_out s); [|now destruct E as [-> ->]].
    unfold thread_step, chan_send in H. destruct (nth_error (a_threads s) i) as [[q todo]|]; [|discriminate].
    destruct q; repeat match type of H with context [match ?z with _ => _ end] => destruct z end; try discriminate H; injection H as <- <-; split; reflexivity.
  - destruct (a_worker s); try discriminate H. injection H as <- <-. cbn. intros [X|X]; discriminate.
  - unfold recv_step in H. destruct (a_worker s) eqn:W; try discriminate H.
    assert (N : forall z : list str, a_out s ++ z = [] -> z = []) by (intros z; destruct (a_out s); [auto|discriminate]).
    destruct (a_queue s) as [|[e|] q'].
    + destruct (a_shut s); [|discriminate]. injection H as <- <-. intros _ X. cbn in X. apply N in X. discriminate.
    + injection H as H. unfold take_event in H. cbn in H.
      assert (a_worker s' = WRun); [|intros [X|X]; congruence].
      repeat match type of H with context [match ?z with _ => _ end] => destruct z end; injection H as <- <-; exact W.
    + injection H as <- <-. intros _ X. cbn in X. apply N in X. discriminate.
  - destruct (a_worker s) eqn:W; try discriminate H. injection H as <- <-. cbn. rewrite W. intros [X|X]; discriminate.
  - destruct (a_worker s); try discriminate H. injection H as <- <-. cbn. auto.
Qed.

(** At any moment of any execution, with any goroutines, if the file system did not fail: what was
    accepted was taken by the worker or is in the channel; what was taken was written or is in the
    worker's buffer; each group is whole in the file of the period in which the worker wrote it, if the
    clock does not come back to an earlier period. What the log file had before counts for the first
    period. A backup may be missing only if maxRolls is positive. *)
Theorem C83_on_disk : forall C T c p x0 progs f tr s f' w', rc_kind c = ByTime p -> rc_fullName c = false ->
  (f_dir f (rc_file c) = None /\ x0 = []) \/ f_dir f (rc_file c) = Some (Reg x0) ->
  stores C T c smooth progs f tr s f' w' -> a_crashed s = false ->
  exists taken waiting groups held rs, accepted tr (taken ++ waiting) /\ queued (a_queue s) waiting /\
    texts C taken (concat groups ++ held) /\ a_buf s = concat held /\
    map fst rs = map (@concat _) groups /\ timed T c smooth f w_new rs f' w' /\
    (rs = [] -> f_dir f' = f_dir f) /\
    forall r0 rest, rs = r0 :: rest -> (forall t, In t (flat_map snd rs) -> t <> []) -> never_returns (flat_map snd rs) ->
      (rc_archive c = ArchiveNone \/ (rc_file c <> $".log4g_tmp" /\ forall t, In t (flat_map snd rs) -> ~ backup_name c t ($".log4g_tmp"))) ->
      let all := (x0, snd r0) :: rs in
      let latest := period (last rs r0) in
      f_dir f' (rc_file c) = Some (Reg (written_in latest all)) /\
      forall t n, In t (map period rs) -> t <> latest -> backup_name c t n ->
        f_dir f' n = Some (Reg (written_in t all)) \/ (0 < rc_maxRolls c /\ f_dir f' n = None).
Proof.
  intros C T c p x0 progs f tr s f' w' K FN F0 ST CR.
  destruct (areach_cont _ _ _ _ (stores_reach _ _ _ _ _ _ _ _ _ _ ST)) as (tk & hd & segs & held & A & X & O & OL & B & N & HD & LT & WK).
  rewrite CR in HD. subst hd. cbn [app] in A.
  destruct (stores_happens _ _ _ _ _ _ _ _ _ _ ST) as (hs & PU & HA).
  destruct (happens_timed _ _ _ _ _ _ _ _ _ PU HA) as (rs & E & TI).
  exists tk, (qevs (a_queue s)), segs, held, rs. rewrite <- A.
  split; [apply accf_spec|]. split; [apply qevs_spec|]. split; [exact X|]. split; [exact B|]. split; [now rewrite E|]. split; [exact TI|]. split.
  - intros ->. inversion TI; subst. reflexivity.
  - intros r0 rest -> NE NR TM. exact (C43_each_period_its_file T c p x0 f r0 rest f' w' K FN TI F0 TM NE NR).
Qed.
Print Assumptions C83_on_disk.

(** One goroutine calls the API ([os]), then closes the output and may go on to use it. Whatever the
    interleaving with the worker and the ticker, once the worker has gone, if the file system did not
    fail: all the events that the log calls delivered to the output were written in order, formatted
    (on the worker's stack [stk]), those below the threshold left out, nothing else, in groups, each in
    the file of the period in which the worker wrote it. *)
Theorem C83_end_to_end : forall P T c p i x x0 q b fm h stk W f os W' es more tr s f' w',
  reach P W -> nth_error (w_heap W) i = Some x -> os_sink (o_spec x) = SinkRolling c -> os_async (o_spec x) = Some (q, b) ->
  o_fmt x = Some fm -> built h (Some fm) -> rc_kind c = ByTime p -> rc_fullName c = false ->
  (f_dir f (rc_file c) = None /\ x0 = []) \/ f_dir f (rc_file c) = Some (Reg x0) ->
  passes P i W os W' (map CSend es) ->
  stores (async_conf (p_env P) stk (o_fmt x) (os_threshold (o_spec x)) q b) T c smooth [map CSend es ++ CClose :: more] f tr s f' w' ->
  a_worker s = WGone ->
  exists evs groups r0 rest, let rs := r0 :: rest in
    deliveries P i W os evs /\ map snd evs = es /\
    written (p_env P) h (os_threshold (o_spec x)) (map (pair stk) es) (concat groups) /\
    map fst rs = map (@concat _) groups /\ timed T c smooth f w_new rs f' w' /\
    ((forall t, In t (flat_map snd rs) -> t <> []) -> never_returns (flat_map snd rs) ->
     (rc_archive c = ArchiveNone \/ (rc_file c <> $".log4g_tmp" /\ forall t, In t (flat_map snd rs) -> ~ backup_name c t ($".log4g_tmp"))) ->
     let all := (x0, snd r0) :: rs in
     let latest := period (last rs r0) in
     f_dir f' (rc_file c) = Some (Reg (written_in latest all)) /\
     forall t n, In t (map period rs) -> t <> latest -> backup_name c t n ->
       f_dir f' n = Some (Reg (written_in t all)) \/ (0 < rc_maxRolls c /\ f_dir f' n = None)).
Proof.
  intros P T c p i x x0 q b fm h stk W f os W' es more tr s f' w' R Hx S A FM B K FN F0 PS ST WG.
  destruct (passes_deliver _ _ _ _ _ _ PS _ _ _ R Hx A) as (evs & D & M & FA). rewrite evs_of_map in M.
  pose proof (stores_reach _ _ _ _ _ _ _ _ _ _ ST) as AR. pose proof (one_orderly _ _ _ _ AR) as OR.
  assert (CR : a_crashed s = false).
  { destruct (a_crashed s) eqn:CR; [|reflexivity]. pose proof (crashed_worker _ _ _ _ AR CR). congruence. }
  pose proof (phase_left _ (proj1 (phase_reach _ _ _ _ OR)) (or_intror WG)) as QE.
  pose proof (solo_gone _ _ _ _ (solo_reach _ _ _ _ _ AR) (or_intror WG)) as AE.
  destruct (areach_cont _ _ _ _ AR) as (tk & hd & segs & held & AC & X & O & OL & BU & N & HD & LT & WK).
  rewrite CR in HD. subst hd. rewrite QE in AC. unfold qevs in AC. cbn in AC. rewrite app_nil_r in AC. rewrite WG in WK. subst held.
  rewrite app_nil_r in X. rewrite <- AC, AE in X. clear tk AC.
  destruct (stores_happens _ _ _ _ _ _ _ _ _ _ ST) as (hs & PU & HA).
  destruct (happens_timed _ _ _ _ _ _ _ _ _ PU HA) as (rs & E & TI).
  assert (NO : a_out s <> []) by (apply (gone_wrote _ _ _ _ AR); now right).
  destruct rs as [|r0 rest]; [cbn in E; congruence|].
  exists evs, segs, r0, rest. cbv zeta. split; [exact D|]. split; [exact M|]. split.
  { rewrite FM in X. apply (C31_same_texts _ _ h) in X; [exact X|exact B|]. rewrite <- M. rewrite Forall_map. exact FA. }
  split; [now rewrite E|]. split; [exact TI|].
  intros NE NR TM. exact (C43_each_period_its_file T c p x0 f r0 rest f' w' K FN TI F0 TM NE NR).
Qed.
Print Assumptions C83_end_to_end.

(** Without a bound on the number of backups every one of these texts is whole in one file: the log
    file or a backup of the period in which the worker wrote its group. *)
Theorem C83_nothing_lost : forall P T c p i x x0 q b fm h stk W f os W' es more tr s f' w',
  reach P W -> nth_error (w_heap W) i = Some x -> os_sink (o_spec x) = SinkRolling c -> os_async (o_spec x) = Some (q, b) ->
  o_fmt x = Some fm -> built h (Some fm) -> rc_kind c = ByTime p -> rc_fullName c = false -> rc_maxRolls c <= 0 ->
  (f_dir f (rc_file c) = None /\ x0 = []) \/ f_dir f (rc_file c) = Some (Reg x0) ->
  passes P i W os W' (map CSend es) ->
  stores (async_conf (p_env P) stk (o_fmt x) (os_threshold (o_spec x)) q b) T c smooth [map CSend es ++ CClose :: more] f tr s f' w' ->
  a_worker s = WGone ->
  exists evs groups rs, deliveries P i W os evs /\ map snd evs = es /\
    written (p_env P) h (os_threshold (o_spec x)) (map (pair stk) es) (concat groups) /\
    map fst rs = map (@concat _) groups /\ timed T c smooth f w_new rs f' w' /\
    ((forall t, In t (flat_map snd rs) -> t <> []) -> never_returns (flat_map snd rs) ->
     (rc_archive c = ArchiveNone \/ (rc_file c <> $".log4g_tmp" /\ forall t, In t (flat_map snd rs) -> ~ backup_name c t ($".log4g_tmp"))) ->
     forall t, In t (concat groups) -> exists r n pre post, In r rs /\ f_dir f' n = Some (Reg (pre ++ t ++ post)) /\
       (n = rc_file c \/ backup_name c (period r) n)).
Proof.
  intros P T c p i x x0 q b fm h stk W f os W' es more tr s f' w' R Hx S A FM B K FN MR F0 PS ST WG.
  destruct (C83_end_to_end P T c p i x x0 q b fm h stk W f os W' es more tr s f' w' R Hx S A FM B K FN F0 PS ST WG)
    as (evs & gs & r0 & rest & D & M & WR & E & TI & G). set (rs := r0 :: rest) in *.
  exists evs, gs, rs. split; [exact D|]. split; [exact M|]. split; [exact WR|]. split; [exact E|]. split; [exact TI|].
  intros NE NR TM t I. destruct (G NE NR TM) as [GF GB].
  apply in_concat in I as (g & IG & IT). assert (IC : In (concat g) (map fst rs)) by (rewrite E; now apply in_map).
  apply in_map_iff in IC as (r & ER & IR). destruct (concat_part _ _ IT) as (a1 & b1 & E1).
  destruct (in_its_period ((x0, snd r0) :: rs) r) as (a & b0 & Q); [now right|]. rewrite ER, E1 in Q.
  exists r. destruct (str_dec (period r) (period (last rs r0))) as [EQ|NEQ].
  - exists (rc_file c), (a ++ a1), (b1 ++ b0). split; [exact IR|]. split; [|now left]. rewrite GF, <- EQ, Q, <- !app_assoc. reflexivity.
  - assert (NX : exists n, backup_name c (period r) n) by (unfold backup_name; destruct (rc_nameMode c); eauto).
    destruct NX as [n NX]. exists n, (a ++ a1), (b1 ++ b0). split; [exact IR|]. split; [|now right].
    destruct (GB (period r) n (in_map period _ _ IR) NEQ NX) as [H|[H _]]; [|lia]. rewrite H, Q, <- !app_assoc. reflexivity.
Qed.
Print Assumptions C83_nothing_lost.

(** Not: that an event is in the file of the period in which it was logged. Two log calls have
    returned. After that the worker writes the first event, and reads the clock at 01 o'clock. It writes
    the second one when the clock is at 02, into the file of that hour. *)
Definition atime_out : out_spec := {| os_sink := SinkRolling (hours 0); os_async := Some (2, 2); os_threshold := Info |}.
Definition atime_W : world := ran ex_P [OGetLogger ($"a/b"); ONewOutput atime_out aend_fmt; OSetOutputs 1 [1%nat]].
Definition atime_W' : world := match run ex_P atime_W aend_os with Ok W => W | Panic => atime_W end.
Definition atime_es : list event := map (fun d => snd (snd d)) (w_sent atime_W').
Definition late_es : list event := firstn 1 atime_es ++ firstn 1 (skipn 2 atime_es).
Definition late_C : aconf := async_conf (p_env ex_P) [] aend_fmt Info 2 1.
Definition late_sched1 : list choice := repeat (Thread 0) 8 ++ [WStart].
Definition late_sim : sim := sim_of [] ADir [] [$"01"; $"02"; $"02"; $"02"].
Theorem C83_own_period_refuted : exists C T c progs f tr1 s1 y1 b1 s2 f2 w2 y2 b2 s3 f3 w3 e,
  stores C T c smooth progs f tr1 s1 f w_new /\ In (Ret 0 (CSend e)) tr1 /\ ac_fmt C e = Ok b2 /\
  stores C T c smooth progs f (tr1 ++ [Wrote y1 b1]) s2 f2 w2 /\ timed T c smooth f w_new [(b1, [$"01"])] f2 w2 /\
  stores C T c smooth progs f (tr1 ++ [Wrote y1 b1; Wrote y2 b2]) s3 f3 w3 /\ timed T c smooth f2 w2 [(b2, [$"02"; $"02"])] f3 w3 /\
  b1 = $"a/b: one;" /\ b2 = $"a/b: three;" /\ map (f_dir f3) [$"a.01"; $"a"; $"a.02"] = [Some (Reg b1); Some (Reg b2); None].
Proof.
  destruct (arun late_C (a_init [map CSend late_es]) late_sched1) as [[tr1 s1]|] eqn:E1.
  2:{ exfalso. assert (H : match arun late_C (a_init [map CSend late_es]) late_sched1 with Some _ => true | None => false end = true)
        by (vm_compute; reflexivity). rewrite E1 in H. discriminate. }
  destruct (arun late_C s1 [WRecv]) as [[tr2 s2]|] eqn:E2.
  2:{ exfalso. assert (H : match arun late_C (a_init [map CSend late_es]) late_sched1 with
                           | Some (_, s) => match arun late_C s [WRecv] with Some _ => true | None => false end | None => false end = true)
        by (vm_compute; reflexivity). rewrite E1, E2 in H. discriminate. }
  destruct (arun late_C s2 [WRecv]) as [[tr3 s3]|] eqn:E3.
  2:{ exfalso. assert (H : match arun late_C (a_init [map CSend late_es]) late_sched1 with
                           | Some (_, s) => match arun late_C s [WRecv] with
                                            | Some (_, s) => match arun late_C s [WRecv] with Some _ => true | None => false end | None => false end | None => false end = true)
        by (vm_compute; reflexivity). rewrite E1, E2, E3 in H. discriminate. }
  assert (O : match arun late_C (a_init [map CSend late_es]) late_sched1 with
     | Some (t1, s) => match arun late_C s [WRecv] with
       | Some (t2, s') => match arun late_C s' [WRecv] with
         | Some (t3, s'') => Some (a_out s, a_out s', a_out s'', t2, t3) | None => None end | None => None end | None => None end
     = Some ([], [$"a/b: one;"], [$"a/b: one;"; $"a/b: three;"], [Wrote ByBatch ($"a/b: one;")], [Wrote ByBatch ($"a/b: three;")]))
    by (vm_compute; reflexivity).
  rewrite E1, E2, E3 in O. injection O as O1 O2 O3 T2 T3. subst tr2 tr3.
  assert (RT : exists e, In (Ret 0 (CSend e)) tr1 /\ ac_fmt late_C e = Ok ($"a/b: three;")).
  { destruct (skipn 1 late_es) as [|e [|? ?]] eqn:EL; [exfalso; now vm_compute in EL| |exfalso; now vm_compute in EL]. exists e.
    assert (X : option_map (fun r => skipn 7 (fst r)) (arun late_C (a_init [map CSend late_es]) late_sched1) =
      Some (map (fun e => Ret 0 (CSend e)) (skipn 1 late_es) ++ [Start])) by (vm_compute; reflexivity).
    rewrite E1, EL in X. cbn [option_map fst map app] in X.
    assert (X2 : skipn 7 tr1 = [Ret 0 (CSend e); Start]) by congruence. clear X. split.
    - rewrite <- (firstn_skipn 7 tr1), X2. apply in_or_app. right. now left.
    - assert (Y : map (ac_fmt late_C) (skipn 1 late_es) = [Ok ($"a/b: three;")]) by (vm_compute; reflexivity).
      rewrite EL in Y. cbn [map] in Y. exact (f_equal (fun l => hd Panic l) Y). }
  destruct RT as (e & IE & FE).
  pose proof (arun_reach _ _ _ _ _ _ _ (ar_init late_C [map CSend late_es]) E1) as R1. cbn [app] in R1.
  pose proof (arun_reach _ _ _ _ _ _ _ R1 E2) as R2. pose proof (arun_reach _ _ _ _ _ _ _ R2 E3) as R3. rewrite <- app_assoc in R3. cbn [app] in R3.
  destruct (tshow_timed hourP (hours 0) [$"a/b: one;"; $"a/b: three;"] late_sim [$"a.01"; $"a"; $"a.02"]
    [($"a/b: one;", [$"01"]); ($"a/b: three;", [$"02"; $"02"])] [Some (Reg ($"a/b: one;")); Some (Reg ($"a/b: three;")); None]) as (f3 & w3 & TI & E).
  { apply sim_finite. repeat constructor; cbn; intuition discriminate. }
  { vm_compute. reflexivity. }
  assert (TS : exists f2 w2, timed hourP (hours 0) smooth (fs_of late_sim) w_new [($"a/b: one;", [$"01"])] f2 w2 /\
    timed hourP (hours 0) smooth f2 w2 [($"a/b: three;", [$"02"; $"02"])] f3 w3).
  { exact (timed_first _ _ _ _ _ _ _ _ _ TI). }
  destruct TS as (f2 & w2 & TI1 & TI2).
  destruct (timed_happens _ _ _ _ _ _ _ _ TI1) as (h1 & PU1 & HA1). destruct (timed_happens _ _ _ _ _ _ _ _ TI) as (h2 & PU2 & HA2).
  cbn [map fst] in PU1, PU2.
  exists late_C, hourP, (hours 0), [map CSend late_es], (fs_of late_sim), tr1, s1, ByBatch, ($"a/b: one;"), s2, f2, w2, ByBatch, ($"a/b: three;"), s3, f3, w3, e.
  split; [apply (reach_stores_any _ _ _ _ _ _ _ _ R1 []); [rewrite O1; constructor|constructor]|]. split; [exact IE|]. split; [exact FE|].
  split; [apply (reach_stores_any _ _ _ _ _ _ _ _ R2 h1); [rewrite O2; exact PU1|exact HA1]|]. split; [exact TI1|].
  split; [apply (reach_stores_any _ _ _ _ _ _ _ _ R3 h2); [rewrite O3; exact PU2|exact HA2]|]. auto.
Qed.
Print Assumptions C83_own_period_refuted.

(** Example: the calls of C57_ex on an output rolling by the hour. *)
Definition atime_sim : sim := sim_of [($"a", Reg ($"old;"))] ADir [] [$"01"; $"02"; $"02"; $"03"; $"03"; $"03"].
Lemma atime_reach : reach ex_P atime_W.
Proof. apply ran_reach. vm_compute. reflexivity. Qed.
Lemma atime_cell : nth_error (w_heap atime_W) 1 = Some (mkOut atime_out aend_fmt [] [] 0).
Proof. vm_compute. reflexivity. Qed.
Lemma atime_goes : goes ex_P 1 atime_W aend_os atime_W'.
Proof.
  unfold atime_W'. destruct (run ex_P atime_W aend_os) as [W|] eqn:E.
  - apply run_goes; [vm_compute; reflexivity|exact E].
  - exfalso. assert (H : match run ex_P atime_W aend_os with Ok _ => true | Panic => false end = true) by (vm_compute; reflexivity).
    rewrite E in H. discriminate.
Qed.
Lemma atime_passes : passes ex_P 1 atime_W aend_os atime_W' (map CSend atime_es).
Proof.
  destruct (goes_passes _ _ _ _ _ atime_goes _ atime_reach atime_cell) as [cs PS].
  assert (E : cs = map CSend atime_es); [|now rewrite <- E].
  rewrite (passes_open _ _ _ _ _ _ PS _ _ _ atime_reach atime_cell eq_refl); [|cbn; intuition discriminate].
  destruct (passes_sent _ _ _ _ _ _ PS) as (new & evs & N & S & E). rewrite E. f_equal. unfold atime_es.
  assert (N0 : w_sent atime_W = []) by (vm_compute; reflexivity). rewrite N0 in N. cbn [app] in N. rewrite N.
  assert (F : forallb (fun d => Nat.eqb (fst d) 1) (w_sent atime_W') = true) by (vm_compute; reflexivity). rewrite N in F.
  clear - S F. induction S as [|d ds l S IH|j d ds l NE S IH]; cbn in *; [reflexivity|f_equal; auto|].
  apply andb_true_iff in F as [F _]. apply Nat.eqb_eq in F. congruence.
Qed.
Example C83_ex : exists tr s f' w' rs,
  stores (async_conf (p_env ex_P) [] aend_fmt Info 2 2) hourP (hours 0) smooth [map CSend atime_es ++ [CClose]] (fs_of atime_sim) tr s f' w' /\
  a_worker s = WGone /\ timed hourP (hours 0) smooth (fs_of atime_sim) w_new rs f' w' /\ map period rs = [$"01"; $"02"; $"03"] /\
  never_returns (flat_map snd rs) /\ (forall t, In t (flat_map snd rs) -> t <> []) /\
  map (f_dir f') [$"a.01"; $"a.02"; $"a"] =
    [Some (Reg ($"old;a/b: one;")); Some (Reg ($"a/b: three;a: four and more;")); Some (Reg ($"a/b: five;"))].
Proof.
  destruct (arun aend_C (a_init [map CSend atime_es ++ [CClose]]) aend_sched) as [[tr s]|] eqn:E.
  2:{ exfalso. assert (H : match arun aend_C (a_init [map CSend atime_es ++ [CClose]]) aend_sched with Some _ => true | None => false end = true)
        by (vm_compute; reflexivity). rewrite E in H. discriminate. }
  assert (O : option_map (fun r => (a_out (snd r), a_worker (snd r))) (arun aend_C (a_init [map CSend atime_es ++ [CClose]]) aend_sched) =
    Some (aend_texts, WGone)) by (vm_compute; reflexivity).
  rewrite E in O. cbn [option_map fst snd] in O. injection O as O1 O2.
  pose proof (arun_reach _ _ _ _ _ _ _ (ar_init aend_C [map CSend atime_es ++ [CClose]]) E) as R. cbn [app] in R.
  destruct (tshow_timed hourP (hours 0) aend_texts atime_sim [$"a.01"; $"a.02"; $"a"]
    (combine aend_texts [[$"01"]; [$"02"; $"02"]; [$"03"; $"03"]])
    [Some (Reg ($"old;a/b: one;")); Some (Reg ($"a/b: three;a: four and more;")); Some (Reg ($"a/b: five;"))]) as (f' & w' & TI & D).
  { apply sim_finite. repeat constructor; cbn; intuition discriminate. }
  { vm_compute. reflexivity. }
  destruct (timed_happens _ _ _ _ _ _ _ _ TI) as (hs & PU & HA).
  exists tr, s, f', w', (combine aend_texts [[$"01"]; [$"02"; $"02"]; [$"03"; $"03"]]).
  split; [apply (reach_stores_any _ _ _ _ _ _ _ _ R hs); [rewrite O1; exact PU|exact HA]|]. split; [exact O2|]. split; [exact TI|].
  split; [reflexivity|]. split; [|split; [|exact D]].
  - apply (C43_monotone_clock (fun s => match hourP [] s with Some z => z | None => 0 end)).
    + vm_compute. repeat constructor; discriminate.
    + intros a b Ia Ib. cbn in Ia, Ib.
      destruct Ia as [<- |[<- |[<- |[<- |[<- |[]]]]]], Ib as [<- |[<- |[<- |[<- |[<- |[]]]]]]; vm_compute; congruence.
  - cbn. intros t [<- |[<- |[<- |[<- |[<- |[]]]]]]; discriminate.
Qed.

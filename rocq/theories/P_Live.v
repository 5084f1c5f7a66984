(** C78: every call on an asynchronous output ends, and Close ends its goroutine. *)
From Verif Require Import GoStr LevelModel EventModel LayoutModel WorldModel AsyncModel AsyncSpec AsyncProofs P_Async LiveSpec LiveProofs.
Local Open Scope Z_scope.

(** Apart from the ticker, the number of steps is bounded by what the calls can cause; the 4 is for the goroutine of the output itself. *)
Theorem C78_bounded : forall C progs tr s, areach C progs tr s -> (work tr <= costs progs + 4)%nat.
Proof.
  intros C progs tr s R. pose proof (left_steps _ _ _ _ (areach_asteps _ _ _ _ R)) as L. rewrite left_init in L. lia.
Qed.
Print Assumptions C78_bounded.
(** A call under way is never stuck for good: it, or something it waits for, can take a step that is no new call. *)
Theorem C78_no_deadlock : forall C progs tr s, areach C progs tr s -> (1 <= ac_cap C)%nat -> a_crashed s = false -> busy s ->
  exists c l s', anext C s c = Some (l, s') /\ is_work l = true /\ forall i k, l <> Call i k.
Proof.
  intros C progs tr s R CAP CR B. exact (go_busy C tr s CAP (live_reach _ _ _ _ R) (wg_reach _ _ _ _ R) CR B).
Qed.
Print Assumptions C78_no_deadlock.
(** When only the ticker can act, every call has returned or panicked, whatever the calls were. *)
Theorem C78_ended : forall C progs tr s, areach C progs tr s -> (1 <= ac_cap C)%nat -> a_crashed s = false -> idle C s -> ended s.
Proof.
  intros C progs tr s R CAP CR I. exact (proj1 (idle_quiet C tr s CAP (live_reach _ _ _ _ R) (wg_reach _ _ _ _ R) CR I)).
Qed.
Print Assumptions C78_ended.
(** If Close was called at all, the goroutine of the output has then ended, with nothing kept in its buffer: all it took is written. *)
Theorem C78_goroutine_ends : forall C progs tr s i, areach C progs tr s -> (1 <= ac_cap C)%nat -> a_crashed s = false -> idle C s ->
  In (Call i CClose) tr ->
  a_worker s = WGone /\ exists taken waiting ts, accepted tr (taken ++ waiting) /\ queued (a_queue s) waiting /\ texts C taken ts /\ concat (a_out s) = concat ts.
Proof.
  intros C progs tr s i R CAP CR I K. pose proof (live_reach _ _ _ _ R) as L.
  destruct (idle_quiet C tr s CAP L (wg_reach _ _ _ _ R) CR I) as [EN W].
  assert (NP : nil_pushed tr).
  { destruct (lv_call _ _ L _ K) as [X|(j & t & N & X)]; [exact X|exfalso].
    destruct (EN _ _ N) as [-> | Y]; [destruct X; discriminate|rewrite Y in X; destruct X; discriminate]. }
  assert (G : a_worker s = WGone).
  { destruct W as [W|(W & Q & _)]; [exact W|exfalso]. pose proof (lv_nil _ _ L NP (or_intror W)) as X. rewrite Q in X. destruct X. }
  split; [exact G|]. destruct (left_written _ _ _ (areach_cont _ _ _ _ R) (or_intror G) CR) as (tk & ts & E & T & O).
  exists tk, (qevs (a_queue s)), ts. rewrite <- E. repeat split; auto; [apply accf_spec|apply qevs_spec].
Qed.
Print Assumptions C78_goroutine_ends.
(** If Close was not called, every event of every Send was accepted and taken, and the next tick writes what is not written yet. *)
Theorem C78_all_sent : forall C progs tr s, areach C progs tr s -> (1 <= ac_cap C)%nat -> a_crashed s = false -> idle C s -> no_close tr ->
  (forall i cs es, nth_error progs i = Some cs -> sends cs es -> accepted_from i tr es) /\
  exists s' es ts, anext C s WTick = Some (Wrote ByTick (a_buf s), s') /\ accepted tr es /\ texts C es ts /\ concat (a_out s') = concat ts.
Proof.
  intros C progs tr s R CAP CR I NC. pose proof (live_reach _ _ _ _ R) as L.
  destruct (idle_quiet C tr s CAP L (wg_reach _ _ _ _ R) CR I) as [EN W].
  pose proof (before_close _ _ _ _ R NC) as ((F & SH & _ & WK) & A & _). split.
  - intros i cs es N SE.
    assert (LT : (i < length (a_threads s))%nat) by (rewrite (threads_length _ _ _ _ R); apply nth_error_Some; congruence).
    apply nth_error_Some in LT. destruct (nth_error (a_threads s) i) as [[p todo]|] eqn:T; [|contradiction].
    destruct (sends_accepted _ _ _ _ R NC _ _ _ T) as (cs' & N' & E). rewrite N in N'. injection N' as <-.
    destruct (EN _ _ T) as [X|X].
    + injection X as -> ->. cbn in E. rewrite app_nil_r in E. rewrite (sends_det _ _ _ SE (sends_spec cs)), E. apply fromf_spec.
    + cbn in X. subst p. destruct (A _ _ _ T).
  - destruct W as [W|(W & Q & _)]; [destruct WK; congruence|].
    assert (T : anext C s WTick = Some (Wrote ByTick (a_buf s), flush s)) by (unfold anext; now rewrite CR, W).
    exists (flush s). pose proof (areach_cont _ _ _ _ (ar_step _ _ _ _ _ _ _ R T)) as CT.
    destruct (cont_written _ _ _ CT Q eq_refl CR) as (ts & TX & O). rewrite accf_app, app_nil_r in TX.
    exists (accf tr), ts. repeat split; auto. apply accf_spec.
Qed.
Print Assumptions C78_all_sent.
(** Every execution without end, in which work is not put off for ever, comes to this; only a formatter that panics can prevent it. *)
Theorem C78_fair : forall C progs r, (1 <= ac_cap C)%nat -> formats_all C -> r 0%nat = a_init progs -> endless C r -> fair C r ->
  exists n, forall m, (n <= m)%nat -> ended (r m) /\ (a_worker (r m) = WGone \/ a_worker (r m) = WRun /\ a_queue (r m) = []).
Proof.
  intros C progs r CAP FA E0 EN F. destruct (fair_idle C r EN F _ 0%nat (le_n _)) as (n & I).
  destruct (endless_reach C progs r E0 EN n) as (tr & R). pose proof (crashed_no_format _ _ _ _ R FA) as CR.
  pose proof (idle_quiet C tr (r n) CAP (live_reach _ _ _ _ R) (wg_reach _ _ _ _ R) CR I) as Q.
  exists n. intros m LE. destruct (quiet_stays C r EN n m LE Q) as [A B]. split; [exact A|]. destruct B as [B|(B & D & _)]; auto.
Qed.
Print Assumptions C78_fair.
(** With any formatter: all calls end, or the process does. *)
Theorem C78_fair_or_crashed : forall C progs r, (1 <= ac_cap C)%nat -> r 0%nat = a_init progs -> endless C r -> fair C r ->
  exists n, forall m, (n <= m)%nat -> ended (r m) \/ a_crashed (r m) = true.
Proof.
  intros C progs r CAP E0 EN F. destruct (fair_idle C r EN F _ 0%nat (le_n _)) as (n & I). exists n. intros m LE.
  destruct (endless_reach C progs r E0 EN n) as (tr & R). destruct (a_crashed (r n)) eqn:CR; [right; exact (crashed_stays C r EN n m LE CR)|left].
  exact (proj1 (quiet_stays C r EN n m LE (idle_quiet C tr (r n) CAP (live_reach _ _ _ _ R) (wg_reach _ _ _ _ R) CR I))).
Qed.
Print Assumptions C78_fair_or_crashed.
(** Where Close is only called while no other call is under way, and no call begins during a Close, all calls return. *)
Theorem C78_orderly : forall C progs tr s, oreach C progs tr s -> (1 <= ac_cap C)%nat -> a_crashed s = false -> orderly_idle C s -> all_returned s.
Proof.
  intros C progs tr s O CAP CR I. pose proof (oreach_areach _ _ _ _ O) as R. pose proof (live_reach _ _ _ _ R) as L.
  destruct (busy_dec s) as [B|B].
  - exfalso. destruct (go_busy C tr s CAP L (wg_reach _ _ _ _ R) CR B) as (c & l & s' & H & W & NC).
    rewrite (I c l s' H) in W; [discriminate|]. destruct l; try exact Logic.I. destruct (NC i c0 eq_refl).
  - assert (NB : ~ busy s) by (intros (i & p & todo & N & X & Y); destruct (B _ _ N) as [Z|Z]; cbn in Z; contradiction).
    assert (NK : ~ closing s).
    { intros (i & p & todo & N & X). destruct (B _ _ N) as [Z|Z]; cbn in Z; subst p; cbn in X; intuition discriminate. }
    intros i [p todo] N. destruct (B _ _ N) as [Z|Z]; cbn in Z; subst p.
    + destruct todo as [|k todo]; [reflexivity|exfalso].
      assert (H : exists s', anext C s (Thread i) = Some (Call i k, s')).
      { unfold anext. rewrite CR. unfold thread_step. rewrite N. destruct k; eauto. }
      destruct H as (s' & H). assert (X : is_work (Call i k) = false) by (apply (I _ _ _ H); destruct k; cbn; auto). discriminate X.
    + exfalso. destruct (lv_dead _ _ L) as (j & J); [exists i, (mkTh Dead todo); auto|]. exact (proj2 (phase_reach _ _ _ _ O) j J).
Qed.
Print Assumptions C78_orderly.

(** Two goroutines send into a channel of one place, and one of them closes; everything has run, and the output's goroutine is gone. *)
Definition C78_progs : list (list call) := [[CSend (ev ($"a") Info); CSend (ev ($"b") Info)]; [CSend (ev ($"c") Info); CClose]].
Definition C78_sched : list choice :=
  [T0; T1; T0; T1; T0; WStart; T0; T0; WRecv; T1; T1; T0; WRecv; T0; T0; WRecv; WTick; T1; T1; T1; WRecv; WDone; T1; T1; T1; T1].
Example C78_ex : exists tr s, areach C31_conf C78_progs tr s /\ (1 <= ac_cap C31_conf)%nat /\ a_crashed s = false /\
  In (Call 1 CClose) tr /\ idle C31_conf s /\ all_returned s /\ a_worker s = WGone /\ a_out s = [$"a;c;"; $"b;"; []] /\ costs C78_progs = 23%nat /\ work tr = 25%nat.
Proof.
  destruct (arun C31_conf (a_init C78_progs) C78_sched) as [[tr s]|] eqn:R; [|vm_compute in R; discriminate].
  exists tr, s. pose proof (arun_reach _ _ _ _ _ _ _ (ar_init C31_conf C78_progs) R) as RR. cbn [app] in RR.
  vm_compute in R. injection R as <- <-. split; [exact RR|]. clear RR.
  split; [apply le_n|]. split; [reflexivity|]. split; [cbn; tauto|].
  assert (AR : forall i t, nth_error [mkTh Idle []; mkTh Idle []] i = Some t -> t = mkTh Idle []).
  { intros [|[|i]] t H; try (injection H as <-; reflexivity). destruct i; discriminate H. }
  split; [|split; [exact AR|]; repeat split; reflexivity].
  apply quiet_idle. split; [|now left]. intros i t H. left. exact (AR i t H).
Qed.
(** A full channel: the goroutine that pushes cannot go on, but the output's goroutine can start. *)
Example C78_blocked_ex : exists tr s, areach C31_conf C78_progs tr s /\ busy s /\ a_crashed s = false /\
  thread_step C31_conf s 0 = None /\ thread_step C31_conf s 1 = None /\ a_worker s = WNew.
Proof.
  destruct (arun C31_conf (a_init C78_progs) [T0; T0; T0; T1; T1; T0; T0; T0]) as [[tr s]|] eqn:R; [|vm_compute in R; discriminate].
  exists tr, s. pose proof (arun_reach _ _ _ _ _ _ _ (ar_init C31_conf C78_progs) R) as RR. cbn [app] in RR.
  vm_compute in R. injection R as <- <-. split; [exact RR|]. clear RR. split; [|repeat split; reflexivity].
  exists 1%nat. do 2 eexists. split; [reflexivity|]. split; discriminate.
Qed.
(** A fair execution without end: it stands still once its work is done. *)
Definition C78_one : list (list call) := [[CSend (ev ($"a") Info)]].
Definition C78_run (n : nat) : astate :=
  match arun C31_conf (a_init C78_one) (firstn n [T0; T0; WStart; T0; WRecv; WTick; T0]) with Some (_, s) => s | None => a_init C78_one end.
Definition C78_s6 : astate := Eval vm_compute in C78_run 6.
Definition C78_s7 : astate := Eval vm_compute in C78_run 7.
Example C78_fair_ex : C78_run 0 = a_init C78_one /\ endless C31_conf C78_run /\ fair C31_conf C78_run /\ formats_all C31_conf /\
  (1 <= ac_cap C31_conf)%nat /\ ~ ended (C78_run 6) /\ ended (C78_run 7).
Proof.
  assert (ST : forall n, C78_run (7 + n) = C78_run 7) by (intros n; unfold C78_run; rewrite !firstn_all2 by (cbn; lia); reflexivity).
  assert (S7 : C78_run 7 = C78_s7) by (vm_compute; reflexivity). assert (S6 : C78_run 6 = C78_s6) by (vm_compute; reflexivity).
  assert (E7 : ended (C78_run 7)) by (rewrite S7; intros [|i] t H; [injection H as <-; now left|destruct i; discriminate H]).
  assert (I7 : idle C31_conf (C78_run 7)) by (apply quiet_idle; split; [exact E7|rewrite S7; right; repeat split; reflexivity]).
  split; [reflexivity|]. split; [|split; [|split; [|split; [apply le_n|split; [|exact E7]]]]].
  - intros n.
    destruct n as [|n]; [right; exists T0, (Call 0 (CSend (ev ($"a") Info))); vm_compute; reflexivity|].
    destruct n as [|n]; [right; exists T0, Tau; vm_compute; reflexivity|].
    destruct n as [|n]; [right; exists WStart, Start; vm_compute; reflexivity|].
    destruct n as [|n]; [right; exists T0, (Push 0 (Some (ev ($"a") Info))); vm_compute; reflexivity|].
    destruct n as [|n]; [right; exists WRecv, Tau; vm_compute; reflexivity|].
    destruct n as [|n]; [right; exists WTick, (Wrote ByTick ($"a;")); vm_compute; reflexivity|].
    destruct n as [|n]; [right; exists T0, (Ret 0 (CSend (ev ($"a") Info))); vm_compute; reflexivity|].
    left. change (S (S (S (S (S (S (S (S n)))))))) with (7 + S n)%nat. change (S (S (S (S (S (S (S n))))))) with (7 + n)%nat. now rewrite !ST.
  - intros n W. destruct (Nat.le_gt_cases 7 n) as [LE|LT].
    + exfalso. replace n with (7 + (n - 7))%nat in W by lia. rewrite ST in W. exact (can_not_idle _ _ W I7).
    + exists 6%nat, T0, (Ret 0 (CSend (ev ($"a") Info))). split; [lia|]. split; [vm_compute; reflexivity|reflexivity].
  - intros e. cbn. eauto.
  - rewrite S6. intros H. specialize (H 0%nat _ eq_refl). destruct H as [H|H]; discriminate H.
Qed.
(** Close after the last Send. *)
Example C78_orderly_ex : exists tr s, oreach a_conf C32_progs tr s /\ (1 <= ac_cap a_conf)%nat /\ a_crashed s = false /\ orderly_idle a_conf s /\
  all_returned s /\ a_worker s = WGone /\ a_out s = [$"a;"].
Proof.
  destruct (arun a_conf (a_init C32_progs) [T0; T0; T0; T0; WStart; T0; T0; T0; WRecv; WRecv; WDone; T0; T0; T0; T0]) as [[tr s]|] eqn:R;
    [|vm_compute in R; discriminate].
  exists tr, s. split.
  - refine (arun_oreach _ _ _ [] _ _ _ (or_init _ _) R _).
    intros n l sn N A. vm_compute in R. injection R as <- <-.
    do 15 (destruct n as [|n]; [cbn in N; injection N as <-; try exact I;
      vm_compute in A; injection A as <-; cbn; intros (i & p & todo & NN & X);
      destruct i as [|[|i]]; cbn in NN; try discriminate; injection NN as <- <-; cbn in X; intuition congruence|]).
    destruct n; discriminate.
  - vm_compute in R. injection R as <- <-. split; [cbn; lia|]. split; [reflexivity|].
    assert (AR : forall i t, nth_error [mkTh Idle []] i = Some t -> t = mkTh Idle []).
    { intros [|i] t H; [injection H as <-; reflexivity|destruct i; discriminate H]. }
    split; [|split; [exact AR|split; reflexivity]].
    intros c l s' H _. revert H. apply quiet_idle. split; [intros i t H; left; exact (AR i t H)|now left].
Qed.

(** Properties C31 to C35: asynchronous outputs. *)
From Verif Require Import GoStr LevelModel EventModel LayoutModel FormatSpec OutputModel OutputSpec OutputProofs
  WorldModel WorldBase AsyncModel AsyncSpec AsyncProofs P_Output.
Local Open Scope Z_scope.

(** ** C31 *)
(** At every moment the events accepted so far are those the worker has taken followed by those in
    the channel, and the texts of the taken ones are what was written followed by what is buffered. *)
Theorem C31_written_then_pending : forall C progs tr s, areach C progs tr s -> a_crashed s = false ->
  exists taken waiting ts held,
    accepted tr (taken ++ waiting) /\ queued (a_queue s) waiting /\
    texts C taken (ts ++ held) /\ concat (a_out s) = concat ts /\ a_buf s = concat held.
Proof.
  intros C progs tr s R CR.
  destruct (areach_cont _ _ _ _ R) as (tk & hd & segs & held & A & T & O & OL & B & N & HD & LT & WK).
  rewrite CR in HD. subst hd. exists tk, (qevs (a_queue s)), (concat segs), held.
  cbn [app] in A. rewrite <- A. repeat split; auto; [apply accf_spec|apply qevs_spec|now rewrite O, concat_map_concat].
Qed.
Print Assumptions C31_written_then_pending.
(** In bytes: nothing is lost, repeated or reordered. *)
Theorem C31_no_loss_no_duplication : forall C progs tr s, areach C progs tr s -> formats_all C ->
  exists es ts waiting tq, accepted tr es /\ texts C es ts /\ queued (a_queue s) waiting /\ texts C waiting tq /\
    concat (a_out s) ++ a_buf s ++ concat tq = concat ts.
Proof.
  intros C progs tr s R FA.
  assert (CR : a_crashed s = false).
  { destruct (a_crashed s) eqn:CR; [exfalso|reflexivity].
    destruct (areach_cont _ _ _ _ R) as (tk & hd & segs & held & _ & _ & _ & _ & _ & _ & HD & _).
    rewrite CR in HD. destruct HD as (e & _ & _ & P). destruct (FA e) as [b B]. congruence. }
  destruct (C31_written_then_pending _ _ _ _ R CR) as (tk & w & ts & held & A & Q & T & O & B).
  destruct (texts_total C w FA) as [tq TQ].
  exists (tk ++ w), ((ts ++ held) ++ tq), w, tq. repeat split; auto; [now apply texts_app|].
  now rewrite O, B, !concat_app, app_assoc.
Qed.
Print Assumptions C31_no_loss_no_duplication.
(** What was accepted from a goroutine is what it sent, in its order (a Send begun after Close may
    be left out: C35). *)
Theorem C31_sender_order : forall C progs tr s i cs all es, areach C progs tr s ->
  nth_error progs i = Some cs -> sends cs all -> accepted_from i tr es -> sublist es all.
Proof.
  intros C progs tr s i cs all es R N SE AF.
  rewrite (from_det _ _ _ _ AF (fromf_spec i tr)), (sends_det _ _ _ SE (sends_spec cs)).
  assert (L : (i < length (a_threads s))%nat).
  { rewrite (threads_length _ _ _ _ R). apply nth_error_Some. congruence. }
  apply nth_error_Some in L. destruct (nth_error (a_threads s) i) as [[p todo]|] eqn:T; [|contradiction].
  destruct (own_order _ _ _ _ R _ _ _ T) as (cs' & dn & N' & E & SL).
  rewrite N in N'. inversion N'; subst cs'. rewrite E. now apply sub_app_r.
Qed.
Print Assumptions C31_sender_order.
(** If the process dies in the formatter, everything before that event had been handled as above. *)
Theorem C31_until_a_crash : forall C progs tr s, areach C progs tr s -> a_crashed s = true ->
  exists taken e waiting ts held,
    accepted tr (taken ++ e :: waiting) /\ queued (a_queue s) waiting /\
    ac_threshold C <= ev_level e /\ ac_fmt C e = Panic /\
    texts C taken (ts ++ held) /\ concat (a_out s) = concat ts /\ a_buf s = concat held.
Proof.
  intros C progs tr s R CR.
  destruct (areach_cont _ _ _ _ R) as (tk & hd & segs & held & A & T & O & OL & B & N & HD & LT & WK).
  rewrite CR in HD. destruct HD as (e & -> & L & F). exists tk, e, (qevs (a_queue s)), (concat segs), held.
  cbn [app] in A. rewrite <- A. repeat split; auto; [apply accf_spec|apply qevs_spec|now rewrite O, concat_map_concat].
Qed.
Print Assumptions C31_until_a_crash.
(** The texts are those of the synchronous outputs (C26) with the same formatter. *)
Theorem C31_same_texts : forall E stk h f t q b es ts, built h (Some f) -> Forall formattable es ->
  texts (async_conf E stk (Some f) t q b) es ts <-> written E h t (map (pair stk) es) ts.
Proof.
  intros E stk h f t q b es ts BH FM. set (C := async_conf E stk (Some f) t q b).
  assert (D : forall es, Forall formattable es -> exists ts, texts C es ts /\ written E h t (map (pair stk) es) ts).
  { clear es ts FM. induction es as [|e es IH]; intros FM; [exists []; split; constructor|].
    inversion FM; subst. destruct (IH H2) as (ts & A & B).
    destruct (Z.le_gt_cases t (ev_level e)) as [L|L].
    - destruct (Format_text E stk h f e BH (fun _ => H1)) as (b0 & e' & F & TX & _).
      exists (b0 :: ts). split; [|cbn; now constructor].
      apply tx_text; try assumption. cbn. now rewrite F.
    - exists ts. split; [apply tx_low|apply wr_skip]; auto; cbn; lia. }
  destruct (D es FM) as (ts0 & A & B). split; intros H.
  - now rewrite (texts_det _ _ _ _ H A).
  - now rewrite (written_unique _ _ _ _ _ _ H B).
Qed.
Print Assumptions C31_same_texts.

(** Two goroutines, threshold info, batches of two, one event at a time in the channel. *)
Definition ev (m : str) (l : level) : event := out_event l m.
Definition ex_fmt : option formatter := Some (FUser (fun e => Ok (ev_format e ++ $";")) 0).
Lemma arun_reach C progs cs : forall tr s tr' s', areach C progs tr s -> arun C s cs = Some (tr', s') -> areach C progs (tr ++ tr') s'.
Proof.
  induction cs as [|c cs IH]; cbn; intros tr s tr' s' R H.
  - inversion H; subst. now rewrite app_nil_r.
  - destruct (anext C s c) as [[l s1]|] eqn:N; [|discriminate]. destruct (arun C s1 cs) as [[ls s2]|] eqn:A; [|discriminate].
    inversion H; subst. replace (tr ++ l :: ls) with ((tr ++ [l]) ++ ls) by now rewrite <- app_assoc.
    eapply IH; [|exact A]. eapply ar_step; eassumption.
Qed.
Lemma arun_asteps C cs : forall s tr s', arun C s cs = Some (tr, s') -> asteps C s tr s'.
Proof.
  induction cs as [|c cs IH]; cbn; intros s tr s' H; [inversion H; constructor|].
  destruct (anext C s c) as [[l s1]|] eqn:N; [|discriminate]. destruct (arun C s1 cs) as [[ls s2]|] eqn:A; [|discriminate].
  inversion H; subst. econstructor; [exact N|eauto].
Qed.
Definition C31_conf : aconf := async_conf out_env [] ex_fmt Info 1 2.
Definition C31_progs : list (list call) :=
  [[CSend (ev ($"a") Info); CSend (ev ($"b") Warn)]; [CSend (ev ($"x") Debug); CSend (ev ($"y") Info)]].
Definition T0 := Thread 0. Definition T1 := Thread 1.
(** One push from the second goroutine waits until the worker has made room. *)
Definition C31_sched : list choice :=
  [T0; T1; T0; T1; WStart; T1; T1; T1; WRecv; T0; WRecv; T0; T0; T0; T0; WRecv; T1; T1].
Example C31_example : exists tr s, areach C31_conf C31_progs tr s /\
  accepted tr [ev ($"x") Debug; ev ($"a") Info; ev ($"b") Warn; ev ($"y") Info] /\
  accepted_from 0 tr [ev ($"a") Info; ev ($"b") Warn] /\
  a_out s = [$"a;b;"] /\ a_buf s = [] /\ a_queue s = [Some (ev ($"y") Info)] /\ formats_all C31_conf /\
  (exists sblocked, arun C31_conf (a_init C31_progs) [T0; T0; T0; T1; T1] = Some sblocked /\
     anext C31_conf (snd sblocked) T1 = None).
Proof.
  destruct (arun C31_conf (a_init C31_progs) C31_sched) as [[tr s]|] eqn:R; [|vm_compute in R; discriminate].
  exists tr, s. pose proof (arun_reach _ _ _ _ _ _ _ (ar_init C31_conf C31_progs) R) as RR. cbn [app] in RR.
  vm_compute in R. injection R as <- <-. split; [exact RR|]. split; [|split].
  - exact (accf_spec _).
  - exact (fromf_spec 0 _).
  - split; [reflexivity|split; [reflexivity|split; [reflexivity|split]]].
    + intros e. cbn. eauto.
    + eexists. split; vm_compute; reflexivity.
Qed.

(** ** C32 *)
(** As stated it fails: the worker registers itself with the wait group only once it runs, so Close
    can return before anything has been written. *)
Definition a_conf : aconf := async_conf out_env [] ex_fmt Info 4 2.
Definition run_of (progs : list (list call)) (cs : list choice) : list label * astate :=
  match arun a_conf (a_init progs) cs with Some r => r | None => ([], a_init progs) end.
Lemma run_of_reach progs cs r : arun a_conf (a_init progs) cs = Some r ->
  areach a_conf progs (fst (run_of progs cs)) (snd (run_of progs cs)).
Proof.
  intros H. unfold run_of. rewrite H. destruct r as [tr s].
  exact (arun_reach _ _ _ _ _ _ _ (ar_init a_conf progs) H).
Qed.
Lemma a_conf_all : formats_all a_conf.
Proof. intros e. cbn. eauto. Qed.
Definition C32_progs : list (list call) := [[CSend (ev ($"a") Info); CClose]].
Definition C32_s1 : list label * astate := Eval vm_compute in run_of C32_progs [T0; T0; T0; T0].
Theorem C32_close_waits_refuted : exists C progs tr1 s1 tr2 s2 e ts,
  areach C progs tr1 s1 /\ no_close tr1 /\ returned 0 tr1 [e] /\
  asteps C s1 tr2 s2 /\ In (Call 0 CClose) tr2 /\ In (Ret 0 CClose) tr2 /\
  texts C [e] ts /\ concat ts <> [] /\ a_out s2 = [].
Proof.
  destruct (arun a_conf (snd C32_s1) [T0; T0; T0; T0; T0; T0; T0]) as [[tr2 s2]|] eqn:R2; [|vm_compute in R2; discriminate].
  exists a_conf, C32_progs, (fst C32_s1), (snd C32_s1), tr2, s2, (ev ($"a") Info), [$"a;"].
  split; [refine (run_of_reach C32_progs [T0; T0; T0; T0] _ _); vm_compute; reflexivity|].
  split; [intros i H; cbn in H; intuition discriminate|]. split; [exact (retf_spec 0 (fst C32_s1))|].
  split; [exact (arun_asteps _ _ _ _ _ R2)|]. vm_compute in R2. injection R2 as <- <-.
  split; [cbn; tauto|]. split; [cbn; tauto|]. split; [|split; [vm_compute; discriminate|reflexivity]].
  apply tx_text; [vm_compute; discriminate|reflexivity|constructor].
Qed.
Print Assumptions C32_close_waits_refuted.
(** It also fails, with the worker running, for a Close called while another is under way. *)
Definition C32b_progs : list (list call) := [[CClose]; [CSend (ev ($"a") Info); CClose]].
Definition C32b_s1 : list label * astate := Eval vm_compute in run_of C32b_progs [WStart; T1; T1; T0; T0; T0; T1; T1].
Theorem C32_overlapping_close_refuted : exists C progs tr1 s1 tr2 s2 e ts,
  areach C progs tr1 s1 /\ In Start tr1 /\ returned 1 tr1 [e] /\ asteps C s1 (Call 1 CClose :: tr2) s2 /\
  In (Ret 1 CClose) tr2 /\ texts C [e] ts /\ concat ts <> [] /\ concat (a_out s2) = [].
Proof.
  destruct (arun a_conf (snd C32b_s1) [T1; WRecv; WDone; T0; T0; T1; T1]) as [[tr2 s2]|] eqn:R2; [|vm_compute in R2; discriminate].
  destruct tr2 as [|l tr2]; [vm_compute in R2; discriminate|].
  exists a_conf, C32b_progs, (fst C32b_s1), (snd C32b_s1), tr2, s2, (ev ($"a") Info), [$"a;"].
  split; [refine (run_of_reach C32b_progs [WStart; T1; T1; T0; T0; T0; T1; T1] _ _); vm_compute; reflexivity|].
  split; [cbn; tauto|]. split; [exact (retf_spec 1 (fst C32b_s1))|].
  pose proof (arun_asteps _ _ _ _ _ R2) as S. vm_compute in R2. injection R2 as <- <- <-.
  split; [exact S|]. split; [cbn; tauto|]. split; [|split; [vm_compute; discriminate|reflexivity]].
  apply tx_text; [vm_compute; discriminate|reflexivity|constructor].
Qed.
Print Assumptions C32_overlapping_close_refuted.
(** What is missing: it holds if the worker was running, and no other Close had been called, when
    Close was called (that is, at some moment before it). *)
Theorem C32_close_waits_partial : forall C progs tr1 s1 tr2 s2 i,
  areach C progs tr1 s1 -> (forall j, ~ In (Call j CClose) tr1) -> In Start tr1 ->
  asteps C s1 tr2 s2 -> In (Ret i CClose) tr2 ->
  exists es ts more, accepted tr1 es /\ texts C es ts /\ concat (a_out s2) = concat ts ++ more.
Proof.
  intros C progs tr1 s1 tr2 s2 i R NC ST S I.
  destruct (close_waits _ _ _ _ _ _ _ R NC ST S I) as (ts & more & T & O).
  exists (accf tr1), ts, more. repeat split; auto. apply accf_spec.
Qed.
Print Assumptions C32_close_waits_partial.
(** Before Close is called, a Send that returned was accepted: at most the goroutine's last accepted
    event belongs to a Send still to return. *)
Theorem C32_returned_sends_accepted : forall C progs tr s i rs es,
  areach C progs tr s -> (forall j, ~ In (Call j CClose) tr) -> returned i tr rs -> accepted_from i tr es ->
  es = rs \/ exists e, es = rs ++ [e].
Proof.
  intros C progs tr s i rs es R NC RT AF.
  rewrite (from_det _ _ _ _ AF (fromf_spec i tr)), (returned_det _ _ _ _ RT (retf_spec i tr)).
  destruct (nth_error (a_threads s) i) as [[p todo]|] eqn:T.
  - rewrite (returned_accepted _ _ _ _ R NC _ _ _ T). destruct p; rewrite ?app_nil_r; eauto.
  - left. clear RT AF. assert (L : (length (a_threads s) <= i)%nat) by now apply nth_error_None.
    rewrite (threads_length _ _ _ _ R) in L. clear T NC. induction R as [|tr s c l s' R IH H]; [reflexivity|].
    assert (FA : fromf i (tr ++ [l]) = fromf i tr ++ fromf i [l]) by apply flat_map_app.
    assert (RA : retf i (tr ++ [l]) = retf i tr ++ retf i [l]) by apply flat_map_app. rewrite FA, RA, IH.
    apply anext_step in H as [_ [(k & -> & H)|H]]; [|inversion H; reflexivity].
    assert (D : k <> i).
    { intros ->. destruct (tstep_at _ _ _ _ _ H) as (p & todo & _ & _ & N & _).
      assert (X : (i < length (a_threads s))%nat) by (apply nth_error_Some; congruence).
      rewrite (threads_length _ _ _ _ R) in X. lia. }
    f_equal. inversion H; subst; cbn; try reflexivity; destruct (Nat.eqb_spec i k); congruence || reflexivity.
Qed.
Print Assumptions C32_returned_sends_accepted.
Definition C32_s3 : list label * astate := Eval vm_compute in run_of C32_progs [WStart; T0; T0; T0; T0].
Example C32_example : exists tr2 s2,
  areach a_conf C32_progs (fst C32_s3) (snd C32_s3) /\ no_close (fst C32_s3) /\ In Start (fst C32_s3) /\
  asteps a_conf (snd C32_s3) tr2 s2 /\ In (Ret 0 CClose) tr2 /\ a_out s2 = [$"a;"].
Proof.
  destruct (arun a_conf (snd C32_s3) [T0; T0; T0; WRecv; WRecv; WDone; T0; T0; T0; T0]) as [[tr2 s2]|] eqn:R2; [|vm_compute in R2; discriminate].
  exists tr2, s2. split; [refine (run_of_reach C32_progs [WStart; T0; T0; T0; T0] _ _); vm_compute; reflexivity|].
  split; [intros i H; cbn in H; intuition discriminate|]. split; [cbn; tauto|].
  split; [exact (arun_asteps _ _ _ _ _ R2)|]. vm_compute in R2. injection R2 as <- <-. split; [cbn; tauto|reflexivity].
Qed.

(** ** C33 *)
(** As stated it fails in four ways. A Send that has passed the check before the flag is set
    panics (send on closed channel). *)
Definition C33_progs : list (list call) := [[CSend (ev ($"a") Info)]; [CClose]].
Definition C33a_sched := [WStart; T0; T0; T1; T1; T1; WRecv; WDone; T1; T1; T1; T0].
Definition C33a := Eval vm_compute in run_of C33_progs C33a_sched.
Theorem C33_send_panics_refuted : exists C progs tr s e,
  formats_all C /\ areach C progs tr s /\ nth_error progs 0 = Some [CSend e] /\ In (Boom 0) tr.
Proof.
  exists a_conf, C33_progs, (fst C33a), (snd C33a), (ev ($"a") Info). split; [exact a_conf_all|].
  split; [refine (run_of_reach C33_progs C33a_sched _ _); vm_compute; reflexivity|].
  split; [reflexivity|]. cbn. tauto.
Qed.
Print Assumptions C33_send_panics_refuted.
(** An event accepted behind the closing mark is never written, though its Send returned before
    the output was closed. *)
Definition C33b_sched := [WStart; T0; T0; T1; T1; T1; T0; T0; WRecv; WDone].
Definition C33b := Eval vm_compute in run_of C33_progs C33b_sched.
Theorem C33_event_lost_refuted : exists C progs tr s e ts,
  formats_all C /\ areach C progs tr s /\ returned 0 tr [e] /\ a_flag s = false /\
  texts C [e] ts /\ concat ts <> [] /\
  forall tr' s', asteps C s tr' s' -> concat (a_out s') = [].
Proof.
  exists a_conf, C33_progs, (fst C33b), (snd C33b), (ev ($"a") Info), [$"a;"]. split; [exact a_conf_all|].
  split; [refine (run_of_reach C33_progs C33b_sched _ _); vm_compute; reflexivity|].
  split; [exact (retf_spec 0 (fst C33b))|]. split; [reflexivity|].
  split; [apply tx_text; [vm_compute; discriminate|reflexivity|constructor]|]. split; [vm_compute; discriminate|].
  intros tr' s' S. destruct (gone_steps _ _ _ _ (eq_refl : a_worker (snd C33b) = WGone) S) as [_ ->]. reflexivity.
Qed.
Print Assumptions C33_event_lost_refuted.
(** Two overlapping Closes: the second closes a closed channel. *)
Definition C33c_progs : list (list call) := [[CClose]; [CClose]].
Definition C33c_sched := [WStart; T0; T0; T1; T1; T0; T1; WRecv; WDone; T0; T0; T0; T1; T1; T1].
Definition C33c := Eval vm_compute in run_of C33c_progs C33c_sched.
Theorem C33_close_panics_refuted : exists C progs tr s,
  formats_all C /\ areach C progs tr s /\ progs = [[CClose]; [CClose]] /\ In (Boom 1) tr.
Proof.
  exists a_conf, C33c_progs, (fst C33c), (snd C33c). split; [exact a_conf_all|].
  split; [refine (run_of_reach C33c_progs C33c_sched _ _); vm_compute; reflexivity|].
  split; [reflexivity|]. cbn. tauto.
Qed.
Print Assumptions C33_close_panics_refuted.
(** Without a formatter the first event kills the process: the worker calls Format on nil. *)
Theorem C33_no_formatter_refuted : exists E stk t q b progs tr s,
  areach (async_conf E stk None t q b) progs tr s /\ In Crash tr /\
  forall c, anext (async_conf E stk None t q b) s c = None.
Proof.
  exists out_env, [], Info, 4, 2, C33_progs.
  destruct (arun (async_conf out_env [] None Info 4 2) (a_init C33_progs) [WStart; T0; T0; T0; WRecv]) as [[tr s]|] eqn:R;
    [|vm_compute in R; discriminate].
  exists tr, s. split; [exact (arun_reach _ _ _ _ _ _ _ (ar_init _ _) R)|].
  vm_compute in R. injection R as <- <-. split; [cbn; tauto|reflexivity].
Qed.
Print Assumptions C33_no_formatter_refuted.
(** What is missing: it holds in orderly executions (Close called with no other call under way, no
    call begun while a Close is under way). Nobody panics. *)
Theorem C33_no_panic_partial : forall C progs tr s, oreach C progs tr s -> forall i, ~ In (Boom i) tr.
Proof. intros C progs tr s R. exact (proj2 (phase_reach _ _ _ _ R)). Qed.
Print Assumptions C33_no_panic_partial.
(** From every state, the worker alone can write all that was accepted. *)
Theorem C33_all_written_partial : forall C progs tr s, formats_all C -> oreach C progs tr s ->
  exists tr2 s2 es ts, wsteps C s tr2 s2 /\ accepted tr es /\ texts C es ts /\ concat (a_out s2) = concat ts.
Proof.
  intros C progs tr s FA R. destruct (drain _ _ _ _ FA R) as (tr2 & s2 & ts & S & T & O).
  exists tr2, s2, (accf tr), ts. repeat split; auto. apply accf_spec.
Qed.
Print Assumptions C33_all_written_partial.
(** When the worker has gone, all that was accepted has been written. *)
Theorem C33_nothing_left_partial : forall C progs tr s, oreach C progs tr s -> a_worker s = WGone ->
  exists es ts, accepted tr es /\ texts C es ts /\ concat (a_out s) = concat ts.
Proof.
  intros C progs tr s R W. pose proof (oreach_areach _ _ _ _ R) as RR.
  assert (CR : a_crashed s = false).
  { destruct (a_crashed s) eqn:CR; [|reflexivity]. pose proof (crashed_worker _ _ _ _ RR CR). congruence. }
  pose proof (phase_left _ (proj1 (phase_reach _ _ _ _ R)) (or_intror W)) as QE.
  destruct (left_written _ _ _ (areach_cont _ _ _ _ RR) (or_intror W) CR) as (tk & ts & E & T & O).
  rewrite QE in E. unfold qevs in E. cbn in E. rewrite app_nil_r in E. subst tk.
  exists (accf tr), ts. repeat split; auto. apply accf_spec.
Qed.
Print Assumptions C33_nothing_left_partial.
(** No deadlock: while a call is under way or events wait in the channel, somebody can go on
    without a new call being made. *)
Theorem C33_no_deadlock_partial : forall C progs tr s, oreach C progs tr s -> (1 <= ac_cap C)%nat ->
  a_crashed s = false -> busy s \/ a_queue s <> [] ->
  exists c l s', anext C s c = Some (l, s') /\ forall i cl, l <> Call i cl.
Proof.
  intros C progs tr s R CAP CR B.
  destruct (phase_progress C s (proj1 (phase_reach _ _ _ _ R)) (wg_reach _ _ _ _ (oreach_areach _ _ _ _ R)) CAP CR B) as (c & l & s' & X & H).
  exists c, l, s'. split; [exact H|]. intros i cl ->. apply anext_step in H as [_ [(k & -> & H)|H]]; [|inversion H].
  destruct (X i) as [Y|Y]; [|apply Y; eauto]. inversion H; subst; congruence.
Qed.
Print Assumptions C33_no_deadlock_partial.
Lemma arun_oreach C progs cs : forall tr s tr' s', oreach C progs tr s -> arun C s cs = Some (tr', s') ->
  (forall n l sn, nth_error tr' n = Some l -> arun C s (firstn n cs) = Some (firstn n tr', sn) -> orderly sn l) ->
  oreach C progs (tr ++ tr') s'.
Proof.
  induction cs as [|c cs IH]; cbn; intros tr s tr' s' R H OL.
  - inversion H; subst. now rewrite app_nil_r.
  - destruct (anext C s c) as [[l s1]|] eqn:N; [|discriminate]. destruct (arun C s1 cs) as [[ls s2]|] eqn:A; [|discriminate].
    inversion H; subst. replace (tr ++ l :: ls) with ((tr ++ [l]) ++ ls) by now rewrite <- app_assoc.
    eapply IH; [|exact A|].
    + eapply or_step; [exact R| |exact N]. apply (OL 0%nat l s); reflexivity.
    + intros n l0 sn NN AA. apply (OL (S n) l0 sn); [exact NN|]. cbn [firstn arun]. now rewrite N, AA.
Qed.
Example C33_example : exists tr s, oreach a_conf C32_progs tr s /\ a_worker s = WGone /\ a_flag s = true /\ a_out s = [$"a;"].
Proof.
  destruct (arun a_conf (a_init C32_progs) [T0; T0; T0; T0; T0; T0; T0; T0; T0; T0; WStart; WRecv; WRecv; WDone]) as [[tr s]|] eqn:R;
    [|vm_compute in R; discriminate].
  exists tr, s. split.
  - refine (arun_oreach _ _ _ [] _ _ _ (or_init _ _) R _).
    intros n l sn N A. vm_compute in R. injection R as <- <-.
    do 14 (destruct n as [|n]; [cbn in N; injection N as <-; try exact I;
      vm_compute in A; injection A as <-; cbn; intros (i & p & todo & NN & X);
      destruct i as [|[|i]]; cbn in NN; try discriminate; injection NN as <- <-; cbn in X; intuition congruence|]).
    destruct n; discriminate.
  - vm_compute in R. injection R as <- <-. repeat split; reflexivity.
Qed.

(** ** C34 *)
(** Fewer than batch_num events are held back between steps. *)
Theorem C34_held_back : forall C progs tr s, areach C progs tr s -> 1 <= ac_batch C -> a_crashed s = false ->
  exists taken waiting ts held,
    accepted tr (taken ++ waiting) /\ queued (a_queue s) waiting /\ texts C taken (ts ++ held) /\
    concat (a_out s) = concat ts /\ a_buf s = concat held /\ Z.of_nat (length held) < ac_batch C.
Proof.
  intros C progs tr s R B1 CR.
  destruct (areach_cont _ _ _ _ R) as (tk & hd & segs & held & A & T & O & OL & B & N & HD & LT & WK).
  rewrite CR in HD. subst hd. exists tk, (qevs (a_queue s)), (concat segs), held.
  cbn [app] in A. rewrite <- A. repeat split; auto; try lia; [apply accf_spec|apply qevs_spec|now rewrite O, concat_map_concat].
Qed.
Print Assumptions C34_held_back.
(** A tick writes all that the worker has taken. *)
Theorem C34_tick_flushes : forall C progs tr s b s', areach C progs tr s ->
  (exists c, anext C s c = Some (Wrote ByTick b, s')) ->
  a_buf s' = [] /\ exists taken waiting ts, accepted tr (taken ++ waiting) /\ queued (a_queue s') waiting /\
    texts C taken ts /\ concat (a_out s') = concat ts.
Proof.
  intros C progs tr s b s' R [c H].
  destruct (areach_cont _ _ _ _ (ar_step _ _ _ _ _ _ _ R H)) as (tk & hd & segs & held & A & T & O & OL & B & N & HD & LT & WK).
  apply anext_step in H as [CR [(i & -> & H)|H]]; [inversion H|]. inversion H; subst. cbn in *.
  split; [reflexivity|]. rewrite CR in HD. subst hd. exists tk, (qevs (a_queue s)), (concat segs ++ held).
  rewrite accf_app in A. cbn in A. rewrite app_nil_r in A. change (accf tr = tk ++ qevs (a_queue s)) in A. rewrite <- A.
  repeat split; auto; [apply accf_spec|apply qevs_spec|].
  rewrite O, concat_map_concat, concat_app, <- B. now rewrite app_nil_r.
Qed.
Print Assumptions C34_tick_flushes.
(** Every write made because the batch is full holds the next batch_num events (at or above the
    threshold), no more and no fewer. *)
Theorem C34_full_batches : forall C progs tr1 b tr2 s,
  areach C progs (tr1 ++ Wrote ByBatch b :: tr2) s -> 1 <= ac_batch C ->
  exists before now later tb tn, accepted tr1 (before ++ now ++ later) /\
    texts C before tb /\ concat (outf tr1) = concat tb /\
    texts C now tn /\ b = concat tn /\ Z.of_nat (length tn) = ac_batch C.
Proof.
  intros C progs tr1 b tr2 s R B1. destruct (batch_write _ _ _ _ _ _ R B1) as (e1 & e2 & e3 & t1 & t2 & A & T1' & T2 & O & B & L).
  exists e1, e2, e3, t1, t2. rewrite <- A. repeat split; auto. apply accf_spec.
Qed.
Print Assumptions C34_full_batches.
(** The writes of the trace are the writes made, and there are no others. *)
Theorem C34_writes_are_labelled : forall C progs tr s, areach C progs tr s ->
  a_out s = flat_map (fun l => match l with Wrote _ b => [b] | _ => [] end) tr.
Proof.
  intros C progs tr s R.
  destruct (areach_cont _ _ _ _ R) as (tk & hd & segs & held & A & T & O & OL & B & N & HD & LT & WK). now symmetry.
Qed.
Print Assumptions C34_writes_are_labelled.
Example C34_example : exists tr1 b tr2 s, areach C31_conf C31_progs (tr1 ++ Wrote ByBatch b :: tr2) s /\ b = $"a;b;" /\
  exists s0 s', areach C31_conf C31_progs tr1 s0 /\ a_buf s0 = $"a;" /\ anext C31_conf s0 WTick = Some (Wrote ByTick ($"a;"), s').
Proof.
  destruct (arun C31_conf (a_init C31_progs) C31_sched) as [[tr s]|] eqn:R; [|vm_compute in R; discriminate].
  destruct (arun C31_conf (a_init C31_progs) (firstn 15 C31_sched)) as [[tr0 s0]|] eqn:R0; [|vm_compute in R0; discriminate].
  pose proof (arun_reach _ _ _ _ _ _ _ (ar_init C31_conf C31_progs) R) as RR. cbn [app] in RR.
  pose proof (arun_reach _ _ _ _ _ _ _ (ar_init C31_conf C31_progs) R0) as RR0. cbn [app] in RR0.
  vm_compute in R, R0. injection R as <- <-. injection R0 as <- <-.
  match type of RR with areach _ _ ?t _ => exists (firstn 15 t), ($"a;b;"), (skipn 16 t) end.
  eexists. split; [exact RR|]. split; [reflexivity|]. do 2 eexists. split; [exact RR0|]. split; [reflexivity|]. vm_compute. reflexivity.
Qed.

(** ** C35 *)
(** Call [c] of goroutine [i] is begun in a state where some Close has returned. Whatever the
    others do meanwhile, until it returns it can always take its next step, which is a read of the
    flag or the return, changes nothing but its own position, and neither sends nor panics. *)
Theorem C35_after_close : forall C progs tr s0 ch i c s1 tr2 s2,
  areach C progs tr s0 -> (exists j, In (Ret j CClose) tr) ->
  anext C s0 ch = Some (Call i c, s1) -> asteps C s1 tr2 s2 -> ~ In (Ret i c) tr2 -> a_crashed s2 = false ->
  ~ In (Boom i) tr2 /\ (forall e, ~ In (Push i e) tr2) /\
  exists l p todo, anext C s2 (Thread i) = Some (l, set_th s2 i p todo) /\ (l = Tau \/ l = Ret i c).
Proof.
  intros C progs tr s0 ch i c s1 tr2 s2 R CL H S NR CR.
  assert (F : a_flag s0 = true) by (eapply flag_reach; eauto).
  pose proof (flag_step _ _ _ _ _ F H) as F1.
  assert (N : exists p todo, nth_error (a_threads s1) i = Some (mkTh p todo) /\ late c p).
  { apply anext_step in H as [_ [(k & -> & H)|H]]; [|inversion H].
    inversion H; subst; match goal with X : nth_error _ _ = Some _ |- _ => rewrite th_set with (1 := X), Nat.eqb_refl end;
      do 2 eexists; (split; [reflexivity|]); now left. }
  destruct N as (p & todo & N & L). destruct (late_steps _ _ _ _ _ _ _ _ F1 S N L NR) as (F2 & (p' & N2 & L2) & NB & NP).
  split; [exact NB|]. split; [exact NP|]. unfold anext, thread_step. rewrite CR, N2, F2.
  destruct c as [e|]; destruct L2 as [-> | ->]; do 3 eexists; (split; [reflexivity|]); auto.
Qed.
Print Assumptions C35_after_close.
(** On its own, such a call is over after three steps, and nothing but the goroutine's list of
    calls has changed. *)
Theorem C35_returns_at_once : forall C progs tr s i c rest,
  areach C progs tr s -> (exists j, In (Ret j CClose) tr) -> a_crashed s = false ->
  nth_error (a_threads s) i = Some (mkTh Idle (c :: rest)) ->
  exists s', arun C s [Thread i; Thread i; Thread i] = Some ([Call i c; Tau; Ret i c], s') /\
    a_queue s' = a_queue s /\ a_shut s' = a_shut s /\ a_flag s' = a_flag s /\ a_wg s' = a_wg s /\ a_worker s' = a_worker s /\
    a_buf s' = a_buf s /\ a_num s' = a_num s /\ a_out s' = a_out s /\
    nth_error (a_threads s') i = Some (mkTh Idle rest) /\
    forall j, j <> i -> nth_error (a_threads s') j = nth_error (a_threads s) j.
Proof.
  intros C progs tr s i c rest R CL CR N.
  assert (F : a_flag s = true) by (eapply flag_reach; eauto).
  assert (U : forall p q, upd i (fun _ : thread => q) (upd i (fun _ => p) (a_threads s)) = upd i (fun _ => q) (a_threads s)).
  { intros p q. clear. revert i. induction (a_threads s) as [|x l IH]; intros [|i]; cbn; auto. now rewrite IH. }
  assert (N1 : forall p, nth_error (upd i (fun _ : thread => p) (a_threads s)) i = Some p).
  { intros p. now apply nth_upd_eq with (f := fun _ => p) in N. }
  clear R CL. destruct s as [q sh fl wg w bf nm out ths cr]. cbn in F, CR, N, U, N1. subst fl cr.
  unfold arun, anext, thread_step, set_th. cbn. rewrite N.
  destruct c as [e|]; cbn; rewrite N1; cbn; rewrite U, N1; cbn;
    (eexists; split; [reflexivity|]); cbn; rewrite ?U, ?N1; repeat split; auto; intros j D; now rewrite nth_upd_ne.
Qed.
Print Assumptions C35_returns_at_once.
Definition C35_progs : list (list call) := [[CSend (ev ($"a") Info); CClose; CClose; CSend (ev ($"b") Info)]].
Example C35_example : exists tr s rest, areach a_conf C35_progs tr s /\ (exists j, In (Ret j CClose) tr) /\ a_crashed s = false /\
  nth_error (a_threads s) 0 = Some (mkTh Idle (CClose :: rest)) /\ a_out s = [$"a;"].
Proof.
  destruct (arun a_conf (a_init C35_progs) [WStart; T0; T0; T0; T0; T0; T0; T0; WRecv; WRecv; WDone; T0; T0; T0; T0]) as [[tr s]|] eqn:R;
    [|vm_compute in R; discriminate].
  exists tr, s, [CSend (ev ($"b") Info)]. split; [exact (arun_reach _ _ _ _ _ _ _ (ar_init _ _) R)|].
  vm_compute in R. injection R as <- <-. split; [exists 0%nat; cbn; tauto|]. repeat split; reflexivity.
Qed.

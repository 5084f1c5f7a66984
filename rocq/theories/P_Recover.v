(** Property C41, rolling by time: after faults the writer works, waits for a period that is over, or has stopped. *)
From Verif Require Import GoStr Strconv StrconvProofs ConfModel RollModel RollSpec RollExec RollProofs RollSizeProofs RollRunProofs RollDirProofs RollTimeProofs P_RollSize P_RollTime.
From Verif Require Import AsyncSpec FaultSpec FaultTimeProofs P_Fault P_Crash.
Local Open Scope Z_scope.

(** What is left of a write after the question whether to roll. *)
Lemma finish_safe c w b : plain c -> w_file w = None -> safe smooth (fun x => snd x = (length b, false)) (finish c w b).
Proof.
  intros PL WF. unfold finish. rewrite WF.
  apply (safe_bind _ (fun x => opened c (fst x) /\ snd x = false)); [apply safe_smooth; now apply live_create|].
  intros [w3 err] [W3 X]. cbn [fst snd] in W3, X. subst err. destruct W3 as [W3 N3]. rewrite W3.
  apply (safe_bind _ (fun r => r = RWrote (length b) true)).
  - apply safe_op'. intros r f f' E S. apply eff_write in E as (k & ok & -> & _ & Q & _). cbn in S. subst ok. now rewrite Q.
  - intros r ->. constructor. reflexivity.
Qed.
Lemma shut_stays P c p f w b tr f' w' k e n : rc_kind c = ByTime p -> w_file w = Some (n, false) -> runs (rw_Write P c w b) f tr f' (w', (k, e)) ->
  f' = f /\ w_file w' = Some (n, false) /\ k = 0%nat /\ e = true.
Proof.
  intros K WF H. rewrite write_eq in H. apply runs_bind in H as (t1 & f1 & [w1 need] & t2 & -> & H1 & H).
  apply runs_goes, needs_goes in H1 as (-> & [X|(w1' & need' & X & N1 & N2 & N3 & _)]); [discriminate|]. injection X as <- <-. rewrite WF in N1.
  apply runs_bind in H as (t3 & f2 & [w2 err] & t4 & -> & H1 & H). destruct need.
  - unfold roll in H1. rewrite N1 in H1. apply runs_goes, goes_done in H1 as (-> & -> & [X|X]); [|discriminate]. injection X as -> ->.
    apply runs_goes, goes_done in H as (-> & -> & [X|X]); [|discriminate]. injection X as -> -> ->. auto.
  - apply runs_goes, goes_done in H1 as (-> & -> & [X|X]); [|discriminate]. injection X as -> ->.
    unfold finish in H. rewrite N1 in H. cbn [pbind] in H. rewrite N1 in H. apply runs_goes, goes_done in H as (-> & -> & [X|X]); [|discriminate]. injection X as -> -> ->. auto.
Qed.
Lemma shut_stuck P c p f w n : rc_kind c = ByTime p -> w_file w = Some (n, false) -> stuck P c f w.
Proof.
  intros K WF hs f' w' H. revert WF.
  induction H as [f w|f w b tr f1 w1 k err hs f2 w2 R S HS IH|f w b tr f1 hs f2 w2 R S HS IH|f w hs f2 w2 HS IH]; intros WF HW.
  - split; [reflexivity|]. intros b k e [].
  - destruct (shut_stays P c p f w b tr f1 w1 k err n K WF R) as (-> & WF1 & -> & ->).
    destruct (IH WF1) as [-> Q]; [intros h I; apply HW; now right|]. split; [reflexivity|]. intros b' k' e' [I|I]; [injection I as _ <- <-; auto|eauto].
  - destruct (HW (HCrash b)) as (? & ? & ? & X); [now left|discriminate].
  - destruct (HW HRestart) as (? & ? & ? & X); [now left|discriminate].
Qed.
Lemma waits P c p w f b tr f' w' k e : rc_kind c = ByTime p -> plain c -> w_file w = None -> w_period w <> [] -> runs (rw_Write P c w b) f tr f' (w', (k, e)) ->
  exists s ts, times tr = s :: ts /\ (s = w_period w -> Forall smooth tr -> k = length b /\ e = false) /\ (s <> w_period w -> f' = f /\ w' = w /\ k = 0%nat /\ e = true).
Proof.
  intros K PL WF NE R.
  rewrite write_eq in R. apply runs_bind in R as (t1 & f1 & [w1 need] & t2 & -> & H1 & R).
  unfold needsToRoll, now in H1. rewrite K in H1. apply runs_bind in H1 as (t3 & f2 & s & t4 & -> & H1 & H2).
  apply runs_bind in H1 as (t5 & f3 & r & t6 & -> & H1 & H3). apply runs_op in H1 as [-> E]. inversion E; subst.
  apply runs_goes, goes_done in H3 as (-> & -> & [X|X]); [|discriminate]. injection X as ->.
  assert (W1 : f1 = f3 /\ t4 = [] /\ w1 = w /\ need = negb (str_eqb s0 (w_period w))).
  { destruct (w_period w); [contradiction|]. apply runs_goes, goes_done in H2 as (-> & -> & [X|X]); [|discriminate]. injection X as -> ->. auto. }
  destruct W1 as (-> & -> & -> & ->). exists s0, (times t2). split; [reflexivity|].
  apply runs_bind in R as (t7 & f4 & [w2 err] & t8 & -> & H4 & R).
  destruct (str_eqb_spec s0 (w_period w)) as [ES|NS]; cbn [negb] in H4; (split; [intros EQ S|intros NQ]); try contradiction.
  + apply runs_goes, goes_done in H4 as (-> & -> & [X|X]); [|discriminate]. injection X as -> ->.
    apply Forall_app in S as [_ S]. pose proof (safe_runs _ _ _ _ _ _ _ (finish_safe c w b PL WF) R S) as Q. cbn in Q. injection Q as -> ->. auto.
  + unfold roll in H4. rewrite WF in H4. apply runs_goes, goes_done in H4 as (-> & -> & [X|X]); [|discriminate]. injection X as -> ->.
    apply runs_goes, goes_done in R as (-> & -> & [X|X]); [|discriminate]. injection X as -> -> ->. auto.
Qed.
(** After any faults, crashes and restarts: every write that is not disturbed is whole; or this holds in one period, and in
    all others a write does nothing, which does not change any more; or no write does anything any more. *)
Theorem C41_time_works_waits_or_stuck_partial : forall P c p f0 hs f w, rc_kind c = ByTime p -> rc_fullName c = false ->
  happens P c any f0 w_new hs f w ->
  (forall f b tr f' w' k e, runs (rw_Write P c w b) f tr f' (w', (k, e)) -> Forall smooth tr -> k = length b /\ e = false) \/
  (exists q, q <> [] /\ forall f b tr f' w' k e, runs (rw_Write P c w b) f tr f' (w', (k, e)) -> exists s ts, times tr = s :: ts /\
     (s = q -> Forall smooth tr -> k = length b /\ e = false) /\ (s <> q -> f' = f /\ w' = w /\ k = 0%nat /\ e = true)) \/
  (forall f, stuck P c f w).
Proof.
  intros P c p f0 hs f w K FN H. assert (PL : plain c) by now left.
  assert (OK : w_ok c w) by (apply (happens_ok _ _ _ _ _ _ _ _ PL H); now apply w_ok_none).
  assert (AL : alive c w -> forall f b tr f' w' k e, runs (rw_Write P c w b) f tr f' (w', (k, e)) -> Forall smooth tr -> k = length b /\ e = false).
  { intros AL g b tr f' w' k e R S. pose proof (safe_runs _ _ _ _ _ _ _ (whole_safe P c w b PL AL) R S) as Q. cbn in Q. injection Q as -> ->. auto. }
  destruct (w_file w) as [[n [|]]|] eqn:WF.
  - left. apply AL. left. destruct (OK _ _ WF) as [-> N]. split; assumption.
  - right; right. intros g. exact (shut_stuck P c p g w n K WF).
  - destruct (w_period w) as [|a q] eqn:WP; [left; apply AL; right; split; [exact WF|now rewrite K]|].
    right; left. exists (a :: q). split; [discriminate|]. rewrite <- WP. intros g b tr f' w' k e R. apply (waits P c p w g b tr f' w' k e K PL WF); [now rewrite WP|exact R].
Qed.
Print Assumptions C41_time_works_waits_or_stuck_partial.

Lemma waits_on P c p f w hs R f' w' : rc_kind c = ByTime p -> plain c -> w_file w = None -> w_period w <> [] -> dated P c any f w hs R f' w' ->
  (forall h, In h hs -> exists b k e, h = HWrite b k e) -> ~ In (w_period w) R -> f' = f /\ forall b k e, In (HWrite b k e) hs -> k = 0%nat /\ e = true.
Proof.
  intros K PL WF NE H.
  induction H as [f w|f w b tr f1 w1 k err hs R f2 w2 RN S HS IH|f w b tr f1 hs R f2 w2 RN S HS IH|f w hs R f2 w2 HS IH]; intros HW NI.
  - split; [reflexivity|]. intros b k e [].
  - destruct (waits P c p w f b tr f1 w1 k err K PL WF NE RN) as (s & ts & T & _ & Q). destruct Q as (-> & -> & -> & ->).
    { intros ->. apply NI. rewrite T. now left. }
    destruct (IH WF NE) as [-> Q]; [intros h I; apply HW; now right|intros I; apply NI; apply in_or_app; now right|].
    split; [reflexivity|]. intros b' k' e' [I|I]; [injection I as _ <- <-; auto|eauto].
  - destruct (HW (HCrash b)) as (? & ? & ? & X); [now left|discriminate].
  - destruct (HW HRestart) as (? & ? & ? & X); [now left|discriminate].
Qed.
(** Once, a process rolls and then cannot make the directory for the new file. If its next write comes in a later period,
    nothing is written any more, although nothing else fails. *)
Definition wait_sim : sim := sim_of [] ADir (repeat true 8 ++ [false]) [$"01"; $"02"; $"02"].
Definition wait_run := execs hourP (hours 0) w_new [SWrite ($"u;"); SWrite ($"v;")] wait_sim.
Definition mkdir_only (x : fsop * fsres) : bool := smoothb x || match x with (OMkdir 496, RErr) => true | _ => false end.
Lemma mkdir_only_ok tr : forallb mkdir_only tr = true -> Forall (only (OMkdir 496)) tr.
Proof.
  intros H. apply Forall_forall. intros x I. rewrite forallb_forall in H. apply H in I. unfold mkdir_only in I. apply orb_true_iff in I as [I|I].
  - left. assert (F : Forall smooth [x]) by (apply smoothb_ok; cbn; now rewrite I). now inversion F.
  - right. destruct x as [o r]. destruct o; try discriminate. destruct (Z.eq_dec perm 496) as [-> |N]; [destruct r; try discriminate; reflexivity|].
    exfalso. revert I. destruct perm as [|q|q]; try discriminate.
    repeat (destruct q as [q|q|]; try discriminate). now elim N.
Qed.
Theorem C41_time_waits_refuted : exists P c p f f1 w1, rc_kind c = ByTime p /\ rc_fullName c = false /\ (forall n, f_dir f n = None) /\
  dated P c (only (OMkdir 496)) f w_new [HWrite ($"u;") 2 false; HWrite ($"v;") 0 true] [$"01"; $"02"; $"02"] f1 w1 /\
  map (f_dir f1) [$"a"; $"a.01"] = [None; Some (Reg ($"u;"))] /\
  forall hs R f2 w2, dated P c any f1 w1 hs R f2 w2 -> (forall h, In h hs -> exists b k e, h = HWrite b k e) -> ~ In ($"02") R ->
    f2 = f1 /\ forall b k e, In (HWrite b k e) hs -> k = 0%nat /\ e = true.
Proof.
  assert (C : option_map (fun '(l, w, s, tr) => (l, (w_file w, w_period w), times tr, forallb mkdir_only tr, map (s_dir s) [$"a"; $"a.01"])) wait_run =
    Some ([HWrite ($"u;") 2 false; HWrite ($"v;") 0 true], (None, $"02"), [$"01"; $"02"; $"02"], true, [None; Some (Reg ($"u;"))])) by (vm_compute; reflexivity).
  destruct wait_run as [[[[l w] s] tr]|] eqn:E; [|discriminate]. cbn [option_map] in C. injection C as -> WF WP T G D1 D2.
  exists hourP, (hours 0), ($"15"), (fs_of wait_sim), (fs_of s), w.
  split; [reflexivity|]. split; [reflexivity|]. split; [reflexivity|]. split.
  { replace [$"01"; $"02"; $"02"] with (times tr) by exact T. unfold wait_run in E. refine (execs_dated _ _ _ _ _ _ _ _ _ _ _ E _); [exact (sim_finite [] (NoDup_nil _))|now apply mkdir_only_ok]. }
  split; [exact (f_equal2 cons D1 (f_equal2 cons D2 eq_refl))|].
  intros hs R f2 w2 DT HW NI. apply (waits_on hourP (hours 0) ($"15") (fs_of s) w hs R f2 w2); auto; [now left|rewrite WP; discriminate|rewrite WP; exact NI].
Qed.
Print Assumptions C41_time_waits_refuted.

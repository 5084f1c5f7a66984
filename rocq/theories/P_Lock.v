(** Properties C48, C51: the locks of the manager and the factory. *)
From Verif Require Import GoStr Utf8 LevelModel EventModel LayoutModel ConfModel OutputModel WorldModel PanicModel WorldSpec WorldBase WorldInv PanicBase
  P_Hier LockModel LockSpec LockProofs LockNameProofs LockRunProofs.
Local Open Scope nat_scope.

(** ** C48: no deadlock *)
(** [calm]: no output panics in Close (see [C48_panicking_close_sticks]). Whatever has happened so far, all calls
    have returned or a call or a worker can go on. *)
Theorem C48_no_deadlock : forall P W q todo l s, Forall resting q -> lsteps P calm (l_start W q todo) l s ->
  returned s \/ exists a s', ours a /\ lstep P calm s a s'.
Proof. intros P W q todo l s Hq H. apply progress. eapply steps_inv; [|exact H]. now apply start_inv. Qed.
Print Assumptions C48_no_deadlock.
(** It is a call that goes on, at the latest when the workers have done what they can. *)
Theorem C48_a_call_goes_on : forall P W q todo l s, Forall resting q -> lsteps P calm (l_start W q todo) l s -> ~ returned s ->
  exists ws s1 a s2, Forall by_worker ws /\ lsteps P calm s ws s1 /\ by_call a /\ lstep P calm s1 a s2.
Proof. intros P W q todo l s Hq H Hn. apply call_goes_on; [|assumption]. eapply steps_inv; [|exact H]. now apply start_inv. Qed.
Print Assumptions C48_a_call_goes_on.
(** There is no infinite run (of calls and workers), with or without panics: every schedule comes to its end ... *)
Theorem C48_runs_end : forall P boom, well_founded (after P boom).
Proof. intros P boom. apply ends. Qed.
Print Assumptions C48_runs_end.
(** ... and at its end all calls have returned. *)
Theorem C48_all_return : forall P W q todo l s, Forall resting q -> lsteps P calm (l_start W q todo) l s ->
  (forall s', ~ after P calm s' s) -> returned s.
Proof.
  intros P W q todo l s Hq H Hend. destruct (C48_no_deadlock P W q todo l s Hq H) as [Hr|(a & s' & Ha & Hs)]; [assumption|].
  exfalso. apply (Hend s'). now exists a.
Qed.
Print Assumptions C48_all_return.
(** The fields of the factory and of the manager are used only by the goroutine that has locked them. *)
Theorem C48_guarded : forall P W q todo l s i d c m A f k e cs, Forall resting q -> lsteps P calm (l_start W q todo) l s ->
  nth_error (l_threads s) i = Some (mkT d (Some (c, @LAct m A f k e)) cs) -> owner s m = Some i.
Proof.
  intros P W q todo l s i d c m A f k e cs Hq H Hi.
  assert (I : inv s) by (eapply steps_inv; [|exact H]; now apply start_inv).
  assert (Hw : wx (held s i) (@LAct m A f k e)) by (apply (i_wl s I); now exists d, c, cs).
  assert (Hl : wl (held s i) (@LAct m A f k e)).
  { revert Hw. generalize (held s i). intros H0 Hw. now inversion Hw. }
  apply held_in. exact (proj1 (wl_act_inv _ _ Hl)).
Qed.
Print Assumptions C48_guarded.
(** The calls are those of WorldModel.v and, when a creator panics, of PanicModel.v, taken apart at their lock operations. *)
Theorem C48_same_calls : forall P W c, in_order c ->
  match exec P W (op_of W c) with
  | Ok (W', r) => alone (p_call P calm c) W = (W', Some r)
  | Panic => exists W', raised P W (op_of W c) W' /\ alone (p_call P calm c) W = (W', None)
  end.
Proof.
  intros P W c Hc. pose proof (alone_call P c W Hc) as H. unfold raised.
  destruct (try_exec P W (op_of W c)) as [y|] eqn:E.
  - apply exec_same in E. destruct y as [W' r|W']; cbn [same_as agrees] in E, H; rewrite E; eauto.
  - destruct H as (W' & r & -> & H). exact H.
Qed.
Print Assumptions C48_same_calls.

(** Example: three goroutines taking turns; the configuration has an asynchronous output. *)
Definition lk_cfg (lvl : str) : config := mkCfg
  [Some [($"type", $"text"); ($"name", $"f2"); ($"layout", $"%{msg}")]]
  [Some [($"type", $"console"); ($"name", $"c2"); ($"format", $"f2"); ($"async", $"true")]]
  [mkCL ($"root") lvl [$"c2"]; mkCL ($"a") ($"error") [$"c2"]].
Definition self (l : list nat) : list nat := l.
Definition lk_todo : list (list call) :=
  [[CSetConfig (lk_cfg ($"warn")) self; CGetLogger ($"a/b")];
   [CGetLogger ($"a"); CGetLogger []; CClose (@rev nat)];
   [CRegisterFormatter ($"x") (fun _ => NewTextFormatter); CGetLogger ($"root"); CSetConfig (lk_cfg ($"info")) (@rev nat); CClose self]].
Definition lk_start : lstate := l_start (init_world ex_P) [] lk_todo.
Definition lk_turns : list label := concat (repeat [ByCall 0; ByWorker 0; ByCall 1; ByCall 2; ByWorker 1] 80).
Definition lk_run := lsched ex_P calm lk_turns lk_start.
Definition answers (s : lstate) : list (list (option ret)) := map (fun t => map snd (t_done t)) (l_threads s).
Example C48_ex : length (fst lk_run) = 96%nat /\ returned (snd lk_run) /\
  answers (snd lk_run) = [[Some (RErr true); Some (RLogger 2)]; [Some (RLogger 1); Some (RLogger 0); Some RUnit];
    [Some RUnit; Some (RLogger 0); Some (RErr true); Some RUnit]].
Proof.
  split; [|split].
  - vm_compute. reflexivity.
  - apply returnedb_ok. vm_compute. reflexivity.
  - vm_compute. reflexivity.
Qed.
Example C48_ex_runs : lsteps ex_P calm lk_start (fst lk_run) (snd lk_run).
Proof. exact (lsched_runs ex_P calm lk_turns lk_start). Qed.
(** A state of such a run in which every call has to wait: Close for the worker, GetLogger and Register for the
    lock of the manager, another GetLogger for that of the factory. *)
Definition lk_todo2 : list (list call) :=
  [[CSetConfig (lk_cfg ($"warn")) self; CGetLogger []; CClose self]; [CGetLogger ($"a")]; [CGetLogger ($"b")];
   [CRegisterOutput ($"x") (fun _ => NewMemoryOutput)]].
Definition lk_start2 : lstate := l_start (init_world ex_P) [] lk_todo2.
Definition lk_turns2 : list label := repeat (ByCall 0) 20 ++ [ByWorker 0] ++ repeat (ByCall 0) 20 ++ repeat (ByCall 1) 9 ++ repeat (ByCall 2) 9 ++ repeat (ByCall 3) 9.
Definition lk_run2 := lsched ex_P calm lk_turns2 lk_start2.
Definition waiting (s : lstate) : list (option lprog) := map (fun t => option_map snd (t_now t)) (l_threads s).
Definition stage (p : lprog) : nat := match p with LLock Fac _ => 1 | LLock Man _ => 2 | KWait _ _ => 3 | _ => 0 end.
Example C48_ex_wait : map (option_map stage) (waiting (snd lk_run2)) = [Some 3; Some 2; Some 1; Some 2] /\
  (forall i, lnext ex_P calm (snd lk_run2) (ByCall i) = None) /\ (exists s', lnext ex_P calm (snd lk_run2) (ByWorker 0) = Some s') /\
  returned (snd (lsched ex_P calm (lk_turns ++ lk_turns ++ [ByCall 3; ByCall 3; ByCall 3; ByCall 3]) (snd lk_run2))).
Proof.
  split; [vm_compute; reflexivity|]. split; [|split].
  - intros i. do 4 (destruct i as [|i]; [vm_compute; reflexivity|]). unfold lnext.
    assert (E : nth_error (l_threads (snd lk_run2)) (S (S (S (S i)))) = None).
    { apply nth_error_None. replace (length (l_threads (snd lk_run2))) with 4 by (vm_compute; reflexivity). lia. }
    now rewrite E.
  - assert (E : match lnext ex_P calm (snd lk_run2) (ByWorker 0) with Some _ => true | None => false end = true) by (vm_compute; reflexivity).
    destruct (lnext ex_P calm (snd lk_run2) (ByWorker 0)) as [s'|]; [now exists s'|discriminate].
  - apply returnedb_ok. vm_compute. reflexivity.
Qed.
(** Without [calm] this fails: Close of the manager is not protected by a deferred unlock. When an output of the user
    panics in Close and the caller recovers, the lock of the manager stays taken and all later calls wait for ever. *)
Definition lk_cfg3 : config := mkCfg
  [Some [($"type", $"text"); ($"name", $"f2"); ($"layout", $"%{msg}")]]
  [Some [($"type", $"memory"); ($"name", $"c2"); ($"format", $"f2")]]
  [mkCL ($"root") ($"all") [$"c2"]].
Definition lk_start3 : lstate := l_start (init_world ex_P) [] [[CSetConfig lk_cfg3 self; CGetLogger []; CClose self]; [CGetLogger ($"a")]].
Definition lk_boom : nat -> bool := Nat.eqb 0.
Definition lk_run3 := lsched ex_P lk_boom (repeat (ByCall 0) 40 ++ repeat (ByCall 1) 40) lk_start3.
Theorem C48_panicking_close_sticks : exists P boom W todo l s, lsteps P boom (l_start W [] todo) l s /\ ~ returned s /\
  (forall a s', ~ lstep P boom s a s') /\ l_man s = Some 0.
Proof.
  exists ex_P, lk_boom, (init_world ex_P), [[CSetConfig lk_cfg3 self; CGetLogger []; CClose self]; [CGetLogger ($"a")]],
    (fst lk_run3), (snd lk_run3).
  split; [exact (lsched_runs ex_P lk_boom _ lk_start3)|]. split; [|split].
  - apply returnedb_no. vm_compute. reflexivity.
  - apply stuckb_ok. vm_compute. reflexivity.
  - vm_compute. reflexivity.
Qed.
Print Assumptions C48_panicking_close_sticks.

(** ** C51: concurrent GetLogger calls *)
(** Also with panics of creators and outputs ([boom]). *)
Theorem C51_same_logger : forall P boom W q todo l s n m a b, well_named W -> lsteps P boom (l_start W q todo) l s ->
  ended s (CGetLogger n) (Some (RLogger a)) -> ended s (CGetLogger m) (Some (RLogger b)) -> (a = b <-> meant n = meant m).
Proof.
  intros P boom W q todo l s n m a b HW H (i & t & Ht & Hin) (j & t' & Ht' & Hin').
  assert (I : jinv s) by (eapply steps_jinv; [|exact H]; now apply start_jinv).
  pose proof (j_done s I i t _ _ Ht Hin) as Ha. pose proof (j_done s I j t' _ _ Ht' Hin') as Hb. cbn [res_ok] in Ha, Hb.
  split.
  - intros <-. destruct (named_meant _ _ _ (j_J s I) Ha) as [p Hp]. destruct (named_meant _ _ _ (j_J s I) Hb) as [p' Hp']. congruence.
  - intros E. exact (named_fun _ _ _ _ _ E Ha Hb).
Qed.
Print Assumptions C51_same_logger.
(** A call that returns returns a logger, and one of the name asked for. *)
Theorem C51_named : forall P boom W q todo l s n r, well_named W -> lsteps P boom (l_start W q todo) l s ->
  ended s (CGetLogger n) (Some r) ->
  exists id lg, r = RLogger id /\ nth_error (w_loggers (l_w s)) id = Some lg /\ l_name lg = meant n.
Proof.
  intros P boom W q todo l s n r HW H (i & t & Ht & Hin).
  assert (I : jinv s) by (eapply steps_jinv; [|exact H]; now apply start_jinv).
  pose proof (j_done s I i t _ _ Ht Hin) as Ha. destruct r; cbn [res_ok] in Ha; try contradiction.
  destruct (named_meant _ _ _ (j_J s I) Ha) as [p Hp]. cbn in Hp. apply nth_skels_inv in Hp as (lg & Hl & Hn & _). eauto.
Qed.
Print Assumptions C51_named.
(** The hypothesis holds of all worlds that sequential calls lead to. *)
Theorem C51_hypothesis : forall P W, reach P W -> well_named W.
Proof.
  intros P W R. apply well_named_J. pose proof (iv_sk W (reach_inv P W R)) as S. split.
  - exact (si_names _ _ _ S).
  - intros id Hr. pose proof (si_rootptr _ _ _ S) as Hp. rewrite Hr in Hp. exact (si_names _ _ _ S _ _ Hp).
Qed.
Print Assumptions C51_hypothesis.
(** Example: the run of [C48_ex]; "a", "", "root" and "a/b" were asked for while the configuration changed. *)
Example C51_ex : well_named (init_world ex_P) /\ ended (snd lk_run) (CGetLogger []) (Some (RLogger 0)) /\
  ended (snd lk_run) (CGetLogger ($"root")) (Some (RLogger 0)) /\ ended (snd lk_run) (CGetLogger ($"a")) (Some (RLogger 1)).
Proof.
  assert (E : gots (snd lk_run) = [($"a/b", 2); ($"a", 1); ([], 0); ($"root", 0)]) by (vm_compute; reflexivity).
  split; [apply (C51_hypothesis ex_P); constructor|].
  split; [|split]; apply gots_ended; rewrite E; cbn; auto.
Qed.

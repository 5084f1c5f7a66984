(** Property C63: calls of factory and manager made at the same time act one after the other. *)
From Verif Require Import GoStr Utf8 LevelModel EventModel LayoutModel ConfModel OutputModel WorldModel PanicModel WorldSpec PanicSpec WorldBase PanicBase WorldInv PanicProofs P_Hier
  LockModel LockSpec LockProofs LockRunProofs LockNameProofs P_Lock AtomSpec AtomProofs AtomRunProofs.

(** Calls that do not store a configuration, when the root logger exists: at every moment of every execution there
    is an order of the calls made so far that explains it, and what happens later only adds to that order. So a call
    that has returned comes before every call that starts afterwards. Creators, and Close of outputs, may panic. *)
Theorem C63_atomic_partial : forall P boom W q todo l s l' s', reach P W -> w_root W <> None -> Forall (Forall (quiet P)) todo ->
  lsteps P boom (l_start W q todo) l s -> lsteps P boom s l' s' ->
  exists h h', explains P boom W h s /\ explains P boom W (h ++ h') s'.
Proof.
  intros P boom W q todo l s l' s' R Rt Q H H'. pose proof (iv_valid W (reach_inv P W R)) as V.
  destruct (lsteps_ainv P boom W _ W [] _ _ _ (seq_nil P boom W) (start_ainv P boom W q todo Rt V Q) H) as (V1 & h & st & S1 & I1).
  cbn [app] in S1, I1. destruct (lsteps_ainv P boom W _ _ _ _ _ _ S1 I1 H') as (V2 & h' & st2 & S2 & I2).
  exists h, h'. split; eapply ainv_explains; eassumption.
Qed.
Print Assumptions C63_atomic_partial.
(** The same for any number of GetLogger calls, also when there is no root logger yet. *)
Theorem C63_getlogger : forall P boom W q todo l s l' s', Forall (Forall gets) todo ->
  lsteps P boom (l_start W q todo) l s -> lsteps P boom s l' s' ->
  exists h h', explains P boom W h s /\ explains P boom W (h ++ h') s'.
Proof.
  intros P boom W q todo l s l' s' Q H H'.
  destruct (lsteps_ginv P boom W _ W [] _ _ _ (seq_nil P boom W) (start_ginv P W q todo Q) H) as (V1 & h & st & S1 & I1).
  cbn [app] in S1, I1. destruct (lsteps_ginv P boom W _ _ _ _ _ _ S1 I1 H') as (V2 & h' & st2 & S2 & I2).
  exists h, h'. split; eapply ginv_explains; eassumption.
Qed.
Print Assumptions C63_getlogger.
(** The calls in that order are those of WorldModel.v, a call in which a creator panics leaves what PanicModel.v says: all
    that is proved of histories of calls holds of it. *)
Inductive history (P : params) : world -> list (op * option ret) -> world -> Prop :=
| hi_nil W : history P W [] W
| hi_more W h V o V' r : history P W h V -> exec P V o = Ok (V', r) -> history P W (h ++ [(o, Some r)]) V'
| hi_panic W h V o V' : history P W h V -> raised P V o V' -> history P W (h ++ [(o, None)]) V'.
Theorem C63_is_a_history : forall P W h V, seq P calm W h V -> Forall (fun x => in_order (fst (snd x))) h ->
  exists ops, history P W ops V /\ map snd ops = map (fun x => snd (snd x)) h.
Proof.
  intros P W h V S. induction S as [W|W h V i c V' r S IH E]; intros F.
  - exists []. split; constructor.
  - apply Forall_app in F as [F Fo]. apply Forall_inv in Fo. cbn in Fo. destruct (IH F) as (ops & H & M).
    pose proof (C48_same_calls P V c Fo) as X. destruct (exec P V (op_of V c)) as [[V1 r1]|] eqn:Ex.
    + rewrite E in X. injection X as <- ->. exists (ops ++ [(op_of V c, Some r1)]). split; [eapply hi_more; eassumption|].
      rewrite !map_app, M. reflexivity.
    + destruct X as (V1 & R & X). rewrite E in X. injection X as <- ->. exists (ops ++ [(op_of V c, None)]).
      split; [eapply hi_panic; eassumption|]. rewrite !map_app, M. reflexivity.
Qed.
Print Assumptions C63_is_a_history.
(** It is a history as WorldSpec.v has them, when the root logger exists already or no call has panicked: so is the state
    that the concurrent calls lead to, and whatever is proved of all histories holds when they have returned. *)
Lemma root_stays W W' : WorldInv.inv W -> WorldInv.inv W' -> later W W' -> w_root W <> None -> w_root W' <> None.
Proof.
  intros I I' L Hr E. pose proof (si_rootptr _ _ _ (iv_sk _ I')) as Hp. rewrite E in Hp.
  destruct (w_root W) as [r|] eqn:Er; [|congruence]. pose proof (si_rootptr _ _ _ (iv_sk _ I)) as Hq. rewrite Er in Hq.
  destruct (si_names _ _ _ (iv_sk _ I) _ _ Hq) as [p Hn]. apply (lt_sk _ _ L) in Hn. rewrite Hp in Hn. destruct r; discriminate.
Qed.
Lemma steps_app P W W1 W2 : steps P W W1 -> steps P W1 W2 -> steps P W W2.
Proof.
  induction 1 as [W|W o W1 r W' Ho E _ IH|W o W1 W' Ho E M _ IH]; intros H; [exact H| |].
  - eapply steps_cons; eauto.
  - eapply steps_panic; eauto.
Qed.
Lemma fair_ok W c : fair c -> op_ok W (op_of W c).
Proof. destruct c; cbn; auto. Qed.
Lemma fair_order c : fair c -> in_order c.
Proof. destruct c; cbn; auto. Qed.
Theorem C63_reachable : forall P W h V, reach P W -> seq P calm W h V -> Forall (fun x => fair (fst (snd x))) h ->
  w_root W <> None \/ Forall (fun x => snd (snd x) <> None) h -> steps P W V /\ reach P V.
Proof.
  intros P W h V R S F H.
  assert (X : (steps P W V /\ reach P V) /\ (w_root W <> None -> w_root V <> None)); [|apply X].
  induction S as [W|W h V i c V' r S IH E].
  - split; [split; [constructor|assumption]|auto].
  - apply Forall_app in F as [F Fc]. apply Forall_inv in Fc. cbn in Fc.
    assert (H' : w_root W <> None \/ Forall (fun x => snd (snd x) <> None) h).
    { destruct H as [H|H]; [now left|right]. now apply Forall_app in H as [H _]. }
    destruct (IH R F H') as [[S1 R1] T1]. clear IH H'. pose proof (fair_ok V c Fc) as Ho.
    pose proof (C48_same_calls P V c (fair_order c Fc)) as Y. pose proof (reach_inv P V R1) as I.
    destruct (exec P V (op_of V c)) as [[V1 r1]|] eqn:Ex.
    + rewrite E in Y. injection Y as <- ->. pose proof (reach_step P V _ V' r1 R1 Ho Ex) as R2.
      destruct (exec_inv _ _ _ _ _ Ex I) as [I2 L]. split; [split; [|exact R2]|].
      * eapply steps_app; [exact S1|]. eapply steps_cons; [exact Ho|exact Ex|constructor].
      * intros Hr. eapply root_stays; [exact I|exact I2|exact L|auto].
    + destruct Y as (V1 & Rs & Y). rewrite E in Y. injection Y as <- ->.
      destruct H as [Hr|H]; [|apply Forall_app in H as [_ H]; apply Forall_inv in H; now destruct H].
      pose proof (raised_root_made P V _ V' I (T1 Hr) Rs) as M. pose proof (reach_panic P V _ V' R1 Ho Rs M) as R2.
      destruct (raised_inv _ _ _ _ Rs M I) as [I2 L]. split; [split; [|exact R2]|].
      * eapply steps_app; [exact S1|]. eapply steps_panic; [exact Ho|exact Rs|exact M|constructor].
      * intros _. eapply root_stays; [exact I|exact I2|exact L|auto].
Qed.
Print Assumptions C63_reachable.
(** The calls made are those to be made. *)
Definition all_calls (p : call -> Prop) (t : thread) : Prop :=
  Forall (fun x => p (fst x)) (t_done t) /\ match t_now t with Some (c, _) => p c | None => True end /\ Forall p (t_todo t).
Lemma put_all p s i t : Forall (all_calls p) (l_threads s) -> all_calls p t -> Forall (all_calls p) (l_threads (put s i t)).
Proof.
  intros H Ht. apply Forall_forall. intros u Hu. apply In_nth_error in Hu as [j Hj]. rewrite nth_put in Hj.
  destruct (Nat.eqb_spec j i) as [Ej|].
  - destruct (nth_error (l_threads s) i); [|discriminate]. injection Hj as <-. exact Ht.
  - apply nth_error_In in Hj. rewrite Forall_forall in H. auto.
Qed.
Lemma lstep_all p P boom s a s' : Forall (all_calls p) (l_threads s) -> lstep P boom s a s' -> Forall (all_calls p) (l_threads s').
Proof.
  intros H St. pose proof (proj1 (Forall_forall _ _) H) as G.
  destruct St as [s i d c cs Hi|s i d c p0 cs s' p' Hi Ha|s i d c r cs Hi|s o s' Hw|s o q Hq Hl].
  - destruct (G _ (nth_error_In _ _ Hi)) as (A & _ & B). cbn in A, B. apply put_all; [exact H|]. split; [exact A|].
    cbn. split; [exact (Forall_inv B)|exact (Forall_inv_tail B)].
  - destruct (G _ (nth_error_In _ _ Hi)) as (A & B & C). cbn in A, B, C. apply put_all; [now rewrite (act_threads _ _ _ _ _ Ha)|]. split; [exact A|now split].
  - destruct (G _ (nth_error_In _ _ Hi)) as (A & B & C). cbn in A, B, C. apply put_all; [exact H|]. split; [|split; [exact Logic.I|exact C]].
    cbn. apply Forall_app. split; [exact A|]. now constructor.
  - destruct (work_same _ _ _ Hw) as (-> & _). exact H.
  - exact H.
Qed.
Lemma lsteps_all p P boom W q todo l s : Forall (Forall p) todo -> lsteps P boom (l_start W q todo) l s -> Forall (all_calls p) (l_threads s).
Proof.
  intros F H. remember (l_start W q todo) as s0 eqn:E. induction H as [s|s l s1 a s2 _ IH St]; [|eapply lstep_all; eauto].
  subst s. cbn. apply Forall_map. eapply Forall_impl; [|exact F]. intros cs Hc. split; [constructor|]. now split.
Qed.
Lemma only_in x h : In x h -> In (snd x) (only (fst x) h).
Proof. intros H. unfold only. apply in_map, filter_In. split; [exact H|apply Nat.eqb_refl]. Qed.
Lemma explained_all p P boom W h s : explains P boom W h s -> (forall i t, nth_error (l_threads s) i = Some t -> t_now t = None) ->
  Forall (all_calls p) (l_threads s) -> Forall (fun x => p (fst (snd x))) h.
Proof.
  intros (V & _ & T & F & _) Hn A. apply Forall_forall. intros x Hx. rewrite Forall_forall in F, A.
  destruct (nth_error (l_threads s) (fst x)) as [t|] eqn:E; [|apply nth_error_None in E; pose proof (F x Hx); lia].
  pose proof (T _ _ E) as O. rewrite (Hn _ _ E) in O. pose proof (only_in x h Hx) as I. rewrite O in I.
  destruct (A t (nth_error_In _ _ E)) as (D & _). rewrite Forall_forall in D. exact (D _ I).
Qed.
(** Calls that do not store a configuration, at the same time and with panicking creators: when none is under way, the
    state is one that calls made one after the other lead to. *)
Theorem C63_at_rest_partial : forall P W q todo l s, reach P W -> w_root W <> None -> Forall (Forall (quiet P)) todo -> Forall (Forall fair) todo ->
  lsteps P calm (l_start W q todo) l s -> (forall i t, nth_error (l_threads s) i = Some t -> t_now t = None) ->
  steps P W (l_w s) /\ reach P (l_w s).
Proof.
  intros P W q todo l s R Rt Q F H Hn.
  destruct (C63_atomic_partial P calm W q todo l s [] s R Rt Q H (ls_nil P calm s)) as (h & _ & X & _).
  pose proof (explained_all fair P calm W h s X Hn (lsteps_all fair P calm W q todo l s F H)) as A.
  destruct X as (V & S & _ & _ & E). rewrite (E Hn). exact (C63_reachable P W h V R S A (or_introl Rt)).
Qed.
Print Assumptions C63_at_rest_partial.

(** Two configuration calls: each stores its configuration and gives up the lock before it tells the loggers. Here the
    first one stores, the second one stores and tells all loggers, and then the first tells them: of the second
    configuration. The settings of the first never reach the logger "a", though its call returned without error and
    before it nothing was stored after it. *)
Definition at_cfg (ls : list cfg_logger) : config := mkCfg
  [Some [($"type", $"text"); ($"name", $"f2"); ($"layout", $"%{msg}")]]
  [Some [($"type", $"console"); ($"name", $"c2"); ($"format", $"f2")]] ls.
Definition at_1 : call := CSetConfig (at_cfg [mkCL ($"root") ($"warn") [$"c2"]; mkCL ($"a") ($"error") [$"c2"]]) self.
Definition at_2 : call := CSetConfig (at_cfg [mkCL ($"root") ($"info") [$"c2"]]) self.
Definition at_W : world := ran ex_P [OGetLogger ($"a")].
Definition at_turns : list label := repeat (ByCall 0) 4 ++ repeat (ByCall 1) 40 ++ repeat (ByCall 0) 40.
Definition at_run := lsched ex_P calm at_turns (l_start at_W [] [[at_1]; [at_2]]).
(** How many loggers the configuration names, and the level of "a". *)
Definition at_see (W : world) : nat * option level := (length (c_loggers (w_config W)), option_map l_level (nth_error (w_loggers W) 1)).
Definition at_after (c c' : call) : world := fst (alone (p_call ex_P calm c') (fst (alone (p_call ex_P calm c) at_W))).
Lemma at_sees : at_see (l_w (snd at_run)) = (1, Some Uninitialized) /\
  at_see (at_after at_1 at_2) = (1, Some Error) /\ at_see (at_after at_2 at_1) = (2, Some Error).
Proof. vm_compute. auto. Qed.
Lemma at_threads : forall i t, nth_error (l_threads (snd at_run)) i = Some t ->
  t_now t = None /\ t_todo t = [] /\ ((i = 0 /\ t_done t = [(at_1, Some (RErr true))]) \/ (i = 1 /\ t_done t = [(at_2, Some (RErr true))])).
Proof.
  assert (G : map (fun t => match t with mkT [(_, r)] None [] => r | _ => None end) (l_threads (snd at_run)) = [Some (RErr true); Some (RErr true)])
    by (vm_compute; reflexivity).
  assert (E0 : exists t, nth_error (l_threads (snd at_run)) 0 = Some t /\ t_now t = None /\ t_todo t = [] /\ t_done t = [(at_1, Some (RErr true))]).
  { eexists. split; [vm_compute; reflexivity|]. split; [reflexivity|]. split; reflexivity. }
  assert (E1 : exists t, nth_error (l_threads (snd at_run)) 1 = Some t /\ t_now t = None /\ t_todo t = [] /\ t_done t = [(at_2, Some (RErr true))]).
  { eexists. split; [vm_compute; reflexivity|]. split; [reflexivity|]. split; reflexivity. }
  assert (L : length (l_threads (snd at_run)) = 2) by (rewrite <- (map_length (fun t => match t with mkT [(_, r)] None [] => r | _ => None end)), G; reflexivity).
  intros i t Hi. destruct E0 as (t0 & H0 & A0), E1 as (t1 & H1 & A1). destruct i as [|[|i]].
  - rewrite H0 in Hi. injection Hi as <-. tauto.
  - rewrite H1 in Hi. injection Hi as <-. tauto.
  - exfalso. assert (S (S i) < 2) by (rewrite <- L; apply nth_error_Some; congruence). lia.
Qed.
Lemma only_cons i x h : only i (x :: h) = if fst x =? i then snd x :: only i h else only i h.
Proof. unfold only. cbn. now destruct (fst x =? i). Qed.
(** Two goroutines with one call each. *)
Lemma two_orders h x y : Forall (fun z => fst z < 2) h -> only 0 h = [x] -> only 1 h = [y] -> h = [(0, x); (1, y)] \/ h = [(1, y); (0, x)].
Proof.
  intros F E0 E1. destruct h as [|[i a] h]; [discriminate|]. rewrite only_cons in E0, E1. apply Forall_cons_iff in F as [Fi F]. cbn [fst snd] in *.
  assert (N : forall h, Forall (fun z => fst z < 2) h -> only 0 h = [] -> only 1 h = [] -> h = []).
  { intros [|[j b] h'] F' A B; [reflexivity|]. exfalso. rewrite only_cons in A, B. apply Forall_inv in F'. cbn in *. destruct j as [|[|j]]; [discriminate|discriminate|lia]. }
  destruct h as [|[j b] h].
  { exfalso. destruct i as [|[|i]]; cbn in *; [discriminate|discriminate|lia]. }
  rewrite only_cons in E0, E1. apply Forall_cons_iff in F as [Fj F]. cbn [fst snd] in *.
  destruct i as [|[|i]]; [| |lia]; (destruct j as [|[|j]]; [| |lia]); cbn [Nat.eqb] in E0, E1; try discriminate.
  - injection E0 as -> E0. injection E1 as -> E1. rewrite (N h F E0 E1). now left.
  - injection E0 as -> E0. injection E1 as -> E1. rewrite (N h F E0 E1). now right.
Qed.
Lemma seq_snoc P boom W h x V : seq P boom W (h ++ [x]) V -> exists V0, seq P boom W h V0 /\ alone (p_call P boom (fst (snd x))) V0 = (V, snd (snd x)).
Proof.
  intros S. remember (h ++ [x]) as g eqn:E. destruct S as [W|W h0 V0 i c V' r S0 A].
  - now destruct h.
  - apply app_inj_tail in E as [-> <-]. eauto.
Qed.
Lemma seq_two P boom W x y V : seq P boom W [x; y] V ->
  V = fst (alone (p_call P boom (fst (snd y))) (fst (alone (p_call P boom (fst (snd x))) W))).
Proof.
  intros S. destruct (seq_snoc P boom W [x] y V S) as (V1 & S1 & E1). destruct (seq_snoc P boom W [] x V1 S1) as (V0 & S0 & E0).
  assert (V0 = W) as ->. { remember [] as g eqn:E. destruct S0 as [W|W h0 V00 i c V' r S00 A]; [reflexivity|now destruct h0]. }
  rewrite E0. cbn [fst]. now rewrite E1.
Qed.
Theorem C63_configurations_refuted : exists P W todo l s, reach P W /\ w_root W <> None /\ lsteps P calm (l_start W [] todo) l s /\
  returned s /\ (forall i t, nth_error (l_threads s) i = Some t -> Forall (fun x => snd x = Some (RErr true)) (t_done t)) /\
  ~ exists h, explains P calm W h s.
Proof.
  exists ex_P, at_W, [[at_1]; [at_2]], (fst at_run), (snd at_run).
  split; [apply ran_reach; vm_compute; reflexivity|]. split; [vm_compute; discriminate|].
  split; [exact (lsched_runs ex_P calm at_turns _)|]. split; [|split].
  - intros i t Hi. destruct (at_threads i t Hi) as (A & B & _). auto.
  - intros i t Hi. destruct (at_threads i t Hi) as (_ & _ & [[_ ->]|[_ ->]]); repeat constructor.
  - intros (h & V & S & T & F & E).
    assert (L : length (l_threads (snd at_run)) = 2) by (vm_compute; reflexivity). rewrite L in F.
    assert (T' : forall i t, nth_error (l_threads (snd at_run)) i = Some t -> only i h = t_done t).
    { intros i t Hi. specialize (T i t Hi). destruct (at_threads i t Hi) as (A & _). now rewrite A in T. }
    assert (EV : l_w (snd at_run) = V) by (apply E; intros i t Hi; apply (at_threads i t Hi)).
    destruct (nth_error (l_threads (snd at_run)) 0) as [t0|] eqn:E0; [|apply nth_error_None in E0; lia].
    destruct (nth_error (l_threads (snd at_run)) 1) as [t1|] eqn:E1; [|apply nth_error_None in E1; lia].
    assert (O0 : only 0 h = [(at_1, Some (RErr true))]).
    { rewrite (T' 0 t0 E0). destruct (at_threads 0 t0 E0) as (_ & _ & [[_ A]|[A _]]); [exact A|discriminate]. }
    assert (O1 : only 1 h = [(at_2, Some (RErr true))]).
    { rewrite (T' 1 t1 E1). destruct (at_threads 1 t1 E1) as (_ & _ & [[A _]|[_ A]]); [discriminate|exact A]. }
    destruct at_sees as (S1 & S2 & S3). rewrite EV in S1.
    destruct (two_orders h _ _ F O0 O1) as [-> | ->]; apply seq_two in S; cbn [fst snd] in S.
    + assert (V = at_after at_1 at_2) as -> by exact S. rewrite S2 in S1. clear - S1. discriminate S1.
    + assert (V = at_after at_2 at_1) as -> by exact S. rewrite S3 in S1. clear - S1. discriminate S1.
Qed.
Print Assumptions C63_configurations_refuted.

(** One configuration call is enough. Here it stores its configuration; then another goroutine asks for the logger "z" that
    it names, whose output "c2" the first creator makes, and registers a second creator; then the loggers are told, and
    the second creator makes "c3". One after the other, the same creator makes both, whatever the order. *)
Definition at_cfg3 : config := mkCfg
  [Some [($"type", $"text"); ($"name", $"f2"); ($"layout", $"%{msg}")]]
  [Some [($"type", $"console"); ($"name", $"c2"); ($"format", $"f2")]; Some [($"type", $"console"); ($"name", $"c3"); ($"format", $"f2")]]
  [mkCL ($"root") ($"info") []; mkCL ($"a") ($"warn") [$"c3"]; mkCL ($"z") ($"warn") [$"c2"]].
Definition at_S : call := CSetConfig at_cfg3 self.
Definition at_G : call := CGetLogger ($"z").
Definition at_R : call := CRegisterOutput ($"console") (fun _ _ => Created {| os_sink := SinkMemory; os_async := None; os_threshold := All |}).
Definition at_run4 := lsched ex_P calm at_turns (l_start at_W [] [[at_S]; [at_G; at_R]]).
(** Is the output of this name one that stores its events? *)
Definition at_mem (W : world) (n : str) : option bool :=
  match mlookup n (w_outputs W) with
  | Some i => option_map (fun o => match os_sink (o_spec o) with SinkMemory => true | _ => false end) (nth_error (w_heap W) i)
  | None => None
  end.
Definition at_mems (W : world) := (at_mem W ($"c2"), at_mem W ($"c3")).
Definition at_after3 (x y z : call) : world := fst (alone (p_call ex_P calm z) (fst (alone (p_call ex_P calm y) (fst (alone (p_call ex_P calm x) at_W))))).
Lemma at_sees3 : at_mems (l_w (snd at_run4)) = (Some false, Some true) /\ at_mems (at_after3 at_S at_G at_R) = (Some false, Some false) /\
  at_mems (at_after3 at_G at_S at_R) = (Some false, Some false) /\ at_mems (at_after3 at_G at_R at_S) = (Some true, Some true).
Proof. vm_compute. auto. Qed.
Lemma at_threads3 : exists t0 t1, l_threads (snd at_run4) = [t0; t1] /\ t_now t0 = None /\ t_now t1 = None /\
  t_done t0 = [(at_S, Some (RErr true))] /\ t_done t1 = [(at_G, Some (RLogger 2)); (at_R, Some RUnit)].
Proof.
  eexists _, _. split; [vm_compute; reflexivity|]. split; [reflexivity|]. split; [reflexivity|]. split; reflexivity.
Qed.
Lemma no_order h : Forall (fun z => fst z < 2) h -> only 0 h = [] -> only 1 h = [] -> h = [].
Proof.
  destruct h as [|[j b] h]; intros F A B; [reflexivity|]. exfalso. rewrite only_cons in A, B. apply Forall_inv in F. cbn in *.
  destruct j as [|[|j]]; [discriminate|discriminate|lia].
Qed.
Lemma one_order h y : Forall (fun z => fst z < 2) h -> only 0 h = [] -> only 1 h = [y] -> h = [(1, y)].
Proof.
  destruct h as [|[i a] h]; [discriminate|]. rewrite !only_cons. intros F E0 E1. apply Forall_cons_iff in F as [Fi F]. cbn [fst snd] in *.
  destruct i as [|[|i]]; [| |lia]; cbn [Nat.eqb] in E0, E1; try discriminate. injection E1 as -> E1. now rewrite (no_order h F E0 E1).
Qed.
(** Two goroutines, one with one call, the other with two. *)
Lemma three_orders h x y z : Forall (fun z => fst z < 2) h -> only 0 h = [x] -> only 1 h = [y; z] ->
  h = [(0, x); (1, y); (1, z)] \/ h = [(1, y); (0, x); (1, z)] \/ h = [(1, y); (1, z); (0, x)].
Proof.
  destruct h as [|[i a] h]; [discriminate|]. rewrite !only_cons. intros F E0 E1. apply Forall_cons_iff in F as [Fi F]. cbn [fst snd] in *.
  destruct i as [|[|i]]; [| |lia]; cbn [Nat.eqb] in E0, E1.
  - injection E0 as -> E0. left. destruct h as [|[j b] h]; [discriminate|]. rewrite only_cons in E0, E1. apply Forall_cons_iff in F as [Fj F]. cbn [fst snd] in *.
    destruct j as [|[|j]]; [| |lia]; cbn [Nat.eqb] in E0, E1; try discriminate. injection E1 as -> E1. now rewrite (one_order h z F E0 E1).
  - injection E1 as -> E1. right. destruct (two_orders h x z F E0 E1) as [-> | ->]; auto.
Qed.
Lemma seq_three P boom W x y z V : seq P boom W [x; y; z] V ->
  V = fst (alone (p_call P boom (fst (snd z))) (fst (alone (p_call P boom (fst (snd y))) (fst (alone (p_call P boom (fst (snd x))) W))))).
Proof.
  intros S. destruct (seq_snoc P boom W [x; y] z V S) as (V1 & S1 & E1). rewrite <- (seq_two P boom W x y V1 S1). now rewrite E1.
Qed.
Theorem C63_one_configuration_refuted : exists P W c sh cs l s, reach P W /\ w_root W <> None /\ fair (CSetConfig c sh) /\ Forall (quiet P) cs /\
  lsteps P calm (l_start W [] [[CSetConfig c sh]; cs]) l s /\ returned s /\ ~ exists h, explains P calm W h s.
Proof.
  exists ex_P, at_W, at_cfg3, self, [at_G; at_R], (fst at_run4), (snd at_run4).
  split; [apply ran_reach; vm_compute; reflexivity|]. split; [vm_compute; discriminate|].
  split; [intros ids; reflexivity|]. split; [repeat constructor|].
  split; [exact (lsched_runs ex_P calm at_turns _)|]. split; [apply returnedb_ok; vm_compute; reflexivity|].
  intros (h & V & S & T & F & E). destruct at_threads3 as (t0 & t1 & Et & N0 & N1 & D0 & D1). rewrite Et in T, F, E.
  pose proof (T 0 t0 eq_refl) as O0. pose proof (T 1 t1 eq_refl) as O1. rewrite N0, D0 in O0. rewrite N1, D1 in O1.
  assert (EV : l_w (snd at_run4) = V).
  { apply E. intros [|[|i]] t Hi; cbn in Hi; [injection Hi as <-; exact N0|injection Hi as <-; exact N1|now destruct i]. }
  destruct at_sees3 as (S1 & S2 & S3 & S4). rewrite EV in S1. clear EV E T. cbn [length] in F.
  destruct (three_orders h _ _ _ F O0 O1) as [-> | [-> | ->]]; apply seq_three in S; cbn [fst snd] in S.
  - assert (V = at_after3 at_S at_G at_R) as -> by exact S. rewrite S2 in S1. clear - S1. discriminate S1.
  - assert (V = at_after3 at_G at_S at_R) as -> by exact S. rewrite S3 in S1. clear - S1. discriminate S1.
  - assert (V = at_after3 at_G at_R at_S) as -> by exact S. rewrite S4 in S1. clear - S1. discriminate S1.
Qed.
Print Assumptions C63_one_configuration_refuted.

(** Example: the calls of three goroutines overlap, and there are such orders. *)
Definition at_todo : list (list call) :=
  [[CGetLogger ($"a/b"); CClose self]; [CRegisterFormatter ($"x") (fun _ => NewTextFormatter); CGetLogger ($"a")];
   [CGetLoggerOutputs ($"root"); CSetConfig (at_cfg [mkCL ($"root") ($"info") [$"c3"]]) self; CGetLogger []]].
Definition at_run2 := lsched ex_P calm (concat (repeat [ByCall 0; ByCall 1; ByCall 2] 40)) (l_start at_W [] at_todo).
Example C63_ex : reach ex_P at_W /\ w_root at_W <> None /\ Forall (Forall (quiet ex_P)) at_todo /\ Forall (Forall fair) at_todo /\
  lsteps ex_P calm (l_start at_W [] at_todo) (fst at_run2) (snd at_run2) /\ returned (snd at_run2) /\ length (fst at_run2) = 40.
Proof.
  split; [apply ran_reach; vm_compute; reflexivity|]. split; [vm_compute; discriminate|].
  split; [repeat constructor; vm_compute; reflexivity|]. split; [repeat constructor; cbn; reflexivity|].
  split; [exact (lsched_runs ex_P calm _ _)|]. split; [apply returnedb_ok; vm_compute; reflexivity|]. vm_compute. reflexivity.
Qed.
(** Another one, in which a creator panics twice: the logger "z" exists all the same, and so does the first of its outputs. *)
Definition at_cfg2 : config := mkCfg
  [Some [($"type", $"text"); ($"name", $"f2"); ($"layout", $"%{msg}")]]
  [Some [($"type", $"console"); ($"name", $"c2"); ($"format", $"f2")]; Some [($"type", $"memory"); ($"name", $"m2"); ($"format", $"f2")]]
  [mkCL ($"root") ($"info") []; mkCL ($"z") ($"warn") [$"c2"; $"m2"]].
Definition at_W1 : world := ran ex_P [OGetLogger []].
Definition at_W2 : world := match exec ex_P at_W1 (OSetConfig at_cfg2 [0%nat]) with Ok (W, _) => W | Panic => at_W1 end.
Lemma at_reach2 : reach ex_P at_W2.
Proof.
  assert (V : op_ok at_W1 (OSetConfig at_cfg2 [0%nat])) by (vm_compute; auto).
  assert (R : reach ex_P at_W1) by (apply ran_reach; vm_compute; reflexivity).
  unfold at_W2. generalize dependent (OSetConfig at_cfg2 [0%nat]). revert R. generalize at_W1. intros W R o V.
  destruct (exec ex_P W o) as [[W' r]|] eqn:E; [|exact R]. exact (reach_step _ _ _ _ _ R V E).
Qed.
Definition at_todo2 : list (list call) :=
  [[CRegisterOutput ($"memory") (fun _ _ => CreatePanic); CGetLogger ($"z"); CGetLogger ($"z")]; [CGetLogger ($"y"); CGetLoggerOutputs ($"z"); CClose (@rev nat)]].
Definition at_run3 := lsched ex_P calm (concat (repeat [ByCall 0; ByCall 1] 40)) (l_start at_W2 [] at_todo2).
Example C63_ex_panic : reach ex_P at_W2 /\ w_root at_W2 <> None /\ Forall (Forall (quiet ex_P)) at_todo2 /\ Forall (Forall fair) at_todo2 /\
  lsteps ex_P calm (l_start at_W2 [] at_todo2) (fst at_run3) (snd at_run3) /\ returned (snd at_run3) /\
  answers (snd at_run3) = [[Some RUnit; None; Some (RLogger 2)]; [Some (RLogger 1); None; Some RUnit]] /\
  map fst (w_outputs at_W2) = [$"c1"] /\ In ($"c2") (map fst (w_outputs (l_w (snd at_run3)))).
Proof.
  split; [exact at_reach2|]. split; [vm_compute; discriminate|].
  split; [repeat constructor|]. split; [repeat constructor; cbn; intros; try reflexivity; now rewrite <- Permutation_rev|].
  split; [exact (lsched_runs ex_P calm _ _)|]. split; [apply returnedb_ok; vm_compute; reflexivity|].
  split; [vm_compute; reflexivity|]. split; [vm_compute; reflexivity|]. vm_compute; auto.
Qed.

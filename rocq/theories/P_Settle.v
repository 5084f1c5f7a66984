(** Property C55: configurations that change while loggers are asked for. *)
From Verif Require Import GoStr Utf8 LevelModel EventModel LayoutModel ConfModel OutputModel WorldModel WorldSpec ManagerSpec
  WorldBase WorldInv WorldProofs ManagerProofs P_Hier LockModel LockSpec LockProofs LockRunProofs SettleSpec SettleProofs P_Lock.
Local Open Scope nat_scope.

Lemma mine_all todo : Forall (Forall plain) todo -> Forall (Forall (mine todo)) todo.
Proof.
  rewrite !Forall_forall. intros H cs Hcs. specialize (H cs Hcs). rewrite Forall_forall in *. intros c Hc. split; [now apply H|].
  destruct c; auto. intros m Hm. exists cs, name. auto.
Qed.
Lemma good_follows P W0 todo W id l : (forall id, good P W0 todo W id) -> nth_error (w_loggers W) id = Some l ->
  (id < length (w_loggers W0) \/ ~ asked_below todo (l_name l)) -> follows P W0 W id.
Proof.
  intros G Hl He l0 lc H1 H2 H3. assert (l0 = l) by congruence. subst l0. apply configured_get in H2.
  destruct (G id l lc) as [G1 G2]; [repeat split; assumption|]. split; [apply level_setting_iff; now symmetry|exact G2].
Qed.
Lemma follows_good P W todo id : follows P W W id -> good P W todo W id.
Proof.
  intros F l lc (C1 & _ & C3 & C4). destruct (F l lc C1) as [F1 F2]; [now apply configured_get|assumption|].
  split; [apply level_setting_iff in F1; now symmetry|exact F2].
Qed.
Lemma settled P boom W q todo l s (lax : Prop) : reach P W -> Forall (Forall plain) todo -> lsteps P boom (l_start W q todo) l s ->
  returned s -> (forall c, ~ ended s c None) -> lax \/ (forall id, follows P W W id) ->
  ((forall id, good P W todo (l_w s) id) \/ lax /\ forall c, ~ ended s c (Some (RErr true))) /\
  (w_config (l_w s) = w_config W /\ (forall c, ~ ended s c (Some (RErr true))) \/
   exists c, ended s c (Some (RErr true)) /\ gives P c (w_config (l_w s))).
Proof.
  intros R Hp Hs Hr Hn Hf.
  assert (J0 : sj P W todo lax (l_start W q todo) (fun _ => Free false)).
  { apply start_sj; [now apply (reach_inv P)|now apply mine_all|]. destruct Hf as [?|F]; [now left|right].
    intros id. now apply follows_good. }
  destruct (steps_sj P boom W todo lax _ _ _ (or_intror (ex_intro _ _ J0)) Hs) as [(i & t & Hi & [[c Hc]|(c & p & Hc & _)])|[md J]].
  - exfalso. apply (Hn c). now exists i, t.
  - exfalso. destruct (Hr i t Hi). congruence.
  - assert (Hm : forall i, md i = Free false).
    { intros i. destruct (nth_error (l_threads s) i) as [t|] eqn:E; [|now apply (sj_out _ _ _ _ _ _ J)].
      destruct (sj_run _ _ _ _ _ _ J i t E) as [_ H]. destruct (Hr i t E) as [H1 _]. now rewrite H1 in H. }
    assert (Hfac : pend s md = Free false) by (unfold pend; destruct (l_fac s); auto).
    split.
    + destruct (sj_coh _ _ _ _ _ _ J) as [[i Hi]|[H|[Hl [_ H]]]].
      * rewrite Hm in Hi. discriminate.
      * left. now rewrite Hfac in H.
      * right. auto.
    + destruct (sj_src _ _ _ _ _ _ J) as [[H [_ U]]|(i & t & c & Hi & Hg & [H|[_ H]])].
      * now left.
      * right. exists c. split; [now exists i, t|assumption].
      * rewrite Hm in H. discriminate.
Qed.

(** ** C55: once all calls have returned, the loggers follow the configuration in force *)
(** Any number of goroutines get loggers, set configurations and close outputs. None of the calls has panicked; either one
    of them has put a configuration in force, or the loggers were following the one there was. A logger made
    only on the way to one below it is another matter (see [C16_ancestor_refuted]): the last condition. *)
Theorem C55_settled : forall P boom W q todo l s id lg, reach P W -> Forall (Forall plain) todo ->
  lsteps P boom (l_start W q todo) l s -> returned s -> (forall c, ~ ended s c None) ->
  (exists c, ended s c (Some (RErr true))) \/ (forall id, follows P W W id) ->
  nth_error (w_loggers (l_w s)) id = Some lg ->
  id < length (w_loggers W) \/ ~ asked_below todo (l_name lg) ->
  follows P W (l_w s) id.
Proof.
  intros P boom W q todo l s id lg R Hp Hs Hr Hn [[c Hc]|Hf] Hl He.
  - destruct (settled P boom W q todo l s True R Hp Hs Hr Hn (or_introl Logic.I)) as [[G|[_ U]] _]; [eapply good_follows; eassumption|].
    exfalso. exact (U c Hc).
  - destruct (settled P boom W q todo l s False R Hp Hs Hr Hn (or_intror Hf)) as [[G|[[] _]] _]. eapply good_follows; eassumption.
Qed.
Print Assumptions C55_settled.
(** The configuration in force is that of one of the accepted calls (if there was one). *)
Theorem C55_in_force : forall P boom W q todo l s, reach P W -> Forall (Forall plain) todo ->
  lsteps P boom (l_start W q todo) l s -> returned s -> (forall c, ~ ended s c None) ->
  w_config (l_w s) = w_config W /\ (forall c, ~ ended s c (Some (RErr true))) \/
  exists c, ended s c (Some (RErr true)) /\ gives P c (w_config (l_w s)).
Proof. intros P boom W q todo l s R Hp Hs Hr Hn. exact (proj2 (settled P boom W q todo l s True R Hp Hs Hr Hn (or_introl Logic.I))). Qed.
Print Assumptions C55_in_force.

(** Example: two goroutines set configurations, a third and a fourth get loggers meanwhile. *)
Definition st_cfg (lvl out : str) : config := mkCfg
  [Some [($"type", $"text"); ($"name", $"f2"); ($"layout", $"%{msg}")]]
  [Some [($"type", $"console"); ($"name", $"c2"); ($"format", $"f2")]; Some [($"type", $"memory"); ($"name", $"m2"); ($"format", $"f2")]]
  [mkCL ($"root") lvl [out]; mkCL ($"a") lvl [out]; mkCL ($"b") lvl [$"c2"; $"m2"]].
Definition st_todo : list (list call) :=
  [[CSetConfig (st_cfg ($"warn") ($"c2")) self]; [CSetConfig (st_cfg ($"error") ($"m2")) (@rev nat)];
   [CGetLogger []; CGetLogger ($"b")]; [CGetLogger ($"a"); CClose self]].
Definition st_turns : list label := concat (repeat [ByCall 3; ByCall 0; ByCall 2; ByCall 1; ByCall 3] 60).
Definition st_run := lsched ex_P calm st_turns (l_start (init_world ex_P) [] st_todo).
Definition all_answers_ok (s : lstate) : bool :=
  forallb (fun t => forallb (fun p : call * option ret => match snd p with Some _ => true | None => false end) (t_done t)) (l_threads s).
Lemma all_answers_sound s : all_answers_ok s = true -> forall c, ~ ended s c None.
Proof.
  unfold all_answers_ok. intros H c (i & t & Hi & Hin). rewrite forallb_forall in H. apply nth_error_In in Hi. apply H in Hi.
  rewrite forallb_forall in Hi. apply Hi in Hin. discriminate.
Qed.
Lemma perm_self ids : Permutation (self ids) ids. Proof. reflexivity. Qed.
Lemma perm_rev (ids : list nat) : Permutation (rev ids) ids. Proof. symmetry. apply Permutation_rev. Qed.
Definition accepted (s : lstate) : bool :=
  existsb (fun t => existsb (fun p : call * option ret => match snd p with Some (RErr true) => true | _ => false end) (t_done t)) (l_threads s).
Lemma accepted_sound s : accepted s = true -> exists c, ended s c (Some (RErr true)).
Proof.
  unfold accepted. intros H. apply existsb_exists in H as (t & Ht & H). apply existsb_exists in H as ([c r] & Hc & H).
  destruct r as [[| |[|]| |]|]; try discriminate. apply In_nth_error in Ht as [i Hi]. exists c, i, t. auto.
Qed.
Example C55_ex : Forall (Forall plain) st_todo /\ lsteps ex_P calm (l_start (init_world ex_P) [] st_todo) (fst st_run) (snd st_run) /\
  returned (snd st_run) /\ (forall c, ~ ended (snd st_run) c None) /\ (exists c, ended (snd st_run) c (Some (RErr true))) /\
  w_config (l_w (snd st_run)) = st_cfg ($"error") ($"m2") /\
  map (fun l => (l_name l, l_level l, l_outputs l)) (w_loggers (l_w (snd st_run))) =
    [($"root", 6%Z, [0]); ($"a", 6%Z, [0]); ($"b", 6%Z, [1; 0])].
Proof.
  split; [|split; [exact (lsched_runs ex_P calm st_turns _)|split; [|split; [|split; [|split]]]]].
  - unfold st_todo. repeat constructor; cbn; auto using perm_self, perm_rev.
  - apply returnedb_ok. vm_compute. reflexivity.
  - apply all_answers_sound. vm_compute. reflexivity.
  - apply accepted_sound. vm_compute. reflexivity.
  - vm_compute. reflexivity.
  - vm_compute. reflexivity.
Qed.
Example C55_ex_obtainable : Forall (obtainable (init_world ex_P) (st_cfg ($"error") ($"m2"))) [$"c2"; $"m2"] /\
  (forall n, asked_below st_todo n -> False).
Proof.
  split.
  - assert (D : forall n m, GetCfgOutput (st_cfg ($"error") ($"m2")) n = Some m -> cfg_FormatName (Some m) = $"f2" ->
      described (st_cfg ($"error") ($"m2")) n m [($"type", $"text"); ($"name", $"f2"); ($"layout", $"%{msg}")]).
    { intros n m E F. apply described_get. split; [assumption|]. now rewrite F. }
    constructor; [|constructor; [|constructor]].
    + eexists. eexists. exists (fun _ => NewTextFormatter), (fun _ => NewConsoleOutput (p_up ex_P)).
      split; [apply D; reflexivity|]. split; [reflexivity|]. split; [reflexivity|].
      split; right; eexists; intros t; vm_compute; reflexivity.
    + eexists. eexists. exists (fun _ => NewTextFormatter), (fun _ => NewMemoryOutput).
      split; [apply D; reflexivity|]. split; [reflexivity|]. split; [reflexivity|].
      split; right; eexists; intros t; vm_compute; reflexivity.
  - intros n (cs & m & H1 & H2 & (H3 & c & rest & H4 & H5)).
    assert (E : In m [[]; $"b"; $"a"]).
    { destruct H1 as [<-|[<-|[<-|[<-|[]]]]]; cbn in H2;
      repeat (destruct H2 as [H2|H2]; [first [discriminate H2|injection H2 as <-; cbn; auto]|]); destruct H2. }
    destruct n as [|x n]; [congruence|]. cbn in E. destruct E as [<-|[<-|[<-|[]]]]; try discriminate; injection H5 as _ H5; destruct n; discriminate.
Qed.
(** Why loggers made on the way are left out: "a" has an entry, and the two calls below leave it without a level. *)
Definition st_todo2 : list (list call) := [[CSetConfig (st_cfg ($"error") ($"m2")) self; CGetLogger ($"a/x"); CGetLogger ($"a")]].
Definition st_run2 := lsched ex_P calm (repeat (ByCall 0) 100) (l_start (init_world ex_P) [] st_todo2).
Example C55_ex_on_the_way : returned (snd st_run2) /\
  map (fun l => (l_name l, l_level l, l_outputs l)) (w_loggers (l_w (snd st_run2))) =
    [($"root", 6%Z, [0]); ($"a", 0%Z, []); ($"a/x", 0%Z, [])].
Proof. split; [apply returnedb_ok; vm_compute; reflexivity|vm_compute; reflexivity]. Qed.

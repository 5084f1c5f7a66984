(** Properties C13-C20: configurations and managed outputs. *)
From Verif Require Import GoStr Utf8 LevelModel LevelSpec LevelProofs EventModel LayoutModel ConfModel OutputModel
  WorldModel WorldSpec ManagerSpec WorldBase WorldInv WorldProofs P_Hier ManagerProofs.
Local Open Scope Z_scope.

(** ** A history for the examples *)
Definition aft (P : params) (W : world) (o : op) : world := match exec P W o with Ok (W', _) => W' | Panic => W end.
Definition ret_of (P : params) (W : world) (o : op) : option ret := match exec P W o with Ok (_, r) => Some r | Panic => None end.
Lemma aft_exec P W o r : ret_of P W o = Some r -> exec P W o = Ok (aft P W o, r).
Proof. unfold ret_of, aft. destruct (exec P W o) as [[W' r']|]; [|discriminate]. now intros [= <-]. Qed.
Lemma aft_reach P W o r : reach P W -> op_ok W o -> ret_of P W o = Some r -> reach P (aft P W o).
Proof. intros R H E. exact (reach_step P W o _ r R H (aft_exec P W o r E)). Qed.
(** Formats "f2", outputs "m1" (memory) and "c2" (console, from error up); root, "a" and "q" are
    configured. *)
Definition cfg_f2 (layout : str) : smap str := [($"type", $"text"); ($"name", $"f2"); ($"layout", layout)].
Definition cfg_m1 : smap str := [($"type", $"memory"); ($"name", $"m1"); ($"format", $"f2")].
Definition cfg_c2 (threshold : str) : smap str :=
  [($"type", $"console"); ($"name", $"c2"); ($"format", $"f2"); ($"threshold", threshold)].
Definition ex_cfg (layout threshold : str) : config := mkCfg
  [Some (cfg_f2 layout)] [Some cfg_m1; Some (cfg_c2 threshold)]
  [mkCL ($"root") ($"warn") [$"c2"]; mkCL ($"a") ($"Info") [$"m1"; $"c2"]; mkCL ($"q") ($"off") []].
Definition ex_cfg1 : config := ex_cfg ($"<%{msg}>") ($"error").
Definition ex_cfg2 : config := ex_cfg ($"[%{msg}]") ($"info").
(** Loggers root 0, "a" 1, "a/b" 2; then the configuration. *)
Definition m0 : world := ran ex_P [OGetLogger ($"a/b")].
Definition m1 : world := aft ex_P m0 (OSetConfig ex_cfg1 [2; 0; 1]%nat).
Definition m2 : world := aft ex_P m1 (OSetConfig ex_cfg2 [0; 1; 2]%nat).
Lemma m0_reach : reach ex_P m0.
Proof. apply ran_reach. vm_compute. reflexivity. Qed.
Lemma m0_names : map snd (w_names m0) = [0; 1; 2]%nat.
Proof. vm_compute. reflexivity. Qed.
Lemma m1_exec : exec ex_P m0 (OSetConfig ex_cfg1 [2; 0; 1]%nat) = Ok (m1, RErr true).
Proof. apply aft_exec. vm_compute. reflexivity. Qed.
Lemma ord_201 : Permutation [2; 0; 1]%nat [0; 1; 2]%nat.
Proof. apply (Permutation_cons_append [0; 1]%nat 2%nat). Qed.
Lemma m0_ord : op_ok m0 (OSetConfig ex_cfg1 [2; 0; 1]%nat).
Proof. cbn [op_ok]. rewrite m0_names. apply ord_201. Qed.
Lemma m1_reach : reach ex_P m1.
Proof. eapply aft_reach; [apply m0_reach|apply m0_ord|vm_compute; reflexivity]. Qed.
Lemma m1_ord : op_ok m1 (OSetConfig ex_cfg2 [0; 1; 2]%nat).
Proof. cbn [op_ok]. replace (map snd (w_names m1)) with [0; 1; 2]%nat by (vm_compute; reflexivity). apply Permutation_refl. Qed.
Lemma m2_exec : exec ex_P m1 (OSetConfig ex_cfg2 [0; 1; 2]%nat) = Ok (m2, RErr true).
Proof. apply aft_exec. vm_compute. reflexivity. Qed.
Lemma setConfig_exec P W c ord W' ok : exec P W (OSetConfig c ord) = Ok (W', RErr ok) -> setConfig P W c ord = Ok (W', ok).
Proof. cbn [exec]. destruct (setConfig P W c ord) as [[W1 b]|]; [|discriminate]. now intros [= <- <-]. Qed.

(** ** C13 *)
(** SetConfig says "no error" exactly for the well-formed configurations ... *)
Theorem C13_accepts_well_formed_partial : forall P W c ord W' ok,
  exec P W (OSetConfig c ord) = Ok (W', RErr ok) -> (ok = true <-> well_formed c).
Proof.
  intros P W c ord W' ok H. apply setConfig_exec in H. unfold setConfig in H. rewrite <- validateConfig_iff.
  destruct (validateConfig c); [|injection H as <- <-; tauto].
  destruct (notify P (set_config W c) ord); [|discriminate]. injection H as <- <-. tauto.
Qed.
Print Assumptions C13_accepts_well_formed_partial.
(** ... which does not ask for distinct logger names: two entries for one logger are accepted. *)
Theorem C13_duplicate_loggers_refuted : exists P W c ord W',
  reach P W /\ op_ok W (OSetConfig c ord) /\ exec P W (OSetConfig c ord) = Ok (W', RErr true) /\ ~ distinct_loggers c.
Proof.
  exists ex_P, m0, (mkCfg [] [] [mkCL ($"a") ($"info") []; mkCL ($"a") ($"error") []]), [0; 1; 2]%nat. eexists.
  split; [apply m0_reach|]. split; [cbn [op_ok]; rewrite m0_names; apply Permutation_refl|].
  split; [apply aft_exec; vm_compute; reflexivity|]. intros H. inversion H as [|? ? Hn _]. apply Hn. now left.
Qed.
Print Assumptions C13_duplicate_loggers_refuted.
(** With two entries for one logger the first one counts. *)
Theorem C13_first_entry_counts : forall P W c ord W' id l lc,
  reach P W -> op_ok W (OSetConfig c ord) -> exec P W (OSetConfig c ord) = Ok (W', RErr true) ->
  nth_error (w_loggers W) id = Some l -> configured (l_name l) (c_loggers c) lc ->
  forall l', nth_error (w_loggers W') id = Some l' -> l' = l \/ set_up P W' lc l'.
Proof.
  intros P W c ord W' id l lc R Ho H Hl Hc l' Hl'. apply setConfig_exec in H.
  destruct (setConfig_notified _ _ _ _ _ R Ho H) as [N _].
  destruct (nf_loggers _ _ _ _ _ N id l Hl) as (l2 & H2 & _ & Hin). assert (l2 = l') by congruence. subst l2.
  destruct Hin as [[-> _]|(lc2 & a & f & C1 & _ & C3 & _ & ->)]; [|auto|].
  - apply (proj2 (order_facts _ _ _ R Ho)). eauto.
  - right. apply configured_get in Hc. cbn in C1. unfold GetCfgLogger in C1. assert (lc2 = lc) by congruence. subst lc2.
    split; [|exact C3]. now apply level_setting_iff.
Qed.
Print Assumptions C13_first_entry_counts.
Example C13_example : well_formed ex_cfg1 /\
  ~ well_formed (mkCfg [] [Some cfg_m1] []) /\ ~ well_formed (mkCfg [Some (cfg_f2 []); Some (cfg_f2 [])] [] []) /\
  ~ well_formed (mkCfg [] [] [mkCL ($"a") [] [$"m1"]]) /\
  exec ex_P m0 (OSetConfig (mkCfg [] [Some cfg_m1] []) [0; 1; 2]%nat) = Ok (m0, RErr false).
Proof.
  split; [apply validateConfig_iff; vm_compute; reflexivity|].
  do 3 (split; [rewrite <- validateConfig_iff; vm_compute; discriminate|]). reflexivity.
Qed.

(** ** C14 *)
(** An error means that nothing changed; and whatever is not well-formed gives an error. *)
Theorem C14_error_changes_nothing : forall P W c ord W',
  exec P W (OSetConfig c ord) = Ok (W', RErr false) -> W' = W.
Proof.
  intros P W c ord W' H. apply setConfig_exec in H. unfold setConfig in H.
  destruct (validateConfig c); [|congruence]. destruct (notify _ _ _); discriminate.
Qed.
Print Assumptions C14_error_changes_nothing.
Theorem C14_ill_formed_rejected : forall P W c ord, ~ well_formed c -> exec P W (OSetConfig c ord) = Ok (W, RErr false).
Proof.
  intros P W c ord H. rewrite <- validateConfig_iff in H. cbn [exec]. unfold setConfig.
  destruct (validateConfig c); [tauto|reflexivity].
Qed.
Print Assumptions C14_ill_formed_rejected.
(** The same through LoadConfig and LoadConfigFile. *)
Theorem C14_load_error_changes_nothing : forall P W bs ext file ord W',
  (exec P W (OLoadConfig bs ext ord) = Ok (W', RErr false) -> W' = W) /\
  (exec P W (OLoadConfigFile file ord) = Ok (W', RErr false) -> W' = W).
Proof.
  intros P W bs ext file ord W'.
  assert (A : forall c, bind (setConfig P W c ord) (fun '(X, ok) => Ok (X, RErr ok)) = Ok (W', RErr false) -> W' = W).
  { intros c H. apply (C14_error_changes_nothing P W c ord). exact H. }
  split; [apply A|]. cbn [exec]. unfold LoadConfigFile. destruct (p_read P file); [|now intros [= <-]].
  destruct (path_Ext file); [discriminate|]. apply A.
Qed.
Print Assumptions C14_load_error_changes_nothing.
Example C14_example : exec ex_P m1 (OSetConfig (mkCfg [] [Some cfg_m1] []) [0; 1; 2]%nat) = Ok (m1, RErr false) /\
  w_config m1 = ex_cfg1.
Proof. split; [|vm_compute]; reflexivity. Qed.

(** ** C15 *)
(** Every existing logger with an entry whose outputs can be provided is set up as its entry says. *)
Theorem C15_named_loggers_set_up : forall P W c ord W' id l lc,
  reach P W -> op_ok W (OSetConfig c ord) -> exec P W (OSetConfig c ord) = Ok (W', RErr true) ->
  nth_error (w_loggers W) id = Some l -> configured (l_name l) (c_loggers c) lc ->
  Forall (obtainable W c) (cl_outputs lc) ->
  exists l', nth_error (w_loggers W') id = Some l' /\ set_up P W' lc l' /\
    l_name l' = l_name l /\ l_parent l' = l_parent l /\ l_skip l' = l_skip l.
Proof.
  intros P W c ord W' id l lc R Ho H Hl Hc Hob. apply setConfig_exec in H.
  destruct (setConfig_notified _ _ _ _ _ R Ho H) as [N _]. apply configured_get in Hc.
  destruct (nf_loggers _ _ _ _ _ N id l Hl) as (l' & H2 & _ & Hin). exists l'. split; [assumption|].
  destruct Hin as [[-> Hp]|(lc2 & a & f & C1 & _ & C3 & _ & ->)].
  - apply (proj2 (order_facts _ _ _ R Ho)). eauto.
  - exfalso. exact (Hp lc Hc Hob).
  - cbn in C1. unfold GetCfgLogger in C1. assert (lc2 = lc) by congruence. subst lc2.
    split; [|cbn; auto]. split; [|exact C3]. now apply level_setting_iff.
Qed.
Print Assumptions C15_named_loggers_set_up.
(** A logger is never half set up: level and outputs follow the entry, or the logger is untouched
    (which only happens if an output could not be provided). *)
Theorem C15_all_or_nothing : forall P W c ord W' id l,
  reach P W -> op_ok W (OSetConfig c ord) -> exec P W (OSetConfig c ord) = Ok (W', RErr true) ->
  nth_error (w_loggers W) id = Some l ->
  exists l', nth_error (w_loggers W') id = Some l' /\
    (l' = l /\ (forall lc, configured (l_name l) (c_loggers c) lc -> ~ Forall (obtainable W c) (cl_outputs lc)) \/
     exists lc, configured (l_name l) (c_loggers c) lc /\ set_up P W' lc l').
Proof.
  intros P W c ord W' id l R Ho H Hl. apply setConfig_exec in H.
  destruct (setConfig_notified _ _ _ _ _ R Ho H) as [N _].
  destruct (nf_loggers _ _ _ _ _ N id l Hl) as (l' & H2 & _ & Hin). exists l'. split; [assumption|].
  destruct Hin as [[-> Hp]|(lc & a & f & C1 & _ & C3 & _ & ->)].
  - apply (proj2 (order_facts _ _ _ R Ho)). eauto.
  - left. split; [reflexivity|]. intros lc Hc. apply configured_get in Hc. exact (Hp lc Hc).
  - right. exists lc. split; [now apply configured_get|]. split; [now apply level_setting_iff|exact C3].
Qed.
Print Assumptions C15_all_or_nothing.
(** Loggers without an entry are untouched; no logger appears or disappears; outputs that existed
    keep their place and contents; nothing is sent; the configuration is the one given. *)
Theorem C15_rest_untouched : forall P W c ord W',
  reach P W -> op_ok W (OSetConfig c ord) -> exec P W (OSetConfig c ord) = Ok (W', RErr true) ->
  (forall id l, nth_error (w_loggers W) id = Some l -> ~ In (l_name l) (map cl_name (c_loggers c)) ->
     nth_error (w_loggers W') id = Some l) /\
  length (w_loggers W') = length (w_loggers W) /\ w_root W' = w_root W /\ w_names W' = w_names W /\
  (forall o x, nth_error (w_heap W) o = Some x -> nth_error (w_heap W') o = Some x) /\
  w_sent W' = w_sent W /\ w_warn W' = w_warn W /\ w_config W' = c /\
  w_fcreators W' = w_fcreators W /\ w_ocreators W' = w_ocreators W.
Proof.
  intros P W c ord W' R Ho H. apply setConfig_exec in H. destruct (setConfig_notified _ _ _ _ _ R Ho H) as [N _].
  pose proof (nf_kin _ _ _ _ _ N) as K. split.
  { intros id l Hl Hn. apply unconfigured_get in Hn.
    destruct (nf_loggers _ _ _ _ _ N id l Hl) as (l' & H2 & Hno & Hin).
    destruct Hin as [[-> _]|(lc & a & f & C1 & _)]; [|assumption|].
    - apply (proj2 (order_facts _ _ _ R Ho)). eauto.
    - cbn in C1. unfold GetCfgLogger in C1. congruence. }
  split; [exact (nf_len _ _ _ _ _ N)|]. split; [exact (nf_root _ _ _ _ _ N)|]. split; [exact (nf_names _ _ _ _ _ N)|].
  split.
  { intros o x Hx. destruct (nf_heap _ _ _ _ _ N) as [e He]. cbn in He. rewrite He, nth_error_app1; [assumption|].
    apply nth_error_Some. congruence. }
  split; [exact (nf_sent _ _ _ _ _ N)|]. split; [exact (nf_warn _ _ _ _ _ N)|]. split; [exact (kn_config _ _ K)|].
  split; [exact (kn_fc _ _ K)|exact (kn_oc _ _ K)].
Qed.
Print Assumptions C15_rest_untouched.
(** The order in which the loggers are visited does not matter, as long as the creators answer
    consistently. *)
Theorem C15_order_independent : forall P W c ord1 ord2 W1 W2 r1 r2,
  reach P W -> steady W -> op_ok W (OSetConfig c ord1) -> op_ok W (OSetConfig c ord2) ->
  exec P W (OSetConfig c ord1) = Ok (W1, r1) -> exec P W (OSetConfig c ord2) = Ok (W2, r2) ->
  r1 = r2 /\ same_up_to_pointers W1 W2.
Proof.
  intros P W c ord1 ord2 W1 W2 r1 r2 R S O1 O2 H1 H2. pose proof (reach_inv _ _ R) as I. cbn [exec] in H1, H2.
  destruct (setConfig P W c ord1) as [[X1 b1]|] eqn:E1; [|discriminate]. injection H1 as <- <-.
  destruct (setConfig P W c ord2) as [[X2 b2]|] eqn:E2; [|discriminate]. injection H2 as <- <-.
  destruct (validateConfig c) eqn:V.
  - assert (b1 = true) by (unfold setConfig in E1; rewrite V in E1; destruct (notify _ _ _); [|discriminate]; now injection E1).
    assert (b2 = true) by (unfold setConfig in E2; rewrite V in E2; destruct (notify _ _ _); [|discriminate]; now injection E2).
    subst b1 b2. split; [reflexivity|].
    apply (orders_same P (set_config W c) S (set_config_inv _ _ I) ord1 ord2).
    + now apply (setConfig_notified P W c ord1).
    + now apply (setConfig_notified P W c ord2).
    + intros id. rewrite (proj2 (order_facts _ _ _ R O1)), (proj2 (order_facts _ _ _ R O2)). reflexivity.
  - unfold setConfig in E1, E2. rewrite V in E1, E2. injection E1 as <- <-. injection E2 as <- <-. split; [reflexivity|].
    constructor; try reflexivity.
    + apply nth_Forall2; [reflexivity|]. intros i x y Hx Hy. assert (y = x) by congruence. subst y. repeat split.
      pose proof (iv_ops _ I _ _ Hx) as Hv. clear -Hv. induction Hv as [|o os Ho _ IH]; constructor; [|assumption].
      destruct (nth_error (w_heap W) o) as [z|] eqn:Ez; [exists z; auto|]. apply nth_error_None in Ez. lia.
    + intros n. destruct (mlookup n (w_outputs W)) as [o|] eqn:E; [|exact Logic.I].
      pose proof (iv_valid _ I _ _ E) as Ho. destruct (nth_error (w_heap W) o) as [z|] eqn:Ez; [exists z; auto|].
      apply nth_error_None in Ez. lia.
Qed.
Print Assumptions C15_order_independent.
(** If no creator panics, SetConfig returns. *)
Theorem C15_returns : forall P W c ord, reach P W -> no_panics W -> op_ok W (OSetConfig c ord) ->
  exists W' ok, exec P W (OSetConfig c ord) = Ok (W', RErr ok).
Proof.
  intros P W c ord R N Ho. destruct (setConfig_total P W c ord R Ho N) as (W' & ok & E). exists W', ok. cbn [exec]. now rewrite E.
Qed.
Print Assumptions C15_returns.
(** The configuration sets root (0) and "a" (1) up, and leaves "a/b" (2) alone; "m1" and "c2" are
    made, "c2" once. *)
Example C15_example : map (fun l => (l_name l, l_level l, l_outputs l)) (w_loggers m1) =
    [($"root", Warn, [1%nat]); ($"a", Info, [2%nat; 1%nat]); ($"a/b", 0, [])] /\
  w_outputs m1 = [($"c1", 0%nat); ($"c2", 1%nat); ($"m1", 2%nat)] /\
  map (fun x => os_threshold (o_spec x)) (w_heap m1) = [All; Error; All].
Proof. vm_compute. auto. Qed.
Lemma m0_fc : w_fcreators m0 = w_fcreators (init_world ex_P).
Proof. reflexivity. Qed.
Lemma m0_oc : w_ocreators m0 = w_ocreators (init_world ex_P).
Proof. reflexivity. Qed.
Example C15_obtainable : Forall (obtainable m0 ex_cfg1) [$"m1"; $"c2"].
Proof.
  assert (D : forall n m, In (Some m) (c_outputs ex_cfg1) -> GetCfgOutput ex_cfg1 n = Some m -> described ex_cfg1 n m (cfg_f2 ($"<%{msg}>"))).
  { intros n m Hin E. apply described_get. split; [assumption|]. destruct Hin as [E2|[E2|[]]]; injection E2 as <-; reflexivity. }
  constructor; [|constructor; [|constructor]].
  - exists cfg_m1, (cfg_f2 ($"<%{msg}>")), (fun _ => NewTextFormatter), (fun _ => NewMemoryOutput).
    split; [apply D; [now left|reflexivity]|]. split; [rewrite m0_fc; reflexivity|]. split; [rewrite m0_oc; reflexivity|].
    split; right; eexists; intros t; vm_compute; reflexivity.
  - exists (cfg_c2 ($"error")), (cfg_f2 ($"<%{msg}>")), (fun _ => NewTextFormatter), (fun _ => NewConsoleOutput (p_up ex_P)).
    split; [apply D; [right; now left|reflexivity]|]. split; [rewrite m0_fc; reflexivity|]. split; [rewrite m0_oc; reflexivity|].
    split; right; eexists; intros t; vm_compute; reflexivity.
Qed.
Lemma init_fc P : w_fcreators (init_world P) = [($"text", fun _ => NewTextFormatter)].
Proof. reflexivity. Qed.
Lemma init_oc P : w_ocreators (init_world P) =
  [($"console", fun _ => NewConsoleOutput (p_up P)); ($"memory", fun _ => NewMemoryOutput);
   ($"size_rolling_file", fun _ => NewRollingOutput (p_up P)); ($"time_rolling_file", fun _ => NewRollingOutput (p_up P));
   ($"syslog", fun t => NewSyslogOutput (p_up P) (p_dial P t))].
Proof. reflexivity. Qed.
(** The built-in creators do not panic, and apart from syslog's they are consistent. *)
Lemma init_no_panics P : no_panics (init_world P).
Proof.
  unfold no_panics. rewrite init_fc, init_oc. cbn [mlookup]. split; intros cr t m H.
  - destruct (str_eqb _ _); [|discriminate]. injection H as <-. cbn. discriminate.
  - destruct (str_eqb _ ($"console")); [injection H as <-; discriminate|].
    destruct (str_eqb _ ($"memory")); [injection H as <-; discriminate|].
    destruct (str_eqb _ ($"size_rolling_file")) eqn:E1; [injection H as <-; unfold NewRollingOutput; rewrite E1; discriminate|].
    destruct (str_eqb _ ($"time_rolling_file")) eqn:E2; [injection H as <-; unfold NewRollingOutput; rewrite E1, E2; discriminate|].
    destruct (str_eqb _ ($"syslog")); [|discriminate]. injection H as <-. unfold NewSyslogOutput. destruct (p_dial P t); discriminate.
Qed.
Lemma init_steady P : (forall t t', p_dial P t = p_dial P t') -> steady (init_world P).
Proof.
  intros Hd. unfold steady. rewrite init_fc, init_oc. cbn [mlookup]. split; intros ty cr t t' m H.
  - destruct (str_eqb _ _); [|discriminate]. now injection H as <-.
  - destruct (str_eqb ty ($"console")); [now injection H as <-|]. destruct (str_eqb ty ($"memory")); [now injection H as <-|].
    destruct (str_eqb ty ($"size_rolling_file")); [now injection H as <-|].
    destruct (str_eqb ty ($"time_rolling_file")); [now injection H as <-|].
    destruct (str_eqb ty ($"syslog")); [|discriminate]. injection H as <-. now rewrite (Hd t t').
Qed.
Example C15_steady : steady m0 /\ no_panics m0.
Proof.
  unfold steady, no_panics. rewrite m0_fc, m0_oc. split; [now apply init_steady|apply init_no_panics].
Qed.

(** ** C16 *)
Lemma getLogger_exec P W n W' id : exec P W (OGetLogger n) = Ok (W', RLogger id) -> GetLogger P W n = Ok (W', id).
Proof. cbn [exec]. destruct (GetLogger P W n) as [[X j]|]; [|discriminate]. now intros [= <- <-]. Qed.
Lemma meant_asked n x : meant n x -> x = $"root" /\ (n = [] \/ n = $"root") \/ n = x /\ n <> [] /\ n <> $"root".
Proof.
  intros [|m Hm]; [auto|]. destruct (str_dec m ($"root")); auto.
Qed.
Lemma getLogger_root P W n : n = [] \/ n = $"root" -> GetLogger P W n = getRootLogger P W.
Proof. now intros [->| ->]. Qed.
(** Asked for a configured name that has no logger yet, GetLogger gives a logger that is set up as
    its entry says. *)
Theorem C16_new_logger_configured_partial : forall P W n x W' id lc,
  reach P W -> meant n x -> (forall j, ~ has_name W x j) ->
  configured x (c_loggers (w_config W)) lc -> Forall (obtainable W (w_config W)) (cl_outputs lc) ->
  exec P W (OGetLogger n) = Ok (W', RLogger id) ->
  exists l, nth_error (w_loggers W') id = Some l /\ l_name l = x /\ set_up P W' lc l.
Proof.
  intros P W n x W' id lc R M Hf Hc Hob H. pose proof (reach_inv _ _ R) as I. apply getLogger_exec in H. apply configured_get in Hc.
  destruct (meant_asked _ _ M) as [[-> Hn]|(<- & Hne & Hnr)].
  - rewrite (getLogger_root P W n Hn) in H. apply root_exists in Hf; [|assumption].
    destruct (getRoot_new _ _ _ _ H I Hf) as (_ & l & Hl & Hn' & _ & _ & Hcase). exists l. split; [assumption|]. split; [assumption|].
    change rootName with ($"root") in Hcase.
    destruct Hcase as [(lc2 & A & B & C)|[Hno _]].
    + unfold GetCfgLogger in A. assert (lc2 = lc) by congruence. subst. split; [now apply level_setting_iff|assumption].
    + exfalso. apply Hno. exists lc. auto.
  - destruct (getLogger_new _ _ _ _ _ H I Hne Hnr Hf) as (_ & _ & l & Hl & Hn' & Hcase & _). exists l. split; [assumption|]. split; [assumption|].
    destruct Hcase as [(lc2 & A & B & C)|[Hno _]].
    + unfold GetCfgLogger in A. assert (lc2 = lc) by congruence. subst. split; [now apply level_setting_iff|assumption].
    + exfalso. apply Hno. exists lc. auto.
Qed.
Print Assumptions C16_new_logger_configured_partial.
(** Asked for a name without an entry (and without a logger), it gives a logger that behaves as its
    parent at every level. *)
Theorem C16_new_logger_inherits : forall P W n W' id p,
  reach P W -> n <> [] -> n <> $"root" -> (forall j, ~ has_name W n j) -> ~ In n (map cl_name (c_loggers (w_config W))) ->
  exec P W (OGetLogger n) = Ok (W', RLogger id) -> parent_name n p ->
  (forall v, name_level W' n v <-> name_level W' p v) /\
  (forall v outs, route W' v n outs <-> route W' v p outs) /\
  exists l, nth_error (w_loggers W') id = Some l /\ l_name l = n /\ l_level l = 0 /\ l_outputs l = [].
Proof.
  intros P W n W' id p R Hne Hnr Hf Hc H Hp. pose proof (reach_inv _ _ R) as I.
  destruct (exec_inv _ _ _ _ _ H I) as [I' _]. apply getLogger_exec in H. apply unconfigured_get in Hc.
  destruct (getLogger_new _ _ _ _ _ H I Hne Hnr Hf) as (_ & _ & l & Hl & Hn & Hcase & _).
  destruct Hcase as [(lc2 & A & _)|(_ & Hlv & Hou)]; [unfold GetCfgLogger in A; congruence|].
  assert (HL : forall v, name_level W' n v <-> name_level W' p v).
  { intros v. split.
    - intros Hv. inversion Hv as [n2 i2 l2 A1 A2 A3|n2 i2 l2 p2 v2 A1 A2 A3 A4 A5 A6|i2 l2 A1 A2 A3]; subst.
      + exfalso. apply A3. destruct (same_name W' (l_name l) _ _ _ _ I' A1 Hl) as [_ ->]; auto.
      + now rewrite (parent_fun _ _ _ Hp A5).
      + congruence.
    - intros Hv. eapply nlv_up; eassumption. }
  split; [exact HL|]. split; [|eauto].
  intros v outs. split.
  - intros Hr. inversion Hr as [n2 e A1 A2|n2 e i2 l2 A1 A2 A3 A4 A5|n2 e i2 l2 p2 o2 A1 A2 A3 A4 A5 A6 A7 A8|e i2 l2 A1 A2 A3 A4 A5]; subst.
    + eapply rt_blocked; [apply HL; eassumption|assumption].
    + exfalso. apply A5. destruct (same_name W' (l_name l) _ _ _ _ I' A3 Hl) as [_ ->]; auto.
    + now rewrite (parent_fun _ _ _ Hp A7).
    + congruence.
  - intros Hr. assert (Hup : forall e, name_level W' p e -> e <= v -> route W' v n outs).
    { intros e A1 A2. eapply rt_up; try eassumption. now apply HL. }
    inversion Hr; subst; eauto. eapply rt_blocked; [apply HL; eassumption|assumption].
Qed.
Print Assumptions C16_new_logger_inherits.
(** If root has no usable entry, the first logger asked for brings a root logger at level Debug that
    prints unformatted lines on the console. *)
Theorem C16_root_fallback : forall P W n W' id,
  reach P W -> n = [] \/ n = $"root" -> (forall j, ~ has_name W ($"root") j) ->
  ~ In ($"root") (map cl_name (c_loggers (w_config W))) -> exec P W (OGetLogger n) = Ok (W', RLogger id) ->
  exists l o x, nth_error (w_loggers W') id = Some l /\ l_name l = $"root" /\ l_level l = Debug /\ l_outputs l = [o] /\
    nth_error (w_heap W') o = Some x /\ os_sink (o_spec x) = SinkStdout /\ o_fmt x = None.
Proof.
  intros P W n W' id R Hn Hf Hc H. pose proof (reach_inv _ _ R) as I. apply getLogger_exec in H. apply unconfigured_get in Hc.
  rewrite (getLogger_root P W n Hn) in H. apply root_exists in Hf; [|assumption].
  destruct (getRoot_new _ _ _ _ H I Hf) as (_ & l & Hl & Hn' & _ & _ & [(lc2 & A & _)|(_ & B & o & x & C & D & E & F)]).
  - unfold GetCfgLogger in A. change rootName with ($"root") in A. congruence.
  - exists l, o, x. auto 10.
Qed.
Print Assumptions C16_root_fallback.
(** The code falls short when a logger came into being as an ancestor: GetLogger "a/b" makes "a"
    without looking at its entry ... *)
Theorem C16_ancestors_not_configured : forall P W n W' id j x,
  reach P W -> n <> [] -> n <> $"root" -> (forall k, ~ has_name W n k) ->
  exec P W (OGetLogger n) = Ok (W', RLogger id) ->
  nth_error (w_loggers W') j = Some x -> j <> id -> l_name x <> $"root" -> ~ has_name W (l_name x) j ->
  sep_prefix n (l_name x) /\ l_level x = 0 /\ l_outputs x = [].
Proof.
  intros P W n W' id j x R Hne Hnr Hf H Hj Hji Hxr Hx. pose proof (reach_inv _ _ R) as I. apply getLogger_exec in H.
  destruct (getLogger_new _ _ _ _ _ H I Hne Hnr Hf) as (_ & _ & l & _ & _ & _ & Hold).
  destruct (Hold j x Hj Hji Hxr) as [Ho|Ho]; [|exact Ho]. exfalso. apply Hx. exists x. auto.
Qed.
Print Assumptions C16_ancestors_not_configured.
Definition a0 : world := aft ex_P (init_world ex_P) (OSetConfig ex_cfg1 []).
Definition a1 : world := aft ex_P a0 (OGetLogger ($"a/b")).
Definition a2 : world := aft ex_P a1 (OGetLogger ($"a")).
Definition a2_loggers : list logger := Eval vm_compute in w_loggers a2.
Lemma a2_loggers_eq : w_loggers a2 = a2_loggers.
Proof. vm_compute. reflexivity. Qed.
(** ... and so "a" is later handed out with neither level nor outputs, though the active
    configuration has an entry for it. *)
Theorem C16_ancestor_refuted : exists P W W' id l lc,
  reach P W /\ configured ($"a") (c_loggers (w_config W)) lc /\ cl_level lc = $"Info" /\ cl_outputs lc = [$"m1"; $"c2"] /\
  exec P W (OGetLogger ($"a")) = Ok (W', RLogger id) /\ nth_error (w_loggers W') id = Some l /\
  l_level l = 0 /\ l_outputs l = [] /\ forall outs v, route W' v ($"a") outs -> outs <> [] -> outs = [0%nat].
Proof.
  assert (R0 : reach ex_P a0) by (apply (aft_reach _ _ _ (RErr true)); [constructor|apply Permutation_refl|vm_compute; reflexivity]).
  assert (R1 : reach ex_P a1) by (apply (aft_reach _ _ _ (RLogger 2)); [assumption|exact Logic.I|vm_compute; reflexivity]).
  assert (R2 : reach ex_P a2) by (apply (aft_reach _ _ _ (RLogger 1)); [assumption|exact Logic.I|vm_compute; reflexivity]).
  assert (HL : exists r b, w_loggers a2 = [r; newLogger ($"a") (Some 0%nat); b] /\ l_outputs r = [0%nat] /\ l_name r = $"root").
  { rewrite a2_loggers_eq. eexists _, _. split; [reflexivity|split; reflexivity]. }
  destruct HL as (r & b & HL & Hr & Hn'). pose proof (reach_inv _ _ R2) as I2.
  assert (Hr' : nth_error (w_loggers a2) 0 = Some r) by now rewrite HL.
  exists ex_P, a1, a2, 1%nat, (newLogger ($"a") (Some 0%nat)), (mkCL ($"a") ($"Info") [$"m1"; $"c2"]).
  split; [assumption|]. split.
  { replace (w_config a1) with ex_cfg1 by (vm_compute; reflexivity). apply cf_later; [discriminate|]. now apply cf_here. }
  split; [reflexivity|]. split; [reflexivity|]. split; [apply aft_exec; vm_compute; reflexivity|]. split; [now rewrite HL|].
  split; [reflexivity|]. split; [reflexivity|]. intros outs v Hrt Hne.
  assert (Hpa : forall p, parent_name ($"a") p -> p = $"root").
  { intros p Hp. apply (parent_fun ($"a")); [assumption|]. apply pn_root. intros q [Hq (c & rest & Hc & E)].
    destruct q as [|q0 [|q1 q]]; [congruence|injection E as <- E; discriminate|injection E as <- E; discriminate]. }
  assert (Hroot : forall outs v, route a2 v ($"root") outs -> outs <> [] -> outs = [0%nat]).
  { intros os u Hu Hn. inversion Hu as [n2 e A1 A2|n2 e i2 l2 A1 A2 A3 A4 A5|n2 e i2 l2 p2 o2 A1 A2 A3 A4 A5 A6 A7 A8|e i2 l2 A1 A2 A3 A4 A5]; subst; try congruence.
    destruct (same_name a2 ($"root") _ _ _ _ I2 A3 Hr') as [_ ->]; auto. }
  inversion Hrt as [n2 e A1 A2|n2 e i2 l2 A1 A2 A3 A4 A5|n2 e i2 l2 p2 o2 A1 A2 A3 A4 A5 A6 A7 A8|e i2 l2 A1 A2 A3 A4 A5]; subst; try congruence.
  - exfalso. apply A5. assert (Ha : nth_error (w_loggers a2) 1 = Some (newLogger ($"a") (Some 0%nat))) by now rewrite HL.
    destruct (same_name a2 ($"a") _ _ _ _ I2 A3 Ha) as [_ ->]; auto.
  - rewrite (Hpa _ A7) in A8. eapply Hroot; eassumption.
Qed.
Print Assumptions C16_ancestor_refuted.
(** Configured before first use, "a" and root are set up; "z" has no entry. *)
Example C16_example :
  map (fun l => (l_name l, l_level l, l_outputs l))
    (w_loggers (aft ex_P (aft ex_P (aft ex_P (init_world ex_P) (OSetConfig ex_cfg1 [])) (OGetLogger ($"a"))) (OGetLogger ($"z")))) =
  [($"root", Warn, [0%nat]); ($"a", Info, [1%nat; 0%nat]); ($"z", 0, [])].
Proof. vm_compute. reflexivity. Qed.

(** ** C17 *)
(** An output and its format that did not exist before are made from the entries of the new
    configuration. *)
Theorem C17_new_output_and_format_partial : forall P W c ord W' n o,
  reach P W -> op_ok W (OSetConfig c ord) -> exec P W (OSetConfig c ord) = Ok (W', RErr true) ->
  ~ has n (w_outputs W) -> mlookup n (w_outputs W') = Some o ->
  exists m fm x, described c n m fm /\ nth_error (w_heap W') o = Some x /\ o_writes x = [] /\ o_sys x = [] /\
    (exists oc t, mlookup (cfg_Type (Some m)) (w_ocreators W) = Some oc /\ oc t (Some m) = Created (o_spec x)) /\
    (~ has (cfg_FormatName (Some m)) (w_formats W) -> as_described W m fm x) /\
    (forall f, mlookup (cfg_FormatName (Some m)) (w_formats W) = Some f -> o_fmt x = Some f).
Proof.
  intros P W c ord W' n o R Ho H Hn Hx. apply setConfig_exec in H. destruct (setConfig_notified _ _ _ _ _ R Ho H) as [N _].
  pose proof (nf_kin _ _ _ _ _ N) as K.
  destruct (kn_outputs_new _ _ K _ _ Hx) as [H1|(m & fm & oc & t & sp & f & A1 & A2 & A3 & A4 & A5 & A6)].
  { exfalso. apply Hn. now exists o. }
  rewrite (kn_config _ _ K) in A1, A4. rewrite (kn_oc _ _ K) in A2. cbn in A1, A2, A4.
  eexists m, fm, _. split; [now apply described_get|]. split; [exact A6|]. split; [reflexivity|]. split; [reflexivity|]. split.
  { exists oc, t. auto. }
  split.
  - intros Hf. split; [exists oc, t, sp; auto|].
    destruct (kn_formats_new _ _ K _ _ A5) as [H1|(m1 & c1 & t1 & B1 & B2 & B3)]; [exfalso; apply Hf; now exists f|].
    rewrite (kn_config _ _ K) in B1. rewrite (kn_fc _ _ K) in B2. cbn in B1, B2. assert (m1 = fm) by congruence. subst m1.
    exists c1, t1, f. auto.
  - intros f' Hf'. apply (kn_formats _ _ K) in Hf'. cbn. congruence.
Qed.
Print Assumptions C17_new_output_and_format_partial.
(** An output that existed before under that name is kept as it is, whatever the new configuration
    says: same object, same threshold, sink and layout. *)
Theorem C17_existing_output_kept : forall P W c ord W' n o x,
  reach P W -> op_ok W (OSetConfig c ord) -> exec P W (OSetConfig c ord) = Ok (W', RErr true) ->
  mlookup n (w_outputs W) = Some o -> nth_error (w_heap W) o = Some x ->
  mlookup n (w_outputs W') = Some o /\ nth_error (w_heap W') o = Some x.
Proof.
  intros P W c ord W' n o x R Ho H Hn Hx. split; [|now apply (C15_rest_untouched _ _ _ _ _ R Ho H)].
  apply setConfig_exec in H. destruct (setConfig_notified _ _ _ _ _ R Ho H) as [N _]. exact (nf_old _ _ _ _ _ N _ _ Hn).
Qed.
Print Assumptions C17_existing_output_kept.
(** So reconfiguring has no effect: "c2" was configured from error up with layout "<%{msg}>"; after
    accepting a configuration that says from info up with layout "[%{msg}]" it is as before. *)
Theorem C17_reconfigured_refuted : exists P W c ord W' id l o x,
  reach P W /\ op_ok W (OSetConfig c ord) /\ exec P W (OSetConfig c ord) = Ok (W', RErr true) /\
  described c ($"c2") (cfg_c2 ($"info")) (cfg_f2 ($"[%{msg}]")) /\
  nth_error (w_loggers W') id = Some l /\ In o (l_outputs l) /\ mlookup ($"c2") (w_outputs W') = Some o /\
  nth_error (w_heap W') o = Some x /\
  os_threshold (o_spec x) = Error /\ (exists ps, o_fmt x = Some (FText ps) /\ Parser ($"<%{msg}>") = Some ps /\ Parser ($"[%{msg}]") <> Some ps).
Proof.
  assert (HL : exists l, nth_error (w_loggers m2) 1 = Some l /\ In 1%nat (l_outputs l)).
  { eexists. split; [vm_compute; reflexivity|]. right. now left. }
  destruct HL as (l & HL & Hin).
  exists ex_P, m1, ex_cfg2, [0; 1; 2]%nat, m2, 1%nat, l, 1%nat. eexists.
  split; [apply m1_reach|]. split; [apply m1_ord|]. split; [apply m2_exec|].
  split; [apply described_get; split; reflexivity|]. split; [exact HL|]. split; [exact Hin|].
  split; [vm_compute; reflexivity|]. split; [vm_compute; reflexivity|]. split; [reflexivity|].
  eexists. split; [reflexivity|]. split; [vm_compute; reflexivity|]. vm_compute. discriminate.
Qed.
Print Assumptions C17_reconfigured_refuted.

(** ** C18 *)
(** Parameters for the examples: any bytes are read; as JSON they mean [ex_cfg1], as YAML they fail
    to parse after the loggers part has been read. *)
Definition ex_P18 : params :=
  mkParams ex_env (fun r => r) (fun r => r) (fun _ => true)
    (fun _ => (mkCfg [] [] [mkCL ($"a") ($"off") []], true)) (fun _ => (ex_cfg1, false))
    (fun _ => Some ($"bytes")) (ex_frame 1) (ex_frame 2) (ex_frame 3) (ex_frame 4) [ex_frame 5].
Definition w18 : world := ran ex_P18 [OGetLogger ($"a")].
Lemma w18_reach : reach ex_P18 w18.
Proof. apply ran_reach. vm_compute. reflexivity. Qed.
Lemma w18_names : map snd (w_names w18) = [0; 1]%nat.
Proof. vm_compute. reflexivity. Qed.
(** With a supported extension (in any letter case) and bytes that parse, LoadConfig is SetConfig
    of what they mean. Extensions are any text: those above ASCII rest on what the Unicode case tables say about ASCII letters. *)
Theorem C18_supported_partial : forall P W bs ext ord c, ascii_only ext \/ lower_table (p_low P) ->
  (yaml_ext ext /\ p_yaml P bs = (c, false) \/ json_ext ext /\ p_json P bs = (c, false)) ->
  exec P W (OLoadConfig bs ext ord) = exec P W (OSetConfig c ord).
Proof.
  intros P W bs ext ord c Ha H. cbn [exec]. unfold LoadConfig. destruct (decoded_spec P bs ext Ha) as (A & B & _).
  destruct H as [[H E]|[H E]]; [rewrite (A H), E|rewrite (B H), E]; reflexivity.
Qed.
Print Assumptions C18_supported_partial.
(** In every case an error leaves everything as it was, and what gives an error is an ill-formed
    result of decoding. *)
Theorem C18_error_partial : forall P W bs ext ord W' ok, ascii_only ext \/ lower_table (p_low P) ->
  exec P W (OLoadConfig bs ext ord) = Ok (W', RErr ok) ->
  (ok = false -> W' = W) /\
  (yaml_ext ext -> (ok = true <-> well_formed (fst (p_yaml P bs)))) /\
  (json_ext ext -> (ok = true <-> well_formed (fst (p_json P bs)))).
Proof.
  intros P W bs ext ord W' ok Ha H. destruct (decoded_spec P bs ext Ha) as (A & B & _).
  assert (H' : exec P W (OSetConfig (decoded P bs ext) ord) = Ok (W', RErr ok)) by exact H.
  split; [intros ->; now apply C14_error_changes_nothing in H'|].
  split; intros He; [rewrite <- (A He)|rewrite <- (B He)]; eapply C13_accepts_well_formed_partial; exact H'.
Qed.
Print Assumptions C18_error_partial.
(** But an unsupported extension is no error: the configuration becomes empty ... *)
Lemma nth_ext_error {A} : forall a b : list A, (forall i, nth_error a i = nth_error b i) -> a = b.
Proof.
  induction a as [|x a IH]; intros [|y b] H; [reflexivity|discriminate (H 0%nat)|discriminate (H 0%nat)|].
  pose proof (H 0%nat) as E. injection E as ->. f_equal. apply IH. intros i. exact (H (S i)).
Qed.
Theorem C18_unsupported_accepted : forall P W bs ext ord, ascii_only ext \/ lower_table (p_low P) -> ~ yaml_ext ext -> ~ json_ext ext ->
  reach P W -> op_ok W (OLoadConfig bs ext ord) -> no_panics W ->
  exists W', exec P W (OLoadConfig bs ext ord) = Ok (W', RErr true) /\ w_config W' = mkCfg [] [] [] /\
    w_loggers W' = w_loggers W.
Proof.
  intros P W bs ext ord Ha Hy Hj R Ho N.
  assert (E : exec P W (OLoadConfig bs ext ord) = exec P W (OSetConfig empty_config ord)).
  { cbn [exec]. unfold LoadConfig. now rewrite (proj2 (proj2 (decoded_spec P bs ext Ha)) Hy Hj). }
  destruct (C15_returns P W empty_config ord R N Ho) as (W' & ok & H). rewrite E. exists W'.
  assert (Hok : ok = true).
  { apply (C13_accepts_well_formed_partial _ _ _ _ _ _ H). constructor; cbn; [constructor|constructor|contradiction|contradiction]. }
  subst ok. split; [assumption|]. pose proof (C15_rest_untouched _ _ _ _ _ R Ho H) as (A & B & _ & _ & _ & _ & _ & C & _).
  split; [assumption|]. apply nth_ext_error. intros i. destruct (nth_error (w_loggers W) i) as [l|] eqn:El.
  - apply A; [assumption|]. intros [].
  - apply nth_error_None in El. apply nth_error_None. lia.
Qed.
Print Assumptions C18_unsupported_accepted.
Theorem C18_unsupported_refuted : exists P W bs ext ord W',
  reach P W /\ op_ok W (OLoadConfig bs ext ord) /\ ascii_only ext /\ ~ yaml_ext ext /\ ~ json_ext ext /\
  exec P W (OLoadConfig bs ext ord) = Ok (W', RErr true) /\ w_config W' <> w_config W.
Proof.
  exists ex_P18, w18, ($"loggers: []"), ($"toml"), [0; 1]%nat. eexists.
  split; [apply w18_reach|]. split; [cbn [op_ok]; rewrite w18_names; apply Permutation_refl|].
  split; [repeat constructor|].
  assert (Ha : ascii_only ($"toml")) by repeat constructor.
  split; [unfold yaml_ext; rewrite <- !(to_lower_fold (fun r => r) ($"toml")) by first [left; assumption|repeat constructor; discriminate]; vm_compute; intros [?|?]; discriminate|].
  split; [unfold json_ext; rewrite <- (to_lower_fold (fun r => r) ($"toml")) by first [left; assumption|repeat constructor; discriminate]; vm_compute; discriminate|].
  split; [apply aft_exec; vm_compute; reflexivity|]. vm_compute. discriminate.
Qed.
Print Assumptions C18_unsupported_refuted.
(** ... and bytes that do not parse are no error either, whatever was decoded so far is applied. *)
Theorem C18_parse_error_refuted : exists P W bs ext ord W' l,
  reach P W /\ op_ok W (OLoadConfig bs ext ord) /\ yaml_ext ext /\ snd (p_yaml P bs) = true /\
  exec P W (OLoadConfig bs ext ord) = Ok (W', RErr true) /\ w_config W' <> w_config W /\
  nth_error (w_loggers W) 1 = Some l /\ l_level l = 0 /\ exists l', nth_error (w_loggers W') 1 = Some l' /\ l_level l' = Off.
Proof.
  exists ex_P18, w18, ($"loggers: ["), ($"YAML"), [0; 1]%nat. eexists _, _.
  split; [apply w18_reach|]. split; [cbn [op_ok]; rewrite w18_names; apply Permutation_refl|].
  split; [left; apply (to_lower_fold (fun r => r)); [left; repeat constructor|repeat constructor; discriminate|vm_compute; reflexivity]|].
  split; [reflexivity|]. split; [apply aft_exec; vm_compute; reflexivity|]. split; [vm_compute; discriminate|].
  split; [vm_compute; reflexivity|]. split; [reflexivity|]. eexists. split; [vm_compute; reflexivity|reflexivity].
Qed.
Print Assumptions C18_parse_error_refuted.
Example C18_example : exec ex_P18 w18 (OLoadConfig ($"{}") ($"Json") [0; 1]%nat) = exec ex_P18 w18 (OSetConfig ex_cfg1 [0; 1]%nat) /\
  ret_of ex_P18 w18 (OLoadConfig ($"{}") ($"Json") [0; 1]%nat) = Some (RErr true).
Proof.
  split; [|vm_compute; reflexivity]. apply C18_supported_partial; [left; repeat constructor|]. right.
  split; [|reflexivity]. apply (to_lower_fold (fun r => r)); [left; repeat constructor|repeat constructor; discriminate|vm_compute; reflexivity].
Qed.

(** Example of a lower-case table: the dotted I and the Kelvin sign have ASCII letters as their lower case. *)
Example C18_table : lower_table (fun r => if (r =? 304)%N then 105%N else if (r =? 8490)%N then 107%N else r).
Proof. intros r Hr. destruct (N.eqb_spec r 304); [auto|]. destruct (N.eqb_spec r 8490); [auto|]. lia. Qed.

(** ** C19 *)
(** LoadConfigFile panics on a readable file whose last path element has no dot ... *)
Theorem C19_no_extension_refuted : exists P W file ord,
  reach P W /\ op_ok W (OLoadConfigFile file ord) /\ no_panics W /\ exec P W (OLoadConfigFile file ord) = Panic.
Proof.
  exists ex_P18, (init_world ex_P18), ($"etc.d/log4g"), []. split; [constructor|]. split; [apply Permutation_refl|].
  split; [apply init_no_panics|vm_compute; reflexivity].
Qed.
Print Assumptions C19_no_extension_refuted.
(** ... and, if no creator panics, only then. *)
Theorem C19_panics_iff : forall P W file ord, reach P W -> op_ok W (OLoadConfigFile file ord) -> no_panics W ->
  (exec P W (OLoadConfigFile file ord) = Panic <-> p_read P file <> None /\ no_extension file).
Proof.
  intros P W file ord R Ho N. cbn [exec]. unfold LoadConfigFile. rewrite <- path_Ext_none.
  destruct (p_read P file) as [bs|]; [|split; [discriminate|intros [H _]; congruence]].
  destruct (path_Ext file) as [|c ext]; [split; [split; congruence|reflexivity]|].
  destruct (setConfig_total P W (decoded P bs ext) ord R Ho N) as (W' & ok & E). unfold LoadConfig. rewrite E.
  split; [discriminate|intros [_ H]; discriminate].
Qed.
Print Assumptions C19_panics_iff.
(** Otherwise: a file that cannot be read is an error that changes nothing; one with an extension
    is loaded according to that extension. *)
Theorem C19_partial : forall P W file ord,
  (p_read P file = None -> exec P W (OLoadConfigFile file ord) = Ok (W, RErr false)) /\
  (forall bs ext, p_read P file = Some bs -> extension file ext ->
     exec P W (OLoadConfigFile file ord) = exec P W (OLoadConfig bs ext ord)) /\
  (no_extension file \/ exists ext, extension file ext).
Proof.
  intros P W file ord. cbn [exec]. unfold LoadConfigFile. split; [intros ->; reflexivity|]. split.
  - intros bs ext -> He. apply path_Ext_some in He. now rewrite He.
  - destruct (path_Ext_form file) as [H|[e H]]; [left; now apply path_Ext_none|right; exists e; now apply path_Ext_some].
Qed.
Print Assumptions C19_partial.
Example C19_example : extension ($"/etc/conf.d/log4g.yaml") ($"yaml") /\ extension ($".json") ($"json") /\
  extension ($"x.") [] /\ no_extension ($"/etc/conf.d/log4g") /\ no_extension [] /\
  ret_of ex_P18 w18 (OLoadConfigFile ($"/etc/conf.d/log4g.json") [0; 1]%nat) = Some (RErr true).
Proof.
  do 3 (split; [apply path_Ext_some; reflexivity|]). do 2 (split; [apply path_Ext_none; reflexivity|]). vm_compute. reflexivity.
Qed.

(** ** C20 *)
(** Once made, the instance for an output name stays: the same object, and with the same settings. *)
Theorem C20_instance_stays : forall P W W' n o,
  reach P W -> steps P W W' -> mlookup n (w_outputs W) = Some o ->
  mlookup n (w_outputs W') = Some o /\
  exists x x', nth_error (w_heap W) o = Some x /\ nth_error (w_heap W') o = Some x' /\ o_spec x' = o_spec x.
Proof.
  intros P W W' n o R S H. pose proof (reach_inv _ _ R) as I. destruct (steps_inv _ _ _ S I) as [_ L].
  split; [now apply (lt_outputs _ _ L)|]. pose proof (iv_valid _ I _ _ H) as Ho.
  destruct (nth_error (w_heap W) o) as [x|] eqn:Ex; [|apply nth_error_None in Ex; lia].
  destruct (lt_spec _ _ L _ _ Ex) as (x' & Hx' & E). exists x, x'. auto.
Qed.
Print Assumptions C20_instance_stays.
(** Different names, different instances; one name, one instance. *)
Theorem C20_one_per_name : forall P W n m o o',
  reach P W -> mlookup n (w_outputs W) = Some o -> mlookup m (w_outputs W) = Some o' -> (n = m <-> o = o').
Proof.
  intros P W n m o o' R Hn Hm. pose proof (reach_inv _ _ R) as I. split.
  - intros ->. congruence.
  - intros ->. exact (iv_inj _ I _ _ _ Hn Hm).
Qed.
Print Assumptions C20_one_per_name.
(** Loggers that name the same output share its instance, even if they were configured at different
    times and by different configurations. *)
Theorem C20_shared : forall P W1 n1 W1' g1 W2 n2 W2' g2 lc1 lc2 i j x,
  reach P W1 -> exec P W1 (OGetLoggerOutputs n1) = Ok (W1', ROuts g1) -> g_err g1 = false ->
  steps P W1' W2 -> exec P W2 (OGetLoggerOutputs n2) = Ok (W2', ROuts g2) -> g_err g2 = false ->
  configured n1 (c_loggers (w_config W1)) lc1 -> nth_error (cl_outputs lc1) i = Some x ->
  configured n2 (c_loggers (w_config W2)) lc2 -> nth_error (cl_outputs lc2) j = Some x ->
  exists o, nth_error (g_ops g1) i = Some o /\ nth_error (g_ops g2) j = Some o.
Proof.
  intros P W1 n1 W1' g1 W2 n2 W2' g2 lc1 lc2 i j x R H1 E1 S H2 E2 C1 X1 C2 X2.
  pose proof (reach_inv _ _ R) as I1. destruct (exec_inv _ _ _ _ _ H1 I1) as [I1' _].
  destruct (steps_inv _ _ _ S I1') as [I2 L]. destruct (exec_inv _ _ _ _ _ H2 I2) as [_ L2].
  cbn [exec] in H1, H2.
  destruct (GetLoggerOutputs P W1 n1) as [[Y1 h1]|] eqn:G1; [|discriminate]. injection H1 as <- <-.
  destruct (GetLoggerOutputs P W2 n2) as [[Y2 h2]|] eqn:G2; [|discriminate]. injection H2 as <- <-.
  destruct (GLO_ok _ _ _ _ _ (iv_valid _ I1) G1 E1) as (a & A1 & _ & A2).
  destruct (GLO_ok _ _ _ _ _ (iv_valid _ I2) G2 E2) as (b & B1 & _ & B2).
  apply configured_get in C1, C2. unfold GetCfgLogger in A1, B1.
  assert (a = lc1) by congruence. assert (b = lc2) by congruence. subst a b.
  assert (HF : forall (p : str -> nat -> Prop) l m k v, Forall2 p l m -> nth_error l k = Some v -> exists w, nth_error m k = Some w /\ p v w).
  { clear. intros p l m k v HF. revert k. induction HF as [|y z l m Hyz _ IH]; intros [|k] E; try discriminate; cbn in *; [injection E as ->; eauto|eauto]. }
  destruct (HF _ _ _ _ _ A2 X1) as (o & O1 & O2). destruct (HF _ _ _ _ _ B2 X2) as (o' & O1' & O2').
  exists o. split; [assumption|]. rewrite O1'. f_equal.
  apply (lt_outputs _ _ L) in O2. apply (lt_outputs _ _ L2) in O2. congruence.
Qed.
Print Assumptions C20_shared.
(** "a" and root share "c2" (object 1), also after the second configuration. *)
Example C20_example : map (fun l => (l_name l, l_outputs l)) (w_loggers m2) =
    [($"root", [1%nat]); ($"a", [2%nat; 1%nat]); ($"a/b", [])] /\
  w_outputs m2 = w_outputs m1 /\
  ret_of ex_P m2 (OGetLoggerOutputs ($"a")) = Some (ROuts (mkGlo [2%nat; 1%nat] Info false)) /\
  ret_of ex_P m2 (OGetLoggerOutputs ($"root")) = Some (ROuts (mkGlo [1%nat] Warn false)).
Proof. split; [|split; [|split]]; vm_compute; reflexivity. Qed.

(** Properties C07-C11 and C25: what a log call delivers. *)
From Verif Require Import GoStr Utf8 LevelModel EventModel LayoutModel LayoutSpec LayoutProofs FormatSpec FormatProofs ConfModel
  OutputModel OutputSpec OutputProofs WorldModel WorldSpec WorldBase WorldInv WorldProofs P_Hier LogProofs.
Local Open Scope Z_scope.

(** ** A history for the examples: loggers 0 root, 1 "a", 2 "a/b", 3 "a/b.c"; output 1 is a memory
    output with a layout that needs the call site and the field "k"; it is attached to "a" (twice)
    and to "a/b.c" only later. *)
Definition ex_mem : out_spec := {| os_sink := SinkMemory; os_async := None; os_threshold := All |}.
Definition ex_layout : str := $"%{line} %{shortfile} %{msg} %{k}".
Definition ex_fmt : option formatter := match Parser ex_layout with Some ps => Some (FText ps) | None => None end.
Definition ex2_ops : list op :=
  [OGetLogger ($"a/b.c"); OSetLevel 1 Warn; OGetLogger ($"a/b"); ONewOutput ex_mem ex_fmt; OSetOutputs 1 [1%nat; 1%nat]].
Definition ex2 : world := ran ex_P ex2_ops.
Lemma ex2_reach : reach ex_P ex2.
Proof. apply ran_reach. vm_compute. reflexivity. Qed.
Lemma run_calm P ops : forall W W', calm_reach P W -> forallb free ops = true ->
  forallb (fun o => match o with ORegisterFormatter _ _ | OSetFormatter _ _ | ONewOutput _ (Some (FUser _ _)) => false | _ => true end) ops = true ->
  run P W ops = Ok W' -> calm_reach P W'.
Proof.
  induction ops as [|o ops IH]; intros W W' R F G H; cbn [run forallb] in *; [injection H as <-; assumption|].
  apply andb_true_iff in F as [Fo F]. apply andb_true_iff in G as [Go G]. destruct (exec P W o) as [[W1 r]|] eqn:E; [|discriminate].
  apply (IH W1); auto. apply (cr_step P W o W1 r); [assumption| | |assumption].
  - destruct o; cbn in *; auto; try discriminate. destruct v; auto. apply andb_true_iff in Fo. lia.
  - destruct o; cbn in *; auto; try discriminate. destruct f as [[ps|g k]|]; cbn; auto. discriminate.
Qed.
Lemma ex2_calm : calm_reach ex_P ex2.
Proof.
  unfold ex2, ran. destruct (run ex_P (init_world ex_P) ex2_ops) as [W|] eqn:E.
  - apply (run_calm ex_P ex2_ops (init_world ex_P)); [apply cr_init|reflexivity|vm_compute; reflexivity|exact E].
  - exfalso. assert (H : runs ex_P ex2_ops = true) by (vm_compute; reflexivity).
    unfold runs in H. rewrite E in H. rewrite andb_comm in H. discriminate.
Qed.
Definition ex2_loggers : list logger := Eval vm_compute in w_loggers ex2.
Lemma ex2_loggers_eq : w_loggers ex2 = ex2_loggers.
Proof. vm_compute. reflexivity. Qed.
Lemma ex2_c : has_name ex2 ($"a/b.c") 3.
Proof. unfold has_name. rewrite ex2_loggers_eq. eexists. split; reflexivity. Qed.
Lemma ex2_a : has_name ex2 ($"a") 1.
Proof. unfold has_name. rewrite ex2_loggers_eq. eexists. split; reflexivity. Qed.
Definition after (W : world) (o : op) : world := match exec ex_P W o with Ok (W', _) => W' | Panic => W end.
Definition ex_log (id : nat) (v : via) : op :=
  OLog id (fields_ctx [($"k", VStr ($"v"))]) v Error ($"hello") [] 0 ex_user.
Lemma ex_log_ok id v : match exec ex_P ex2 (ex_log id v) with Ok _ => true | Panic => false end = true ->
  exec ex_P ex2 (ex_log id v) = Ok (after ex2 (ex_log id v), RUnit).
Proof.
  unfold after. destruct (exec ex_P ex2 (ex_log id v)) as [[W r]|] eqn:E; [|discriminate]. intros _.
  cbn [exec ex_log] in E. destruct (Printf _ _ _ _ _ _ _ _ _ _); [|discriminate]. injection E as <- <-. reflexivity.
Qed.

(** ** C07 *)
Lemma logger_named W n id : has_name W n id -> exists l, nth_error (w_loggers W) id = Some l /\ l_name l = n.
Proof. auto. Qed.
Lemma log_inv P W id c v lvl fmt args now ustk W' r : exec P W (OLog id c v lvl fmt args now ustk) = Ok (W', r) ->
  Printf P W id c v lvl fmt args now ustk = Ok W' /\ r = RUnit.
Proof. cbn [exec]. destruct (Printf _ _ _ _ _ _ _ _ _ _); [|discriminate]. now intros [= <- <-]. Qed.
Lemma map_fst_combine {A B} (a : list A) : forall b : list B, length b = length a -> map fst (combine a b) = a.
Proof. induction a as [|x a IH]; intros [|y b] H; cbn in *; try discriminate; [reflexivity|]. rewrite IH; congruence. Qed.
Lemma in_combine_sent (i : nat) s (stk : stack) (e : event) ops evs :
  In (i, (s, e)) (combine ops (map (pair stk) evs)) -> s = stk /\ In i ops /\ In e evs.
Proof.
  intros H. pose proof (in_combine_l _ _ _ _ H) as H1. apply in_combine_r, in_map_iff in H as (e0 & [= <- <-] & H). auto.
Qed.
Lemma app_new {A} (a b c : list A) : a ++ b = a ++ c -> b = c.
Proof. apply app_inv_head. Qed.
Lemma warn_sent W (lo : logger) n : w_sent (match l_outputs lo with [] => set_warn W (w_warn W ++ [n]) | _ => W end) = w_sent W.
Proof. destruct (l_outputs lo); reflexivity. Qed.
Lemma warn_heap W (lo : logger) n : w_heap (match l_outputs lo with [] => set_warn W (w_warn W ++ [n]) | _ => W end) = w_heap W.
Proof. destruct (l_outputs lo); reflexivity. Qed.

(** There is exactly one list of outputs a call should go to ... *)
Theorem C07_route_exists : forall P W n id v, reach P W -> has_name W n id -> exists outs, route W v n outs.
Proof.
  intros P W n id v R (l & Hl & <-). pose proof (reach_inv _ _ R) as I.
  destruct (climbs_or_blocked W v I (S id) id l (Nat.lt_succ_diag_r id) Hl) as [Hb|(d & o & Hc)].
  - exists []. eapply blocked_route; eassumption.
  - destruct (climbs_end _ _ _ _ _ Hc) as (lo & Hlo & _). exists (l_outputs lo). eapply climbs_route; eassumption.
Qed.
Print Assumptions C07_route_exists.
Theorem C07_route_unique : forall P W n v a b, reach P W -> route W v n a -> route W v n b -> a = b.
Proof. intros P W n v a b R. apply route_fun. now apply (reach_inv P). Qed.
Print Assumptions C07_route_unique.
(** ... and the call makes one Send on each entry, in order, and no other. *)
Theorem C07_delivered_to_route : forall P W n id c v lvl fmt args now ustk W' r,
  reach P W -> has_name W n id -> exec P W (OLog id c v lvl fmt args now ustk) = Ok (W', r) ->
  exists new, w_sent W' = w_sent W ++ new /\ route W lvl n (map fst new).
Proof.
  intros P W n id c v lvl fmt args now ustk W' r R (l & Hl & <-) H. pose proof (reach_inv _ _ R) as I.
  apply log_inv in H as [H _].
  destruct (Printf_spec _ _ _ _ _ _ _ _ _ _ _ _ I Hl H) as [[Hb ->]|(d & o & lo & e & Hc & Hlo & He & Hd)].
  - exists []. rewrite app_nil_r. split; [reflexivity|]. eapply blocked_route; eassumption.
  - destruct (dispatch_spec _ _ _ _ _ _ Hd) as (evs & Hlen & _ & Hs & _). rewrite warn_sent in Hs.
    eexists. split; [exact Hs|]. rewrite map_fst_combine by now rewrite map_length.
    eapply climbs_route; eassumption.
Qed.
Print Assumptions C07_delivered_to_route.
(** Nothing else changes: not the loggers, names, creators, caches or configuration; no output's
    settings; and nothing at all in outputs the call does not go to. Only when root itself has no
    outputs is a warning (naming the logger) printed. *)
Theorem C07_nothing_else_changes : forall P W n id c v lvl fmt args now ustk W' r,
  reach P W -> has_name W n id -> exec P W (OLog id c v lvl fmt args now ustk) = Ok (W', r) ->
  W' = mkWorld (w_loggers W) (w_root W) (w_names W) (w_fcreators W) (w_ocreators W) (w_formats W) (w_outputs W)
         (w_config W) (w_heap W') (w_ticks W) (w_sent W') (w_warn W') /\
  (w_warn W' = w_warn W \/ w_warn W' = w_warn W ++ [n] /\ route W lvl n []) /\
  length (w_heap W') = length (w_heap W) /\
  (forall i x, nth_error (w_heap W) i = Some x -> exists x', nth_error (w_heap W') i = Some x' /\
     o_spec x' = o_spec x /\ o_fmt x' = o_fmt x /\ o_closed x' = o_closed x /\
     (forall outs, route W lvl n outs -> ~ In i outs -> x' = x)).
Proof.
  intros P W n id c v lvl fmt args now ustk W' r R (l & Hl & <-) H. pose proof (reach_inv _ _ R) as I.
  apply log_inv in H as [H _]. pose proof (Printf_sends _ _ _ _ _ _ _ _ _ _ _ H) as S.
  split; [destruct S; destruct W'; cbn in *; subst; reflexivity|].
  destruct (Printf_spec _ _ _ _ _ _ _ _ _ _ _ _ I Hl H) as [[Hb ->]|(d & o & lo & e & Hc & Hlo & He & Hd)].
  - split; [auto|]. split; [reflexivity|]. intros i x Hx. exists x. auto 6.
  - pose proof (climbs_route _ _ _ _ _ _ _ I Hc Hl Hlo) as Hr.
    destruct (dispatch_spec _ _ _ _ _ _ Hd) as (evs & Hlen & _ & Hs & Hw & Hh).
    split.
    { rewrite Hw. destruct (l_outputs lo) eqn:Eo; [right|left; reflexivity]. split; [reflexivity|assumption]. }
    split; [erewrite <- map_length, (sd_heap _ _ S), map_length; reflexivity|].
    intros i x Hx. rewrite warn_heap in Hh. destruct (Hh i x Hx) as (ls & x' & Hst & Hx' & Hrun).
    exists x'. split; [assumption|].
    destruct (map_nth_transfer _ _ _ _ _ (sd_heap _ _ S) Hx) as (y & Hy & E). assert (y = x') by congruence. subst y.
    injection E as E1 E2 E3. do 3 (split; [assumption|]). intros outs Ho Hni.
    assert (outs = l_outputs lo) by (eapply route_fun; eassumption). subst outs.
    assert (ls = []) as ->.
    { eapply sent_to_fun; [exact Hst|]. apply sent_to_none. now rewrite map_fst_combine by now rewrite map_length. }
    cbn in Hrun. congruence.
Qed.
Print Assumptions C07_nothing_else_changes.
(** What the outputs then contain: a synchronous output writes what C26 says about the events it
    was sent (syslog: C27). *)
Lemma sent_to_in i ds l d : sent_to i ds l -> In d l -> In (i, d) ds.
Proof. induction 1; cbn; [auto|intros [->|Hd]; auto|auto]. Qed.
Lemma log_heap P W n id c v lvl fmt args now ustk W' r i x : reach P W -> has_name W n id -> good_ctx c ->
  exec P W (OLog id c v lvl fmt args now ustk) = Ok (W', r) -> nth_error (w_heap W) i = Some x ->
  exists new l x', w_sent W' = w_sent W ++ new /\ sent_to i new l /\ Forall (fun p => formattable (snd p)) l /\
    nth_error (w_heap W') i = Some x' /\ out_runs (p_env P) x l = Ok x'.
Proof.
  intros R (l & Hl & <-) Hg H Hx. pose proof (reach_inv _ _ R) as I. apply log_inv in H as [H _].
  destruct (Printf_spec _ _ _ _ _ _ _ _ _ _ _ _ I Hl H) as [[Hb ->]|(d & o & lo & e & Hc & Hlo & He & Hd)].
  - exists [], [], x. rewrite app_nil_r. repeat split; auto. constructor.
  - destruct (dispatch_spec _ _ _ _ _ _ Hd) as (evs & Hlen & Hk & Hs & _ & Hh).
    rewrite warn_sent in Hs. rewrite warn_heap in Hh. destruct (Hh i x Hx) as (ls & x' & Hst & Hx' & Hrun).
    exists (combine (l_outputs lo) (map (pair (p_fsend P ++ repeat (p_fwrite P) (S d) ++ caller P v ustk)) evs)), ls, x'.
    repeat split; auto. apply Forall_forall. intros [s e0] Hin. cbn.
    pose proof (sent_to_in _ _ _ _ Hst Hin) as Hin'.
    apply in_combine_sent in Hin' as (_ & _ & Hin'). rewrite Forall_forall in Hk. specialize (Hk _ Hin').
    eapply kept_formattable; [exact Hk|]. eapply kept_formattable; [eapply capture_kept; exact He|].
    destruct d; apply good_formattable; [assumption|apply good_background].
Qed.
Theorem C07_sync_output_writes : forall P W n id c v lvl fmt args now ustk W' r i x h,
  reach P W -> has_name W n id -> good_ctx c -> exec P W (OLog id c v lvl fmt args now ustk) = Ok (W', r) ->
  nth_error (w_heap W) i = Some x -> sync_base x -> built h (o_fmt x) ->
  exists new l x' ws, w_sent W' = w_sent W ++ new /\ sent_to i new l /\ nth_error (w_heap W') i = Some x' /\
    o_writes x' = o_writes x ++ ws /\ written (p_env P) h (os_threshold (o_spec x)) l ws.
Proof.
  intros P W n id c v lvl fmt args now ustk W' r i x h R Hn Hg H Hx Hs Hb.
  destruct (log_heap _ _ _ _ _ _ _ _ _ _ _ _ _ _ _ R Hn Hg H Hx) as (new & l & x' & E1 & E2 & Hf & E3 & E4).
  destruct (out_runs_base _ _ _ _ Hs E4) as (ws & Hr & ->).
  destruct (base_run_spec (p_env P) h (o_fmt x) (os_threshold (o_spec x)) l Hb Hf) as (ws' & Hr' & Hw).
  assert (ws' = ws) by congruence. subst ws'. exists new, l, (with_writes ws x), ws. auto 6.
Qed.
Print Assumptions C07_sync_output_writes.
Theorem C07_syslog_output_calls : forall P W n id c v lvl fmt args now ustk W' r i x h,
  reach P W -> has_name W n id -> good_ctx c -> exec P W (OLog id c v lvl fmt args now ustk) = Ok (W', r) ->
  nth_error (w_heap W) i = Some x -> sync_syslog x -> built h (o_fmt x) ->
  exists new l x' ws, w_sent W' = w_sent W ++ new /\ sent_to i new l /\ nth_error (w_heap W') i = Some x' /\
    map sev_call (o_sys x') = map sev_call (o_sys x) ++ ws /\ sys_written (p_env P) h (os_threshold (o_spec x)) l ws.
Proof.
  intros P W n id c v lvl fmt args now ustk W' r i x h R Hn Hg H Hx Hs Hb.
  destruct (log_heap _ _ _ _ _ _ _ _ _ _ _ _ _ _ _ R Hn Hg H Hx) as (new & l & x' & E1 & E2 & Hf & E3 & E4).
  destruct (out_runs_sys _ _ _ _ Hs E4) as (ws & Hr & ->).
  destruct (syslog_run_spec (p_env P) h (o_fmt x) (os_threshold (o_spec x)) l Hb Hf) as (ws' & Hr' & Hw).
  assert (ws' = ws) by congruence. subst ws'. exists new, l, (with_sys ws x), (map sev_call ws).
  repeat split; auto. cbn. now rewrite map_app.
Qed.
Print Assumptions C07_syslog_output_calls.
(** An asynchronous output or the user's own output only gets the events: the call itself writes nothing for it. *)
Theorem C07_handed_over_only : forall P W n id c v lvl fmt args now ustk W' r i x,
  reach P W -> has_name W n id -> good_ctx c -> exec P W (OLog id c v lvl fmt args now ustk) = Ok (W', r) ->
  nth_error (w_heap W) i = Some x -> os_async (o_spec x) <> None \/ (exists k, os_sink (o_spec x) = SinkCustom k) ->
  nth_error (w_heap W') i = Some x.
Proof.
  intros P W n id c v lvl fmt args now ustk W' r i x R Hn Hg H Hx Ha.
  destruct (log_heap _ _ _ _ _ _ _ _ _ _ _ _ _ _ _ R Hn Hg H Hx) as (new & l & x' & _ & _ & _ & E3 & E4).
  assert (S : forall stk e x1 e1, out_Send (p_env P) stk x e = Ok (x1, e1) -> x1 = x).
  { intros stk e x1 e1. unfold out_Send. destruct (os_sink (o_spec x)) as [| | | |send], (os_async (o_spec x)); try (now intros [= <- _]);
      try (destruct (send e); [now intros [= <- _]|discriminate]); destruct Ha as [Ha|[k Ha]]; congruence. }
  assert (Q : x' = x).
  { clear - E4 S. induction l as [|[stk e] l IH]; cbn [out_runs] in E4; [now injection E4|].
    destruct (out_Send (p_env P) stk x e) as [[x1 e1]|] eqn:Es; [|discriminate]. cbn [bind] in E4. apply S in Es. subst x1. auto. }
  congruence.
Qed.
Print Assumptions C07_handed_over_only.
(** The call returns, if the user's own formatters and outputs do. *)
Theorem C07_never_panics : forall P W n id c v lvl fmt args now ustk, reach P W -> has_name W n id -> good_ctx c ->
  (forall i x, nth_error (w_heap W) i = Some x -> (exists h, built h (o_fmt x)) /\ returns x) ->
  exists W', exec P W (OLog id c v lvl fmt args now ustk) = Ok (W', RUnit).
Proof.
  intros P W n id c v lvl fmt args now ustk R (l & Hl & _) Hg Hr. pose proof (reach_inv _ _ R) as I.
  destruct (Printf_total P W id l c v lvl fmt args now ustk I Hl Hg Hr) as [W' H]. exists W'. cbn [exec]. now rewrite H.
Qed.
Print Assumptions C07_never_panics.
Example C07_example : good_ctx (fields_ctx [($"k", VStr ($"v"))]) /\
  exec ex_P ex2 (ex_log 3 Named) = Ok (after ex2 (ex_log 3 Named), RUnit) /\
  map fst (w_sent (after ex2 (ex_log 3 Named))) = [1%nat; 1%nat] /\ w_sent ex2 = [] /\
  map o_writes (w_heap (after ex2 (ex_log 3 Named))) = [[]; [$"%v user.go hello %v"; $"%v user.go hello %v"]].
Proof.
  split.
  - split; [|reflexivity]. intros k. cbn. destruct (str_eqb k _); eauto.
  - split; [apply ex_log_ok; vm_compute; reflexivity|]. repeat split; vm_compute; reflexivity.
Qed.

(** ** C08 *)
Theorem C08_event_data : forall P W n id c v lvl fmt args now ustk W' r new i stk e,
  reach P W -> has_name W n id -> exec P W (OLog id c v lvl fmt args now ustk) = Ok (W', r) ->
  w_sent W' = w_sent W ++ new -> In (i, (stk, e)) new ->
  ev_name e = n /\ ev_level e = lvl /\ ev_format e = fmt /\ ev_args e = args /\ ev_time e = now.
Proof.
  intros P W n id c v lvl fmt args now ustk W' r new i stk e R (l & Hl & <-) H Hnew Hin. pose proof (reach_inv _ _ R) as I.
  apply log_inv in H as [H _].
  destruct (Printf_spec _ _ _ _ _ _ _ _ _ _ _ _ I Hl H) as [[Hb ->]|(d & o & lo & e0 & Hc & Hlo & He & Hd)].
  - rewrite <- (app_nil_r (w_sent W)) in Hnew at 1. apply app_new in Hnew. subst new. contradiction.
  - destruct (dispatch_spec _ _ _ _ _ _ Hd) as (evs & Hlen & Hk & Hs & _). rewrite warn_sent, Hnew in Hs.
    apply app_new in Hs. subst new. apply in_combine_sent in Hin as (_ & _ & Hin).
    rewrite Forall_forall in Hk. specialize (Hk _ Hin). apply capture_kept in He.
    destruct (kept_trans _ _ _ He Hk) as [(E1 & E2 & E3 & E4 & E5 & _) _]. cbn in *. auto 6.
Qed.
Print Assumptions C08_event_data.
(** All deliveries of one call carry the same event: everything but the caller information cached
    in it is equal. *)
Theorem C08_one_event : forall P W n id c v lvl fmt args now ustk W' r new i stk e i2 stk2 e2,
  reach P W -> has_name W n id -> exec P W (OLog id c v lvl fmt args now ustk) = Ok (W', r) ->
  w_sent W' = w_sent W ++ new -> In (i, (stk, e)) new -> In (i2, (stk2, e2)) new -> same_event e e2 /\ stk = stk2.
Proof.
  intros P W n id c v lvl fmt args now ustk W' r new i stk e i2 stk2 e2 R (l & Hl & <-) H Hnew Hin Hin2.
  pose proof (reach_inv _ _ R) as I. apply log_inv in H as [H _].
  destruct (Printf_spec _ _ _ _ _ _ _ _ _ _ _ _ I Hl H) as [[Hb ->]|(d & o & lo & e0 & Hc & Hlo & He & Hd)].
  - rewrite <- (app_nil_r (w_sent W)) in Hnew at 1. apply app_new in Hnew. subst new. contradiction.
  - destruct (dispatch_spec _ _ _ _ _ _ Hd) as (evs & Hlen & Hk & Hs & _). rewrite warn_sent, Hnew in Hs.
    apply app_new in Hs. subst new. apply in_combine_sent in Hin as (-> & _ & Hin). apply in_combine_sent in Hin2 as (-> & _ & Hin2).
    rewrite Forall_forall in Hk. pose proof (Hk _ Hin) as [(A1 & A2 & A3 & A4 & A5 & A6 & A7) _].
    pose proof (Hk _ Hin2) as [(B1 & B2 & B3 & B4 & B5 & B6 & B7) _]. split; [|reflexivity].
    repeat split; try congruence. intros k Hk'. rewrite (A7 k Hk'). auto.
Qed.
Print Assumptions C08_one_event.
Example C08_example : map (fun p => (ev_name (snd (snd p)), ev_level (snd (snd p)))) (w_sent (after ex2 (ex_log 3 Named)))
  = [($"a/b.c", Error); ($"a/b.c", Error)].
Proof. vm_compute. reflexivity. Qed.

(** ** C09 *)
Lemma delivered_ctx P W n id l c v lvl fmt args now ustk W' r new i stk e k :
  reach P W -> nth_error (w_loggers W) id = Some l -> l_name l = n ->
  exec P W (OLog id c v lvl fmt args now ustk) = Ok (W', r) ->
  w_sent W' = w_sent W ++ new -> In (i, (stk, e)) new -> k <> $"__caller_info" ->
  ctx_Value (ev_ctx e) k = ctx_Value (match l_outputs l with [] => match l_parent l with Some _ => CtxBackground | None => c end | _ => c end) k.
Proof.
  intros R Hl Hn H Hnew Hin Hk0. pose proof (reach_inv _ _ R) as I. apply log_inv in H as [H _].
  destruct (Printf_spec _ _ _ _ _ _ _ _ _ _ _ _ I Hl H) as [[Hb ->]|(d & o & lo & e0 & Hc & Hlo & He & Hd)].
  - rewrite <- (app_nil_r (w_sent W)) in Hnew at 1. apply app_new in Hnew. subst new. contradiction.
  - destruct (dispatch_spec _ _ _ _ _ _ Hd) as (evs & Hlen & Hk & Hs & _). rewrite warn_sent, Hnew in Hs.
    apply app_new in Hs. subst new. apply in_combine_sent in Hin as (_ & _ & Hin).
    rewrite Forall_forall in Hk. specialize (Hk _ Hin). apply capture_kept in He.
    destruct (kept_trans _ _ _ He Hk) as [(_ & _ & _ & _ & _ & _ & E) _]. rewrite (E k Hk0). cbn [ev_ctx].
    destruct Hc as [id0 l0 Hl0 Hv Ho|id0 l0 p d o Hl0 Hv Ho Hp Hc]; assert (l0 = l) by congruence; subst l0.
    + destruct (l_outputs l); [|reflexivity]. destruct Ho as [Ho| ->]; [congruence|reflexivity].
    + rewrite Ho, Hp. reflexivity.
Qed.
(** When the logger's own outputs are used the fields are there. *)
Theorem C09_own_outputs_partial : forall P W n id l c v lvl fmt args now ustk W' r new i stk e k,
  reach P W -> nth_error (w_loggers W) id = Some l -> l_name l = n -> l_outputs l <> [] ->
  exec P W (OLog id c v lvl fmt args now ustk) = Ok (W', r) ->
  w_sent W' = w_sent W ++ new -> In (i, (stk, e)) new -> k <> $"__caller_info" ->
  ctx_Value (ev_ctx e) k = ctx_Value c k.
Proof.
  intros P W n id l c v lvl fmt args now ustk W' r new i stk e k R Hl Hn Ho H Hnew Hin Hk.
  rewrite (delivered_ctx _ _ _ _ _ _ _ _ _ _ _ _ _ _ _ _ _ _ k R Hl Hn H Hnew Hin Hk). destruct (l_outputs l); [congruence|reflexivity].
Qed.
Print Assumptions C09_own_outputs_partial.
(** When an ancestor's outputs are used every field is lost: the exact behaviour otherwise. *)
Theorem C09_inherited_outputs_lose_all : forall P W n id l c v lvl fmt args now ustk W' r new i stk e k,
  reach P W -> nth_error (w_loggers W) id = Some l -> l_name l = n -> l_outputs l = [] -> n <> $"root" ->
  exec P W (OLog id c v lvl fmt args now ustk) = Ok (W', r) ->
  w_sent W' = w_sent W ++ new -> In (i, (stk, e)) new -> k <> $"__caller_info" ->
  ctx_Value (ev_ctx e) k = Ok VNil.
Proof.
  intros P W n id l c v lvl fmt args now ustk W' r new i stk e k R Hl Hn Ho Hr H Hnew Hin Hk.
  rewrite (delivered_ctx _ _ _ _ _ _ _ _ _ _ _ _ _ _ _ _ _ _ k R Hl Hn H Hnew Hin Hk), Ho.
  destruct (l_parent l) eqn:Ep; [reflexivity|]. exfalso. apply Hr. rewrite <- Hn. now apply (C06_root_has_no_parent P W id l R Hl).
Qed.
Print Assumptions C09_inherited_outputs_lose_all.
Theorem C09_inherited_fields_refuted : exists P W n id fs v lvl fmt args now ustk W' r new i stk e k x,
  reach P W /\ has_name W n id /\ exec P W (OLog id (fields_ctx fs) v lvl fmt args now ustk) = Ok (W', r) /\
  w_sent W' = w_sent W ++ new /\ In (i, (stk, e)) new /\ field_value k fs x /\ x <> VNil /\
  ctx_Value (ev_ctx e) k = Ok VNil.
Proof.
  exists ex_P, ex2, ($"a/b.c"), 3%nat, [($"k", VStr ($"v"))], Named, Error, ($"hello"), [], 0, ex_user, (after ex2 (ex_log 3 Named)), RUnit.
  assert (Hs : w_sent ex2 = []) by (vm_compute; reflexivity). rewrite Hs. cbn [app].
  destruct (w_sent (after ex2 (ex_log 3 Named))) as [|[i [stk e]] new] eqn:E.
  { exfalso. apply (f_equal (@length _)) in E. vm_compute in E. discriminate. }
  exists ((i, (stk, e)) :: new), i, stk, e, ($"k"), (VStr ($"v")).
  split; [apply ex2_reach|]. split; [apply ex2_c|].
  assert (Hx : exec ex_P ex2 (ex_log 3 Named) = Ok (after ex2 (ex_log 3 Named), RUnit)) by (apply ex_log_ok; vm_compute; reflexivity).
  split; [exact Hx|]. split; [reflexivity|]. split; [left; reflexivity|].
  split; [apply (fv_last _ [] _ []); intros []|]. split; [discriminate|].
  destruct ex2_c as (l & Hl & Hn). assert (Ho : l_outputs l = []) by (rewrite ex2_loggers_eq in Hl; injection Hl as <-; reflexivity).
  eapply (C09_inherited_outputs_lose_all ex_P ex2 ($"a/b.c") 3 l); [apply ex2_reach|exact Hl|exact Hn|exact Ho|discriminate|exact Hx| | |discriminate].
  - rewrite Hs, E. reflexivity.
  - left. reflexivity.
Qed.
Print Assumptions C09_inherited_fields_refuted.
Example C09_example :   (* the same call on "a", whose own outputs are used *)
  map (fun p => ctx_Value (ev_ctx (snd (snd p))) ($"k")) (w_sent (after ex2 (ex_log 1 Named))) = [Ok (VStr ($"v")); Ok (VStr ($"v"))] /\
  map o_writes (w_heap (after ex2 (ex_log 1 Named))) = [[]; [$"%v user.go hello v"; $"%v user.go hello v"]].
Proof. split; vm_compute; reflexivity. Qed.

(** ** C10 *)
Theorem C10_last_field_wins : forall fs k, exists v, ctx_Value (fields_ctx fs) k = Ok v /\ field_value k fs v.
Proof. exact fields_lookup. Qed.
Print Assumptions C10_last_field_wins.
Theorem C10_field_value_unique : forall k fs v w, field_value k fs v -> field_value k fs w -> v = w.
Proof. exact field_value_fun. Qed.
Print Assumptions C10_field_value_unique.
(** A call through any writer has no influence on what a later call delivers, to whom and with
    which data: the later call's deliveries are those it would have made without the first. *)
Theorem C10_fields_do_not_leak : forall P W id1 c1 v1 lvl1 fmt1 args1 now1 ustk1 W1 r1 id c v lvl fmt args now ustk W2 r2,
  exec P W (OLog id1 c1 v1 lvl1 fmt1 args1 now1 ustk1) = Ok (W1, r1) ->
  exec P W (OLog id c v lvl fmt args now ustk) = Ok (W2, r2) ->
  exists W3 new, exec P W1 (OLog id c v lvl fmt args now ustk) = Ok (W3, r2) /\
    w_sent W2 = w_sent W ++ new /\ w_sent W3 = w_sent W1 ++ new.
Proof.
  intros P W id1 c1 v1 lvl1 fmt1 args1 now1 ustk1 W1 r1 id c v lvl fmt args now ustk W2 r2 H1 H2.
  apply log_inv in H1 as [H1 _]. apply log_inv in H2 as [H2 ->]. pose proof (Printf_sends _ _ _ _ _ _ _ _ _ _ _ H1) as S.
  unfold Printf in H2. destruct (nth_error (w_loggers W) id) as [l|] eqn:Hl; [|discriminate].
  destruct (write_alike P _ W W1 _ _ _ _ _ _ _ _ _ _ (sends_alike _ _ S) (sd_loggers _ _ S) H2) as (W3 & new & H3 & E1 & E2).
  exists W3, new. split; [|auto]. cbn [exec]. unfold Printf. rewrite (sd_loggers _ _ S), Hl, H3. reflexivity.
Qed.
Print Assumptions C10_fields_do_not_leak.
(** The plain writer has no fields at all, whatever other writers were used before. *)
Theorem C10_plain_writer_has_no_fields : forall P W n id v lvl fmt args now ustk W' r new i stk e k,
  reach P W -> has_name W n id -> exec P W (OLog id CtxBackground v lvl fmt args now ustk) = Ok (W', r) ->
  w_sent W' = w_sent W ++ new -> In (i, (stk, e)) new -> k <> $"__caller_info" -> ctx_Value (ev_ctx e) k = Ok VNil.
Proof.
  intros P W n id v lvl fmt args now ustk W' r new i stk e k R (l & Hl & Hn) H Hnew Hin Hk.
  rewrite (delivered_ctx _ _ _ _ _ _ _ _ _ _ _ _ _ _ _ _ _ _ k R Hl Hn H Hnew Hin Hk).
  destruct (l_outputs l), (l_parent l); reflexivity.
Qed.
Print Assumptions C10_plain_writer_has_no_fields.
Example C10_example : ctx_Value (fields_ctx [($"k", VInt 1); ($"j", VInt 2); ($"k", VInt 3)]) ($"k") = Ok (VInt 3) /\
  field_value ($"k") [($"k", VInt 1); ($"j", VInt 2); ($"k", VInt 3)] (VInt 3) /\
  field_value ($"x") [($"k", VInt 1); ($"j", VInt 2); ($"k", VInt 3)] VNil.
Proof.
  split; [reflexivity|]. split; [apply (fv_last _ [($"k", VInt 1); ($"j", VInt 2)] _ []); intros []|].
  apply fv_none. cbn. intros [H|[H|[H|[]]]]; discriminate.
Qed.

(** ** C11 *)
Lemma complete_frame E c fr : names_frame c fr -> names_frame (complete E c) fr.
Proof.
  unfold names_frame, complete. destruct (ci_pkg c); [|auto]. destruct (e_funcForPC E (ci_pc c)); [|auto].
  destruct (split_func l). auto.
Qed.
Lemma later_frame a b fr : ci_later a b -> names_frame a fr -> names_frame b fr.
Proof. unfold names_frame. intros (-> & -> & -> & _). auto. Qed.
Lemma skip_of W n id l s : inv W -> nth_error (w_loggers W) id = Some l -> l_name l = n -> user_skip W n s -> l_skip l = 3 + s.
Proof.
  intros I Hl Hn (id2 & l2 & Hl2 & Hn2 & Hs). destruct (same_name W n id id2 l l2 I Hl Hl2 Hn Hn2). congruence.
Qed.
(** The caller information of every delivered event, if the serving logger captures. *)
Lemma captured_site P W n id c v lvl fmt args now ustk W' r new i stk e s fr o lo :
  reach P W -> has_name W n id -> good_ctx c -> user_skip W n s -> 0 <= s ->
  server W lvl n o -> nth_error (w_loggers W) o = Some lo -> 1 <= l_flag lo <= 2 ->
  nth_error ustk (match v with Named => Z.to_nat s | Direct => S (Z.to_nat s) end) = Some fr ->
  exec P W (OLog id c v lvl fmt args now ustk) = Ok (W', r) -> w_sent W' = w_sent W ++ new -> In (i, (stk, e)) new ->
  exists ci, ctx_Value (ev_ctx e) ($"__caller_info") = Ok (VCaller ci) /\ names_frame ci fr /\
    (l_flag lo = 2 -> e_funcForPC (p_env P) (fr_pc fr) <> None ->
       ci = complete (p_env P) (mkCI (fr_file fr) (fr_line fr) [] [] (fr_pc fr))).
Proof.
  intros R (l & Hl & Hn) Hg Hs Hs0 Hsv Hlo Hf Hfr H Hnew Hin. pose proof (reach_inv _ _ R) as I.
  pose proof (skip_of _ _ _ _ _ I Hl Hn Hs) as Hsk. apply log_inv in H as [H _].
  destruct (Printf_spec _ _ _ _ _ _ _ _ _ _ _ _ I Hl H) as [[Hb ->]|(d & o' & lo' & e0 & Hc & Hlo' & He & Hd)].
  { rewrite <- (app_nil_r (w_sent W)) in Hnew at 1. apply app_new in Hnew. subst new. contradiction. }
  pose proof (climbs_server _ _ _ _ _ _ I Hc Hl) as Hsv'.
  assert (o' = o) by (eapply server_fun; [exact I|exact Hsv'|exact Hsv|assumption]). subst o'.
  assert (lo' = lo) by congruence. subst lo'.
  set (e1 := mkEvent fmt args (l_name l) lvl now (l_skip l + Z.of_nat d) (match d with O => c | _ => CtxBackground end)) in *.
  assert (Hraw : raw_site (p_fgetci P :: repeat (p_fwrite P) (S d) ++ caller P v ustk) e1
                   (mkCI (fr_file fr) (fr_line fr) [] [] (fr_pc fr))).
  { apply rs_stack.
    - unfold e1. cbn [ev_ctx]. destruct d; [apply Hg|apply good_background].
    - unfold e1. cbn [ev_depth]. lia.
    - unfold e1. cbn [ev_depth]. rewrite Hsk. rewrite site_index by assumption. exact Hfr. }
  destruct (capture_site _ _ _ _ _ _ He Hraw) as [Hc2 Hc1].
  assert (Hex : exists ci0, ctx_Value (ev_ctx e0) caller_key = Ok (VCaller ci0) /\ names_frame ci0 fr /\
     (l_flag lo = 2 -> ci0 = complete (p_env P) (mkCI (fr_file fr) (fr_line fr) [] [] (fr_pc fr)))).
  { assert (Hcase : l_flag lo = 1 \/ l_flag lo = 2) by lia. destruct Hcase as [E|E].
    - eexists. split; [exact (Hc1 E)|]. split; [unfold names_frame; auto|]. lia.
    - eexists. split; [exact (Hc2 E)|]. split; [apply complete_frame; unfold names_frame; auto|auto]. }
  destruct Hex as (ci0 & Hci & Hnf & Hcomp).
  destruct (dispatch_sk _ _ _ _ _ _ Hd) as (evs & Hlen & Hk & Hsent). rewrite warn_sent, Hnew in Hsent.
  apply app_new in Hsent. subst new. apply in_combine_sent in Hin as (_ & _ & Hin).
  rewrite Forall_forall in Hk. destruct (Hk _ Hin _ Hci) as (b & Hb & Hlat). exists b. split; [exact Hb|].
  split; [eapply later_frame; eassumption|]. intros E Hkn. specialize (Hcomp E). rewrite <- Hcomp.
  destruct Hlat as (_ & _ & _ & Hlat). apply Hlat. rewrite Hcomp. unfold complete. cbn [ci_pkg ci_pc].
  destruct (e_funcForPC (p_env P) (fr_pc fr)) as [fs|]; [|congruence]. destruct (split_func fs) as [p f] eqn:Es.
  cbn. now apply func_name_split, func_name_pkg in Es.
Qed.
Theorem C11_level_method_site : forall P W n id c lvl fmt args now ustk W' r new i stk e s fr o lo,
  reach P W -> has_name W n id -> good_ctx c -> user_skip W n s -> 0 <= s ->
  server W lvl n o -> nth_error (w_loggers W) o = Some lo -> 1 <= l_flag lo <= 2 ->
  nth_error ustk (Z.to_nat s) = Some fr ->
  exec P W (OLog id c Named lvl fmt args now ustk) = Ok (W', r) -> w_sent W' = w_sent W ++ new -> In (i, (stk, e)) new ->
  exists ci, ctx_Value (ev_ctx e) ($"__caller_info") = Ok (VCaller ci) /\ names_frame ci fr /\
    (l_flag lo = 2 -> e_funcForPC (p_env P) (fr_pc fr) <> None ->
       resolved (p_env P) (mkCI (fr_file fr) (fr_line fr) [] [] (fr_pc fr)) ci).
Proof.
  intros P W n id c lvl fmt args now ustk W' r new i stk e s fr o lo R Hn Hg Hs Hs0 Hsv Hlo Hf Hfr H Hnew Hin.
  destruct (captured_site P W n id c Named lvl fmt args now ustk W' r new i stk e s fr o lo) as (ci & H1 & H2 & H3); try assumption.
  exists ci. split; [assumption|]. split; [assumption|]. intros E1 E2. rewrite (H3 E1 E2). apply complete_resolved.
Qed.
Print Assumptions C11_level_method_site.
(** Printf called directly: there is one frame less, so the caller of the user's function is
    reported. *)
Theorem C11_direct_one_off : forall P W n id c lvl fmt args now ustk W' r new i stk e s fr o lo,
  reach P W -> has_name W n id -> good_ctx c -> user_skip W n s -> 0 <= s ->
  server W lvl n o -> nth_error (w_loggers W) o = Some lo -> 1 <= l_flag lo <= 2 ->
  nth_error ustk (S (Z.to_nat s)) = Some fr ->
  exec P W (OLog id c Direct lvl fmt args now ustk) = Ok (W', r) -> w_sent W' = w_sent W ++ new -> In (i, (stk, e)) new ->
  exists ci, ctx_Value (ev_ctx e) ($"__caller_info") = Ok (VCaller ci) /\ names_frame ci fr.
Proof.
  intros P W n id c lvl fmt args now ustk W' r new i stk e s fr o lo R Hn Hg Hs Hs0 Hsv Hlo Hf Hfr H Hnew Hin.
  destruct (captured_site P W n id c Direct lvl fmt args now ustk W' r new i stk e s fr o lo) as (ci & H1 & H2 & H3); try assumption.
  eauto.
Qed.
Print Assumptions C11_direct_one_off.
(** With SetCallerSkip(s-1) a direct call does report the frame a level method would with s. *)
Theorem C11_direct_site_partial : forall P W n id c lvl fmt args now ustk W' r new i stk e s fr o lo,
  reach P W -> has_name W n id -> good_ctx c -> user_skip W n (s - 1) -> 1 <= s ->
  server W lvl n o -> nth_error (w_loggers W) o = Some lo -> 1 <= l_flag lo <= 2 ->
  nth_error ustk (Z.to_nat s) = Some fr ->
  exec P W (OLog id c Direct lvl fmt args now ustk) = Ok (W', r) -> w_sent W' = w_sent W ++ new -> In (i, (stk, e)) new ->
  exists ci, ctx_Value (ev_ctx e) ($"__caller_info") = Ok (VCaller ci) /\ names_frame ci fr.
Proof.
  intros P W n id c lvl fmt args now ustk W' r new i stk e s fr o lo R Hn Hg Hs Hs0 Hsv Hlo Hf Hfr H Hnew Hin.
  replace (Z.to_nat s) with (S (Z.to_nat (s - 1))) in Hfr by lia. eapply C11_direct_one_off; try eassumption. lia.
Qed.
Print Assumptions C11_direct_site_partial.
Lemma ex2_server : server ex2 Error ($"a") 1.
Proof.
  apply (sv_here _ _ _ Warn 1 (mkLogger ($"a") Warn (Some 0%nat) [1%nat; 1%nat] 3 1)); [|vm_compute; discriminate| | |left; discriminate].
  - apply (Level_iff ex2 _ 1); [apply (reach_inv ex_P), ex2_reach|apply ex2_a|vm_compute; reflexivity].
  - rewrite ex2_loggers_eq. reflexivity.
  - reflexivity.
Qed.
Theorem C11_direct_site_refuted : exists P W n id c lvl fmt args now ustk W' r new i stk e ci s fr o lo,
  reach P W /\ has_name W n id /\ good_ctx c /\ user_skip W n s /\ 0 <= s /\
  server W lvl n o /\ nth_error (w_loggers W) o = Some lo /\ 1 <= l_flag lo <= 2 /\ nth_error ustk (Z.to_nat s) = Some fr /\
  exec P W (OLog id c Direct lvl fmt args now ustk) = Ok (W', r) /\ w_sent W' = w_sent W ++ new /\ In (i, (stk, e)) new /\
  ctx_Value (ev_ctx e) ($"__caller_info") = Ok (VCaller ci) /\ ci_line ci <> fr_line fr.
Proof.
  destruct (w_sent (after ex2 (ex_log 1 Direct))) as [|[i [stk e]] new] eqn:E.
  { exfalso. apply (f_equal (@length _)) in E. vm_compute in E. discriminate. }
  assert (Hs : w_sent ex2 = []) by (vm_compute; reflexivity).
  assert (Hg : good_ctx (fields_ctx [($"k", VStr ($"v"))])).
  { split; [|reflexivity]. intros k. cbn. destruct (str_eqb k _); eauto. }
  assert (Hx : exec ex_P ex2 (ex_log 1 Direct) = Ok (after ex2 (ex_log 1 Direct), RUnit)) by (apply ex_log_ok; vm_compute; reflexivity).
  assert (Hlo : nth_error (w_loggers ex2) 1 = Some (mkLogger ($"a") Warn (Some 0%nat) [1%nat; 1%nat] 3 1))
    by (rewrite ex2_loggers_eq; reflexivity).
  assert (Hu : user_skip ex2 ($"a") 0) by (eexists 1%nat, _; split; [exact Hlo|split; reflexivity]).
  destruct (C11_direct_one_off ex_P ex2 ($"a") 1 (fields_ctx [($"k", VStr ($"v"))]) Error ($"hello") [] 0 ex_user
     (after ex2 (ex_log 1 Direct)) RUnit ((i, (stk, e)) :: new) i stk e 0 (mkFrame 101 ($"main.go") 8) 1
     (mkLogger ($"a") Warn (Some 0%nat) [1%nat; 1%nat] 3 1)) as (ci & Hci & _ & Hline & _);
    [apply ex2_reach|apply ex2_a|exact Hg|exact Hu|lia|apply ex2_server|exact Hlo|cbn; lia|reflexivity|exact Hx|
     rewrite Hs, E; reflexivity|left; reflexivity|].
  exists ex_P, ex2, ($"a"), 1%nat, (fields_ctx [($"k", VStr ($"v"))]), Error, ($"hello"), [], 0, ex_user,
     (after ex2 (ex_log 1 Direct)), RUnit, ((i, (stk, e)) :: new), i, stk, e, ci, 0, (mkFrame 100 ($"user.go") 7), 1%nat,
     (mkLogger ($"a") Warn (Some 0%nat) [1%nat; 1%nat] 3 1).
  split; [apply ex2_reach|]. split; [apply ex2_a|]. split; [exact Hg|]. split; [exact Hu|]. split; [lia|].
  split; [apply ex2_server|]. split; [exact Hlo|]. split; [cbn; lia|]. split; [reflexivity|]. split; [exact Hx|].
  split; [rewrite Hs, E; reflexivity|]. split; [left; reflexivity|]. split; [exact Hci|].
  rewrite Hline. vm_compute. discriminate.
Qed.
Print Assumptions C11_direct_site_refuted.
(** The skip is 0 for a new logger, SetCallerSkip sets it for one logger, nothing else changes it. *)
Theorem C11_skip_set : forall P W n id s W' r, reach P W -> has_name W n id ->
  exec P W (OSetCallerSkip id s) = Ok (W', r) -> user_skip W' n s.
Proof.
  intros P W n id s W' r R (l & Hl & Hn) H. cbn [exec] in H. rewrite Hl in H. injection H as <- <-.
  exists id. eexists. cbn. rewrite nth_upd, Hl, Nat.eqb_refl. split; [reflexivity|]. cbn. auto.
Qed.
Print Assumptions C11_skip_set.
Theorem C11_skip_origin : forall P W o W' r n s, reach P W -> op_ok W o -> exec P W o = Ok (W', r) -> user_skip W' n s ->
  (exists id, has_name W n id /\ o = OSetCallerSkip id s) \/ user_skip W n s \/ (forall id, ~ has_name W n id) /\ s = 0.
Proof.
  intros P W o W' r n s R Hok H (id & l & Hl & Hn & Hs). pose proof (reach_inv _ _ R) as I.
  assert (I' : inv W') by (apply (reach_inv P); econstructor; eassumption).
  destruct (exec_inv _ _ _ _ _ H I) as [_ L].
  pose proof (exec_skips _ _ _ _ _ H I) as S.
  assert (Hgen : skips W W' -> user_skip W n s \/ (forall id, ~ has_name W n id) /\ s = 0).
  { intros [_ Sk]. destruct (Sk _ _ Hl) as [(l0 & Hl0 & E1 & E2)|[Hj E]].
    - left. exists id, l0. split; [assumption|]. split; congruence.
    - right. split; [|lia]. intros j (lj & Hlj & Hnj).
      pose proof (lt_sk _ _ L _ _ (nth_skels _ _ _ Hlj)) as Hj'. apply nth_skels_inv in Hj' as (lj' & Hj' & Ej & _).
      destruct (same_name W' n id j l lj' I' Hl Hj' Hn (eq_trans Ej Hnj)) as [-> _].
      assert (Hlt : (j < length (w_loggers W))%nat) by (apply nth_error_Some; congruence). lia. }
  destruct o; try (right; now apply Hgen).
  destruct S as [_ S]. destruct (S _ _ Hl) as (l0 & Hl0 & E1 & E2). destruct (Nat.eqb_spec id id0) as [->|Hne].
  - left. exists id0. split; [exists l0; split; congruence|]. f_equal. lia.
  - right. left. exists id, l0. split; [assumption|]. split; congruence.
Qed.
Print Assumptions C11_skip_origin.
Example C11_example :   (* the level method on "a" reports user.go:7, also when inherited by "a/b.c" *)
  map (fun p => ctx_Value (ev_ctx (snd (snd p))) ($"__caller_info")) (w_sent (after ex2 (ex_log 1 Named))) =
    [Ok (VCaller (mkCI ($"user.go") 7 [] [] 100)); Ok (VCaller (mkCI ($"user.go") 7 [] [] 100))] /\
  map (fun p => ctx_Value (ev_ctx (snd (snd p))) ($"__caller_info")) (w_sent (after ex2 (ex_log 3 Named))) =
    [Ok (VCaller (mkCI ($"user.go") 7 [] [] 100)); Ok (VCaller (mkCI ($"user.go") 7 [] [] 100))].
Proof. split; vm_compute; reflexivity. Qed.

(** ** C25 *)
Lemma needs_flag P W o lo i x layout items n0 spec : calm_reach P W -> nth_error (w_loggers W) o = Some lo ->
  In i (l_outputs lo) -> nth_error (w_heap W) i = Some x -> built (ByLayout layout) (o_fmt x) -> splits layout items ->
  In (Verb n0 spec) items -> 0 <= l_flag lo <= 2 /\ (In n0 file_verbs -> 1 <= l_flag lo) /\ (In n0 func_verbs -> l_flag lo = 2).
Proof.
  intros R Hlo Hi Hx Hb Hs Hin. destruct (calm_flags _ _ R) as [Fm F]. destruct (F _ _ Hlo) as [Hbd Ho].
  specialize (Ho i x Hi Hx). destruct (o_fmt x) as [f|]; [|inversion Hb].
  destruct (layout_flag _ _ _ _ _ Hb Hs Hin) as [H1 H2]. split; [assumption|].
  split; intros Hv; [specialize (H1 Hv)|specialize (H2 Hv)]; lia.
Qed.
Theorem C25_captured_in_call : forall P W n id c lvl fmt args now ustk W' r new i stk e s fr o lo j x layout items n0 spec,
  calm_reach P W -> has_name W n id -> good_ctx c -> user_skip W n s -> 0 <= s -> nth_error ustk (Z.to_nat s) = Some fr ->
  server W lvl n o -> nth_error (w_loggers W) o = Some lo -> In j (l_outputs lo) -> nth_error (w_heap W) j = Some x ->
  built (ByLayout layout) (o_fmt x) -> splits layout items -> In (Verb n0 spec) items ->
  exec P W (OLog id c Named lvl fmt args now ustk) = Ok (W', r) -> w_sent W' = w_sent W ++ new -> In (i, (stk, e)) new ->
  (In n0 file_verbs \/ In n0 func_verbs -> exists ci, ctx_Value (ev_ctx e) ($"__caller_info") = Ok (VCaller ci) /\ names_frame ci fr) /\
  (In n0 func_verbs -> e_funcForPC (p_env P) (fr_pc fr) <> None ->
     exists ci, ctx_Value (ev_ctx e) ($"__caller_info") = Ok (VCaller ci) /\
       resolved (p_env P) (mkCI (fr_file fr) (fr_line fr) [] [] (fr_pc fr)) ci /\ ci_pkg ci <> []).
Proof.
  intros P W n id c lvl fmt args now ustk W' r new i stk e s fr o lo j x layout items n0 spec
    R Hn Hg Hs Hs0 Hfr Hsv Hlo Hj Hx Hb Hsp Hv H Hnew Hin.
  destruct (needs_flag _ _ _ _ _ _ _ _ _ _ R Hlo Hj Hx Hb Hsp Hv) as (Hbd & H1 & H2).
  pose proof (calm_reach_reach _ _ R) as R0. split.
  - intros Hc. assert (Hf : 1 <= l_flag lo <= 2) by (destruct Hc as [Hc|Hc]; [specialize (H1 Hc)|specialize (H2 Hc)]; lia).
    destruct (C11_level_method_site P W n id c lvl fmt args now ustk W' r new i stk e s fr o lo) as (ci & A & B & _); try assumption. eauto.
  - intros Hc Hk. specialize (H2 Hc).
    destruct (C11_level_method_site P W n id c lvl fmt args now ustk W' r new i stk e s fr o lo) as (ci & A & _ & D); try assumption; [lia|].
    exists ci. split; [assumption|]. specialize (D H2 Hk). split; [assumption|].
    apply resolved_complete in D. rewrite D. unfold complete. cbn [ci_pkg ci_pc].
    destruct (e_funcForPC (p_env P) (fr_pc fr)) as [fs|]; [|congruence]. destruct (split_func fs) as [p f] eqn:Es.
    cbn. now apply func_name_split, func_name_pkg in Es.
Qed.
Print Assumptions C25_captured_in_call.
(** An event that carries its call site is formatted to the same text on every stack. *)
Theorem C25_stack_not_consulted : forall E layout stk stk' e b ci,
  ctx_Value (ev_ctx e) ($"__caller_info") = Ok (VCaller ci) ->
  text_of E (ByLayout layout) stk e b -> text_of E (ByLayout layout) stk' e b.
Proof.
  intros E layout stk stk' e b ci Hci H. inversion H as [|ly items ss stk0 e0 raw site Hs Hr Hv Hf|]; subst.
  apply (to_layout E layout items ss stk' e raw site); auto. inversion Hr as [c Hc|fr Hc|Hc]; subst; try congruence.
  now apply rs_captured.
Qed.
Print Assumptions C25_stack_not_consulted.
(** What the formatter computes there: the call site in the text is the captured one. *)
Theorem C25_text_uses_captured_site : forall E layout stk e b ci,
  ctx_Value (ev_ctx e) ($"__caller_info") = Ok (VCaller ci) -> text_of E (ByLayout layout) stk e b ->
  exists items ss site, splits layout items /\ resolved E ci site /\ Forall2 (renders E site e) items ss /\ b = concat ss.
Proof.
  intros E layout stk e b ci Hci H. inversion H as [|ly items ss stk0 e0 raw site Hs Hr Hv Hf|]; subst.
  assert (raw = ci) by (inversion Hr; subst; congruence). subst raw. exists items, ss, site. auto.
Qed.
Print Assumptions C25_text_uses_captured_site.
Definition ex_items : list layout_item :=
  [Verb ($"line") None; Lit ($" "); Verb ($"shortfile") None; Lit ($" "); Verb ($"msg") None; Lit ($" "); Verb ($"k") None].
Example C25_example : calm_reach ex_P ex2 /\ server ex2 Error ($"a") 1 /\ user_skip ex2 ($"a") 0 /\
  map (fun l => (l_outputs l, l_flag l)) (w_loggers ex2) = [([0%nat], 2); ([1%nat; 1%nat], 1); ([], 0); ([], 0)] /\
  (exists x, nth_error (w_heap ex2) 1 = Some x /\ built (ByLayout ex_layout) (o_fmt x)) /\
  In (Verb ($"line") None) ex_items /\ In ($"line") file_verbs.
Proof.
  split; [apply ex2_calm|]. split; [apply ex2_server|]. split.
  { eexists 1%nat, _. rewrite ex2_loggers_eq. split; [reflexivity|]. split; reflexivity. }
  split; [vm_compute; reflexivity|]. split; [|split; left; reflexivity].
  destruct (nth_error (w_heap ex2) 1) as [x|] eqn:E.
  - exists x. split; [reflexivity|]. assert (Hf : option_map o_fmt (nth_error (w_heap ex2) 1) = Some ex_fmt) by (vm_compute; reflexivity).
    rewrite E in Hf. injection Hf as Hf. rewrite Hf. unfold ex_fmt. destruct (Parser ex_layout) as [ps|] eqn:Ep; [now constructor|].
    vm_compute in Ep. discriminate.
  - exfalso. apply (f_equal (fun o => match o with Some _ => true | None => false end)) in E. vm_compute in E. discriminate.
Qed.

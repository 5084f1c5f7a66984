(** Property C71: a log call panics and the caller recovers. *)
From Verif Require Import GoStr Utf8 LevelModel EventModel LayoutModel LayoutSpec LayoutProofs FormatSpec FormatProofs ConfModel
  OutputModel OutputSpec OutputProofs WorldModel PanicModel WorldSpec PanicSpec WorldBase PanicBase WorldInv WorldProofs P_Hier LogProofs
  ManagerProofs PanicProofs P_Log StopProofs.
Local Open Scope Z_scope.

(** The outputs of the call's route are served in order up to the one that panics: those before it have been sent the event, with the
    call's data, and the others nothing. When the context is in order, the one that panics is an output of the user's own that does not
    return from Send, or a synchronous output whose formatter is not the library's and does not answer every event. *)
Theorem C71_stops_there : forall P W n id c v lvl fmt args now ustk W',
  reach P W -> has_name W n id -> raised P W (OLog id c v lvl fmt args now ustk) W' ->
  exists new rest, w_sent W' = w_sent W ++ new /\ route W lvl n (map fst new ++ rest) /\ (rest = [] -> new = []) /\
    (forall i stk e, In (i, (stk, e)) new -> ev_name e = n /\ ev_level e = lvl /\ ev_format e = fmt /\ ev_args e = args /\ ev_time e = now) /\
    (good_ctx c -> exists i rest' x, rest = i :: rest' /\ nth_error (w_heap W) i = Some x /\
       (~ returns x \/ os_async (o_spec x) = None /\ forall h, ~ built h (o_fmt x))).
Proof.
  intros P W n id c v lvl fmt args now ustk W' R (l & Hl & <-) H. pose proof (reach_inv _ _ R) as I.
  destruct (stop_spec _ _ _ _ _ _ _ _ _ _ _ _ I Hl H) as (outs & ops1 & rest & e & S).
  destruct (stop_sent _ _ _ _ _ _ _ _ _ _ _ _ _ _ _ _ S) as (stk & evs & Hlen & Hk & Hs & _ & Hh).
  exists (combine ops1 (map (pair stk) evs)), rest. split; [exact Hs|].
  rewrite map_fst_combine by now rewrite map_length. rewrite <- (sp_split _ _ _ _ _ _ _ _ _ _ _ _ _ _ _ _ S).
  split; [exact (sp_route _ _ _ _ _ _ _ _ _ _ _ _ _ _ _ _ S)|]. split; [|split].
  - intros Hr. pose proof (sp_first _ _ _ _ _ _ _ _ _ _ _ _ _ _ _ _ S Hr) as Ho. pose proof (sp_split _ _ _ _ _ _ _ _ _ _ _ _ _ _ _ _ S) as E.
    rewrite Ho in E. symmetry in E. apply app_eq_nil in E as [-> _]. reflexivity.
  - intros i s e1 Hin. apply in_combine_sent in Hin as (_ & _ & Hin). rewrite Forall_forall in Hk. specialize (Hk _ Hin).
    destruct (sp_event _ _ _ _ _ _ _ _ _ _ _ _ _ _ _ _ S) as (d & c' & _ & K).
    destruct (kept_trans _ _ _ K Hk) as [(E1 & E2 & E3 & E4 & E5 & _) _]. cbn in *. auto 6.
  - intros Hg. destruct (sp_panic _ _ _ _ _ _ _ _ _ _ _ _ _ _ _ _ S Hg) as (i & ops2 & x' & s & e1 & -> & Hx' & K & Hp).
    assert (Sd : sends W W').
    { unfold raised in H. cbn [try_exec] in H. injection H as H.
      destruct (try_Printf P W id c v lvl fmt args now ustk) as [X u|X] eqn:E; cbn [pbind] in H; [discriminate|]. injection H as <-.
      eapply try_Printf_sends; exact E. }
    destruct (map_nth_transfer _ _ _ _ _ (eq_sym (sd_heap _ _ Sd)) Hx') as (x & Hx & E). injection E as E1 E2 _.
    exists i, ops2, x. split; [reflexivity|]. split; [exact Hx|].
    assert (Hf : formattable e1) by (eapply kept_formattable; [exact K|]; eapply stop_formattable; eassumption).
    assert (D : (exists send, os_sink (o_spec x') = SinkCustom send /\ send e1 = false) \/
                (forall send, os_sink (o_spec x') <> SinkCustom send) /\ os_async (o_spec x') = None).
    { unfold out_Send in Hp. destruct (os_sink (o_spec x')) as [| |rc|pre|send] eqn:Es;
        [right; split; [congruence|]; destruct (os_async (o_spec x')); [discriminate Hp|reflexivity]..|].
      left. exists send. split; [reflexivity|]. destruct (send e1); [discriminate Hp|reflexivity]. }
    destruct D as [(send & Es & Hse)|[Hns Ha]].
    + left. intros Hr. rewrite (Hr send) in Hse; [discriminate|]. rewrite E1. exact Es.
    + right. split; [rewrite E1; exact Ha|]. rewrite E2. intros h Hb.
      assert (Hre : real x') by (split; [exists h; exact Hb|intros send Es; destruct (Hns send Es)]).
      destruct (out_Send_total (p_env P) s x' e1 Hre Hf) as (a & b & Hs' & _). congruence.
Qed.
Print Assumptions C71_stops_there.

(** Nothing else changes: not the loggers, names, creators, caches or configuration, no output's settings, and nothing at all in an output that
    was not sent the event. *)
Theorem C71_nothing_else_changes : forall P W n id c v lvl fmt args now ustk W',
  reach P W -> has_name W n id -> raised P W (OLog id c v lvl fmt args now ustk) W' ->
  W' = mkWorld (w_loggers W) (w_root W) (w_names W) (w_fcreators W) (w_ocreators W) (w_formats W) (w_outputs W)
         (w_config W) (w_heap W') (w_ticks W) (w_sent W') (w_warn W') /\
  (w_warn W' = w_warn W \/ w_warn W' = w_warn W ++ [n] /\ route W lvl n []) /\
  length (w_heap W') = length (w_heap W) /\
  (forall i x, nth_error (w_heap W) i = Some x -> exists x', nth_error (w_heap W') i = Some x' /\
     o_spec x' = o_spec x /\ o_fmt x' = o_fmt x /\ o_closed x' = o_closed x /\
     (forall new, w_sent W' = w_sent W ++ new -> ~ In i (map fst new) -> x' = x)).
Proof.
  intros P W n id c v lvl fmt args now ustk W' R (l & Hl & <-) H. pose proof (reach_inv _ _ R) as I.
  destruct (stop_spec _ _ _ _ _ _ _ _ _ _ _ _ I Hl H) as (outs & ops1 & rest & e & S).
  assert (Sd : sends W W').
  { unfold raised in H. cbn [try_exec] in H. injection H as H.
    destruct (try_Printf P W id c v lvl fmt args now ustk) as [X u|X] eqn:E; cbn [pbind] in H; [discriminate|]. injection H as <-.
    eapply try_Printf_sends; exact E. }
  destruct (stop_sent _ _ _ _ _ _ _ _ _ _ _ _ _ _ _ _ S) as (stk & evs & Hlen & Hk & Hs & Hw & Hh).
  split; [destruct Sd; destruct W'; cbn in *; subst; reflexivity|]. split.
  { destruct Hw as [Hw|[Hw Ho]]; [auto|right]. split; [exact Hw|]. rewrite <- Ho. exact (sp_route _ _ _ _ _ _ _ _ _ _ _ _ _ _ _ _ S). }
  split; [erewrite <- map_length, (sd_heap _ _ Sd), map_length; reflexivity|].
  intros i x Hx. destruct (Hh i x Hx) as (ls & x' & Hst & Hx' & Hrun). exists x'. split; [assumption|].
  destruct (map_nth_transfer _ _ _ _ _ (sd_heap _ _ Sd) Hx) as (y & Hy & E). assert (y = x') by congruence. subst y.
  injection E as E1 E2 E3. do 3 (split; [assumption|]). intros new Hnew Hni.
  rewrite Hs in Hnew. apply app_new in Hnew. subst new. assert (ls = []) as ->.
  { eapply sent_to_fun; [exact Hst|]. apply sent_to_none. exact Hni. }
  cbn in Hrun. congruence.
Qed.
Print Assumptions C71_nothing_else_changes.

(** A synchronous output that was sent the event has written it as ever (C26), and so has syslog (C27): nothing is taken back. *)
Lemma stop_heap P W n id c v lvl fmt args now ustk W' i x : reach P W -> has_name W n id -> good_ctx c ->
  raised P W (OLog id c v lvl fmt args now ustk) W' -> nth_error (w_heap W) i = Some x ->
  exists new l x', w_sent W' = w_sent W ++ new /\ sent_to i new l /\ Forall (fun p => formattable (snd p)) l /\
    nth_error (w_heap W') i = Some x' /\ out_runs (p_env P) x l = Ok x'.
Proof.
  intros R (l & Hl & <-) Hg H Hx. pose proof (reach_inv _ _ R) as I.
  destruct (stop_spec _ _ _ _ _ _ _ _ _ _ _ _ I Hl H) as (outs & ops1 & rest & e & S).
  destruct (stop_sent _ _ _ _ _ _ _ _ _ _ _ _ _ _ _ _ S) as (stk & evs & Hlen & Hk & Hs & _ & Hh).
  destruct (Hh i x Hx) as (ls & x' & Hst & Hx' & Hrun). exists (combine ops1 (map (pair stk) evs)), ls, x'.
  repeat split; auto. apply Forall_forall. intros [s e0] Hin. cbn. pose proof (sent_to_in _ _ _ _ Hst Hin) as Hin'.
  apply in_combine_sent in Hin' as (_ & _ & Hin'). rewrite Forall_forall in Hk. specialize (Hk _ Hin').
  eapply kept_formattable; [exact Hk|]. eapply stop_formattable; eassumption.
Qed.
Theorem C71_sync_output_wrote : forall P W n id c v lvl fmt args now ustk W' i x h,
  reach P W -> has_name W n id -> good_ctx c -> raised P W (OLog id c v lvl fmt args now ustk) W' ->
  nth_error (w_heap W) i = Some x -> sync_base x -> built h (o_fmt x) ->
  exists new l x' ws, w_sent W' = w_sent W ++ new /\ sent_to i new l /\ nth_error (w_heap W') i = Some x' /\
    o_writes x' = o_writes x ++ ws /\ written (p_env P) h (os_threshold (o_spec x)) l ws.
Proof.
  intros P W n id c v lvl fmt args now ustk W' i x h R Hn Hg H Hx Hs Hb.
  destruct (stop_heap _ _ _ _ _ _ _ _ _ _ _ _ _ _ R Hn Hg H Hx) as (new & l & x' & E1 & E2 & Hf & E3 & E4).
  destruct (out_runs_base _ _ _ _ Hs E4) as (ws & Hr & ->).
  destruct (base_run_spec (p_env P) h (o_fmt x) (os_threshold (o_spec x)) l Hb Hf) as (ws' & Hr' & Hw).
  assert (ws' = ws) by congruence. subst ws'. exists new, l, (with_writes ws x), ws. auto 6.
Qed.
Print Assumptions C71_sync_output_wrote.
Theorem C71_syslog_output_called : forall P W n id c v lvl fmt args now ustk W' i x h,
  reach P W -> has_name W n id -> good_ctx c -> raised P W (OLog id c v lvl fmt args now ustk) W' ->
  nth_error (w_heap W) i = Some x -> sync_syslog x -> built h (o_fmt x) ->
  exists new l x' ws, w_sent W' = w_sent W ++ new /\ sent_to i new l /\ nth_error (w_heap W') i = Some x' /\
    map sev_call (o_sys x') = map sev_call (o_sys x) ++ ws /\ sys_written (p_env P) h (os_threshold (o_spec x)) l ws.
Proof.
  intros P W n id c v lvl fmt args now ustk W' i x h R Hn Hg H Hx Hs Hb.
  destruct (stop_heap _ _ _ _ _ _ _ _ _ _ _ _ _ _ R Hn Hg H Hx) as (new & l & x' & E1 & E2 & Hf & E3 & E4).
  destruct (out_runs_sys _ _ _ _ Hs E4) as (ws & Hr & ->).
  destruct (syslog_run_spec (p_env P) h (o_fmt x) (os_threshold (o_spec x)) l Hb Hf) as (ws' & Hr' & Hw).
  assert (ws' = ws) by congruence. subst ws'. exists new, l, (with_sys ws x), (map sev_call ws).
  repeat split; auto. cbn. now rewrite map_app.
Qed.
Print Assumptions C71_syslog_output_called.

(** All panics of log calls are these, and the library goes on from there: what is left is a state like any other, about which all properties
    of reachable states hold. *)
Theorem C71_goes_on : forall P W n id c v lvl fmt args now ustk, reach P W -> has_name W n id ->
  op_ok W (OLog id c v lvl fmt args now ustk) -> exec P W (OLog id c v lvl fmt args now ustk) = Panic ->
  exists W', raised P W (OLog id c v lvl fmt args now ustk) W' /\ reach P W'.
Proof.
  intros P W n id c v lvl fmt args now ustk R (l & Hl & _) Ho H. pose proof (reach_inv _ _ R) as I.
  destruct (try_exec P W (OLog id c v lvl fmt args now ustk)) as [[X a|X]|] eqn:E; [| |discriminate E].
  - pose proof (exec_same _ _ _ _ E) as S. cbn [same_as] in S. congruence.
  - exists X. split; [exact E|]. eapply reach_panic; [exact R|exact Ho|exact E|].
    apply (raised_root_made P W _ _ I) with (2 := E). intros Hr. pose proof (si_rootptr _ _ _ (iv_sk _ I)) as Hq. rewrite Hr in Hq.
    pose proof (f_equal (fun ls => nth_error ls id) Hq) as Hz. cbn beta in Hz. rewrite (nth_skels _ _ _ Hl) in Hz. destruct id; discriminate Hz.
Qed.
Print Assumptions C71_goes_on.

(** ** Where it falls short *)
(** Three memory outputs at the root logger; the second has a user's formatter that panics. *)
Definition st_text : option formatter := match Parser ($"%{msg}") with Some ps => Some (FText ps) | None => None end.
Definition st_ops : list op :=
  [OGetLogger []; ONewOutput ex_mem st_text; ONewOutput ex_mem (Some (FUser (fun _ => Panic) 0)); ONewOutput ex_mem st_text; OSetOutputs 0 [1; 2; 3]%nat].
Definition st_W : world := ran ex_P st_ops.
Definition st_call : op := OLog 0 CtxBackground Named Error ($"hello") [] 0 ex_user.
Definition st_W' : world := match try_exec ex_P st_W st_call with Some (Raised W') => W' | _ => st_W end.
Lemma st_reach : reach ex_P st_W.
Proof. apply ran_reach. vm_compute. reflexivity. Qed.
Lemma st_raised : raised ex_P st_W st_call st_W'.
Proof.
  unfold raised, st_W'. assert (E : match try_exec ex_P st_W st_call with Some (Raised _) => true | _ => false end = true) by (vm_compute; reflexivity).
  destruct (try_exec ex_P st_W st_call) as [[?|?]|]; try discriminate E. reflexivity.
Qed.
Definition st_loggers : list (str * list nat) := Eval vm_compute in map (fun l => (l_name l, l_outputs l)) (w_loggers st_W).
Lemma st_loggers_eq : map (fun l => (l_name l, l_outputs l)) (w_loggers st_W) = st_loggers.
Proof. vm_compute. reflexivity. Qed.
Lemma st_root : exists l, nth_error (w_loggers st_W) 0 = Some l /\ l_name l = $"root" /\ l_outputs l = [1; 2; 3]%nat.
Proof.
  pose proof st_loggers_eq as E. unfold st_loggers in E. destruct (w_loggers st_W) as [|l [|? ?]]; try discriminate E.
  injection E as E1 E2. exists l. auto.
Qed.
Lemma st_routed : route st_W Error ($"root") [1; 2; 3]%nat.
Proof.
  destruct st_root as (l & Hl & Hn & Ho). rewrite <- Ho, <- Hn. eapply (rt_here st_W Error (l_name l) 1 0 l); [|discriminate|exact Hl|reflexivity|rewrite Ho; discriminate].
  assert (Hv : map l_level (w_loggers st_W) = [1]) by (vm_compute; reflexivity).
  destruct (w_loggers st_W) as [|l0 ls] eqn:El; [discriminate|]. injection Hl as ->. injection Hv as Hv _.
  rewrite <- Hv. apply (nlv_own _ _ 0%nat); [rewrite El; reflexivity|reflexivity|]. rewrite Hv. discriminate.
Qed.
Lemma one_sent (s s' : list (nat * (stack * event))) k : map fst s = [] -> map fst s' = [k] -> exists d, s = [] /\ s' = [d] /\ fst d = k.
Proof. destruct s; [|discriminate]. destruct s' as [|d [|? ?]]; try discriminate. intros _ [= <-]. eauto. Qed.
Lemma st_sent : exists d, w_sent st_W = [] /\ w_sent st_W' = [d] /\ fst d = 1%nat.
Proof. apply one_sent; vm_compute; reflexivity. Qed.
(** The third output does not get the event although it is one of the call's outputs and could format it: one output's formatter costs the
    outputs after it the event. *)
Theorem C71_others_refuted : exists P W n id c v lvl fmt args now ustk W' outs i x h,
  reach P W /\ has_name W n id /\ good_ctx c /\ raised P W (OLog id c v lvl fmt args now ustk) W' /\
  route W lvl n outs /\ In i outs /\ nth_error (w_heap W) i = Some x /\ sync_base x /\ built h (o_fmt x) /\ os_threshold (o_spec x) <= lvl /\
  w_sent W' <> w_sent W /\ nth_error (w_heap W') i = Some x.
Proof.
  destruct st_root as (l & Hl & Hn & Ho).
  exists ex_P, st_W, ($"root"), 0%nat, CtxBackground, Named, Error, ($"hello"), [], 0, ex_user, st_W', [1; 2; 3]%nat, 3%nat.
  assert (E : option_map (fun x => (o_spec x, o_fmt x, o_writes x)) (nth_error (w_heap st_W) 3) = Some (ex_mem, st_text, [])) by (vm_compute; reflexivity).
  destruct (nth_error (w_heap st_W) 3) as [x|] eqn:Ex; [|discriminate E]. cbn [option_map] in E. injection E as E1 E2 E3.
  destruct st_sent as (d & Hs & Hs' & Hd).
  assert (Hb : exists ps, Parser ($"%{msg}") = Some ps) by (vm_compute; eauto). destruct Hb as [ps Hb].
  exists x, (ByLayout ($"%{msg}")). split; [exact st_reach|]. split; [exists l; auto|]. split; [apply good_background|]. split; [exact st_raised|].
  split; [exact st_routed|]. split; [cbn; auto|]. split; [reflexivity|].
  split; [rewrite E1 || unfold sync_base; rewrite E1; cbn; auto|]. split; [rewrite E2; unfold st_text; rewrite Hb; now constructor|].
  split; [rewrite E1; discriminate|]. split; [intros F; discriminate (eq_trans (eq_sym Hs') (eq_trans F Hs))|].
  destruct (C71_nothing_else_changes ex_P st_W ($"root") 0%nat _ _ _ _ _ _ _ st_W' st_reach (ex_intro _ l (conj Hl Hn)) st_raised) as (_ & _ & _ & A).
  destruct (A 3%nat x Ex) as (x' & Hx' & _ & _ & _ & B). rewrite Hx'. f_equal.
  apply (B [d]); [exact (eq_trans Hs' (eq_sym (f_equal (fun s => s ++ [d]) Hs)))|]. cbn [map In]. rewrite Hd. intros [F|[]]. discriminate.
Qed.
Print Assumptions C71_others_refuted.

(** The call of the example: the first output has written, the others have not, and the next call works. *)
Example C71_ex : reach ex_P st_W /\ raised ex_P st_W st_call st_W' /\
  map o_writes (w_heap st_W') = [[]; [$"hello"]; []; []] /\ map fst (w_sent st_W') = [1%nat] /\
  match run ex_P st_W' [OSetOutputs 0 [1; 3]%nat; OLog 0 CtxBackground Named Error ($"again") [] 0 ex_user] with
  | Ok W2 => map o_writes (w_heap W2) | Panic => [] end = [[]; [$"hello"; $"again"]; []; [$"again"]].
Proof. split; [exact st_reach|]. split; [exact st_raised|]. vm_compute. auto. Qed.

(** The same with an output of the user's own that panics in Send, in the second place. *)
Definition own_ops : list op :=
  [OGetLogger []; ONewOutput ex_mem st_text; ONewOutput {| os_sink := SinkCustom (fun _ => false); os_async := None; os_threshold := Trace |} None;
   ONewOutput ex_mem st_text; OSetOutputs 0 [1; 2; 3]%nat].
Definition own_W : world := ran ex_P own_ops.
Definition own_W' : world := match try_exec ex_P own_W st_call with Some (Raised W') => W' | _ => own_W end.
Example C71_ex_own_output : reach ex_P own_W /\ raised ex_P own_W st_call own_W' /\
  map o_writes (w_heap own_W') = [[]; [$"hello"]; []; []] /\ map fst (w_sent own_W') = [1%nat] /\
  (exists x, nth_error (w_heap own_W) 2 = Some x /\ ~ returns x).
Proof.
  split; [apply ran_reach; vm_compute; reflexivity|]. split.
  { unfold raised, own_W'. assert (E : match try_exec ex_P own_W st_call with Some (Raised _) => true | _ => false end = true) by (vm_compute; reflexivity).
    destruct (try_exec ex_P own_W st_call) as [[?|?]|]; try discriminate E. reflexivity. }
  split; [vm_compute; reflexivity|]. split; [vm_compute; reflexivity|].
  assert (E : option_map (fun x => match os_sink (o_spec x) with SinkCustom send => Some send | _ => None end) (nth_error (w_heap own_W) 2) =
              Some (Some (fun _ => false))) by (vm_compute; reflexivity).
  destruct (nth_error (w_heap own_W) 2) as [x|]; [|discriminate E]. exists x. split; [reflexivity|]. cbn [option_map] in E. injection E as E.
  intros Hr. destruct (os_sink (o_spec x)) as [| | | |send] eqn:Es; try discriminate E. injection E as ->.
  discriminate (Hr _ Es (mkEvent [] [] [] 0 0 0 CtxBackground)).
Qed.

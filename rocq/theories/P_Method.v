(** Properties C73 and C74: the methods of loggers and writers. *)
From Verif Require Import GoStr Utf8 LevelModel EventModel LayoutModel ConfModel OutputModel WorldModel WorldSpec WorldBase WorldInv WorldProofs
  P_Hier P_Log MethodModel MethodSpec.
Local Open Scope Z_scope.

(** What a call of a method is. *)
Lemma asks_f_log x v w fmt args now ustk o : level_word x v -> asks_f x w fmt args now ustk o ->
  o = OLog (wr_logger w) (wr_ctx w) Named v fmt args now ustk.
Proof. intros L [m H]. destruct L; cbn in H; repeat destruct H as [H|H]; try discriminate; try contradiction; injection H as <-; reflexivity. Qed.
Lemma asks_m_log x v w args now ustk o : level_word x v -> asks_m x w args now ustk o ->
  o = OLog (wr_logger w) (wr_ctx w) Named v [] args now ustk.
Proof. intros L [m H]. destruct L; cbn in H; repeat destruct H as [H|H]; try discriminate; try contradiction; injection H as <-; reflexivity. Qed.
Lemma logs_at_log x v w o : level_word x v -> logs_at x w o -> exists fmt args now ustk, o = OLog (wr_logger w) (wr_ctx w) Named v fmt args now ustk.
Proof.
  intros L (now & ustk & [(fmt & args & H)|(args & H)]).
  - exists fmt, args, now, ustk. exact (asks_f_log _ _ _ _ _ _ _ _ L H).
  - exists [], args, now, ustk. exact (asks_m_log _ _ _ _ _ _ _ L H).
Qed.
Lemma guard_is x v g : level_word x v -> guard_of x g -> forall W id, g W id = LevelEnabled W id v.
Proof. intros L H. unfold guard_of in H. destruct L; cbn in H; repeat destruct H as [H|H]; try discriminate; try contradiction; injection H as <-; reflexivity. Qed.

(** ** C73 *)
(** Every level has both methods and the question whether it is enabled; there are no others. *)
Theorem C73_all_methods : forall x v, level_word x v -> exists mf m g,
  In (x ++ $"f", mf) format_methods /\ In (x, m) message_methods /\ In (x ++ $"Enabled", g) enabled_methods.
Proof. intros x v []; do 3 eexists; cbn; repeat split; tauto. Qed.
Print Assumptions C73_all_methods.
(** Each method logs at the level it is named after, through any writer, ... *)
Theorem C73_level : forall P W n x v w o W' r new i stk e, level_word x v -> logs_at x w o -> reach P W -> has_name W n (wr_logger w) ->
  exec P W o = Ok (W', r) -> w_sent W' = w_sent W ++ new -> In (i, (stk, e)) new ->
  ev_level e = v /\ ev_name e = n /\ forall up, LevelFrom up x = v.
Proof.
  intros P W n x v w o W' r new i stk e L Ha R Hn H Hs Hi. destruct (logs_at_log _ _ _ _ L Ha) as (fmt & args & now & ustk & ->).
  destruct (C08_event_data _ _ _ _ _ _ _ _ _ _ _ _ _ _ _ _ _ R Hn H Hs Hi) as (A & B & _).
  split; [exact B|]. split; [exact A|]. intros up. destruct L; reflexivity.
Qed.
Print Assumptions C73_level.
(** ... with the text that Sprintf or Sprint gives, if there are operands and the format is not empty. *)
Theorem C73_message_partial : forall P W n x v w now ustk o t W' r new i stk e, level_word x v -> promises (p_env P) x w now ustk o t ->
  (forall fmt, asks_f x w fmt [] now ustk o -> False) -> (forall args, asks_f x w [] args now ustk o -> False) -> e_sprint (p_env P) [] = [] ->
  reach P W -> has_name W n (wr_logger w) -> exec P W o = Ok (W', r) -> w_sent W' = w_sent W ++ new -> In (i, (stk, e)) new ->
  ev_Message (p_env P) e = t /\ ev_time e = now.
Proof.
  intros P W n x v w now ustk o t W' r new i stk e L Hp Na Nf E0 R Hn H Hs Hi. destruct Hp as [fmt args o Ha|args o Ha].
  - pose proof (asks_f_log _ _ _ _ _ _ _ _ L Ha) as Eo. rewrite Eo in H.
    destruct (C08_event_data _ _ _ _ _ _ _ _ _ _ _ _ _ _ _ _ _ R Hn H Hs Hi) as (_ & _ & B & C & D). split; [|exact D].
    unfold ev_Message. rewrite B, C. destruct args as [|a args]; [destruct (Na fmt Ha)|]. destruct fmt; [destruct (Nf _ Ha)|reflexivity].
  - pose proof (asks_m_log _ _ _ _ _ _ _ L Ha) as Eo. rewrite Eo in H.
    destruct (C08_event_data _ _ _ _ _ _ _ _ _ _ _ _ _ _ _ _ _ R Hn H Hs Hi) as (_ & _ & B & C & D). split; [|exact D].
    unfold ev_Message. rewrite B, C. destruct args; [now rewrite E0|reflexivity].
Qed.
Print Assumptions C73_message_partial.
(** A writer made with fields logs for its logger, and at the logger's own outputs each event has under each key the value of the last field with
    that key; the fields of another writer, or of an earlier one, are not there. *)
Theorem C73_fields : forall P W l x v id fs o W' r new i stk e k, level_word x v -> logs_at x (WithFields id fs) o -> reach P W ->
  nth_error (w_loggers W) id = Some l -> l_outputs l <> [] -> exec P W o = Ok (W', r) -> w_sent W' = w_sent W ++ new -> In (i, (stk, e)) new ->
  k <> $"__caller_info" -> ev_name e = l_name l /\ exists y, ctx_Value (ev_ctx e) k = Ok y /\ field_value k fs y.
Proof.
  intros P W l x v id fs o W' r new i stk e k L Ha R Hl Ho H Hs Hi Hk. destruct (logs_at_log _ _ _ _ L Ha) as (fmt & args & now & ustk & ->).
  cbn [WithFields wr_logger wr_ctx] in H.
  split; [exact (proj1 (C08_event_data _ _ _ _ _ _ _ _ _ _ _ _ _ _ _ _ _ R (ex_intro _ l (conj Hl eq_refl)) H Hs Hi))|].
  rewrite (C09_own_outputs_partial _ _ _ _ _ _ _ _ _ _ _ _ _ _ _ _ _ _ k R Hl eq_refl Ho H Hs Hi Hk). apply C10_last_field_wins.
Qed.
Print Assumptions C73_fields.
(** A writer made with a context hands on what the context has; the writer that is part of a logger has nothing to hand on. *)
Theorem C73_context : forall P W l x v id c o W' r new i stk e k, level_word x v -> logs_at x (WithCtx id c) o -> reach P W ->
  nth_error (w_loggers W) id = Some l -> l_outputs l <> [] -> exec P W o = Ok (W', r) -> w_sent W' = w_sent W ++ new -> In (i, (stk, e)) new ->
  k <> $"__caller_info" -> ev_name e = l_name l /\ ctx_Value (ev_ctx e) k = ctx_Value c k.
Proof.
  intros P W l x v id c o W' r new i stk e k L Ha R Hl Ho H Hs Hi Hk. destruct (logs_at_log _ _ _ _ L Ha) as (fmt & args & now & ustk & ->).
  cbn [WithCtx wr_logger wr_ctx] in H.
  split; [exact (proj1 (C08_event_data _ _ _ _ _ _ _ _ _ _ _ _ _ _ _ _ _ R (ex_intro _ l (conj Hl eq_refl)) H Hs Hi))|].
  exact (C09_own_outputs_partial _ _ _ _ _ _ _ _ _ _ _ _ _ _ _ _ _ _ k R Hl eq_refl Ho H Hs Hi Hk).
Qed.
Print Assumptions C73_context.
Theorem C73_plain : forall P W l x v id o W' r new i stk e k, level_word x v -> logs_at x (own_writer id) o -> reach P W ->
  nth_error (w_loggers W) id = Some l -> exec P W o = Ok (W', r) -> w_sent W' = w_sent W ++ new -> In (i, (stk, e)) new ->
  k <> $"__caller_info" -> ev_name e = l_name l /\ ctx_Value (ev_ctx e) k = Ok VNil.
Proof.
  intros P W l x v id o W' r new i stk e k L Ha R Hl H Hs Hi Hk. destruct (logs_at_log _ _ _ _ L Ha) as (fmt & args & now & ustk & ->).
  cbn [own_writer wr_logger wr_ctx] in H. assert (Hn : has_name W (l_name l) id) by (exists l; auto).
  split; [exact (proj1 (C08_event_data _ _ _ _ _ _ _ _ _ _ _ _ _ _ _ _ _ R Hn H Hs Hi))|].
  eapply C10_plain_writer_has_no_fields; eassumption.
Qed.
Print Assumptions C73_plain.
(** Without operands the format is the text as it is; with an empty format the operands are printed as by the other method. *)
Theorem C73_no_operands : forall P W n x v w fmt now ustk o W' r new i stk e, level_word x v -> asks_f x w fmt [] now ustk o ->
  reach P W -> has_name W n (wr_logger w) -> exec P W o = Ok (W', r) -> w_sent W' = w_sent W ++ new -> In (i, (stk, e)) new ->
  ev_Message (p_env P) e = fmt.
Proof.
  intros P W n x v w fmt now ustk o W' r new i stk e L Ha R Hn H Hs Hi. rewrite (asks_f_log _ _ _ _ _ _ _ _ L Ha) in H.
  destruct (C08_event_data _ _ _ _ _ _ _ _ _ _ _ _ _ _ _ _ _ R Hn H Hs Hi) as (_ & _ & B & C & _). unfold ev_Message. now rewrite B, C.
Qed.
Print Assumptions C73_no_operands.
Theorem C73_empty_format : forall P W n x v w args now ustk o W' r new i stk e, level_word x v -> asks_f x w [] args now ustk o -> args <> [] ->
  reach P W -> has_name W n (wr_logger w) -> exec P W o = Ok (W', r) -> w_sent W' = w_sent W ++ new -> In (i, (stk, e)) new ->
  ev_Message (p_env P) e = e_sprint (p_env P) args.
Proof.
  intros P W n x v w args now ustk o W' r new i stk e L Ha Hne R Hn H Hs Hi. rewrite (asks_f_log _ _ _ _ _ _ _ _ L Ha) in H.
  destruct (C08_event_data _ _ _ _ _ _ _ _ _ _ _ _ _ _ _ _ _ R Hn H Hs Hi) as (_ & _ & B & C & _). unfold ev_Message. rewrite B, C.
  now destruct args.
Qed.
Print Assumptions C73_empty_format.
(** So Infof("100%%"), of which Sprintf makes "100%", logs "100%%". *)
Definition mt_env : env :=
  mkEnv (fun f _ => if str_eqb f ($"100%%") then $"100%" else f) (fun _ => []) (fun _ l => $"T") 42 ($"prog") (fun _ => Some ($"m/p.F")).
Definition mt_P : params :=
  mkParams mt_env (fun r => r) (fun r => r) (fun _ => true) (fun _ => (empty_config, true)) (fun _ => (empty_config, true))
    (fun _ => None) (ex_frame 1) (ex_frame 2) (ex_frame 3) (ex_frame 4) [ex_frame 5].
Definition mt_ops : list op := [OGetLogger []; ONewOutput ex_mem None; OSetOutputs 0 [1%nat]].
Definition mt_W : world := ran mt_P mt_ops.
Definition mt_call : op := Infof (own_writer 0) ($"100%%") [] 0 ex_user.
Lemma mt_reach : reach mt_P mt_W.
Proof. apply ran_reach. vm_compute. reflexivity. Qed.
Lemma mt_name : has_name mt_W ($"root") 0.
Proof.
  assert (E : map l_name (w_loggers mt_W) = [$"root"]) by (vm_compute; reflexivity). unfold has_name. destruct (w_loggers mt_W) as [|l ls]; [discriminate|].
  injection E as E _. exists l. auto.
Qed.
Definition mt_W' : world := match exec mt_P mt_W mt_call with Ok (W, _) => W | Panic => mt_W end.
Lemma mt_exec : exec mt_P mt_W mt_call = Ok (mt_W', RUnit).
Proof.
  assert (E : match exec mt_P mt_W mt_call with Ok (_, RUnit) => true | _ => false end = true) by (vm_compute; reflexivity).
  unfold mt_W'. destruct (exec mt_P mt_W mt_call) as [[W []]|]; try discriminate. reflexivity.
Qed.
Lemma mt_sent : exists new i stk e, w_sent mt_W' = w_sent mt_W ++ new /\ In (i, (stk, e)) new.
Proof.
  destruct (C07_delivered_to_route _ _ _ _ _ _ _ _ _ _ _ _ _ mt_reach mt_name mt_exec) as (new & A & _). exists new.
  assert (E : map fst (w_sent mt_W') = [1%nat] /\ map fst (w_sent mt_W) = []) by (vm_compute; auto). destruct E as [E1 E2].
  pose proof (f_equal (map fst) A) as F. rewrite map_app, E1, E2 in F. destruct new as [|[i [stk e]] new]; [discriminate F|].
  exists i, stk, e. split; [exact A|now left].
Qed.
Theorem C73_message_refuted : exists P W n x v w now ustk o t W' r new i stk e, level_word x v /\ promises (p_env P) x w now ustk o t /\
  reach P W /\ has_name W n (wr_logger w) /\ exec P W o = Ok (W', r) /\ w_sent W' = w_sent W ++ new /\ In (i, (stk, e)) new /\
  ev_Message (p_env P) e <> t.
Proof.
  destruct mt_sent as (new & i & stk & e & Hs & Hi).
  assert (Ha : asks_f ($"Info") (own_writer 0) ($"100%%") [] 0 ex_user mt_call) by (apply af_call with (m := Infof); cbn; tauto).
  exists mt_P, mt_W, ($"root"), ($"Info"), 4, (own_writer 0), 0, ex_user, mt_call, ($"100%"), mt_W', RUnit, new, i, stk, e.
  split; [constructor|]. split; [exact (pm_f mt_env ($"Info") (own_writer 0) 0 ex_user ($"100%%") [] mt_call Ha)|].
  split; [exact mt_reach|]. split; [exact mt_name|]. split; [exact mt_exec|]. split; [exact Hs|]. split; [exact Hi|].
  rewrite (C73_no_operands mt_P mt_W ($"root") ($"Info") 4 (own_writer 0) ($"100%%") 0 ex_user mt_call mt_W' RUnit new i stk e lw_info Ha
    mt_reach mt_name mt_exec Hs Hi). discriminate.
Qed.
Print Assumptions C73_message_refuted.

(** ** C74 *)
(** XEnabled answers whether X is at or above the logger's effective level ... *)
Theorem C74_effective : forall P W n id x v g e, level_word x v -> guard_of x g -> reach P W -> has_name W n id -> name_level W n e ->
  (g W id = true <-> e <= v).
Proof. intros P W n id x v g e L Hg R Hn He. rewrite (guard_is _ _ _ L Hg). eapply C02_enabled_iff; eassumption. Qed.
Print Assumptions C74_effective.
(** ... and a higher level is enabled when a lower one is. *)
Theorem C74_upward : forall W id x v g y u h, level_word x v -> guard_of x g -> level_word y u -> guard_of y h -> v <= u -> g W id = true -> h W id = true.
Proof. intros W id x v g y u h L Hg L' Hh Hv. rewrite (guard_is _ _ _ L Hg), (guard_is _ _ _ L' Hh). intros H. eapply C02_enabled_upward; eassumption. Qed.
Print Assumptions C74_upward.
(** When it says no, both methods have no effect: asking first changes nothing but the evaluation of the arguments. *)
Theorem C74_guard : forall P W n x v g w o, level_word x v -> guard_of x g -> logs_at x w o -> reach P W -> has_name W n (wr_logger w) ->
  (if g W (wr_logger w) then exec P W o else Ok (W, RUnit)) = exec P W o.
Proof.
  intros P W n x v g w o L Hg Ha R Hn. destruct (logs_at_log _ _ _ _ L Ha) as (fmt & args & now & ustk & ->).
  rewrite (guard_is _ _ _ L Hg). destruct (LevelEnabled W (wr_logger w) v) eqn:E; [reflexivity|]. symmetry.
  eapply C02_below_level_no_effect; [exact R|exact Hn|apply (Level_iff W n (wr_logger w)); [exact (reach_inv _ _ R)|exact Hn|reflexivity]|].
  unfold LevelEnabled in E. lia.
Qed.
Print Assumptions C74_guard.
(** When it says yes and the logger has outputs, each of them gets the event; ... *)
Theorem C74_yes : forall P W id l x v g w o W' r, level_word x v -> guard_of x g -> logs_at x w o -> reach P W -> wr_logger w = id ->
  nth_error (w_loggers W) id = Some l -> l_outputs l <> [] -> g W id = true -> exec P W o = Ok (W', r) ->
  exists new, w_sent W' = w_sent W ++ new /\ map fst new = l_outputs l.
Proof.
  intros P W id l x v g w o W' r L Hg Ha R <- Hl Ho G H. destruct (logs_at_log _ _ _ _ L Ha) as (fmt & args & now & ustk & ->).
  rewrite (guard_is _ _ _ L Hg) in G. assert (Hn : has_name W (l_name l) (wr_logger w)) by (exists l; auto).
  destruct (C07_delivered_to_route _ _ _ _ _ _ _ _ _ _ _ _ _ R Hn H) as (new & Hs & Hr). exists new. split; [exact Hs|].
  eapply (C07_route_unique P W (l_name l) v); [exact R|exact Hr|].
  apply rt_here with (e := Level W (wr_logger w)) (id := wr_logger w); auto; [|unfold LevelEnabled in G; lia].
  apply (Level_iff W (l_name l) (wr_logger w)); [exact (reach_inv _ _ R)|exact Hn|reflexivity].
Qed.
Print Assumptions C74_yes.
(** ... when the logger has none, its parent decides by its own level. *)
Theorem C74_yes_inherited : forall P W n id l p pid x v g w o W' r, level_word x v -> guard_of x g -> logs_at x w o -> reach P W -> wr_logger w = id ->
  nth_error (w_loggers W) id = Some l -> l_name l = n -> l_outputs l = [] -> n <> $"root" -> parent_name n p -> has_name W p pid ->
  g W id = true -> exec P W o = Ok (W', r) ->
  exists new, w_sent W' = w_sent W ++ new /\ route W v p (map fst new) /\ (g W pid = false -> new = []).
Proof.
  intros P W n id l p pid x v g w o W' r L Hg Ha R <- Hl Hnm Ho Hr Hp Hpid G H. destruct (logs_at_log _ _ _ _ L Ha) as (fmt & args & now & ustk & ->).
  rewrite (guard_is _ _ _ L Hg) in *. assert (Hn : has_name W n (wr_logger w)) by (exists l; auto). pose proof (reach_inv _ _ R) as I.
  destruct (C07_delivered_to_route _ _ _ _ _ _ _ _ _ _ _ _ _ R Hn H) as (new & Hs & Ht). exists new. split; [exact Hs|].
  destruct (C07_route_exists P W p pid v R Hpid) as (outs & Hq).
  assert (E : map fst new = outs).
  { eapply (C07_route_unique P W n v); [exact R|exact Ht|]. apply rt_up with (e := Level W (wr_logger w)) (id := wr_logger w) (l := l) (p := p); auto.
    - apply (Level_iff W n (wr_logger w)); auto.
    - unfold LevelEnabled in G. lia. }
  rewrite E. split; [exact Hq|]. intros F.
  assert (E0 : outs = []).
  { eapply (C07_route_unique P W p v); [exact R|exact Hq|]. apply rt_blocked with (e := Level W pid); [apply (Level_iff W p pid); auto|].
    unfold LevelEnabled in F. lia. }
  rewrite E0 in E. destruct new; [reflexivity|discriminate].
Qed.
Print Assumptions C74_yes_inherited.
(** So a yes is no promise: the logger "a" has level Trace and its parent has outputs, but level Error. *)
Definition gd_ops : list op := [OGetLogger ($"a"); ONewOutput ex_mem None; OSetOutputs 0 [1%nat]; OSetLevel 0 Error; OSetLevel 1 Trace].
Definition gd_W : world := ran ex_P gd_ops.
Definition gd_call : op := Infof (own_writer 1) ($"hello") [] 0 ex_user.
Lemma gd_reach : reach ex_P gd_W.
Proof. apply ran_reach. vm_compute. reflexivity. Qed.
Definition gd_loggers : list (str * list nat) := Eval vm_compute in map (fun l => (l_name l, l_outputs l)) (w_loggers gd_W).
Theorem C74_yes_refuted : exists P W n p x v g w o W' pid lp, level_word x v /\ guard_of x g /\ logs_at x w o /\ reach P W /\
  has_name W n (wr_logger w) /\ g W (wr_logger w) = true /\ parent_name n p /\ nth_error (w_loggers W) pid = Some lp /\ l_name lp = p /\
  l_outputs lp <> [] /\ exec P W o = Ok (W', RUnit) /\ W' = W.
Proof.
  assert (E : map (fun l => (l_name l, l_outputs l)) (w_loggers gd_W) = gd_loggers) by (vm_compute; reflexivity). unfold gd_loggers in E.
  destruct (w_loggers gd_W) as [|l0 [|l1 ls]] eqn:El; try discriminate E. injection E as E1 E2 E3 E4 _.
  assert (Hn : has_name gd_W ($"a") 1) by (exists l1; rewrite El; auto).
  assert (Hg : guard_of ($"Info") InfoEnabled) by (unfold guard_of; cbn; tauto).
  assert (Ha : logs_at ($"Info") (own_writer 1) gd_call).
  { exists 0, ex_user. left. exists ($"hello"), []. apply (af_call ($"Info") (own_writer 1) ($"hello") [] 0 ex_user Infof). cbn. tauto. }
  exists ex_P, gd_W, ($"a"), ($"root"), ($"Info"), 4, InfoEnabled, (own_writer 1), gd_call, gd_W, 0%nat, l0.
  split; [constructor|]. split; [exact Hg|]. split; [exact Ha|]. split; [exact gd_reach|]. split; [exact Hn|].
  split; [vm_compute; reflexivity|]. split.
  { apply pn_root. intros q (Hq & c & rest & [-> | ->] & Eq); destruct q as [|a [|b q]]; try discriminate Eq; now apply Hq. }
  split; [rewrite El; reflexivity|]. split; [exact E1|]. split; [rewrite E2; discriminate|]. split; [|reflexivity].
  unfold gd_call, Infof, leveled. cbn [exec wr_logger wr_ctx own_writer].
  unfold Printf. rewrite El. cbn [nth_error].
  rewrite (write_blocked ex_P gd_W Info (reach_inv _ _ gd_reach) 1) with (l := l1); [reflexivity| |lia|rewrite El; reflexivity].
  assert (Ep : option_map l_parent (nth_error (w_loggers gd_W) 1) = Some (Some 0%nat)) by (vm_compute; reflexivity). rewrite El in Ep. cbn in Ep. injection Ep as Ep.
  apply bl_up with (l := l1) (p := 0%nat); [rewrite El; reflexivity|vm_compute; discriminate|exact E4|exact Ep|]. apply bl_here. vm_compute. reflexivity.
Qed.
Print Assumptions C74_yes_refuted.
(** The guard of the example says yes for the levels from Trace on, no for none; at the parent it says no below Error. *)
Example C74_ex : map (fun '(_, g) => (g gd_W 1%nat, g gd_W 0%nat)) enabled_methods =
  [(true, false); (true, false); (true, false); (true, false); (true, true); (true, true)].
Proof. vm_compute. reflexivity. Qed.
(** An operand: the text is what Sprintf makes of both. *)
Example C73_ex : exists o : op, promises mt_env ($"Warn") (own_writer 0) 0 ex_user o ($"n=%d") /\
  match exec mt_P mt_W o with Ok (W', _) => map (fun d => (ev_level (snd (snd d)), ev_Message mt_env (snd (snd d)))) (w_sent W') | Panic => [] end = [(Warn, $"n=%d")].
Proof.
  exists (Warnf (own_writer 0) ($"n=%d") [VInt 3] 0 ex_user). split; [|vm_compute; reflexivity].
  apply (pm_f mt_env ($"Warn") (own_writer 0) 0 ex_user ($"n=%d") [VInt 3]). apply af_call. cbn. tauto.
Qed.
(** A writer with a field used twice: the last one counts. *)
Example C73_fields_ex : match exec mt_P mt_W (InfoMsg (WithFields 0 [($"k", VInt 1); ($"k", VInt 2)]) [VStr ($"m")] 0 ex_user) with
  | Ok (W', _) => map (fun d => (ctx_Value (ev_ctx (snd (snd d))) ($"k"), ctx_Value (ev_ctx (snd (snd d))) ($"j"))) (w_sent W')
  | Panic => [] end = [(Ok (VInt 2), Ok VNil)].
Proof. vm_compute. reflexivity. Qed.

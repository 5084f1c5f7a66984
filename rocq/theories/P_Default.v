(** Property C56: the library out of the box. *)
From Verif Require Import GoStr Utf8 LevelModel EventModel LevelSpec LayoutModel LayoutSpec LayoutProofs FormatSpec FormatProofs ConfModel
  OutputModel OutputSpec OutputProofs WorldModel WorldSpec WorldBase WorldInv WorldProofs P_Hier LogProofs P_Log P_Manager DefaultSpec.
Local Open Scope Z_scope.

Definition default_parts : list part := Eval vm_compute in match Parser default_layout with Some ps => ps | None => [] end.
Lemma default_parsed : Parser default_layout = Some default_parts.
Proof. vm_compute. reflexivity. Qed.
Definition default_items : list layout_item := Eval vm_compute in map describe default_parts.
Lemma default_splits items : splits default_layout items -> items = default_items.
Proof.
  intros H. pose proof default_parsed as HP. apply Parser_exact in HP as (i2 & H2 & _ & E). rewrite (splits_det _ _ _ H H2).
  assert (D : map describe default_parts = i2).
  { rewrite E, map_map, (map_ext_in _ (fun i => i)); [apply map_id|]. intros i Hin. apply describe_part_of.
    pose proof (splits_ok _ _ H2) as Hok. rewrite Forall_forall in Hok. auto. }
  rewrite <- D. reflexivity.
Qed.

Definition console : out_spec := {| os_sink := SinkStdout; os_async := None; os_threshold := 1 |}.
Definition boxed_root : logger := mkLogger ($"root") 1 None [0%nat] 3 2.
Record fresh (P : params) (W : world) : Prop := {
  fr_loggers : w_loggers W = []; fr_root : w_root W = None; fr_names : w_names W = [];
  fr_formats : w_formats W = []; fr_outputs : w_outputs W = []; fr_heap : w_heap W = [] }.
Record lived (W : world) : Prop := {
  lv_root : w_root W = Some 0%nat;
  lv_first : nth_error (w_loggers W) 0 = Some boxed_root;
  lv_rest : forall id l, nth_error (w_loggers W) (S id) = Some l -> exists n p, l = newLogger n (Some p);
  lv_heap : exists x, w_heap W = [x] /\ o_spec x = console /\ o_fmt x = Some (FText default_parts) }.
Record boxed (P : params) (W : world) : Prop := {
  bx_fc : w_fcreators W = w_fcreators (init_world P); bx_oc : w_ocreators W = w_ocreators (init_world P);
  bx_cfg : w_config W = default_config; bx_case : fresh P W \/ lived W }.

Lemma first_root P W : boxed P W -> fresh P W -> exists W', getRootLogger P W = Ok (W', 0%nat) /\ boxed P W' /\ lived W' /\
  w_loggers W' = [boxed_root] /\ exists x, w_heap W' = [x] /\ o_writes x = [].
Proof.
  intros [A B C _] [D E F G H I].
  set (W1 := set_factory W [newLogger rootName None] (Some 0%nat) []).
  set (out := mkOut console (Some (FText default_parts)) [] [] 0).
  set (f1 := [($"type", $"text"); ($"name", $"f1"); ($"layout", default_layout)] : smap str).
  set (o1 := [($"type", $"console"); ($"name", $"c1"); ($"format", $"f1")] : smap str).
  assert (HG : GetLoggerOutputs P W1 rootName = Ok (set_caches W1 [($"f1", FText default_parts)] [($"c1", 0%nat)] [out] (S (S (w_ticks W))),
    mkGlo [0%nat] 1 false)).
  { unfold GetLoggerOutputs. cbn [W1 set_factory w_config]. rewrite C.
    change (GetCfgLogger default_config rootName) with (Some (mkCL ($"root") ($"all") [$"c1"])). cbn [cl_outputs cl_level].
    replace (LevelFrom (p_up P) ($"all")) with 1 by (vm_compute; reflexivity).
    cbn [glo_loop]. cbn [W1 set_factory w_config]. rewrite C. change (GetCfgOutput default_config ($"c1")) with (Some o1). cbv iota.
    change (cfg_FormatName (Some o1)) with ($"f1"). rewrite ?C. change (GetCfgFormat default_config ($"f1")) with (Some f1). cbv iota.
    cbn [W1 set_factory w_fcreators w_ocreators w_formats w_outputs w_heap w_ticks w_config]. rewrite ?A, ?B, ?G, ?H, ?I. 
    rewrite init_fc. change (mlookup (cfg_Type (Some f1)) [($"text", fun _ : nat => NewTextFormatter)]) with (Some (fun _ : nat => NewTextFormatter)).
    cbv iota. change (cfg_Name (Some f1)) with ($"f1"). cbn [mlookup minsert].
    assert (NF : NewTextFormatter (Some f1) = Ok (Some (FText default_parts))) by (vm_compute; reflexivity).
    cbv beta. rewrite NF.
    cbn [bind]. cbn [set_caches W1 set_factory w_ocreators w_outputs w_heap w_formats w_ticks]. rewrite B, init_oc.
    change (cfg_Type (Some o1)) with ($"console"). change (cfg_Name (Some o1)) with ($"c1").
    match goal with |- context [mlookup ($"console") ?m] => change (mlookup ($"console") m) with (Some (fun _ : nat => NewConsoleOutput (p_up P))) end.
    cbv beta iota. cbn [mlookup minsert]. cbv beta. 
    assert (NC : NewConsoleOutput (p_up P) (Some o1) = Created console) by (vm_compute; reflexivity). rewrite NC.
    reflexivity. }
  unfold getRootLogger. rewrite E, D, F. cbn [length app]. fold W1. rewrite HG. cbn [bind g_err g_lvl g_ops].
  assert (HS : SetOutputs (SetLevel (set_caches W1 [($"f1", FText default_parts)] [($"c1", 0%nat)] [out] (S (S (w_ticks W)))) 0 1) 0 [0%nat] =
    Ok (set_loggers (set_caches W1 [($"f1", FText default_parts)] [($"c1", 0%nat)] [out] (S (S (w_ticks W)))) [boxed_root])).
  { reflexivity. }
  rewrite HS. cbn [bind]. eexists. split; [reflexivity|].
  assert (L : forall X, w_root X = Some 0%nat -> w_loggers X = [boxed_root] ->
    w_heap X = [mkOut console (Some (FText default_parts)) [] [] 0] -> lived X).
  { intros X E1 E2 E3. constructor; rewrite ?E2, ?E3; auto.
    - intros [|id] l Hl; discriminate.
    - eexists. split; [reflexivity|]. split; reflexivity. }
  split; [|split; [apply L; reflexivity|split; [reflexivity|eexists; split; reflexivity]]].
  constructor; [exact A|exact B|exact C|]. right. apply L; reflexivity.
Qed.
Lemma no_entry n : n <> $"root" -> GetCfgLogger default_config n = None.
Proof. intros H. unfold GetCfgLogger. cbn [default_config c_loggers find cl_name]. destruct (str_eqb_spec ($"root") n); [congruence|reflexivity]. Qed.
Lemma root_boxed P W : boxed P W -> exists W' r, getRootLogger P W = Ok (W', r) /\ boxed P W' /\ lived W'.
Proof.
  intros B. destruct (bx_case _ _ B) as [F|L].
  - destruct (first_root P W B F) as (W' & H1 & H2 & H3 & _). eauto 6.
  - unfold getRootLogger. rewrite (lv_root _ L). eauto 6.
Qed.
Lemma create_boxed P W n p W' id : boxed P W -> lived W -> createLogger W n p = (W', id) -> boxed P W' /\ lived W'.
Proof.
  unfold createLogger. intros B L. destruct (mlookup n (w_names W)); intros [= <- <-]; [auto|].
  assert (L' : lived (set_factory W (w_loggers W ++ [newLogger n (Some p)]) (w_root W) (minsert n (length (w_loggers W)) (w_names W)))).
  { constructor; cbn [set_factory w_root w_loggers w_heap]; try apply L.
    - rewrite nth_error_app1; [apply L|]. apply nth_error_Some. rewrite (lv_first _ L). discriminate.
    - intros i l Hl. destruct (nth_snoc_inv _ _ _ _ Hl) as [[_ H]|[_ H]]; [|eauto]. now apply (lv_rest _ L) in H. }
  split; [|exact L']. constructor; try apply B. right. exact L'.
Qed.
Lemma parent_boxed P name rs : forall W p W' id, boxed P W -> lived W -> parent_loop W name rs p = (W', id) -> boxed P W' /\ lived W'.
Proof.
  induction rs as [|[i c] rs IH]; intros W p W' id B L H; cbn [parent_loop] in H; [injection H as <- <-; auto|].
  destruct (_ || _); [|eauto]. destruct (firstn i name) as [|a b]; [eauto|]. destruct (createLogger W (a :: b) p) as [W1 q] eqn:E.
  destruct (create_boxed _ _ _ _ _ _ B L E). eauto.
Qed.
Lemma get_boxed P W n : inv W -> boxed P W -> exists W' id, GetLogger P W n = Ok (W', id) /\ boxed P W' /\ lived W'.
Proof.
  intros I B. unfold GetLogger. destruct (_ || _) eqn:E; [now apply root_boxed|]. apply orb_false_iff in E as [_ E].
  destruct (mlookup n (w_names W)) as [id|] eqn:En.
  - exists W, id. split; [reflexivity|]. split; [assumption|]. destruct (bx_case _ _ B) as [F|L]; [|assumption].
    rewrite (fr_names _ _ F) in En. discriminate.
  - destruct (root_boxed P W B) as (W1 & r & H1 & B1 & L1). unfold getParent. rewrite H1. cbn [bind].
    destruct (parent_loop W1 n (range_str n) r) as [W2 p] eqn:E2. destruct (parent_boxed _ _ _ _ _ _ _ B1 L1 E2) as [B2 L2].
    destruct (createLogger W2 n p) as [W3 id] eqn:E3. destruct (create_boxed _ _ _ _ _ _ B2 L2 E3) as [B3 L3].
    unfold GetLoggerOutputs. rewrite (bx_cfg _ _ B3), no_entry; [|intros ->; discriminate]. cbn [bind apply_glo g_err]. eauto.
Qed.
Lemma lived_heap W W' x : lived W -> w_loggers W' = w_loggers W -> w_root W' = w_root W -> w_heap W' = [x] ->
  o_spec x = console -> o_fmt x = Some (FText default_parts) -> lived W'.
Proof.
  intros L E1 E2 E3 E4 E5. constructor; rewrite ?E1, ?E2; try apply L. exists x. auto.
Qed.
Lemma sends_boxed P W W' : sends W W' -> boxed P W -> lived W -> boxed P W' /\ lived W'.
Proof.
  intros S B L. destruct (lv_heap _ L) as (x & E1 & E2 & E3).
  pose proof (sd_heap _ _ S) as H. rewrite E1 in H. destruct (w_heap W') as [|x' [|y h]] eqn:E; try discriminate.
  injection H as A1 A2 A3.
  assert (L' : lived W').
  { eapply (lived_heap W W' x'); try congruence; [apply S|apply S]. }
  split; [|assumption]. constructor; [| | |now right]; [transitivity (w_fcreators W)|transitivity (w_ocreators W)|transitivity (w_config W)]; try apply S; try apply B.
Qed.
Lemma log_lived W id c v lvl fmt args now ustk P W' r : boxed P W -> exec P W (OLog id c v lvl fmt args now ustk) = Ok (W', r) -> lived W.
Proof.
  intros B H. apply log_inv in H as [H _]. destruct (bx_case _ _ B) as [F|L]; [|assumption]. exfalso.
  unfold Printf in H. rewrite (fr_loggers _ _ F) in H. destruct id; discriminate.
Qed.
Lemma close_boxed P W : boxed P W -> boxed P (Close W).
Proof.
  intros B. constructor; try apply B. destruct (bx_case _ _ B) as [F|L].
  - left. constructor; cbn [Close set_heap w_loggers w_root w_names w_formats w_outputs w_heap]; try apply F.
    rewrite (fr_outputs _ _ F), (fr_heap _ _ F). reflexivity.
  - right. destruct (lv_heap _ L) as (x & E1 & E2 & E3).
    pose proof (close_fold_map (fun o => (o_spec o, o_fmt o)) (w_outputs W) (fun o => eq_refl) (w_heap W)) as H.
    rewrite E1 in H. cbn [map] in H.
    destruct (fold_left (fun h p => upd (snd p) close_out h) (w_outputs W) [x]) as [|y [|z t]] eqn:E; try discriminate.
    injection H as H1 H2. apply (lived_heap W _ y); auto; try congruence. cbn. now rewrite E1.
Qed.
Lemma box_boxed P W : out_of_the_box P W -> reach P W /\ boxed P W.
Proof.
  induction 1 as [|W o W' r _ [R B] U K H].
  - split; [constructor|]. constructor; try reflexivity. left. constructor; reflexivity.
  - split; [econstructor; eassumption|]. destruct o; try contradiction.
    + destruct (get_boxed P W name (reach_inv _ _ R) B) as (W1 & id & E & B1 & _). cbn [exec] in H. rewrite E in H.
      cbn [bind] in H. injection H as <- <-. assumption.
    + pose proof (log_lived _ _ _ _ _ _ _ _ _ _ _ _ B H) as L. apply log_inv in H as [H _].
      exact (proj1 (sends_boxed _ _ _ (Printf_sends _ _ _ _ _ _ _ _ _ _ _ H) B L)).
    + injection H as <- <-. now apply close_boxed.
Qed.

(** Every logger passes every level on to the console. *)
Lemma lived_up W id l v : inv W -> lived W -> nth_error (w_loggers W) id = Some l -> 1 <= v ->
  name_level W (l_name l) 1 /\ server W v (l_name l) 0 /\ route W v (l_name l) [0%nat] /\ user_skip W (l_name l) 0.
Proof.
  intros I L Hl Hv. revert l Hl. induction id as [id IH] using lt_wf_ind. intros l Hl. destruct id as [|id].
  - rewrite (lv_first _ L) in Hl. injection Hl as <-.
    assert (N : name_level W (l_name boxed_root) 1) by exact (nlv_own W _ 0%nat boxed_root (lv_first _ L) eq_refl ltac:(discriminate)).
    split; [exact N|]. split; [|split].
    + exact (sv_here W v _ 1 0%nat boxed_root N Hv (lv_first _ L) eq_refl (or_intror eq_refl)).
    + exact (rt_here W v _ 1 0%nat boxed_root N Hv (lv_first _ L) eq_refl ltac:(discriminate)).
    + exists 0%nat, boxed_root. split; [apply L|]. split; reflexivity.
  - destruct (lv_rest _ L _ _ Hl) as (n & p & ->). cbn [newLogger l_name] in *.
    pose proof (nth_skels _ _ _ Hl) as Hs. cbn [newLogger l_name l_parent] in Hs.
    assert (Hr : n <> $"root").
    { intros ->. pose proof (proj2 (si_root _ _ _ (iv_sk _ I) _ _ _ Hs) eq_refl). discriminate. }
    destruct (si_parent _ _ _ (iv_sk _ I) _ _ _ Hs) as (Hlt & q & pp & Hp & Hpn). apply nth_skels_inv in Hp as (lp & Hlp & <- & _).
    destruct (IH p Hlt lp Hlp) as (H1 & H2 & H3 & _).
    assert (N : name_level W n 1) by (eapply nlv_up; [exact Hl|reflexivity|reflexivity|exact Hr|exact Hpn|exact H1]).
    split; [exact N|]. split; [|split].
    + eapply sv_up; [exact N|exact Hv|exact Hl|reflexivity|reflexivity|exact Hr|exact Hpn|exact H2].
    + eapply rt_up; [exact N|exact Hv|exact Hl|reflexivity|reflexivity|exact Hr|exact Hpn|exact H3].
    + exists (S id), (newLogger n (Some p)). split; [exact Hl|]. split; reflexivity.
Qed.

(** The default layout, spelt out. *)
Lemma renders_all_unique E ci e items : forall ss tt, Forall2 (renders E ci e) items ss -> Forall2 (renders E ci e) items tt -> ss = tt.
Proof.
  induction items as [|i items IH]; intros ss tt H1 H2; inversion H1; inversion H2; subst; [reflexivity|].
  f_equal; [eapply renders_unique; eassumption|auto].
Qed.
Lemma default_renders E ci e ss lv m file : Forall2 (renders E ci e) default_items ss -> named_level (ev_level e) lv ->
  message E e m -> last_elem (ci_file ci) file ->
  concat ss = e_timefmt E (ev_time e) ($"2006-01-02T15:04:05.000Z07:00") ++ $"|" ++ e_sprintf E ($"%-5s") [VStr lv] ++ $"|" ++
       e_sprintf E ($"%6d") [VInt (e_pid E)] ++ $"|" ++ ev_name e ++ $" >> " ++ m ++ $" (" ++ ci_fun ci ++ $"@" ++ ci_pkg ci ++ $"/" ++ file ++
       $":" ++ e_sprintf E ($"%v") [VInt (ci_line ci)] ++ $") " ++ ["010"%char].
Proof.
  intros H Hl Hm Hf.
  set (tt := [e_timefmt E (ev_time e) ($"2006-01-02T15:04:05.000Z07:00"); $"|"; e_sprintf E ($"%-5s") [VStr lv]; $"|";
    e_sprintf E ($"%6d") [VInt (e_pid E)]; $"|"; ev_name e; $" >> "; m; $" ("; ci_fun ci; $"@"; ci_pkg ci; $"/"; file; $":";
    e_sprintf E ($"%v") [VInt (ci_line ci)]; $") " ++ ["010"%char]]).
  assert (R : Forall2 (renders E ci e) default_items tt).
  { unfold tt. change default_items with [Verb ($"time") None; Lit ($"|"); Verb ($"level") (Some ($"-5s")); Lit ($"|");
      Verb ($"pid") (Some ($"6d")); Lit ($"|"); Verb ($"module") None; Lit ($" >> "); Verb ($"msg") None; Lit ($" ("); Verb ($"longfunc") None;
      Lit ($"@"); Verb ($"longpkg") None; Lit ($"/"); Verb ($"shortfile") None; Lit ($":"); Verb ($"line") None; Lit ($") " ++ ["010"%char])].
    repeat apply Forall2_cons; try apply rd_lit; try apply Forall2_nil.
    - apply rd_str. apply vv_time.
    - apply (rd_fmt E ci e ($"level") ($"-5s")); [discriminate|]. apply vv_level. now left.
    - apply (rd_fmt E ci e ($"pid") ($"6d")); [discriminate|]. apply vv_pid.
    - apply rd_str. apply vv_module.
    - apply rd_str. now apply vv_msg.
    - apply rd_str. apply vv_longfunc.
    - apply rd_str. apply vv_longpkg.
    - apply rd_str. now apply vv_shortfile.
    - apply rd_other; [apply vv_line|intros []]. }
  rewrite (renders_all_unique _ _ _ _ _ _ H R). unfold tt. cbn [concat]. now rewrite app_nil_r.
Qed.
Lemma level_named lvl : 1 <= lvl <= 8 -> exists lv, named_level lvl lv.
Proof.
  intros H. assert (C : lvl = 1 \/ lvl = 2 \/ lvl = 3 \/ lvl = 4 \/ lvl = 5 \/ lvl = 6 \/ lvl = 7 \/ lvl = 8) by lia.
  repeat destruct C as [->|C]; [eexists; constructor..|subst; eexists; constructor].
Qed.
Lemma one_sent i (d : stack * event) l : sent_to i [(i, d)] l -> l = [d].
Proof. inversion 1 as [|? ? ? H1|? ? ? ? H1]; subst; [inversion H1; reflexivity|congruence]. Qed.
Lemma message_said E e m : message E e m -> said E (ev_format e) (ev_args e) m.
Proof. intros [H|H1 H2|H1 H2]; [now apply sd_noargs|now apply sd_format|now apply sd_plain]. Qed.

(** ** C56 *)
(** Any name gives a logger. *)
Theorem C56_loggers : forall P W n, out_of_the_box P W -> exists W' id, exec P W (OGetLogger n) = Ok (W', RLogger id).
Proof.
  intros P W n O. destruct (box_boxed _ _ O) as [R B]. destruct (get_boxed P W n (reach_inv _ _ R) B) as (W' & id & E & _).
  exists W', id. cbn [exec]. now rewrite E.
Qed.
Print Assumptions C56_loggers.
(** All levels are enabled on all loggers. *)
Theorem C56_all_levels : forall P W n id, out_of_the_box P W -> has_name W n id -> name_level W n 1.
Proof.
  intros P W n id O (l & Hl & <-). destruct (box_boxed _ _ O) as [R B]. destruct (bx_case _ _ B) as [F|L].
  - rewrite (fr_loggers _ _ F) in Hl. destruct id; discriminate.
  - exact (proj1 (lived_up W id l 1 (reach_inv _ _ R) L Hl ltac:(lia))).
Qed.
Print Assumptions C56_all_levels.
(** A level method writes one line on standard output, and that is all. *)
Theorem C56_prints : forall P W n id c lvl fmt args now fr fs ustk, out_of_the_box P W -> has_name W n id -> good_ctx c ->
  2 <= lvl <= 7 -> e_funcForPC (p_env P) (fr_pc fr) = Some fs ->
  exists x m line W', w_heap W = [x] /\ os_sink (o_spec x) = SinkStdout /\ os_async (o_spec x) = None /\
    exec P W (OLog id c Named lvl fmt args now (fr :: ustk)) = Ok (W', RUnit) /\
    w_heap W' = [mkOut (o_spec x) (o_fmt x) (o_writes x ++ [line]) (o_sys x) (o_closed x)] /\
    said (p_env P) fmt args m /\ plain_line (p_env P) n m lvl now fr fs line.
Proof.
  intros P W n id c lvl fmt args now fr fs ustk O Hn Hg Hv Hfs. destruct (box_boxed _ _ O) as [R B]. pose proof (reach_inv _ _ R) as I.
  destruct (bx_case _ _ B) as [F|L].
  { destruct Hn as (l & Hl & _). rewrite (fr_loggers _ _ F) in Hl. destruct id; discriminate. }
  destruct (lv_heap _ L) as (x & Hx & Hsp & Hfm).
  assert (Bu : built (ByLayout default_layout) (o_fmt x)) by (rewrite Hfm; apply b_layout, default_parsed).
  destruct (C07_never_panics P W n id c Named lvl fmt args now (fr :: ustk) R Hn Hg) as [W' HE].
  { intros i y Hy. rewrite Hx in Hy. destruct i as [|[|i]]; [injection Hy as <-|discriminate..]. split; [eauto|]. intros send. rewrite Hsp. discriminate. }
  assert (Hx0 : nth_error (w_heap W) 0 = Some x) by now rewrite Hx.
  destruct (log_heap _ _ _ _ _ _ _ _ _ _ _ _ _ _ _ R Hn Hg HE Hx0) as (new & l & x' & E1 & E2 & Hf & E3 & E4).
  assert (Hs : sync_base x) by (unfold sync_base; rewrite Hsp; split; [reflexivity|exact Logic.I]).
  destruct (out_runs_base _ _ _ _ Hs E4) as (ws & Hr & ->).
  destruct (base_run_spec (p_env P) _ _ (os_threshold (o_spec x)) l Bu Hf) as (ws' & Hr' & Hw).
  assert (ws' = ws) by congruence. subst ws'.
  destruct Hn as (lg & Hlg & Hnm). subst n.
  destruct (lived_up W id lg lvl I L Hlg ltac:(lia)) as (_ & Hsv & Hrt & Hsk).
  destruct (C07_delivered_to_route P W _ id c Named lvl fmt args now (fr :: ustk) W' RUnit R (ex_intro _ lg (conj Hlg eq_refl)) HE)
    as (new2 & E5 & Hrt2).
  assert (new2 = new) by (rewrite E1 in E5; now apply app_inv_head in E5). subst new2.
  pose proof (C07_route_unique P W _ _ _ _ R Hrt2 Hrt) as En.
  destruct new as [|[i [stk e]] [|? ?]]; try discriminate. injection En as ->. apply one_sent in E2. subst l.
  assert (Hin : In (0%nat, (stk, e)) [(0%nat, (stk, e))]) by now left.
  destruct (C08_event_data P W _ id c Named lvl fmt args now (fr :: ustk) W' RUnit _ _ _ _ R (ex_intro _ lg (conj Hlg eq_refl)) HE E1 Hin)
    as (D1 & D2 & D3 & D4 & D5).
  destruct (C11_level_method_site P W _ id c lvl fmt args now (fr :: ustk) W' RUnit _ _ _ _ 0 fr 0%nat boxed_root R
    (ex_intro _ lg (conj Hlg eq_refl)) Hg Hsk ltac:(lia) Hsv (lv_first _ L) ltac:(cbn; lia) eq_refl HE E1 Hin) as (ci & Hci & _ & Hres).
  specialize (Hres eq_refl ltac:(congruence)).
  inversion Hw as [|? ? ? ? Hlow _|? ? ? line ws0 _ Ht Hw0]; subst.
  { rewrite Hsp in Hlow. cbn in Hlow. lia. }
  inversion Hw0; subst. inversion Ht as [|? items ss ? ? raw site Hsplit Hraw Hsite Hrend|]; subst.
  apply default_splits in Hsplit. subst items.
  inversion Hraw as [ci2 Hc2|? Hc2 _ _|Hc2 _]; subst; rewrite Hci in Hc2; try discriminate. injection Hc2 as <-.
  inversion Hres as [Hp|? Hno|fs2 pk fu Hp Hfs2 Hfn]; subst; cbn [ci_pkg ci_pc] in *; [now destruct Hp|congruence|].
  assert (fs2 = fs) by congruence. subst fs2.
  assert (site = mkCI (fr_file fr) (fr_line fr) pk fu (fr_pc fr)).
  { inversion Hsite as [Hq|Hq _|? ? ? Hq _ _]; subst; [reflexivity|..]; cbn in Hq; now apply func_name_pkg in Hfn. }
  subst site.
  destruct (level_named (ev_level e) ltac:(lia)) as [lv Hlv].
  pose proof (message_spec (p_env P) e) as Hm. pose proof (path_Base_spec (fr_file fr)) as Hfile.
  pose proof (default_renders _ _ _ _ _ _ _ Hrend Hlv Hm Hfile) as Hcat.
  pose proof (Printf_sends _ _ _ _ _ _ _ _ _ _ _ (proj1 (log_inv _ _ _ _ _ _ _ _ _ _ _ _ HE))) as S.
  exists x, (ev_Message (p_env P) e), (concat ss), W'. split; [assumption|]. split; [now rewrite Hsp|]. split; [now rewrite Hsp|].
  split; [assumption|]. split; [|split; [now apply message_said|]].
  - pose proof (f_equal (@length _) (sd_heap _ _ S)) as Hlen. rewrite !map_length, Hx in Hlen.
    destruct (w_heap W') as [|y [|z t]]; try discriminate. injection E3 as ->. reflexivity.
  - rewrite Hcat, D1. cbn [ci_fun ci_pkg ci_line]. now apply pl.
Qed.
Print Assumptions C56_prints.
(** Example: the first thing a program does is to log through a logger "a/b". *)
Definition db_W : world := ran ex_P [OGetLogger ($"a/b")].
Lemma db_box : out_of_the_box ex_P db_W.
Proof.
  destruct (C56_loggers ex_P (init_world ex_P) ($"a/b") (ob_start ex_P)) as (W' & id & E).
  assert (D : db_W = W') by (unfold db_W, ran; cbn [run]; rewrite E; reflexivity).
  rewrite D. exact (ob_use ex_P _ (OGetLogger ($"a/b")) W' _ (ob_start ex_P) Logic.I Logic.I E).
Qed.
Example C56_ex : out_of_the_box ex_P db_W /\ has_name db_W ($"a/b") 2 /\
  map o_writes (w_heap (after db_W (OLog 2 CtxBackground Named Debug ($"hello") [] 0 ex_user))) =
    [[$"T|%-5s|%6d|a/b >> hello (F@m/p/user.go:%v) " ++ ["010"%char]]].
Proof.
  split; [apply db_box|]. split; [|vm_compute; reflexivity].
  assert (E : option_map l_name (nth_error (w_loggers db_W) 2) = Some ($"a/b")) by (vm_compute; reflexivity).
  unfold has_name. destruct (nth_error (w_loggers db_W) 2) as [l|]; [|discriminate]. injection E as E. eauto.
Qed.

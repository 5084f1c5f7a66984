(** Histories that begin with the example configuration. *)
From Verif Require Import GoStr Utf8 LevelModel EventModel LevelSpec LayoutModel LayoutSpec LayoutProofs FormatSpec FormatProofs ConfModel
  OutputModel OutputSpec OutputProofs WorldModel WorldSpec WorldBase WorldInv WorldProofs P_Hier LogProofs P_Log ManagerSpec ManagerProofs P_Manager DefaultSpec
  P_Default DocModel DocSpec.
Local Open Scope Z_scope.

Definition doc_parts : list part := Eval vm_compute in match Parser doc_layout with Some ps => ps | None => [] end.
Lemma doc_parsed : Parser doc_layout = Some doc_parts.
Proof. vm_compute. reflexivity. Qed.
Definition doc_items : list layout_item := Eval vm_compute in map describe doc_parts.
Lemma doc_splits items : splits doc_layout items -> items = doc_items.
Proof.
  intros H. pose proof doc_parsed as HP. apply Parser_exact in HP as (i2 & H2 & _ & E). rewrite (splits_det _ _ _ H H2).
  assert (D : map describe doc_parts = i2).
  { rewrite E, map_map, (map_ext_in _ (fun i => i)); [apply map_id|]. intros i Hin. apply describe_part_of.
    pose proof (splits_ok _ _ H2) as Hok. rewrite Forall_forall in Hok. auto. }
  rewrite <- D. reflexivity.
Qed.
Lemma doc_renders E ci e ss lv m : Forall2 (renders E ci e) doc_items ss -> named_level (ev_level e) lv -> message E e m ->
  concat ss = e_timefmt E (ev_time e) ($"2006-01-02T15:04:05.000Z07:00") ++ $" " ++ lv ++ $" " ++ ev_name e ++ $" " ++
    e_sprintf E ($"%6d") [VInt (e_pid E)] ++ $" >> " ++ m ++ $" (" ++ ci_file ci ++ $":" ++ e_sprintf E ($"%v") [VInt (ci_line ci)] ++ $") " ++ ["010"%char].
Proof.
  intros H Hl Hm.
  set (tt := [e_timefmt E (ev_time e) ($"2006-01-02T15:04:05.000Z07:00"); $" "; lv; $" "; ev_name e; $" "; e_sprintf E ($"%6d") [VInt (e_pid E)];
    $" >> "; m; $" ("; ci_file ci; $":"; e_sprintf E ($"%v") [VInt (ci_line ci)]; $") " ++ ["010"%char]]).
  assert (R : Forall2 (renders E ci e) doc_items tt).
  { unfold tt. change doc_items with [Verb ($"time") None; Lit ($" "); Verb ($"level") None; Lit ($" "); Verb ($"module") None; Lit ($" ");
      Verb ($"pid") (Some ($"6d")); Lit ($" >> "); Verb ($"msg") None; Lit ($" ("); Verb ($"longfile") None; Lit ($":"); Verb ($"line") None;
      Lit ($") " ++ ["010"%char])].
    repeat apply Forall2_cons; try apply rd_lit; try apply Forall2_nil.
    - apply rd_str. apply vv_time.
    - apply rd_str. apply vv_level. now left.
    - apply rd_str. apply vv_module.
    - apply (rd_fmt E ci e ($"pid") ($"6d")); [discriminate|]. apply vv_pid.
    - apply rd_str. now apply vv_msg.
    - apply rd_str. apply vv_longfile.
    - apply rd_other; [apply vv_line|intros []]. }
  rewrite (renders_all_unique _ _ _ _ _ _ H R). unfold tt. cbn [concat]. now rewrite app_nil_r.
Qed.

Definition doc_conf : roll_conf := {| rc_kind := BySize 10485760; rc_dir := $"log/"; rc_file := $"rf.log"; rc_archive := ArchiveNone;
  rc_archivePath := $"log/"; rc_archiveExploded := false; rc_fullName := false; rc_maxRolls := 5; rc_nameMode := Postfix;
  rc_dirPerm := 488; rc_filePerm := 416; rc_backPerm := 360 |}.
Definition doc_file : out_spec := {| os_sink := SinkRolling doc_conf; os_async := None; os_threshold := 4 |}.
Definition doc_console : out_spec := {| os_sink := SinkStdout; os_async := None; os_threshold := 4 |}.
Definition set_log (n : str) (p : option nat) : logger := mkLogger n 4 p [0%nat; 1%nat] 3 1.
Record unused (W : world) : Prop := {
  un_loggers : w_loggers W = []; un_root : w_root W = None; un_names : w_names W = [];
  un_formats : w_formats W = []; un_outputs : w_outputs W = []; un_heap : w_heap W = [] }.
Record in_use (W : world) : Prop := {
  iu_root : w_root W = Some 0%nat;
  iu_first : nth_error (w_loggers W) 0 = Some (set_log ($"root") None);
  iu_rest : forall id l, nth_error (w_loggers W) (S id) = Some l -> exists n p, l = newLogger n (Some p) \/ l = set_log n (Some p);
  iu_format : mlookup ($"f1") (w_formats W) = Some (FText doc_parts);
  iu_file : mlookup ($"r1") (w_outputs W) = Some 0%nat;
  iu_console : mlookup ($"c1") (w_outputs W) = Some 1%nat;
  iu_heap : exists x y, w_heap W = [x; y] /\ o_spec x = doc_file /\ o_fmt x = Some (FText doc_parts) /\
    o_spec y = doc_console /\ o_fmt y = Some (FText doc_parts) }.
Record doc_inv (P : params) (W : world) : Prop := {
  di_fc : w_fcreators W = w_fcreators (init_world P); di_oc : w_ocreators W = w_ocreators (init_world P);
  di_cfg : w_config W = doc_config; di_case : unused W \/ in_use W }.

Definition doc_f1 : smap str := [($"name", $"f1"); ($"type", $"text"); ($"layout", doc_layout)].
Definition doc_c1 : smap str := [($"name", $"c1"); ($"type", $"console"); ($"format", $"f1"); ($"threshold", $"info")].
Definition doc_r1 : smap str := [($"name", $"r1"); ($"type", $"size_rolling_file"); ($"format", $"f1"); ($"file", $"log/rf.log"); ($"file_perm", $"0640");
  ($"back_perm", $"0550"); ($"dir_perm", $"0750"); ($"size", $"1M"); ($"backups", $"5"); ($"threshold", $"info")].
Lemma doc_text P : mlookup ($"text") (w_fcreators (init_world P)) = Some (fun _ => NewTextFormatter).
Proof. reflexivity. Qed.
Lemma doc_rolling P : mlookup ($"size_rolling_file") (w_ocreators (init_world P)) = Some (fun _ => NewRollingOutput (p_up P)).
Proof. reflexivity. Qed.
Lemma doc_consoles P : mlookup ($"console") (w_ocreators (init_world P)) = Some (fun _ => NewConsoleOutput (p_up P)).
Proof. reflexivity. Qed.
Lemma doc_made_f : NewTextFormatter (Some doc_f1) = Ok (Some (FText doc_parts)).
Proof. vm_compute. reflexivity. Qed.
Lemma doc_made_r up : NewRollingOutput up (Some doc_r1) = Created doc_file.
Proof. vm_compute. reflexivity. Qed.
Lemma doc_made_c up : NewConsoleOutput up (Some doc_c1) = Created doc_console.
Proof. vm_compute. reflexivity. Qed.
Lemma doc_get_r : GetCfgOutput doc_config ($"r1") = Some doc_r1.
Proof. reflexivity. Qed.
Lemma doc_get_c : GetCfgOutput doc_config ($"c1") = Some doc_c1.
Proof. reflexivity. Qed.
Lemma doc_get_f : GetCfgFormat doc_config ($"f1") = Some doc_f1.
Proof. reflexivity. Qed.
Lemma doc_level up : LevelFrom up ($"info") = 4.
Proof. vm_compute. reflexivity. Qed.
Definition doc_heap : list output := [mkOut doc_file (Some (FText doc_parts)) [] [] 0; mkOut doc_console (Some (FText doc_parts)) [] [] 0].

(** The first time the outputs are asked for. *)
Lemma glo_unused P W : w_fcreators W = w_fcreators (init_world P) -> w_ocreators W = w_ocreators (init_world P) -> w_config W = doc_config ->
  w_formats W = [] -> w_outputs W = [] -> w_heap W = [] -> forall n, n = $"root" \/ n = $"a/b" ->
  GetLoggerOutputs P W n = Ok (set_caches W [($"f1", FText doc_parts)] (minsert ($"c1") 1%nat [($"r1", 0%nat)]) doc_heap (S (S (S (w_ticks W)))),
    mkGlo [0%nat; 1%nat] 4 false).
Proof.
  intros A B C D E F n Hn. unfold GetLoggerOutputs. rewrite C.
  assert (HL : exists k, GetCfgLogger doc_config n = Some (mkCL k ($"info") [$"r1"; $"c1"])) by (destruct Hn as [->| ->]; eexists; reflexivity).
  destruct HL as [k ->]. cbn [cl_outputs cl_level]. rewrite doc_level.
  cbn [glo_loop]. rewrite C, doc_get_r. cbv iota. change (cfg_FormatName (Some doc_r1)) with ($"f1"). rewrite doc_get_f. cbv iota.
  change (cfg_Type (Some doc_f1)) with ($"text"). rewrite ?A, doc_text. change (cfg_Name (Some doc_f1)) with ($"f1"). rewrite D. cbn [mlookup].
  rewrite doc_made_f. cbn [bind]. cbn [set_caches w_ocreators w_outputs w_heap w_formats w_ticks w_config w_fcreators minsert].
  change (cfg_Type (Some doc_r1)) with ($"size_rolling_file"). rewrite ?B, doc_rolling. change (cfg_Name (Some doc_r1)) with ($"r1"). rewrite E. cbn [mlookup].
  rewrite doc_made_r. cbn [set_caches w_ocreators w_outputs w_heap w_formats w_ticks w_config w_fcreators minsert].
  rewrite ?C, doc_get_c. cbv iota. change (cfg_FormatName (Some doc_c1)) with ($"f1"). rewrite doc_get_f. cbv iota.
  change (cfg_Type (Some doc_f1)) with ($"text"). rewrite ?A, doc_text. change (cfg_Name (Some doc_f1)) with ($"f1").
  cbn [mlookup]. change (str_eqb ($"f1") ($"f1")) with true. cbv iota. cbn [bind].
  cbn [set_caches w_ocreators w_outputs w_heap w_formats w_ticks w_config w_fcreators].
  change (cfg_Type (Some doc_c1)) with ($"console"). rewrite ?B, doc_consoles. change (cfg_Name (Some doc_c1)) with ($"c1").
  cbn [mlookup]. change (str_eqb ($"c1") ($"r1")) with false. cbv iota.
  rewrite doc_made_c. rewrite F. reflexivity.
Qed.
(** And later. *)
Lemma glo_in_use P W : w_fcreators W = w_fcreators (init_world P) -> w_ocreators W = w_ocreators (init_world P) -> w_config W = doc_config ->
  in_use W -> forall n, n = $"root" \/ n = $"a/b" -> GetLoggerOutputs P W n = Ok (W, mkGlo [0%nat; 1%nat] 4 false).
Proof.
  intros A B C U n Hn. unfold GetLoggerOutputs. rewrite C.
  assert (HL : exists k, GetCfgLogger doc_config n = Some (mkCL k ($"info") [$"r1"; $"c1"])) by (destruct Hn as [->| ->]; eexists; reflexivity).
  destruct HL as [k ->]. cbn [cl_outputs cl_level]. rewrite doc_level.
  cbn [glo_loop]. rewrite C, doc_get_r. cbv iota. change (cfg_FormatName (Some doc_r1)) with ($"f1"). rewrite doc_get_f. cbv iota.
  change (cfg_Type (Some doc_f1)) with ($"text"). rewrite ?A, doc_text. change (cfg_Name (Some doc_f1)) with ($"f1"). rewrite (iu_format _ U). cbn [bind].
  change (cfg_Type (Some doc_r1)) with ($"size_rolling_file"). rewrite ?B, doc_rolling. change (cfg_Name (Some doc_r1)) with ($"r1"). rewrite (iu_file _ U).
  rewrite ?C, doc_get_c. cbv iota. change (cfg_FormatName (Some doc_c1)) with ($"f1"). rewrite doc_get_f. cbv iota.
  change (cfg_Type (Some doc_f1)) with ($"text"). rewrite ?A, doc_text. change (cfg_Name (Some doc_f1)) with ($"f1"). rewrite (iu_format _ U). cbn [bind].
  change (cfg_Type (Some doc_c1)) with ($"console"). rewrite ?B, doc_consoles. change (cfg_Name (Some doc_c1)) with ($"c1"). rewrite (iu_console _ U).
  reflexivity.
Qed.
Lemma doc_no_entry n : n <> $"root" -> n <> $"a/b" -> GetCfgLogger doc_config n = None.
Proof.
  intros H H2. unfold GetCfgLogger. cbn [doc_config c_loggers find cl_name].
  destruct (str_eqb_spec ($"root") n); [congruence|]. destruct (str_eqb_spec ($"a/b") n); [congruence|reflexivity].
Qed.
Lemma first_use P W : doc_inv P W -> unused W -> exists W', getRootLogger P W = Ok (W', 0%nat) /\ doc_inv P W' /\ in_use W' /\
  w_names W' = [($"root", 0%nat)].
Proof.
  intros [A B C _] [D E F G H I]. unfold getRootLogger. rewrite E, D, F. cbn [length app].
  set (W1 := set_factory W [newLogger rootName None] (Some 0%nat) []).
  rewrite (glo_unused P W1 A B C G H I rootName (or_introl eq_refl)). cbn [bind g_err g_lvl g_ops].
  match goal with |- context [SetOutputs ?x ?y ?z] => assert (HS : exists W3, SetOutputs x y z = Ok W3 /\ w_loggers W3 = [set_log ($"root") None] /\
     w_fcreators W3 = w_fcreators W /\ w_ocreators W3 = w_ocreators W /\ w_config W3 = w_config W /\ w_root W3 = Some 0%nat /\
     w_formats W3 = [($"f1", FText doc_parts)] /\ w_outputs W3 = minsert ($"c1") 1%nat [($"r1", 0%nat)] /\ w_heap W3 = doc_heap /\ w_names W3 = []) end.
  { eexists. split; [reflexivity|]. repeat split. }
  destruct HS as (W3 & -> & S1 & S2 & S3 & S4 & S5 & S6 & S7 & S8 & S9). cbn [bind]. eexists. split; [reflexivity|].
  match goal with |- doc_inv P ?x /\ _ => assert (U : in_use x) end.
  { constructor; cbn [set_factory w_root w_loggers w_formats w_outputs w_heap]; rewrite ?S1, ?S5, ?S6, ?S7, ?S8; try reflexivity.
    - intros [|id] l Hl; discriminate.
    - do 2 eexists. split; [reflexivity|]. repeat split. }
  split; [|split; [exact U|cbn [set_factory w_names]; rewrite S9; reflexivity]].
  constructor; cbn [set_factory w_fcreators w_ocreators w_config]; [congruence..|]. now right.
Qed.
Lemma root_use P W : doc_inv P W -> exists W' r, getRootLogger P W = Ok (W', r) /\ doc_inv P W' /\ in_use W' /\
  forall n, n <> $"root" -> mlookup n (w_names W) = None -> mlookup n (w_names W') = None.
Proof.
  intros B. destruct (di_case _ _ B) as [F|L].
  - destruct (first_use P W B F) as (W' & H1 & H2 & H3 & H4). exists W', 0%nat.
    split; [assumption|]. split; [assumption|]. split; [assumption|]. intros n Hn _. rewrite H4. cbn [mlookup].
    destruct (str_eqb_spec n ($"root")); [contradiction|reflexivity].
  - unfold getRootLogger. rewrite (iu_root _ L). eauto 6.
Qed.
Lemma create_use P W n p W' id : doc_inv P W -> in_use W -> createLogger W n p = (W', id) -> doc_inv P W' /\ in_use W' /\
  (mlookup n (w_names W) = None -> nth_error (w_loggers W') id = Some (newLogger n (Some p)) /\ id <> 0%nat).
Proof.
  unfold createLogger. intros B L. destruct (mlookup n (w_names W)) eqn:E; intros [= <- <-].
  { split; [assumption|]. split; [assumption|]. discriminate. }
  assert (L' : in_use (set_factory W (w_loggers W ++ [newLogger n (Some p)]) (w_root W) (minsert n (length (w_loggers W)) (w_names W)))).
  { constructor; cbn [set_factory w_root w_loggers w_heap w_formats w_outputs]; try apply L.
    - rewrite nth_error_app1; [apply L|]. apply nth_error_Some. rewrite (iu_first _ L). discriminate.
    - intros i l Hl. destruct (nth_snoc_inv _ _ _ _ Hl) as [[_ H]|[_ H]]; [|eauto]. now apply (iu_rest _ L) in H. }
  split; [|split; [exact L'|]].
  - constructor; try apply B. right. exact L'.
  - intros _. cbn [set_factory w_loggers]. split; [now rewrite nth_error_app2, Nat.sub_diag by lia|].
    intros H. pose proof (iu_first _ L) as H1. destruct (w_loggers W); [discriminate|discriminate].
Qed.
Lemma parent_use P name rs : forall W p W' id, doc_inv P W -> in_use W -> parent_loop W name rs p = (W', id) -> doc_inv P W' /\ in_use W'.
Proof.
  induction rs as [|[i c] rs IH]; intros W p W' id B L H; cbn [parent_loop] in H; [injection H as <- <-; auto|].
  destruct (_ || _); [|eauto]. destruct (firstn i name) as [|a b]; [eauto|]. destruct (createLogger W (a :: b) p) as [W1 q] eqn:E.
  destruct (create_use _ _ _ _ _ _ B L E) as (H1 & H2 & _). eauto.
Qed.
Lemma set_up_use P W id n p : doc_inv P W -> in_use W -> nth_error (w_loggers W) id = Some (newLogger n (Some p)) -> id <> 0%nat ->
  exists W', apply_glo W id (mkGlo [0%nat; 1%nat] 4 false) = Ok W' /\ doc_inv P W' /\ in_use W'.
Proof.
  intros B L Hn Hid. destruct (iu_heap _ L) as (x & y & E1 & E2 & E3 & E4 & E5).
  unfold apply_glo, SetOutputs, SetLevel. cbn [g_err g_lvl g_ops set_loggers w_heap w_loggers]. rewrite E1. cbn [flags_of nth_error bind]. rewrite E3, E5.
  cbn [bind]. eexists. split; [reflexivity|].
  match goal with |- doc_inv P ?z /\ _ => assert (U : in_use z) end.
  { constructor; cbn [set_loggers w_root w_loggers w_formats w_outputs w_heap]; try apply L.
    - rewrite !nth_upd. destruct (Nat.eqb_spec 0 id); [congruence|]. apply L.
    - intros i l. rewrite !nth_upd. destruct (Nat.eqb_spec (S i) id) as [<-|].
      + rewrite Hn. cbn [option_map]. intros [= <-]. exists n, p. right. reflexivity.
      + apply L. }
  split; [|exact U]. constructor; try apply B. now right.
Qed.
Lemma parent_names name rs : forall W p W' id, parent_loop W name rs p = (W', id) -> Forall (fun ic => (fst ic < length name)%nat) rs ->
  mlookup name (w_names W) = None -> mlookup name (w_names W') = None.
Proof.
  induction rs as [|[i c] rs IH]; intros W p W' id H F N; cbn [parent_loop] in H; [now injection H as <- <-|].
  inversion F as [|? ? F1 F2]; subst. cbn in F1.
  destruct (_ || _); [|eauto]. destruct (firstn i name) as [|a b] eqn:Ef; [eauto|]. destruct (createLogger W (a :: b) p) as [W1 q] eqn:E.
  apply (IH _ _ _ _ H F2). unfold createLogger in E. destruct (mlookup (a :: b) (w_names W)); injection E as <- _; [assumption|].
  cbn [set_factory w_names]. rewrite mlookup_minsert. destruct (str_eqb_spec name (a :: b)) as [X|]; [|assumption].
  rewrite <- X in Ef. pose proof (f_equal (@length _) Ef) as Hl. rewrite firstn_length in Hl. lia.
Qed.
Lemma get_use P W n : inv W -> doc_inv P W -> exists W' id, GetLogger P W n = Ok (W', id) /\ doc_inv P W' /\ in_use W'.
Proof.
  intros I B. unfold GetLogger. destruct (_ || _) eqn:E.
  { destruct (root_use P W B) as (W' & r & H1 & H2 & H3 & _). eauto. }
  apply orb_false_iff in E as [_ E].
  destruct (mlookup n (w_names W)) as [id|] eqn:En.
  - exists W, id. split; [reflexivity|]. split; [assumption|]. destruct (di_case _ _ B) as [F|L]; [|assumption].
    rewrite (un_names _ F) in En. discriminate.
  - assert (Hr : n <> $"root") by (intros ->; discriminate).
    destruct (root_use P W B) as (W1 & r & H1 & B1 & L1 & N1). unfold getParent. rewrite H1. cbn [bind].
    destruct (parent_loop W1 n (range_str n) r) as [W2 p] eqn:E2. destruct (parent_use _ _ _ _ _ _ _ B1 L1 E2) as [B2 L2].
    assert (N2 : mlookup n (w_names W2) = None).
    { apply (parent_names n _ _ _ _ _ E2); [|now apply N1]. apply Forall_forall. intros ic Hic. apply range_from_lower in Hic. lia. }
    destruct (createLogger W2 n p) as [W3 id] eqn:E3. destruct (create_use _ _ _ _ _ _ B2 L2 E3) as (B3 & L3 & C3). destruct (C3 N2) as [C4 C5].
    destruct (str_eqb_spec n ($"a/b")) as [->|Ha].
    + rewrite (glo_in_use P W3 (di_fc _ _ B3) (di_oc _ _ B3) (di_cfg _ _ B3) L3 _ (or_intror eq_refl)). cbn [bind].
      destruct (set_up_use P W3 id _ _ B3 L3 C4 C5) as (W4 & -> & B4 & L4). cbn [bind]. eauto.
    + unfold GetLoggerOutputs. rewrite (di_cfg _ _ B3), (doc_no_entry n Hr Ha). cbn [bind apply_glo g_err]. eauto.
Qed.
Lemma use_heap W W' x y : in_use W -> w_loggers W' = w_loggers W -> w_root W' = w_root W -> w_formats W' = w_formats W -> w_outputs W' = w_outputs W ->
  w_heap W' = [x; y] -> o_spec x = doc_file -> o_fmt x = Some (FText doc_parts) -> o_spec y = doc_console -> o_fmt y = Some (FText doc_parts) -> in_use W'.
Proof.
  intros L E1 E2 E3 E4 E5 E6 E7 E8 E9. constructor; rewrite ?E1, ?E2, ?E3, ?E4; try apply L. exists x, y. auto.
Qed.
Lemma sends_use P W W' : sends W W' -> doc_inv P W -> in_use W -> doc_inv P W' /\ in_use W'.
Proof.
  intros S B L. destruct (iu_heap _ L) as (x & y & E1 & E2 & E3 & E4 & E5).
  pose proof (sd_heap _ _ S) as H. rewrite E1 in H. destruct (w_heap W') as [|x' [|y' [|z h]]] eqn:E; try discriminate.
  injection H as A1 A2 A3 A4 A5 A6.
  assert (L' : in_use W').
  { eapply (use_heap W W' x' y'); try apply S; try congruence; exact L. }
  split; [|assumption]. constructor; [| | |now right]; [transitivity (w_fcreators W)|transitivity (w_ocreators W)|transitivity (w_config W)]; try apply S; try apply B.
Qed.
Lemma log_in_use W id c v lvl fmt args now ustk P W' r : doc_inv P W -> exec P W (OLog id c v lvl fmt args now ustk) = Ok (W', r) -> in_use W.
Proof.
  intros B H. apply log_inv in H as [H _]. destruct (di_case _ _ B) as [F|L]; [|assumption]. exfalso.
  unfold Printf in H. rewrite (un_loggers _ F) in H. destruct id; discriminate.
Qed.
Lemma close_use P W : doc_inv P W -> doc_inv P (Close W).
Proof.
  intros B. constructor; try apply B. destruct (di_case _ _ B) as [F|L].
  - left. constructor; cbn [Close set_heap w_loggers w_root w_names w_formats w_outputs w_heap]; try apply F.
    rewrite (un_outputs _ F), (un_heap _ F). reflexivity.
  - right. destruct (iu_heap _ L) as (x & y & E1 & E2 & E3 & E4 & E5).
    pose proof (close_fold_map (fun o => (o_spec o, o_fmt o)) (w_outputs W) (fun o => eq_refl) (w_heap W)) as H.
    rewrite E1 in H. cbn [map] in H.
    destruct (fold_left (fun h p => upd (snd p) close_out h) (w_outputs W) [x; y]) as [|x' [|y' [|z t]]] eqn:E; try discriminate.
    injection H as H1 H2 H3 H4. apply (use_heap W _ x' y'); auto; try congruence. cbn. now rewrite E1.
Qed.
Lemma load_decoded P W file bs err ord : p_read P file = Some bs -> extension file ($"yaml") -> p_yaml P bs = (doc_config, err) ->
  exec P W (OLoadConfigFile file ord) = exec P W (OSetConfig doc_config ord).
Proof.
  intros H1 H2 H3. apply path_Ext_some in H2. cbn [exec]. unfold LoadConfigFile. rewrite H1, H2. unfold LoadConfig.
  replace (decoded P bs ($"yaml")) with doc_config; [reflexivity|]. unfold decoded.
  replace (to_lower (p_low P) ($"yaml")) with ($"yaml") by reflexivity. cbn [str_eqb]. change (str_eqb ($"yaml") ($"yaml")) with true. cbn [orb].
  now rewrite H3.
Qed.
Lemma doc_valid : validateConfig doc_config = true.
Proof. vm_compute. reflexivity. Qed.
Lemma doc_all P W : as_documented P W -> reach P W /\ doc_inv P W.
Proof.
  induction 1 as [file bs err W r H1 H2 H3 H|W o W' r _ [R B] U K H].
  - split; [eapply reach_step; [constructor| |exact H]; constructor|].
    rewrite (load_decoded _ _ _ _ _ _ H1 H2 H3) in H. cbn [exec] in H. unfold setConfig in H. rewrite doc_valid in H. cbn [notify bind] in H.
    injection H as <- <-. constructor; try reflexivity. left. constructor; reflexivity.
  - split; [econstructor; eassumption|]. destruct o; try contradiction.
    + destruct (get_use P W name (reach_inv _ _ R) B) as (W1 & id & E & B1 & _). cbn [exec] in H. rewrite E in H.
      cbn [bind] in H. injection H as <- <-. assumption.
    + pose proof (log_in_use _ _ _ _ _ _ _ _ _ _ _ _ B H) as L. apply log_inv in H as [H _].
      exact (proj1 (sends_use _ _ _ (Printf_sends _ _ _ _ _ _ _ _ _ _ _ H) B L)).
    + injection H as <- <-. now apply close_use.
Qed.
(** Every logger passes what is at info or above on to both outputs. *)
Lemma doc_up W id l v : inv W -> in_use W -> nth_error (w_loggers W) id = Some l -> 4 <= v ->
  name_level W (l_name l) 4 /\ (exists o lo, server W v (l_name l) o /\ nth_error (w_loggers W) o = Some lo /\ l_flag lo = 1) /\
  route W v (l_name l) [0%nat; 1%nat] /\ user_skip W (l_name l) 0.
Proof.
  intros I L Hl Hv. revert l Hl. induction id as [id IH] using lt_wf_ind. intros l Hl.
  assert (C : (exists n p, l = set_log n p) \/ exists id' n p, id = S id' /\ l = newLogger n (Some p)).
  { destruct id as [|id]; [rewrite (iu_first _ L) in Hl; injection Hl as <-; left; eauto|].
    destruct (iu_rest _ L _ _ Hl) as (n & p & [->| ->]); [right|left]; eauto. }
  destruct C as [(n & p & ->)|(id' & n & p & -> & ->)].
  - assert (N : name_level W (l_name (set_log n p)) 4) by exact (nlv_own W _ id (set_log n p) Hl eq_refl ltac:(discriminate)).
    assert (NE : l_outputs (set_log n p) <> []) by (cbn; intros NE; discriminate NE).
    split; [exact N|]. split; [|split].
    + exists id, (set_log n p). split; [|split; [exact Hl|reflexivity]].
      apply (sv_here W v _ 4 id (set_log n p) N Hv Hl eq_refl). left. exact NE.
    + exact (rt_here W v _ 4 id (set_log n p) N Hv Hl eq_refl NE).
    + exists id, (set_log n p). split; [exact Hl|]. split; reflexivity.
  - cbn [newLogger l_name] in *. pose proof (nth_skels _ _ _ Hl) as Hs. cbn [newLogger l_name l_parent] in Hs.
    assert (Hr : n <> $"root").
    { intros ->. pose proof (proj2 (si_root _ _ _ (iv_sk _ I) _ _ _ Hs) eq_refl). discriminate. }
    destruct (si_parent _ _ _ (iv_sk _ I) _ _ _ Hs) as (Hlt & q & pp & Hp & Hpn). apply nth_skels_inv in Hp as (lp & Hlp & <- & _).
    destruct (IH p Hlt lp Hlp) as (H1 & (o & lo & H2 & H2b) & H3 & _).
    assert (N : name_level W n 4) by (eapply nlv_up; [exact Hl|reflexivity|reflexivity|exact Hr|exact Hpn|exact H1]).
    split; [exact N|]. split; [|split].
    + exists o, lo. split; [|exact H2b]. eapply sv_up; [exact N|exact Hv|exact Hl|reflexivity|reflexivity|exact Hr|exact Hpn|exact H2].
    + eapply rt_up; [exact N|exact Hv|exact Hl|reflexivity|reflexivity|exact Hr|exact Hpn|exact H3].
    + exists (S id'), (newLogger n (Some p)). split; [exact Hl|]. split; reflexivity.
Qed.

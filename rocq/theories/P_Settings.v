(** Properties C52 and C53: what the keys of an output entry do, and the permissions of the files. *)
From Verif Require Import GoStr Utf8 LevelModel LevelSpec LevelProofs Strconv StrconvProofs FormatProofs LayoutSpec LayoutProofs ConfModel ConfProofs ConfSpec P_Conf
  EventModel LayoutModel P_Layout OutputModel OutputSpec OutputProofs WorldModel WorldSpec P_Manager RollModel RollSpec RollProofs RollDirProofs RollTimeProofs RollExec P_RollSize.
Local Open Scope Z_scope.

Lemma resolves_gen f dflt hi : 1 <= dflt <= hi ->
  (forall s, f s = (let mr := atoi s in let mr := if mr <=? 0 then dflt else mr in if hi <? mr then hi else mr)) ->
  forall s, resolves dflt hi s (f s).
Proof.
  intros Hd Hf s. rewrite Hf. unfold resolves. split; [|split].
  - intros ->. change (atoi []) with 0. cbn. zcases; lia.
  - intros n Hn ->. rewrite atoi_Itoa by (unfold min_int64, max_int64 in *; lia). cbv zeta. zcases; lia.
  - cbv zeta. zcases; lia.
Qed.
Lemma permission_mode s d : permission d s (getFileMode s d).
Proof.
  split; [|split].
  - intros ->. unfold getFileMode. change (fst (ParseInt [] 0 32)) with 0. cbn. reflexivity.
  - intros a b c Ha Hb Hc Hp ->. now apply fileMode_octal.
  - apply fileMode_range.
Qed.
Lemma size_setting s : bytes_setting s (getMaxSize s).
Proof. split; [intros ->; reflexivity|]. intros n Hn ->. now apply maxSize_plain. Qed.
Lemma located_split p : located p (new_dir p) (snd (path_split p)).
Proof.
  unfold located, new_dir, path_split. destruct (last_index_byte "/" p) as [i|] eqn:E.
  - destruct (suffix_after_last _ _ _ E) as (a & b & -> & Hb & <-). cbn [fst snd].
    assert (F : firstn (S (length a)) (a ++ "/"%char :: b) = a ++ $"/").
    { change (a ++ "/"%char :: b) with (a ++ ["/"%char] ++ b). rewrite app_assoc.
      replace (S (length a)) with (length (a ++ ["/"%char])) by (rewrite app_length; cbn; lia).
      now rewrite firstn_app, Nat.sub_diag, firstn_all, firstn_O, app_nil_r. }
    assert (G : skipn (S (length a)) (a ++ "/"%char :: b) = b).
    { change (a ++ "/"%char :: b) with (a ++ ["/"%char] ++ b). rewrite app_assoc.
      replace (S (length a)) with (length (a ++ ["/"%char])) by (rewrite app_length; cbn; lia).
      now rewrite skipn_app, Nat.sub_diag, skipn_all. }
    rewrite F, G. split; [exact Hb|]. right. exists a.
    destruct (a ++ $"/") as [|x l] eqn:El; [destruct a; discriminate|]. rewrite <- El.
    split; [reflexivity|]. now rewrite <- app_assoc.
  - apply last_index_byte_none in E. cbn. auto.
Qed.
Lemma queued_async cfg : queued (fun k => cget k cfg) (async_of cfg).
Proof.
  unfold queued, async_of. destruct (str_eqb (cget ($"async") cfg) ($"true")) eqn:E.
  - apply str_eqb_eq in E. split; [exact E|]. split; apply resolves_gen; try lia; reflexivity.
  - now apply str_eqb_neq in E.
Qed.
Lemma threshold_level up s : threshold up s (GetThresholdLvl up s).
Proof. now apply C30_threshold_exact. Qed.
Lemma rolling_described up cfg ty : ty = $"size_rolling_file" \/ ty = $"time_rolling_file" -> cfg_Type cfg = ty ->
  exists o, NewRollingOutput up cfg = Created o /\ described up (fun k => cget k cfg) ty o.
Proof.
  intros Ht E. unfold NewRollingOutput. rewrite E. destruct Ht as [->| ->]; cbn [str_eqb];
  (eexists; split; [reflexivity|]; apply de_rolling; cbn [rc_kind rc_dir rc_file rc_archivePath rc_archive rc_archiveExploded
     rc_fullName rc_maxRolls rc_nameMode rc_dirPerm rc_filePerm rc_backPerm];
   [apply queued_async|apply threshold_level|idtac|apply located_split|reflexivity|reflexivity|reflexivity|reflexivity
   |apply resolves_gen; [lia|reflexivity]|idtac|apply permission_mode|apply permission_mode|apply permission_mode]).
  - left. split; [reflexivity|]. eexists. split; [reflexivity|apply size_setting].
  - destruct (str_eqb (cget ($"name_mode") cfg) ($"prefix")) eqn:N.
    + apply str_eqb_eq in N. tauto.
    + apply str_eqb_neq in N. split; [discriminate|tauto].
  - right. split; reflexivity.
  - destruct (str_eqb (cget ($"name_mode") cfg) ($"prefix")) eqn:N.
    + apply str_eqb_eq in N. tauto.
    + apply str_eqb_neq in N. split; [discriminate|tauto].
Qed.

(** ** C52: a configured output is built as its entry says *)
Lemma Parser_accepts layout : Parser layout <> None <-> contains_verb layout.
Proof.
  split; [|intros H E; apply C23_Parser_reject in E; auto].
  intros H. apply contains_verb_iff. destruct (Parser_splits layout) as (items & Hs & _).
  inversion Hs as [s Hno E1 E2|pre n f rest items' Hv Hno Hs' E1 E2]; subst.
  - destruct H. apply Parser_none. exact Hno.
  - exists pre, (print_verb n f ++ rest). split; [reflexivity|]. exists n, f, rest. split; [exact Hv|reflexivity].
Qed.
(** Each of the five built-in types has a creator at start-up, and it builds the output that the
    entry describes; only syslog's can fail, when it cannot connect. *)
Theorem C52_built_as_described : forall P ty,
  In ty [$"console"; $"memory"; $"size_rolling_file"; $"time_rolling_file"; $"syslog"] ->
  exists cr, mlookup ty (w_ocreators (init_world P)) = Some cr /\
    forall t cfg, cget ($"type") cfg = ty ->
      (exists o, cr t cfg = Created o /\ described (p_up P) (fun k => cget k cfg) ty o) \/
      (ty = $"syslog" /\ p_dial P t = false /\ cr t cfg = CreateErr).
Proof.
  intros P ty H. rewrite init_oc. cbn [In] in H.
  destruct H as [<-|[<-|[<-|[<-|[<-|[]]]]]]; (eexists; split; [reflexivity|]); intros t cfg E.
  - left. eexists. split; [reflexivity|]. apply de_console; [apply queued_async|apply threshold_level].
  - left. eexists. split; [reflexivity|]. apply de_memory.
  - left. now apply rolling_described; [left|].
  - left. now apply rolling_described; [right|].
  - unfold NewSyslogOutput. destruct (p_dial P t); [|right; auto].
    left. eexists. split; [reflexivity|]. apply de_syslog. apply threshold_level.
Qed.
Print Assumptions C52_built_as_described.
(** Nothing else in the entry matters. *)
Definition keys_of (ty : str) : list str :=
  if str_eqb ty ($"console") then [$"async"; $"queue_size"; $"batch_num"; $"threshold"]
  else if str_eqb ty ($"memory") then []
  else if str_eqb ty ($"syslog") then [$"prefix"; $"threshold"]
  else [$"type"; $"file"; $"archive"; $"backups"; $"name_mode"; $"dir_perm"; $"file_perm"; $"back_perm"; $"async";
        $"queue_size"; $"batch_num"; $"threshold"] ++
       (if str_eqb ty ($"size_rolling_file") then [$"size"] else [$"pattern"]).
Theorem C52_other_keys : forall P ty cr t cfg cfg',
  mlookup ty (w_ocreators (init_world P)) = Some cr ->
  cget ($"type") cfg = ty -> cget ($"type") cfg' = ty ->
  (forall k, In k (keys_of ty) -> cget k cfg = cget k cfg') -> cr t cfg = cr t cfg'.
Proof.
  intros P ty cr t cfg cfg' H E E' K. rewrite init_oc in H. cbn [mlookup] in H.
  destruct (str_eqb ty ($"console")) eqn:T1.
  { apply str_eqb_eq in T1. rewrite T1 in *. injection H as <-. unfold NewConsoleOutput, async_of.
    cbn in K. now rewrite !K by tauto. }
  destruct (str_eqb ty ($"memory")) eqn:T2; [now injection H as <-|].
  destruct (str_eqb ty ($"size_rolling_file")) eqn:T3.
  { apply str_eqb_eq in T3. rewrite T3 in *. injection H as <-. unfold NewRollingOutput, async_of. cbn in K.
    unfold cfg_Type. rewrite E, E'. cbn [str_eqb].
    repeat match goal with |- context [cget ?k cfg] => rewrite (K k) by (cbn; tauto) end. reflexivity. }
  destruct (str_eqb ty ($"time_rolling_file")) eqn:T4.
  { apply str_eqb_eq in T4. rewrite T4 in *. injection H as <-. unfold NewRollingOutput, async_of. cbn in K.
    unfold cfg_Type. rewrite E, E'. cbn [str_eqb].
    repeat match goal with |- context [cget ?k cfg] => rewrite (K k) by (cbn; tauto) end. reflexivity. }
  destruct (str_eqb ty ($"syslog")) eqn:T5; [|discriminate].
  apply str_eqb_eq in T5. rewrite T5 in *. injection H as <-. unfold NewSyslogOutput. cbn in K. now rewrite !K by tauto.
Qed.
Print Assumptions C52_other_keys.
(** The keys by which entries are found: the name of an entry, its type, and the format an output names; a key that is not there is empty. *)
Definition set_to (m : smap str) (k v : str) : Prop := mlookup k m = Some v \/ mlookup k m = None /\ v = [].
Theorem C52_entry_keys : forall m v,
  (cfg_Name (Some m) = v <-> set_to m ($"name") v) /\ (cfg_Type (Some m) = v <-> set_to m ($"type") v) /\
  (cfg_FormatName (Some m) = v <-> set_to m ($"format") v).
Proof.
  assert (A : forall m k v, cget k (Some m) = v <-> set_to m k v).
  { intros m k v. unfold cget, set_to. destruct (mlookup k m) as [x|].
    - split; [intros ->; auto|]. intros [[= ->]|[F _]]; [reflexivity|discriminate].
    - split; [intros <-; auto|]. intros [F|[_ ->]]; [discriminate|reflexivity]. }
  intros m v. split; [|split]; apply A.
Qed.
Print Assumptions C52_entry_keys.
(** The one built-in type of formats: its creator makes the formatter for the layout under "layout", and answers an error when the layout has
    no verb. *)
Theorem C52_format_described : forall P,
  exists cr, mlookup ($"text") (w_fcreators (init_world P)) = Some cr /\
    forall t m layout, set_to m ($"layout") layout ->
      (contains_verb layout /\ exists f, cr t (Some m) = Ok (Some f) /\ built (ByLayout layout) (Some f)) \/
      (~ contains_verb layout /\ cr t (Some m) = Ok None).
Proof.
  intros P. rewrite init_fc. eexists. split; [reflexivity|]. intros t m layout H. cbn beta. unfold NewTextFormatter.
  assert (E : match mlookup ($"layout") m with Some l => l | None => [] end = layout).
  { destruct H as [->|[-> ->]]; reflexivity. }
  rewrite E. destruct (Parser layout) as [ps|] eqn:Ep.
  - left. split; [|eexists; split; [reflexivity|now constructor]]. apply Parser_accepts. congruence.
  - right. split; [|reflexivity]. now apply C23_Parser_reject.
Qed.
Print Assumptions C52_format_described.
Example C52_format_example : set_to [($"type", $"text"); ($"layout", $"%{msg}")] ($"layout") ($"%{msg}") /\ contains_verb ($"%{msg}").
Proof. split; [left; reflexivity|]. apply Parser_accepts. discriminate. Qed.
Definition ex_entry : cfgmap :=
  Some [($"type", $"size_rolling_file"); ($"file", $"/var/log/a.log"); ($"size", $"4096"); ($"backups", $"7");
        ($"file_perm", $"0640"); ($"async", $"true"); ($"queue_size", $"64"); ($"threshold", $"warn")].
Example C52_example : NewRollingOutput (fun r => r) ex_entry = Created {|
  os_sink := SinkRolling {| rc_kind := BySize 4096; rc_dir := $"/var/log/"; rc_file := $"a.log"; rc_archive := ArchiveNone;
    rc_archivePath := $"/var/log/"; rc_archiveExploded := false; rc_fullName := false; rc_maxRolls := 7;
    rc_nameMode := Postfix; rc_dirPerm := 496; rc_filePerm := 416; rc_backPerm := 320 |};
  os_async := Some (64, 20); os_threshold := 5 |}.
Proof. reflexivity. Qed.

(** ** C53: files get the configured permissions *)
(** A sequence of file system operations that gives directories, the current file and the backups
    their permissions. [cut]: it may stop anywhere. *)
Definition plainly (c : roll_conf) (o : fsop) : Prop :=
  match o with
  | OMkdir p | OArcMkdir p | OArcTmpDir p => p = rc_dirPerm c
  | OOpen n p => p = rc_filePerm c /\ (n = rc_file c \/ exists r, rc_fullName c = true /\ backup_name c r n)
  | ORename _ _ | OChmod _ _ => False
  | _ => True
  end.
Inductive permits (c : roll_conf) (cut : bool) : list (fsop * fsres) -> Prop :=
| pe_nil : permits c cut []
| pe_plain o r tr : plainly c o -> permits c cut tr -> permits c cut ((o, r) :: tr)
| pe_failed a b r tr : r <> ROk -> permits c cut tr -> permits c cut ((ORename a b, r) :: tr)
| pe_backup a b s r tr : backup_name c s b -> permits c cut tr ->
    permits c cut ((ORename a b, ROk) :: (OChmod b (rc_backPerm c), r) :: tr)
| pe_cut a b s : cut = true -> backup_name c s b -> permits c cut [(ORename a b, ROk)].

Lemma fsres_ok (r : fsres) : r = ROk \/ r <> ROk.
Proof. destruct r; auto; right; discriminate. Qed.
Inductive chm {A} (c : roll_conf) : prog A -> Prop :=
| ch_done a : chm c (Done a)
| ch_plain o k : plainly c o -> (forall r, chm c (k r)) -> chm c (Op o k)
| ch_rename a b s k k' : backup_name c s b -> (forall r, r <> ROk -> chm c (k r)) ->
    k ROk = Op (OChmod b (rc_backPerm c)) k' -> (forall r, chm c (k' r)) -> chm c (Op (ORename a b) k).
Lemma chm_bind {A B} c (p : prog A) (k : A -> prog B) : chm c p -> (forall a, chm c (k a)) -> chm c (pbind p k).
Proof.
  intros H HK. induction H as [a|o g O _ IH|a b s g g' N _ IH1 E _ IH2]; cbn [pbind]; [auto|now apply ch_plain|].
  eapply ch_rename; [exact N|exact IH1|rewrite E; reflexivity|exact IH2].
Qed.
Lemma chm_op c o : plainly c o -> chm c (op o).
Proof. intros H. apply ch_plain; [exact H|]. intros r. apply ch_done. Qed.
Lemma chm_uses {A} c (p : prog A) : uses (plainly c) p -> chm c p.
Proof. induction 1; [apply ch_done|now apply ch_plain]. Qed.
Lemma chm_goes {A} c (p : prog A) f tr f' x : chm c p -> goes p f tr f' x ->
  permits c (match x with Some _ => false | None => true end) tr.
Proof.
  intros C G. revert f tr f' x G. induction C as [a|o g O _ IH|a b s g g' N _ IH1 E _ IH2]; intros f tr f' x G.
  - inversion G; subst; apply pe_nil.
  - inversion G; subst; [apply pe_nil|]. apply pe_plain; [exact O|]. eapply IH; eassumption.
  - inversion G as [| |o' k' r f0 f1 tr' f2 x' Ef G' Q1 Q2 Q3 Q4]; subst; [apply pe_nil|].
    destruct (fsres_ok r) as [-> |NR]; [|apply pe_failed; [exact NR|]; eapply IH1; eassumption].
    rewrite E in G'. inversion G'; subst; [eapply pe_cut; [reflexivity|exact N]|].
    eapply pe_backup; [exact N|]. eapply IH2; eassumption.
Qed.

Ltac chm_step := repeat first
  [ apply chm_bind; [|let x := fresh "a" in intros x]
  | apply ch_done
  | apply ch_plain; [solve [exact Logic.I | reflexivity]|let x := fresh "r" in intros x]; cbn [pbind]
  | apply chm_op; solve [exact Logic.I | reflexivity]
  | match goal with |- chm _ (match ?x with _ => _ end) => destruct x end
  | match goal with |- chm _ (if ?x then _ else _) => destruct x end ].
Lemma chm_add c es l : chm c (addRolls es l).
Proof. revert es. induction l as [|n l IH]; intros es; cbn; [apply ch_done|]. apply ch_plain; [exact Logic.I|]. intros []; auto using ch_done. Qed.
Lemma chm_remove c l : chm c (removeAll l).
Proof. induction l as [|n l IH]; cbn; [apply ch_done|]. apply ch_plain; [exact Logic.I|]. auto. Qed.
Lemma chm_delete c l : chm c (deleteOldRolls c l).
Proof. unfold deleteOldRolls, archiveUnexploded. chm_step; try apply chm_add; apply chm_remove. Qed.
Lemma full_name c r : backup_name c r (createFullFileName c (rc_file c) r).
Proof. unfold backup_name, createFullFileName, delim. now destruct (rc_nameMode c). Qed.
Lemma chm_create c w : chm c (createFile c w).
Proof.
  unfold createFile, getCurrentFileName, now. apply chm_bind; [apply chm_op; reflexivity|]. intros r. destruct r; try apply ch_done.
  destruct (rc_kind c).
  - cbn [pbind]. apply chm_bind; [apply chm_op; cbn; auto|]. intros r. chm_step.
  - destruct (rc_fullName c) eqn:FN.
    + cbn [pbind op]. apply ch_plain; [exact Logic.I|]. intros r. cbn [pbind]. apply ch_plain.
      { cbn. split; [reflexivity|]. right. eexists. split; [exact FN|apply full_name]. }
      intros r'. chm_step.
    + cbn [pbind]. apply chm_bind; [apply chm_op; cbn; auto|]. intros r. chm_step.
Qed.
Lemma chm_roll P c w : chm c (roll P c w).
Proof.
  unfold roll. destruct (w_file w) as [[n [|]]|]; try apply ch_done.
  apply chm_bind; [apply chm_op; exact Logic.I|]. intros r. destruct r; try apply ch_done.
  apply chm_bind; [unfold getSortedLogHistory, getDirFilePaths; chm_step|]. intros [h|]; [|apply ch_done].
  apply chm_bind; [unfold getNewHistoryRollFileName, now; chm_step|]. intros [w1 rn].
  cbn [pbind op]. eapply ch_rename; [apply full_name| |reflexivity|].
  - intros r NR. destruct r; try apply ch_done. congruence.
  - intros r. apply chm_bind; [|intros; apply ch_done]. destruct (_ <? _); [apply chm_delete|apply ch_done].
Qed.
Lemma chm_write P c w b : chm c (rw_Write P c w b).
Proof.
  unfold rw_Write. apply chm_bind; [unfold needsToRoll, now; chm_step|]. intros [w1 need].
  apply chm_bind; [destruct need; [apply chm_roll|apply ch_done]|]. intros [w2 err]. destruct err; [apply ch_done|].
  apply chm_bind; [destruct (w_file w2); [apply ch_done|apply chm_create]|]. intros [w3 err]. chm_step.
Qed.

(** Every directory is made with the directory permission, the current file is opened with the file
    permission, and a backup gets the backup permission right after it was made; no other
    permission is ever changed. *)
Theorem C53_write : forall P c w b f tr f' x, runs (rw_Write P c w b) f tr f' x -> permits c false tr.
Proof. intros P c w b f tr f' x R. apply runs_goes in R. exact (chm_goes c _ _ _ _ _ (chm_write P c w b) R). Qed.
Print Assumptions C53_write.
(** The same if the process dies, which may leave one backup, the last one, unprotected. *)
Theorem C53_interrupted : forall P c w b f tr f', partly (rw_Write P c w b) f tr f' -> permits c true tr.
Proof. intros P c w b f tr f' R. apply partly_goes in R. exact (chm_goes c _ _ _ _ _ (chm_write P c w b) R). Qed.
Print Assumptions C53_interrupted.
(** A write that rolls: the file is 3 bytes long, the limit 3. *)
Definition perms_of (x : fsop * fsres) : list (Z * str) :=
  match fst x with
  | OMkdir p => [(p, $"directory")]
  | OOpen n p => [(p, $"open " ++ n)]
  | ORename a b => [(0, $"rename " ++ a ++ $" " ++ b)]
  | OChmod n p => [(p, $"chmod " ++ n)]
  | _ => []
  end.
Definition seen {A} (p : prog A) (s : sim) : list (Z * str) :=
  match exec p s with Some (_, tr, _) => flat_map perms_of tr | None => [] end.
Lemma seen_runs {A} (p : prog A) s l : finite (s_dir s) (s_names s) -> seen p s = l -> l <> [] ->
  exists tr f' a, runs p (fs_of s) tr f' a /\ flat_map perms_of tr = l.
Proof.
  intros F H N. unfold seen in H. destruct (exec p s) as [[[a tr] s']|] eqn:E; [|congruence].
  apply exec_sound in E as [R _]; [|exact F]. eauto.
Qed.
Example C53_example : exists tr f' x,
  runs (rw_Write noP (exc (BySize 3) 2 Postfix ArchiveNone) (mkW (Some ($"a", true)) ($"a") 3 []) ($"de"))
    (fs_of (sim_of [($"a", Reg ($"abc"))] ADir [] [])) tr f' x /\
  flat_map perms_of tr = [(0, $"rename a a.1"); (320, $"chmod a.1"); (496, $"directory"); (384, $"open a")].
Proof.
  apply seen_runs; [|vm_compute; reflexivity|discriminate].
  apply sim_finite. repeat constructor. cbn. tauto.
Qed.

(** Property C87: what all runs of a program logged is in the files. *)
From Verif Require Import GoStr Strconv Utf8 LevelModel EventModel LayoutModel LayoutSpec LayoutProofs FormatSpec ConfModel ConfProofs OutputModel OutputSpec OutputProofs
  WorldModel WorldSpec WorldBase WorldInv WorldProofs LogProofs P_Conf P_Hier P_Log EndModel EndSpec EndProofs.
From Verif Require Import RollModel RollSpec RollExec RollProofs RollSizeProofs RollArchProofs RollDirProofs RollRunProofs RollTimeProofs P_Output P_RollSize P_RollTime P_End.
From Verif Require Import AsyncSpec FaultSpec FaultTimeProofs P_Fault P_Crash LivesSpec.
Local Open Scope Z_scope.

Lemma session_goes P T c good i W f w os W1 f1 w1 : session P T c good i W f w os W1 f1 w1 -> EndModel.goes P i W os W1.
Proof. induction 1; econstructor; eassumption. Qed.
Lemma goes_snoc P i W os W1 o W2 r : EndModel.goes P i W os W1 -> op_ok W1 o -> fair i o -> WorldModel.exec P W1 o = Ok (W2, r) -> EndModel.goes P i W (os ++ [o]) W2.
Proof.
  intros G OK F X. induction G as [W|W o' W' r' os W'' OK' F' X' G IH]; cbn; [econstructor; [exact OK|exact F|exact X|constructor]|].
  econstructor; [exact OK'|exact F'|exact X'|exact (IH OK X)].
Qed.
(** Some disk on which every write happens: one that fails at once. *)
Definition deaf : roll_conf := exc (BySize 1) 0 Postfix ArchiveNone.
Lemma deaf_happens T f ws : exists hs, Forall2 put_of ws hs /\ happens T deaf any f w_new hs f w_new.
Proof.
  induction ws as [|b ws (hs & A & B)]; [exists []; split; constructor|].
  exists (HWrite b 0 true :: hs). split; [constructor; [exists 0%nat, true; reflexivity|exact A]|].
  apply (h_write T deaf any f w_new b [(OMkdir (rc_dirPerm deaf), RErr)] f w_new 0 true); [|repeat constructor|exact B].
  unfold rw_Write. cbn. eapply r_op; [constructor|]. cbn. constructor.
Qed.
Lemma goes_texts P i W os W' x h : EndModel.goes P i W os W' -> reach P W -> nth_error (w_heap W) i = Some x -> sync_base x -> built h (o_fmt x) ->
  exists evs ts x', deliveries P i W os evs /\ written (p_env P) h (os_threshold (o_spec x)) evs ts /\ nth_error (w_heap W') i = Some x' /\ o_writes x' = o_writes x ++ ts.
Proof.
  intros G R Hx SB B. destruct (goes_session_any P (fun _ _ => None) deaf any i W os W' G x h R Hx SB B) as (x1 & ws & _ & _ & SE).
  destruct (deaf_happens (fun _ _ => None) (mkFs (fun _ => None) ADir) ws) as (hs & A & D).
  destruct (session_runs _ _ _ _ _ _ _ _ _ _ _ _ (SE _ _ _ _ _ A D) x h R Hx SB B) as (evs & ts & hs' & x2 & E1 & E2 & _ & _ & _ & E3 & E4 & _). eauto 8.
Qed.
(** A write is whole if nothing fails. *)
Lemma smooth_failures tr n : failures tr n -> Forall smooth tr -> n = 0%nat.
Proof. induction 1 as [|x tr n S H IH|x tr n S H IH]; intros F; inversion F; subst; [reflexivity|auto|contradiction]. Qed.
Lemma clean_whole T c f ts hs f' w' : match rc_kind c with BySize m => 0 < m | ByTime _ => rc_fullName c = false end ->
  happens T c smooth f w_new hs f' w' -> Forall2 put_of ts hs -> forall ps, parts hs ps -> ps = ts.
Proof.
  intros K H PU ps PA. destruct (happens_attempts _ _ _ _ _ _ _ _ H _ PU) as (ws & AT & MT & TE). rewrite (tells_parts _ _ TE _ PA), <- MT.
  assert (OF : own_faults_only ws).
  { apply (C85_own_faults_partial T c f ws f' w' K). refine (attempts_weaken _ _ _ _ _ _ _ _ _ _ AT). intros [o r] S. unfold harmless. cbn [fst]. destruct o; auto. }
  assert (Z : Forall (fun a => t_failed a = 0%nat) ws).
  { clear - AT. induction AT; constructor; auto. cbn. eapply smooth_failures; eassumption. }
  apply map_ext_in. intros a I. unfold own_faults_only in OF. rewrite Forall_forall in OF, Z. unfold remains. rewrite (OF a I (Z a I)). apply firstn_all.
Qed.
Lemma parts_app a b ps : parts (a ++ b) ps -> exists p1 p2, ps = p1 ++ p2 /\ parts a p1 /\ parts b p2.
Proof.
  revert ps. induction a as [|h a IH]; cbn; intros ps H; [exists [], ps; repeat split; [constructor|exact H]|].
  inversion H; subst; match goal with X : parts (a ++ b) _ |- _ => destruct (IH _ X) as (p1 & p2 & -> & A & B) end.
  - exists (firstn k b0 :: p1), p2. repeat split; [now constructor|exact B].
  - exists (firstn k b0 :: p1), p2. repeat split; [now constructor|exact B].
  - exists ([] :: p1), p2. repeat split; [now constructor|exact B].
Qed.
Lemma put_parts ts hs : Forall2 put_of ts hs -> forall ps, parts hs ps -> Forall2 (fun p t => exists k, p = firstn k t) ps ts.
Proof.
  induction 1 as [|t h ts hs (k & e & ->) H IH]; intros ps PA; inversion PA; subst; constructor; eauto.
Qed.
Lemma happens_join P c good f w a f1 w1 b f2 w2 : happens P c good f w a f1 w1 -> happens P c good f1 w1 b f2 w2 -> happens P c good f w (a ++ b) f2 w2.
Proof. induction 1; cbn; intros H'; auto; econstructor; eauto. Qed.

(** One run: the history of its writes, with its end. *)
Definition leaves (P : params) (c : roll_conf) (clean : Prop) (r : run) (ps : list str) : Prop :=
  forall h t, logs_to P c r h t -> exists evs ts, deliveries P (r_output r) (r_world r) (r_calls r) evs /\ written (p_env P) h t evs ts /\
    beginnings ts ps /\ (clean -> all_or_killed ts ps).
Definition usable (c : roll_conf) : Prop := match rc_kind c with BySize m => 0 < m | ByTime _ => rc_fullName c = false end.
Lemma life_history P T c good r f f' : (exists h t, logs_to P c r h t) -> usable c -> life P T c good (r_output r) (r_world r) f (r_calls r) f' ->
  exists hs, happens T c good f w_new hs f' w_new /\
    forall ps, parts hs ps -> exists qs, concat qs = concat ps /\ leaves P c (forall y, good y -> smooth y) r qs.
Proof.
  intros (h0 & t0 & RC & x & Hx & S & A & _ & B0) US L.
  pose proof (rolling_sync _ _ S A) as SB.
  inversion L as [os W1 f1 w1 SE E1 E2|os o W1 f1 w1 W2 rr pre b post hs f2 w2 tr f3 SE OK F X WR PU HA PT G E1 E2]; subst.
  - destruct (session_runs _ _ _ _ _ _ _ _ _ _ _ _ SE x h0 RC Hx SB B0) as (_ & ws & hs & x1 & _ & _ & PU & HA & _ & Hx1 & EW & _ & _).
    exists (hs ++ [HRestart]). split; [apply (happens_join _ _ _ _ _ _ _ _ _ _ _ HA); repeat constructor|].
    intros ps PA. apply parts_app in PA as (p1 & p2 & -> & PA & P2). inversion P2 as [| | |? ? P3]; subst. inversion P3; subst.
    exists p1. split; [rewrite concat_app; cbn; now rewrite app_nil_r|]. intros h t (_ & y & Hy & _ & _ & TH & B). rewrite Hx in Hy. injection Hy as <-. subst t.
    destruct (goes_texts P (r_output r) (r_world r) (r_calls r) W1 x h (session_goes _ _ _ _ _ _ _ _ _ _ _ _ SE) RC Hx SB B) as (evs & ts & x2 & D & WT & Hx2 & EW2).
    rewrite Hx1 in Hx2. injection Hx2 as <-. rewrite EW in EW2. apply app_inv_head in EW2. subst ts.
    exists evs, ws. split; [exact D|]. split; [exact WT|]. split.
    + exists ws, []. split; [now rewrite app_nil_r|]. exact (put_parts _ _ PU _ PA).
    + intros CL. left. apply (clean_whole T c f ws hs f' w1 US); auto. exact (happens_weaken T c good smooth _ _ _ _ _ CL HA).
  - destruct (session_runs _ _ _ _ _ _ _ _ _ _ _ _ SE x h0 RC Hx SB B0) as (_ & ws & hs0 & x1 & _ & _ & PU0 & HA0 & _ & Hx1 & EW & _ & _).
    pose proof (happens_join _ _ _ _ _ _ _ _ _ _ _ HA0 HA) as HJ. pose proof (Forall2_app PU0 PU) as PJ.
    exists ((hs0 ++ hs) ++ [HCrash b]). split.
    { apply (happens_join _ _ _ _ _ _ _ _ _ _ _ HJ). econstructor; [exact PT|exact G|constructor]. }
    intros ps PA. apply parts_app in PA as (p1 & p2 & -> & PA & P2). inversion P2 as [| |? k ? p3 KL P3|]; subst. inversion P3; subst.
    exists (p1 ++ [firstn k b]). split; [reflexivity|]. intros h t (_ & y & Hy & _ & _ & TH & B). rewrite Hx in Hy. injection Hy as <-. subst t.
    destruct (goes_texts P (r_output r) (r_world r) (os ++ [o]) W2 x h (goes_snoc _ _ _ _ _ _ _ _ (session_goes _ _ _ _ _ _ _ _ _ _ _ _ SE) OK F X) RC Hx SB B)
      as (evs & ts & x2 & D & WT & Hx2 & EW2).
    assert (ET : ts = (ws ++ pre) ++ b :: post).
    { destruct WR as (y1 & y2 & Y1 & Y2 & EY). rewrite Hx1 in Y1. injection Y1 as <-. rewrite Hx2 in Y2. injection Y2 as <-.
      rewrite EW, EW2, <- !app_assoc in EY. apply app_inv_head in EY. now rewrite <- app_assoc. }
    exists evs, ts. rewrite ET. split; [rewrite E1 in *; exact D|]. split; [rewrite <- ET; exact WT|]. split.
    + exists ((ws ++ pre) ++ [b]), post. split; [now rewrite <- (app_assoc _ [b] post)|]. apply Forall2_app; [exact (put_parts _ _ PJ _ PA)|]. constructor; [now exists k|constructor].
    + intros CL. right. exists (ws ++ pre), b, k, post. split; [reflexivity|]. f_equal.
      apply (clean_whole T c f (ws ++ pre) (hs0 ++ hs) f2 w2 US); auto. exact (happens_weaken T c good smooth _ _ _ _ _ CL HJ).
Qed.

Lemma lives_history P T c good rs : usable c -> Forall (fun r => exists h t, logs_to P c r h t) rs -> forall f f', lives_of P T c good f rs f' ->
  exists hs, happens T c good f w_new hs f' w_new /\
    forall ps, parts hs ps -> exists qss, concat (concat qss) = concat ps /\ Forall2 (leaves P c (forall y, good y -> smooth y)) rs qss.
Proof.
  intros US LT. induction LT as [|r rs LG LT IH]; intros f f' L; inversion L; subst.
  - exists []. split; [constructor|]. intros ps PA. inversion PA; subst. exists []. split; [reflexivity|constructor].
  - rename H2 into A, H4 into B.
    destruct (life_history P T c good r f f1 LG US A) as (h1 & H1 & Q1). destruct (IH f1 f' B) as (h2 & H2 & Q2).
    exists (h1 ++ h2). split; [exact (happens_join _ _ _ _ _ _ _ _ _ _ _ H1 H2)|].
    intros ps PA. apply parts_app in PA as (p1 & p2 & -> & PA1 & PA2). destruct (Q1 _ PA1) as (q1 & E1 & LV1). destruct (Q2 _ PA2) as (q2 & E2 & LV2).
    exists (q1 :: q2). split; [cbn; now rewrite !concat_app, E1, E2|]. now constructor.
Qed.

(** Rolling by size, any faults: the backups and the log file hold, after what was there, the texts of the events delivered in
    the first run, in the second and so on: of every text a beginning, of those of a run that is killed the first ones;
    without faults all of them, and of a killed run all before the one that it died in. *)
Theorem C87_runs : forall P T c m good f rs f' l, rc_kind c = BySize m -> 0 < m -> tmp_ok c -> rc_maxRolls c <= 0 ->
  Forall (fun r => exists h t, logs_to P c r h t) rs -> lives_of P T c good f rs f' -> holds c (f_dir f) l ->
  exists hs, happens T c good f w_new hs f' w_new /\ (room (l_backups l) (length hs) ->
    exists l' pss, holds c (f_dir f') l' /\ on_disk l' = on_disk l ++ concat (concat pss) /\
      Forall2 (fun r ps => forall h t, logs_to P c r h t -> exists evs ts,
        deliveries P (r_output r) (r_world r) (r_calls r) evs /\ written (p_env P) h t evs ts /\
        beginnings ts ps /\ ((forall y, good y -> smooth y) -> all_or_killed ts ps)) rs pss).
Proof.
  intros P T c m good f rs f' l K MP TO MR LT L HO.
  destruct (lives_history P T c good rs ltac:(unfold usable; now rewrite K) LT f f' L) as (hs & H & Q). exists hs. split; [exact H|]. intros RM.
  destruct (C40_nothing_lost T c m good f hs f' w_new l K TO MR H HO RM) as (l' & ps & HO' & PA & E). destruct (Q _ PA) as (pss & EC & LV).
  exists l', pss. rewrite EC. auto.
Qed.
Print Assumptions C87_runs.
(** By time, a clock that does not come back. *)
Theorem C87_runs_time : forall P T c p good f x0 rs f', rc_kind c = ByTime p -> rc_fullName c = false ->
  Forall (fun r => exists h t, logs_to P c r h t) rs -> lives_of P T c good f rs f' -> f_dir f (rc_file c) = option_map Reg x0 ->
  exists hs R, dated T c good f w_new hs R f' w_new /\
    ((rc_archive c = ArchiveNone \/ (rc_file c <> $".log4g_tmp" /\ forall s, In s R -> ~ backup_name c s ($".log4g_tmp"))) ->
     (forall s, In s R -> s <> []) -> never_returns R ->
     exists bs cur pss, f_dir f' (rc_file c) = option_map Reg cur /\ sublist (map fst bs) R /\ NoDup (map fst bs) /\
       concat (map snd bs) ++ bytes cur = bytes x0 ++ concat (concat pss) /\
       (forall s y n, In (s, y) bs -> backup_name c s n -> f_dir f' n = Some (Reg y) \/ (0 < rc_maxRolls c /\ f_dir f' n = None)) /\
       Forall2 (fun r ps => forall h t, logs_to P c r h t -> exists evs ts,
         deliveries P (r_output r) (r_world r) (r_calls r) evs /\ written (p_env P) h t evs ts /\
         beginnings ts ps /\ ((forall y, good y -> smooth y) -> all_or_killed ts ps)) rs pss).
Proof.
  intros P T c p good f x0 rs f' K FN LT L F0.
  destruct (lives_history P T c good rs ltac:(unfold usable; now rewrite K) LT f f' L) as (hs & H & Q).
  destruct (happens_dated _ _ _ _ _ _ _ _ H) as (R & DT). exists hs, R. split; [exact DT|]. intros TM NE NR.
  destruct (C86_nothing_lost T c p good f x0 hs R f' w_new K FN DT F0 TM NE NR) as (bs & cur & ps & CUR & SL & ND & PA & E & BK).
  destruct (Q _ PA) as (pss & EC & LV). exists bs, cur, pss. rewrite EC. auto 10.
Qed.
Print Assumptions C87_runs_time.

(** Example: C85's program is killed in the write of its first record, after the bytes are written, and is started again. *)
Definition lives_run1 : run := mkRun fault_W 1 ([] ++ [end_log 2 Warn ($"one")]).
Definition lives_run2 : run := mkRun fault_W 1 end_os.
Definition lives_first : str := $"WARN  [T] a/b: one" ++ [nl].
Definition lives_mid : option (list (fsop * fsres) * sim) := exec_part 4 (rw_Write noP fault_conf w_new lives_first) end_sim.
Definition lives_sim : sim := match lives_mid with Some (_, s) => s | None => end_sim end.
Definition lives_tr : list (fsop * fsres) := match lives_mid with Some (tr, _) => tr | None => [] end.
Definition lives_W1 : world := match WorldModel.exec ex_P fault_W (end_log 2 Warn ($"one")) with Ok (W, _) => W | Panic => fault_W end.
Lemma lives_log r : r_world r = fault_W -> r_output r = 1%nat -> logs_to ex_P fault_conf r ByDefault Info.
Proof. intros E1 E2. split; [rewrite E1; exact fault_reach|]. eexists. rewrite E1, E2. split; [exact fault_cell|]. repeat (split; [reflexivity|]). exact b_default. Qed.
Example C87_ex : exists f', lives_of ex_P noP fault_conf smooth (fs_of end_sim) [lives_run1; lives_run2] f' /\
    Forall (fun r => exists h t, logs_to ex_P fault_conf r h t) [lives_run1; lives_run2] /\ holds fault_conf (f_dir (fs_of end_sim)) (mkLog [] None) /\
    map (f_dir f') [$"a.1"; $"a.2"; $"a.3"; $"a"] =
      [Some (Reg (lives_first ++ lives_first)); Some (Reg ($"ERROR [T] a/c: four" ++ [nl])); Some (Reg ($"INFO  [T] a: five" ++ nl :: $"INFO  [T] a/b: six" ++ [nl])); Some (Reg ($"INFO  [T] a/b: seven" ++ [nl]))].
Proof.
  assert (FI : finite (s_dir end_sim) (s_names end_sim)) by (apply sim_finite; repeat constructor; intros []).
  assert (EM : lives_mid = Some (lives_tr, lives_sim)).
  { unfold lives_tr, lives_sim. destruct lives_mid as [[tr s]|] eqn:E; [reflexivity|]. exfalso.
    assert (X : match lives_mid with Some _ => true | None => false end = true) by (vm_compute; reflexivity). rewrite E in X. discriminate. }
  destruct (exec_part_sound _ _ _ _ _ FI EM) as [PT FI1].
  destruct (goes_session ex_P noP fault_conf smooth 1 _ _ _ fault_goes _ ByDefault fault_reach fault_cell
    (rolling_sync (mkOut fault_out None [] [] 0) fault_conf eq_refl eq_refl) b_default) as (x' & ws & E1 & E2 & SE).
  pose proof fault_written as EW. rewrite E1 in EW. cbn [option_map] in EW. injection EW as EW. rewrite E2 in EW. cbn [o_writes app] in EW. subst ws.
  assert (H : show noP fault_conf (map (fun b => SWrite b) end_texts) lives_sim [$"a.1"; $"a.2"; $"a.3"; $"a"] =
    Some (map well_put end_texts, true, [Some (Reg (lives_first ++ lives_first)); Some (Reg ($"ERROR [T] a/c: four" ++ [nl])); Some (Reg ($"INFO  [T] a: five" ++ nl :: $"INFO  [T] a/b: six" ++ [nl]));
      Some (Reg ($"INFO  [T] a/b: seven" ++ [nl]))])) by (vm_compute; reflexivity).
  apply show_happens in H as (f' & w' & H & E); [|exact FI1].
  exists f'. split; [|split; [|split; [exact fault_holds|exact E]]].
  - apply (lo_run _ _ _ _ _ lives_run1 (fs_of lives_sim)); [|apply (lo_run _ _ _ _ _ lives_run2 f'); [|constructor]].
    + assert (EX : exists r, WorldModel.exec ex_P fault_W (end_log 2 Warn ($"one")) = Ok (lives_W1, r)).
      { unfold lives_W1. destruct (WorldModel.exec ex_P fault_W (end_log 2 Warn ($"one"))) as [[W r]|] eqn:EE; [now exists r|]. exfalso.
        assert (X : match WorldModel.exec ex_P fault_W (end_log 2 Warn ($"one")) with Ok _ => true | Panic => false end = true) by (vm_compute; reflexivity).
        rewrite EE in X. discriminate. }
      destruct EX as (r & EX).
      apply (lf_killed _ _ _ _ _ _ _ [] (end_log 2 Warn ($"one")) fault_W (fs_of end_sim) w_new lives_W1 r [] lives_first [] [] (fs_of end_sim) w_new lives_tr (fs_of lives_sim)).
      * constructor.
      * vm_compute. split; discriminate.
      * exact good_background.
      * exact EX.
      * assert (X : option_map o_writes (nth_error (w_heap lives_W1) 1) = Some [lives_first]) by (vm_compute; reflexivity).
        destruct (nth_error (w_heap lives_W1) 1) as [x1|] eqn:N; [|discriminate]. cbn [option_map] in X. injection X as X.
        eexists. exists x1. split; [exact fault_cell|]. split; [exact N|]. exact X.
      * constructor.
      * constructor.
      * exact PT.
      * apply smoothb_ok. vm_compute. reflexivity.
    + apply (lf_ends _ _ _ _ _ _ _ _ fault_W' f' w'). apply SE. exact H.
  - apply Forall_cons; [|apply Forall_cons; [|apply Forall_nil]]; exists ByDefault, Info; apply lives_log; reflexivity.
Qed.

From Verif Require Import GoStr Utf8 LevelModel EventModel LayoutModel FormatSpec ConfModel OutputModel OutputSpec OutputProofs
  WorldModel WorldSpec WorldBase WorldInv WorldProofs LogProofs P_Hier P_Log EndModel EndSpec EndProofs P_Close.
From Verif Require Import RollModel RollSpec RollArchProofs AsyncModel AsyncSpec AsyncProofs AsyncEndModel.
Local Open Scope Z_scope.

(** ** Only log calls send *)
Lemma SetOutputs_sent W id ops W' : SetOutputs W id ops = Ok W' -> w_sent W' = w_sent W.
Proof. unfold SetOutputs. destruct (flags_of _ _); [|discriminate]. now intros [= <-]. Qed.
Lemma apply_glo_sent W id g W' : apply_glo W id g = Ok W' -> w_sent W' = w_sent W.
Proof. unfold apply_glo. destruct (g_err g); [now intros [= <-]|]. intros H. now apply SetOutputs_sent in H. Qed.
Lemma notify_sent P ord : forall W W', notify P W ord = Ok W' -> WorldInv.inv W -> w_sent W' = w_sent W.
Proof.
  induction ord as [|id ord IH]; intros W W' H I; cbn in H; [now injection H as <-|].
  destruct (nth_error (w_loggers W) id) as [l|]; [|discriminate].
  destruct (GetLoggerOutputs P W (l_name l)) as [[W1 g]|] eqn:E; [|discriminate]. cbn [bind] in H.
  destruct (apply_glo W1 id g) as [W2|] eqn:E2; [|discriminate]. cbn [bind] in H.
  pose proof (GLO_grow _ _ _ _ _ (iv_valid _ I) E) as G.
  assert (I2 : WorldInv.inv W2) by (eapply apply_glo_inv; [eassumption|eapply grow_inv; eassumption]).
  rewrite (IH _ _ H I2), (apply_glo_sent _ _ _ _ E2). apply (gr_sent _ _ G).
Qed.
Lemma setConfig_sent P W c ord W' ok : setConfig P W c ord = Ok (W', ok) -> WorldInv.inv W -> w_sent W' = w_sent W.
Proof.
  unfold setConfig. destruct (validateConfig c); [|now intros [= <- <-]].
  destruct (notify _ _ _) as [W1|] eqn:E; [|discriminate]. cbn. intros [= <- <-] I.
  rewrite (notify_sent _ _ _ _ E); [reflexivity|now apply set_config_inv].
Qed.
Lemma getRootLogger_sent P W W' r : getRootLogger P W = Ok (W', r) -> WorldInv.inv W -> w_sent W' = w_sent W.
Proof.
  unfold getRootLogger. intros H I. destruct (w_root W); [now injection H as <- <-|].
  match type of H with bind (GetLoggerOutputs _ ?X _) _ = _ => set (W0 := X) in * end.
  destruct (GetLoggerOutputs P W0 rootName) as [[W1 g]|] eqn:E; [|discriminate]. cbn [bind] in H.
  assert (V0 : outs_valid W0) by (intros n o; apply (iv_valid _ I)).
  pose proof (GLO_grow _ _ _ _ _ V0 E) as G.
  destruct (if g_err g then _ else _) as [W3|] eqn:E3 in H; [|discriminate]. cbn [bind] in H. injection H as <- <-.
  pose proof (gr_sent _ _ G) as GS. change (w_sent W0) with (w_sent W) in GS. rewrite <- GS.
  destruct (g_err g); cbn [add_output] in E3; apply SetOutputs_sent in E3; exact E3.
Qed.
Lemma GetLogger_sent P W n W' id : GetLogger P W n = Ok (W', id) -> WorldInv.inv W -> w_sent W' = w_sent W.
Proof.
  intros E I. destruct (GetLogger_cases _ _ _ _ _ E I) as [[_ HR]|[(_ & _ & -> & _)|
     (_ & _ & _ & _ & W1 & r & W2 & W3 & g & HR & M & _ & HG & HA)]].
  - eapply getRootLogger_sent; eassumption.
  - reflexivity.
  - rewrite (apply_glo_sent _ _ _ _ HA). pose proof (GLO_grow _ _ _ _ _ (iv_valid _ (md_inv _ _ _ _ M)) HG) as G.
    rewrite (gr_sent _ _ G), (md_rest _ _ _ _ M). cbn. eapply getRootLogger_sent; eassumption.
Qed.
Lemma exec_sent P W o W' r : WorldModel.exec P W o = Ok (W', r) -> WorldInv.inv W -> ~ logs o -> w_sent W' = w_sent W.
Proof.
  intros H I NL. destruct o; cbn [WorldModel.exec] in H.
  - destruct (GetLogger P W name) as [[W1 id]|] eqn:E; [|discriminate]. injection H as <- <-. eapply GetLogger_sent; eassumption.
  - destruct (nth_error (w_loggers W) _); [|discriminate]. now injection H as <- <-.
  - destruct (nth_error (w_loggers W) _); [|discriminate]. destruct (SetOutputs W id ops) as [W1|] eqn:E; [|discriminate].
    injection H as <- <-. eapply SetOutputs_sent, E.
  - destruct (nth_error (w_loggers W) _); [|discriminate]. now injection H as <- <-.
  - destruct (NL Logic.I).
  - now injection H as <- <-.
  - now injection H as <- <-.
  - destruct (GetLoggerOutputs P W name) as [[W1 g]|] eqn:E; [|discriminate]. injection H as <- <-.
    apply (gr_sent _ _ (GLO_grow _ _ _ _ _ (iv_valid _ I) E)).
  - destruct (setConfig P W c ord) as [[W1 ok]|] eqn:E; [|discriminate]. injection H as <- <-. eapply setConfig_sent; eassumption.
  - unfold LoadConfig in H. destruct (setConfig P W _ ord) as [[W1 ok]|] eqn:E; [|discriminate]. injection H as <- <-.
    eapply setConfig_sent; eassumption.
  - unfold LoadConfigFile, LoadConfig in H. destruct (p_read P file); [|now injection H as <- <-].
    destruct (path_Ext file); [discriminate|].
    destruct (setConfig P W _ ord) as [[W1 ok]|] eqn:E; [|discriminate]. injection H as <- <-. eapply setConfig_sent; eassumption.
  - now injection H as <- <-.
  - now injection H as <- <-.
  - destruct (nth_error (w_heap W) o) as [x0|]; [|discriminate]. now injection H as <- <-.
Qed.

(** ** What reaches an asynchronous output *)
Definition evs_of (cs : list call) : list event := flat_map (fun c => match c with CSend e => [e] | CClose => [] end) cs.
Lemma evs_of_app a b : evs_of (a ++ b) = evs_of a ++ evs_of b.
Proof. apply flat_map_app. Qed.
Lemma evs_of_sends (l : list (stack * event)) : evs_of (map (fun p => CSend (snd p)) l) = map snd l.
Proof. induction l as [|p l IH]; [reflexivity|]. cbn. f_equal. exact IH. Qed.
Lemma evs_of_closes n : evs_of (repeat CClose n) = [].
Proof. induction n as [|n IH]; [reflexivity|exact IH]. Qed.
Lemma evs_of_map es : evs_of (map CSend es) = es.
Proof. induction es as [|e es IH]; [reflexivity|]. cbn. f_equal. exact IH. Qed.
Lemma passes_deliver P i W os W' cs : passes P i W os W' cs -> forall x q b, reach P W -> nth_error (w_heap W) i = Some x ->
  os_async (o_spec x) = Some (q, b) ->
  exists evs, deliveries P i W os evs /\ map snd evs = evs_of cs /\ Forall (fun p => formattable (snd p)) evs.
Proof.
  induction 1 as [W|W o W1 r new evs x x1 os W2 cs OK F X N S Hx Hx1 PS IH]; intros y q b R Hy A.
  - exists []. repeat split; constructor.
  - rewrite Hx in Hy. injection Hy as <-. assert (R1 : reach P W1) by (econstructor; eassumption).
    assert (LD : logs o \/ ~ logs o) by (destruct o; cbn; auto). destruct LD as [L|NL].
    + destruct o as [| | | |id cx v lvl fmt args now ustk| | | | | | | | | ]; try contradiction.
      assert (HN : exists n, has_name W n id).
      { cbn [WorldModel.exec] in X. unfold Printf in X. destruct (nth_error (w_loggers W) id) as [l|] eqn:E; [|discriminate].
        exists (l_name l), l. auto. }
      destruct HN as [n HN].
      assert (E1 : nth_error (w_heap W1) i = Some x).
      { refine (C07_handed_over_only _ _ _ _ _ _ _ _ _ _ _ _ _ _ _ R HN F X Hx _). left. congruence. }
      rewrite E1 in Hx1. injection Hx1 as <-. rewrite Nat.sub_diag. cbn [repeat app].
      destruct (IH _ _ _ R1 E1 A) as (evs2 & D & M & FM).
      destruct (C07_delivered_to_route _ _ _ _ _ _ _ _ _ _ _ _ _ R HN X) as (new' & N' & RT).
      rewrite N in N'. apply app_inv_head in N'. subst new'.
      destruct (log_heap _ _ _ _ _ _ _ _ _ _ _ _ _ _ _ R HN F X Hx) as (new' & l' & x' & N' & S' & FM' & _).
      rewrite N in N'. apply app_inv_head in N'. subst new'.
      assert (l' = evs). { clear - S S'. revert l' S'. induction S; intros l' S'; inversion S'; subst; try congruence; f_equal; auto. }
      subst l'. exists (evs ++ evs2). split; [|split].
      * eapply dl_log; try eassumption; [now apply sent_to_count|]. apply Forall_forall. intros [stk e] I.
        pose proof (sent_to_in _ _ _ _ S I) as I2. exact (C08_event_data _ _ _ _ _ _ _ _ _ _ _ _ _ _ _ _ _ R HN X N I2).
      * rewrite map_app, evs_of_app, evs_of_sends, M. reflexivity.
      * now apply Forall_app.
    + destruct (exec_keeps _ _ _ _ _ _ _ X (reach_inv _ _ R) NL F Hx) as (x2 & E2 & C). rewrite Hx1 in E2. injection E2 as <-.
      injection C as C1 C2 C3. rewrite <- C1 in A.
      rewrite (exec_sent _ _ _ _ _ X (reach_inv _ _ R) NL) in N. rewrite <- (app_nil_r (w_sent W)) in N at 1.
      apply app_inv_head in N. subst new. inversion S; subst evs.
      destruct (IH _ _ _ R1 Hx1 A) as (evs2 & D & M & FM). exists evs2. split; [|split; [|exact FM]].
      * eapply dl_other; eassumption.
      * cbn [map app]. rewrite evs_of_app, evs_of_closes. exact M.
Qed.
Lemma passes_goes P i W os W' cs : passes P i W os W' cs -> goes P i W os W'.
Proof. induction 1; econstructor; eassumption. Qed.
Lemma goes_passes P i W os W' : goes P i W os W' -> forall x, reach P W -> nth_error (w_heap W) i = Some x ->
  exists cs, passes P i W os W' cs.
Proof.
  induction 1 as [W|W o W1 r os W2 OK F X G IH]; intros x R Hx; [exists []; constructor|].
  assert (R1 : reach P W1) by (econstructor; eassumption).
  assert (S : exists new x1, w_sent W1 = w_sent W ++ new /\ nth_error (w_heap W1) i = Some x1).
  { assert (LD : logs o \/ ~ logs o) by (destruct o; cbn; auto). destruct LD as [L|NL].
    - destruct o as [| | | |id cx v lvl fmt args now ustk| | | | | | | | | ]; try contradiction.
      assert (HN : exists n, has_name W n id).
      { cbn [WorldModel.exec] in X. unfold Printf in X. destruct (nth_error (w_loggers W) id) as [l|] eqn:E; [|discriminate].
        exists (l_name l), l. auto. }
      destruct HN as [n HN].
      destruct (log_heap _ _ _ _ _ _ _ _ _ _ _ _ _ _ _ R HN F X Hx) as (new' & l' & x' & N' & S' & FM' & E & _). eauto.
    - destruct (exec_keeps _ _ _ _ _ _ _ X (reach_inv _ _ R) NL F Hx) as (x2 & E2 & _). exists [], x2.
      rewrite app_nil_r. split; [|exact E2]. eapply exec_sent; eauto using reach_inv. }
  destruct S as (new & x1 & N & E1). destruct (IH _ R1 E1) as [cs PS].
  assert (ST : exists evs, sent_to i new evs).
  { clear. induction new as [|[j d] new [l IH]]; [exists []; constructor|]. destruct (Nat.eq_dec j i) as [->|]; eexists; econstructor; eassumption. }
  destruct ST as [evs ST]. eexists. econstructor; eassumption.
Qed.

(** ** One goroutine *)
Definition solo (es : list event) (more : list call) (tr : list label) (s : astate) : Prop :=
  let calm := a_flag s = false /\ a_shut s = false /\ (exists q, a_queue s = map Some q) /\ (a_worker s = WNew \/ a_worker s = WRun) in
  (exists r todo, todo = map CSend r ++ CClose :: more /\ calm /\
    ((exists p, a_threads s = [mkTh p todo] /\ (p = Idle \/ exists e, p = SRet e) /\ accf tr ++ r = es) \/
     (exists p e, a_threads s = [mkTh p todo] /\ (p = SLoad e \/ p = SPush e) /\ accf tr ++ e :: r = es))) \/
  (exists p, calm /\ a_threads s = [mkTh p more] /\ (p = KLoad \/ p = KPush) /\ accf tr = es) \/
  (exists p, a_shut s = false /\ a_threads s = [mkTh p more] /\ (p = KWait \/ p = KStore) /\ accf tr = es) \/
  (exists p todo, a_flag s = true /\ a_threads s = [mkTh p todo] /\ accf tr = es /\
    match p with KClose | KRet | Idle | SLoad _ | SRet _ | KLoad | Dead => True | _ => False end).
Lemma solo_init es more : solo es more [] (a_init [map CSend es ++ CClose :: more]).
Proof.
  left. exists es, (map CSend es ++ CClose :: more). split; [reflexivity|]. split.
  - split; [reflexivity|]. split; [reflexivity|]. split; [exists []; reflexivity|now left].
  - left. exists Idle. repeat split. now left.
Qed.
Lemma one_thread {A} (l : list A) x i y : l = [x] -> nth_error l i = Some y -> i = 0%nat /\ y = x.
Proof. intros -> H. destruct i as [|[|i]]; cbn in H; [injection H as <-; auto|discriminate|discriminate]. Qed.
Lemma upd_one {A} (l : list A) x y : l = [x] -> upd 0 (fun _ => y) l = [y].
Proof. now intros ->. Qed.
Lemma wstep_calm C s l s' : wstep C s l s' -> a_shut s = false -> (exists q, a_queue s = map Some q) -> (a_worker s = WNew \/ a_worker s = WRun) ->
  (exists q, a_queue s' = map Some q) /\ (a_worker s' = WNew \/ a_worker s' = WRun).
Proof.
  intros H SH [q Q] W. inversion H; subst; cbn; try (rewrite Q in *; destruct q as [|e0 q]; [discriminate|]);
    try match goal with X : map Some _ = _ |- _ => cbn in X; injection X as <- <- end; try (split; [eauto|auto]; fail).
  - cbn in H1. discriminate.
  - congruence.
  - destruct W; congruence.
Qed.
Lemma solo_step C es more tr s ch l s' : solo es more tr s -> anext C s ch = Some (l, s') -> solo es more (tr ++ [l]) s'.
Proof.
  intros J H. apply anext_step in H as [_ [(k & -> & H)|H]].
  - destruct J as [(r & todo & TD & CA & [(p & TH & PP & AC)|(p & e & TH & PP & AC)])|[(p & CA & TH & PP & AC)|[(p & SH & TH & PP & AC)|(p & todo & FL & TH & AC & PP)]]].
    + destruct CA as (FL & SH & (q & Q) & W).
      assert (KP : forall x todo', nth_error (a_threads s) k = Some (mkTh x todo') -> k = 0%nat /\ x = p /\ todo' = todo).
      { intros x t' N. destruct (one_thread _ _ _ _ TH N) as [-> E]. injection E as -> ->. auto. }
      inversion H; subst; match goal with N : nth_error _ _ = Some _ |- _ => destruct (KP _ _ N) as (-> & X1 & X2) end;
        destruct PP as [PP|[e0 PP]]; try congruence.
      * destruct r as [|e1 r]; cbn in X2; [discriminate|]. injection X2 as -> ->. left. exists r, (map CSend r ++ CClose :: more).
        split; [reflexivity|]. split; [repeat split; eauto|]. right. exists (SLoad e1), e1. cbn [set_th a_threads].
        rewrite (upd_one _ _ _ TH), accf_app. cbn [accf flat_map acc_of app]. rewrite app_nil_r. auto.
      * destruct r as [|e1 r]; cbn in X2; [|discriminate]. injection X2 as ->. right. left. exists KLoad. split; [repeat split; eauto|].
        cbn [set_th a_threads]. rewrite (upd_one _ _ _ TH), accf_app. cbn [accf flat_map acc_of app]. rewrite app_nil_r in *. auto.
      * rewrite X2. left. exists r, (map CSend r ++ CClose :: more).
        split; [reflexivity|]. split; [repeat split; eauto|]. left. exists Idle. cbn [set_th a_threads].
        rewrite (upd_one _ _ _ TH), accf_app. cbn [accf flat_map acc_of app]. rewrite app_nil_r. auto.
    + destruct CA as (FL & SH & (q & Q) & W).
      assert (KP : forall x todo', nth_error (a_threads s) k = Some (mkTh x todo') -> k = 0%nat /\ x = p /\ todo' = todo).
      { intros x t' N. destruct (one_thread _ _ _ _ TH N) as [-> E]. injection E as -> ->. auto. }
      inversion H; subst; match goal with N : nth_error _ _ = Some _ |- _ => destruct (KP _ _ N) as (-> & X1 & X2) end;
        destruct PP as [PP|PP]; try congruence; rewrite PP in X1; injection X1 as ->; subst.
      * rewrite FL. left. exists r, (map CSend r ++ CClose :: more).
        split; [reflexivity|]. split; [repeat split; eauto|]. right. exists (SPush e), e. cbn [set_th a_threads].
        rewrite (upd_one _ _ _ TH), accf_app. cbn [accf flat_map acc_of app]. rewrite app_nil_r. auto.
      * left. exists r, (map CSend r ++ CClose :: more).
        split; [reflexivity|]. split.
        { cbn. repeat split; auto. exists (q ++ [e]). rewrite Q, map_app. reflexivity. }
        left. exists (SRet e). cbn [set_th set_queue a_threads].
        rewrite (upd_one _ _ _ TH), accf_app. cbn [accf flat_map acc_of app]. rewrite <- app_assoc. cbn. eauto.
    + destruct CA as (FL & SH & (q & Q) & W).
      assert (KP : forall x todo', nth_error (a_threads s) k = Some (mkTh x todo') -> k = 0%nat /\ x = p /\ todo' = more).
      { intros x t' N. destruct (one_thread _ _ _ _ TH N) as [-> E]. injection E as -> ->. auto. }
      inversion H; subst; match goal with N : nth_error _ _ = Some _ |- _ => destruct (KP _ _ N) as (-> & X1 & X2) end;
        destruct PP as [PP|PP]; try congruence; subst.
      * rewrite FL. right. left. exists KPush. split; [repeat split; eauto|]. cbn [set_th a_threads].
        rewrite (upd_one _ _ _ TH), accf_app. cbn [accf flat_map acc_of app]. rewrite app_nil_r. auto.
      * right. right. left. exists KWait. split; [exact SH|]. cbn [set_th set_queue a_threads].
        rewrite (upd_one _ _ _ TH), accf_app. cbn [accf flat_map acc_of app]. rewrite app_nil_r. auto.
    + assert (KP : forall x todo', nth_error (a_threads s) k = Some (mkTh x todo') -> k = 0%nat /\ x = p /\ todo' = more).
      { intros x t' N. destruct (one_thread _ _ _ _ TH N) as [-> E]. injection E as -> ->. auto. }
      inversion H; subst; match goal with N : nth_error _ _ = Some _ |- _ => destruct (KP _ _ N) as (-> & X1 & X2) end;
        destruct PP as [PP|PP]; try congruence; subst.
      * right. right. left. exists KStore. split; [exact SH|]. cbn [set_th set_queue a_threads].
        rewrite (upd_one _ _ _ TH), accf_app. cbn [accf flat_map acc_of app]. rewrite app_nil_r. auto.
      * right. right. right. exists KClose, more. split; [reflexivity|]. cbn [set_th set_flags a_threads].
        rewrite (upd_one _ _ _ TH), accf_app. cbn [accf flat_map acc_of app]. rewrite app_nil_r. auto.
    + assert (KP : forall x todo', nth_error (a_threads s) k = Some (mkTh x todo') -> k = 0%nat /\ x = p /\ todo' = todo).
      { intros x t' N. destruct (one_thread _ _ _ _ TH N) as [-> E]. injection E as -> ->. auto. }
      right. right. right. inversion H; subst; match goal with N : nth_error _ _ = Some _ |- _ => destruct (KP _ _ N) as (-> & <- & <-) end;
        try contradiction; try (rewrite FL);
        (eexists _, _; split; [exact FL || reflexivity|]; cbn [set_th set_queue set_flags a_threads];
        rewrite (upd_one _ _ _ TH), accf_app; cbn [accf flat_map acc_of app]; rewrite app_nil_r; split; [reflexivity|split; [reflexivity|exact Logic.I]]).
  - pose proof (wstep_threads _ _ _ _ H) as WT. destruct (wstep_flags _ _ _ _ H) as [WF WS].
    pose proof (wstep_acc _ _ _ _ H) as WA.
    assert (AC' : accf (tr ++ [l]) = accf tr) by (rewrite accf_app, WA, app_nil_r; reflexivity).
    unfold solo. rewrite WT, WF, WS, AC'.
    destruct J as [(r & todo & TD & (FL & SH & Q & W) & J)|[(p & (FL & SH & Q & W) & J)|[J|J]]].
    + destruct (wstep_calm _ _ _ _ H SH Q W) as [Q' W']. left. exists r, todo. repeat split; auto.
    + destruct (wstep_calm _ _ _ _ H SH Q W) as [Q' W']. right. left. exists p. repeat split; auto; apply J.
    + right. right. left. exact J.
    + right. right. right. exact J.
Qed.
Lemma solo_reach C es more tr s : areach C [map CSend es ++ CClose :: more] tr s -> solo es more tr s.
Proof. induction 1; [apply solo_init|eapply solo_step; eassumption]. Qed.
(** Nothing but what was to be sent, and all of it once the worker has left. *)
Lemma solo_gone es more tr s : solo es more tr s -> a_worker s = WLeave \/ a_worker s = WGone -> accf tr = es.
Proof.
  intros [(r & todo & TD & (FL & SH & Q & W) & J)|[(p & (FL & SH & Q & W) & J)|[(p & _ & _ & _ & J)|(p & t & _ & _ & J & _)]]] G; auto.
  - destruct W, G; congruence.
  - destruct W, G; congruence.
Qed.
Lemma one_orderly C p tr s : areach C [p] tr s -> oreach C [p] tr s.
Proof.
  induction 1 as [|tr s c l s' R IH H]; [constructor|]. econstructor; [exact IH| |exact H].
  pose proof (threads_length _ _ _ _ R) as LN. cbn in LN.
  apply anext_step in H as [_ [(k & -> & H)|H]]; [|inversion H; exact Logic.I].
  assert (Z : forall i x, nth_error (a_threads s) i = Some x -> i = 0%nat).
  { intros i x N. assert (nth_error (a_threads s) i <> None) by congruence. apply nth_error_Some in H0. lia. }
  inversion H; subst; cbn; try exact Logic.I.
  - intros (i & p' & t & N & I). pose proof (Z _ _ N) as ->. pose proof (Z _ _ H0) as ->. rewrite N in H0. injection H0 as -> ->.
    cbn in I. intuition discriminate.
  - intros (i & p' & t & N & N1 & N2). pose proof (Z _ _ N) as ->. pose proof (Z _ _ H0) as ->. rewrite N in H0. injection H0 as -> ->.
    now apply N1.
Qed.

(** ** The writes on the directory *)
Lemma stores_reach C T c good progs f0 tr s f w : stores C T c good progs f0 tr s f w -> areach C progs tr s.
Proof. induction 1; econstructor; eassumption. Qed.
Lemma stores_happens C T c good progs f0 tr s f w : stores C T c good progs f0 tr s f w ->
  exists hs, Forall2 put_of (a_out s) hs /\ happens T c good f0 w_new hs f w.
Proof.
  intros H. pose proof (areach_cont _ _ _ _ (stores_reach _ _ _ _ _ _ _ _ _ _ H)) as (_ & _ & _ & _ & _ & _ & _ & OL & _). rewrite <- OL. clear OL.
  induction H as [|tr s f w ch l s' H IH X NW|tr s f w ch y b s' k err f' w' H IH X HA].
  - exists []. split; constructor.
  - destruct IH as (hs & A & B). exists hs. split; [|exact B]. unfold outf. rewrite flat_map_app. cbn.
    destruct l; cbn; rewrite ?app_nil_r; try exact A. destruct (NW w0 b eq_refl).
  - destruct IH as (hs & A & B). exists (hs ++ [HWrite b k err]). split; [|eapply happens_join; eassumption].
    unfold outf. rewrite flat_map_app. cbn. apply Forall2_app; [exact A|]. repeat constructor. exists k, err. reflexivity.
Qed.
Lemma reach_stores C T c good progs f0 tr s : areach C progs tr s -> forall f w,
  happens T c good f0 w_new (map well_put (a_out s)) f w -> stores C T c good progs f0 tr s f w.
Proof.
  intros R. pose proof (areach_cont _ _ _ _ R) as (_ & _ & _ & _ & _ & _ & _ & OL & _). rewrite <- OL. clear OL.
  induction R as [|tr s ch l s' R IH H]; intros f w HA.
  - inversion HA; subst. constructor.
  - unfold outf in HA. rewrite flat_map_app, map_app in HA. apply happens_app in HA as (f1 & w1 & H1 & H2).
    specialize (IH _ _ H1).
    destruct l; cbn in H2; try (inversion H2; subst; eapply st_quiet; [exact IH|exact H|discriminate]).
    eapply st_write; eassumption.
Qed.
Lemma asteps_snoc C s tr s1 : asteps C s tr s1 -> forall c l s2, anext C s1 c = Some (l, s2) -> asteps C s (tr ++ [l]) s2.
Proof. induction 1; intros; cbn; econstructor; eauto. constructor. Qed.
Lemma areach_cut C progs tr s : areach C progs tr s -> forall tr1 tr2, tr = tr1 ++ tr2 ->
  exists s1, areach C progs tr1 s1 /\ asteps C s1 tr2 s.
Proof.
  induction 1 as [|tr s c l s' R IH H]; intros tr1 tr2 E.
  - symmetry in E. apply app_eq_nil in E as [-> ->]. eexists. split; constructor.
  - destruct tr2 as [|x tr2].
    + rewrite app_nil_r in E. subst tr1. exists s'. split; [econstructor; eassumption|constructor].
    + destruct (@exists_last _ (x :: tr2)) as (t & y & E2); [discriminate|]. rewrite E2, app_assoc in E. rewrite E2.
      apply app_inj_tail in E as [E <-]. destruct (IH _ _ E) as (s1 & A & B). exists s1. split; [exact A|]. eapply asteps_snoc; eassumption.
Qed.

(** ** Formatting on another stack *)
From Verif Require Import LayoutSpec AsyncEndSpec.
Lemma elsewhere_value E ci ci' e n v : ~ In n site_verbs -> verb_value E ci e n v -> verb_value E ci' e n v.
Proof. intros N H. inversion H; subst; try (constructor; assumption); exfalso; apply N; cbn; tauto. Qed.
Lemma elsewhere_item E ci ci' e it s : (forall n x, it = Verb n x -> ~ In n site_verbs) -> renders E ci e it s -> renders E ci' e it s.
Proof.
  intros N H. inversion H; subst.
  - constructor.
  - apply rd_str. eapply elsewhere_value; [now apply (N _ None)|eassumption].
  - apply rd_other; [|assumption]. eapply elsewhere_value; [now apply (N _ None)|eassumption].
  - apply rd_fmt; [assumption|]. eapply elsewhere_value; [now apply (N n (Some x))|eassumption].
  - apply rd_time.
Qed.
Lemma elsewhere E h fm stk stk' e b : built h (Some fm) -> formattable e -> settled h e -> text_of E h stk e b -> text_of E h stk' e b.
Proof.
  intros B F S H. destruct h as [|layout|u].
  - inversion B.
  - destruct S as [[ci C]|S]; [eapply C25_stack_not_consulted; eassumption|].
    destruct (Format_text E stk' _ fm e B (fun _ => F)) as (b' & e' & _ & T & _).
    inversion T as [|ly items' ss' stk0 e0 raw' site' Hs' Hr' Hv' Hf'|]; subst.
    inversion H as [|ly items ss stk0 e0 raw site Hs Hr Hv Hf|]; subst.
    apply (to_layout E layout items ss stk' e raw' site'); auto. specialize (S items). specialize (fun n x => S n x Hs).
    clear - Hf S. induction Hf as [|it s items ss R F IH]; constructor.
    + eapply elsewhere_item; [|exact R]. intros n x ->. apply (S n x). now left.
    + apply IH. intros n x I. apply (S n x). now right.
  - inversion H; subst. constructor.
Qed.
Lemma written_elsewhere E h fm t evs : built h (Some fm) -> Forall (fun p => formattable (snd p)) evs -> Forall (fun p => settled h (snd p)) evs ->
  forall stk ws, written E h t (map (pair stk) (map snd evs)) ws -> written E h t evs ws.
Proof.
  intros B. induction evs as [|[st e] evs IH]; intros F S stk ws W; cbn in W.
  - inversion W; subst. constructor.
  - inversion F; subst. inversion S; subst. cbn [snd] in *. inversion W; subst.
    + apply wr_skip; [assumption|]. eapply IH; eassumption.
    + apply wr_send; [assumption| |eapply IH; eassumption]. eapply elsewhere; eassumption.
Qed.
Lemma route_server W v n outs : route W v n outs -> forall i, In i outs ->
  exists o lo, server W v n o /\ nth_error (w_loggers W) o = Some lo /\ In i (l_outputs lo).
Proof.
  induction 1 as [|n e id l NL LE Hl Hn NE|n e id l p outs NL LE Hl Hn NE NR PN RT IH|]; intros i I; try contradiction.
  - exists id, l. split; [|auto]. econstructor; eauto.
  - destruct (IH _ I) as (o & lo & SV & A & B). exists o, lo. split; [|auto]. exact (WorldSpec.sv_up W v n e id l p o NL LE Hl Hn NE NR PN SV).
Qed.

(** ** Up to the first Close *)
Lemma sends_prefix evs : forall es cs more, map (fun p : stack * event => CSend (snd p)) evs ++ cs = map CSend es ++ CClose :: more ->
  exists es', es = map snd evs ++ es' /\ cs = map CSend es' ++ CClose :: more.
Proof.
  induction evs as [|p evs IH]; intros es cs more H; cbn in H; [exists es; auto|].
  destruct es as [|e es]; cbn in H; [discriminate|]. injection H as <- H. destruct (IH _ _ _ H) as (es' & -> & ->). exists es'. auto.
Qed.
Lemma passes_step P i W o W1 r new evs x x1 q b : reach P W -> op_ok W o -> fair i o -> WorldModel.exec P W o = Ok (W1, r) ->
  w_sent W1 = w_sent W ++ new -> sent_to i new evs -> nth_error (w_heap W) i = Some x -> nth_error (w_heap W1) i = Some x1 ->
  os_async (o_spec x) = Some (q, b) ->
  os_async (o_spec x1) = Some (q, b) /\ (o_closed x1 = o_closed x \/ (evs = [] /\ o = WorldModel.OClose)).
Proof.
  intros R OK F X N S Hx Hx1 A. assert (LD : logs o \/ ~ logs o) by (destruct o; cbn; auto). destruct LD as [L|NL].
  - destruct o as [| | | |id cx v lvl fmt args now ustk| | | | | | | | | ]; try contradiction.
    assert (HN : exists n, has_name W n id).
    { cbn [WorldModel.exec] in X. unfold Printf in X. destruct (nth_error (w_loggers W) id) as [l|] eqn:E; [|discriminate].
      exists (l_name l), l. auto. }
    destruct HN as [n HN].
    assert (E1 : nth_error (w_heap W1) i = Some x).
    { refine (C07_handed_over_only _ _ _ _ _ _ _ _ _ _ _ _ _ _ _ R HN F X Hx _). left. congruence. }
    rewrite E1 in Hx1. injection Hx1 as <-. auto.
  - destruct (exec_keeps _ _ _ _ _ _ _ X (reach_inv _ _ R) NL F Hx) as (x2 & E2 & C). rewrite Hx1 in E2. injection E2 as <-.
    injection C as C1 C2 C3. split; [congruence|].
    rewrite (exec_sent _ _ _ _ _ X (reach_inv _ _ R) NL) in N. rewrite <- (app_nil_r (w_sent W)) in N at 1.
    apply app_inv_head in N. subst new. inversion S; subst evs.
    assert (OC : o = WorldModel.OClose \/ o <> WorldModel.OClose) by (destruct o; auto; right; discriminate).
    destruct OC as [->|NO]; [auto|left].
    destruct (C54_only_by_close _ _ _ _ _ R X NO) as [OB _]. destruct (OB _ _ Hx) as (x2 & E2 & Q). congruence.
Qed.
Lemma passes_close P i W os W' cs : passes P i W os W' cs -> forall x q b es more, reach P W -> nth_error (w_heap W) i = Some x ->
  os_async (o_spec x) = Some (q, b) -> cs = map CSend es ++ CClose :: more ->
  exists os1 W1 os2, os = os1 ++ WorldModel.OClose :: os2 /\ passes P i W os1 W1 (map CSend es).
Proof.
  induction 1 as [W|W o W1 r new evs x x1 os W2 cs OK F X N S Hx Hx1 PS IH]; intros y q b es more R Hy A E.
  - destruct es; discriminate.
  - rewrite Hx in Hy. injection Hy as <-. assert (R1 : reach P W1) by (econstructor; eassumption).
    destruct (passes_step _ _ _ _ _ _ _ _ _ _ _ _ R OK F X N S Hx Hx1 A) as [A1 D].
    destruct (Nat.eq_dec (o_closed x1 - o_closed x) 0) as [Z|NZ].
    + rewrite Z in E. cbn [repeat app] in E. apply sends_prefix in E as (es' & -> & E).
      destruct (IH _ _ _ _ _ R1 Hx1 A1 E) as (os1 & W3 & os2 & -> & PS1).
      exists (o :: os1), W3, os2. split; [reflexivity|].
      replace (map CSend (map snd evs ++ es')) with (map (fun p => CSend (snd p)) evs ++ repeat CClose (o_closed x1 - o_closed x) ++ map CSend es')
        by (rewrite Z; cbn [repeat app]; rewrite map_app, map_map; reflexivity).
      econstructor; eassumption.
    + destruct D as [D|[-> ->]]; [lia|]. cbn [map app] in E. destruct (o_closed x1 - o_closed x)%nat as [|k] eqn:K; [lia|].
      cbn [repeat app] in E. destruct es as [|e es]; [|discriminate]. exists [], W, os. split; [reflexivity|]. constructor.
Qed.

(** ** The calls can be read off *)
Lemma sent_to_app i a b la lb : sent_to i a la -> sent_to i b lb -> sent_to i (a ++ b) (la ++ lb).
Proof. induction 1; cbn; intros; [assumption|constructor; auto|constructor; auto]. Qed.
Lemma passes_sent P i W os W' cs : passes P i W os W' cs ->
  exists new evs, w_sent W' = w_sent W ++ new /\ sent_to i new evs /\ evs_of cs = map snd evs.
Proof.
  induction 1 as [W|W o W1 r new evs x x1 os W2 cs OK F X N S Hx Hx1 PS (new2 & evs2 & N2 & S2 & E2)].
  - exists [], []. rewrite app_nil_r. repeat split. constructor.
  - exists (new ++ new2), (evs ++ evs2). split; [rewrite N2, N; now rewrite app_assoc|]. split; [now apply sent_to_app|].
    rewrite !evs_of_app, evs_of_sends, evs_of_closes, E2, map_app. reflexivity.
Qed.
Lemma passes_open P i W os W' cs : passes P i W os W' cs -> forall x q b, reach P W -> nth_error (w_heap W) i = Some x ->
  os_async (o_spec x) = Some (q, b) -> ~ In WorldModel.OClose os -> cs = map CSend (evs_of cs).
Proof.
  induction 1 as [W|W o W1 r new evs x x1 os W2 cs OK F X N S Hx Hx1 PS IH]; intros y q b R Hy A NC; [reflexivity|].
  rewrite Hx in Hy. injection Hy as <-. assert (R1 : reach P W1) by (econstructor; eassumption).
  destruct (passes_step _ _ _ _ _ _ _ _ _ _ _ _ R OK F X N S Hx Hx1 A) as [A1 [D|[_ D]]]; [|destruct NC; left; congruence].
  rewrite D, Nat.sub_diag. cbn [repeat app]. rewrite evs_of_app, evs_of_sends, map_app, map_map.
  rewrite <- (IH _ _ _ R1 Hx1 A1); [reflexivity|]. intros I. apply NC. now right.
Qed.

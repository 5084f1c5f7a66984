(** Calls made properly return: the invariant behind P_Safe.v. *)
From Verif Require AsyncEndProofs.
From Verif Require Import GoStr Utf8 EventModel LayoutModel ConfModel OutputModel OutputSpec OutputProofs WorldModel WorldSpec WorldBase PanicBase WorldInv
  WorldProofs LogProofs ManagerSpec ManagerProofs P_Manager P_Log SafeSpec.

Record hw (W : world) : Prop := {
  hw_np : no_panics W;
  hw_fc : forall t c n m f, mlookup t (w_fcreators W) = Some c -> c n (Some m) = Ok (Some f) -> honest f;
  hw_formats : forall n f, mlookup n (w_formats W) = Some f -> honest f;
  hw_oc : forall t c n m sp, mlookup t (w_ocreators W) = Some c -> c n (Some m) = Created sp -> returning sp;
  hw_heap : forall i x, nth_error (w_heap W) i = Some x -> honest_opt (o_fmt x) /\ returns x
}.
Lemma hw_same W W' : w_fcreators W' = w_fcreators W -> w_ocreators W' = w_ocreators W -> w_formats W' = w_formats W ->
  map (fun x => (o_fmt x, o_spec x)) (w_heap W') = map (fun x => (o_fmt x, o_spec x)) (w_heap W) -> hw W -> hw W'.
Proof.
  intros E1 E2 E3 E4 [A B C D F]. constructor; unfold no_panics; rewrite ?E1, ?E2, ?E3; try assumption.
  intros i x Hx. symmetry in E4. apply (map_nth_transfer _ _ _ _ _ E4) in Hx as (y & Hy & E). injection E as Ea Eb. unfold returns. rewrite <- Ea, <- Eb. exact (F _ _ Hy).
Qed.
Lemma glo_loop_hw names : forall W lvl acc W' g, glo_loop W names lvl acc = Ok (W', g) -> hw W -> hw W'.
Proof.
  induction names as [|n names IH]; intros W lvl acc W' g H F; cbn [glo_loop] in H; [now injection H as <- <-|].
  destruct (GetCfgOutput (w_config W) n) as [m|]; [|now injection H as <- <-].
  destruct (GetCfgFormat (w_config W) (cfg_FormatName (Some m))) as [fmc|]; [|now injection H as <- <-].
  destruct (mlookup (cfg_Type (Some fmc)) (w_fcreators W)) as [fc|] eqn:Efc; [|now injection H as <- <-].
  match type of H with bind ?s _ = _ => destruct s as [[W1 of]|] eqn:Es; [|discriminate] end. cbn [bind] in H.
  assert (Hs : hw W1 /\ (forall f, of = Some f -> honest f)).
  { destruct (mlookup (cfg_Name (Some fmc)) (w_formats W)) as [f0|] eqn:Ef.
    - injection Es as <- <-. split; [assumption|]. intros f [= <-]. eapply hw_formats; eassumption.
    - destruct (fc (w_ticks W) (Some fmc)) as [[f|]|] eqn:Ecr; cbn [bind] in Es; [| |discriminate]; injection Es as <- <-.
      + pose proof (hw_fc _ F _ _ _ _ _ Efc Ecr) as Hok. split; [|now intros ? [= <-]].
        constructor; cbn [set_caches w_fcreators w_ocreators w_formats w_heap]; try apply F.
        intros k g0. match goal with |- context [minsert ?key f] => set (key0 := key) end. destruct (str_eqb_spec key0 k) as [<-|Hne].
        * rewrite mlookup_minsert_eq. now intros [= <-].
        * rewrite mlookup_minsert_ne by (intros ->; now apply Hne). apply F.
      + split; [|discriminate]. constructor; cbn; apply F. }
  destruct Hs as [F1 Hok]. clear Es.
  destruct of as [f|]; [|now injection H as <- <-]. specialize (Hok f eq_refl).
  destruct (mlookup (cfg_Type (Some m)) (w_ocreators W1)) as [oc|] eqn:Eoc; [|now injection H as <- <-].
  destruct (mlookup (cfg_Name (Some m)) (w_outputs W1)) as [o|]; [now apply IH in H|].
  destruct (oc (w_ticks W1) (Some m)) as [sp| |] eqn:Eo; [| |discriminate].
  - apply IH in H; [assumption|]. constructor; cbn; try apply F1.
    intros i x Hx. apply nth_snoc_inv in Hx as [[_ Hx]|[_ ->]]; [eapply hw_heap; eassumption|split; [assumption|]]. exact (hw_oc _ F1 _ _ _ _ _ Eoc Eo).
  - injection H as <- <-. constructor; cbn; apply F1.
Qed.
Lemma GLO_hw P W n W' g : GetLoggerOutputs P W n = Ok (W', g) -> hw W -> hw W'.
Proof. unfold GetLoggerOutputs. destruct (GetCfgLogger _ _); [apply glo_loop_hw|]. now intros [= <- <-]. Qed.
Lemma GLO_total P W n : hw W -> exists W' g, GetLoggerOutputs P W n = Ok (W', g).
Proof. intros F. unfold GetLoggerOutputs. destruct (GetCfgLogger _ _); [apply glo_loop_total, F|eauto]. Qed.
Lemma SetOutputs_hw W id ops W' : SetOutputs W id ops = Ok W' -> hw W -> hw W'.
Proof.
  unfold SetOutputs. destruct (flags_of _ _) as [fs|]; [|discriminate]. intros [= <-]. now apply hw_same.
Qed.
Lemma apply_glo_hw W id g W' : apply_glo W id g = Ok W' -> hw W -> hw W'.
Proof.
  unfold apply_glo. destruct (g_err g); [now intros [= <-]|]. intros H F. apply SetOutputs_hw in H; [assumption|].
  now apply (hw_same W).
Qed.
Lemma notify_hw P ord : forall W W', notify P W ord = Ok W' -> hw W -> hw W'.
Proof.
  induction ord as [|id ord IH]; intros W W' H F; cbn [notify] in H; [now injection H as <-|].
  destruct (nth_error (w_loggers W) id) as [l|]; [|discriminate].
  destruct (GetLoggerOutputs P W (l_name l)) as [[W1 g]|] eqn:Eg; [|discriminate]. cbn [bind] in H.
  destruct (apply_glo W1 id g) as [W2|] eqn:Ea; [|discriminate]. cbn [bind] in H.
  eapply IH; [exact H|]. eapply apply_glo_hw; [exact Ea|]. eapply GLO_hw; eassumption.
Qed.
Lemma setConfig_hw P W c ord W' ok : setConfig P W c ord = Ok (W', ok) -> hw W -> hw W'.
Proof.
  unfold setConfig. intros H F. destruct (validateConfig c); [|now injection H as <- <-].
  destruct (notify P (set_config W c) ord) as [W1|] eqn:E; [|discriminate]. injection H as <- <-.
  eapply notify_hw; [exact E|]. now apply (hw_same W).
Qed.
Lemma getRootLogger_hw P W W' r : getRootLogger P W = Ok (W', r) -> hw W -> hw W'.
Proof.
  unfold getRootLogger. intros H F. destruct (w_root W) as [r0|] eqn:Er; [now injection H as <- <-|].
  match type of H with bind (GetLoggerOutputs _ ?X _) _ = _ => set (W0 := X) in * end.
  destruct (GetLoggerOutputs P W0 rootName) as [[W1 g]|] eqn:Eg; [|discriminate]. cbn [bind] in H.
  assert (F0 : hw W0) by now apply (hw_same W). pose proof (GLO_hw _ _ _ _ _ Eg F0) as F1.
  clear Eg. match type of H with bind ?s _ = _ => destruct s as [W3|] eqn:E3; [|discriminate] end.
  cbn [bind] in H. injection H as <- <-.
  assert (H3 : hw W3).
  { destruct (g_err g).
    - cbn [add_output] in E3. eapply SetOutputs_hw; [exact E3|]. constructor; cbn; try apply F1.
      intros i x Hx. apply nth_snoc_inv in Hx as [[_ Hx]|[_ ->]]; [eapply hw_heap; eassumption|]. split; [exact Logic.I|]. intros send. discriminate.
    - eapply SetOutputs_hw; [exact E3|]. now apply (hw_same W1). }
  now apply (hw_same W3).
Qed.
Lemma honest_real f : honest_opt f -> exists h, built h f.
Proof.
  destruct f as [[ps|g k]|]; cbn.
  - intros [l H]. exists (ByLayout l). now constructor.
  - intros [f Hf]. exists (ByUser f). now constructor.
  - intros _. exists ByDefault. constructor.
Qed.
Lemma sends_hw W W' : sends W W' -> hw W -> hw W'.
Proof.
  intros S. apply hw_same; [exact (sd_fc _ _ S)|exact (sd_oc _ _ S)|exact (sd_formats _ _ S)|]. pose proof (sd_heap _ _ S) as E.
  apply (f_equal (map (fun p => (snd (fst p), fst (fst p))))) in E. rewrite !map_map in E. exact E.
Qed.
Lemma log_hw P W id c v lvl fmt args now ustk W' r : exec P W (OLog id c v lvl fmt args now ustk) = Ok (W', r) -> hw W -> hw W'.
Proof. intros H. apply log_inv in H as [H _]. apply sends_hw. eapply Printf_sends; exact H. Qed.
Lemma init_hw P : hw (init_world P).
Proof.
  constructor.
  - apply init_no_panics.
  - intros t c n m f. rewrite init_fc. cbn [mlookup]. destruct (str_eqb _ _); [|discriminate]. intros [= <-].
    unfold NewTextFormatter. intros [= H]. destruct (Parser _) as [ps|] eqn:E; [|discriminate].
    injection H as <-. cbn. eauto.
  - intros n f. unfold init_world. cbn. discriminate.
  - intros ty oc n m sp. rewrite init_oc. cbn [mlookup]. intros H Hc.
    assert (Hr : forall c, NewRollingOutput (p_up P) (Some m) = Created c -> returning c).
    { unfold NewRollingOutput. intros c. cbv zeta. destruct (str_eqb (cfg_Type (Some m)) _); [intros [= <-] send; discriminate|].
      destruct (str_eqb (cfg_Type (Some m)) _); [|discriminate]. intros [= <-] send. discriminate. }
    destruct (str_eqb ty ($"console")); [injection H as <-; injection Hc as <-; intros send; discriminate|].
    destruct (str_eqb ty ($"memory")); [injection H as <-; injection Hc as <-; intros send; discriminate|].
    destruct (str_eqb ty ($"size_rolling_file")); [injection H as <-; auto|].
    destruct (str_eqb ty ($"time_rolling_file")); [injection H as <-; auto|].
    destruct (str_eqb ty ($"syslog")); [|discriminate]. injection H as <-. unfold NewSyslogOutput in Hc. destruct (p_dial P n); [|discriminate].
    injection Hc as <-. intros send. discriminate.
  - intros i x. unfold init_world. cbn. destruct i; discriminate.
Qed.
Lemma exec_hw P W o W' r : inv W -> fair o -> exec P W o = Ok (W', r) -> hw W -> hw W'.
Proof.
  intros I Pr H F. destruct o; cbn [fair] in Pr.
  - cbn [exec] in H. destruct (GetLogger P W name) as [[W1 id]|] eqn:E; [|discriminate]. injection H as <- <-.
    destruct (GetLogger_cases _ _ _ _ _ E I) as [[_ HR]|[(_ & _ & -> & _)|
     (_ & Hnr & Hne & Hnone & W2 & r & W3 & W4 & g & HR & M & L2 & HG & HA)]]; [eapply getRootLogger_hw; eassumption|auto|].
    apply getRootLogger_hw in HR; [|assumption].
    assert (F3 : hw W3) by (rewrite (md_rest _ _ _ _ M); now apply (hw_same W2)).
    eapply apply_glo_hw; [exact HA|]. eapply GLO_hw; eassumption.
  - cbn [exec] in H. destruct (nth_error _ _); [|discriminate]. injection H as <- <-. now apply (hw_same W).
  - cbn [exec] in H. destruct (nth_error _ _); [|discriminate]. destruct (SetOutputs W id ops) as [W1|] eqn:E; [|discriminate].
    injection H as <- <-. eapply SetOutputs_hw; eassumption.
  - cbn [exec] in H. destruct (nth_error _ _); [|discriminate]. injection H as <- <-. now apply (hw_same W).
  - eapply log_hw; eassumption.
  - cbn [exec] in H. injection H as <- <-. destruct F as [[A1 A2] B C D G]. constructor; cbn; auto.
    + split; cbn; [|exact A2]. intros fc n m. destruct (str_eqb_spec t (cfg_Type (Some m))) as [->|Hne].
      * rewrite mlookup_minsert_eq. intros [= <-]. now apply (Pr n m).
      * rewrite mlookup_minsert_ne by (intros E; now apply Hne). apply A1.
    + intros ty c n m g. destruct (str_eqb_spec t ty) as [->|Hne].
      * rewrite mlookup_minsert_eq. intros [= <-]. apply (Pr n m).
      * rewrite mlookup_minsert_ne by (intros E; now apply Hne). apply B.
  - cbn [exec] in H. injection H as <- <-. destruct F as [[A1 A2] B C D G]. constructor; cbn; auto.
    + split; cbn; [exact A1|]. intros oc n m. destruct (str_eqb_spec t (cfg_Type (Some m))) as [->|Hne].
      * rewrite mlookup_minsert_eq. intros [= <-]. now apply (Pr n m).
      * rewrite mlookup_minsert_ne by (intros E; now apply Hne). apply A2.
    + intros ty oc n m sp. destruct (str_eqb_spec t ty) as [->|Hne].
      * rewrite mlookup_minsert_eq. intros [= <-]. apply (Pr n m).
      * rewrite mlookup_minsert_ne by (intros E; now apply Hne). apply D.
  - cbn [exec] in H. destruct (GetLoggerOutputs P W name) as [[W1 g]|] eqn:E; [|discriminate]. injection H as <- <-.
    eapply GLO_hw; eassumption.
  - cbn [exec] in H. destruct (setConfig P W c ord) as [[W1 ok]|] eqn:E; [|discriminate]. injection H as <- <-.
    eapply setConfig_hw; eassumption.
  - cbn [exec] in H. unfold LoadConfig in H. destruct (setConfig P W _ ord) as [[W1 ok]|] eqn:E; [|discriminate]. injection H as <- <-.
    eapply setConfig_hw; eassumption.
  - cbn [exec] in H. unfold LoadConfigFile, LoadConfig in H. destruct (p_read P file) as [bs|]; [|now injection H as <- <-].
    destruct (path_Ext file) as [|a ext]; [discriminate|].
    destruct (setConfig P W _ ord) as [[W1 ok]|] eqn:E; [|discriminate]. injection H as <- <-.
    eapply setConfig_hw; eassumption.
  - cbn [exec] in H. injection H as <- <-. apply (hw_same W); auto. cbn. now apply close_fold_map.
  - cbn [exec add_output] in H. injection H as <- <-. destruct F as [A B C D G]. constructor; cbn; auto.
    intros i x Hx. apply nth_snoc_inv in Hx as [[_ Hx]|[_ ->]]; [eauto|exact Pr].
  - cbn [exec] in H. destruct (nth_error (w_heap W) o) as [x0|]; [|discriminate]. injection H as <- <-.
    destruct F as [A B C D G]. constructor; cbn; auto. intros i x. rewrite nth_upd.
    destruct (nth_error (w_heap W) i) as [y|] eqn:E; [|destruct (Nat.eqb i o); discriminate].
    destruct (Nat.eqb i o); cbn; intros [= <-]; [split; [exact Pr|exact (proj2 (G _ _ E))]|eauto].
Qed.
(** A call that stops on the way leaves the same. *)
Lemma cut_hw W W' : cut W W' -> hw W -> hw W'.
Proof.
  intros [|n m fc f H1 H2 H3 H4] F; [now apply (hw_same W)|]. constructor; cbn; try apply F. intros k g.
  destruct (str_eqb_spec n k) as [<-|Hne]; [rewrite mlookup_minsert_eq; intros [= <-]; exact (hw_fc _ F _ _ _ _ _ H2 H3)|].
  rewrite mlookup_minsert_ne by (intros ->; now apply Hne). apply F.
Qed.
Lemma halt_hw P W W' : halt P W W' -> hw W -> hw W'.
Proof.
  intros [-> |[(names & lvl & acc & W1 & g & E & C)|(n & g & H)]] F; [exact F|eapply cut_hw; [exact C|eapply glo_loop_hw; eassumption]|].
  eapply GLO_hw; eassumption.
Qed.
Lemma stopped_hw P W o W' : inv W -> stopped P W o W' -> hw W -> hw W'.
Proof.
  intros I [o' W1 Hh|o' c ord1 ord2 W1 W2 Hg V E Hh|name W0 r W1 p W2 id W3 Hne Hnr Hn E0 EL EC Hh|? ? ? ? ? ? ? ? W1 Sd] F.
  - eapply halt_hw; eassumption.
  - eapply halt_hw; [exact Hh|]. eapply notify_hw; [exact E|]. now apply (hw_same W).
  - destruct (stopped_made _ _ _ _ _ _ _ _ _ I Hne Hnr Hn E0 EL EC) as (I0 & L0 & M & L2). eapply halt_hw; [exact Hh|].
    rewrite (md_rest _ _ _ _ M). apply (hw_same W0); auto. eapply getRootLogger_hw; eassumption.
  - eapply sends_hw; eassumption.
Qed.
Lemma fair_is_reach P W : fair_reach P W -> reach P W.
Proof. induction 1; [constructor|eapply reach_step; eassumption|eapply reach_panic; eassumption]. Qed.
Lemma proper_is_fair P W : proper_reach P W -> fair_reach P W.
Proof. induction 1 as [|W o W' r R IH Ho [Hf _] H]; [constructor|eapply fa_step; eassumption]. Qed.
Lemma proper_is_reach P W : proper_reach P W -> reach P W.
Proof. intros R. now apply fair_is_reach, proper_is_fair. Qed.
Lemma fair_hw P W : fair_reach P W -> hw W.
Proof.
  induction 1 as [|W o W' r R IH Ho Hp H|W o W' R IH Ho Hp H Hr]; [apply init_hw| |];
    pose proof (reach_inv _ _ (fair_is_reach _ _ R)) as I; [eapply exec_hw; eassumption|].
  eapply stopped_hw; [exact I|eapply raised_stopped; eassumption|exact IH].
Qed.
Lemma log_formattable P W id c v lvl fmt args now ustk W' r : inv W -> good_ctx c -> exec P W (OLog id c v lvl fmt args now ustk) = Ok (W', r) ->
  Forall (fun d => formattable (snd (snd d))) (w_sent W) -> Forall (fun d => formattable (snd (snd d))) (w_sent W').
Proof.
  intros I Hg H F. apply log_inv in H as [H _].
  assert (Hl : exists l, nth_error (w_loggers W) id = Some l).
  { unfold Printf in H. destruct (nth_error (w_loggers W) id); [eauto|discriminate]. }
  destruct Hl as [l Hl].
  destruct (Printf_spec _ _ _ _ _ _ _ _ _ _ _ _ I Hl H) as [[Hb ->]|(d & o & lo & e & Hc & Hlo & He & Hd)]; [assumption|].
  destruct (dispatch_spec _ _ _ _ _ _ Hd) as (evs & Hlen & Hk & Hs & _ & Hh).
  rewrite warn_sent in Hs. rewrite Hs. apply Forall_app. split; [exact F|]. apply Forall_forall. intros [j [stk e0]] Hin. cbn.
  apply in_combine_sent in Hin as (_ & _ & Hin). rewrite Forall_forall in Hk. specialize (Hk _ Hin).
  eapply kept_formattable; [exact Hk|]. eapply kept_formattable; [eapply capture_kept; exact He|].
  destruct d; apply good_formattable; [assumption|apply good_background].
Qed.
Lemma proper_sent P W : proper_reach P W -> Forall (fun d => formattable (snd (snd d))) (w_sent W).
Proof.
  induction 1 as [|W o W' r R IH Ho [Hf Hp] H]; [constructor|]. pose proof (reach_inv _ _ (proper_is_reach _ _ R)) as I.
  destruct o; try (rewrite (AsyncEndProofs.exec_sent _ _ _ _ _ H I) by (intros K; exact K); exact IH).
  destruct Hp as [_ Hg]. eapply log_formattable; eassumption.
Qed.

Lemma apply_glo_total P X n X1 g id : inv X -> GetLoggerOutputs P X n = Ok (X1, g) -> exists X2, apply_glo X1 id g = Ok X2.
Proof.
  intros I Eg. unfold apply_glo, SetOutputs. destruct (g_err g) eqn:Ge; [eauto|].
  pose proof (GLO_valid_ops _ _ _ _ _ (iv_valid _ I) Eg Ge) as Hvo.
  destruct (flags_of_total (w_heap (SetLevel X1 id (g_lvl g))) (g_ops g) Hvo) as [fs Ef]. rewrite Ef. cbn [bind]. eauto.
Qed.
Lemma getRootLogger_total P W : inv W -> hw W -> exists W' r, getRootLogger P W = Ok (W', r).
Proof.
  intros I F. unfold getRootLogger. destruct (w_root W) as [r0|]; [eauto|].
  match goal with |- context [GetLoggerOutputs P ?X rootName] => set (W0 := X) end.
  assert (F0 : hw W0) by now apply (hw_same W). destruct (GLO_total P W0 rootName F0) as (W1 & g & Eg).
  rewrite Eg. cbn [bind]. assert (V0 : outs_valid W0) by (intros n o; apply (iv_valid _ I)).
  destruct (g_err g) eqn:Ge.
  - cbn [add_output]. unfold SetOutputs. cbn [set_heap w_heap SetLevel set_loggers flags_of].
    rewrite nth_snoc. cbn [bind]. eauto.
  - unfold SetOutputs. pose proof (GLO_valid_ops _ _ _ _ _ V0 Eg Ge) as Hvo.
    destruct (flags_of_total (w_heap (SetLevel W1 (length (w_loggers W)) (g_lvl g))) (g_ops g) Hvo) as [fs Ef].
    rewrite Ef. cbn [bind]. eauto.
Qed.
Lemma GetLogger_total P W n : inv W -> hw W -> exists W' id, GetLogger P W n = Ok (W', id).
Proof.
  intros I F. unfold GetLogger. destruct (str_eqb n [] || str_eqb n rootName) eqn:En; [now apply getRootLogger_total|].
  destruct (mlookup n (w_names W)) as [id|] eqn:El; [eauto|]. unfold getParent.
  destruct (getRootLogger_total P W I F) as (W1 & r & Er). rewrite Er. cbn [bind].
  destruct (parent_loop W1 n (range_str n) r) as [W2 p] eqn:Ep.
  destruct (createLogger W2 n p) as [W3 id] eqn:Ec.
  pose proof (getRootLogger_hw _ _ _ _ Er F) as F1.
  pose proof (parent_loop_rest _ _ _ _ _ _ Ep) as E2. pose proof (createLogger_rest _ _ _ _ _ Ec) as E3.
  assert (F3 : hw W3) by (rewrite E3, E2; now apply (hw_same W1)).
  destruct (GLO_total P W3 n F3) as (W4 & g & Eg). rewrite Eg. cbn [bind].
  destruct (getRootLogger_spec _ _ _ _ Er I) as (I1 & _).
  assert (V3 : outs_valid W3) by (rewrite E3, E2; exact (iv_valid _ I1)).
  unfold apply_glo, SetOutputs. destruct (g_err g) eqn:Ge; [cbn [bind]; eauto|].
  pose proof (GLO_valid_ops _ _ _ _ _ V3 Eg Ge) as Hvo.
  destruct (flags_of_total (w_heap (SetLevel W4 id (g_lvl g))) (g_ops g) Hvo) as [fs Ef]. rewrite Ef. cbn [bind]. eauto.
Qed.

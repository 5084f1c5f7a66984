(** The calls that a creator's panic passes through: where they stop, and that they are the calls of WorldModel.v. *)
From Verif Require Import GoStr Utf8 LevelModel EventModel LayoutModel ConfModel OutputModel WorldModel PanicModel WorldBase.
Local Open Scope nat_scope.

(** The same outcome, in the two ways of giving it. *)
Definition same_as {A} (r : res (world * A)) (t : pres A) : Prop :=
  match t with Done W a => r = Ok (W, a) | Raised _ => r = Panic end.
Lemma same_bind {A B} (r : res (world * A)) (t : pres A) (f : world * A -> res (world * B)) (g : world -> A -> pres B) :
  same_as r t -> (forall W a, same_as (f (W, a)) (g W a)) -> same_as (bind r f) (pbind t g).
Proof. intros H K. destruct t as [W a|W]; cbn in H; subst r; cbn; [apply K|reflexivity]. Qed.
Lemma glo_loop_same names : forall W lvl acc, same_as (glo_loop W names lvl acc) (try_glo_loop W names lvl acc).
Proof.
  induction names as [|n names IH]; intros W lvl acc; cbn [glo_loop try_glo_loop]; [reflexivity|].
  destruct (GetCfgOutput (w_config W) n) as [m|]; [|reflexivity].
  destruct (GetCfgFormat (w_config W) (cfg_FormatName (Some m))) as [fm|]; [|reflexivity].
  destruct (mlookup (cfg_Type (Some fm)) (w_fcreators W)) as [fc|]; [|reflexivity].
  apply same_bind.
  - destruct (mlookup (cfg_Name (Some fm)) (w_formats W)); [reflexivity|].
    destruct (fc (w_ticks W) (Some fm)) as [[f|]|]; reflexivity.
  - intros W1 [f|]; [|reflexivity]. destruct (mlookup (cfg_Type (Some m)) (w_ocreators W1)) as [oc|]; [|reflexivity].
    destruct (mlookup (cfg_Name (Some m)) (w_outputs W1)) as [o|]; [apply IH|].
    destruct (oc (w_ticks W1) (Some m)); [apply IH|reflexivity|reflexivity].
Qed.
Lemma GLO_same P W n : same_as (GetLoggerOutputs P W n) (try_GetLoggerOutputs P W n).
Proof.
  unfold GetLoggerOutputs, try_GetLoggerOutputs. destruct (GetCfgLogger _ _); [apply glo_loop_same|reflexivity].
Qed.
(** A result without a value. *)
Definition void (r : res world) : res (world * unit) := match r with Ok W => Ok (W, tt) | Panic => Panic end.
Lemma apply_same W id g : same_as (void (apply_glo W id g)) (try_apply_glo W id g).
Proof. unfold try_apply_glo. destruct (apply_glo W id g); reflexivity. Qed.
Lemma notify_same P ord : forall W, same_as (void (notify P W ord)) (try_notify P W ord).
Proof.
  induction ord as [|id ord IH]; intros W; cbn [notify try_notify]; [reflexivity|].
  destruct (nth_error (w_loggers W) id) as [l|]; [|reflexivity].
  pose proof (GLO_same P W (l_name l)) as G. destruct (try_GetLoggerOutputs P W (l_name l)) as [W1 g|W1]; cbn in G; rewrite G; cbn; [|reflexivity].
  unfold try_apply_glo. destruct (apply_glo W1 id g) as [W2|]; cbn; [apply IH|reflexivity].
Qed.
Lemma setConfig_same P W c ord : same_as (setConfig P W c ord) (try_setConfig P W c ord).
Proof.
  unfold setConfig, try_setConfig. destruct (validateConfig c); [|reflexivity].
  pose proof (notify_same P ord (set_config W c)) as N. destruct (try_notify P (set_config W c) ord) as [W1 u|W1]; cbn in N |- *;
    destruct (notify P (set_config W c) ord); cbn in N |- *; congruence.
Qed.
Lemma root_same P W : same_as (getRootLogger P W) (try_getRootLogger P W).
Proof.
  unfold getRootLogger, try_getRootLogger. destruct (w_root W); [reflexivity|]. cbv zeta. apply same_bind; [apply GLO_same|].
  intros W1 g. match goal with |- same_as (bind ?X _) _ => destruct X end; reflexivity.
Qed.
Lemma GetLogger_same P W n : same_as (GetLogger P W n) (try_GetLogger P W n).
Proof.
  unfold GetLogger, try_GetLogger. destruct (str_eqb n [] || str_eqb n rootName); [apply root_same|].
  destruct (mlookup n (w_names W)); [reflexivity|]. unfold getParent.
  pose proof (root_same P W) as R. destruct (try_getRootLogger P W) as [W0 r|W0]; cbn in R; rewrite R; cbn [bind pbind same_as]; [|reflexivity].
  destruct (parent_loop W0 n (range_str n) r) as [W1 p]. destruct (createLogger W1 n p) as [W2 id].
  apply same_bind; [apply GLO_same|]. intros W3 g. unfold try_apply_glo. destruct (apply_glo W3 id g); reflexivity.
Qed.
Lemma dispatch_same E stk ops : forall W e, same_as (void (dispatch E stk W ops e)) (try_dispatch E stk W ops e).
Proof.
  induction ops as [|i ops IH]; intros W e; [reflexivity|]. cbn [dispatch try_dispatch].
  destruct (nth_error (w_heap W) i) as [o|]; [|reflexivity]. destruct (out_Send E stk o e) as [[o' e']|]; [|reflexivity]. apply IH.
Qed.
Lemma write_same P fuel : forall W id c name skip lvl fmt args now stk,
  same_as (void (write P fuel W id c name skip lvl fmt args now stk)) (try_write P fuel W id c name skip lvl fmt args now stk).
Proof.
  induction fuel as [|fuel IH]; intros W id c name skip lvl fmt args now stk; [reflexivity|]. cbn [write try_write].
  destruct (nth_error (w_loggers W) id) as [l|]; [|reflexivity]. destruct (negb _); [reflexivity|].
  destruct (l_outputs l) as [|i ops]; [destruct (l_parent l); [apply IH|]|destruct (l_parent l)];
    (destruct (capture _ _ _ _); [apply dispatch_same|reflexivity]).
Qed.
Lemma Printf_same P W id c v lvl fmt args now ustk :
  same_as (void (Printf P W id c v lvl fmt args now ustk)) (try_Printf P W id c v lvl fmt args now ustk).
Proof. unfold Printf, try_Printf. destruct (nth_error _ _); [apply write_same|reflexivity]. Qed.
Lemma exec_same P W o t : try_exec P W o = Some t -> same_as (exec P W o) t.
Proof.
  destruct o; cbn [try_exec exec]; try discriminate; intros [= <-].
  - apply same_bind; [apply GetLogger_same|reflexivity].
  - pose proof (Printf_same P W id c v lvl fmt args now ustk) as S.
    destruct (try_Printf P W id c v lvl fmt args now ustk) as [X []|X], (Printf P W id c v lvl fmt args now ustk) as [Y|]; cbn in *; congruence.
  - apply same_bind; [apply GLO_same|reflexivity].
  - apply same_bind; [apply setConfig_same|reflexivity].
  - unfold LoadConfig. apply same_bind; [apply setConfig_same|reflexivity].
  - unfold LoadConfigFile, LoadConfig. destruct (p_read P file); [|reflexivity]. destruct (path_Ext file); [reflexivity|].
    apply same_bind; [apply setConfig_same|reflexivity].
Qed.

(** ** Where the calls stop *)
(** GetLoggerOutputs got through some names, and perhaps a format. *)
Inductive cut (W1 : world) : world -> Prop :=
| cut_tick : cut W1 (tick W1)
| cut_fmt n m fc f : GetCfgFormat (w_config W1) n = Some m -> mlookup (cfg_Type (Some m)) (w_fcreators W1) = Some fc ->
    fc (w_ticks W1) (Some m) = Ok (Some f) -> mlookup n (w_formats W1) = None ->
    cut W1 (tick (set_caches W1 (minsert n f (w_formats W1)) (w_outputs W1) (w_heap W1) (S (w_ticks W1)))).
Definition loop_cut (W : world) (W' : world) : Prop :=
  exists names lvl acc W1 g, glo_loop W names lvl acc = Ok (W1, g) /\ cut W1 W'.
Lemma cut_grow W1 W' : cut W1 W' -> grow W1 W'.
Proof.
  intros [|n m fc f H1 H2 H3 H4]; [apply grow_tick|]. eapply grow_trans; [|apply grow_tick]. eapply grow_fmt; eassumption.
Qed.
Lemma loop_cut_grow W W' : outs_valid W -> loop_cut W W' -> grow W W'.
Proof.
  intros V (names & lvl & acc & W1 & g & E & C). destruct (glo_loop_grow _ _ _ _ _ _ V E) as [G _].
  eapply grow_trans; [exact G|now apply cut_grow].
Qed.
Lemma glo_loop_cut names : forall W lvl acc W', try_glo_loop W names lvl acc = Raised W' ->
  exists names1 names2 W1 g, names = names1 ++ names2 /\ glo_loop W names1 lvl acc = Ok (W1, g) /\ cut W1 W'.
Proof.
  induction names as [|n names IH]; intros W lvl acc W' H; cbn [try_glo_loop] in H; [discriminate|].
  destruct (GetCfgOutput (w_config W) n) as [m|] eqn:Em; [|discriminate].
  destruct (GetCfgFormat (w_config W) (cfg_FormatName (Some m))) as [fm|] eqn:Efm; [|discriminate].
  destruct (mlookup (cfg_Type (Some fm)) (w_fcreators W)) as [fc|] eqn:Efc; [|discriminate].
  pose proof (GetCfgFormat_name _ _ _ Efm) as Efn.
  match type of H with pbind ?s _ = _ => destruct s as [W1 of|W1] eqn:Es end; cbn [pbind] in H.
  - assert (HC : (of = None \/ exists f, of = Some f) /\ (W1 = W \/ exists f, of = Some f /\ fc (w_ticks W) (Some fm) = Ok (Some f) /\
      mlookup (cfg_Name (Some fm)) (w_formats W) = None /\
      W1 = set_caches W (minsert (cfg_Name (Some fm)) f (w_formats W)) (w_outputs W) (w_heap W) (S (w_ticks W))) \/ of = None).
    { destruct (mlookup (cfg_Name (Some fm)) (w_formats W)) as [f0|] eqn:Ef.
      - injection Es as <- <-. left. split; [right; eauto|now left].
      - destruct (fc (w_ticks W) (Some fm)) as [[f|]|] eqn:Ec; [| |discriminate]; injection Es as <- <-.
        + left. split; [right; eauto|]. right. exists f. auto.
        + now right. }
    destruct of as [f|]; [|discriminate]. destruct HC as [[_ HC]|HC]; [|discriminate].
    destruct (mlookup (cfg_Type (Some m)) (w_ocreators W1)) as [oc|] eqn:Eoc; [|discriminate].
    assert (ES : forall r, glo_loop W (n :: r) lvl acc =
       match mlookup (cfg_Name (Some m)) (w_outputs W1) with
       | Some o => glo_loop W1 r lvl (acc ++ [o])
       | None => match oc (w_ticks W1) (Some m) with
                 | CreatePanic => Panic
                 | CreateErr => Ok (set_caches W1 (w_formats W1) (w_outputs W1) (w_heap W1) (S (w_ticks W1)), mkGlo acc lvl true)
                 | Created sp => glo_loop (set_caches W1 (w_formats W1) (minsert (cfg_Name (Some m)) (length (w_heap W1)) (w_outputs W1))
                              (w_heap W1 ++ [mkOut sp (Some f) [] [] 0]) (S (w_ticks W1))) r lvl (acc ++ [length (w_heap W1)])
                 end
       end).
    { intros r. cbn [glo_loop]. rewrite Em, Efm, Efc.
      destruct (mlookup (cfg_Name (Some fm)) (w_formats W)) as [f0|] eqn:Ef.
      - injection Es as <- <-. cbn [bind]. now rewrite Eoc.
      - destruct (fc (w_ticks W) (Some fm)) as [[f1|]|] eqn:Ec; [|discriminate|discriminate]; injection Es as <- <-.
        cbn [bind]. cbn [w_ocreators set_caches] in Eoc |- *. now rewrite Eoc. }
    destruct (mlookup (cfg_Name (Some m)) (w_outputs W1)) as [o|] eqn:Eo.
    + apply IH in H as (n1 & n2 & W2 & g & -> & E & C). exists (n :: n1), n2, W2, g. split; [reflexivity|]. split; [|exact C]. now rewrite ES.
    + destruct (oc (w_ticks W1) (Some m)) as [sp| |] eqn:Ec; [|discriminate|].
      * apply IH in H as (n1 & n2 & W2 & g & -> & E & C). exists (n :: n1), n2, W2, g. split; [reflexivity|]. split; [|exact C]. now rewrite ES.
      * injection H as <-. exists [], (n :: names), W, (mkGlo acc lvl false). split; [reflexivity|]. split; [reflexivity|].
        destruct HC as [->|(f' & _ & Hc & Hn & ->)]; [constructor|]. rewrite Efn in Hn |- *. eapply cut_fmt; eassumption.
  - injection H as <-. exists [], (n :: names), W, (mkGlo acc lvl false). split; [reflexivity|]. split; [reflexivity|].
    destruct (mlookup (cfg_Name (Some fm)) (w_formats W)); [discriminate|].
    destruct (fc (w_ticks W) (Some fm)) as [[f|]|]; try discriminate. injection Es as <-. constructor.
Qed.
Lemma GLO_cut P W n W' : try_GetLoggerOutputs P W n = Raised W' -> loop_cut W W'.
Proof.
  unfold try_GetLoggerOutputs. destruct (GetCfgLogger _ _); [|discriminate]. intros H.
  apply glo_loop_cut in H as (n1 & n2 & W1 & g & _ & E & C). do 5 eexists. split; eassumption.
Qed.

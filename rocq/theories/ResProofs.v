(** Proofs about what the library holds on to. *)
From Verif Require Import GoStr Utf8 LevelModel EventModel LayoutModel ConfModel OutputModel WorldModel PanicModel WorldSpec CloseSpec
  WorldBase PanicBase WorldInv WorldProofs CloseProofs ResSpec.

Notation keys W := (map fst (w_outputs W)).
(** [k] outputs made outside the table; otherwise one for each new name, all names from the configuration. *)
Record grows (k : nat) (W W' : world) : Prop := {
  gw_cfg : w_config W' = w_config W;
  gw_count : length (w_heap W') + length (keys W) = length (w_heap W) + length (keys W') + k;
  gw_keys : forall n, In n (keys W') -> In n (keys W) \/ In n (out_names W);
  gw_log : length (w_loggers W) <= length (w_loggers W')
}.
Lemma grows_same W W' : w_config W' = w_config W -> w_outputs W' = w_outputs W -> length (w_heap W') = length (w_heap W) ->
  length (w_loggers W) <= length (w_loggers W') -> grows 0 W W'.
Proof. intros C O H. constructor; rewrite ?O, ?H; auto; lia. Qed.
Ltac gsame := apply grows_same; [try reflexivity; congruence|try reflexivity; congruence|cbn; rewrite ?pass_len, ?upd_len; congruence|cbn; rewrite ?upd_len, ?app_length; cbn; try lia].
Lemma grows_trans k1 k2 W W1 W2 : grows k1 W W1 -> grows k2 W1 W2 -> grows (k1 + k2) W W2.
Proof.
  intros [C1 N1 K1 L1] [C2 N2 K2 L2]. constructor; [congruence|lia| |lia].
  intros n H. destruct (K2 n H) as [H1|H1]; [exact (K1 n H1)|right; unfold out_names in *; rewrite <- C1; exact H1].
Qed.
Lemma grows_then W W1 W2 k : grows k W W1 -> grows 0 W1 W2 -> grows k W W2.
Proof. intros A B. rewrite <- (Nat.add_0_r k). eapply grows_trans; eassumption. Qed.
Lemma grows_first W W1 W2 k : grows 0 W W1 -> grows k W1 W2 -> grows k W W2.
Proof. intros A B. change k with (0 + k). eapply grows_trans; eassumption. Qed.
Lemma grows_out W fs n o t : mlookup n (w_outputs W) = None -> In n (out_names W) ->
  grows 0 W (set_caches W fs (minsert n (length (w_heap W)) (w_outputs W)) (w_heap W ++ [o]) t).
Proof.
  intros N I. constructor; cbn; [reflexivity| | |lia].
  - rewrite minsert_keys, N, !app_length, !map_length. cbn. lia.
  - intros k H. rewrite minsert_keys, N in H. apply in_app_iff in H. destruct H as [H|[<-|[]]]; auto.
Qed.
Lemma cfg_in c n m : GetCfgOutput c n = Some m -> In (cfg_Name (Some m)) (map cfg_Name (c_outputs c)).
Proof.
  unfold GetCfgOutput. destruct (find _ _) as [x|] eqn:E; [|discriminate]. intros ->. apply find_some in E as [E _]. now apply in_map.
Qed.
Lemma glo_loop_grows names : forall W lvl acc W' g, glo_loop W names lvl acc = Ok (W', g) -> grows 0 W W'.
Proof.
  induction names as [|n names IH]; intros W lvl acc W' g H; cbn [glo_loop] in H.
  - injection H as <- <-. gsame.
  - destruct (GetCfgOutput (w_config W) n) as [m|] eqn:Em; [|injection H as <- <-; gsame].
    destruct (GetCfgFormat (w_config W) (cfg_FormatName (Some m))) as [fm|]; [|injection H as <- <-; gsame].
    destruct (mlookup (cfg_Type (Some fm)) (w_fcreators W)) as [fc|]; [|injection H as <- <-; gsame].
    match type of H with bind ?s _ = _ => destruct s as [[W1 of]|] eqn:Es; [|discriminate] end.
    cbn [bind] in H.
    assert (Hs : w_outputs W1 = w_outputs W /\ w_heap W1 = w_heap W /\ w_config W1 = w_config W /\ w_loggers W1 = w_loggers W).
    { destruct (mlookup (cfg_Name (Some fm)) (w_formats W)) as [f0|]; [injection Es as <- <-; auto|].
      destruct (fc (w_ticks W) (Some fm)) as [[f|]|]; cbn [bind] in Es; [| |discriminate]; injection Es as <- <-; auto. }
    destruct Hs as (E1 & E2 & E3 & E4). assert (T1 : grows 0 W W1) by (apply grows_same; [congruence|congruence|congruence|rewrite E4; lia]).
    destruct of as [f|]; [|injection H as <- <-; exact T1].
    destruct (mlookup (cfg_Type (Some m)) (w_ocreators W1)) as [oc|]; [|injection H as <- <-; exact T1].
    destruct (mlookup (cfg_Name (Some m)) (w_outputs W1)) as [o|] eqn:Eo.
    + eapply grows_then; [exact T1|]. eapply IH; eassumption.
    + destruct (oc (w_ticks W1) (Some m)) as [sp| |]; [| |discriminate].
      * eapply grows_then; [exact T1|]. eapply grows_then; [|eapply IH; exact H]. apply grows_out; [exact Eo|].
        unfold out_names. rewrite E3. eapply cfg_in; exact Em.
      * injection H as <- <-. eapply grows_then; [exact T1|]. gsame.
Qed.
Lemma GLO_grows P W n W' g : GetLoggerOutputs P W n = Ok (W', g) -> grows 0 W W'.
Proof.
  unfold GetLoggerOutputs. intros H. destruct (GetCfgLogger _ _) as [lc|].
  - eapply glo_loop_grows; eassumption.
  - injection H as <- <-. gsame.
Qed.
Lemma SetOutputs_grows W id ops W' : SetOutputs W id ops = Ok W' -> grows 0 W W'.
Proof. unfold SetOutputs. destruct (flags_of _ _); [|discriminate]. intros [= <-]. gsame. Qed.
Lemma apply_glo_grows W id g W' : apply_glo W id g = Ok W' -> grows 0 W W'.
Proof.
  unfold apply_glo. destruct (g_err g); [intros [= <-]; gsame|]. intros H.
  eapply grows_then; [|eapply SetOutputs_grows; exact H]. gsame.
Qed.
Lemma notify_grows P ord : forall W W', notify P W ord = Ok W' -> grows 0 W W'.
Proof.
  induction ord as [|id ord IH]; intros W W' H; cbn in H; [injection H as <-; gsame|].
  destruct (nth_error (w_loggers W) id) as [l|]; [|discriminate].
  destruct (GetLoggerOutputs P W (l_name l)) as [[W1 g]|] eqn:E; [|discriminate]. cbn [bind] in H.
  destruct (apply_glo W1 id g) as [W2|] eqn:E2; [|discriminate]. cbn [bind] in H.
  eapply grows_then; [eapply GLO_grows; exact E|]. eapply grows_then; [eapply apply_glo_grows; exact E2|]. eauto.
Qed.
Lemma sends_grows W W' : sends W W' -> grows 0 W W'.
Proof.
  intros S. assert (L : length (w_heap W') = length (w_heap W)).
  { erewrite <- (map_length _ (w_heap W')), (sd_heap _ _ S), map_length. reflexivity. }
  apply grows_same; [apply S|apply S|exact L|rewrite (sd_loggers _ _ S); lia].
Qed.
Lemma root_grows P W W' r : getRootLogger P W = Ok (W', r) -> exists k, grows k W W' /\ k <= 1 /\ (0 < k -> w_root W = None /\ 0 < length (w_loggers W')).
Proof.
  unfold getRootLogger. intros H. destruct (w_root W) as [r0|].
  { exists 0. injection H as <- <-. split; [gsame|]. split; [lia|]. intros X; exfalso; lia. }
  match type of H with bind (GetLoggerOutputs _ ?X _) _ = _ => set (W0 := X) in * end.
  destruct (GetLoggerOutputs P W0 rootName) as [[W1 g]|] eqn:Eg; [|discriminate]. cbn [bind] in H.
  pose proof (GLO_grows _ _ _ _ _ Eg) as T1.
  assert (T0 : grows 0 W W0) by gsame.
  match type of H with bind ?s _ = _ => destruct s as [W3|] eqn:Es; [|discriminate] end. cbn [bind] in H. injection H as <- <-.
  assert (T3 : exists k, grows k W1 W3 /\ k <= 1).
  { destruct (g_err g); cbn [add_output] in Es.
    - exists 1. split; [|auto]. eapply grows_then; [|eapply SetOutputs_grows; exact Es]. constructor; cbn; auto.
      rewrite app_length; cbn; lia. rewrite upd_len; lia.
    - exists 0. split; [|auto]. eapply grows_then; [|eapply SetOutputs_grows; exact Es]. gsame. }
  destruct T3 as (k & T3 & L). exists k.
  assert (T4 : grows 0 W3 (set_factory W3 (w_loggers W3) (w_root W3) (minsert rootName (length (w_loggers W)) (w_names W3)))) by gsame.
  split; [|split; [exact L|]].
  - eapply grows_first; [exact T0|]. eapply grows_first; [exact T1|]. eapply grows_then; [exact T3|exact T4].
  - intros _. split; [reflexivity|]. pose proof (gw_log _ _ _ T1) as A. pose proof (gw_log _ _ _ T3) as B. pose proof (gw_log _ _ _ T4) as C.
    cbn in A, C. rewrite app_length in A. cbn in A. cbn. lia.
Qed.
Lemma later_len W W' : later W W' -> length (w_loggers W) <= length (w_loggers W').
Proof.
  intros L. destruct (w_loggers W) as [|l ls] eqn:E; [cbn; lia|]. rewrite <- E.
  assert (X : exists x, nth_error (skels W) (length (w_loggers W) - 1) = Some x).
  { destruct (nth_error (skels W) (length (w_loggers W) - 1)) as [x|] eqn:N; [eauto|]. exfalso. apply nth_error_None in N.
    unfold skels in N. rewrite map_length in N. rewrite E in N. cbn in N. lia. }
  destruct X as [x X]. apply (lt_sk _ _ L) in X. assert (Y : nth_error (skels W') (length (w_loggers W) - 1) <> None) by congruence.
  apply nth_error_Some in Y. unfold skels in Y. rewrite map_length in Y. lia.
Qed.
Lemma rest_cfg W W' : W' = set_factory W (w_loggers W') (w_root W') (w_names W') -> later W W' -> grows 0 W W'.
Proof. intros E L. apply later_len in L. rewrite E in *. now apply grows_same. Qed.
Lemma GetLogger_grows P W n W' id : GetLogger P W n = Ok (W', id) -> exists k, grows k W W' /\ k <= 1 /\ (0 < k -> w_root W = None /\ 0 < length (w_loggers W')).
Proof.
  unfold GetLogger. intros H. destruct (_ || _); [now apply root_grows with (1 := H)|].
  destruct (mlookup n (w_names W)) as [j|]; [injection H as <- <-; exists 0; split; [gsame|split; [lia|intros X; exfalso; lia]]|].
  unfold getParent in H. destruct (getRootLogger P W) as [[W1 r]|] eqn:E1; [|discriminate]. cbn [bind] in H.
  destruct (parent_loop W1 n (range_str n) r) as [W2 p] eqn:E2. cbn [bind] in H.
  destruct (createLogger W2 n p) as [W3 id'] eqn:E3.
  destruct (GetLoggerOutputs P W3 n) as [[W4 g]|] eqn:E4; [|discriminate]. cbn [bind] in H.
  destruct (apply_glo W4 id' g) as [W5|] eqn:E5; [|discriminate]. cbn [bind] in H. injection H as <- <-.
  pose proof (rest_cfg _ _ (parent_loop_rest _ _ _ _ _ _ E2) (parent_loop_later _ _ _ _ _ _ E2)) as G2.
  pose proof (rest_cfg _ _ (createLogger_rest _ _ _ _ _ E3) (createLogger_later _ _ _ _ _ E3)) as G3. clear E2 E3. rename G2 into E2, G3 into E3.
  destruct (root_grows _ _ _ _ E1) as (k & G & L & X). exists k. apply GLO_grows in E4. apply apply_glo_grows in E5. split; [|split; [exact L|]].
  - eapply grows_then; [exact G|]. eapply grows_then; [exact E2|]. eapply grows_then; [exact E3|]. eapply grows_then; eassumption.
  - intros Y. destruct (X Y) as [Z Z']. split; [exact Z|]. apply gw_log in E2. apply gw_log in E3. apply gw_log in E4. apply gw_log in E5. lia.
Qed.
(** A call: the configuration may be replaced first. *)
Definition call_grows (u : nat) (W W' : world) : Prop :=
  exists W0 k, (W0 = W \/ exists c, W0 = set_config W c) /\ grows (u + k) W0 W' /\ k <= 1 /\ (0 < k -> w_root W = None /\ 0 < length (w_loggers W')).
Lemma call_plain u W W' : grows u W W' -> call_grows u W W'.
Proof. intros G. exists W, 0. rewrite Nat.add_0_r. split; [auto|]. split; [exact G|]. split; [lia|]. intros X; exfalso; lia. Qed.
Lemma setConfig_grows P W c ord W' ok : setConfig P W c ord = Ok (W', ok) -> call_grows 0 W W'.
Proof.
  unfold setConfig. destruct (validateConfig c); [|intros [= <- <-]; apply call_plain; gsame].
  destruct (notify _ _ _) as [W1|] eqn:E; [|discriminate]. cbn. intros [= <- <-].
  exists (set_config W c), 0. split; [eauto|]. split; [eapply notify_grows; exact E|]. split; [lia|]. intros X; exfalso; lia.
Qed.
Lemma exec_grows P W o W' r : exec P W o = Ok (W', r) -> call_grows (made_by o) W W'.
Proof.
  intros H. destruct o; cbn [exec] in H; cbn [made_by].
  - destruct (GetLogger P W name) as [[W1 id]|] eqn:E; [|discriminate]. injection H as <- <-.
    destruct (GetLogger_grows _ _ _ _ _ E) as (k & G & L). exists W, k. auto.
  - destruct (nth_error _ _); [|discriminate]. injection H as <- <-. apply call_plain. gsame.
  - destruct (nth_error _ _); [|discriminate]. destruct (SetOutputs W id ops) as [W1|] eqn:E; [|discriminate]. injection H as <- <-.
    apply call_plain. eapply SetOutputs_grows; eassumption.
  - destruct (nth_error _ _); [|discriminate]. injection H as <- <-. apply call_plain. gsame.
  - destruct (Printf _ _ _ _ _ _ _ _ _ _) as [W1|] eqn:E; [|discriminate]. injection H as <- <-. apply call_plain. eapply sends_grows, Printf_sends, E.
  - injection H as <- <-. apply call_plain. gsame.
  - injection H as <- <-. apply call_plain. gsame.
  - destruct (GetLoggerOutputs P W name) as [[W1 g]|] eqn:E; [|discriminate]. injection H as <- <-. apply call_plain. eapply GLO_grows; exact E.
  - destruct (setConfig P W c ord) as [[W1 ok]|] eqn:E; [|discriminate]. injection H as <- <-. eapply setConfig_grows; eassumption.
  - unfold LoadConfig in H. destruct (setConfig _ _ _ _) as [[W1 ok]|] eqn:E; [|discriminate]. injection H as <- <-. eapply setConfig_grows; eassumption.
  - unfold LoadConfigFile, LoadConfig in H. destruct (p_read P file); [|injection H as <- <-; apply call_plain; gsame].
    destruct (path_Ext file) as [|c ext]; [discriminate|].
    destruct (setConfig _ _ _ _) as [[W1 ok]|] eqn:E; [|discriminate]. injection H as <- <-. eapply setConfig_grows; eassumption.
  - injection H as <- <-. apply call_plain. gsame.
  - injection H as <- <-. apply call_plain. constructor; cbn; auto. rewrite app_length. cbn. lia.
  - destruct (nth_error (w_heap W) o) as [x|] eqn:E; [|discriminate]. injection H as <- <-. apply call_plain. gsame.
Qed.
Lemma halt_grows P W W' : halt P W W' -> grows 0 W W'.
Proof.
  intros [->|[(names & lvl & acc & W1 & g & E & C)|(n & g & H)]]; [gsame| |eapply GLO_grows; eassumption].
  eapply grows_then; [eapply glo_loop_grows; eassumption|]. destruct C; gsame.
Qed.
Lemma raised_grows P W o W' : raised P W o W' -> root_made W' -> inv W -> call_grows 0 W W'.
Proof.
  intros H Hr I. destruct (raised_stopped _ _ _ _ I H Hr) as [o W' Hh|o c ord1 ord2 W1 W' Hg V E Hh|name W0 r W1 p W2 id W' Hne Hnr Hn E0 EL EC Hh|? ? ? ? ? ? ? ? W' Sd].
  - apply call_plain. eapply halt_grows; exact Hh.
  - exists (set_config W c), 0. split; [eauto|]. split; [|split; [lia|intros X; exfalso; lia]].
    eapply grows_then; [eapply notify_grows; exact E|eapply halt_grows; exact Hh].
  - destruct (root_grows _ _ _ _ E0) as (k & G & L). exists W, k. split; [auto|].
    pose proof (rest_cfg _ _ (parent_loop_rest _ _ _ _ _ _ EL) (parent_loop_later _ _ _ _ _ _ EL)) as G2.
    pose proof (rest_cfg _ _ (createLogger_rest _ _ _ _ _ EC) (createLogger_later _ _ _ _ _ EC)) as G3. clear EL EC. rename G2 into EL, G3 into EC. apply halt_grows in Hh. destruct L as [L X]. split; [|split; [exact L|]].
    + eapply grows_then; [exact G|]. eapply grows_then; [exact EL|]. eapply grows_then; eassumption.
    + intros Y. destruct (X Y) as [Z Z']. split; [exact Z|]. apply gw_log in EL. apply gw_log in EC. apply gw_log in Hh. lia.
  - apply call_plain. now apply sends_grows.
Qed.
Lemma call_names u W W' : call_grows u W W' -> forall n, In n (keys W') -> In n (keys W) \/ In n (out_names W').
Proof.
  intros (W0 & k & E & G & _) n H. destruct (gw_keys _ _ _ G n H) as [X|X].
  - left. destruct E as [->|[c ->]]; exact X.
  - right. unfold out_names in *. rewrite (gw_cfg _ _ _ G). exact X.
Qed.
Lemma call_count u W W' : call_grows u W W' ->
  exists k, length (w_heap W') + length (keys W) = length (w_heap W) + length (keys W') + (u + k) /\
    length (w_loggers W) <= length (w_loggers W') /\ k <= 1 /\ (0 < k -> w_root W = None /\ 0 < length (w_loggers W')).
Proof.
  intros (W0 & k & E & G & L). exists k. pose proof (gw_count _ _ _ G) as C. pose proof (gw_log _ _ _ G) as D.
  destruct E as [->|[c ->]]; auto.
Qed.
Lemma root_loggers W : inv W -> w_loggers W <> [] -> w_root W <> None.
Proof.
  intros I H E. pose proof (si_rootptr _ _ _ (iv_sk _ I)) as R. rewrite E in R. unfold skels in R. destruct (w_loggers W); [congruence|discriminate].
Qed.
Lemma loggers_root W : inv W -> w_root W <> None -> w_loggers W <> [].
Proof.
  intros I H E. pose proof (si_rootptr _ _ _ (iv_sk _ I)) as R. destruct (w_root W) as [r|]; [|congruence].
  destruct (si_names _ _ _ (iv_sk _ I) _ _ R) as [p Hp]. unfold skels in Hp. rewrite E in Hp. destruct r; discriminate.
Qed.
(** The tally. *)
Lemma tally_reach P u ns W : tally P u ns W -> reach P W.
Proof. induction 1; [apply reach_init|eapply reach_step; eassumption|eapply reach_panic; eassumption]. Qed.
Lemma tally_count P u ns W : tally P u ns W ->
  (forall n, In n (keys W) -> In n ns) /\
  exists b, length (w_heap W) = length (keys W) + u + b /\ b <= 1 /\ (w_loggers W = [] -> b = 0).
Proof.
  revert u ns W. assert (Step : forall W W' u v ns, inv W -> call_grows v W W' ->
    (forall n, In n (keys W) -> In n ns) /\ (exists b, length (w_heap W) = length (keys W) + u + b /\ b <= 1 /\ (w_loggers W = [] -> b = 0)) ->
    (forall n, In n (keys W') -> In n (ns ++ out_names W')) /\
    (exists b, length (w_heap W') = length (keys W') + (u + v) + b /\ b <= 1 /\ (w_loggers W' = [] -> b = 0))).
  { intros W W' u v ns I G [K (b & B & B1 & B0)]. split.
    - intros n H. apply in_app_iff. destruct (call_names _ _ _ G n H) as [X|X]; auto.
    - destruct (call_count _ _ _ G) as (k & C & Lg & K1 & K0). exists (b + k). split; [lia|].
      destruct k as [|k].
      + split; [lia|]. intros E. rewrite E in Lg. cbn in Lg. rewrite B0; [reflexivity|]. destruct (w_loggers W); [reflexivity|cbn in Lg; lia].
      + destruct (K0 ltac:(lia)) as [R L]. assert (k = 0) by lia. subst k.
        assert (w_loggers W = []) as E.
        { destruct (w_loggers W) eqn:E; [reflexivity|]. exfalso. apply (root_loggers W I); [rewrite E; discriminate|exact R]. }
        rewrite (B0 E). split; [lia|]. intros E'. rewrite E' in L. cbn in L. lia. }
  intros u ns W. induction 1 as [|u ns W o W' r T IH OK E|u ns W o W' T IH OK E Hr].
  - split; [intros n []|]. exists 0. split; [reflexivity|auto].
  - eapply Step; [eapply reach_inv, tally_reach, T|eapply exec_grows; exact E|exact IH].
  - pose proof (reach_inv _ _ (tally_reach _ _ _ _ T)) as I.
    destruct (Step _ _ u 0 ns I (raised_grows _ _ _ _ E Hr I) IH) as [A B]. rewrite Nat.add_0_r in B. auto.
Qed.
Lemma keys_nodup_bound P u ns W : tally P u ns W -> length (keys W) <= different ns.
Proof.
  intros T. destruct (tally_count _ _ _ _ T) as [K _]. unfold different. apply NoDup_incl_length; [exact (reach_keys _ _ (tally_reach _ _ _ _ T))|].
  intros n H. apply nodup_In. auto.
Qed.

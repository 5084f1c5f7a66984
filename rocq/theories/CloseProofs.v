From Verif Require Import GoStr Utf8 LevelModel EventModel LayoutModel ConfModel OutputModel WorldModel PanicModel WorldSpec CloseSpec
  WorldBase PanicBase WorldInv WorldProofs.

(** ** One pass over the table *)
Lemma upd_len {A} n (f : A -> A) l : length (upd n f l) = length l.
Proof. revert n; induction l as [|x l IH]; intros [|n]; cbn; auto. Qed.
Lemma pass_len (l : smap nat) h : length (fold_left (fun h p => upd (snd p) close_out h) l h) = length h.
Proof. revert h; induction l as [|p l IH]; intros h; cbn; [reflexivity|]. now rewrite IH, upd_len. Qed.
Lemma pass_nth (l : smap nat) : forall h i x, NoDup (map snd l) -> nth_error h i = Some x ->
  exists x', nth_error (fold_left (fun h p => upd (snd p) close_out h) l h) i = Some x' /\
    closed_more (if in_dec Nat.eq_dec i (map snd l) then 1 else 0) x x'.
Proof.
  induction l as [|p l IH]; intros h i x ND H; cbn [map fold_left].
  - exists x. split; [exact H|]. unfold closed_more. destruct (in_dec _ _ _) as [[]|]; repeat split; lia.
  - inversion ND as [|a b N1 N2]; subst.
    destruct (Nat.eq_dec i (snd p)) as [->|N].
    + destruct (IH (upd (snd p) close_out h) (snd p) (close_out x) N2) as (x' & H1 & H2).
      { rewrite nth_upd, Nat.eqb_refl, H. reflexivity. }
      exists x'. split; [exact H1|].
      destruct (in_dec _ (snd p) (map snd l)) as [J|_]; [contradiction|].
      destruct (in_dec _ (snd p) (snd p :: map snd l)) as [_|J]; [|exfalso; apply J; now left].
      unfold closed_more, close_out in *. cbn in H2. intuition lia.
    + destruct (IH (upd (snd p) close_out h) i x N2) as (x' & H1 & H2).
      { rewrite nth_upd. destruct (Nat.eqb_spec i (snd p)); [contradiction|exact H]. }
      exists x'. split; [exact H1|].
      destruct (in_dec _ i (map snd l)) as [J|J], (in_dec _ i (snd p :: map snd l)) as [K|K]; auto.
      * exfalso. apply K. now right.
      * exfalso. destruct K; [congruence|contradiction].
Qed.
Lemma lookup_in {A} (m : smap A) n v : NoDup (map fst m) -> (In (n, v) m <-> mlookup n m = Some v).
Proof.
  induction m as [|[k w] m IH]; cbn [In mlookup map fst]; intros ND; [split; [tauto|discriminate]|].
  inversion ND as [|a b N1 N2]; subst. destruct (str_eqb_spec n k) as [->|N].
  - split; [intros [[= <-]|H]; [reflexivity|]|intros [= <-]; now left].
    exfalso. apply N1. apply (in_map fst) in H. exact H.
  - rewrite <- (IH N2). split; [intros [[= E _]|H]; [congruence|exact H]|auto].
Qed.
Lemma values_nodup (m : smap nat) : NoDup (map fst m) ->
  (forall a b o, mlookup a m = Some o -> mlookup b m = Some o -> a = b) -> NoDup (map snd m).
Proof.
  induction m as [|[k v] m IH]; cbn [map fst snd]; intros ND INJ; [constructor|]. inversion ND as [|a b N1 N2]; subst.
  constructor.
  - intros H. apply in_map_iff in H as ([k' v'] & E & H). cbn in E. subst v'.
    assert (mlookup k' ((k, v) :: m) = Some v) as L1 by (apply lookup_in; [exact ND|now right]).
    assert (mlookup k ((k, v) :: m) = Some v) as L2 by (apply lookup_in; [exact ND|now left]).
    pose proof (INJ _ _ _ L1 L2). subst k'. apply N1. apply (in_map fst) in H. exact H.
  - apply IH; [exact N2|]. intros a b o Ha Hb. apply (INJ a b o); apply lookup_in; auto; right; now apply lookup_in.
Qed.
Lemma managed_in W i : NoDup (map fst (w_outputs W)) -> (managed W i <-> In i (map snd (w_outputs W))).
Proof.
  intros ND. split.
  - intros [n H]. apply lookup_in in H; [|exact ND]. apply (in_map snd) in H. exact H.
  - intros H. apply in_map_iff in H as ([n j] & E & H). cbn in E; subst. exists n. now apply lookup_in.
Qed.

(** ** Outputs of the library *)
Definition fallback : out_spec := {| os_sink := SinkStdout; os_async := None; os_threshold := All |}.
Record tended (W W' : world) : Prop := {
  td_keys : NoDup (map fst (w_outputs W)) -> NoDup (map fst (w_outputs W'));
  td_len : length (w_heap W) <= length (w_heap W');
  td_old : forall i x, nth_error (w_heap W) i = Some x ->
     exists x', nth_error (w_heap W') i = Some x' /\ o_closed x' = o_closed x /\ o_spec x' = o_spec x;
  td_new : forall i x, nth_error (w_heap W') i = Some x -> length (w_heap W) <= i ->
     o_closed x = 0 /\ (managed W' i \/ o_spec x = fallback);
  td_more : forall i, managed W i -> managed W' i;
  td_same : forall i, managed W' i -> i < length (w_heap W) -> managed W i
}.
Lemma tended_same W W' : w_outputs W' = w_outputs W -> w_heap W' = w_heap W -> tended W W'.
Proof.
  intros E1 E2. constructor; unfold managed; rewrite ?E1, ?E2; auto.
  - intros i x H. eauto.
  - intros i x H L. assert (nth_error (w_heap W) i <> None) as F by congruence. apply nth_error_Some in F. lia.
Qed.
Lemma tended_trans W W1 W2 : tended W W1 -> tended W1 W2 -> tended W W2.
Proof.
  intros A B. constructor.
  - intros H. apply B, A, H.
  - pose proof (td_len _ _ A). pose proof (td_len _ _ B). lia.
  - intros i x H. destruct (td_old _ _ A _ _ H) as (x1 & H1 & C1 & S1). destruct (td_old _ _ B _ _ H1) as (x2 & H2 & C2 & S2).
    exists x2. repeat split; congruence.
  - intros i x H L. destruct (le_lt_dec (length (w_heap W1)) i) as [G|G]; [now apply (td_new _ _ B)|].
    destruct (nth_error (w_heap W1) i) as [x1|] eqn:H1; [|apply nth_error_None in H1; lia].
    destruct (td_new _ _ A _ _ H1 L) as (C1 & M1). destruct (td_old _ _ B _ _ H1) as (x2 & H2 & C2 & S2).
    rewrite H in H2. injection H2 as <-. split; [congruence|]. destruct M1 as [M1|M1]; [left; now apply B|right; congruence].
  - intros i H. apply B, A, H.
  - intros i H L. apply A; [|exact L]. apply B; [exact H|]. pose proof (td_len _ _ A). lia.
Qed.
Lemma tended_out W fs n o t : mlookup n (w_outputs W) = None -> outs_valid W -> o_closed o = 0 ->
  tended W (set_caches W fs (minsert n (length (w_heap W)) (w_outputs W)) (w_heap W ++ [o]) t).
Proof.
  intros N V Z. constructor; cbn.
  - apply minsert_nodup.
  - rewrite app_length. lia.
  - intros i x H. exists x. split; [|auto]. rewrite nth_error_app1; [exact H|]. apply nth_error_Some. congruence.
  - intros i x H L. assert (i < length (w_heap W ++ [o])) as F by (apply nth_error_Some; congruence).
    rewrite app_length in F. cbn in F. assert (i = length (w_heap W)) as -> by lia.
    rewrite nth_error_app2, Nat.sub_diag in H by lia. injection H as <-. split; [exact Z|]. left. exists n.
    cbn. apply mlookup_minsert_eq.
  - intros i [k H]. exists k. cbn. rewrite mlookup_minsert_ne; [exact H|congruence].
  - intros i [k H] L. cbn in H. rewrite mlookup_minsert in H. destruct (str_eqb_spec k n) as [E|D].
    + injection H as E'. lia.
    + now exists k.
Qed.
Lemma glo_loop_tended names : forall W lvl acc W' g, outs_valid W ->
  glo_loop W names lvl acc = Ok (W', g) -> tended W W'.
Proof.
  induction names as [|n names IH]; intros W lvl acc W' g V H; cbn [glo_loop] in H.
  - injection H as <- <-. now apply tended_same.
  - destruct (GetCfgOutput (w_config W) n) as [m|] eqn:Em; [|injection H as <- <-; now apply tended_same].
    destruct (GetCfgFormat (w_config W) (cfg_FormatName (Some m))) as [fm|]; [|injection H as <- <-; now apply tended_same].
    destruct (mlookup (cfg_Type (Some fm)) (w_fcreators W)) as [fc|]; [|injection H as <- <-; now apply tended_same].
    match type of H with bind ?s _ = _ => destruct s as [[W1 of]|] eqn:Es; [|discriminate] end.
    cbn [bind] in H.
    assert (Hs : w_outputs W1 = w_outputs W /\ w_heap W1 = w_heap W).
    { destruct (mlookup (cfg_Name (Some fm)) (w_formats W)) as [f0|]; [injection Es as <- <-; auto|].
      destruct (fc (w_ticks W) (Some fm)) as [[f|]|]; cbn [bind] in Es; [| |discriminate]; injection Es as <- <-; auto. }
    destruct Hs as [E1 E2]. assert (T1 : tended W W1) by now apply tended_same.
    destruct of as [f|]; [|injection H as <- <-; exact T1].
    destruct (mlookup (cfg_Type (Some m)) (w_ocreators W1)) as [oc|]; [|injection H as <- <-; exact T1].
    assert (V1 : outs_valid W1) by (intros k o; rewrite E1, E2; apply V).
    destruct (mlookup (cfg_Name (Some m)) (w_outputs W1)) as [o|] eqn:Eo.
    + eapply tended_trans; [exact T1|]. eapply IH; eassumption.
    + destruct (oc (w_ticks W1) (Some m)) as [sp| |]; [| |discriminate].
      * match type of H with glo_loop ?X _ _ _ = _ => set (W2 := X) in * end.
        assert (T2 : tended W1 W2) by now apply tended_out.
        eapply tended_trans; [exact T1|]. eapply tended_trans; [exact T2|]. eapply IH; [|eassumption].
        intros k o. cbn. rewrite mlookup_minsert, app_length. cbn. destruct (str_eqb k _); [intros [= <-]; lia|].
        intros K. apply V1 in K. lia.
      * injection H as <- <-. eapply tended_trans; [exact T1|]. now apply tended_same.
Qed.
Lemma GLO_tended P W n W' g : outs_valid W -> GetLoggerOutputs P W n = Ok (W', g) -> tended W W'.
Proof.
  unfold GetLoggerOutputs. intros V H. destruct (GetCfgLogger _ _) as [lc|].
  - eapply glo_loop_tended; eassumption.
  - injection H as <- <-. now apply tended_same.
Qed.
Lemma SetOutputs_tended W id ops W' : SetOutputs W id ops = Ok W' -> tended W W'.
Proof. unfold SetOutputs. destruct (flags_of _ _); [|discriminate]. intros [= <-]. now apply tended_same. Qed.
Lemma apply_glo_tended W id g W' : apply_glo W id g = Ok W' -> tended W W'.
Proof.
  unfold apply_glo. destruct (g_err g); [intros [= <-]; now apply tended_same|]. intros H.
  eapply tended_trans; [|eapply SetOutputs_tended; exact H]. now apply tended_same.
Qed.
Lemma notify_tended P ord : forall W W', notify P W ord = Ok W' -> inv W -> tended W W'.
Proof.
  induction ord as [|id ord IH]; intros W W' H I; cbn in H; [injection H as <-; now apply tended_same|].
  destruct (nth_error (w_loggers W) id) as [l|]; [|discriminate].
  destruct (GetLoggerOutputs P W (l_name l)) as [[W1 g]|] eqn:E; [|discriminate]. cbn [bind] in H.
  destruct (apply_glo W1 id g) as [W2|] eqn:E2; [|discriminate]. cbn [bind] in H.
  eapply tended_trans; [eapply GLO_tended; [apply I|exact E]|]. eapply tended_trans; [eapply apply_glo_tended; exact E2|].
  apply IH; [exact H|]. eapply apply_glo_inv; [exact E2|]. eapply grow_inv; [|exact I]. eapply GLO_grow; [apply I|exact E].
Qed.
Lemma setConfig_tended P W c ord W' ok : setConfig P W c ord = Ok (W', ok) -> inv W -> tended W W'.
Proof.
  unfold setConfig. destruct (validateConfig c); [|intros [= <- <-] _; now apply tended_same].
  destruct (notify _ _ _) as [W1|] eqn:E; [|discriminate]. cbn. intros [= <- <-] I.
  eapply tended_trans; [|eapply notify_tended; [exact E|now apply set_config_inv]]. now apply tended_same.
Qed.
Lemma sends_tended W W' : sends W W' -> tended W W'.
Proof.
  intros S. assert (L : length (w_heap W) = length (w_heap W')).
  { erewrite <- (map_length _ (w_heap W)), <- (sd_heap _ _ S), map_length. reflexivity. }
  constructor; unfold managed; rewrite ?(sd_outputs _ _ S); auto; [lia| |].
  - intros i x H. destruct (map_nth_transfer _ _ _ _ _ (sd_heap _ _ S) H) as (x' & Hx' & E). exists x'. intuition congruence.
  - intros i x H G. assert (nth_error (w_heap W') i <> None) as F by congruence. apply nth_error_Some in F. lia.
Qed.
Lemma fallback_tended W o : o_closed o = 0 -> o_spec o = fallback -> tended W (set_heap W (w_heap W ++ [o])).
Proof.
  intros Z S. constructor; cbn; auto.
  - rewrite app_length; lia.
  - intros i x H. exists x. split; [|auto]. rewrite nth_error_app1; [exact H|]. apply nth_error_Some. congruence.
  - intros i x H L. assert (i < length (w_heap W ++ [o])) as F by (apply nth_error_Some; congruence).
    rewrite app_length in F. cbn in F. assert (i = length (w_heap W)) as -> by lia.
    rewrite nth_error_app2, Nat.sub_diag in H by lia. injection H as <-. auto.
Qed.
Lemma console_fallback up : console_of (NewConsoleOutput up None) = fallback.
Proof. reflexivity. Qed.
Lemma root_tended P W W' r : getRootLogger P W = Ok (W', r) -> inv W -> tended W W'.
Proof.
  unfold getRootLogger. intros H I. destruct (w_root W) as [r0|]; [injection H as <- <-; now apply tended_same|].
  match type of H with bind (GetLoggerOutputs _ ?X _) _ = _ => set (W0 := X) in * end.
  destruct (GetLoggerOutputs P W0 rootName) as [[W1 g]|] eqn:Eg; [|discriminate]. cbn [bind] in H.
  assert (V0 : outs_valid W0) by (intros n o; apply (iv_valid _ I)).
  assert (T0 : tended W W0) by now apply tended_same.
  pose proof (GLO_tended _ _ _ _ _ V0 Eg) as T1.
  match type of H with bind ?s _ = _ => destruct s as [W3|] eqn:Es; [|discriminate] end. cbn [bind] in H. injection H as <- <-.
  assert (T3 : tended W1 W3).
  { destruct (g_err g); cbn [add_output] in Es.
    - eapply tended_trans; [|eapply SetOutputs_tended; exact Es].
      eapply tended_trans; [apply (tended_same W1 (SetLevel W1 (length (w_loggers W)) Debug)); reflexivity|].
      now apply fallback_tended.
    - eapply tended_trans; [|eapply SetOutputs_tended; exact Es]. now apply tended_same. }
  eapply tended_trans; [exact T0|]. eapply tended_trans; [exact T1|]. eapply tended_trans; [exact T3|]. now apply tended_same.
Qed.
Lemma rest_same W W' : W' = set_factory W (w_loggers W') (w_root W') (w_names W') -> w_outputs W' = w_outputs W /\ w_heap W' = w_heap W.
Proof. intros ->. auto. Qed.
Lemma GetLogger_tended P W n W' id : GetLogger P W n = Ok (W', id) -> inv W -> tended W W'.
Proof.
  unfold GetLogger. intros H I. destruct (_ || _); [now apply root_tended with (1 := H)|].
  destruct (mlookup n (w_names W)) as [j|]; [injection H as <- <-; now apply tended_same|].
  unfold getParent in H. destruct (getRootLogger P W) as [[W1 r]|] eqn:E1; [|discriminate]. cbn [bind] in H.
  destruct (parent_loop W1 n (range_str n) r) as [W2 p] eqn:E2. cbn [bind] in H.
  destruct (createLogger W2 n p) as [W3 id'] eqn:E3.
  destruct (GetLoggerOutputs P W3 n) as [[W4 g]|] eqn:E4; [|discriminate]. cbn [bind] in H.
  destruct (apply_glo W4 id' g) as [W5|] eqn:E5; [|discriminate]. cbn [bind] in H. injection H as <- <-.
  destruct (getRootLogger_spec _ _ _ _ E1 I) as (I1 & _).
  apply parent_loop_rest, rest_same in E2 as [A2 B2]. apply createLogger_rest, rest_same in E3 as [A3 B3].
  eapply tended_trans; [eapply root_tended; eassumption|].
  eapply tended_trans; [apply (tended_same W1 W3); congruence|].
  eapply tended_trans; [|eapply apply_glo_tended; exact E5].
  eapply GLO_tended; [|exact E4]. intros k o. rewrite A3, A2, B3, B2. apply (iv_valid _ I1).
Qed.
Lemma exec_tended P W o W' r : exec P W o = Ok (W', r) -> inv W -> o <> OClose -> (forall sp f, o <> ONewOutput sp f) -> tended W W'.
Proof.
  intros H I NC NN. destruct o; cbn [exec] in H.
  - destruct (GetLogger P W name) as [[W1 id]|] eqn:E; [|discriminate]. injection H as <- <-. eapply GetLogger_tended; eassumption.
  - destruct (nth_error _ _); [|discriminate]. injection H as <- <-. now apply tended_same.
  - destruct (nth_error _ _); [|discriminate]. destruct (SetOutputs W id ops) as [W1|] eqn:E; [|discriminate]. injection H as <- <-.
    eapply SetOutputs_tended; eassumption.
  - destruct (nth_error _ _); [|discriminate]. injection H as <- <-. now apply tended_same.
  - destruct (Printf _ _ _ _ _ _ _ _ _ _) as [W1|] eqn:E; [|discriminate]. injection H as <- <-. eapply sends_tended, Printf_sends, E.
  - injection H as <- <-. now apply tended_same.
  - injection H as <- <-. now apply tended_same.
  - destruct (GetLoggerOutputs P W name) as [[W1 g]|] eqn:E; [|discriminate]. injection H as <- <-. eapply GLO_tended; [apply I|exact E].
  - destruct (setConfig P W c ord) as [[W1 ok]|] eqn:E; [|discriminate]. injection H as <- <-. eapply setConfig_tended; eassumption.
  - unfold LoadConfig in H. destruct (setConfig _ _ _ _) as [[W1 ok]|] eqn:E; [|discriminate]. injection H as <- <-. eapply setConfig_tended; eassumption.
  - unfold LoadConfigFile, LoadConfig in H. destruct (p_read P file); [|injection H as <- <-; now apply tended_same].
    destruct (path_Ext file) as [|c ext]; [discriminate|].
    destruct (setConfig _ _ _ _) as [[W1 ok]|] eqn:E; [|discriminate]. injection H as <- <-. eapply setConfig_tended; eassumption.
  - congruence.
  - now destruct (NN sp f).
  - destruct (nth_error (w_heap W) o) as [x|] eqn:E; [|discriminate]. injection H as <- <-. constructor; cbn; auto.
    + rewrite upd_len. lia.
    + intros i y Hy. rewrite nth_upd. destruct (Nat.eqb_spec i o); [rewrite Hy; cbn; eauto|eauto].
    + intros i y Hy L. assert (nth_error (upd o (with_fmt f) (w_heap W)) i <> None) as F by congruence. apply nth_error_Some in F.
      rewrite upd_len in F. lia.
Qed.
Lemma halt_tended P W W' : halt P W W' -> outs_valid W -> tended W W'.
Proof.
  intros [->|[(names & lvl & acc & W1 & g & E & C)|(n & g & H)]] V; [now apply tended_same| |eapply GLO_tended; eassumption].
  eapply tended_trans; [eapply glo_loop_tended; eassumption|]. destruct C; now apply tended_same.
Qed.
Lemma raised_tended P W o W' : raised P W o W' -> root_made W' -> inv W -> tended W W'.
Proof.
  intros H Hr I. destruct (raised_stopped _ _ _ _ I H Hr) as [o W' Hh|o c ord1 ord2 W1 W' Hg V E Hh|name W0 r W1 p W2 id W' Hne Hnr Hn E0 EL EC Hh|? ? ? ? ? ? ? ? W' Sd].
  - eapply halt_tended; [exact Hh|apply I].
  - pose proof (set_config_inv W c I) as I0. pose proof (notify_inv _ _ _ _ E I0) as I1.
    eapply tended_trans; [apply (tended_same W (set_config W c)); reflexivity|].
    eapply tended_trans; [eapply notify_tended; eassumption|]. eapply halt_tended; [exact Hh|apply I1].
  - destruct (stopped_made _ _ _ _ _ _ _ _ _ I Hne Hnr Hn E0 EL EC) as (_ & _ & M & _).
    apply parent_loop_rest, rest_same in EL as [A2 B2]. apply createLogger_rest, rest_same in EC as [A3 B3].
    eapply tended_trans; [eapply root_tended; eassumption|]. eapply tended_trans; [apply (tended_same W0 W2); congruence|].
    eapply halt_tended; [exact Hh|]. apply (iv_valid _ (md_inv _ _ _ _ M)).
  - now apply sends_tended.
Qed.
Lemma close_heap W : inv W -> NoDup (map fst (w_outputs W)) -> forall i x, nth_error (w_heap W) i = Some x ->
  exists x', nth_error (w_heap (Close W)) i = Some x' /\
    ((managed W i /\ closed_more 1 x x') \/ (~ managed W i /\ closed_more 0 x x')).
Proof.
  intros I ND i x H. destruct (pass_nth (w_outputs W) (w_heap W) i x) as (x' & H1 & H2); [|exact H|].
  - apply values_nodup; [exact ND|]. apply (iv_inj _ I).
  - exists x'. split; [exact H1|]. pose proof (managed_in W i ND) as M.
    destruct (in_dec _ i (map snd (w_outputs W))); [left|right]; tauto.
Qed.
Lemma reach_keys P W : reach P W -> NoDup (map fst (w_outputs W)).
Proof.
  induction 1 as [|W o W' r R IH OK E|W o W' R IH OK E Hr]; [constructor| |]; pose proof (reach_inv _ _ R) as I.
  2:{ apply (td_keys _ _ (raised_tended _ _ _ _ E Hr I)). exact IH. }
  destruct o; try (apply (td_keys _ _ (exec_tended _ _ _ _ _ E I ltac:(discriminate) ltac:(discriminate))); exact IH).
  - cbn in E. injection E as <- <-. exact IH.
  - cbn in E. injection E as <- <-. exact IH.
Qed.
Lemma plain_reaches P W : plain_reach P W -> reach P W.
Proof. induction 1; [apply reach_init|eapply reach_step; eassumption|eapply reach_panic; eassumption]. Qed.
Lemma plain_managed P W : plain_reach P W -> forall i x, nth_error (w_heap W) i = Some x -> managed W i \/ o_spec x = fallback.
Proof.
  induction 1 as [|W o W' r R IH OK NN E|W o W' R IH OK E Hr]; intros i x Hx; [destruct i; discriminate| |];
    apply plain_reaches in R; pose proof (reach_inv _ _ R) as I.
  2:{ pose proof (raised_tended _ _ _ _ E Hr I) as T.
      destruct (le_lt_dec (length (w_heap W)) i) as [L|L]; [now apply (td_new _ _ T)|].
      destruct (nth_error (w_heap W) i) as [y|] eqn:Hy; [|apply nth_error_None in Hy; lia].
      destruct (td_old _ _ T _ _ Hy) as (x' & Hx' & _ & S). rewrite Hx in Hx'. injection Hx' as <-.
      destruct (IH _ _ Hy) as [M|M]; [left; now apply T|right; congruence]. }
  assert (C : o = OClose \/ o <> OClose) by (destruct o; (now left) || (right; discriminate)).
  destruct C as [->|NC].
  - cbn in E. injection E as <- <-.
    assert (Li : i < length (w_heap W)).
    { assert (nth_error (w_heap (Close W)) i <> None) as F by congruence. apply nth_error_Some in F. cbn in F. now rewrite pass_len in F. }
    destruct (nth_error (w_heap W) i) as [y|] eqn:Hy; [|apply nth_error_None in Hy; lia].
    destruct (close_heap W I (reach_keys _ _ R) i y Hy) as (x' & Hx' & K). rewrite Hx in Hx'. injection Hx' as <-.
    destruct (IH _ _ Hy) as [M|M]; [left; exact M|right]. destruct K as [[_ K]|[_ K]]; destruct K as (K & _); congruence.
  - pose proof (exec_tended _ _ _ _ _ E I NC NN) as T.
    destruct (le_lt_dec (length (w_heap W)) i) as [L|L]; [now apply (td_new _ _ T)|].
    destruct (nth_error (w_heap W) i) as [y|] eqn:Hy; [|apply nth_error_None in Hy; lia].
    destruct (td_old _ _ T _ _ Hy) as (x' & Hx' & _ & S). rewrite Hx in Hx'. injection Hx' as <-.
    destruct (IH _ _ Hy) as [M|M]; [left; now apply T|right; congruence].
Qed.

From Verif Require Import GoStr Utf8 LevelModel EventModel LayoutModel FormatSpec ConfModel OutputModel OutputSpec OutputProofs
  WorldModel WorldSpec WorldBase WorldInv WorldProofs LogProofs P_Hier P_Log EndModel EndSpec.
From Verif Require Import RollModel RollSpec.
Local Open Scope Z_scope.

(** ** Calls other than log calls leave existing outputs alone *)
Definition hx (W W' : world) : Prop := exists ext, w_heap W' = w_heap W ++ ext.
Lemma hx_refl W : hx W W.
Proof. exists []. now rewrite app_nil_r. Qed.
Lemma hx_eq W W' : w_heap W' = w_heap W -> hx W W'.
Proof. intros E. exists []. now rewrite app_nil_r. Qed.
Lemma hx_trans A B C : hx A B -> hx B C -> hx A C.
Proof. intros [a E] [b F]. exists (a ++ b). now rewrite F, E, app_assoc. Qed.
Lemma SetOutputs_heap W id ops W' : SetOutputs W id ops = Ok W' -> w_heap W' = w_heap W.
Proof. unfold SetOutputs. destruct (flags_of _ _); [|discriminate]. now intros [= <-]. Qed.
Lemma apply_glo_heap W id g W' : apply_glo W id g = Ok W' -> w_heap W' = w_heap W.
Proof.
  unfold apply_glo. destruct (g_err g); [now intros [= <-]|]. intros H. now apply SetOutputs_heap in H.
Qed.
Lemma notify_hx P ord : forall W W', notify P W ord = Ok W' -> inv W -> hx W W'.
Proof.
  induction ord as [|id ord IH]; intros W W' H I; cbn in H; [injection H as <-; apply hx_refl|].
  destruct (nth_error (w_loggers W) id) as [l|]; [|discriminate].
  destruct (GetLoggerOutputs P W (l_name l)) as [[W1 g]|] eqn:E; [|discriminate]. cbn [bind] in H.
  destruct (apply_glo W1 id g) as [W2|] eqn:E2; [|discriminate]. cbn [bind] in H.
  pose proof (GLO_grow _ _ _ _ _ (iv_valid _ I) E) as G.
  assert (I2 : inv W2) by (eapply apply_glo_inv; [eassumption|eapply grow_inv; eassumption]).
  eapply hx_trans; [apply (gr_heap _ _ G)|]. eapply hx_trans; [apply hx_eq; eapply apply_glo_heap; eassumption|].
  now apply IH.
Qed.
Lemma setConfig_hx P W c ord W' ok : setConfig P W c ord = Ok (W', ok) -> inv W -> hx W W'.
Proof.
  unfold setConfig. destruct (validateConfig c); [|intros [= <- <-] _; apply hx_refl].
  destruct (notify _ _ _) as [W1|] eqn:E; [|discriminate]. cbn. intros [= <- <-] I.
  eapply hx_trans; [|eapply notify_hx; [eassumption|now apply set_config_inv]]. apply hx_eq. reflexivity.
Qed.
Lemma getRootLogger_hx P W W' r : getRootLogger P W = Ok (W', r) -> inv W -> hx W W'.
Proof.
  unfold getRootLogger. intros H I. destruct (w_root W); [injection H as <- <-; apply hx_refl|].
  match type of H with bind (GetLoggerOutputs _ ?X _) _ = _ => set (W0 := X) in * end.
  destruct (GetLoggerOutputs P W0 rootName) as [[W1 g]|] eqn:E; [|discriminate]. cbn [bind] in H.
  assert (V0 : outs_valid W0) by (intros n o; apply (iv_valid _ I)).
  pose proof (GLO_grow _ _ _ _ _ V0 E) as G.
  destruct (if g_err g then _ else _) as [W3|] eqn:E3 in H; [|discriminate]. cbn [bind] in H. injection H as <- <-.
  apply (hx_trans W W1); [exact (gr_heap _ _ G)|]. destruct (g_err g); cbn [add_output] in E3; apply SetOutputs_heap in E3.
  - exists [mkOut (console_of (NewConsoleOutput (p_up P) None)) None [] [] 0]. exact E3.
  - apply hx_eq. exact E3.
Qed.
Lemma GetLogger_hx P W n W' id : GetLogger P W n = Ok (W', id) -> inv W -> hx W W'.
Proof.
  intros E I. destruct (GetLogger_cases _ _ _ _ _ E I) as [[_ HR]|[(_ & _ & -> & _)|
     (_ & _ & _ & _ & W1 & r & W2 & W3 & g & HR & M & _ & HG & HA)]].
  - eapply getRootLogger_hx; eassumption.
  - apply hx_refl.
  - eapply hx_trans; [eapply getRootLogger_hx; eassumption|].
    pose proof (GLO_grow _ _ _ _ _ (iv_valid _ (md_inv _ _ _ _ M)) HG) as G.
    eapply hx_trans; [|eapply hx_trans; [exact (gr_heap _ _ G)|apply hx_eq; eapply apply_glo_heap; eassumption]].
    apply hx_eq. now rewrite (md_rest _ _ _ _ M).
Qed.
Definition core (x : output) := (o_spec x, o_fmt x, o_writes x).
Lemma exec_keeps P W o W' r i x : exec P W o = Ok (W', r) -> inv W -> ~ logs o -> fair i o -> nth_error (w_heap W) i = Some x ->
  exists x', nth_error (w_heap W') i = Some x' /\ core x' = core x.
Proof.
  intros H I NL F Hx.
  assert (HX : hx W W' -> exists x', nth_error (w_heap W') i = Some x' /\ core x' = core x).
  { intros [ext E]. exists x. split; [|reflexivity]. rewrite E, nth_error_app1; [exact Hx|]. apply nth_error_Some. congruence. }
  destruct o; cbn [exec] in H.
  - destruct (GetLogger P W name) as [[W1 id]|] eqn:E; [|discriminate]. injection H as <- <-.
    apply HX. eapply GetLogger_hx; eassumption.
  - destruct (nth_error (w_loggers W) _); [|discriminate]. injection H as <- <-. apply HX, hx_eq. reflexivity.
  - destruct (nth_error (w_loggers W) _); [|discriminate]. destruct (SetOutputs W id ops) as [W1|] eqn:E; [|discriminate].
    injection H as <- <-. eapply HX, hx_eq, SetOutputs_heap, E.
  - destruct (nth_error (w_loggers W) _); [|discriminate]. injection H as <- <-. apply HX, hx_eq. reflexivity.
  - destruct (NL Logic.I).
  - injection H as <- <-. apply HX, hx_eq. reflexivity.
  - injection H as <- <-. apply HX, hx_eq. reflexivity.
  - destruct (GetLoggerOutputs P W name) as [[W1 g]|] eqn:E; [|discriminate]. injection H as <- <-.
    apply HX, (gr_heap _ _ (GLO_grow _ _ _ _ _ (iv_valid _ I) E)).
  - destruct (setConfig P W c ord) as [[W1 ok]|] eqn:E; [|discriminate]. injection H as <- <-. eapply HX, setConfig_hx; eassumption.
  - unfold LoadConfig in H. destruct (setConfig P W _ ord) as [[W1 ok]|] eqn:E; [|discriminate]. injection H as <- <-.
    eapply HX, setConfig_hx; eassumption.
  - unfold LoadConfigFile, LoadConfig in H. destruct (p_read P file); [|injection H as <- <-; apply HX, hx_refl].
    destruct (path_Ext file); [discriminate|].
    destruct (setConfig P W _ ord) as [[W1 ok]|] eqn:E; [|discriminate]. injection H as <- <-. eapply HX, setConfig_hx; eassumption.
  - injection H as <- <-. apply (map_nth_transfer core _ (w_heap (Close W))) in Hx; [exact Hx|].
    cbn. now apply close_fold_map.
  - injection H as <- <-. apply HX. now eexists.
  - destruct (nth_error (w_heap W) o) as [x0|]; [|discriminate]. injection H as <- <-. cbn in F. cbn [w_heap set_heap].
    exists x. split; [|reflexivity]. rewrite nth_upd_ne by congruence. exact Hx.
Qed.

(** ** A log call *)
Lemma sent_to_count i ds l : sent_to i ds l -> length l = count_occ Nat.eq_dec (map fst ds) i.
Proof.
  induction 1 as [|d ds l H IH|j d ds l N H IH]; cbn [length map fst]; [reflexivity| |].
  - rewrite count_occ_cons_eq by reflexivity. congruence.
  - rewrite count_occ_cons_neq by assumption. exact IH.
Qed.
Lemma log_keeps P W n id c v lvl fmt args now ustk W' r i x h : reach P W -> has_name W n id -> good_ctx c ->
  exec P W (OLog id c v lvl fmt args now ustk) = Ok (W', r) -> nth_error (w_heap W) i = Some x -> sync_base x -> built h (o_fmt x) ->
  exists outs evs ws x', route W lvl n outs /\ length evs = count_occ Nat.eq_dec outs i /\
    Forall (fun p => carries n lvl fmt args now (snd p)) evs /\ written (p_env P) h (os_threshold (o_spec x)) evs ws /\
    nth_error (w_heap W') i = Some x' /\ o_writes x' = o_writes x ++ ws /\ o_spec x' = o_spec x /\ o_fmt x' = o_fmt x.
Proof.
  intros R HN G H Hx S B.
  destruct (C07_sync_output_writes _ _ _ _ _ _ _ _ _ _ _ _ _ _ _ _ R HN G H Hx S B) as (new & l & x' & ws & E1 & E2 & E3 & E4 & E5).
  destruct (C07_delivered_to_route _ _ _ _ _ _ _ _ _ _ _ _ _ R HN H) as (new' & E1' & RT).
  rewrite E1 in E1'. apply app_inv_head in E1'. subst new'.
  destruct (C07_nothing_else_changes _ _ _ _ _ _ _ _ _ _ _ _ _ R HN H) as (_ & _ & _ & K).
  destruct (K _ _ Hx) as (x2 & E3' & K1 & K2 & _). rewrite E3 in E3'. injection E3' as <-.
  exists (map fst new), l, ws, x'. split; [exact RT|]. split; [now apply sent_to_count|]. split.
  - apply Forall_forall. intros [stk e] I. pose proof (sent_to_in _ _ _ _ E2 I) as I2.
    exact (C08_event_data _ _ _ _ _ _ _ _ _ _ _ _ _ _ _ _ _ R HN H E1 I2).
  - auto 6.
Qed.
Lemma written_app E h t a b ws vs : written E h t a ws -> written E h t b vs -> written E h t (a ++ b) (ws ++ vs).
Proof. induction 1; cbn; intros; [assumption|apply wr_skip; auto|apply wr_send; auto]. Qed.
Lemma happens_join T c (good : fsop * fsres -> Prop) h1 : forall f w f1 w1 h2 f2 w2, happens T c good f w h1 f1 w1 ->
  happens T c good f1 w1 h2 f2 w2 -> happens T c good f w (h1 ++ h2) f2 w2.
Proof. intros f w f1 w1 h2 f2 w2 H. revert h2 f2 w2. induction H; cbn; intros; [assumption|econstructor; eauto|econstructor; eauto|econstructor; eauto]. Qed.

Definition put_of (b : str) (h : hop) : Prop := exists k err, h = HWrite b k err.
Lemma session_runs P T c (good : fsop * fsres -> Prop) i W f w os W' f' w' : session P T c good i W f w os W' f' w' ->
  forall x h, reach P W -> nth_error (w_heap W) i = Some x -> sync_base x -> built h (o_fmt x) ->
  exists evs ws hs x', deliveries P i W os evs /\ written (p_env P) h (os_threshold (o_spec x)) evs ws /\
    Forall2 put_of ws hs /\ happens T c good f w hs f' w' /\
    reach P W' /\ nth_error (w_heap W') i = Some x' /\ o_writes x' = o_writes x ++ ws /\ o_spec x' = o_spec x /\ o_fmt x' = o_fmt x.
Proof.
  induction 1 as [W f w|W f w o W1 r ws hs f1 w1 os W2 f2 w2 OK F X (y & y1 & Y & Y1 & YW) HP HA HS IH]; intros x h R Hx SB B.
  - exists [], [], [], x. rewrite app_nil_r. split; [constructor|]. split; [constructor|]. split; [constructor|]. split; [constructor|]. auto.
  - rewrite Hx in Y. injection Y as <-. assert (R1 : reach P W1) by (econstructor; eassumption).
    assert (LD : logs o \/ ~ logs o) by (destruct o; cbn; auto).
    destruct LD as [L|NL].
    + destruct o as [| | | |id cx v lvl fmt args now ustk| | | | | | | | | ]; try contradiction.
      assert (HN : exists n, has_name W n id).
      { cbn [exec] in X. unfold Printf in X. destruct (nth_error (w_loggers W) id) as [l|] eqn:E; [|discriminate].
        exists (l_name l), l. auto. }
      destruct HN as [n HN].
      destruct (log_keeps _ _ _ _ _ _ _ _ _ _ _ _ _ _ _ _ R HN F X Hx SB B) as (outs & evs & ws' & x1 & A1 & A2 & A3 & A4 & A5 & A6 & A7 & A8).
      rewrite Y1 in A5. injection A5 as <-. rewrite YW in A6. apply app_inv_head in A6. subst ws'.
      assert (SB1 : sync_base y1) by (unfold sync_base; rewrite A7; exact SB).
      destruct (IH y1 h R1 Y1 SB1) as (evs2 & ws2 & hs2 & x2 & B1 & B2 & B3 & B4 & B5 & B6 & B7 & B8 & B9); [now rewrite A8|].
      exists (evs ++ evs2), (ws ++ ws2), (hs ++ hs2), x2. split; [econstructor; eassumption|].
      split; [rewrite A7 in B2; now apply written_app|]. split; [now apply Forall2_app|].
      split; [eapply happens_join; eassumption|]. split; [exact B5|]. split; [exact B6|].
      split; [rewrite B7, YW; now rewrite app_assoc|]. split; congruence.
    + destruct (exec_keeps _ _ _ _ _ _ _ X (reach_inv _ _ R) NL F Hx) as (x1 & E1 & C). rewrite Y1 in E1. injection E1 as <-.
      injection C as C1 C2 C3. rewrite YW in C3.
      assert (ws = []) as ->. { rewrite <- (app_nil_r (o_writes x)) in C3 at 2. now apply app_inv_head in C3. }
      inversion HP; subst hs. inversion HA; subst.
      assert (SB1 : sync_base y1) by (unfold sync_base; rewrite C1; exact SB).
      destruct (IH y1 h R1 Y1 SB1) as (evs2 & ws2 & hs2 & x2 & B1 & B2 & B3 & B4 & B5 & B6 & B7 & B8 & B9); [now rewrite C2|].
      exists evs2, ws2, hs2, x2. split; [econstructor; eassumption|]. split; [now rewrite <- C1|]. split; [exact B3|].
      split; [exact B4|]. split; [exact B5|]. split; [exact B6|]. split; [rewrite B7, YW; now rewrite app_nil_r|]. split; congruence.
Qed.
Lemma put_chunks ws hs : Forall2 put_of ws hs -> flat_map chunk_of hs = ws /\ length hs = length ws /\
  (forall h, In h hs -> exists b k e, h = HWrite b k e).
Proof.
  induction 1 as [|b h ws hs (k & e & ->) H (A & B & C)]; cbn; [repeat split; auto; contradiction|].
  rewrite A, B. split; [reflexivity|]. split; [reflexivity|]. intros h [<-|I]; [eauto|auto].
Qed.

(** ** Suffixes *)
Lemma numbered_snd files : map snd (numbered files) = map (@concat _) files.
Proof.
  unfold numbered. generalize 1%nat. induction files as [|f fs IH]; intros n; cbn; [reflexivity|]. now rewrite IH.
Qed.
Lemma skipn_map_c {A B} (g : A -> B) n l : map g (skipn n l) = skipn n (map g l).
Proof. revert l. induction n; intros [|x l]; cbn; auto. Qed.
Lemma concat_concat {A} (l : list (list (list A))) : concat (map (@concat _) l) = concat (concat l).
Proof. induction l as [|x l IH]; cbn; [reflexivity|]. now rewrite concat_app, IH. Qed.
Lemma skipn_files (fs : list (list str)) : forall n cur, exists k, concat (skipn n fs) ++ cur = skipn k (concat fs ++ cur) /\ (n = 0%nat -> k = 0%nat).
Proof.
  intros n. revert fs. induction n as [|n IH]; intros fs cur.
  - exists 0%nat. cbn. auto.
  - destruct fs as [|f fs]; cbn [skipn].
    + exists 0%nat. split; [reflexivity|discriminate].
    + destruct (IH fs cur) as (k & E & _). exists (length f + k)%nat. split; [|lia]. rewrite E. cbn [concat]. rewrite <- app_assoc.
      rewrite (skipn_app (length f + k) f), (skipn_all2 f) by lia. cbn [app]. f_equal. lia.
Qed.
Lemma skipn_files_le (fs : list (list str)) n cur : exists k, concat (skipn n fs) ++ cur = skipn k (concat fs ++ cur) /\
  (k <= length (concat fs ++ cur))%nat /\ (n = 0%nat -> k = 0%nat).
Proof.
  destruct (skipn_files fs n cur) as (k & E & Z). destruct (Nat.le_gt_cases k (length (concat fs ++ cur))) as [L|G].
  - exists k. auto.
  - exists (length (concat fs ++ cur)). split; [rewrite E; now rewrite !skipn_all2 by lia|]. split; [lia|]. intros ->. specialize (Z eq_refl). lia.
Qed.
Lemma newest_cut {A B} (g : A -> B) mr l : map g (newest mr l) = skipn (cut mr l) (map g l).
Proof. apply skipn_map_c. Qed.
Lemma cut_0 {A} mr (l : list A) : mr <= 0 -> cut mr l = 0%nat.
Proof. intros H. unfold cut. now apply Z.leb_le in H as ->. Qed.
Lemma skipn_add {A} a : forall b (l : list A), skipn a (skipn b l) = skipn (a + b) l.
Proof.
  intros b. revert a. induction b as [|b IH]; intros a l; [cbn; now rewrite Nat.add_0_r|].
  destruct l as [|x l]; [now rewrite !skipn_nil|]. rewrite Nat.add_succ_r. cbn. apply IH.
Qed.
(** What is left after smooth steps is cut at the boundaries of what was there and of the writes. *)
Definition pieces (l : log) : list str := map snd (l_backups l) ++ [bytes (l_current l)].
Lemma steps_pieces limit mr s hs s' : steps (log_step limit mr) s hs s' -> (forall h, In h hs -> h <> HRestart) ->
  forall all gs cur k, map snd (l_backups (fst s)) = map (@concat _) gs -> bytes (l_current (fst s)) = concat cur ->
  concat gs ++ cur = skipn k all -> (k <= length all)%nat ->
  exists k', (k <= k')%nat /\ on_disk (fst s') = concat (skipn k' (all ++ flat_map chunk_of hs)) /\ (mr <= 0 -> k' = k).
Proof.
  induction 1 as [s|s h s1 hs s2 ST HS IH]; intros NR all gs cur k BK CU AL LE.
  - exists k. split; [lia|]. split; [|auto]. unfold on_disk. cbn [flat_map]. rewrite app_nil_r, BK, CU, concat_concat, <- concat_app, AL. reflexivity.
  - assert (NR' : forall h', In h' hs -> h' <> HRestart) by (intros h' I; apply NR; now right). cbn [flat_map].
    inversion ST as [bs cu o b LT|bs cu b n GE NX|l o]; subst; cbn [fst snd l_backups l_current bytes chunk_of] in *.
    + destruct (IH NR' (all ++ [b]) gs (cur ++ [b]) k) as (k' & A & B & C); auto.
      * rewrite concat_app, CU. cbn. now rewrite app_nil_r.
      * rewrite app_assoc, AL, skipn_app. replace (k - length all)%nat with 0%nat by lia. reflexivity.
      * rewrite app_length. lia.
      * exists k'. rewrite <- app_assoc in B. auto.
    + destruct (skipn_files_le (gs ++ [cur]) (cut mr (bs ++ [(n, cu)])) [b]) as (j & E & JL & JZ).
      assert (AL' : concat (gs ++ [cur]) ++ [b] = skipn k (all ++ [b])).
      { rewrite skipn_app. replace (k - length all)%nat with 0%nat by lia. rewrite <- AL, concat_app. cbn. now rewrite app_nil_r. }
      destruct (IH NR' (all ++ [b]) (skipn (cut mr (bs ++ [(n, cu)])) (gs ++ [cur])) [b] (j + k)%nat) as (k' & A & B & C).
      * rewrite newest_cut, map_app, BK, skipn_map_c, map_app. cbn. now rewrite CU.
      * cbn. now rewrite app_nil_r.
      * rewrite E, AL'. apply skipn_add.
      * rewrite AL', skipn_length, app_length in JL. rewrite app_length. cbn [length] in *. lia.
      * exists k'. rewrite <- app_assoc in B. split; [lia|]. split; [exact B|]. intros Z. rewrite (C Z). rewrite JZ; [reflexivity|now apply cut_0].
    + destruct (NR HRestart); [now left|reflexivity].
Qed.
Lemma pieces_left limit mr l o hs l' o' : steps (log_step limit mr) (l, o) hs (l', o') -> (forall h, In h hs -> h <> HRestart) ->
  exists k, on_disk l' = concat (skipn k (pieces l ++ flat_map chunk_of hs)) /\ (mr <= 0 -> k = 0%nat).
Proof.
  intros H NR. destruct (steps_pieces _ _ _ _ _ H NR (pieces l) (map (fun x => [x]) (map snd (l_backups l))) [bytes (l_current l)] 0)
    as (k & _ & E & Z).
  - cbn [fst]. rewrite map_map. symmetry. erewrite map_ext; [apply map_id|]. intros a. cbn. now rewrite app_nil_r.
  - cbn. now rewrite app_nil_r.
  - cbn [skipn]. unfold pieces. f_equal. induction (map snd (l_backups l)); cbn; congruence.
  - lia.
  - exists k. auto.
Qed.

(** ** Sessions exist *)
From Verif Require Import RollArchProofs.
Definition well_put (b : str) : hop := HWrite b (length b) false.
Lemma goes_session P T c (good : fsop * fsres -> Prop) i W os W' : goes P i W os W' ->
  forall x h, reach P W -> nth_error (w_heap W) i = Some x -> sync_base x -> built h (o_fmt x) ->
  exists x' ws, nth_error (w_heap W') i = Some x' /\ o_writes x' = o_writes x ++ ws /\
    forall f w f' w', happens T c good f w (map well_put ws) f' w' -> session P T c good i W f w os W' f' w'.
Proof.
  induction 1 as [W|W o W1 r os W2 OK F X G IH]; intros x h R Hx SB B.
  - exists x, []. rewrite app_nil_r. split; [exact Hx|]. split; [reflexivity|]. intros f w f' w' H. inversion H; subst. constructor.
  - assert (R1 : reach P W1) by (econstructor; eassumption).
    assert (S : exists x1 ws, nth_error (w_heap W1) i = Some x1 /\ o_writes x1 = o_writes x ++ ws /\ o_spec x1 = o_spec x /\ o_fmt x1 = o_fmt x).
    { assert (LD : logs o \/ ~ logs o) by (destruct o; cbn; auto). destruct LD as [L|NL].
      - destruct o as [| | | |id cx v lvl fmt args now ustk| | | | | | | | | ]; try contradiction.
        assert (HN : exists n, has_name W n id).
        { cbn [exec] in X. unfold Printf in X. destruct (nth_error (w_loggers W) id) as [l|] eqn:E; [|discriminate].
          exists (l_name l), l. auto. }
        destruct HN as [n HN].
        destruct (log_keeps _ _ _ _ _ _ _ _ _ _ _ _ _ _ _ _ R HN F X Hx SB B) as (outs & evs & ws' & x1 & _ & _ & _ & _ & A5 & A6 & A7 & A8). eauto 6.
      - destruct (exec_keeps _ _ _ _ _ _ _ X (reach_inv _ _ R) NL F Hx) as (x1 & E1 & C). injection C as C1 C2 C3.
        exists x1, []. rewrite app_nil_r. auto. }
    destruct S as (x1 & ws & E1 & E2 & E3 & E4).
    assert (SB1 : sync_base x1) by (unfold sync_base; rewrite E3; exact SB).
    destruct (IH x1 h R1 E1 SB1) as (x2 & ws2 & F1 & F2 & F3); [now rewrite E4|].
    exists x2, (ws ++ ws2). split; [exact F1|]. split; [rewrite F2, E2; now rewrite app_assoc|].
    intros f w f' w' H. rewrite map_app in H. apply happens_app in H as (f1 & w1 & H1 & H2).
    econstructor; [exact OK|exact F|exact X|exists x, x1; eauto| |exact H1|now apply F3].
    clear. induction ws; cbn; constructor; [unfold well_put; eauto|assumption].
Qed.

(** ** The default line depends on the call's data only *)
Definition twin (a b : stack * event) : Prop :=
  ev_name (snd b) = ev_name (snd a) /\ ev_level (snd b) = ev_level (snd a) /\ ev_format (snd b) = ev_format (snd a) /\
  ev_args (snd b) = ev_args (snd a) /\ ev_time (snd b) = ev_time (snd a).
Lemma default_twin E a b s : twin a b -> default_text E (snd a) s -> default_text E (snd b) s.
Proof.
  intros (N & L & F & A & T) H. inversion H as [lvl k m H1 H2 H3]; subst. rewrite <- N, <- T. constructor; [now rewrite L| |exact H3].
  destruct H2 as [G|G1 G2|G1 G2].
  - rewrite <- F. apply msg_noargs. congruence.
  - rewrite <- F, <- A. apply msg_format; congruence.
  - rewrite <- A. apply msg_plain; congruence.
Qed.
Lemma written_twin E t a b ws : Forall2 twin a b -> written E ByDefault t a ws -> written E ByDefault t b ws.
Proof.
  intros H. revert ws. induction H as [|p q a b T H IH]; intros ws W; inversion W as [|stk e evs ws' L R|stk e evs s ws' L X R]; subst.
  - constructor.
  - destruct q as [stk' e']. apply wr_skip; [|now apply IH]. destruct T as (_ & T & _). cbn in T. now rewrite T.
  - destruct q as [stk' e']. apply wr_send; [| |now apply IH].
    + destruct T as (_ & T & _). cbn in T. now rewrite T.
    + inversion X; subst. constructor. now apply (default_twin E (stk, e) (stk', e')).
Qed.
Lemma carried_twins n lvl fmt args now (a : list (stack * event)) : forall b, length a = length b ->
  Forall (fun p => carries n lvl fmt args now (snd p)) a -> Forall (fun p => carries n lvl fmt args now (snd p)) b -> Forall2 twin a b.
Proof.
  induction a as [|p a IH]; intros [|q b] L A B; try discriminate; constructor; inversion A; inversion B; subst; auto.
  unfold twin. match goal with X : carries _ _ _ _ _ (snd p), Y : carries _ _ _ _ _ (snd q) |- _ => destruct X as (?&?&?&?&?), Y as (?&?&?&?&?) end.
  repeat split; congruence.
Qed.
Lemma deliveries_twins P i W os W' : goes P i W os W' -> reach P W -> forall a b,
  deliveries P i W os a -> deliveries P i W os b -> Forall2 twin a b.
Proof.
  induction 1 as [W|W o W1 r os W2 OK F X G IH]; intros R a b A B.
  - inversion A; inversion B; subst. constructor.
  - assert (R1 : reach P W1) by (econstructor; eassumption).
    inversion A as [|? n id cx v lvl fmt args now ustk W1a ra ? outs evs rest HN XA RT LN CA DA|? ? W1a ra ? evs NL XA DA]; subst.
    + inversion B as [|? n' ? ? ? ? ? ? ? ? W1b rb ? outs' evs' rest' HN' XB RT' LN' CB DB|? ? W1b rb ? evs' NL XB DB]; subst; [|destruct (NL Logic.I)].
      rewrite X in XA, XB. injection XA as <- <-. injection XB as <- <-.
      assert (n' = n). { destruct HN as (l & E & <-), HN' as (l' & E' & <-). congruence. } subst n'.
      assert (outs' = outs) by (eapply route_fun; [apply (reach_inv _ _ R)|eassumption|eassumption]). subst outs'.
      apply Forall2_app; [|now apply IH]. eapply carried_twins; [|eassumption|eassumption]. congruence.
    + inversion B as [|? n' ? ? ? ? ? ? ? ? W1b rb ? outs' evs' rest' HN' XB RT' LN' CB DB|? ? W1b rb ? evs' NL' XB DB]; subst; [destruct (NL Logic.I)|].
      rewrite X in XA, XB. injection XA as <- <-. injection XB as <- <-. now apply IH.
Qed.
Lemma session_goes P T c (good : fsop * fsres -> Prop) i W f w os W' f' w' : session P T c good i W f w os W' f' w' -> goes P i W os W'.
Proof. induction 1; econstructor; eassumption. Qed.

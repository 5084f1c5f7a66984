(** Proofs about panicking creators. *)
From Verif Require Import GoStr Utf8 LevelModel EventModel LayoutModel ConfModel OutputModel WorldModel PanicModel WorldSpec PanicSpec
  ManagerSpec WorldBase PanicBase WorldInv WorldProofs ManagerProofs.
Local Open Scope nat_scope.

(** ** New outputs are unused *)
Definition adds (W W' : world) : Prop := exists ext, w_heap W' = w_heap W ++ ext /\ Forall unused ext.
Lemma adds_refl W : adds W W.
Proof. exists []. split; [now rewrite app_nil_r|constructor]. Qed.
Lemma adds_same W W' : w_heap W' = w_heap W -> adds W W'.
Proof. intros E. exists []. rewrite E. split; [now rewrite app_nil_r|constructor]. Qed.
Lemma adds_trans W W1 W2 : adds W W1 -> adds W1 W2 -> adds W W2.
Proof.
  intros (a & A & UA) (b & B & UB). exists (a ++ b). rewrite B, A, app_assoc. split; [reflexivity|]. now apply Forall_app.
Qed.
Lemma glo_loop_adds names : forall W lvl acc W' g, glo_loop W names lvl acc = Ok (W', g) -> adds W W'.
Proof.
  induction names as [|n names IH]; intros W lvl acc W' g H; cbn [glo_loop] in H; [injection H as <- <-; apply adds_refl|].
  destruct (GetCfgOutput (w_config W) n) as [m|]; [|injection H as <- <-; apply adds_refl].
  destruct (GetCfgFormat (w_config W) (cfg_FormatName (Some m))) as [fm|]; [|injection H as <- <-; apply adds_refl].
  destruct (mlookup (cfg_Type (Some fm)) (w_fcreators W)) as [fc|]; [|injection H as <- <-; apply adds_refl].
  match type of H with bind ?s _ = _ => destruct s as [[W1 of]|] eqn:Es; [|discriminate] end. cbn [bind] in H.
  assert (A1 : adds W W1).
  { destruct (mlookup (cfg_Name (Some fm)) (w_formats W)); [injection Es as <- <-; apply adds_refl|].
    destruct (fc (w_ticks W) (Some fm)) as [[f|]|]; cbn [bind] in Es; [| |discriminate]; injection Es as <- <-; now apply adds_same. }
  destruct of as [f|]; [|injection H as <- <-; assumption].
  destruct (mlookup (cfg_Type (Some m)) (w_ocreators W1)) as [oc|]; [|injection H as <- <-; assumption].
  destruct (mlookup (cfg_Name (Some m)) (w_outputs W1)) as [o|]; [eapply adds_trans; [exact A1|eapply IH; exact H]|].
  destruct (oc (w_ticks W1) (Some m)) as [sp| |]; [| |discriminate].
  - eapply adds_trans; [exact A1|]. eapply adds_trans; [|eapply IH; exact H].
    exists [mkOut sp (Some f) [] [] 0]. split; [reflexivity|]. constructor; [|constructor]. repeat split.
  - injection H as <- <-. eapply adds_trans; [exact A1|]. now apply adds_same.
Qed.
Lemma GLO_adds P W n W' g : GetLoggerOutputs P W n = Ok (W', g) -> adds W W'.
Proof.
  unfold GetLoggerOutputs. destruct (GetCfgLogger _ _); [apply glo_loop_adds|]. intros [= <- <-]. apply adds_refl.
Qed.
Lemma halt_adds P W W' : halt P W W' -> adds W W'.
Proof.
  intros [->|[(names & lvl & acc & W1 & g & E & C)|(n & g & E)]]; [apply adds_refl| |eapply GLO_adds; exact E].
  eapply adds_trans; [eapply glo_loop_adds; exact E|]. destruct C; now apply adds_same.
Qed.
Lemma apply_glo_heap W id g W' : apply_glo W id g = Ok W' -> w_heap W' = w_heap W.
Proof.
  unfold apply_glo, SetOutputs. destruct (g_err g); [now intros [= <-]|]. destruct (flags_of _ _); [|discriminate]. now intros [= <-].
Qed.
Lemma notify_adds P ord : forall W W', notify P W ord = Ok W' -> adds W W'.
Proof.
  induction ord as [|id ord IH]; intros W W' H; cbn [notify] in H; [injection H as <-; apply adds_refl|].
  destruct (nth_error (w_loggers W) id) as [l|]; [|discriminate].
  destruct (GetLoggerOutputs P W (l_name l)) as [[W1 g]|] eqn:Eg; [|discriminate]. cbn [bind] in H.
  destruct (apply_glo W1 id g) as [W2|] eqn:Ea; [|discriminate]. cbn [bind] in H.
  eapply adds_trans; [eapply GLO_adds; exact Eg|]. eapply adds_trans; [|eapply IH; exact H]. now apply adds_same, (apply_glo_heap W1 id g).
Qed.
Lemma root_adds P W W' r : getRootLogger P W = Ok (W', r) -> adds W W'.
Proof.
  unfold getRootLogger. destruct (w_root W); [intros [= <- <-]; apply adds_refl|]. cbv zeta.
  match goal with |- bind (GetLoggerOutputs P ?X _) _ = _ -> _ => set (W0 := X) end.
  destruct (GetLoggerOutputs P W0 rootName) as [[W1 g]|] eqn:Eg; [|discriminate]. cbn [bind].
  intros H. eapply adds_trans; [apply (adds_same W W0); reflexivity|]. eapply adds_trans; [eapply GLO_adds; exact Eg|].
  unfold SetOutputs, add_output in H. destruct (g_err g); cbn [bind] in H.
  - match type of H with context[flags_of ?h ?o] => destruct (flags_of h o) end; [|discriminate]. cbn [bind] in H. injection H as <- <-.
    eexists [_]. split; [reflexivity|]. constructor; [|constructor]. repeat split.
  - match type of H with context[flags_of ?h ?o] => destruct (flags_of h o) end; [|discriminate]. cbn [bind] in H. injection H as <- <-.
    now apply adds_same.
Qed.

(** ** The root logger that was not finished *)
Record lost (r : nat) (W : world) : Prop := {
  lo_root : w_root W = Some r;
  lo_cell : exists l, nth_error (w_loggers W) r = Some l /\ l_name l = rootName /\ l_parent l = None /\ l_level l = Uninitialized /\ l_outputs l = [];
  lo_names : ~ In r (map snd (w_names W));
  lo_valid : outs_valid W
}.
Lemma lost_grow r W W' : grow W W' -> lost r W -> lost r W'.
Proof.
  intros G [A B C D]. constructor; [now rewrite (gr_root _ _ G)|now rewrite (gr_loggers _ _ G)|now rewrite (gr_names _ _ G)|eapply grow_valid; eassumption].
Qed.
Lemma lost_upd r W id f : id <> r -> lost r W -> lost r (set_loggers W (upd id f (w_loggers W))).
Proof.
  intros N [A B C D]. constructor; auto. cbn. rewrite nth_upd_ne by congruence. exact B.
Qed.
Lemma lost_apply r W id g W' : apply_glo W id g = Ok W' -> id <> r -> lost r W -> lost r W'.
Proof.
  unfold apply_glo, SetOutputs. destruct (g_err g); [now intros [= <-]|]. destruct (flags_of _ _); [|discriminate]. intros [= <-] N L.
  now apply lost_upd, lost_upd.
Qed.
Lemma lost_notify P r ord : forall W W', notify P W ord = Ok W' -> ~ In r ord -> lost r W -> lost r W'.
Proof.
  induction ord as [|id ord IH]; intros W W' H N L; cbn [notify] in H; [now injection H as <-|].
  destruct (nth_error (w_loggers W) id) as [l|]; [|discriminate].
  destruct (GetLoggerOutputs P W (l_name l)) as [[W1 g]|] eqn:Eg; [|discriminate]. cbn [bind] in H.
  destruct (apply_glo W1 id g) as [W2|] eqn:Ea; [|discriminate]. cbn [bind] in H.
  apply (IH W2 W' H); [intros F; apply N; now right|]. eapply lost_apply; [exact Ea|intros ->; apply N; now left|].
  eapply lost_grow; [|exact L]. eapply GLO_grow; [apply L|exact Eg].
Qed.
Lemma lost_config r W c : lost r W -> lost r (set_config W c).
Proof. intros [A B C D]. constructor; auto. Qed.
Lemma lost_order r W ord : lost r W -> Permutation ord (map snd (w_names W)) -> ~ In r ord.
Proof. intros L P F. apply (lo_names _ _ L). eapply Permutation_in; eassumption. Qed.
Lemma lost_setConfig P r W c ord W' ok : setConfig P W c ord = Ok (W', ok) -> Permutation ord (map snd (w_names W)) -> lost r W -> lost r W'.
Proof.
  unfold setConfig. destruct (validateConfig c); [|now intros [= <- <-]].
  destruct (notify P (set_config W c) ord) as [W1|] eqn:E; [|discriminate]. cbn. intros [= <- <-] Hp L.
  eapply lost_notify; [exact E|now apply (lost_order r W)|now apply lost_config].
Qed.
Lemma minsert_snd {A} k (v : A) m x : In x (map snd (minsert k v m)) -> x = v \/ In x (map snd m).
Proof.
  induction m as [|[k' v'] m IH]; cbn; [intros [<-|[]]; now left|].
  destruct (str_eqb k k'); cbn; [intros [<-|H]; auto|]. intros [<-|H]; auto. destruct (IH H); auto.
Qed.
Lemma lost_create r W n p W' id : createLogger W n p = (W', id) -> lost r W -> lost r W' /\ id <> r.
Proof.
  unfold createLogger. intros H L. destruct (mlookup n (w_names W)) as [j|] eqn:E.
  - injection H as <- <-. split; [exact L|]. intros ->. apply (lo_names _ _ L). apply mlookup_in in E. now apply (in_map snd) in E.
  - injection H as <- <-. destruct L as [A (l & B) C D]. assert (r < length (w_loggers W)) by (apply nth_error_Some; destruct B; congruence).
    split; [|lia]. constructor; cbn; auto.
    + exists l. rewrite nth_error_app1 by assumption. exact B.
    + intros F. apply minsert_snd in F as [F|F]; [lia|auto].
Qed.
Lemma lost_parents r name rs : forall W p W' id, parent_loop W name rs p = (W', id) -> lost r W -> lost r W'.
Proof.
  induction rs as [|[i c] rs IH]; intros W p W' id H L; cbn [parent_loop] in H; [now injection H as <- <-|].
  destruct (_ || _); [|eapply IH; eassumption]. destruct (firstn i name) as [|a b]; [eapply IH; eassumption|].
  destruct (createLogger W (a :: b) p) as [W1 p1] eqn:E. apply (lost_create r) in E as [L1 _]; [|exact L]. eapply IH; eassumption.
Qed.
Lemma lost_getRoot P r W : lost r W -> getRootLogger P W = Ok (W, r).
Proof. intros L. unfold getRootLogger. now rewrite (lo_root _ _ L). Qed.
Lemma lost_GetLogger P r W n W' id : GetLogger P W n = Ok (W', id) -> lost r W -> lost r W'.
Proof.
  unfold GetLogger, getParent. intros H L. rewrite (lost_getRoot P r W L) in H. destruct (_ || _); [now injection H as <- <-|].
  destruct (mlookup n (w_names W)); [now injection H as <- <-|]. cbn [bind] in H.
  destruct (parent_loop W n (range_str n) r) as [W1 p] eqn:E1. apply lost_parents with (r := r) in E1; [|exact L].
  destruct (createLogger W1 n p) as [W2 id2] eqn:E2. apply (lost_create r) in E2 as [L2 N]; [|exact E1].
  destruct (GetLoggerOutputs P W2 n) as [[W3 g]|] eqn:E3; [|discriminate]. cbn [bind] in H.
  destruct (apply_glo W3 id2 g) as [W4|] eqn:E4; [|discriminate]. cbn [bind] in H. injection H as <- <-.
  eapply lost_apply; [exact E4|exact N|]. eapply lost_grow; [|exact L2]. eapply GLO_grow; [apply L2|exact E3].
Qed.
Lemma lost_heap r W h : length (w_heap W) <= length h -> lost r W -> lost r (set_heap W h).
Proof. intros H [A B C D]. constructor; auto. intros n o Hn. apply D in Hn. cbn. lia. Qed.
Lemma lost_sends r W W' : sends W W' -> lost r W -> lost r W'.
Proof.
  intros S [A B C D]. constructor.
  - now rewrite (sd_root _ _ S).
  - now rewrite (sd_loggers _ _ S).
  - now rewrite (sd_names _ _ S).
  - intros n o. rewrite (sd_outputs _ _ S). intros Hn. apply D in Hn.
    assert (E : length (w_heap W') = length (w_heap W)) by (erewrite <- (map_length _ (w_heap W)), <- (sd_heap _ _ S), map_length; reflexivity). lia.
Qed.
Lemma lost_exec P r W o W' x : exec P W o = Ok (W', x) -> op_ok W o -> hands_off r o -> lost r W -> lost r W'.
Proof.
  intros H Ho Hh L. destruct o; cbn [exec op_ok hands_off] in *.
  - destruct (GetLogger P W name) as [[W1 id]|] eqn:E; [|discriminate]. injection H as <- <-. eapply lost_GetLogger; eassumption.
  - destruct (nth_error _ _); [|discriminate]. injection H as <- <-. now apply lost_upd.
  - destruct (nth_error _ _); [|discriminate]. unfold SetOutputs in H. destruct (flags_of _ _); [|discriminate].
    injection H as <- <-. now apply lost_upd.
  - destruct (nth_error _ _); [|discriminate]. injection H as <- <-. destruct L as [A (l' & B1 & B2) C D]. constructor; auto. cbn.
    rewrite nth_upd. destruct (Nat.eqb r id); [|eauto]. rewrite B1. eexists. split; [reflexivity|]. exact B2.
  - destruct (Printf _ _ _ _ _ _ _ _ _ _) as [W1|] eqn:E; [|discriminate]. injection H as <- <-.
    apply Printf_sends in E. eapply lost_sends; eassumption.
  - injection H as <- <-. destruct L; constructor; auto.
  - injection H as <- <-. destruct L; constructor; auto.
  - destruct (GetLoggerOutputs P W name) as [[W1 g]|] eqn:E; [|discriminate]. injection H as <- <-.
    eapply lost_grow; [eapply GLO_grow; [apply L|exact E]|exact L].
  - destruct (setConfig P W c ord) as [[W1 ok]|] eqn:E; [|discriminate]. injection H as <- <-. eapply lost_setConfig; eassumption.
  - unfold LoadConfig in H. destruct (setConfig P W _ ord) as [[W1 ok]|] eqn:E; [|discriminate]. injection H as <- <-.
    eapply lost_setConfig; eassumption.
  - unfold LoadConfigFile, LoadConfig in H. destruct (p_read P file); [|now injection H as <- <-].
    destruct (path_Ext file); [discriminate|].
    destruct (setConfig P W _ ord) as [[W1 ok]|] eqn:E; [|discriminate]. injection H as <- <-. eapply lost_setConfig; eassumption.
  - injection H as <- <-. apply lost_heap; [|exact L].
    assert (E : map o_spec (fold_left (fun h p => upd (snd p) close_out h) (w_outputs W) (w_heap W)) = map o_spec (w_heap W)) by now apply close_fold_map.
    apply (f_equal (@length _)) in E. rewrite !map_length in E. lia.
  - injection H as <- <-. apply lost_heap; [rewrite app_length; lia|exact L].
  - destruct (nth_error _ _); [|discriminate]. injection H as <- <-. apply lost_heap; [|exact L]. now rewrite upd_length.
Qed.
Lemma lost_halt P r W W' : halt P W W' -> lost r W -> lost r W'.
Proof. intros H L. eapply lost_grow; [eapply halt_grow; [apply L|exact H]|exact L]. Qed.
Lemma lost_raised_config P r W c ord W' : try_setConfig P W c ord = Raised W' -> Permutation ord (map snd (w_names W)) -> lost r W -> lost r W'.
Proof.
  unfold try_setConfig. destruct (validateConfig c); [|discriminate].
  destruct (try_notify P (set_config W c) ord) as [W1 u|W1] eqn:E; cbn; [discriminate|]. intros [= <-] Hp L.
  apply notify_stopped in E as (ord1 & ord2 & W2 & -> & E & H). eapply (lost_halt P); [exact H|].
  eapply lost_notify; [exact E| |now apply lost_config]. intros F. apply (lost_order r W _ L Hp). apply in_or_app. now left.
Qed.
Lemma lost_raised P r W o W' : raised P W o W' -> op_ok W o -> lost r W -> lost r W'.
Proof.
  unfold raised. intros H Ho L. destruct o; cbn [try_exec op_ok] in *; try discriminate; injection H as H.
  - destruct (try_GetLogger P W name) as [W1 id|W1] eqn:E; cbn [pbind] in H; [discriminate|]. injection H as ->.
    unfold try_GetLogger, try_getRootLogger in E. rewrite (lo_root _ _ L) in E. destruct (_ || _); [discriminate|].
    destruct (mlookup name (w_names W)); [discriminate|]. cbn [pbind] in E.
    destruct (parent_loop W name (range_str name) r) as [W1 p] eqn:E1. apply lost_parents with (r := r) in E1; [|exact L].
    destruct (createLogger W1 name p) as [W2 id] eqn:E2. apply (lost_create r) in E2 as [L2 N]; [|exact E1].
    pose proof (GLO_same P W2 name) as Sg. destruct (try_GetLoggerOutputs P W2 name) as [W3 g|W3] eqn:Eg; cbn [pbind] in E; cbn [same_as] in Sg.
    + unfold try_apply_glo in E. destruct (apply_glo W3 id g); cbn [pbind] in E; [discriminate|]. injection E as <-.
      eapply (lost_halt P); [|exact L2]. right; right. eauto.
    + injection E as <-. eapply (lost_halt P); [|exact L2]. right; left. eapply GLO_cut; eassumption.
  - destruct (try_Printf _ _ _ _ _ _ _ _ _ _) as [W1 u|W1] eqn:E; cbn [pbind] in H; [discriminate|]. injection H as ->.
    eapply lost_sends; [eapply try_Printf_sends; exact E|exact L].
  - destruct (try_GetLoggerOutputs P W name) as [W1 g|W1] eqn:E; cbn [pbind] in H; [discriminate|]. injection H as ->.
    eapply (lost_halt P); [|exact L]. right; left. eapply GLO_cut; eassumption.
  - destruct (try_setConfig P W c ord) as [W1 ok|W1] eqn:E; cbn [pbind] in H; [discriminate|]. injection H as ->.
    eapply lost_raised_config; eassumption.
  - destruct (try_setConfig P W _ ord) as [W1 ok|W1] eqn:E; cbn [pbind] in H; [discriminate|]. injection H as ->.
    eapply lost_raised_config; eassumption.
  - destruct (p_read P file); [|discriminate]. destruct (path_Ext file); [now injection H as ->|].
    destruct (try_setConfig P W _ ord) as [W1 ok|W1] eqn:E; cbn [pbind] in H; [discriminate|]. injection H as ->.
    eapply lost_raised_config; eassumption.
Qed.
Lemma lost_goes_on P r W W' : goes_on P r W W' -> lost r W -> lost r W'.
Proof.
  induction 1 as [W|W o W1 x W' Ho Hh E _ IH|W o W1 W' Ho E _ IH]; intros L; [exact L| |]; apply IH.
  - eapply lost_exec; eassumption.
  - eapply lost_raised; eassumption.
Qed.
Lemma inv_root_made W : inv W -> root_made W.
Proof. intros I r Hr. pose proof (si_rootptr _ _ _ (iv_sk _ I)) as H. rewrite Hr in H. exact H. Qed.
(** It comes about when the panic stops getRootLogger. *)
Lemma root_lost P W n W1 : inv W -> raised P W (OGetLogger n) W1 -> ~ root_made W1 ->
  lost 0 W1 /\ w_root W = None.
Proof.
  unfold raised. intros I H Hn. cbn [try_exec] in H. injection H as H.
  assert (A : forall X, try_getRootLogger P W = Raised X -> lost 0 X /\ w_root W = None).
  { intros X. unfold try_getRootLogger. destruct (w_root W) eqn:Er; [discriminate|]. cbv zeta.
    pose proof (iv_sk _ I) as Sk. pose proof (si_rootptr _ _ _ Sk) as Hr. rewrite Er in Hr.
    assert (Hl : w_loggers W = []) by (unfold skels in Hr; destruct (w_loggers W); [reflexivity|discriminate]).
    match goal with |- pbind (try_GetLoggerOutputs P ?X _) _ = _ -> _ => set (W0 := X) end.
    assert (L0 : lost 0 W0).
    { constructor; cbn; rewrite ?Hl; cbn; auto.
      - eexists. split; [reflexivity|]. repeat split.
      - intros F. apply in_map_iff in F as ([k j] & _ & F). rewrite Hr in Sk.
        pose proof (sk_names_empty _ _ Sk) as Em. specialize (Em k). clear -F Em.
        induction (w_names W) as [|[k' v'] m IH]; [contradiction|]. cbn in Em. destruct (str_eqb_spec k k') as [->|N]; [discriminate|].
        destruct F as [F|F]; [congruence|]. auto.
      - exact (iv_valid _ I). }
    pose proof (GLO_same P W0 rootName) as Sm.
    destruct (try_GetLoggerOutputs P W0 rootName) as [W2 g|W2] eqn:Eg; cbn [pbind]; cbn [same_as] in Sm.
    - match goal with |- match ?X with _ => _ end = _ -> _ => destruct X end; [discriminate|]. intros [= <-].
      split; [|reflexivity]. eapply (lost_halt P); [|exact L0]. right; right. eauto.
    - intros [= <-]. split; [|reflexivity]. eapply (lost_halt P); [|exact L0]. right; left. eapply GLO_cut; eassumption. }
  destruct (try_GetLogger P W n) as [W2 id|W2] eqn:E; cbn [pbind] in H; [discriminate|]. injection H as ->.
  unfold try_GetLogger in E. destruct (str_eqb_spec n []) as [_|Hne]; [now apply A|].
  destruct (str_eqb_spec n rootName) as [_|Hnr]; [now apply A|]. cbn [orb] in E.
  destruct (mlookup n (w_names W)) eqn:En; [discriminate|].
  destruct (try_getRootLogger P W) as [W0 r|W0] eqn:E0; cbn [pbind] in E; [|injection E as ->; now apply A].
  exfalso. apply Hn. clear Hn A. pose proof (root_same P W) as Sm. rewrite E0 in Sm. cbn [same_as] in Sm.
  destruct (parent_loop W0 n (range_str n) r) as [W2 p] eqn:EL. destruct (createLogger W2 n p) as [W3 id] eqn:EC.
  destruct (stopped_made _ _ _ _ _ _ _ _ _ I Hne Hnr En Sm EL EC) as (_ & _ & M & _). pose proof (md_inv _ _ _ _ M) as I3.
  apply inv_root_made. assert (Hh : halt P W3 W1).
  { pose proof (GLO_same P W3 n) as Sg. destruct (try_GetLoggerOutputs P W3 n) as [W4 g|W4] eqn:Eg; cbn [pbind] in E; cbn [same_as] in Sg.
    - unfold try_apply_glo in E. destruct (apply_glo W4 id g); cbn [pbind] in E; [discriminate|]. injection E as <-. right; right. eauto.
    - injection E as <-. right; left. eapply GLO_cut; eassumption. }
  eapply grow_inv; [eapply halt_grow; [apply I3|exact Hh]|exact I3].
Qed.

(** Once the root logger is there, it stays in the table. *)
Lemma root_made_dec W : root_made W \/ ~ root_made W.
Proof.
  unfold root_made. destruct (w_root W) as [r|]; [|left; discriminate]. destruct (mlookup ($"root") (w_names W)) as [j|] eqn:E.
  - destruct (Nat.eq_dec j r) as [->|N]; [left; now intros r' [= ->]|]. right. intros H. specialize (H r eq_refl). congruence.
  - right. intros H. specialize (H r eq_refl). congruence.
Qed.
Lemma raised_root_made P W o W' : inv W -> w_root W <> None -> raised P W o W' -> root_made W'.
Proof.
  intros I Hr H. destruct (root_made_dec W') as [M|N]; [exact M|exfalso].
  assert (A : inv W' -> False) by (intros I'; apply N; now apply inv_root_made).
  assert (G : forall X, inv X -> halt P X W' -> False).
  { intros X IX Hh. apply A. eapply grow_inv; [eapply halt_grow; [apply IX|exact Hh]|exact IX]. }
  assert (C : forall c ord, try_setConfig P W c ord = Raised W' -> False).
  { intros c ord E. unfold try_setConfig in E. destruct (validateConfig c); [|discriminate].
    destruct (try_notify P (set_config W c) ord) as [W1 u|W1] eqn:En; cbn [pbind] in E; [discriminate|]. injection E as ->.
    apply notify_stopped in En as (ord1 & ord2 & W2 & _ & En & Hh). apply (G W2); [|exact Hh].
    eapply notify_inv; [exact En|now apply set_config_inv]. }
  pose proof H as H0. unfold raised in H. destruct o; cbn [try_exec] in H; try discriminate; injection H as H.
  - destruct (root_lost P W name W' I H0 N) as [_ E]. congruence.
  - destruct (try_Printf _ _ _ _ _ _ _ _ _ _) as [W1 u|W1] eqn:E; cbn [pbind] in H; [discriminate|]. injection H as ->.
    apply A. eapply sends_inv; [eapply try_Printf_sends; exact E|exact I].
  - destruct (try_GetLoggerOutputs P W name) as [W1 g|W1] eqn:E; cbn [pbind] in H; [discriminate|]. injection H as ->.
    apply (G W I). right; left. eapply GLO_cut; eassumption.
  - destruct (try_setConfig P W c ord) as [W1 ok|W1] eqn:E; cbn [pbind] in H; [discriminate|]. injection H as ->. eapply C, E.
  - destruct (try_setConfig P W _ ord) as [W1 ok|W1] eqn:E; cbn [pbind] in H; [discriminate|]. injection H as ->. eapply C, E.
  - destruct (p_read P file); [|discriminate]. destruct (path_Ext file); [injection H as ->; exact (A I)|].
    destruct (try_setConfig P W _ ord) as [W1 ok|W1] eqn:E; cbn [pbind] in H; [discriminate|]. injection H as ->. eapply C, E.
Qed.

(** ** What a stopped call leaves alone *)
Lemma root_quiet P W W' r : getRootLogger P W = Ok (W', r) -> inv W -> kin W W' /\ w_sent W' = w_sent W /\ w_warn W' = w_warn W.
Proof.
  intros H I. split.
  { destruct (w_root W) eqn:Er; [|now apply (getRoot_new _ _ _ _ H)]. unfold getRootLogger in H. rewrite Er in H. injection H as <- <-. apply kin_refl. }
  revert H. unfold getRootLogger. destruct (w_root W); [now intros [= <- <-]|]. cbv zeta.
  match goal with |- bind (GetLoggerOutputs P ?X _) _ = _ -> _ => set (W0 := X) end.
  assert (V0 : outs_valid W0) by exact (iv_valid _ I).
  destruct (GetLoggerOutputs P W0 rootName) as [[W1 g]|] eqn:Eg; [|discriminate]. cbn [bind]. intros H.
  pose proof (GLO_grow _ _ _ _ _ V0 Eg) as G. unfold SetOutputs, add_output in H. destruct (g_err g); cbn [bind] in H;
    (match type of H with context[flags_of ?h ?o] => destruct (flags_of h o) end; [|discriminate]); cbn [bind] in H; injection H as <- <-;
    (split; [exact (gr_sent _ _ G)|exact (gr_warn _ _ G)]).
Qed.
Record left_alone (W W' : world) : Prop := {
  la_loggers : forall id l, nth_error (w_loggers W) id = Some l -> exists l', nth_error (w_loggers W') id = Some l' /\
     l_name l' = l_name l /\ l_parent l' = l_parent l /\ l_skip l' = l_skip l;
  la_outputs : forall n o, mlookup n (w_outputs W) = Some o -> mlookup n (w_outputs W') = Some o;
  la_heap : adds W W';
  la_sent : w_sent W' = w_sent W;
  la_warn : w_warn W' = w_warn W;
  la_fc : w_fcreators W' = w_fcreators W;
  la_oc : w_ocreators W' = w_ocreators W
}.
Lemma left_grow W W' : grow W W' -> adds W W' -> left_alone W W'.
Proof.
  intros G A. constructor; try apply G; [|exact A]. intros id l Hl. exists l. rewrite (gr_loggers _ _ G). auto.
Qed.
Lemma left_trans W W1 W2 : left_alone W W1 -> left_alone W1 W2 -> left_alone W W2.
Proof.
  intros A B. constructor.
  - intros id l Hl. destruct (la_loggers _ _ A _ _ Hl) as (l1 & K1 & a1 & a2 & a3). destruct (la_loggers _ _ B _ _ K1) as (l2 & K2 & b1 & b2 & b3).
    exists l2. split; [exact K2|]. repeat split; congruence.
  - intros n o Hn. now apply B, A.
  - eapply adds_trans; [apply A|apply B].
  - rewrite (la_sent _ _ B). apply A.
  - rewrite (la_warn _ _ B). apply A.
  - rewrite (la_fc _ _ B). apply A.
  - rewrite (la_oc _ _ B). apply A.
Qed.
(** The part of the order that was visited. *)
Lemma NoDup_front {A} (a b : list A) : NoDup (a ++ b) -> NoDup a.
Proof.
  induction a as [|x a IH]; cbn; intros H; [constructor|]. inversion H as [|? ? Hx H']; subst. constructor; [|auto].
  intros F. apply Hx, in_or_app. now left.
Qed.
Lemma gives_order P W o c ord : reach P W -> op_ok W o -> gives P o c ord -> NoDup ord.
Proof. intros R Ho G. apply (order_facts P W); [exact R|]. destruct G; exact Ho. Qed.
Lemma part_notified P W o c ord1 ord2 W1 : reach P W -> op_ok W o -> gives P o c (ord1 ++ ord2) ->
  notify P (set_config W c) ord1 = Ok W1 -> notified P (set_config W c) (set_config W c) ord1 W1.
Proof.
  intros R Ho G E. apply notify_spec; auto; [apply kin_refl|apply set_config_inv, (reach_inv P), R|].
  eapply NoDup_front, gives_order; eassumption.
Qed.
Lemma notified_left P W c ord W1 : notify P (set_config W c) ord = Ok W1 -> notified P (set_config W c) (set_config W c) ord W1 -> left_alone W W1.
Proof.
  intros E N. pose proof (nf_kin _ _ _ _ _ N) as K. constructor.
  - intros id l Hl. destruct (nf_loggers _ _ _ _ _ N id l Hl) as (l' & H1 & H2 & H3). exists l'. split; [exact H1|].
    destruct (in_dec Nat.eq_dec id ord) as [Hi|Hi]; [|rewrite (H2 Hi); auto].
    destruct (H3 Hi) as [[-> _]|(lc & ops & fs & _ & _ & _ & _ & ->)]; cbn; auto.
  - exact (nf_old _ _ _ _ _ N).
  - exact (notify_adds _ _ _ _ E).
  - exact (nf_sent _ _ _ _ _ N).
  - exact (nf_warn _ _ _ _ _ N).
  - exact (kn_fc _ _ K).
  - exact (kn_oc _ _ K).
Qed.
Lemma root_left P W W' r : getRootLogger P W = Ok (W', r) -> inv W -> left_alone W W'.
Proof.
  intros H I. destruct (root_quiet _ _ _ _ H I) as (K & Hs & Hw). pose proof (root_adds _ _ _ _ H) as A.
  destruct (getRootLogger_spec _ _ _ _ H I) as (_ & _ & _ & _ & _ & _ & _ & Hc). constructor; auto; try apply K.
  destruct Hc as [->|(Hl & _)]; [eauto|]. rewrite Hl. intros [|id] l; discriminate.
Qed.
Lemma made_left W name W2 id : made W name W2 id -> left_alone W W2.
Proof.
  intros M. pose proof (md_rest _ _ _ _ M) as E. constructor; try (rewrite E; reflexivity).
  - intros j l Hl. exists l. split; [now apply M|auto].
  - intros n o. rewrite E. auto.
  - apply adds_same. rewrite E. reflexivity.
Qed.
Lemma raised_left P W o W' : reach P W -> op_ok W o -> raised P W o W' -> asks o -> root_made W' -> left_alone W W'.
Proof.
  intros R Ho H Ha Hr. pose proof (reach_inv _ _ R) as I.
  destruct (raised_stopped _ _ _ _ I H Hr) as [o W' Hh|o c ord1 ord2 W1 W' Hg V E Hh|name W0 r W1 p W2 id W' Hne Hnr Hn E0 EL EC Hh|? ? ? ? ? ? ? ? W' Sd].
  - apply left_grow; [eapply halt_grow; [apply I|exact Hh]|eapply halt_adds; exact Hh].
  - pose proof (notify_inv _ _ _ _ E (set_config_inv W c I)) as I1.
    eapply left_trans; [eapply notified_left; [exact E|eapply part_notified; eassumption]|].
    apply left_grow; [eapply halt_grow; [apply I1|exact Hh]|eapply halt_adds; exact Hh].
  - destruct (stopped_made _ _ _ _ _ _ _ _ _ I Hne Hnr Hn E0 EL EC) as (I0 & _ & M & _). pose proof (md_inv _ _ _ _ M) as I2.
    eapply left_trans; [eapply root_left; eassumption|]. eapply left_trans; [eapply made_left; exact M|].
    apply left_grow; [eapply halt_grow; [apply I2|exact Hh]|eapply halt_adds; exact Hh].
  - inversion Ha.
Qed.

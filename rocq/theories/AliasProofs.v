(** Facts about memory shared with the caller. *)
From Verif Require AsyncEndProofs.
From Verif Require Import GoStr Utf8 LevelModel EventModel LayoutModel ConfModel OutputModel WorldModel WorldSpec WorldBase WorldInv WorldProofs LogProofs
  P_Hier P_Log AliasModel AliasSpec.
Local Open Scope nat_scope.

(** ** Calls replace the outputs of no logger but those of [told] *)
Definition keeps_outs (W W' : world) (id : nat) : Prop :=
  forall l, nth_error (w_loggers W) id = Some l -> exists l', nth_error (w_loggers W') id = Some l' /\ l_outputs l' = l_outputs l.
Lemma keeps_refl W id : keeps_outs W W id.
Proof. intros l H. eauto. Qed.
Lemma keeps_same W W' id : w_loggers W' = w_loggers W -> keeps_outs W W' id.
Proof. intros E l H. exists l. rewrite E. auto. Qed.
Lemma keeps_trans W W1 W2 id : keeps_outs W W1 id -> keeps_outs W1 W2 id -> keeps_outs W W2 id.
Proof. intros A B l H. apply A in H as (l1 & H & E). apply B in H as (l2 & H & E2). exists l2. split; [assumption|congruence]. Qed.
Lemma keeps_upd W j f id : (forall l, l_outputs (f l) = l_outputs l) \/ id <> j -> keeps_outs W (set_loggers W (upd j f (w_loggers W))) id.
Proof.
  intros H l Hl. cbn. rewrite nth_upd, Hl. destruct (Nat.eqb_spec id j) as [->|N]; [|eauto]. destruct H as [H|H]; [|congruence].
  exists (f l). auto.
Qed.
Lemma apply_keeps W j g W' id : apply_glo W j g = Ok W' -> g_err g = true \/ id <> j -> keeps_outs W W' id.
Proof.
  unfold apply_glo. intros H [E|N]; [rewrite E in H; injection H as <-; apply keeps_refl|].
  destruct (g_err g); [injection H as <-; apply keeps_refl|]. unfold SetOutputs in H. destruct (flags_of _ _); [|discriminate].
  injection H as <-. eapply (keeps_trans _ (SetLevel W j (g_lvl g))).
  - apply keeps_upd. now left.
  - exact (keeps_upd (SetLevel W j (g_lvl g)) j _ id (or_intror N)).
Qed.
Lemma notify_keeps P id ord : forall W W', notify P W ord = Ok W' -> inv W -> ~ In id (notify_told P W ord) -> keeps_outs W W' id.
Proof.
  induction ord as [|j ord IH]; intros W W' H I N; cbn [notify notify_told] in *; [injection H as <-; apply keeps_refl|].
  destruct (nth_error (w_loggers W) j) as [l|]; [|discriminate].
  destruct (GetLoggerOutputs P W (l_name l)) as [[W1 g]|] eqn:Eg; [|discriminate]. cbn [bind] in H.
  destruct (apply_glo W1 j g) as [W2|] eqn:Ea; [|discriminate]. cbn [bind] in H. rewrite in_app_iff in N.
  pose proof (GLO_grow _ _ _ _ _ (iv_valid _ I) Eg) as G. pose proof (grow_inv _ _ G I) as I1.
  eapply keeps_trans; [apply keeps_same, (gr_loggers _ _ G)|]. eapply keeps_trans; [eapply apply_keeps; [exact Ea|]|].
  - destruct (g_err g); [now left|right]. intros ->. apply N. left. now left.
  - apply IH; [exact H|eapply apply_glo_inv; eassumption|tauto].
Qed.
Lemma setConfig_keeps P W c ord W' ok id : setConfig P W c ord = Ok (W', ok) -> inv W ->
  ~ In id (if validateConfig c then notify_told P (set_config W c) ord else []) -> keeps_outs W W' id.
Proof.
  unfold setConfig. intros H I N. destruct (validateConfig c); [|injection H as <- <-; apply keeps_refl].
  destruct (notify P (set_config W c) ord) as [W1|] eqn:E; [|discriminate]. injection H as <- <-.
  eapply keeps_trans; [|eapply notify_keeps; [exact E|now apply set_config_inv|exact N]]. now apply keeps_same.
Qed.
Lemma root_keeps P W W' r id : getRootLogger P W = Ok (W', r) -> inv W -> keeps_outs W W' id.
Proof.
  intros H I. destruct (getRootLogger_spec _ _ _ _ H I) as (_ & _ & _ & _ & _ & _ & _ & [->|(E & _ & _)]); [apply keeps_refl|].
  intros l Hl. rewrite E in Hl. destruct id; discriminate.
Qed.
Lemma exec_keeps P W o W' r id : exec P W o = Ok (W', r) -> inv W -> ~ In id (told P W o) -> keeps_outs W W' id.
Proof.
  intros H I N. destruct o; cbn [exec told] in *.
  - destruct (GetLogger P W name) as [[W1 i]|] eqn:E; [|discriminate]. injection H as <- <-.
    destruct (GetLogger_cases _ _ _ _ _ E I) as [[_ HR]|[(_ & _ & -> & _)|(_ & _ & _ & _ & W2 & q & W3 & W4 & g & HR & M & _ & HG & HA)]].
    + eapply root_keeps; eassumption.
    + apply keeps_refl.
    + pose proof (root_keeps _ _ _ _ id HR I) as K1. eapply keeps_trans; [exact K1|]. intros l Hl.
      pose proof (md_old _ _ _ _ M _ _ Hl) as H3. pose proof (GLO_grow _ _ _ _ _ (iv_valid _ (md_inv _ _ _ _ M)) HG) as G.
      assert (Hid : id <> i). { intros ->. pose proof (md_fresh _ _ _ _ M). assert (i < length (w_loggers W2)) by (apply nth_error_Some; congruence). lia. }
      rewrite <- (gr_loggers _ _ G) in H3. eapply apply_keeps; [exact HA|now right|exact H3].
  - destruct (nth_error _ _); [|discriminate]. injection H as <- <-. apply keeps_upd. now left.
  - destruct (nth_error _ _); [|discriminate]. unfold SetOutputs in H. destruct (flags_of _ _); [|discriminate].
    injection H as <- <-. apply keeps_upd. right. intros ->. apply N. now left.
  - destruct (nth_error _ _); [|discriminate]. injection H as <- <-. apply keeps_upd. now left.
  - destruct (Printf _ _ _ _ _ _ _ _ _ _) as [W1|] eqn:E; [|discriminate]. injection H as <- <-.
    apply Printf_sends in E. apply keeps_same, E.
  - injection H as <- <-. now apply keeps_same.
  - injection H as <- <-. now apply keeps_same.
  - destruct (GetLoggerOutputs P W name) as [[W1 g]|] eqn:E; [|discriminate]. injection H as <- <-.
    apply keeps_same, (gr_loggers _ _ (GLO_grow _ _ _ _ _ (iv_valid _ I) E)).
  - destruct (setConfig P W c ord) as [[W1 ok]|] eqn:E; [|discriminate]. injection H as <- <-. eapply setConfig_keeps; eassumption.
  - unfold LoadConfig in H. destruct (setConfig P W _ ord) as [[W1 ok]|] eqn:E; [|discriminate]. injection H as <- <-.
    eapply setConfig_keeps; eassumption.
  - unfold LoadConfigFile, LoadConfig in H. destruct (p_read P file); [|injection H as <- <-; apply keeps_refl].
    destruct (path_Ext file); [discriminate|]. destruct (setConfig P W _ ord) as [[W1 ok]|] eqn:E; [|discriminate]. injection H as <- <-.
    eapply setConfig_keeps; eassumption.
  - injection H as <- <-. now apply keeps_same.
  - injection H as <- <-. now apply keeps_same.
  - destruct (nth_error _ _); [|discriminate]. injection H as <- <-. now apply keeps_same.
Qed.

(** ** Shared slices of outputs *)
Definition slices_ok (s : astate) : Prop :=
  NoDup (map fst (a_slices s)) /\
  forall id sl, In (id, sl) (a_slices s) -> exists l, nth_error (w_loggers (a_W s)) id = Some l /\ l_outputs l = m_outs (a_mem s) sl.
Lemma NoDup_filter_fst (f : nat * nat -> bool) l : NoDup (map fst l) -> NoDup (map fst (filter f l)).
Proof.
  induction l as [|x l IH]; cbn; [auto|]. intros H. apply NoDup_cons_iff in H as [H1 H2]. destruct (f x); [|auto]. cbn. constructor; [|auto].
  intros H. apply H1. apply in_map_iff in H as (y & E & Hy). apply filter_In in Hy as [Hy _]. rewrite <- E. now apply in_map.
Qed.
Lemma dropped_In ids ls id sl : In (id, sl) (dropped ids ls) <-> In (id, sl) ls /\ ~ In id ids.
Proof.
  unfold dropped. rewrite filter_In. cbn [fst]. split; intros [A B]; split; auto.
  - intros H. assert (E : existsb (Nat.eqb id) ids = true) by (apply existsb_exists; exists id; split; [assumption|apply Nat.eqb_refl]). now rewrite E in B.
  - destruct (existsb (Nat.eqb id) ids) eqn:E; [|reflexivity]. exfalso. apply B. apply existsb_exists in E as (x & Hx & E). apply Nat.eqb_eq in E. now subst.
Qed.
Lemma mapi_nth {A B} (f : nat -> A -> B) l : forall n i, nth_error (mapi f n l) i = option_map (f (n + i)) (nth_error l i).
Proof.
  induction l as [|x l IH]; intros n i; [now destruct i|]. destruct i as [|i]; cbn; [now rewrite Nat.add_0_r|]. rewrite IH. now replace (S n + i) with (n + S i) by lia.
Qed.
Lemma mapi_id {A} (f : nat -> A -> A) l : forall n, (forall i x, nth_error l i = Some x -> f (n + i) x = x) -> mapi f n l = l.
Proof.
  induction l as [|x l IH]; intros n H; cbn; [reflexivity|]. rewrite IH; [|intros i y Hy; replace (S n + i) with (n + S i) by lia; now apply H].
  pose proof (H 0 x eq_refl) as E. rewrite Nat.add_0_r in E. now rewrite E.
Qed.
Lemma find_slice (ls : list (nat * nat)) id x : find (fun x => Nat.eqb (fst x) id) ls = Some x -> In x ls /\ fst x = id.
Proof. intros H. apply find_some in H as [A B]. apply Nat.eqb_eq in B. auto. Qed.
Lemma in_find (ls : list (nat * nat)) id sl : NoDup (map fst ls) -> In (id, sl) ls -> find (fun x => Nat.eqb (fst x) id) ls = Some (id, sl).
Proof.
  induction ls as [|[j t] ls IH]; cbn; [tauto|]. intros N H. apply NoDup_cons_iff in N as [N1 N2].
  destruct H as [[= -> ->]|H]; [now rewrite Nat.eqb_refl|]. destruct (Nat.eqb_spec j id) as [->|_]; [|auto].
  exfalso. apply N1. now apply (in_map fst) in H.
Qed.
(** A call of WorldModel.v is made. *)
Lemma aexec_call P s a o s' : op_for s a = Some o -> aexec P s a = Some s' ->
  exists W' r, exec P (a_W s) o = Ok (W', r) /\
    s' = mkA W' (a_mem s) (shared_cfg s a o r) (shared_slices P s a o)
           (a_queue s ++ map (fun x => (fst x, (args_at a, snd x))) (handed (a_W s) W')) (a_done s) (a_writers s).
Proof.
  intros E H. unfold aexec in H. destruct a; try (cbn in E; discriminate); rewrite E in H;
    (destruct (exec P (a_W s) o) as [[W' r]|]; [|discriminate]); injection H as <-; exists W', r; auto.
Qed.
Lemma slices_kept P s a s' : inv (a_W s) -> slices_ok s -> aexec P s a = Some s' -> slices_ok s'.
Proof.
  intros I [N S] H. destruct (op_for s a) as [o|] eqn:E.
  - destruct (aexec_call _ _ _ _ _ E H) as (W' & r & X & ->). split; cbn [a_slices a_W a_mem].
    + unfold shared_slices. assert (D : NoDup (map fst (dropped (told P (a_W s) o) (a_slices s)))) by now apply NoDup_filter_fst.
      destruct a; try exact D. cbn [op_for] in E. injection E as <-. cbn [app map fst told]. constructor; [|exact D].
      intros F. apply in_map_iff in F as ([j t] & Ej & F). cbn in Ej. subst j. apply dropped_In in F as [_ F]. apply F. now left.
    + intros id sl Hin. unfold shared_slices in Hin. apply in_app_iff in Hin as [Hin|Hin].
      * destruct a; try contradiction. destruct Hin as [[= -> ->]|[]]. cbn [op_for] in E. injection E as <-. cbn [exec] in X.
        destruct (nth_error (w_loggers (a_W s)) id) as [l|] eqn:El; [|discriminate]. unfold SetOutputs in X. destruct (flags_of _ _); [|discriminate].
        injection X as <- <-. cbn. rewrite nth_upd, Nat.eqb_refl, El. eexists. split; [reflexivity|]. reflexivity.
      * apply dropped_In in Hin as [Hin Hn]. destruct (S _ _ Hin) as (l & Hl & El). destruct (exec_keeps _ _ _ _ _ id X I Hn l Hl) as (l' & Hl' & El').
        exists l'. split; [assumption|congruence].
  - destruct a; try (unfold aexec in H; rewrite E in H; discriminate); cbn [aexec] in H.
    + injection H as <-. split; assumption.
    + injection H as <-. split; assumption.
    + injection H as <-. split; [assumption|]. cbn. intros id sl Hin. destruct (S _ _ Hin) as (l & Hl & El). exists l. split; [|assumption].
      destruct (a_cfg s) as [b|]; [|assumption]. destruct (Nat.eqb b a); assumption.
    + injection H as <-. split; [assumption|]. cbn [a_slices a_W a_mem]. intros id sl Hin. destruct (S _ _ Hin) as (l & Hl & El). cbn [w_loggers set_loggers]. rewrite mapi_nth, Hl.
      eexists. split; [reflexivity|]. cbn [Nat.add]. unfold seen_outputs. rewrite (in_find _ _ _ N Hin). reflexivity.
    + injection H as <-. split; assumption.
    + injection H as <-. split; assumption.
    + destruct (take o (a_queue s)) as [[x q]|]; [|discriminate]. injection H as <-. split; assumption.
Qed.
(** Storing into another slice of outputs. *)
Lemma store_output_same s sl i o : slices_ok s -> (forall id, ~ In (id, sl) (a_slices s)) ->
  mapi (seen_outputs (mkMem (m_cfgs (a_mem s)) (aset (m_outs (a_mem s)) sl (upd i (fun _ => o) (m_outs (a_mem s) sl))) (m_args (a_mem s)) (m_fields (a_mem s))) (a_slices s)) 0
    (w_loggers (a_W s)) = w_loggers (a_W s).
Proof.
  intros [N S] H. apply mapi_id. intros id l Hl. cbn [Nat.add]. unfold seen_outputs.
  destruct (find _ (a_slices s)) as [[j t]|] eqn:F; [|reflexivity]. apply find_slice in F as [F E]. cbn in E. subst j.
  destruct (S _ _ F) as (l1 & Hl1 & El). assert (l1 = l) by congruence. subst l1. cbn [m_outs]. unfold aset.
  destruct (Nat.eqb_spec t sl) as [->|_]; [exfalso; exact (H _ F)|]. rewrite <- El. now destruct l.
Qed.

(** ** Events on their way *)
Lemma of_app {A} o (a b : list (nat * A)) : of o (a ++ b) = of o a ++ of o b.
Proof. unfold of. now rewrite filter_app, map_app. Qed.
Lemma take_of o q x q' : take o q = Some (x, q') -> of o q = x :: of o q' /\ forall j, j <> o -> of j q = of j q'.
Proof.
  revert x q'. induction q as [|[i y] q IH]; intros x q' H; cbn in H; [discriminate|]. unfold of in *. cbn [filter fst]. destruct (Nat.eqb_spec i o) as [->|N].
  - injection H as -> ->. split; [reflexivity|]. intros j Hj. destruct (Nat.eqb_spec o j); [congruence|reflexivity].
  - destruct (take o q) as [[z q1]|]; [|discriminate]. injection H as -> <-. destruct (IH _ _ eq_refl) as [A B]. cbn [filter fst].
    destruct (Nat.eqb_spec i o); [congruence|]. split; [exact A|]. intros j Hj. specialize (B j Hj). destruct (Nat.eqb_spec i j); cbn [map]; congruence.
Qed.
Lemma take_in o q x q' y : take o q = Some (x, q') -> In y q' -> In y q.
Proof.
  revert x q'. induction q as [|[i z] q IH]; intros x q' H Hy; cbn in H; [discriminate|]. destruct (Nat.eqb i o).
  - injection H as -> ->. now right.
  - destruct (take o q) as [[w q1]|]; [|discriminate]. injection H as -> <-. destruct Hy as [<-|Hy]; [now left|right; eauto].
Qed.
Lemma async_iff W o : is_async W o = true <-> with_worker W o.
Proof.
  unfold is_async, with_worker. destruct (nth_error (w_heap W) o) as [x|].
  - split.
    + intros H. exists x. split; [reflexivity|]. destruct (os_sink (o_spec x)), (os_async (o_spec x)); try discriminate; split; congruence.
    + intros (y & [= <-] & A & B). destruct (os_sink (o_spec x)) eqn:E, (os_async (o_spec x)); try congruence; now destruct (B code).
  - split; [discriminate|]. intros (y & H & _). discriminate.
Qed.
Lemma async_later W W' o : later W W' -> is_async W o = true -> is_async W' o = true.
Proof.
  intros L H. apply async_iff in H as (x & Hx & A & B). destruct (lt_spec _ _ L _ _ Hx) as (x' & Hx' & E). apply async_iff. exists x'. rewrite E. auto.
Qed.

(** What a call adds to the record of sent events: only log calls add anything, each event with the arguments given, to
    outputs that exist. *)
Lemma exec_new P W o W' r : reach P W -> exec P W o = Ok (W', r) ->
  exists new, w_sent W' = w_sent W ++ new /\ Forall (fun x => fst x < length (w_heap W)) new /\
    forall id c v lvl fmt args now ustk, o = OLog id c v lvl fmt args now ustk -> Forall (fun x => ev_args (snd (snd x)) = args) new.
Proof.
  intros R H. pose proof (reach_inv _ _ R) as I. destruct o;
    try (exists []; rewrite app_nil_r; split; [eapply AsyncEndProofs.exec_sent; [exact H|exact I|exact (fun x => x)]|split; [constructor|constructor]]).
  pose proof H as H0. apply log_inv in H as [H _]. destruct (nth_error (w_loggers W) id) as [l|] eqn:Hl.
  2: { unfold Printf in H. rewrite Hl in H. discriminate. }
  assert (K : exists new, w_sent W' = w_sent W ++ new /\ Forall (fun x => fst x < length (w_heap W)) new).
  { destruct (Printf_spec _ _ _ _ _ _ _ _ _ _ _ _ I Hl H) as [[Hb ->]|(d & o & lo & e0 & Hc & Hlo & He & Hd)].
    - exists []. rewrite app_nil_r. auto.
    - destruct (dispatch_spec _ _ _ _ _ _ Hd) as (evs & Hlen & Hk & Hs & _). rewrite warn_sent in Hs. eexists. split; [exact Hs|].
      apply Forall_forall. intros [i [stk e]] Hin. apply in_combine_sent in Hin as (_ & Hin & _). cbn.
      pose proof (iv_ops _ I _ _ Hlo) as F. rewrite Forall_forall in F. auto. }
  destruct K as (new & E & F). exists new. split; [exact E|]. split; [exact F|]. intros ? ? ? ? ? ? ? ? [= <- <- <- <- <- <- <- <-].
  apply Forall_forall. intros [i [stk e]] Hin. assert (Hn : has_name W (l_name l) id) by (exists l; auto).
  destruct (C08_event_data _ _ _ _ _ _ _ _ _ _ _ _ _ _ _ _ _ R Hn H0 E Hin) as (_ & _ & _ & A & _). exact A.
Qed.

(** ** Without stores into shared memory *)
Lemma of_handed W W' new o (k : option nat) : w_sent W' = w_sent W ++ new ->
  of o (map (fun x => (fst x, (k, snd x))) (handed W W')) = if is_async W' o then map (fun x => (k, snd x)) (of o new) else [].
Proof.
  intros E. unfold handed. rewrite E, skipn_app, skipn_all, Nat.sub_diag. cbn [app skipn]. clear E.
  induction new as [|[i [stk e]] new IH]; [now destruct (is_async W' o)|]. unfold of in *. cbn [filter fst]. destruct (Nat.eqb_spec i o) as [->|N].
  - destruct (is_async W' o) eqn:A; cbn [map filter fst snd]; [rewrite Nat.eqb_refl; cbn [map snd]; now rewrite IH|exact IH].
  - destruct (is_async W' i); cbn [map filter fst snd]; [destruct (Nat.eqb_spec i o); [congruence|]|]; exact IH.
Qed.
Lemma with_args_same e : with_args e (ev_args e) = e.
Proof. now destruct e. Qed.
Record ok (P : params) (ops : list op) (s : astate) : Prop := {
  ok_run : run P (init_world P) ops = Ok (a_W s);
  ok_reach : reach P (a_W s);
  ok_slices : slices_ok s;
  ok_sent : Forall (fun x => fst x < length (w_heap (a_W s))) (w_sent (a_W s));
  ok_args : forall o sl e, In (o, (Some sl, e)) (a_queue s) -> ev_args e = m_args (a_mem s) sl;
  ok_events : forall o, of o (a_done s) ++ map snd (of o (a_queue s)) = if is_async (a_W s) o then given_to o (a_W s) else []
}.
Lemma run_app P ops : forall W W1 o W2 r, run P W ops = Ok W1 -> exec P W1 o = Ok (W2, r) -> run P W (ops ++ [o]) = Ok W2.
Proof.
  induction ops as [|x ops IH]; cbn [run app]; intros W W1 o W2 r H E.
  - injection H as ->. now rewrite E.
  - destruct (exec P W x) as [[W3 r3]|]; [|discriminate]. eapply IH; eassumption.
Qed.
Lemma of_none {A} o (l : list (nat * A)) : (forall x, In x l -> fst x <> o) -> of o l = [].
Proof.
  intros H. unfold of. induction l as [|x l IH]; cbn; [reflexivity|]. destruct (Nat.eqb_spec (fst x) o) as [E|_].
  - now destruct (H x (or_introl eq_refl)).
  - apply IH. intros; apply H; now right.
Qed.
Lemma not_async W W' o : later W W' -> o < length (w_heap W) -> is_async W o = false -> is_async W' o = false.
Proof.
  intros L Ho H. destruct (is_async W' o) eqn:E; [|reflexivity]. apply async_iff in E as (x' & Hx' & A & B).
  destruct (nth_error (w_heap W) o) as [x|] eqn:Hx; [|apply nth_error_None in Hx; lia].
  destruct (lt_spec _ _ L _ _ Hx) as (y & Hy & Es). assert (y = x') by congruence. subst y. rewrite Es in A, B.
  assert (is_async W o = true) by (apply async_iff; exists x; auto). congruence.
Qed.
Lemma args_at_op s a o sl : op_for s a = Some o -> args_at a = Some sl -> exists id c v lvl fmt now ustk, o = OLog id c v lvl fmt (m_args (a_mem s) sl) now ustk.
Proof.
  destruct a; cbn; intros E A; try discriminate. injection A as <-. destruct w as [id|w]; [injection E as <-; eauto 8|].
  destruct (nth_error _ _) as [[id c]|]; [|discriminate]. injection E as <-. eauto 8.
Qed.
Lemma call_ok P ops s a o s' : ok P ops s -> op_for s a = Some o -> op_ok (a_W s) o -> aexec P s a = Some s' -> ok P (ops ++ [o]) s'.
Proof.
  intros K E Hok H. pose proof (reach_inv _ _ (ok_reach _ _ _ K)) as I. pose proof (slices_kept _ _ _ _ I (ok_slices _ _ _ K) H) as S.
  destruct (aexec_call _ _ _ _ _ E H) as (W' & r & X & ->). destruct (exec_inv _ _ _ _ _ X I) as [_ L].
  destruct (exec_new _ _ _ _ _ (ok_reach _ _ _ K) X) as (new & En & Fn & An). constructor; cbn [a_W a_mem a_queue a_done]; [| |exact S| | |].
  - eapply run_app; [apply K|exact X].
  - eapply reach_step; [apply K|exact Hok|exact X].
  - rewrite En. apply Forall_app. pose proof (lt_heap _ _ L). split; [eapply Forall_impl; [|apply (ok_sent _ _ _ K)]|eapply Forall_impl; [|exact Fn]]; cbn; intros; lia.
  - intros i sl e Hin. apply in_app_iff in Hin as [Hin|Hin]; [eapply ok_args; eassumption|]. apply in_map_iff in Hin as ([j ev] & Ej & Hin).
    cbn in Ej. injection Ej as -> Ha ->. destruct (args_at_op _ _ _ _ E Ha) as (id & c & v & lvl & fmt & now' & ustk & Eo).
    specialize (An _ _ _ _ _ _ _ _ Eo). unfold handed in Hin. rewrite En, skipn_app, skipn_all, Nat.sub_diag in Hin. cbn [app skipn] in Hin.
    apply in_map_iff in Hin as ([k [stk e2]] & [= -> ->] & Hin). apply filter_In in Hin as [Hin _]. rewrite Forall_forall in An. now apply An in Hin.
  - intros i. rewrite of_app, map_app, app_assoc, (ok_events _ _ _ K i), (of_handed _ _ new i _ En). unfold given_to. rewrite En, of_app, map_app.
    assert (Ei : forall x, map snd (map (fun y : stack * event => (args_at a, snd y)) x) = map snd x) by (intros x; rewrite map_map; now apply map_ext).
    destruct (is_async (a_W s) i) eqn:A.
    + rewrite (async_later _ _ _ L A). now rewrite Ei.
    + destruct (Nat.lt_ge_cases i (length (w_heap (a_W s)))) as [Hi|Hi].
      * now rewrite (not_async _ _ _ L Hi A).
      * assert (Ho : forall l, Forall (fun x : nat * (stack * event) => fst x < length (w_heap (a_W s))) l -> of i l = []).
        { intros l F. apply of_none. intros x Hx. rewrite Forall_forall in F. specialize (F x Hx). cbn in F. lia. }
        rewrite (Ho _ (ok_sent _ _ _ K)), (Ho _ Fn). now destruct (is_async W' i).
Qed.
Lemma untouched_ok P ops s a s' : ok P ops s -> op_for s a = None -> ~ touches s a -> aexec P s a = Some s' -> ok P ops s'.
Proof.
  intros K E T H. pose proof (reach_inv _ _ (ok_reach _ _ _ K)) as I. pose proof (slices_kept _ _ _ _ I (ok_slices _ _ _ K) H) as S.
  destruct a; try (unfold aexec in H; rewrite E in H; discriminate); cbn [aexec] in H; cbn [touches] in T.
  - injection H as <-. constructor; first [exact S|apply K].
  - injection H as <-. constructor; first [exact S|apply K].
  - assert (Eq : match a_cfg s with Some b => if Nat.eqb b a then set_config (a_W s) c else a_W s | None => a_W s end = a_W s).
    { destruct (a_cfg s) as [b|]; [|reflexivity]. destruct (Nat.eqb_spec b a); [congruence|reflexivity]. }
    rewrite Eq in H. injection H as <-. constructor; first [exact S|apply K].
  - assert (Eq : set_loggers (a_W s) (w_loggers (a_W s)) = a_W s) by (now destruct (a_W s)).
    rewrite store_output_same in H; [|apply K|eauto]. rewrite Eq in H. injection H as <-. constructor; first [exact S|apply K].
  - injection H as <-. constructor; try first [exact S|apply K]. cbn [a_queue a_mem m_args]. intros o sl e Hin. unfold aset.
    destruct (Nat.eqb_spec sl s0) as [->|_]; [exfalso; eauto|]. eapply ok_args; eassumption.
  - injection H as <-. constructor; first [exact S|apply K].
  - destruct (take o (a_queue s)) as [[x q]|] eqn:Et; [|discriminate]. injection H as <-. constructor; try first [exact S|apply K].
    + cbn [a_queue a_mem]. intros i sl e Hin. eapply ok_args; [exact K|]. eapply take_in; eassumption.
    + intros i. cbn [a_W a_queue a_done]. rewrite <- (ok_events _ _ _ K i), of_app. destruct (take_of _ _ _ _ Et) as [A B].
      destruct (Nat.eq_dec i o) as [->|N].
      * rewrite A. cbn [map]. rewrite <- app_assoc. f_equal. unfold of at 1. cbn [filter fst map snd]. rewrite Nat.eqb_refl. cbn [map snd app]. f_equal.
        unfold resolved. destruct x as [[sl|] e]; [|reflexivity]. cbn [fst snd].
        assert (Hin : In (o, (Some sl, e)) (a_queue s)).
        { assert (Hx : In (Some sl, e) (of o (a_queue s))) by (rewrite A; now left). unfold of in Hx. apply in_map_iff in Hx as ([j y] & Ey & Hx).
          apply filter_In in Hx as [Hx Ej]. apply Nat.eqb_eq in Ej. cbn in Ej, Ey. now subst. }
        rewrite <- (ok_args _ _ _ K _ _ _ Hin). apply with_args_same.
      * rewrite (B i N). unfold of at 2. cbn [filter fst]. destruct (Nat.eqb_spec o i); [congruence|]. cbn [map]. now rewrite app_nil_r.
Qed.
Lemma start_ok P m : ok P [] (a_start P m).
Proof.
  constructor; cbn.
  - reflexivity.
  - constructor.
  - split; [constructor|contradiction].
  - constructor.
  - contradiction.
  - intros o. unfold given_to, of. cbn. now destruct (is_async _ _).
Qed.
Lemma careful_ok P m h ops s : careful P m h ops s -> ok P ops s.
Proof.
  induction 1 as [|h ops s a s' C IH Hok T E]; [apply start_ok|]. destruct (op_for s a) as [o|] eqn:Eo.
  - eapply call_ok; eauto. now apply Hok.
  - rewrite app_nil_r. eapply untouched_ok; eassumption.
Qed.

(** ** Only what was given is shared *)
Lemma inv_seen s (mem : memory) : inv (a_W s) ->
  (forall id sl, In (id, sl) (a_slices s) -> Forall (fun o => o < length (w_heap (a_W s))) (m_outs mem sl)) ->
  inv (set_loggers (a_W s) (mapi (seen_outputs mem (a_slices s)) 0 (w_loggers (a_W s)))).
Proof.
  intros I F. assert (E : forall l n, map skel (mapi (seen_outputs mem (a_slices s)) n l) = map skel l).
  { induction l as [|x l IH]; intros n; cbn; [reflexivity|]. rewrite IH. f_equal. unfold seen_outputs. now destruct (find _ _) as [[? ?]|]. }
  constructor; cbn [set_loggers w_loggers w_root w_names w_outputs w_heap]; try apply I.
  - unfold skels. cbn [set_loggers w_loggers]. rewrite E. apply I.
  - intros id l. rewrite mapi_nth. destruct (nth_error (w_loggers (a_W s)) id) as [l0|] eqn:Hl; [|discriminate]. cbn [option_map Nat.add]. intros [= <-].
    unfold seen_outputs. destruct (find _ (a_slices s)) as [[j sl]|] eqn:Ef; [|now apply (iv_ops _ I _ _ Hl)].
    apply find_slice in Ef as [Ef _]. cbn [l_outputs]. eauto.
Qed.
Lemma upd_valid n i o : forall l, o < n -> Forall (fun o => o < n) l -> Forall (fun o => o < n) (upd i (fun _ => o) l).
Proof. induction i as [|i IH]; intros [|x l] Ho F; cbn; try constructor; inversion F; subst; auto. Qed.
Lemma aexec_inv P s a s' : inv (a_W s) -> slices_ok s -> act_ok s a -> aexec P s a = Some s' ->
  inv (a_W s') /\ forall o, is_async (a_W s) o = true -> is_async (a_W s') o = true.
Proof.
  intros I S [Hok Hst] H. destruct (op_for s a) as [o|] eqn:E.
  - destruct (aexec_call _ _ _ _ _ E H) as (W' & r & X & ->). destruct (exec_inv _ _ _ _ _ X I) as [I' L]. split; [exact I'|].
    intros i. cbn [a_W]. now apply async_later.
  - destruct a; try (unfold aexec in H; rewrite E in H; discriminate); cbn [aexec] in H.
    + injection H as <-. auto.
    + injection H as <-. auto.
    + injection H as <-. cbn [a_W]. destruct (a_cfg s) as [b|]; [|auto]. destruct (Nat.eqb b a); [|auto]. split; [now apply set_config_inv|auto].
    + injection H as <-. cbn [a_W]. split; [|auto]. apply inv_seen; [exact I|]. intros id sl Hin. cbn [m_outs]. unfold aset.
      destruct S as [_ S]. destruct (S _ _ Hin) as (l & Hl & El). pose proof (iv_ops _ I _ _ Hl) as F. rewrite El in F.
      destruct (Nat.eqb_spec sl s0) as [->|_]; [|exact F]. now apply upd_valid.
    + injection H as <-. auto.
    + injection H as <-. auto.
    + destruct (take o (a_queue s)) as [[x q]|]; [|discriminate]. injection H as <-. auto.
Qed.
Record shares (P : params) (h : list act) (s : astate) : Prop := {
  sh_inv : inv (a_W s);
  sh_slices : slices_ok s;
  sh_cfg : forall a, a_cfg s = Some a -> exists ord, In (ASetConfig a ord) h;
  sh_outs : forall id sl, In (id, sl) (a_slices s) -> In (ASetOutputs id sl) h;
  sh_args : forall o sl e, In (o, (Some sl, e)) (a_queue s) -> (exists w v lvl fmt now ustk, In (ALog w v lvl fmt sl now ustk) h) /\ is_async (a_W s) o = true
}.
Lemma happened_shares P m h ops s : happened P m h ops s -> shares P h s.
Proof.
  induction 1 as [|h ops s a s' C K Hok H].
  - constructor; cbn; try (discriminate || contradiction); [apply (reach_inv P); constructor|]. split; [constructor|contradiction].
  - destruct (aexec_inv _ _ _ _ (sh_inv _ _ _ K) (sh_slices _ _ _ K) Hok H) as [I' A'].
    pose proof (slices_kept _ _ _ _ (sh_inv _ _ _ K) (sh_slices _ _ _ K) H) as S'.
    constructor; [exact I'|exact S'| | |].
    + intros b Hb. assert (Hd : a_cfg s = Some b \/ exists ord, a = ASetConfig b ord).
      { destruct (op_for s a) as [o|] eqn:E.
        - destruct (aexec_call _ _ _ _ _ E H) as (W' & r & X & ->). cbn [a_cfg] in Hb. unfold shared_cfg in Hb. destruct (configures o r); [|now left].
          destruct a; try discriminate. injection Hb as ->. right. eauto.
        - destruct a; try (unfold aexec in H; rewrite E in H; discriminate); cbn [aexec] in H; try (injection H as <-; now left).
          destruct (take o (a_queue s)) as [[x q]|]; [|discriminate]. injection H as <-. now left. }
      destruct Hd as [Hd|(ord & ->)]; [|exists ord; now left]. destruct (sh_cfg _ _ _ K _ Hd) as (ord & Ho). exists ord. now right.
    + intros id sl Hin. destruct (op_for s a) as [o|] eqn:E.
      * destruct (aexec_call _ _ _ _ _ E H) as (W' & r & X & ->). cbn [a_slices] in Hin. unfold shared_slices in Hin. apply in_app_iff in Hin as [Hin|Hin].
        -- destruct a; try contradiction. destruct Hin as [[= -> ->]|[]]. now left.
        -- apply dropped_In in Hin as [Hin _]. right. now apply (sh_outs _ _ _ K).
      * right. apply (sh_outs _ _ _ K). destruct a; try (unfold aexec in H; rewrite E in H; discriminate); cbn [aexec] in H; try (injection H as <-; exact Hin).
        destruct (take o (a_queue s)) as [[x q]|]; [|discriminate]. injection H as <-. exact Hin.
    + intros o sl e Hin. assert (Hold : forall q, In (o, (Some sl, e)) q -> (forall y, In y q -> In y (a_queue s)) ->
        (exists w v lvl fmt now ustk, In (ALog w v lvl fmt sl now ustk) (a :: h)) /\ is_async (a_W s') o = true).
      { intros q Hq Hs. destruct (sh_args _ _ _ K _ _ _ (Hs _ Hq)) as [(w & v & lvl & fmt & now & ustk & Hh) Ha]. split; [|auto].
        exists w, v, lvl, fmt, now, ustk. now right. }
      destruct (op_for s a) as [x|] eqn:E.
      * destruct (aexec_call _ _ _ _ _ E H) as (W' & r & X & ->). cbn [a_queue] in Hin. apply in_app_iff in Hin as [Hin|Hin]; [now apply (Hold _ Hin)|].
        apply in_map_iff in Hin as ([j ev] & Ej & Hin). cbn in Ej. injection Ej as -> Ha ->. split.
        -- destruct a; try discriminate. cbn in Ha. injection Ha as ->. do 6 eexists. left. reflexivity.
        -- cbn [a_W]. unfold handed in Hin. apply in_map_iff in Hin as ([k [stk e2]] & [= -> ->] & Hin). now apply filter_In in Hin as [_ Hin].
      * destruct a; try (unfold aexec in H; rewrite E in H; discriminate); cbn [aexec] in H; try (injection H as <-; now apply (Hold _ Hin)).
        destruct (take _ (a_queue s)) as [[x q]|] eqn:Et; [|discriminate]. injection H as <-. apply (Hold _ Hin). intros y. eapply take_in, Et.
Qed.

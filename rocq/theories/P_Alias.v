(** Property C70: the caller may change what it passed in after the call; the library has its own copy. That is so for
    fields, and false for the configuration object, the slice of outputs and, with asynchronous outputs, the arguments. *)
From Verif Require Import GoStr Utf8 LevelModel EventModel LayoutModel ConfModel OutputModel WorldModel WorldSpec WorldBase WorldInv WorldProofs LogProofs
  P_Hier P_Log AliasModel AliasSpec AliasProofs.
Local Open Scope nat_scope.

(** As long as the caller stores into nothing that the library still uses, its stores have no effect: the state is the one
    that the calls alone lead to, with the data that each was given, and the workers get the events that were sent, in
    order. *)
Theorem C70_unaffected_partial : forall P m h ops s, careful P m h ops s ->
  run P (init_world P) ops = Ok (a_W s) /\ reach P (a_W s) /\
  forall o, with_worker (a_W s) o -> of o (a_done s) ++ map (resolved (a_mem s)) (of o (a_queue s)) = given_to o (a_W s).
Proof.
  intros P m h ops s C. apply careful_ok in C as K. split; [apply K|]. split; [apply K|]. intros o A. apply async_iff in A.
  pose proof (ok_events _ _ _ K o) as E. rewrite A in E. rewrite <- E. f_equal. apply map_ext_in. intros [[sl|] e] Hin; [|reflexivity].
  unfold resolved. cbn [fst snd]. unfold of in Hin. apply in_map_iff in Hin as ([j y] & Ey & Hin). apply filter_In in Hin as [Hin _]. cbn in Ey. subst y.
  rewrite <- (ok_args _ _ _ K _ _ _ Hin). apply with_args_same.
Qed.
Print Assumptions C70_unaffected_partial.
(** What the library uses was given to it: nothing else can be disturbed. *)
Theorem C70_given : forall P m h ops s a, happened P m h ops s -> touches s a -> gave h a.
Proof.
  intros P m h ops s a H. apply happened_shares in H as K. destruct a; cbn [touches gave]; try tauto.
  - apply (sh_cfg _ _ _ K).
  - intros [id Hin]. exists id. now apply (sh_outs _ _ _ K).
  - intros (o & e & Hin). now apply (sh_args _ _ _ K) in Hin as [Hin _].
Qed.
Print Assumptions C70_given.
(** Arguments are used after the log call only by the workers of asynchronous outputs, and only until they have formatted
    the event. *)
Theorem C70_arguments_kept : forall P m h ops s sl i v, happened P m h ops s -> touches s (AStoreArg sl i v) ->
  exists o e, with_worker (a_W s) o /\ In (Some sl, e) (of o (a_queue s)).
Proof.
  intros P m h ops s sl i v H (o & e & Hin). apply happened_shares in H as K. exists o, e. split; [apply async_iff; now apply (sh_args _ _ _ K) in Hin as [_ Hin]|].
  unfold of. apply in_map_iff. exists (o, (Some sl, e)). split; [reflexivity|]. apply filter_In. split; [assumption|]. cbn. apply Nat.eqb_refl.
Qed.
Print Assumptions C70_arguments_kept.
(** Stores into arguments and fields only concern what workers format: loggers, outputs, levels and who is sent what are
    those of the calls. *)
Theorem C70_route : forall P m h ops s, happened P m h ops s ->
  (forall a, In a h -> match a with AStoreConfig _ _ | AStoreOutput _ _ _ => False | _ => True end) ->
  run P (init_world P) ops = Ok (a_W s).
Proof.
  intros P m h ops s H. induction H as [|h ops s a s' H IH Hok E]; intros Hn; [reflexivity|].
  specialize (IH (fun b Hb => Hn b (or_intror Hb))). specialize (Hn a (or_introl eq_refl)). destruct (op_for s a) as [o|] eqn:Eo.
  - destruct (aexec_call _ _ _ _ _ Eo E) as (W' & r & X & ->). eapply run_app; eassumption.
  - rewrite app_nil_r, IH. f_equal. destruct a; try contradiction; try (unfold aexec in E; rewrite Eo in E; discriminate); cbn [aexec] in E; try (now injection E as <-).
    destruct (take o (a_queue s)) as [[x q]|]; [|discriminate]. now injection E as <-.
Qed.
Print Assumptions C70_route.
(** The fields given to WithFields are copied: a store into them changes neither the library nor the writers that were
    made, whatever else the caller stores. *)
Theorem C70_fields : forall P s sl i f s', aexec P s (AStoreField sl i f) = Some s' ->
  a_W s' = a_W s /\ a_writers s' = a_writers s /\ a_queue s' = a_queue s /\ m_args (a_mem s') = m_args (a_mem s).
Proof. intros P s sl i f s' H. cbn in H. injection H as <-. auto. Qed.
Print Assumptions C70_fields.
(** A writer keeps the logger and the fields or the context that it was made with, whatever follows. *)
Theorem C70_writers : forall P s a id sl c s1 s2,
  (a = AWithFields id sl /\ c = fields_ctx (m_fields (a_mem s) sl)) \/ a = AWithCtx id c -> aexec P s a = Some s1 -> follows P s1 s2 ->
  nth_error (a_writers s2) (length (a_writers s)) = Some (id, c).
Proof.
  intros P s a id sl c s1 s2 Ha H Hf.
  assert (H1 : a_writers s1 = a_writers s ++ [(id, c)]) by (destruct Ha as [[-> ->]| ->]; cbn in H; injection H as <-; reflexivity). clear H Ha.
  assert (Hk : forall s s' a, aexec P s a = Some s' -> exists t, a_writers s' = a_writers s ++ t).
  { clear. intros s s' a H. destruct (op_for s a) as [o|] eqn:E.
    - destruct (aexec_call _ _ _ _ _ E H) as (W' & r & X & ->). exists []. now rewrite app_nil_r.
    - destruct a; try (unfold aexec in H; rewrite E in H; discriminate); cbn [aexec] in H; try (injection H as <-; cbn; first [now eexists|exists []; now rewrite app_nil_r]).
      destruct (take o (a_queue s)) as [[x q]|]; [|discriminate]. injection H as <-. exists []. now rewrite app_nil_r. }
  clear a sl. induction Hf as [|sa a sb Hf IH E].
  - rewrite H1, nth_error_app2, Nat.sub_diag by lia. reflexivity.
  - destruct (Hk _ _ _ E) as [t ->]. rewrite nth_error_app1; [exact IH|]. apply nth_error_Some. congruence.
Qed.
Print Assumptions C70_writers.
(** A configuration that was loaded is the library's own: after an accepted LoadConfig or LoadConfigFile no store into a
    configuration object of the caller has an effect, until SetConfig is called again. *)
Theorem C70_loaded : forall P m h ops s o W r s1, happened P m h ops s ->
  (exists bs ext ord, o = OLoadConfig bs ext ord) \/ (exists f ord, o = OLoadConfigFile f ord) ->
  exec P (a_W s) o = Ok (W, r) -> r = RErr true -> aexec P s (ACall o) = Some s1 ->
  forall a c s2, aexec P s1 (AStoreConfig a c) = Some s2 -> a_W s2 = a_W s1.
Proof.
  intros P m h ops s o W r s1 _ Ho X -> H a c s2 H2. unfold aexec in H. cbn [op_for] in H. rewrite X in H. injection H as <-.
  assert (E : configures o (RErr true) = true) by (destruct Ho as [(? & ? & ? & ->)|(? & ? & ->)]; reflexivity).
  cbn [aexec a_W a_cfg] in H2. unfold shared_cfg in H2. rewrite E in H2. now injection H2 as <-.
Qed.
Print Assumptions C70_loaded.
(** A rejected configuration is not kept: stores into it have no effect. *)
Theorem C70_rejected : forall P m h ops s a ord W s1, happened P m h ops s ->
  exec P (a_W s) (OSetConfig (m_cfgs (a_mem s) a) ord) = Ok (W, RErr false) -> aexec P s (ASetConfig a ord) = Some s1 -> a_cfg s <> Some a ->
  forall c s2, aexec P s1 (AStoreConfig a c) = Some s2 -> a_W s2 = a_W s.
Proof.
  intros P m h ops s a ord W s1 Hh X H Ha c s2 H2. unfold aexec in H. cbn [op_for] in H. rewrite X in H. injection H as <-.
  cbn [aexec a_W a_cfg] in H2. unfold shared_cfg in H2. cbn [configures] in H2. cbn in X. unfold setConfig in X.
  assert (E : W = a_W s).
  { destruct (validateConfig _); [|now injection X as <-]. destruct (notify _ _ _); cbn in X; discriminate. }
  destruct (a_cfg s) as [b|]; [destruct (Nat.eqb_spec b a); [congruence|]|]; injection H2 as <-; exact E.
Qed.
Print Assumptions C70_rejected.
(** A logger that was given another slice no longer uses the first one. *)
Theorem C70_replaced : forall P m h ops s id sl sl2 s1, happened P m h ops s -> aexec P s (ASetOutputs id sl2) = Some s1 ->
  sl2 <> sl -> (forall j, In (j, sl) (a_slices s) -> j = id) ->
  forall i o s2, aexec P s1 (AStoreOutput sl i o) = Some s2 -> a_W s2 = a_W s1.
Proof.
  intros P m h ops s id sl sl2 s1 Hh H N Hj i o s2 H2. apply happened_shares in Hh as K.
  pose proof (slices_kept _ _ _ _ (sh_inv _ _ _ K) (sh_slices _ _ _ K) H) as S.
  cbn [aexec] in H2. rewrite store_output_same in H2; [injection H2 as <-; cbn [a_W]; now destruct (a_W s1)|exact S|].
  intros j Hin. assert (E : op_for s (ASetOutputs id sl2) = Some (OSetOutputs id (m_outs (a_mem s) sl2))) by reflexivity.
  destruct (aexec_call _ _ _ _ _ E H) as (W' & r & _ & ->). cbn [a_slices] in Hin. unfold shared_slices in Hin. cbn [told app] in Hin.
  destruct Hin as [Hin|Hin]; [congruence|]. apply dropped_In in Hin as [Hin Hn]. apply Hn. left. symmetry. now apply Hj.
Qed.
Print Assumptions C70_replaced.

(** ** Examples and counterexamples *)
Definition act_okb (s : astate) (a : act) : bool :=
  match op_for s a with
  | Some (OSetConfig _ ord) => if list_eq_dec Nat.eq_dec ord (map snd (w_names (a_W s))) then true else false
  | Some (OLoadConfig _ _ _) | Some (OLoadConfigFile _ _) => false
  | Some (OLog _ _ Named lvl _ _ _ _) => (Z.leb Trace lvl && Z.leb lvl Critical)%bool
  | _ => true
  end && match a with AStoreOutput _ _ o => Nat.ltb o (length (w_heap (a_W s))) | _ => true end.
Lemma act_okb_ok s a : act_okb s a = true -> act_ok s a.
Proof.
  unfold act_okb, act_ok. intros H. apply andb_prop in H as [H1 H2]. split.
  - intros o E. rewrite E in H1. destruct o; cbn; auto; try discriminate.
    + destruct v; auto. apply andb_prop in H1. lia.
    + destruct (list_eq_dec _ _ _) as [->|]; [apply Permutation.Permutation_refl|discriminate].
  - destruct a; auto. now apply Nat.ltb_lt.
Qed.
Definition touchesb (s : astate) (a : act) : bool :=
  match a with
  | AStoreConfig a _ => match a_cfg s with Some b => Nat.eqb b a | None => false end
  | AStoreOutput sl _ _ => existsb (fun x => Nat.eqb (snd x) sl) (a_slices s)
  | AStoreArg sl _ _ => existsb (fun x => match fst (snd x) with Some t => Nat.eqb t sl | None => false end) (a_queue s)
  | _ => false
  end.
Lemma touchesb_not s a : touchesb s a = false -> ~ touches s a.
Proof.
  destruct a; cbn; auto; intros H T.
  - rewrite T, Nat.eqb_refl in H. discriminate.
  - destruct T as [id T]. assert (E : existsb (fun x => Nat.eqb (snd x) s0) (a_slices s) = true) by (apply existsb_exists; exists (id, s0); split; [exact T|apply Nat.eqb_refl]).
    congruence.
  - destruct T as (o & e & T). assert (E : existsb (fun x : nat * (option nat * event) => match fst (snd x) with Some t => Nat.eqb t s0 | None => false end) (a_queue s) = true)
      by (apply existsb_exists; exists (o, (Some s0, e)); split; [exact T|apply Nat.eqb_refl]).
    congruence.
Qed.
Fixpoint plays (P : params) (acts : list act) (s : astate) : list op * astate :=
  match acts with
  | [] => ([], s)
  | a :: l => match aexec P s a with
              | Some s' => let (ops, t) := plays P l s' in (match op_for s a with Some o => [o] | None => [] end ++ ops, t)
              | None => ([], s)
              end
  end.
Fixpoint playsb (P : params) (careful : bool) (acts : list act) (s : astate) : bool :=
  match acts with
  | [] => true
  | a :: l => act_okb s a && negb (careful && touchesb s a) && match aexec P s a with Some s' => playsb P careful l s' | None => false end
  end.
Lemma plays_happened P m acts : forall s h ops, happened P m h ops s -> playsb P false acts s = true ->
  happened P m (rev acts ++ h) (ops ++ fst (plays P acts s)) (snd (plays P acts s)).
Proof.
  induction acts as [|a l IH]; intros s h ops H B; cbn in *; [now rewrite app_nil_r|]. apply andb_prop in B as [B B2]. apply andb_prop in B as [B _].
  destruct (aexec P s a) as [s'|] eqn:E; [|discriminate]. pose proof (hp_act _ _ _ _ _ _ _ H (act_okb_ok _ _ B) E) as H1. apply (IH _ _ _ H1) in B2.
  destruct (plays P l s') as [ops' t]. cbn [fst snd] in *. now rewrite <- !app_assoc in *.
Qed.
Lemma plays_careful P m acts : forall s h ops, careful P m h ops s -> playsb P true acts s = true ->
  careful P m (rev acts ++ h) (ops ++ fst (plays P acts s)) (snd (plays P acts s)).
Proof.
  induction acts as [|a l IH]; intros s h ops H B; cbn in *; [now rewrite app_nil_r|]. apply andb_prop in B as [B B2]. apply andb_prop in B as [B B1].
  apply negb_true_iff in B1. destruct (aexec P s a) as [s'|] eqn:E; [|discriminate].
  pose proof (cf_act _ _ _ _ _ _ _ H (act_okb_ok _ _ B) (touchesb_not _ _ B1) E) as H1. apply (IH _ _ _ H1) in B2.
  destruct (plays P l s') as [ops' t]. cbn [fst snd] in *. now rewrite <- !app_assoc in *.
Qed.
Definition al_async : out_spec := {| os_sink := SinkStdout; os_async := Some (10, 1)%Z; os_threshold := All |}.
Definition al_fmt : option formatter := Eval vm_compute in option_map FText (Parser ($"%{msg}")).
Definition al_cfg (lvl : str) : config := mkCfg [] [] [mkCL ($"a") lvl []].
(** One configuration object, one slice of outputs, one of arguments, one of fields. *)
Definition al_mem : memory := mkMem (fun _ => al_cfg ($"warn")) (fun _ => [1]) (fun _ => [VStr ($"one")]) (fun _ => [($"k", VStr ($"v"))]).
Definition al_of (acts : list act) : list op * astate := plays ex_P acts (a_start ex_P al_mem).
Lemma al_happened acts : playsb ex_P false acts (a_start ex_P al_mem) = true -> happened ex_P al_mem (rev acts) (fst (al_of acts)) (snd (al_of acts)).
Proof. intros B. pose proof (plays_happened ex_P al_mem acts _ _ _ (hp_start _ _) B) as H. now rewrite app_nil_r in H. Qed.
Lemma al_carefully acts : playsb ex_P true acts (a_start ex_P al_mem) = true -> careful ex_P al_mem (rev acts) (fst (al_of acts)) (snd (al_of acts)).
Proof. intros B. pose proof (plays_careful ex_P al_mem acts _ _ _ (cf_start _ _) B) as H. now rewrite app_nil_r in H. Qed.
Lemma al_run ops (Q : world -> Prop) : (match run ex_P (init_world ex_P) ops with Ok _ => true | Panic => false end) = true -> Q (ran ex_P ops) ->
  exists W, run ex_P (init_world ex_P) ops = Ok W /\ Q W.
Proof. unfold ran. destruct (run _ _ _) as [W|]; [eauto|discriminate]. Qed.
Definition al_level (W : world) (id : nat) : option level := option_map l_level (nth_error (w_loggers W) id).

(** The configuration object: it was accepted with one level for logger "a"; the caller changes the level in the object;
    a logger "a" that is made afterwards has the other level, although no call has passed it. *)
Definition al_config : list act := [ACall (OGetLogger []); ASetConfig 0 [0]; AStoreConfig 0 (al_cfg ($"error")); ACall (OGetLogger ($"a"))].
Theorem C70_config_refuted : exists P m h ops s W, happened P m h ops s /\ run P (init_world P) ops = Ok W /\
  exists id lw ls, nth_error (w_loggers W) id = Some lw /\ nth_error (w_loggers (a_W s)) id = Some ls /\ l_name lw = l_name ls /\ l_level lw <> l_level ls.
Proof.
  exists ex_P, al_mem, (rev al_config), (fst (al_of al_config)), (snd (al_of al_config)).
  assert (H : exists W, run ex_P (init_world ex_P) (fst (al_of al_config)) = Ok W /\
    option_map (fun l => (l_name l, l_level l)) (nth_error (w_loggers W) 1) = Some ($"a", Warn)) by (apply al_run; vm_compute; reflexivity).
  destruct H as (W & HW & E). exists W. split; [apply al_happened; vm_compute; reflexivity|]. split; [exact HW|]. exists 1.
  destruct (nth_error (w_loggers W) 1) as [lw|]; [|discriminate]. cbn in E. injection E as E1 E2.
  assert (E' : option_map (fun l => (l_name l, l_level l)) (nth_error (w_loggers (a_W (snd (al_of al_config)))) 1) = Some ($"a", Error)) by (vm_compute; reflexivity).
  destruct (nth_error (w_loggers (a_W (snd (al_of al_config)))) 1) as [ls|]; [|discriminate]. cbn in E'. injection E' as E3 E4.
  exists lw, ls. split; [reflexivity|]. split; [reflexivity|]. split; [congruence|]. rewrite E2, E4. discriminate.
Qed.
Print Assumptions C70_config_refuted.
(** The slice of outputs: the caller stores another output into the slice that SetOutputs got; the next event goes there. *)
Definition al_outputs : list act :=
  [ACall (OGetLogger ($"a")); ACall (ONewOutput ex_mem al_fmt); ACall (ONewOutput ex_mem al_fmt); ASetOutputs 1 0; AStoreOutput 0 0 2;
   ALog (Logger 1) Named Error ($"%s") 0 0%Z ex_user].
Theorem C70_outputs_refuted : exists P m h ops s W, happened P m h ops s /\ run P (init_world P) ops = Ok W /\
  map fst (w_sent (a_W s)) <> map fst (w_sent W).
Proof.
  exists ex_P, al_mem, (rev al_outputs), (fst (al_of al_outputs)), (snd (al_of al_outputs)).
  assert (H : exists W, run ex_P (init_world ex_P) (fst (al_of al_outputs)) = Ok W /\ map fst (w_sent W) = [1]) by (apply al_run; vm_compute; reflexivity).
  destruct H as (W & HW & E). exists W. split; [apply al_happened; vm_compute; reflexivity|]. split; [exact HW|]. rewrite E.
  assert (E' : map fst (w_sent (a_W (snd (al_of al_outputs)))) = [2]) by (vm_compute; reflexivity). rewrite E'. discriminate.
Qed.
Print Assumptions C70_outputs_refuted.
(** The arguments: the event waits for the worker, the caller uses its slice again, and the worker formats what is in it
    then. *)
Definition al_arguments : list act :=
  [ACall (OGetLogger ($"a")); ACall (ONewOutput al_async al_fmt); ASetOutputs 1 0; ALog (Logger 1) Named Error ($"%s") 0 0%Z ex_user;
   AStoreArg 0 0 (VStr ($"two")); AWorker 1].
Theorem C70_arguments_refuted : exists P m h ops s o e d, happened P m h ops s /\ run P (init_world P) ops = Ok (a_W s) /\ with_worker (a_W s) o /\
  given_to o (a_W s) = [e] /\ of o (a_done s) = [d] /\ ev_args e = [VStr ($"one")] /\ ev_args d = [VStr ($"two")].
Proof.
  exists ex_P, al_mem, (rev al_arguments), (fst (al_of al_arguments)), (snd (al_of al_arguments)), 1.
  assert (Hc : exists e, given_to 1 (a_W (snd (al_of al_arguments))) = [e] /\ ev_args e = [VStr ($"one")]) by (eexists; split; vm_compute; reflexivity).
  assert (Hd : exists d, of 1 (a_done (snd (al_of al_arguments))) = [d] /\ ev_args d = [VStr ($"two")]) by (eexists; split; vm_compute; reflexivity).
  destruct Hc as (e & He & Ee). destruct Hd as (d & Hd & Ed). exists e, d. split; [apply al_happened; vm_compute; reflexivity|].
  split; [|split; [apply async_iff; vm_compute; reflexivity|auto 6]].
  apply (C70_route ex_P al_mem (rev al_arguments)); [apply al_happened; vm_compute; reflexivity|].
  intros a Ha. cbn in Ha. repeat (destruct Ha as [<-|Ha]; [exact Logic.I|]). contradiction.
Qed.
Print Assumptions C70_arguments_refuted.

(** Example of a careful caller: it uses its slices again when the worker is done and the logger has another slice, and its
    fields at once. *)
Definition al_careful : list act :=
  [ACall (OGetLogger ($"a")); ACall (ONewOutput al_async al_fmt); ASetOutputs 1 0; AWithFields 1 0; AStoreField 0 0 ($"k", VInt 1%Z);
   ALog (Writer 0) Named Error ($"%s") 0 0%Z ex_user; AWorker 1; AStoreArg 0 0 (VStr ($"two")); ALog (Writer 0) Named Error ($"%s") 0 0%Z ex_user;
   ASetOutputs 1 1; AStoreOutput 0 0 0; AStoreConfig 0 (al_cfg [])].
Example C70_ex : careful ex_P al_mem (rev al_careful) (fst (al_of al_careful)) (snd (al_of al_careful)) /\
  with_worker (a_W (snd (al_of al_careful))) 1 /\ length (given_to 1 (a_W (snd (al_of al_careful)))) = 2 /\
  length (a_queue (snd (al_of al_careful))) = 1.
Proof.
  split; [|split; [apply async_iff; vm_compute; reflexivity|split; vm_compute; reflexivity]].
  apply al_carefully. vm_compute. reflexivity.
Qed.

(** Property C61: no call of the API panics. *)
From Verif Require Import GoStr Utf8 LevelModel EventModel LayoutModel FormatProofs ConfModel OutputModel OutputSpec OutputProofs
  AsyncModel AsyncSpec AsyncProofs.
From Verif Require Import WorldModel PanicModel WorldSpec WorldBase WorldInv WorldProofs P_Hier LogProofs P_Log ManagerSpec ManagerProofs P_Manager
  SafeSpec SafeProofs.
Local Open Scope Z_scope.

(** After any history of calls that bring nothing unfit of the user's own, panics included that were recovered from, the next proper call returns. *)
Theorem C61_returns_partial : forall P W o, fair_reach P W -> op_ok W o -> proper P W o ->
  exists W' r, exec P W o = Ok (W', r).
Proof.
  intros P W o R Ho [_ Pr]. pose proof (fair_is_reach _ _ R) as R'. pose proof (reach_inv _ _ R') as I.
  pose proof (fair_hw _ _ R) as F. destruct o; cbn [present op_ok] in Pr, Ho; cbn [exec].
  - destruct (GetLogger_total P W name I F) as (W' & id & E). rewrite E. cbn. eauto.
  - destruct Pr as (n & l & Hl & _). rewrite Hl. eauto.
  - destruct Pr as [(n & l & Hl & _) Ho']. rewrite Hl. unfold SetOutputs.
    destruct (flags_of_total (w_heap W) ops) as [fs E]; [|rewrite E; cbn; eauto].
    eapply Forall_impl; [|exact Ho']. intros i [x Hx]. apply nth_error_Some. congruence.
  - destruct Pr as (n & l & Hl & _). rewrite Hl. eauto.
  - destruct Pr as [(n & Hn) Hg]. destruct (C07_never_panics P W n id c v lvl fmt args now ustk R' Hn Hg) as [W' E];
      [|exists W', RUnit; exact E]. intros i x Hx. destruct (hw_heap _ F _ _ Hx) as [Hh Hr]. split; [now apply honest_real|exact Hr].
  - eauto.
  - eauto.
  - destruct (GLO_total P W name F) as (W' & g & E). rewrite E. cbn. eauto.
  - destruct (setConfig_total P W c ord R' Ho (hw_np _ F)) as (W' & ok & E). rewrite E. cbn. eauto.
  - unfold LoadConfig. destruct (setConfig_total P W (decoded P bs ext) ord R' Ho (hw_np _ F)) as (W' & ok & E). rewrite E. cbn. eauto.
  - destruct (exec P W (OLoadConfigFile file ord)) as [[W' r]|] eqn:E; [cbn [exec] in E; rewrite E; eauto|].
    exfalso. apply (C19_panics_iff P W file ord R' Ho (hw_np _ F)) in E as [E1 E2].
    destruct (Pr E1) as [ext He]. apply path_Ext_some in He. apply path_Ext_none in E2. congruence.
  - eauto.
  - cbn [add_output]. eauto.
  - destruct Pr as (x & Hx). rewrite Hx. eauto.
Qed.
Print Assumptions C61_returns_partial.

(** What was sent to an asynchronous output does not kill its worker either, in any interleaving
    of any goroutines that send it: the events are formattable, and the worker formats them. *)
Theorem C61_sent_formattable : forall P W i stk e, proper_reach P W -> In (i, (stk, e)) (w_sent W) -> formattable e.
Proof.
  intros P W i stk e R Hin. pose proof (proper_sent _ _ R) as F. rewrite Forall_forall in F. exact (F _ Hin).
Qed.
Print Assumptions C61_sent_formattable.
Definition call_ok (c : call) : Prop := match c with CSend e => formattable e | CClose => True end.
Definition pc_ok (p : pc) : Prop := match p with SLoad e | SPush e => formattable e | _ => True end.
Record all_ok (s : astate) : Prop := {
  ao_queue : forall e, In (Some e) (a_queue s) -> formattable e;
  ao_threads : forall i p todo, nth_error (a_threads s) i = Some (mkTh p todo) -> pc_ok p /\ Forall call_ok todo
}.
Lemma all_ok_th s i p todo : all_ok s -> pc_ok p -> Forall call_ok todo -> all_ok (set_th s i p todo).
Proof.
  intros [A B] Hp Ht. constructor; [exact A|]. intros j q t. cbn. rewrite nth_upd.
  destruct (nth_error (a_threads s) j) as [[q0 t0]|] eqn:E; [|destruct (Nat.eqb j i); discriminate].
  destruct (Nat.eqb j i); cbn; intros [= <- <-]; eauto.
Qed.
Lemma all_ok_step C s i l s' : tstep C s i l s' -> all_ok s -> all_ok s' /\ l <> Crash.
Proof.
  intros T O. split; [|now destruct T].
  destruct T; match goal with H : nth_error _ _ = Some _ |- _ => destruct (ao_threads _ O _ _ _ H) as [Hp Ht] end;
    try (apply all_ok_th; [assumption|exact Logic.I|assumption]; fail).
  - apply Forall_cons_iff in Ht as [He Ht]. now apply all_ok_th.
  - apply Forall_cons_iff in Ht as [_ Ht]. now apply all_ok_th.
  - apply all_ok_th; [assumption| |assumption]. destruct (a_flag s); [exact Logic.I|exact Hp].
  - apply all_ok_th; [|exact Logic.I|assumption]. constructor; [|exact (ao_threads _ O)]. cbn. intros e0 Hx0.
    apply in_app_iff in Hx0 as [Hx0|[[= <-]|[]]]; [now apply (ao_queue _ O)|exact Hp].
  - apply all_ok_th; [assumption| |assumption]. destruct (a_flag s); exact Logic.I.
  - apply all_ok_th; [|exact Logic.I|assumption]. constructor; [|exact (ao_threads _ O)]. cbn. intros e0 Hx0.
    apply in_app_iff in Hx0 as [Hx0|[[=]|[]]]. now apply (ao_queue _ O).
  - apply all_ok_th; [|exact Logic.I|assumption]. constructor; apply O.
  - apply all_ok_th; [|exact Logic.I|assumption]. constructor; apply O.
Qed.
Theorem C61_worker_survives : forall P W E i x f stk q b progs tr s, fair_reach P W -> nth_error (w_heap W) i = Some x ->
  o_fmt x = Some f -> (forall j p e, nth_error progs j = Some p -> In (CSend e) p -> formattable e) ->
  areach (async_conf E stk (Some f) (os_threshold (o_spec x)) q b) progs tr s -> ~ In Crash tr /\ a_crashed s = false.
Proof.
  intros P W E i x f stk q b progs tr s R Hx Hf Hp A.
  destruct (hw_heap _ (fair_hw _ _ R) _ _ Hx) as [Ho _]. rewrite Hf in Ho. destruct (honest_real _ Ho) as [h Hb].
  assert (Hfmt : forall e, formattable e -> async_fmt E stk (Some f) e <> Panic).
  { intros e He. destruct (Format_text E stk h f e Hb (fun _ => He)) as (t & e' & Ef & _). cbn. rewrite Ef. discriminate. }
  enough (Hall : (~ In Crash tr /\ a_crashed s = false) /\ all_ok s) by apply Hall.
  induction A as [|tr s c l s' A IH N].
  - split; [split; [intros []|reflexivity]|]. constructor; [intros e []|]. intros j p todo H. cbn in H.
    rewrite nth_error_map in H. destruct (nth_error progs j) as [pr|] eqn:Ej; [|discriminate]. injection H as <- <-.
    split; [exact Logic.I|]. apply Forall_forall. intros [e|] Hin; [exact (Hp j pr e Ej Hin)|exact Logic.I].
  - destruct IH as [[H1 H2] O]. destruct (anext_step _ _ _ _ _ N) as [_ [(j & _ & T)|Wk]].
    + destruct (all_ok_step _ _ _ _ _ T O) as [O' Hl]. split; [|assumption]. split.
      * intros Hin. apply in_app_iff in Hin as [Hin|[->|[]]]; auto.
      * destruct T; assumption.
    + assert (Hq : forall q0 x0, a_queue s = x0 :: q0 -> forall e, In (Some e) q0 -> formattable e).
      { intros q0 x0 Eq e Hin. apply (ao_queue _ O). rewrite Eq. now right. }
      assert (Hd : forall e q0, a_queue s = Some e :: q0 -> formattable e).
      { intros e q0 Eq. apply (ao_queue _ O). rewrite Eq. now left. }
      split.
      * destruct Wk; try (split; [intros Hin; apply in_app_iff in Hin as [Hin|[Hin|[]]]; [now apply H1|discriminate]|assumption]; fail).
        match goal with Q : a_queue _ = Some ?e0 :: ?q0, N0 : ac_fmt _ _ = Panic |- _ => exfalso; exact (Hfmt e0 (Hd e0 q0 Q) N0) end.
      * destruct Wk; (constructor; [cbn|exact (ao_threads _ O)]); try exact (ao_queue _ O); try (eapply Hq; eassumption).
        all: intros e0 H0; apply (ao_queue _ O); match goal with E : a_queue _ = [] |- _ => rewrite E | _ => idtac end; exact H0.
Qed.
Print Assumptions C61_worker_survives.

(** Which of the conditions are the library's own fault. A field may have any name: one named like the
    library's own key makes a log call panic, out of the box ... *)
Definition ex_root : world := ran ex_P [OGetLogger ($"root")].
Lemma ex_root_proper : proper_reach ex_P ex_root.
Proof.
  unfold ex_root, ran. cbn [run]. destruct (exec ex_P (init_world ex_P) (OGetLogger ($"root"))) as [[W r]|] eqn:E.
  - eapply pr_step; [apply pr_init| | |exact E]; [exact Logic.I|split; exact Logic.I].
  - exfalso. assert (H : runs ex_P [OGetLogger ($"root")] = true) by (vm_compute; reflexivity).
    unfold runs in H. cbn [run] in H. rewrite E, andb_comm in H. discriminate.
Qed.
Definition ex_root_loggers : list logger := Eval vm_compute in w_loggers ex_root.
Lemma ex_root_loggers_eq : w_loggers ex_root = ex_root_loggers.
Proof. vm_compute. reflexivity. Qed.
Lemma ex_root_name : has_name ex_root ($"root") 0.
Proof. unfold has_name. rewrite ex_root_loggers_eq. eexists. split; reflexivity. Qed.
Theorem C61_field_refuted : exists P W k v lvl fmt args now ustk, proper_reach P W /\ has_name W ($"root") 0 /\
  exec P W (OLog 0 (fields_ctx [(k, v)]) Named lvl fmt args now ustk) = Panic.
Proof.
  exists ex_P, ex_root, ($"__caller_info"), (VStr ($"x")), Info, ($"hello"), [], 0, ex_user.
  split; [apply ex_root_proper|]. split; [apply ex_root_name|]. vm_compute. reflexivity.
Qed.
Print Assumptions C61_field_refuted.
(** ... and so do WithCtx(nil), ... *)
Theorem C61_nil_context_refuted : exists P W lvl fmt args now ustk, proper_reach P W /\ has_name W ($"root") 0 /\
  exec P W (OLog 0 CtxNil Named lvl fmt args now ustk) = Panic.
Proof.
  exists ex_P, ex_root, Info, ($"hello"), [], 0, ex_user.
  split; [apply ex_root_proper|]. split; [apply ex_root_name|]. vm_compute. reflexivity.
Qed.
Print Assumptions C61_nil_context_refuted.
(** ... and LoadConfigFile of a file whose name has no extension. *)
Theorem C61_no_extension_refuted : exists P W file ord, proper_reach P W /\ op_ok W (OLoadConfigFile file ord) /\
  exec P W (OLoadConfigFile file ord) = Panic.
Proof.
  exists ex_P18, (init_world ex_P18), ($"etc.d/log4g"), []. split; [constructor|]. split; [apply Permutation_refl|].
  vm_compute. reflexivity.
Qed.
Print Assumptions C61_no_extension_refuted.
(** Nothing else about a context matters: one that answers every lookup, with nothing under that key,
    is fine whatever it holds; fields with other names always are. *)
Theorem C61_other_fields : forall fs, (forall v, ~ In ($"__caller_info", v) fs) -> good_ctx (fields_ctx fs).
Proof.
  intros fs H. split.
  - intros k. destruct (C10_last_field_wins fs k) as (v & Hv & _). eauto.
  - destruct (C10_last_field_wins fs ($"__caller_info")) as (v & Hv & Hf). rewrite Hv.
    destruct Hf as [fs Hn|a v b Hb]; [reflexivity|]. exfalso. apply (H v). apply in_app_iff. right. now left.
Qed.
Print Assumptions C61_other_fields.
Example C61_ex : proper_reach ex_P ex_root /\ proper ex_P ex_root (OLog 0 (fields_ctx [($"k", VNil)]) Named Info ($"hello") [] 0 ex_user) /\
  proper ex_P ex_root (OLoadConfigFile ($"etc.d/log4g") []) /\
  proper ex_P ex_root (ONewOutput ex_mem ex_fmt) /\ ex_fmt <> None.
Proof.
  split; [apply ex_root_proper|]. split; [|split; [|split]].
  - split; [exact Logic.I|]. split; [exists ($"root"); apply ex_root_name|]. apply C61_other_fields. intros v [H|[]]. discriminate.
  - split; [exact Logic.I|]. intros H. exfalso. now apply H.
  - split; [split|exact Logic.I]; [|intros send; discriminate]. cbn [honest_opt]. unfold ex_fmt. destruct (Parser ex_layout) as [ps|] eqn:E; [exists ex_layout; exact E|exact Logic.I].
  - vm_compute. discriminate.
Qed.
(** A call with a nil context panics, the caller recovers, and goes on with proper calls, which return. *)
Definition sf_call : op := OLog 0 CtxNil Named Info ($"hello") [] 0 ex_user.
Definition sf_W : world := match try_exec ex_P ex_root sf_call with Some (Raised W') => W' | _ => ex_root end.
Example C61_ex_recovered : raised ex_P ex_root sf_call sf_W /\ fair_reach ex_P sf_W /\
  exists W' r, exec ex_P sf_W (OLog 0 (fields_ctx [($"k", VNil)]) Named Info ($"hello") [] 0 ex_user) = Ok (W', r).
Proof.
  assert (E : raised ex_P ex_root sf_call sf_W).
  { assert (H : match try_exec ex_P ex_root sf_call with Some (Raised _) => true | _ => false end = true) by (vm_compute; reflexivity).
    unfold raised, sf_W. destruct (try_exec ex_P ex_root sf_call) as [[|]|]; try discriminate H. reflexivity. }
  assert (R : fair_reach ex_P sf_W).
  { eapply fa_panic; [apply proper_is_fair, ex_root_proper| | |exact E|]; [cbn; unfold Trace, Info, Critical; lia|exact Logic.I|].
    assert (H : w_root sf_W = Some 0%nat /\ mlookup ($"root") (w_names sf_W) = Some 0%nat) by (vm_compute; auto).
    destruct H as [Ha Hb]. intros r Hr. congruence. }
  split; [exact E|]. split; [exact R|]. apply C61_returns_partial; [exact R|cbn; unfold Trace, Info, Critical; lia|].
  split; [exact Logic.I|]. split.
  - assert (Hm : map l_name (w_loggers sf_W) = [$"root"]) by (vm_compute; reflexivity). exists ($"root"). unfold has_name.
    destruct (w_loggers sf_W) as [|l ls]; [discriminate|]. injection Hm as Hm _. exists l. auto.
  - apply C61_other_fields. intros v [H|[]]. discriminate.
Qed.

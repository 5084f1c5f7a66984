(** Which creators are used. *)
From Verif Require Import GoStr Utf8 LevelModel EventModel LayoutModel ConfModel OutputModel WorldModel PanicModel WorldSpec PanicSpec ManagerSpec
  WorldBase PanicBase WorldInv WorldProofs ManagerProofs PanicProofs CreatorSpec.

Lemma past_reach P h W : past P h W -> reach P W.
Proof.
  induction 1 as [|h W o W' _ IH Ho [r H|H Hr]]; [apply reach_init|exact (reach_step _ _ _ _ _ IH Ho H)|exact (reach_panic _ _ _ _ IH Ho H Hr)].
Qed.
(** What one call does to the managed outputs and formats, seen with the configuration [w_config W']. *)
Record tends (W W' : world) : Prop := {
  td_fc : w_fcreators W' = w_fcreators W;
  td_oc : w_ocreators W' = w_ocreators W;
  td_outputs : forall n o, mlookup n (w_outputs W) = Some o -> mlookup n (w_outputs W') = Some o;
  td_formats : forall n f, mlookup n (w_formats W) = Some f -> mlookup n (w_formats W') = Some f;
  td_outputs_new : forall n o, mlookup n (w_outputs W') = Some o -> mlookup n (w_outputs W) = Some o \/ out_from W' n o;
  td_formats_new : forall n f, mlookup n (w_formats W') = Some f -> mlookup n (w_formats W) = Some f \/ fmt_from W' n f
}.
Lemma kin_tends W c W' : kin (set_config W c) W' -> tends W W'.
Proof. intros K. constructor; apply K. Qed.
Lemma kin_tends_same W W' : kin W W' -> tends W W'.
Proof. intros K. constructor; apply K. Qed.
Lemma same_tends W W' : w_fcreators W' = w_fcreators W -> w_ocreators W' = w_ocreators W -> w_outputs W' = w_outputs W -> w_formats W' = w_formats W -> tends W W'.
Proof. intros A B C D. constructor; auto; try (now rewrite C); try (now rewrite D); intros n x; rewrite ?C, ?D; auto. Qed.
Definition registers (o : op) : Prop := match o with ORegisterOutput _ _ | ORegisterFormatter _ _ => True | _ => False end.
Lemma setConfig_tends P W c ord W' ok : reach P W -> Permutation.Permutation ord (map snd (w_names W)) -> setConfig P W c ord = Ok (W', ok) -> tends W W'.
Proof.
  intros R Hp H. destruct ok.
  - destruct (setConfig_notified _ _ _ _ _ R Hp H) as [N _]. exact (kin_tends _ _ _ (nf_kin _ _ _ _ _ N)).
  - unfold setConfig in H. destruct (validateConfig c); [|injection H as <-; now apply same_tends].
    destruct (notify _ _ _); discriminate.
Qed.
Lemma exec_tends P W o W' r : reach P W -> op_ok W o -> exec P W o = Ok (W', r) -> ~ registers o -> tends W W'.
Proof.
  intros R Ho H Hn. pose proof (reach_inv _ _ R) as I. destruct o; cbn [exec] in H; cbn [registers] in Hn; try (exfalso; apply Hn; exact Logic.I).
  - destruct (GetLogger P W name) as [[W1 id]|] eqn:E; [|discriminate]. injection H as <- <-.
    destruct (GetLogger_cases _ _ _ _ _ E I) as [[_ HR]|[(_ & _ & -> & _)|(_ & _ & _ & _ & W2 & q & W3 & W4 & g & HR & M & _ & HG & HA)]].
    + apply kin_tends_same. eapply getRoot_kin; eassumption.
    + now apply same_tends.
    + apply kin_tends_same. pose proof (getRoot_kin _ _ _ _ HR I) as K1. pose proof (md_inv _ _ _ _ M) as I2.
      assert (K2 : kin W W3) by (rewrite (md_rest _ _ _ _ M); apply (kin_same W W2 _ K1); reflexivity).
      pose proof (kin_grow _ _ _ K2 (GLO_grow _ _ _ _ _ (iv_valid _ I2) HG)) as K3.
      unfold apply_glo in HA. destruct (g_err g); [now injection HA as <-|]. unfold SetOutputs in HA.
      destruct (flags_of _ _) as [fs|]; [|discriminate]. injection HA as <-. apply (kin_same W W4 _ K3); reflexivity.
  - destruct (nth_error _ _); [|discriminate]. injection H as <- <-. now apply same_tends.
  - destruct (nth_error _ _); [|discriminate]. unfold SetOutputs in H. destruct (flags_of _ _); [|discriminate].
    injection H as <- <-. now apply same_tends.
  - destruct (nth_error _ _); [|discriminate]. injection H as <- <-. now apply same_tends.
  - destruct (Printf _ _ _ _ _ _ _ _ _ _) as [W1|] eqn:E; [|discriminate]. injection H as <- <-.
    apply Printf_sends in E. apply same_tends; apply E.
  - destruct (GetLoggerOutputs P W name) as [[W1 g]|] eqn:E; [|discriminate]. injection H as <- <-.
    apply kin_tends_same, grow_kin, (GLO_grow _ _ _ _ _ (iv_valid _ I) E).
  - destruct (setConfig P W c ord) as [[W1 ok]|] eqn:E; [|discriminate]. injection H as <- <-. eapply setConfig_tends; eassumption.
  - unfold LoadConfig in H. destruct (setConfig P W _ ord) as [[W1 ok]|] eqn:E; [|discriminate]. injection H as <- <-.
    eapply setConfig_tends; eassumption.
  - unfold LoadConfigFile, LoadConfig in H. destruct (p_read P file); [|injection H as <- <-; now apply same_tends].
    destruct (path_Ext file); [discriminate|]. destruct (setConfig P W _ ord) as [[W1 ok]|] eqn:E; [|discriminate]. injection H as <- <-.
    eapply setConfig_tends; eassumption.
  - injection H as <- <-. now apply same_tends.
  - injection H as <- <-. now apply same_tends.
  - destruct (nth_error _ _); [|discriminate]. injection H as <- <-. now apply same_tends.
Qed.
Lemma raised_tends P W o W' : reach P W -> op_ok W o -> raised P W o W' -> root_made W' -> tends W W'.
Proof.
  intros R Ho H Hr. pose proof (reach_inv _ _ R) as I.
  destruct (raised_stopped _ _ _ _ I H Hr) as [o W' Hh|o c ord1 ord2 W1 W' Hg V E Hh|name W0 r W1 p W2 id W' Hne Hnr Hn E0 EL EC Hh|? ? ? ? ? ? ? ? W' Sd].
  - apply kin_tends_same, grow_kin, (halt_grow _ _ _ (iv_valid _ I) Hh).
  - pose proof (part_notified _ _ _ _ _ _ _ R Ho Hg E) as N. pose proof (notify_inv _ _ _ _ E (set_config_inv W c I)) as I1.
    apply (kin_tends _ c), (kin_grow _ _ _ (nf_kin _ _ _ _ _ N)), (halt_grow _ _ _ (iv_valid _ I1) Hh).
  - destruct (stopped_made _ _ _ _ _ _ _ _ _ I Hne Hnr Hn E0 EL EC) as (I0 & _ & M & _). pose proof (getRoot_kin _ _ _ _ E0 I) as K1.
    assert (K2 : kin W W2) by (rewrite (md_rest _ _ _ _ M); apply (kin_same W W0 _ K1); reflexivity).
    apply kin_tends_same, (kin_grow _ _ _ K2), (halt_grow _ _ _ (iv_valid _ (md_inv _ _ _ _ M)) Hh).
  - apply same_tends; apply Sd.
Qed.
Lemma raised_not_registers P W o W' : raised P W o W' -> ~ registers o.
Proof. destruct o; cbn; try tauto; discriminate. Qed.
Lemma call_tends P W o W' : reach P W -> op_ok W o -> made_call P W o W' -> ~ registers o -> tends W W'.
Proof. intros R Ho [r H|H Hr] Hn; [eapply exec_tends; eassumption|eapply raised_tends; eassumption]. Qed.
Lemma call_register P W o W' : made_call P W o W' -> registers o -> exec P W o = Ok (W', RUnit).
Proof.
  intros [r H|H _] Hn; [|exfalso; exact (raised_not_registers _ _ _ _ H Hn)]. destruct o; cbn in Hn; try tauto; cbn in *; now injection H as -> <-.
Qed.
Lemma call_later P W o W' : reach P W -> made_call P W o W' -> later W W'.
Proof. intros R [r H|H Hr]; [exact (proj2 (exec_inv _ _ _ _ _ H (reach_inv _ _ R)))|exact (proj2 (raised_inv _ _ _ _ H Hr (reach_inv _ _ R)))]. Qed.
(** ** The creator found is the one registered last *)
Lemma found_output P h W ty oc : past P h W -> mlookup ty (w_ocreators W) = Some oc <-> last_output P ty oc h.
Proof.
  induction 1 as [|h W o W' Hp IH Ho Hc].
  { split; [now constructor|]. now inversion 1. }
  assert (Hx : (exists c, o = ORegisterOutput ty c) \/ forall c, o <> ORegisterOutput ty c).
  { destruct o; try (right; discriminate). destruct (str_eqb_spec t ty) as [->|N]; [left; eauto|right; congruence]. }
  destruct Hx as [[c ->]|Hx].
  - pose proof (call_register _ _ _ _ Hc Logic.I) as E. cbn in E. injection E as <-. cbn. rewrite mlookup_minsert_eq.
    split; [intros [= ->]; apply lo_here|]. intros L. inversion L as [|h0 E|o h0 N]; subst; [reflexivity|]. now specialize (N c).
  - assert (E : mlookup ty (w_ocreators W') = mlookup ty (w_ocreators W)).
    { destruct o; try (f_equal; apply (td_oc _ _ (call_tends _ _ _ _ (past_reach _ _ _ Hp) Ho Hc (fun x => x)))).
      - pose proof (call_register _ _ _ _ Hc Logic.I) as E. cbn in E. now injection E as <-.
      - pose proof (call_register _ _ _ _ Hc Logic.I) as E. cbn in E. injection E as <-. cbn. apply mlookup_minsert_ne.
        intros ->. now apply (Hx f). }
    rewrite E, IH. split; [now apply lo_before|]. inversion 1 as [|h0 E0|]; [|assumption]. subst. now specialize (Hx oc).
Qed.
Lemma found_formatter P h W ty fc : past P h W -> mlookup ty (w_fcreators W) = Some fc <-> last_formatter P ty fc h.
Proof.
  induction 1 as [|h W o W' Hp IH Ho Hc].
  { split; [now constructor|]. now inversion 1. }
  assert (Hx : (exists c, o = ORegisterFormatter ty c) \/ forall c, o <> ORegisterFormatter ty c).
  { destruct o; try (right; discriminate). destruct (str_eqb_spec t ty) as [->|N]; [left; eauto|right; congruence]. }
  destruct Hx as [[c ->]|Hx].
  - pose proof (call_register _ _ _ _ Hc Logic.I) as E. cbn in E. injection E as <-. cbn. rewrite mlookup_minsert_eq.
    split; [intros [= ->]; apply lf_here|]. intros L. inversion L as [|h0 E|o h0 N]; subst; [reflexivity|]. now specialize (N c).
  - assert (E : mlookup ty (w_fcreators W') = mlookup ty (w_fcreators W)).
    { destruct o; try (f_equal; apply (td_fc _ _ (call_tends _ _ _ _ (past_reach _ _ _ Hp) Ho Hc (fun x => x)))).
      - pose proof (call_register _ _ _ _ Hc Logic.I) as E. cbn in E. injection E as <-. cbn. apply mlookup_minsert_ne.
        intros ->. now apply (Hx f).
      - pose proof (call_register _ _ _ _ Hc Logic.I) as E. cbn in E. now injection E as <-. }
    rewrite E, IH. split; [now apply lf_before|]. inversion 1 as [|h0 E0|]; [|assumption]. subst. now specialize (Hx fc).
Qed.
(** ** Where an output and a format come from *)
Lemma step_output P h W o W' n i : past P h W -> op_ok W o -> made_call P W o W' -> mlookup n (w_outputs W') = Some i ->
  mlookup n (w_outputs W) = Some i \/
  ~ has n (w_outputs W) /\ ~ registers o /\ exists m fm oc t x, described (w_config W') n m fm /\ last_output P (cfg_Type (Some m)) oc h /\
    nth_error (w_heap W') i = Some x /\ oc t (Some m) = Created (o_spec x) /\
    exists f, o_fmt x = Some f /\ mlookup (cfg_FormatName (Some m)) (w_formats W') = Some f.
Proof.
  intros Hp Ho Hc Hx. pose proof (past_reach _ _ _ Hp) as R.
  assert (D : registers o \/ ~ registers o) by (destruct o; cbn; tauto). destruct D as [D|D].
  { left. pose proof (call_register _ _ _ _ Hc D) as E. destruct o; cbn in D; try tauto; cbn in E; now injection E as <-. }
  pose proof (call_tends _ _ _ _ R Ho Hc D) as T. destruct (mlookup n (w_outputs W)) as [j|] eqn:Ej.
  { left. apply (td_outputs _ _ T) in Ej. congruence. }
  right. split; [intros [j Hj]; congruence|]. split; [exact D|].
  destruct (td_outputs_new _ _ T _ _ Hx) as [F|(m & fm & oc & t & sp & f & H1 & H2 & H3 & H4 & H5 & H6)]; [congruence|].
  exists m, fm, oc, t, (mkOut sp (Some f) [] [] 0). split; [now apply described_get|]. split; [|split; [exact H6|]; split; [exact H3|]; exists f; auto].
  apply (found_output _ _ _ _ _ Hp). now rewrite <- (td_oc _ _ T).
Qed.
Lemma step_format P h W o W' n f : past P h W -> op_ok W o -> made_call P W o W' -> mlookup n (w_formats W') = Some f ->
  mlookup n (w_formats W) = Some f \/
  ~ has n (w_formats W) /\ ~ registers o /\ exists fm fc t, first_named n (c_formats (w_config W')) (Some fm) /\
    last_formatter P (cfg_Type (Some fm)) fc h /\ fc t (Some fm) = Ok (Some f).
Proof.
  intros Hp Ho Hc Hx. pose proof (past_reach _ _ _ Hp) as R.
  assert (D : registers o \/ ~ registers o) by (destruct o; cbn; tauto). destruct D as [D|D].
  { left. pose proof (call_register _ _ _ _ Hc D) as E. destruct o; cbn in D; try tauto; cbn in E; now injection E as <-. }
  pose proof (call_tends _ _ _ _ R Ho Hc D) as T. destruct (mlookup n (w_formats W)) as [j|] eqn:Ej.
  { left. apply (td_formats _ _ T) in Ej. congruence. }
  right. split; [intros [j Hj]; congruence|]. split; [exact D|].
  destruct (td_formats_new _ _ T _ _ Hx) as [F|(m & fc & t & H1 & H2 & H3)]; [congruence|].
  exists m, fc, t. split; [|split; [|exact H3]].
  - unfold GetCfgFormat in H1. apply first_named_find. destruct (find _ _) as [[]|]; congruence.
  - apply (found_formatter _ _ _ _ _ Hp). now rewrite <- (td_fc _ _ T).
Qed.

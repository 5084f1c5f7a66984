From Verif Require Import GoStr LevelModel LevelSpec LevelProofs EventModel LayoutModel LayoutSpec LayoutProofs
  FormatSpec FormatProofs OutputModel OutputSpec.
Local Open Scope Z_scope.

(** The formatter object that stands for a way of formatting. *)
Inductive built : how -> option formatter -> Prop :=
| b_default : built ByDefault None
| b_layout layout ps : Parser layout = Some ps -> built (ByLayout layout) (Some (FText ps))
| b_user f g flag : (forall e, g e = Ok (f e)) -> built (ByUser f) (Some (FUser g flag)).

Lemma default_line_spec E e : default_text E e (default_line E e).
Proof.
  unfold default_line, pad5. rewrite <- app_assoc.
  apply (dt E e (level_String (ev_level e)) (5 - length (level_String (ev_level e))) (ev_Message E e)).
  - apply level_text_String.
  - apply message_spec.
  - lia.
Qed.

Lemma formattable_site stk e : formattable e -> exists raw, raw_site stk e raw.
Proof.
  intros [_ [H|[ci H]]]; [|exists ci; now constructor].
  destruct (Z.ltb_spec (ev_depth e + 1) 0) as [Hd|Hd].
  - eexists. apply rs_none; auto.
  - destruct (nth_error stk (Z.to_nat (ev_depth e + 1))) as [fr|] eqn:En.
    + eexists. eapply rs_stack; eassumption.
    + eexists. apply rs_none; auto.
Qed.

(** Formatting an event by whatever formatter gives the specified text and leaves the event alone
    apart from the caller information stored in its context. *)
Lemma Format_text E stk h f e : built h (Some f) -> (h = h -> formattable e) ->
  exists b e', fmt_Format E stk f e = Ok (b, e') /\ text_of E h stk e b /\ same_but_site e e'.
Proof.
  intros Hb Hg. specialize (Hg eq_refl). inversion Hb; subst.
  - match goal with H : Parser _ = Some _ |- _ => apply Parser_exact in H as (items & Hs & _ & ->) end.
    destruct (formattable_site stk e Hg) as [raw Hraw]. destruct Hg as [Htot _].
    destruct (format_items E stk e raw items Htot (splits_ok _ _ Hs) e) as (ss & e' & H1 & H3 & H2).
    + split; [apply same_refl|split; [assumption|left; reflexivity]].
    + exists (concat ss), e'. split; [assumption|]. split; [|apply H3].
      eapply to_layout; try eassumption. apply complete_resolved.
  - cbn [fmt_Format]. match goal with H : forall e, g e = _ |- _ => rewrite H end. cbn [bind]. eexists _, _. split; [reflexivity|]. split; [constructor|apply same_refl].
Qed.

Lemma base_Send_spec E stk h f t e : built h f -> formattable e ->
  exists ws e', base_Send E stk f t e = Ok (ws, e') /\ same_but_site e e' /\
    (ev_level e < t /\ ws = [] /\ e' = e \/ t <= ev_level e /\ exists b, ws = [b] /\ text_of E h stk e b).
Proof.
  intros Hb Hg. unfold base_Send. destruct (Z.ltb_spec (ev_level e) t) as [Hl|Hl].
  - eexists _, _. split; [reflexivity|]. split; [apply same_refl|auto].
  - destruct f as [f|].
    + destruct (Format_text E stk h f e Hb (fun _ => Hg)) as (b & e' & -> & Ht & Hs). cbn [bind].
      eexists _, _. split; [reflexivity|]. split; [assumption|]. right. eauto.
    + inversion Hb; subst. eexists _, _. split; [reflexivity|]. split; [apply same_refl|].
      right. split; [assumption|]. eexists. split; [reflexivity|]. constructor. apply default_line_spec.
Qed.

Lemma base_run_spec E h f t evs : built h f -> Forall (fun p => formattable (snd p)) evs ->
  exists ws, base_run E f t evs = Ok ws /\ written E h t evs ws.
Proof.
  intros Hb Hg; induction Hg as [|[stk e] evs He Hg IH]; cbn [base_run snd] in *.
  - eexists; split; [reflexivity|constructor].
  - destruct IH as (ws & -> & IH).
    destruct (base_Send_spec E stk h f t e Hb He) as (w & e' & -> & _ & [(Hl & -> & _)|(Hl & b & -> & Hb')]); cbn [bind].
    + eexists; split; [reflexivity|]. now constructor.
    + eexists; split; [reflexivity|]. now constructor.
Qed.

(** ** Uniqueness of the specified output *)
Lemma default_text_unique E e a b : default_text E e a -> default_text E e b -> a = b.
Proof.
  intros [l1 k1 m1 Hl1 Hm1 Hk1] [l2 k2 m2 Hl2 Hm2 Hk2].
  assert (l1 = l2) by (eapply level_text_fun; try eassumption; apply named_fun). subst.
  assert (m1 = m2) by (eapply message_fun; eassumption). subst.
  assert (k1 = k2) by lia. now subst.
Qed.
Lemma raw_site_unique stk e a b : raw_site stk e a -> raw_site stk e b -> a = b.
Proof.
  intros [c1 H1|fr1 H1 Hd1 Hn1|H1 Hd1] [c2 H2|fr2 H2 Hd2 Hn2|H2 Hd2]; try congruence;
    try (destruct Hd1; try lia; congruence); try (destruct Hd2; try lia; congruence).
Qed.
Lemma renders_all_unique E site e items s t :
  Forall2 (renders E site e) items s -> Forall2 (renders E site e) items t -> s = t.
Proof.
  intros H; revert t; induction H as [|i s0 items ss H Hs IH]; intros t Ht; inversion Ht; subst; [reflexivity|].
  f_equal; [eapply renders_unique; eassumption|auto].
Qed.
Lemma text_of_unique E h stk e a b : text_of E h stk e a -> text_of E h stk e b -> a = b.
Proof.
  intros H1 H2. inversion H1; subst; inversion H2; subst.
  - eapply default_text_unique; eassumption.
  - assert (raw0 = raw) by (eapply raw_site_unique; eassumption). subst.
    assert (items0 = items) by (eapply splits_det; eassumption). subst.
    assert (site0 = site) by (repeat match goal with H : resolved _ _ _ |- _ => apply resolved_complete in H end; congruence).
    subst. f_equal. eapply renders_all_unique; eassumption.
  - reflexivity.
Qed.
Lemma written_unique E h t evs a b : written E h t evs a -> written E h t evs b -> a = b.
Proof.
  intros H; revert b; induction H; intros b' Hb; inversion Hb; subst; try lia; auto.
  f_equal; [eapply text_of_unique; eassumption|auto].
Qed.

(** ** Syslog *)
(** Severity numbers of RFC 5424. *)
Definition sev_num (s : severity) : nat :=
  match s with SevDebug => 7 | SevInfo => 6 | SevWarning => 4 | SevErr => 3 | SevCrit => 2 end.
Definition sev_call (p : severity * str) : nat * str := (sev_num (fst p), snd p).

Lemma sys_switch (l : Z) (m : str) :
  let c := (if (l =? Trace) || (l =? Debug) then [(SevDebug, m)]
            else if l =? Info then [(SevInfo, m)]
            else if l =? Warn then [(SevWarning, m)]
            else if l =? Error then [(SevErr, m)]
            else if l =? Critical then [(SevCrit, m)]
            else []) in
  (exists s, c = [(s, m)] /\ sev_of l (sev_num s)) \/ (c = [] /\ forall n, ~ sev_of l n).
Proof.
  cbn zeta. unfold Trace, Debug, Info, Warn, Error, Critical.
  repeat match goal with |- context [Z.eqb l ?n] => destruct (Z.eqb_spec l n) as [->|?]; cbn [orb] end;
    try (left; eexists; split; [reflexivity|constructor]; fail).
  right. split; [reflexivity|]. intros k H; inversion H; congruence.
Qed.
Lemma syslog_Send_spec E stk h f t e : built h f -> formattable e ->
  exists ws e', syslog_Send E stk f t e = Ok (ws, e') /\ same_but_site e e' /\
    (ev_level e < t /\ ws = [] \/
     t <= ev_level e /\ ((forall n, ~ sev_of (ev_level e) n) /\ ws = [] \/
       exists s m, ws = [(s, m)] /\ sev_of (ev_level e) (sev_num s) /\ sys_text E h stk e m)).
Proof.
  intros Hb Hg. unfold syslog_Send. destruct (Z.ltb_spec (ev_level e) t) as [Hl|Hl].
  { eexists _, _. split; [reflexivity|]. split; [apply same_refl|auto]. }
  assert (H : exists m e', match f with Some f => fmt_Format E stk f e | None => Ok (ev_Message E e, e) end = Ok (m, e')
            /\ sys_text E h stk e m /\ same_but_site e e').
  { destruct f as [f|].
    - destruct (Format_text E stk h f e Hb (fun _ => Hg)) as (b & e' & H & Ht & Hs).
      exists b, e'. split; [assumption|]. split; [|assumption]. apply st_formatted; [|assumption].
      inversion Hb; subst; discriminate.
    - inversion Hb; subst. eexists _, _. split; [reflexivity|]. split; [|apply same_refl].
      constructor. apply message_spec. }
  destruct H as (m & e' & -> & Ht & Hs). cbn [bind].
  eexists _, _. split; [reflexivity|]. split; [assumption|]. right. split; [assumption|].
  destruct Hs as (_&_&_&Hlev&_). cbn zeta in *.
  destruct (sys_switch (ev_level e') m) as [(s & -> & Hsv)|(-> & Hno)].
  - right. exists s, m. rewrite <- Hlev. auto.
  - left. rewrite <- Hlev. auto.
Qed.
Lemma syslog_run_spec E h f t evs : built h f -> Forall (fun p => formattable (snd p)) evs ->
  exists ws, syslog_run E f t evs = Ok ws /\ sys_written E h t evs (map sev_call ws).
Proof.
  intros Hb Hg; induction Hg as [|[stk e] evs He Hg IH]; cbn [syslog_run snd] in *.
  - eexists; split; [reflexivity|constructor].
  - destruct IH as (ws & -> & IH).
    destruct (syslog_Send_spec E stk h f t e Hb He)
      as (w & e' & -> & _ & [(Hl & ->)|(Hl & [(Hno & ->)|(s & m & -> & Hs & Hm)])]); cbn [bind];
      (eexists; split; [reflexivity|]).
    + now apply sw_low.
    + now apply sw_nosev.
    + cbn. now apply sw_send.
Qed.
Lemma sev_of_fun l a b : sev_of l a -> sev_of l b -> a = b.
Proof. intros []; intros H; inversion H; reflexivity. Qed.
Lemma sys_written_unique E h t evs a b : sys_written E h t evs a -> sys_written E h t evs b -> a = b.
Proof.
  intros H; revert b; induction H; intros b' Hb; inversion Hb; subst; try lia; auto;
    try (exfalso; match goal with H : forall k, ~ sev_of _ k, H' : sev_of _ _ |- _ => exact (H _ H') end).
  f_equal; [|auto]. f_equal.
  - eapply sev_of_fun; eassumption.
  - match goal with H1 : sys_text _ _ _ _ _, H2 : sys_text _ _ _ _ _ |- _ => inversion H1; subst; inversion H2; subst end;
      try congruence; [eapply message_fun; eassumption|eapply text_of_unique; eassumption].
Qed.

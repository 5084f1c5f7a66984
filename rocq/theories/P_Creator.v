(** Property C69: a registered creator makes the outputs and formats of its type from then on, and nothing else. *)
From Verif Require Import GoStr Utf8 LevelModel EventModel LayoutModel ConfModel OutputModel WorldModel PanicModel WorldSpec PanicSpec ManagerSpec
  WorldBase PanicBase WorldInv WorldProofs ManagerProofs PanicProofs P_Hier CreatorSpec CreatorProofs.

(** For each type there is the creator registered last, if any: the built-in one is replaced like every other. Creators may
    panic in the calls made so far. *)
Theorem C69_last_registration : forall P h W ty, past P h W ->
  (forall oc, mlookup ty (w_ocreators W) = Some oc <-> last_output P ty oc h) /\
  (forall fc, mlookup ty (w_fcreators W) = Some fc <-> last_formatter P ty fc h).
Proof. intros P h W ty H. split; intros c; [now apply found_output|now apply found_formatter]. Qed.
Print Assumptions C69_last_registration.
(** Registering returns and changes nothing else: loggers, outputs and formats made before stay as they are. *)
Theorem C69_nothing_else : forall P W o W', made_call P W o W' ->
  ((exists ty oc, o = ORegisterOutput ty oc) -> but_creators W W' /\ w_fcreators W' = w_fcreators W /\ exec P W o = Ok (W', RUnit)) /\
  ((exists ty fc, o = ORegisterFormatter ty fc) -> but_creators W W' /\ w_ocreators W' = w_ocreators W /\ exec P W o = Ok (W', RUnit)).
Proof.
  intros P W o W' H. split; intros (ty & c & ->); pose proof (call_register _ _ _ _ H Logic.I) as E; split; try split; try exact E;
    cbn in E; injection E as <-; reflexivity.
Qed.
Print Assumptions C69_nothing_else.
(** An output that a call adds is what the creator registered last for the type in its entry made of that entry; and it
    has the format that the entry names. *)
Theorem C69_new_output : forall P h W o W' n i, past P h W -> op_ok W o -> made_call P W o W' ->
  ~ has n (w_outputs W) -> mlookup n (w_outputs W') = Some i ->
  exists m fm oc t x, described (w_config W') n m fm /\ last_output P (cfg_Type (Some m)) oc h /\
    nth_error (w_heap W') i = Some x /\ oc t (Some m) = Created (o_spec x) /\
    exists f, o_fmt x = Some f /\ mlookup (cfg_FormatName (Some m)) (w_formats W') = Some f.
Proof.
  intros P h W o W' n i Hp Ho Hc Hn Hx. destruct (step_output _ _ _ _ _ _ _ Hp Ho Hc Hx) as [H|(_ & _ & H)]; [|exact H].
  exfalso. apply Hn. now exists i.
Qed.
Print Assumptions C69_new_output.
Theorem C69_new_format : forall P h W o W' n f, past P h W -> op_ok W o -> made_call P W o W' ->
  ~ has n (w_formats W) -> mlookup n (w_formats W') = Some f ->
  exists fm fc t, first_named n (c_formats (w_config W')) (Some fm) /\ last_formatter P (cfg_Type (Some fm)) fc h /\ fc t (Some fm) = Ok (Some f).
Proof.
  intros P h W o W' n f Hp Ho Hc Hn Hx. destruct (step_format _ _ _ _ _ _ _ Hp Ho Hc Hx) as [H|(_ & _ & H)]; [|exact H].
  exfalso. apply Hn. now exists f.
Qed.
Print Assumptions C69_new_format.
(** So every output of the manager was made by one call, by the creator that was registered last when it was made, from the
    configuration that was in force then; later registrations and configurations do not matter. *)
Theorem C69_made_by : forall P h W n i, past P h W -> mlookup n (w_outputs W) = Some i ->
  exists after o before W1 W2, h = after ++ o :: before /\ past P before W1 /\ made_call P W1 o W2 /\ ~ has n (w_outputs W1) /\
    mlookup n (w_outputs W2) = Some i /\
    exists m fm oc t x, described (w_config W2) n m fm /\ last_output P (cfg_Type (Some m)) oc before /\
      nth_error (w_heap W) i = Some x /\ oc t (Some m) = Created (o_spec x).
Proof.
  intros P h W n i Hp. induction Hp as [|h W o W' Hp IH Ho Hc]; intros Hx; [discriminate|].
  destruct (step_output _ _ _ _ _ _ _ Hp Ho Hc Hx) as [H|(Hn & _ & m & fm & oc & t & x & H1 & H2 & H3 & H4 & _)].
  - destruct (IH H) as (after & o1 & before & W1 & W2 & -> & A & B & C & D & m & fm & oc & t & x & H1 & H2 & H3 & H4).
    exists (o :: after), o1, before, W1, W2. do 5 (split; [assumption || reflexivity|]). exists m, fm, oc, t.
    destruct (lt_spec _ _ (call_later _ _ _ _ (past_reach _ _ _ Hp) Hc) _ _ H3) as (x' & Hx' & E). exists x'. rewrite E. auto.
  - exists [], o, h, W, W'. do 5 (split; [assumption || reflexivity|]). exists m, fm, oc, t, x. auto.
Qed.
Print Assumptions C69_made_by.
(** The same for formats. *)
Theorem C69_format_made_by : forall P h W n f, past P h W -> mlookup n (w_formats W) = Some f ->
  exists after o before W1 W2, h = after ++ o :: before /\ past P before W1 /\ made_call P W1 o W2 /\ ~ has n (w_formats W1) /\
    exists fm fc t, first_named n (c_formats (w_config W2)) (Some fm) /\ last_formatter P (cfg_Type (Some fm)) fc before /\ fc t (Some fm) = Ok (Some f).
Proof.
  intros P h W n f Hp. induction Hp as [|h W o W' Hp IH Ho Hc]; intros Hx; [discriminate|].
  destruct (step_format _ _ _ _ _ _ _ Hp Ho Hc Hx) as [H|(Hn & _ & H)].
  - destruct (IH H) as (after & o1 & before & W1 & W2 & -> & A & B & C & D).
    exists (o :: after), o1, before, W1, W2. auto.
  - exists [], o, h, W, W'. auto.
Qed.
Print Assumptions C69_format_made_by.
(** Every reachable state has such a past. *)
Theorem C69_pasts_exist : forall P W, reach P W -> exists h, past P h W.
Proof.
  intros P W. induction 1 as [|W o W' r _ [h IH] Ho H|W o W' _ [h IH] Ho H Hr].
  - exists []. constructor.
  - exists (o :: h). eapply past_call; [exact IH|exact Ho|]. now apply (mc_ret _ _ _ _ r).
  - exists (o :: h). eapply past_call; [exact IH|exact Ho|]. now apply mc_panic.
Qed.
Print Assumptions C69_pasts_exist.

(** Example: the type "console" is registered anew after the root logger got its output, and once more, before another
    output of that type is made: the first output is the built-in one, the second is made by the last creator. *)
Definition cr_a : ocreator := fun _ _ => Created {| os_sink := SinkMemory; os_async := None; os_threshold := Warn |}.
Definition cr_b : ocreator := fun _ _ => Created {| os_sink := SinkMemory; os_async := None; os_threshold := Error |}.
Definition cr_cfg : config := mkCfg
  [Some [($"type", $"text"); ($"name", $"f1"); ($"layout", $"%{msg}")]]
  [Some [($"type", $"console"); ($"name", $"c1"); ($"format", $"f1")]; Some [($"type", $"console"); ($"name", $"c2"); ($"format", $"f1")]]
  [mkCL ($"root") ($"info") [$"c1"; $"c2"]].
Definition cr_ops : list op := [OGetLogger []; ORegisterOutput ($"console") cr_a; ORegisterOutput ($"console") cr_b; OSetConfig cr_cfg [0%nat]].
Definition cr_run (P : params) : list op -> world -> list op * world :=
  fix go ops W := match ops with
  | [] => ([], W)
  | o :: ops => match exec P W o with Ok (W', _) => let (h, V) := go ops W' in (h ++ [o], V) | Panic => ([], W) end
  end.
Definition cr_W : world := snd (cr_run ex_P cr_ops (init_world ex_P)).
Definition op_okb (W : world) (o : op) : bool :=
  match o with OSetConfig _ [i] => match map snd (w_names W) with [j] => Nat.eqb i j | _ => false end
  | OGetLogger _ | ORegisterOutput _ _ => true | _ => false end.
Lemma op_okb_ok W o : op_okb W o = true -> op_ok W o.
Proof.
  destruct o; cbn; try discriminate; auto. destruct ord as [|i [|]]; try discriminate. destruct (map snd (w_names W)) as [|j [|]]; try discriminate.
  intros E. apply Nat.eqb_eq in E as ->. reflexivity.
Qed.
Fixpoint oksb (P : params) (ops : list op) (W : world) : bool :=
  match ops with [] => true | o :: ops => op_okb W o && match exec P W o with Ok (W', _) => oksb P ops W' | Panic => false end end.
Lemma cr_past P ops : forall W h0, past P h0 W -> oksb P ops W = true ->
  let (h, V) := cr_run P ops W in past P (h ++ h0) V /\ length h = length ops.
Proof.
  induction ops as [|o ops IH]; intros W h0 Hp H; [split; [exact Hp|reflexivity]|]. cbn in *. apply andb_prop in H as [H1 H2].
  destruct (exec P W o) as [[W' r]|] eqn:E; [|discriminate].
  assert (Hp' : past P (o :: h0) W') by (eapply past_call; [exact Hp|now apply op_okb_ok|eapply mc_ret; exact E]).
  specialize (IH W' (o :: h0) Hp' H2). destruct (cr_run P ops W') as [h V]. destruct IH as [IH L]. rewrite <- app_assoc. split; [exact IH|].
  rewrite app_length, L. cbn. lia.
Qed.
Definition cr_threshold (n : str) : option level :=
  match mlookup n (w_outputs cr_W) with Some i => option_map (fun o => os_threshold (o_spec o)) (nth_error (w_heap cr_W) i) | None => None end.
Example C69_ex : past ex_P (rev cr_ops) cr_W /\ has ($"c1") (w_outputs cr_W) /\ cr_threshold ($"c1") = Some All /\ cr_threshold ($"c2") = Some Error.
Proof.
  assert (K : oksb ex_P cr_ops (init_world ex_P) = true) by (vm_compute; reflexivity).
  split; [|split; [eexists; vm_compute; reflexivity|split; vm_compute; reflexivity]].
  pose proof (cr_past ex_P cr_ops (init_world ex_P) [] (past_start ex_P) K) as H. unfold cr_W.
  assert (E : fst (cr_run ex_P cr_ops (init_world ex_P)) = rev cr_ops) by reflexivity.
  destruct (cr_run ex_P cr_ops (init_world ex_P)) as [h V]. cbn [fst snd] in *. subst h. rewrite app_nil_r in H. apply H.
Qed.

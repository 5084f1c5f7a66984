(** Property C57: from the log call through an asynchronous output to the bytes on disk. *)
From Verif Require Import GoStr Utf8 LevelModel EventModel LayoutModel LayoutSpec LayoutProofs FormatSpec ConfModel OutputModel OutputSpec OutputProofs
  WorldModel WorldSpec WorldBase WorldInv WorldProofs LogProofs P_Hier P_Log EndModel EndSpec EndProofs.
From Verif Require Import RollModel RollSpec RollExec RollArchProofs RollDirProofs P_Output P_RollSize P_End.
From Verif Require Import AsyncModel AsyncSpec AsyncProofs P_Async AsyncEndModel AsyncEndSpec AsyncEndProofs.
Local Open Scope Z_scope.

(** At any moment of any execution, with any goroutines, on a directory without a log of that name and
    without faults of the file system: what was accepted was taken by the worker or is in the channel;
    what was taken is on disk or in the worker's buffer; what is on disk are whole groups of whole
    texts, never cut by the change of files. *)
Theorem C57_on_disk : forall C T c m progs f tr s f' w', rc_kind c = BySize m -> 0 < m -> tmp_ok c ->
  holds c (f_dir f) (mkLog [] None) -> stores C T c smooth progs f tr s f' w' -> a_crashed s = false ->
  Z.of_nat (length (a_out s)) < 2 ^ 63 ->
  exists taken waiting groups held files cur l, accepted tr (taken ++ waiting) /\ queued (a_queue s) waiting /\
    texts C taken (concat groups ++ held) /\ a_buf s = concat held /\
    segments m (map (@concat _) groups) files cur /\ holds c (f_dir f') l /\
    l_backups l = newest (rc_maxRolls c) (numbered files) /\ bytes (l_current l) = concat cur.
Proof.
  intros C T c m progs f tr s f' w' K MP TO HO ST CR RM.
  destruct (areach_cont _ _ _ _ (stores_reach _ _ _ _ _ _ _ _ _ _ ST)) as (tk & hd & segs & held & A & X & O & OL & B & N & HD & LT & WK).
  rewrite CR in HD. subst hd. cbn [app] in A.
  destruct (stores_happens _ _ _ _ _ _ _ _ _ _ ST) as (hs & PU & HA). destruct (put_chunks _ _ PU) as (CH & LN & HW).
  destruct (C36_split_at_writes T c m f hs f' w' K MP TO HA HW HO) as (files & cur & l & SG & HL & BK & CU); [now rewrite LN|].
  rewrite CH, O in SG. exists tk, (qevs (a_queue s)), segs, held, files, cur, l. rewrite <- A.
  split; [apply accf_spec|]. split; [apply qevs_spec|]. auto 8.
Qed.
Print Assumptions C57_on_disk.

(** When one goroutine has closed the output and the worker was running by then, the worker has gone. *)
Theorem C57_close_returned : forall C p tr1 tr2 s, areach C [p] (tr1 ++ Call 0 CClose :: tr2) s ->
  (forall j, ~ In (Call j CClose) tr1) -> In Start tr1 -> In (Ret 0 CClose) tr2 -> a_worker s = WGone.
Proof.
  intros C p tr1 tr2 s R NC ST RT.
  destruct (areach_cut _ _ _ _ R _ _ eq_refl) as (s1 & R1 & S).
  destruct (before_close _ _ _ _ R1 NC) as (O & A & W). apply W in ST as WR. pose proof O as (F & SH & (a & Q) & _).
  assert (J : ahead (length (accf tr1)) tr1 s1).
  { unfold ahead. rewrite WR. exists a, []. rewrite app_nil_r. split; [exact Q|unfold qevs; cbn; lia]. }
  assert (WT : waited s1).
  { right. repeat split; auto. intros k q todo N. apply A in N. destruct q; cbn in *; tauto. }
  destruct (waited_steps _ _ _ _ _ _ _ R1 J WT S) as [_ G]. apply (G 0%nat). now right.
Qed.
Print Assumptions C57_close_returned.

(** An asynchronous output rolling by size, on a directory without a log of that name. One goroutine
    calls the API ([os]: getting and configuring loggers, changing levels and outputs, logging), then
    closes the output and may go on to use it. Whatever the interleaving with the worker and the
    ticker, once the worker has gone, if the file system did not fail, all the events that the log
    calls delivered to the output are on disk, in order, formatted (on the worker's stack [stk]), those
    below the threshold left out, nothing else, cut into files between two groups. *)
Theorem C57_end_to_end : forall P T c m i x q b fm h stk W f os W' es more tr s f' w',
  reach P W -> nth_error (w_heap W) i = Some x -> os_sink (o_spec x) = SinkRolling c -> os_async (o_spec x) = Some (q, b) ->
  o_fmt x = Some fm -> built h (Some fm) -> rc_kind c = BySize m -> 0 < m -> tmp_ok c -> holds c (f_dir f) (mkLog [] None) ->
  passes P i W os W' (map CSend es) ->
  stores (async_conf (p_env P) stk (o_fmt x) (os_threshold (o_spec x)) q b) T c smooth [map CSend es ++ CClose :: more] f tr s f' w' ->
  a_worker s = WGone -> Z.of_nat (length (a_out s)) < 2 ^ 63 ->
  exists evs groups files cur l, deliveries P i W os evs /\ map snd evs = es /\
    written (p_env P) h (os_threshold (o_spec x)) (map (pair stk) es) (concat groups) /\
    segments m (map (@concat _) groups) files cur /\ holds c (f_dir f') l /\
    l_backups l = newest (rc_maxRolls c) (numbered files) /\ bytes (l_current l) = concat cur.
Proof.
  intros P T c m i x q b fm h stk W f os W' es more tr s f' w' R Hx S A FM B K MP TO HO PS ST WG RM.
  destruct (passes_deliver _ _ _ _ _ _ PS _ _ _ R Hx A) as (evs & D & M & FA). rewrite evs_of_map in M.
  pose proof (stores_reach _ _ _ _ _ _ _ _ _ _ ST) as AR. pose proof (one_orderly _ _ _ _ AR) as OR.
  assert (CR : a_crashed s = false).
  { destruct (a_crashed s) eqn:CR; [|reflexivity]. pose proof (crashed_worker _ _ _ _ AR CR). congruence. }
  pose proof (phase_left _ (proj1 (phase_reach _ _ _ _ OR)) (or_intror WG)) as QE.
  pose proof (solo_gone _ _ _ _ (solo_reach _ _ _ _ _ AR) (or_intror WG)) as AE.
  destruct (areach_cont _ _ _ _ AR) as (tk & hd & segs & held & AC & X & O & OL & BU & N & HD & LT & WK).
  rewrite CR in HD. subst hd. rewrite QE in AC. unfold qevs in AC. cbn in AC. rewrite app_nil_r in AC. rewrite WG in WK. subst held.
  rewrite app_nil_r in X. rewrite <- AC, AE in X. clear tk AC.
  destruct (stores_happens _ _ _ _ _ _ _ _ _ _ ST) as (hs & PU & HA). destruct (put_chunks _ _ PU) as (CH & LN & HW).
  destruct (C36_split_at_writes T c m f hs f' w' K MP TO HA HW HO) as (files & cur & l & SG & HL & BK & CU); [now rewrite LN|].
  rewrite CH, O in SG. exists evs, segs, files, cur, l. split; [exact D|]. split; [exact M|]. split; [|auto].
  rewrite FM in X. apply (C31_same_texts _ _ h) in X; [exact X|exact B|]. rewrite <- M. rewrite Forall_map. exact FA.
Qed.
Print Assumptions C57_end_to_end.
(** The same with the library's Close among the calls: what was delivered before it is on disk. *)
Theorem C57_whole_program : forall P T c m i x q b fm h stk W f os W' cs tr s f' w',
  reach P W -> nth_error (w_heap W) i = Some x -> os_sink (o_spec x) = SinkRolling c -> os_async (o_spec x) = Some (q, b) ->
  o_fmt x = Some fm -> built h (Some fm) -> rc_kind c = BySize m -> 0 < m -> tmp_ok c -> holds c (f_dir f) (mkLog [] None) ->
  passes P i W os W' cs -> In CClose cs ->
  stores (async_conf (p_env P) stk (o_fmt x) (os_threshold (o_spec x)) q b) T c smooth [cs] f tr s f' w' ->
  a_worker s = WGone -> Z.of_nat (length (a_out s)) < 2 ^ 63 ->
  exists os1 os2 evs groups files cur l, os = os1 ++ WorldModel.OClose :: os2 /\ deliveries P i W os1 evs /\
    written (p_env P) h (os_threshold (o_spec x)) (map (fun p => (stk, snd p)) evs) (concat groups) /\
    segments m (map (@concat _) groups) files cur /\ holds c (f_dir f') l /\
    l_backups l = newest (rc_maxRolls c) (numbered files) /\ bytes (l_current l) = concat cur.
Proof.
  intros P T c m i x q b fm h stk W f os W' cs tr s f' w' R Hx S A FM B K MP TO HO PS IC ST WG RM.
  assert (SP : exists es more, cs = map CSend es ++ CClose :: more).
  { clear - IC. induction cs as [|[e|] cs IH]; [contradiction| |exists [], cs; reflexivity].
    destruct IC as [E|IC]; [discriminate|]. destruct (IH IC) as (es & more & ->). exists (e :: es), more. reflexivity. }
  destruct SP as (es & more & ->).
  destruct (passes_close _ _ _ _ _ _ PS _ _ _ _ _ R Hx A eq_refl) as (os1 & W1 & os2 & E & PS1).
  destruct (C57_end_to_end P T c m i x q b fm h stk W f os1 W1 es more tr s f' w') as (evs & gs & fi & cu & l & D & M & REST); try assumption.
  exists os1, os2, evs, gs, fi, cu, l. split; [exact E|]. split; [exact D|]. rewrite <- M, map_map in REST. exact REST.
Qed.
Print Assumptions C57_whole_program.
(** On any log left by earlier processes: what is on disk then is what was there, followed by the
    groups, up to a number of the oldest pieces. If the format does not ask for the call site or the
    events carry it, and there is no bound on the number of backups, then the bytes added are those
    that a synchronous output would have added (C50_suffix). *)
Theorem C57_same_bytes : forall P T c m i x q b fm h stk W f os W' es more tr s f' w' l,
  reach P W -> nth_error (w_heap W) i = Some x -> os_sink (o_spec x) = SinkRolling c -> os_async (o_spec x) = Some (q, b) ->
  o_fmt x = Some fm -> built h (Some fm) -> rc_kind c = BySize m -> 0 < m -> tmp_ok c -> holds c (f_dir f) l ->
  passes P i W os W' (map CSend es) -> Forall (settled h) es ->
  stores (async_conf (p_env P) stk (o_fmt x) (os_threshold (o_spec x)) q b) T c smooth [map CSend es ++ CClose :: more] f tr s f' w' ->
  a_worker s = WGone -> room (l_backups l) (length (a_out s)) ->
  exists evs texts groups l' k, deliveries P i W os evs /\ written (p_env P) h (os_threshold (o_spec x)) evs texts /\
    concat groups = texts /\ holds c (f_dir f') l' /\
    on_disk l' = concat (skipn k (map snd (l_backups l) ++ [bytes (l_current l)] ++ map (@concat _) groups)) /\
    (rc_maxRolls c <= 0 -> on_disk l' = on_disk l ++ concat texts).
Proof.
  intros P T c m i x q b fm h stk W f os W' es more tr s f' w' l R Hx S A FM B K MP TO HO PS SE ST WG RM.
  destruct (passes_deliver _ _ _ _ _ _ PS _ _ _ R Hx A) as (evs & D & M & FA). rewrite evs_of_map in M.
  pose proof (stores_reach _ _ _ _ _ _ _ _ _ _ ST) as AR. pose proof (one_orderly _ _ _ _ AR) as OR.
  assert (CR : a_crashed s = false).
  { destruct (a_crashed s) eqn:CR; [|reflexivity]. pose proof (crashed_worker _ _ _ _ AR CR). congruence. }
  pose proof (phase_left _ (proj1 (phase_reach _ _ _ _ OR)) (or_intror WG)) as QE.
  pose proof (solo_gone _ _ _ _ (solo_reach _ _ _ _ _ AR) (or_intror WG)) as AE.
  destruct (areach_cont _ _ _ _ AR) as (tk & hd & segs & held & AC & X & O & OL & BU & N & HD & LT & WK).
  rewrite CR in HD. subst hd. rewrite QE in AC. unfold qevs in AC. cbn in AC. rewrite app_nil_r in AC. rewrite WG in WK. subst held.
  rewrite app_nil_r in X. rewrite <- AC, AE in X. clear tk AC.
  destruct (stores_happens _ _ _ _ _ _ _ _ _ _ ST) as (hs & PU & HA). destruct (put_chunks _ _ PU) as (CH & LN & HW).
  destruct (C36_as_specified T c m f hs f' w' l K MP TO HA (no_crash _ HW) HO) as (l' & o' & SP & HO'); [now rewrite LN|].
  destruct (pieces_left _ _ _ _ _ _ _ SP (no_restart _ HW)) as (k & OD & Z). rewrite CH, O in OD. unfold pieces in OD. rewrite <- app_assoc in OD.
  rewrite FM in X. apply (C31_same_texts _ _ h) in X; [|exact B|rewrite <- M, Forall_map; exact FA].
  assert (WR : written (p_env P) h (os_threshold (o_spec x)) evs (concat segs)).
  { rewrite <- M in X. eapply written_elsewhere; [exact B|exact FA| |exact X]. rewrite <- M, Forall_map in SE. exact SE. }
  exists evs, (concat segs), segs, l', k. split; [exact D|]. split; [exact WR|]. split; [reflexivity|]. split; [exact HO'|]. split; [exact OD|].
  intros MR. rewrite OD, (Z MR). cbn [skipn]. unfold on_disk. rewrite !concat_app. cbn [concat]. rewrite app_nil_r, concat_map_concat, app_assoc. reflexivity.
Qed.
Print Assumptions C57_same_bytes.
(** What the worker prints does not depend on its stack, for such events. *)
Theorem C57_any_stack : forall E h fm stk stk' e b, built h (Some fm) -> formattable e -> settled h e ->
  text_of E h stk e b -> text_of E h stk' e b.
Proof. exact elsewhere. Qed.
Print Assumptions C57_any_stack.
(** The events of level methods are such events, if formatters are set before outputs are attached. *)
Theorem C57_settled : forall P W n id c lvl fmt args now ustk W' r new i x h stk e s,
  calm_reach P W -> has_name W n id -> good_ctx c -> user_skip W n s -> 0 <= s -> (Z.to_nat s < length ustk)%nat ->
  nth_error (w_heap W) i = Some x -> built h (o_fmt x) ->
  WorldModel.exec P W (OLog id c Named lvl fmt args now ustk) = Ok (W', r) -> w_sent W' = w_sent W ++ new -> In (i, (stk, e)) new ->
  settled h e.
Proof.
  intros P W n id c lvl fmt args now ustk W' r new i x h stk e s R HN G US S0 LN Hx B H NW I.
  destruct h as [|layout|u]; try exact Logic.I. cbn.
  destruct (nth_error ustk (Z.to_nat s)) as [fr|] eqn:FR; [|apply nth_error_None in FR; lia].
  pose proof (calm_reach_reach _ _ R) as R0.
  destruct (C07_delivered_to_route _ _ _ _ _ _ _ _ _ _ _ _ _ R0 HN H) as (new' & N' & RT).
  rewrite NW in N'. apply app_inv_head in N'. subst new'.
  assert (IO : In i (map fst new)) by (apply in_map_iff; exists (i, (stk, e)); auto).
  destruct (route_server _ _ _ _ RT _ IO) as (o & lo & SV & LO & IL).
  destruct (o_fmt x) as [fm|] eqn:FM; [|inversion B]. inversion B as [|ly ps HP|]; subst. apply Parser_exact in HP as (items & SP & _ & _).
  assert (DC : (exists n0 sp, In (Verb n0 sp) items /\ In n0 site_verbs) \/ (forall n0 sp, In (Verb n0 sp) items -> ~ In n0 site_verbs)).
  { clear. induction items as [|it items [(n0 & sp & A & C)|IH]]; [right; intros ? ? []|left; exists n0, sp; split; [now right|exact C]|].
    destruct it as [t|n0 sp]; [right; intros n1 s1 [E|J]; [discriminate|eauto]|].
    destruct (in_dec (list_eq_dec Ascii.ascii_dec) n0 site_verbs) as [J|J]; [left; exists n0, sp; split; [now left|exact J]|].
    right. intros n1 s1 [E|J2]; [injection E as <- <-; exact J|eauto]. }
  destruct DC as [(n0 & sp & IV & SV0)|NV].
  - left. destruct (C25_captured_in_call P W n id c lvl fmt args now ustk W' r new i stk e s fr o lo i x layout items n0 sp
      R HN G US S0 FR SV LO IL Hx) as [CA _]; try assumption; [rewrite FM; exact B|].
    destruct CA as (ci & CI & _); [|eauto]. unfold site_verbs in SV0. cbn in SV0. cbn. tauto.
  - right. intros items' n1 s1 SP2. rewrite (splits_det _ _ _ SP2 SP). apply NV.
Qed.
Print Assumptions C57_settled.
(** Every execution of the output's goroutines is one on the directory: no write need fail for reasons
    of its own. Every sequence of calls that return has such calls on the output. *)
Theorem C57_executions_exist : forall C T c m progs f l tr s, rc_kind c = BySize m -> 0 < m -> tmp_ok c ->
  holds c (f_dir f) l -> room (l_backups l) (length (a_out s)) -> (exists ns, lists (f_dir f) ns) -> areach C progs tr s ->
  exists f' w', stores C T c smooth progs f tr s f' w'.
Proof.
  intros C T c m progs f l tr s K MP TO HO RM LS AR.
  destruct (C36_writes_can_succeed T c m f l (a_out s) K MP TO HO RM LS) as (f' & w' & H).
  exists f', w'. eapply reach_stores; eassumption.
Qed.
Print Assumptions C57_executions_exist.
Theorem C57_calls_exist : forall P i W os W' x, reach P W -> nth_error (w_heap W) i = Some x -> goes P i W os W' ->
  exists cs, passes P i W os W' cs.
Proof. intros P i W os W' x R Hx G. eapply goes_passes; eassumption. Qed.
Print Assumptions C57_calls_exist.

(** Example: as in C50, but asynchronous: a channel of two, groups of two events; the layout is that of
    aend_layout. The goroutine logs, closes, and logs once more. The ticker flushes once in between. *)
Definition aend_layout : str := $"%{module}: %{msg};".
Definition aend_fmt : option formatter := option_map FText (Parser aend_layout).
Definition aend_out : out_spec := {| os_sink := SinkRolling end_conf; os_async := Some (2, 2); os_threshold := Info |}.
Definition aend_W : world := ran ex_P [OGetLogger ($"a/b"); ONewOutput aend_out aend_fmt; OSetOutputs 1 [1%nat]].
Definition aend_os : list WorldModel.op :=
  [end_log 2 Warn ($"one"); end_log 1 Debug ($"two"); end_log 2 Error ($"three"); end_log 1 Info ($"four and more"); end_log 2 Info ($"five")].
Definition aend_W' : world := match run ex_P aend_W aend_os with Ok W => W | Panic => aend_W end.
Definition aend_es : list event := map (fun d => snd (snd d)) (w_sent aend_W').
Definition aend_C : aconf := async_conf (p_env ex_P) [] aend_fmt Info 2 2.
Definition aend_sched : list choice :=
  [Thread 0; Thread 0; Thread 0; Thread 0; WStart; Thread 0; Thread 0; Thread 0; Thread 0; WRecv; WTick; WRecv; Thread 0; Thread 0; Thread 0; Thread 0; WRecv; Thread 0; Thread 0; Thread 0; Thread 0; WRecv;
   Thread 0; Thread 0; Thread 0; Thread 0; Thread 0; Thread 0; Thread 0; WRecv; WRecv; WDone; Thread 0; Thread 0; Thread 0; Thread 0].
Definition aend_texts : list str := [$"a/b: one;"; $"a/b: three;a: four and more;"; $"a/b: five;"].
Lemma aend_reach : reach ex_P aend_W.
Proof. apply ran_reach. vm_compute. reflexivity. Qed.
Lemma aend_cell : nth_error (w_heap aend_W) 1 = Some (mkOut aend_out aend_fmt [] [] 0).
Proof. vm_compute. reflexivity. Qed.
Lemma aend_goes : goes ex_P 1 aend_W aend_os aend_W'.
Proof.
  unfold aend_W'. destruct (run ex_P aend_W aend_os) as [W|] eqn:E.
  - apply run_goes; [vm_compute; reflexivity|exact E].
  - exfalso. assert (H : match run ex_P aend_W aend_os with Ok _ => true | Panic => false end = true) by (vm_compute; reflexivity).
    rewrite E in H. discriminate.
Qed.
Lemma aend_passes : passes ex_P 1 aend_W aend_os aend_W' (map CSend aend_es).
Proof.
  destruct (goes_passes _ _ _ _ _ aend_goes _ aend_reach aend_cell) as [cs PS].
  assert (E : cs = map CSend aend_es); [|now rewrite <- E].
  rewrite (passes_open _ _ _ _ _ _ PS _ _ _ aend_reach aend_cell eq_refl); [|cbn; intuition discriminate].
  destruct (passes_sent _ _ _ _ _ _ PS) as (new & evs & N & S & E). rewrite E. f_equal. unfold aend_es.
  assert (N0 : w_sent aend_W = []) by (vm_compute; reflexivity). rewrite N0 in N. cbn [app] in N. rewrite N.
  assert (F : forallb (fun d => Nat.eqb (fst d) 1) (w_sent aend_W') = true) by (vm_compute; reflexivity). rewrite N in F.
  clear - S F. induction S as [|d ds l S IH|j d ds l NE S IH]; cbn in *; [reflexivity|f_equal; auto|].
  apply andb_true_iff in F as [F _]. apply Nat.eqb_eq in F. congruence.
Qed.
Example C57_ex : exists tr s f' w',
  stores (async_conf (p_env ex_P) [] aend_fmt Info 2 2) noP end_conf smooth [map CSend aend_es ++ [CClose]] (fs_of end_sim) tr s f' w' /\
  a_worker s = WGone /\ In (Ret 0 CClose) tr /\
  map (f_dir f') [$"a.1"; $"a.2"; $"a"] =
    [Some (Reg ($"a/b: one;a/b: three;a: four and more;")); None; Some (Reg ($"a/b: five;"))].
Proof.
  destruct (arun aend_C (a_init [map CSend aend_es ++ [CClose]]) aend_sched) as [[tr s]|] eqn:E.
  2:{ exfalso. assert (H : match arun aend_C (a_init [map CSend aend_es ++ [CClose]]) aend_sched with Some _ => true | None => false end = true)
        by (vm_compute; reflexivity). rewrite E in H. discriminate. }
  assert (O : option_map (fun r => (a_out (snd r), a_worker (snd r), existsb (fun l => match l with Ret O CClose => true | _ => false end) (fst r)))
     (arun aend_C (a_init [map CSend aend_es ++ [CClose]]) aend_sched) = Some (aend_texts, WGone, true)) by (vm_compute; reflexivity).
  rewrite E in O. cbn [option_map fst snd] in O. injection O as O1 O2 O3.
  pose proof (arun_reach _ _ _ _ _ _ _ (ar_init aend_C [map CSend aend_es ++ [CClose]]) E) as R. cbn [app] in R.
  assert (H : show noP end_conf (map (fun b => SWrite b) aend_texts) end_sim [$"a.1"; $"a.2"; $"a"] =
    Some (map well_put aend_texts, true, [Some (Reg ($"a/b: one;a/b: three;a: four and more;")); None; Some (Reg ($"a/b: five;"))]))
    by (vm_compute; reflexivity).
  apply show_happens in H as (f' & w' & H & D); [|apply sim_finite; repeat constructor; intros []].
  exists tr, s, f', w'. split; [|split; [exact O2|split; [|exact D]]].
  - apply reach_stores; [exact R|]. rewrite O1. exact H.
  - apply existsb_exists in O3 as (l & I & Q). clear - I Q. destruct l as [| |i c| | | | |]; try discriminate Q.
    destruct i; [|discriminate Q]. destruct c; [discriminate Q|exact I].
Qed.
Definition aend_parts : list part := Eval vm_compute in match Parser aend_layout with Some ps => ps | None => [] end.
Example C57_ex_settled : Forall (settled (ByLayout aend_layout)) aend_es.
Proof.
  apply Forall_forall. intros e _. right. intros items n x SP I.
  assert (E : Parser aend_layout = Some aend_parts) by (vm_compute; reflexivity).
  apply Parser_exact in E as (items2 & SP2 & _ & M). rewrite (splits_det _ _ _ SP SP2) in I.
  assert (D : map describe aend_parts = items2).
  { rewrite M, map_map, (map_ext_in _ (fun i => i)); [apply map_id|]. intros i Hin. apply describe_part_of.
    pose proof (splits_ok _ _ SP2) as Hok. rewrite Forall_forall in Hok. auto. }
  rewrite <- D in I. cbn in I. destruct I as [E|[E|[E|[E|[]]]]]; try discriminate; injection E as <- <-; vm_compute; intuition discriminate.
Qed.

(** Property C59: goroutines that log at the same time, from the log calls to the bytes on disk. *)
From Verif Require Import RollConcModel RollConcSpec RollConcProofs P_Conc.
From Verif Require Import GoStr Utf8 LevelModel EventModel LayoutModel LayoutSpec LayoutProofs FormatSpec ConfModel OutputModel OutputSpec OutputProofs
  WorldModel WorldSpec WorldBase WorldInv WorldProofs LogProofs P_Hier P_Log EndModel EndSpec EndProofs.
From Verif Require Import RollModel RollSpec RollExec RollArchProofs RollDirProofs P_Output P_RollSize P_End.
From Verif Require Import AsyncModel AsyncSpec AsyncProofs P_Async AsyncEndModel AsyncEndSpec AsyncEndProofs P_AsyncEnd.
From Verif Require Import ManySpec ManyModel ManyProofs ManyAsyncProofs.
Local Open Scope Z_scope.

(** What a goroutine's log calls do with an output does not depend on the other goroutines' log calls:
    in whatever order the calls of all are made, each goroutine makes the calls of Send and Close
    (the calls of Write) that it would make alone, in its order. *)
Theorem C59_independent_sends : forall P i gs os W W2 cs, interleave gs os -> Forall (Forall logs) gs -> passes P i W os W2 cs ->
  exists css, Forall2 (fun g c => exists V2, passes P i W g V2 c) gs css /\ interleave css cs.
Proof. exact passes_interleave. Qed.
Print Assumptions C59_independent_sends.
Theorem C59_independent_writes : forall P i gs os W W2 ws, interleave gs os -> Forall (Forall logs) gs -> puts P i W os W2 ws ->
  exists wss, Forall2 (fun g b => exists V2, puts P i W g V2 b) gs wss /\ interleave wss ws.
Proof. exact puts_interleave. Qed.
Print Assumptions C59_independent_writes.

Lemma deliver_all P i x q b W : reach P W -> nth_error (w_heap W) i = Some x -> os_async (o_spec x) = Some (q, b) ->
  forall gs ess, Forall2 (fun g es => exists W', passes P i W g W' (map CSend es)) gs ess ->
  exists evss, Forall2 (deliveries P i W) gs evss /\ map (map snd) evss = ess /\ Forall (Forall formattable) ess.
Proof.
  intros R Hx A gs ess F. induction F as [|g es gs ess (W' & PS) F (evss & D & M & FA)]; [exists []; repeat split; constructor|].
  destruct (passes_deliver _ _ _ _ _ _ PS _ _ _ R Hx A) as (evs & D1 & M1 & FA1). rewrite evs_of_map in M1.
  exists (evs :: evss). split; [now constructor|]. split; [cbn; now rewrite M1, M|]. constructor; [|exact FA].
  rewrite <- M1, Forall_map. exact FA1.
Qed.
Lemma interleave_all {A} (Q : A -> Prop) ls l : interleave ls l -> Forall (Forall Q) ls -> Forall Q l.
Proof.
  induction 1 as [ls N|ls1 x l ls2 r I IH]; intros F; [constructor|].
  apply Forall_app in F as [F1 F2]. apply Forall_cons_iff in F2 as [F2 F3]. apply Forall_cons_iff in F2 as [Fx F2].
  constructor; [exact Fx|]. apply IH, Forall_app. auto.
Qed.

(** An asynchronous output rolling by size, on a directory without a log of that name. Any number of
    goroutines log at the same time ([gs]: the log calls of each; the last one is the main goroutine).
    When all the calls have returned, the main goroutine closes the output. Whatever the interleaving
    with each other, the worker and the ticker, once the worker has gone, if the file system did not
    fail: what is on disk are the events that the log calls of all goroutines delivered to the output,
    each goroutine's in its order, every one of them and nothing else, formatted, those below the
    threshold left out, whole, cut into files between two groups. *)
Theorem C59_async : forall P T c m i x q b fm h stk W f others main oess es tr1 tr2 s f' w',
  reach P W -> nth_error (w_heap W) i = Some x -> os_sink (o_spec x) = SinkRolling c -> os_async (o_spec x) = Some (q, b) ->
  o_fmt x = Some fm -> built h (Some fm) -> rc_kind c = BySize m -> 0 < m -> tmp_ok c -> holds c (f_dir f) (mkLog [] None) ->
  Forall2 (fun g es => exists W', passes P i W g W' (map CSend es)) (others ++ [main]) (oess ++ [es]) ->
  stores (async_conf (p_env P) stk (o_fmt x) (os_threshold (o_spec x)) q b) T c smooth
    (map (map CSend) oess ++ [map CSend es ++ [CClose]]) f (tr1 ++ Call (length oess) CClose :: tr2) s f' w' ->
  (forall k sent, nth_error (oess ++ [es]) k = Some sent -> returned k tr1 sent) ->
  a_worker s = WGone -> Z.of_nat (length (a_out s)) < 2 ^ 63 ->
  exists evss order groups files cur l, Forall2 (deliveries P i W) (others ++ [main]) evss /\
    interleave (map (map snd) evss) order /\
    written (p_env P) h (os_threshold (o_spec x)) (map (pair stk) order) (concat groups) /\
    segments m (map (@concat _) groups) files cur /\ holds c (f_dir f') l /\
    l_backups l = newest (rc_maxRolls c) (numbered files) /\ bytes (l_current l) = concat cur.
Proof.
  intros P T c m i x q b fm h stk W f others main oess es tr1 tr2 s f' w' R Hx S A FM B K MP TO HO PS ST RT WG RM.
  destruct (deliver_all _ _ _ _ _ _ R Hx A _ _ PS) as (evss & D & M & FA).
  pose proof (stores_reach _ _ _ _ _ _ _ _ _ _ ST) as AR.
  destruct (closed_orderly _ _ _ _ _ _ AR RT) as [OR _]. pose proof (accepted_interleave _ _ _ _ _ _ AR RT) as IL.
  assert (CR : a_crashed s = false).
  { destruct (a_crashed s) eqn:CR; [|reflexivity]. pose proof (crashed_worker _ _ _ _ AR CR). congruence. }
  pose proof (phase_left _ (proj1 (phase_reach _ _ _ _ OR)) (or_intror WG)) as QE.
  destruct (areach_cont _ _ _ _ AR) as (tk & hd & segs & held & AC & X & O & OL & BU & N & HD & LT & WK).
  rewrite CR in HD. subst hd. rewrite QE in AC. unfold qevs in AC. cbn [flat_map app] in AC. rewrite app_nil_r in AC. rewrite WG in WK. subst held.
  rewrite app_nil_r in X. rewrite AC in IL.
  destruct (stores_happens _ _ _ _ _ _ _ _ _ _ ST) as (hs & PU & HA). destruct (put_chunks _ _ PU) as (CH & LN & HW).
  destruct (C36_split_at_writes T c m f hs f' w' K MP TO HA HW HO) as (files & cur & l & SG & HL & BK & CU); [now rewrite LN|].
  rewrite CH, O in SG. exists evss, tk, segs, files, cur, l. split; [exact D|]. rewrite M. split; [exact IL|]. split; [|auto].
  rewrite FM in X. apply (C31_same_texts _ _ h) in X; [exact X|exact B|]. exact (interleave_all _ _ _ IL FA).
Qed.
Print Assumptions C59_async.

Lemma puts_deliver P i W os W' ws : puts P i W os W' ws ->
  forall x h, reach P W -> nth_error (w_heap W) i = Some x -> sync_base x -> built h (o_fmt x) ->
  exists evs, deliveries P i W os evs /\ written (p_env P) h (os_threshold (o_spec x)) evs ws.
Proof.
  induction 1 as [W|W o W1 r ws os W2 rest OK F X (y & y1 & Y & Y1 & YW) HS IH]; intros x h R Hx SB B.
  - exists []. split; constructor.
  - rewrite Hx in Y. injection Y as <-. assert (R1 : reach P W1) by (econstructor; eassumption).
    assert (LD : logs o \/ ~ logs o) by (destruct o; cbn; auto).
    destruct LD as [L|NL].
    + destruct o as [| | | |id cx v lvl fmt args now ustk| | | | | | | | | ]; try contradiction.
      assert (HN : exists n, has_name W n id).
      { cbn [WorldModel.exec] in X. unfold Printf in X. destruct (nth_error (w_loggers W) id) as [l|] eqn:E; [|discriminate].
        exists (l_name l), l. auto. }
      destruct HN as [n HN].
      destruct (log_keeps _ _ _ _ _ _ _ _ _ _ _ _ _ _ _ _ R HN F X Hx SB B) as (outs & evs & ws' & x1 & A1 & A2 & A3 & A4 & A5 & A6 & A7 & A8).
      rewrite Y1 in A5. injection A5 as <-. rewrite YW in A6. apply app_inv_head in A6. subst ws'.
      assert (SB1 : sync_base y1) by (unfold sync_base; rewrite A7; exact SB).
      destruct (IH y1 h R1 Y1 SB1) as (evs2 & B1 & B2); [now rewrite A8|].
      exists (evs ++ evs2). split; [econstructor; eassumption|]. rewrite A7 in B2. now apply written_app.
    + destruct (exec_keeps _ _ _ _ _ _ _ X (reach_inv _ _ R) NL F Hx) as (x1 & E1 & C). rewrite Y1 in E1. injection E1 as <-.
      injection C as C1 C2 C3. rewrite YW in C3.
      assert (ws = []) as ->. { rewrite <- (app_nil_r (o_writes x)) in C3 at 2. now apply app_inv_head in C3. }
      assert (SB1 : sync_base y1) by (unfold sync_base; rewrite C1; exact SB).
      destruct (IH y1 h R1 Y1 SB1) as (evs2 & B1 & B2); [now rewrite C2|].
      exists evs2. split; [econstructor; eassumption|]. now rewrite <- C1.
Qed.
Lemma deliver_all_sync P i x h W : reach P W -> nth_error (w_heap W) i = Some x -> sync_base x -> built h (o_fmt x) ->
  forall gs wss, Forall2 (fun g ws => exists W', puts P i W g W' ws) gs wss ->
  exists evss, Forall2 (deliveries P i W) gs evss /\ Forall2 (written (p_env P) h (os_threshold (o_spec x))) evss wss.
Proof.
  intros R Hx SB B gs wss F. induction F as [|g ws gs wss (W' & PS) F (evss & D & WR)]; [exists []; repeat split; constructor|].
  destruct (puts_deliver _ _ _ _ _ _ PS _ _ R Hx SB B) as (evs & D1 & W1). exists (evs :: evss). split; now constructor.
Qed.

(** The same for a synchronous output: each log call writes the text of its event from its own
    goroutine, and the goroutines meet at the lock of the rolling writer. When all have returned, the
    files hold the texts of all goroutines' events, each goroutine's in its order, whole. *)
Theorem C59_sync : forall P T c m i x h W f gs wss tr s,
  reach P W -> nth_error (w_heap W) i = Some x -> os_sink (o_spec x) = SinkRolling c -> os_async (o_spec x) = None ->
  built h (o_fmt x) -> rc_kind c = BySize m -> 0 < m -> tmp_ok c -> holds c (f_dir f) (mkLog [] None) ->
  Forall2 (fun g ws => exists W', puts P i W g W' ws) gs wss ->
  csteps T c (c_start f w_new (fun k => nth k wss [])) tr s -> Forall (fun x => smooth (snd x)) tr ->
  (forall k, t_now (c_threads s k) = None /\ t_todo (c_threads s k) = []) ->
  Z.of_nat (length (concat wss)) < 2 ^ 63 ->
  exists evss order files cur l, Forall2 (deliveries P i W) gs evss /\
    Forall2 (written (p_env P) h (os_threshold (o_spec x))) evss wss /\ interleave wss order /\
    segments m order files cur /\ holds c (f_dir (c_fs s)) l /\
    l_backups l = newest (rc_maxRolls c) (numbered files) /\ bytes (l_current l) = concat cur.
Proof.
  intros P T c m i x h W f gs wss tr s R Hx S A B K MP TO HO PS CS SM FIN RM.
  destruct (deliver_all_sync _ _ _ _ _ R Hx (rolling_sync _ _ S A) B _ _ PS) as (evss & D & WR).
  destruct (C47_files T c m f _ tr s K MP TO CS SM FIN HO) as (l & MI & FI).
  assert (IL : interleave wss (map (fun y => fst (snd y)) l)).
  { replace (map (fun y => fst (snd y)) l) with (map snd (map (fun y => (fst y, fst (snd y))) l)) by (now rewrite map_map). apply tagged_interleave. intros k. rewrite <- MI. unfold of_tag, mine.
    clear. induction l as [|[t [d y]] l IH]; [reflexivity|]. cbn. destruct (Nat.eqb t k); cbn; [now f_equal|exact IH]. }
  pose proof (il_length _ _ IL) as LN. rewrite map_length in LN.
  rewrite <- LN in RM. destruct (FI RM) as (files & cur & d & SG & HL & BK & CU).
  exists evss, (map (fun y => fst (snd y)) l), files, cur, d. auto 8.
Qed.
Print Assumptions C59_sync.

(** Every sequence of calls that return has its calls on the output. *)
Lemma goes_puts P i W os W' : goes P i W os W' ->
  forall x h, reach P W -> nth_error (w_heap W) i = Some x -> sync_base x -> built h (o_fmt x) ->
  exists x' ws, nth_error (w_heap W') i = Some x' /\ o_writes x' = o_writes x ++ ws /\ puts P i W os W' ws.
Proof.
  induction 1 as [W|W o W1 r os W2 OK F X G IH]; intros x h R Hx SB B.
  - exists x, []. rewrite app_nil_r. split; [exact Hx|]. split; [reflexivity|constructor].
  - assert (R1 : reach P W1) by (econstructor; eassumption).
    destruct (goes_session P noP end_conf smooth i W [o] W1) with (x := x) (h := h) as (x1 & ws & E1 & E2 & _);
      try assumption; [econstructor; [exact OK|exact F|exact X|constructor]|].
    assert (E34 : o_spec x1 = o_spec x /\ o_fmt x1 = o_fmt x).
    { assert (LD : logs o \/ ~ logs o) by (destruct o; cbn; auto). destruct LD as [L|NL].
      - destruct o as [| | | |id cx v lvl fmt args now ustk| | | | | | | | | ]; try contradiction.
        assert (HN : exists n, has_name W n id).
        { cbn [WorldModel.exec] in X. unfold Printf in X. destruct (nth_error (w_loggers W) id) as [l|] eqn:E; [|discriminate].
          exists (l_name l), l. auto. }
        destruct HN as [n HN].
        destruct (log_keeps _ _ _ _ _ _ _ _ _ _ _ _ _ _ _ _ R HN F X Hx SB B) as (outs & evs & ws' & x2 & _ & _ & _ & _ & A5 & _ & A7 & A8).
        rewrite E1 in A5. injection A5 as <-. auto.
      - destruct (exec_keeps _ _ _ _ _ _ _ X (reach_inv _ _ R) NL F Hx) as (x2 & E & C). injection C as C1 C2 C3.
        rewrite E1 in E. injection E as <-. auto. }
    destruct E34 as [E3 E4]. assert (SB1 : sync_base x1) by (unfold sync_base; rewrite E3; exact SB).
    destruct (IH x1 h R1 E1 SB1) as (x2 & ws2 & F1 & F2 & F3); [now rewrite E4|].
    exists x2, (ws ++ ws2). split; [exact F1|]. split; [rewrite F2, E2; now rewrite app_assoc|].
    econstructor; [exact OK|exact F|exact X|exists x, x1; auto|exact F3].
Qed.
Theorem C59_calls_exist : forall P i W os W' x h, reach P W -> nth_error (w_heap W) i = Some x -> sync_base x -> built h (o_fmt x) ->
  goes P i W os W' -> exists ws, puts P i W os W' ws.
Proof. intros P i W os W' x h R Hx SB B G. destruct (goes_puts _ _ _ _ _ G _ _ R Hx SB B) as (x' & ws & _ & _ & H). eauto. Qed.
Print Assumptions C59_calls_exist.

(** Example: the output of C57; two goroutines log two records each, one of them below the threshold;
    the first record of the second goroutine overtakes that of the first one. *)
Definition many_g0 : list WorldModel.op := [end_log 2 Warn ($"one"); end_log 1 Info ($"two and more")].
Definition many_g1 : list WorldModel.op := [end_log 2 Error ($"three"); end_log 1 Debug ($"four")].
Definition many_es (W : world) (os : list WorldModel.op) : list event :=
  match run ex_P W os with Ok W' => map (fun d => snd (snd d)) (w_sent W') | Panic => [] end.
Definition run_ok (i : nat) (W : world) (os : list WorldModel.op) : bool :=
  forallb (goes_b i) os && match run ex_P W os with Ok W' => forallb (fun d => Nat.eqb (fst d) i) (w_sent W') | Panic => false end &&
  forallb (fun o => match o with WorldModel.OClose => false | _ => true end) os.
Lemma many_passes os : run_ok 1 aend_W os = true -> exists W', passes ex_P 1 aend_W os W' (map CSend (many_es aend_W os)).
Proof.
  unfold run_ok, many_es. intros H. apply andb_true_iff in H as [H NC]. apply andb_true_iff in H as [G F].
  destruct (run ex_P aend_W os) as [W'|] eqn:E; [|discriminate]. exists W'. pose proof (run_goes _ _ _ _ _ G E) as GO.
  destruct (goes_passes _ _ _ _ _ GO _ aend_reach aend_cell) as [cs PS].
  assert (X : cs = map CSend (map (fun d => snd (snd d)) (w_sent W'))); [|now rewrite <- X].
  rewrite (passes_open _ _ _ _ _ _ PS _ _ _ aend_reach aend_cell eq_refl).
  - destruct (passes_sent _ _ _ _ _ _ PS) as (new & evs & N & S & Y). rewrite Y. f_equal.
    assert (N0 : w_sent aend_W = []) by (vm_compute; reflexivity). rewrite N0 in N. cbn [app] in N. rewrite N in *.
    clear - S F. induction S as [|d ds l S IH|j d ds l NE S IH]; cbn in *; [reflexivity|f_equal; auto|].
    apply andb_true_iff in F as [F _]. apply Nat.eqb_eq in F. congruence.
  - intros I. rewrite forallb_forall in NC. specialize (NC _ I). discriminate.
Qed.
Lemma some_eq {A} (x y : A) : Some x = Some y -> x = y.
Proof. congruence. Qed.
Lemma cut_at n tr : match skipn n tr with Call 1 CClose :: _ => true | _ => false end = true ->
  exists tr2, tr = firstn n tr ++ Call 1 CClose :: tr2.
Proof.
  intros O. destruct (skipn n tr) as [|l r] eqn:K; [discriminate|]. exists r. rewrite <- (firstn_skipn n tr) at 1. rewrite K. f_equal. f_equal.
  destruct l as [[|[|k]] [e|]| | | | | | |]; try discriminate. reflexivity.
Qed.
Definition many_sched1 : list choice :=
  [Thread 0; Thread 1; Thread 1; Thread 0; WStart; Thread 1; Thread 0; WRecv; WRecv; Thread 0; Thread 1;
   Thread 0; Thread 0; Thread 1; Thread 0; Thread 0; Thread 1; Thread 1; Thread 1; WTick; WRecv].
Definition many_sched2 : list choice := [Thread 1; Thread 1; Thread 1; WRecv; WRecv; WDone; Thread 1; Thread 1; Thread 1; Thread 1].
Definition many_progs : list (list AsyncModel.call) := map (map CSend) [many_es aend_W many_g0] ++ [map CSend (many_es aend_W many_g1) ++ [CClose]].
Definition many_run := arun aend_C (a_init many_progs) (many_sched1 ++ many_sched2).
Definition many_texts : list str := [$"a/b: three;a/b: one;"; []; $"a: two and more;"].
Definition many_tale (g0 g1 : list WorldModel.op) (E0 E1 : list event) : Prop := exists tr1 tr2 s f' w',
  Forall2 (fun g es => exists W', passes ex_P 1 aend_W g W' (map CSend es)) ([g0] ++ [g1]) ([E0] ++ [E1]) /\
  stores (async_conf (p_env ex_P) [] aend_fmt Info 2 2) noP end_conf smooth
    (map (map CSend) [E0] ++ [map CSend E1 ++ [CClose]]) (fs_of end_sim) (tr1 ++ Call 1 CClose :: tr2) s f' w' /\
  (forall k sent, nth_error ([E0] ++ [E1]) k = Some sent -> returned k tr1 sent) /\
  a_worker s = WGone /\
  map (f_dir f') [$"a.1"; $"a.2"; $"a"] = [Some (Reg ($"a/b: three;a/b: one;")); None; Some (Reg ($"a: two and more;"))].
Lemma many_build g0 g1 E0 E1 tr s n : (exists W', passes ex_P 1 aend_W g0 W' (map CSend E0)) -> (exists W', passes ex_P 1 aend_W g1 W' (map CSend E1)) ->
  areach aend_C (map (map CSend) [E0] ++ [map CSend E1 ++ [CClose]]) tr s ->
  a_out s = many_texts -> a_worker s = WGone ->
  match skipn n tr with Call 1 CClose :: _ => true | _ => false end = true ->
  retf 0 (firstn n tr) = E0 -> retf 1 (firstn n tr) = E1 -> many_tale g0 g1 E0 E1.
Proof.
  intros P0 P1 R O1 O2 O3 R0 R1.
  assert (H : show noP end_conf (map (fun b => SWrite b) many_texts) end_sim [$"a.1"; $"a.2"; $"a"] =
    Some (map well_put many_texts, true, [Some (Reg ($"a/b: three;a/b: one;")); None; Some (Reg ($"a: two and more;"))]))
    by (vm_compute; reflexivity).
  apply show_happens in H as (f' & w' & H & D); [|apply sim_finite; repeat constructor; intros []].
  apply cut_at in O3 as (tr2 & T). exists (firstn n tr), tr2, s, f', w'.
  split; [|split; [|split; [|split; [exact O2|exact D]]]].
  - constructor; [exact P0|]. constructor; [exact P1|constructor].
  - rewrite <- T. apply reach_stores; [exact R|]. rewrite O1. exact H.
  - intros k sent N. destruct k as [|[|k]]; [| |destruct k; discriminate N]; injection N as <-; [rewrite <- R0|rewrite <- R1]; apply retf_spec.
Qed.
Lemma many_X : match many_run with Some _ => true | None => false end = true.
Proof. vm_compute. reflexivity. Qed.
Lemma many_O1 : option_map (fun r => a_out (snd r)) many_run = Some many_texts.
Proof. vm_compute. reflexivity. Qed.
Lemma many_O2 : option_map (fun r => a_worker (snd r)) many_run = Some WGone.
Proof. vm_compute. reflexivity. Qed.
Lemma many_O3 : option_map (fun r => match skipn 21 (fst r) with Call 1 CClose :: _ => true | _ => false end) many_run = Some true.
Proof. vm_compute. reflexivity. Qed.
Lemma many_R0 : option_map (fun r => retf 0 (firstn 21 (fst r))) many_run = Some (many_es aend_W many_g0).
Proof. vm_compute. reflexivity. Qed.
Lemma many_R1 : option_map (fun r => retf 1 (firstn 21 (fst r))) many_run = Some (many_es aend_W many_g1).
Proof. vm_compute. reflexivity. Qed.
Lemma many_A r : many_run = Some r -> areach aend_C many_progs (fst r) (snd r).
Proof. destruct r as [tr s]. unfold many_run. generalize many_progs (many_sched1 ++ many_sched2). intros p sched E. exact (arun_reach _ _ _ _ _ _ _ (ar_init aend_C p) E). Qed.
Lemma many_P0 : exists W', passes ex_P 1 aend_W many_g0 W' (map CSend (many_es aend_W many_g0)).
Proof. apply many_passes. vm_compute. reflexivity. Qed.
Lemma many_P1 : exists W', passes ex_P 1 aend_W many_g1 W' (map CSend (many_es aend_W many_g1)).
Proof. apply many_passes. vm_compute. reflexivity. Qed.
Example C59_ex_async : many_tale many_g0 many_g1 (many_es aend_W many_g0) (many_es aend_W many_g1).
Proof.
  pose proof many_X as X. pose proof many_O1 as O1. pose proof many_O2 as O2. pose proof many_O3 as O3. pose proof many_R0 as R0. pose proof many_R1 as R1.
  pose proof many_A as A. destruct many_run as [r|]; [|discriminate X]. apply some_eq in O1, O2, O3, R0, R1.
  exact (many_build _ _ _ _ (fst r) (snd r) 21 many_P0 many_P1 (A r eq_refl) O1 O2 O3 R0 R1).
Qed.

(** Example: the same calls on the synchronous output of C50, which rolls at 20 bytes. The second
    goroutine asks for the lock while the first one writes. *)
Definition many_wss : list (list str) :=
  [map (fun s => s ++ ["010"%char]) [$"WARN  [T] a/b: one"; $"INFO  [T] a: two and more"]; [$"ERROR [T] a/b: three" ++ ["010"%char]]].
Lemma many_puts os ws : run_ok 1 end_W os = true ->
  match run ex_P end_W os with Ok W' => option_map o_writes (nth_error (w_heap W') 1) = Some ws | Panic => False end ->
  exists W', puts ex_P 1 end_W os W' ws.
Proof.
  unfold run_ok. intros H E. apply andb_true_iff in H as [H _]. apply andb_true_iff in H as [G _].
  destruct (run ex_P end_W os) as [W'|] eqn:X; [|contradiction]. exists W'.
  destruct (goes_puts _ _ _ _ _ (run_goes _ _ _ _ _ G X) _ _ end_reach end_cell (rolling_sync (mkOut end_out None [] [] 0) end_conf eq_refl eq_refl) b_default)
    as (x' & ws' & N & O & PU).
  rewrite N in E. cbn [option_map] in E. injection E as E. rewrite O in E. cbn [o_writes app] in E. now subst ws'.
Qed.
Example C59_ex_puts : Forall2 (fun g ws => exists W', puts ex_P 1 end_W g W' ws) [many_g0; many_g1] many_wss.
Proof.
  constructor; [|constructor; [|constructor]]; apply many_puts; vm_compute; reflexivity.
Qed.
Definition many_start : csim := mkCS None w_new end_sim (fun k => mkT [] None (nth k many_wss [])).
Definition many_steps : list nat := concat (repeat [0%nat; 1%nat] 150).
Definition many_end := cexec noP end_conf many_steps many_start.
Example C59_ex_sync : csteps noP end_conf (c_start (fs_of end_sim) w_new (fun k => nth k many_wss [])) (fst many_end) (cstate_of (snd many_end)) /\
  forallb (fun x => smoothb (snd x)) (fst many_end) = true /\
  (forall k, t_now (c_threads (cstate_of (snd many_end)) k) = None /\ t_todo (c_threads (cstate_of (snd many_end)) k) = []) /\
  map (entry_of (snd many_end)) [$"a.1"; $"a.2"; $"a"] =
    [Some (Reg ($"WARN  [T] a/b: one" ++ nl :: $"ERROR [T] a/b: three" ++ [nl])); None; Some (Reg ($"INFO  [T] a: two and more" ++ [nl]))].
Proof.
  split; [|split; [|split]].
  - change (c_start _ _ _) with (cstate_of many_start). apply (cexec_sound noP end_conf many_steps many_start).
    + apply sim_finite. repeat constructor. intros [].
    + unfold many_end. now destruct (cexec noP end_conf _ many_start).
  - vm_compute. reflexivity.
  - intros k. destruct k as [|[|[|k]]]; vm_compute; auto.
  - vm_compute. reflexivity.
Qed.

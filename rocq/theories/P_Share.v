(** Property C67: outputs that format one event at the same time do not disturb one another. *)
From Verif Require Import GoStr Utf8 LevelModel EventModel LayoutModel LayoutSpec LayoutProofs FormatSpec FormatProofs ConfModel
  OutputModel OutputSpec OutputProofs WorldModel WorldSpec WorldBase WorldInv WorldProofs P_Hier LogProofs P_Log ShareModel ShareSpec ShareProofs.
Local Open Scope Z_scope.

(** ** Alone *)
(** A formatter that nobody disturbs writes the text that LayoutModel.v says, and leaves the event that it says;
    and it panics just when it says so. *)
Theorem C67_alone : forall E stk e ps b e', fmt_Format E stk (FText ps) e = Ok (b, e') ->
  exists s', by_itself (share e) (f_parts E stk e ps) s' (Some b) /\ indistinct e' (event_now e s').
Proof.
  intros E stk e ps b e' H. pose proof (parts_sim E stk e ps (share e) e (rep_share e)) as Hs. cbn [fmt_Format] in H. rewrite H in Hs.
  destruct Hs as (s' & Hb & R). exists s'. split; [exact Hb|]. now apply rep_now.
Qed.
Theorem C67_alone_only : forall E stk e ps s' r, by_itself (share e) (f_parts E stk e ps) s' r ->
  match r with
  | Some b => exists e', fmt_Format E stk (FText ps) e = Ok (b, e') /\ indistinct e' (event_now e s')
  | None => fmt_Format E stk (FText ps) e = Panic
  end.
Proof.
  intros E stk e ps s' r H. pose proof (parts_sim E stk e ps (share e) e (rep_share e)) as Hs. cbn [fmt_Format].
  destruct (format_parts E stk ps e) as [[b e']|].
  - destruct Hs as (s1 & Hb & R). destruct (itself_det _ _ _ _ H _ _ Hb) as [-> ->]. exists e'. split; [reflexivity|]. now apply rep_now.
  - destruct Hs as (s1 & Hb). destruct (itself_det _ _ _ _ H _ _ Hb) as [-> ->]. reflexivity.
Qed.
Print Assumptions C67_alone.
Print Assumptions C67_alone_only.

(** ** Several at a time *)
(** The trace tells what happens: an access that is not marked as a write changes nothing. *)
Theorem C67_marked : forall A (p p' : fprog A) s s', fstep s p = Some (s', false, p') -> s' = s.
Proof. intros A p p' s s' H. destruct p as [| |k|ci k|i k|i q k|i f k]; cbn in H; try discriminate; [congruence|]. destruct (nth_error _ _); [congruence|discriminate]. Qed.
Print Assumptions C67_marked.
(** All outputs get the same event: the ones that format it at once leave it as it is. *)
Theorem C67_same_event : forall P W n id c v lvl fmt args now ustk W' r new i stk e i2 stk2 e2,
  calm_reach P W -> has_name W n id -> good_ctx c -> (forall j x, nth_error (w_heap W) j = Some x -> (exists h, built h (o_fmt x)) /\ returns x) ->
  exec P W (OLog id c v lvl fmt args now ustk) = Ok (W', r) -> w_sent W' = w_sent W ++ new ->
  In (i, (stk, e)) new -> In (i2, (stk2, e2)) new -> e2 = e.
Proof.
  intros P W n id c v lvl fmt args now ustk W' r new i stk e i2 stk2 e2 R Hn Hg Hr H Hnew H1 H2.
  destruct (log_ready _ _ _ _ _ _ _ _ _ _ _ _ _ _ R Hn Hg Hr H Hnew) as (e0 & _ & Ha).
  destruct (Ha _ _ _ H1) as [-> _]. destruct (Ha _ _ _ H2) as [-> _]. reflexivity.
Qed.
Print Assumptions C67_same_event.

(** Somebody formats the event for an output with this layout, on this stack. *)
Inductive formats (E : env) (W : world) (new : list (nat * (stack * event))) (e : event) : str * stack -> fprog str -> Prop :=
| fo j x layout ps stk0 stk : In (j, (stk0, e)) new -> nth_error (w_heap W) j = Some x -> o_fmt x = Some (FText ps) ->
    Parser layout = Some ps -> formats E W new e (layout, stk) (f_parts E stk e ps).
(** However the accesses of those who format the event interleave, nobody writes; none of them panics or gets stuck,
    and what one has when it is through is the text its layout gives for the event as it was sent. *)
Theorem C67_undisturbed : forall P W n id c v lvl fmt args now ustk W' r new e ls fs tr s' fs',
  calm_reach P W -> has_name W n id -> good_ctx c -> (forall j x, nth_error (w_heap W) j = Some x -> (exists h, built h (o_fmt x)) /\ returns x) ->
  exec P W (OLog id c v lvl fmt args now ustk) = Ok (W', r) -> w_sent W' = w_sent W ++ new ->
  Forall2 (formats (p_env P) W new e) ls fs -> together (share e) fs tr s' fs' ->
  only_reads tr /\ s' = share e /\
  Forall2 (fun l p => (exists b, p = FRet b /\ text_of (p_env P) (ByLayout (fst l)) (snd l) e b) \/
                      exists p1, fstep s' p = Some (s', false, p1)) ls fs'.
Proof.
  intros P W n id c v lvl fmt args now ustk W' r new e ls fs tr s' fs' R Hn Hg Hr H Hnew Hfs Ht.
  destruct (log_ready _ _ _ _ _ _ _ _ _ _ _ _ _ _ R Hn Hg Hr H Hnew) as (e0 & Hf & Ha).
  assert (Hb : exists bs, Forall2 (reads (share e)) fs bs /\
                 Forall2 (fun l b => text_of (p_env P) (ByLayout (fst l)) (snd l) e b) ls bs).
  { clear Ht. induction Hfs as [|l f ls fs Hx Hfs IH]; [exists []; auto|]. destruct IH as (bs & H1 & H2).
    destruct Hx as [j x layout ps stk0 stk Hin Hx Hfx Hp]. destruct (Ha _ _ _ Hin) as [-> Hrd]. specialize (Hrd x layout ps Hx Hfx Hp).
    destruct (Format_text (p_env P) stk (ByLayout layout) (FText ps) e0 (b_layout _ _ Hp) (fun _ => Hf)) as (b & e' & E1 & E2 & _).
    exists (b :: bs). split; constructor; try assumption.
    eapply parts_reads; [|exact E1]. eapply layout_ready; eassumption. }
  destruct Hb as (bs & H1 & H2). destruct (reads_together _ _ _ H1 _ _ _ Ht) as (H3 & -> & H4). split; [assumption|]. split; [reflexivity|].
  clear - H2 H4. revert fs' H4. induction H2 as [|l b ls bs Hx H2 IH]; intros fs' H4; inversion H4 as [|p ? fs1 ? Hp Hq E1]; subst; constructor; auto.
  destruct (reads_ends _ _ _ Hp) as [->|K]; eauto.
Qed.
Print Assumptions C67_undisturbed.

(** ** An example *)
(** Runs a schedule. *)
Fixpoint sched (s : shared) (ps : list (fprog str)) (tr : list (nat * bool)) (is : list nat) : shared * list (nat * bool) * list (fprog str) :=
  match is with
  | [] => (s, tr, ps)
  | i :: is' =>
    match nth_error ps i with
    | Some p => match fstep s p with
                | Some (s1, w, p1) => sched s1 (firstn i ps ++ p1 :: skipn (S i) ps) (tr ++ [(i, w)]) is'
                | None => (s, tr, ps)
                end
    | None => (s, tr, ps)
    end
  end.
Lemma sched_together is : forall s ps tr s1 ps1, together s ps tr s1 ps1 ->
  let '(s', tr', ps') := sched s1 ps1 tr is in together s ps tr' s' ps'.
Proof.
  induction is as [|i is IH]; intros s ps tr s1 ps1 H; cbn [sched]; [exact H|].
  destruct (nth_error ps1 i) as [p|] eqn:Ep; [|exact H]. destruct (fstep s1 p) as [[[s2 w] p2]|] eqn:Es; [|exact H].
  apply IH. eapply tg_step; eassumption.
Qed.
Definition ex_pkgfun : str := $"%{longpkg} %{longfunc}".
Definition ex_pf_ps : list part := Eval vm_compute in match Parser ex_pkgfun with Some ps => ps | None => [] end.
Lemma ex_pf_parsed : Parser ex_pkgfun = Some ex_pf_ps.
Proof. vm_compute. reflexivity. Qed.
Definition ex_async : out_spec := {| os_sink := SinkStdout; os_async := Some (10, 1); os_threshold := All |}.
(** Two asynchronous outputs with this layout at logger "a"; in [ex_late_ops] they get the layout only when they
    are in use. *)
Definition ex_two_ops : list op :=
  [OGetLogger ($"a"); ONewOutput ex_async (Some (FText ex_pf_ps)); ONewOutput ex_async (Some (FText ex_pf_ps)); OSetOutputs 1 [1%nat; 2%nat]].
Definition ex_late_ops : list op :=
  [OGetLogger ($"a"); ONewOutput ex_async None; ONewOutput ex_async None; OSetOutputs 1 [1%nat; 2%nat];
   OSetFormatter 1 (Some (FText ex_pf_ps)); OSetFormatter 2 (Some (FText ex_pf_ps))].
Definition ex_say : op := OLog 1 CtxBackground Named Error ($"hello") [] 0 ex_user.
Definition ex_two : world := ran ex_P ex_two_ops.
Definition ex_late : world := ran ex_P ex_late_ops.
Lemma ex_two_calm : calm_reach ex_P ex_two.
Proof.
  unfold ex_two, ran. destruct (run ex_P (init_world ex_P) ex_two_ops) as [W|] eqn:E.
  - apply (run_calm ex_P ex_two_ops (init_world ex_P)); [apply cr_init|reflexivity|vm_compute; reflexivity|exact E].
  - exfalso. assert (H : runs ex_P ex_two_ops = true) by (vm_compute; reflexivity).
    unfold runs in H. rewrite E in H. rewrite andb_comm in H. discriminate.
Qed.
Lemma ex_late_reach : reach ex_P ex_late.
Proof. apply ran_reach. vm_compute. reflexivity. Qed.
Definition ex_heap_two : list output := Eval vm_compute in w_heap ex_two.
Lemma ex_heap_two_eq : w_heap ex_two = ex_heap_two.
Proof. vm_compute. reflexivity. Qed.
Definition ex_heap_late : list output := Eval vm_compute in w_heap ex_late.
Lemma ex_heap_late_eq : w_heap ex_late = ex_heap_late.
Proof. vm_compute. reflexivity. Qed.
Lemma ex_two_built j x : nth_error (w_heap ex_two) j = Some x -> (exists h, built h (o_fmt x)) /\ returns x.
Proof.
  rewrite ex_heap_two_eq. destruct j as [|[|[|[|j]]]]; cbn; try discriminate; intros [= <-]; (split; [|intros ? [=]]).
  - exists (ByLayout default_layout). constructor. vm_compute. reflexivity.
  - exists (ByLayout ex_pkgfun). constructor. exact ex_pf_parsed.
  - exists (ByLayout ex_pkgfun). constructor. exact ex_pf_parsed.
Qed.
Lemma ex_late_built j x : nth_error (w_heap ex_late) j = Some x -> (exists h, built h (o_fmt x)) /\ returns x.
Proof.
  rewrite ex_heap_late_eq. destruct j as [|[|[|[|j]]]]; cbn; try discriminate; intros [= <-]; (split; [|intros ? [=]]).
  - exists (ByLayout default_layout). constructor. vm_compute. reflexivity.
  - exists (ByLayout ex_pkgfun). constructor. exact ex_pf_parsed.
  - exists (ByLayout ex_pkgfun). constructor. exact ex_pf_parsed.
Qed.
Lemma ex_say_ok W : match exec ex_P W ex_say with Ok _ => true | Panic => false end = true -> exec ex_P W ex_say = Ok (after W ex_say, RUnit).
Proof.
  unfold after. destruct (exec ex_P W ex_say) as [[W1 r]|] eqn:E; [|discriminate]. intros _.
  cbn [exec ex_say] in E. destruct (Printf _ _ _ _ _ _ _ _ _ _); [|discriminate]. injection E as <- <-. reflexivity.
Qed.
Definition ex_two_sent : list (nat * (stack * event)) := Eval vm_compute in w_sent (after ex_two ex_say).
Definition ex_late_sent : list (nat * (stack * event)) := Eval vm_compute in w_sent (after ex_late ex_say).
Definition ex_two_e : event := Eval vm_compute in match ex_two_sent with (_, (_, e)) :: _ => e | [] => mkEvent [] [] [] 0 0 0 CtxBackground end.
Definition ex_late_e : event := Eval vm_compute in match ex_late_sent with (_, (_, e)) :: _ => e | [] => mkEvent [] [] [] 0 0 0 CtxBackground end.
Lemma ex_two_named : has_name ex_two ($"a") 1.
Proof.
  assert (H : option_map l_name (nth_error (w_loggers ex_two) 1) = Some ($"a")) by (vm_compute; reflexivity).
  unfold has_name. destruct (nth_error (w_loggers ex_two) 1) as [l|]; [|discriminate]. injection H as H. eauto.
Qed.
Lemma ex_late_named : has_name ex_late ($"a") 1.
Proof.
  assert (H : option_map l_name (nth_error (w_loggers ex_late) 1) = Some ($"a")) by (vm_compute; reflexivity).
  unfold has_name. destruct (nth_error (w_loggers ex_late) 1) as [l|]; [|discriminate]. injection H as H. eauto.
Qed.
(** The stack of a worker. *)
Definition ex_worker : stack := map ex_frame [11; 12; 13; 14; 15; 16; 17].
Definition ex_fs (e : event) : list (fprog str) := [f_parts ex_env ex_worker e ex_pf_ps; f_parts ex_env ex_worker e ex_pf_ps].
Definition ended (ps : list (fprog str)) : list (option str) := map (fun p => match p with FRet b => Some b | _ => None end) ps.
(** Both read in turn, and both get it right. *)
Definition ex_turns : list nat := [0; 1; 0; 1; 0; 1; 0; 1; 0; 1; 0; 1]%nat.
Definition ex_two_run := sched (share ex_two_e) (ex_fs ex_two_e) [] ex_turns.
Lemma ex_two_ended : ended (snd ex_two_run) = [Some ($"m/p F"); Some ($"m/p F")] /\ length (snd (fst ex_two_run)) = 12%nat.
Proof. vm_compute. split; reflexivity. Qed.
Example C67_example : exists W' new fs tr s' fs',
  calm_reach ex_P ex_two /\ has_name ex_two ($"a") 1 /\ (forall j x, nth_error (w_heap ex_two) j = Some x -> (exists h, built h (o_fmt x)) /\ returns x) /\
  exec ex_P ex_two ex_say = Ok (W', RUnit) /\ w_sent W' = w_sent ex_two ++ new /\ length new = 2%nat /\
  Forall2 (formats (p_env ex_P) ex_two new ex_two_e) [(ex_pkgfun, ex_worker); (ex_pkgfun, ex_worker)] fs /\
  together (share ex_two_e) fs tr s' fs' /\ length tr = 12%nat /\ ended fs' = [Some ($"m/p F"); Some ($"m/p F")].
Proof.
  exists (after ex_two ex_say), ex_two_sent, (ex_fs ex_two_e), (snd (fst ex_two_run)), (fst (fst ex_two_run)), (snd ex_two_run).
  split; [exact ex_two_calm|]. split; [exact ex_two_named|]. split; [exact ex_two_built|].
  split; [apply ex_say_ok; vm_compute; reflexivity|]. split; [vm_compute; reflexivity|]. split; [reflexivity|].
  split.
  { constructor; [|constructor; [|constructor]].
    - eapply (fo ex_env ex_two ex_two_sent ex_two_e 1); [left; reflexivity|rewrite ex_heap_two_eq; reflexivity|reflexivity|exact ex_pf_parsed].
    - eapply (fo ex_env ex_two ex_two_sent ex_two_e 2); [right; left; reflexivity|rewrite ex_heap_two_eq; reflexivity|reflexivity|exact ex_pf_parsed]. }
  destruct ex_two_ended as [H1 H2]. split; [|auto].
  pose proof (sched_together ex_turns _ _ _ _ _ (tg_nil (share ex_two_e) (ex_fs ex_two_e))) as H. fold ex_two_run in H.
  destruct ex_two_run as [[s' tr] ps']. exact H.
Qed.

(** ** When the outputs got their layout too late *)
(** Then the call has not captured the call site, and whoever formats the event first adds it. The first to format
    it has written the package but not yet the function; the second reads both. *)
Definition ex_torn : list nat := ([0; 0; 0; 0; 0] ++ [1; 1; 1; 1; 1; 1])%nat.
Definition ex_late_run := sched (share ex_late_e) (ex_fs ex_late_e) [] ex_torn.
Lemma ex_late_ended : ended (snd ex_late_run) = [None; Some ($"m/p ")] /\ existsb snd (snd (fst ex_late_run)) = true.
Proof. vm_compute. split; reflexivity. Qed.
Lemma ex_late_right : exists e', fmt_Format ex_env ex_worker (FText ex_pf_ps) ex_late_e = Ok ($"m/p F", e').
Proof. eexists. vm_compute. reflexivity. Qed.
Theorem C67_torn_refuted : exists P W n id c v lvl fmt args now ustk W' r new e ls fs tr s' fs' layout stk b,
  reach P W /\ has_name W n id /\ good_ctx c /\ (forall j x, nth_error (w_heap W) j = Some x -> (exists h, built h (o_fmt x)) /\ returns x) /\
  exec P W (OLog id c v lvl fmt args now ustk) = Ok (W', r) /\ w_sent W' = w_sent W ++ new /\
  Forall2 (formats (p_env P) W new e) ls fs /\ together (share e) fs tr s' fs' /\
  ~ only_reads tr /\ nth_error ls 1 = Some (layout, stk) /\ nth_error fs' 1 = Some (FRet b) /\
  ~ text_of (p_env P) (ByLayout layout) stk e b.
Proof.
  exists ex_P, ex_late, ($"a"), 1%nat, CtxBackground, Named, Error, ($"hello"), [], 0, ex_user, (after ex_late ex_say), RUnit, ex_late_sent, ex_late_e,
    [(ex_pkgfun, ex_worker); (ex_pkgfun, ex_worker)], (ex_fs ex_late_e), (snd (fst ex_late_run)), (fst (fst ex_late_run)), (snd ex_late_run),
    ex_pkgfun, ex_worker, ($"m/p ").
  split; [exact ex_late_reach|]. split; [exact ex_late_named|]. split; [apply good_background|]. split; [exact ex_late_built|].
  split; [apply ex_say_ok; vm_compute; reflexivity|]. split; [vm_compute; reflexivity|].
  split.
  { constructor; [|constructor; [|constructor]].
    - eapply (fo ex_env ex_late ex_late_sent ex_late_e 1); [left; reflexivity|rewrite ex_heap_late_eq; reflexivity|reflexivity|exact ex_pf_parsed].
    - eapply (fo ex_env ex_late ex_late_sent ex_late_e 2); [right; left; reflexivity|rewrite ex_heap_late_eq; reflexivity|reflexivity|exact ex_pf_parsed]. }
  destruct ex_late_ended as [H1 H2].
  pose proof (sched_together ex_torn _ _ _ _ _ (tg_nil (share ex_late_e) (ex_fs ex_late_e))) as H. fold ex_late_run in H.
  destruct ex_late_run as [[s' tr] ps']. cbn [fst snd] in *. split; [exact H|]. split.
  { intros K. apply existsb_exists in H2 as (a & Ha & Hw). unfold only_reads in K. rewrite Forall_forall in K. specialize (K _ Ha). congruence. }
  split; [reflexivity|]. split.
  { clear - H1. destruct ps' as [|p0 [|p1 ps']]; cbn [ended map] in H1; try discriminate. destruct p1; try discriminate. cbn [nth_error].
    injection H1 as _ H1 _. now subst. }
  intros K. destruct ex_late_right as (e' & Hr).
  assert (Hf : formattable ex_late_e).
  { split; [|left; reflexivity]. intros k. exists VNil. reflexivity. }
  destruct (Format_text ex_env ex_worker (ByLayout ex_pkgfun) (FText ex_pf_ps) ex_late_e (b_layout _ _ ex_pf_parsed) (fun _ => Hf)) as (b & e1 & E1 & E2 & _).
  rewrite Hr in E1. injection E1 as <- _. pose proof (text_of_unique _ _ _ _ _ _ K E2) as Hd. discriminate Hd.
Qed.
Print Assumptions C67_torn_refuted.

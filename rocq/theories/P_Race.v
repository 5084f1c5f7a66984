(** Property C58: log calls while other goroutines log, change loggers or load configurations. *)
From Verif Require Import GoStr Utf8 LevelModel EventModel LayoutModel ConfModel OutputModel OutputSpec OutputProofs WorldModel WorldSpec
  WorldBase WorldInv WorldProofs LogProofs P_Hier P_Log RaceModel RaceSpec RaceProofs.
Local Open Scope Z_scope.

Lemma in_call_from P s tr s' i o : r_reach P s -> rexec P s tr s' -> in_call i o tr ->
  inv (r_w s) /\ exists mid, sent_by i tr = sent_by i mid /\ incl (moments (r_w s) mid) (moments (r_w s) tr) /\
  exists p', nth_error (r_threads s') i = Some (Some p') /\ al P (r_w s) (p_op P o) (moments (r_w s) mid) (sent_by i mid) (r_w s') p'.
Proof.
  intros R E (W & mid & -> & B). pose proof (r_reach_sane _ _ R) as S. split; [apply S|].
  inversion E as [|s0 j a s1 tr0 s2 H E1]; subst. exists mid. split; [reflexivity|].
  destruct (rstep_sane _ _ _ _ _ S H) as [S1 _]. inversion H as [s0 j o0 Hi Hh| | | |]; subst. cbn [r_w go] in *.
  split.
  - intros X [<-|HX]; [now left|]. right. right. exact HX.
  - destruct (al_of _ _ _ _ _ E1 S1 B _ (go_self _ _ _ _ _ Hi)) as (p' & Hp' & A). exists p'. split; [assumption|exact A].
Qed.
Lemma moments_aligned P s tr s' : r_reach P s -> rexec P s tr s' -> aligned (r_w s) (moments (r_w s) tr).
Proof.
  intros R E. pose proof (r_reach_sane _ _ R) as S. split; [apply S|]. clear R. intros X HX.
  revert S HX. induction E as [s|s i a s1 tr s2 H E IH]; intros S [<-|HX]; try (split; [apply S|apply later_refl]); try (now destruct HX).
  destruct (rstep_sane _ _ _ _ _ S H) as [S1 L]. destruct (IH S1 HX) as [A B]. split; [assumption|eapply later_trans; eassumption].
Qed.
(** What a call has done, from its first step to its last. *)
Lemma call_outcome P s tr s' i id c v lvl fmt args now ustk l : r_reach P s -> rexec P s tr s' ->
  in_call i (OLog id c v lvl fmt args now ustk) tr -> nth_error (w_loggers (r_w s)) id = Some l ->
  exists p', nth_error (r_threads s') i = Some (Some p') /\
    outcome (moments (r_w s) tr) lvl fmt args (l_name l) now id (sent_by i tr) p'.
Proof.
  intros R E C Hl. destruct (in_call_from _ _ _ _ _ _ R E C) as (I0 & mid & Es & Hi & p' & Hp' & A). exists p'. split; [assumption|].
  rewrite Es. destruct (al_Printf _ _ _ _ _ _ _ _ _ _ _ _ _ _ _ A I0 Hl) as [H|[(E1 & E2 & B)|(x & ops & stk & e & B1 & B2 & B3 & B4)]]; [now left| |].
  - right; left. split; [assumption|]. split; [assumption|]. eapply found_block_incl; eassumption.
  - right; right. exists x, ops, stk, e. split; [eapply found_way_incl; eassumption|]. split; [eapply stop_at_incl; eassumption|].
    split; [eapply had_outputs_incl; eassumption|assumption].
Qed.
Lemma moments_app W tr i a X : In X (moments W tr) -> In X (moments W (tr ++ [(i, a, X)])).
Proof. intros [<-|H]; [now left|right]. rewrite map_app. apply in_app_iff. now left. Qed.
Lemma sent_by_app i tr : forall tr2, sent_by i (tr ++ tr2) = sent_by i tr ++ sent_by i tr2.
Proof.
  induction tr as [|[[j a] W] tr IH]; intros tr2; cbn [sent_by app]; [reflexivity|]. rewrite IH.
  destruct a; try reflexivity. destruct (Nat.eqb j i); reflexivity.
Qed.
Lemma handed_events ops stk e ss p' fmt args name lvl now : handed ops stk e ss p' -> plain_event fmt args name lvl now e ->
  forall o k ev, In (o, (k, ev)) ss -> plain_event fmt args name lvl now ev.
Proof.
  intros (evs & rest & _ & E & F & _) (A1 & A2 & A3 & A4 & A5) o k ev H. rewrite E in H. apply in_combine_sent in H as (-> & _ & H).
  rewrite Forall_forall in F. destruct (F _ H) as [(K1 & K2 & K3 & K4 & K5 & _) _]. unfold plain_event. repeat split; congruence.
Qed.
Lemma whole_split P s tr s' i o r : r_reach P s -> rexec P s tr s' -> whole_call i o r tr ->
  exists tr0 s0, rexec P s tr0 s0 /\ in_call i o tr0 /\ nth_error (r_threads s0) i = Some (Some (RRet r)) /\
    sent_by i tr = sent_by i tr0 /\ (forall X, In X (moments (r_w s) tr) <-> In X (moments (r_w s) tr0)) /\ r_w s' = r_w s0 /\
    incl tr0 tr.
Proof.
  intros R E (tr0 & W & -> & C). apply rexec_app_inv in E as (s0 & E0 & E1). exists tr0, s0. split; [assumption|]. split; [assumption|].
  inversion E1 as [|q j a s1 t s2 H E2]; subst. inversion E2; subst. inversion H; subst.
  split; [assumption|]. split; [rewrite sent_by_app; cbn; apply app_nil_r|].
  split; [|split; [reflexivity|intros x Hx; apply in_app_iff; now left]]. cbn [r_w go]. intros X. unfold moments. rewrite map_app. cbn [map snd].
  assert (L : In (r_w s0) (r_w s :: map snd tr0)).
  { clear -E0. induction E0 as [q|q i a q1 tr q2 H E IH]; [now left|]. right. exact IH. }
  split; [|intros [<-|HX]; [now left|right; apply in_app_iff; now left]].
  intros [<-|HX]; [now left|]. apply in_app_iff in HX as [HX|[<-|[]]]; [now right|exact L].
Qed.

(** ** C58 *)
(** A goroutine that is alone for the length of a call does what the call does by itself. *)
Theorem C58_alone : forall P s i o W' r, r_reach P s -> nth_error (r_threads s) i = Some None -> held (r_w s) o ->
  (exec P (r_w s) o = Ok (W', r) <->
   exists tr s', rexec P s tr s' /\ (forall j a X, In (j, a, X) tr -> j = i) /\ whole_call i o r tr /\ r_w s' = W').
Proof.
  intros P s i o W' r R Hi Hh. pose proof (r_reach_sane _ _ R) as [I0 _]. rewrite <- (solo_op P (r_w s) o I0). split.
  - intros H. destruct (solo_run P (p_op P o) (go s (r_w s) i (Some (p_op P o))) i (go_self _ _ _ _ _ Hi)) as (tr & s1 & q & E & O & B & Hq & K).
    cbn [r_w go] in K. rewrite H in K. destruct K as [-> K].
    exists (((i, Called o, r_w s) :: tr) ++ [(i, Returned r, r_w s1)]), (go s1 (r_w s1) i None). split; [|split; [|split]].
    + eapply rexec_app.
      * refine (re_more P s i (Called o) (go s (r_w s) i (Some (p_op P o))) tr s1 _ E). now constructor.
      * refine (re_more P s1 i (Returned r) (go s1 (r_w s1) i None) [] _ _ (re_nil _ _)). now constructor.
    + intros j a X HX. apply in_app_iff in HX as [[[= <- _ _]|HX]|[[= <- _ _]|[]]]; [reflexivity|eapply O; exact HX|reflexivity].
    + eexists _, _. split; [reflexivity|]. eexists _, tr. split; [reflexivity|exact B].
    + exact K.
  - intros (tr & s' & E & O & C & <-).
    destruct (whole_split _ _ _ _ _ _ _ R E C) as (tr0 & s0 & E0 & (X & mid & -> & B) & Hr & _ & _ & -> & Hin).
    assert (O0 : only i mid) by (intros j a Z HZ; eapply O, Hin; right; exact HZ).
    inversion E0 as [|q j a s1 t s2 H E1]; subst. inversion H; subst.
    destruct (solo_stays _ _ _ _ _ E1 O0 B _ (go_self _ _ _ _ _ Hi)) as (p' & Hp' & K).
    assert (p' = RRet r) by congruence. subst p'. cbn [solo r_w go] in K. now rewrite <- K.
Qed.
Print Assumptions C58_alone.
(** In a crowd, the events of a call all carry what was passed to it, ... *)
Theorem C58_own_events : forall P s tr s' i id n c v lvl fmt args now ustk,
  r_reach P s -> rexec P s tr s' -> in_call i (OLog id c v lvl fmt args now ustk) tr -> has_name (r_w s) n id ->
  forall o stk e, In (o, (stk, e)) (sent_by i tr) ->
  ev_format e = fmt /\ ev_args e = args /\ ev_name e = n /\ ev_level e = lvl /\ ev_time e = now.
Proof.
  intros P s tr s' i id n c v lvl fmt args now ustk R E C (l & Hl & <-) o stk e He.
  destruct (call_outcome _ _ _ _ _ _ _ _ _ _ _ _ _ _ R E C Hl) as (p' & _ & [[H _]|[(H & _)|(x & ops & k & e0 & _ & _ & _ & B4 & B5)]]);
    [rewrite H in He; destruct He..|].
  exact (handed_events _ _ _ _ _ _ _ _ _ _ B5 B4 _ _ _ He).
Qed.
Print Assumptions C58_own_events.
(** ... and go, in order and each once, to outputs that one logger on the way had at one moment: never to a mix of
    two lists, and to all of them by the time the call returns. The way, too, is made of loggers found to allow the
    level and, except for the last, to have no outputs. *)
Theorem C58_one_list : forall P s tr s' i id n c v lvl fmt args now ustk,
  r_reach P s -> rexec P s tr s' -> in_call i (OLog id c v lvl fmt args now ustk) tr -> has_name (r_w s) n id ->
  sent_by i tr = [] \/
  exists x rest, found_way (moments (r_w s) tr) lvl id x /\ had_outputs (moments (r_w s) tr) x (map fst (sent_by i tr) ++ rest).
Proof.
  intros P s tr s' i id n c v lvl fmt args now ustk R E C (l & Hl & <-).
  destruct (call_outcome _ _ _ _ _ _ _ _ _ _ _ _ _ _ R E C Hl) as (p' & _ & [[H _]|[(H & _)|(x & ops & k & e0 & B1 & _ & B3 & _ & evs & rest & B5 & _)]]);
    [now left..|].
  right. exists x, rest. split; [assumption|]. now rewrite <- B5.
Qed.
Print Assumptions C58_one_list.
Theorem C58_whole_list : forall P s tr s' i id n c v lvl fmt args now ustk r,
  r_reach P s -> rexec P s tr s' -> whole_call i (OLog id c v lvl fmt args now ustk) r tr -> has_name (r_w s) n id ->
  r = RUnit /\
  (sent_by i tr = [] \/
   exists x, found_way (moments (r_w s) tr) lvl id x /\ had_outputs (moments (r_w s) tr) x (map fst (sent_by i tr))).
Proof.
  intros P s tr s' i id n c v lvl fmt args now ustk r R E C (l & Hl & <-).
  destruct (whole_split _ _ _ _ _ _ _ R E C) as (tr0 & s0 & E0 & C0 & Hr & Es & Hm & _). rewrite Es.
  assert (Hi : incl (moments (r_w s) tr0) (moments (r_w s) tr)) by (intros X HX; now apply Hm).
  destruct (call_outcome _ _ _ _ _ _ _ _ _ _ _ _ _ _ R E0 C0 Hl) as (p' & Hp' & [[_ H]|[(H & -> & _)|(x & ops & k & e0 & B1 & _ & B3 & _ & evs & rest & B5 & _ & _ & B6)]]).
  - exfalso. apply (H r). congruence.
  - split; [congruence|now left].
  - destruct (B6 r ltac:(congruence)) as [-> ->]. split; [reflexivity|]. rewrite app_nil_r in B5. right. exists x.
    split; [eapply found_way_incl; eassumption|]. rewrite <- B5. eapply had_outputs_incl; eassumption.
Qed.
Print Assumptions C58_whole_list.
(** Nothing sent means that the level was found disabled on the way, or that the outputs were found to be none where the way ended. *)
Theorem C58_why_nothing : forall P s tr s' i id n c v lvl fmt args now ustk r,
  r_reach P s -> rexec P s tr s' -> whole_call i (OLog id c v lvl fmt args now ustk) r tr -> has_name (r_w s) n id ->
  sent_by i tr = [] ->
  (exists x e, found_level (moments (r_w s) tr) x e /\ lvl < e /\ exists k, up (r_w s) id k x) \/
  exists x, found_way (moments (r_w s) tr) lvl id x /\ had_outputs (moments (r_w s) tr) x [].
Proof.
  intros P s tr s' i id n c v lvl fmt args now ustk r R E C (l & Hl & <-) En.
  destruct (whole_split _ _ _ _ _ _ _ R E C) as (tr0 & s0 & E0 & C0 & Hr & Es & Hm & _). rewrite Es in En.
  assert (Hi : incl (moments (r_w s) tr0) (moments (r_w s) tr)) by (intros X HX; now apply Hm).
  pose proof (moments_aligned _ _ _ _ R E0) as Al.
  destruct (call_outcome _ _ _ _ _ _ _ _ _ _ _ _ _ _ R E0 C0 Hl) as (p' & Hp' & [[_ H]|[(H & -> & B)|(x & ops & k & e0 & B1 & _ & B3 & _ & evs & rest & B5 & _ & _ & B6)]]).
  - exfalso. apply (H r). congruence.
  - left. assert (K : known (r_w s) id) by now exists l. clear -B Al K Hi. induction B as [id e F He|W1 id l1 p e F He HW Hl1 Ho Hp B IH].
    + exists id, e. split; [eapply found_level_incl; eassumption|]. split; [assumption|]. exists 0%nat. constructor.
    + destruct (aligned_at _ _ _ _ _ Al HW Hl1 K) as (l & Hl & _ & Ep). rewrite Hp in Ep. symmetry in Ep.
      destruct (known_parent _ _ _ _ (proj1 Al) Hl Ep) as [_ Kp]. destruct (IH Kp) as (x & e' & A1 & A2 & k & A3).
      exists x, e'. split; [assumption|]. split; [assumption|]. exists (S k). eapply up_S; eassumption.
  - right. destruct (B6 r ltac:(congruence)) as [-> ->]. exists x. split; [eapply found_way_incl; eassumption|].
    rewrite En in B5. cbn in B5. rewrite <- B5. eapply had_outputs_incl; eassumption.
Qed.
Print Assumptions C58_why_nothing.
(** While nobody touches the logger and its ancestors, calls on others do not matter: the call goes where it goes by itself. *)
Theorem C58_undisturbed_partial : forall P s tr s' i id n c v lvl fmt args now ustk r,
  r_reach P s -> rexec P s tr s' -> whole_call i (OLog id c v lvl fmt args now ustk) r tr -> has_name (r_w s) n id ->
  left_alone (moments (r_w s) tr) id -> route (r_w s) lvl n (map fst (sent_by i tr)).
Proof.
  intros P s tr s' i id n c v lvl fmt args now ustk r R E C (l & Hl & <-) La.
  destruct (whole_split _ _ _ _ _ _ _ R E C) as (tr0 & s0 & E0 & C0 & Hr & Es & Hm & _). rewrite Es.
  pose proof (moments_aligned _ _ _ _ R E0) as Al. assert (H0 : In (r_w s) (moments (r_w s) tr0)) by now left.
  assert (La0 : left_alone (moments (r_w s) tr0) id).
  { intros W W' k x y y' A B. apply Hm in A. apply Hm in B. exact (La W W' k x y y' A B). }
  destruct (call_outcome _ _ _ _ _ _ _ _ _ _ _ _ _ _ R E0 C0 Hl) as (p' & Hp' & [[_ H]|[(H & -> & B)|(x & ops & k & e0 & B1 & B2 & B3 & _ & evs & rest & B5 & _ & _ & B6)]]).
  - exfalso. apply (H r). congruence.
  - rewrite H. exact (found_block_alone _ _ _ _ Al H0 B La0 l Hl).
  - destruct (B6 r ltac:(congruence)) as [-> ->]. rewrite app_nil_r in B5. rewrite <- B5.
    exact (found_way_alone _ _ _ _ _ Al H0 B1 La0 B2 l ops Hl B3).
Qed.
Print Assumptions C58_undisturbed_partial.
(** And when loggers are being changed: if at every moment no level on the way forbids the call and the nearest logger
    with outputs is the same, then the event goes to the outputs that logger had at one of these moments. *)
Theorem C58_steady_way_partial : forall P s tr s' i id n x c v lvl fmt args now ustk r,
  r_reach P s -> rexec P s tr s' -> whole_call i (OLog id c v lvl fmt args now ustk) r tr -> has_name (r_w s) n id ->
  open_all_along (moments (r_w s) tr) lvl id -> served_all_along (moments (r_w s) tr) id x ->
  had_outputs (moments (r_w s) tr) x (map fst (sent_by i tr)) /\ sent_by i tr <> [].
Proof.
  intros P s tr s' i id n x c v lvl fmt args now ustk r R E C (l & Hl & <-) Op Sv.
  destruct (whole_split _ _ _ _ _ _ _ R E C) as (tr0 & s0 & E0 & C0 & Hr & Es & Hm & _). rewrite Es.
  assert (Hi : incl (moments (r_w s) tr0) (moments (r_w s) tr)) by (intros X HX; now apply Hm).
  pose proof (moments_aligned _ _ _ _ R E0) as Al. assert (H0 : In (r_w s) (moments (r_w s) tr0)) by now left.
  assert (Op0 : open_all_along (moments (r_w s) tr0) lvl id).
  { intros W k y ly A. apply Hm in A. exact (Op W k y ly A). }
  assert (Sv0 : served_all_along (moments (r_w s) tr0) id x).
  { destruct Sv as [k Sv]. exists k. intros W HW. apply Sv. auto. }
  assert (K : known (r_w s) id) by now exists l.
  destruct (call_outcome _ _ _ _ _ _ _ _ _ _ _ _ _ _ R E0 C0 Hl) as (p' & Hp' & [[_ H]|[(H & -> & B)|(y & ops & k & e0 & B1 & B2 & B3 & _ & evs & rest & B5 & _ & _ & B6)]]).
  - exfalso. apply (H r). congruence.
  - destruct (found_block_open _ _ _ _ Al B K Op0).
  - destruct (B6 r ltac:(congruence)) as [-> ->]. rewrite app_nil_r in B5.
    pose proof (found_way_served _ _ _ _ _ _ Al H0 B1 K B2 Sv0) as ->. rewrite <- B5.
    split; [eapply had_outputs_incl; eassumption|]. destruct B3 as (W & lx & HW & Hlx & Eo). destruct Sv0 as [j Sv0].
    destruct (Sv0 W HW) as (_ & Hne & _). intros Z. apply (Hne _ Hlx). rewrite Eo, B5, Z. reflexivity.
Qed.
Print Assumptions C58_steady_way_partial.
(** No panic. *)
Theorem C58_no_panic : forall P s tr s' i id n c v lvl fmt args now ustk W,
  r_reach P s -> rexec P s (tr ++ [(i, Panicked, W)]) s' -> in_call i (OLog id c v lvl fmt args now ustk) tr ->
  has_name (r_w s) n id -> good_ctx c ->
  (forall X j x, In X (moments (r_w s) tr) -> nth_error (w_heap X) j = Some x -> (exists h, built h (o_fmt x)) /\ returns x) -> False.
Proof.
  intros P s tr s' i id n c v lvl fmt args now ustk W R E C (l & Hl & _) Hc Ho.
  apply rexec_app_inv in E as (s1 & E & E1). inversion E1 as [|q j a s2 t s3 H E2]; subst. inversion H; subst.
  destruct (in_call_from _ _ _ _ _ _ R E C) as (I0 & mid & Es & Hi & p' & Hp' & A).
  refine (al_safe _ _ _ _ _ _ _ A I0 (safe_Printf _ _ _ _ _ _ _ _ _ _ _ I0 Hl Hc) _ _).
  - intros X k x HX Hx. exact (Ho X k x (Hi _ HX) Hx).
  - congruence.
Qed.
Print Assumptions C58_no_panic.

(** ** Calls that behave as at no single moment *)
(** Loggers 0 root (console) and 1 "a"; output 1 is a memory output. *)
Definition again (i n : nat) : list (nat * option op) := repeat (i, None) n.
Definition race_log : op := OLog 1 CtxBackground Named Info ($"x") [] 0 ex_user.
Definition tr_of (P : params) (s : rstate) (sc : list (nat * option op)) : list (nat * rlabel * world) :=
  match rrun P s sc with Some (tr, _) => tr | None => [] end.
Definition st_of (P : params) (s : rstate) (sc : list (nat * option op)) : rstate :=
  match rrun P s sc with Some (_, s') => s' | None => s end.
Definition runs_ok (P : params) (s : rstate) (sc : list (nat * option op)) : bool :=
  match rrun P s sc with Some _ => true | None => false end.
Definition calls_of (tr : list (nat * rlabel * world)) : list (nat * op) :=
  flat_map (fun '(i, a, _) => match a with Called o => [(i, o)] | _ => [] end) tr.
Lemma of_run P s sc : runs_ok P s sc = true -> rexec P s (tr_of P s sc) (st_of P s sc).
Proof. unfold runs_ok, tr_of, st_of. destruct (rrun P s sc) as [[tr s']|] eqn:E; [|discriminate]. intros _. eapply rrun_exec; eassumption. Qed.
Lemma whole_run P s i o sc : runs_ok P s ((i, Some o) :: sc) = true -> ends i (tl (tr_of P s ((i, Some o) :: sc))) = true ->
  whole_call i o RUnit (tr_of P s ((i, Some o) :: sc)).
Proof.
  unfold runs_ok, tr_of. destruct (rrun P s ((i, Some o) :: sc)) as [[tr s']|] eqn:E; [|discriminate]. intros _. eapply rrun_whole; eassumption.
Qed.
Lemma start_reach P ops n : runs P ops = true -> r_reach P (r_start (ran P ops) n).
Proof. intros H. exists (ran P ops), n, []. split; [now apply ran_reach|constructor]. Qed.
Lemma all_routes P s tr s' id n v (good : list nat -> bool) : r_reach P s -> rexec P s tr s' -> has_name (r_w s) n id ->
  forallb (fun W => good (target (S id) W v id)) (moments (r_w s) tr) = true ->
  forall W, In W (moments (r_w s) tr) -> exists ops, route W v n ops /\ good ops = true.
Proof.
  intros R E (l & Hl & <-) H W HW. pose proof (moments_aligned _ _ _ _ R E) as Al. destruct (proj2 Al W HW) as [IW L].
  destruct (known_later _ _ _ L (ex_intro _ l Hl)) as [l' Hl']. destruct (known_same _ _ _ _ _ L Hl Hl') as [En _].
  exists (target (S id) W v id). split; [|rewrite forallb_forall in H; now apply H].
  rewrite <- En. apply target_route; [assumption|assumption|lia].
Qed.
Definition nonempty (ops : list nat) : bool := match ops with [] => false | _ => true end.

Definition lost_s : rstate := r_start (ran ex_P [OGetLogger ($"a"); ONewOutput ex_mem ex_fmt; OSetOutputs 1 [1%nat]]) 2.
Definition lost_sc : list (nat * option op) :=
  (0%nat, Some race_log) :: again 0 6 ++ (1%nat, Some (OSetOutputs 1 [])) :: again 1 3 ++ again 0 3.
Lemma lost_name : has_name (r_w lost_s) ($"a") 1.
Proof.
  unfold has_name. assert (E : nth_error (w_loggers (r_w lost_s)) 1 = Some (mkLogger ($"a") 0 (Some 0%nat) [1%nat] 3 1)) by (vm_compute; reflexivity).
  eexists. split; [exact E|reflexivity].
Qed.
(** Another goroutine takes the outputs of "a" away, so that the parent's are used from then on: the event of a call
    that checked before that and reads the outputs after it goes nowhere, although it had somewhere to go all along. *)
Theorem C58_lost_refuted : exists P s tr s', r_reach P s /\ rexec P s tr s' /\ whole_call 0 race_log RUnit tr /\
  calls_of tr = [(0%nat, race_log); (1%nat, OSetOutputs 1 [])] /\ has_name (r_w s) ($"a") 1 /\
  (forall W, In W (moments (r_w s) tr) -> exists ops, route W Info ($"a") ops /\ ops <> []) /\ sent_by 0 tr = [].
Proof.
  assert (R : r_reach ex_P lost_s) by (apply start_reach; vm_compute; reflexivity).
  assert (E : rexec ex_P lost_s (tr_of ex_P lost_s lost_sc) (st_of ex_P lost_s lost_sc)) by (apply of_run; vm_compute; reflexivity).
  exists ex_P, lost_s, (tr_of ex_P lost_s lost_sc), (st_of ex_P lost_s lost_sc).
  split; [exact R|]. split; [exact E|].
  split; [apply whole_run; vm_compute; reflexivity|]. split; [vm_compute; reflexivity|]. split; [exact lost_name|].
  split; [|vm_compute; reflexivity].
  intros W HW. destruct (all_routes _ _ _ _ _ _ Info nonempty R E lost_name ltac:(vm_compute; reflexivity) W HW) as (ops & H1 & H2).
  exists ops. split; [assumption|]. intros ->. discriminate.
Qed.
Print Assumptions C58_lost_refuted.

Definition torn_s : rstate :=
  r_start (ran ex_P [OGetLogger ($"a"); ONewOutput ex_mem ex_fmt; OSetOutputs 1 [1%nat]; OSetLevel 0 Error]) 2.
Definition torn_sc : list (nat * option op) :=
  (0%nat, Some race_log) :: again 0 2 ++ (1%nat, Some (OSetLevel 1 Error)) :: again 1 2 ++
  (1%nat, Some (OSetLevel 0 Info)) :: again 1 2 ++ again 0 8.
Lemma torn_name : has_name (r_w torn_s) ($"a") 1.
Proof.
  unfold has_name. assert (E : nth_error (w_loggers (r_w torn_s)) 1 = Some (mkLogger ($"a") 0 (Some 0%nat) [1%nat] 3 1)) by (vm_compute; reflexivity).
  eexists. split; [exact E|reflexivity].
Qed.
(** Another goroutine first gives "a" its own level Error, then sets root to Info: Info is disabled for "a" throughout,
    and yet an Info event of "a" is delivered. *)
Theorem C58_torn_level_refuted : exists P s tr s', r_reach P s /\ rexec P s tr s' /\ whole_call 0 race_log RUnit tr /\
  calls_of tr = [(0%nat, race_log); (1%nat, OSetLevel 1 Error); (1%nat, OSetLevel 0 Info)] /\ has_name (r_w s) ($"a") 1 /\
  (forall W, In W (moments (r_w s) tr) -> route W Info ($"a") []) /\ map fst (sent_by 0 tr) = [1%nat].
Proof.
  assert (R : r_reach ex_P torn_s) by (apply start_reach; vm_compute; reflexivity).
  assert (E : rexec ex_P torn_s (tr_of ex_P torn_s torn_sc) (st_of ex_P torn_s torn_sc)) by (apply of_run; vm_compute; reflexivity).
  exists ex_P, torn_s, (tr_of ex_P torn_s torn_sc), (st_of ex_P torn_s torn_sc).
  split; [exact R|]. split; [exact E|].
  split; [apply whole_run; vm_compute; reflexivity|]. split; [vm_compute; reflexivity|]. split; [exact torn_name|].
  split; [|vm_compute; reflexivity].
  intros W HW. destruct (all_routes _ _ _ _ _ _ Info (fun o => negb (nonempty o)) R E torn_name ltac:(vm_compute; reflexivity) W HW) as (ops & H1 & H2).
  destruct ops; [assumption|discriminate].
Qed.
Print Assumptions C58_torn_level_refuted.

(** Between write and getCallerInfo, when an output formats: Send, Format and the function of the layout verb. *)
Definition deep_P : params :=
  mkParams ex_env (fun r => r) (fun r => r) (fun _ => true) (fun _ => (empty_config, true)) (fun _ => (empty_config, true))
    (fun _ => None) (ex_frame 1) (ex_frame 2) (ex_frame 3) (ex_frame 4) [ex_frame 4; ex_frame 5; ex_frame 6; ex_frame 7].
Definition site_s : rstate := r_start (ran deep_P [OGetLogger ($"a"); ONewOutput ex_mem ex_fmt]) 2.
Definition site_sc : list (nat * option op) :=
  (0%nat, Some race_log) :: again 0 4 ++ (1%nat, Some (OSetOutputs 1 [1%nat])) :: again 1 2 ++ again 0 6.
Definition written (W : world) (o : nat) : list str := match nth_error (w_heap W) o with Some x => o_writes x | None => [] end.
Definition alone (P : params) (W : world) (o : op) : world := match exec P W o with Ok (W', RUnit) => W' | _ => W end.
Lemma alone_exec P W o : match exec P W o with Ok (_, RUnit) => true | _ => false end = true -> exec P W o = Ok (alone P W o, RUnit).
Proof. unfold alone. destruct (exec P W o) as [[W' []]|]; try discriminate. reflexivity. Qed.
(** SetOutputs stores the outputs before it notes that they want the call site: a call that comes between delivers a
    line naming the wrong file, which the call does neither before SetOutputs nor after it. *)
Theorem C58_site_refuted : exists P s tr s' tr2 s2 W1 W2 t t2,
  r_reach P s /\ rexec P s tr s' /\ whole_call 0 race_log RUnit tr /\
  calls_of tr = [(0%nat, race_log); (1%nat, OSetOutputs 1 [1%nat])] /\
  rexec P s' tr2 s2 /\ calls_of tr2 = [] /\ nth_error (r_threads s2) 1 = Some None /\ written (r_w s2) 1 = [t] /\
  exec P (r_w s) race_log = Ok (W1, RUnit) /\ written W1 1 = [] /\
  exec P (r_w s2) race_log = Ok (W2, RUnit) /\ written W2 1 = [t; t2] /\ t <> t2.
Proof.
  pose (s' := st_of deep_P site_s site_sc). pose (s2 := st_of deep_P s' (again 1 5)).
  exists deep_P, site_s, (tr_of deep_P site_s site_sc), s', (tr_of deep_P s' (again 1 5)), s2,
    (alone deep_P (r_w site_s) race_log), (alone deep_P (r_w s2) race_log), ($"%v lib.go x %v"), ($"%v user.go x %v").
  split; [apply start_reach; vm_compute; reflexivity|]. split; [apply of_run; vm_compute; reflexivity|].
  split; [apply whole_run; vm_compute; reflexivity|]. split; [vm_compute; reflexivity|].
  split; [apply of_run; vm_compute; reflexivity|]. split; [vm_compute; reflexivity|]. split; [vm_compute; reflexivity|].
  split; [vm_compute; reflexivity|]. split; [apply alone_exec; vm_compute; reflexivity|]. split; [vm_compute; reflexivity|].
  split; [apply alone_exec; vm_compute; reflexivity|]. split; [vm_compute; reflexivity|discriminate].
Qed.
Print Assumptions C58_site_refuted.

(** The hypotheses of the theorems above are met in an execution where another goroutine sets the outputs of another
    logger and logs to the same output meanwhile. *)
Definition calm_s : rstate :=
  r_start (ran ex_P [OGetLogger ($"a"); OGetLogger ($"b"); ONewOutput ex_mem ex_fmt; OSetOutputs 1 [1%nat; 1%nat]; OSetLevel 1 Info]) 2.
Definition calm_sc : list (nat * option op) :=
  (0%nat, Some race_log) :: again 0 2 ++ (1%nat, Some (OSetOutputs 2 [1%nat])) :: again 1 3 ++ again 0 4 ++ again 1 4 ++
  (1%nat, Some (OLog 2 CtxBackground Named Error ($"y") [] 0 ex_user)) :: again 1 8 ++ again 0 4.
Lemma calm_name : has_name (r_w calm_s) ($"a") 1.
Proof.
  unfold has_name. assert (E : nth_error (w_loggers (r_w calm_s)) 1 = Some (mkLogger ($"a") 4 (Some 0%nat) [1%nat; 1%nat] 3 1)) by (vm_compute; reflexivity).
  eexists. split; [exact E|reflexivity].
Qed.
Definition cell_is (W : world) (id : nat) (lv : Z) (ops : list nat) (par : option nat) : bool :=
  match nth_error (w_loggers W) id with
  | Some l => (l_level l =? lv) && (if list_eq_dec Nat.eq_dec (l_outputs l) ops then true else false) &&
              match l_parent l, par with Some a, Some b => Nat.eqb a b | None, None => true | _, _ => false end
  | None => false
  end.
Lemma cell_is_sound W id lv ops par l : cell_is W id lv ops par = true -> nth_error (w_loggers W) id = Some l ->
  l_level l = lv /\ l_outputs l = ops /\ l_parent l = par.
Proof.
  unfold cell_is. intros H Hl. rewrite Hl in H. apply andb_true_iff in H as [H H3]. apply andb_true_iff in H as [H1 H2].
  destruct (list_eq_dec _ _ _) in H2; [|discriminate]. split; [lia|]. split; [assumption|].
  destruct (l_parent l), par; try discriminate; [|reflexivity]. apply Nat.eqb_eq in H3. congruence.
Qed.
Lemma cell_is_some W id lv ops par : cell_is W id lv ops par = true -> exists l, nth_error (w_loggers W) id = Some l.
Proof. unfold cell_is. destruct (nth_error _ _) as [l|]; [eauto|discriminate]. Qed.
Definition calm_tr : list (nat * rlabel * world) := tr_of ex_P calm_s calm_sc.
Lemma calm_cells W : In W (moments (r_w calm_s) calm_tr) ->
  cell_is W 0 1 [0%nat] None = true /\ cell_is W 1 4 [1%nat; 1%nat] (Some 0%nat) = true.
Proof.
  intros H. assert (E : forallb (fun W => cell_is W 0 1 [0%nat] None && cell_is W 1 4 [1%nat; 1%nat] (Some 0%nat)) (moments (r_w calm_s) calm_tr) = true)
    by (vm_compute; reflexivity).
  rewrite forallb_forall in E. specialize (E W H). now apply andb_true_iff in E.
Qed.
Lemma calm_up W k x : In W (moments (r_w calm_s) calm_tr) -> up W 1 k x -> x = 1%nat \/ x = 0%nat.
Proof.
  intros H U. destruct (calm_cells W H) as [A B]. inversion U as [|? l p k' ? Hl Hp U']; subst; [now left|].
  destruct (cell_is_sound _ _ _ _ _ _ B Hl) as (_ & _ & E). assert (p = 0%nat) by congruence. subst p.
  inversion U' as [|? l' p' k2 ? Hl' Hp' U2]; subst; [now right|].
  destruct (cell_is_sound _ _ _ _ _ _ A Hl') as (_ & _ & E'). congruence.
Qed.
Lemma calm_fmts : map (fun W => map o_fmt (w_heap W)) (moments (r_w calm_s) calm_tr) =
  repeat [match Parser default_layout with Some ps => Some (FText ps) | None => None end; ex_fmt] 29.
Proof. vm_compute. reflexivity. Qed.
Lemma calm_sinks : map (fun W => map (fun o => match os_sink (o_spec o) with SinkCustom _ => true | _ => false end) (w_heap W))
    (moments (r_w calm_s) calm_tr) = repeat [false; false] 29.
Proof. vm_compute. reflexivity. Qed.
Lemma calm_built X j x : In X (moments (r_w calm_s) calm_tr) -> nth_error (w_heap X) j = Some x -> (exists h, built h (o_fmt x)) /\ returns x.
Proof.
  intros HX Hx. split.
  2: { apply (in_map (fun W => map (fun o => match os_sink (o_spec o) with SinkCustom _ => true | _ => false end) (w_heap W))) in HX.
    rewrite calm_sinks in HX. apply repeat_spec in HX. intros send Hs.
    apply (map_nth_error (fun o => match os_sink (o_spec o) with SinkCustom _ => true | _ => false end)) in Hx.
    rewrite HX, Hs in Hx. apply nth_error_In in Hx. destruct Hx as [F|[F|[]]]; discriminate F. }
  apply (in_map (fun W => map o_fmt (w_heap W))) in HX. rewrite calm_fmts in HX. apply repeat_spec in HX.
  apply (map_nth_error o_fmt) in Hx. rewrite HX in Hx. apply nth_error_In in Hx. clear HX.
  assert (B : forall y, exists h, built h (match Parser y with Some ps => Some (FText ps) | None => None end)).
  { intros y. destruct (Parser y) as [ps|] eqn:E; [exists (ByLayout y); now constructor|exists ByDefault; constructor]. }
  destruct Hx as [<-|[<-|[]]]; apply B.
Qed.
Example C58_example : exists s', r_reach ex_P calm_s /\ rexec ex_P calm_s calm_tr s' /\ whole_call 0 race_log RUnit calm_tr /\
  has_name (r_w calm_s) ($"a") 1 /\ good_ctx CtxBackground /\
  calls_of calm_tr = [(0%nat, race_log); (1%nat, OSetOutputs 2 [1%nat]); (1%nat, OLog 2 CtxBackground Named Error ($"y") [] 0 ex_user)] /\
  left_alone (moments (r_w calm_s) calm_tr) 1 /\ open_all_along (moments (r_w calm_s) calm_tr) Info 1 /\
  served_all_along (moments (r_w calm_s) calm_tr) 1 1 /\
  (forall X j x, In X (moments (r_w calm_s) calm_tr) -> nth_error (w_heap X) j = Some x -> (exists h, built h (o_fmt x)) /\ returns x) /\
  map fst (sent_by 0 calm_tr) = [1%nat; 1%nat].
Proof.
  exists (st_of ex_P calm_s calm_sc).
  split; [apply start_reach; vm_compute; reflexivity|]. split; [apply of_run; vm_compute; reflexivity|].
  split; [apply whole_run; vm_compute; reflexivity|]. split; [exact calm_name|]. split; [apply good_background|].
  split; [vm_compute; reflexivity|].
  split; [|split; [|split; [|split; [exact calm_built|vm_compute; reflexivity]]]].
  - intros W W' k x l l' HW HW' U Hl Hl'. destruct (calm_cells _ HW) as [A B]. destruct (calm_cells _ HW') as [A' B'].
    destruct (calm_up _ _ _ HW U) as [-> | ->].
    + destruct (cell_is_sound _ _ _ _ _ _ B Hl) as (-> & -> & _). destruct (cell_is_sound _ _ _ _ _ _ B' Hl') as (-> & -> & _). auto.
    + destruct (cell_is_sound _ _ _ _ _ _ A Hl) as (-> & -> & _). destruct (cell_is_sound _ _ _ _ _ _ A' Hl') as (-> & -> & _). auto.
  - intros W k x l HW U Hl. destruct (calm_cells _ HW) as [A B]. destruct (calm_up _ _ _ HW U) as [-> | ->].
    + destruct (cell_is_sound _ _ _ _ _ _ B Hl) as (-> & _ & E). split; [unfold Info; lia|]. congruence.
    + destruct (cell_is_sound _ _ _ _ _ _ A Hl) as (-> & _ & E). split; [unfold Info; lia|]. discriminate.
  - exists 0%nat. intros W HW. destruct (calm_cells _ HW) as [A B]. split; [constructor|]. split; [|intros; lia].
    intros l Hl. destruct (cell_is_sound _ _ _ _ _ _ B Hl) as (_ & -> & _). discriminate.
Qed.

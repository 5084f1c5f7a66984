(** Property C62: what a signal does. *)
From Verif Require Import GoStr Utf8 LevelModel EventModel ConfModel OutputModel WorldModel WorldSpec WorldBase WorldInv CloseSpec CloseProofs
  P_Hier P_Manager P_Close SignalModel.

(** A signal that asks the process to end. *)
Definition asks (a : plabel) : Prop := a = Got Interrupt \/ a = Got Terminate.
(** Labels after which the process has ended of itself. *)
Definition ends (a : plabel) : Prop := a = Returned \/ a = Got (Other true).
Definition by_handler (a : plabel) : Prop := a = Received \/ a = ClosedAll.

Lemma process_reach P tr s : psteps P (pr_start P) tr s -> reach P (pr_world s).
Proof.
  intros H. remember (pr_start P) as s0 eqn:E. induction H as [|s tr s1 a s2 H IH St]; subst; [constructor|].
  specialize (IH eq_refl). destruct St as [? ? ? ? ?| | |W n W' r Ex|W n h o W' r Ho Ex|]; cbn [pr_world] in *; try assumption.
  - exact (reach_step P W OClose W' r IH Logic.I Ex).
  - exact (reach_step P W o W' r IH Ho Ex).
Qed.
(** Where the handler is, from what has happened. *)
Definition tells (tr : list plabel) (s : process) : Prop :=
  match pr_handler s with
  | Waiting => ~ In ClosedAll tr /\ ~ In Received tr /\ (pr_chan s = 0 -> Forall (fun a => ~ asks a) tr) /\
               (pr_chan s <> 0 -> Exists asks tr)
  | Closing => ~ In ClosedAll tr /\ Exists asks tr
  | Over => exists a b, tr = a ++ ClosedAll :: b /\ ~ In ClosedAll a /\ ~ In ClosedAll b /\ Exists asks a
  end.
Lemma asks_dec a : {asks a} + {~ asks a}.
Proof. unfold asks. destruct a as [[]| | | |]; (left; tauto) || (right; intros [H|H]; discriminate). Qed.
Lemma notin_snoc {A} (x : A) l a : ~ In x l -> a <> x -> ~ In x (l ++ [a]).
Proof. intros H N I. apply in_app_iff in I as [I|[I|[]]]; auto. Qed.
Lemma exists_l {A} (Q : A -> Prop) l m : Exists Q l -> Exists Q (l ++ m).
Proof. intros H. apply Exists_app. now left. Qed.
Lemma exists_r {A} (Q : A -> Prop) l x : Q x -> Exists Q (l ++ [x]).
Proof. intros H. apply Exists_app. right. now left. Qed.
Lemma tells_reach P tr s : psteps P (pr_start P) tr s -> tells tr s.
Proof.
  intros H. remember (pr_start P) as s0 eqn:E. induction H as [|s tr s1 a s2 H IH St]; subst.
  { cbn. repeat split; auto. intros N. now destruct N. }
  specialize (IH eq_refl). clear H. unfold tells in *.
  assert (Q : forall h W n W' n' , pr_handler s1 = h -> s1 = mkProc W n h true ->
            a <> ClosedAll -> a <> Received -> pr_handler s2 = h -> s2 = mkProc W' n' h (pr_alive s2) ->
            (asks a -> n' <> 0) -> (~ asks a -> n' = n) -> 
            match h with
            | Waiting => ~ In ClosedAll (tr ++ [a]) /\ ~ In Received (tr ++ [a]) /\ (n' = 0 -> Forall (fun a => ~ asks a) (tr ++ [a])) /\
               (n' <> 0 -> Exists asks (tr ++ [a]))
            | Closing => ~ In ClosedAll (tr ++ [a]) /\ Exists asks (tr ++ [a])
            | Over => exists a0 b, tr ++ [a] = a0 ++ ClosedAll :: b /\ ~ In ClosedAll a0 /\ ~ In ClosedAll b /\ Exists asks a0
            end).
  { intros h W n W' n' E1 -> N1 N2 E2 E3 A1 A2. cbn in IH. destruct h.
    - destruct IH as (I1 & I2 & I3 & I4). repeat split; try (now apply notin_snoc).
      + intros ->. destruct (asks_dec a) as [Ha|Ha]; [now destruct (A1 Ha)|]. rewrite <- (A2 Ha) in I3.
        apply Forall_app. split; [now apply I3|]. now constructor.
      + intros Hn. destruct (asks_dec a) as [Ha|Ha]; [now apply exists_r|]. rewrite <- (A2 Ha) in I4. now apply exists_l, I4.
    - destruct IH as (I1 & I2). split; [now apply notin_snoc|now apply exists_l].
    - destruct IH as (a0 & b & -> & I1 & I2 & I3). exists a0, (b ++ [a]). rewrite <- app_assoc. repeat split; auto. now apply notin_snoc. }
  destruct St as [sg W n h Hs|W n h fatal|W n|W n W' r Ex|W n h o W' r Ho Ex|W n h].
  - cbn. apply (Q h W n W (Nat.min 1 (S n))); try reflexivity; try discriminate.
    intros N. exfalso. apply N. unfold asks. destruct Hs as [-> | ->]; auto.
  - cbn. apply (Q h W n W n); try reflexivity; try discriminate. intros [A|A]; discriminate.
  - cbn in *. destruct IH as (I1 & I2 & I3 & I4). split; [apply notin_snoc; [assumption|discriminate]|].
    apply exists_l, I4. discriminate.
  - cbn in *. destruct IH as (I1 & I2). exists tr, []. repeat split; auto.
  - cbn. apply (Q h W n W' n); try reflexivity; try discriminate. intros [A|A]; discriminate.
  - cbn. apply (Q h W n W n); try reflexivity; try discriminate. intros [A|A]; discriminate.
Qed.

(** The handler closes the manager at most once, and only after a signal asked for it. *)
Theorem C62_at_most_once : forall P tr s a b, psteps P (pr_start P) tr s -> tr = a ++ ClosedAll :: b ->
  Exists asks a /\ ~ In ClosedAll a /\ ~ In ClosedAll b.
Proof.
  intros P tr s a b H E. pose proof (tells_reach _ _ _ H) as T. unfold tells in T.
  assert (In ClosedAll tr) as Hin by (rewrite E; apply in_app_iff; right; now left).
  destruct (pr_handler s); [now destruct T|now destruct T|]. destruct T as (a0 & b0 & E0 & N1 & N2 & Hx).
  assert (a0 = a /\ b0 = b) as [-> ->]; [|auto]. rewrite E0 in E. clear - E N1 N2. revert a E. induction a0 as [|x a0 IH]; intros a E.
  - destruct a as [|y a]; [now injection E as ->|]. exfalso. injection E as E1 E2. apply N2. rewrite E2. apply in_app_iff. right. now left.
  - destruct a as [|y a]; [exfalso; injection E as -> _; apply N1; now left|]. injection E as -> E.
    destruct (IH (fun H => N1 (or_intror H)) a E) as [-> ->]. auto.
Qed.
Print Assumptions C62_at_most_once.
(** Once a signal has asked for it, and as long as the process lives, the manager has been closed or the handler
    by itself, in at most two steps, closes it: no call of the program can keep it from that. *)
Theorem C62_closes : forall P tr s, psteps P (pr_start P) tr s -> pr_alive s = true -> Exists asks tr ->
  In ClosedAll tr \/ exists hs s', psteps P s hs s' /\ Forall by_handler hs /\ length hs <= 2 /\ In ClosedAll hs.
Proof.
  intros P tr s H A Hx. pose proof (tells_reach _ _ _ H) as T. unfold tells in T. destruct s as [W n h al]. cbn in *. subst al.
  destruct h.
  - right. destruct n as [|n].
    + destruct T as (_ & _ & T & _). specialize (T eq_refl). apply Exists_exists in Hx as (x & Hin & Hx).
      rewrite Forall_forall in T. now destruct (T x Hin).
    + exists [Received; ClosedAll]. eexists. split; [|split; [|split]].
      * eapply (pss_more P _ [Received]); [eapply (pss_more P _ []); [constructor|apply ps_receive]|]. eapply ps_close. reflexivity.
      * apply Forall_cons; [now left|]. apply Forall_cons; [now right|constructor].
      * cbn. lia.
      * right. now left.
  - right. exists [ClosedAll]. eexists. split; [|split; [|split]].
    + eapply (pss_more P _ []); [constructor|]. eapply ps_close. reflexivity.
    + apply Forall_cons; [now right|constructor].
    + cbn. lia.
    + now left.
  - left. destruct T as (a & b & -> & _). apply in_app_iff. right. now left.
Qed.
Print Assumptions C62_closes.
(** It closes every output the manager has at that moment, once, and no other. *)
Theorem C62_every_output : forall P tr s s', psteps P (pr_start P) tr s -> pstep P s ClosedAll s' ->
  length (w_heap (pr_world s')) = length (w_heap (pr_world s)) /\
  forall i x, nth_error (w_heap (pr_world s)) i = Some x -> exists x', nth_error (w_heap (pr_world s')) i = Some x' /\
    ((managed (pr_world s) i /\ closed_more 1 x x') \/ (~ managed (pr_world s) i /\ closed_more 0 x x')).
Proof.
  intros P tr s s' H St. pose proof (process_reach _ _ _ H) as R. inversion St; subst; cbn in *.
  match goal with E : Ok _ = Ok _ |- _ => rename E into Ex end.
  destruct (C54_each_once P W W' r R) as (H1 & H2 & _); [exact Ex|]. auto.
Qed.
Print Assumptions C62_every_output.
(** But the process does not end: whatever signals ask it to, it lives until it returns of itself (or another
    signal kills it). *)
Theorem C62_lives_on : forall P tr s, psteps P (pr_start P) tr s -> Forall (fun a => ~ ends a) tr -> pr_alive s = true.
Proof.
  intros P tr s H. remember (pr_start P) as s0 eqn:E. induction H as [|s tr s1 a s2 H IH St]; intros F; subst; [reflexivity|].
  apply Forall_app in F as [_ F]. apply Forall_inv in F. unfold ends in F. destruct St; cbn; auto; try (exfalso; now auto).
  destruct fatal; [exfalso; auto|reflexivity].
Qed.
Print Assumptions C62_lives_on.
(** And only the first signal counts: when the handler has closed the manager, further ones change nothing the
    program can see, and nobody but the program closes an output again. *)
Theorem C62_first_only : forall P s a s', pr_handler s = Over -> pstep P s a s' -> asks a \/ by_handler a ->
  pr_world s' = pr_world s /\ pr_handler s' = Over /\ pr_alive s' = pr_alive s.
Proof.
  intros P s a s' Ho St Ha. destruct St; cbn in *; auto; try discriminate.
  - destruct Ha as [[Ha|Ha]|[Ha|Ha]]; discriminate.
  - destruct Ha as [[Ha|Ha]|[Ha|Ha]]; discriminate.
  - destruct Ha as [[Ha|Ha]|[Ha|Ha]]; discriminate.
Qed.
Print Assumptions C62_first_only.
(** A run: Interrupt, the handler closes the manager; the program goes on and gets an asynchronous output with a
    new configuration; Interrupt and Terminate again. The process still runs, the handler is gone, and the new output is open. *)
Definition sg_cfg : config := mkCfg
  [Some [($"type", $"text"); ($"name", $"f1"); ($"layout", $"%{msg}")]]
  [Some [($"type", $"console"); ($"name", $"c9"); ($"format", $"f1"); ($"async", $"true")]]
  [mkCL ($"root") ($"all") [$"c9"]].
Definition sg_root : world := aft ex_P (init_world ex_P) (OGetLogger ($"root")).
Definition sg_closed : world := aft ex_P sg_root OClose.
Definition sg_new : world := aft ex_P sg_closed (OSetConfig sg_cfg [0]).
Definition sg_trace : list plabel :=
  [Did (OGetLogger ($"root")); Got Interrupt; Received; ClosedAll; Did (OSetConfig sg_cfg [0]); Got Interrupt; Got Terminate].
Lemma aft_runs P W o : match exec P W o with Ok _ => true | Panic => false end = true -> exists r, exec P W o = Ok (aft P W o, r).
Proof. unfold aft. destruct (exec P W o) as [[W' r]|]; [eauto|discriminate]. Qed.
Lemma sg_names : map snd (w_names sg_closed) = [0].
Proof. vm_compute. reflexivity. Qed.
Lemma sg_run : psteps ex_P (pr_start ex_P) sg_trace (mkProc sg_new 1 Over true).
Proof.
  destruct (aft_runs ex_P (init_world ex_P) (OGetLogger ($"root"))) as [r1 E1]; [vm_compute; reflexivity|].
  destruct (aft_runs ex_P sg_root OClose) as [r2 E2]; [vm_compute; reflexivity|].
  destruct (aft_runs ex_P sg_closed (OSetConfig sg_cfg [0])) as [r3 E3]; [vm_compute; reflexivity|].
  unfold sg_trace.
  eapply (pss_more _ _ [_; _; _; _; _; _]); [|exact (ps_notify ex_P Terminate sg_new 1 Over (or_intror eq_refl))].
  eapply (pss_more _ _ [_; _; _; _; _]); [|exact (ps_notify ex_P Interrupt sg_new 0 Over (or_introl eq_refl))].
  eapply (pss_more _ _ [_; _; _; _]); [|eapply (ps_call ex_P sg_closed 0 Over); [|exact E3]].
  2: { cbn [op_ok]. rewrite sg_names. apply Permutation_refl. }
  eapply (pss_more _ _ [_; _; _]); [|eapply (ps_close ex_P sg_root 0); exact E2].
  eapply (pss_more _ _ [_; _]); [|apply (ps_receive ex_P sg_root 0)].
  eapply (pss_more _ _ [_]); [|exact (ps_notify ex_P Interrupt sg_root 0 Waiting (or_introl eq_refl))].
  eapply (pss_more _ _ []); [constructor|]. eapply (ps_call ex_P (init_world ex_P) 0 Waiting); [exact Logic.I|exact E1].
Qed.
Theorem C62_ends_refuted : exists P tr s i x, psteps P (pr_start P) tr s /\ In ClosedAll tr /\
  (exists a b, tr = a ++ b /\ In ClosedAll a /\ In (Got Interrupt) b /\ In (Got Terminate) b) /\
  pr_alive s = true /\ pr_handler s = Over /\
  managed (pr_world s) i /\ nth_error (w_heap (pr_world s)) i = Some x /\ os_async (o_spec x) <> None /\ o_closed x = 0.
Proof.
  destruct (nth_error (w_heap sg_new) 1) as [x|] eqn:Ex; [|exfalso; vm_compute in Ex; discriminate].
  exists ex_P, sg_trace, (mkProc sg_new 1 Over true), 1, x. split; [exact sg_run|].
  split; [unfold sg_trace; cbn; tauto|].
  split; [exists (firstn 4 sg_trace), (skipn 4 sg_trace); split; [reflexivity|]; unfold sg_trace; cbn; tauto|].
  split; [reflexivity|]. split; [reflexivity|]. cbn [pr_world]. split; [|split; [exact Ex|]].
  - exists ($"c9"). vm_compute. reflexivity.
  - assert (G : option_map (fun y => (os_async (o_spec y), o_closed y)) (nth_error (w_heap sg_new) 1) = Some (Some (1000%Z, 20%Z), 0))
      by (vm_compute; reflexivity).
    rewrite Ex in G. cbn in G. injection G as G1 G2. rewrite G1, G2. split; [discriminate|reflexivity].
Qed.
Print Assumptions C62_ends_refuted.

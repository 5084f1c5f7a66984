(** Proofs about what must happen in the end on an asynchronous output. *)
From Verif Require Import GoStr LevelModel EventModel WorldModel WorldBase AsyncModel AsyncSpec AsyncProofs LiveSpec.

(** ** A measure of the work left *)
Definition pc_left (p : pc) : nat :=
  match p with
  | Idle | Dead => 0 | SRet _ => 1 | SPush _ => 3 | SLoad _ => 4
  | KRet => 1 | KClose => 2 | KStore => 3 | KWait => 4 | KPush => 6 | KLoad => 7
  end.
Definition th_left (t : thread) : nat := pc_left (th_pc t) + list_sum (map cost (th_todo t)).
Definition w_left (w : wstate) : nat := match w with WNew => 3 | WRun => 2 | WLeave => 1 | WGone => 0 end.
Definition left (s : astate) : nat :=
  list_sum (map th_left (a_threads s)) + length (a_queue s) + w_left (a_worker s) + (if a_crashed s then 0 else 1).
Lemma sum_cons a l : list_sum (a :: l) = (a + list_sum l)%nat. Proof. reflexivity. Qed.
Lemma left_th ths i t t' : nth_error ths i = Some t ->
  (list_sum (map th_left (upd i (fun _ => t') ths)) + th_left t = list_sum (map th_left ths) + th_left t')%nat.
Proof.
  revert i. induction ths as [|x ths IH]; intros [|i] N; try discriminate N; cbn [upd map nth_error] in *; rewrite !sum_cons.
  - injection N as ->. lia.
  - specialize (IH _ N). lia.
Qed.
Lemma left_step C s c l s' : anext C s c = Some (l, s') -> (left s' + (if is_work l then 1 else 0) <= left s)%nat.
Proof.
  intros H. apply anext_step in H as [CR [(i & -> & H)|H]]; unfold left.
  - inversion H; subst; cbn [set_th set_queue set_flags a_threads a_queue a_worker a_crashed is_work];
      match goal with N : nth_error (a_threads s) i = Some ?t |- context [upd i (fun _ => ?t') _] => pose proof (left_th _ _ _ t' N) as E end;
      unfold th_left at 2 4 in E; cbn [th_pc th_todo pc_left map cost] in E; rewrite ?sum_cons in E;
      try rewrite app_length; cbn [length]; try (destruct (a_flag s)); cbn [pc_left] in E; lia.
  - inversion H; subst; cbn [set_work set_queue set_crashed set_buf flush a_threads a_queue a_worker a_crashed is_work w_left];
      repeat match goal with E : a_worker s = _ |- _ => rewrite E | E : a_queue s = _ |- _ => rewrite E end; rewrite CR; cbn [w_left length]; lia.
Qed.
Lemma left_steps C s tr s' : asteps C s tr s' -> (left s' + work tr <= left s)%nat.
Proof.
  induction 1; [unfold work; cbn; lia|]. apply left_step in H. unfold work in *. cbn. destruct (is_work l); cbn [length]; lia.
Qed.
Lemma left_init progs : left (a_init progs) = (costs progs + 4)%nat.
Proof.
  unfold left, a_init, costs. cbn [a_threads a_queue a_worker a_crashed length w_left]. rewrite map_map. assert (E : map (fun x => th_left (mkTh Idle x)) progs = map (fun cs => list_sum (map cost cs)) progs); [|rewrite E; lia].
  apply map_ext. intros cs. reflexivity.
Qed.
Lemma areach_asteps C progs tr s : areach C progs tr s -> asteps C (a_init progs) tr s.
Proof.
  induction 1; [constructor|]. clear H. revert H0. induction IHareach; intros E; cbn; econstructor; try eassumption; [constructor|]. auto.
Qed.

(** ** Nobody waits for nothing *)
Definition waiting_pc (p : pc) : Prop := p = KWait \/ p = KStore \/ p = KClose.
Definition at_pc (s : astate) (P : pc -> Prop) : Prop := exists i t, nth_error (a_threads s) i = Some t /\ P (th_pc t).
Definition nil_pushed (tr : list label) : Prop := exists i, In (Push i None) tr.
Record live (tr : list label) (s : astate) : Prop := {
  lv_nil : nil_pushed tr -> a_worker s = WNew \/ a_worker s = WRun -> In None (a_queue s);
  lv_wait : at_pc s waiting_pc -> nil_pushed tr;
  lv_shut : a_shut s = true -> nil_pushed tr;
  lv_flag : a_flag s = true -> nil_pushed tr;
  lv_hold : nil_pushed tr -> a_shut s = false -> at_pc s waiting_pc;
  lv_in : In None (a_queue s) -> nil_pushed tr;
  lv_gone : a_worker s = WLeave \/ a_worker s = WGone -> nil_pushed tr;
  lv_call : forall i, In (Call i CClose) tr -> nil_pushed tr \/ at_pc s (fun p => p = KLoad \/ p = KPush);
  lv_dead : at_pc s (fun p => p = Dead) -> exists i, In (Boom i) tr
}.
Lemma np_snoc tr l : nil_pushed tr -> nil_pushed (tr ++ [l]).
Proof. intros (i & H). exists i. apply in_or_app. auto. Qed.
Lemma np_snoc_inv tr l : nil_pushed (tr ++ [l]) -> nil_pushed tr \/ exists i, l = Push i None.
Proof. intros (i & H). apply in_app_iff in H as [H|[H|[]]]; [left; now exists i|right; exists i; auto]. Qed.
Lemma at_set s i p todo t (P : pc -> Prop) : nth_error (a_threads s) i = Some t -> at_pc (set_th s i p todo) P -> P p \/ at_pc s P.
Proof.
  intros N (j & t' & N' & Ht). cbn in N'. rewrite nth_upd in N'. destruct (Nat.eqb_spec j i) as [->|NE].
  - rewrite N in N'. cbn in N'. injection N' as <-. auto.
  - right. exists j, t'. auto.
Qed.
Lemma at_keep s i p todo t (P : pc -> Prop) : nth_error (a_threads s) i = Some t -> (P (th_pc t) -> P p) -> at_pc s P -> at_pc (set_th s i p todo) P.
Proof.
  intros N K (j & t' & N' & Ht). destruct (Nat.eq_dec j i) as [->|NE].
  - exists i, (mkTh p todo). cbn. rewrite (nth_upd_eq _ _ _ _ N). rewrite N in N'. injection N' as <-. auto.
  - exists j, t'. cbn. rewrite nth_upd_ne by exact NE. auto.
Qed.
Lemma at_here s i p todo t (P : pc -> Prop) : nth_error (a_threads s) i = Some t -> P p -> at_pc (set_th s i p todo) P.
Proof. intros N K. exists i, (mkTh p todo). cbn. rewrite (nth_upd_eq _ _ _ _ N). auto. Qed.
Lemma at_other s s' P : a_threads s' = a_threads s -> at_pc s' P <-> at_pc s P.
Proof. intros E. unfold at_pc. now rewrite E. Qed.
Lemma call_snoc tr l i : In (Call i CClose) (tr ++ [l]) -> In (Call i CClose) tr \/ l = Call i CClose.
Proof. intros H. apply in_app_iff in H as [H|[H|[]]]; auto. Qed.
Lemma boom_snoc tr l : (exists i, In (Boom i) tr) -> exists i, In (Boom i) (tr ++ [l]).
Proof. intros (i & H). exists i. apply in_or_app. auto. Qed.
Lemma live_init progs : live [] (a_init progs).
Proof.
  assert (N : forall P, ~ P Idle -> ~ at_pc (a_init progs) P).
  { intros P NP (i & t & H & Ht). cbn in H. rewrite nth_error_map in H. destruct (nth_error progs i); [|discriminate]. injection H as <-. auto. }
  constructor.
  - intros (i & []).
  - intros H. exfalso. refine (N _ _ H). unfold waiting_pc. intuition discriminate.
  - discriminate.
  - discriminate.
  - intros (i & []).
  - intros [].
  - intros [H|H]; discriminate H.
  - intros i [].
  - intros H. exfalso. refine (N _ _ H). discriminate.
Qed.
(** A step of a goroutine that neither pushes a nil, nor starts or ends waiting, nor opens or shuts anything. *)
Lemma live_thread tr s i t l p todo : live tr s -> nth_error (a_threads s) i = Some t -> (forall j, l <> Push j None) ->
  (waiting_pc (th_pc t) -> waiting_pc p) -> (waiting_pc p -> nil_pushed tr) ->
  (forall j, l = Call j CClose -> p = KLoad) -> (th_pc t = KLoad \/ th_pc t = KPush -> nil_pushed tr \/ p = KLoad \/ p = KPush) ->
  (p = Dead -> exists j, l = Boom j) -> live (tr ++ [l]) (set_th s i p todo).
Proof.
  intros L N NP W1 W2 K1 K2 D. constructor; cbn [set_th a_worker a_queue a_shut a_flag].
  - intros H. apply np_snoc_inv in H as [H|(j & H)]; [|destruct (NP _ H)]. now apply (lv_nil _ _ L).
  - intros H. apply np_snoc. destruct (at_set _ _ _ _ _ _ N H) as [H1|H1]; [auto|exact (lv_wait _ _ L H1)].
  - intros H. apply np_snoc. exact (lv_shut _ _ L H).
  - intros H. apply np_snoc. exact (lv_flag _ _ L H).
  - intros H1 H2. apply np_snoc_inv in H1 as [H1|(j & H1)]; [|destruct (NP _ H1)]. exact (at_keep _ _ _ _ _ _ N W1 (lv_hold _ _ L H1 H2)).
  - intros H. apply np_snoc. exact (lv_in _ _ L H).
  - intros H. apply np_snoc. exact (lv_gone _ _ L H).
  - intros j H. apply call_snoc in H as [H|H].
    + destruct (lv_call _ _ L _ H) as [X|(k & t' & N' & X)]; [left; now apply np_snoc|]. destruct (Nat.eq_dec k i) as [->|NE].
      * rewrite N in N'. injection N' as <-. destruct (K2 X) as [Y|Y]; [left; now apply np_snoc|right; exact (at_here _ _ _ _ _ _ N Y)].
      * right. exists k, t'. cbn. rewrite nth_upd_ne by exact NE. auto.
    + right. apply (at_here _ _ _ _ _ _ N). left. eauto.
  - intros H. destruct (at_set _ _ _ _ _ _ N H) as [H1|H1].
    + destruct (D H1) as (j & ->). exists j. apply in_or_app. right. now left.
    + apply boom_snoc. exact (lv_dead _ _ L H1).
Qed.
Lemma live_queue tr s q : live tr s -> (In None (a_queue s) -> In None q) -> (In None q -> In None (a_queue s)) -> live tr (set_queue s q).
Proof. intros [] K K2. constructor; cbn; auto. Qed.
Lemma live_flag tr s fl : live tr s -> nil_pushed tr -> live tr (set_flags s (a_shut s) fl).
Proof. intros [] NP. constructor; cbn; auto. Qed.
Ltac pcs := cbn [th_pc]; try (intros; discriminate); try (unfold waiting_pc; intuition discriminate); try (intros; eauto; fail).
Ltac thread L N := refine (live_thread _ _ _ _ _ _ _ L N _ _ _ _ _ _); pcs.
Lemma live_tstep C tr s i l s' : live tr s -> tstep C s i l s' -> live (tr ++ [l]) s'.
Proof.
  intros L H.
  assert (NP : forall t, nth_error (a_threads s) i = Some t -> waiting_pc (th_pc t) -> nil_pushed tr).
  { intros t N W. apply (lv_wait _ _ L). exists i, t. auto. }
  destruct H as [e todo N|todo N|e todo N|e todo N SH Q|e todo N SH|e todo N|todo N|todo N SH Q|todo N SH|todo N WG|todo N|todo N SH|todo N SH|todo N].
  - thread L N.
  - thread L N.
  - destruct (a_flag s); thread L N.
  - assert (L1 : live tr (set_queue s (a_queue s ++ [Some e]))) by (apply live_queue; [exact L| |]; intros X; [apply in_or_app; auto|apply in_app_iff in X as [X|[X|[]]]; [exact X|discriminate X]]).
    thread L1 N.
  - thread L N.
  - thread L N.
  - destruct (a_flag s) eqn:F; thread L N. intros _. left. exact (lv_flag _ _ L F).
  - assert (P : nil_pushed (tr ++ [Push i None])) by (exists i; apply in_or_app; right; now left).
    constructor; cbn [set_th set_queue a_worker a_queue a_shut a_flag]; auto.
    + intros _ _. apply in_or_app. right. now left.
    + intros X Y. apply (at_here (set_queue s (a_queue s ++ [None])) _ _ _ _ _ N). unfold waiting_pc. auto.
    + intros X. destruct (at_set (set_queue s (a_queue s ++ [None])) _ _ _ _ _ N X) as [Y|Y]; [discriminate|]. apply boom_snoc. exact (lv_dead _ _ L Y).
  - thread L N. intros _. left. exact (lv_shut _ _ L SH).
  - pose proof (NP _ N ltac:(cbn; unfold waiting_pc; auto)) as P. thread L N. 
  - pose proof (NP _ N ltac:(cbn; unfold waiting_pc; auto)) as P.
    assert (L1 : live tr (set_flags s (a_shut s) true)) by (apply live_flag; auto).
    thread L1 N.
  - pose proof (NP _ N ltac:(cbn; unfold waiting_pc; auto)) as P.
    constructor; cbn [set_th set_flags a_worker a_queue a_shut a_flag]; auto using np_snoc.
    + intros _. exact (lv_nil _ _ L P).
    + discriminate.
    + intros X. destruct (at_set (set_flags s true (a_flag s)) _ _ _ _ _ N X) as [Y|Y]; [discriminate|]. apply boom_snoc. exact (lv_dead _ _ L Y).
  - pose proof (NP _ N ltac:(cbn; unfold waiting_pc; auto)) as P.
    constructor; cbn [set_th set_flags a_worker a_queue a_shut a_flag]; auto using np_snoc.
    + intros _. exact (lv_nil _ _ L P).
    + intros _. congruence.
    + intros _. exists i. apply in_or_app. right. now left.
  - thread L N.
Qed.
(** A step of the worker. *)
Lemma live_worker tr s l s' : live tr s -> (forall j o, l <> Push j o) -> (forall j k, l <> Call j k) ->
  a_threads s' = a_threads s -> a_shut s' = a_shut s -> a_flag s' = a_flag s ->
  (nil_pushed tr -> a_worker s' = WNew \/ a_worker s' = WRun -> In None (a_queue s')) ->
  (In None (a_queue s') -> In None (a_queue s)) ->
  (a_worker s' = WLeave \/ a_worker s' = WGone -> nil_pushed tr) -> live (tr ++ [l]) s'.
Proof.
  intros L NP NC E1 E2 E3 A A2 B. constructor.
  - intros H. apply np_snoc_inv in H as [H|(j & H)]; [auto|destruct (NP _ _ H)].
  - intros H. apply (at_other _ _ _ E1) in H. apply np_snoc. exact (lv_wait _ _ L H).
  - rewrite E2. intros H. apply np_snoc. exact (lv_shut _ _ L H).
  - rewrite E3. intros H. apply np_snoc. exact (lv_flag _ _ L H).
  - rewrite E2. intros X Y. apply (at_other _ _ _ E1). apply np_snoc_inv in X as [X|(j & X)]; [exact (lv_hold _ _ L X Y)|destruct (NP _ _ X)].
  - intros X. apply np_snoc. exact (lv_in _ _ L (A2 X)).
  - intros X. apply np_snoc. auto.
  - intros j H. apply call_snoc in H as [H|H]; [|destruct (NC _ _ H)]. destruct (lv_call _ _ L _ H) as [X|X]; [left; now apply np_snoc|right; now apply (at_other _ _ _ E1)].
  - intros H. apply (at_other _ _ _ E1) in H. apply boom_snoc. exact (lv_dead _ _ L H).
Qed.
Lemma live_wstep C tr s l s' : live tr s -> wstep C s l s' -> live (tr ++ [l]) s'.
Proof.
  intros L H. destruct H as [W|e q W Q T|e q W Q T F|e q b W Q T F B|e q b W Q T F B|q W Q|W Q SH|W|W];
    apply (live_worker _ _ _ _ L); try reflexivity; try (intros; discriminate);
    cbn [set_work set_queue set_buf set_crashed flush a_worker a_queue]; rewrite ?W, ?Q; try (intros [X|X]; discriminate X); try (intros _ [X|X]; discriminate X); auto.
  all: try (intros X; now right).
  all: try (intros NP _; pose proof (lv_nil _ _ L NP (or_intror W)) as X; rewrite Q in X; destruct X as [X|X]; [discriminate X|exact X]).
  - intros NP _. apply (lv_nil _ _ L NP). auto.
  - intros _. apply (lv_in _ _ L). rewrite Q. now left.
  - intros _. exact (lv_shut _ _ L SH).
  - intros NP _. apply (lv_nil _ _ L NP). auto.
  - intros _. apply (lv_gone _ _ L). auto.
Qed.
Lemma live_reach C progs tr s : areach C progs tr s -> live tr s.
Proof.
  induction 1 as [|tr s c l s' _ IH E]; [apply live_init|]. apply anext_step in E as [_ [(i & -> & T)|W]].
  - exact (live_tstep _ _ _ _ _ _ IH T).
  - exact (live_wstep _ _ _ _ _ IH W).
Qed.

(** ** Who is busy can go on, or somebody they wait for can *)
Definition go (C : aconf) (s : astate) : Prop :=
  exists c l s', anext C s c = Some (l, s') /\ is_work l = true /\ forall i k, l <> Call i k.
Lemma go_start C s : a_crashed s = false -> a_worker s = WNew -> go C s.
Proof. intros CR W. exists WStart, Start, (set_work s (S (a_wg s)) WRun). unfold anext. rewrite CR, W. repeat split. discriminate. Qed.
Lemma go_done C s : a_crashed s = false -> a_worker s = WLeave -> go C s.
Proof. intros CR W. exists WDone, Tau, (set_work s (pred (a_wg s)) WGone). unfold anext. rewrite CR, W. repeat split. discriminate. Qed.
Lemma go_recv C s : a_crashed s = false -> a_worker s = WRun -> a_queue s <> [] \/ a_shut s = true -> go C s.
Proof.
  intros CR W Q. unfold go, anext. assert (X : exists l s', recv_step C s = Some (l, s') /\ is_work l = true /\ forall i k, l <> Call i k).
  2:{ destruct X as (l & s' & X & Y). exists WRecv, l, s'. rewrite CR. auto. }
  unfold recv_step. rewrite W. destruct (a_queue s) as [|[e|] q].
  - destruct Q as [Q| ->]; [congruence|]. do 2 eexists. repeat split. discriminate.
  - unfold take_event. destruct (_ <=? _)%Z; [destruct (ac_fmt C e); [destruct (_ <=? _)%Z|]|]; do 2 eexists; repeat split; discriminate.
  - do 2 eexists. repeat split. discriminate.
Qed.
Lemma go_thread C s i l s' : a_crashed s = false -> thread_step C s i = Some (l, s') -> (forall j k, l <> Call j k) -> is_work l = true -> go C s.
Proof. intros CR H NC W. exists (Thread i), l, s'. unfold anext. rewrite CR. auto. Qed.
Lemma go_waiting C tr s i p todo : live tr s -> wg_ok s -> a_crashed s = false -> nth_error (a_threads s) i = Some (mkTh p todo) -> waiting_pc p -> go C s.
Proof.
  intros L WG CR N [-> | [-> | ->]].
  - assert (NP : nil_pushed tr) by (apply (lv_wait _ _ L); exists i, (mkTh KWait todo); split; [exact N|now left]).
    destruct (a_worker s) eqn:W; [now apply go_start| |now apply go_done|].
    + apply go_recv; auto. left. pose proof (lv_nil _ _ L NP (or_intror W)) as I. intros E. rewrite E in I. destruct I.
    + unfold wg_ok in WG. rewrite W in WG. eapply (go_thread C s i Tau); auto; [unfold thread_step; rewrite N, WG; reflexivity|discriminate].
  - eapply (go_thread C s i Tau); auto; [unfold thread_step; rewrite N; reflexivity|discriminate].
  - destruct (a_shut s) eqn:SH.
    + eapply (go_thread C s i (Boom i)); auto; [unfold thread_step; rewrite N, SH; reflexivity|discriminate].
    + eapply (go_thread C s i Tau); auto; [unfold thread_step; rewrite N, SH; reflexivity|discriminate].
Qed.
Lemma go_push C tr s i x p q todo : (1 <= ac_cap C)%nat -> live tr s -> wg_ok s -> a_crashed s = false ->
  thread_step C s i = chan_send C s i x q todo -> nth_error (a_threads s) i = Some (mkTh p todo) -> go C s.
Proof.
  intros CAP L WG CR E N. unfold chan_send in E. destruct (a_shut s) eqn:SH.
  - eapply (go_thread C s i (Boom i)); eauto. discriminate.
  - destruct (Nat.ltb_spec (length (a_queue s)) (ac_cap C)) as [LT|GE].
    + eapply (go_thread C s i (Push i x)); eauto. discriminate.
    + assert (Q : a_queue s <> []) by (intros E0; rewrite E0 in GE; cbn in GE; lia).
      destruct (a_worker s) eqn:W; [now apply go_start|now apply go_recv; auto|now apply go_done|].
      destruct (lv_hold _ _ L (lv_gone _ _ L (or_intror W)) SH) as (j & [p' todo'] & N' & WP).
      exact (go_waiting C tr s j p' todo' L WG CR N' WP).
Qed.
Lemma go_busy C tr s : (1 <= ac_cap C)%nat -> live tr s -> wg_ok s -> a_crashed s = false -> busy s -> go C s.
Proof.
  intros CAP L WG CR (i & p & todo & N & NI & ND).
  destruct p; try congruence;
    try (eapply (go_waiting C tr s i); try eassumption; unfold waiting_pc; auto; fail);
    try (eapply go_thread; [exact CR|unfold thread_step; rewrite N; reflexivity|discriminate|reflexivity]).
  - eapply (go_push C tr s i); eauto. unfold thread_step. rewrite N. reflexivity.
  - eapply (go_push C tr s i); eauto. unfold thread_step. rewrite N. reflexivity.
Qed.
Lemma busy_dec s : busy s \/ forall i t, nth_error (a_threads s) i = Some t -> th_pc t = Idle \/ th_pc t = Dead.
Proof.
  unfold busy. induction (a_threads s) as [|[p todo] l IH].
  - right. intros [|i] t H; discriminate H.
  - assert (D : (p = Idle \/ p = Dead) \/ (p <> Idle /\ p <> Dead)) by (destruct p; auto; right; split; discriminate).
    destruct D as [D|D]; [|left; exists 0%nat, p, todo; split; [reflexivity|exact D]].
    destruct IH as [(i & q & td & H)|IH]; [left; now exists (S i), q, td|right].
    intros [|i] t H; [injection H as <-; exact D|exact (IH i t H)].
Qed.
(** What a state without work looks like. *)
Definition quiet (s : astate) : Prop := ended s /\ (a_worker s = WGone \/ a_worker s = WRun /\ a_queue s = [] /\ a_shut s = false).
Lemma go_can C s : go C s -> can_work C s.
Proof. intros (c & l & s' & H & W & _). now exists c, l, s'. Qed.
Lemma can_not_idle C s : can_work C s -> idle C s -> False.
Proof. intros (c & l & s' & H & W) I. rewrite (I _ _ _ H) in W. discriminate. Qed.
Lemma idle_quiet C tr s : (1 <= ac_cap C)%nat -> live tr s -> wg_ok s -> a_crashed s = false -> idle C s -> quiet s.
Proof.
  intros CAP L WG CR I. assert (NG : ~ go C s) by (intros G; exact (can_not_idle _ _ (go_can _ _ G) I)). split.
  - destruct (busy_dec s) as [B|B]; [destruct (NG (go_busy C tr s CAP L WG CR B))|].
    intros i [p todo] N. destruct (B _ _ N) as [E|E]; cbn in E; subst p; [|now right]. left. destruct todo as [|c todo]; [reflexivity|exfalso].
    apply (can_not_idle C s); [|exact I]. destruct c as [e|]; exists (Thread i); unfold anext; rewrite CR; unfold thread_step; rewrite N; eauto.
  - destruct (a_worker s) eqn:W; auto.
    + destruct (NG (go_start C s CR W)).
    + right. split; [reflexivity|]. destruct (a_queue s) eqn:Q; [|destruct NG; apply go_recv; auto; left; congruence].
      split; [reflexivity|]. destruct (a_shut s) eqn:SH; [|reflexivity]. destruct NG. apply go_recv; auto.
    + destruct (NG (go_done C s CR W)).
Qed.
Lemma quiet_idle C s : quiet s -> idle C s.
Proof.
  intros [EN W] c l s' H. apply anext_step in H as [_ [(i & -> & H)|H]].
  - exfalso. inversion H; subst;
    match goal with N : nth_error _ _ = Some _ |- _ => destruct (EN _ _ N) as [X|X]; cbn in X; congruence end.
  - inversion H; subst; try reflexivity; exfalso; destruct W as [W|(W & Q & SH)]; congruence.
Qed.
Lemma quiet_step C s c l s' : quiet s -> anext C s c = Some (l, s') -> quiet s'.
Proof.
  intros Q H. pose proof (quiet_idle C s Q _ _ _ H) as NW. apply anext_step in H as [_ [(i & -> & H)|H]].
  - inversion H; subst; discriminate NW.
  - inversion H; subst; try discriminate NW. exact Q.
Qed.
Lemma work_dec C s : can_work C s \/ idle C s.
Proof.
  set (f := fun c => match anext C s c with Some (l, _) => is_work l | None => false end).
  set (cs := WStart :: WRecv :: WTick :: WDone :: map Thread (seq 0 (length (a_threads s)))).
  destruct (existsb f cs) eqn:X.
  - left. apply existsb_exists in X as (c & _ & F). unfold f in F. destruct (anext C s c) as [[l s']|] eqn:E; [|discriminate]. now exists c, l, s'.
  - right. intros c l s' H. destruct (is_work l) eqn:W; [exfalso|reflexivity].
    assert (IN : In c cs).
    { unfold cs. destruct c as [i| | | |]; cbn; auto. do 4 right. apply in_map. apply in_seq. split; [lia|]. cbn. apply nth_error_Some. intros E.
      unfold anext, thread_step in H. rewrite E in H. destruct (a_crashed s); discriminate. }
    assert (Y : existsb f cs = true) by (apply existsb_exists; exists c; split; [exact IN|]; unfold f; now rewrite H). congruence.
Qed.
Lemma crashed_stuck C s : a_crashed s = true -> forall c, anext C s c = None.
Proof. intros E c. unfold anext. now rewrite E. Qed.
Lemma endless_reach C progs r : r 0%nat = a_init progs -> endless C r -> forall n, exists tr, areach C progs tr (r n).
Proof.
  intros E0 EN. induction n as [|n (tr & R)]; [exists []; rewrite E0; constructor|].
  destruct (EN n) as [E|(c & l & E)]; [exists tr; now rewrite E|]. exists (tr ++ [l]). eapply ar_step; eassumption.
Qed.
Lemma endless_left C r : endless C r -> forall n m, (n <= m)%nat -> (left (r m) <= left (r n))%nat.
Proof.
  intros EN n m. induction 1 as [|m _ IH]; [lia|]. destruct (EN m) as [E|(c & l & E)]; [rewrite E; exact IH|].
  pose proof (left_step _ _ _ _ _ E). lia.
Qed.
Lemma fair_idle C r : endless C r -> fair C r -> forall k n, (left (r n) <= k)%nat -> exists m, idle C (r m).
Proof.
  intros EN F. induction k as [k IH] using lt_wf_ind. intros n LE.
  destruct (work_dec C (r n)) as [W|I]; [|now exists n].
  destruct (F n W) as (m & c & l & NM & E & WL). pose proof (left_step _ _ _ _ _ E) as D. rewrite WL in D. pose proof (endless_left C r EN n m NM).
  apply (IH (left (r (S m)))%nat) with (n := S m); lia.
Qed.
Lemma quiet_stays C r : endless C r -> forall n m, (n <= m)%nat -> quiet (r n) -> quiet (r m).
Proof.
  intros EN n m. induction 1 as [|m _ IH]; [auto|]. intros Q. specialize (IH Q). destruct (EN m) as [E|(c & l & E)]; [now rewrite E|exact (quiet_step _ _ _ _ _ IH E)].
Qed.
Lemma crashed_stays C r : endless C r -> forall n m, (n <= m)%nat -> a_crashed (r n) = true -> a_crashed (r m) = true.
Proof.
  intros EN n m. induction 1 as [|m _ IH]; [auto|]. intros Q. specialize (IH Q). destruct (EN m) as [E|(c & l & E)]; [now rewrite E|]. rewrite (crashed_stuck _ _ IH) in E. discriminate.
Qed.
Lemma crashed_no_format C progs tr s : areach C progs tr s -> formats_all C -> a_crashed s = false.
Proof.
  intros R FA. destruct (a_crashed s) eqn:CR; [exfalso|reflexivity].
  destruct (areach_cont _ _ _ _ R) as (tk & hd & segs & held & _ & _ & _ & _ & _ & _ & HD & _).
  rewrite CR in HD. destruct HD as (e & _ & _ & P). destruct (FA e) as [b B]. congruence.
Qed.
(** While no Close is called, a Send that returned was accepted. *)
Lemma sends_accepted C progs tr s : areach C progs tr s -> no_close tr -> forall i p todo, nth_error (a_threads s) i = Some (mkTh p todo) ->
  exists cs, nth_error progs i = Some cs /\ sendsf cs = fromf i tr ++ pend p ++ sendsf todo.
Proof.
  induction 1 as [|tr s c l s' R IH H]; intros NC i p todo N.
  - cbn in N. rewrite nth_error_map in N. destruct (nth_error progs i) as [cs|] eqn:E; [|discriminate]. injection N as <- <-. now exists cs.
  - apply no_close_app in NC as [NC NL]. pose proof (before_close _ _ _ _ R NC) as ((F & SH & _) & A & _).
    specialize (IH NC). assert (FA : fromf i (tr ++ [l]) = fromf i tr ++ fromf i [l]) by apply flat_map_app. rewrite FA.
    apply anext_step in H as [_ [(k & -> & H)|H]].
    + destruct (Nat.eq_dec i k) as [->|D].
      * inversion H; subst; (rewrite th_set with (1 := H0) in N || (cbn in N; rewrite nth_upd_eq with (1 := H0) in N));
          rewrite ?Nat.eqb_refl in N; inversion N; subst; clear N; destruct (IH _ _ _ H0) as (cs & NP & E); exists cs; (split; [exact NP|]); rewrite E;
          cbn; rewrite ?Nat.eqb_refl, ?F; cbn; rewrite ?app_nil_r, <- ?app_assoc; auto; try (apply A in H0; cbn in H0; tauto); congruence.
      * rewrite (tstep_other _ _ _ _ _ _ H D) in N. destruct (IH _ _ _ N) as (cs & NP & E). exists cs. split; [exact NP|].
        assert (Z0 : fromf i [l] = []).
        { inversion H; subst; cbn; try reflexivity; destruct (Nat.eqb_spec i k); try contradiction; reflexivity. }
        now rewrite Z0, app_nil_r.
    + rewrite (wstep_threads _ _ _ _ H) in N. destruct (IH _ _ _ N) as (cs & NP & E). exists cs. split; [exact NP|].
      assert (Z0 : fromf i [l] = []) by (inversion H; reflexivity). now rewrite Z0, app_nil_r.
Qed.

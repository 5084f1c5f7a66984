(** Proofs about asynchronous outputs. *)
From Verif Require Import GoStr EventModel LayoutModel WorldModel WorldBase AsyncModel AsyncSpec.
Local Open Scope Z_scope.

(** * Computable counterparts of the specification *)

Definition acc_of (l : label) : list event := match l with Push _ (Some e) => [e] | _ => [] end.
Definition accf := flat_map acc_of.
Definition from_of (i : nat) (l : label) : list event :=
  match l with Push j (Some e) => if Nat.eqb i j then [e] else [] | _ => [] end.
Definition fromf i := flat_map (from_of i).
Definition ret_of_l (i : nat) (l : label) : list event :=
  match l with Ret j (CSend e) => if Nat.eqb i j then [e] else [] | _ => [] end.
Definition retf i := flat_map (ret_of_l i).
Definition qevs (q : list (option event)) : list event :=
  flat_map (fun x => match x with Some e => [e] | None => [] end) q.
Definition sendsf (cs : list call) : list event :=
  flat_map (fun c => match c with CSend e => [e] | CClose => [] end) cs.

Lemma accf_spec tr : accepted tr (accf tr).
Proof.
  induction tr as [|l tr IH]; [constructor|].
  destruct l as [| i [e|] | | | | | |]; cbn; try (apply ac_other; [discriminate|assumption]).
  now apply ac_push.
Qed.
Lemma accepted_det tr es es' : accepted tr es -> accepted tr es' -> es = es'.
Proof.
  intros A; revert es'; induction A as [|i e tr es A IH|l tr es N A IH]; intros es' B; inversion B; subst; auto.
  - f_equal; auto.
  - exfalso; eapply H1; reflexivity.
  - exfalso; eapply N; reflexivity.
Qed.
Lemma fromf_spec i tr : accepted_from i tr (fromf i tr).
Proof.
  induction tr as [|l tr IH]; [constructor|].
  destruct l as [| j [e|] | | | | | |]; cbn; try (apply af_other; [discriminate|assumption]).
  destruct (Nat.eqb_spec i j) as [->|N]; cbn; [now apply af_push|].
  apply af_other; [|assumption]. intros e' Q. inversion Q. congruence.
Qed.
Lemma from_det i tr es es' : accepted_from i tr es -> accepted_from i tr es' -> es = es'.
Proof.
  intros A; revert es'; induction A as [|e tr es A IH|l tr es N A IH]; intros es' B; inversion B; subst; auto.
  - f_equal; auto.
  - exfalso; eapply H1; reflexivity.
  - exfalso; eapply N; reflexivity.
Qed.
Lemma retf_spec i tr : returned i tr (retf i tr).
Proof.
  induction tr as [|l tr IH]; [constructor|].
  destruct l as [| | j [e|] | | | | |]; cbn; try (apply rt_other; [discriminate|assumption]).
  destruct (Nat.eqb_spec i j) as [->|N]; cbn; [now apply rt_ret|].
  apply rt_other; [|assumption]. intros e' Q. inversion Q. congruence.
Qed.
Lemma returned_det i tr es es' : returned i tr es -> returned i tr es' -> es = es'.
Proof.
  intros A; revert es'; induction A as [|e tr es A IH|l tr es N A IH]; intros es' B; inversion B; subst; auto.
  - f_equal; auto.
  - exfalso; eapply H1; reflexivity.
  - exfalso; eapply N; reflexivity.
Qed.
Lemma qevs_spec q : queued q (qevs q).
Proof. induction q as [|[e|] q IH]; cbn; constructor; assumption. Qed.
Lemma queued_det q es es' : queued q es -> queued q es' -> es = es'.
Proof.
  intros A; revert es'; induction A; intros es' B; inversion B; subst; auto. f_equal; auto.
Qed.
Lemma sends_spec cs : sends cs (sendsf cs).
Proof. induction cs as [|[e|] cs IH]; cbn; constructor; assumption. Qed.
Lemma sends_det q es es' : sends q es -> sends q es' -> es = es'.
Proof.
  intros A; revert es'; induction A; intros es' B; inversion B; subst; auto. f_equal; auto.
Qed.
Lemma qevs_app a b : qevs (a ++ b) = qevs a ++ qevs b.
Proof. apply flat_map_app. Qed.
Lemma qevs_some e q : qevs (Some e :: q) = e :: qevs q.
Proof. reflexivity. Qed.
Lemma qevs_none q : qevs (None :: q) = qevs q.
Proof. reflexivity. Qed.
Lemma accf_app a b : accf (a ++ b) = accf a ++ accf b.
Proof. apply flat_map_app. Qed.
Lemma sub_app_r {A} (a b : list A) c : sublist a b -> sublist a (b ++ c).
Proof. induction 1; cbn; constructor; assumption. Qed.
Lemma sub_refl {A} (a : list A) : sublist a a.
Proof. induction a; constructor; assumption. Qed.
Lemma sub_app {A} (a b c d : list A) : sublist a b -> sublist c d -> sublist (a ++ c) (b ++ d).
Proof.
  intros H1 H2. induction H1; cbn; try (constructor; assumption).
  induction b; cbn; [assumption|now constructor].
Qed.
Lemma texts_app C a b ta tb : texts C a ta -> texts C b tb -> texts C (a ++ b) (ta ++ tb).
Proof. induction 1; intros; cbn; auto; [apply tx_low|apply tx_text]; auto. Qed.
Lemma texts_split C es ta tb : texts C es (ta ++ tb) ->
  exists ea eb, es = ea ++ eb /\ texts C ea ta /\ texts C eb tb.
Proof.
  remember (ta ++ tb) as t eqn:Q. intros T. revert ta Q.
  induction T as [|e es ts L T IH|e es b ts L F T IH]; intros ta Q.
  - symmetry in Q; apply app_eq_nil in Q as [-> ->]. exists [], []. repeat split; constructor.
  - destruct (IH _ Q) as (ea & eb & -> & A & B). exists (e :: ea), eb. repeat split; auto. now constructor.
  - destruct ta as [|x ta]; cbn in Q.
    + subst tb. exists [], (e :: es). repeat split; [constructor|now constructor].
    + inversion Q; subst. destruct (IH _ eq_refl) as (ea & eb & -> & A & B).
      exists (e :: ea), eb. repeat split; auto. now constructor.
Qed.
Lemma texts_det C es t1 t2 : texts C es t1 -> texts C es t2 -> t1 = t2.
Proof.
  intros A; revert t2; induction A; intros t2 B; inversion B; subst; auto; try lia.
  match goal with F1 : ac_fmt C e = Ok ?x, F2 : ac_fmt C e = Ok ?y |- _ => rewrite F1 in F2; inversion F2; subst end.
  f_equal; auto.
Qed.
Lemma texts_total C es : formats_all C -> exists ts, texts C es ts.
Proof.
  intros F. induction es as [|e es [ts IH]]; [exists []; constructor|].
  destruct (Z.le_gt_cases (ac_threshold C) (ev_level e)) as [L|L].
  - destruct (F e) as [b B]. exists (b :: ts). now constructor.
  - exists ts. constructor; [lia|assumption].
Qed.

(** * Steps, one kind at a time *)

(** What a goroutine's step does. *)
Inductive tstep (C : aconf) (s : astate) (i : nat) : label -> astate -> Prop :=
| ts_callS e todo : nth_error (a_threads s) i = Some (mkTh Idle (CSend e :: todo)) ->
    tstep C s i (Call i (CSend e)) (set_th s i (SLoad e) todo)
| ts_callK todo : nth_error (a_threads s) i = Some (mkTh Idle (CClose :: todo)) ->
    tstep C s i (Call i CClose) (set_th s i KLoad todo)
| ts_sload e todo : nth_error (a_threads s) i = Some (mkTh (SLoad e) todo) ->
    tstep C s i Tau (set_th s i (if a_flag s then SRet e else SPush e) todo)
| ts_spush e todo : nth_error (a_threads s) i = Some (mkTh (SPush e) todo) -> a_shut s = false ->
    (length (a_queue s) < ac_cap C)%nat ->
    tstep C s i (Push i (Some e)) (set_th (set_queue s (a_queue s ++ [Some e])) i (SRet e) todo)
| ts_sboom e todo : nth_error (a_threads s) i = Some (mkTh (SPush e) todo) -> a_shut s = true ->
    tstep C s i (Boom i) (set_th s i Dead todo)
| ts_sret e todo : nth_error (a_threads s) i = Some (mkTh (SRet e) todo) ->
    tstep C s i (Ret i (CSend e)) (set_th s i Idle todo)
| ts_kload todo : nth_error (a_threads s) i = Some (mkTh KLoad todo) ->
    tstep C s i Tau (set_th s i (if a_flag s then KRet else KPush) todo)
| ts_kpush todo : nth_error (a_threads s) i = Some (mkTh KPush todo) -> a_shut s = false ->
    (length (a_queue s) < ac_cap C)%nat ->
    tstep C s i (Push i None) (set_th (set_queue s (a_queue s ++ [None])) i KWait todo)
| ts_kboom todo : nth_error (a_threads s) i = Some (mkTh KPush todo) -> a_shut s = true ->
    tstep C s i (Boom i) (set_th s i Dead todo)
| ts_kwait todo : nth_error (a_threads s) i = Some (mkTh KWait todo) -> a_wg s = O ->
    tstep C s i Tau (set_th s i KStore todo)
| ts_kstore todo : nth_error (a_threads s) i = Some (mkTh KStore todo) ->
    tstep C s i Tau (set_th (set_flags s (a_shut s) true) i KClose todo)
| ts_kclose todo : nth_error (a_threads s) i = Some (mkTh KClose todo) -> a_shut s = false ->
    tstep C s i Tau (set_th (set_flags s true (a_flag s)) i KRet todo)
| ts_kcboom todo : nth_error (a_threads s) i = Some (mkTh KClose todo) -> a_shut s = true ->
    tstep C s i (Boom i) (set_th s i Dead todo)
| ts_kret todo : nth_error (a_threads s) i = Some (mkTh KRet todo) ->
    tstep C s i (Ret i CClose) (set_th s i Idle todo).
Inductive wstep (C : aconf) (s : astate) : label -> astate -> Prop :=
| ws_start : a_worker s = WNew -> wstep C s Start (set_work s (S (a_wg s)) WRun)
| ws_low e q : a_worker s = WRun -> a_queue s = Some e :: q -> ev_level e < ac_threshold C ->
    wstep C s Tau (set_queue s q)
| ws_crash e q : a_worker s = WRun -> a_queue s = Some e :: q -> ac_threshold C <= ev_level e ->
    ac_fmt C e = Panic -> wstep C s Crash (set_crashed (set_queue s q))
| ws_hold e q b : a_worker s = WRun -> a_queue s = Some e :: q -> ac_threshold C <= ev_level e ->
    ac_fmt C e = Ok b -> a_num s + 1 < ac_batch C ->
    wstep C s Tau (set_buf (set_queue s q) (a_buf s ++ b) (a_num s + 1) (a_out s))
| ws_batch e q b : a_worker s = WRun -> a_queue s = Some e :: q -> ac_threshold C <= ev_level e ->
    ac_fmt C e = Ok b -> ac_batch C <= a_num s + 1 ->
    wstep C s (Wrote ByBatch (a_buf s ++ b)) (set_buf (set_queue s q) [] 0 (a_out s ++ [a_buf s ++ b]))
| ws_end q : a_worker s = WRun -> a_queue s = None :: q ->
    wstep C s (Wrote ByClose (a_buf s)) (set_work (flush (set_queue s q)) (a_wg s) WLeave)
| ws_shut : a_worker s = WRun -> a_queue s = [] -> a_shut s = true ->
    wstep C s (Wrote ByClose (a_buf s)) (set_work (flush s) (a_wg s) WLeave)
| ws_tick : a_worker s = WRun -> wstep C s (Wrote ByTick (a_buf s)) (flush s)
| ws_done : a_worker s = WLeave -> wstep C s Tau (set_work s (pred (a_wg s)) WGone).
Lemma anext_step C s c l s' : anext C s c = Some (l, s') ->
  a_crashed s = false /\ ((exists i, c = Thread i /\ tstep C s i l s') \/ wstep C s l s').
Proof.
  unfold anext. destruct (a_crashed s) eqn:CR; [discriminate|]. intros H; split; [reflexivity|].
  destruct c as [i| | | |].
  - left; exists i; split; [reflexivity|]. unfold thread_step in H.
    destruct (nth_error (a_threads s) i) as [[p todo]|] eqn:N; [|discriminate].
    destruct p; unfold chan_send in H.
    + destruct todo as [|[e|] todo]; inversion H; subst; now constructor.
    + inversion H; subst. now constructor.
    + destruct (a_shut s) eqn:SH; [inversion H; subst; econstructor; eassumption|].
      destruct (Nat.ltb_spec (length (a_queue s)) (ac_cap C)); [|discriminate]. inversion H; subst. now constructor.
    + inversion H; subst. now constructor.
    + inversion H; subst. now constructor.
    + destruct (a_shut s) eqn:SH; [inversion H; subst; econstructor; eassumption|].
      destruct (Nat.ltb_spec (length (a_queue s)) (ac_cap C)); [|discriminate]. inversion H; subst. now constructor.
    + destruct (a_wg s) eqn:W; [|discriminate]. inversion H; subst. now constructor.
    + inversion H; subst. now constructor.
    + destruct (a_shut s) eqn:SH; inversion H; subst; [eapply ts_kcboom; eassumption|now constructor].
    + inversion H; subst. now constructor.
    + discriminate.
  - right. destruct (a_worker s) eqn:W; try discriminate. inversion H; subst. now constructor.
  - right. unfold recv_step in H. destruct (a_worker s) eqn:W; try discriminate.
    destruct (a_queue s) as [|[e|] q] eqn:Q.
    + destruct (a_shut s) eqn:SH; [|discriminate]. inversion H; subst. now apply ws_shut.
    + unfold take_event in H. cbn [a_num a_buf a_out set_queue set_buf] in H.
      destruct (Z.leb_spec (ac_threshold C) (ev_level e)).
      2:{ inversion H; subst. eapply ws_low; eauto. }
      destruct (ac_fmt C e) as [b|] eqn:F.
      2:{ inversion H; subst. eapply ws_crash; eauto. }
      destruct (Z.leb_spec (ac_batch C) (a_num s + 1)); inversion H; subst.
      * unfold flush. cbn. eapply ws_batch; eauto.
      * eapply ws_hold; eauto.
    + inversion H; subst. now apply ws_end.
  - right. destruct (a_worker s) eqn:W; try discriminate. inversion H; subst. now constructor.
  - right. destruct (a_worker s) eqn:W; try discriminate. inversion H; subst. now constructor.
Qed.

(** * C31, C34: contents *)

Definition cont (C : aconf) (tr : list label) (s : astate) : Prop :=
  exists taken hand segs held,
    accf tr = taken ++ hand ++ qevs (a_queue s) /\
    texts C taken (concat segs ++ held) /\
    a_out s = map (@concat _) segs /\ outf tr = a_out s /\
    a_buf s = concat held /\ a_num s = Z.of_nat (length held) /\
    (if a_crashed s then exists e, hand = [e] /\ ac_threshold C <= ev_level e /\ ac_fmt C e = Panic else hand = []) /\
    (0 < Z.max 1 (ac_batch C) - a_num s) /\
    (match a_worker s with WNew | WLeave | WGone => held = [] | WRun => True end).

Lemma cont_step C tr s c l s' : cont C tr s -> anext C s c = Some (l, s') -> cont C (tr ++ [l]) s'.
Proof.
  intros (tk & hd & segs & held & A & T & O & OL & B & N & HD & LT & WK) H.
  apply anext_step in H as [CR [(i & -> & H)|H]]; rewrite CR in HD; subst hd; cbn [app] in A.
  - exists tk, [], segs, held. cbn [app].
    rewrite accf_app, (flat_map_app out_of_l tr [l] : outf (tr ++ [l]) = outf tr ++ outf [l]).
    inversion H; subst; cbn in *; rewrite ?CR, ?app_nil_r, ?qevs_app; cbn;
      repeat split; auto; try (rewrite A; now rewrite <- app_assoc).
    now rewrite app_nil_r.
  - unfold cont. rewrite accf_app, (flat_map_app out_of_l tr [l] : outf (tr ++ [l]) = outf tr ++ outf [l]), A, OL, O.
    inversion H as [W|e q W Q L|e q W Q L F|e q b W Q L F NB|e q b W Q L F NB|q W Q|W Q SH|W|W]; subst l s';
      cbn; rewrite ?CR, ?app_nil_r, ?O, ?B, ?N; try (rewrite Q; cbn).
    + exists tk, [], segs, held. cbn. repeat split; auto; lia.
    + exists (tk ++ [e]), [], segs, held. cbn. rewrite <- app_assoc, W. repeat split; auto; try lia.
      rewrite <- (app_nil_r (concat segs ++ held)). apply texts_app; [assumption|].
      constructor; [assumption|constructor].
    + exists tk, [e], segs, held. cbn. rewrite W. repeat split; eauto; lia.
    + exists (tk ++ [e]), [], segs, (held ++ [b]). cbn.
      rewrite <- app_assoc, W, app_length, concat_app. cbn. rewrite app_nil_r.
      repeat split; auto; try lia.
      rewrite app_assoc. apply texts_app; [assumption|]. constructor; [assumption|assumption|constructor].
    + exists (tk ++ [e]), [], (segs ++ [held ++ [b]]), []. cbn.
      rewrite <- app_assoc, W, map_app, !concat_app. cbn. rewrite !app_nil_r, concat_app. cbn. rewrite app_nil_r.
      repeat split; auto; try lia.
      rewrite app_assoc. apply texts_app; [assumption|]. constructor; [assumption|assumption|constructor].
    + exists tk, [], (segs ++ [held]), []. cbn. rewrite map_app, concat_app; cbn; rewrite !app_nil_r.
      repeat split; auto; lia.
    + exists tk, [], (segs ++ [held]), []. cbn. rewrite map_app, concat_app; cbn; rewrite !app_nil_r.
      repeat split; auto; lia.
    + exists tk, [], (segs ++ [held]), []. cbn. rewrite map_app, concat_app, W; cbn; rewrite !app_nil_r.
      repeat split; auto; lia.
    + exists tk, [], segs, held. cbn. rewrite W in WK. repeat split; auto; lia.
Qed.
Lemma cont_init C progs : cont C [] (a_init progs).
Proof. exists [], [], [], []. cbn. repeat split; try constructor; lia. Qed.
Lemma areach_cont C progs tr s : areach C progs tr s -> cont C tr s.
Proof. induction 1; [apply cont_init|eapply cont_step; eassumption]. Qed.

(** * Goroutines *)

Lemma th_set s i p todo x j : nth_error (a_threads s) i = Some x ->
  nth_error (a_threads (set_th s i p todo)) j = if Nat.eqb j i then Some (mkTh p todo) else nth_error (a_threads s) j.
Proof.
  intros N. cbn. destruct (Nat.eqb_spec j i) as [->|D].
  - now apply nth_upd_eq with (f := fun _ => mkTh p todo) in N.
  - now apply nth_upd_ne.
Qed.
Lemma wstep_threads C s l s' : wstep C s l s' -> a_threads s' = a_threads s.
Proof. inversion 1; reflexivity. Qed.
Lemma wstep_flags C s l s' : wstep C s l s' -> a_flag s' = a_flag s /\ a_shut s' = a_shut s.
Proof. inversion 1; split; reflexivity. Qed.
(** A goroutine's step moves only that goroutine. *)
Lemma tstep_other C s i l s' j : tstep C s i l s' -> j <> i -> nth_error (a_threads s') j = nth_error (a_threads s) j.
Proof. intros H D. inversion H; subst; cbn; now apply nth_upd_ne. Qed.
Lemma tstep_worker C s i l s' : tstep C s i l s' -> a_worker s' = a_worker s /\ a_wg s' = a_wg s /\ a_buf s' = a_buf s /\
  a_num s' = a_num s /\ a_out s' = a_out s /\ a_crashed s' = a_crashed s.
Proof. inversion 1; repeat split. Qed.
Lemma tstep_at C s i l s' : tstep C s i l s' -> exists p todo p' todo',
  nth_error (a_threads s) i = Some (mkTh p todo) /\ nth_error (a_threads s') i = Some (mkTh p' todo').
Proof.
  intros H. inversion H; subst; do 4 eexists; (split; [eassumption|]); rewrite th_set with (1 := H0) || idtac;
    try (cbn; eapply nth_upd_eq with (f := fun _ => _); eassumption).
  all: now rewrite Nat.eqb_refl.
Qed.

(** Each goroutine's events are accepted in the order of its calls. *)
Definition pend (p : pc) : list event := match p with SLoad e | SPush e => [e] | _ => [] end.
Lemma own_order C progs tr s : areach C progs tr s -> forall i p todo, nth_error (a_threads s) i = Some (mkTh p todo) ->
  exists cs dn, nth_error progs i = Some cs /\ sendsf cs = dn ++ pend p ++ sendsf todo /\ sublist (fromf i tr) dn.
Proof.
  induction 1 as [|tr s c l s' R IH H]; intros i p todo N.
  - cbn in N. rewrite nth_error_map in N. destruct (nth_error progs i) as [cs|] eqn:E; [|discriminate].
    inversion N; subst. exists todo, []. repeat split; constructor.
  - assert (FA : fromf i (tr ++ [l]) = fromf i tr ++ fromf i [l]) by apply flat_map_app. rewrite FA.
    apply anext_step in H as [_ [(k & -> & H)|H]].
    + destruct (Nat.eq_dec i k) as [->|D].
      * assert (X : forall x, nth_error (a_threads s) k = Some x -> True) by trivial.
        inversion H; subst; rewrite th_set with (1 := H0) in N || (cbn in N; rewrite nth_upd_eq with (1 := H0) in N);
          rewrite ?Nat.eqb_refl in N; inversion N; subst; clear N;
          destruct (IH _ _ _ H0) as (cs & dn & P & SD & SL);
          cbn [pend app sendsf flat_map] in SD; cbn [fromf flat_map from_of]; rewrite ?Nat.eqb_refl, ?app_nil_r;
          cbn [app];
          try (exists cs, dn; (split; [assumption|split; [|assumption]]); cbn; assumption).
        -- destruct (a_flag s).
           ++ exists cs, (dn ++ [e]). cbn. rewrite <- app_assoc. cbn. repeat split; auto. now apply sub_app_r.
           ++ exists cs, dn. repeat split; auto.
        -- exists cs, (dn ++ [e]). cbn. rewrite <- app_assoc. cbn. repeat split; auto. apply sub_app; [assumption|apply sub_refl].
        -- exists cs, (dn ++ [e]). cbn. rewrite <- app_assoc. cbn. repeat split; auto. now apply sub_app_r.
        -- exists cs, dn. destruct (a_flag s); repeat split; auto.
      * rewrite (tstep_other _ _ _ _ _ _ H D) in N. destruct (IH _ _ _ N) as (cs & dn & P & SD & SL).
        exists cs, dn. repeat split; auto.
        assert (Z0 : fromf i [l] = []).
        { inversion H; subst; cbn; try reflexivity; destruct (Nat.eqb_spec i k); try contradiction; reflexivity. }
        now rewrite Z0, app_nil_r.
    + rewrite (wstep_threads _ _ _ _ H) in N. destruct (IH _ _ _ N) as (cs & dn & P & SD & SL).
      exists cs, dn. repeat split; auto.
      assert (Z0 : fromf i [l] = []) by (inversion H; reflexivity). now rewrite Z0, app_nil_r.
Qed.
Lemma threads_length C progs tr s : areach C progs tr s -> length (a_threads s) = length progs.
Proof.
  induction 1 as [|tr s c l s' R IH H]; [apply map_length|].
  apply anext_step in H as [_ [(k & -> & H)|H]].
  - inversion H; subst; cbn; now rewrite upd_length.
  - now rewrite (wstep_threads _ _ _ _ H).
Qed.

(** * The wait group counts the worker *)

Definition wg_ok (s : astate) : Prop := a_wg s = match a_worker s with WRun | WLeave => 1%nat | _ => 0%nat end.
Lemma wg_step C s c l s' : wg_ok s -> anext C s c = Some (l, s') -> wg_ok s'.
Proof.
  unfold wg_ok. intros W H. apply anext_step in H as [_ [(k & -> & H)|H]].
  - destruct (tstep_worker _ _ _ _ _ H) as (A & B & _). now rewrite A, B.
  - inversion H; subst; cbn; rewrite ?H0 in *; auto; now rewrite W.
Qed.
Lemma wg_reach C progs tr s : areach C progs tr s -> wg_ok s.
Proof. induction 1; [reflexivity|eapply wg_step; eassumption]. Qed.

(** * Executions before any Close is called *)

Definition calm (p : pc) : Prop := match p with Idle | SLoad _ | SPush _ | SRet _ => True | _ => False end.
Definition allth (P : pc -> Prop) (s : astate) : Prop :=
  forall i p todo, nth_error (a_threads s) i = Some (mkTh p todo) -> P p.
Lemma allth_tstep (P : pc -> Prop) C s i l s' : allth P s -> tstep C s i l s' ->
  (forall p todo, nth_error (a_threads s') i = Some (mkTh p todo) -> P p) -> allth P s'.
Proof.
  intros A H Q j p todo N. destruct (Nat.eq_dec j i) as [->|D]; [eauto|].
  rewrite (tstep_other _ _ _ _ _ _ H D) in N. eapply A; eauto.
Qed.
Lemma allth_wstep (P : pc -> Prop) C s l s' : allth P s -> wstep C s l s' -> allth P s'.
Proof. intros A H j p todo N. rewrite (wstep_threads _ _ _ _ H) in N. eapply A; eauto. Qed.

Definition open (s : astate) : Prop :=
  a_flag s = false /\ a_shut s = false /\ (exists a, a_queue s = map Some a) /\ (a_worker s = WNew \/ a_worker s = WRun).
Lemma map_some_inv {A} (a : list A) q x : map Some a = x :: q -> exists y b, a = y :: b /\ x = Some y /\ q = map Some b.
Proof. destruct a as [|y b]; [discriminate|]. cbn. intros H. inversion H. eauto. Qed.
Lemma open_wstep C s l s' : open s -> wstep C s l s' -> open s'.
Proof.
  intros (F & SH & (a & Q) & W) H. unfold open.
  inversion H; subst; cbn in *; rewrite Q in *;
    repeat match goal with E : map Some _ = _ :: _ |- _ =>
      apply map_some_inv in E as (?y & ?b & -> & ?E1 & ->) end; try congruence;
    try (intuition (eauto; congruence)).
  all: repeat split; eauto.
Qed.
Lemma no_close_app tr l : no_close (tr ++ [l]) -> no_close tr /\ (forall i, l <> Call i CClose).
Proof.
  intros H; split.
  - intros i X. apply (H i). apply in_or_app. now left.
  - intros i ->. apply (H i). apply in_or_app. right. now left.
Qed.
Lemma calm_tstep C s i l s' : open s -> allth calm s -> tstep C s i l s' -> (forall j, l <> Call j CClose) ->
  open s' /\ allth calm s'.
Proof.
  intros O A H NC. pose proof O as (F & SH & (a & Q) & W). split.
  - unfold open. inversion H; subst; cbn in *; repeat split; eauto;
      try (apply A in H0; cbn in H0; tauto).
    rewrite Q. exists (a ++ [e]). now rewrite map_app.
  - eapply allth_tstep; [exact A|exact H|]. intros p todo N.
    inversion H; subst; (rewrite th_set with (1 := H0) in N || (cbn in N; rewrite nth_upd_eq with (1 := H0) in N));
      rewrite ?Nat.eqb_refl in N; inversion N; subst; cbn; try (apply A in H0; cbn in H0; tauto); auto.
    + exfalso. now apply (NC i).
    + now rewrite F.
    + congruence.
Qed.
Lemma before_close C progs tr s : areach C progs tr s -> no_close tr ->
  open s /\ allth calm s /\ (started tr <-> a_worker s = WRun).
Proof.
  induction 1 as [|tr s c l s' R IH H]; intros NC.
  - split; [|split].
    + repeat split; [exists []; reflexivity|now left].
    + intros i p todo N. cbn in N. rewrite nth_error_map in N. destruct (nth_error progs i); inversion N. exact I.
    + cbn. split; [intros []|discriminate].
  - apply no_close_app in NC as [NC NL]. destruct (IH NC) as (O & A & ST).
    apply anext_step in H as [_ [(k & -> & H)|H]].
    + destruct (calm_tstep _ _ _ _ _ O A H NL) as [O' A']. split; [exact O'|split; [exact A'|]].
      destruct (tstep_worker _ _ _ _ _ H) as (-> & _). rewrite <- ST. unfold started. rewrite in_app_iff. cbn.
      split; [intros [X|[X|[]]]; [exact X|subst l; inversion H]|now left].
    + split; [exact (open_wstep _ _ _ _ O H)|]. split; [exact (allth_wstep _ _ _ _ _ A H)|].
      unfold started in *. rewrite in_app_iff. pose proof O as (F & SH & (a & Q) & W).
      inversion H; subst; cbn; rewrite ?H0 in *; try (destruct W; congruence);
        try (split; [reflexivity|intros _; try (right; now left); left; now apply ST]).
      all: rewrite Q in *; apply map_some_inv in H1 as (y & b & _ & E & _); discriminate.
Qed.
(** Until a Close is called, every Send that returned was accepted. *)
Lemma returned_accepted C progs tr s : areach C progs tr s -> no_close tr -> forall i p todo,
  nth_error (a_threads s) i = Some (mkTh p todo) ->
  fromf i tr = retf i tr ++ match p with SRet e => [e] | _ => [] end.
Proof.
  induction 1 as [|tr s c l s' R IH H]; intros NC i p todo N.
  - cbn in N. rewrite nth_error_map in N. destruct (nth_error progs i); inversion N. reflexivity.
  - apply no_close_app in NC as [NC NL]. pose proof (before_close _ _ _ _ R NC) as ((F & SH & _) & A & _).
    specialize (IH NC).
    assert (FA : fromf i (tr ++ [l]) = fromf i tr ++ fromf i [l]) by apply flat_map_app.
    assert (RA : retf i (tr ++ [l]) = retf i tr ++ retf i [l]) by apply flat_map_app. rewrite FA, RA.
    apply anext_step in H as [_ [(k & -> & H)|H]].
    + destruct (Nat.eq_dec i k) as [->|D].
      * inversion H; subst; (rewrite th_set with (1 := H0) in N || (cbn in N; rewrite nth_upd_eq with (1 := H0) in N));
          rewrite ?Nat.eqb_refl in N; inversion N; subst; clear N; specialize (IH _ _ _ H0); rewrite IH;
          cbn; rewrite ?Nat.eqb_refl, ?F; cbn; rewrite ?app_nil_r; auto; try (apply A in H0; cbn in H0; tauto).
      * rewrite (tstep_other _ _ _ _ _ _ H D) in N. specialize (IH _ _ _ N).
        assert (Z0 : fromf i [l] = [] /\ retf i [l] = []).
        { inversion H; subst; cbn; split; try reflexivity; destruct (Nat.eqb_spec i k); try contradiction; reflexivity. }
        destruct Z0 as [-> ->]. now rewrite !app_nil_r.
    + rewrite (wstep_threads _ _ _ _ H) in N. specialize (IH _ _ _ N).
      assert (Z0 : fromf i [l] = [] /\ retf i [l] = []) by (inversion H; split; reflexivity).
      destruct Z0 as [-> ->]. now rewrite !app_nil_r.
Qed.

(** * C32: from a moment before any Close is called, with the worker started *)

Lemma asteps_reach C progs tr1 s1 tr2 s2 : areach C progs tr1 s1 -> asteps C s1 tr2 s2 -> areach C progs (tr1 ++ tr2) s2.
Proof.
  intros R S. revert tr1 R. induction S as [s|s c l sa tr sb H S IH]; intros tr1 R; [now rewrite app_nil_r|].
  specialize (IH (tr1 ++ [l])). rewrite <- app_assoc in IH. apply IH. eapply ar_step; eassumption.
Qed.
#[local] Arguments qevs : simpl never.
(** [m] events had been accepted. *)
Definition ahead (m : nat) (tr : list label) (s : astate) : Prop :=
  match a_worker s with
  | WNew => False
  | WRun => exists a q, a_queue s = map Some a ++ q /\ (m + length (qevs q) <= length (accf tr))%nat
  | WLeave | WGone => (m + length (qevs (a_queue s)) <= length (accf tr))%nat
  end.
Definition past_wait (p : pc) : Prop := match p with KStore | KClose | KRet => True | _ => False end.
Definition waited (s : astate) : Prop :=
  a_worker s = WGone \/ (a_flag s = false /\ a_shut s = false /\ allth (fun p => ~ past_wait p) s).
Lemma map_app_cons {A} (a : list A) q x r : map Some a ++ q = x :: r ->
  (a = [] /\ q = x :: r) \/ exists y b, a = y :: b /\ x = Some y /\ r = map Some b ++ q.
Proof. destruct a as [|y b]; cbn; intros H; [now left|right]. inversion H. eauto. Qed.
Lemma ahead_step C m tr s c l s' : ahead m tr s -> anext C s c = Some (l, s') -> ahead m (tr ++ [l]) s'.
Proof.
  intros J H. apply anext_step in H as [_ [(k & -> & H)|H]]; unfold ahead in *.
  - destruct (tstep_worker _ _ _ _ _ H) as (-> & _). rewrite accf_app, app_length.
    assert (QQ : exists x, a_queue s' = a_queue s ++ x /\ (length (qevs x) <= length (accf [l]))%nat).
    { inversion H; subst; cbn [accf flat_map acc_of app length];
        try (exists []; split; [symmetry; apply app_nil_r|unfold qevs; cbn; lia]);
        eexists; (split; [reflexivity|]); unfold qevs; cbn; lia. }
    destruct QQ as (x & -> & LX). destruct (a_worker s); try assumption.
    + destruct J as (a & q & -> & J). exists a, (q ++ x). rewrite app_assoc. split; [reflexivity|].
      rewrite qevs_app, app_length. lia.
    + rewrite qevs_app, app_length. lia.
    + rewrite qevs_app, app_length. lia.
  - rewrite accf_app, app_length.
    inversion H as [W|e q W Q L|e q W Q L F|e q b W Q L F NB|e q b W Q L F NB|q W Q|W Q SH|W|W]; subst l s';
      cbn; rewrite W in J; try contradiction; rewrite ?W.
    1-4: destruct J as (a & q0 & E & J); rewrite Q in E; symmetry in E;
      apply map_app_cons in E as [[-> ->]|(y & b0 & -> & _ & ->)];
      [exists [], q; split; [reflexivity|rewrite qevs_some in J; cbn [length] in J; lia]|exists b0, q0; split; [reflexivity|lia]].
    + destruct J as (a & q0 & E & J). rewrite Q in E. symmetry in E.
      apply map_app_cons in E as [[-> ->]|(y & b0 & -> & X & _)]; [rewrite qevs_none in J; lia|discriminate].
    + destruct J as (a & q0 & E & J). rewrite Q in E. symmetry in E. apply app_eq_nil in E as [_ ->].
      rewrite Q. unfold qevs in *. cbn in *. lia.
    + destruct J as (a & q0 & E & J). exists a, q0. split; [exact E|lia].
    + lia.
Qed.
Lemma waited_step C m tr s c l s' : ahead m tr s -> wg_ok s -> waited s -> anext C s c = Some (l, s') -> waited s'.
Proof.
  intros J WG WT H. apply anext_step in H as [_ [(k & -> & H)|H]]; unfold waited.
  - destruct (tstep_worker _ _ _ _ _ H) as (-> & _). destruct WT as [WT|(F & SH & A)]; [now left|].
    destruct (a_worker s) eqn:W; [| | |now left];
      [unfold ahead in J; now rewrite W in J| |]; unfold wg_ok in WG; rewrite W in WG; right.
    all: assert (NS : forall todo p, nth_error (a_threads s) k = Some (mkTh p todo) -> ~ past_wait p) by (intros; eapply A; eauto).
    all: inversion H; subst; cbn; try (exfalso; eapply NS; [eassumption|exact I]); try congruence;
      repeat split; auto; (eapply allth_tstep; [exact A|exact H|]); intros p todo' N;
      (rewrite th_set with (1 := H0) in N || (cbn in N; rewrite nth_upd_eq with (1 := H0) in N));
      rewrite ?Nat.eqb_refl in N; inversion N; subst; rewrite ?F; cbn; tauto.
  - destruct WT as [WT|(F & SH & A)].
    + inversion H; subst; rewrite WT in *; try discriminate.
    + destruct (wstep_flags _ _ _ _ H) as [-> ->]. right. repeat split; auto. now apply (allth_wstep _ _ _ _ _ A H).
Qed.
Lemma waited_ret C s c i s' : waited s -> anext C s c = Some (Ret i CClose, s') -> a_worker s = WGone.
Proof.
  intros WT H. apply anext_step in H as [_ [(k & -> & H)|H]]; [|inversion H].
  destruct WT as [WT|(F & SH & A)]; [assumption|].
  inversion H; subst. exfalso. eapply A; [eassumption|exact I].
Qed.
Lemma gone_step C s c l s' : a_worker s = WGone -> anext C s c = Some (l, s') -> a_worker s' = WGone /\ a_out s' = a_out s.
Proof.
  intros W H. apply anext_step in H as [_ [(k & -> & H)|H]].
  - destruct (tstep_worker _ _ _ _ _ H) as (A & _ & _ & _ & B & _). now rewrite A, B.
  - inversion H; subst; rewrite W in *; discriminate.
Qed.
Lemma gone_steps C s tr s' : a_worker s = WGone -> asteps C s tr s' -> a_worker s' = WGone /\ a_out s' = a_out s.
Proof.
  intros W S. induction S as [s|s c l sa tr sb H S IH]; [now split|].
  destruct (gone_step _ _ _ _ _ W H) as [W' E]. destruct (IH W') as [A B]. now rewrite B.
Qed.
Lemma waited_steps C progs tr1 s1 m tr2 s2 : areach C progs tr1 s1 -> ahead m tr1 s1 -> waited s1 -> asteps C s1 tr2 s2 ->
  ahead m (tr1 ++ tr2) s2 /\ (forall i, In (Ret i CClose) tr2 -> a_worker s2 = WGone).
Proof.
  intros R J WT S. revert tr1 R J WT. induction S as [s|s c l sa tr sb H S IH]; intros tr1 R J WT.
  - rewrite app_nil_r. split; [assumption|intros i []].
  - pose proof (wg_reach _ _ _ _ R) as WG.
    destruct (IH (tr1 ++ [l])) as [A B].
    + eapply ar_step; eassumption.
    + eapply ahead_step; eassumption.
    + eapply waited_step; eassumption.
    + rewrite <- app_assoc in A. split; [exact A|]. intros i [->|I]; [|eauto].
      pose proof (waited_ret _ _ _ _ _ WT H) as W. destruct (gone_step _ _ _ _ _ W H) as [W' _].
      now destruct (gone_steps _ _ _ _ W' S).
Qed.
Lemma texts_app_inv C a b t : texts C (a ++ b) t -> exists ta tb, t = ta ++ tb /\ texts C a ta /\ texts C b tb.
Proof.
  revert t. induction a as [|e a IH]; cbn; intros t T.
  - exists [], t. repeat split; [constructor|assumption].
  - inversion T; subst.
    + destruct (IH _ H3) as (ta & tb & -> & A & B). exists ta, tb. repeat split; auto. now constructor.
    + destruct (IH _ H4) as (ta & tb & -> & A & B). exists (b0 :: ta), tb. repeat split; auto. now constructor.
Qed.
Lemma concat_map_concat {A} (l : list (list (list A))) : concat (map (@concat A) l) = concat (concat l).
Proof. induction l as [|x l IH]; [reflexivity|]. cbn. now rewrite concat_app, IH. Qed.
(** Once the worker has left, what it took is written. *)
Lemma left_written C tr s : cont C tr s -> a_worker s = WLeave \/ a_worker s = WGone -> a_crashed s = false ->
  exists taken ts, accf tr = taken ++ qevs (a_queue s) /\ texts C taken ts /\ concat (a_out s) = concat ts.
Proof.
  intros (tk & hd & segs & held & A & T & O & OL & B & N & HD & LT & WK) W CR.
  rewrite CR in HD. subst hd. assert (held = []) as -> by (destruct W as [-> | ->] in WK; assumption || (destruct W as [W|W]; rewrite W in WK; assumption)).
  rewrite app_nil_r in T. exists tk, (concat segs). repeat split; auto. now rewrite O, concat_map_concat.
Qed.
Lemma crashed_worker C progs tr s : areach C progs tr s -> a_crashed s = true -> a_worker s = WRun.
Proof.
  induction 1 as [|tr s c l s' R IH H]; intros CR; [discriminate|].
  apply anext_step in H as [NC [(k & -> & H)|H]].
  - destruct (tstep_worker _ _ _ _ _ H) as (_ & _ & _ & _ & _ & E). congruence.
  - inversion H; subst; cbn in *; congruence.
Qed.
Lemma close_waits C progs tr1 s1 tr2 s2 i : areach C progs tr1 s1 -> no_close tr1 -> started tr1 ->
  asteps C s1 tr2 s2 -> In (Ret i CClose) tr2 ->
  exists ts more, texts C (accf tr1) ts /\ concat (a_out s2) = concat ts ++ more.
Proof.
  intros R NC ST S I.
  destruct (before_close _ _ _ _ R NC) as (O & A & W). apply W in ST as WR. pose proof O as (F & SH & (a & Q) & _).
  assert (J : ahead (length (accf tr1)) tr1 s1).
  { unfold ahead. rewrite WR. exists a, []. rewrite app_nil_r. split; [exact Q|unfold qevs; cbn; lia]. }
  assert (WT : waited s1).
  { right. repeat split; auto. intros k p todo N. apply A in N. destruct p; cbn in *; tauto. }
  destruct (waited_steps _ _ _ _ _ _ _ R J WT S) as [J2 G]. specialize (G i I).
  pose proof (asteps_reach _ _ _ _ _ _ R S) as R2. pose proof (areach_cont _ _ _ _ R2) as CT.
  assert (CR : a_crashed s2 = false).
  { destruct (a_crashed s2) eqn:E; [|reflexivity]. pose proof (crashed_worker _ _ _ _ R2 E). congruence. }
  destruct (left_written _ _ _ CT (or_intror G) CR) as (tk & ts & E & T & OUT).
  unfold ahead in J2. rewrite G in J2.
  rewrite accf_app in *. assert (L : (length (accf tr1) <= length tk)%nat).
  { apply (f_equal (@length _)) in E. rewrite !app_length in *. lia. }
  assert (P : exists r, tk = accf tr1 ++ r).
  { exists (skipn (length (accf tr1)) tk). rewrite <- (firstn_skipn (length (accf tr1)) tk) at 1. f_equal.
    apply (f_equal (firstn (length (accf tr1)))) in E.
    rewrite firstn_app, Nat.sub_diag, firstn_all, firstn_O, app_nil_r in E.
    rewrite firstn_app in E. replace (length (accf tr1) - length tk)%nat with 0%nat in E by lia.
    rewrite firstn_O, app_nil_r in E. now symmetry. }
  destruct P as (r & ->). apply texts_app_inv in T as (ta & tb & -> & TA & TB).
  exists ta, (concat tb). split; [assumption|]. now rewrite OUT, concat_app.
Qed.

(** * C33: orderly executions *)

Definition tail_ok (s : astate) : Prop :=
  (exists a, a_queue s = map Some a ++ [None] /\ (a_worker s = WNew \/ a_worker s = WRun)) \/
  (a_queue s = [] /\ (a_worker s = WLeave \/ a_worker s = WGone)).
Definition alone (s : astate) (k : nat) (P : pc -> Prop) : Prop :=
  (exists p todo, nth_error (a_threads s) k = Some (mkTh p todo) /\ P p) /\
  (forall j p todo, j <> k -> nth_error (a_threads s) j = Some (mkTh p todo) -> p = Idle).
Definition done_pc (p : pc) : Prop := match p with Idle | SLoad _ | SRet _ | KLoad | KRet => True | _ => False end.
Inductive phase (s : astate) : Prop :=
| ph_open : open s -> allth calm s -> phase s
| ph_ask k : open s -> alone s k (fun p => p = KLoad \/ p = KPush) -> phase s
| ph_wait k : a_flag s = false -> a_shut s = false -> tail_ok s -> alone s k (fun p => p = KWait \/ p = KStore) -> phase s
| ph_stored k : a_flag s = true -> a_shut s = false -> tail_ok s -> alone s k (fun p => p = KClose) -> phase s
| ph_shut : a_flag s = true -> a_shut s = true -> tail_ok s -> allth done_pc s -> phase s.

Lemma tail_wstep C s l s' : tail_ok s -> wstep C s l s' -> tail_ok s'.
Proof.
  intros T H. unfold tail_ok.
  inversion H as [W|e q W Q L|e q W Q L F|e q b W Q L F NB|e q b W Q L F NB|q W Q|W Q SH|W|W]; subst l s'; cbn;
    destruct T as [(a & Qa & Wa)|[Qa Wa]]; rewrite ?W, ?Qa in *; try (destruct Wa; congruence); try discriminate.
  - left. exists a. split; [reflexivity|now right].
  - apply map_app_cons in Q as [[-> X]|(y & b0 & -> & _ & ->)]; [discriminate|]. left; eauto.
  - apply map_app_cons in Q as [[-> X]|(y & b0 & -> & _ & ->)]; [discriminate|]. left; eauto.
  - apply map_app_cons in Q as [[-> X]|(y & b0 & -> & _ & ->)]; [discriminate|]. left; eauto.
  - apply map_app_cons in Q as [[-> X]|(y & b0 & -> & _ & ->)]; [discriminate|]. left; eauto.
  - apply map_app_cons in Q as [[-> X]|(y & b0 & -> & X & ->)]; [|discriminate]. inversion X; subst. right; eauto.
  - apply app_eq_nil in Q as [_ X]. discriminate.
  - left. eauto.
  - right. eauto.
Qed.
Lemma alone_wstep C s l s' k P : alone s k P -> wstep C s l s' -> alone s' k P.
Proof. intros A H. unfold alone. now rewrite (wstep_threads _ _ _ _ H). Qed.
Lemma phase_wstep C s l s' : phase s -> wstep C s l s' -> phase s'.
Proof.
  intros P H. destruct (wstep_flags _ _ _ _ H) as [E1 E2]. destruct P.
  - apply ph_open; [eapply open_wstep|eapply allth_wstep]; eassumption.
  - eapply ph_ask; [eapply open_wstep|eapply alone_wstep]; eassumption.
  - eapply ph_wait; try congruence; [eapply tail_wstep|eapply alone_wstep]; eassumption.
  - eapply ph_stored; try congruence; [eapply tail_wstep|eapply alone_wstep]; eassumption.
  - eapply ph_shut; try congruence; [eapply tail_wstep|eapply allth_wstep]; eassumption.
Qed.
Lemma alone_tstep C s i l s' k (P Q : pc -> Prop) : alone s k P -> i = k -> tstep C s i l s' ->
  (forall p todo, nth_error (a_threads s') k = Some (mkTh p todo) -> Q p) -> alone s' k Q.
Proof.
  intros [_ A] -> H HQ. split.
  - destruct (tstep_at _ _ _ _ _ H) as (_ & _ & p' & todo' & _ & N). eauto.
  - intros j p todo D N. rewrite (tstep_other _ _ _ _ _ _ H D) in N. eauto.
Qed.
Lemma alone_mover C s i l s' k (P : pc -> Prop) : alone s k P -> (forall p, P p -> p <> Idle /\ In p [KLoad; KPush; KWait; KStore; KClose; KRet]) ->
  tstep C s i l s' -> orderly s l -> i = k.
Proof.
  intros [(p & todo & N & HP) A] PK H OL. destruct (Nat.eq_dec i k) as [->|D]; [reflexivity|exfalso].
  destruct (PK _ HP) as [NI IN].
  inversion H; subst; specialize (A _ _ _ D H0); try discriminate A.
  - apply OL. exists k, p, todo. split; assumption.
  - apply OL. exists k, p, todo. repeat split; auto. intros ->. cbn in IN. intuition discriminate.
Qed.
Ltac moved H0 N := (rewrite th_set with (1 := H0) in N || (cbn in N; rewrite nth_upd_eq with (1 := H0) in N));
  rewrite ?Nat.eqb_refl in N; inversion N; subst; clear N.
Lemma phase_tstep C s i l s' : wg_ok s -> phase s -> orderly s l -> tstep C s i l s' ->
  phase s' /\ (forall j, l <> Boom j).
Proof.
  intros WG P OL H. destruct P as [O A|k O A|k F SH T A|k F SH T A|F SH T A].
  - destruct l as [j c|j e|j c|j| |w b| |]; try (split; [|discriminate]);
      try (apply ph_open; refine (proj1 (calm_tstep _ _ _ _ _ O A H _)) || refine (proj2 (calm_tstep _ _ _ _ _ O A H _)); discriminate).
    + destruct c as [e|].
      * apply ph_open; [refine (proj1 (calm_tstep _ _ _ _ _ O A H _))|refine (proj2 (calm_tstep _ _ _ _ _ O A H _))]; discriminate.
      * inversion H; subst. apply ph_ask with (k := j); [exact O|]. split.
        -- exists KLoad, todo.
           match goal with X : nth_error (a_threads s) _ = Some (mkTh Idle _) |- _ => rewrite th_set with (1 := X) end.
           rewrite Nat.eqb_refl. auto.
        -- intros j' p todo' D N. rewrite (tstep_other _ _ _ _ _ _ H D) in N. pose proof (A _ _ _ N) as CP.
           destruct p; try reflexivity; try contradiction; exfalso; apply OL;
             (do 3 eexists; split; [exact N|split; discriminate]).
    + exfalso. destruct O as (_ & SH & _).
      inversion H; subst; try congruence;
        match goal with X : nth_error (a_threads s) _ = Some _ |- _ => apply A in X; exact X end.
  - pose proof O as (F & SH & (a & Q) & W).
    assert (PK : forall p, p = KLoad \/ p = KPush -> p <> Idle /\ In p [KLoad; KPush; KWait; KStore; KClose; KRet])
      by (intros p [-> | ->]; (split; [discriminate|cbn; tauto])).
    pose proof (alone_mover _ _ _ _ _ _ _ A PK H OL) as ->. pose proof A as [(p & todo & N & HP) _].
    inversion H; subst; rewrite H0 in N; inversion N; subst; destruct HP as [HP|HP]; try discriminate HP; try congruence; (split; [|discriminate]).
    + apply ph_ask with (k := k); [exact O|]. eapply alone_tstep; [exact A|reflexivity|exact H|].
      intros p' todo' M. moved H0 M. rewrite F. now right.
    + apply ph_wait with (k := k); try assumption.
      * left. exists a. cbn. rewrite Q. split; [reflexivity|exact W].
      * eapply alone_tstep; [exact A|reflexivity|exact H|]. intros p' todo' M. moved H0 M. now left.
  - assert (PK : forall p, p = KWait \/ p = KStore -> p <> Idle /\ In p [KLoad; KPush; KWait; KStore; KClose; KRet])
      by (intros p [-> | ->]; (split; [discriminate|cbn; tauto])).
    pose proof (alone_mover _ _ _ _ _ _ _ A PK H OL) as ->. pose proof A as [(p & todo & N & HP) _].
    inversion H; subst; rewrite H0 in N; inversion N; subst; destruct HP as [HP|HP]; try discriminate HP; try congruence; (split; [|discriminate]).
    + apply ph_wait with (k := k); try assumption. eapply alone_tstep; [exact A|reflexivity|exact H|].
      intros p' todo' M. moved H0 M. now right.
    + apply ph_stored with (k := k); try assumption; try reflexivity. eapply alone_tstep; [exact A|reflexivity|exact H|].
      intros p' todo' M. moved H0 M. reflexivity.
  - assert (PK : forall p, p = KClose -> p <> Idle /\ In p [KLoad; KPush; KWait; KStore; KClose; KRet])
      by (intros p ->; (split; [discriminate|cbn; tauto])).
    pose proof (alone_mover _ _ _ _ _ _ _ A PK H OL) as ->. pose proof A as [(p & todo & N & HP) AO].
    inversion H; subst; rewrite H0 in N; inversion N; subst; try discriminate; try congruence; (split; [|discriminate]).
    apply ph_shut; try assumption; try reflexivity. intros j p todo' M.
    destruct (Nat.eq_dec j k) as [->|D]; [moved H0 M; exact I|].
    rewrite (tstep_other _ _ _ _ _ _ H D) in M. rewrite (AO _ _ _ D M). exact I.
  - split.
    + inversion H; subst; try (apply A in H0 as X; cbn in X; contradiction);
        apply ph_shut; try assumption;
        (eapply allth_tstep; [exact A|exact H|]); intros p todo' N; moved H0 N; rewrite ?F; exact I.
    + intros j ->. inversion H; subst;
        match goal with X : nth_error (a_threads s) _ = Some _ |- _ => apply A in X; exact X end.
Qed.
Lemma oreach_areach C progs tr s : oreach C progs tr s -> areach C progs tr s.
Proof. induction 1; econstructor; eassumption. Qed.
Lemma phase_reach C progs tr s : oreach C progs tr s -> phase s /\ forall i, ~ In (Boom i) tr.
Proof.
  induction 1 as [|tr s c l s' R [P NB] OL H].
  - split; [|intros i []]. apply ph_open.
    + repeat split; [exists []; reflexivity|now left].
    + intros i p todo N. cbn in N. rewrite nth_error_map in N. destruct (nth_error progs i); inversion N. exact I.
  - pose proof (wg_reach _ _ _ _ (oreach_areach _ _ _ _ R)) as WG.
    apply anext_step in H as [_ [(k & -> & H)|H]].
    + destruct (phase_tstep _ _ _ _ _ WG P OL H) as [P' NL]. split; [exact P'|].
      intros i I. apply in_app_or in I as [I|[I|[]]]; [eapply NB; eauto|eapply NL; eauto].
    + split; [eapply phase_wstep; eassumption|].
      intros i I. apply in_app_or in I as [I|[I|[]]]; [eapply NB; eauto|]. subst l. inversion H.
Qed.
Lemma phase_left s : phase s -> a_worker s = WLeave \/ a_worker s = WGone -> a_queue s = [].
Proof.
  intros P W. assert (NW : forall s0, a_worker s = WNew \/ a_worker s = WRun -> s0 = s -> False)
    by (intros ? [X|X] _; destruct W; congruence).
  destruct P as [O A|k O A|k F SH T A|k F SH T A|F SH T A].
  1,2: destruct O as (_ & _ & _ & X); exfalso; eapply NW; eauto.
  all: destruct T as [(a & _ & X)|[Q _]]; [exfalso; eapply NW; eauto|exact Q].
Qed.
(** No deadlock: while a call is under way or events are waiting, somebody can go on. *)
Lemma phase_progress C s : phase s -> wg_ok s -> (1 <= ac_cap C)%nat -> a_crashed s = false ->
  busy s \/ a_queue s <> [] -> exists c l s', (forall i, c <> Thread i \/ ~ exists cl, l = Call i cl) /\ anext C s c = Some (l, s').
Proof.
  intros P WG CAP CR B.
  assert (RECV : a_worker s = WRun -> a_queue s <> [] -> exists l s', anext C s WRecv = Some (l, s')).
  { intros W Q. unfold anext, recv_step. rewrite CR, W. destruct (a_queue s) as [|[e|] q]; [contradiction| |eauto].
    destruct (take_event C (set_queue s q) e); eauto. }
  assert (STRT : a_worker s = WNew -> exists l s', anext C s WStart = Some (l, s')).
  { intros W. unfold anext. rewrite CR, W. eauto. }
  assert (NOT : forall c (l : label), (forall i, c <> Thread i) -> (forall i, c <> Thread i \/ ~ exists cl, l = Call i cl)) by (intros; left; auto).
  assert (WK : (a_worker s = WNew \/ a_worker s = WRun) -> a_queue s <> [] ->
    exists c l s', (forall i, c <> Thread i \/ ~ exists cl, l = Call i cl) /\ anext C s c = Some (l, s')).
  { intros [W|W] Q; [destruct (STRT W) as (l & s' & E)|destruct (RECV W Q) as (l & s' & E)];
      do 3 eexists; (split; [|exact E]); intros; left; discriminate. }
  assert (TH : forall i l s', thread_step C s i = Some (l, s') -> (forall cl, l <> Call i cl) ->
    exists c l s', (forall i, c <> Thread i \/ ~ exists cl, l = Call i cl) /\ anext C s c = Some (l, s')).
  { intros i l s' E NL. exists (Thread i), l, s'. split; [|unfold anext; now rewrite CR].
    intros j. destruct (Nat.eq_dec i j) as [->|D]; [right; intros (cl & X); eapply NL; eauto|left; congruence]. }
  destruct P as [O A|k O A|k F SH T A|k F SH T A|F SH T A].
  - destruct O as (F & SH & (a & Q) & W).
    destruct (a_queue s) as [|x q] eqn:QE; [|apply WK; [exact W|discriminate]].
    destruct B as [(i & p & todo & N & NI & ND)|]; [|congruence].
    apply A in N as CP. destruct p; try contradiction.
    + eapply (TH i); [unfold thread_step; rewrite N; reflexivity|discriminate].
    + eapply (TH i); [unfold thread_step, chan_send; rewrite N, SH, QE; cbn [length];
        destruct (Nat.ltb_spec 0 (ac_cap C)); [reflexivity|lia]|discriminate].
    + eapply (TH i); [unfold thread_step; rewrite N; reflexivity|discriminate].
  - destruct O as (F & SH & (a & Q) & W).
    destruct (a_queue s) as [|x q] eqn:QE; [|apply WK; [exact W|discriminate]].
    destruct A as [(p & todo & N & HP) _]. destruct HP as [-> | ->].
    + eapply (TH k); [unfold thread_step; rewrite N; reflexivity|discriminate].
    + eapply (TH k); [unfold thread_step, chan_send; rewrite N, SH, QE; cbn [length];
        destruct (Nat.ltb_spec 0 (ac_cap C)); [reflexivity|lia]|discriminate].
  - destruct T as [(a & Q & W)|[Q W]].
    + apply WK; [exact W|]. rewrite Q. now destruct a.
    + destruct W as [W|W].
      * exists WDone. unfold anext. rewrite CR, W. do 2 eexists. split; [|reflexivity]. left; discriminate.
      * destruct A as [(p & todo & N & HP) _]. unfold wg_ok in WG. rewrite W in WG. destruct HP as [-> | ->].
        -- eapply (TH k); [unfold thread_step; rewrite N, WG; reflexivity|discriminate].
        -- eapply (TH k); [unfold thread_step; rewrite N; reflexivity|discriminate].
  - destruct A as [(p & todo & N & ->) _].
    eapply (TH k); [unfold thread_step; rewrite N, SH; reflexivity|discriminate].
  - destruct T as [(a & Q & W)|[Q W]].
    + apply WK; [exact W|]. rewrite Q. now destruct a.
    + destruct B as [(i & p & todo & N & NI & ND)|]; [|congruence].
      apply A in N as CP. destruct p; try contradiction;
        (eapply (TH i); [unfold thread_step; rewrite N; reflexivity|discriminate]).
Qed.

(** * C35: after a Close has returned *)

Lemma flag_step C s c l s' : a_flag s = true -> anext C s c = Some (l, s') -> a_flag s' = true.
Proof.
  intros F H. apply anext_step in H as [_ [(k & -> & H)|H]].
  - inversion H; subst; cbn; congruence.
  - destruct (wstep_flags _ _ _ _ H) as [-> _]. assumption.
Qed.
Definition stored (p : pc) : Prop := p = KClose \/ p = KRet.
Lemma flag_reach C progs tr s : areach C progs tr s ->
  ((exists i, In (Ret i CClose) tr) \/ ~ allth (fun p => ~ stored p) s) -> a_flag s = true.
Proof.
  intros R. assert (X : (a_flag s = false -> (forall i, ~ In (Ret i CClose) tr) /\ allth (fun p => ~ stored p) s)).
  { induction R as [|tr s c l s' R IH H]; intros F.
    - split; [intros i []|]. intros i p todo N. cbn in N. rewrite nth_error_map in N. destruct (nth_error progs i); inversion N.
      intros [X|X]; discriminate.
    - destruct (a_flag s) eqn:FS; [rewrite (flag_step _ _ _ _ _ FS H) in F; discriminate|].
      destruct (IH eq_refl) as [NR A]. apply anext_step in H as [_ [(k & -> & H)|H]].
      + split.
        * intros i I. apply in_app_or in I as [I|[I|[]]]; [eapply NR; eauto|]. subst l.
          inversion H; subst. eapply A; [eassumption|now right].
        * eapply allth_tstep; [exact A|exact H|]. intros p todo' N.
          inversion H; subst; moved H0 N; rewrite ?FS; try (intros [X|X]; discriminate);
            try discriminate F; try (exfalso; eapply A; [eassumption|now left]).
      + split; [|eapply allth_wstep; eassumption].
        intros i I. apply in_app_or in I as [I|[I|[]]]; [eapply NR; eauto|]. subst l. inversion H. }
  intros B. destruct (a_flag s); [reflexivity|]. destruct (X eq_refl) as [NR A].
  destruct B as [[i I]|B]; [exfalso; eapply NR; eauto|contradiction].
Qed.
(** Goroutine [i] is in call [c], which it began with the output closed. *)
Definition late (c : call) (p : pc) : Prop :=
  match c with CSend e => p = SLoad e \/ p = SRet e | CClose => p = KLoad \/ p = KRet end.
Lemma late_steps C s tr s' i c p todo : a_flag s = true -> asteps C s tr s' ->
  nth_error (a_threads s) i = Some (mkTh p todo) -> late c p -> ~ In (Ret i c) tr ->
  a_flag s' = true /\ (exists p', nth_error (a_threads s') i = Some (mkTh p' todo) /\ late c p') /\
  ~ In (Boom i) tr /\ forall e, ~ In (Push i e) tr.
Proof.
  intros F S. revert p. induction S as [s|s ch l sa tr sb H S IH]; intros p N L NR.
  - repeat split; eauto; intros; intros [].
  - pose proof (flag_step _ _ _ _ _ F H) as F1.
    assert (NR' : ~ In (Ret i c) tr) by (intros X; apply NR; now right).
    assert (NL : l <> Ret i c) by (intros ->; apply NR; now left).
    apply anext_step in H as [_ [(k & -> & H)|H]].
    + destruct (Nat.eq_dec i k) as [->|D].
      * assert (ST : l = Tau /\ exists p', nth_error (a_threads sa) k = Some (mkTh p' todo) /\ late c p').
        { destruct c as [e|]; destruct L as [-> | ->]; inversion H; subst; rewrite N in H0; inversion H0; subst;
            try congruence; (split; [reflexivity|]); rewrite th_set with (1 := N), Nat.eqb_refl, F;
            eexists; (split; [reflexivity|]); now right. }
        destruct ST as [-> (p' & N' & L')]. destruct (IH F1 p' N' L' NR') as (A & B & Cc & Dd).
        repeat split; auto; [intros [X|X]; [discriminate|auto]|intros e [X|X]; [discriminate|eapply Dd; eauto]].
      * rewrite <- (tstep_other _ _ _ _ _ _ H D) in N. destruct (IH F1 p N L NR') as (A & B & Cc & Dd).
        repeat split; auto; [intros [X|X]; [subst l; inversion H; congruence|auto]|].
        intros e [X|X]; [subst l; inversion H; congruence|eapply Dd; eauto].
    + rewrite <- (wstep_threads _ _ _ _ H) in N. destruct (IH F1 p N L NR') as (A & B & Cc & Dd).
      repeat split; auto; [intros [X|X]; [subst l; inversion H|auto]|].
      intros e [X|X]; [subst l; inversion H|eapply Dd; eauto].
Qed.

(** * The worker can write everything *)

Lemma wsteps_asteps C s tr s' : wsteps C s tr s' -> asteps C s tr s'.
Proof. induction 1; econstructor; eassumption. Qed.
Lemma wstep_acc C s l s' : wstep C s l s' -> accf [l] = [].
Proof. inversion 1; reflexivity. Qed.
Lemma cont_written C tr s : cont C tr s -> a_queue s = [] -> a_buf s = [] -> a_crashed s = false ->
  exists ts, texts C (accf tr) ts /\ concat (a_out s) = concat ts.
Proof.
  intros (tk & hd & segs & held & A & T & O & OL & B & N & HD & LT & WK) Q E CR.
  rewrite CR in HD. subst hd. rewrite Q in A. unfold qevs in A. cbn in A. rewrite app_nil_r in A.
  rewrite A. exists (concat segs ++ held). split; [assumption|].
  rewrite O, concat_map_concat, concat_app, <- B, E, app_nil_r. reflexivity.
Qed.
Lemma drain_run C progs : formats_all C -> forall n tr s, oreach C progs tr s -> a_worker s = WRun -> length (a_queue s) = n ->
  a_crashed s = false ->
  exists tr2 s2 ts, wsteps C s tr2 s2 /\ accf (tr ++ tr2) = accf tr /\ texts C (accf tr) ts /\ concat (a_out s2) = concat ts.
Proof.
  intros FA. induction n as [|n IH]; intros tr s R W L CR.
  - destruct (a_queue s) eqn:Q; [|discriminate].
    assert (H : anext C s WTick = Some (Wrote ByTick (a_buf s), flush s)) by (unfold anext; now rewrite CR, W).
    pose proof (cont_step _ _ _ _ _ _ (areach_cont _ _ _ _ (oreach_areach _ _ _ _ R)) H) as CT.
    destruct (cont_written _ _ _ CT) as (ts & T & O); try reflexivity; try assumption.
    rewrite accf_app in T. cbn in T. rewrite app_nil_r in T.
    exists [Wrote ByTick (a_buf s)], (flush s), ts. split; [|split; [|split; assumption]].
    + econstructor; [|exact H|constructor]. discriminate.
    + rewrite accf_app. cbn. now rewrite app_nil_r.
  - destruct (a_queue s) as [|x q] eqn:Q; [discriminate|]. cbn in L.
    assert (H : exists l s', anext C s WRecv = Some (l, s')).
    { unfold anext, recv_step. rewrite CR, W, Q. destruct x as [e|]; [|eauto]. destruct (take_event C (set_queue s q) e). eauto. }
    destruct H as (l & s' & H). pose proof H as H0. apply anext_step in H0 as [_ [(i & X & _)|WS]]; [discriminate|].
    assert (R' : oreach C progs (tr ++ [l]) s').
    { eapply or_step; [exact R| |exact H]. inversion WS; exact I. }
    assert (AC : accf (tr ++ [l]) = accf tr) by (rewrite accf_app, (wstep_acc _ _ _ _ WS), app_nil_r; reflexivity).
    assert (CASES : (a_worker s' = WRun /\ length (a_queue s') = n /\ a_crashed s' = false) \/ (a_worker s' = WLeave /\ a_crashed s' = false)).
    { unfold anext, recv_step in H. rewrite CR, W, Q in H. destruct x as [e|].
      - unfold take_event in H. destruct (ac_threshold C <=? ev_level e).
        + destruct (FA e) as [b Eb]. rewrite Eb in H.
          left. destruct (ac_batch C <=? _); inversion H; subst; cbn; auto with arith.
        + inversion H; subst. cbn. left. auto with arith.
      - inversion H; subst. right. cbn. auto. }
    destruct CASES as [(W' & L' & CR')|[W' CR']].
    + destruct (IH _ _ R' W' L' CR') as (tr2 & s2 & ts & S & E & T & O).
      exists (l :: tr2), s2, ts. rewrite AC in *. split; [|split; [|split; assumption]].
      * econstructor; [|exact H|exact S]. discriminate.
      * rewrite <- app_assoc in E. exact E.
    + pose proof (areach_cont _ _ _ _ (oreach_areach _ _ _ _ R')) as CT.
      pose proof (phase_left _ (proj1 (phase_reach _ _ _ _ R')) (or_introl W')) as QE.
      destruct (left_written _ _ _ CT (or_introl W') CR') as (tk & ts & E & T & O).
      rewrite QE in E. unfold qevs in E. cbn in E. rewrite app_nil_r in E. subst tk. rewrite AC in T.
      exists [l], s', ts. split; [|split; [exact AC|split; assumption]].
      econstructor; [|exact H|constructor]. discriminate.
Qed.
Lemma drain C progs tr s : formats_all C -> oreach C progs tr s ->
  exists tr2 s2 ts, wsteps C s tr2 s2 /\ texts C (accf tr) ts /\ concat (a_out s2) = concat ts.
Proof.
  intros FA R. assert (CR : a_crashed s = false).
  { destruct (a_crashed s) eqn:CR; [exfalso|reflexivity].
    destruct (areach_cont _ _ _ _ (oreach_areach _ _ _ _ R)) as (tk & hd & segs & held & _ & _ & _ & _ & _ & _ & HD & _).
    rewrite CR in HD. destruct HD as (e & _ & _ & P). destruct (FA e) as [b B]. congruence. }
  destruct (a_worker s) eqn:W.
  - assert (H : anext C s WStart = Some (Start, set_work s (S (a_wg s)) WRun)) by (unfold anext; now rewrite CR, W).
    assert (R' : oreach C progs (tr ++ [Start]) (set_work s (S (a_wg s)) WRun)) by (eapply or_step; [exact R|exact I|exact H]).
    destruct (drain_run C progs FA _ _ _ R' eq_refl eq_refl CR) as (tr2 & s2 & ts & S & E & T & O).
    rewrite accf_app in T. cbn in T. rewrite app_nil_r in T.
    exists (Start :: tr2), s2, ts. split; [|split; assumption]. econstructor; [|exact H|exact S]. discriminate.
  - destruct (drain_run C progs FA _ _ _ R W eq_refl CR) as (tr2 & s2 & ts & S & E & T & O).
    exists tr2, s2, ts. repeat split; assumption.
  - pose proof (phase_left _ (proj1 (phase_reach _ _ _ _ R)) (or_introl W)) as QE.
    destruct (left_written _ _ _ (areach_cont _ _ _ _ (oreach_areach _ _ _ _ R)) (or_introl W) CR) as (tk & ts & E & T & O).
    rewrite QE in E. unfold qevs in E. cbn in E. rewrite app_nil_r in E. subst tk.
    exists [], s, ts. repeat split; try assumption. constructor.
  - pose proof (phase_left _ (proj1 (phase_reach _ _ _ _ R)) (or_intror W)) as QE.
    destruct (left_written _ _ _ (areach_cont _ _ _ _ (oreach_areach _ _ _ _ R)) (or_intror W) CR) as (tk & ts & E & T & O).
    rewrite QE in E. unfold qevs in E. cbn in E. rewrite app_nil_r in E. subst tk.
    exists [], s, ts. repeat split; try assumption. constructor.
Qed.

(** * Writes *)

Lemma areach_split C progs tr s : areach C progs tr s -> forall tr1 l tr2, tr = tr1 ++ l :: tr2 ->
  exists s1 c s2, areach C progs tr1 s1 /\ anext C s1 c = Some (l, s2).
Proof.
  induction 1 as [|tr s c l s' R IH H]; intros tr1 l0 tr2 E.
  - destruct tr1; discriminate.
  - destruct (@exists_last _ (l0 :: tr2)) as (t & x & E2); [discriminate|].
    rewrite E2, app_assoc in E. apply app_inj_tail in E as [E <-].
    destruct t as [|y t].
    + cbn in E2. inversion E2; subst. rewrite app_nil_r in R. eauto.
    + cbn in E2. inversion E2; subst. eapply IH; reflexivity.
Qed.
Lemma batch_write C progs tr1 b tr2 s : areach C progs (tr1 ++ Wrote ByBatch b :: tr2) s -> 1 <= ac_batch C ->
  exists before now later tb tn, accf tr1 = before ++ now ++ later /\ texts C before tb /\ texts C now tn /\
    concat (outf tr1) = concat tb /\ b = concat tn /\ Z.of_nat (length tn) = ac_batch C.
Proof.
  intros R B1. destruct (areach_split _ _ _ _ R _ _ _ eq_refl) as (s1 & c & s2 & R1 & H).
  destruct (areach_cont _ _ _ _ R1) as (tk & hd & segs & held & A & T & O & OL & B & N & HD & LT & WK).
  apply anext_step in H as [CR [(i & -> & H)|H]]; [inversion H|]. rewrite CR in HD. subst hd. cbn [app] in A.
  inversion H as [| | | |e q b0 W Q L F NB| | | |]; subst.
  apply texts_split in T as (ea & eb & -> & TA & TB).
  exists ea, (eb ++ [e]), (qevs q), (concat segs), (held ++ [b0]).
  rewrite <- app_assoc in A. rewrite <- !app_assoc. cbn. rewrite Q in A. repeat split; auto.
  - apply texts_app; [assumption|]. constructor; [assumption|assumption|constructor].
  - now rewrite OL, O, concat_map_concat.
  - rewrite concat_app. cbn. now rewrite app_nil_r, B.
  - rewrite app_length. cbn. lia.
Qed.

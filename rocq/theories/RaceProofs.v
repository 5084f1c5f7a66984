From Verif Require Import GoStr Utf8 LevelModel EventModel LayoutModel ConfModel OutputModel OutputSpec OutputProofs WorldModel WorldSpec WorldBase WorldInv
  WorldProofs LogProofs RaceModel RaceSpec.
Local Open Scope nat_scope.

(** A call with no other goroutine running. *)
Fixpoint solo (P : params) (W : world) (p : rprog) : res (world * ret) :=
  match p with
  | RRet r => Ok (W, r)
  | RFail => Panic
  | RCell id k => match nth_error (w_loggers W) id with Some l => solo P W (k l) | None => Panic end
  | RSet id f k =>
    match nth_error (w_loggers W) id with
    | Some _ => solo P (set_loggers W (upd id f (w_loggers W))) k
    | None => Panic
    end
  | RHeap o k => match nth_error (w_heap W) o with Some x => solo P W (k x) | None => Panic end
  | RSend o stk e k =>
    match nth_error (w_heap W) o with
    | None => Panic
    | Some x =>
      match out_Send (p_env P) stk x e with
      | Panic => Panic
      | Ok (x', e') => solo P (set_sent (set_heap W (upd o (fun _ => x') (w_heap W))) (w_sent W ++ [(o, (stk, e))])) (k e')
      end
    end
  | RWarn name k => solo P (set_warn W (w_warn W ++ [name])) k
  | RCfg c k => solo P (set_config W c) k
  | ROne o k => match exec P W o with Ok (W', r) => solo P W' (k r) | Panic => Panic end
  end.

(** ** Programs whose stores keep the invariant *)
Fixpoint okp (n : nat) (p : rprog) : Prop :=
  match p with
  | RRet _ | RFail => True
  | RCell _ k => forall l, okp n (k l)
  | RSet _ f k => (forall l, skel (f l) = skel l) /\
      (forall l m, n <= m -> Forall (fun o => o < m) (l_outputs l) -> Forall (fun o => o < m) (l_outputs (f l))) /\ okp n k
  | RHeap _ k => forall x, okp n (k x)
  | RSend _ _ _ k => forall e, okp n (k e)
  | RWarn _ k | RCfg _ k => okp n k
  | ROne _ k => forall m r, n <= m -> (forall g, r = ROuts g -> g_err g = false -> Forall (fun o => o < m) (g_ops g)) -> okp m (k r)
  end.
Lemma okp_mono p : forall n m, n <= m -> okp n p -> okp m p.
Proof.
  induction p as [r| |id k IH|id f p IH|o k IH|o stk e k IH|nm p IH|c p IH|o k IH]; intros n m Hnm H; cbn in *; eauto.
  - destruct H as (A & B & C). split; [assumption|]. split; [|eauto]. intros l q Hq. apply B. lia.
  - intros q r Hq. apply H. lia.
Qed.
Lemma p_level_ok n fuel : forall id k, (forall e, okp n (k e)) -> okp n (p_level fuel id k).
Proof.
  induction fuel as [|fuel IH]; intros id k H; cbn [p_level]; [apply H|]. intros l.
  destruct (l_level l =? Uninitialized)%Z; [|intros l'; apply H]. destruct (l_parent l); [now apply IH|apply H].
Qed.
Lemma p_dispatch_ok n stk ops : forall e, okp n (p_dispatch stk ops e).
Proof. induction ops as [|o ops IH]; intros e; cbn; auto. Qed.
Lemma p_emit_ok P n id stk e : okp n (p_emit P id stk e).
Proof.
  unfold p_emit, p_capture. cbn. intros l. destruct (l_flag l =? 2)%Z.
  - destruct (getCallerInfo _ _ _ _); cbn; auto. intros. apply p_dispatch_ok.
  - cbn. intros l'. destruct (l_flag l' =? 1)%Z.
    + destruct (getCallerInfo _ _ _ _); cbn; auto. intros. apply p_dispatch_ok.
    + cbn. intros. apply p_dispatch_ok.
Qed.
Lemma p_write_ok P n fuel : forall id c name skip lvl fmt args now stk, okp n (p_write P fuel id c name skip lvl fmt args now stk).
Proof.
  induction fuel as [|fuel IH]; intros id c name skip lvl fmt args now stk; cbn [p_write]; [exact I|].
  apply p_level_ok. intros e. destruct (negb _); [exact I|]. cbn [okp]. intros l.
  destruct (l_outputs l); [destruct (l_parent l); [apply IH|apply p_emit_ok]|apply p_emit_ok].
Qed.
Lemma p_flags_ok n id ops : forall k, okp n k -> okp n (p_flags id ops k).
Proof.
  induction ops as [|o ops IH]; intros k H; cbn; [assumption|]. intros l x. destruct (_ <? _)%Z; [|auto].
  cbn. auto 6.
Qed.
Lemma p_SetOutputs_ok n id ops k : Forall (fun o => o < n) ops -> okp n k -> okp n (p_SetOutputs id ops k).
Proof.
  intros Ho H. cbn. split; [reflexivity|]. split; [|now apply p_flags_ok].
  intros l m Hm _. eapply Forall_lt_mono; eassumption.
Qed.
Lemma p_notify_ok ord : forall n k, (forall m, n <= m -> okp m k) -> okp n (p_notify ord k).
Proof.
  induction ord as [|id ord IH]; intros n k H; cbn [p_notify]; [now apply H|]. cbn [okp]. intros l m r Hm Hr.
  destruct r as [| | |g|]; try exact I. destruct (g_err g) eqn:Eg.
  - apply IH. intros q Hq. apply H. lia.
  - cbn [okp]. split; [reflexivity|]. split; [auto|]. apply p_SetOutputs_ok; [now apply Hr|].
    apply IH. intros q Hq. apply H. lia.
Qed.
Lemma p_setConfig_ok n c ord : okp n (p_setConfig c ord).
Proof. unfold p_setConfig. destruct (validateConfig c); cbn; auto. apply p_notify_ok. cbn; auto. Qed.
Lemma p_op_ok P W o : held W o -> okp (length (w_heap W)) (p_op P o).
Proof.
  intros H. destruct o; cbn [p_op]; try (cbn; auto; fail).
  - cbn [okp]. intros l. apply p_SetOutputs_ok; [exact H|exact I].
  - unfold p_Printf. cbn [okp]. intros l. apply p_write_ok.
  - apply p_setConfig_ok.
  - apply p_setConfig_ok.
  - destruct (p_read P file); [|exact I]. destruct (path_Ext file); [exact I|]. apply p_setConfig_ok.
Qed.

Lemma exec_outs P W o W' g : inv W -> exec P W o = Ok (W', ROuts g) -> g_err g = false ->
  Forall (fun i => i < length (w_heap W')) (g_ops g).
Proof.
  intros I0 H Hg. destruct o; cbn [exec] in H.
  all: try discriminate.
  all: try (destruct (nth_error _ _); discriminate).
  - destruct (GetLogger _ _ _) as [[? ?]|]; discriminate.
  - destruct (nth_error _ _); [|discriminate]. destruct (SetOutputs _ _ _); discriminate.
  - destruct (Printf _ _ _ _ _ _ _ _ _ _); discriminate.
  - unfold GetLoggerOutputs in H. destruct (GetCfgLogger _ _) as [lc|]; cbn [bind] in H; [|injection H as <- <-; discriminate].
    destruct (glo_loop _ _ _ _) as [[W1 g1]|] eqn:E; [|discriminate]. injection H as <- <-.
    destruct (glo_loop_grow _ _ _ _ _ _ (iv_valid _ I0) E) as [G K]. destruct (K Hg) as (os & -> & _ & F). cbn [app].
    pose proof (grow_valid _ _ G (iv_valid _ I0)) as V. clear - F V. induction F as [|n o ns os Hn F IH]; constructor; [|assumption].
    exact (V _ _ Hn).
  - destruct (setConfig _ _ _ _) as [[? ?]|]; discriminate.
  - destruct (LoadConfig _ _ _ _ _) as [[? ?]|]; discriminate.
  - destruct (LoadConfigFile _ _ _ _) as [[? ?]|]; discriminate.
Qed.

(** ** Every step keeps the invariant *)
Lemma inv_store W id f : inv W -> (forall l, skel (f l) = skel l) ->
  (forall l, Forall (fun o => o < length (w_heap W)) (l_outputs l) -> Forall (fun o => o < length (w_heap W)) (l_outputs (f l))) ->
  inv (set_loggers W (upd id f (w_loggers W))).
Proof. intros I0 Hs Ho. apply inv_upd; auto. Qed.
Lemma ract_inv P W p W' p' d : inv W -> okp (length (w_heap W)) p -> ract P W p = Some (W', p', d) ->
  inv W' /\ later W W' /\ okp (length (w_heap W')) p'.
Proof.
  intros I0 K H. destruct p as [r| |id k|id f p|o k|o stk e k|nm p|c p|o k]; cbn [ract] in H; try discriminate.
  - injection H as <- <- <-. split; [assumption|]. split; [apply later_refl|]. destruct (nth_error _ _); [apply K|exact Logic.I].
  - destruct (nth_error _ _) as [l|]; injection H as <- <- <-.
    + cbn [okp] in K. destruct K as (A & B & C). split; [apply inv_store; auto|]. split; [now apply upd_later|exact C].
    + split; [assumption|]. split; [apply later_refl|exact Logic.I].
  - injection H as <- <- <-. split; [assumption|]. split; [apply later_refl|]. destruct (nth_error _ _); [apply K|exact Logic.I].
  - destruct (nth_error (w_heap W) o) as [x|] eqn:Ex; [|injection H as <- <- <-; split; [assumption|]; split; [apply later_refl|exact Logic.I]].
    destruct (out_Send _ _ _ _) as [[x' e']|] eqn:Es; injection H as <- <- <-.
    + assert (S : sends W (set_sent (set_heap W (upd o (fun _ => x') (w_heap W))) (w_sent W ++ [(o, (stk, e))]))).
      { apply (dispatch_sends (p_env P) stk [o] W e). cbn [dispatch]. rewrite Ex, Es. reflexivity. }
      split; [eapply sends_inv; eassumption|]. split; [now apply sends_later|].
      eapply okp_mono; [|apply K]. exact (lt_heap _ _ (sends_later _ _ S)).
    + split; [assumption|]. split; [apply later_refl|exact Logic.I].
  - injection H as <- <- <-. split; [constructor; apply I0|]. split; [constructor; cbn; eauto|exact K].
  - injection H as <- <- <-. split; [now apply set_config_inv|]. split; [constructor; cbn; eauto|exact K].
  - destruct (exec P W o) as [[W1 r]|] eqn:E; injection H as <- <- <-.
    + destruct (exec_inv _ _ _ _ _ E I0) as [I1 L]. split; [assumption|]. split; [assumption|]. cbn [okp] in K. apply K.
      * exact (lt_heap _ _ L).
      * intros g Hr Hg. rewrite Hr in E. exact (exec_outs _ _ _ _ _ I0 E Hg).
    + split; [assumption|]. split; [apply later_refl|exact Logic.I].
Qed.
Definition sane (s : rstate) : Prop :=
  inv (r_w s) /\ forall i p, nth_error (r_threads s) i = Some (Some p) -> okp (length (w_heap (r_w s))) p.
Lemma upd_nth {A} (f : A -> A) : forall l i j, nth_error (upd i f l) j =
  if Nat.eqb i j then option_map f (nth_error l j) else nth_error l j.
Proof.
  induction l as [|x l IH]; intros [|i] [|j]; cbn; try reflexivity; try (destruct (Nat.eqb _ _); reflexivity). apply IH.
Qed.
Lemma go_nth s W i x j y : nth_error (r_threads (go s W i x)) j = Some y ->
  (j = i /\ y = x) \/ (j <> i /\ nth_error (r_threads s) j = Some y).
Proof.
  unfold go. cbn. rewrite upd_nth. destruct (Nat.eqb_spec i j) as [->|N]; [|auto].
  destruct (nth_error (r_threads s) j); cbn; [|discriminate]. intros [= <-]. auto.
Qed.
Lemma go_self s W i x y : nth_error (r_threads s) i = Some y -> nth_error (r_threads (go s W i x)) i = Some x.
Proof. intros H. unfold go. cbn. rewrite upd_nth, Nat.eqb_refl, H. reflexivity. Qed.
Lemma go_other s W i x j : j <> i -> nth_error (r_threads (go s W i x)) j = nth_error (r_threads s) j.
Proof. intros H. unfold go. cbn. rewrite upd_nth. destruct (Nat.eqb_spec i j); congruence. Qed.
Lemma rstep_sane P s i a s' : sane s -> rstep P s i a s' -> sane s' /\ later (r_w s) (r_w s').
Proof.
  intros [I0 K] H. destruct H as [s i o Hi Hh|s i p W p' Hi Ha|s i p W p' d Hi Ha|s i r Hi|s i Hi].
  - split; [|apply later_refl]. split; [exact I0|]. intros j q Hj. cbn [r_w go].
    apply go_nth in Hj as [[-> Hq]|[_ Hj]]; [|eauto]. injection Hq as ->. now apply p_op_ok.
  - destruct (ract_inv _ _ _ _ _ _ I0 (K _ _ Hi) Ha) as (I1 & L & K1). split; [|exact L]. split; [exact I1|].
    intros j q Hj. apply go_nth in Hj as [[-> Hq]|[_ Hj]]; [injection Hq as ->; exact K1|].
    eapply okp_mono; [exact (lt_heap _ _ L)|eauto].
  - destruct (ract_inv _ _ _ _ _ _ I0 (K _ _ Hi) Ha) as (I1 & L & K1). split; [|exact L]. split; [exact I1|].
    intros j q Hj. apply go_nth in Hj as [[-> Hq]|[_ Hj]]; [injection Hq as ->; exact K1|].
    eapply okp_mono; [exact (lt_heap _ _ L)|eauto].
  - split; [|apply later_refl]. split; [exact I0|]. intros j q Hj. apply go_nth in Hj as [[-> Hq]|[_ Hj]]; [discriminate|].
    exact (K _ _ Hj).
  - split; [|apply later_refl]. split; [exact I0|]. intros j q Hj. apply go_nth in Hj as [[-> Hq]|[_ Hj]]; [discriminate|].
    exact (K _ _ Hj).
Qed.
Lemma rexec_sane P s tr s' : rexec P s tr s' -> sane s -> sane s'.
Proof. induction 1 as [|s i a s1 tr s2 H R IH]; intros S; [assumption|]. apply IH. eapply rstep_sane; eassumption. Qed.
Lemma r_reach_sane P s : r_reach P s -> sane s.
Proof.
  intros (W & n & tr & R & E). eapply rexec_sane; [eassumption|]. split; [exact (reach_inv _ _ R)|].
  intros i p Hi. exfalso. cbn in Hi. apply nth_error_In, repeat_spec in Hi. discriminate.
Qed.

(** ** One call and what goes on beside it *)
Definition olist {A} (d : option A) : list A := match d with Some x => [x] | None => [] end.
Inductive al (P : params) : world -> rprog -> list world -> list delivery -> world -> rprog -> Prop :=
| al_nil W p : al P W p [W] [] W p
| al_own W p W1 p1 d ms ss W' p' : ract P W p = Some (W1, p1, d) -> later W W1 -> inv W1 -> al P W1 p1 ms ss W' p' ->
    al P W p (W :: ms) (olist d ++ ss) W' p'
| al_env W p W1 ms ss W' p' : later W W1 -> inv W1 -> al P W1 p ms ss W' p' -> al P W p (W :: ms) ss W' p'.
Lemma al_of P i s tr s' : rexec P s tr s' -> sane s -> busy i tr -> forall p, nth_error (r_threads s) i = Some (Some p) ->
  exists p', nth_error (r_threads s') i = Some (Some p') /\ al P (r_w s) p (moments (r_w s) tr) (sent_by i tr) (r_w s') p'.
Proof.
  induction 1 as [s|s j a s1 tr s2 H R IH]; intros S B p Hp; [exists p; split; [assumption|constructor]|].
  destruct (rstep_sane _ _ _ _ _ S H) as [S1 L].
  assert (B1 : busy i tr) by (intros x W Hx; apply (B x W); now right).
  destruct (Nat.eq_dec j i) as [->|N].
  - assert (Ba := B a (r_w s1) (or_introl eq_refl)). cbn [moments map snd].
    destruct H as [s i o Hi Hh|s i q W q' Hi Ha|s i q W q' d Hi Ha|s i r Hi|s i Hi];
      try (destruct Ba as [Ba|[? Ba]]; discriminate).
    + assert (q = p) by congruence. subst q. destruct (IH S1 B1 q' ltac:(eapply go_self; eassumption)) as (p' & Hp' & A).
      exists p'. split; [assumption|]. cbn [sent_by]. refine (al_own _ _ _ _ _ None _ _ _ _ Ha L (proj1 S1) A).
    + assert (q = p) by congruence. subst q. destruct (IH S1 B1 q' ltac:(eapply go_self; eassumption)) as (p' & Hp' & A).
      exists p'. split; [assumption|]. cbn [sent_by]. rewrite Nat.eqb_refl.
      refine (al_own _ _ _ _ _ (Some d) _ _ _ _ Ha L (proj1 S1) A).
  - assert (Hp1 : nth_error (r_threads s1) i = Some (Some p)) by (destruct H; rewrite go_other; auto).
    destruct (IH S1 B1 p Hp1) as (p' & Hp' & A). exists p'. split; [assumption|]. cbn [moments map snd].
    replace (sent_by i ((j, a, r_w s1) :: tr)) with (sent_by i tr).
    + eapply al_env; [exact L|apply S1|exact A].
    + cbn [sent_by]. destruct a; try reflexivity. destruct (Nat.eqb_spec j i); congruence.
Qed.

Definition unreturned (p : rprog) : Prop := forall r, p <> RRet r.
Lemma al_here P W p ms ss W' p' : al P W p ms ss W' p' -> In W ms.
Proof. destruct 1; now left. Qed.
Lemma al_over P W p ms ss W' p' : al P W p ms ss W' p' -> ract P W p = None -> (forall X, ract P X p = None) -> ss = [] /\ p' = p.
Proof.
  induction 1 as [W p|W p W1 p1 d ms ss W' p' Ha L I1 A IH|W p W1 ms ss W' p' L I1 A IH]; intros H0 H; [auto|congruence|auto].
Qed.
Lemma al_ret P W r ms ss W' p' : al P W (RRet r) ms ss W' p' -> ss = [] /\ p' = RRet r.
Proof. intros A. eapply al_over; [exact A|reflexivity|reflexivity]. Qed.
Lemma al_fail P W ms ss W' p' : al P W RFail ms ss W' p' -> ss = [] /\ p' = RFail.
Proof. intros A. eapply al_over; [exact A|reflexivity|reflexivity]. Qed.
(** Where a call goes on after a step. *)
Definition on (W W1 : world) (ms ms1 : list world) : Prop := In W1 ms /\ incl ms1 ms /\ inv W1 /\ later W W1.
Lemma on_self W ms ms1 : In W ms -> incl ms1 ms -> inv W -> on W W ms ms1.
Proof. intros A B C. split; [assumption|]. split; [assumption|]. split; [assumption|apply later_refl]. Qed.
Lemma on_trans W W1 W2 ms ms1 ms2 : on W W1 ms ms1 -> on W1 W2 ms1 ms2 -> on W W2 ms ms2.
Proof.
  intros (A & B & C & D) (A2 & B2 & C2 & D2). split; [auto|]. split; [eapply incl_tran; eassumption|]. split; [assumption|].
  eapply later_trans; eassumption.
Qed.
Lemma on_tail W W0 W1 ms ms1 : later W0 W -> on W W1 ms ms1 -> on W0 W1 (W0 :: ms) ms1.
Proof.
  intros L (A & B & C & D). split; [now right|]. split; [now apply incl_tl|]. split; [assumption|eapply later_trans; eassumption].
Qed.
Definition known (W : world) (id : nat) : Prop := exists l, nth_error (w_loggers W) id = Some l.
Lemma known_later W W1 id : later W W1 -> known W id -> known W1 id.
Proof.
  intros L [l Hl]. pose proof (lt_sk _ _ L id _ (nth_skels _ _ _ Hl)) as H. apply nth_skels_inv in H as (l1 & H & _). now exists l1.
Qed.
Lemma known_same W W1 id l l1 : later W W1 -> nth_error (w_loggers W) id = Some l -> nth_error (w_loggers W1) id = Some l1 ->
  l_name l1 = l_name l /\ l_parent l1 = l_parent l.
Proof.
  intros L Hl H1. pose proof (lt_sk _ _ L id _ (nth_skels _ _ _ Hl)) as H. apply nth_skels_inv in H as (l2 & H & A & B).
  assert (l2 = l1) by congruence. subst. auto.
Qed.
Lemma known_parent W id l p : inv W -> nth_error (w_loggers W) id = Some l -> l_parent l = Some p -> p < id /\ known W p.
Proof.
  intros I0 Hl Hp. pose proof (nth_skels _ _ _ Hl) as Hs. rewrite Hp in Hs.
  destruct (si_parent _ _ _ (iv_sk _ I0) _ _ _ Hs) as (Hlt & pn & pp & H1 & H2). split; [assumption|].
  apply nth_skels_inv in H1 as (pl & H1 & _ & _). now exists pl.
Qed.
Lemma al_cell P W id k ms ss W' p' : al P W (RCell id k) ms ss W' p' -> inv W -> known W id ->
  (ss = [] /\ unreturned p') \/
  exists W1 l ms1, on W W1 ms ms1 /\ nth_error (w_loggers W1) id = Some l /\ al P W1 (k l) ms1 ss W' p'.
Proof.
  remember (RCell id k) as p eqn:Ep. intros A. revert Ep.
  induction A as [W p|W p W1 p1 d ms ss W' p' Ha L I1 A IH|W p W1 ms ss W' p' L I1 A IH]; intros -> I0 [l Hl].
  - left. split; [reflexivity|]. intros r. discriminate.
  - cbn [ract] in Ha. rewrite Hl in Ha. injection Ha as <- <- <-. right. exists W, l, ms.
    split; [|auto]. apply on_self; [now left|apply incl_tl, incl_refl|assumption].
  - destruct (IH eq_refl I1 (known_later _ _ _ L (ex_intro _ l Hl))) as [H|(W2 & l2 & ms2 & O & H2 & A2)]; [now left|].
    right. exists W2, l2, ms2. split; [eapply on_tail; eassumption|auto].
Qed.
Lemma al_warn P W name k ms ss W' p' : al P W (RWarn name k) ms ss W' p' -> inv W ->
  (ss = [] /\ unreturned p') \/ exists W1 ms1, on W W1 ms ms1 /\ al P W1 k ms1 ss W' p'.
Proof.
  remember (RWarn name k) as p eqn:Ep. intros A. revert Ep.
  induction A as [W p|W p W1 p1 d ms ss W' p' Ha L I1 A IH|W p W1 ms ss W' p' L I1 A IH]; intros -> I0.
  - left. split; [reflexivity|]. intros r. discriminate.
  - cbn [ract] in Ha. injection Ha as <- <- <-. right. eexists _, ms. split; [|exact A].
    split; [right; eapply al_here; eassumption|]. split; [apply incl_tl, incl_refl|auto].
  - destruct (IH eq_refl I1) as [H|(W2 & ms2 & O & A2)]; [now left|].
    right. exists W2, ms2. split; [eapply on_tail; eassumption|auto].
Qed.
Lemma found_level_incl ms ms' id e : incl ms ms' -> found_level ms id e -> found_level ms' id e.
Proof. 
  intros H F. induction F as [W1 W2 id l1 l2 A B C D N|W1 id l p v A B C D F IH|W1 id l A B C D].
  - apply (fd_own ms' W1 W2 id l1 l2); auto.
  - apply (fd_up ms' W1 id l p v); auto.
  - apply (fd_none ms' W1 id l); auto.
Qed.
Lemma al_level P k W' p' fuel : forall id W ms ss, al P W (p_level fuel id k) ms ss W' p' -> inv W -> id < fuel -> known W id ->
  (ss = [] /\ unreturned p') \/
  exists e W1 ms1, on W W1 ms ms1 /\ found_level ms id e /\ al P W1 (k e) ms1 ss W' p'.
Proof.
  induction fuel as [|fuel IH]; intros id W ms ss A I0 Hf Hk; [lia|]. cbn [p_level] in A.
  destruct (al_cell _ _ _ _ _ _ _ _ A I0 Hk) as [H|(W1 & l & ms1 & O & Hl & A1)]; [now left|]. cbv beta in A1.
  pose proof O as (O1 & O2 & O3 & O4).
  destruct (Z.eqb_spec (l_level l) Uninitialized) as [E|E].
  - destruct (l_parent l) as [p|] eqn:Ep.
    + destruct (known_parent _ _ _ _ O3 Hl Ep) as [Hp Hk1].
      destruct (IH p W1 ms1 ss A1 O3 ltac:(lia) Hk1) as [H|(e & W2 & ms2 & O' & F & A2)]; [now left|].
      right. exists e, W2, ms2. split; [eapply on_trans; eassumption|]. split; [|assumption].
      eapply fd_up; [exact O1|exact Hl|exact E|exact Ep|eapply found_level_incl; eassumption].
    + right. exists Off, W1, ms1. split; [assumption|]. split; [|assumption]. eapply fd_none; eassumption.
  - destruct (al_cell _ _ _ _ _ _ _ _ A1 O3 (ex_intro _ l Hl)) as [H|(W2 & l2 & ms2 & O' & Hl2 & A2)]; [now left|].
    right. exists (l_level l2), W2, ms2. split; [eapply on_trans; eassumption|]. split; [|assumption].
    eapply fd_own; [exact O1|exact (O2 _ (proj1 O'))|exact Hl|exact Hl2|exact E].
Qed.
(** Events handed over one after the other. *)
Definition handed (ops : list nat) (stk : stack) (e : event) (ss : list delivery) (p' : rprog) : Prop :=
  exists evs rest, ops = map fst ss ++ rest /\ ss = combine (map fst ss) (map (pair stk) evs) /\ Forall (kept e) evs /\
    (forall r, p' = RRet r -> r = RUnit /\ rest = []).
Lemma handed_nil ops stk e p' : unreturned p' -> handed ops stk e [] p'.
Proof. intros H. exists [], ops. split; [reflexivity|]. split; [reflexivity|]. split; [constructor|]. intros r E. now apply H in E. Qed.
Lemma al_send P W o stk e k ms ss W' p' : al P W (RSend o stk e k) ms ss W' p' -> inv W ->
  (ss = [] /\ unreturned p') \/
  exists W1 e' ms1 ss1, on W W1 ms ms1 /\ ss = (o, (stk, e)) :: ss1 /\ kept e e' /\ al P W1 (k e') ms1 ss1 W' p'.
Proof.
  remember (RSend o stk e k) as p eqn:Ep. intros A. revert Ep.
  induction A as [W p|W p W1 p1 d ms ss W' p' Ha L I1 A IH|W p W1 ms ss W' p' L I1 A IH]; intros -> I0.
  - left. split; [reflexivity|]. intros r. discriminate.
  - cbn [ract] in Ha. destruct (nth_error (w_heap W) o) as [x|].
    + destruct (out_Send _ _ _ _) as [[x' e']|] eqn:Es.
      * injection Ha as <- <- <-. right. eexists _, e', ms, ss. split; [|split; [reflexivity|split; [eapply out_Send_kept; eassumption|exact A]]].
        split; [right; eapply al_here; eassumption|]. split; [apply incl_tl, incl_refl|auto].
      * injection Ha as <- <- <-. apply al_fail in A as [-> ->]. left. split; [reflexivity|]. intros r. discriminate.
    + injection Ha as <- <- <-. apply al_fail in A as [-> ->]. left. split; [reflexivity|]. intros r. discriminate.
  - destruct (IH eq_refl I1) as [H|(W2 & e' & ms2 & ss2 & O & H)]; [now left|].
    right. exists W2, e', ms2, ss2. split; [eapply on_tail; eassumption|auto].
Qed.
Lemma al_dispatch P stk W' p' ops : forall W e ms ss, al P W (p_dispatch stk ops e) ms ss W' p' -> inv W -> handed ops stk e ss p'.
Proof.
  induction ops as [|o ops IH]; intros W e ms ss A I0; cbn [p_dispatch] in A.
  - apply al_ret in A as [-> ->]. exists [], []. split; [reflexivity|]. split; [reflexivity|]. split; [constructor|]. intros r [= <-]. auto.
  - destruct (al_send _ _ _ _ _ _ _ _ _ _ A I0) as [[-> H]|(W1 & e' & ms1 & ss1 & O & -> & K & A1)]; [now apply handed_nil|].
    destruct O as (_ & _ & O3 & _). cbv beta in A1. destruct (IH _ _ _ _ A1 O3) as (evs & rest & E1 & E2 & F & R).
    exists (e :: evs), rest. cbn [map fst app combine]. split; [now rewrite E1|].
    split; [now rewrite <- E2|]. split; [|exact R].
    constructor; [apply kept_refl|]. eapply Forall_impl; [|exact F]. intros a Ha. eapply kept_trans; eassumption.
Qed.
Lemma al_capture P id stk e k W ms ss W' p' : al P W (p_capture P id stk e k) ms ss W' p' -> inv W -> known W id ->
  (ss = [] /\ unreturned p') \/
  exists e' W1 ms1, on W W1 ms ms1 /\ kept e e' /\ al P W1 (k e') ms1 ss W' p'.
Proof.
  intros A I0 Hk. unfold p_capture in A.
  destruct (al_cell _ _ _ _ _ _ _ _ A I0 Hk) as [H|(W1 & l & ms1 & O & Hl & A1)]; [now left|]. cbv beta in A1.
  destruct (l_flag l =? 2)%Z.
  - destruct (getCallerInfo (p_env P) stk e true) as [[ci e']|] eqn:E; [|apply al_fail in A1 as [-> ->]; left; split; [reflexivity|intros r; discriminate]].
    right. exists e', W1, ms1. split; [assumption|]. split; [eapply getCallerInfo_kept; eassumption|exact A1].
  - destruct (al_cell _ _ _ _ _ _ _ _ A1 ltac:(apply O) (ex_intro _ l Hl)) as [H|(W2 & l2 & ms2 & O' & Hl2 & A2)]; [now left|]. cbv beta in A2.
    pose proof (on_trans _ _ _ _ _ _ O O') as O2. destruct (l_flag l2 =? 1)%Z.
    + destruct (getCallerInfo (p_env P) stk e false) as [[ci e']|] eqn:E; [|apply al_fail in A2 as [-> ->]; left; split; [reflexivity|intros r; discriminate]].
      right. exists e', W2, ms2. split; [assumption|]. split; [eapply getCallerInfo_kept; eassumption|exact A2].
    + right. exists e, W2, ms2. split; [assumption|]. split; [apply kept_refl|exact A2].
Qed.
Lemma al_emit P id stk e W ms ss W' p' : al P W (p_emit P id stk e) ms ss W' p' -> inv W -> known W id ->
  (ss = [] /\ unreturned p') \/
  exists ops, had_outputs ms id ops /\ handed ops (p_fsend P ++ stk) e ss p'.
Proof.
  intros A I0 Hk. unfold p_emit in A.
  destruct (al_capture _ _ _ _ _ _ _ _ _ _ A I0 Hk) as [H|(e' & W1 & ms1 & O & K & A1)]; [now left|]. cbv beta in A1.
  pose proof O as (O1 & O2 & O3 & O4).
  destruct (al_cell _ _ _ _ _ _ _ _ A1 O3 (known_later _ _ _ O4 Hk)) as [H|(W2 & l2 & ms2 & O' & Hl2 & A2)]; [now left|]. cbv beta in A2.
  right. exists (l_outputs l2). split.
  - exists W2, l2. split; [exact (O2 _ (proj1 O'))|auto].
  - apply al_dispatch in A2; [|apply O']. destruct A2 as (evs & rest & E1 & E2 & F & R). exists evs, rest.
    split; [exact E1|]. split; [exact E2|]. split; [|exact R]. eapply Forall_impl; [|exact F]. intros a Ha. eapply kept_trans; eassumption.
Qed.
(** A call that found its level disabled at some logger on the way. *)
Inductive found_block (ms : list world) (v : Z) : nat -> Prop :=
| fb_here id e : found_level ms id e -> (v < e)%Z -> found_block ms v id
| fb_up W1 id l p e : found_level ms id e -> (e <= v)%Z -> In W1 ms -> nth_error (w_loggers W1) id = Some l ->
    l_outputs l = [] -> l_parent l = Some p -> found_block ms v p -> found_block ms v id.
(** ... and one that stopped at a logger with outputs, or at root. *)
Definition stop_at (ms : list world) (x : nat) : Prop :=
  exists W l, In W ms /\ nth_error (w_loggers W) x = Some l /\ (l_outputs l <> [] \/ l_parent l = None).
Definition plain_event (fmt : str) (args : list value) (name : str) (lvl : level) (now : Z) (e : event) : Prop :=
  ev_format e = fmt /\ ev_args e = args /\ ev_name e = name /\ ev_level e = lvl /\ ev_time e = now.
Definition outcome (ms : list world) (lvl : level) (fmt : str) (args : list value) (name : str) (now : Z)
  (id : nat) (ss : list delivery) (p' : rprog) : Prop :=
  (ss = [] /\ unreturned p') \/
  (ss = [] /\ p' = RRet RUnit /\ found_block ms lvl id) \/
  exists x ops stk e, found_way ms lvl id x /\ stop_at ms x /\ had_outputs ms x ops /\
    plain_event fmt args name lvl now e /\ handed ops stk e ss p'.
Lemma found_block_incl ms ms' v id : incl ms ms' -> found_block ms v id -> found_block ms' v id.
Proof. 
  intros H F. induction F as [id e A B|W1 id l p e A B C D E G F IH].
  - apply (fb_here ms' v id e); eauto using found_level_incl.
  - apply (fb_up ms' v W1 id l p e); eauto using found_level_incl.
Qed.
Lemma found_way_incl ms ms' v id x : incl ms ms' -> found_way ms v id x -> found_way ms' v id x.
Proof. 
  intros H F. induction F as [id e A B|W1 id l p e x A B C D E G F IH].
  - apply (fw_here ms' v id e); eauto using found_level_incl.
  - apply (fw_up ms' v W1 id l p e x); eauto using found_level_incl.
Qed.
Lemma stop_at_incl ms ms' x : incl ms ms' -> stop_at ms x -> stop_at ms' x.
Proof. intros H (W & l & A & B). exists W, l. auto. Qed.
Lemma had_outputs_incl ms ms' x ops : incl ms ms' -> had_outputs ms x ops -> had_outputs ms' x ops.
Proof. intros H (W & l & A & B). exists W, l. auto. Qed.
Lemma al_write P lvl fmt args name now W' p' fuel : forall id W ms ss c skip stk,
  al P W (p_write P fuel id c name skip lvl fmt args now stk) ms ss W' p' -> inv W -> id < fuel -> known W id ->
  outcome ms lvl fmt args name now id ss p'.
Proof.
  induction fuel as [|fuel IH]; intros id W ms ss c skip stk A I0 Hf Hk; [lia|]. cbn [p_write] in A.
  destruct (al_level _ _ _ _ _ _ _ _ _ A I0 ltac:(lia) Hk) as [H|(e & W1 & ms1 & O & F & A1)]; [now left|]. clear A. cbv beta in A1.
  pose proof O as (O1 & O2 & O3 & O4).
  destruct (Z.leb_spec e lvl) as [He|He]; cbn [negb] in A1.
  2:{ apply al_ret in A1 as [-> ->]. right; left. split; [reflexivity|]. split; [reflexivity|]. eapply fb_here; eassumption. }
  destruct (al_cell _ _ _ _ _ _ _ _ A1 O3 (known_later _ _ _ O4 Hk)) as [H|(W2 & l & ms2 & O' & Hl & A2)]; [now left|]. clear A1. cbv beta in A2.
  pose proof (on_trans _ _ _ _ _ _ O O') as (Q1 & Q2 & Q3 & Q4).
  assert (Emit : forall Wx msx, al P Wx (p_emit P id (p_fwrite P :: stk) (mkEvent fmt args name lvl now skip c)) msx ss W' p' ->
     inv Wx -> known Wx id -> incl msx ms -> (l_outputs l <> [] \/ l_parent l = None) -> outcome ms lvl fmt args name now id ss p').
  { intros Wx msx Ax Ix Kx Sx Hstop. destruct (al_emit _ _ _ _ _ _ _ _ _ Ax Ix Kx) as [H|(ops & Ho & Hh)]; [now left|].
    right; right. exists id, ops. do 2 eexists. split; [eapply fw_here; eassumption|]. split; [exists W2, l; auto|].
    split; [eapply had_outputs_incl; eassumption|]. split; [|exact Hh]. repeat split. }
  destruct (l_outputs l) as [|o os] eqn:Eo.
  - destruct (l_parent l) as [p|] eqn:Ep.
    + destruct (known_parent _ _ _ _ Q3 Hl Ep) as [Hp Hkp].
      destruct (IH _ _ _ _ _ _ _ A2 Q3 ltac:(lia) Hkp) as [H|[(-> & -> & B)|(x & ops & stk' & e' & B1 & B2 & B3 & B4)]]; [now left| |].
      * right; left. split; [reflexivity|]. split; [reflexivity|]. eapply fb_up; [exact F|exact He|exact Q1|exact Hl|exact Eo|exact Ep|].
        eapply found_block_incl; eassumption.
      * right; right. exists x, ops, stk', e'. split.
        -- eapply fw_up; [exact F|exact He|exact Q1|exact Hl|exact Eo|exact Ep|]. eapply found_way_incl; eassumption.
        -- split; [eapply stop_at_incl; eassumption|]. split; [eapply had_outputs_incl; eassumption|assumption].
    + (* the warning *)
      destruct (al_warn _ _ _ _ _ _ _ _ A2 Q3) as [H|(W3 & ms3 & (R1 & R2 & R3 & R4) & A3)]; [now left|].
      eapply Emit; [exact A3|exact R3|eapply known_later; [exact R4|exists l; exact Hl]|eapply incl_tran; eassumption|now right].
  - assert (A3 : al P W2 (p_emit P id (p_fwrite P :: stk) (mkEvent fmt args name lvl now skip c)) ms2 ss W' p')
      by (destruct (l_parent l); exact A2).
    eapply Emit; [exact A3|exact Q3|exists l; exact Hl|exact Q2|left; discriminate].
Qed.
Lemma al_Printf P W id l c v lvl fmt args now ustk ms ss W' p' : al P W (p_op P (OLog id c v lvl fmt args now ustk)) ms ss W' p' ->
  inv W -> nth_error (w_loggers W) id = Some l -> outcome ms lvl fmt args (l_name l) now id ss p'.
Proof.
  intros A I0 Hl. cbn [p_op] in A. unfold p_Printf in A.
  destruct (al_cell _ _ _ _ _ _ _ _ A I0 (ex_intro _ l Hl)) as [H|(W1 & l1 & ms1 & O & Hl1 & A1)]; [now left|]. cbv beta in A1.
  pose proof O as (O1 & O2 & O3 & O4). destruct (known_same _ _ _ _ _ O4 Hl Hl1) as [En _]. rewrite En in A1.
  destruct (al_write _ _ _ _ _ _ _ _ _ _ _ _ _ _ _ _ A1 O3 ltac:(lia) (ex_intro _ l1 Hl1))
    as [H|[(-> & -> & B)|(x & ops & stk' & e' & B1 & B2 & B3 & B4)]]; [now left| |].
  - right; left. split; [reflexivity|]. split; [reflexivity|]. eapply found_block_incl; eassumption.
  - right; right. exists x, ops, stk', e'. split; [eapply found_way_incl; eassumption|].
    split; [eapply stop_at_incl; eassumption|]. split; [eapply had_outputs_incl; eassumption|assumption].
Qed.

(** ** Moments *)
Lemma al_moments P W p ms ss W' p' : al P W p ms ss W' p' -> inv W -> forall X, In X ms -> inv X /\ later W X.
Proof.
  induction 1 as [W p|W p W1 p1 d ms ss W' p' Ha L I1 A IH|W p W1 ms ss W' p' L I1 A IH]; intros I0 X [<-|HX];
    try (split; [assumption|apply later_refl]); try (now destruct HX);
    destruct (IH I1 X HX); split; auto; eapply later_trans; eassumption.
Qed.
(** All these worlds have the same loggers as far as names and parents go. *)
Definition aligned (W : world) (ms : list world) : Prop := inv W /\ forall X, In X ms -> inv X /\ later W X.
Lemma aligned_at W ms X id l : aligned W ms -> In X ms -> nth_error (w_loggers X) id = Some l -> known W id ->
  exists l0, nth_error (w_loggers W) id = Some l0 /\ l_name l = l_name l0 /\ l_parent l = l_parent l0.
Proof.
  intros [_ H] HX Hl [l0 H0]. destruct (H X HX) as [_ L]. exists l0. split; [assumption|]. exact (known_same _ _ _ _ _ L H0 Hl).
Qed.
Lemma aligned_up W ms X id k x : aligned W ms -> In X ms -> up W id k x -> up X id k x.
Proof.
  intros [_ H] HX U. destruct (H X HX) as [_ L]. induction U as [id|id l p k x Hl Hp U IH]; [constructor|].
  destruct (known_later _ _ _ L (ex_intro _ l Hl)) as [l' Hl']. destruct (known_same _ _ _ _ _ L Hl Hl') as [_ E].
  eapply up_S; [exact Hl'| |exact IH]; congruence.
Qed.
Lemma left_alone_parent W ms id l p : aligned W ms -> left_alone ms id -> nth_error (w_loggers W) id = Some l -> l_parent l = Some p ->
  left_alone ms p.
Proof.
  intros Al H Hl Hp X X' k x y y' HX HX' U. refine (H X X' (S k) x y y' HX HX' _).
  destruct Al as [_ Al]. destruct (Al X HX) as [_ L].
  destruct (known_later _ _ _ L (ex_intro _ l Hl)) as [l' Hl']. destruct (known_same _ _ _ _ _ L Hl Hl') as [_ E].
  eapply up_S; [exact Hl'| |exact U]; congruence.
Qed.
Lemma parent_names W id l p : inv W -> nth_error (w_loggers W) id = Some l -> l_parent l = Some p ->
  exists pl, nth_error (w_loggers W) p = Some pl /\ parent_name (l_name l) (l_name pl) /\ l_name l <> $"root".
Proof.
  intros I0 Hl Hp. pose proof (nth_skels _ _ _ Hl) as Hs. rewrite Hp in Hs.
  destruct (si_parent _ _ _ (iv_sk _ I0) _ _ _ Hs) as (Hlt & pn & pp & H1 & H2).
  apply nth_skels_inv in H1 as (pl & H1 & <- & _). exists pl. split; [assumption|]. split; [assumption|].
  intros Hr. apply (si_root _ _ _ (iv_sk _ I0) _ _ _ Hs) in Hr. discriminate.
Qed.
Lemma root_name W id l : inv W -> nth_error (w_loggers W) id = Some l -> l_parent l = None -> l_name l = $"root".
Proof. intros I0 Hl Hp. pose proof (nth_skels _ _ _ Hl) as Hs. apply (si_root _ _ _ (iv_sk _ I0) _ _ _ Hs). assumption. Qed.
Lemma found_level_alone W ms id e : aligned W ms -> In W ms -> found_level ms id e -> left_alone ms id ->
  forall l, nth_error (w_loggers W) id = Some l -> name_level W (l_name l) e.
Proof.
  intros Al HW F. induction F as [W1 W2 id l1 l2 A B C D N|W1 id l1 p v A B C D F IH|W1 id l1 A B C D]; intros La l Hl.
  - destruct (La W W1 0 id l l1 HW A (up_0 _ _) Hl C) as [E1 _]. destruct (La W W2 0 id l l2 HW B (up_0 _ _) Hl D) as [E2 _].
    rewrite E2. eapply nlv_own; [exact Hl|reflexivity|congruence].
  - destruct (La W W1 0 id l l1 HW A (up_0 _ _) Hl B) as [E1 _].
    destruct (aligned_at _ _ _ _ _ Al A B (ex_intro _ l Hl)) as (l0 & H0 & _ & Ep). assert (l0 = l) by congruence. subst l0.
    rewrite D in Ep. symmetry in Ep. destruct (parent_names W id l p (proj1 Al) Hl Ep) as (pl & Hpl & Hpn & Hr).
    eapply nlv_up; [exact Hl|reflexivity|congruence|exact Hr|exact Hpn|]. apply IH; [|exact Hpl]. eapply left_alone_parent; eassumption.
  - destruct (La W W1 0 id l l1 HW A (up_0 _ _) Hl B) as [E1 _].
    destruct (aligned_at _ _ _ _ _ Al A B (ex_intro _ l Hl)) as (l0 & H0 & _ & Ep). assert (l0 = l) by congruence. subst l0.
    rewrite D in Ep. symmetry in Ep. pose proof (root_name W id l (proj1 Al) Hl Ep) as Hr. rewrite Hr.
    eapply nlv_none; [exact Hl|exact Hr|congruence].
Qed.
Lemma found_block_alone W ms v id : aligned W ms -> In W ms -> found_block ms v id -> left_alone ms id ->
  forall l, nth_error (w_loggers W) id = Some l -> route W v (l_name l) [].
Proof.
  intros Al HW F. induction F as [id e A B|W1 id l1 p e A B C D E G F IH]; intros La l Hl;
    pose proof (found_level_alone _ _ _ _ Al HW A La l Hl) as HN.
  - eapply rt_blocked; eassumption.
  - destruct (La W W1 0 id l l1 HW C (up_0 _ _) Hl D) as [_ E1].
    destruct (aligned_at _ _ _ _ _ Al C D (ex_intro _ l Hl)) as (l0 & H0 & _ & Ep). assert (l0 = l) by congruence. subst l0.
    rewrite G in Ep. symmetry in Ep. destruct (parent_names W id l p (proj1 Al) Hl Ep) as (pl & Hpl & Hpn & Hr).
    eapply rt_up; [exact HN|exact B|exact Hl|reflexivity|congruence|exact Hr|exact Hpn|].
    apply IH; [|exact Hpl]. eapply left_alone_parent; eassumption.
Qed.
Lemma found_way_alone W ms v id x : aligned W ms -> In W ms -> found_way ms v id x -> left_alone ms id -> stop_at ms x ->
  forall l ops, nth_error (w_loggers W) id = Some l -> had_outputs ms x ops -> route W v (l_name l) ops.
Proof.
  intros Al HW F. induction F as [id e A B|W1 id l1 p e x A B C D E G F IH]; intros La St l ops Hl Ho;
    pose proof (found_level_alone _ _ _ _ Al HW A La l Hl) as HN.
  - destruct Ho as (X & lx & HX & Hlx & <-). destruct (La W X 0 id l lx HW HX (up_0 _ _) Hl Hlx) as [_ E1]. rewrite E1.
    destruct St as (Y & ly & HY & Hly & St). destruct (La W Y 0 id l ly HW HY (up_0 _ _) Hl Hly) as [_ E2].
    destruct (aligned_at _ _ _ _ _ Al HY Hly (ex_intro _ l Hl)) as (l0 & H0 & _ & Ep). assert (l0 = l) by congruence. subst l0.
    destruct (list_eq_dec Nat.eq_dec (l_outputs l) []) as [Z|Z].
    + rewrite Z. destruct St as [St|St]; [congruence|]. assert (Hn : l_parent l = None) by congruence.
      pose proof (root_name W id l (proj1 Al) Hl Hn) as Hr. rewrite Hr in *. eapply rt_none; eassumption.
    + eapply rt_here; [exact HN|exact B|exact Hl|reflexivity|exact Z].
  - destruct (La W W1 0 id l l1 HW C (up_0 _ _) Hl D) as [_ E1].
    destruct (aligned_at _ _ _ _ _ Al C D (ex_intro _ l Hl)) as (l0 & H0 & _ & Ep). assert (l0 = l) by congruence. subst l0.
    rewrite G in Ep. symmetry in Ep. destruct (parent_names W id l p (proj1 Al) Hl Ep) as (pl & Hpl & Hpn & Hr).
    eapply rt_up; [exact HN|exact B|exact Hl|reflexivity|congruence|exact Hr|exact Hpn|].
    apply IH; [eapply left_alone_parent; eassumption|exact St|exact Hpl|exact Ho].
Qed.
(** Open and served all along. *)
Lemma open_parent W ms v id l p : aligned W ms -> open_all_along ms v id -> nth_error (w_loggers W) id = Some l -> l_parent l = Some p ->
  open_all_along ms v p.
Proof.
  intros Al H Hl Hp X k x y HX U. refine (H X (S k) x y HX _).
  destruct Al as [_ Al]. destruct (Al X HX) as [_ L].
  destruct (known_later _ _ _ L (ex_intro _ l Hl)) as [l' Hl']. destruct (known_same _ _ _ _ _ L Hl Hl') as [_ E].
  eapply up_S; [exact Hl'| |exact U]; congruence.
Qed.
Lemma found_level_open W ms v id e : aligned W ms -> found_level ms id e -> known W id -> open_all_along ms v id -> (e <= v)%Z.
Proof.
  intros Al F. induction F as [W1 W2 id l1 l2 A B C D N|W1 id l1 p u A B C D F IH|W1 id l1 A B C D]; intros K Op.
  - apply (Op W2 0 id l2 B (up_0 _ _) D).
  - destruct (aligned_at _ _ _ _ _ Al A B K) as (l & Hl & _ & Ep). rewrite D in Ep. symmetry in Ep.
    destruct (known_parent _ _ _ _ (proj1 Al) Hl Ep) as [_ Kp]. apply IH; [exact Kp|]. eapply open_parent; eassumption.
  - destruct (Op W1 0 id l1 A (up_0 _ _) B) as [_ Hz]. exfalso. now apply Hz.
Qed.
Lemma found_block_open W ms v id : aligned W ms -> found_block ms v id -> known W id -> open_all_along ms v id -> False.
Proof.
  intros Al F. induction F as [id e A B|W1 id l1 p e A B C D E G F IH]; intros K Op.
  - pose proof (found_level_open _ _ _ _ _ Al A K Op). lia.
  - destruct (aligned_at _ _ _ _ _ Al C D K) as (l & Hl & _ & Ep). rewrite G in Ep. symmetry in Ep.
    destruct (known_parent _ _ _ _ (proj1 Al) Hl Ep) as [_ Kp]. apply IH; [exact Kp|]. eapply open_parent; eassumption.
Qed.
Lemma found_way_served W ms v id x y : aligned W ms -> In W ms -> found_way ms v id y -> known W id -> stop_at ms y ->
  served_all_along ms id x -> y = x.
Proof.
  intros Al HW F. induction F as [id e A B|W1 id l1 p e y A B C D E G F IH]; intros K St (k & Sv).
  - destruct k as [|k].
    + destruct (Sv W HW) as (U & _). now inversion U.
    + exfalso. destruct St as (X & l & HX & Hl & St). destruct (Sv X HX) as (U & _ & Hb).
      destruct St as [St|St].
      * apply St. apply (Hb 0 id l); [lia|constructor|exact Hl].
      * inversion U; subst. congruence.
  - destruct k as [|k].
    + exfalso. destruct (Sv W1 C) as (U & Hx & _). inversion U; subst. now apply (Hx _ D).
    + destruct (aligned_at _ _ _ _ _ Al C D K) as (l & Hl & _ & Ep). rewrite G in Ep. symmetry in Ep.
      destruct (known_parent _ _ _ _ (proj1 Al) Hl Ep) as [_ Kp]. apply IH; [exact Kp|exact St|].
      exists k. intros X HX. destruct (Sv X HX) as (U & Hx & Hb).
      destruct (proj2 Al X HX) as [_ L]. destruct (known_later _ _ _ L K) as [lx Hlx].
      destruct (known_same _ _ _ _ _ L Hl Hlx) as [_ Epx].
      split; [|split; [exact Hx|]].
      * inversion U; subst. assert (l0 = lx) by congruence. subst l0. assert (p0 = p) by congruence. now subst p0.
      * intros j z lz Hj Uz. apply (Hb (S j)); [lia|]. eapply up_S; [exact Hlx| |exact Uz]; congruence.
Qed.

(** ** No panics *)
Fixpoint safe (W0 : world) (p : rprog) : Prop :=
  match p with
  | RRet _ => True
  | RCell id k => known W0 id /\
      forall W l, later W0 W -> inv W -> nth_error (w_loggers W) id = Some l -> safe W (k l)
  | RSend o _ e k => o < length (w_heap W0) /\ formattable e /\ forall W e', later W0 W -> kept e e' -> safe W (k e')
  | RWarn _ k => forall W, later W0 W -> safe W k
  | _ => False
  end.
Lemma safe_later W W1 p : later W W1 -> safe W p -> safe W1 p.
Proof.
  intros L. destruct p; cbn [safe]; try (intros []; fail); auto.
  - intros [K H]. split; [eapply known_later; eassumption|]. intros X l0 LX. apply H. eapply later_trans; eassumption.
  - intros (K & F & H). split; [pose proof (lt_heap _ _ L); lia|]. split; [assumption|]. intros X e' LX. apply H. eapply later_trans; eassumption.
  - intros H X LX. apply H. eapply later_trans; eassumption.
Qed.
Lemma al_safe P W p ms ss W' p' : al P W p ms ss W' p' -> inv W -> safe W p ->
  (forall X i x, In X ms -> nth_error (w_heap X) i = Some x -> real x) -> p' <> RFail.
Proof.
  induction 1 as [W p|W p W1 p1 d ms ss W' p' Ha L I1 A IH|W p W1 ms ss W' p' L I1 A IH]; intros I0 S R.
  - intros ->. exact S.
  - apply IH; [assumption| |intros X i x HX; apply (R X i x); now right].
    destruct p; cbn [ract safe] in *; try discriminate; try (now destruct S).
    + destruct S as [[l Hl] S]. rewrite Hl in Ha. injection Ha as <- <- <-. apply S; auto using later_refl.
    + destruct S as (K & F & S). destruct (nth_error (w_heap W) o) as [x|] eqn:Ex; [|apply nth_error_None in Ex; lia].
      destruct (out_Send_total (p_env P) stk x e (R W o x (or_introl eq_refl) Ex) F) as (x' & e' & Es & _). rewrite Es in Ha.
      injection Ha as <- <- <-. apply S; [assumption|]. eapply out_Send_kept; eassumption.
    + injection Ha as <- <- <-. now apply S.
  - apply IH; [assumption|eapply safe_later; eassumption|intros X i x HX; apply (R X i x); now right].
Qed.
Lemma safe_level k fuel : forall id W, inv W -> known W id -> id < fuel ->
  (forall X e, later W X -> inv X -> safe X (k e)) -> safe W (p_level fuel id k).
Proof.
  induction fuel as [|fuel IH]; intros id W I0 K Hf H; [lia|]. cbn [p_level safe]. split; [assumption|].
  intros X l LX IX Hl. destruct (l_level l =? Uninitialized)%Z.
  - destruct (l_parent l) as [p|] eqn:Ep; [|auto]. destruct (known_parent _ _ _ _ IX Hl Ep) as [Hp Kp].
    apply IH; [assumption|assumption|lia|]. intros Y e LY. apply H. eapply later_trans; eassumption.
  - cbn [safe]. split; [now exists l|]. intros Y l' LY IY Hl'. apply H; [eapply later_trans; eassumption|assumption].
Qed.
Lemma safe_dispatch stk ops : forall W e, Forall (fun o => o < length (w_heap W)) ops -> formattable e -> safe W (p_dispatch stk ops e).
Proof.
  induction ops as [|o ops IH]; intros W e F He; cbn [p_dispatch safe]; [exact Logic.I|].
  apply Forall_cons_iff in F as [Ho F]. split; [assumption|]. split; [assumption|]. intros X e' L K. apply IH.
  - eapply Forall_lt_mono; [exact (lt_heap _ _ L)|assumption].
  - eapply kept_formattable; eassumption.
Qed.
Lemma safe_emit P id stk e W : inv W -> known W id -> formattable e -> safe W (p_emit P id stk e).
Proof.
  intros I0 K F. unfold p_emit, p_capture.
  assert (D : forall X e', later W X -> kept e e' ->
     safe X (RCell id (fun l => p_dispatch (p_fsend P ++ stk) (l_outputs l) e'))).
  { intros X e' L Ke. cbn [safe]. split; [eapply known_later; eassumption|]. intros Y l LY IY Hl. apply safe_dispatch.
    - exact (iv_ops _ IY _ _ Hl).
    - eapply kept_formattable; eassumption. }
  assert (C : forall X nf, later W X -> safe X (match getCallerInfo (p_env P) (p_fgetci P :: stk) e nf with
     | Ok p => RCell id (fun l => p_dispatch (p_fsend P ++ stk) (l_outputs l) (snd p)) | Panic => RFail end)).
  { intros X nf L. destruct (formattable_site (p_fgetci P :: stk) e F) as [raw Hraw].
    destruct (getCallerInfo_raw (p_env P) _ e raw nf Hraw) as (ci & e' & E & _). rewrite E. apply D; [assumption|].
    eapply getCallerInfo_kept; eassumption. }
  cbn [safe]. split; [assumption|]. intros X l LX IX Hl. destruct (l_flag l =? 2)%Z; [now apply C|].
  cbn [safe]. split; [now exists l|]. intros Y l' LY IY Hl'. pose proof (later_trans _ _ _ LX LY) as LWY.
  destruct (l_flag l' =? 1)%Z; [now apply C|]. apply D; [assumption|apply kept_refl].
Qed.
Lemma safe_write P fuel : forall id W c name skip lvl fmt args now stk, inv W -> known W id -> id < fuel -> good_ctx c ->
  safe W (p_write P fuel id c name skip lvl fmt args now stk).
Proof.
  induction fuel as [|fuel IH]; intros id W c name skip lvl fmt args now stk I0 K Hf Hc; [lia|]. cbn [p_write].
  apply safe_level; [assumption|assumption|lia|]. intros X e LX IX. destruct (negb _); [exact Logic.I|].
  pose proof (known_later _ _ _ LX K) as KX. cbn [safe]. split; [assumption|]. intros Y l LY IY Hl.
  pose proof (known_later _ _ _ LY KX) as KY.
  destruct (l_outputs l) as [|o os]; [destruct (l_parent l) as [p|] eqn:Ep|].
  - destruct (known_parent _ _ _ _ IY Hl Ep) as [Hp Kp]. apply IH; [assumption|assumption|lia|apply good_background].
  - cbn [safe]. intros Z LZ. eapply safe_later; [exact LZ|]. apply safe_emit; auto. now apply good_formattable.
  - apply safe_emit; auto. now apply good_formattable.
Qed.
Lemma safe_Printf P W id l c v lvl fmt args now ustk : inv W -> nth_error (w_loggers W) id = Some l -> good_ctx c ->
  safe W (p_op P (OLog id c v lvl fmt args now ustk)).
Proof.
  intros I0 Hl Hc. cbn [p_op]. unfold p_Printf. cbn [safe]. split; [now exists l|]. intros X l' LX IX Hl'.
  apply safe_write; [assumption|now exists l'|lia|assumption].
Qed.

(** ** A call by itself *)
Lemma upd_upd {A} (f g : A -> A) : forall l i, upd i f (upd i g l) = upd i (fun x => f (g x)) l.
Proof. induction l as [|x l IH]; intros [|i]; cbn; [reflexivity..|now rewrite IH]. Qed.
Lemma upd_ext {A} (f g : A -> A) : (forall x, f x = g x) -> forall l i, upd i f l = upd i g l.
Proof. intros H. induction l as [|x l IH]; intros [|i]; cbn; [reflexivity|reflexivity|now rewrite H|now rewrite IH]. Qed.
Lemma upd_same {A} (f : A -> A) : forall l i x, nth_error l i = Some x -> f x = x -> upd i f l = l.
Proof. induction l as [|y l IH]; intros [|i] x H E; cbn in *; try discriminate; [injection H as ->; now rewrite E|]. erewrite IH; eauto. Qed.
Lemma upd_at {A} (f g : A -> A) : forall l i x, nth_error l i = Some x -> f x = g x -> upd i f l = upd i g l.
Proof. induction l as [|y l IH]; intros [|i] x H E; cbn in *; try discriminate; [injection H as ->; now rewrite E|]. erewrite IH; eauto. Qed.
Lemma set_same W : set_loggers W (w_loggers W) = W.
Proof. now destruct W. Qed.
Lemma solo_level P W k fuel : forall id, inv W -> known W id -> id < fuel ->
  solo P W (p_level fuel id k) = solo P W (k (level_up (w_loggers W) fuel id)).
Proof.
  induction fuel as [|fuel IH]; intros id I0 [l Hl] Hf; [lia|]. cbn [p_level solo level_up]. rewrite Hl.
  destruct (l_level l =? Uninitialized)%Z; [|cbn [solo]; now rewrite Hl].
  destruct (l_parent l) as [p|] eqn:Ep; [|reflexivity]. destruct (known_parent _ _ _ _ I0 Hl Ep) as [Hp Kp].
  apply IH; [assumption|assumption|lia].
Qed.
Lemma solo_dispatch P stk ops : forall W e, solo P W (p_dispatch stk ops e) =
  bind (dispatch (p_env P) stk W ops e) (fun W' => Ok (W', RUnit)).
Proof.
  induction ops as [|o ops IH]; intros W e; cbn [p_dispatch solo dispatch]; [reflexivity|].
  destruct (nth_error (w_heap W) o) as [x|]; [|reflexivity].
  destruct (out_Send _ _ _ _) as [[x' e']|]; [|reflexivity]. cbn [bind]. apply IH.
Qed.
Lemma solo_emit P W id l stk e : nth_error (w_loggers W) id = Some l ->
  solo P W (p_emit P id stk e) =
  bind (capture (p_env P) (p_fgetci P :: stk) (l_flag l) e) (fun e' =>
  bind (dispatch (p_env P) (p_fsend P ++ stk) W (l_outputs l) e') (fun W' => Ok (W', RUnit))).
Proof.
  intros Hl. unfold p_emit, p_capture, capture. cbn [solo]. rewrite Hl.
  destruct (l_flag l =? 2)%Z.
  - destruct (getCallerInfo _ _ _ _) as [p|]; [|reflexivity]. cbn [solo bind]. rewrite Hl. apply solo_dispatch.
  - cbn [solo]. rewrite Hl. destruct (l_flag l =? 1)%Z.
    + destruct (getCallerInfo _ _ _ _) as [p|]; [|reflexivity]. cbn [solo bind]. rewrite Hl. apply solo_dispatch.
    + cbn [solo bind]. rewrite Hl. apply solo_dispatch.
Qed.
Lemma solo_write P fuel : forall W id c name skip lvl fmt args now stk, inv W -> known W id -> id < fuel ->
  solo P W (p_write P fuel id c name skip lvl fmt args now stk) =
  bind (write P fuel W id c name skip lvl fmt args now stk) (fun W' => Ok (W', RUnit)).
Proof.
  induction fuel as [|fuel IH]; intros W id c name skip lvl fmt args now stk I0 K Hf; [lia|].
  cbn [p_write write]. rewrite solo_level by (assumption || lia). destruct K as [l Hl]. rewrite Hl.
  unfold LevelEnabled, Level. destruct (negb _); [reflexivity|]. cbn [solo]. rewrite Hl.
  destruct (l_outputs l) as [|o os] eqn:Eo; [destruct (l_parent l) as [p|] eqn:Ep|].
  - destruct (known_parent _ _ _ _ I0 Hl Ep) as [Hp Kp]. apply IH; [assumption|assumption|lia].
  - cbn [solo]. erewrite solo_emit by exact Hl. rewrite Eo.
    destruct (capture _ _ _ _); reflexivity.
  - erewrite solo_emit by exact Hl. rewrite Eo. destruct (capture _ _ _ _); destruct (l_parent l); reflexivity.
Qed.
Lemma solo_flags P id k ops : forall W, known W id ->
  solo P W (p_flags id ops k) = bind (flags_of (w_heap W) ops) (fun fs =>
    solo P (set_loggers W (upd id (fun l => store_flag (raise_flag (l_flag l) fs) l) (w_loggers W))) k).
Proof.
  induction ops as [|o ops IH]; intros W [l Hl]; cbn [p_flags flags_of].
  - cbn [bind]. erewrite upd_same; [now rewrite set_same|exact Hl|]. now destruct l.
  - cbn [solo]. rewrite Hl. destruct (nth_error (w_heap W) o) as [x|] eqn:Ex; [|reflexivity].
    destruct (Z.ltb_spec (l_flag l) (out_flag (o_fmt x))) as [Hlt|Hge].
    + cbn [solo]. rewrite Ex, Hl. rewrite IH.
      2:{ exists (store_flag (out_flag (o_fmt x)) l). cbn [w_loggers set_loggers]. rewrite upd_nth, Nat.eqb_refl, Hl. reflexivity. }
      cbn [w_heap set_loggers]. destruct (flags_of (w_heap W) ops) as [fs|]; [|reflexivity]. cbn [bind].
      f_equal. unfold set_loggers. cbn. f_equal. rewrite upd_upd. eapply upd_at; [exact Hl|]. unfold store_flag, raise_flag. cbn.
      destruct (Z.ltb_spec (l_flag l) (out_flag (o_fmt x))); [reflexivity|lia].
    + rewrite IH by now exists l. destruct (flags_of (w_heap W) ops) as [fs|]; [|reflexivity]. cbn [bind].
      f_equal. unfold set_loggers. f_equal. eapply upd_at; [exact Hl|]. unfold store_flag, raise_flag. cbn.
      destruct (Z.ltb_spec (l_flag l) (out_flag (o_fmt x))); [lia|reflexivity].
Qed.
Lemma solo_SetOutputs P W id ops k : known W id ->
  solo P W (p_SetOutputs id ops k) = bind (SetOutputs W id ops) (fun W' => solo P W' k).
Proof.
  intros [l Hl]. unfold p_SetOutputs, SetOutputs. cbn [solo]. rewrite Hl, solo_flags.
  2:{ exists (store_outputs ops l). cbn [w_loggers set_loggers]. rewrite upd_nth, Nat.eqb_refl, Hl. reflexivity. }
  cbn [w_heap set_loggers]. destruct (flags_of (w_heap W) ops) as [fs|]; [|reflexivity]. cbn [bind].
  f_equal. unfold set_loggers. cbn. f_equal. rewrite upd_upd. now apply upd_ext.
Qed.
Lemma solo_notify P k ord : forall W, inv W ->
  solo P W (p_notify ord k) = bind (notify P W ord) (fun W' => solo P W' k).
Proof.
  induction ord as [|id ord IH]; intros W I0; cbn [p_notify notify]; [reflexivity|]. cbn [solo].
  destruct (nth_error (w_loggers W) id) as [l|] eqn:Hl; [|reflexivity]. cbn [solo exec].
  destruct (GetLoggerOutputs P W (l_name l)) as [[W1 g]|] eqn:E; [|reflexivity]. cbn [bind].
  pose proof (GLO_grow _ _ _ _ _ (iv_valid _ I0) E) as G. pose proof (grow_inv _ _ G I0) as I1.
  assert (H1 : nth_error (w_loggers W1) id = Some l) by (now rewrite (gr_loggers _ _ G)).
  unfold apply_glo. destruct (g_err g) eqn:Eg; [cbn [bind]; now apply IH|].
  cbn [solo]. rewrite H1. change (set_loggers W1 (upd id (with_level (g_lvl g)) (w_loggers W1))) with (SetLevel W1 id (g_lvl g)).
  rewrite solo_SetOutputs.
  2:{ exists (with_level (g_lvl g) l). cbn. rewrite upd_nth, Nat.eqb_refl, H1. reflexivity. }
  destruct (SetOutputs (SetLevel W1 id (g_lvl g)) id (g_ops g)) as [W2|] eqn:E2; [|reflexivity]. cbn [bind].
  apply IH. eapply SetOutputs_inv; [eassumption|]. now apply SetLevel_inv.
Qed.
Lemma solo_setConfig P W c ord : inv W ->
  solo P W (p_setConfig c ord) = bind (setConfig P W c ord) (fun '(W', ok) => Ok (W', RErr ok)).
Proof.
  intros I0. unfold p_setConfig, setConfig. destruct (validateConfig c); [|reflexivity]. cbn [solo].
  rewrite solo_notify by now apply set_config_inv. destruct (notify _ _ _); reflexivity.
Qed.
Lemma solo_op P W o : inv W -> solo P W (p_op P o) = exec P W o.
Proof.
  intros I0. assert (One : solo P W (ROne o RRet) = exec P W o) by (cbn [solo]; destruct (exec P W o) as [[? ?]|]; reflexivity).
  destruct o; try exact One; clear One; cbn [p_op exec].
  - cbn [solo]. destruct (nth_error _ _); reflexivity.
  - cbn [solo]. destruct (nth_error (w_loggers W) id) as [l|] eqn:Hl; [|reflexivity]. rewrite solo_SetOutputs by now exists l.
    destruct (SetOutputs W id ops); reflexivity.
  - cbn [solo]. destruct (nth_error _ _); reflexivity.
  - unfold p_Printf, Printf. cbn [solo]. destruct (nth_error (w_loggers W) id) as [l|] eqn:Hl; [|reflexivity].
    rewrite solo_write; [reflexivity|assumption|now exists l|lia].
  - now apply solo_setConfig.
  - now apply solo_setConfig.
  - unfold LoadConfigFile. destruct (p_read P file); [|reflexivity]. destruct (path_Ext file); [reflexivity|]. now apply solo_setConfig.
Qed.
Lemma solo_ract P W p W1 p1 d : ract P W p = Some (W1, p1, d) -> solo P W p = solo P W1 p1.
Proof.
  destruct p as [r| |id k|id f p|o k|o stk e k|nm p|c p|o k]; cbn [ract solo]; try discriminate.
  - intros [= <- <- <-]. destruct (nth_error _ _); reflexivity.
  - destruct (nth_error _ _); intros [= <- <- <-]; reflexivity.
  - intros [= <- <- <-]. destruct (nth_error _ _); reflexivity.
  - destruct (nth_error _ _) as [x|]; [|intros [= <- <- <-]; reflexivity].
    destruct (out_Send _ _ _ _) as [[x' e']|]; intros [= <- <- <-]; reflexivity.
  - intros [= <- <- <-]. reflexivity.
  - intros [= <- <- <-]. reflexivity.
  - destruct (exec P W o) as [[W2 r]|]; intros [= <- <- <-]; reflexivity.
Qed.

(** ** One goroutine running alone *)
Definition only (i : nat) (tr : list (nat * rlabel * world)) : Prop := forall j a W, In (j, a, W) tr -> j = i.
Lemma rexec_app P s tr s1 : rexec P s tr s1 -> forall tr2 s2, rexec P s1 tr2 s2 -> rexec P s (tr ++ tr2) s2.
Proof. induction 1 as [s|s i a s1 tr s2 H R IH]; intros tr2 s3 H2; cbn; [assumption|]. econstructor; eauto. Qed.
Lemma rexec_app_inv P tr1 : forall s tr2 s2, rexec P s (tr1 ++ tr2) s2 -> exists s1, rexec P s tr1 s1 /\ rexec P s1 tr2 s2.
Proof.
  induction tr1 as [|x tr1 IH]; intros s tr2 s2 H; cbn in H; [exists s; split; [constructor|assumption]|].
  inversion H as [|s0 i a s1 tr s3 St R]; subst. destruct (IH _ _ _ R) as (sm & A & B). exists sm. split; [econstructor; eassumption|assumption].
Qed.
Lemma only_cons i a W tr : only i tr -> only i ((i, a, W) :: tr).
Proof. intros O j b X [E|H]; [congruence|eauto]. Qed.
Lemma busy_cons i a W tr : (a = Stepped \/ exists d, a = Sent d) -> busy i tr -> busy i ((i, a, W) :: tr).
Proof. intros Ha B b X [E|H]; [injection E as <- _; assumption|eauto]. Qed.
Definition done_with (r : res ret) (p : rprog) : Prop := match r with Ok v => p = RRet v | Panic => p = RFail end.
Lemma solo_run P p : forall s i, nth_error (r_threads s) i = Some (Some p) ->
  exists tr s' q, rexec P s tr s' /\ only i tr /\ busy i tr /\ nth_error (r_threads s') i = Some (Some q) /\
    match solo P (r_w s) p with Ok (W', r) => q = RRet r /\ r_w s' = W' | Panic => q = RFail end.
Proof.
  assert (St : forall p s i W p1 d, nth_error (r_threads s) i = Some (Some p) -> ract P (r_w s) p = Some (W, p1, d) ->
    (forall s i, nth_error (r_threads s) i = Some (Some p1) ->
      exists tr s' q, rexec P s tr s' /\ only i tr /\ busy i tr /\ nth_error (r_threads s') i = Some (Some q) /\
        match solo P (r_w s) p1 with Ok (W', r) => q = RRet r /\ r_w s' = W' | Panic => q = RFail end) ->
    exists tr s' q, rexec P s tr s' /\ only i tr /\ busy i tr /\ nth_error (r_threads s') i = Some (Some q) /\
      match solo P (r_w s) p with Ok (W', r) => q = RRet r /\ r_w s' = W' | Panic => q = RFail end).
  { intros p0 s i W p1 d Hi Ha H. destruct (H (go s W i (Some p1)) i (go_self _ _ _ _ _ Hi)) as (tr & s' & q & R & O & B & Hq & E).
    set (a := match d with None => Stepped | Some x => Sent x end).
    exists ((i, a, W) :: tr), s', q. split; [|split; [now apply only_cons|split; [apply busy_cons; [|assumption]; unfold a; destruct d; eauto|split; [assumption|]]]].
    - refine (re_more P s i a (go s W i (Some p1)) tr s' _ R). unfold a. destruct d; [eapply r_send; eassumption|eapply r_act; eassumption].
    - rewrite (solo_ract _ _ _ _ _ _ Ha). exact E. }
  assert (Nil : forall p s i, nth_error (r_threads s) i = Some (Some p) ->
      match solo P (r_w s) p with Ok (W', r) => p = RRet r /\ r_w s = W' | Panic => p = RFail end ->
      exists tr s' q, rexec P s tr s' /\ only i tr /\ busy i tr /\ nth_error (r_threads s') i = Some (Some q) /\
        match solo P (r_w s) p with Ok (W', r) => q = RRet r /\ r_w s' = W' | Panic => q = RFail end).
  { intros p0 s i Hi H. exists [], s, p0. split; [constructor|]. split; [intros ? ? ? []|]. split; [intros ? ? []|]. auto. }
  assert (F : forall s i, nth_error (r_threads s) i = Some (Some RFail) ->
      exists tr s' q, rexec P s tr s' /\ only i tr /\ busy i tr /\ nth_error (r_threads s') i = Some (Some q) /\
        match solo P (r_w s) RFail with Ok (W', r) => q = RRet r /\ r_w s' = W' | Panic => q = RFail end) by (intros; now apply Nil).
  induction p as [r| |id k IH|id f p IH|o k IH|o stk e k IH|nm p IH|c p IH|o k IH]; intros s i Hi.
  - now apply Nil.
  - now apply Nil.
  - destruct (nth_error (w_loggers (r_w s)) id) as [l|] eqn:E.
    + eapply (St _ _ _ _ _ _ Hi); [cbn; rewrite E; reflexivity|apply IH].
    + eapply (St _ _ _ _ _ _ Hi); [cbn; rewrite E; reflexivity|exact F].
  - destruct (nth_error (w_loggers (r_w s)) id) as [l|] eqn:E.
    + eapply (St _ _ _ _ _ _ Hi); [cbn; rewrite E; reflexivity|apply IH].
    + eapply (St _ _ _ _ _ _ Hi); [cbn; rewrite E; reflexivity|exact F].
  - destruct (nth_error (w_heap (r_w s)) o) as [x|] eqn:E.
    + eapply (St _ _ _ _ _ _ Hi); [cbn; rewrite E; reflexivity|apply IH].
    + eapply (St _ _ _ _ _ _ Hi); [cbn; rewrite E; reflexivity|exact F].
  - destruct (nth_error (w_heap (r_w s)) o) as [x|] eqn:E.
    + destruct (out_Send (p_env P) stk x e) as [[x' e']|] eqn:Es.
      * eapply (St _ _ _ _ _ _ Hi); [cbn; rewrite E, Es; reflexivity|apply IH].
      * eapply (St _ _ _ _ _ _ Hi); [cbn; rewrite E, Es; reflexivity|exact F].
    + eapply (St _ _ _ _ _ _ Hi); [cbn; rewrite E; reflexivity|exact F].
  - eapply (St _ _ _ _ _ _ Hi); [cbn; reflexivity|apply IH].
  - eapply (St _ _ _ _ _ _ Hi); [cbn; reflexivity|apply IH].
  - destruct (exec P (r_w s) o) as [[W1 r]|] eqn:E.
    + eapply (St _ _ _ _ _ _ Hi); [cbn; rewrite E; reflexivity|apply IH].
    + eapply (St _ _ _ _ _ _ Hi); [cbn; rewrite E; reflexivity|exact F].
Qed.
Lemma solo_stays P i s tr s' : rexec P s tr s' -> only i tr -> busy i tr -> forall p, nth_error (r_threads s) i = Some (Some p) ->
  exists p', nth_error (r_threads s') i = Some (Some p') /\ solo P (r_w s') p' = solo P (r_w s) p.
Proof.
  induction 1 as [s|s j a s1 tr s2 H R IH]; intros O B p Hp; [eauto|].
  assert (j = i) by (eapply O; now left). subst j.
  assert (O1 : only i tr) by (intros ? ? ? X; eapply O; right; exact X).
  assert (B1 : busy i tr) by (intros ? ? X; eapply B; right; exact X).
  assert (Ba := B a (r_w s1) (or_introl eq_refl)).
  destruct H as [s i o Hi Hh|s i q W q' Hi Ha|s i q W q' d Hi Ha|s i r Hi|s i Hi]; try (destruct Ba as [Ba|[? Ba]]; discriminate);
    assert (q = p) by congruence; subst q;
    (destruct (IH O1 B1 q' ltac:(eapply go_self; eassumption)) as (p' & Hp' & E); exists p'; split; [assumption|];
     rewrite E; cbn [r_w go]; symmetry; eapply solo_ract; eassumption).
Qed.

(** ** Schedules *)
Definition rnext (P : params) (s : rstate) (i : nat) (c : option op) : option (rlabel * rstate) :=
  match nth_error (r_threads s) i, c with
  | Some None, Some o =>
    if match o with OSetOutputs _ ops => forallb (fun j => j <? length (w_heap (r_w s))) ops | _ => true end
    then Some (Called o, go s (r_w s) i (Some (p_op P o))) else None
  | Some (Some p), None =>
    match p with
    | RRet r => Some (Returned r, go s (r_w s) i None)
    | RFail => Some (Panicked, go s (r_w s) i None)
    | _ => match ract P (r_w s) p with
           | Some (W, p', None) => Some (Stepped, go s W i (Some p'))
           | Some (W, p', Some d) => Some (Sent d, go s W i (Some p'))
           | None => None
           end
    end
  | _, _ => None
  end.
Lemma rnext_step P s i c a s' : rnext P s i c = Some (a, s') -> rstep P s i a s'.
Proof.
  unfold rnext. destruct (nth_error (r_threads s) i) as [[p|]|] eqn:Hi; [|destruct c as [o|]|]; try discriminate.
  - destruct c; [discriminate|]. destruct p; try (intros [= <- <-]; now constructor);
      (destruct (ract P (r_w s) _) as [[[W p'] [d|]]|] eqn:Ha; intros [= <- <-]; [eapply r_send|eapply r_act]; eassumption).
  - destruct (match o with OSetOutputs _ ops => _ | _ => true end) eqn:E; [|discriminate]. intros [= <- <-]. constructor; [assumption|].
    destruct o; cbn; auto. apply Forall_forall. intros j Hj. rewrite forallb_forall in E. apply Nat.ltb_lt. now apply E.
Qed.
Fixpoint rrun (P : params) (s : rstate) (sc : list (nat * option op)) : option (list (nat * rlabel * world) * rstate) :=
  match sc with
  | [] => Some ([], s)
  | (i, c) :: sc' =>
    match rnext P s i c with
    | None => None
    | Some (a, s1) => match rrun P s1 sc' with None => None | Some (tr, s2) => Some ((i, a, r_w s1) :: tr, s2) end
    end
  end.
Lemma rrun_exec P sc : forall s tr s', rrun P s sc = Some (tr, s') -> rexec P s tr s'.
Proof.
  induction sc as [|[i c] sc IH]; intros s tr s'; cbn [rrun]; [intros [= <- <-]; constructor|].
  destruct (rnext P s i c) as [[a s1]|] eqn:E; [|discriminate]. destruct (rrun P s1 sc) as [[tr1 s2]|] eqn:E2; [|discriminate].
  intros [= <- <-]. econstructor; [eapply rnext_step; eassumption|auto].
Qed.
Definition mid_label (a : rlabel) : bool := match a with Stepped | Sent _ => true | _ => false end.
Fixpoint ends (i : nat) (tr : list (nat * rlabel * world)) : bool :=
  match tr with
  | [] => false
  | (j, a, _) :: tr' =>
    match tr' with
    | [] => Nat.eqb j i && match a with Returned RUnit => true | _ => false end
    | _ => (negb (Nat.eqb j i) || mid_label a) && ends i tr'
    end
  end.
Lemma ends_sound i tr : ends i tr = true -> exists mid W, tr = mid ++ [(i, Returned RUnit, W)] /\ busy i mid.
Proof.
  induction tr as [|[[j a] W] tr IH]; cbn [ends]; [discriminate|]. destruct tr as [|y tr].
  - intros H. apply andb_true_iff in H as [H1 H2]. apply Nat.eqb_eq in H1. subst. destruct a; try discriminate. destruct r; try discriminate.
    exists [], W. split; [reflexivity|]. intros ? ? [].
  - intros H. apply andb_true_iff in H as [H1 H2]. destruct (IH H2) as (mid & X & E & B). exists ((j, a, W) :: mid), X. split; [now rewrite E|].
    intros b Y [[= -> -> ->]|Hb]; [|eauto]. rewrite Nat.eqb_refl in H1. destruct b; try discriminate; eauto.
Qed.
Lemma rrun_whole P s i o sc tr s' : rrun P s ((i, Some o) :: sc) = Some (tr, s') -> ends i (tl tr) = true -> whole_call i o RUnit tr.
Proof.
  cbn [rrun]. destruct (rnext P s i (Some o)) as [[a s1]|] eqn:E; [|discriminate]. destruct (rrun P s1 sc) as [[tr1 s2]|]; [|discriminate].
  intros [= <- <-] H. cbn [tl] in H. destruct (ends_sound _ _ H) as (mid & X & -> & B).
  assert (a = Called o) as ->.
  { unfold rnext in E. destruct (nth_error _ _) as [[p|]|]; try discriminate. destruct (match o with OSetOutputs _ ops => _ | _ => true end); [|discriminate].
    now injection E. }
  exists ((i, Called o, r_w s1) :: mid), X. split; [reflexivity|]. exists (r_w s1), mid. auto.
Qed.
(** Where a log call goes. *)
Fixpoint target (fuel : nat) (W : world) (v : Z) (id : nat) : list nat :=
  match fuel with
  | O => []
  | S fuel' =>
    match nth_error (w_loggers W) id with
    | None => []
    | Some l =>
      if (v <? Level W id)%Z then []
      else match l_outputs l, l_parent l with
           | [], Some p => target fuel' W v p
           | ops, _ => ops
           end
    end
  end.
Lemma target_route fuel : forall W v id l, inv W -> nth_error (w_loggers W) id = Some l -> id < fuel -> route W v (l_name l) (target fuel W v id).
Proof.
  induction fuel as [|fuel IH]; intros W v id l I0 Hl Hf; [lia|]. cbn [target]. rewrite Hl.
  assert (HN : name_level W (l_name l) (Level W id)) by (apply (Level_iff W (l_name l) id); [assumption|exists l; auto|reflexivity]).
  destruct (Z.ltb_spec v (Level W id)) as [Hv|Hv]; [eapply rt_blocked; eassumption|].
  destruct (l_outputs l) as [|o os] eqn:Eo.
  - destruct (l_parent l) as [p|] eqn:Ep.
    + destruct (parent_names W id l p I0 Hl Ep) as (pl & Hpl & Hpn & Hr). destruct (known_parent _ _ _ _ I0 Hl Ep) as [Hlt _].
      eapply rt_up; [exact HN|exact Hv|exact Hl|reflexivity|exact Eo|exact Hr|exact Hpn|]. apply IH; [assumption|exact Hpl|lia].
    + pose proof (root_name W id l I0 Hl Ep) as Hr. rewrite Hr in *. eapply rt_none; eassumption.
  - replace (match l_parent l with Some _ | _ => o :: os end) with (o :: os) by (destruct (l_parent l); reflexivity).
    rewrite <- Eo. eapply rt_here; [exact HN|exact Hv|exact Hl|reflexivity|congruence].
Qed.

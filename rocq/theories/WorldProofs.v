(** Effective levels, routes and what a log call does. *)
From Verif Require Import GoStr Utf8 LevelModel EventModel LayoutModel LayoutProofs FormatSpec FormatProofs ConfModel
  OutputModel OutputSpec OutputProofs WorldModel WorldSpec WorldBase WorldInv.
Local Open Scope nat_scope.

(** ** Effective level *)
Lemma level_up_name W : inv W -> forall fuel id l, nth_error (w_loggers W) id = Some l -> id < fuel ->
  name_level W (l_name l) (level_up (w_loggers W) fuel id).
Proof.
  intros I. induction fuel as [|fuel IH]; intros id l Hl Hlt; [lia|]. cbn [level_up]. rewrite Hl.
  destruct (Z.eqb_spec (l_level l) Uninitialized) as [E|E].
  - pose proof (nth_skels _ _ _ Hl) as Hs. destruct (l_parent l) as [p|] eqn:Ep.
    + destruct (si_parent _ _ _ (iv_sk _ I) _ _ _ Hs) as (Hlt' & pn & pp & H1 & H2).
      apply nth_skels_inv in H1 as (pl & H1 & <- & _).
      eapply nlv_up; [exact Hl|reflexivity|exact E| |exact H2|apply IH; [assumption|lia]].
      intros Hr. apply (si_root _ _ _ (iv_sk _ I) _ _ _ Hs) in Hr. discriminate.
    + assert (Hn : l_name l = rootName) by (apply (si_root _ _ _ (iv_sk _ I) _ _ _ Hs); reflexivity).
      rewrite Hn. eapply nlv_none; eassumption.
  - eapply nlv_own; [eassumption|reflexivity|assumption].
Qed.
Lemma Level_name W id l : inv W -> nth_error (w_loggers W) id = Some l -> name_level W (l_name l) (Level W id).
Proof. intros I H. apply level_up_name; auto. Qed.
Lemma name_level_fun W n v v' : inv W -> name_level W n v -> name_level W n v' -> v = v'.
Proof.
  intros I H. revert v'. induction H as [n id l Hl Hn Hz|n id l p v Hl Hn Hz Hr Hp H IH|id l Hl Hn Hz];
    intros v' H'; inversion H' as [n2 id2 l2 Hl2 Hn2 Hz2|n2 id2 l2 p2 v2 Hl2 Hn2 Hz2 Hr2 Hp2 H2|id2 l2 Hl2 Hn2 Hz2]; subst;
    try (assert (l2 = l) by (apply (same_name W (l_name l) _ _ _ _ I Hl2 Hl); congruence); congruence).
  apply IH. assert (p2 = p) by (eapply parent_fun; eassumption). now subst.
Qed.
Lemma Level_iff W n id v : inv W -> has_name W n id -> (Level W id = v <-> name_level W n v).
Proof.
  intros I (l & Hl & <-). pose proof (Level_name _ _ _ I Hl) as H. split; [now intros <-|].
  intros H'. eapply name_level_fun; eassumption.
Qed.

(** ** SetLevel *)
Lemma SetLevel_nth W id lvl i l : nth_error (w_loggers (SetLevel W id lvl)) i = Some l <->
  exists l0, nth_error (w_loggers W) i = Some l0 /\ l = if Nat.eqb i id then with_level lvl l0 else l0.
Proof.
  cbn. rewrite nth_upd. destruct (Nat.eqb i id); [|split; [eauto|intros (l0 & H & ->); exact H]].
  destruct (nth_error (w_loggers W) i) as [l0|]; cbn.
  - split; [intros [= <-]; eauto|intros (l1 & [= <-] & ->); reflexivity].
  - split; [discriminate|intros (l1 & H & _); discriminate].
Qed.
Lemma SetLevel_own W id lvl l : nth_error (w_loggers W) id = Some l ->
  nth_error (w_loggers (SetLevel W id lvl)) id = Some (with_level lvl l).
Proof. intros H. apply SetLevel_nth. exists l. now rewrite Nat.eqb_refl. Qed.
Lemma SetLevel_other W id lvl i l : nth_error (w_loggers W) i = Some l -> i <> id ->
  nth_error (w_loggers (SetLevel W id lvl)) i = Some l.
Proof. intros H Hi. apply SetLevel_nth. exists l. destruct (Nat.eqb_spec i id); [congruence|auto]. Qed.
Lemma governed_set W id lvl m v : inv W -> has_name W m id -> lvl <> 0%Z ->
  governed W v m -> name_level (SetLevel W id lvl) v lvl.
Proof.
  intros I (lm & Hlm & Hm) Hz H. induction H as [n|n i l p m' Hl Hn Hz0 Hr Hp H IH].
  - change lvl with (l_level (with_level lvl lm)) at 2. eapply nlv_own; [apply SetLevel_own, Hlm|exact Hm|exact Hz].
  - specialize (IH Hm). destruct (Nat.eqb_spec i id) as [->|Hi].
    + assert (l = lm) by congruence. subst l. change lvl with (l_level (with_level lvl lm)) at 2.
      eapply nlv_own; [apply SetLevel_own, Hlm|exact Hn|exact Hz].
    + eapply nlv_up; [|exact Hn|exact Hz0|exact Hr|exact Hp|exact IH].
      apply (SetLevel_other W id lvl i l); assumption.
Qed.
Lemma ungoverned_set W id lvl m n v : inv W -> has_name W m id -> ~ governed W n m ->
  name_level W n v -> name_level (SetLevel W id lvl) n v.
Proof.
  intros I (lm & Hlm & Hm) Hg H. induction H as [n i l Hl Hn Hz|n i l p v Hl Hn Hz Hr Hp H IH|i l Hl Hn Hz].
  - assert (Hi : i <> id). { intros ->. apply Hg. assert (l = lm) by congruence. subst l. rewrite <- Hn, <- Hm. constructor. }
    eapply nlv_own; [|exact Hn|exact Hz]. apply (SetLevel_other W id lvl i l); assumption.
  - assert (Hi : i <> id). { intros ->. apply Hg. assert (l = lm) by congruence. subst l. rewrite <- Hn, <- Hm. constructor. }
    eapply nlv_up; [|exact Hn|exact Hz|exact Hr|exact Hp|].
    + apply (SetLevel_other W id lvl i l); assumption.
    + apply IH. intros Hgp. apply Hg. eapply gov_up; eassumption.
  - assert (Hi : i <> id). { intros ->. apply Hg. assert (l = lm) by congruence. subst l. rewrite <- Hn, <- Hm. constructor. }
    eapply nlv_none; [|exact Hn|exact Hz]. apply (SetLevel_other W id lvl i l); assumption.
Qed.
(** With Uninitialized the logger's descendants follow it to its parent. *)
Lemma governed_unset W id m n v : inv W -> has_name W m id -> governed W n m ->
  name_level (SetLevel W id 0%Z) n v <-> name_level (SetLevel W id 0%Z) m v.
Proof.
  intros I Hm H. pose proof (SetLevel_inv W id 0%Z I) as I'.
  assert (Hdir : forall v, name_level (SetLevel W id 0%Z) m v -> name_level (SetLevel W id 0%Z) n v).
  { clear v. intros v Hv. induction H as [n|n i l p m' Hl Hn Hz0 Hr Hp H IH]; [assumption|].
    eapply nlv_up with (l := if Nat.eqb i id then with_level 0%Z l else l); [apply SetLevel_nth; eauto| | |exact Hr|exact Hp|auto].
    - destruct (Nat.eqb i id); exact Hn.
    - destruct (Nat.eqb i id); [reflexivity|exact Hz0]. }
  split; [|apply Hdir]. intros Hv.
  destruct Hm as (lm & Hlm & Em).
  assert (Hx : nth_error (w_loggers (SetLevel W id 0%Z)) id = Some (with_level 0%Z lm)).
  { apply SetLevel_nth. exists lm. now rewrite Nat.eqb_refl. }
  pose proof (Level_name _ _ _ I' Hx) as HL. change (l_name (with_level 0%Z lm)) with (l_name lm) in HL. rewrite Em in HL.
  assert (v = Level (SetLevel W id 0%Z) id) as -> by (eapply name_level_fun; [exact I'|exact Hv|]; apply Hdir, HL).
  assumption.
Qed.

(** ** Routes *)
Lemma route_fun' W v n a : inv W -> route W v n a -> forall n' b, route W v n' b -> n = n' -> a = b.
Proof.
  intros I H.
  assert (Hlv : forall n1 e1 n2 e2, name_level W n1 e1 -> name_level W n2 e2 -> n1 = n2 -> e1 = e2).
  { intros n1 e1 n2 e2 H1 H2 ->. eapply name_level_fun; eassumption. }
  induction H as [n e He Hv|n e id l He Hv Hl Hn Ho|n e id l p outs He Hv Hl Hn Ho Hr Hp H IH|e id l He Hv Hl Hn Ho];
    intros n' b [n2 e2 He2 Hv2|n2 e2 id2 l2 He2 Hv2 Hl2 Hn2 Ho2|n2 e2 id2 l2 p2 outs2 He2 Hv2 Hl2 Hn2 Ho2 Hr2 Hp2 H2
         |e2 id2 l2 He2 Hv2 Hl2 Hn2 Ho2] En;
    pose proof (Hlv _ _ _ _ He He2 En) as Ee; subst e2; try lia; try congruence;
    try (assert (l2 = l) by (apply (same_name W (l_name l) _ _ _ _ I Hl2 Hl); congruence); congruence).
  apply (IH _ _ H2). rewrite <- En in Hp2. exact (parent_fun _ _ _ Hp Hp2).
Qed.
Lemma route_fun W v n a b : inv W -> route W v n a -> route W v n b -> a = b.
Proof. intros I H H'. eapply route_fun'; eauto. Qed.

(** The way a call takes: how many loggers up, and to which logger. *)
Inductive climbs (W : world) (v : Z) : nat -> nat -> nat -> Prop :=
| cl_here id l : nth_error (w_loggers W) id = Some l -> (Level W id <= v)%Z -> (l_outputs l <> [] \/ l_parent l = None) ->
    climbs W v id 0 id
| cl_up id l p d o : nth_error (w_loggers W) id = Some l -> (Level W id <= v)%Z -> l_outputs l = [] ->
    l_parent l = Some p -> climbs W v p d o -> climbs W v id (S d) o.
Inductive blocked (W : world) (v : Z) : nat -> Prop :=
| bl_here id : (v < Level W id)%Z -> blocked W v id
| bl_up id l p : nth_error (w_loggers W) id = Some l -> (Level W id <= v)%Z -> l_outputs l = [] ->
    l_parent l = Some p -> blocked W v p -> blocked W v id.

Lemma climbs_or_blocked W v : inv W -> forall fuel id l, id < fuel -> nth_error (w_loggers W) id = Some l ->
  blocked W v id \/ exists d o, climbs W v id d o.
Proof.
  intros I. induction fuel as [|fuel IH]; intros id l Hf Hl; [lia|].
  destruct (Z_lt_le_dec v (Level W id)) as [Hv|Hv]; [left; now constructor|].
  destruct (l_outputs l) as [|x xs] eqn:Eo; [|right; exists 0, id; econstructor; [eassumption|assumption|left; congruence]].
  destruct (l_parent l) as [p|] eqn:Ep; [|right; exists 0, id; econstructor; eauto].
  pose proof (nth_skels _ _ _ Hl) as Hs. rewrite Ep in Hs.
  destruct (si_parent _ _ _ (iv_sk _ I) _ _ _ Hs) as (Hlt & pn & pp & H1 & H2).
  apply nth_skels_inv in H1 as (pl & H1 & _ & _).
  destruct (IH p pl ltac:(lia) H1) as [Hb|(d & o & Hc)].
  - left. eapply bl_up; eassumption.
  - right. exists (S d), o. eapply cl_up; eassumption.
Qed.
Lemma blocked_route W v id l : inv W -> blocked W v id -> nth_error (w_loggers W) id = Some l -> route W v (l_name l) [].
Proof.
  intros I H. revert l. induction H as [id Hv|id l0 p Hl Hv Ho Hp H IH]; intros l Hl'.
  - eapply rt_blocked; [apply Level_name; eassumption|assumption].
  - assert (l0 = l) by congruence. subst l0. pose proof (nth_skels _ _ _ Hl) as Hs. rewrite Hp in Hs.
    destruct (si_parent _ _ _ (iv_sk _ I) _ _ _ Hs) as (Hlt & pn & pp & H1 & H2).
    apply nth_skels_inv in H1 as (pl & H1 & <- & _).
    eapply rt_up; [apply Level_name; eassumption|assumption|exact Hl|reflexivity|assumption| |exact H2|auto].
    intros Hr. apply (si_root _ _ _ (iv_sk _ I) _ _ _ Hs) in Hr. discriminate.
Qed.
Lemma climbs_route W v id d o l lo : inv W -> climbs W v id d o -> nth_error (w_loggers W) id = Some l ->
  nth_error (w_loggers W) o = Some lo -> route W v (l_name l) (l_outputs lo).
Proof.
  intros I H. revert l lo. induction H as [id l0 Hl Hv Ho|id l0 p d o Hl Hv Ho Hp H IH]; intros l lo Hl' Hlo.
  - assert (l0 = l) by congruence. assert (lo = l) by congruence. subst.
    pose proof (nth_skels _ _ _ Hl) as Hs.
    destruct (list_eq_dec Nat.eq_dec (l_outputs l) []) as [E|E].
    + destruct Ho as [Ho|Ho]; [congruence|]. rewrite E.
      assert (Hn : l_name l = rootName) by (apply (si_root _ _ _ (iv_sk _ I) _ _ _ Hs); assumption).
      pose proof (Level_name _ _ _ I Hl) as HL. rewrite Hn in *. eapply rt_none; eassumption.
    + eapply rt_here; [apply Level_name; eassumption|assumption|eassumption|reflexivity|assumption].
  - assert (l0 = l) by congruence. subst l0. pose proof (nth_skels _ _ _ Hl) as Hs. rewrite Hp in Hs.
    destruct (si_parent _ _ _ (iv_sk _ I) _ _ _ Hs) as (Hlt & pn & pp & H1 & H2).
    apply nth_skels_inv in H1 as (pl & H1 & <- & _).
    eapply rt_up; [apply Level_name; eassumption|assumption|exact Hl|reflexivity|assumption| |exact H2|auto].
    intros Hr. apply (si_root _ _ _ (iv_sk _ I) _ _ _ Hs) in Hr. discriminate.
Qed.
Lemma climbs_end W v id d o : climbs W v id d o -> exists lo, nth_error (w_loggers W) o = Some lo /\
  (Level W o <= v)%Z /\ (l_outputs lo <> [] \/ l_parent lo = None).
Proof. induction 1; eauto. Qed.

(** ** write *)
Definition deliver (P : params) (W : world) (lo : logger) (c : ctx) (name : str) (skip : Z) (lvl : level)
  (fmt : str) (args : list value) (now : Z) (stk : stack) : res world :=
  bind (capture (p_env P) (p_fgetci P :: stk) (l_flag lo) (mkEvent fmt args name lvl now skip c)) (fun evt =>
  dispatch (p_env P) (p_fsend P ++ stk)
    (match l_outputs lo with [] => set_warn W (w_warn W ++ [name]) | _ => W end) (l_outputs lo) evt).
Lemma repeat_snoc_app {A} (x : A) n l : repeat x n ++ x :: l = x :: repeat x n ++ l.
Proof. induction n as [|n IH]; cbn; [reflexivity|now rewrite IH]. Qed.
Lemma write_blocked P W v : inv W -> forall id, blocked W v id -> forall fuel l c name skip fmt args now stk,
  id < fuel -> nth_error (w_loggers W) id = Some l ->
  write P fuel W id c name skip v fmt args now stk = Ok W.
Proof.
  intros I id H. induction H as [id Hv|id l0 p Hl Hv Ho Hp H IH]; intros fuel l c name skip fmt args now stk Hf Hl';
    (destruct fuel as [|fuel]; [lia|]); cbn [write]; rewrite Hl'; unfold LevelEnabled.
  - destruct (Z.leb_spec (Level W id) v); [lia|]. reflexivity.
  - destruct (Z.leb_spec (Level W id) v); [|lia]. cbn [negb]. assert (l0 = l) by congruence. subst l0.
    rewrite Ho, Hp. pose proof (nth_skels _ _ _ Hl) as Hs. rewrite Hp in Hs.
    destruct (si_parent _ _ _ (iv_sk _ I) _ _ _ Hs) as (Hlt & pn & pp & H1 & H2).
    apply nth_skels_inv in H1 as (pl & H1 & _ & _). eapply IH; [lia|eassumption].
Qed.
Lemma write_climbs P W v : inv W -> forall id d o, climbs W v id d o ->
  forall fuel l lo c name skip fmt args now stk, id < fuel -> nth_error (w_loggers W) id = Some l ->
  nth_error (w_loggers W) o = Some lo ->
  write P fuel W id c name skip v fmt args now stk =
  deliver P W lo (match d with O => c | _ => CtxBackground end) name (skip + Z.of_nat d)%Z v fmt args now
    (repeat (p_fwrite P) (S d) ++ stk).
Proof.
  intros I id d o H. induction H as [id l0 Hl Hv Ho|id l0 p d o Hl Hv Ho Hp H IH];
    intros fuel l lo c name skip fmt args now stk Hf Hl' Hlo;
    (destruct fuel as [|fuel]; [lia|]); cbn [write]; rewrite Hl'; unfold LevelEnabled.
  - destruct (Z.leb_spec (Level W id) v); [|lia]. cbn [negb]. assert (l0 = l) by congruence. assert (lo = l) by congruence.
    subst. rewrite Z.add_0_r. cbn [repeat app]. unfold deliver.
    destruct (l_outputs l) as [|x xs] eqn:Eo; [|destruct (l_parent l); reflexivity].
    destruct Ho as [Ho|Ho]; [congruence|]. rewrite Ho. reflexivity.
  - destruct (Z.leb_spec (Level W id) v); [|lia]. cbn [negb]. assert (l0 = l) by congruence. subst l0.
    rewrite Ho, Hp. pose proof (nth_skels _ _ _ Hl) as Hs. rewrite Hp in Hs.
    destruct (si_parent _ _ _ (iv_sk _ I) _ _ _ Hs) as (Hlt & pn & pp & H1 & H2).
    apply nth_skels_inv in H1 as (pl & H1 & _ & _).
    rewrite (IH fuel pl lo CtxBackground name (skip + 1)%Z fmt args now (p_fwrite P :: stk)); [|lia|assumption|assumption].
    replace (skip + 1 + Z.of_nat d)%Z with (skip + Z.of_nat (S d))%Z by lia.
    change (repeat (p_fwrite P) (S (S d)) ++ stk) with (p_fwrite P :: repeat (p_fwrite P) (S d) ++ stk).
    rewrite <- repeat_snoc_app. destruct d; reflexivity.
Qed.

(** ** What formatting may do to an event *)
Definition kept (e e' : event) : Prop := same_but_site e e' /\
  (ctx_Value (ev_ctx e') caller_key = ctx_Value (ev_ctx e) caller_key \/
   exists ci, ctx_Value (ev_ctx e') caller_key = Ok (VCaller ci)).
Lemma kept_refl e : kept e e.
Proof. split; [apply same_refl|auto]. Qed.
Lemma kept_trans e e1 e2 : kept e e1 -> kept e1 e2 -> kept e e2.
Proof.
  intros [S1 K1] [S2 K2]. split; [eapply same_trans; eassumption|].
  destruct K2 as [K2|K2]; [|auto]. rewrite K2. assumption.
Qed.
Lemma kept_set e c v : (forall k, k <> caller_key -> ctx_Value c k = ctx_Value (ev_ctx e) k) ->
  kept e (set_ctx e (CtxWith c caller_key (VCaller v))).
Proof.
  intros H. split; [now apply same_set|]. right. exists v. cbn [set_ctx ev_ctx ctx_Value]. now rewrite str_eqb_refl.
Qed.
Lemma getCallerInfo_kept E stk e nf ci e' : getCallerInfo E stk e nf = Ok (ci, e') -> kept e e'.
Proof.
  unfold getCallerInfo. destruct (ctx_Value (ev_ctx e) caller_key) as [v|] eqn:Ev; [|discriminate]. cbn [bind].
  destruct v; try discriminate.
  - destruct (runtime_Caller stk (ev_depth e + 1)) as [fr|]; cbn [ci_pkg]; cbn [str_eqb andb];
      (destruct nf; cbn [andb]; [|intros [= <- <-]; now apply kept_set]);
      cbn [ci_pc ci_file ci_line]; match goal with |- context [e_funcForPC E ?x] => destruct (e_funcForPC E x) end;
      try destruct (split_func _); intros [= <- <-]; now apply (kept_set e).
  - destruct (nf && str_eqb (ci_pkg ci0) []); [|intros [= <- <-]; apply kept_refl].
    destruct (e_funcForPC E (ci_pc ci0)); [|intros [= <- <-]; apply kept_refl].
    destruct (split_func l) as [p f]. intros [= <- <-]. now apply kept_set.
Qed.
Lemma run_ffunc_kept E stk fn p e v e' : run_ffunc E stk fn p e = Ok (v, e') -> kept e e'.
Proof.
  destruct fn; cbn [run_ffunc]; try (intros [= <- <-]; apply kept_refl);
    try (destruct (getCallerInfo E stk e _) as [[ci e1]|] eqn:Eg; [|discriminate]; cbn [bind];
         intros [= <- <-]; eapply getCallerInfo_kept; eassumption).
  destruct (ctx_Value _ _); [|discriminate]. cbn [bind]. intros [= <- <-]. apply kept_refl.
Qed.
Lemma format_part_kept E stk p e s e' : format_part E stk p e = Ok (s, e') -> kept e e'.
Proof.
  unfold format_part. intros H.
  destruct (p_type p); destruct (p_func p) as [fn|]; try discriminate;
    try (injection H as <- <-; apply kept_refl);
    destruct (p_fmtStr p);
    (destruct (run_ffunc E stk fn p e) as [[v e1]|] eqn:Er; [|discriminate]; cbn [bind] in H; apply run_ffunc_kept in Er);
    try (injection H as <- <-; assumption);
    destruct v; try discriminate; try (injection H as <- <-; assumption);
    (destruct (run_ffunc E stk fn p e1) as [[v2 e2]|] eqn:Er2; [|discriminate]; cbn [bind] in H;
     apply run_ffunc_kept in Er2; injection H as <- <-; eapply kept_trans; eassumption).
Qed.
Lemma format_parts_kept E stk ps : forall e s e', format_parts E stk ps e = Ok (s, e') -> kept e e'.
Proof.
  induction ps as [|p ps IH]; intros e s e'; cbn [format_parts]; [intros [= <- <-]; apply kept_refl|].
  destruct (format_part E stk p e) as [[s1 e1]|] eqn:E1; [|discriminate]. cbn [bind].
  destruct (format_parts E stk ps e1) as [[s2 e2]|] eqn:E2; [|discriminate]. cbn [bind]. intros [= <- <-].
  eapply kept_trans; [eapply format_part_kept; eassumption|eapply IH; eassumption].
Qed.
Lemma Format_kept E stk f e s e' : fmt_Format E stk f e = Ok (s, e') -> kept e e'.
Proof.
  destruct f; cbn [fmt_Format]; [apply format_parts_kept|]. destruct (fmt e); [|discriminate]. intros [= <- <-]. apply kept_refl.
Qed.
Lemma out_Send_kept E stk o e o' e' : out_Send E stk o e = Ok (o', e') -> kept e e'.
Proof.
  unfold out_Send, base_Send, syslog_Send. intros H.
  destruct (os_sink (o_spec o)), (os_async (o_spec o)); try (destruct (send e); [|discriminate H]); try (injection H as <- <-; apply kept_refl);
    (destruct (ev_level e <? os_threshold (o_spec o))%Z; [injection H as <- <-; apply kept_refl|]);
    (destruct (o_fmt o) as [f|]; [destruct (fmt_Format E stk f e) as [[b e1]|] eqn:Ef; [|discriminate]; apply Format_kept in Ef|]);
    cbn [bind] in H; injection H as <- <-; try assumption; apply kept_refl.
Qed.
Lemma kept_formattable e e' : kept e e' -> formattable e -> formattable e'.
Proof.
  intros [(_ & _ & _ & _ & _ & _ & Hs) K] [Ht Hk]. split.
  - intros k. destruct (str_eqb_spec k caller_key) as [->|Hne]; [|rewrite Hs by assumption; apply Ht].
    destruct K as [->|[ci ->]]; eauto.
  - destruct K as [K|K]; [|auto]. change ($"__caller_info") with caller_key in *. rewrite K. assumption.
Qed.

(** ** dispatch *)
Fixpoint out_runs (E : env) (x : output) (evs : list (stack * event)) : res output :=
  match evs with
  | [] => Ok x
  | (stk, e) :: evs' => bind (out_Send E stk x e) (fun '(x', _) => out_runs E x' evs')
  end.
Lemma dispatch_spec E stk ops : forall W e W', dispatch E stk W ops e = Ok W' ->
  exists evs, length evs = length ops /\ Forall (kept e) evs /\
    w_sent W' = w_sent W ++ combine ops (map (pair stk) evs) /\ w_warn W' = w_warn W /\
    (forall i x, nth_error (w_heap W) i = Some x -> exists l x', sent_to i (combine ops (map (pair stk) evs)) l /\
       nth_error (w_heap W') i = Some x' /\ out_runs E x l = Ok x').
Proof.
  induction ops as [|j ops IH]; intros W e W' H; cbn [dispatch] in H.
  - injection H as <-. exists []. cbn. rewrite app_nil_r. repeat split; auto. intros i x Hx. exists [], x.
    split; [constructor|]. auto.
  - destruct (nth_error (w_heap W) j) as [o|] eqn:En; [|discriminate].
    destruct (out_Send E stk o e) as [[o' e']|] eqn:Es; [|discriminate]. cbn [bind] in H.
    apply IH in H as (evs & Hlen & Hk & Hs & Hw & Hh). cbn [w_sent w_warn w_heap set_sent set_heap] in *.
    pose proof (out_Send_kept _ _ _ _ _ _ Es) as Hke.
    exists (e :: evs). cbn [length map combine]. split; [congruence|]. split.
    { constructor; [apply kept_refl|]. eapply Forall_impl; [|eassumption]. intros a Ha. eapply kept_trans; eassumption. }
    split; [rewrite Hs, <- app_assoc; reflexivity|]. split; [assumption|].
    intros i x Hx. destruct (Nat.eq_dec i j) as [->|Hne].
    + assert (x = o) by congruence. subst x.
      destruct (Hh j o') as (l & x' & Hl & Hx' & Hr); [now rewrite nth_upd_eq with (x := o)|].
      exists ((stk, e) :: l), x'. split; [now constructor|]. split; [assumption|]. cbn [out_runs]. rewrite Es. assumption.
    + destruct (Hh i x) as (l & x' & Hl & Hx' & Hr); [now rewrite nth_upd_ne|].
      exists l, x'. split; [constructor; [congruence|assumption]|]. auto.
Qed.
Lemma sent_to_fun i ds a b : sent_to i ds a -> sent_to i ds b -> a = b.
Proof.
  intros H; revert b; induction H; intros b Hb; inversion Hb; subst; try congruence; auto. f_equal; auto.
Qed.
Lemma sent_to_none i ds : ~ In i (map fst ds) -> sent_to i ds [].
Proof.
  induction ds as [|[j d] ds IH]; cbn; intros H; [constructor|]. apply sent_other; [intros ->; apply H; auto|].
  apply IH. intros Hi; apply H; auto.
Qed.
Lemma sent_to_app i a b la lb : sent_to i a la -> sent_to i b lb -> sent_to i (a ++ b) (la ++ lb).
Proof. intros H Hb; induction H; cbn; [assumption|now constructor|now constructor]. Qed.
Lemma sent_to_total i ds : exists l, sent_to i ds l.
Proof.
  induction ds as [|[j d] ds [l IH]]; [exists []; constructor|].
  destruct (Nat.eq_dec j i) as [->|Hne]; [exists (d :: l)|exists l]; now constructor.
Qed.

(** Outputs whose Send formats and writes at once. *)
Definition sync_base (x : output) : Prop :=
  os_async (o_spec x) = None /\ match os_sink (o_spec x) with SinkSyslog _ | SinkCustom _ => False | _ => True end.
Definition sync_syslog (x : output) : Prop :=
  os_async (o_spec x) = None /\ match os_sink (o_spec x) with SinkSyslog _ => True | _ => False end.
Lemma out_runs_base E evs : forall x x', sync_base x -> out_runs E x evs = Ok x' ->
  exists ws, base_run E (o_fmt x) (os_threshold (o_spec x)) evs = Ok ws /\ x' = with_writes ws x.
Proof.
  induction evs as [|[stk e] evs IH]; intros x x' Hs H; cbn [out_runs base_run] in *.
  - injection H as <-. exists []. split; [reflexivity|]. destruct x; unfold with_writes; cbn. now rewrite app_nil_r.
  - assert (Hsend : out_Send E stk x e = bind (base_Send E stk (o_fmt x) (os_threshold (o_spec x)) e)
                                            (fun '(ws, e') => Ok (with_writes ws x, e'))).
    { destruct Hs as [Ha Hk]. unfold out_Send. rewrite Ha. destruct (os_sink (o_spec x)); try reflexivity; contradiction. }
    rewrite Hsend in H. destruct (base_Send _ _ _ _ _) as [[w e']|]; [|discriminate]. cbn [bind] in *.
    destruct (IH (with_writes w x) x' Hs H) as (ws & Hr & ->). cbn [with_writes o_fmt o_spec] in Hr.
    rewrite Hr. cbn [bind]. exists (w ++ ws). split; [reflexivity|]. unfold with_writes; cbn. now rewrite app_assoc.
Qed.
Lemma out_runs_sys E evs : forall x x', sync_syslog x -> out_runs E x evs = Ok x' ->
  exists ws, syslog_run E (o_fmt x) (os_threshold (o_spec x)) evs = Ok ws /\ x' = with_sys ws x.
Proof.
  induction evs as [|[stk e] evs IH]; intros x x' Hs H; cbn [out_runs syslog_run] in *.
  - injection H as <-. exists []. split; [reflexivity|]. destruct x; unfold with_sys; cbn. now rewrite app_nil_r.
  - assert (Hsend : out_Send E stk x e = bind (syslog_Send E stk (o_fmt x) (os_threshold (o_spec x)) e)
                                            (fun '(ws, e') => Ok (with_sys ws x, e'))).
    { destruct Hs as [Ha Hk]. unfold out_Send. rewrite Ha. destruct (os_sink (o_spec x)); try reflexivity; contradiction. }
    rewrite Hsend in H. destruct (syslog_Send _ _ _ _ _) as [[w e']|]; [|discriminate]. cbn [bind] in *.
    destruct (IH (with_sys w x) x' Hs H) as (ws & Hr & ->). cbn [with_sys o_fmt o_spec] in Hr.
    rewrite Hr. cbn [bind]. exists (w ++ ws). split; [reflexivity|]. unfold with_sys; cbn. now rewrite app_assoc.
Qed.

(** Formatters that exist: built by Parser or supplied by the user; outputs that return. *)
Definition real (x : output) : Prop := (exists h, built h (o_fmt x)) /\ returns x.
Lemma out_Send_total E stk x e : real x -> formattable e -> exists x' e', out_Send E stk x e = Ok (x', e') /\ real x'.
Proof.
  intros [[h Hb] Hr] Hf. unfold out_Send.
  destruct (base_Send_spec E stk h (o_fmt x) (os_threshold (o_spec x)) e Hb Hf) as (ws & e1 & -> & _).
  destruct (syslog_Send_spec E stk h (o_fmt x) (os_threshold (o_spec x)) e Hb Hf) as (ws2 & e2 & -> & _). cbn [bind].
  destruct (os_sink (o_spec x)) eqn:Es; [| | | |rewrite (Hr _ Es e)]; destruct (os_async (o_spec x)); eexists _, _; (split; [reflexivity|]);
    (split; [exists h; exact Hb|exact Hr]).
Qed.
Lemma dispatch_total E stk ops : forall W e, Forall (fun o => o < length (w_heap W)) ops -> formattable e ->
  (forall i x, nth_error (w_heap W) i = Some x -> real x) -> exists W', dispatch E stk W ops e = Ok W'.
Proof.
  induction ops as [|j ops IH]; intros W e Hops Hf Hr; cbn [dispatch]; [eauto|].
  apply Forall_cons_iff in Hops as [Hj Hops].
  destruct (nth_error (w_heap W) j) as [o|] eqn:En; [|apply nth_error_None in En; lia].
  destruct (out_Send_total E stk o e (Hr _ _ En) Hf) as (o' & e' & Es & Hro). rewrite Es. cbn [bind].
  apply IH.
  - cbn. now rewrite upd_length.
  - eapply kept_formattable; [eapply out_Send_kept; eassumption|assumption].
  - cbn. intros i x. rewrite nth_upd. destruct (Nat.eqb_spec i j) as [->|]; [rewrite En; cbn; intros [= <-]; assumption|apply Hr].
Qed.

(** ** Capture *)
Lemma capture_kept E stk flag e e' : capture E stk flag e = Ok e' -> kept e e'.
Proof.
  unfold capture. destruct (flag =? 2)%Z; [|destruct (flag =? 1)%Z; [|intros [= <-]; apply kept_refl]];
    (destruct (getCallerInfo E stk e _) as [[ci e1]|] eqn:Eg; [|discriminate]; cbn; intros [= <-];
     eapply getCallerInfo_kept; eassumption).
Qed.
Lemma getCallerInfo_raw E stk e raw nf : raw_site stk e raw ->
  exists ci e', getCallerInfo E stk e nf = Ok (ci, e') /\ same_but_site e e' /\
    (nf = true -> ctx_Value (ev_ctx e') caller_key = Ok (VCaller (complete E raw))) /\
    (nf = false -> ctx_Value (ev_ctx e') caller_key = Ok (VCaller raw)).
Proof.
  intros Hraw. unfold getCallerInfo, complete.
  assert (Hset : forall x, same_but_site e (set_ctx e (CtxWith (ev_ctx e) caller_key x))) by (intros; now apply same_set).
  destruct Hraw as [ci Hv|fr Hv Hd Hn|Hv Hn]; change ($"__caller_info") with caller_key in Hv; rewrite Hv; cbn [bind].
  - destruct nf; cbn [andb].
    + destruct (ci_pkg ci) as [|a b] eqn:Ep; cbn [str_eqb].
      * destruct (e_funcForPC E (ci_pc ci)) as [fs|] eqn:Ef.
        -- destruct (split_func fs) as [p f]. eexists _, _. split; [reflexivity|]. split; [apply Hset|].
           split; [intros _|discriminate]. cbn [set_ctx ev_ctx ctx_Value]. now rewrite str_eqb_refl.
        -- eexists _, _. split; [reflexivity|]. split; [apply same_refl|]. split; [auto|discriminate].
      * eexists _, _. split; [reflexivity|]. split; [apply same_refl|]. split; [auto|discriminate].
    + eexists _, _. split; [reflexivity|]. split; [apply same_refl|]. split; [discriminate|auto].
  - assert (Hci : runtime_Caller stk (ev_depth e + 1) = Some fr).
    { unfold runtime_Caller. destruct (Z.ltb_spec (ev_depth e + 1) 0); [lia|assumption]. }
    rewrite Hci. cbn [ci_pkg ci_pc ci_file ci_line str_eqb]. destruct nf; cbn [andb].
    + destruct (e_funcForPC E (fr_pc fr)) as [fs|] eqn:Ef.
      * destruct (split_func fs) as [p f]. eexists _, _. split; [reflexivity|]. split; [apply Hset|].
        split; [intros _|discriminate]. cbn [set_ctx ev_ctx ctx_Value]. now rewrite str_eqb_refl.
      * eexists _, _. split; [reflexivity|]. split; [apply Hset|].
        split; [intros _|discriminate]. cbn [set_ctx ev_ctx ctx_Value]. now rewrite str_eqb_refl.
    + eexists _, _. split; [reflexivity|]. split; [apply Hset|].
      split; [discriminate|intros _]. cbn [set_ctx ev_ctx ctx_Value]. now rewrite str_eqb_refl.
  - assert (Hci : runtime_Caller stk (ev_depth e + 1) = None).
    { unfold runtime_Caller. destruct (Z.ltb_spec (ev_depth e + 1) 0); [reflexivity|].
      destruct Hn as [Hn|Hn]; [lia|assumption]. }
    rewrite Hci. cbn [ci_pkg ci_pc ci_file ci_line str_eqb]. destruct nf; cbn [andb].
    + destruct (e_funcForPC E 0) as [fs|] eqn:Ef.
      * destruct (split_func fs) as [p f]. eexists _, _. split; [reflexivity|]. split; [apply Hset|].
        split; [intros _|discriminate]. cbn [set_ctx ev_ctx ctx_Value]. now rewrite str_eqb_refl.
      * eexists _, _. split; [reflexivity|]. split; [apply Hset|].
        split; [intros _|discriminate]. cbn [set_ctx ev_ctx ctx_Value]. now rewrite str_eqb_refl.
    + eexists _, _. split; [reflexivity|]. split; [apply Hset|].
      split; [discriminate|intros _]. cbn [set_ctx ev_ctx ctx_Value]. now rewrite str_eqb_refl.
Qed.
Lemma capture_total E stk flag e : formattable e -> exists e', capture E stk flag e = Ok e'.
Proof.
  intros Hf. destruct (formattable_site stk e Hf) as [raw Hraw]. unfold capture.
  destruct (flag =? 2)%Z; [|destruct (flag =? 1)%Z; [|eauto]].
  - destruct (getCallerInfo_raw E stk e raw true Hraw) as (ci & e' & -> & _). cbn. eauto.
  - destruct (getCallerInfo_raw E stk e raw false Hraw) as (ci & e' & -> & _). cbn. eauto.
Qed.
(** Captured information stays what it is, and complete information is not changed any more. *)
Lemma capture_site E stk flag e raw e' : capture E stk flag e = Ok e' -> raw_site stk e raw ->
  (flag = 2%Z -> ctx_Value (ev_ctx e') caller_key = Ok (VCaller (complete E raw))) /\
  (flag = 1%Z -> ctx_Value (ev_ctx e') caller_key = Ok (VCaller raw)).
Proof.
  intros H Hraw. split; intros ->; unfold capture in H; cbn [Z.eqb Pos.eqb] in H.
  - destruct (getCallerInfo_raw E stk e raw true Hraw) as (ci & e1 & Eg & _ & Ht & _). rewrite Eg in H.
    cbn in H. injection H as <-. auto.
  - destruct (getCallerInfo_raw E stk e raw false Hraw) as (ci & e1 & Eg & _ & _ & Ht). rewrite Eg in H.
    cbn in H. injection H as <-. auto.
Qed.

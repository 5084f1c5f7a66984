(** Lemmas for the property of log calls stopped by a panic. *)
From Verif Require Import GoStr Utf8 LevelModel EventModel LayoutModel LayoutSpec LayoutProofs FormatSpec FormatProofs ConfModel
  OutputModel OutputSpec OutputProofs WorldModel PanicModel WorldSpec PanicSpec WorldBase PanicBase WorldInv WorldProofs P_Hier LogProofs P_Log.
Local Open Scope Z_scope.

(** Where a dispatch stops. *)
Lemma try_dispatch_spec E stk ops : forall W e W', Forall (fun o => (o < length (w_heap W))%nat) ops -> try_dispatch E stk W ops e = Raised W' ->
  exists ops1 i ops2 x e1, ops = ops1 ++ i :: ops2 /\ dispatch E stk W ops1 e = Ok W' /\
    nth_error (w_heap W') i = Some x /\ kept e e1 /\ out_Send E stk x e1 = Panic.
Proof.
  induction ops as [|j ops IH]; intros W e W' V H; cbn [try_dispatch] in H; [discriminate|]. apply Forall_cons_iff in V as [Vj V].
  destruct (nth_error (w_heap W) j) as [o|] eqn:En; [|apply nth_error_None in En; lia].
  destruct (out_Send E stk o e) as [[o' e']|] eqn:Es.
  - apply IH in H as (ops1 & i & ops2 & x & e1 & -> & H1 & H2 & H3 & H4); [|cbn; now rewrite upd_length].
    exists (j :: ops1), i, ops2, x, e1. split; [reflexivity|]. split; [cbn [dispatch]; rewrite En, Es; exact H1|].
    split; [exact H2|]. split; [|exact H4]. eapply kept_trans; [eapply out_Send_kept; exact Es|exact H3].
  - injection H as <-. exists [], j, ops, o, e. split; [reflexivity|]. split; [reflexivity|]. split; [exact En|]. split; [apply kept_refl|exact Es].
Qed.
Definition try_deliver (P : params) (W : world) (l : logger) (c : ctx) (name : str) (skip : Z) (lvl : level) (fmt : str)
  (args : list value) (now : Z) (stk : stack) : pres unit :=
  let W1 := match l_outputs l with [] => set_warn W (w_warn W ++ [name]) | _ => W end in
  match capture (p_env P) (p_fgetci P :: stk) (l_flag l) (mkEvent fmt args name lvl now skip c) with
  | Panic => Raised W1
  | Ok evt => try_dispatch (p_env P) (p_fsend P ++ stk) W1 (l_outputs l) evt
  end.
Lemma try_write_blocked P W v : inv W -> forall id, blocked W v id -> forall fuel l c name skip fmt args now stk,
  (id < fuel)%nat -> nth_error (w_loggers W) id = Some l ->
  try_write P fuel W id c name skip v fmt args now stk = Done W tt.
Proof.
  intros I id H. induction H as [id Hv|id l0 p Hl Hv Ho Hp H IH]; intros fuel l c name skip fmt args now stk Hf Hl';
    (destruct fuel as [|fuel]; [lia|]); cbn [try_write]; rewrite Hl'; unfold LevelEnabled.
  - destruct (Z.leb_spec (Level W id) v); [lia|]. reflexivity.
  - destruct (Z.leb_spec (Level W id) v); [|lia]. cbn [negb]. assert (l0 = l) by congruence. subst l0.
    rewrite Ho, Hp. pose proof (nth_skels _ _ _ Hl) as Hs. rewrite Hp in Hs.
    destruct (si_parent _ _ _ (iv_sk _ I) _ _ _ Hs) as (Hlt & pn & pp & H1 & H2).
    apply nth_skels_inv in H1 as (pl & H1 & _ & _). eapply IH; [lia|eassumption].
Qed.
Lemma try_write_climbs P W v : inv W -> forall id d o, climbs W v id d o ->
  forall fuel l lo c name skip fmt args now stk, (id < fuel)%nat -> nth_error (w_loggers W) id = Some l ->
  nth_error (w_loggers W) o = Some lo ->
  try_write P fuel W id c name skip v fmt args now stk =
  try_deliver P W lo (match d with O => c | _ => CtxBackground end) name (skip + Z.of_nat d) v fmt args now
    (repeat (p_fwrite P) (S d) ++ stk).
Proof.
  intros I id d o H. induction H as [id l0 Hl Hv Ho|id l0 p d o Hl Hv Ho Hp H IH];
    intros fuel l lo c name skip fmt args now stk Hf Hl' Hlo;
    (destruct fuel as [|fuel]; [lia|]); cbn [try_write]; rewrite Hl'; unfold LevelEnabled.
  - destruct (Z.leb_spec (Level W id) v); [|lia]. cbn [negb]. assert (l0 = l) by congruence. assert (lo = l) by congruence.
    subst. rewrite Z.add_0_r. cbn [repeat app]. unfold try_deliver.
    destruct (l_outputs l) as [|x xs] eqn:Eo; [|destruct (l_parent l); reflexivity].
    destruct Ho as [Ho|Ho]; [congruence|]. rewrite Ho. reflexivity.
  - destruct (Z.leb_spec (Level W id) v); [|lia]. cbn [negb]. assert (l0 = l) by congruence. subst l0.
    rewrite Ho, Hp. pose proof (nth_skels _ _ _ Hl) as Hs. rewrite Hp in Hs.
    destruct (si_parent _ _ _ (iv_sk _ I) _ _ _ Hs) as (Hlt & pn & pp & H1 & H2).
    apply nth_skels_inv in H1 as (pl & H1 & _ & _).
    rewrite (IH fuel pl lo CtxBackground name (skip + 1) fmt args now (p_fwrite P :: stk)); [|lia|assumption|assumption].
    replace (skip + 1 + Z.of_nat d) with (skip + Z.of_nat (S d)) by lia.
    change (repeat (p_fwrite P) (S (S d)) ++ stk) with (p_fwrite P :: repeat (p_fwrite P) (S d) ++ stk).
    rewrite <- repeat_snoc_app. destruct d; reflexivity.
Qed.
(** The whole of a stopped log call: the logger [o] whose outputs are used, [d] levels up, and the outputs that were served. *)
Record stop (P : params) (W : world) (id : nat) (l : logger) (c : ctx) (v : via) (lvl : level) (fmt : str) (args : list value) (now : Z)
  (ustk : stack) (W' : world) (outs ops1 rest : list nat) (e : event) : Prop := {
  sp_route : route W lvl (l_name l) outs;
  sp_split : outs = ops1 ++ rest;
  sp_first : rest = [] -> outs = [];
  sp_run : exists stk W1, (W1 = W \/ outs = [] /\ W1 = set_warn W (w_warn W ++ [l_name l])) /\ dispatch (p_env P) stk W1 ops1 e = Ok W';
  sp_event : exists d c', (c' = c \/ c' = CtxBackground) /\ kept (mkEvent fmt args (l_name l) lvl now (l_skip l + Z.of_nat d) c') e;
  sp_panic : good_ctx c -> exists i ops2 x stk e1, rest = i :: ops2 /\ nth_error (w_heap W') i = Some x /\ kept e e1 /\ out_Send (p_env P) stk x e1 = Panic
}.
Lemma stop_spec P W id l c v lvl fmt args now ustk W' : inv W -> nth_error (w_loggers W) id = Some l ->
  raised P W (OLog id c v lvl fmt args now ustk) W' -> exists outs ops1 rest e, stop P W id l c v lvl fmt args now ustk W' outs ops1 rest e.
Proof.
  unfold raised. cbn [try_exec]. intros I Hl H. injection H as H.
  destruct (try_Printf P W id c v lvl fmt args now ustk) as [X u|X] eqn:E; cbn [pbind] in H; [discriminate|]. injection H as ->.
  unfold try_Printf in E. rewrite Hl in E.
  destruct (climbs_or_blocked W lvl I (S id) id l (Nat.lt_succ_diag_r id) Hl) as [Hb|(d & o & Hc)].
  { rewrite (try_write_blocked P W lvl I id Hb (S id) l) in E; [discriminate|lia|assumption]. }
  destruct (climbs_end _ _ _ _ _ Hc) as (lo & Hlo & _).
  rewrite (try_write_climbs P W lvl I id d o Hc (S id) l lo) in E by (lia || assumption). unfold try_deliver in E.
  pose proof (climbs_route _ _ _ _ _ _ _ I Hc Hl Hlo) as Hr.
  match type of E with match capture ?EE ?s ?f ?ev with _ => _ end = _ => destruct (capture EE s f ev) as [e|] eqn:Ec; set (ev0 := ev) in * end.
  - apply try_dispatch_spec in E as (ops1 & i & ops2 & x & e1 & Ho & Hd & Hx & Hk & Hp).
    2:{ pose proof (iv_ops _ I _ _ Hlo) as Ho. destruct (l_outputs lo); exact Ho. }
    exists (l_outputs lo), ops1, (i :: ops2), e. constructor.
    + exact Hr.
    + exact Ho.
    + discriminate.
    + destruct (l_outputs lo) eqn:El; eexists _, _; (split; [|exact Hd]); [right; auto|left; reflexivity].
    + exists d, (match d with O => c | _ => CtxBackground end). split; [destruct d; auto|]. eapply capture_kept. exact Ec.
    + intros _. exists i, ops2, x. eexists _, e1. split; [reflexivity|]. split; [exact Hx|]. split; [exact Hk|exact Hp].
  - injection E as E. exists (l_outputs lo), [], (l_outputs lo), ev0. constructor.
    + exact Hr.
    + reflexivity.
    + auto.
    + exists [], W'. split; [|reflexivity]. destruct (l_outputs lo); subst W'; [right; auto|left; reflexivity].
    + exists d, (match d with O => c | _ => CtxBackground end). split; [destruct d; auto|]. apply kept_refl.
    + intros Hg. exfalso.
      assert (Hf : formattable ev0) by (destruct d; apply good_formattable; [assumption|apply good_background]).
      match type of Ec with capture ?EE ?s ?f _ = _ => destruct (capture_total EE s f ev0 Hf) as [e He]; congruence end.
Qed.
Lemma stop_formattable P W id l c v lvl fmt args now ustk W' outs ops1 rest e :
  stop P W id l c v lvl fmt args now ustk W' outs ops1 rest e -> good_ctx c -> formattable e.
Proof.
  intros S Hg. destruct (sp_event _ _ _ _ _ _ _ _ _ _ _ _ _ _ _ _ S) as (d & c' & Hc & K). eapply kept_formattable; [exact K|].
  apply good_formattable. destruct Hc as [->| ->]; [exact Hg|apply good_background].
Qed.
(** The deliveries, and the outputs after them. *)
Lemma stop_sent P W id l c v lvl fmt args now ustk W' outs ops1 rest e :
  stop P W id l c v lvl fmt args now ustk W' outs ops1 rest e ->
  exists stk evs, length evs = length ops1 /\ Forall (kept e) evs /\ w_sent W' = w_sent W ++ combine ops1 (map (pair stk) evs) /\
    (w_warn W' = w_warn W \/ w_warn W' = w_warn W ++ [l_name l] /\ outs = []) /\
    forall i x, nth_error (w_heap W) i = Some x -> exists ls x', sent_to i (combine ops1 (map (pair stk) evs)) ls /\
       nth_error (w_heap W') i = Some x' /\ out_runs (p_env P) x ls = Ok x'.
Proof.
  intros S. destruct (sp_run _ _ _ _ _ _ _ _ _ _ _ _ _ _ _ _ S) as (stk & W1 & HW & Hd).
  destruct (dispatch_spec _ _ _ _ _ _ Hd) as (evs & Hlen & Hk & Hs & Hw & Hh).
  exists stk, evs. split; [exact Hlen|]. split; [exact Hk|].
  destruct HW as [->|[Ho ->]]; cbn [w_sent w_warn w_heap set_warn] in *; auto 6.
Qed.

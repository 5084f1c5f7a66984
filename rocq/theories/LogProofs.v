(** Facts about log calls, used by P_Log.v. *)
From Verif Require Import GoStr Utf8 LevelModel EventModel LayoutModel LayoutSpec LayoutProofs FormatSpec FormatProofs ConfModel
  OutputModel OutputSpec OutputProofs WorldModel PanicModel WorldSpec WorldBase PanicBase WorldInv WorldProofs.
Local Open Scope nat_scope.

(** ** Captured caller information is only ever completed *)
Definition ci_later (a b : caller_info) : Prop :=
  ci_file b = ci_file a /\ ci_line b = ci_line a /\ ci_pc b = ci_pc a /\ (ci_pkg a <> [] -> b = a).
Lemma ci_later_refl a : ci_later a a.
Proof. unfold ci_later. auto. Qed.
Lemma ci_later_trans a b c : ci_later a b -> ci_later b c -> ci_later a c.
Proof.
  intros (H1 & H2 & H3 & H4) (K1 & K2 & K3 & K4). unfold ci_later. repeat split; try congruence.
  intros H. specialize (H4 H). subst b. auto.
Qed.
Definition site_kept (e e' : event) : Prop := forall a, ctx_Value (ev_ctx e) caller_key = Ok (VCaller a) ->
  exists b, ctx_Value (ev_ctx e') caller_key = Ok (VCaller b) /\ ci_later a b.
Lemma sk_refl e : site_kept e e.
Proof. intros a H. exists a. split; [assumption|apply ci_later_refl]. Qed.
Lemma sk_trans e e1 e2 : site_kept e e1 -> site_kept e1 e2 -> site_kept e e2.
Proof.
  intros H K a Ha. destruct (H a Ha) as (b & Hb & L). destruct (K b Hb) as (c & Hc & M).
  exists c. split; [assumption|eapply ci_later_trans; eassumption].
Qed.
Lemma getCallerInfo_sk E stk e nf ci e' : getCallerInfo E stk e nf = Ok (ci, e') -> site_kept e e'.
Proof.
  intros H a Ha. unfold getCallerInfo in H. rewrite Ha in H. cbn [bind] in H.
  destruct nf; cbn [andb] in H; [|injection H as <- <-; exists a; split; [assumption|apply ci_later_refl]].
  destruct (str_eqb_spec (ci_pkg a) []) as [Ep|Ep];
    [|injection H as <- <-; exists a; split; [assumption|apply ci_later_refl]].
  destruct (e_funcForPC E (ci_pc a)) as [fs|];
    [|injection H as <- <-; exists a; split; [assumption|apply ci_later_refl]].
  destruct (split_func fs) as [p f]. injection H as <- <-. eexists. cbn [set_ctx ev_ctx ctx_Value].
  rewrite str_eqb_refl. split; [reflexivity|]. unfold ci_later. cbn. repeat split; congruence.
Qed.
Lemma run_ffunc_sk E stk fn p e v e' : run_ffunc E stk fn p e = Ok (v, e') -> site_kept e e'.
Proof.
  destruct fn; cbn [run_ffunc]; try (intros [= <- <-]; apply sk_refl);
    try (destruct (getCallerInfo E stk e _) as [[ci e1]|] eqn:Eg; [|discriminate]; cbn [bind];
         intros [= <- <-]; eapply getCallerInfo_sk; eassumption).
  destruct (ctx_Value _ _); [|discriminate]. cbn [bind]. intros [= <- <-]. apply sk_refl.
Qed.
Lemma format_part_sk E stk p e s e' : format_part E stk p e = Ok (s, e') -> site_kept e e'.
Proof.
  unfold format_part. intros H.
  destruct (p_type p); destruct (p_func p) as [fn|]; try discriminate;
    try (injection H as <- <-; apply sk_refl);
    destruct (p_fmtStr p);
    (destruct (run_ffunc E stk fn p e) as [[v e1]|] eqn:Er; [|discriminate]; cbn [bind] in H; apply run_ffunc_sk in Er);
    try (injection H as <- <-; assumption);
    destruct v; try discriminate; try (injection H as <- <-; assumption);
    (destruct (run_ffunc E stk fn p e1) as [[v2 e2]|] eqn:Er2; [|discriminate]; cbn [bind] in H;
     apply run_ffunc_sk in Er2; injection H as <- <-; eapply sk_trans; eassumption).
Qed.
Lemma format_parts_sk E stk ps : forall e s e', format_parts E stk ps e = Ok (s, e') -> site_kept e e'.
Proof.
  induction ps as [|p ps IH]; intros e s e'; cbn [format_parts]; [intros [= <- <-]; apply sk_refl|].
  destruct (format_part E stk p e) as [[s1 e1]|] eqn:E1; [|discriminate]. cbn [bind].
  destruct (format_parts E stk ps e1) as [[s2 e2]|] eqn:E2; [|discriminate]. cbn [bind]. intros [= <- <-].
  eapply sk_trans; [eapply format_part_sk; eassumption|eapply IH; eassumption].
Qed.
Lemma out_Send_sk E stk o e o' e' : out_Send E stk o e = Ok (o', e') -> site_kept e e'.
Proof.
  assert (F : forall f b e1, fmt_Format E stk f e = Ok (b, e1) -> site_kept e e1).
  { intros f b e1. destruct f; cbn [fmt_Format]; [apply format_parts_sk|]. destruct (fmt e); [|discriminate]. intros [= <- <-]. apply sk_refl. }
  unfold out_Send, base_Send, syslog_Send. intros H.
  destruct (os_sink (o_spec o)), (os_async (o_spec o)); try (destruct (send e); [|discriminate H]); try (injection H as <- <-; apply sk_refl);
    (destruct (ev_level e <? os_threshold (o_spec o))%Z; [injection H as <- <-; apply sk_refl|]);
    (destruct (o_fmt o) as [f|]; [destruct (fmt_Format E stk f e) as [[b e1]|] eqn:Ef; [|discriminate]; apply F in Ef|]);
    cbn [bind] in H; injection H as <- <-; try assumption; apply sk_refl.
Qed.
(** All events of one dispatch, with their sites. *)
Lemma dispatch_sk E stk ops : forall W e W', dispatch E stk W ops e = Ok W' ->
  exists evs, length evs = length ops /\ Forall (site_kept e) evs /\
    w_sent W' = w_sent W ++ combine ops (map (pair stk) evs).
Proof.
  induction ops as [|j ops IH]; intros W e W' H; cbn [dispatch] in H.
  - injection H as <-. exists []. cbn. rewrite app_nil_r. auto.
  - destruct (nth_error (w_heap W) j) as [o|] eqn:En; [|discriminate].
    destruct (out_Send E stk o e) as [[o' e']|] eqn:Es; [|discriminate]. cbn [bind] in H.
    apply IH in H as (evs & Hlen & Hk & Hs). cbn [w_sent set_sent] in Hs.
    pose proof (out_Send_sk _ _ _ _ _ _ Es) as Hke.
    exists (e :: evs). cbn [length map combine]. split; [congruence|]. split.
    { constructor; [apply sk_refl|]. eapply Forall_impl; [|eassumption]. intros a Ha. eapply sk_trans; eassumption. }
    rewrite Hs, <- app_assoc. reflexivity.
Qed.

(** ** Printf as one step *)
Lemma climbs_server W v id d o l : inv W -> climbs W v id d o -> nth_error (w_loggers W) id = Some l -> server W v (l_name l) o.
Proof.
  intros I H. revert l. induction H as [id l0 Hl Hv Ho|id l0 p d o Hl Hv Ho Hp H IH]; intros l Hl';
    assert (l0 = l) by congruence; subst l0; pose proof (nth_skels _ _ _ Hl) as Hs.
  - eapply sv_here; [apply Level_name; eassumption|assumption|eassumption|reflexivity|].
    destruct Ho as [Ho|Ho]; [auto|]. right. now apply (si_root _ _ _ (iv_sk _ I) _ _ _ Hs).
  - rewrite Hp in Hs. destruct (si_parent _ _ _ (iv_sk _ I) _ _ _ Hs) as (Hlt & pn & pp & H1 & H2).
    apply nth_skels_inv in H1 as (pl & H1 & <- & _).
    eapply sv_up; [apply Level_name; eassumption|assumption|exact Hl|reflexivity|assumption| |exact H2|auto].
    intros Hr. apply (si_root _ _ _ (iv_sk _ I) _ _ _ Hs) in Hr. discriminate.
Qed.
Lemma server_fun W v n a : inv W -> server W v n a -> forall m b, server W v m b -> n = m -> a = b.
Proof.
  intros I H. induction H as [n e id l He Hv Hl Hn Ho|n e id l p s He Hv Hl Hn Ho Hr Hp H IH]; intros m b Hb E;
    destruct Hb as [m e2 id2 l2 He2 Hv2 Hl2 Hn2 Ho2|m e2 id2 l2 p2 s2 He2 Hv2 Hl2 Hn2 Ho2 Hr2 Hp2 H2];
    destruct (same_name W m id id2 l l2 I Hl Hl2 (eq_trans Hn E) Hn2); subst id2 l2.
  - reflexivity.
  - destruct Ho as [Ho|Ho]; congruence.
  - destruct Ho2 as [Ho2|Ho2]; congruence.
  - apply (IH _ _ H2). rewrite <- E in Hp2. exact (parent_fun _ _ _ Hp Hp2).
Qed.
Definition caller (P : params) (v : via) (ustk : stack) : stack :=
  p_fprintf P :: match v with Direct => ustk | Named => p_fmethod P :: ustk end.
Lemma Printf_spec P W id l c v lvl fmt args now ustk W' : inv W -> nth_error (w_loggers W) id = Some l ->
  Printf P W id c v lvl fmt args now ustk = Ok W' ->
  (blocked W lvl id /\ W' = W) \/
  exists d o lo e, climbs W lvl id d o /\ nth_error (w_loggers W) o = Some lo /\
    capture (p_env P) (p_fgetci P :: repeat (p_fwrite P) (S d) ++ caller P v ustk) (l_flag lo)
      (mkEvent fmt args (l_name l) lvl now (l_skip l + Z.of_nat d) (match d with O => c | _ => CtxBackground end)) = Ok e /\
    dispatch (p_env P) (p_fsend P ++ repeat (p_fwrite P) (S d) ++ caller P v ustk)
      (match l_outputs lo with [] => set_warn W (w_warn W ++ [l_name l]) | _ => W end) (l_outputs lo) e = Ok W'.
Proof.
  intros I Hl H. unfold Printf in H. rewrite Hl in H.
  destruct (climbs_or_blocked W lvl I (S id) id l (Nat.lt_succ_diag_r id) Hl) as [Hb|(d & o & Hc)].
  - left. split; [assumption|]. rewrite (write_blocked P W lvl I id Hb (S id) l) in H; [congruence|lia|assumption].
  - right. destruct (climbs_end _ _ _ _ _ Hc) as (lo & Hlo & _).
    rewrite (write_climbs P W lvl I id d o Hc (S id) l lo) in H by (lia || assumption).
    unfold deliver in H. exists d, o, lo.
    destruct (capture _ _ _ _) as [e|] eqn:Ec; [|discriminate]. cbn [bind] in H. exists e. auto.
Qed.
Lemma good_formattable c f a n l t d : good_ctx c -> formattable (mkEvent f a n l t d c).
Proof. intros [H1 H2]. split; cbn; [assumption|auto]. Qed.
Lemma good_background : good_ctx CtxBackground.
Proof. split; [intros k; eexists|]; reflexivity. Qed.
Lemma Printf_total P W id l c v lvl fmt args now ustk : inv W -> nth_error (w_loggers W) id = Some l -> good_ctx c ->
  (forall i x, nth_error (w_heap W) i = Some x -> real x) ->
  exists W', Printf P W id c v lvl fmt args now ustk = Ok W'.
Proof.
  intros I Hl Hc Hr. unfold Printf. rewrite Hl.
  destruct (climbs_or_blocked W lvl I (S id) id l (Nat.lt_succ_diag_r id) Hl) as [Hb|(d & o & Hcl)].
  - exists W. rewrite (write_blocked P W lvl I id Hb (S id) l); [reflexivity|lia|assumption].
  - destruct (climbs_end _ _ _ _ _ Hcl) as (lo & Hlo & _).
    rewrite (write_climbs P W lvl I id d o Hcl (S id) l lo) by (lia || assumption). unfold deliver.
    assert (Hf : formattable (mkEvent fmt args (l_name l) lvl now (l_skip l + Z.of_nat d)
        (match d with O => c | _ => CtxBackground end))).
    { destruct d; apply good_formattable; [assumption|apply good_background]. }
    destruct (capture_total (p_env P) (p_fgetci P :: repeat (p_fwrite P) (S d) ++
       (p_fprintf P :: match v with Direct => ustk | Named => p_fmethod P :: ustk end)) (l_flag lo) _ Hf) as [e He].
    rewrite He. cbn [bind]. apply dispatch_total.
    + pose proof (iv_ops _ I _ _ Hlo) as Ho. destruct (l_outputs lo); exact Ho.
    + eapply kept_formattable; [eapply capture_kept; eassumption|assumption].
    + destruct (l_outputs lo); exact Hr.
Qed.

(** ** Sending does not depend on what was sent before *)
Lemma out_Send_same E stk o o2 e o' e' : o_spec o2 = o_spec o -> o_fmt o2 = o_fmt o ->
  out_Send E stk o e = Ok (o', e') -> exists o2', out_Send E stk o2 e = Ok (o2', e').
Proof.
  unfold out_Send. intros -> -> H.
  destruct (os_sink (o_spec o)), (os_async (o_spec o)); try (destruct (send e); [|discriminate H]); try (injection H as <- <-; eauto);
    match type of H with bind ?x _ = _ => destruct x as [[ws e1]|]; [|discriminate] end;
    cbn in *; injection H as <- <-; eauto.
Qed.
Definition alike (W W2 : world) : Prop :=
  map (fun o => (o_spec o, o_fmt o)) (w_heap W2) = map (fun o => (o_spec o, o_fmt o)) (w_heap W).
Lemma alike_nth W W2 i o : alike W W2 -> nth_error (w_heap W) i = Some o ->
  exists o2, nth_error (w_heap W2) i = Some o2 /\ o_spec o2 = o_spec o /\ o_fmt o2 = o_fmt o.
Proof.
  intros A H. destruct (map_nth_transfer _ _ _ _ _ A H) as (o2 & H2 & E2). exists o2. split; [assumption|].
  injection E2 as E3 E4. auto.
Qed.
Lemma dispatch_alike E stk ops : forall W W2 e W', alike W W2 -> dispatch E stk W ops e = Ok W' ->
  exists W2' new, dispatch E stk W2 ops e = Ok W2' /\ w_sent W' = w_sent W ++ new /\ w_sent W2' = w_sent W2 ++ new.
Proof.
  induction ops as [|j ops IH]; intros W W2 e W' A H; cbn [dispatch] in *.
  - injection H as <-. exists W2, []. rewrite !app_nil_r. auto.
  - destruct (nth_error (w_heap W) j) as [o|] eqn:En; [|discriminate].
    destruct (alike_nth _ _ _ _ A En) as (o2 & En2 & Es & Ef). rewrite En2.
    destruct (out_Send E stk o e) as [[o' e']|] eqn:Eo; [|discriminate]. cbn [bind] in *.
    destruct (out_Send_same _ _ _ _ _ _ _ Es Ef Eo) as [o2' Eo2]. rewrite Eo2. cbn [bind].
    apply (IH _ (set_sent (set_heap W2 (upd j (fun _ => o2') (w_heap W2))) (w_sent W2 ++ [(j, (stk, e))]))) in H
      as (W2' & new & H2 & N1 & N2).
    + exists W2', ((j, (stk, e)) :: new). cbn [w_sent set_sent] in N1, N2. rewrite N1, N2, <- !app_assoc. auto.
    + unfold alike in *. cbn [w_heap set_sent set_heap].
      rewrite (upd_const_map j o2 o2') by (try assumption; apply out_Send_spec_same in Eo2 as (-> & -> & _); reflexivity).
      rewrite (upd_const_map j o o') by (try assumption; apply out_Send_spec_same in Eo as (-> & -> & _); reflexivity).
      assumption.
Qed.
Lemma sends_alike W W' : sends W W' -> alike W W'.
Proof.
  intros S. pose proof (sd_heap _ _ S) as H. unfold alike.
  apply (f_equal (map fst)) in H. rewrite !map_map in H. exact H.
Qed.
Lemma Level_same W W2 id : w_loggers W2 = w_loggers W -> Level W2 id = Level W id.
Proof. unfold Level. intros ->. reflexivity. Qed.
Lemma write_alike P fuel : forall W W2 id c name skip lvl fmt args now stk W', alike W W2 -> w_loggers W2 = w_loggers W ->
  write P fuel W id c name skip lvl fmt args now stk = Ok W' ->
  exists W2' new, write P fuel W2 id c name skip lvl fmt args now stk = Ok W2' /\
     w_sent W' = w_sent W ++ new /\ w_sent W2' = w_sent W2 ++ new.
Proof.
  induction fuel as [|fuel IH]; intros W W2 id c name skip lvl fmt args now stk W' A L H; cbn [write] in *; [discriminate|].
  rewrite L. destruct (nth_error (w_loggers W) id) as [l|]; [|discriminate].
  unfold LevelEnabled in *. rewrite (Level_same W W2) by assumption.
  destruct (negb _); [injection H as <-; exists W2, []; rewrite !app_nil_r; auto|].
  assert (Hgen : forall ops, bind (capture (p_env P) (p_fgetci P :: p_fwrite P :: stk) (l_flag l)
       (mkEvent fmt args name lvl now skip c)) (fun evt => dispatch (p_env P) (p_fsend P ++ p_fwrite P :: stk)
          (match ops with [] => set_warn W (w_warn W ++ [name]) | _ => W end) ops evt) = Ok W' ->
     exists W2' new, bind (capture (p_env P) (p_fgetci P :: p_fwrite P :: stk) (l_flag l)
       (mkEvent fmt args name lvl now skip c)) (fun evt => dispatch (p_env P) (p_fsend P ++ p_fwrite P :: stk)
          (match ops with [] => set_warn W2 (w_warn W2 ++ [name]) | _ => W2 end) ops evt) = Ok W2' /\
       w_sent W' = w_sent W ++ new /\ w_sent W2' = w_sent W2 ++ new).
  { intros ops H0. destruct (capture _ _ _ _) as [evt|]; [|discriminate]. cbn [bind] in *.
    destruct ops as [|j ops].
    - cbn in *. injection H0 as <-. eexists _, []. split; [reflexivity|]. cbn. rewrite !app_nil_r. auto.
    - eapply dispatch_alike; eassumption. }
  destruct (l_outputs l) as [|o ops] eqn:Eo.
  - destruct (l_parent l) as [p|]; [eapply IH; eassumption|]. apply (Hgen []). exact H.
  - destruct (l_parent l); apply (Hgen (o :: ops)); exact H.
Qed.

(** ** Fields *)
Lemma fields_ctx_snoc fs f : fields_ctx (fs ++ [f]) = CtxWith (fields_ctx fs) (fst f) (snd f).
Proof. unfold fields_ctx. rewrite fold_left_app. reflexivity. Qed.
Lemma fields_lookup fs k : exists v, ctx_Value (fields_ctx fs) k = Ok v /\ field_value k fs v.
Proof.
  induction fs as [|[j v] fs IH] using rev_ind.
  - exists VNil. split; [reflexivity|]. constructor. auto.
  - rewrite fields_ctx_snoc. cbn [ctx_Value fst snd]. destruct (str_eqb_spec k j) as [->|Hne].
    + exists v. split; [reflexivity|]. apply fv_last. auto.
    + destruct IH as (w & Hw & Hf). exists w. split; [assumption|]. destruct Hf as [fs Hn|a w b Hn].
      * apply fv_none. rewrite map_app, in_app_iff. cbn. intros [H|[H|[]]]; [tauto|congruence].
      * rewrite <- app_assoc. cbn [app]. apply fv_last. rewrite map_app, in_app_iff. cbn.
        intros [H|[H|[]]]; [tauto|congruence].
Qed.
Lemma last_pos (k : str) (a : list field) : forall b c d v w, a ++ (k, v) :: b = c ++ (k, w) :: d ->
  ~ In k (map fst b) -> ~ In k (map fst d) -> v = w.
Proof.
  induction a as [|x a IH]; intros b [|y c] d v w E Hb Hd; cbn in E; injection E; intros.
  - assumption.
  - exfalso. apply Hb. subst b. rewrite map_app, in_app_iff. cbn. auto.
  - exfalso. apply Hd. subst d. rewrite map_app, in_app_iff. cbn. auto.
  - eapply IH; eassumption.
Qed.
Lemma field_value_fun k fs v w : field_value k fs v -> field_value k fs w -> v = w.
Proof.
  intros [fs1 H|a v1 b H] K.
  - inversion K as [|a v1 b Hb E]; subst; [reflexivity|]. exfalso. apply H. rewrite map_app, in_app_iff. cbn. auto.
  - inversion K as [fs2 H2 E|c w1 d Hd E]; subst.
    + exfalso. apply H2. rewrite map_app, in_app_iff. cbn. auto.
    + eapply last_pos; [symmetry; exact E|assumption|assumption].
Qed.

(** ** Caller information *)
Lemma site_index P d v ustk s : (0 <= s)%Z ->
  nth_error (p_fgetci P :: repeat (p_fwrite P) (S d) ++ caller P v ustk) (Z.to_nat (3 + s + Z.of_nat d + 1)) =
  nth_error ustk (match v with Named => Z.to_nat s | Direct => S (Z.to_nat s) end).
Proof.
  intros Hs. replace (Z.to_nat (3 + s + Z.of_nat d + 1)) with (S (S d + (3 + Z.to_nat s) - 1)) by lia.
  cbn [nth_error]. rewrite nth_error_app2 by (rewrite repeat_length; lia). rewrite repeat_length.
  replace (S d + (3 + Z.to_nat s) - 1 - S d) with (S (S (Z.to_nat s))) by lia.
  unfold caller. destruct v; cbn [nth_error]; reflexivity.
Qed.

(** ** Flags *)
Definition okf (f : option formatter) : Prop := (0 <= out_flag f <= 2)%Z.
Lemma flag_val n r : mlookup n formatCallerFlags = Some r -> (0 <= r <= 2)%Z.
Proof.
  unfold formatCallerFlags. cbn [mlookup]. repeat (destruct (str_eqb n _); [intros [= <-]; lia|]). discriminate.
Qed.
Definition pflag_step (ret : Z) (p : part) : Z :=
  match mlookup (p_name p) formatCallerFlags with Some r => if (ret <? r)%Z then r else ret | None => ret end.
Lemma pflag_bounds ps : forall a, (0 <= a <= 2)%Z -> (a <= fold_left pflag_step ps a <= 2)%Z.
Proof.
  induction ps as [|p ps IH]; intros a Ha; cbn [fold_left]; [lia|].
  assert (Hs : (a <= pflag_step a p <= 2)%Z).
  { unfold pflag_step. destruct (mlookup _ _) as [r|] eqn:E; [|lia]. apply flag_val in E.
    destruct (Z.ltb_spec a r); lia. }
  specialize (IH (pflag_step a p)). lia.
Qed.
Lemma pflag_part ps p r : In p ps -> mlookup (p_name p) formatCallerFlags = Some r ->
  forall a, (0 <= a <= 2)%Z -> (r <= fold_left pflag_step ps a)%Z.
Proof.
  intros Hp Hr. induction ps as [|q ps IH]; intros a Ha; [contradiction|]. cbn [fold_left].
  assert (Hs : (0 <= pflag_step a q <= 2)%Z).
  { unfold pflag_step. destruct (mlookup (p_name q) _) as [r'|] eqn:E; [|lia]. apply flag_val in E.
    destruct (Z.ltb_spec a r'); lia. }
  destruct Hp as [->|Hp]; [|now apply IH].
  pose proof (pflag_bounds ps (pflag_step a p) Hs). unfold pflag_step in *. rewrite Hr in *.
  destruct (Z.ltb_spec a r); lia.
Qed.
Lemma okf_text ps : okf (Some (FText ps)).
Proof. unfold okf. cbn. change (0 <= fold_left pflag_step ps 0 <= 2)%Z. pose proof (pflag_bounds ps 0). lia. Qed.
Lemma sane_okf f : sane_formatter f -> okf (Some f).
Proof. destruct f; [intros _; apply okf_text|intros H; exact H]. Qed.
(** The flag of a layout is at least what its verbs need. *)
Lemma layout_flag layout f items n x : built (ByLayout layout) (Some f) -> splits layout items -> In (Verb n x) items ->
  (In n file_verbs -> (1 <= out_flag (Some f))%Z) /\ (In n func_verbs -> (2 <= out_flag (Some f))%Z).
Proof.
  intros Hb Hs Hin. inversion Hb as [|ly ps Hp E1 E2|]; subst. cbn [out_flag fmt_CallerInfoFlag].
  apply Parser_exact in Hp as (items2 & Hs2 & _ & Hps). assert (items2 = items) by (eapply splits_det; eassumption). subst items2.
  assert (Hpart : exists p, In p ps /\ p_name p = n).
  { exists (part_of (Verb n x)). subst ps. split; [now apply in_map|]. cbn. unfold verb_part.
    destruct (mlookup n formatFuncs); destruct x; try reflexivity; destruct (str_eqb n verbTime); reflexivity. }
  destruct Hpart as (p & Hin' & Hn).
  assert (Hz : (0 <= 0 <= 2)%Z) by lia.
  split; intros Hv; [assert (Hr : exists r, mlookup (p_name p) formatCallerFlags = Some r /\ r = 1%Z)|
                     assert (Hr : exists r, mlookup (p_name p) formatCallerFlags = Some r /\ r = 2%Z)];
    try (destruct Hr as (r & Hr & ->); exact (pflag_part ps p _ Hin' Hr 0%Z Hz));
    rewrite Hn; cbn in Hv;
    repeat (destruct Hv as [<-|Hv]; [eexists; split; reflexivity|]); contradiction.
Qed.

Record fm (W : world) : Prop := {
  fm_fc : forall t c n m f, mlookup t (w_fcreators W) = Some c -> c n m = Ok (Some f) -> okf (Some f);
  fm_formats : forall n f, mlookup n (w_formats W) = Some f -> okf (Some f);
  fm_heap : forall i x, nth_error (w_heap W) i = Some x -> okf (o_fmt x)
}.
Definition fl (W : world) : Prop := forall id l, nth_error (w_loggers W) id = Some l -> (0 <= l_flag l <= 2)%Z /\
  forall i x, In i (l_outputs l) -> nth_error (w_heap W) i = Some x -> (out_flag (o_fmt x) <= l_flag l)%Z.
Lemma glo_loop_fm names : forall W lvl acc W' g, glo_loop W names lvl acc = Ok (W', g) -> fm W -> fm W'.
Proof.
  induction names as [|n names IH]; intros W lvl acc W' g H F; cbn [glo_loop] in H; [now injection H as <- <-|].
  destruct (GetCfgOutput (w_config W) n) as [m|]; [|now injection H as <- <-].
  destruct (GetCfgFormat (w_config W) (cfg_FormatName (Some m))) as [fmc|]; [|now injection H as <- <-].
  destruct (mlookup (cfg_Type (Some fmc)) (w_fcreators W)) as [fc|] eqn:Efc; [|now injection H as <- <-].
  match type of H with bind ?s _ = _ => destruct s as [[W1 of]|] eqn:Es; [|discriminate] end. cbn [bind] in H.
  assert (Hs : fm W1 /\ (forall f, of = Some f -> okf (Some f))).
  { destruct (mlookup (cfg_Name (Some fmc)) (w_formats W)) as [f0|] eqn:Ef.
    - injection Es as <- <-. split; [assumption|]. intros f [= <-]. eapply fm_formats; eassumption.
    - destruct (fc (w_ticks W) (Some fmc)) as [[f|]|] eqn:Ecr; cbn [bind] in Es; [| |discriminate]; injection Es as <- <-.
      + pose proof (fm_fc _ F _ _ _ _ _ Efc Ecr) as Hok. split; [|now intros ? [= <-]].
        constructor; cbn [set_caches w_fcreators w_formats w_heap]; try apply F. intros k g0. match goal with |- context [minsert ?key f] => set (key0 := key) end. destruct (str_eqb_spec key0 k) as [<-|Hne].
        * rewrite mlookup_minsert_eq. now intros [= <-].
        * rewrite mlookup_minsert_ne by (intros ->; now apply Hne). apply F.
      + split; [|discriminate]. constructor; cbn; apply F. }
  destruct Hs as [F1 Hok]. clear Es.
  destruct of as [f|]; [|now injection H as <- <-]. specialize (Hok f eq_refl).
  destruct (mlookup (cfg_Type (Some m)) (w_ocreators W1)) as [oc|]; [|now injection H as <- <-].
  destruct (mlookup (cfg_Name (Some m)) (w_outputs W1)) as [o|]; [now apply IH in H|].
  destruct (oc (w_ticks W1) (Some m)) as [sp| |]; [| |discriminate].
  - apply IH in H; [assumption|]. constructor; cbn; try apply F1.
    intros i x Hx. apply nth_snoc_inv in Hx as [[_ Hx]|[_ ->]]; [eapply fm_heap; eassumption|assumption].
  - injection H as <- <-. constructor; cbn; apply F1.
Qed.
Lemma GLO_fm P W n W' g : GetLoggerOutputs P W n = Ok (W', g) -> fm W -> fm W'.
Proof.
  unfold GetLoggerOutputs. destruct (GetCfgLogger _ _); [apply glo_loop_fm|]. now intros [= <- <-].
Qed.
Lemma heap_ext_fl W W' : inv W -> fl W -> w_loggers W' = w_loggers W -> (exists ext, w_heap W' = w_heap W ++ ext) -> fl W'.
Proof.
  intros I F E [ext Eh] id l Hl. rewrite E in Hl. destruct (F _ _ Hl) as [Hb Ho]. split; [assumption|].
  intros i x Hi Hx. apply (Ho i x Hi). rewrite Eh in Hx. rewrite nth_error_app1 in Hx; [assumption|].
  pose proof (iv_ops _ I _ _ Hl) as Hv. rewrite Forall_forall in Hv. auto.
Qed.
Lemma raise_bounds fs : forall a, (0 <= a <= 2)%Z -> Forall (fun k => 0 <= k <= 2)%Z fs ->
  (a <= raise_flag a fs <= 2)%Z /\ Forall (fun k => k <= raise_flag a fs)%Z fs.
Proof.
  induction fs as [|k fs IH]; intros a Ha Hf; cbn [raise_flag fold_left] in *; [split; [unfold raise_flag; cbn; lia|constructor]|].
  apply Forall_cons_iff in Hf as [Hk Hf].
  assert (Ha' : (0 <= (if a <? k then k else a) <= 2)%Z) by (destruct (Z.ltb_spec a k); lia).
  destruct (IH _ Ha' Hf) as [[H1 H2] H3]. unfold raise_flag in *. cbn [fold_left] in *.
  split; [destruct (Z.ltb_spec a k); lia|]. constructor; [destruct (Z.ltb_spec a k); lia|assumption].
Qed.
Lemma flags_of_in h ops fs : flags_of h ops = Ok fs ->
  (forall i x, In i ops -> nth_error h i = Some x -> In (out_flag (o_fmt x)) fs) /\
  (forall k, In k fs -> exists i x, nth_error h i = Some x /\ k = out_flag (o_fmt x)).
Proof.
  revert fs. induction ops as [|o ops IH]; intros fs H; cbn [flags_of] in H; [injection H as <-; split; intros; contradiction|].
  destruct (nth_error h o) as [x0|] eqn:E; [|discriminate]. destruct (flags_of h ops) as [fs'|]; [|discriminate].
  injection H as <-. destruct (IH fs' eq_refl) as [H1 H2]. split.
  - intros i x [<-|Hi] Hx; [left; congruence|right; eauto].
  - intros k [<-|Hk]; eauto.
Qed.
Lemma upd_fl W id f : fl W -> (forall l, l_flag (f l) = l_flag l /\ l_outputs (f l) = l_outputs l) ->
  fl (set_loggers W (upd id f (w_loggers W))).
Proof.
  intros F Hf j l. cbn. rewrite nth_upd. destruct (nth_error (w_loggers W) j) as [l0|] eqn:E; [|destruct (Nat.eqb j id); discriminate].
  destruct (Hf l0) as [Ef Eo]. destruct (Nat.eqb j id); cbn; intros [= <-]; rewrite ?Ef, ?Eo; now apply F in E.
Qed.
Lemma SetOutputs_fl W id ops W' : SetOutputs W id ops = Ok W' -> fm W -> fl W -> fm W' /\ fl W'.
Proof.
  unfold SetOutputs. intros H Fm F. destruct (flags_of (w_heap W) ops) as [fs|] eqn:E; [|discriminate].
  injection H as <-. destruct (flags_of_in _ _ _ E) as [H1 H2]. split; [constructor; apply Fm|].
  assert (Hfs : Forall (fun k => 0 <= k <= 2)%Z fs).
  { apply Forall_forall. intros k Hk. destruct (H2 k Hk) as (i & x & Hx & ->). exact (fm_heap _ Fm _ _ Hx). }
  intros j l. cbn. rewrite nth_upd. destruct (nth_error (w_loggers W) j) as [l0|] eqn:El; [|destruct (Nat.eqb j id); discriminate].
  destruct (F _ _ El) as [Hb Ho]. destruct (Nat.eqb j id); cbn; intros [= <-]; [|auto]. cbn.
  destruct (raise_bounds fs _ Hb Hfs) as [[R1 R2] R3]. split; [lia|].
  intros i x Hi Hx. rewrite Forall_forall in R3. apply R3. eauto.
Qed.
Lemma apply_glo_fl W id g W' : apply_glo W id g = Ok W' -> fm W -> fl W -> fm W' /\ fl W'.
Proof.
  unfold apply_glo. destruct (g_err g); intros H Fm F; [injection H as <-; auto|].
  eapply SetOutputs_fl; [exact H|constructor; apply Fm|]. now apply upd_fl.
Qed.
Lemma notify_fl P ord : forall W W', notify P W ord = Ok W' -> inv W -> fm W -> fl W -> fm W' /\ fl W'.
Proof.
  induction ord as [|id ord IH]; intros W W' H I Fm F; cbn [notify] in H; [injection H as <-; auto|].
  destruct (nth_error (w_loggers W) id) as [l|]; [|discriminate].
  destruct (GetLoggerOutputs P W (l_name l)) as [[W1 g]|] eqn:Eg; [|discriminate]. cbn [bind] in H.
  destruct (apply_glo W1 id g) as [W2|] eqn:Ea; [|discriminate]. cbn [bind] in H.
  pose proof (GLO_grow _ _ _ _ _ (iv_valid _ I) Eg) as G. pose proof (grow_inv _ _ G I) as I1.
  pose proof (GLO_fm _ _ _ _ _ Eg Fm) as Fm1.
  assert (F1 : fl W1) by (eapply heap_ext_fl; [exact I|exact F|apply (gr_loggers _ _ G)|apply (gr_heap _ _ G)]).
  destruct (apply_glo_fl _ _ _ _ Ea Fm1 F1) as [Fm2 F2].
  eapply IH; try eassumption. eapply apply_glo_inv; eassumption.
Qed.
Lemma setConfig_fl P W c ord W' ok : setConfig P W c ord = Ok (W', ok) -> inv W -> fm W -> fl W -> fm W' /\ fl W'.
Proof.
  unfold setConfig. intros H I Fm F. destruct (validateConfig c); [|injection H as <- <-; auto].
  destruct (notify P (set_config W c) ord) as [W1|] eqn:E; [|discriminate]. injection H as <- <-.
  eapply notify_fl; [exact E|now apply set_config_inv|constructor; apply Fm|exact F].
Qed.
Lemma heap_same_fl W W' : map o_fmt (w_heap W') = map o_fmt (w_heap W) -> w_loggers W' = w_loggers W ->
  w_fcreators W' = w_fcreators W -> w_formats W' = w_formats W -> fm W -> fl W -> fm W' /\ fl W'.
Proof.
  intros Eh El Ef Efo Fm F.
  assert (Hn : forall i x, nth_error (w_heap W') i = Some x -> exists y, nth_error (w_heap W) i = Some y /\ o_fmt y = o_fmt x).
  { intros i x Hx. symmetry in Eh. now apply (map_nth_transfer o_fmt _ _ _ _ Eh) in Hx. }
  split.
  - constructor; rewrite ?Ef, ?Efo; try apply Fm. intros i x Hx. destruct (Hn _ _ Hx) as (y & Hy & <-). eapply fm_heap; eassumption.
  - intros id l. rewrite El. intros Hl. destruct (F _ _ Hl) as [Hb Ho]. split; [assumption|].
    intros i x Hi Hx. destruct (Hn _ _ Hx) as (y & Hy & <-). eauto.
Qed.
Lemma getRootLogger_fl P W W' r : getRootLogger P W = Ok (W', r) -> inv W -> fm W -> fl W -> fm W' /\ fl W'.
Proof.
  unfold getRootLogger. intros H I Fm F. destruct (w_root W) as [r0|] eqn:Er; [injection H as <- <-; auto|].
  match type of H with bind (GetLoggerOutputs _ ?X _) _ = _ => set (W0 := X) in * end.
  destruct (GetLoggerOutputs P W0 rootName) as [[W1 g]|] eqn:Eg; [|discriminate]. cbn [bind] in H.
  assert (V0 : outs_valid W0) by (intros n o; apply (iv_valid _ I)).
  pose proof (GLO_grow _ _ _ _ _ V0 Eg) as G.
  assert (Fm0 : fm W0) by (constructor; apply Fm). pose proof (GLO_fm _ _ _ _ _ Eg Fm0) as Fm1.
  assert (F1 : fl W1).
  { intros id l. rewrite (gr_loggers _ _ G). cbn. intros Hl. apply nth_snoc_inv in Hl as [[_ Hl]|[_ ->]].
    - destruct (F _ _ Hl) as [Hb Ho]. split; [assumption|]. intros i x Hi Hx. apply (Ho i x Hi).
      destruct (gr_heap _ _ G) as [ext Eh]. rewrite Eh in Hx. cbn in Hx. rewrite nth_error_app1 in Hx; [assumption|].
      pose proof (iv_ops _ I _ _ Hl) as Hv. rewrite Forall_forall in Hv. auto.
    - cbn. split; [lia|contradiction]. }
  clear Eg. match type of H with bind ?s _ = _ => destruct s as [W3|] eqn:E3; [|discriminate] end.
  cbn [bind] in H. injection H as <- <-.
  assert (H3 : fm W3 /\ fl W3).
  { destruct (g_err g).
    - cbn [add_output] in E3.
      assert (E3' := SetOutputs_fl _ _ _ _ E3). apply E3'; clear E3 E3'.
      + constructor; cbn; try apply Fm1. intros i x Hx. apply nth_snoc_inv in Hx as [[_ Hx]|[_ ->]]; [eapply fm_heap; eassumption|].
        unfold okf. cbn. lia.
      + assert (F2 : fl (SetLevel W1 (length (w_loggers W)) Debug)) by now apply upd_fl.
        intros id l Hl. destruct (F2 _ _ Hl) as [Hb Ho]. split; [assumption|]. intros i x Hi Hx. cbn in Hx.
        apply nth_snoc_inv in Hx as [[_ Hx]|[_ ->]]; [exact (Ho i x Hi Hx)|]. cbn. lia.
    - eapply SetOutputs_fl; [exact E3|constructor; apply Fm1|]. now apply upd_fl. }
  destruct H3 as [Fm3 F3]. split; [constructor; apply Fm3|exact F3].
Qed.
Lemma exec_fl P W o W' r : exec P W o = Ok (W', r) -> calm W o -> inv W -> fm W -> fl W -> fm W' /\ fl W'.
Proof.
  intros H C I Fm F. destruct o; cbn [exec] in H.
  - destruct (GetLogger P W name) as [[W1 id]|] eqn:E; [|discriminate]. injection H as <- <-.
    destruct (GetLogger_cases _ _ _ _ _ E I) as [[_ HR]|[(_ & _ & -> & _)|
     (_ & Hnr & Hne & Hnone & W2 & r & W3 & W4 & g & HR & M & L2 & HG & HA)]]; [eapply getRootLogger_fl; eassumption|auto|].
    destruct (getRootLogger_fl _ _ _ _ HR I Fm F) as [Fm2 F2].
    destruct (getRootLogger_spec _ _ _ _ HR I) as (I2 & _).
    assert (Fm3 : fm W3) by (rewrite (md_rest _ _ _ _ M); constructor; apply Fm2).
    assert (F3 : fl W3).
    { intros j l Hl. apply (md_only _ _ _ _ M) in Hl as Hc. destruct Hc as [Hc|(_ & (q & ->) & _)].
      - destruct (F2 _ _ Hc) as [Hb Ho]. split; [assumption|]. rewrite (md_rest _ _ _ _ M). exact Ho.
      - cbn. split; [lia|contradiction]. }
    pose proof (GLO_grow _ _ _ _ _ (iv_valid _ (md_inv _ _ _ _ M)) HG) as G.
    eapply apply_glo_fl; [exact HA|eapply GLO_fm; eassumption|].
    eapply heap_ext_fl; [exact (md_inv _ _ _ _ M)|exact F3|apply (gr_loggers _ _ G)|apply (gr_heap _ _ G)].
  - destruct (nth_error _ _); [|discriminate]. injection H as <- <-. split; [constructor; apply Fm|now apply upd_fl].
  - destruct (nth_error _ _); [|discriminate]. destruct (SetOutputs W id ops) as [W1|] eqn:E; [|discriminate].
    injection H as <- <-. eapply SetOutputs_fl; eassumption.
  - destruct (nth_error _ _); [|discriminate]. injection H as <- <-. split; [constructor; apply Fm|now apply upd_fl].
  - destruct (Printf _ _ _ _ _ _ _ _ _ _) as [W1|] eqn:E; [|discriminate]. injection H as <- <-.
    apply Printf_sends in E. apply (heap_same_fl W); try apply E; try assumption.
    pose proof (sends_alike _ _ E) as A. apply (f_equal (map snd)) in A. rewrite !map_map in A. exact A.
  - injection H as <- <-. split; [|exact F]. constructor; cbn; try apply Fm.
    intros t0 c n m g. destruct (str_eqb_spec t t0) as [<-|Hne].
    + rewrite mlookup_minsert_eq. intros [= <-] Hc. apply sane_okf. exact (C _ _ _ Hc).
    + rewrite mlookup_minsert_ne by congruence. apply Fm.
  - injection H as <- <-. split; [constructor; apply Fm|exact F].
  - destruct (GetLoggerOutputs P W name) as [[W1 g]|] eqn:E; [|discriminate]. injection H as <- <-.
    pose proof (GLO_grow _ _ _ _ _ (iv_valid _ I) E) as G. split; [eapply GLO_fm; eassumption|].
    eapply heap_ext_fl; [exact I|exact F|apply (gr_loggers _ _ G)|apply (gr_heap _ _ G)].
  - destruct (setConfig P W c ord) as [[W1 ok]|] eqn:E; [|discriminate]. injection H as <- <-. eapply setConfig_fl; eassumption.
  - unfold LoadConfig in H. destruct (setConfig P W _ ord) as [[W1 ok]|] eqn:E; [|discriminate]. injection H as <- <-.
    eapply setConfig_fl; eassumption.
  - unfold LoadConfigFile, LoadConfig in H. destruct (p_read P file); [|injection H as <- <-; auto].
    destruct (path_Ext file); [discriminate|].
    destruct (setConfig P W _ ord) as [[W1 ok]|] eqn:E; [|discriminate]. injection H as <- <-. eapply setConfig_fl; eassumption.
  - injection H as <- <-. apply (heap_same_fl W); try reflexivity; try assumption. cbn. now apply close_fold_map.
  - injection H as <- <-. cbn. split.
    + constructor; cbn; try apply Fm. intros i x Hx. apply nth_snoc_inv in Hx as [[_ Hx]|[_ ->]]; [eapply fm_heap; eassumption|].
      destruct f; [now apply sane_okf|unfold okf; cbn; lia].
    + eapply heap_ext_fl; [exact I|exact F|reflexivity|cbn; eauto].
  - destruct (nth_error _ _) as [x0|] eqn:E0; [|discriminate]. injection H as <- <-. destruct C as [Cs Ca]. split.
    + constructor; cbn; try apply Fm. intros i x. rewrite nth_upd.
      destruct (nth_error (w_heap W) i) as [y|] eqn:Ey; [|destruct (Nat.eqb i o); discriminate].
      destruct (Nat.eqb i o); cbn; intros [= <-]; [|eapply fm_heap; eassumption]. cbn.
      destruct f; [now apply sane_okf|unfold okf; cbn; lia].
    + intros id l Hl. cbn in *. destruct (F _ _ Hl) as [Hb Ho]. split; [assumption|].
      intros i x Hi Hx. rewrite nth_upd_ne in Hx; [eauto|]. intros ->. exact (Ca _ _ Hl Hi).
Qed.
Lemma loop_cut_fm W W' : loop_cut W W' -> fm W -> fm W'.
Proof.
  intros (names & lvl & acc & W1 & g & E & C) F. apply glo_loop_fm in E; [|exact F]. destruct C as [|n m fc f H1 H2 H3 H4].
  - constructor; apply E.
  - constructor; cbn; try apply E. intros k f'. rewrite mlookup_minsert. destruct (str_eqb k n); [|apply E].
    intros [= <-]. eapply (fm_fc _ E); eassumption.
Qed.
Lemma halt_fl P W W' : halt P W W' -> inv W -> fm W -> fl W -> fm W' /\ fl W'.
Proof.
  intros H I Fm F. pose proof (halt_grow _ _ _ (iv_valid _ I) H) as G. split.
  - destruct H as [->|[H|(n & g & H)]]; [exact Fm|eapply loop_cut_fm; eassumption|eapply GLO_fm; eassumption].
  - eapply heap_ext_fl; [exact I|exact F|apply (gr_loggers _ _ G)|apply (gr_heap _ _ G)].
Qed.
Lemma raised_fl P W o W' : raised P W o W' -> root_made W' -> inv W -> fm W -> fl W -> fm W' /\ fl W'.
Proof.
  intros H Hr I Fm F. destruct (raised_stopped _ _ _ _ I H Hr) as [o W' Hh|o c ord1 ord2 W1 W' Hg V E Hh|name W0 r W1 p W2 id W' Hne Hnr Hn E0 EL EC Hh|? ? ? ? ? ? ? ? W' Sd].
  - eapply halt_fl; eassumption.
  - pose proof (set_config_inv W c I) as I0. pose proof (notify_inv _ _ _ _ E I0) as I1.
    destruct (notify_fl _ _ _ _ E I0) as [Fm1 F1]; [constructor; apply Fm|exact F|]. eapply halt_fl; eassumption.
  - destruct (stopped_made _ _ _ _ _ _ _ _ _ I Hne Hnr Hn E0 EL EC) as (I0 & _ & M & _).
    destruct (getRootLogger_fl _ _ _ _ E0 I Fm F) as [Fm2 F2].
    eapply halt_fl; [exact Hh|apply M| |].
    + rewrite (md_rest _ _ _ _ M); constructor; apply Fm2.
    + intros j l Hl. apply (md_only _ _ _ _ M) in Hl as Hc. destruct Hc as [Hc|(_ & (q & ->) & _)].
      * destruct (F2 _ _ Hc) as [Hb Ho]. split; [assumption|]. rewrite (md_rest _ _ _ _ M). exact Ho.
      * cbn. split; [lia|contradiction].
  - apply (heap_same_fl W); try apply Sd; try assumption.
    pose proof (sends_alike _ _ Sd) as A. apply (f_equal (map snd)) in A. rewrite !map_map in A. exact A.
Qed.
Lemma calm_reach_reach P W : calm_reach P W -> reach P W.
Proof. induction 1; [constructor|eapply reach_step; eassumption|eapply reach_panic; eassumption]. Qed.
Lemma calm_flags P W : calm_reach P W -> fm W /\ fl W.
Proof.
  induction 1 as [|W o W' r R [Fm F] Ho Hc H|W o W' R [Fm F] Ho H Hr];
    [|eapply exec_fl; try eassumption; apply (reach_inv P), calm_reach_reach, R
     |eapply raised_fl; try eassumption; apply (reach_inv P), calm_reach_reach, R].
  split; [|intros [|id] l; discriminate]. constructor; [|intros n f; discriminate|intros [|i] x; discriminate].
  intros t c n m f. cbn. destruct (str_eqb t _); [|discriminate]. intros [= <-] Hf. apply sane_okf.
  unfold NewTextFormatter in Hf. destruct m; [|discriminate]. destruct (Parser _) as [ps|]; [|discriminate].
  injection Hf as <-. exact Logic.I.
Qed.

(** ** Caller skip *)
(** Loggers keep name and skip, and new ones have skip 3 (that is, 0 for the user). *)
Definition skips (W W' : world) : Prop := length (w_loggers W) <= length (w_loggers W') /\
  forall j l', nth_error (w_loggers W') j = Some l' ->
   (exists l, nth_error (w_loggers W) j = Some l /\ l_name l' = l_name l /\ l_skip l' = l_skip l) \/
   length (w_loggers W) <= j /\ l_skip l' = 3%Z.
Lemma skips_refl W : skips W W.
Proof. split; [lia|]. intros j l H. left. eauto. Qed.
Lemma skips_trans W W1 W2 : skips W W1 -> skips W1 W2 -> skips W W2.
Proof.
  intros [L1 H1] [L2 H2]. split; [lia|]. intros j l Hl. destruct (H2 _ _ Hl) as [(l1 & Hl1 & E1 & E2)|[Hj E]].
  - destruct (H1 _ _ Hl1) as [(l0 & Hl0 & E3 & E4)|[Hj E]]; [left; exists l0|right]; repeat split; congruence.
  - right. split; [lia|assumption].
Qed.
Lemma skips_eq W W' : w_loggers W' = w_loggers W -> skips W W'.
Proof. intros E. split; rewrite E; [lia|]. intros j l H. left. eauto. Qed.
Lemma skips_upd W W' id g : w_loggers W' = upd id g (w_loggers W) ->
  (forall l, l_name (g l) = l_name l /\ l_skip (g l) = l_skip l) -> skips W W'.
Proof.
  intros E Hg. split; [rewrite E, upd_length; lia|]. intros j l. rewrite E, nth_upd.
  destruct (nth_error (w_loggers W) j) as [l0|] eqn:El; [|destruct (Nat.eqb j id); discriminate].
  destruct (Nat.eqb j id); cbn; intros [= <-]; left; exists l0; split; auto.
Qed.
Lemma apply_glo_skips W id g W' : apply_glo W id g = Ok W' -> skips W W'.
Proof.
  unfold apply_glo, SetOutputs. destruct (g_err g); intros H; [injection H as <-; apply skips_refl|].
  destruct (flags_of _ _) as [fs|]; [|discriminate]. injection H as <-.
  eapply skips_trans; [eapply (skips_upd W (SetLevel W id (g_lvl g))); [reflexivity|auto]|].
  eapply skips_upd; [reflexivity|auto].
Qed.
Lemma notify_skips P ord : forall W W', notify P W ord = Ok W' -> inv W -> skips W W'.
Proof.
  induction ord as [|id ord IH]; intros W W' H I; cbn [notify] in H; [injection H as <-; apply skips_refl|].
  destruct (nth_error (w_loggers W) id) as [l|]; [|discriminate].
  destruct (GetLoggerOutputs P W (l_name l)) as [[W1 g]|] eqn:Eg; [|discriminate]. cbn [bind] in H.
  destruct (apply_glo W1 id g) as [W2|] eqn:Ea; [|discriminate]. cbn [bind] in H.
  pose proof (GLO_grow _ _ _ _ _ (iv_valid _ I) Eg) as G. pose proof (grow_inv _ _ G I) as I1.
  eapply skips_trans; [apply skips_eq, (gr_loggers _ _ G)|].
  eapply skips_trans; [eapply apply_glo_skips; eassumption|]. eapply IH; [eassumption|]. eapply apply_glo_inv; eassumption.
Qed.
Lemma setConfig_skips P W c ord W' ok : setConfig P W c ord = Ok (W', ok) -> inv W -> skips W W'.
Proof.
  unfold setConfig. intros H I. destruct (validateConfig c); [|injection H as <- <-; apply skips_refl].
  destruct (notify P (set_config W c) ord) as [W1|] eqn:E; [|discriminate]. injection H as <- <-.
  eapply (notify_skips P ord (set_config W c)); [exact E|now apply set_config_inv].
Qed.
Lemma getRootLogger_skips P W W' r : getRootLogger P W = Ok (W', r) -> inv W -> skips W W'.
Proof.
  unfold getRootLogger. intros H I. destruct (w_root W) as [r0|] eqn:Er; [injection H as <- <-; apply skips_refl|].
  match type of H with bind (GetLoggerOutputs _ ?X _) _ = _ => set (W0 := X) in * end.
  destruct (GetLoggerOutputs P W0 rootName) as [[W1 g]|] eqn:Eg; [|discriminate]. cbn [bind] in H.
  assert (V0 : outs_valid W0) by (intros n o; apply (iv_valid _ I)).
  pose proof (GLO_grow _ _ _ _ _ V0 Eg) as G.
  assert (S0 : skips W W0).
  { split; [cbn; rewrite app_length; lia|]. intros j l Hl. cbn in Hl.
    apply nth_snoc_inv in Hl as [[_ Hl]|[-> ->]]; [left; eauto|right; split; [lia|reflexivity]]. }
  clear Eg. match type of H with bind ?s _ = _ => destruct s as [W3|] eqn:E3; [|discriminate] end.
  cbn [bind] in H. injection H as <- <-.
  eapply skips_trans; [exact S0|]. eapply skips_trans; [apply skips_eq, (gr_loggers _ _ G)|].
  eapply skips_trans; [|apply (skips_eq W3); reflexivity].
  unfold SetOutputs in E3. destruct (g_err g); [cbn [add_output] in E3|];
    (destruct (flags_of _ _) as [fs|]; [|discriminate]); injection E3 as <-;
    (eapply skips_trans; [eapply (skips_upd W1 (SetLevel W1 _ _)); [reflexivity|auto]|]);
    eapply skips_upd; try reflexivity; auto.
Qed.
Lemma exec_skips P W o W' r : exec P W o = Ok (W', r) -> inv W ->
  match o with
  | OSetCallerSkip id s => length (w_loggers W') = length (w_loggers W) /\
      forall j l', nth_error (w_loggers W') j = Some l' -> exists l, nth_error (w_loggers W) j = Some l /\
        l_name l' = l_name l /\ l_skip l' = if Nat.eqb j id then (3 + s)%Z else l_skip l
  | _ => skips W W'
  end.
Proof.
  intros H I. destruct o; cbn [exec] in H.
  - destruct (GetLogger P W name) as [[W1 id]|] eqn:E; [|discriminate]. injection H as <- <-.
    destruct (GetLogger_cases _ _ _ _ _ E I) as [[_ HR]|[(_ & _ & -> & _)|
     (_ & Hnr & Hne & Hnone & W2 & r & W3 & W4 & g & HR & M & L2 & HG & HA)]];
     [eapply getRootLogger_skips; eassumption|apply skips_refl|].
    eapply skips_trans; [eapply getRootLogger_skips; eassumption|].
    assert (S3 : skips W2 W3).
    { split.
      - destruct (le_lt_dec (length (w_loggers W2)) (length (w_loggers W3))); [assumption|exfalso].
        destruct (nth_error (w_loggers W2) (length (w_loggers W3))) as [x|] eqn:Ex; [|apply nth_error_None in Ex; lia].
        apply (md_old _ _ _ _ M) in Ex. assert (E0 : nth_error (w_loggers W3) (length (w_loggers W3)) = None) by (apply nth_error_None; lia). congruence.
      - intros j l Hl. apply (md_only _ _ _ _ M) in Hl as Hc. destruct Hc as [Hc|(Hj & (q & ->) & _)]; [left; eauto|].
        right. split; [assumption|reflexivity]. }
    eapply skips_trans; [exact S3|].
    pose proof (GLO_grow _ _ _ _ _ (iv_valid _ (md_inv _ _ _ _ M)) HG) as G.
    eapply skips_trans; [apply skips_eq, (gr_loggers _ _ G)|]. eapply apply_glo_skips; eassumption.
  - destruct (nth_error _ _); [|discriminate]. injection H as <- <-. eapply skips_upd; [reflexivity|auto].
  - destruct (nth_error _ _); [|discriminate]. unfold SetOutputs in H. destruct (flags_of _ _); [|discriminate].
    injection H as <- <-. eapply skips_upd; [reflexivity|auto].
  - destruct (nth_error _ _); [|discriminate]. injection H as <- <-. split; [apply upd_length|].
    intros j l'. cbn. rewrite nth_upd. destruct (nth_error (w_loggers W) j) as [l0|]; [|destruct (Nat.eqb j id); discriminate].
    destruct (Nat.eqb j id); cbn; intros [= <-]; exists l0; auto.
  - destruct (Printf _ _ _ _ _ _ _ _ _ _) as [W1|] eqn:E; [|discriminate]. injection H as <- <-.
    apply Printf_sends in E. apply skips_eq, E.
  - injection H as <- <-. now apply skips_eq.
  - injection H as <- <-. now apply skips_eq.
  - destruct (GetLoggerOutputs P W name) as [[W1 g]|] eqn:E; [|discriminate]. injection H as <- <-.
    apply skips_eq. apply (gr_loggers _ _ (GLO_grow _ _ _ _ _ (iv_valid _ I) E)).
  - destruct (setConfig P W c ord) as [[W1 ok]|] eqn:E; [|discriminate]. injection H as <- <-. eapply setConfig_skips; eassumption.
  - unfold LoadConfig in H. destruct (setConfig P W _ ord) as [[W1 ok]|] eqn:E; [|discriminate]. injection H as <- <-.
    eapply setConfig_skips; eassumption.
  - unfold LoadConfigFile, LoadConfig in H. destruct (p_read P file); [|injection H as <- <-; apply skips_refl].
    destruct (path_Ext file); [discriminate|].
    destruct (setConfig P W _ ord) as [[W1 ok]|] eqn:E; [|discriminate]. injection H as <- <-. eapply setConfig_skips; eassumption.
  - injection H as <- <-. now apply skips_eq.
  - injection H as <- <-. now apply skips_eq.
  - destruct (nth_error _ _); [|discriminate]. injection H as <- <-. now apply skips_eq.
Qed.

(** Invariants of reachable worlds. *)
From Verif Require Import GoStr Utf8 LevelModel EventModel LayoutModel ConfModel OutputModel WorldModel PanicModel WorldSpec WorldBase PanicBase.
Local Open Scope nat_scope.

(** ** Parent names *)
Lemma snoc_nil_or {A} (l : list A) : l = [] \/ exists l' x, l = l' ++ [x].
Proof. destruct l as [|a l] using rev_ind; [auto|right; eauto]. Qed.
Lemma sep_prefix_snoc s x q : sep x -> sep_prefix (s ++ [x]) q <-> sep_prefix s q \/ (q = s /\ s <> []).
Proof.
  intros Hx. split.
  - intros [Hne (c & rest & Hc & E)]. destruct (snoc_nil_or rest) as [->|(r' & y & ->)].
    + apply app_inj_tail in E as [-> _]. auto.
    + left. split; [assumption|]. exists c, r'. split; [assumption|].
      change (q ++ c :: r' ++ [y]) with (q ++ (c :: r') ++ [y]) in E. rewrite app_assoc in E.
      now apply app_inj_tail in E as [-> _].
  - intros [[Hne (c & rest & Hc & ->)]|[-> Hne]].
    + split; [assumption|]. exists c, (rest ++ [x]). now rewrite <- app_assoc.
    + split; [assumption|]. exists x, []. auto.
Qed.

Lemma sep_prefix_app s t q : (forall c, In c t -> ~ sep c) -> sep_prefix (s ++ t) q <-> sep_prefix s q.
Proof.
  intros Ht. split.
  - intros [Hne (c & rest & Hc & E)]. split; [assumption|].
    destruct (le_lt_dec (length s) (length q)) as [Hl|Hl].
    + exfalso. apply (Ht c); [|assumption].
      assert (E2 : skipn (length s) (s ++ t) = skipn (length s) (q ++ c :: rest)) by now rewrite E.
      rewrite !skipn_app, skipn_all, Nat.sub_diag in E2. cbn in E2. rewrite E2, in_app_iff. right.
      replace (length s - length q) with 0 by lia. left; reflexivity.
    + exists c, (firstn (length s - length q - 1) rest). split; [assumption|].
      assert (E2 : firstn (length s) (s ++ t) = firstn (length s) (q ++ c :: rest)) by now rewrite E.
      rewrite firstn_app, firstn_all, Nat.sub_diag in E2. cbn in E2. rewrite app_nil_r in E2.
      rewrite firstn_app, firstn_all2 in E2 by lia.
      replace (length s - length q) with (S (length s - length q - 1)) in E2 by lia. exact E2.
  - intros [Hne (c & rest & Hc & ->)]. split; [assumption|]. exists c, (rest ++ t).
    now rewrite <- app_assoc.
Qed.
Lemma sep_prefix_short s q : sep_prefix s q -> length q < length s.
Proof. intros [_ (c & rest & _ & ->)]. rewrite app_length; cbn; lia. Qed.
Lemma parent_snoc s x : sep x -> s <> [] -> parent_name (s ++ [x]) s.
Proof.
  intros Hx Hs. apply pn_prefix; [now apply sep_prefix_snoc; auto|].
  intros q Hq. apply sep_prefix_snoc in Hq as [Hq|[-> _]]; [|lia|assumption].
  apply sep_prefix_short in Hq. lia.
Qed.
Lemma parent_app s t p : (forall c, In c t -> ~ sep c) -> parent_name s p -> parent_name (s ++ t) p.
Proof.
  intros Ht [p0 Hp Hmax|Hno].
  - apply pn_prefix; [now apply sep_prefix_app|]. intros q Hq. apply Hmax. now apply sep_prefix_app in Hq.
  - apply pn_root. intros q Hq. apply (Hno q). now apply sep_prefix_app in Hq.
Qed.
Lemma parent_lead x : sep x -> parent_name [x] ($"root").
Proof.
  intros Hx. apply pn_root. intros q Hq. apply (sep_prefix_snoc [] x q Hx) in Hq as [Hq|[_ Hq]]; [|congruence].
  apply sep_prefix_short in Hq. cbn in Hq. lia.
Qed.
Lemma parent_nil : parent_name [] ($"root").
Proof. apply pn_root. intros q Hq. apply sep_prefix_short in Hq. cbn in Hq. lia. Qed.
Lemma sep_prefix_eq n p q : sep_prefix n p -> sep_prefix n q -> length p = length q -> p = q.
Proof.
  intros [_ (c & r & _ & E1)] [_ (c' & r' & _ & E2)] Hl. rewrite E1 in E2.
  assert (E : firstn (length p) (p ++ c :: r) = firstn (length p) (q ++ c' :: r')) by now rewrite E2.
  rewrite !firstn_app, Hl, !Nat.sub_diag in E. rewrite <- Hl, firstn_all, Hl, firstn_all in E. cbn in E.
  now rewrite !app_nil_r in E.
Qed.
Lemma parent_fun n p q : parent_name n p -> parent_name n q -> p = q.
Proof.
  intros [p0 Hp Hmp|Hnp] [q0 Hq Hmq|Hnq]; try reflexivity; try (exfalso; eauto; fail).
  - apply (sep_prefix_eq n); auto. apply Hmp in Hq. apply Hmq in Hp. lia.
  - exfalso; exact (Hnq _ Hp).
  - exfalso; exact (Hnp _ Hq).
Qed.
Lemma parent_shorter n p : parent_name n p -> p = $"root" \/ length p < length n.
Proof. intros [p0 Hp _|_]; [right; now apply sep_prefix_short|auto]. Qed.

(** ** The skeleton: names, parents, root pointer, name table *)
Definition skel (l : logger) : str * option nat := (l_name l, l_parent l).
Definition skels (W : world) : list (str * option nat) := map skel (w_loggers W).
Record sk_inv (sk : list (str * option nat)) (root : option nat) (names : smap nat) : Prop := {
  si_names : forall n id, mlookup n names = Some id -> exists p, nth_error sk id = Some (n, p);
  si_all : forall n p id, nth_error sk id = Some (n, p) -> mlookup n names = Some id;
  si_root : forall n p id, nth_error sk id = Some (n, p) -> (p = None <-> n = rootName);
  si_rootptr : match root with Some r => mlookup rootName names = Some r | None => sk = [] end;
  si_parent : forall n p id, nth_error sk id = Some (n, Some p) ->
    p < id /\ exists pn pp, nth_error sk p = Some (pn, pp) /\ parent_name n pn;
  si_nonempty : forall n p id, nth_error sk id = Some (n, p) -> n <> []
}.
Lemma sk_names_empty root names : sk_inv [] root names -> forall n, mlookup n names = None.
Proof.
  intros I n. destruct (mlookup n names) as [id|] eqn:E; [|reflexivity].
  apply (si_names _ _ _ I) in E as [p E]. destruct id; discriminate.
Qed.

Lemma nth_skels W id l : nth_error (w_loggers W) id = Some l -> nth_error (skels W) id = Some (l_name l, l_parent l).
Proof. intros H. unfold skels. now rewrite nth_error_map, H. Qed.
Lemma nth_skels_inv W id n p : nth_error (skels W) id = Some (n, p) ->
  exists l, nth_error (w_loggers W) id = Some l /\ l_name l = n /\ l_parent l = p.
Proof.
  unfold skels. rewrite nth_error_map. destruct (nth_error _ id) as [l|]; [|discriminate].
  intros [= <- <-]. eauto.
Qed.

(** Adding a logger below an existing one. *)
Lemma sk_create sk root names name parent pn pp :
  sk_inv sk root names -> mlookup name names = None -> name <> [] -> name <> rootName ->
  nth_error sk parent = Some (pn, pp) -> parent_name name pn ->
  sk_inv (sk ++ [(name, Some parent)]) root (minsert name (length sk) names).
Proof.
  intros I Hnone Hne Hnr Hp Hpn.
  assert (Hlt : parent < length sk) by (apply nth_error_Some; congruence).
  constructor.
  - intros n id. rewrite mlookup_minsert. destruct (str_eqb_spec n name) as [->|Hn].
    + intros [= <-]. exists (Some parent). apply nth_snoc.
    + intros H. apply (si_names _ _ _ I) in H as [p H]. exists p. rewrite nth_snoc_lt; [assumption|].
      apply nth_error_Some; congruence.
  - intros n p id H. apply nth_snoc_inv in H as [[Hl H]|[-> [= -> ->]]]; [|apply mlookup_minsert_eq].
    apply (si_all _ _ _ I) in H. rewrite mlookup_minsert_ne; [assumption|congruence].
  - intros n p id H. apply nth_snoc_inv in H as [[Hl H]|[-> [= -> ->]]]; [now apply (si_root _ _ _ I) in H|].
    split; [discriminate|congruence].
  - pose proof (si_rootptr _ _ _ I) as Hr. destruct root as [r|].
    + rewrite mlookup_minsert_ne; congruence.
    + subst sk. cbn in Hlt. lia.
  - intros n p id H. apply nth_snoc_inv in H as [[Hl H]|[-> [= -> ->]]].
    + apply (si_parent _ _ _ I) in H as [Hlt' (pn' & pp' & H1 & H2)]. split; [assumption|].
      exists pn', pp'. split; [|assumption]. rewrite nth_snoc_lt by lia. assumption.
    + split; [assumption|]. exists pn, pp. split; [|assumption]. now rewrite nth_snoc_lt.
  - intros n p id H. apply nth_snoc_inv in H as [[Hl H]|[-> [= -> ->]]]; [|assumption].
    now apply (si_nonempty _ _ _ I) in H.
Qed.
Lemma sk_root names : (forall n, mlookup n names = None) ->
  sk_inv [(rootName, None)] (Some 0) (minsert rootName 0 names).
Proof.
  intros Hn. constructor.
  - intros n id. rewrite mlookup_minsert, Hn. destruct (str_eqb_spec n rootName) as [->|]; [|discriminate].
    intros [= <-]. exists None. reflexivity.
  - intros n p [|[|id]]; cbn; intros H; try discriminate. injection H as <- <-. apply mlookup_minsert_eq.
  - intros n p [|[|id]]; cbn; intros H; try discriminate. injection H as <- <-. tauto.
  - apply mlookup_minsert_eq.
  - intros n p [|[|id]]; cbn; intros H; discriminate.
  - intros n p [|[|id]]; cbn; intros H; try discriminate. injection H as <- <-. discriminate.
Qed.

(** ** The whole invariant *)
Record inv (W : world) : Prop := {
  iv_sk : sk_inv (skels W) (w_root W) (w_names W);
  iv_valid : outs_valid W;
  iv_inj : forall n m o, mlookup n (w_outputs W) = Some o -> mlookup m (w_outputs W) = Some o -> n = m;
  iv_ops : forall id l, nth_error (w_loggers W) id = Some l -> Forall (fun o => o < length (w_heap W)) (l_outputs l)
}.

Lemma Forall_lt_mono (l : list nat) a b : a <= b -> Forall (fun o => o < a) l -> Forall (fun o => o < b) l.
Proof. intros H; apply Forall_impl; intros; lia. Qed.
Lemma grow_inv W W' : grow W W' -> inv W -> inv W'.
Proof.
  intros G I. constructor.
  - unfold skels. rewrite (gr_loggers _ _ G), (gr_root _ _ G), (gr_names _ _ G). apply I.
  - apply (grow_valid _ _ G), I.
  - intros n m o Hn Hm. destruct (gr_outputs_inj _ _ G n m o Hn Hm) as [?|[H1 H2]]; [assumption|].
    exact (iv_inj _ I _ _ _ H1 H2).
  - intros id l. rewrite (gr_loggers _ _ G). intros H. apply (iv_ops _ I) in H.
    eapply Forall_lt_mono; [|eassumption]. apply grow_heap_len, G.
Qed.

(** Changing a logger cell but not its name and parent. *)
Lemma skels_upd W id f : (forall l, skel (f l) = skel l) -> skels (set_loggers W (upd id f (w_loggers W))) = skels W.
Proof. intros H. unfold skels. cbn. now apply upd_map. Qed.
Lemma inv_upd W id f : (forall l, skel (f l) = skel l) ->
  (forall l, Forall (fun o => o < length (w_heap W)) (l_outputs l) ->
             Forall (fun o => o < length (w_heap W)) (l_outputs (f l))) ->
  inv W -> inv (set_loggers W (upd id f (w_loggers W))).
Proof.
  intros Hs Ho I. constructor.
  - rewrite skels_upd by assumption. apply I.
  - apply I.
  - apply I.
  - cbn. intros i l. rewrite nth_upd. destruct (i =? id).
    + destruct (nth_error (w_loggers W) i) as [l0|] eqn:E; [|discriminate]. cbn. intros [= <-].
      apply Ho. eapply (iv_ops _ I); eassumption.
    + apply (iv_ops _ I).
Qed.
Lemma SetLevel_inv W id lvl : inv W -> inv (SetLevel W id lvl).
Proof. intros I. apply inv_upd; auto. Qed.
Lemma flags_of_valid h ops fs : flags_of h ops = Ok fs -> Forall (fun o => o < length h) ops.
Proof.
  revert fs; induction ops as [|o ops IH]; intros fs H; cbn in H; [constructor|].
  destruct (nth_error h o) as [op|] eqn:E; [|discriminate].
  destruct (flags_of h ops) as [fs'|]; [|discriminate]. constructor; [|eapply IH; reflexivity].
  apply nth_error_Some; congruence.
Qed.
Lemma flags_of_total h ops : Forall (fun o => o < length h) ops -> exists fs, flags_of h ops = Ok fs.
Proof.
  intros H; induction H as [|o ops Ho H [fs IH]]; cbn; [eauto|].
  destruct (nth_error h o) as [op|] eqn:E; [|apply nth_error_None in E; lia]. rewrite IH. cbn. eauto.
Qed.
Lemma SetOutputs_inv W id ops W' : SetOutputs W id ops = Ok W' -> inv W -> inv W'.
Proof.
  unfold SetOutputs. destruct (flags_of (w_heap W) ops) as [fs|] eqn:E; [|discriminate].
  intros [= <-] I. apply inv_upd; auto. intros l _. cbn. eapply flags_of_valid; eassumption.
Qed.
Lemma apply_glo_inv W id g W' : apply_glo W id g = Ok W' -> inv W -> inv W'.
Proof.
  unfold apply_glo. destruct (g_err g).
  - now intros [= <-].
  - intros H I. eapply SetOutputs_inv; [eassumption|]. now apply SetLevel_inv.
Qed.
Lemma notify_inv P ord : forall W W', notify P W ord = Ok W' -> inv W -> inv W'.
Proof.
  induction ord as [|id ord IH]; intros W W' H I; cbn in H; [now injection H as <-|].
  destruct (nth_error (w_loggers W) id) as [l|]; [|discriminate].
  destruct (GetLoggerOutputs P W (l_name l)) as [[W1 g]|] eqn:E; [|discriminate]. cbn [bind] in H.
  destruct (apply_glo W1 id g) as [W2|] eqn:E2; [|discriminate]. cbn [bind] in H.
  apply (IH _ _ H). eapply apply_glo_inv; [eassumption|]. eapply grow_inv; [|eassumption].
  eapply GLO_grow; [apply I|eassumption].
Qed.
Lemma set_config_inv W c : inv W -> inv (set_config W c).
Proof. intros I; constructor; apply I. Qed.
Lemma setConfig_inv P W c ord W' ok : setConfig P W c ord = Ok (W', ok) -> inv W -> inv W'.
Proof.
  unfold setConfig. destruct (validateConfig c); [|now intros [= <- <-]].
  destruct (notify _ _ _) as [W1|] eqn:E; [|discriminate]. cbn. intros [= <- <-] I.
  eapply notify_inv; [eassumption|]. now apply set_config_inv.
Qed.
Lemma out_Send_spec_same E stk o e o' e' : out_Send E stk o e = Ok (o', e') -> o_spec o' = o_spec o /\ o_fmt o' = o_fmt o /\ o_closed o' = o_closed o.
Proof.
  unfold out_Send. intros H.
  destruct (os_sink (o_spec o)), (os_async (o_spec o)); try (destruct (send e); [|discriminate H]); try (injection H as <- <-; auto; fail);
   match type of H with bind ?x _ = _ => destruct x as [[ws e1]|]; [|discriminate] end;
   cbn in H; injection H as <- <-; auto.
Qed.
(** Sending changes heap cells, the record of Sends and nothing else. *)
Record sends (W W' : world) : Prop := {
  sd_loggers : w_loggers W' = w_loggers W;
  sd_root : w_root W' = w_root W;
  sd_names : w_names W' = w_names W;
  sd_fc : w_fcreators W' = w_fcreators W;
  sd_oc : w_ocreators W' = w_ocreators W;
  sd_formats : w_formats W' = w_formats W;
  sd_outputs : w_outputs W' = w_outputs W;
  sd_config : w_config W' = w_config W;
  sd_ticks : w_ticks W' = w_ticks W;
  sd_heap : map (fun o => (o_spec o, o_fmt o, o_closed o)) (w_heap W') =
            map (fun o => (o_spec o, o_fmt o, o_closed o)) (w_heap W)
}.
Lemma sends_refl W : sends W W.
Proof. now constructor. Qed.
Lemma sends_trans W W1 W2 : sends W W1 -> sends W1 W2 -> sends W W2.
Proof. intros [] []; constructor; congruence. Qed.
Lemma sends_inv W W' : sends W W' -> inv W -> inv W'.
Proof.
  intros S I. assert (Hl : length (w_heap W') = length (w_heap W)).
  { erewrite <- map_length, (sd_heap _ _ S), map_length. reflexivity. }
  constructor.
  - unfold skels. rewrite (sd_loggers _ _ S), (sd_root _ _ S), (sd_names _ _ S). apply I.
  - intros n o. rewrite (sd_outputs _ _ S), Hl. apply I.
  - intros n m o. rewrite (sd_outputs _ _ S). apply I.
  - intros id l. rewrite (sd_loggers _ _ S), Hl. apply I.
Qed.
Lemma upd_const_map {A B} n (x y : A) (g : A -> B) l : nth_error l n = Some x -> g y = g x ->
  map g (upd n (fun _ => y) l) = map g l.
Proof.
  revert n; induction l as [|a l IH]; intros [|n] H E; cbn in *; try reflexivity.
  - injection H as ->. now rewrite E.
  - now rewrite (IH n H E).
Qed.
Lemma dispatch_sends E stk ops : forall W e W', dispatch E stk W ops e = Ok W' -> sends W W'.
Proof.
  induction ops as [|i ops IH]; intros W e W' H; cbn in H; [injection H as <-; apply sends_refl|].
  destruct (nth_error (w_heap W) i) as [o|] eqn:En; [|discriminate].
  destruct (out_Send E stk o e) as [[o' e']|] eqn:Es; [|discriminate]. cbn [bind] in H.
  apply IH in H. eapply sends_trans; [|eassumption]. constructor; cbn; try reflexivity.
  apply (upd_const_map i o); [assumption|]. apply out_Send_spec_same in Es as (-> & -> & ->). reflexivity.
Qed.
Lemma write_sends P fuel : forall W id c name skip lvl fmt args now stk W',
  write P fuel W id c name skip lvl fmt args now stk = Ok W' -> sends W W'.
Proof.
  induction fuel as [|fuel IH]; intros W id c name skip lvl fmt args now stk W' H; cbn [write] in H; [discriminate|].
  destruct (nth_error (w_loggers W) id) as [l|]; [|discriminate].
  destruct (negb _); [injection H as <-; apply sends_refl|].
  assert (Hgen : forall ops, bind (capture (p_env P) (p_fgetci P :: p_fwrite P :: stk) (l_flag l)
       (mkEvent fmt args name lvl now skip c)) (fun evt => dispatch (p_env P) (p_fsend P ++ p_fwrite P :: stk)
          (match ops with [] => set_warn W (w_warn W ++ [name]) | _ => W end) ops evt) = Ok W' -> sends W W').
  { intros ops H0. destruct (capture _ _ _ _) as [evt|]; [|discriminate]. cbn [bind] in H0.
    apply dispatch_sends in H0. eapply sends_trans; [|eassumption]. destruct ops; constructor; reflexivity. }
  destruct (l_outputs l) as [|o ops] eqn:Eo.
  - destruct (l_parent l) as [p|]; [now apply IH in H|]. apply (Hgen []). exact H.
  - apply (Hgen (o :: ops)). destruct (l_parent l); exact H.
Qed.
Lemma Printf_sends P W id c v lvl fmt args now ustk W' :
  Printf P W id c v lvl fmt args now ustk = Ok W' -> sends W W'.
Proof. unfold Printf. destruct (nth_error _ _); [apply write_sends|discriminate]. Qed.
(** A log call stopped by a panic. *)
Lemma try_dispatch_sends E stk ops : forall W e W', try_dispatch E stk W ops e = Raised W' -> sends W W'.
Proof.
  induction ops as [|i ops IH]; intros W e W' H; cbn in H; [discriminate|].
  destruct (nth_error (w_heap W) i) as [o|] eqn:En; [|injection H as <-; apply sends_refl].
  destruct (out_Send E stk o e) as [[o' e']|] eqn:Es; [|injection H as <-; apply sends_refl].
  apply IH in H. eapply sends_trans; [|eassumption]. constructor; cbn; try reflexivity.
  apply (upd_const_map i o); [assumption|]. apply out_Send_spec_same in Es as (-> & -> & ->). reflexivity.
Qed.
Lemma try_write_sends P fuel : forall W id c name skip lvl fmt args now stk W',
  try_write P fuel W id c name skip lvl fmt args now stk = Raised W' -> sends W W'.
Proof.
  induction fuel as [|fuel IH]; intros W id c name skip lvl fmt args now stk W' H; cbn [try_write] in H; [injection H as <-; apply sends_refl|].
  destruct (nth_error (w_loggers W) id) as [l|]; [|injection H as <-; apply sends_refl].
  destruct (negb _); [discriminate|]. destruct (l_outputs l) as [|i ops]; [destruct (l_parent l); [now apply IH in H|]|destruct (l_parent l)];
    (destruct (capture _ _ _ _); [apply try_dispatch_sends in H; eapply sends_trans; [|eassumption]; constructor; reflexivity|injection H as <-; constructor; reflexivity]).
Qed.
Lemma try_Printf_sends P W id c v lvl fmt args now ustk W' :
  try_Printf P W id c v lvl fmt args now ustk = Raised W' -> sends W W'.
Proof. unfold try_Printf. destruct (nth_error _ _); [apply try_write_sends|]. intros [= <-]. apply sends_refl. Qed.

(** ** Factory *)
Lemma createLogger_inv W name parent pn pp W' id :
  createLogger W name parent = (W', id) -> inv W -> name <> [] -> w_root W <> None ->
  nth_error (skels W) parent = Some (pn, pp) -> parent_name name pn ->
  inv W' /\ (exists p, nth_error (skels W') id = Some (name, p)) /\ w_root W' = w_root W /\
  (forall j x, nth_error (w_loggers W) j = Some x -> nth_error (w_loggers W') j = Some x) /\
  (forall j x, nth_error (w_loggers W') j = Some x -> nth_error (w_loggers W) j = Some x \/
       length (w_loggers W) <= j /\ exists q, x = newLogger (l_name x) (Some q) /\ (l_name x = name)) /\
  (forall n j, mlookup n (w_names W) = Some j -> mlookup n (w_names W') = Some j).
Proof.
  unfold createLogger. intros H I Hne Hr Hp Hpn.
  destruct (mlookup name (w_names W)) as [j|] eqn:E.
  - injection H as <- <-. split; [assumption|]. split; [now apply (si_names _ _ _ (iv_sk _ I))|]. auto.
  - assert (Hnr : name <> rootName).
    { intros ->. pose proof (si_rootptr _ _ _ (iv_sk _ I)) as Hptr. destruct (w_root W); congruence. }
    injection H as <- <-.
    assert (Hsk : skels (set_factory W (w_loggers W ++ [newLogger name (Some parent)]) (w_root W)
               (minsert name (length (w_loggers W)) (w_names W))) = skels W ++ [(name, Some parent)]).
    { unfold skels. cbn. now rewrite map_app. }
    assert (Hlen : length (skels W) = length (w_loggers W)) by (unfold skels; apply map_length).
    split; [constructor|].
    + rewrite Hsk. cbn. rewrite <- Hlen. eapply sk_create; try eassumption. apply I.
    + apply I.
    + apply I.
    + cbn. intros i l Hl. apply nth_snoc_inv in Hl as [[_ Hl]|[_ ->]]; [now apply (iv_ops _ I) in Hl|constructor].
    + split; [exists (Some parent); rewrite Hsk, <- Hlen; apply nth_snoc|]. split; [reflexivity|]. split; [|split].
      * cbn. intros j x Hj. rewrite nth_snoc_lt; [assumption|]. apply nth_error_Some; congruence.
      * cbn. intros j x Hj. apply nth_snoc_inv in Hj as [[_ Hj]|[-> ->]]; [auto|]. right. split; [lia|].
        exists parent. split; reflexivity.
      * cbn. intros n j Hj. rewrite mlookup_minsert_ne; [assumption|congruence].
Qed.

Lemma parent_loop_inv name : forall fuel pre s W parent pn pp W' id,
  name = pre ++ s -> length s <= fuel ->
  parent_loop W name (range_from fuel (length pre) s) parent = (W', id) ->
  inv W -> w_root W <> None ->
  nth_error (skels W) parent = Some (pn, pp) -> parent_name pre pn ->
  inv W' /\ w_root W' = w_root W /\ (exists n' p', nth_error (skels W') id = Some (n', p') /\ parent_name name n') /\
  (forall j x, nth_error (w_loggers W) j = Some x -> nth_error (w_loggers W') j = Some x) /\
  (forall j x, nth_error (w_loggers W') j = Some x -> nth_error (w_loggers W) j = Some x \/
       length (w_loggers W) <= j /\ (exists q, x = newLogger (l_name x) (Some q)) /\ sep_prefix name (l_name x)) /\
  (forall n j, mlookup n (w_names W) = Some j -> mlookup n (w_names W') = Some j).
Proof.
  induction fuel as [|fuel IH]; intros pre s W parent pn pp W' id Hname Hfuel H I Hr Hp Hpn.
  - destruct s; [|cbn in Hfuel; lia]. cbn in H. injection H as <- <-. rewrite app_nil_r in Hname. subst pre.
    repeat (split; [assumption|]). split; [reflexivity|]. split; [eauto|]. auto.
  - destruct s as [|c s].
    { cbn in H. injection H as <- <-. rewrite app_nil_r in Hname. subst pre.
      repeat (split; [assumption|]). split; [reflexivity|]. split; [eauto|]. auto. }
    cbn [range_from] in H. destruct (decode_rune (c :: s)) as [r w] eqn:Ed.
    pose proof (decode_width_pos c s) as Hw. rewrite Ed in Hw; cbn [snd] in Hw.
    pose proof (decode_width_len c s) as Hwl. rewrite Ed in Hwl; cbn [snd] in Hwl.
    destruct (decode_ascii c s r w Ed) as [Hlo Hhi].
    assert (Hsplit : name = (pre ++ firstn w (c :: s)) ++ skipn w (c :: s)).
    { rewrite <- app_assoc, firstn_skipn. assumption. }
    assert (Hlen : length pre + w = length (pre ++ firstn w (c :: s))).
    { rewrite app_length, firstn_length_le by assumption. reflexivity. }
    assert (Hskl : length (skipn w (c :: s)) <= fuel).
    { rewrite skipn_length. cbn [length] in *. lia. }
    cbn [parent_loop] in H. rewrite Hlen in H.
    destruct ((r =? code "/")%N || (r =? code ".")%N) eqn:Esep.
    + assert (Hsep : w = 1 /\ sep c).
      { apply orb_true_iff in Esep. rewrite !N.eqb_eq in Esep.
        assert (Hr128 : (r < 128)%N) by (destruct Esep; subst r; reflexivity).
        destruct (Hlo Hr128) as [-> ->]. split; [reflexivity|].
        destruct Esep as [E|E]; [left|right];
          rewrite <- (ascii_N_embedding c); unfold code in E; rewrite E; reflexivity. }
      destruct Hsep as [-> Hsep]. cbn [firstn skipn] in *.
      assert (Hfirst : firstn (length pre) name = pre).
      { rewrite Hname, firstn_app, Nat.sub_diag, firstn_all, app_nil_r. reflexivity. }
      rewrite Hfirst in H.
      destruct pre as [|a pre].
      * apply (IH _ _ _ _ _ _ _ _ Hsplit Hskl H I Hr Hp).
        assert (pn = $"root") as -> by (eapply parent_fun; [eassumption|apply parent_nil]).
        apply parent_lead, Hsep.
      * assert (Hcons : a :: pre <> []) by discriminate.
        destruct (createLogger W (a :: pre) parent) as [W1 p1] eqn:Ec.
        destruct (createLogger_inv _ _ _ _ _ _ _ Ec I Hcons Hr Hp Hpn)
          as (I1 & (pp1 & Hp1) & Hr1 & Hext & Hnew & Hnm).
        destruct (IH _ _ _ _ _ _ _ _ Hsplit Hskl H I1 (eq_ind_r (fun x => x <> None) Hr Hr1) Hp1
                    (parent_snoc _ _ Hsep Hcons))
          as (I2 & Hr2 & Hres & Hext2 & Hnew2 & Hnm2).
        assert (Hge : length (w_loggers W) <= length (w_loggers W1)).
        { destruct (le_lt_dec (length (w_loggers W)) (length (w_loggers W1))) as [?|Hlt]; [assumption|].
          exfalso. destruct (nth_error (w_loggers W) (length (w_loggers W1))) as [x|] eqn:Ex.
          - apply Hext in Ex. apply nth_error_Some in Hlt.
            assert (length (w_loggers W1) < length (w_loggers W1)) by (apply nth_error_Some; congruence). lia.
          - apply nth_error_None in Ex. lia. }
        split; [assumption|]. split; [congruence|]. split; [assumption|]. split; [auto|]. split; [|auto].
        intros j x Hj. apply Hnew2 in Hj as [Hj|(Hl & Hq & Hs)].
        -- apply Hnew in Hj as [Hj|(Hl & q & Hq & Hn)]; [auto|]. right. split; [assumption|].
           split; [eauto|]. rewrite Hn. split; [discriminate|]. exists c, s. auto.
        -- right. split; [lia|]. auto.
    + apply (IH _ _ _ _ _ _ _ _ Hsplit Hskl H I Hr Hp).
      apply parent_app; [|assumption]. intros x Hx Hsx.
      destruct (N.lt_ge_cases r 128) as [Hr128|Hr128].
      * destruct (Hlo Hr128) as [-> ->]. cbn in Hx. destruct Hx as [<-|[]].
        destruct Hsx as [->| ->]; rewrite N.eqb_refl in Esep; rewrite ?orb_true_r in Esep; discriminate.
      * specialize (Hhi Hr128). rewrite Forall_forall in Hhi. specialize (Hhi _ Hx).
        destruct Hsx as [->| ->]; cbv in Hhi; congruence.
Qed.

(** ** What never goes away *)
Record later (W W' : world) : Prop := {
  lt_names : forall n id, mlookup n (w_names W) = Some id -> mlookup n (w_names W') = Some id;
  lt_sk : forall id x, nth_error (skels W) id = Some x -> nth_error (skels W') id = Some x;
  lt_outputs : forall n o, mlookup n (w_outputs W) = Some o -> mlookup n (w_outputs W') = Some o;
  lt_heap : length (w_heap W) <= length (w_heap W');
  lt_spec : forall o x, nth_error (w_heap W) o = Some x ->
     exists x', nth_error (w_heap W') o = Some x' /\ o_spec x' = o_spec x
}.
Lemma later_refl W : later W W.
Proof. constructor; eauto. Qed.
Lemma later_trans W W1 W2 : later W W1 -> later W1 W2 -> later W W2.
Proof.
  intros A B. constructor; intros.
  - apply B, A; assumption.
  - apply B, A; assumption.
  - apply B, A; assumption.
  - pose proof (lt_heap _ _ A). pose proof (lt_heap _ _ B). lia.
  - destruct (lt_spec _ _ A _ _ H) as (x1 & H1 & E1). destruct (lt_spec _ _ B _ _ H1) as (x2 & H2 & E2).
    exists x2. split; [assumption|congruence].
Qed.
Lemma grow_later W W' : grow W W' -> later W W'.
Proof.
  intros G. constructor.
  - now rewrite (gr_names _ _ G).
  - unfold skels. now rewrite (gr_loggers _ _ G).
  - apply G.
  - now apply grow_heap_len.
  - intros o x H. destruct (gr_heap _ _ G) as [ext E]. exists x. split; [|reflexivity]. rewrite E, nth_error_app1; [assumption|].
    apply nth_error_Some; congruence.
Qed.
Lemma upd_later W id f : (forall l, skel (f l) = skel l) -> later W (set_loggers W (upd id f (w_loggers W))).
Proof. intros H. constructor; unfold skels; cbn; eauto. rewrite upd_map by assumption. auto. Qed.
Lemma map_nth_transfer {A B} (g : A -> B) l l' o x : map g l' = map g l -> nth_error l o = Some x ->
  exists x', nth_error l' o = Some x' /\ g x' = g x.
Proof.
  intros E H. assert (E2 : nth_error (map g l') o = Some (g x)) by (rewrite E, nth_error_map, H; reflexivity).
  rewrite nth_error_map in E2. destruct (nth_error l' o) as [x'|]; [|discriminate]. injection E2 as E2. eauto.
Qed.
Lemma sends_later W W' : sends W W' -> later W W'.
Proof.
  intros S. constructor.
  - now rewrite (sd_names _ _ S).
  - unfold skels. now rewrite (sd_loggers _ _ S).
  - now rewrite (sd_outputs _ _ S).
  - erewrite <- (map_length _ (w_heap W)), <- (sd_heap _ _ S), map_length. lia.
  - intros o x H. destruct (map_nth_transfer _ _ _ _ _ (sd_heap _ _ S) H) as (x' & Hx' & E).
    exists x'. split; [assumption|congruence].
Qed.
Lemma SetOutputs_later W id ops W' : SetOutputs W id ops = Ok W' -> later W W'.
Proof.
  unfold SetOutputs. destruct (flags_of _ _) as [fs|]; [|discriminate]. intros [= <-].
  now apply upd_later.
Qed.
Lemma apply_glo_later W id g W' : apply_glo W id g = Ok W' -> later W W'.
Proof.
  unfold apply_glo. destruct (g_err g).
  - intros [= <-]. apply later_refl.
  - intros H. eapply later_trans; [|eapply SetOutputs_later; eassumption]. now apply upd_later.
Qed.
Lemma notify_later P ord : forall W W', notify P W ord = Ok W' -> inv W -> later W W'.
Proof.
  induction ord as [|id ord IH]; intros W W' H I; cbn in H; [injection H as <-; apply later_refl|].
  destruct (nth_error (w_loggers W) id) as [l|]; [|discriminate].
  destruct (GetLoggerOutputs P W (l_name l)) as [[W1 g]|] eqn:E; [|discriminate]. cbn [bind] in H.
  destruct (apply_glo W1 id g) as [W2|] eqn:E2; [|discriminate]. cbn [bind] in H.
  pose proof (GLO_grow _ _ _ _ _ (iv_valid _ I) E) as G.
  assert (I2 : inv W2) by (eapply apply_glo_inv; [eassumption|eapply grow_inv; eassumption]).
  eapply later_trans; [apply grow_later, G|]. eapply later_trans; [eapply apply_glo_later; eassumption|].
  now apply IH.
Qed.
Lemma setConfig_later P W c ord W' ok : setConfig P W c ord = Ok (W', ok) -> inv W -> later W W'.
Proof.
  unfold setConfig. destruct (validateConfig c); [|intros [= <- <-] _; apply later_refl].
  destruct (notify _ _ _) as [W1|] eqn:E; [|discriminate]. cbn. intros [= <- <-] I.
  eapply later_trans; [|eapply notify_later; [eassumption|now apply set_config_inv]].
  constructor; cbn; eauto.
Qed.

(** ** The root logger *)
Lemma getRootLogger_spec P W W' r : getRootLogger P W = Ok (W', r) -> inv W ->
  inv W' /\ w_root W' = Some r /\ nth_error (skels W') r = Some (rootName, None) /\ later W W' /\
  w_config W' = w_config W /\ w_fcreators W' = w_fcreators W /\ w_ocreators W' = w_ocreators W /\
  (W' = W \/ w_loggers W = [] /\ r = 0 /\ length (w_loggers W') = 1).
Proof.
  unfold getRootLogger. intros H I. pose proof (iv_sk _ I) as Sk. pose proof (si_rootptr _ _ _ Sk) as Hr.
  destruct (w_root W) as [r0|] eqn:Er.
  - injection H as <- <-. destruct (si_names _ _ _ Sk _ _ Hr) as [p Hp].
    assert (p = None) as -> by (eapply (si_root _ _ _ Sk); [eassumption|reflexivity]).
    split; [assumption|]. split; [assumption|]. split; [assumption|]. split; [apply later_refl|]. auto.
  - assert (Hl : w_loggers W = []) by (unfold skels in Hr; destruct (w_loggers W); [reflexivity|discriminate]).
    assert (Hn : forall n, mlookup n (w_names W) = None).
    { rewrite Hr in Sk. apply (sk_names_empty _ _ Sk). }
    rewrite Hl in H. cbn [length app] in H.
    match type of H with bind (GetLoggerOutputs _ ?X _) _ = _ => set (W0 := X) in * end.
    destruct (GetLoggerOutputs P W0 rootName) as [[W1 g]|] eqn:Eg; [|discriminate]. cbn [bind] in H.
    assert (V0 : outs_valid W0) by (intros n o; apply (iv_valid _ I)).
    pose proof (GLO_grow _ _ _ _ _ V0 Eg) as G.
    assert (HW1 : w_loggers W1 = [newLogger rootName None]) by now rewrite (gr_loggers _ _ G).
    assert (Hr1 : w_root W1 = Some 0) by now rewrite (gr_root _ _ G).
    assert (Hn1 : w_names W1 = w_names W) by now rewrite (gr_names _ _ G).
    set (W1' := if g_err g then fst (add_output (SetLevel W1 0 Debug)
                 (mkOut (console_of (NewConsoleOutput (p_up P) None)) None [] [] 0))
                else SetLevel W1 0 (g_lvl g)).
    set (ops := if g_err g then [length (w_heap W1)] else g_ops g).
    assert (HS : exists W3, SetOutputs W1' 0 ops = Ok W3 /\
               W' = set_factory W3 (w_loggers W3) (w_root W3) (minsert rootName 0 (w_names W3)) /\ r = 0).
    { subst W1' ops. destruct (g_err g); cbn [add_output fst] in *.
      - destruct (SetOutputs _ _ _) as [W3|] eqn:E3 in H; [|discriminate]. cbn [bind] in H.
        injection H as <- <-. exists W3. split; [exact E3|auto].
      - destruct (SetOutputs _ _ _) as [W3|] eqn:E3 in H; [|discriminate]. cbn [bind] in H.
        injection H as <- <-. exists W3. split; [exact E3|auto]. }
    clear H. destruct HS as (W3 & HS & -> & ->).
    unfold SetOutputs in HS. destruct (flags_of (w_heap W1') ops) as [fs|] eqn:Ef; [|discriminate].
    injection HS as <-. cbn [bind].
    assert (Hl1 : w_loggers W1' = [with_level (if g_err g then Debug else g_lvl g) (newLogger rootName None)]).
    { subst W1'. destruct (g_err g); cbn; rewrite HW1; reflexivity. }
    assert (Hrest : w_root W1' = Some 0 /\ w_names W1' = w_names W /\ w_outputs W1' = w_outputs W1 /\
                    w_config W1' = w_config W1 /\ w_fcreators W1' = w_fcreators W1 /\ w_ocreators W1' = w_ocreators W1).
    { subst W1'. destruct (g_err g); cbn; rewrite Hr1, Hn1; repeat split; reflexivity. }
    destruct Hrest as (R1 & R2 & R3 & R4 & R5 & R6).
    assert (Hheap : exists ext, w_heap W1' = w_heap W1 ++ ext).
    { subst W1'. destruct (g_err g); cbn; [eauto|exists []; now rewrite app_nil_r]. }
    destruct Hheap as [ext Hheap].
    assert (Hsk : forall x, skels (set_factory (set_loggers W1' (upd 0 (with_outputs ops fs) (w_loggers W1')))
              (upd 0 (with_outputs ops fs) (w_loggers W1')) (w_root W1') x) = [(rootName, None)]).
    { intros x. unfold skels. cbn. rewrite Hl1. reflexivity. }
    assert (Hlater : later W W1).
    { constructor.
      - intros n id Hx. now rewrite Hn in Hx.
      - unfold skels. rewrite Hl. intros [|id] x Hx; discriminate.
      - exact (gr_outputs _ _ G).
      - exact (grow_heap_len _ _ G).
      - exact (lt_spec _ _ (grow_later _ _ G)). }
    assert (Hlater1 : forall o x, nth_error (w_heap W1) o = Some x -> nth_error (w_heap W1') o = Some x).
    { intros o x Hx. rewrite Hheap, nth_error_app1; [assumption|]. apply nth_error_Some; congruence. }
    split; [constructor|].
    + cbn [w_root w_names set_factory set_loggers w_loggers]. rewrite Hsk, R1, R2. apply sk_root, Hn.
    + intros n o. cbn. rewrite R3, Hheap, app_length. intros Hx.
      apply (grow_valid _ _ G V0) in Hx. lia.
    + intros n m o. cbn. rewrite R3. intros Hx Hy.
      destruct (gr_outputs_inj _ _ G n m o Hx Hy) as [?|[H1 H2]]; [assumption|].
      exact (iv_inj _ I _ _ _ H1 H2).
    + cbn. intros id l Hx. rewrite Hl1 in Hx. destruct id as [|[|id]]; cbn in Hx; try discriminate.
      injection Hx as <-. cbn. eapply flags_of_valid; eassumption.
    + split; [cbn; assumption|]. split; [unfold skels; cbn; rewrite Hl1; reflexivity|].
      split; [constructor|].
      * intros n id Hx. now rewrite Hn in Hx.
      * unfold skels. rewrite Hl. intros [|id] x Hx; discriminate.
      * cbn. rewrite R3. apply Hlater.
      * cbn. rewrite Hheap, app_length. pose proof (lt_heap _ _ Hlater). lia.
      * cbn. intros o x Hx. destruct (lt_spec _ _ Hlater _ _ Hx) as (x' & Hx' & E). eauto.
      * cbn. rewrite R4, R5, R6, (gr_config _ _ G), (gr_fc _ _ G), (gr_oc _ _ G). cbn.
        repeat (split; [reflexivity|]). right. rewrite Hl1. auto.
Qed.

Lemma parent_or_root W n : n <> [] -> n <> rootName -> inv W ->
  forall id l, nth_error (w_loggers W) id = Some l -> l_name l = n ->
  exists p pl, l_parent l = Some p /\ p < id /\ nth_error (w_loggers W) p = Some pl /\ parent_name n (l_name pl).
Proof.
  intros _ Hnr I id l Hl Hn. pose proof (nth_skels _ _ _ Hl) as Hs. rewrite Hn in Hs.
  destruct (l_parent l) as [p|] eqn:Ep.
  - destruct (si_parent _ _ _ (iv_sk _ I) _ _ _ Hs) as (Hlt & pn & pp & H1 & H2).
    apply nth_skels_inv in H1 as (pl & H1 & <- & _). exists p, pl. auto.
  - apply (si_root _ _ _ (iv_sk _ I)) in Hs. tauto.
Qed.

(** ** GetLogger *)
Definition asked (n : str) : str := match n with [] => rootName | _ => n end.
Lemma createLogger_later W name parent W' id : createLogger W name parent = (W', id) -> later W W'.
Proof.
  unfold createLogger. destruct (mlookup name (w_names W)) as [j|] eqn:E; intros [= <- <-]; [apply later_refl|].
  constructor; cbn; eauto.
  - intros n j H. rewrite mlookup_minsert_ne; [assumption|congruence].
  - unfold skels. cbn. intros j x H. rewrite map_app. rewrite nth_error_app1; [assumption|].
    apply nth_error_Some; congruence.
Qed.
Lemma parent_loop_later name rs : forall W parent W' id, parent_loop W name rs parent = (W', id) -> later W W'.
Proof.
  induction rs as [|[i c] rs IH]; intros W parent W' id H; cbn [parent_loop] in H.
  - injection H as <- <-. apply later_refl.
  - destruct (_ || _); [|eapply IH; eassumption]. destruct (firstn i name) as [|a b]; [eapply IH; eassumption|].
    destruct (createLogger W (a :: b) parent) as [W1 p] eqn:Ec.
    eapply later_trans; [eapply createLogger_later; eassumption|eapply IH; eassumption].
Qed.
(** Between [getRootLogger] and the lookup of the configuration only the factory changes. *)
Lemma createLogger_rest W name parent W' id : createLogger W name parent = (W', id) ->
  W' = set_factory W (w_loggers W') (w_root W') (w_names W').
Proof.
  unfold createLogger. destruct (mlookup _ _); intros [= <- <-]; [destruct W|]; reflexivity.
Qed.
Lemma set_factory_twice W a b c a' b' c' : set_factory (set_factory W a b c) a' b' c' = set_factory W a' b' c'.
Proof. reflexivity. Qed.
Lemma parent_loop_rest name rs : forall W parent W' id, parent_loop W name rs parent = (W', id) ->
  W' = set_factory W (w_loggers W') (w_root W') (w_names W').
Proof.
  induction rs as [|[i c] rs IH]; intros W parent W' id H; cbn [parent_loop] in H.
  - injection H as <- <-. destruct W; reflexivity.
  - destruct (_ || _); [|eapply IH; eassumption]. destruct (firstn i name) as [|a b]; [eapply IH; eassumption|].
    destruct (createLogger W (a :: b) parent) as [W1 p] eqn:Ec.
    apply IH in H. rewrite H at 1. apply createLogger_rest in Ec. rewrite Ec at 1. reflexivity.
Qed.

(** Creating the logger [name] (absent so far): the world just before its configuration is looked up. *)
Record made (W : world) (name : str) (W2 : world) (id : nat) : Prop := {
  md_inv : inv W2;
  md_root : w_root W2 = w_root W;
  md_rest : W2 = set_factory W (w_loggers W2) (w_root W2) (w_names W2);
  md_name : mlookup name (w_names W2) = Some id;
  md_new : exists q, nth_error (w_loggers W2) id = Some (newLogger name (Some q));
  md_fresh : length (w_loggers W) <= id;
  md_old : forall j x, nth_error (w_loggers W) j = Some x -> nth_error (w_loggers W2) j = Some x;
  md_only : forall j x, nth_error (w_loggers W2) j = Some x -> nth_error (w_loggers W) j = Some x \/
     length (w_loggers W) <= j /\ (exists q, x = newLogger (l_name x) (Some q)) /\
     (sep_prefix name (l_name x) \/ l_name x = name);
  md_names : forall n j, mlookup n (w_names W) = Some j -> mlookup n (w_names W2) = Some j
}.
Lemma make_spec W name r W1 p W2 id :
  inv W -> w_root W = Some r -> name <> [] -> name <> rootName -> mlookup name (w_names W) = None ->
  parent_loop W name (range_str name) r = (W1, p) -> createLogger W1 name p = (W2, id) ->
  made W name W2 id.
Proof.
  intros I Hr Hne Hnr Hnone HL HC.
  pose proof (si_rootptr _ _ _ (iv_sk _ I)) as Hptr. rewrite Hr in Hptr.
  destruct (si_names _ _ _ (iv_sk _ I) _ _ Hptr) as [rp Hrp].
  destruct (parent_loop_inv name (length name) [] name W r rootName rp W1 p eq_refl (le_n _) HL I ltac:(congruence) Hrp parent_nil)
    as (I1 & Hr1 & (pn & pp & Hp & Hpn) & Hext & Hnew & Hnm).
  assert (Hnone1 : mlookup name (w_names W1) = None).
  { destruct (mlookup name (w_names W1)) as [j|] eqn:E; [|reflexivity]. exfalso.
    destruct (si_names _ _ _ (iv_sk _ I1) _ _ E) as [q Hq]. apply nth_skels_inv in Hq as (l & Hl & Hn & _).
    apply Hnew in Hl as [Hl|(_ & _ & Hs)].
    - pose proof (nth_skels _ _ _ Hl) as Hs. apply (si_all _ _ _ (iv_sk _ I)) in Hs. congruence.
    - apply sep_prefix_short in Hs. rewrite Hn in Hs. lia. }
  destruct (createLogger_inv _ _ _ _ _ _ _ HC I1 Hne ltac:(congruence) Hp Hpn)
    as (I2 & (q & Hq) & Hr2 & Hext2 & Hnew2 & Hnm2).
  assert (Hge : length (w_loggers W) <= length (w_loggers W1)).
  { destruct (le_lt_dec (length (w_loggers W)) (length (w_loggers W1))) as [?|Hlt]; [assumption|]. exfalso.
    destruct (nth_error (w_loggers W) (length (w_loggers W1))) as [x|] eqn:Ex.
    - apply Hext in Ex. assert (nth_error (w_loggers W1) (length (w_loggers W1)) <> None) as F by congruence.
      apply nth_error_Some in F. lia.
    - apply nth_error_None in Ex. lia. }
  assert (HC' := HC). unfold createLogger in HC'. rewrite Hnone1 in HC'. injection HC' as HW2 Hid.
  constructor; auto.
  - congruence.
  - pose proof (parent_loop_rest _ _ _ _ _ _ HL) as E1. pose proof (createLogger_rest _ _ _ _ _ HC) as E2.
    rewrite E2 at 1. rewrite E1 at 1. reflexivity.
  - now apply (si_all _ _ _ (iv_sk _ I2)) in Hq.
  - exists p. rewrite <- HW2, <- Hid. cbn. apply nth_snoc.
  - lia.
  - intros j x Hj. apply Hnew2 in Hj as [Hj|(Hl & q' & Hq' & Hn)].
    + apply Hnew in Hj as [Hj|(Hl & Hq' & Hs)]; auto.
    + right. split; [lia|]. split; [eauto|auto].
Qed.

Lemma GetLogger_cases P W name W' id : GetLogger P W name = Ok (W', id) -> inv W ->
  (asked name = rootName /\ getRootLogger P W = Ok (W', id)) \/
  (asked name = name /\ name <> rootName /\ W' = W /\ mlookup name (w_names W) = Some id) \/
  (asked name = name /\ name <> rootName /\ name <> [] /\ mlookup name (w_names W) = None /\
   exists W1 r W2 W3 g, getRootLogger P W = Ok (W1, r) /\ made W1 name W2 id /\ later W1 W2 /\
     GetLoggerOutputs P W2 name = Ok (W3, g) /\ apply_glo W3 id g = Ok W').
Proof.
  unfold GetLogger. intros H I.
  destruct (str_eqb_spec name []) as [->|Hne]; [left; auto|].
  destruct (str_eqb_spec name rootName) as [->|Hnr]; [left; auto|]. cbn [orb] in H.
  assert (Ha : asked name = name) by (destruct name; [congruence|reflexivity]).
  destruct (mlookup name (w_names W)) as [j|] eqn:En.
  - injection H as <- <-. right; left. auto.
  - right; right. do 3 (split; [assumption|]). split; [reflexivity|]. unfold getParent in H.
    destruct (getRootLogger P W) as [[W1 r]|] eqn:Er; [|discriminate]. cbn [bind] in H.
    destruct (parent_loop W1 name (range_str name) r) as [W1' p] eqn:EL.
    destruct (createLogger W1' name p) as [W2 id'] eqn:EC.
    destruct (GetLoggerOutputs P W2 name) as [[W3 g]|] eqn:EG; [|discriminate]. cbn [bind] in H.
    destruct (apply_glo W3 id' g) as [W4|] eqn:EA; [|discriminate]. cbn [bind] in H. injection H as <- <-.
    destruct (getRootLogger_spec _ _ _ _ Er I) as (I1 & Hr1 & Hs1 & L1 & _ & _ & _ & Hcase).
    assert (En1 : mlookup name (w_names W1) = None).
    { destruct Hcase as [->|(_ & _ & Hl)]; [assumption|].
      destruct (mlookup name (w_names W1)) as [j|] eqn:E; [|reflexivity]. exfalso.
      destruct (si_names _ _ _ (iv_sk _ I1) _ _ E) as [q Hq].
      assert (j < 1). { rewrite <- Hl. rewrite <- (map_length skel). apply nth_error_Some. unfold skels in Hq. congruence. }
      assert (r < 1). { rewrite <- Hl. rewrite <- (map_length skel). apply nth_error_Some. unfold skels in Hs1. congruence. }
      replace j with r in Hq by lia. congruence. }
    exists W1, r, W2, W3, g. split; [reflexivity|]. split; [eapply make_spec; eassumption|].
    split; [|auto]. eapply later_trans; [eapply parent_loop_later; eassumption|eapply createLogger_later; eassumption].
Qed.

Lemma GetLogger_inv P W name W' id : GetLogger P W name = Ok (W', id) -> inv W ->
  inv W' /\ later W W' /\ mlookup (asked name) (w_names W') = Some id.
Proof.
  intros H I. destruct (GetLogger_cases _ _ _ _ _ H I) as [[-> HR]|[(-> & _ & -> & Hn)|
     (-> & Hnr & Hne & Hnone & W1 & r & W2 & W3 & g & HR & M & L2 & HG & HA)]].
  - destruct (getRootLogger_spec _ _ _ _ HR I) as (I1 & Hr1 & Hs1 & L1 & _).
    split; [assumption|]. split; [assumption|]. now apply (si_all _ _ _ (iv_sk _ I1)) in Hs1.
  - split; [assumption|]. split; [apply later_refl|assumption].
  - destruct (getRootLogger_spec _ _ _ _ HR I) as (I1 & Hr1 & Hs1 & L1 & _).
    pose proof (md_inv _ _ _ _ M) as I2. pose proof (GLO_grow _ _ _ _ _ (iv_valid _ I2) HG) as G.
    pose proof (grow_inv _ _ G I2) as I3. pose proof (apply_glo_later _ _ _ _ HA) as L4.
    split; [eapply apply_glo_inv; eassumption|]. split.
    + eapply later_trans; [eassumption|]. eapply later_trans; [eassumption|].
      eapply later_trans; [apply grow_later; eassumption|assumption].
    + apply (lt_names _ _ L4), (lt_names _ _ (grow_later _ _ G)), (md_name _ _ _ _ M).
Qed.

(** ** Every call keeps the invariant *)
Lemma close_fold_map {B} (g : output -> B) (os : smap nat) : (forall o, g (close_out o) = g o) ->
  forall h, map g (fold_left (fun h p => upd (snd p) close_out h) os h) = map g h.
Proof.
  intros Hg. induction os as [|[n o] os IH]; intros h; cbn; [reflexivity|]. rewrite IH. now apply upd_map.
Qed.
Lemma heap_change W h : map o_spec h = map o_spec (w_heap W) -> inv W -> inv (set_heap W h) /\ later W (set_heap W h).
Proof.
  intros E I. assert (Hl : length h = length (w_heap W)) by (erewrite <- map_length, E, map_length; reflexivity).
  split.
  - constructor; try apply I.
    + intros n o Hx. cbn. rewrite Hl. now apply (iv_valid _ I) in Hx.
    + cbn. rewrite Hl. apply I.
  - constructor; cbn; auto; [lia|]. intros o x Hx. now apply (map_nth_transfer o_spec _ h) in Hx.
Qed.
Lemma exec_inv P W o W' r : exec P W o = Ok (W', r) -> inv W -> inv W' /\ later W W'.
Proof.
  intros H I. destruct o; cbn [exec] in H.
  - destruct (GetLogger P W name) as [[W1 id]|] eqn:E; [|discriminate]. injection H as <- <-.
    destruct (GetLogger_inv _ _ _ _ _ E I) as (A & B & _). auto.
  - destruct (nth_error _ _); [|discriminate]. injection H as <- <-. split; [now apply SetLevel_inv|now apply upd_later].
  - destruct (nth_error _ _); [|discriminate]. destruct (SetOutputs W id ops) as [W1|] eqn:E; [|discriminate].
    injection H as <- <-. split; [eapply SetOutputs_inv; eassumption|eapply SetOutputs_later; eassumption].
  - destruct (nth_error _ _); [|discriminate]. injection H as <- <-. split; [now apply inv_upd|now apply upd_later].
  - destruct (Printf _ _ _ _ _ _ _ _ _ _) as [W1|] eqn:E; [|discriminate]. injection H as <- <-.
    apply Printf_sends in E. split; [eapply sends_inv; eassumption|now apply sends_later].
  - injection H as <- <-. split; [constructor; apply I|constructor; cbn; eauto].
  - injection H as <- <-. split; [constructor; apply I|constructor; cbn; eauto].
  - destruct (GetLoggerOutputs P W name) as [[W1 g]|] eqn:E; [|discriminate]. injection H as <- <-.
    pose proof (GLO_grow _ _ _ _ _ (iv_valid _ I) E) as G. split; [eapply grow_inv; eassumption|now apply grow_later].
  - destruct (setConfig P W c ord) as [[W1 ok]|] eqn:E; [|discriminate]. injection H as <- <-.
    split; [eapply setConfig_inv; eassumption|eapply setConfig_later; eassumption].
  - unfold LoadConfig in H. destruct (setConfig P W _ ord) as [[W1 ok]|] eqn:E; [|discriminate]. injection H as <- <-.
    split; [eapply setConfig_inv; eassumption|eapply setConfig_later; eassumption].
  - unfold LoadConfigFile, LoadConfig in H. destruct (p_read P file).
    + destruct (path_Ext file); [discriminate|].
      destruct (setConfig P W _ ord) as [[W1 ok]|] eqn:E; [|discriminate]. injection H as <- <-.
      split; [eapply setConfig_inv; eassumption|eapply setConfig_later; eassumption].
    + injection H as <- <-. split; [assumption|apply later_refl].
  - injection H as <- <-. apply heap_change; [|assumption]. now apply close_fold_map.
  - injection H as <- <-. cbn. split.
    + constructor; try apply I.
      * intros n o Hx. cbn. rewrite app_length. apply (iv_valid _ I) in Hx. cbn; lia.
      * cbn. intros id l Hx. apply (iv_ops _ I) in Hx. eapply Forall_lt_mono; [|eassumption]. rewrite app_length; cbn; lia.
    + constructor; cbn; auto; [rewrite app_length; cbn; lia|].
      intros o x Hx. exists x. split; [|reflexivity]. rewrite nth_error_app1; [assumption|].
      apply nth_error_Some; congruence.
  - destruct (nth_error _ _); [|discriminate]. injection H as <- <-. apply heap_change; [|assumption]. now apply upd_map.
Qed.
(** ** Calls stopped by a panic *)
(** Where GetLoggerOutputs or the logger being set up was left. *)
Definition halt (P : params) (W W' : world) : Prop :=
  W' = W \/ loop_cut W W' \/ exists n g, GetLoggerOutputs P W n = Ok (W', g).
Lemma halt_grow P W W' : outs_valid W -> halt P W W' -> grow W W'.
Proof.
  intros V [->|[H|(n & g & H)]]; [apply grow_refl|now apply loop_cut_grow|eapply GLO_grow; eassumption].
Qed.
(** What a stopped call has done: nothing but make outputs; or set up some of the loggers with the new configuration;
    or make the logger and those above it; or send the event to some of the outputs. *)
Inductive stopped (P : params) (W : world) : op -> world -> Prop :=
| st_glo o W' : halt P W W' -> stopped P W o W'
| st_config o c ord1 ord2 W1 W' : gives P o c (ord1 ++ ord2) -> validateConfig c = true -> notify P (set_config W c) ord1 = Ok W1 -> halt P W1 W' -> stopped P W o W'
| st_logger name W0 r W1 p W2 id W' : name <> [] -> name <> rootName -> mlookup name (w_names W) = None ->
    getRootLogger P W = Ok (W0, r) -> parent_loop W0 name (range_str name) r = (W1, p) -> createLogger W1 name p = (W2, id) -> halt P W2 W' ->
    stopped P W (OGetLogger name) W'
| st_log id c v lvl fmt args now ustk W' : sends W W' -> stopped P W (OLog id c v lvl fmt args now ustk) W'.
Lemma notify_stopped P ord : forall W W', try_notify P W ord = Raised W' ->
  exists ord1 ord2 W1, ord = ord1 ++ ord2 /\ notify P W ord1 = Ok W1 /\ halt P W1 W'.
Proof.
  induction ord as [|id ord IH]; intros W W' H; cbn [try_notify] in H; [discriminate|].
  destruct (nth_error (w_loggers W) id) as [l|] eqn:El.
  2:{ injection H as <-. exists [], (id :: ord), W. split; [reflexivity|]. split; [reflexivity|now left]. }
  pose proof (GLO_same P W (l_name l)) as Sm.
  destruct (try_GetLoggerOutputs P W (l_name l)) as [W1 g|W1] eqn:Eg; cbn [pbind] in H; cbn [same_as] in Sm.
  2:{ injection H as <-. exists [], (id :: ord), W. split; [reflexivity|]. split; [reflexivity|]. right; left. eapply GLO_cut; eassumption. }
  unfold try_apply_glo in H. destruct (apply_glo W1 id g) as [W2|] eqn:Ea; cbn [pbind] in H.
  2:{ injection H as <-. exists [], (id :: ord), W. split; [reflexivity|]. split; [reflexivity|]. right; right. eauto. }
  apply IH in H as (ord1 & ord2 & W3 & -> & E & Hh). exists (id :: ord1), ord2, W3. split; [reflexivity|]. split; [|exact Hh].
  cbn [notify]. rewrite El, Sm. cbn [bind]. rewrite Ea. exact E.
Qed.
Lemma setConfig_stopped P W c ord W' o : try_setConfig P W c ord = Raised W' -> gives P o c ord -> stopped P W o W'.
Proof.
  unfold try_setConfig. destruct (validateConfig c) eqn:V; [|discriminate].
  destruct (try_notify P (set_config W c) ord) as [W1 u|W1] eqn:E; cbn; [discriminate|]. intros [= <-] Hg.
  apply notify_stopped in E as (ord1 & ord2 & W2 & -> & E & H). eapply st_config; eassumption.
Qed.
Lemma root_stopped P W W' : inv W -> try_getRootLogger P W = Raised W' -> ~ root_made W'.
Proof.
  unfold try_getRootLogger. intros I. destruct (w_root W) eqn:Er; [discriminate|]. cbv zeta.
  pose proof (iv_sk _ I) as Sk. pose proof (si_rootptr _ _ _ Sk) as Hr. rewrite Er in Hr.
  assert (Hn : mlookup rootName (w_names W) = None) by (rewrite Hr in Sk; apply (sk_names_empty _ _ Sk)).
  match goal with |- pbind (try_GetLoggerOutputs P ?X _) _ = _ -> _ => set (W0 := X) end.
  assert (V0 : outs_valid W0) by exact (iv_valid _ I). pose proof (GLO_same P W0 rootName) as Sm.
  destruct (try_GetLoggerOutputs P W0 rootName) as [W1 g|W1] eqn:Eg; cbn [pbind]; cbn [same_as] in Sm.
  - match goal with |- match ?X with _ => _ end = _ -> _ => destruct X end; [discriminate|]. intros [= <-].
    pose proof (GLO_grow _ _ _ _ _ V0 Sm) as G. intros M. specialize (M _ (gr_root _ _ G)). rewrite (gr_names _ _ G) in M. assert (F : mlookup rootName (w_names W) = Some (length (w_loggers W))) by exact M. congruence.
  - intros [= <-]. apply GLO_cut in Eg. pose proof (loop_cut_grow _ _ V0 Eg) as G. intros M. specialize (M _ (gr_root _ _ G)).
    rewrite (gr_names _ _ G) in M. assert (F : mlookup rootName (w_names W) = Some (length (w_loggers W))) by exact M. congruence.
Qed.
Lemma raised_stopped P W o W' : inv W -> raised P W o W' -> root_made W' -> stopped P W o W'.
Proof.
  unfold raised. intros I H Hr. destruct o; cbn [try_exec] in H; try discriminate; injection H as H.
  - destruct (try_GetLogger P W name) as [W1 id|W1] eqn:E; cbn [pbind] in H; [discriminate|]. injection H as ->.
    unfold try_GetLogger in E.
    destruct (str_eqb_spec name []) as [_|Hne]; [exfalso; cbn [orb] in E; exact (root_stopped _ _ _ I E Hr)|].
    destruct (str_eqb_spec name rootName) as [_|Hnr]; [exfalso; cbn [orb] in E; exact (root_stopped _ _ _ I E Hr)|]. cbn [orb] in E.
    destruct (mlookup name (w_names W)) as [j|] eqn:En; [discriminate|].
    destruct (try_getRootLogger P W) as [W0 r|W0] eqn:E0; cbn [pbind] in E.
    2:{ injection E as ->. exfalso. exact (root_stopped _ _ _ I E0 Hr). }
    pose proof (root_same P W) as Sm. rewrite E0 in Sm. cbn [same_as] in Sm.
    destruct (parent_loop W0 name (range_str name) r) as [W1 p] eqn:EL.
    destruct (createLogger W1 name p) as [W2 id] eqn:EC.
    assert (Hh : halt P W2 W').
    { pose proof (GLO_same P W2 name) as Sg. destruct (try_GetLoggerOutputs P W2 name) as [W3 g|W3] eqn:Eg; cbn [pbind] in E; cbn [same_as] in Sg.
      - unfold try_apply_glo in E. destruct (apply_glo W3 id g); cbn [pbind] in E; [discriminate|]. injection E as <-. right; right. eauto.
      - injection E as <-. right; left. eapply GLO_cut; eassumption. }
    eapply st_logger; eassumption.
  - destruct (try_Printf _ _ _ _ _ _ _ _ _ _) as [W1 u|W1] eqn:E; cbn [pbind] in H; [discriminate|]. injection H as ->.
    apply st_log. eapply try_Printf_sends; eassumption.
  - destruct (try_GetLoggerOutputs P W name) as [W1 g|W1] eqn:E; cbn [pbind] in H; [discriminate|]. injection H as ->.
    apply st_glo. right; left. eapply GLO_cut; eassumption.
  - destruct (try_setConfig P W c ord) as [W1 ok|W1] eqn:E; cbn [pbind] in H; [discriminate|]. injection H as ->.
    eapply setConfig_stopped; [eassumption|econstructor; eassumption].
  - destruct (try_setConfig P W _ ord) as [W1 ok|W1] eqn:E; cbn [pbind] in H; [discriminate|]. injection H as ->.
    eapply setConfig_stopped; [eassumption|econstructor; eassumption].
  - destruct (p_read P file) eqn:Er; [|discriminate]. destruct (path_Ext file) eqn:Ee; [injection H as ->; apply st_glo; now left|].
    destruct (try_setConfig P W _ ord) as [W1 ok|W1] eqn:E; cbn [pbind] in H; [discriminate|]. injection H as ->.
    eapply setConfig_stopped; [eassumption|econstructor; eassumption].
Qed.
Lemma stopped_made P W name W0 r W1 p W2 id : inv W -> name <> [] -> name <> rootName -> mlookup name (w_names W) = None ->
  getRootLogger P W = Ok (W0, r) -> parent_loop W0 name (range_str name) r = (W1, p) -> createLogger W1 name p = (W2, id) ->
  inv W0 /\ later W W0 /\ made W0 name W2 id /\ later W0 W2.
Proof.
  intros I Hne Hnr Hn Er EL EC. destruct (getRootLogger_spec _ _ _ _ Er I) as (I1 & Hr1 & Hs1 & L1 & _ & _ & _ & Hcase).
  assert (En1 : mlookup name (w_names W0) = None).
  { destruct Hcase as [->|(_ & _ & Hl)]; [assumption|].
    destruct (mlookup name (w_names W0)) as [j|] eqn:E; [|reflexivity]. exfalso.
    destruct (si_names _ _ _ (iv_sk _ I1) _ _ E) as [q Hq].
    assert (j < 1). { rewrite <- Hl. rewrite <- (map_length skel). apply nth_error_Some. unfold skels in Hq. congruence. }
    assert (r < 1). { rewrite <- Hl. rewrite <- (map_length skel). apply nth_error_Some. unfold skels in Hs1. congruence. }
    replace j with r in Hq by lia. congruence. }
  split; [exact I1|]. split; [exact L1|]. split; [eapply make_spec; eassumption|].
  eapply later_trans; [eapply parent_loop_later; eassumption|eapply createLogger_later; eassumption].
Qed.
Lemma raised_inv P W o W' : raised P W o W' -> root_made W' -> inv W -> inv W' /\ later W W'.
Proof.
  intros H Hr I. destruct (raised_stopped _ _ _ _ I H Hr) as [o W' Hh|o c ord1 ord2 W1 W' Hg V E Hh|name W0 r W1 p W2 id W' Hne Hnr Hn E0 EL EC Hh|? ? ? ? ? ? ? ? W' Sd].
  - pose proof (halt_grow _ _ _ (iv_valid _ I) Hh) as G. split; [eapply grow_inv; eassumption|now apply grow_later].
  - pose proof (set_config_inv W c I) as I0. pose proof (notify_inv _ _ _ _ E I0) as I1.
    pose proof (halt_grow _ _ _ (iv_valid _ I1) Hh) as G. split; [eapply grow_inv; eassumption|].
    eapply later_trans; [|apply grow_later; exact G]. eapply later_trans; [|eapply notify_later; eassumption]. constructor; cbn; eauto.
  - destruct (stopped_made _ _ _ _ _ _ _ _ _ I Hne Hnr Hn E0 EL EC) as (I0 & L0 & M & L2).
    pose proof (halt_grow _ _ _ (iv_valid _ (md_inv _ _ _ _ M)) Hh) as G.
    split; [eapply grow_inv; [eassumption|apply M]|]. eapply later_trans; [exact L0|]. eapply later_trans; [exact L2|]. now apply grow_later.
  - split; [eapply sends_inv; eassumption|now apply sends_later].
Qed.
Lemma init_inv P : inv (init_world P).
Proof.
  constructor.
  - constructor; cbn; try discriminate; try reflexivity; intros n p [|id]; discriminate.
  - intros n o; discriminate.
  - intros n m o; discriminate.
  - intros [|id]; discriminate.
Qed.
Lemma reach_inv P W : reach P W -> inv W.
Proof.
  induction 1 as [|W o W' r _ IH _ H|W o W' _ IH _ H Hr]; [apply init_inv|apply (exec_inv _ _ _ _ _ H IH)|apply (raised_inv _ _ _ _ H Hr IH)].
Qed.
Lemma steps_inv P W W' : steps P W W' -> inv W -> inv W' /\ later W W'.
Proof.
  induction 1 as [|W o W1 r W' _ H _ IH|W o W1 W' _ H Hr _ IH]; intros I; [split; [assumption|apply later_refl]| |].
  2:{ destruct (raised_inv _ _ _ _ H Hr I) as [I1 L1]. destruct (IH I1) as [I2 L2].
      split; [assumption|]. eapply later_trans; eassumption. }
  destruct (exec_inv _ _ _ _ _ H I) as [I1 L1]. destruct (IH I1) as [I2 L2].
  split; [assumption|]. eapply later_trans; eassumption.
Qed.
Lemma steps_reach P W W' : steps P W W' -> reach P W -> reach P W'.
Proof.
  induction 1; intros R; [assumption| |]; apply IHsteps; [eapply reach_step; eassumption|eapply reach_panic; eassumption].
Qed.

(** ** Names and ids *)
Lemma name_id W n id : inv W -> has_name W n id <-> mlookup n (w_names W) = Some id.
Proof.
  intros I. split.
  - intros (l & Hl & <-). apply nth_skels in Hl. now apply (si_all _ _ _ (iv_sk _ I)) in Hl.
  - intros H. apply (si_names _ _ _ (iv_sk _ I)) in H as [p H]. apply nth_skels_inv in H as (l & H & E & _).
    exists l; auto.
Qed.
Lemma same_name W n i j li lj : inv W -> nth_error (w_loggers W) i = Some li -> nth_error (w_loggers W) j = Some lj ->
  l_name li = n -> l_name lj = n -> i = j /\ li = lj.
Proof.
  intros I Hi Hj Ei Ej. assert (A : mlookup n (w_names W) = Some i) by (apply name_id; [assumption|exists li; auto]).
  assert (B : mlookup n (w_names W) = Some j) by (apply name_id; [assumption|exists lj; auto]).
  assert (i = j) by congruence. subst. split; [reflexivity|congruence].
Qed.

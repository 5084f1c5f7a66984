(** Lemmas for the property that what was logged has no influence on later calls: every call commutes with writing
    more in front of what the outputs have written and been sent. *)
From Verif Require Import GoStr Utf8 LevelModel EventModel LayoutModel ConfModel OutputModel WorldModel PanicModel FrameSpec WorldBase PanicBase.
Local Open Scope Z_scope.

Definition past1 : Type := (list str * list (severity * str))%type.
Definition addl (p : past1) (x : output) : output := mkOut (o_spec x) (o_fmt x) (fst p ++ o_writes x) (snd p ++ o_sys x) (o_closed x).
Fixpoint addh (F : list past1) (h : list output) : list output :=
  match h with
  | [] => []
  | x :: h' => match F with [] => x :: h' | p :: F' => addl p x :: addh F' h' end
  end.
Lemma addh_nil h : addh [] h = h.
Proof. destruct h; reflexivity. Qed.
Lemma addh_length F : forall h, length (addh F h) = length h.
Proof. induction F as [|p F IH]; intros [|x h]; cbn; auto. Qed.
Lemma addh_nth F : forall h i, nth_error (addh F h) i = option_map (fun x => match nth_error F i with Some p => addl p x | None => x end) (nth_error h i).
Proof.
  induction F as [|p F IH]; intros h i; [rewrite addh_nil; destruct (nth_error h i), i; reflexivity|].
  destruct h as [|x h]; [now destruct i|]. destruct i; [reflexivity|]. exact (IH h i).
Qed.
Lemma addh_app F : forall h l, (length F <= length h)%nat -> addh F (h ++ l) = addh F h ++ l.
Proof.
  induction F as [|p F IH]; intros h l H; [now rewrite !addh_nil|]. destruct h as [|x h]; cbn in *; [lia|]. rewrite IH by lia. reflexivity.
Qed.
Lemma addh_upd F g : (forall p x, addl p (g x) = g (addl p x)) -> forall h i, addh F (upd i g h) = upd i g (addh F h).
Proof.
  intros G. induction F as [|p F IH]; intros h i; [now rewrite !addh_nil|]. destruct h as [|x h]; [destruct i; reflexivity|].
  destruct i as [|i]; cbn; [now rewrite G|]. now rewrite IH.
Qed.
Lemma addh_put F : forall h i x y, nth_error h i = Some x ->
  addh F (upd i (fun _ => y) h) = upd i (fun _ => match nth_error F i with Some p => addl p y | None => y end) (addh F h).
Proof.
  induction F as [|p F IH]; intros h i x y H; [rewrite !addh_nil; destruct i; reflexivity|].
  destruct h as [|a h]; [destruct i; discriminate|]. destruct i as [|i]; [reflexivity|]. cbn. f_equal. exact (IH h i x y H).
Qed.
Lemma out_Send_addl E stk p x e : out_Send E stk (addl p x) e = match out_Send E stk x e with Ok (x', e') => Ok (addl p x', e') | Panic => Panic end.
Proof.
  unfold out_Send. cbn [addl o_spec o_fmt]. destruct (os_sink (o_spec x)), (os_async (o_spec x)); try (destruct (send e)); try reflexivity;
    (match goal with |- bind ?t _ = _ => destruct t as [[ws e']|] end; [|reflexivity]); cbn; unfold addl, with_writes, with_sys; cbn; now rewrite app_assoc.
Qed.

Section Frame.
Variable P : params.
Variable F : list past1.
Variable s : list (nat * (stack * event)).
Variable w : list str.
Definition fr (W : world) : world :=
  mkWorld (w_loggers W) (w_root W) (w_names W) (w_fcreators W) (w_ocreators W) (w_formats W) (w_outputs W) (w_config W)
    (addh F (w_heap W)) (w_ticks W) (s ++ w_sent W) (w ++ w_warn W).
Definition fits (W : world) : Prop := (length F <= length (w_heap W))%nat.
(** What is done from the framed state. *)
Definition tame {A} (t t' : pres A) : Prop :=
  match t with
  | Done W a => t' = Done (fr W) a /\ fits W
  | Raised W => t' = Raised (fr W) /\ fits W
  end.
Lemma tame_bind {A B} (t t' : pres A) (k : world -> A -> pres B) :
  tame t t' -> (forall W a, fits W -> tame (k W a) (k (fr W) a)) -> tame (pbind t k) (pbind t' k).
Proof. destruct t as [W a|W]; cbn; intros [-> H] K; cbn; [now apply K|auto]. Qed.
Lemma fr_loop names : forall W lvl acc, fits W -> tame (try_glo_loop W names lvl acc) (try_glo_loop (fr W) names lvl acc).
Proof.
  induction names as [|n names IH]; intros W lvl acc H; [split; [reflexivity|exact H]|]. cbn [try_glo_loop].
  change (w_config (fr W)) with (w_config W). destruct (GetCfgOutput (w_config W) n) as [oc|]; [|split; [reflexivity|exact H]].
  destruct (GetCfgFormat (w_config W) (cfg_FormatName (Some oc))) as [fc|]; [|split; [reflexivity|exact H]].
  change (w_fcreators (fr W)) with (w_fcreators W). destruct (mlookup (cfg_Type (Some fc)) (w_fcreators W)) as [f|]; [|split; [reflexivity|exact H]].
  apply tame_bind.
  { change (w_formats (fr W)) with (w_formats W). change (w_ticks (fr W)) with (w_ticks W). destruct (mlookup _ (w_formats W)); [split; [reflexivity|exact H]|].
    destruct (f (w_ticks W) (Some fc)) as [[f'|]|]; (split; [reflexivity|exact H]). }
  intros W1 of H1. destruct of as [f'|]; [|split; [reflexivity|exact H1]].
  change (w_ocreators (fr W1)) with (w_ocreators W1). destruct (mlookup (cfg_Type (Some oc)) (w_ocreators W1)) as [cr|]; [|split; [reflexivity|exact H1]].
  change (w_outputs (fr W1)) with (w_outputs W1). destruct (mlookup _ (w_outputs W1)); [now apply IH|].
  change (w_ticks (fr W1)) with (w_ticks W1). destruct (cr (w_ticks W1) (Some oc)) as [sp| |]; try (split; [reflexivity|exact H1]).
  cbv zeta. change (w_heap (fr W1)) with (addh F (w_heap W1)). rewrite addh_length, <- addh_app by exact H1.
  match goal with |- tame (try_glo_loop ?X _ _ _) _ => apply (IH X) end. unfold fits. cbn. rewrite app_length. unfold fits in H1. lia.
Qed.
Lemma fr_glo W n : fits W -> tame (try_GetLoggerOutputs P W n) (try_GetLoggerOutputs P (fr W) n).
Proof.
  intros H. unfold try_GetLoggerOutputs. change (w_config (fr W)) with (w_config W).
  destruct (GetCfgLogger (w_config W) n); [now apply fr_loop|split; [reflexivity|exact H]].
Qed.
Lemma fr_flags ops : forall h, flags_of (addh F h) ops = flags_of h ops.
Proof.
  induction ops as [|o ops IH]; intros h; [reflexivity|]. cbn [flags_of]. rewrite IH, addh_nth.
  destruct (nth_error h o); [|reflexivity]. cbn [option_map]. destruct (nth_error F o); reflexivity.
Qed.
Lemma fr_SetOutputs W id ops : SetOutputs (fr W) id ops = match SetOutputs W id ops with Ok W' => Ok (fr W') | Panic => Panic end.
Proof. unfold SetOutputs. change (w_heap (fr W)) with (addh F (w_heap W)). rewrite fr_flags. destruct (flags_of (w_heap W) ops); reflexivity. Qed.
Lemma SetOutputs_fits W id ops W' : SetOutputs W id ops = Ok W' -> fits W -> fits W'.
Proof. unfold SetOutputs. destruct (flags_of _ _); [|discriminate]. intros [= <-]. auto. Qed.
Lemma fr_apply W id g : fits W -> tame (try_apply_glo W id g) (try_apply_glo (fr W) id g).
Proof.
  intros H. unfold try_apply_glo, apply_glo. destruct (g_err g); [split; [reflexivity|exact H]|].
  change (SetLevel (fr W) id (g_lvl g)) with (fr (SetLevel W id (g_lvl g))). rewrite fr_SetOutputs.
  destruct (SetOutputs (SetLevel W id (g_lvl g)) id (g_ops g)) as [W'|] eqn:E; (split; [reflexivity|]); [|exact H].
  eapply SetOutputs_fits; [exact E|exact H].
Qed.
Lemma fr_notify ord : forall W, fits W -> tame (try_notify P W ord) (try_notify P (fr W) ord).
Proof.
  induction ord as [|id ord IH]; intros W H; [split; [reflexivity|exact H]|]. cbn [try_notify].
  change (w_loggers (fr W)) with (w_loggers W). destruct (nth_error (w_loggers W) id) as [l|]; [|split; [reflexivity|exact H]].
  apply tame_bind; [now apply fr_glo|]. intros W1 g H1. apply tame_bind; [now apply fr_apply|]. intros W2 _ H2. now apply IH.
Qed.
Lemma fr_setConfig W c ord : fits W -> tame (try_setConfig P W c ord) (try_setConfig P (fr W) c ord).
Proof.
  intros H. unfold try_setConfig. destruct (validateConfig c); [|split; [reflexivity|exact H]].
  apply tame_bind; [exact (fr_notify ord (set_config W c) H)|]. intros W1 _ H1. split; [reflexivity|exact H1].
Qed.
Lemma fr_root W : fits W -> tame (try_getRootLogger P W) (try_getRootLogger P (fr W)).
Proof.
  intros H. unfold try_getRootLogger. change (w_root (fr W)) with (w_root W). destruct (w_root W); [split; [reflexivity|exact H]|]. cbv zeta.
  change (w_loggers (fr W)) with (w_loggers W). apply tame_bind.
  { match goal with |- tame (try_GetLoggerOutputs P ?X _) _ => exact (fr_glo X rootName H) end. }
  intros W1 g H1. set (id := length (w_loggers W)).
  destruct (g_err g).
  - unfold add_output. change (SetLevel (fr W1) id Debug) with (fr (SetLevel W1 id Debug)).
    set (W2 := SetLevel W1 id Debug). change (w_heap (fr W2)) with (addh F (w_heap W2)). rewrite addh_length, <- addh_app by exact H1.
    match goal with |- context[SetOutputs (set_heap W2 ?h) ?a ?b] => set (W3 := set_heap W2 h); change (SetOutputs (set_heap (fr W2) (addh F h)) a b) with (SetOutputs (fr W3) a b) end.
    assert (H3 : fits W3) by (unfold fits in *; cbn; rewrite app_length; lia).
    rewrite fr_SetOutputs. destruct (SetOutputs W3 id _) as [W4|] eqn:E; (split; [reflexivity|]); [|exact H1].
    pose proof (SetOutputs_fits _ _ _ _ E H3) as H4. exact H4.
  - change (SetLevel (fr W1) id (g_lvl g)) with (fr (SetLevel W1 id (g_lvl g))). rewrite fr_SetOutputs.
    destruct (SetOutputs (SetLevel W1 id (g_lvl g)) id (g_ops g)) as [W4|] eqn:E; (split; [reflexivity|]); [|exact H1].
    pose proof (SetOutputs_fits _ _ _ _ E H1) as H4. exact H4.
Qed.
Lemma fr_create W n p : createLogger (fr W) n p = (fr (fst (createLogger W n p)), snd (createLogger W n p)) /\ (fits W -> fits (fst (createLogger W n p))).
Proof. unfold createLogger. change (w_names (fr W)) with (w_names W). destruct (mlookup n (w_names W)); auto. Qed.
Lemma fr_parents n rs : forall W p, parent_loop (fr W) n rs p = (fr (fst (parent_loop W n rs p)), snd (parent_loop W n rs p)) /\
  (fits W -> fits (fst (parent_loop W n rs p))).
Proof.
  induction rs as [|[i c] rs IH]; intros W p; [auto|]. cbn [parent_loop]. destruct (_ || _)%bool; [|apply IH].
  destruct (firstn i n) as [|a b]; [apply IH|]. destruct (fr_create W (a :: b) p) as [-> Hf].
  destruct (createLogger W (a :: b) p) as [W1 q]. cbn [fst snd] in *. destruct (IH W1 q) as [E H]. split; [exact E|auto].
Qed.
Lemma fr_GetLogger W n : fits W -> tame (try_GetLogger P W n) (try_GetLogger P (fr W) n).
Proof.
  intros H. unfold try_GetLogger. destruct (_ || _)%bool; [now apply fr_root|]. change (w_names (fr W)) with (w_names W).
  destruct (mlookup n (w_names W)); [split; [reflexivity|exact H]|]. apply tame_bind; [now apply fr_root|]. intros W0 r H0.
  destruct (fr_parents n (range_str n) W0 r) as [-> H1]. specialize (H1 H0). destruct (parent_loop W0 n (range_str n) r) as [W1 p]. cbn [fst snd] in *.
  destruct (fr_create W1 n p) as [-> H2]. specialize (H2 H1). destruct (createLogger W1 n p) as [W2 id]. cbn [fst snd] in *.
  apply tame_bind; [now apply fr_glo|]. intros W3 g H3. apply tame_bind; [now apply fr_apply|]. intros W4 _ H4. split; [reflexivity|exact H4].
Qed.
Lemma fr_dispatch E stk ops : forall W e, fits W -> tame (try_dispatch E stk W ops e) (try_dispatch E stk (fr W) ops e).
Proof.
  induction ops as [|i ops IH]; intros W e H; [split; [reflexivity|exact H]|]. cbn [try_dispatch].
  change (w_heap (fr W)) with (addh F (w_heap W)). rewrite addh_nth. destruct (nth_error (w_heap W) i) as [o|] eqn:En; [|split; [reflexivity|exact H]].
  cbn [option_map].
  assert (Es : out_Send E stk (match nth_error F i with Some p => addl p o | None => o end) e =
    match out_Send E stk o e with Ok (o', e') => Ok (match nth_error F i with Some p => addl p o' | None => o' end, e') | Panic => Panic end).
  { destruct (nth_error F i); [apply out_Send_addl|]. destruct (out_Send E stk o e) as [[? ?]|]; reflexivity. }
  rewrite Es. destruct (out_Send E stk o e) as [[o' e']|]; [|split; [reflexivity|exact H]].
  match goal with |- tame (try_dispatch _ _ ?X _ _) (try_dispatch _ _ ?Y _ _) => replace Y with (fr X) end.
  - apply IH. unfold fits in *. cbn. rewrite upd_length. exact H.
  - unfold fr, set_sent, set_heap. cbn. rewrite (addh_put F _ _ o) by exact En. now rewrite app_assoc.
Qed.
Lemma fr_write fuel : forall W id c name skip lvl fmt args now stk, fits W ->
  tame (try_write P fuel W id c name skip lvl fmt args now stk) (try_write P fuel (fr W) id c name skip lvl fmt args now stk).
Proof.
  induction fuel as [|fuel IH]; intros W id c name skip lvl fmt args now stk H; [split; [reflexivity|exact H]|]. cbn [try_write].
  change (w_loggers (fr W)) with (w_loggers W). change (LevelEnabled (fr W) id lvl) with (LevelEnabled W id lvl).
  destruct (nth_error (w_loggers W) id) as [l|]; [|split; [reflexivity|exact H]]. destruct (negb _); [split; [reflexivity|exact H]|].
  assert (Ew : set_warn (fr W) (w_warn (fr W) ++ [name]) = fr (set_warn W (w_warn W ++ [name]))) by (unfold fr, set_warn; cbn; now rewrite app_assoc).
  destruct (l_outputs l) as [|i ops]; [destruct (l_parent l); [now apply IH|rewrite Ew]|destruct (l_parent l)];
    (destruct (capture _ _ _ _) as [evt|]; [|split; [reflexivity|exact H]]).
  - exact (fr_dispatch _ _ _ (set_warn W (w_warn W ++ [name])) evt H).
  - now apply fr_dispatch.
  - now apply fr_dispatch.
Qed.
Lemma fr_Printf W id c v lvl fmt args now ustk : fits W -> tame (try_Printf P W id c v lvl fmt args now ustk) (try_Printf P (fr W) id c v lvl fmt args now ustk).
Proof.
  intros H. unfold try_Printf. change (w_loggers (fr W)) with (w_loggers W). destruct (nth_error _ _); [now apply fr_write|split; [reflexivity|exact H]].
Qed.
Lemma fr_try W o : fits W -> match try_exec P W o with Some t => exists t', try_exec P (fr W) o = Some t' /\ tame t t' | None => try_exec P (fr W) o = None end.
Proof.
  intros H. destruct o; cbn [try_exec]; try reflexivity; eexists; (split; [reflexivity|]).
  - apply tame_bind; [now apply fr_GetLogger|]. intros; split; [reflexivity|assumption].
  - apply tame_bind; [now apply fr_Printf|]. intros; split; [reflexivity|assumption].
  - apply tame_bind; [now apply fr_glo|]. intros; split; [reflexivity|assumption].
  - apply tame_bind; [now apply fr_setConfig|]. intros; split; [reflexivity|assumption].
  - apply tame_bind; [now apply fr_setConfig|]. intros; split; [reflexivity|assumption].
  - destruct (p_read P file); [|split; [reflexivity|assumption]]. destruct (path_Ext file); [split; [reflexivity|assumption]|].
    apply tame_bind; [now apply fr_setConfig|]. intros; split; [reflexivity|assumption].
Qed.
Lemma fold_close l : forall h, addh F (fold_left (fun h p => upd (snd p) close_out h) l h) = fold_left (fun h p => upd (snd p) close_out h) l (addh F h) /\
  length (fold_left (fun h (p : str * nat) => upd (snd p) close_out h) l h) = length h.
Proof.
  induction l as [|[k i] l IH]; intros h; [auto|]. cbn [fold_left snd]. destruct (IH (upd i close_out h)) as [-> ->].
  rewrite addh_upd by reflexivity. now rewrite upd_length.
Qed.
(** All calls. *)
Lemma fr_exec W o : fits W -> exec P (fr W) o = match exec P W o with Ok (W', r) => Ok (fr W', r) | Panic => Panic end /\
  (forall W' r, exec P W o = Ok (W', r) -> fits W').
Proof.
  intros H. pose proof (fr_try W o H) as T. destruct (try_exec P W o) as [t|] eqn:E.
  - destruct T as (t' & E' & T). pose proof (exec_same _ _ _ _ E) as S. pose proof (exec_same _ _ _ _ E') as S'.
    destruct t as [W1 a|W1]; cbn [tame] in T; destruct T as [-> Hf]; cbn [same_as] in S, S'; rewrite S, S'.
    + split; [reflexivity|]. intros W' r [= <- <-]. exact Hf.
    + split; [reflexivity|discriminate].
  - clear T. destruct o; cbn [try_exec] in E; try discriminate; cbn [exec]; try (split; [reflexivity|intros W' r [= <- <-]; exact H]).
    + change (w_loggers (fr W)) with (w_loggers W). destruct (nth_error _ _); (split; [reflexivity|]); [intros W' r [= <- <-]; exact H|discriminate].
    + change (w_loggers (fr W)) with (w_loggers W). destruct (nth_error _ _); [|split; [reflexivity|discriminate]]. rewrite fr_SetOutputs.
      destruct (SetOutputs W id ops) as [W1|] eqn:Es; (split; [reflexivity|]); [|discriminate]. intros W' r [= <- <-]. eapply SetOutputs_fits; eassumption.
    + change (w_loggers (fr W)) with (w_loggers W). destruct (nth_error _ _); (split; [reflexivity|]); [intros W' r [= <- <-]; exact H|discriminate].
    + unfold Close. change (w_outputs (fr W)) with (w_outputs W). change (w_heap (fr W)) with (addh F (w_heap W)).
      destruct (fold_close (w_outputs W) (w_heap W)) as [Ec El]. split; [unfold fr, set_heap; cbn; rewrite Ec; reflexivity|].
      intros W' r [= <- <-]. unfold fits in *. cbn. rewrite El. exact H.
    + unfold add_output. cbn. rewrite addh_length. split; [unfold fr, set_heap; cbn; rewrite addh_app by exact H; reflexivity|].
      intros W' r [= <- <-]. unfold fits in *. cbn. rewrite app_length. lia.
    + change (w_heap (fr W)) with (addh F (w_heap W)). rewrite addh_nth. destruct (nth_error (w_heap W) o); cbn [option_map]; [|split; [reflexivity|discriminate]].
      split; [unfold fr, set_heap; cbn; rewrite addh_upd by reflexivity; reflexivity|].
      intros W' r [= <- <-]. unfold fits in *. cbn. rewrite upd_length. exact H.
Qed.
Lemma fr_raised W o W' : fits W -> raised P W o W' -> raised P (fr W) o (fr W') /\ fits W'.
Proof.
  unfold raised. intros H E. pose proof (fr_try W o H) as T. rewrite E in T. destruct T as (t' & -> & [-> Hf]). auto.
Qed.
Lemma fr_raised_back W o V : fits W -> raised P (fr W) o V -> exists W', raised P W o W' /\ V = fr W' /\ fits W'.
Proof.
  unfold raised. intros H E. pose proof (fr_try W o H) as T. destruct (try_exec P W o) as [t|]; [|congruence]. destruct T as (t' & E' & T).
  rewrite E in E'. injection E' as <-. destruct t as [X a|X]; destruct T as [Et Hf]; [discriminate|]. injection Et as ->. eauto.
Qed.
End Frame.

(** ** Any state is a bare one with a frame *)
Definition bare_out (x : output) : output := mkOut (o_spec x) (o_fmt x) [] [] (o_closed x).
Definition bare (W : world) : world :=
  mkWorld (w_loggers W) (w_root W) (w_names W) (w_fcreators W) (w_ocreators W) (w_formats W) (w_outputs W) (w_config W)
    (map bare_out (w_heap W)) (w_ticks W) [] [].
Definition pasts (h : list output) : list past1 := map (fun x => (o_writes x, o_sys x)) h.
Lemma add_bare h : addh (pasts h) (map bare_out h) = h.
Proof. induction h as [|x h IH]; [reflexivity|]. cbn [map pasts addh]. f_equal; [|exact IH]. unfold addl. cbn. rewrite !app_nil_r. now destruct x. Qed.
Definition dress (V W : world) : world := fr (pasts (w_heap V)) (w_sent V) (w_warn V) W.
Lemma dress_bare W : dress W (bare W) = W.
Proof. unfold dress, fr, bare. cbn. rewrite add_bare, !app_nil_r. now destruct W. Qed.
Lemma bare_fits W : fits (pasts (w_heap W)) (bare W).
Proof. unfold fits, pasts, bare. cbn. rewrite !map_length. lia. Qed.
Lemma same_bare W V : same_but_logged W V -> bare V = bare W.
Proof.
  intros [A B C D E F G H I J]. unfold bare. rewrite A, B, C, D, E, F, G, H, I. f_equal. induction J as [|x y h k (S1 & S2 & S3) _ IH]; [reflexivity|].
  cbn. rewrite IH. unfold bare_out. now rewrite S1, S2, S3.
Qed.
Lemma bare_same W V : bare V = bare W -> same_but_logged W V.
Proof.
  unfold bare. intros [= A B C D E F G H I J]. constructor; auto. clear - I. revert I. generalize (w_heap V), (w_heap W).
  intros k h. revert k. induction h as [|x h IH]; intros [|y k] Hm; cbn in Hm; try discriminate; constructor.
  - injection Hm as H1 H2 H3 _. unfold same_output. auto.
  - apply IH. now injection Hm.
Qed.
Lemma addh_bare F : forall h, map bare_out (addh F h) = map bare_out h.
Proof. induction F as [|p F IH]; intros h; [now rewrite addh_nil|]. destruct h as [|x h]; [reflexivity|]. cbn. now rewrite IH. Qed.
Lemma dress_same V V' W : same_but_logged (dress V W) (dress V' W).
Proof. apply bare_same. unfold bare, dress. cbn. now rewrite !addh_bare. Qed.
Lemma dress_effect W W' Z Z' : fits (pasts (w_heap W)) Z -> length (w_heap W) = length (w_heap W') -> bare W = Z -> bare W' = Z ->
  fits (pasts (w_heap W)) Z' -> same_effect W (dress W Z') W' (dress W' Z').
Proof.
  intros H0 Hl B B' H. assert (Hf : (length (w_heap W) <= length (w_heap Z'))%nat) by (unfold fits, pasts in H; rewrite map_length in H; exact H).
  constructor.
  - exists (w_sent Z'). auto.
  - exists (w_warn Z'). auto.
  - intros i x y Hx Hy. assert (Hi : (i < length (w_heap W))%nat) by (apply nth_error_Some; congruence).
    destruct (nth_error (w_heap Z') i) as [z|] eqn:Ez; [|apply nth_error_None in Ez; lia].
    exists (addl (o_writes x, o_sys x) z), (addl (o_writes y, o_sys y) z), (o_writes z), (o_sys z). cbn [dress fr w_heap]. rewrite !addh_nth, Ez.
    unfold pasts. rewrite !nth_error_map, Hx, Hy. cbn. auto 6.
  - intros i Hi. cbn [dress fr w_heap]. rewrite !addh_nth. unfold pasts. rewrite !nth_error_map.
    replace (nth_error (w_heap W) i) with (@None output) by (symmetry; now apply nth_error_None).
    replace (nth_error (w_heap W') i) with (@None output) by (symmetry; apply nth_error_None; lia). reflexivity.
Qed.
Lemma made_bare P W o r W' : made P W o r W' <-> exists Z, made P (bare W) o r Z /\ W' = dress W Z /\ fits (pasts (w_heap W)) Z.
Proof.
  pose proof (bare_fits W) as B. pose proof (dress_bare W) as D. split.
  - intros [V a H|V H].
    + rewrite <- D in H. unfold dress in H. destruct (fr_exec P _ (w_sent W) (w_warn W) _ o B) as [E Hf]. rewrite E in H.
      destruct (exec P (bare W) o) as [[Z a']|] eqn:Ez; [|discriminate]. injection H as <- <-.
      exists Z. split; [now constructor|]. split; [reflexivity|]. eapply Hf. reflexivity.
    + rewrite <- D in H. unfold dress in H. apply (fr_raised_back P _ _ _ _ _ _ B) in H as (Z & Hz & -> & Hf). exists Z. split; [now constructor|]. auto.
  - intros (Z & H & -> & _). destruct H as [Z a H|Z H].
    + constructor. rewrite <- D at 1. unfold dress. destruct (fr_exec P _ (w_sent W) (w_warn W) _ o B) as [E _]. rewrite E, H. reflexivity.
    + apply md_panics. rewrite <- D at 1. unfold dress. now apply (fr_raised P _ _ _ _ _ _ B).
Qed.
Lemma same_length W V : same_but_logged W V -> length (w_heap V) = length (w_heap W).
Proof. intros S. pose proof (sl_heap _ _ S) as H. induction H; cbn; congruence. Qed.
Lemma same_sym W V : same_but_logged W V -> same_but_logged V W.
Proof. intros S. apply bare_same. symmetry. now apply same_bare. Qed.
Lemma same_trans W V U : same_but_logged W V -> same_but_logged V U -> same_but_logged W U.
Proof. intros S T. apply bare_same. rewrite (same_bare _ _ T). now apply same_bare. Qed.
Lemma same_refl W : same_but_logged W W.
Proof. now apply bare_same. Qed.
(** One call from two such states. *)
Lemma made_same P W V o r W' : same_but_logged W V -> made P W o r W' ->
  exists V', made P V o r V' /\ same_but_logged W' V' /\ same_effect W W' V V'.
Proof.
  intros S H. apply made_bare in H as (Z & H & -> & Hf). pose proof (same_bare _ _ S) as B. rewrite <- B in H. exists (dress V Z).
  assert (Hg : fits (pasts (w_heap V)) Z) by (unfold fits, pasts in *; rewrite map_length in *; now rewrite (same_length _ _ S)).
  split; [apply made_bare; exists Z; auto|]. split; [apply dress_same|].
  apply (dress_effect W V (bare W) Z); auto; [apply bare_fits|symmetry; now apply same_length].
Qed.

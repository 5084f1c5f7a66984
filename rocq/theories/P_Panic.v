(** Property C68: a creator panics and the caller recovers. *)
From Verif Require Import GoStr Utf8 LevelModel EventModel LayoutModel ConfModel OutputModel WorldModel PanicModel WorldSpec PanicSpec
  ManagerSpec WorldBase PanicBase WorldInv WorldProofs P_Hier ManagerProofs P_Manager PanicProofs.
Local Open Scope Z_scope.

(** [raised] is about all panics of the calls that ask creators and of the log calls (C71), and about no other call. *)
Theorem C68_all_panics : forall P W o,
  (asks o \/ log_call o -> exec P W o = Panic -> exists W', raised P W o W') /\
  (forall W', raised P W o W' -> (asks o \/ log_call o) /\ exec P W o = Panic).
Proof.
  intros P W o. split.
  - intros A H. assert (T : exists t, try_exec P W o = Some t) by (destruct A as [A|A]; destruct A; eexists; reflexivity). destruct T as [t T].
    pose proof (exec_same _ _ _ _ T) as S. unfold raised. destruct t as [X a|X]; cbn in S; [congruence|]. exists X. exact T.
  - intros W' H. split; [destruct o; try discriminate; try (left; constructor); right; constructor|]. exact (exec_same _ _ _ _ H).
Qed.
Print Assumptions C68_all_panics.

(** After it every logger and every output is there as before; outputs made before the panic are kept and unused;
    nothing was sent, written or closed. *)
Theorem C68_nothing_lost : forall P W o W', reach P W -> op_ok W o -> raised P W o W' -> asks o -> root_made W' ->
  (forall id l, nth_error (w_loggers W) id = Some l -> exists l', nth_error (w_loggers W') id = Some l' /\
     l_name l' = l_name l /\ l_parent l' = l_parent l /\ l_skip l' = l_skip l) /\
  (forall n i, mlookup n (w_outputs W) = Some i -> mlookup n (w_outputs W') = Some i) /\
  (exists new, w_heap W' = w_heap W ++ new /\ Forall unused new) /\
  w_sent W' = w_sent W /\ w_warn W' = w_warn W /\ w_fcreators W' = w_fcreators W /\ w_ocreators W' = w_ocreators W.
Proof.
  intros P W o W' R Ho H Ha Hr. destruct (raised_left _ _ _ _ R Ho H Ha Hr) as [A B C D E F G]. auto 10.
Qed.
Print Assumptions C68_nothing_lost.

(** GetLogger and GetLoggerOutputs: the loggers there were are untouched, the new ones have nothing but their names (root is
    set up), and the configuration is the same. *)
Theorem C68_loggers_untouched : forall P W o W', reach P W -> op_ok W o -> raised P W o W' -> asks o -> root_made W' ->
  (forall c ord, ~ gives P o c ord) ->
  (forall id l, nth_error (w_loggers W) id = Some l -> nth_error (w_loggers W') id = Some l) /\
  (forall id l, nth_error (w_loggers W') id = Some l -> nth_error (w_loggers W) id = Some l \/ l_name l = $"root" \/
     l_level l = Uninitialized /\ l_outputs l = [] /\
     exists n, o = OGetLogger n /\ (l_name l = n \/ sep_prefix n (l_name l))) /\
  w_config W' = w_config W.
Proof.
  intros P W o W' R Ho H Ha Hr Hng. pose proof (reach_inv _ _ R) as I.
  destruct (raised_stopped _ _ _ _ I H Hr) as [o W' Hh|o c ord1 ord2 W1 W' Hg V E Hh|name W0 r W1 p W2 id W' Hne Hnr Hn E0 EL EC Hh|? ? ? ? ? ? ? ? W' Sd].
  - pose proof (halt_grow _ _ _ (iv_valid _ I) Hh) as G. rewrite (gr_loggers _ _ G), (gr_config _ _ G). auto.
  - exfalso. exact (Hng _ _ Hg).
  - destruct (stopped_made _ _ _ _ _ _ _ _ _ I Hne Hnr Hn E0 EL EC) as (I0 & _ & M & _). pose proof (md_inv _ _ _ _ M) as I2.
    pose proof (halt_grow _ _ _ (iv_valid _ I2) Hh) as G. rewrite (gr_loggers _ _ G), (gr_config _ _ G).
    destruct (getRootLogger_spec _ _ _ _ E0 I) as (_ & Hr0 & Hs0 & _ & Hc0 & _ & _ & Hcase).
    split; [|split].
    + intros j l Hl. apply M. destruct Hcase as [->|(Hnil & _)]; [exact Hl|]. rewrite Hnil in Hl. destruct j; discriminate.
    + intros j l Hl. apply (md_only _ _ _ _ M) in Hl as [Hl|(Hge & (q & Hq) & Hnm)].
      * destruct Hcase as [->|(Hnil & -> & Hone)]; [auto|]. right; left.
        assert (j < 1)%nat by (rewrite <- Hone; apply nth_error_Some; congruence). replace j with 0%nat in Hl by lia.
        apply nth_skels in Hl. rewrite Hs0 in Hl. now injection Hl as <- _.
      * right; right. rewrite Hq. split; [reflexivity|]. split; [reflexivity|]. exists name. split; [reflexivity|].
        cbn [l_name newLogger]. destruct Hnm; auto.
    + rewrite (md_rest _ _ _ _ M). exact Hc0.
  - inversion Ha.
Qed.
Print Assumptions C68_loggers_untouched.

(** SetConfig, LoadConfig, LoadConfigFile: the configuration is accepted, and each logger is as before or set up as the new
    configuration says; no other loggers come up. *)
Theorem C68_each_old_or_new : forall P W o W' c ord, reach P W -> op_ok W o -> raised P W o W' -> root_made W' -> gives P o c ord ->
  well_formed c /\ w_config W' = c /\ length (w_loggers W') = length (w_loggers W) /\
  forall id l, nth_error (w_loggers W) id = Some l -> exists l', nth_error (w_loggers W') id = Some l' /\
    (l' = l \/ exists lc, configured (l_name l) (c_loggers c) lc /\ set_up P W' lc l').
Proof.
  intros P W o W' c ord R Ho H Hr Hg. pose proof (reach_inv _ _ R) as I.
  assert (S : exists ord1 ord2 W1, gives P o c (ord1 ++ ord2) /\ validateConfig c = true /\ notify P (set_config W c) ord1 = Ok W1 /\ halt P W1 W').
  { assert (T : try_setConfig P W c ord = Raised W').
    { unfold raised in H. destruct Hg as [c ord|bs ext ord|f bs dot ext ord Hb He]; cbn [try_exec] in H; rewrite ?Hb, ?He in H; injection H as H;
        (match type of H with pbind ?t _ = _ => destruct t end; cbn [pbind] in H; [discriminate|congruence]). }
    unfold try_setConfig in T. destruct (validateConfig c); [|discriminate].
    destruct (try_notify P (set_config W c) ord) as [X u|X] eqn:E; cbn in T; [discriminate|]. injection T as ->.
    apply notify_stopped in E as (ord1 & ord2 & W1 & -> & E & Hh). exists ord1, ord2, W1. auto. }
  destruct S as (ord1 & ord2 & W1 & Hg' & V & E & Hh). pose proof (part_notified _ _ _ _ _ _ _ R Ho Hg' E) as N.
  pose proof (notify_inv _ _ _ _ E (set_config_inv W c I)) as I1. pose proof (halt_grow _ _ _ (iv_valid _ I1) Hh) as G.
  split; [now apply validateConfig_iff|]. split; [rewrite (gr_config _ _ G); exact (kn_config _ _ (nf_kin _ _ _ _ _ N))|].
  split; [rewrite (gr_loggers _ _ G); exact (nf_len _ _ _ _ _ N)|].
  intros id l Hl. destruct (nf_loggers _ _ _ _ _ N id l Hl) as (l' & H1 & H2 & H3). exists l'. split; [now rewrite (gr_loggers _ _ G)|].
  destruct (in_dec Nat.eq_dec id ord1) as [Hi|Hi]; [|left; auto].
  destruct (H3 Hi) as [[-> _]|(lc & ops & fs & C1 & _ & C3 & _ & ->)]; [now left|right].
  exists lc. split; [now apply configured_get|]. split; [now apply level_setting_iff|].
  eapply Forall2_imp; [|exact C3]. intros n i. apply (gr_outputs _ _ G).
Qed.
Print Assumptions C68_each_old_or_new.

(** And the library goes on working: whatever was called in between, once no creator panics any more SetConfig returns, and
    sets up every logger whose outputs can be had. (All properties stated for reachable states hold as well: [reach] has the recovered calls.) *)
Theorem C68_works_again : forall P W o W' W2 c ord, reach P W -> op_ok W o -> raised P W o W' -> root_made W' ->
  steps P W' W2 -> no_panics W2 -> op_ok W2 (OSetConfig c ord) -> well_formed c ->
  exists W3, exec P W2 (OSetConfig c ord) = Ok (W3, RErr true) /\
    forall id l lc, nth_error (w_loggers W2) id = Some l -> configured (l_name l) (c_loggers c) lc ->
      Forall (obtainable W2 c) (cl_outputs lc) ->
      exists l', nth_error (w_loggers W3) id = Some l' /\ set_up P W3 lc l'.
Proof.
  intros P W o W' W2 c ord R Ho H Hr S N Ho2 Hw.
  assert (R2 : reach P W2) by (eapply steps_reach; [exact S|eapply reach_panic; eassumption]).
  destruct (C15_returns P W2 c ord R2 N Ho2) as (W3 & ok & E).
  assert (ok = true) by (apply (C13_accepts_well_formed_partial P W2 c ord W3 ok E); exact Hw). subst ok.
  exists W3. split; [exact E|]. intros id l lc Hl Hc Hob.
  destruct (C15_named_loggers_set_up P W2 c ord W3 id l lc R2 Ho2 E Hl Hc Hob) as (l' & A & B & _). eauto.
Qed.
Print Assumptions C68_works_again.

(** ** Where it falls short *)
(** An output type whose creator panics the [k]-th time a creator is called. *)
Definition boom (k : nat) : ocreator := fun t _ => if Nat.eqb t k then CreatePanic else Created {| os_sink := SinkMemory; os_async := None; os_threshold := All |}.
Definition cfg_b1 : smap str := [($"type", $"boom"); ($"name", $"b1"); ($"format", $"f2")].
Definition bcfg (rootouts : list str) : config := mkCfg
  [Some (cfg_f2 ($"<%{msg}>"))] [Some cfg_m1; Some cfg_b1] [mkCL ($"root") ($"warn") rootouts; mkCL ($"a") ($"info") [$"b1"]].
Definition left_by (P : params) (W : world) (o : op) : world := match try_exec P W o with Some (Raised W') => W' | _ => W end.
Definition does_raise (P : params) (W : world) (o : op) : bool := match try_exec P W o with Some (Raised _) => true | _ => false end.
Lemma left_raised P W o : does_raise P W o = true -> raised P W o (left_by P W o).
Proof. unfold does_raise, left_by, raised. destruct (try_exec P W o) as [[?|?]|]; try discriminate. reflexivity. Qed.
(** The creator panics when logger "a" is made, after root. *)
Definition b0 : world := aft ex_P (init_world ex_P) (ORegisterOutput ($"boom") (boom 2)).
Definition b1 : world := aft ex_P b0 (OSetConfig (bcfg [$"m1"]) []).
Definition b2 : world := left_by ex_P b1 (OGetLogger ($"a")).
Lemma b1_reach : reach ex_P b1.
Proof.
  assert (R0 : reach ex_P b0) by (apply (aft_reach _ _ _ RUnit); [constructor|exact Logic.I|vm_compute; reflexivity]).
  apply (aft_reach _ _ _ (RErr true)); [exact R0|apply Permutation_refl|vm_compute; reflexivity].
Qed.
Lemma b2_raised : raised ex_P b1 (OGetLogger ($"a")) b2.
Proof. apply left_raised. vm_compute. reflexivity. Qed.
Lemma b2_root : root_made b2.
Proof.
  assert (E : w_root b2 = Some 0%nat /\ mlookup ($"root") (w_names b2) = Some 0%nat) by (vm_compute; auto).
  destruct E as [E1 E2]. intros r Hr. congruence.
Qed.
Lemma b2_reach : reach ex_P b2.
Proof. apply (reach_panic ex_P b1 (OGetLogger ($"a")) b2); [apply b1_reach|exact Logic.I|apply b2_raised|apply b2_root]. Qed.
Definition b3 : world := aft ex_P b2 (OGetLogger ($"a")).
Definition b3_loggers : list (str * Z * list nat) := Eval vm_compute in map (fun l => (l_name l, l_level l, l_outputs l)) (w_loggers b3).
Lemma b3_loggers_eq : map (fun l => (l_name l, l_level l, l_outputs l)) (w_loggers b3) = b3_loggers.
Proof. vm_compute. reflexivity. Qed.
Definition glo_at (W : world) (n : str) : option (bool * nat) :=
  match exec ex_P W (OGetLoggerOutputs n) with Ok (_, ROuts g) => Some (g_err g, length (g_ops g)) | _ => None end.
Lemma glo_at_sound W n b k : glo_at W n = Some (b, k) ->
  exists W' g, exec ex_P W (OGetLoggerOutputs n) = Ok (W', ROuts g) /\ g_err g = b /\ length (g_ops g) = k.
Proof.
  unfold glo_at. destruct (exec ex_P W (OGetLoggerOutputs n)) as [[W' [| | |g|]]|]; try discriminate. intros [= <- <-]. eauto.
Qed.
(** The logger whose making was stopped stays as it is: asked for again it comes without level and outputs, although it is configured and its
    output can now be made (it takes another SetConfig: C68_works_again). *)
Theorem C68_not_set_up_refuted : exists P W W1 W2 id l lc,
  reach P W /\ raised P W (OGetLogger ($"a")) W1 /\ root_made W1 /\
  configured ($"a") (c_loggers (w_config W1)) lc /\ cl_level lc = $"info" /\ cl_outputs lc = [$"b1"] /\
  (exists W3 g, exec P W1 (OGetLoggerOutputs ($"a")) = Ok (W3, ROuts g) /\ g_err g = false /\ length (g_ops g) = 1%nat) /\
  exec P W1 (OGetLogger ($"a")) = Ok (W2, RLogger id) /\ nth_error (w_loggers W2) id = Some l /\
  l_name l = $"a" /\ l_level l = Uninitialized /\ l_outputs l = [].
Proof.
  pose proof b3_loggers_eq as E. unfold b3_loggers in E. destruct (w_loggers b3) as [|r [|l [|? ?]]] eqn:El; try discriminate E.
  injection E as _ _ _ Hn Hv Ho. exists ex_P, b1, b2, b3, 1%nat, l, (mkCL ($"a") ($"info") [$"b1"]).
  split; [apply b1_reach|]. split; [apply b2_raised|]. split; [apply b2_root|]. split.
  { replace (w_config b2) with (bcfg [$"m1"]) by (vm_compute; reflexivity). apply cf_later; [discriminate|]. now apply cf_here. }
  split; [reflexivity|]. split; [reflexivity|]. split; [apply glo_at_sound; vm_compute; reflexivity|].
  split; [apply aft_exec; vm_compute; reflexivity|]. split; [now rewrite El|]. auto.
Qed.
Print Assumptions C68_not_set_up_refuted.

(** A panic that stops the making of the root logger leaves a root that no configuration reaches: from then on, unless level and outputs
    are set on it by hand, GetLogger "" gives the same logger without level and outputs, and nothing logged through it goes anywhere. *)
Theorem C68_root_lost : forall P W n W1 W2, reach P W -> raised P W (OGetLogger n) W1 -> ~ root_made W1 -> goes_on P 0 W1 W2 ->
  exec P W2 (OGetLogger []) = Ok (W2, RLogger 0) /\ exec P W2 (OGetLogger ($"root")) = Ok (W2, RLogger 0) /\
  (exists l, nth_error (w_loggers W2) 0 = Some l /\ l_name l = $"root" /\ l_level l = Uninitialized /\ l_outputs l = []) /\
  forall c v lvl fmt args now stk, lvl < Off -> exec P W2 (OLog 0 c v lvl fmt args now stk) = Ok (W2, RUnit).
Proof.
  intros P W n W1 W2 R H Hn G. destruct (root_lost _ _ _ _ (reach_inv _ _ R) H Hn) as [L1 _].
  pose proof (lost_goes_on _ _ _ _ G L1) as L. destruct (lo_cell _ _ L) as (l & Hl & Hnm & Hp & Hv & Ho).
  split; [cbn [exec]; unfold GetLogger; cbn [orb str_eqb]; rewrite (lost_getRoot P _ _ L); reflexivity|].
  split; [cbn [exec]; unfold GetLogger; change (str_eqb ($"root") [] || str_eqb ($"root") rootName)%bool with true; cbv iota; rewrite (lost_getRoot P _ _ L); reflexivity|].
  split; [exists l; auto|]. intros c v lvl fmt args now stk Hlt. cbn [exec]. unfold Printf. rewrite Hl. cbn [write]. rewrite Hl.
  unfold LevelEnabled, Level. cbn [level_up]. rewrite Hl, Hv, Hp. change (Uninitialized =? Uninitialized) with true. cbv iota.
  replace (Off <=? lvl) with false by (symmetry; apply Z.leb_gt; exact Hlt). reflexivity.
Qed.
Print Assumptions C68_root_lost.
(** It happens, and a later SetConfig that configures root and reports no error does not help. *)
Definition r0 : world := aft ex_P (init_world ex_P) (ORegisterOutput ($"boom") (boom 1)).
Definition r1 : world := aft ex_P r0 (OSetConfig (bcfg [$"b1"]) []).
Definition r2 : world := left_by ex_P r1 (OGetLogger []).
Definition r3 : world := aft ex_P r2 (OSetConfig (bcfg [$"b1"]) []).
Theorem C68_root_refuted : exists P W W1 W2 lc,
  reach P W /\ raised P W (OGetLogger []) W1 /\ ~ root_made W1 /\
  exec P W1 (OSetConfig (w_config W1) []) = Ok (W2, RErr true) /\ op_ok W1 (OSetConfig (w_config W1) []) /\
  configured ($"root") (c_loggers (w_config W2)) lc /\ cl_level lc = $"warn" /\ cl_outputs lc = [$"b1"] /\
  (exists W3 g, exec P W2 (OGetLoggerOutputs ($"root")) = Ok (W3, ROuts g) /\ g_err g = false /\ length (g_ops g) = 1%nat) /\
  exec P W2 (OGetLogger []) = Ok (W2, RLogger 0) /\
  forall c v fmt args now stk, exec P W2 (OLog 0 c v Critical fmt args now stk) = Ok (W2, RUnit).
Proof.
  assert (R0 : reach ex_P r0) by (apply (aft_reach _ _ _ RUnit); [constructor|exact Logic.I|vm_compute; reflexivity]).
  assert (R1 : reach ex_P r1) by (apply (aft_reach _ _ _ (RErr true)); [exact R0|apply Permutation_refl|vm_compute; reflexivity]).
  assert (Hr : raised ex_P r1 (OGetLogger []) r2) by (apply left_raised; vm_compute; reflexivity).
  assert (E2 : w_root r2 = Some 0%nat /\ mlookup ($"root") (w_names r2) = None) by (vm_compute; auto).
  assert (Hn : ~ root_made r2) by (intros M; destruct E2 as [A B]; specialize (M _ A); congruence).
  assert (Ec : w_config r2 = bcfg [$"b1"]) by (vm_compute; reflexivity).
  assert (Hx : exec ex_P r2 (OSetConfig (bcfg [$"b1"]) []) = Ok (r3, RErr true)) by (apply aft_exec; vm_compute; reflexivity).
  assert (Ho : op_ok r2 (OSetConfig (bcfg [$"b1"]) [])).
  { cbn [op_ok]. replace (map snd (w_names r2)) with (@nil nat) by (vm_compute; reflexivity). apply Permutation_refl. }
  assert (G : goes_on ex_P 0 r2 r3) by (eapply go_call; [exact Ho|exact Logic.I|exact Hx|apply go_here]).
  destruct (C68_root_lost ex_P r1 [] r2 r3 R1 Hr Hn G) as (A & _ & _ & B).
  exists ex_P, r1, r2, r3, (mkCL ($"root") ($"warn") [$"b1"]). rewrite Ec.
  split; [exact R1|]. split; [exact Hr|]. split; [exact Hn|]. split; [exact Hx|]. split; [exact Ho|]. split.
  { replace (w_config r3) with (bcfg [$"b1"]) by (vm_compute; reflexivity). now apply cf_here. }
  split; [reflexivity|]. split; [reflexivity|]. split; [apply glo_at_sound; vm_compute; reflexivity|].
  split; [exact A|]. intros. apply B. reflexivity.
Qed.
Print Assumptions C68_root_refuted.

(** ** Examples *)
(** SetConfig stopped at logger "a" (visited after root, before "c"): root is set up as the new configuration says, "c" is not; and after the user
    has registered another creator, SetConfig sets all up. *)
Definition d0 : world := ran ex_P [OGetLogger ($"a"); OGetLogger ($"c"); ORegisterOutput ($"boom") (boom 4)].
Definition dcfg : config := mkCfg [Some (cfg_f2 ($"<%{msg}>"))] [Some cfg_m1; Some cfg_b1]
  [mkCL ($"root") ($"warn") [$"m1"]; mkCL ($"a") ($"info") [$"b1"]; mkCL ($"c") ($"info") [$"m1"]].
Definition d1 : world := left_by ex_P d0 (OSetConfig dcfg [0; 1; 2]%nat).
Definition d2 : world := aft ex_P d1 (ORegisterOutput ($"boom") (fun _ _ => Created {| os_sink := SinkMemory; os_async := None; os_threshold := All |})).
Definition d3 : world := aft ex_P d2 (OSetConfig dcfg [2; 0; 1]%nat).
Definition lview (W : world) : list (str * Z * list nat) := map (fun l => (l_name l, l_level l, l_outputs l)) (w_loggers W).
Lemma d2_fc : w_fcreators d2 = w_fcreators (init_world ex_P).
Proof. reflexivity. Qed.
Lemma d2_oc : w_ocreators d2 = minsert ($"boom") (fun _ _ => Created {| os_sink := SinkMemory; os_async := None; os_threshold := All |}) (w_ocreators (init_world ex_P)).
Proof. reflexivity. Qed.
Lemma d2_calm : no_panics d2.
Proof.
  unfold no_panics. rewrite d2_fc, d2_oc. destruct (init_no_panics ex_P) as [A B]. split; [exact A|]. intros oc t m H.
  rewrite mlookup_minsert in H. destruct (str_eqb _ _); [injection H as <-; discriminate|]. exact (B oc t m H).
Qed.
Example C68_example :
  reach ex_P d0 /\ op_ok d0 (OSetConfig dcfg [0; 1; 2]%nat) /\ raised ex_P d0 (OSetConfig dcfg [0; 1; 2]%nat) d1 /\ root_made d1 /\
  gives ex_P (OSetConfig dcfg [0; 1; 2]%nat) dcfg [0; 1; 2]%nat /\ steps ex_P d1 d2 /\ no_panics d2 /\ op_ok d2 (OSetConfig dcfg [2; 0; 1]%nat) /\ well_formed dcfg /\
  lview d0 = [($"root", All, [0%nat]); ($"a", Uninitialized, []); ($"c", Uninitialized, [])] /\
  lview d1 = [($"root", Warn, [1%nat]); ($"a", Uninitialized, []); ($"c", Uninitialized, [])] /\
  lview d3 = [($"root", Warn, [1%nat]); ($"a", Info, [2%nat]); ($"c", Info, [1%nat])].
Proof.
  split; [apply ran_reach; vm_compute; reflexivity|]. split.
  { cbn [op_ok]. replace (map snd (w_names d0)) with [0; 1; 2]%nat by (vm_compute; reflexivity). apply Permutation_refl. }
  split; [apply left_raised; vm_compute; reflexivity|]. split.
  { assert (E : w_root d1 = Some 0%nat /\ mlookup ($"root") (w_names d1) = Some 0%nat) by (vm_compute; auto).
    destruct E as [E1 E2]. intros r Hr. congruence. }
  split; [constructor|]. split.
  { eapply (steps_cons ex_P d1 _ d2 RUnit d2); [|apply aft_exec; vm_compute; reflexivity|apply steps_refl]. exact Logic.I. }
  split; [apply d2_calm|]. split.
  { cbn [op_ok]. replace (map snd (w_names d2)) with [0; 1; 2]%nat by (vm_compute; reflexivity). apply ord_201. }
  split; [apply validateConfig_iff; vm_compute; reflexivity|]. vm_compute. auto.
Qed.

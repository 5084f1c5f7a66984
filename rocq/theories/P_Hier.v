(** Properties C02-C06: levels and the hierarchy of loggers. *)
From Verif Require Import GoStr Utf8 LevelModel EventModel LayoutModel ConfModel OutputModel WorldModel WorldSpec
  WorldBase WorldInv WorldProofs.
Local Open Scope Z_scope.

(** ** A concrete environment and history for the examples *)
Definition ex_env : env :=
  mkEnv (fun f _ => f) (fun _ => $"args") (fun _ l => $"T") 42 ($"prog") (fun _ => Some ($"m/p.F")).
Definition ex_frame (n : Z) : frame := mkFrame n ($"lib.go") n.
Definition ex_P : params :=
  mkParams ex_env (fun r => r) (fun r => r) (fun _ => true) (fun _ => (empty_config, true)) (fun _ => (empty_config, true))
    (fun _ => None) (ex_frame 1) (ex_frame 2) (ex_frame 3) (ex_frame 4) [ex_frame 5].
Definition ex_user : stack := [mkFrame 100 ($"user.go") 7; mkFrame 101 ($"main.go") 8].
(** No call in these histories has a side condition. *)
Definition free (o : op) : bool :=
  match o with
  | OSetConfig _ _ | OLoadConfig _ _ _ | OLoadConfigFile _ _ => false
  | OLog _ _ Named lvl _ _ _ _ => (Trace <=? lvl) && (lvl <=? Critical)
  | _ => true
  end.
Lemma run_reach P ops : forall W W', reach P W -> forallb free ops = true -> run P W ops = Ok W' -> reach P W'.
Proof.
  induction ops as [|o ops IH]; intros W W' R F H; cbn [run forallb] in *; [now injection H as <-|].
  apply andb_true_iff in F as [Fo F]. destruct (exec P W o) as [[W1 r]|] eqn:E; [|discriminate].
  apply (IH W1); auto. econstructor; [eassumption| |eassumption].
  destruct o; cbn in *; auto; try discriminate. destruct v; auto. apply andb_true_iff in Fo. lia.
Qed.
(** Loggers: 0 root, 1 "a", 2 "a/b", 3 "a/b.c"; "a" has level Warn. *)
Definition ex_ops : list op :=
  [OGetLogger ($"a/b.c"); OSetLevel 1 Warn; OGetLogger ($"a/b");
   ONewOutput {| os_sink := SinkMemory; os_async := None; os_threshold := All |} None; OSetOutputs 1 [1%nat; 1%nat]].
Definition ran (P : params) (ops : list op) : world :=
  match run P (init_world P) ops with Ok W => W | Panic => new_world end.
Definition runs (P : params) (ops : list op) : bool :=
  forallb free ops && match run P (init_world P) ops with Ok _ => true | Panic => false end.
Lemma ran_reach P ops : runs P ops = true -> reach P (ran P ops).
Proof.
  unfold runs, ran. intros H. apply andb_true_iff in H as [F H].
  destruct (run P (init_world P) ops) as [W|] eqn:E; [|discriminate].
  eapply run_reach; [constructor|eassumption|eassumption].
Qed.
Definition ex_world : world := ran ex_P ex_ops.
Lemma ex_reach : reach ex_P ex_world.
Proof. apply ran_reach. vm_compute. reflexivity. Qed.
Definition ex_loggers : list logger := Eval vm_compute in w_loggers ex_world.
Lemma ex_loggers_eq : w_loggers ex_world = ex_loggers.
Proof. vm_compute. reflexivity. Qed.
Lemma ex_name : has_name ex_world ($"a/b.c") 3.
Proof. unfold has_name. rewrite ex_loggers_eq. eexists. split; reflexivity. Qed.
Lemma ex_level : name_level ex_world ($"a/b.c") Warn.
Proof. apply (Level_iff ex_world _ 3); [apply (reach_inv ex_P), ex_reach|apply ex_name|vm_compute; reflexivity]. Qed.

(** ** C02 *)
Theorem C02_below_level_no_effect : forall P W id n e c v lvl fmt args now ustk,
  reach P W -> has_name W n id -> name_level W n e -> lvl < e ->
  exec P W (OLog id c v lvl fmt args now ustk) = Ok (W, RUnit).
Proof.
  intros P W id n e c v lvl fmt args now ustk R Hn He Hl. pose proof (reach_inv _ _ R) as I.
  assert (E : Level W id = e) by (eapply Level_iff; eassumption).
  destruct Hn as (l & Hl' & Hn). cbn [exec]. unfold Printf. rewrite Hl'.
  rewrite (write_blocked P W lvl I id) with (l := l); [reflexivity| |lia|assumption].
  constructor. lia.
Qed.
Print Assumptions C02_below_level_no_effect.
Theorem C02_off_emits_nothing : forall P W id n c lvl fmt args now ustk,
  reach P W -> has_name W n id -> name_level W n 8 -> 2 <= lvl <= 7 ->
  exec P W (OLog id c Named lvl fmt args now ustk) = Ok (W, RUnit).
Proof. intros. eapply C02_below_level_no_effect; try eassumption. lia. Qed.
Print Assumptions C02_off_emits_nothing.
(** A level is enabled exactly from the effective level on; so enabled levels are upward closed. *)
Theorem C02_enabled_iff : forall P W id n e lvl, reach P W -> has_name W n id -> name_level W n e ->
  (LevelEnabled W id lvl = true <-> e <= lvl).
Proof.
  intros P W id n e lvl R Hn He. assert (E : Level W id = e) by (eapply Level_iff; try eassumption; now apply (reach_inv P)).
  unfold LevelEnabled. rewrite E. apply Z.leb_le.
Qed.
Print Assumptions C02_enabled_iff.
Theorem C02_enabled_upward : forall W id a b, LevelEnabled W id a = true -> a <= b -> LevelEnabled W id b = true.
Proof. intros W id a b H Hab. unfold LevelEnabled in *. rewrite Z.leb_le in *. lia. Qed.
Print Assumptions C02_enabled_upward.
Example C02_example :
  exec ex_P ex_world (OLog 3 CtxBackground Named Info ($"x") [] 0 ex_user) = Ok (ex_world, RUnit) /\
  match exec ex_P ex_world (OLog 3 CtxBackground Named Error ($"x") [] 0 ex_user) with
  | Ok (W, _) => (length (w_sent ex_world), length (w_sent W)) = (0, 2)%nat | Panic => False end.
Proof.
  split; [apply (C02_below_level_no_effect ex_P ex_world 3 ($"a/b.c") Warn); try apply ex_reach; try apply ex_name; try apply ex_level; reflexivity|].
  vm_compute. reflexivity.
Qed.

(** ** C03 *)
Theorem C03_effective_level : forall P W id n v, reach P W -> has_name W n id ->
  (Level W id = v <-> name_level W n v).
Proof. intros P W id n v R. apply Level_iff. now apply (reach_inv P). Qed.
Print Assumptions C03_effective_level.
(** There is exactly one effective level. *)
Theorem C03_level_unique : forall P W n v v', reach P W -> name_level W n v -> name_level W n v' -> v = v'.
Proof. intros P W n v v' R. apply name_level_fun. now apply (reach_inv P). Qed.
Print Assumptions C03_level_unique.
(** The own level is what SetLevel last stored: SetLevel stores it ... *)
Theorem C03_set_level_stores : forall P W id n lvl W' r, reach P W -> has_name W n id ->
  exec P W (OSetLevel id lvl) = Ok (W', r) -> own_level W' n lvl.
Proof.
  intros P W id n lvl W' r R (l & Hl & Hn) H. cbn [exec] in H. rewrite Hl in H. injection H as <- <-.
  exists id, (with_level lvl l). split; [now apply SetLevel_own|]. auto.
Qed.
Print Assumptions C03_set_level_stores.
Definition same_level (W W' : world) : Prop := forall i l, nth_error (w_loggers W) i = Some l ->
  exists l', nth_error (w_loggers W') i = Some l' /\ l_name l' = l_name l /\ l_level l' = l_level l.
Lemma same_level_upd W W' i f : w_loggers W' = upd i f (w_loggers W) ->
  (forall l, l_name (f l) = l_name l /\ l_level (f l) = l_level l) -> same_level W W'.
Proof.
  intros E Hf j l Hl. rewrite E, nth_upd, Hl. destruct (Nat.eqb j i); cbn; [|eauto].
  exists (f l). split; [reflexivity|]. apply Hf.
Qed.
Lemma same_level_eq W W' : w_loggers W' = w_loggers W -> same_level W W'.
Proof. intros E j l Hl. rewrite E. eauto. Qed.
Lemma GetLogger_old P W name W' id : GetLogger P W name = Ok (W', id) -> inv W ->
  forall j l, nth_error (w_loggers W) j = Some l -> nth_error (w_loggers W') j = Some l.
Proof.
  intros H I j l Hl. destruct (GetLogger_cases _ _ _ _ _ H I) as [[_ HR]|[(_ & _ & -> & _)|
     (_ & Hnr & Hne & Hnone & W1 & r & W2 & W3 & g & HR & M & L2 & HG & HA)]]; [|assumption|].
  - destruct (getRootLogger_spec _ _ _ _ HR I) as (I1 & _ & _ & _ & _ & _ & _ & [->|(E & _)]); [assumption|].
    rewrite E in Hl. destruct j; discriminate.
  - destruct (getRootLogger_spec _ _ _ _ HR I) as (I1 & _ & _ & _ & _ & _ & _ & [->|(E & _)]);
      [|rewrite E in Hl; destruct j; discriminate].
    apply (md_old _ _ _ _ M) in Hl as Hl2. pose proof (GLO_grow _ _ _ _ _ (iv_valid _ (md_inv _ _ _ _ M)) HG) as G.
    rewrite <- (gr_loggers _ _ G) in Hl2. pose proof (md_fresh _ _ _ _ M) as Hf.
    assert (Hj : j <> id). { assert (j < length (w_loggers W))%nat by (apply nth_error_Some; congruence). lia. }
    unfold apply_glo in HA. destruct (g_err g); [injection HA as <-; assumption|].
    unfold SetOutputs in HA. destruct (flags_of _ _); [|discriminate]. injection HA as <-. cbn.
    rewrite !nth_upd_ne by assumption. assumption.
Qed.
(** ... and no call other than SetLevel and (re)configuration changes it. *)
Definition level_call (o : op) : Prop :=
  match o with OSetLevel _ _ | OSetConfig _ _ | OLoadConfig _ _ _ | OLoadConfigFile _ _ => True | _ => False end.
Theorem C03_own_level_kept : forall P W o W' r n v, reach P W -> ~ level_call o ->
  exec P W o = Ok (W', r) -> own_level W n v -> own_level W' n v.
Proof.
  intros P W o W' r n v R Ho H (id & l & Hl & Hn & Hv). pose proof (reach_inv _ _ R) as I.
  assert (Hs : same_level W W').
  { destruct o; cbn [exec level_call] in *; try tauto.
    - destruct (GetLogger P W name) as [[W1 j]|] eqn:E; [|discriminate]. injection H as <- <-.
      intros i x Hx. exists x. split; [|auto]. eapply GetLogger_old; eassumption.
    - destruct (nth_error _ id0); [|discriminate]. unfold SetOutputs in H. destruct (flags_of _ _); [|discriminate].
      injection H as <- <-. eapply same_level_upd; [reflexivity|]. auto.
    - destruct (nth_error _ id0); [|discriminate]. injection H as <- <-. eapply same_level_upd; [reflexivity|]. auto.
    - destruct (Printf _ _ _ _ _ _ _ _ _ _) as [W1|] eqn:E; [|discriminate]. injection H as <- <-.
      apply same_level_eq. apply (sd_loggers _ _ (Printf_sends _ _ _ _ _ _ _ _ _ _ _ E)).
    - injection H as <- <-. now apply same_level_eq.
    - injection H as <- <-. now apply same_level_eq.
    - destruct (GetLoggerOutputs P W name) as [[W1 g]|] eqn:E; [|discriminate]. injection H as <- <-.
      apply same_level_eq. apply (gr_loggers _ _ (GLO_grow _ _ _ _ _ (iv_valid _ I) E)).
    - injection H as <- <-. now apply same_level_eq.
    - injection H as <- <-. now apply same_level_eq.
    - destruct (nth_error _ o); [|discriminate]. injection H as <- <-. now apply same_level_eq. }
  destruct (Hs _ _ Hl) as (l' & Hl' & Hn' & Hv'). exists id, l'. repeat split; congruence.
Qed.
Print Assumptions C03_own_level_kept.
Example C03_example : has_name ex_world ($"a/b.c") 3 /\ name_level ex_world ($"a/b.c") Warn /\
  own_level ex_world ($"a/b.c") 0 /\ own_level ex_world ($"a/b") 0 /\ own_level ex_world ($"a") Warn /\
  own_level ex_world ($"root") All.
Proof.
  split; [apply ex_name|]. split; [apply ex_level|].
  split; [exists 3%nat|split; [exists 2%nat|split; [exists 1%nat|exists 0%nat]]]; rewrite ex_loggers_eq; eexists; repeat split; reflexivity.
Qed.

(** ** C04 *)
(** SetLevel succeeds and changes nothing but that logger's level field. *)
Theorem C04_set_level_only : forall P W id n lvl, reach P W -> has_name W n id ->
  exists W', exec P W (OSetLevel id lvl) = Ok (W', RUnit) /\
  W' = set_loggers W (w_loggers W') /\ length (w_loggers W') = length (w_loggers W) /\
  forall i l, nth_error (w_loggers W) i = Some l ->
    nth_error (w_loggers W') i = Some (if Nat.eqb i id then mkLogger (l_name l) lvl (l_parent l) (l_outputs l) (l_skip l) (l_flag l) else l).
Proof.
  intros P W id n lvl R (l & Hl & Hn). cbn [exec]. rewrite Hl. eexists. split; [reflexivity|]. split; [reflexivity|].
  split; [apply upd_length|]. intros i x Hx. apply SetLevel_nth. exists x. auto.
Qed.
Print Assumptions C04_set_level_only.
(** Loggers for which [n]'s level counts follow it; all others keep theirs. *)
Theorem C04_governed_follow : forall P W id m lvl W' r n, reach P W -> has_name W m id -> lvl <> 0 ->
  exec P W (OSetLevel id lvl) = Ok (W', r) -> governed W n m -> name_level W' n lvl.
Proof.
  intros P W id m lvl W' r n R Hm Hz H Hg. pose proof (reach_inv _ _ R) as I. cbn [exec] in H.
  destruct (nth_error _ _); [|discriminate]. injection H as <- <-. eapply governed_set; eassumption.
Qed.
Print Assumptions C04_governed_follow.
Theorem C04_others_keep : forall P W id m lvl W' r n v, reach P W -> has_name W m id ->
  exec P W (OSetLevel id lvl) = Ok (W', r) -> ~ governed W n m -> (name_level W' n v <-> name_level W n v).
Proof.
  intros P W id m lvl W' r n v R Hm H Hg. pose proof (reach_inv _ _ R) as I. cbn [exec] in H.
  destruct (nth_error _ _) as [l0|] eqn:El; [|discriminate]. injection H as <- <-.
  split; [|now apply (ungoverned_set W id lvl m)].
  intros H'. pose proof (SetLevel_inv W id lvl I) as I'.
  assert (Hex : exists i l, nth_error (w_loggers (SetLevel W id lvl)) i = Some l /\ l_name l = n).
  { inversion H'; subst; eauto. }
  destruct Hex as (i & l & Hl & Hn). apply SetLevel_nth in Hl as (l1 & Hl1 & E).
  assert (Hn1 : l_name l1 = n) by (rewrite <- Hn, E; destruct (Nat.eqb i id); reflexivity).
  pose proof (Level_name _ _ _ I Hl1) as HL. rewrite Hn1 in HL.
  pose proof (ungoverned_set W id lvl m n _ I Hm Hg HL) as HL'.
  assert (v = Level W i) as -> by (eapply name_level_fun; eassumption). assumption.
Qed.
Print Assumptions C04_others_keep.
(** The logger itself reports exactly what was set. *)
Theorem C04_reports_level : forall P W id lvl W' r, reach P W -> lvl <> 0 ->
  exec P W (OSetLevel id lvl) = Ok (W', r) -> Level W' id = lvl.
Proof.
  intros P W id lvl W' r R Hz H. pose proof (reach_inv _ _ R) as I. pose proof H as H0. cbn [exec] in H.
  destruct (nth_error _ _) as [l|] eqn:El; [|discriminate]. injection H as <- <-.
  apply (Level_iff _ (l_name l)).
  - now apply SetLevel_inv.
  - exists (with_level lvl l). split; [now apply SetLevel_own|reflexivity].
  - eapply C04_governed_follow; [exact R|exists l; split; [exact El|reflexivity]|assumption|exact H0|constructor].
Qed.
Print Assumptions C04_reports_level.
(** Uninitialized hands the logger and its followers over to whatever the logger now inherits. *)
Theorem C04_unset_follow : forall P W id m W' r n v, reach P W -> has_name W m id ->
  exec P W (OSetLevel id 0) = Ok (W', r) -> governed W n m -> (name_level W' n v <-> name_level W' m v).
Proof.
  intros P W id m W' r n v R Hm H Hg. pose proof (reach_inv _ _ R) as I. cbn [exec] in H.
  destruct (nth_error _ _); [|discriminate]. injection H as <- <-. now apply governed_unset.
Qed.
Print Assumptions C04_unset_follow.
Example C04_example : governed ex_world ($"a/b.c") ($"a") /\ ~ governed ex_world ($"a") ($"a/b") /\
  match exec ex_P ex_world (OSetLevel 1 Error) with
  | Ok (W, _) => (Level W 0, Level W 1, Level W 2, Level W 3) = (All, Error, Error, Error) | Panic => False end.
Proof.
  assert (Hab : parent_name ($"a/b.c") ($"a/b")).
  { change ($"a/b.c") with ($"a/b." ++ $"c"). apply parent_app; [intros c [<-|[]] [H|H]; discriminate|].
    apply (parent_snoc ($"a/b") "."%char); [right; reflexivity|discriminate]. }
  assert (Ha : parent_name ($"a/b") ($"a")).
  { change ($"a/b") with ($"a/" ++ $"b"). apply parent_app; [intros c [<-|[]] [H|H]; discriminate|].
    apply (parent_snoc ($"a") "/"%char); [left; reflexivity|discriminate]. }
  split; [|split].
  - apply (gov_up _ _ 3 (mkLogger ($"a/b.c") 0 (Some 2%nat) [] 3 0) ($"a/b")); rewrite ?ex_loggers_eq; try reflexivity; try discriminate; [assumption|].
    apply (gov_up _ _ 2 (mkLogger ($"a/b") 0 (Some 1%nat) [] 3 0) ($"a")); rewrite ?ex_loggers_eq; try reflexivity; try discriminate; [assumption|].
    constructor.
  - intros H. inversion H as [|n id l p m Hl Hn Hz _ _ _]; subst.
    rewrite ex_loggers_eq in Hl. destruct id as [|[|[|[|[|id]]]]]; cbn in Hl; try discriminate; injection Hl as <-; discriminate.
  - vm_compute. reflexivity.
Qed.

(** ** C05 *)
Lemma asked_meant n m : meant n m -> asked n = m.
Proof. intros [|x Hx]; [reflexivity|]. destruct x; [congruence|reflexivity]. Qed.
Lemma meant_total n : exists m, meant n m.
Proof. destruct n as [|c n]; [exists ($"root"); constructor|exists (c :: n); now constructor]. Qed.
Lemma meant_fun n a b : meant n a -> meant n b -> a = b.
Proof. intros [|x Hx] H; inversion H; congruence. Qed.
Lemma getlogger_named P W n W' id m : inv W -> exec P W (OGetLogger n) = Ok (W', RLogger id) -> meant n m ->
  inv W' /\ later W W' /\ mlookup m (w_names W') = Some id.
Proof.
  intros I H Hm. cbn [exec] in H. destruct (GetLogger P W n) as [[W1 j]|] eqn:E; [|discriminate]. injection H as <- <-.
  rewrite <- (asked_meant _ _ Hm). eapply GetLogger_inv; eassumption.
Qed.
(** Two calls at any two times return the same logger exactly if they ask for the same name. *)
Theorem C05_one_logger_per_name : forall P W n W1 a W2 m W3 b x y,
  reach P W -> exec P W (OGetLogger n) = Ok (W1, RLogger a) -> steps P W1 W2 ->
  exec P W2 (OGetLogger m) = Ok (W3, RLogger b) -> meant n x -> meant m y -> (a = b <-> x = y).
Proof.
  intros P W n W1 a W2 m W3 b x y R H1 S H2 Hx Hy. pose proof (reach_inv _ _ R) as I.
  destruct (getlogger_named _ _ _ _ _ _ I H1 Hx) as (I1 & L1 & N1).
  destruct (steps_inv _ _ _ S I1) as [I2 L2].
  destruct (getlogger_named _ _ _ _ _ _ I2 H2 Hy) as (I3 & L3 & N3).
  apply (lt_names _ _ L2), (lt_names _ _ L3) in N1.
  split.
  - intros <-. apply (si_names _ _ _ (iv_sk _ I3)) in N1 as [p1 N1], N3 as [p3 N3]. congruence.
  - intros <-. congruence.
Qed.
Print Assumptions C05_one_logger_per_name.
(** The logger has the name that was asked for, and keeps it. *)
Theorem C05_logger_name : forall P W n W1 a W2 x,
  reach P W -> exec P W (OGetLogger n) = Ok (W1, RLogger a) -> steps P W1 W2 -> meant n x -> has_name W2 x a.
Proof.
  intros P W n W1 a W2 x R H1 S Hx. pose proof (reach_inv _ _ R) as I.
  destruct (getlogger_named _ _ _ _ _ _ I H1 Hx) as (I1 & L1 & N1).
  destruct (steps_inv _ _ _ S I1) as [I2 L2]. apply name_id; [assumption|]. now apply (lt_names _ _ L2).
Qed.
Print Assumptions C05_logger_name.
(** Asking for an existing name, or for root, changes nothing. *)
Theorem C05_existing_unchanged : forall P W n x id, reach P W -> meant n x -> has_name W x id ->
  exec P W (OGetLogger n) = Ok (W, RLogger id).
Proof.
  intros P W n x id R Hx Hn. pose proof (reach_inv _ _ R) as I. apply name_id in Hn; [|assumption].
  cbn [exec]. unfold GetLogger. destruct (str_eqb_spec n []) as [->|Hne].
  - inversion Hx; subst; [|congruence]. cbn [orb]. unfold getRootLogger.
    pose proof (si_rootptr _ _ _ (iv_sk _ I)) as Hr. destruct (w_root W) as [r|].
    + change ($"root") with rootName in Hn. rewrite Hn in Hr. injection Hr as <-. reflexivity.
    + destruct (si_names _ _ _ (iv_sk _ I) _ _ Hn) as [p Hp]. rewrite Hr in Hp. destruct id; discriminate.
  - assert (x = n) by (inversion Hx; congruence). subst x. destruct (str_eqb_spec n rootName) as [->|Hnr]; cbn [orb].
    + unfold getRootLogger. pose proof (si_rootptr _ _ _ (iv_sk _ I)) as Hr. destruct (w_root W) as [r|].
      * rewrite Hn in Hr. injection Hr as <-. reflexivity.
      * destruct (si_names _ _ _ (iv_sk _ I) _ _ Hn) as [p Hp]. rewrite Hr in Hp. destruct id; discriminate.
    + rewrite Hn. reflexivity.
Qed.
Print Assumptions C05_existing_unchanged.
Example C05_example : meant [] ($"root") /\ meant ($"root") ($"root") /\
  has_name ex_world ($"root") 0 /\ has_name ex_world ($"a/b.c") 3 /\
  map (fun n => match exec ex_P ex_world (OGetLogger n) with Ok (W, RLogger i) => Some (i, length (w_loggers W)) | _ => None end)
    [[]; $"root"; $"a/b.c"; $"a.b"] = [Some (0, 4); Some (0, 4); Some (3, 4); Some (4, 5)]%nat.
Proof.
  split; [constructor|]. split; [now constructor|].
  split; [|split; [apply ex_name|vm_compute; reflexivity]].
  unfold has_name. rewrite ex_loggers_eq. eexists. split; reflexivity.
Qed.

(** ** C06 *)
Theorem C06_parent_by_name : forall P W id l, reach P W -> nth_error (w_loggers W) id = Some l -> l_name l <> $"root" ->
  exists p pl, l_parent l = Some p /\ nth_error (w_loggers W) p = Some pl /\ parent_name (l_name l) (l_name pl).
Proof.
  intros P W id l R Hl Hn. pose proof (reach_inv _ _ R) as I.
  assert (Hne : l_name l <> []) by (apply nth_skels in Hl; eapply (si_nonempty _ _ _ (iv_sk _ I)); eassumption).
  destruct (parent_or_root W (l_name l) Hne Hn I id l Hl eq_refl) as (p & pl & H1 & _ & H2 & H3). eauto.
Qed.
Print Assumptions C06_parent_by_name.
Theorem C06_root_has_no_parent : forall P W id l, reach P W -> nth_error (w_loggers W) id = Some l ->
  (l_parent l = None <-> l_name l = $"root").
Proof.
  intros P W id l R Hl. pose proof (reach_inv _ _ R) as I. apply nth_skels in Hl.
  now apply (si_root _ _ _ (iv_sk _ I)) in Hl.
Qed.
Print Assumptions C06_root_has_no_parent.
(** The name determines the parent's name. *)
Theorem C06_parent_determined : forall n p q, parent_name n p -> parent_name n q -> p = q.
Proof. exact parent_fun. Qed.
Print Assumptions C06_parent_determined.
(** Following parents ends at root, from every logger. *)
Theorem C06_chain_ends_at_root : forall P W id l, reach P W -> nth_error (w_loggers W) id = Some l ->
  exists k r, up W id k r /\ has_name W ($"root") r.
Proof.
  intros P W id l R. pose proof (reach_inv _ _ R) as I. revert l.
  induction id as [id IH] using lt_wf_ind. intros l Hl.
  pose proof (nth_skels _ _ _ Hl) as Hs. destruct (l_parent l) as [p|] eqn:Ep.
  - destruct (si_parent _ _ _ (iv_sk _ I) _ _ _ Hs) as (Hlt & pn & pp & H1 & H2).
    apply nth_skels_inv in H1 as (pl & H1 & _ & _). destruct (IH p Hlt pl H1) as (k & r & Hu & Hr).
    exists (S k), r. split; [econstructor; eassumption|assumption].
  - exists 0%nat, id. split; [constructor|]. exists l. split; [assumption|].
    apply (si_root _ _ _ (iv_sk _ I)) in Hs. tauto.
Qed.
Print Assumptions C06_chain_ends_at_root.
(** A parent never changes. *)
Theorem C06_parent_fixed : forall P W W' id l, reach P W -> steps P W W' -> nth_error (w_loggers W) id = Some l ->
  exists l', nth_error (w_loggers W') id = Some l' /\ l_name l' = l_name l /\ l_parent l' = l_parent l.
Proof.
  intros P W W' id l R S Hl. destruct (steps_inv _ _ _ S (reach_inv _ _ R)) as [_ L].
  apply nth_skels, (lt_sk _ _ L), nth_skels_inv in Hl as (l' & H1 & H2 & H3). eauto.
Qed.
Print Assumptions C06_parent_fixed.
Example C06_example :
  (forall q, parent_name ($"/x") q -> q = $"root") /\ parent_name ($"a//b") ($"a/") /\
  map (fun l => (l_name l, l_parent l)) (w_loggers ex_world) =
    [($"root", None); ($"a", Some 0%nat); ($"a/b", Some 1%nat); ($"a/b.c", Some 2%nat)].
Proof.
  split; [|split].
  - intros q Hq. apply (C06_parent_determined _ _ _ Hq). apply (parent_app ($"/") ($"x")).
    + intros c [<-|[]] [H|H]; discriminate.
    + apply parent_lead. left; reflexivity.
  - apply (parent_app ($"a//") ($"b")); [intros c [<-|[]] [H|H]; discriminate|].
    apply (parent_snoc ($"a/") "/"%char); [left; reflexivity|discriminate].
  - rewrite ex_loggers_eq. reflexivity.
Qed.

(** Facts about the manager, used by P_Manager.v. *)
From Verif Require Import GoStr Utf8 LevelModel LevelSpec LevelProofs CaseProofs EventModel LayoutModel ConfModel OutputModel WorldModel PanicModel WorldSpec
  ManagerSpec WorldBase PanicBase WorldInv WorldProofs.
Local Open Scope nat_scope.

Lemma Forall2_imp {A B} (p q : A -> B -> Prop) a b : (forall x y, p x y -> q x y) -> Forall2 p a b -> Forall2 q a b.
Proof. intros H. induction 1; constructor; auto. Qed.

(** ** Looking entries up *)
Lemma first_named_find n ms m : first_named n ms m <-> find (fun x => str_eqb (cfg_Name x) n) ms = Some m.
Proof.
  split.
  - induction 1 as [m ms H|m0 m ms H _ IH]; cbn.
    + destruct (str_eqb_spec (cfg_Name m) n); [reflexivity|congruence].
    + destruct (str_eqb_spec (cfg_Name m0) n); [congruence|assumption].
  - induction ms as [|m0 ms IH]; cbn; [discriminate|].
    destruct (str_eqb_spec (cfg_Name m0) n); [intros [= <-]; now constructor|intros H; constructor; auto].
Qed.
Lemma described_get c n m fm : described c n m fm <->
  GetCfgOutput c n = Some m /\ GetCfgFormat c (cfg_FormatName (Some m)) = Some fm.
Proof.
  unfold described, GetCfgOutput, GetCfgFormat. rewrite !first_named_find. split.
  - intros [-> ->]. auto.
  - intros [H1 H2]. destruct (find _ (c_outputs c)); [|discriminate]. destruct (find _ (c_formats c)); [|discriminate].
    subst. auto.
Qed.
Lemma described_fun c n m fm m2 fm2 : described c n m fm -> described c n m2 fm2 -> m = m2 /\ fm = fm2.
Proof.
  rewrite !described_get. intros [H1 H2] [H3 H4]. assert (m = m2) by congruence. subst. split; congruence.
Qed.
Lemma configured_get n ls lc : configured n ls lc <-> find (fun l => str_eqb (cl_name l) n) ls = Some lc.
Proof.
  split.
  - induction 1 as [l ls H|l0 l ls H _ IH]; cbn.
    + destruct (str_eqb_spec (cl_name l) n); [reflexivity|congruence].
    + destruct (str_eqb_spec (cl_name l0) n); [congruence|assumption].
  - induction ls as [|l0 ls IH]; cbn; [discriminate|].
    destruct (str_eqb_spec (cl_name l0) n); [intros [= <-]; now constructor|intros H; constructor; auto].
Qed.
Lemma unconfigured_get n ls : ~ In n (map cl_name ls) <-> find (fun l => str_eqb (cl_name l) n) ls = None.
Proof.
  induction ls as [|l ls IH]; cbn; [tauto|]. destruct (str_eqb_spec (cl_name l) n); [|tauto].
  split; [tauto|discriminate].
Qed.
Lemma level_setting_iff P s l : level_setting P s l <-> LevelFrom (p_up P) s = l.
Proof. symmetry. apply levelFrom_order. apply Permutation_refl. Qed.

(** ** One round of the loop in GetLoggerOutputs *)
Definition tick (W : world) : world := set_caches W (w_formats W) (w_outputs W) (w_heap W) (S (w_ticks W)).
Inductive fstep (X : world) (k : str) (fm : smap str) (fc : fcreator) : world -> formatter -> Prop :=
| fs_cached f : mlookup k (w_formats X) = Some f -> fstep X k fm fc X f
| fs_new f : mlookup k (w_formats X) = None -> fc (w_ticks X) (Some fm) = Ok (Some f) ->
    fstep X k fm fc (set_caches X (minsert k f (w_formats X)) (w_outputs X) (w_heap X) (S (w_ticks X))) f.
Definition entries (X : world) (n : str) (m fm : smap str) (fc : fcreator) : Prop :=
  described (w_config X) n m fm /\ mlookup (cfg_Type (Some fm)) (w_fcreators X) = Some fc.
Inductive gstep (X : world) (n : str) : world -> option nat -> Prop :=
| gs_none : (forall m fm fc, ~ entries X n m fm fc) -> gstep X n X None
| gs_fmt m fm fc : entries X n m fm fc -> mlookup (cfg_FormatName (Some m)) (w_formats X) = None ->
    fc (w_ticks X) (Some fm) = Ok None -> gstep X n (tick X) None
| gs_type m fm fc X1 f : entries X n m fm fc -> fstep X (cfg_FormatName (Some m)) fm fc X1 f ->
    mlookup (cfg_Type (Some m)) (w_ocreators X) = None -> gstep X n X1 None
| gs_have m fm fc X1 f oc o : entries X n m fm fc -> fstep X (cfg_FormatName (Some m)) fm fc X1 f ->
    mlookup (cfg_Type (Some m)) (w_ocreators X) = Some oc -> mlookup n (w_outputs X) = Some o -> gstep X n X1 (Some o)
| gs_fail m fm fc X1 f oc : entries X n m fm fc -> fstep X (cfg_FormatName (Some m)) fm fc X1 f ->
    mlookup (cfg_Type (Some m)) (w_ocreators X) = Some oc -> mlookup n (w_outputs X) = None ->
    oc (w_ticks X1) (Some m) = CreateErr -> gstep X n (tick X1) None
| gs_new m fm fc X1 f oc sp : entries X n m fm fc -> fstep X (cfg_FormatName (Some m)) fm fc X1 f ->
    mlookup (cfg_Type (Some m)) (w_ocreators X) = Some oc -> mlookup n (w_outputs X) = None ->
    oc (w_ticks X1) (Some m) = Created sp ->
    gstep X n (set_caches X1 (w_formats X1) (minsert n (length (w_heap X1)) (w_outputs X1))
                 (w_heap X1 ++ [mkOut sp (Some f) [] [] 0]) (S (w_ticks X1))) (Some (length (w_heap X1))).
Lemma fstep_same X k fm fc X1 f : fstep X k fm fc X1 f -> w_outputs X1 = w_outputs X /\ w_heap X1 = w_heap X /\
  w_config X1 = w_config X /\ w_fcreators X1 = w_fcreators X /\ w_ocreators X1 = w_ocreators X /\
  mlookup k (w_formats X1) = Some f /\ (forall j, j <> k -> mlookup j (w_formats X1) = mlookup j (w_formats X)).
Proof.
  intros [g H|g H1 H2]; cbn; [auto 10|]. rewrite mlookup_minsert_eq. do 6 (split; [reflexivity|]).
  intros j Hj. now apply mlookup_minsert_ne.
Qed.
Lemma glo_loop_cons X n names lvl acc X' g : glo_loop X (n :: names) lvl acc = Ok (X', g) ->
  (exists X1 o, gstep X n X1 (Some o) /\ glo_loop X1 names lvl (acc ++ [o]) = Ok (X', g)) \/
  (gstep X n X' None /\ g_err g = true).
Proof.
  cbn [glo_loop]. intros H.
  destruct (GetCfgOutput (w_config X) n) as [m|] eqn:Em.
  2: { injection H as <- <-. right. split; [|reflexivity]. apply gs_none. intros m fm fc [D _].
       apply described_get in D. destruct D. congruence. }
  destruct (GetCfgFormat (w_config X) (cfg_FormatName (Some m))) as [fm|] eqn:Efm.
  2: { injection H as <- <-. right. split; [|reflexivity]. apply gs_none. intros m2 fm fc [D _].
       apply described_get in D as [D1 D2]. assert (m2 = m) by congruence. subst. congruence. }
  assert (D : described (w_config X) n m fm) by (apply described_get; auto).
  destruct (mlookup (cfg_Type (Some fm)) (w_fcreators X)) as [fc|] eqn:Efc.
  2: { injection H as <- <-. right. split; [|reflexivity]. apply gs_none. intros m2 fm2 fc [D2 Hfc].
       destruct (described_fun _ _ _ _ _ _ D D2); subst. congruence. }
  pose proof (GetCfgOutput_name _ _ _ Em) as En. pose proof (GetCfgFormat_name _ _ _ Efm) as Efn.
  rewrite Efn, En in H.
  assert (He : entries X n m fm fc) by (split; assumption).
  match type of H with bind ?s _ = _ => destruct s as [[X1 of]|] eqn:Es; [|discriminate] end.
  cbn [bind] in H.
  assert (Hs : match of with Some f => fstep X (cfg_FormatName (Some m)) fm fc X1 f
               | None => X1 = tick X /\ mlookup (cfg_FormatName (Some m)) (w_formats X) = None /\
                         fc (w_ticks X) (Some fm) = Ok None end).
  { destruct (mlookup (cfg_FormatName (Some m)) (w_formats X)) as [f0|] eqn:Ef.
    - injection Es as <- <-. now constructor.
    - destruct (fc (w_ticks X) (Some fm)) as [[f|]|] eqn:Ecr; cbn [bind] in Es; [| |discriminate];
        injection Es as <- <-; [now apply fs_new|auto]. }
  clear Es. destruct of as [f|].
  2: { injection H as <- <-. destruct Hs as (-> & H1 & H2). right. split; [|reflexivity]. eapply gs_fmt; eassumption. }
  destruct (fstep_same _ _ _ _ _ _ Hs) as (E1 & E2 & E3 & E4 & E5 & _). rewrite E5 in H.
  destruct (mlookup (cfg_Type (Some m)) (w_ocreators X)) as [oc|] eqn:Eoc.
  2: { injection H as <- <-. right. split; [|reflexivity]. eapply gs_type; eassumption. }
  rewrite E1 in H. destruct (mlookup n (w_outputs X)) as [o|] eqn:Eo.
  - left. exists X1, o. split; [|exact H]. eapply gs_have; eassumption.
  - destruct (oc (w_ticks X1) (Some m)) as [sp| |] eqn:Ec; [| |discriminate].
    + left. rewrite <- E1 in H. eexists _, _. split; [|exact H]. eapply gs_new; eassumption.
    + injection H as <- <-. right. split; [|reflexivity].
      rewrite <- E1. change (set_caches X1 (w_formats X1) (w_outputs X1) (w_heap X1) (S (w_ticks X1))) with (tick X1).
      eapply gs_fail; eassumption.
Qed.
Lemma glo_loop_total names : forall X lvl acc, no_panics X -> exists X' g, glo_loop X names lvl acc = Ok (X', g).
Proof.
  induction names as [|n names IH]; intros X lvl acc [N1 N2]; cbn [glo_loop]; [eauto|].
  destruct (GetCfgOutput (w_config X) n) as [m|]; [|eauto].
  destruct (GetCfgFormat _ _) as [fm|]; [|eauto].
  destruct (mlookup (cfg_Type (Some fm)) (w_fcreators X)) as [fc|] eqn:Efc; [|eauto].
  assert (Hs : exists X1 of, (match mlookup (cfg_Name (Some fm)) (w_formats X) with
                | Some f => Ok (X, Some f)
                | None => bind (fc (w_ticks X) (Some fm)) (fun r =>
                   match r with
                   | None => Ok (tick X, None)
                   | Some f => Ok (set_caches X (minsert (cfg_Name (Some fm)) f (w_formats X)) (w_outputs X)
                                     (w_heap X) (S (w_ticks X)), Some f)
                   end) end) = Ok (X1, of) /\ w_ocreators X1 = w_ocreators X /\ w_fcreators X1 = w_fcreators X).
  { destruct (mlookup (cfg_Name (Some fm)) (w_formats X)); [eauto|].
    pose proof (N1 _ (w_ticks X) fm Efc). destruct (fc (w_ticks X) (Some fm)) as [[f|]|]; [| |congruence];
      cbn [bind]; eexists _, _; (split; [reflexivity|]); auto. }
  destruct Hs as (X1 & of & Es & E1 & E2). unfold tick in Es. rewrite Es. cbn [bind]. destruct of as [f|]; [|eauto].
  destruct (mlookup (cfg_Type (Some m)) (w_ocreators X1)) as [oc|] eqn:Eoc; [|eauto].
  destruct (mlookup (cfg_Name (Some m)) (w_outputs X1)) as [o|].
  - apply IH. split; [rewrite E2|rewrite E1]; assumption.
  - rewrite E1 in Eoc. pose proof (N2 _ (w_ticks X1) m Eoc). destruct (oc (w_ticks X1) (Some m)); [|eauto|congruence].
    apply IH. split; cbn; [rewrite E2|rewrite E1]; assumption.
Qed.

(** ** Availability *)
Lemma gstep_obt X n X1 r : gstep X n X1 r -> obtainable X (w_config X) n -> r <> None.
Proof.
  intros G (m & fm & fc & oc & D & Hfc & Hoc & Hf & Ho).
  destruct G as [Hn|m2 fm2 fc2 [D2 E] Hl Hc|m2 fm2 fc2 X1 f [D2 E] Hs Hl| |m2 fm2 fc2 X1 f oc2 [D2 E] Hs Hl Hno Hc|];
    try discriminate; intros _; [exact (Hn m fm fc (conj D Hfc))|..];
    destruct (described_fun _ _ _ _ _ _ D D2); subst m2 fm2; assert (fc2 = fc) by congruence; subst fc2.
  - destruct Hf as [[f Hf]|[f Hf]]; [congruence|]. rewrite Hf in Hc. discriminate.
  - congruence.
  - assert (oc2 = oc) by congruence. subst oc2. destruct Ho as [[o Ho]|[sp Ho]]; [congruence|].
    rewrite Ho in Hc. discriminate.
Qed.
Lemma fstep_obt X k fm fc X1 f ty : fstep X k fm fc X1 f -> mlookup ty (w_fcreators X) = Some fc -> steady X ->
  has k (w_formats X) \/ exists f, forall t, fc t (Some fm) = Ok (Some f).
Proof.
  intros [g H|g H1 H2] Hfc [S _]; [left; now exists g|right]. exists g. intros t. rewrite <- H2. now apply (S ty).
Qed.
Lemma gstep_obt_inv X n X1 o : gstep X n X1 (Some o) -> steady X -> obtainable X (w_config X) n.
Proof.
  intros G S. remember (Some o) as r eqn:Er.
  destruct G as [| | |m fm fc X1 f oc o' [D E] Hs Hl Ho| |m fm fc X1 f oc sp [D E] Hs Hl Hno Hc]; try discriminate;
    exists m, fm, fc, oc; repeat (split; [assumption|]); (split; [eapply fstep_obt; eassumption|]).
  - left. now exists o'.
  - right. exists sp. intros t. rewrite <- Hc. now apply (proj2 S (cfg_Type (Some m))).
Qed.
(** The parts of the world this depends on. *)
Record kin (X X1 : world) : Prop := {
  kn_config : w_config X1 = w_config X;
  kn_fc : w_fcreators X1 = w_fcreators X;
  kn_oc : w_ocreators X1 = w_ocreators X;
  kn_outputs : forall n o, mlookup n (w_outputs X) = Some o -> mlookup n (w_outputs X1) = Some o;
  kn_formats : forall n f, mlookup n (w_formats X) = Some f -> mlookup n (w_formats X1) = Some f;
  kn_outputs_new : forall n o, mlookup n (w_outputs X1) = Some o -> mlookup n (w_outputs X) = Some o \/ out_from X1 n o;
  kn_formats_new : forall n f, mlookup n (w_formats X1) = Some f -> mlookup n (w_formats X) = Some f \/ fmt_from X1 n f
}.
Lemma grow_kin X X1 : grow X X1 -> kin X X1.
Proof.
  intros G. constructor; try apply G. intros n o H. apply (gr_outputs_new _ _ G) in H as [H|[_ H]]; auto.
Qed.
Lemma kin_loggers X X1 X2 : kin X X1 -> set_loggers X2 (w_loggers X1) = X1 -> kin X X2.
Proof.
  intros K E. destruct K as [K1 K2 K3 K4 K5 K6 K7]. rewrite <- E in *. cbn in *. constructor; auto.
Qed.
Lemma kin_refl X : kin X X.
Proof. apply grow_kin, grow_refl. Qed.
Lemma kin_grow X X1 X2 : kin X X1 -> grow X1 X2 -> kin X X2.
Proof.
  intros K G. constructor.
  - rewrite (gr_config _ _ G). apply K.
  - rewrite (gr_fc _ _ G). apply K.
  - rewrite (gr_oc _ _ G). apply K.
  - intros n o H. now apply G, K.
  - intros n o H. now apply G, K.
  - intros n o H. apply (gr_outputs_new _ _ G) in H as [H|[_ H]]; [|auto].
    apply K in H as [H|H]; [auto|right; eapply out_from_grow; eassumption].
  - intros n f H. apply (gr_formats_new _ _ G) in H as [H|H]; [|auto].
    apply K in H as [H|H]; [auto|right; eapply fmt_from_grow; eassumption].
Qed.
Lemma kin_steady X X1 : kin X X1 -> steady X -> steady X1.
Proof. intros K S. unfold steady. now rewrite (kn_fc _ _ K), (kn_oc _ _ K). Qed.
Lemma kin_no_panics X X1 : kin X X1 -> no_panics X -> no_panics X1.
Proof. intros K S. unfold no_panics. now rewrite (kn_fc _ _ K), (kn_oc _ _ K). Qed.
Lemma has_mono {A} k (m m' : smap A) : (forall v, mlookup k m = Some v -> mlookup k m' = Some v) -> has k m -> has k m'.
Proof. intros H [v Hv]. exists v. auto. Qed.
Lemma kin_obt X X1 n : kin X X1 -> obtainable X (w_config X) n -> obtainable X1 (w_config X1) n.
Proof.
  intros K (m & fm & fc & oc & D & Hfc & Hoc & Hf & Ho). exists m, fm, fc, oc.
  rewrite (kn_config _ _ K), (kn_fc _ _ K), (kn_oc _ _ K). do 3 (split; [assumption|]). split.
  - destruct Hf as [Hf|Hf]; [left|now right]. eapply has_mono; [apply (kn_formats _ _ K)|exact Hf].
  - destruct Ho as [Ho|Ho]; [left|now right]. eapply has_mono; [apply (kn_outputs _ _ K)|exact Ho].
Qed.
Lemma fmt_back X X1 n m fm fc : kin X X1 -> steady X -> described (w_config X) n m fm ->
  mlookup (cfg_Type (Some fm)) (w_fcreators X) = Some fc ->
  has (cfg_FormatName (Some m)) (w_formats X1) \/ (exists f, forall t, fc t (Some fm) = Ok (Some f)) ->
  has (cfg_FormatName (Some m)) (w_formats X) \/ (exists f, forall t, fc t (Some fm) = Ok (Some f)).
Proof.
  intros K S D Hfc [[f Hf]|H]; [|now right].
  apply (kn_formats_new _ _ K) in Hf as [Hf|(m2 & fc2 & t & H1 & H2 & H3)]; [left; now exists f|right].
  rewrite (kn_config _ _ K) in H1. rewrite (kn_fc _ _ K) in H2. apply described_get in D as [_ D].
  assert (m2 = fm) by congruence. subst m2. assert (fc2 = fc) by congruence. subst fc2.
  exists f. intros t'. rewrite <- H3. now apply (proj1 S (cfg_Type (Some fm))).
Qed.
Lemma kin_obt_back X X1 n : kin X X1 -> steady X -> obtainable X1 (w_config X1) n -> obtainable X (w_config X) n.
Proof.
  intros K S (m & fm & fc & oc & D & Hfc & Hoc & Hf & Ho). exists m, fm, fc, oc.
  rewrite (kn_config _ _ K) in D. rewrite (kn_fc _ _ K) in Hfc. rewrite (kn_oc _ _ K) in Hoc.
  do 3 (split; [assumption|]). split; [eapply fmt_back; eassumption|].
  destruct Ho as [[o Ho]|Ho]; [|now right]. apply (kn_outputs_new _ _ K) in Ho as [Ho|Ho]; [left; now exists o|right].
  destruct Ho as (m2 & fm2 & oc2 & t & sp & f & H1 & H2 & H3 & _).
  rewrite (kn_config _ _ K) in H1. rewrite (kn_oc _ _ K) in H2. apply described_get in D as [D _].
  assert (m2 = m) by congruence. subst m2. assert (oc2 = oc) by congruence. subst oc2.
  exists sp. intros t'. rewrite <- H3. now apply (proj2 S (cfg_Type (Some m))).
Qed.
Lemma gstep_grow X n X1 r : outs_valid X -> gstep X n X1 r -> grow X X1.
Proof.
  intros V G.
  assert (HF : forall m fm fc X1 f, entries X n m fm fc -> fstep X (cfg_FormatName (Some m)) fm fc X1 f -> grow X X1).
  { intros m fm fc X2 f [D E] [f0 H|f0 H1 H2]; [apply grow_refl|]. apply described_get in D as [_ D]. eapply grow_fmt; eassumption. }
  destruct G as [| |m fm fc X1 f He Hs _|m fm fc X1 f oc o He Hs _ _|m fm fc X1 f oc He Hs _ _ _|m fm fc X1 f oc sp He Hs Hoc Hno Hc].
  - apply grow_refl.
  - apply grow_tick.
  - eapply HF; eassumption.
  - eapply HF; eassumption.
  - eapply grow_trans; [eapply HF; eassumption|apply grow_tick].
  - pose proof (HF _ _ _ _ _ He Hs) as G1. eapply grow_trans; [exact G1|].
    destruct (fstep_same _ _ _ _ _ _ Hs) as (E1 & E2 & E3 & E4 & E5 & E6 & _). destruct He as [D _].
    apply described_get in D as [D1 D2].
    eapply (grow_out X1 n m fm oc (w_ticks X1)); try rewrite E3; try rewrite E5; try rewrite E1; eauto.
    eapply grow_valid; eassumption.
Qed.

(** ** What exists after a round, and after the loop *)
Lemma gstep_outputs X n X1 r : gstep X n X1 r -> forall k, has k (w_outputs X1) <-> has k (w_outputs X) \/ (k = n /\ r <> None).
Proof.
  intros G k.
  destruct G as [|m fm fc|m fm fc X1 f He Hs _|m fm fc X1 f oc o He Hs _ Ho|m fm fc X1 f oc He Hs _ _ _|m fm fc X1 f oc sp He Hs Hoc Hno Hc];
    try (destruct (fstep_same _ _ _ _ _ _ Hs) as (E1 & _)); cbn; try rewrite E1; try tauto.
  - split; [tauto|]. intros [H|[-> _]]; [assumption|]. now exists o.
  - unfold has. split.
    + intros [v Hv]. rewrite mlookup_minsert in Hv. destruct (str_eqb_spec k n); [right; split; [assumption|discriminate]|left; eauto].
    + intros H. rewrite mlookup_minsert. destruct (str_eqb_spec k n); [eauto|]. destruct H as [H|[H _]]; [assumption|congruence].
Qed.
Lemma gstep_formats X n X1 r : gstep X n X1 r -> steady X ->
  forall k, has k (w_formats X1) <-> has k (w_formats X) \/ fmt_obtainable X (w_config X) n k.
Proof.
  intros G S k.
  assert (HF : forall m fm fc X1 f, entries X n m fm fc -> fstep X (cfg_FormatName (Some m)) fm fc X1 f ->
            (has k (w_formats X1) <-> has k (w_formats X) \/ fmt_obtainable X (w_config X) n k)).
  { intros m fm fc X2 f [D E] Hs. destruct (fstep_same _ _ _ _ _ _ Hs) as (_ & _ & _ & _ & _ & E6 & E7). split.
    - intros [v Hv]. destruct (str_eqb_spec k (cfg_FormatName (Some m))) as [->|Hne].
      + right. exists m, fm, fc. repeat (split; [first [assumption|reflexivity]|]). eapply fstep_obt; eassumption.
      + left. exists v. now rewrite <- E7.
    - intros [[v Hv]|(m2 & fm2 & fc2 & D2 & -> & _)].
      + destruct (str_eqb_spec k (cfg_FormatName (Some m))) as [->|Hne]; [now exists f|]. exists v. now rewrite E7.
      + destruct (described_fun _ _ _ _ _ _ D D2); subst. now exists f. }
  destruct G as [Hn|m fm fc He Hno Hc|m fm fc X1 f He Hs _|m fm fc X1 f oc o He Hs _ Ho|m fm fc X1 f oc He Hs _ _ _|m fm fc X1 f oc sp He Hs Hoc Hno Hc];
    try exact (HF m fm fc X1 f He Hs).
  - split; [auto|]. intros [H|(m & fm & fc & D & _ & Hfc & _)]; [assumption|]. exfalso. exact (Hn _ _ _ (conj D Hfc)).
  - split; [auto|]. intros [H|(m2 & fm2 & fc2 & D & -> & Hfc & Ha)]; [assumption|]. destruct He as [D2 E2].
    destruct (described_fun _ _ _ _ _ _ D D2); subst. assert (fc2 = fc) by congruence. subst fc2.
    destruct Ha as [Ha|[f Ha]]; [exact Ha|]. rewrite Ha in Hc. discriminate.
Qed.
Lemma kin_fmt_obt X X1 n k : kin X X1 -> steady X -> fmt_obtainable X1 (w_config X1) n k <-> fmt_obtainable X (w_config X) n k.
Proof.
  intros K S. split; intros (m & fm & fc & D & -> & Hfc & Ha); exists m, fm, fc.
  - rewrite (kn_config _ _ K) in D. rewrite (kn_fc _ _ K) in Hfc. repeat (split; [first [assumption|reflexivity]|]).
    eapply fmt_back; eassumption.
  - rewrite (kn_config _ _ K), (kn_fc _ _ K). repeat (split; [first [assumption|reflexivity]|]).
    destruct Ha as [Ha|Ha]; [left|now right]. eapply has_mono; [apply (kn_formats _ _ K)|exact Ha].
Qed.
(** Output names / format names the loop comes to before an output it cannot provide. *)
Definition touched (B : world) (names : list str) (k : str) : Prop :=
  exists a b, names = a ++ k :: b /\ Forall (obtainable B (w_config B)) a /\ obtainable B (w_config B) k.
Definition ftouched (B : world) (names : list str) (k : str) : Prop :=
  exists a n b, names = a ++ n :: b /\ Forall (obtainable B (w_config B)) a /\ fmt_obtainable B (w_config B) n k.
Lemma touched_cons B n names k : touched B (n :: names) k <->
  obtainable B (w_config B) n /\ (k = n \/ touched B names k).
Proof.
  split.
  - intros ([|x a] & b & E & Ha & Hk); injection E as -> E; [auto|]. inversion Ha; subst. split; [assumption|].
    right. exists a, b. auto.
  - intros [Hn [->|(a & b & -> & Ha & Hk)]]; [exists [], names; auto|]. exists (n :: a), b. cbn. auto.
Qed.
Lemma ftouched_cons B n names k : ftouched B (n :: names) k <->
  fmt_obtainable B (w_config B) n k \/ (obtainable B (w_config B) n /\ ftouched B names k).
Proof.
  split.
  - intros ([|x a] & y & b & E & Ha & Hk); injection E as -> E; [auto|]. inversion Ha; subst. right. split; [assumption|].
    exists a, y, b. auto.
  - intros [Hn|[Hn (a & y & b & -> & Ha & Hk)]]; [exists [], n, names; auto|]. exists (n :: a), y, b. cbn. auto.
Qed.
Lemma glo_loop_spec B names : forall X lvl acc X' g, kin B X -> outs_valid X -> glo_loop X names lvl acc = Ok (X', g) ->
  (Forall (obtainable B (w_config B)) names -> g_err g = false) /\
  (steady B -> (g_err g = false -> Forall (obtainable B (w_config B)) names) /\
     (forall k, has k (w_outputs X') <-> has k (w_outputs X) \/ touched B names k) /\
     (forall k, has k (w_formats X') <-> has k (w_formats X) \/ ftouched B names k)).
Proof.
  induction names as [|n names IH]; intros X lvl acc X' g K V H.
  - cbn in H. injection H as <- <-. split; [reflexivity|]. intros S. split; [constructor|].
    split; intros k; split; auto; intros [H|([|] & H)]; try assumption; try (destruct H as (? & H & _); discriminate);
      destruct H as (? & ? & H & _); discriminate.
  - apply glo_loop_cons in H as [(X1 & o & G & H)|[G He]].
    + pose proof (gstep_grow _ _ _ _ V G) as Gr. pose proof (grow_valid _ _ Gr V) as V1.
      pose proof (kin_grow _ _ _ K Gr) as K1. destruct (IH _ _ _ _ _ K1 V1 H) as [I1 I2]. split.
      * intros Ha. inversion Ha; subst. auto.
      * intros S. destruct (I2 S) as (J1 & J2 & J3). pose proof (kin_steady _ _ K S) as SX.
        assert (On : obtainable B (w_config B) n) by (eapply kin_obt_back; [exact K|exact S|eapply gstep_obt_inv; eassumption]).
        split; [intros E; constructor; auto|]. split; intros k.
        -- rewrite J2, (gstep_outputs _ _ _ _ G), touched_cons. split; [intros [[?|[? _]]|?]; auto|].
           intros [?|[_ [?|?]]]; auto. left. right. split; [assumption|discriminate].
        -- rewrite J3, (gstep_formats _ _ _ _ G SX), ftouched_cons, (kin_fmt_obt _ _ _ _ K S). tauto.
    + assert (Hno : ~ obtainable B (w_config B) n).
      { intros Ho. apply (kin_obt _ _ _ K) in Ho. exact (gstep_obt _ _ _ _ G Ho eq_refl). }
      split.
      * intros Ha. inversion Ha; subst. contradiction.
      * intros S. split; [congruence|]. pose proof (kin_steady _ _ K S) as SX. split; intros k.
        -- rewrite (gstep_outputs _ _ _ _ G), touched_cons. tauto.
        -- rewrite (gstep_formats _ _ _ _ G SX), ftouched_cons, (kin_fmt_obt _ _ _ _ K S). tauto.
Qed.

(** ** Notification *)
Lemma flags_of_app h ext ops fs : flags_of h ops = Ok fs -> flags_of (h ++ ext) ops = Ok fs.
Proof.
  revert fs. induction ops as [|o ops IH]; intros fs H; cbn in *; [assumption|].
  destruct (nth_error h o) as [x|] eqn:E; [|discriminate]. rewrite nth_error_app1 by (apply nth_error_Some; congruence).
  rewrite E. destruct (flags_of h ops) as [fs'|]; [|discriminate]. rewrite (IH _ eq_refl). exact H.
Qed.
(** Logger [l] of B after it has been visited. *)
Definition applied (P : params) (B W' : world) (l l' : logger) : Prop :=
  exists lc ops fs, GetCfgLogger (w_config B) (l_name l) = Some lc /\
    (steady B -> Forall (obtainable B (w_config B)) (cl_outputs lc)) /\
    Forall2 (fun n o => mlookup n (w_outputs W') = Some o) (cl_outputs lc) ops /\
    flags_of (w_heap W') ops = Ok fs /\
    l' = with_outputs ops fs (with_level (LevelFrom (p_up P) (cl_level lc)) l).
Definition passed (B : world) (l : logger) : Prop :=
  forall lc, GetCfgLogger (w_config B) (l_name l) = Some lc -> ~ Forall (obtainable B (w_config B)) (cl_outputs lc).
Definition visit_names (B : world) (ids : list nat) (f : list str -> Prop) : Prop :=
  exists id l lc, In id ids /\ nth_error (w_loggers B) id = Some l /\ GetCfgLogger (w_config B) (l_name l) = Some lc /\
    f (cl_outputs lc).
Record notified (P : params) (B X : world) (ids : list nat) (X' : world) : Prop := {
  nf_kin : kin B X';
  nf_heap : exists ext, w_heap X' = w_heap X ++ ext;
  nf_root : w_root X' = w_root X;
  nf_names : w_names X' = w_names X;
  nf_sent : w_sent X' = w_sent X;
  nf_warn : w_warn X' = w_warn X;
  nf_len : length (w_loggers X') = length (w_loggers X);
  nf_loggers : forall id l, nth_error (w_loggers X) id = Some l -> exists l', nth_error (w_loggers X') id = Some l' /\
     (~ In id ids -> l' = l) /\ (In id ids -> l' = l /\ passed B l \/ applied P B X' l l');
  nf_old : forall n o, mlookup n (w_outputs X) = Some o -> mlookup n (w_outputs X') = Some o;
  nf_outputs : steady B -> forall k, has k (w_outputs X') <-> has k (w_outputs X) \/ visit_names B ids (fun ns => touched B ns k);
  nf_formats : steady B -> forall k, has k (w_formats X') <-> has k (w_formats X) \/ visit_names B ids (fun ns => ftouched B ns k)
}.
Lemma GLO_spec P B X n X' g : kin B X -> outs_valid X -> GetLoggerOutputs P X n = Ok (X', g) ->
  (forall lc, GetCfgLogger (w_config B) n = Some lc -> Forall (obtainable B (w_config B)) (cl_outputs lc) -> g_err g = false) /\
  (steady B -> g_err g = false -> forall lc, GetCfgLogger (w_config B) n = Some lc -> Forall (obtainable B (w_config B)) (cl_outputs lc)) /\
  (steady B -> forall k, has k (w_outputs X') <-> has k (w_outputs X) \/
     exists lc, GetCfgLogger (w_config B) n = Some lc /\ touched B (cl_outputs lc) k) /\
  (steady B -> forall k, has k (w_formats X') <-> has k (w_formats X) \/
     exists lc, GetCfgLogger (w_config B) n = Some lc /\ ftouched B (cl_outputs lc) k).
Proof.
  intros K V H. unfold GetLoggerOutputs in H. rewrite (kn_config _ _ K) in H.
  destruct (GetCfgLogger (w_config B) n) as [lc|].
  - destruct (glo_loop_spec B _ _ _ _ _ _ K V H) as [H1 H2].
    split; [intros lc0 [= <-]; assumption|]. split; [intros S E lc0 [= <-]; now apply (H2 S)|].
    split; intros S k; destruct (H2 S) as (_ & H3 & H4); [rewrite H3|rewrite H4]; split; intros [?|?]; auto;
      try (right; exists lc; auto); destruct H0 as (lc0 & [= <-] & ?); auto.
  - injection H as <- <-. split; [discriminate|]. split; [discriminate|].
    split; intros S k; (split; [auto|]); intros [?|(lc & E & _)]; auto; discriminate.
Qed.
Lemma notify_spec P B ord : forall X X', kin B X -> inv X -> NoDup ord ->
  (forall id, In id ord -> nth_error (w_loggers X) id = nth_error (w_loggers B) id) ->
  notify P X ord = Ok X' -> notified P B X ord X'.
Proof.
  induction ord as [|id ord IH]; intros X X' K I Hnd Hsame H; cbn [notify] in H.
  - injection H as <-. constructor; auto.
    + exists []. now rewrite app_nil_r.
    + intros j l Hl. exists l. split; [assumption|]. split; [auto|contradiction].
    + intros S k. split; [auto|]. intros [?|(? & ? & ? & [] & _)]. assumption.
    + intros S k. split; [auto|]. intros [?|(? & ? & ? & [] & _)]. assumption.
  - destruct (nth_error (w_loggers X) id) as [l|] eqn:El; [|discriminate].
    destruct (GetLoggerOutputs P X (l_name l)) as [[X1 g]|] eqn:Eg; [|discriminate]. cbn [bind] in H.
    destruct (apply_glo X1 id g) as [X2|] eqn:Ea; [|discriminate]. cbn [bind] in H.
    pose proof (GLO_grow _ _ _ _ _ (iv_valid _ I) Eg) as G. pose proof (grow_inv _ _ G I) as I1.
    pose proof (apply_glo_inv _ _ _ _ Ea I1) as I2. pose proof (kin_grow _ _ _ K G) as K1.
    assert (Hb : nth_error (w_loggers B) id = Some l) by (rewrite <- (Hsame id); [assumption|now left]).
    inversion Hnd as [|? ? Hni Hnd']; subst.
    destruct (GLO_spec P B X (l_name l) X1 g K (iv_valid _ I) Eg) as (Q1 & Q2 & Q3 & Q4).
    assert (E2 : X2 = set_loggers X1 (w_loggers X2) /\ (forall j, j <> id -> nth_error (w_loggers X2) j = nth_error (w_loggers X) j) /\
       length (w_loggers X2) = length (w_loggers X) /\
       exists l2, nth_error (w_loggers X2) id = Some l2 /\ (l2 = l /\ passed B l \/ applied P B X2 l l2)).
    { unfold apply_glo in Ea. destruct (g_err g) eqn:Ge.
      - injection Ea as <-. split; [now destruct X1|]. rewrite (gr_loggers _ _ G). split; [auto|]. split; [reflexivity|].
        exists l. split; [assumption|]. left. split; [reflexivity|]. intros lc Hlc Ho. specialize (Q1 lc Hlc Ho). congruence.
      - destruct (GLO_ok _ _ _ _ _ (iv_valid _ I) Eg Ge) as (lc & Hlc & Hlvl & Hall).
        rewrite (kn_config _ _ K) in Hlc. unfold SetOutputs in Ea. cbn [w_heap SetLevel set_loggers] in Ea.
        destruct (flags_of (w_heap X1) (g_ops g)) as [fs|] eqn:Ef; [|discriminate]. injection Ea as <-.
        split; [reflexivity|]. cbn [w_loggers set_loggers SetLevel]. rewrite !upd_length, (gr_loggers _ _ G).
        split; [intros j Hj; now rewrite !nth_upd_ne|]. split; [reflexivity|].
        exists (with_outputs (g_ops g) fs (with_level (g_lvl g) l)). split.
        + erewrite nth_upd_eq; [reflexivity|]. erewrite nth_upd_eq; [reflexivity|assumption].
        + right. exists lc, (g_ops g), fs. split; [assumption|]. split; [intros S; now apply Q2|]. rewrite Hlvl. auto. }
    destruct E2 as (E2 & Hother & Hlen & l2 & Hl2 & Hcase).
    assert (K2 : kin B X2).
    { rewrite E2. destruct K1 as [A1 A2 A3 A4 A5 A6 A7]. constructor; cbn; auto. }
    assert (HX2 : w_heap X2 = w_heap X1 /\ w_root X2 = w_root X1 /\ w_names X2 = w_names X1 /\ w_sent X2 = w_sent X1 /\
              w_warn X2 = w_warn X1 /\ w_outputs X2 = w_outputs X1 /\ w_formats X2 = w_formats X1) by (rewrite E2; cbn; auto 10).
    destruct HX2 as (e1 & e2 & e3 & e4 & e5 & e6 & e7).
    assert (N : notified P B X2 ord X').
    { apply IH; auto. intros j Hj. rewrite Hother by (intros ->; contradiction). apply Hsame. now right. }
    destruct (gr_heap _ _ G) as [ext1 Hx1]. destruct (nf_heap _ _ _ _ _ N) as [ext2 Hx2].
    constructor.
    + apply N.
    + exists (ext1 ++ ext2). rewrite Hx2, e1, Hx1, <- app_assoc. reflexivity.
    + rewrite (nf_root _ _ _ _ _ N), e2. apply G.
    + rewrite (nf_names _ _ _ _ _ N), e3. apply G.
    + rewrite (nf_sent _ _ _ _ _ N), e4. apply G.
    + rewrite (nf_warn _ _ _ _ _ N), e5. apply G.
    + rewrite (nf_len _ _ _ _ _ N). assumption.
    + intros j lj Hj. destruct (Nat.eq_dec j id) as [->|Hne].
      * assert (lj = l) by congruence. subst lj. destruct (nf_loggers _ _ _ _ _ N _ _ Hl2) as (l' & Hl' & Hk & _).
        rewrite (Hk Hni) in Hl'. exists l2. split; [assumption|]. split; [intros Hn; exfalso; apply Hn; now left|].
        intros _. destruct Hcase as [Hc|(lc & ops & fs & C1 & C2 & C3 & C4 & C5)]; [now left|right].
        exists lc, ops, fs. do 2 (split; [assumption|]). split.
        -- eapply Forall2_imp; [|exact C3]. intros n o. apply (nf_old _ _ _ _ _ N).
        -- split; [|assumption]. rewrite Hx2. now apply flags_of_app.
      * rewrite <- (Hother j Hne) in Hj. destruct (nf_loggers _ _ _ _ _ N _ _ Hj) as (l' & Hl' & Hk1 & Hk2).
        exists l'. split; [assumption|]. split; [intros Hn; apply Hk1; intros Hx; apply Hn; now right|].
        intros [Hx|Hx]; [congruence|auto].
    + intros n o Hn. apply (nf_old _ _ _ _ _ N). rewrite e6. now apply G.
    + intros S k. rewrite (nf_outputs _ _ _ _ _ N S k), e6, (Q3 S k). split.
      * intros [[?|(lc & C1 & C2)]|(j & lj & lc & C1 & C)]; auto; right.
        -- exists id, l, lc. split; [now left|]. auto.
        -- exists j, lj, lc. split; [now right|]. exact C.
      * intros [?|(j & lj & lc & [<-|C1] & C2 & C3 & C4)]; auto.
        -- left. right. exists lc. assert (lj = l) by congruence. subst. auto.
        -- right. exists j, lj, lc. auto.
    + intros S k. rewrite (nf_formats _ _ _ _ _ N S k), e7, (Q4 S k). split.
      * intros [[?|(lc & C1 & C2)]|(j & lj & lc & C1 & C)]; auto; right.
        -- exists id, l, lc. split; [now left|]. auto.
        -- exists j, lj, lc. split; [now right|]. exact C.
      * intros [?|(j & lj & lc & [<-|C1] & C2 & C3 & C4)]; auto.
        -- left. right. exists lc. assert (lj = l) by congruence. subst. auto.
        -- right. exists j, lj, lc. auto.
Qed.

(** ** The visiting order of the loggers *)
Lemma createLogger_nodup W name parent W' id : createLogger W name parent = (W', id) ->
  NoDup (map fst (w_names W)) -> NoDup (map fst (w_names W')).
Proof.
  unfold createLogger. destruct (mlookup name (w_names W)); intros [= <- <-]; [auto|]. cbn. apply minsert_nodup.
Qed.
Lemma parent_loop_nodup name rs : forall W p W' id, parent_loop W name rs p = (W', id) ->
  NoDup (map fst (w_names W)) -> NoDup (map fst (w_names W')).
Proof.
  induction rs as [|[i c] rs IH]; intros W p W' id H; cbn [parent_loop] in H; [now injection H as <- <-|].
  destruct ((c =? code "/") || (c =? code "."))%N; [|eauto]. destruct (firstn i name) as [|a pn]; [eauto|].
  destruct (createLogger W (a :: pn) p) as [W1 q] eqn:E. intros Hn. eapply IH; [eassumption|].
  eapply createLogger_nodup; eassumption.
Qed.
Lemma getRootLogger_nodup P W W' r : getRootLogger P W = Ok (W', r) -> inv W ->
  NoDup (map fst (w_names W)) -> NoDup (map fst (w_names W')).
Proof.
  unfold getRootLogger. intros H I Hn. destruct (w_root W) as [r0|] eqn:Er; [now injection H as <- <-|].
  match type of H with bind (GetLoggerOutputs _ ?X _) _ = _ => set (W0 := X) in * end.
  destruct (GetLoggerOutputs P W0 rootName) as [[W1 g]|] eqn:Eg; [|discriminate]. cbn [bind] in H.
  assert (V0 : outs_valid W0) by (intros n o; apply (iv_valid _ I)).
  pose proof (GLO_grow _ _ _ _ _ V0 Eg) as G.
  clear Eg. match type of H with bind ?s _ = _ => destruct s as [W3|] eqn:E3; [|discriminate] end.
  cbn [bind] in H. injection H as <- <-. cbn. apply minsert_nodup.
  assert (E : w_names W3 = w_names W1).
  { unfold SetOutputs in E3. destruct (g_err g); [cbn [add_output] in E3|];
      (destruct (flags_of _ _) as [fs|]; [|discriminate]); injection E3 as <-; reflexivity. }
  rewrite E, (gr_names _ _ G). exact Hn.
Qed.
Lemma notify_names P ord : forall W W', notify P W ord = Ok W' -> inv W -> w_names W' = w_names W.
Proof.
  induction ord as [|id ord IH]; intros W W' H I; cbn [notify] in H; [now injection H as <-|].
  destruct (nth_error (w_loggers W) id) as [l|]; [|discriminate].
  destruct (GetLoggerOutputs P W (l_name l)) as [[W1 g]|] eqn:Eg; [|discriminate]. cbn [bind] in H.
  destruct (apply_glo W1 id g) as [W2|] eqn:Ea; [|discriminate]. cbn [bind] in H.
  pose proof (GLO_grow _ _ _ _ _ (iv_valid _ I) Eg) as G. pose proof (grow_inv _ _ G I) as I1.
  rewrite (IH _ _ H) by (eapply apply_glo_inv; eassumption). rewrite <- (gr_names _ _ G).
  unfold apply_glo, SetOutputs in Ea. destruct (g_err g); [now injection Ea as <-|].
  destruct (flags_of _ _); [|discriminate]. now injection Ea as <-.
Qed.
Lemma setConfig_names P W c ord W' ok : setConfig P W c ord = Ok (W', ok) -> inv W -> w_names W' = w_names W.
Proof.
  unfold setConfig. intros H I. destruct (validateConfig c); [|now injection H as <- <-].
  destruct (notify P (set_config W c) ord) as [W1|] eqn:E; [|discriminate]. injection H as <- <-.
  apply (notify_names _ _ _ _ E). now apply set_config_inv.
Qed.
Lemma exec_nodup P W o W' r : exec P W o = Ok (W', r) -> inv W -> NoDup (map fst (w_names W)) -> NoDup (map fst (w_names W')).
Proof.
  intros H I Hn. destruct o; cbn [exec] in H.
  - destruct (GetLogger P W name) as [[W1 id]|] eqn:E; [|discriminate]. injection H as <- <-. unfold GetLogger in E.
    destruct (str_eqb name [] || str_eqb name rootName); [eapply getRootLogger_nodup; eassumption|].
    destruct (mlookup name (w_names W)); [now injection E as <- <-|]. unfold getParent in E.
    destruct (getRootLogger P W) as [[W2 r0]|] eqn:Er; [|discriminate]. cbn [bind] in E.
    pose proof (getRootLogger_nodup _ _ _ _ Er I Hn) as N2. destruct (getRootLogger_spec _ _ _ _ Er I) as (I2 & Hr0 & Hs0 & _).
    destruct (parent_loop W2 name (range_str name) r0) as [W3 p] eqn:Ep.
    pose proof (parent_loop_nodup _ _ _ _ _ _ Ep N2) as N3.
    destruct (createLogger W3 name p) as [W4 id4] eqn:Ec. pose proof (createLogger_nodup _ _ _ _ _ Ec N3) as N4.
    destruct (GetLoggerOutputs P W4 name) as [[W5 g]|] eqn:Eg; [|discriminate]. cbn [bind] in E.
    destruct (apply_glo W5 id4 g) as [W6|] eqn:Ea; [|discriminate]. injection E as <- <-.
    assert (V4 : outs_valid W4).
    { assert (HV : forall rs X q X' j, parent_loop X name rs q = (X', j) -> outs_valid X -> outs_valid X').
      { clear. induction rs as [|[i c] rs IH]; intros X q X' j H V; cbn [parent_loop] in H; [now injection H as <- <-|].
        destruct ((c =? code "/") || (c =? code "."))%N; [|eauto]. destruct (firstn i name) as [|a pn]; [eauto|].
        destruct (createLogger X (a :: pn) q) as [X1 z] eqn:E. eapply IH; [eassumption|].
        unfold createLogger in E. destruct (mlookup (a :: pn) (w_names X)); injection E as <- <-; exact V. }
      pose proof (HV _ _ _ _ _ Ep (iv_valid _ I2)) as V3. unfold createLogger in Ec.
      destruct (mlookup name (w_names W3)); injection Ec as <- <-; exact V3. }
    pose proof (GLO_grow _ _ _ _ _ V4 Eg) as G.
    assert (En : w_names W6 = w_names W5).
    { unfold apply_glo, SetOutputs in Ea. destruct (g_err g); [now injection Ea as <-|].
      destruct (flags_of _ _); [|discriminate]. now injection Ea as <-. }
    rewrite En, (gr_names _ _ G). exact N4.
  - destruct (nth_error _ _); [|discriminate]. now injection H as <- <-.
  - destruct (nth_error _ _); [|discriminate]. unfold SetOutputs in H. destruct (flags_of _ _); [|discriminate]. now injection H as <- <-.
  - destruct (nth_error _ _); [|discriminate]. now injection H as <- <-.
  - destruct (Printf _ _ _ _ _ _ _ _ _ _) as [W1|] eqn:E; [|discriminate]. injection H as <- <-.
    apply Printf_sends in E. now rewrite (sd_names _ _ E).
  - now injection H as <- <-.
  - now injection H as <- <-.
  - destruct (GetLoggerOutputs P W name) as [[W1 g]|] eqn:E; [|discriminate]. injection H as <- <-.
    now rewrite (gr_names _ _ (GLO_grow _ _ _ _ _ (iv_valid _ I) E)).
  - destruct (setConfig P W c ord) as [[W1 ok]|] eqn:E; [|discriminate]. injection H as <- <-.
    now rewrite (setConfig_names _ _ _ _ _ _ E I).
  - unfold LoadConfig in H. destruct (setConfig P W _ ord) as [[W1 ok]|] eqn:E; [|discriminate]. injection H as <- <-.
    now rewrite (setConfig_names _ _ _ _ _ _ E I).
  - unfold LoadConfigFile, LoadConfig in H. destruct (p_read P file); [|now injection H as <- <-].
    destruct (path_Ext file); [discriminate|].
    destruct (setConfig P W _ ord) as [[W1 ok]|] eqn:E; [|discriminate]. injection H as <- <-.
    now rewrite (setConfig_names _ _ _ _ _ _ E I).
  - now injection H as <- <-.
  - now injection H as <- <-.
  - destruct (nth_error _ _); [|discriminate]. now injection H as <- <-.
Qed.
Lemma raised_nodup P W o W' : raised P W o W' -> root_made W' -> inv W -> NoDup (map fst (w_names W)) -> NoDup (map fst (w_names W')).
Proof.
  intros H Hr I N. destruct (raised_stopped _ _ _ _ I H Hr) as [o W' Hh|o c ord1 ord2 W1 W' Hg V E Hh|name W0 r W1 p W2 id W' Hne Hnr Hn E0 EL EC Hh|? ? ? ? ? ? ? ? W' Sd].
  - now rewrite (gr_names _ _ (halt_grow _ _ _ (iv_valid _ I) Hh)).
  - pose proof (set_config_inv W c I) as I0. pose proof (notify_inv _ _ _ _ E I0) as I1.
    rewrite (gr_names _ _ (halt_grow _ _ _ (iv_valid _ I1) Hh)). now rewrite (notify_names _ _ _ _ E I0).
  - destruct (stopped_made _ _ _ _ _ _ _ _ _ I Hne Hnr Hn E0 EL EC) as (_ & _ & M & _).
    rewrite (gr_names _ _ (halt_grow _ _ _ (iv_valid _ (md_inv _ _ _ _ M)) Hh)).
    eapply createLogger_nodup; [exact EC|]. eapply parent_loop_nodup; [exact EL|]. eapply getRootLogger_nodup; eassumption.
  - now rewrite (sd_names _ _ Sd).
Qed.
Lemma reach_nodup P W : reach P W -> NoDup (map fst (w_names W)).
Proof.
  induction 1 as [|W o W' r R IH _ H|W o W' R IH _ H Hr]; [constructor|eapply exec_nodup; [eassumption|now apply (reach_inv P)|assumption]|].
  eapply raised_nodup; [eassumption|assumption|now apply (reach_inv P)|assumption].
Qed.
Lemma nodup_ids (names : smap nat) : NoDup (map fst names) ->
  (forall a b i, mlookup a names = Some i -> mlookup b names = Some i -> a = b) -> NoDup (map snd names).
Proof.
  induction names as [|[k i] names IH]; cbn; intros Hn Hi; [constructor|]. inversion Hn as [|? ? Hk Hn']; subst.
  constructor.
  - intros Hin. apply in_map_iff in Hin as ([k2 i2] & E & Hin). cbn in E. subst i2.
    assert (Hne : k2 <> k) by (intros ->; apply Hk, in_map_iff; exists (k, i); auto).
    apply Hne. apply (Hi k2 k i).
    + destruct (str_eqb_spec k2 k); [congruence|]. now apply mlookup_nodup.
    + now rewrite str_eqb_refl.
  - apply IH; [assumption|]. intros a b j Ha Hb.
    assert (Hin : forall x, mlookup x names = Some j -> x <> k) by
      (intros x Hx ->; apply Hk; apply mlookup_in in Hx; apply in_map_iff; eexists; split; [|exact Hx]; reflexivity).
    apply (Hi a b j).
    + destruct (str_eqb_spec a k) as [E|]; [exfalso; exact (Hin _ Ha E)|assumption].
    + destruct (str_eqb_spec b k) as [E|]; [exfalso; exact (Hin _ Hb E)|assumption].
Qed.
Lemma order_facts P W ord : reach P W -> Permutation ord (map snd (w_names W)) ->
  NoDup ord /\ forall id, In id ord <-> exists l, nth_error (w_loggers W) id = Some l.
Proof.
  intros R Hp. pose proof (reach_inv _ _ R) as I. split.
  - eapply Permutation_NoDup; [apply Permutation_sym; exact Hp|]. apply nodup_ids; [now apply (reach_nodup P)|].
    intros a b i Ha Hb. apply (name_id W a i I) in Ha as (la & H1 & <-). apply (name_id W b i I) in Hb as (lb & H2 & <-). congruence.
  - intros id. split.
    + intros Hin. apply (Permutation_in _ Hp) in Hin. apply in_map_iff in Hin as ([k j] & E & Hin). cbn in E. subst j.
      apply mlookup_nodup in Hin; [|now apply (reach_nodup P)]. apply (name_id W k id I) in Hin as (l & Hl & _). eauto.
    + intros [l Hl]. apply (Permutation_in _ (Permutation_sym Hp)).
      assert (Hin : mlookup (l_name l) (w_names W) = Some id) by (apply name_id; [assumption|exists l; auto]).
      apply mlookup_in in Hin. apply in_map_iff. eexists. split; [|exact Hin]. reflexivity.
Qed.

(** ** Validation *)
Lemma existsb_str x l : existsb (str_eqb x) l = true <-> In x l.
Proof.
  rewrite existsb_exists. split.
  - intros (y & H & E). destruct (str_eqb_spec x y); [congruence|discriminate].
  - intros H. exists x. split; [assumption|apply str_eqb_refl].
Qed.
Lemma validate_formats_spec fs : forall seen, NoDup seen ->
  match validate_formats seen fs with
  | Some r => NoDup (map cfg_Name fs ++ seen) /\ forall n, In n r <-> In n (map cfg_Name fs ++ seen)
  | None => ~ NoDup (map cfg_Name fs ++ seen)
  end.
Proof.
  induction fs as [|f fs IH]; intros seen Hs; cbn [validate_formats map app].
  - split; [assumption|]. tauto.
  - destruct (existsb (str_eqb (cfg_Name f)) seen) eqn:E.
    + apply existsb_str in E. intros H. inversion H as [|? ? Hx _]; subst. apply Hx, in_or_app. now right.
    + assert (Hn : ~ In (cfg_Name f) seen) by (rewrite <- existsb_str; congruence).
      assert (Hp : Permutation (map cfg_Name fs ++ cfg_Name f :: seen) (cfg_Name f :: map cfg_Name fs ++ seen))
        by (apply Permutation_sym, Permutation_middle).
      specialize (IH (cfg_Name f :: seen)). destruct (validate_formats (cfg_Name f :: seen) fs) as [r|].
      * destruct IH as [H1 H2]; [now constructor|]. split; [eapply Permutation_NoDup; eassumption|].
        intros n. rewrite H2. split; apply Permutation_in; [assumption|now apply Permutation_sym].
      * intros H. apply IH; [now constructor|]. eapply Permutation_NoDup; [apply Permutation_sym; exact Hp|exact H].
Qed.
Lemma validate_outputs_spec formats os : forall seen, NoDup seen ->
  match validate_outputs formats seen os with
  | Some r => NoDup (map cfg_Name os ++ seen) /\ (forall n, In n r <-> In n (map cfg_Name os ++ seen)) /\
              (forall o, In o os -> In (cfg_FormatName o) formats)
  | None => ~ (NoDup (map cfg_Name os ++ seen) /\ forall o, In o os -> In (cfg_FormatName o) formats)
  end.
Proof.
  induction os as [|o os IH]; intros seen Hs; cbn [validate_outputs map app].
  - split; [assumption|]. split; [tauto|contradiction].
  - destruct (existsb (str_eqb (cfg_Name o)) seen) eqn:E.
    + apply existsb_str in E. intros [H _]. inversion H as [|? ? Hx _]; subst. apply Hx, in_or_app. now right.
    + assert (Hn : ~ In (cfg_Name o) seen) by (rewrite <- existsb_str; congruence).
      destruct (existsb (str_eqb (cfg_FormatName o)) formats) eqn:Ef.
      2: { intros [_ H]. assert (Hf : In (cfg_FormatName o) formats) by (apply H; now left). apply existsb_str in Hf. congruence. }
      apply existsb_str in Ef.
      assert (Hp : Permutation (map cfg_Name os ++ cfg_Name o :: seen) (cfg_Name o :: map cfg_Name os ++ seen))
        by (apply Permutation_sym, Permutation_middle).
      specialize (IH (cfg_Name o :: seen)). destruct (validate_outputs formats (cfg_Name o :: seen) os) as [r|].
      * destruct IH as (H1 & H2 & H3); [now constructor|]. split; [eapply Permutation_NoDup; eassumption|]. split.
        -- intros n. rewrite H2. split; apply Permutation_in; [assumption|now apply Permutation_sym].
        -- intros x [<-|Hx]; auto.
      * intros [H1 H2]. apply IH; [now constructor|]. split; [|intros x Hx; apply H2; now right].
        eapply Permutation_NoDup; [apply Permutation_sym; exact Hp|exact H1].
Qed.
Lemma validateConfig_iff c : validateConfig c = true <-> well_formed c.
Proof.
  unfold validateConfig. pose proof (validate_formats_spec (c_formats c) [] (NoDup_nil _)) as F. rewrite app_nil_r in F.
  destruct (validate_formats [] (c_formats c)) as [fs|].
  2: { split; [discriminate|]. intros [H _ _ _]. contradiction. }
  destruct F as [F1 F2]. pose proof (validate_outputs_spec fs (c_outputs c) [] (NoDup_nil _)) as O. rewrite app_nil_r in O.
  destruct (validate_outputs fs [] (c_outputs c)) as [os|].
  2: { split; [discriminate|]. intros [_ H1 H2 _]. exfalso. apply O. split; [assumption|]. intros o Ho. apply F2. auto. }
  destruct O as (O1 & O2 & O3). unfold validate_loggers. rewrite forallb_forall. split.
  - intros H. constructor; auto.
    + intros o Ho. apply F2. auto.
    + intros l n Hl Hn. apply O2. specialize (H l Hl). cbn in H. rewrite forallb_forall in H. now apply existsb_str, H.
  - intros [_ _ _ H] l Hl. cbn. rewrite forallb_forall. intros n Hn. apply existsb_str, O2. eauto.
Qed.

(** ** Returning *)
Lemma notify_total P ord : forall X, inv X -> no_panics X -> (forall id, In id ord -> exists l, nth_error (w_loggers X) id = Some l) ->
  exists X', notify P X ord = Ok X'.
Proof.
  induction ord as [|id ord IH]; intros X I N Hv; cbn [notify]; [eauto|].
  destruct (Hv id (or_introl eq_refl)) as [l El]. rewrite El.
  assert (Hg : exists X1 g, GetLoggerOutputs P X (l_name l) = Ok (X1, g)).
  { unfold GetLoggerOutputs. destruct (GetCfgLogger _ _); [now apply glo_loop_total|eauto]. }
  destruct Hg as (X1 & g & Eg). rewrite Eg. cbn [bind].
  pose proof (GLO_grow _ _ _ _ _ (iv_valid _ I) Eg) as G. pose proof (grow_inv _ _ G I) as I1.
  pose proof (kin_no_panics _ _ (grow_kin _ _ G) N) as N1.
  assert (Ha : exists X2, apply_glo X1 id g = Ok X2 /\ w_fcreators X2 = w_fcreators X1 /\ w_ocreators X2 = w_ocreators X1 /\
     length (w_loggers X2) = length (w_loggers X1)).
  { unfold apply_glo, SetOutputs. destruct (g_err g) eqn:Ge; [eauto|].
    pose proof (GLO_valid_ops _ _ _ _ _ (iv_valid _ I) Eg Ge) as Hvo.
    destruct (flags_of_total (w_heap (SetLevel X1 id (g_lvl g))) (g_ops g) Hvo) as [fs Ef]. rewrite Ef. cbn [bind].
    eexists. split; [reflexivity|]. cbn. now rewrite !upd_length. }
  destruct Ha as (X2 & Ea & E1 & E2 & E3). rewrite Ea. cbn [bind]. apply IH.
  - eapply apply_glo_inv; eassumption.
  - unfold no_panics. now rewrite E1, E2.
  - intros j Hj. destruct (Hv j (or_intror Hj)) as [lj Hlj].
    destruct (nth_error (w_loggers X2) j) as [l2|] eqn:E; [eauto|]. exfalso. apply nth_error_None in E.
    rewrite E3, (gr_loggers _ _ G) in E. apply nth_error_None in E. congruence.
Qed.
Lemma setConfig_total P W c ord : reach P W -> Permutation ord (map snd (w_names W)) -> no_panics W ->
  exists W' ok, setConfig P W c ord = Ok (W', ok).
Proof.
  intros R Hp N. unfold setConfig. destruct (validateConfig c); [|eauto]. pose proof (reach_inv _ _ R) as I.
  destruct (notify_total P ord (set_config W c)) as [W' E]; [now apply set_config_inv|exact N| |rewrite E; cbn; eauto].
  intros id Hid. now apply (proj2 (order_facts _ _ _ R Hp)).
Qed.
Lemma setConfig_notified P W c ord W' : reach P W -> Permutation ord (map snd (w_names W)) ->
  setConfig P W c ord = Ok (W', true) -> notified P (set_config W c) (set_config W c) ord W' /\ validateConfig c = true.
Proof.
  intros R Hp H. unfold setConfig in H. destruct (validateConfig c); [|discriminate]. split; [|reflexivity].
  destruct (notify P (set_config W c) ord) as [W1|] eqn:E; [|discriminate]. injection H as <-.
  apply notify_spec; auto.
  - apply kin_refl.
  - apply set_config_inv, (reach_inv P), R.
  - apply (order_facts P W); assumption.
Qed.

(** ** Order independence *)
Lemma nth_Forall2 {A B} (p : A -> B -> Prop) : forall a b, length a = length b ->
  (forall i x y, nth_error a i = Some x -> nth_error b i = Some y -> p x y) -> Forall2 p a b.
Proof.
  induction a as [|x a IH]; intros [|y b] Hl H; try discriminate; constructor.
  - exact (H 0 x y eq_refl eq_refl).
  - apply IH; [cbn in Hl; lia|]. intros i. exact (H (S i)).
Qed.
Section Orders.
Variables (P : params) (B : world).
Hypothesis S : steady B.
Hypothesis I : inv B.
Variables (ids1 ids2 : list nat) (W1 W2 : world).
Hypothesis N1 : notified P B B ids1 W1.
Hypothesis N2 : notified P B B ids2 W2.
Hypothesis Hids : forall id, In id ids1 <-> In id ids2.
Lemma visit_same f : visit_names B ids1 f <-> visit_names B ids2 f.
Proof. split; intros (id & l & lc & H & H'); exists id, l, lc; (split; [now apply Hids|exact H']). Qed.
Lemma orders_formats n : mlookup n (w_formats W2) = mlookup n (w_formats W1).
Proof.
  assert (Hd : has n (w_formats W1) <-> has n (w_formats W2))
    by now rewrite (nf_formats _ _ _ _ _ N1 S), (nf_formats _ _ _ _ _ N2 S), visit_same.
  destruct (mlookup n (w_formats W1)) as [f1|] eqn:E1, (mlookup n (w_formats W2)) as [f2|] eqn:E2; try reflexivity.
  - pose proof (nf_kin _ _ _ _ _ N1) as K1. pose proof (nf_kin _ _ _ _ _ N2) as K2.
    destruct (kn_formats_new _ _ K1 _ _ E1) as [H1|(m1 & c1 & t1 & A1 & A2 & A3)].
    { apply (kn_formats _ _ K2) in H1. congruence. }
    destruct (kn_formats_new _ _ K2 _ _ E2) as [H2|(m2 & c2 & t2 & B1 & B2 & B3)].
    { apply (kn_formats _ _ K1) in H2. congruence. }
    rewrite (kn_config _ _ K1) in A1. rewrite (kn_config _ _ K2) in B1. assert (m2 = m1) by congruence. subst m2.
    rewrite (kn_fc _ _ K1) in A2. rewrite (kn_fc _ _ K2) in B2. assert (c2 = c1) by congruence. subst c2.
    rewrite (proj1 S _ _ t1 t2 _ A2) in A3. congruence.
  - destruct (proj1 Hd) as [v Hv]; [now exists f1|]. congruence.
  - destruct (proj2 Hd) as [v Hv]; [now exists f2|]. congruence.
Qed.
Lemma cell_kept W ids o x : notified P B B ids W -> nth_error (w_heap B) o = Some x -> nth_error (w_heap W) o = Some x.
Proof.
  intros N H. destruct (nf_heap _ _ _ _ _ N) as [ext ->]. rewrite nth_error_app1; [assumption|]. apply nth_error_Some. congruence.
Qed.
Lemma orders_outputs n : match mlookup n (w_outputs W1), mlookup n (w_outputs W2) with
  | Some o1, Some o2 => same_output W1 W2 o1 o2 | None, None => True | _, _ => False end.
Proof.
  assert (Hd : has n (w_outputs W1) <-> has n (w_outputs W2))
    by now rewrite (nf_outputs _ _ _ _ _ N1 S), (nf_outputs _ _ _ _ _ N2 S), visit_same.
  destruct (mlookup n (w_outputs W1)) as [o1|] eqn:E1, (mlookup n (w_outputs W2)) as [o2|] eqn:E2; [| | |exact Logic.I].
  - pose proof (nf_kin _ _ _ _ _ N1) as K1. pose proof (nf_kin _ _ _ _ _ N2) as K2.
    assert (Hold : forall o, mlookup n (w_outputs B) = Some o -> same_output W1 W2 o o).
    { intros o Ho. pose proof (iv_valid _ I _ _ Ho) as Hlt. destruct (nth_error (w_heap B) o) as [x|] eqn:Ex; [|apply nth_error_None in Ex; lia].
      exists x. split; eapply cell_kept; eassumption. }
    destruct (kn_outputs_new _ _ K1 _ _ E1) as [H1|(m1 & fm1 & c1 & t1 & sp1 & f1 & A1 & A2 & A3 & A4 & A5 & A6)].
    { pose proof (kn_outputs _ _ K2 _ _ H1) as H2. assert (o2 = o1) by congruence. subst. auto. }
    destruct (kn_outputs_new _ _ K2 _ _ E2) as [H2|(m2 & fm2 & c2 & t2 & sp2 & f2 & B1 & B2 & B3 & B4 & B5 & B6)].
    { pose proof (kn_outputs _ _ K1 _ _ H2) as H3. assert (o2 = o1) by congruence. subst. auto. }
    rewrite (kn_config _ _ K1) in A1. rewrite (kn_config _ _ K2) in B1. assert (m2 = m1) by congruence. subst m2.
    rewrite (kn_oc _ _ K1) in A2. rewrite (kn_oc _ _ K2) in B2. assert (c2 = c1) by congruence. subst c2.
    rewrite (proj2 S _ _ t1 t2 _ A2) in A3. assert (sp2 = sp1) by congruence. subst sp2.
    rewrite orders_formats in B5. assert (f2 = f1) by congruence. subst f2.
    eexists. split; [exact A6|exact B6].
  - destruct (proj1 Hd) as [v Hv]; [now exists o1|]. congruence.
  - destruct (proj2 Hd) as [v Hv]; [now exists o2|]. congruence.
Qed.
Lemma same_outputs_list ns : forall a b, Forall2 (fun n o => mlookup n (w_outputs W1) = Some o) ns a ->
  Forall2 (fun n o => mlookup n (w_outputs W2) = Some o) ns b -> Forall2 (same_output W1 W2) a b.
Proof.
  induction ns as [|n ns IH]; intros a b Ha Hb; inversion Ha; inversion Hb; subst; constructor; auto.
  pose proof (orders_outputs n) as H. destruct (mlookup n (w_outputs W1)), (mlookup n (w_outputs W2)); try discriminate.
  congruence.
Qed.
Lemma same_flags a b f g : Forall2 (same_output W1 W2) a b -> flags_of (w_heap W1) a = Ok f -> flags_of (w_heap W2) b = Ok g -> f = g.
Proof.
  intros H. revert f g. induction H as [|x y a b (z & Hx & Hy) _ IH]; intros f g Hf Hg; cbn in *; [congruence|].
  rewrite Hx in Hf. rewrite Hy in Hg. destruct (flags_of (w_heap W1) a) as [f'|]; [|discriminate].
  destruct (flags_of (w_heap W2) b) as [g'|]; [|discriminate]. cbn in *. rewrite (IH _ _ eq_refl eq_refl) in Hf. congruence.
Qed.
Lemma orders_same : same_up_to_pointers W1 W2.
Proof.
  pose proof (nf_kin _ _ _ _ _ N1) as K1. pose proof (nf_kin _ _ _ _ _ N2) as K2. constructor.
  - apply nth_Forall2; [now rewrite (nf_len _ _ _ _ _ N1), (nf_len _ _ _ _ _ N2)|]. intros i l1 l2 H1 H2.
    destruct (nth_error (w_loggers B) i) as [l|] eqn:El.
    2: { apply nth_error_None in El. assert (i < length (w_loggers W1)) by (apply nth_error_Some; congruence).
         rewrite (nf_len _ _ _ _ _ N1) in *. lia. }
    destruct (nf_loggers _ _ _ _ _ N1 _ _ El) as (l1' & H1' & P1 & Q1). assert (l1' = l1) by congruence. subst l1'.
    destruct (nf_loggers _ _ _ _ _ N2 _ _ El) as (l2' & H2' & P2 & Q2). assert (l2' = l2) by congruence. subst l2'.
    assert (Hsame : same_logger W1 W2 l l).
    { repeat split. pose proof (iv_ops _ I _ _ El) as Hv. clear -Hv N1 N2.
      induction Hv as [|o os Ho _ IH]; constructor; [|assumption].
      destruct (nth_error (w_heap B) o) as [x|] eqn:Ex; [|apply nth_error_None in Ex; lia].
      exists x. split; eapply cell_kept; eassumption. }
    destruct (in_dec Nat.eq_dec i ids1) as [Hi|Hi].
    + assert (Hi2 : In i ids2) by now apply Hids.
      destruct (Q1 Hi) as [[-> Hp1]|(lc1 & a1 & f1 & C1 & C2 & C3 & C4 & ->)],
               (Q2 Hi2) as [[-> Hp2]|(lc2 & a2 & f2 & D1 & D2 & D3 & D4 & ->)].
      * exact Hsame.
      * exfalso. exact (Hp1 _ D1 (D2 S)).
      * exfalso. exact (Hp2 _ C1 (C2 S)).
      * assert (lc2 = lc1) by congruence. subst lc2. pose proof (same_outputs_list _ _ _ C3 D3) as HF.
        pose proof (same_flags _ _ _ _ HF C4 D4) as ->. repeat split. exact HF.
    + rewrite (P1 Hi), (P2 (fun H => Hi (proj2 (Hids i) H))). exact Hsame.
  - now rewrite (nf_root _ _ _ _ _ N1), (nf_root _ _ _ _ _ N2).
  - now rewrite (nf_names _ _ _ _ _ N1), (nf_names _ _ _ _ _ N2).
  - now rewrite (kn_fc _ _ K1), (kn_fc _ _ K2).
  - now rewrite (kn_oc _ _ K1), (kn_oc _ _ K2).
  - now rewrite (kn_config _ _ K1), (kn_config _ _ K2).
  - apply orders_formats.
  - apply orders_outputs.
  - now rewrite (nf_sent _ _ _ _ _ N1), (nf_sent _ _ _ _ _ N2).
  - now rewrite (nf_warn _ _ _ _ _ N1), (nf_warn _ _ _ _ _ N2).
Qed.
End Orders.

(** ** Creating loggers *)
Lemma kin_ext X X1 X2 ext : kin X X1 -> w_config X2 = w_config X1 -> w_fcreators X2 = w_fcreators X1 ->
  w_ocreators X2 = w_ocreators X1 -> w_outputs X2 = w_outputs X1 -> w_formats X2 = w_formats X1 ->
  w_heap X2 = w_heap X1 ++ ext -> kin X X2.
Proof.
  intros K E1 E2 E3 E4 E5 E6. constructor; try (rewrite ?E1, ?E2, ?E3, ?E4, ?E5; apply K).
  - intros n o H. rewrite E4 in H. destruct (kn_outputs_new _ _ K _ _ H) as [?|(m & fm & oc & t & sp & f & A1 & A2 & A3 & A4 & A5 & A6)]; [auto|].
    right. exists m, fm, oc, t, sp, f. rewrite E1, E3, E5, E6. do 5 (split; [assumption|]).
    rewrite nth_error_app1; [assumption|]. apply nth_error_Some. congruence.
  - intros n f H. rewrite E5 in H. destruct (kn_formats_new _ _ K _ _ H) as [?|(m & fc & t & A)]; [auto|].
    right. exists m, fc, t. now rewrite E1, E2.
Qed.
Lemma kin_same X X1 X2 : kin X X1 -> w_config X2 = w_config X1 -> w_fcreators X2 = w_fcreators X1 ->
  w_ocreators X2 = w_ocreators X1 -> w_outputs X2 = w_outputs X1 -> w_formats X2 = w_formats X1 ->
  w_heap X2 = w_heap X1 -> kin X X2.
Proof. intros. eapply (kin_ext X X1 X2 []); try assumption. now rewrite app_nil_r. Qed.
Lemma kin_trans_same X Y X1 : kin Y X1 -> w_config Y = w_config X -> w_fcreators Y = w_fcreators X ->
  w_ocreators Y = w_ocreators X -> w_outputs Y = w_outputs X -> w_formats Y = w_formats X -> kin X X1.
Proof.
  intros [K1 K2 K3 K4 K5 K6 K7] E1 E2 E3 E4 E5. rewrite ?E1, ?E2, ?E3, ?E4, ?E5 in *. constructor; auto.
Qed.
(** What getRootLogger gives when there is no root logger yet. *)
Lemma getRoot_new P W W' r : getRootLogger P W = Ok (W', r) -> inv W -> w_root W = None ->
  kin W W' /\ exists l, nth_error (w_loggers W') r = Some l /\ l_name l = rootName /\ r = 0 /\ length (w_loggers W') = 1 /\
    ((exists lc, GetCfgLogger (w_config W) rootName = Some lc /\ l_level l = LevelFrom (p_up P) (cl_level lc) /\
        Forall2 (fun n o => mlookup n (w_outputs W') = Some o) (cl_outputs lc) (l_outputs l)) \/
     (~ (exists lc, GetCfgLogger (w_config W) rootName = Some lc /\ Forall (obtainable W (w_config W)) (cl_outputs lc))) /\
      l_level l = Debug /\ exists o x, l_outputs l = [o] /\ nth_error (w_heap W') o = Some x /\
       os_sink (o_spec x) = SinkStdout /\ o_fmt x = None).
Proof.
  unfold getRootLogger. intros H I Er. rewrite Er in H. pose proof (si_rootptr _ _ _ (iv_sk _ I)) as Hr. rewrite Er in Hr.
  assert (Hl : w_loggers W = []) by (unfold skels in Hr; destruct (w_loggers W); [reflexivity|discriminate]).
  rewrite Hl in H. cbn [length app] in H.
  match type of H with bind (GetLoggerOutputs _ ?X _) _ = _ => set (W0 := X) in * end.
  destruct (GetLoggerOutputs P W0 rootName) as [[W1 g]|] eqn:Eg; [|discriminate]. cbn [bind] in H.
  assert (V0 : outs_valid W0) by (intros n o; apply (iv_valid _ I)).
  pose proof (GLO_grow _ _ _ _ _ V0 Eg) as G. pose proof (grow_kin _ _ G) as K0.
  assert (K : kin W W1) by (apply (kin_trans_same W W0 W1 K0); reflexivity).
  pose proof (gr_loggers _ _ G) as HL. cbn in HL.
  destruct (GLO_spec P W0 W0 rootName W1 g (kin_refl _) V0 Eg) as (Hob & _).
  destruct (g_err g) eqn:Ge; cbn [add_output] in H; unfold SetOutputs in H.
  - cbn [flags_of w_heap set_heap SetLevel set_loggers] in H. rewrite nth_error_app2, Nat.sub_diag in H by lia. cbn [nth_error bind] in H.
    injection H as <- <-. split.
    { apply (kin_ext W W1 _ [mkOut (console_of (NewConsoleOutput (p_up P) None)) None [] [] 0] K); reflexivity. }
    cbn. rewrite HL. eexists. split; [reflexivity|]. split; [reflexivity|]. split; [reflexivity|]. split; [reflexivity|].
    right. split.
    { intros (lc & A & B). specialize (Hob lc A B). discriminate. }
    split; [reflexivity|]. eexists _, _. split; [reflexivity|]. split; [rewrite nth_error_app2, Nat.sub_diag by lia; reflexivity|].
    split; reflexivity.
  - destruct (GLO_ok _ _ _ _ _ V0 Eg Ge) as (lc & A & B & C).
    destruct (flags_of (w_heap (SetLevel W1 0 (g_lvl g))) (g_ops g)) as [fs|]; [|discriminate]. cbn [bind] in H.
    injection H as <- <-. split; [apply (kin_same W W1 _ K); reflexivity|].
    cbn. rewrite HL. eexists. split; [reflexivity|]. split; [reflexivity|]. split; [reflexivity|]. split; [reflexivity|].
    left. exists lc. auto.
Qed.
Lemma getRoot_kin P W W' r : getRootLogger P W = Ok (W', r) -> inv W -> kin W W'.
Proof.
  intros H I. destruct (w_root W) eqn:Er.
  - unfold getRootLogger in H. rewrite Er in H. injection H as <- <-. apply kin_refl.
  - now apply (getRoot_new _ _ _ _ H).
Qed.
Lemma root_exists W : inv W -> w_root W = None <-> forall j, ~ has_name W rootName j.
Proof.
  intros I. pose proof (si_rootptr _ _ _ (iv_sk _ I)) as H. destruct (w_root W) as [r|]; split; intros H1; try discriminate; try reflexivity.
  - exfalso. apply (H1 r). now apply name_id.
  - intros j (l & Hl & _). apply nth_skels in Hl. rewrite H in Hl. now destruct j.
Qed.
(** What GetLogger gives for another name that did not exist. *)
Lemma getLogger_new P W n W' id : GetLogger P W n = Ok (W', id) -> inv W -> n <> [] -> n <> rootName ->
  (forall j, ~ has_name W n j) ->
  kin W W' /\ w_config W' = w_config W /\ exists l, nth_error (w_loggers W') id = Some l /\ l_name l = n /\
    ((exists lc, GetCfgLogger (w_config W) n = Some lc /\ l_level l = LevelFrom (p_up P) (cl_level lc) /\
        Forall2 (fun n o => mlookup n (w_outputs W') = Some o) (cl_outputs lc) (l_outputs l)) \/
     (~ (exists lc, GetCfgLogger (w_config W) n = Some lc /\ Forall (obtainable W (w_config W)) (cl_outputs lc))) /\
      l_level l = Uninitialized /\ l_outputs l = []) /\
    (forall j x, nth_error (w_loggers W') j = Some x -> j <> id -> l_name x <> rootName ->
       nth_error (w_loggers W) j = Some x \/
       sep_prefix n (l_name x) /\ l_level x = Uninitialized /\ l_outputs x = []).
Proof.
  intros H I Hne Hnr Hf. destruct (GetLogger_cases _ _ _ _ _ H I) as [[E _]|[(_ & _ & _ & Hn)|
     (_ & _ & _ & Hnone & W1 & r & W2 & W3 & g & HR & M & L2 & HG & HA)]].
  - exfalso. destruct n; [congruence|]. exact (Hnr E).
  - exfalso. apply (Hf id). now apply name_id.
  - pose proof (getRoot_kin _ _ _ _ HR I) as K1. destruct (getRootLogger_spec _ _ _ _ HR I) as (I1 & Hr1 & Hs1 & _ & _ & _ & _ & Hcase).
    pose proof (md_inv _ _ _ _ M) as I2.
    assert (K2 : kin W W2) by (rewrite (md_rest _ _ _ _ M); apply (kin_same W W1 _ K1); reflexivity).
    pose proof (GLO_grow _ _ _ _ _ (iv_valid _ I2) HG) as G. pose proof (kin_grow _ _ _ K2 G) as K3.
    destruct (GLO_spec P W W2 n W3 g K2 (iv_valid _ I2) HG) as (Hob & _).
    destruct (md_new _ _ _ _ M) as [q Hq].
    assert (Hold : forall j x, nth_error (w_loggers W2) j = Some x -> j <> id -> l_name x <> rootName ->
       nth_error (w_loggers W) j = Some x \/ sep_prefix n (l_name x) /\ l_level x = Uninitialized /\ l_outputs x = []).
    { intros j x Hj Hid Hxr. destruct (md_only _ _ _ _ M j x Hj) as [Hx|(_ & [q' Ex] & Hs)].
      - left. destruct Hcase as [->|(El & -> & Hlen)]; [assumption|]. exfalso.
        assert (j = 0) by (assert (j < length (w_loggers W1)) by (apply nth_error_Some; congruence); lia). subst j.
        apply nth_skels in Hx. rewrite Hs1 in Hx. injection Hx as E _. now apply Hxr.
      - right. destruct Hs as [Hs|Hs].
        + split; [assumption|]. rewrite Ex. split; reflexivity.
        + exfalso. apply Hid. apply (same_name W2 n j id x _ I2 Hj Hq Hs). reflexivity. }
    unfold apply_glo in HA. destruct (g_err g) eqn:Ge.
    + injection HA as <-. split; [assumption|]. split; [apply K3|]. rewrite (gr_loggers _ _ G). exists (newLogger n (Some q)).
      split; [assumption|]. split; [reflexivity|]. split; [|exact Hold]. right. split; [|split; reflexivity].
      intros (lc & A & B). specialize (Hob lc A B). discriminate.
    + destruct (GLO_ok _ _ _ _ _ (iv_valid _ I2) HG Ge) as (lc & A & B & C). unfold SetOutputs in HA.
      destruct (flags_of _ _) as [fs|]; [|discriminate]. injection HA as <-. cbn [bind].
      split; [apply (kin_same W W3 _ K3); reflexivity|]. split; [apply K3|]. cbn [w_loggers set_loggers SetLevel].
      rewrite (gr_loggers _ _ G). eexists. split.
      { apply nth_upd_eq, nth_upd_eq, Hq. }
      split; [reflexivity|]. split.
      * left. exists lc. rewrite (kn_config _ _ K2) in A. auto.
      * intros j x Hj Hid. rewrite !nth_upd_ne in Hj by assumption. now apply Hold.
Qed.

(** ** File names *)
Lemma base_split p : exists d b, p = d ++ b /\ ~ In "/"%char b /\ (d = [] \/ exists e, d = e ++ $"/") /\
  (match last_index_byte "/" p with Some i => skipn (S i) p | None => p end) = b.
Proof.
  destruct (last_index_byte "/" p) as [i|] eqn:E.
  - apply last_index_byte_some in E as (E & H & _). exists (firstn i p ++ $"/"), (skipn (S i) p).
    split; [rewrite <- app_assoc; exact E|]. split; [assumption|]. split; [right; eexists; reflexivity|reflexivity].
  - apply last_index_byte_none in E. exists [], p. auto 6.
Qed.
Lemma in_tail_slash (d b x y : str) : ~ In "/"%char b -> d ++ b = x ++ y -> ~ In "/"%char y -> (d = [] \/ exists e, d = e ++ $"/") ->
  exists z, b = z ++ y.
Proof.
  intros Hb E Hy Hd. destruct (app_eq_app _ _ _ _ E) as (z & [[-> ->]|[-> ->]]); [|eauto].
  destruct z as [|c z]; [exists []; reflexivity|]. exfalso.
  destruct Hd as [Hd|(e & He)]; [now destruct x|]. apply Hy.
  destruct (exists_last (l := c :: z)) as (z' & c' & Ez); [discriminate|]. rewrite Ez in He.
  rewrite app_assoc in He. apply app_inj_tail in He as [_ ->]. rewrite Ez. rewrite !in_app_iff. cbn. auto.
Qed.
Lemma skipn_at {A} i (b : list A) c t : i < length b -> b = firstn i b ++ c :: t -> skipn i b = c :: t.
Proof.
  intros Hi E. rewrite <- (firstn_skipn i b) in E at 1. now apply app_inv_head in E.
Qed.
Lemma path_Ext_none p : path_Ext p = [] <-> no_extension p.
Proof.
  unfold path_Ext. destruct (base_split p) as (d & b & -> & Hb & Hd & ->). cbv zeta.
  destruct (last_index_byte "." b) as [i|] eqn:E.
  - apply last_index_byte_some in E as (E & Hn & Hi). split.
    + intros H. exfalso. assert (length (skipn i b) = 0) by now rewrite H. rewrite skipn_length in *. lia.
    + intros H. exfalso. rewrite E in H. specialize (H (d ++ firstn i b) (skipn (S i) b)).
      apply Hb. rewrite E. rewrite in_app_iff. right. right. apply H. cbn. now rewrite !app_assoc_reverse.
  - apply last_index_byte_none in E. split; [|reflexivity]. intros _ x y H.
    destruct (in_dec ascii_dec "/"%char y) as [|Hy]; [assumption|]. exfalso.
    rewrite app_assoc in H. destruct (in_tail_slash d b (x ++ $".") y Hb H Hy Hd) as [z ->].
    rewrite app_assoc in H. apply app_inv_tail in H.
    destruct z as [|c z].
    + rewrite app_nil_r in H. destruct Hd as [->|[e ->]]; [now destruct x|]. apply app_inj_tail in H as [_ H]. discriminate.
    + destruct (exists_last (l := c :: z)) as (z' & c' & Ez); [discriminate|]. rewrite Ez in *.
      rewrite app_assoc in H. apply app_inj_tail in H as [_ ->]. apply E. rewrite !in_app_iff. cbn. auto.
Qed.
Lemma path_Ext_some p e : path_Ext p = "."%char :: e <-> extension p e.
Proof.
  unfold path_Ext. destruct (base_split p) as (d & b & -> & Hb & Hd & ->). cbv zeta. split.
  - destruct (last_index_byte "." b) as [i|] eqn:E; [|discriminate].
    apply last_index_byte_some in E as (E & Hn & Hi). intros H.
    assert (He : skipn (S i) b = e).
    { rewrite (skipn_at _ _ _ _ Hi E) in H. now injection H. }
    rewrite He in *. exists (d ++ firstn i b). split; [rewrite E at 1; now rewrite app_assoc_reverse|].
    split; [|assumption]. intros Hs. apply Hb. rewrite E. rewrite in_app_iff. right. now right.
  - intros (a & H & Hs & Hn).
    destruct (in_tail_slash d b (a ++ $".") e Hb) as [z Hz]; [now rewrite H, app_assoc_reverse|assumption|assumption|].
    subst b. rewrite app_assoc, (app_assoc a) in H. apply app_inv_tail in H.
    destruct z as [|c z].
    + rewrite app_nil_r in H. destruct Hd as [->|[f ->]]; [now destruct a|]. apply app_inj_tail in H as [_ H]. discriminate.
    + destruct (exists_last (l := c :: z)) as (z' & c' & Ez); [discriminate|]. rewrite Ez in *.
      rewrite app_assoc in H. apply app_inj_tail in H as [_ ->]. rewrite app_assoc_reverse.
      cbn [app]. destruct (last_index_byte "." (z' ++ "."%char :: e)) as [i|] eqn:E.
      * pose proof (last_index_byte_some _ _ _ E) as (E1 & H1 & H2).
        assert (i = length z').
        { assert (Hlen : length (firstn i (z' ++ "."%char :: e)) = i) by (rewrite firstn_length; lia).
          remember (skipn (S i) (z' ++ "."%char :: e)) as t eqn:Et. clear Et.
          destruct (app_eq_app _ _ _ _ E1) as (y & [[A B]|[A B]]).
          - destruct y as [|c0 y]; [rewrite app_nil_r in A; apply (f_equal (@length _)) in A; lia|]. injection B as <- B. exfalso.
            apply H1. rewrite B, in_app_iff. right. now left.
          - destruct y as [|c0 y]; [rewrite app_nil_r in A; apply (f_equal (@length _)) in A; lia|]. injection B as <- B. exfalso.
            apply Hn. rewrite B, in_app_iff. right. now left. }
        subst i. rewrite skipn_app, skipn_all, Nat.sub_diag. reflexivity.
      * apply last_index_byte_none in E. exfalso. apply E. rewrite in_app_iff. right. now left.
Qed.
Lemma path_Ext_form p : path_Ext p = [] \/ exists e, path_Ext p = "."%char :: e.
Proof.
  unfold path_Ext. destruct (base_split p) as (d & b & -> & Hb & Hd & ->). cbv zeta.
  destruct (last_index_byte "." b) as [i|] eqn:E; [|auto]. apply last_index_byte_some in E as (E & Hn & Hi). right.
  exists (skipn (S i) b). exact (skipn_at _ _ _ _ Hi E).
Qed.

(** ** Letter case of extensions *)
Lemma lower_byte_same c u : is_upper u = false -> (lower_byte c = u <-> same_letter c u).
Proof.
  intros Hu. unfold lower_byte, same_letter, is_upper in *. fold (code c); fold (code u).
  destruct ((65 <=? code c)%N && (code c <=? 90)%N) eqn:E.
  - apply andb_true_iff in E as [E1 E2]; rewrite N.leb_le in E1, E2. split.
    + intros <-. right. exists (code c - 65)%N. split; [lia|]. left. rewrite code_byte_of; lia.
    + intros [->|(k & Hk & [[H1 H2]|[H1 H2]])].
      * exfalso. apply andb_false_iff in Hu. rewrite !N.leb_gt in Hu. lia.
      * apply code_inj. rewrite code_byte_of; lia.
      * lia.
  - apply andb_false_iff in E; rewrite !N.leb_gt in E. split.
    + intros ->; left; reflexivity.
    + intros [->|(k & Hk & [[H1 H2]|[H1 H2]])]; [reflexivity|lia|].
      exfalso. apply andb_false_iff in Hu; rewrite !N.leb_gt in Hu. lia.
Qed.
Lemma lower_fold e n : Forall (fun u => is_upper u = false) n -> (map lower_byte e = n <-> same_fold e n).
Proof.
  revert n; induction e as [|c e IH]; intros n Hn; cbn.
  - split; [intros <-; constructor|]. intros H; inversion H; reflexivity.
  - destruct n as [|u n]; [split; [discriminate|intros H; inversion H]|].
    inversion_clear Hn as [|? ? Hu Hn']. split.
    + intros [= H1 H2]. constructor; [now apply lower_byte_same|now apply IH].
    + intros H; inversion_clear H as [|? ? ? ? H1 H2]. f_equal; [now apply lower_byte_same|now apply IH].
Qed.
(** Names of file types: lower case, without i and k, which some characters above ASCII have as their lower case. *)
Definition type_name (n : str) : Prop := Forall (fun u => is_upper u = false /\ (code u < 128)%N /\ code u <> 105%N /\ code u <> 107%N) n.
Lemma to_lower_fold low e n : ascii_only e \/ lower_table low -> type_name n -> (to_lower low e = n <-> same_fold e n).
Proof.
  intros Ha Hn. assert (Hu : Forall (fun u => is_upper u = false) n) by (eapply Forall_impl; [|exact Hn]; cbn; tauto).
  unfold to_lower. destruct (forallb is_ascii7 e) eqn:E; [now apply lower_fold|].
  apply not_ascii7 in E. destruct Ha as [Ha|Hlow]; [contradiction|]. split.
  - intros Heq. exfalso. destruct (range_high (length e) 0 e (le_n _) E) as ([i r] & Hin & Hr). cbn [snd] in Hr.
    assert (Hsub : forall b, In b (encode_rune (to_lower_rune low r)) -> In b n).
    { intros b Hb. rewrite <- Heq. apply in_flat_map. exists (i, r). auto. }
    unfold to_lower_rune in Hsub. destruct (N.ltb_spec r 128); [lia|]. unfold type_name in Hn. rewrite Forall_forall in Hn.
    destruct (N.lt_ge_cases (low r) 128) as [Hl|Hl].
    + destruct (Hn (byte_of (low r))) as (_ & _ & Hi & Hk).
      { apply Hsub. unfold encode_rune. destruct (N.ltb_spec (low r) 128); [now left|lia]. }
      rewrite code_byte_of in Hi, Hk by lia. destruct (Hlow r Hr Hl); contradiction.
    + destruct (encode_high _ Hl) as (b & l & Eb & Hb). destruct (Hn b) as (_ & Hc & _); [apply Hsub; rewrite Eb; now left|lia].
  - intros H. exfalso. apply E. apply (same_fold_ascii e n H). unfold ascii_only. eapply Forall_impl; [|exact Hn]. cbn. tauto.
Qed.
Lemma decoded_spec P bs e : ascii_only e \/ lower_table (p_low P) ->
  (yaml_ext e -> decoded P bs e = fst (p_yaml P bs)) /\ (json_ext e -> decoded P bs e = fst (p_json P bs)) /\
  (~ yaml_ext e -> ~ json_ext e -> decoded P bs e = empty_config).
Proof.
  intros Ha. unfold decoded, yaml_ext, json_ext.
  rewrite <- (to_lower_fold (p_low P) e ($"yaml")), <- (to_lower_fold (p_low P) e ($"yml")), <- (to_lower_fold (p_low P) e ($"json"))
    by first [assumption|repeat constructor; discriminate].
  destruct (str_eqb_spec (to_lower (p_low P) e) ($"yaml")) as [->|H1].
  { split; [reflexivity|]. split; [discriminate|]. tauto. }
  destruct (str_eqb_spec (to_lower (p_low P) e) ($"yml")) as [->|H2].
  { split; [reflexivity|]. split; [discriminate|]. tauto. }
  destruct (str_eqb_spec (to_lower (p_low P) e) ($"json")) as [->|H3]; cbn [orb].
  - split; [intros [?|?]; discriminate|]. split; [reflexivity|]. tauto.
  - tauto.
Qed.

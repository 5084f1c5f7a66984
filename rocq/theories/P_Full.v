(** Property C88: the writer's option fullName, which lets the log file itself carry its period's name. No configuration sets it. *)
From Verif Require Import GoStr Strconv StrconvProofs ConfModel RollModel RollSpec RollExec RollProofs RollSizeProofs RollRunProofs RollDirProofs RollTimeProofs P_RollSize P_RollTime.
From Verif Require Import AsyncSpec FaultSpec FaultTimeProofs P_Crash FullSpec.
Local Open Scope Z_scope.

Section Full.
Variables (P : tparse) (c : roll_conf) (p : str).
Hypothesis K : rc_kind c = ByTime p.
Hypothesis FN : rc_fullName c = true.
Hypothesis MR : rc_maxRolls c <= 0.

Lemma now_runs f tr f' s : runs (now p) f tr f' s -> Forall smooth tr -> f' = f /\ times tr = [s].
Proof.
  intros H G. unfold now in H. apply runs_bind in H as (t1 & g & r & t2 & -> & H1 & H2). apply runs_op in H1 as [-> E].
  apply Forall_app in G as [G _]. inversion E; subst. apply runs_goes, goes_done in H2 as (-> & -> & [X|X]); [|discriminate]. injection X as <-. auto.
Qed.
(** The new file: one reading, its name. *)
Lemma create_runs w f tr f' w' e : runs (createFile c w) f tr f' (w', e) -> Forall smooth tr ->
  exists s, times tr = [s] /\ e = false /\ w_file w' = Some (full c s, true) /\ w_name w' = full c s /\ w_period w' = w_period w /\
    (f_dir f (full c s) = None -> f_dir f' (full c s) = Some (Reg [])) /\ (forall y, f_dir f (full c s) = Some (Reg y) -> f_dir f' (full c s) = Some (Reg y)) /\
    forall n, n <> full c s -> f_dir f' n = f_dir f n.
Proof.
  intros H G. unfold createFile in H. apply runs_bind in H as (t1 & f1 & r & t2 & -> & H1 & H). apply runs_op in H1 as [-> E1].
  apply Forall_app in G as [G1 G]. inversion E1; subst; [|inversion G1; subst; contradiction].
  apply runs_bind in H as (t3 & f2 & n & t4 & -> & H2 & H). apply Forall_app in G as [G2 G].
  unfold getCurrentFileName in H2. rewrite K, FN in H2. apply runs_bind in H2 as (t5 & f3 & s & t6 & -> & H2 & H3). apply Forall_app in G2 as [G2 _].
  apply runs_goes, goes_done in H3 as (-> & -> & [X|X]); [|discriminate]. injection X as ->.
  destruct (now_runs _ _ _ _ H2 G2) as [-> T].
  apply runs_bind in H as (t7 & f4 & r2 & t8 & -> & H3 & H). apply runs_op in H3 as [-> E3]. apply Forall_app in G as [G3 G].
  assert (OP : r2 = ROk /\ (f_dir f1 (full c s) = None -> f_dir f4 (full c s) = Some (Reg [])) /\
    (forall y, f_dir f1 (full c s) = Some (Reg y) -> f_dir f4 (full c s) = Some (Reg y)) /\ forall n, n <> full c s -> f_dir f4 n = f_dir f1 n).
  { inversion E3; subst; cbn [f_dir].
    - split; [reflexivity|]. split; [intros _; apply dput_same|]. split; [intros y Y; cbn [f_dir] in *; congruence|]. intros n N. now apply dput_other.
    - split; [reflexivity|]. split; [congruence|auto].
    - inversion G3; subst. contradiction. }
  destruct OP as (-> & OP1 & OPY & OP2).
  apply runs_bind in H as (t9 & f5 & r3 & t10 & -> & H4 & H). apply runs_op in H4 as [-> E4]. apply Forall_app in G as [G4 G].
  assert (ST : f5 = f4 /\ exists z, r3 = RSize z) by (inversion E4; subst; [eauto|eauto|inversion G4; subst; contradiction]).
  destruct ST as [-> (z & ->)]. apply runs_goes, goes_done in H as (-> & -> & [X|X]); [|discriminate]. injection X as -> ->.
  exists s. rewrite !times_app, T. cbn. auto 10.
Qed.
(** The end of a write, with the file open. *)
Lemma put_runs w n b y f tr f' w' k e :
  runs (match w_file w with
        | Some (n, true) => r <- op (OWrite n b) ;; match r with RWrote k ok => Done (set_size w (w_size w + Z.of_nat k), (k, negb ok)) | _ => Done (w, (0%nat, true)) end
        | _ => Done (w, (0%nat, true)) end) f tr f' (w', (k, e)) ->
  w_file w = Some (n, true) -> Forall smooth tr -> f_dir f n = Some (Reg y) ->
  times tr = [] /\ w_file w' = w_file w /\ w_name w' = w_name w /\ w_period w' = w_period w /\
  f_dir f' n = Some (Reg (y ++ b)) /\ forall m, m <> n -> f_dir f' m = f_dir f m.
Proof.
  intros H WF G D. rewrite WF in H. apply runs_bind in H as (t1 & f1 & r & t2 & -> & H1 & H). apply runs_op in H1 as [-> E1].
  apply Forall_app in G as [G1 _].
  assert (OW : exists k, r = RWrote k true /\ f_dir f1 n = Some (Reg (y ++ b)) /\ forall m, m <> n -> f_dir f1 m = f_dir f m).
  { inversion E1; subst; cbn [f_dir] in *.
    - inversion G1 as [|? ? S _]; subst. cbn in S. destruct ok; [|discriminate]. match goal with X : true = true -> _ |- _ => rewrite (X eq_refl), firstn_all end.
      exists (length b). split; [f_equal|]. split; [|intros m N; now apply dput_other].
      rewrite dput_same. congruence.
    - congruence. }
  destruct OW as (k1 & -> & A & B). apply runs_goes, goes_done in H as (-> & -> & [X|X]); [|discriminate]. injection X as -> _ _.
  cbn. auto 10.
Qed.
(** The roll: the file gets the name of the writer's period. *)
Lemma roll_runs w n y f tr f' w' e : runs (roll P c w) f tr f' (w', e) -> Forall smooth tr -> w_file w = Some (n, true) -> w_name w = n -> f_dir f n = Some (Reg y) ->
  exists s, times tr = [s] /\ e = false /\ w_file w' = None /\ w_period w' = s /\
    f_dir f' (full c (w_period w)) = Some (Reg y) /\ (n <> full c (w_period w) -> f_dir f' n = None) /\
    forall m, m <> n -> m <> full c (w_period w) -> f_dir f' m = f_dir f m.
Proof.
  intros H G WF WN D. unfold roll in H. rewrite WF in H.
  apply runs_bind in H as (t1 & f1 & r & t2 & -> & H1 & H). apply runs_op in H1 as [-> E1]. apply Forall_app in G as [G1 G].
  inversion E1; subst; [|inversion G1; subst; contradiction].
  apply runs_bind in H as (t3 & f2 & h & t4 & -> & H2 & H). apply Forall_app in G as [G2 G]. pose proof (hist_times _ _ _ _ _ _ H2) as TH.
  apply runs_goes, history_goes in H2 as (-> & H2 & H2').
  destruct h as [h|].
  2: { exfalso. now apply H2'. }
  apply runs_bind in H as (t5 & f3 & [w1 rn] & t6 & -> & H3 & H). apply Forall_app in G as [G3 G].
  unfold getNewHistoryRollFileName in H3. rewrite K in H3. apply runs_bind in H3 as (t7 & f4 & s & t8 & -> & H3 & H4). apply Forall_app in G3 as [G3 _].
  apply runs_goes, goes_done in H4 as (-> & -> & [X|X]); [|discriminate]. injection X as -> ->.
  destruct (now_runs _ _ _ _ H3 G3) as [-> T].
  apply runs_bind in H as (t9 & f5 & r2 & t10 & -> & H4 & H). apply runs_op in H4 as [-> E4]. apply Forall_app in G as [G4 G]. cbn [w_name set_period set_file w_period] in *.
  assert (RN : r2 = ROk /\ f_dir f5 (full c (w_period w)) = Some (Reg y) /\ (w_name w <> full c (w_period w) -> f_dir f5 (w_name w) = None) /\
    forall m, m <> w_name w -> m <> full c (w_period w) -> f_dir f5 m = f_dir f1 m).
  { inversion E4; subst; cbn [f_dir] in *; [|inversion G4; subst; contradiction].
    split; [reflexivity|]. split; [rewrite dput_same; congruence|]. split.
    - intros N. rewrite dput_other by exact N. apply dput_same.
    - intros m N1 N2. now rewrite !dput_other. }
  destruct RN as (-> & R1 & R2 & R3).
  apply runs_bind in H as (t11 & f6 & r3 & t12 & -> & H5 & H). apply runs_op in H5 as [-> E5].
  assert (f6 = f5) as -> by (inversion E5; reflexivity).
  apply runs_bind in H as (t13 & f7 & u & t14 & -> & H6 & H).
  assert (f7 = f5 /\ t13 = []) as [-> ->].
  { unfold deleteOldRolls in H6. destruct (Z.leb_spec (rc_maxRolls c) 0); [|lia].
    destruct (rc_maxRolls c <? _); apply runs_goes, goes_done in H6 as (-> & -> & _); auto. }
  apply runs_goes, goes_done in H as (-> & -> & [X|X]); [|discriminate]. injection X as -> ->.
  exists s. rewrite !times_app, TH, T. cbn. auto 10.
Qed.
(** A write of the open writer: no roll, one reading, or a roll, three readings. *)
Lemma write_runs w n y b f tr f' w' k e : runs (rw_Write P c w b) f tr f' (w', (k, e)) -> Forall smooth tr -> w_file w = Some (n, true) -> w_name w = n ->
  w_period w <> [] -> f_dir f n = Some (Reg y) ->
  (times tr = [w_period w] /\ w_file w' = Some (n, true) /\ w_name w' = n /\ w_period w' = w_period w /\
     f_dir f' n = Some (Reg (y ++ b)) /\ forall m, m <> n -> f_dir f' m = f_dir f m) \/
  (exists t t2 t3 d1, times tr = [t; t2; t3] /\ t <> w_period w /\ w_file w' = Some (full c t3, true) /\ w_name w' = full c t3 /\ w_period w' = t2 /\
     d1 (full c (w_period w)) = Some (Reg y) /\ (n <> full c (w_period w) -> d1 n = None) /\ (forall m, m <> n -> m <> full c (w_period w) -> d1 m = f_dir f m) /\
     (d1 (full c t3) = None -> f_dir f' (full c t3) = Some (Reg b) /\ forall m, m <> full c t3 -> f_dir f' m = d1 m)).
Proof.
  intros H G WF WN WP D. unfold rw_Write in H. apply runs_bind in H as (t1 & f1 & [w1 need] & t2 & -> & H1 & H). apply Forall_app in G as [G1 G].
  unfold needsToRoll in H1. rewrite K in H1. apply runs_bind in H1 as (t3 & f2 & s & t4 & -> & H1 & H2). apply Forall_app in G1 as [G1 _].
  destruct (now_runs _ _ _ _ H1 G1) as [-> T]. destruct (w_period w) as [|a q] eqn:EQ; [contradiction|]. rewrite <- EQ in *. clear a q EQ.
  apply runs_goes, goes_done in H2 as (-> & -> & [X|X]); [|discriminate]. injection X as -> ->.
  apply runs_bind in H as (t5 & f3 & [w2 err] & t6 & -> & H3 & H). apply Forall_app in G as [G3 G].
  destruct (str_eqb_spec s (w_period w)) as [ES|NS]; cbn [negb] in H3.
  - apply runs_goes, goes_done in H3 as (-> & -> & [X|X]); [|discriminate]. injection X as -> ->.
    apply runs_bind in H as (t7 & f4 & [w3 err] & t8 & -> & H4 & H). apply Forall_app in G as [G4 G]. rewrite WF in H4.
    apply runs_goes, goes_done in H4 as (-> & -> & [X|X]); [|discriminate]. injection X as -> ->.
    destruct (put_runs w n b y f t8 f' w' k e H WF G D) as (T8 & A1 & A2 & A3 & A4 & A5). left.
    rewrite !times_app, T, T8, ES. cbn. rewrite A1, A2. auto 10.
  - destruct (roll_runs w n y f t5 f3 w2 err H3 G3 WF WN D) as (s2 & T5 & -> & B1 & B2 & B3 & B4 & B5).
    apply runs_bind in H as (t7 & f4 & [w3 err] & t8 & -> & H4 & H). apply Forall_app in G as [G4 G]. rewrite B1 in H4.
    destruct (create_runs w2 f3 t7 f4 w3 err H4 G4) as (s3 & T7 & -> & C1 & C2 & C3 & C4 & CY & C5). right.
    assert (T8 : times t8 = [] /\ w_file w' = w_file w3 /\ w_name w' = w_name w3 /\ w_period w' = w_period w3).
    { rewrite C1 in H. apply runs_bind in H as (t9 & f9 & r & t10 & -> & H1' & H). apply runs_op in H1' as [-> E1]. inversion E1; subst;
        apply runs_goes, goes_done in H as (-> & -> & [X|X]); inversion X; subst; cbn; auto. }
    destruct T8 as (T8 & A1 & A2 & A3). exists s, s2, s3, (f_dir f3). rewrite !times_app, T, T5, T7, T8, A1, A2, A3, C1, C2, C3, B2. cbn.
    do 8 (split; [auto; fail|]). intros N. specialize (C4 N).
    destruct (put_runs w3 (full c s3) b [] f4 t8 f' w' k e H C1 G C4) as (_ & _ & _ & _ & A4 & A5). split; [exact A4|].
    intros m M. rewrite A5 by exact M. now apply C5.
Qed.
(** The first write: two readings. *)
Lemma first_runs b f tr f' w' k e : runs (rw_Write P c w_new b) f tr f' (w', (k, e)) -> Forall smooth tr ->
  exists t t2, times tr = [t; t2] /\ w_file w' = Some (full c t2, true) /\ w_name w' = full c t2 /\ w_period w' = t /\
    (f_dir f (full c t2) = None -> f_dir f' (full c t2) = Some (Reg b) /\ forall m, m <> full c t2 -> f_dir f' m = f_dir f m) /\
    (forall y, f_dir f (full c t2) = Some (Reg y) -> f_dir f' (full c t2) = Some (Reg (y ++ b)) /\ forall m, m <> full c t2 -> f_dir f' m = f_dir f m).
Proof.
  intros H G. unfold rw_Write in H. apply runs_bind in H as (t1 & f1 & [w1 need] & t2 & -> & H1 & H). apply Forall_app in G as [G1 G].
  unfold needsToRoll in H1. rewrite K in H1. apply runs_bind in H1 as (t3 & f2 & s & t4 & -> & H1 & H2). apply Forall_app in G1 as [G1 _].
  destruct (now_runs _ _ _ _ H1 G1) as [-> T]. cbn [w_period w_new] in H2.
  apply runs_goes, goes_done in H2 as (-> & -> & [X|X]); [|discriminate]. injection X as -> ->.
  apply runs_bind in H as (t5 & f3 & [w2 err] & t6 & -> & H3 & H). apply Forall_app in G as [G3 G].
  apply runs_goes, goes_done in H3 as (-> & -> & [X|X]); [|discriminate]. injection X as -> ->.
  apply runs_bind in H as (t7 & f4 & [w3 err] & t8 & -> & H4 & H). apply Forall_app in G as [G4 G]. cbn [w_file w_new set_period] in H4.
  destruct (create_runs _ f t7 f4 w3 err H4 G4) as (s3 & T7 & -> & C1 & C2 & C3 & C4 & CY & C5). cbn [w_period set_period] in C3.
  assert (T8 : times t8 = [] /\ w_file w' = w_file w3 /\ w_name w' = w_name w3 /\ w_period w' = w_period w3).
  { rewrite C1 in H. apply runs_bind in H as (t9 & f9 & r & t10 & -> & H1' & H). apply runs_op in H1' as [-> E1]. inversion E1; subst;
      apply runs_goes, goes_done in H as (-> & -> & [X|X]); inversion X; subst; cbn; auto. }
  destruct T8 as (T8 & A1 & A2 & A3). exists s, s3. rewrite !times_app, T, T7, T8, A1, A2, A3, C1, C2, C3. cbn.
  do 4 (split; [auto; fail|]).
  assert (PUT : forall y, f_dir f4 (full c s3) = Some (Reg y) -> f_dir f' (full c s3) = Some (Reg (y ++ b)) /\ forall m, m <> full c s3 -> f_dir f' m = f_dir f m).
  { intros y Y. destruct (put_runs w3 (full c s3) b y f4 t8 f' w' k e H C1 G Y) as (_ & _ & _ & _ & A4 & A5). split; [exact A4|].
    intros m M. rewrite A5 by exact M. now apply C5. }
  split; [intros N; exact (PUT [] (C4 N))|]. intros y Y. exact (PUT y (CY y Y)).
Qed.

Notation group := (str * list (str * list str))%type.
(** [gs]: the finished files; [s'], [g]: the open one; [q]: the writer's period. *)
Definition by_name (d0 : dir) (R : list str) (gs : list group) (q s' : str) (g : list (str * list str)) (w : wst) (d : dir) : Prop :=
  w_file w = Some (full c s', true) /\ w_name w = full c s' /\ w_period w = q /\
  (exists R1, R = R1 ++ [s'] /\ (s' = q \/ (s' <> q /\ exists R2, R1 = R2 ++ [q]))) /\
  Forall (fun r => In q (snd r) /\ In s' (snd r)) g /\
  d (full c s') = Some (Reg (concat (map fst g))) /\
  (forall s gg, In (s, gg) gs -> passed s R /\ d (full c s) = Some (Reg (concat (map fst gg))) /\ Forall (fun r => In s (snd r)) gg) /\
  NoDup (map fst gs) /\ ~ In q (map fst gs) /\
  (forall n, (forall s, In s (s' :: map fst gs) -> n <> full c s) -> d n = d0 n).
Lemma passed_in t R : passed t R -> In t R.
Proof. intros (R1 & R2 & s & R3 & -> & _). apply in_or_app. right. now left. Qed.
Lemma by_name_write d0 R gs q s' g w f b tr f' w' k e : by_name d0 R gs q s' g w (f_dir f) -> runs (rw_Write P c w b) f tr f' (w', (k, e)) -> Forall smooth tr ->
  (forall s, In s (R ++ times tr) -> s <> [] /\ d0 (full c s) = None) -> never_returns (R ++ times tr) ->
  exists gs' q1 s1 g1, by_name d0 (R ++ times tr) gs' q1 s1 g1 w' (f_dir f') /\ concat (map snd gs') ++ g1 = (concat (map snd gs) ++ g) ++ [(b, times tr)].
Proof.
  intros (WF & WN & WP & (R1 & ER & RQ) & GQ & D & OLD & ND & NQ & OT) H G HR NR.
  assert (QR : In q R) by (rewrite ER; destruct RQ as [-> |(_ & R2 & ->)]; rewrite ?in_app_iff; cbn; auto).
  assert (NP : ~ passed s' R) by (rewrite ER; apply passed_fresh; rewrite <- ER; exact (never_prefix _ _ NR)).
  assert (NI : ~ In s' (map fst gs)) by (intros I; apply in_map_iff in I as ([s gg] & <- & I); now apply NP, (OLD s gg)).
  destruct (write_runs w _ _ b f tr f' w' k e H G WF WN ltac:(rewrite WP; apply HR; apply in_or_app; now left) D)
    as [(T & A1 & A2 & A3 & A4 & A5)|(t & t2 & t3 & d1 & T & NT & A1 & A2 & A3 & A4 & A5 & A6 & A7)]; rewrite T in *; rewrite WP in *.
  - assert (s' = q) as ->.
    { destruct RQ as [E|(N & R2 & ->)]; [exact E|]. exfalso. rewrite ER in NR. rewrite <- !app_assoc in NR. cbn in NR. destruct (never_last R2 q s' q NR N) as [X _]. now apply X. }
    exists gs, q, q, (g ++ [(b, [q])]). split; [|now rewrite app_assoc].
    split; [exact A1|]. split; [exact A2|]. split; [exact A3|]. split; [exists R; auto|].
    split; [apply Forall_app; split; [exact GQ|]; constructor; [cbn; auto|constructor]|].
    split; [rewrite map_app, concat_app; cbn; now rewrite app_nil_r|].
    split; [|split; [exact ND|split; [exact NQ|]]].
    + intros s gg I. destruct (OLD s gg I) as (B1 & B2 & B3). split; [now apply passed_more|]. split; [|exact B3].
      rewrite A5; [exact B2|]. intros X. apply full_inj in X. subst s. apply NI. now apply (in_map fst) in I.
    + intros n N. rewrite A5; [now apply OT|]. apply N. now left.
  - assert (PQ : passed q (R ++ [t])).
    { rewrite ER. destruct RQ as [-> |(N & R2 & ->)]; [exact (passed_now R1 q t [] NT)|]. exists R2, [], s', [t]. split; [|exact N]. now rewrite <- !app_assoc. }
    assert (PG : forall s, In s (map fst (gs ++ [(q, g)])) -> passed s (R ++ [t])).
    { intros s I. rewrite map_app in I. apply in_app_or in I as [I|[<- |[]]]; [|exact PQ]. apply in_map_iff in I as ([x gg] & <- & I). apply passed_more. now apply (OLD x gg). }
    assert (N2 : ~ In t2 (map fst (gs ++ [(q, g)]))).
    { intros I. apply PG in I. apply (passed_back t2 (R ++ [t]) [t3]); [exact I|]. now rewrite <- app_assoc. }
    assert (N3 : ~ In t3 (map fst (gs ++ [(q, g)]))).
    { intros I. apply PG in I. apply (passed_back t3 (R ++ [t; t2]) []); [|now rewrite <- app_assoc].
      change [t; t2] with ([t] ++ [t2]). rewrite app_assoc. now apply passed_more. }
    assert (NQ3 : t3 <> q) by (intros ->; apply N3; rewrite map_app; apply in_or_app; right; now left).
    assert (D3 : d1 (full c t3) = None).
    { destruct (str_eqb_spec t3 s') as [-> |N]; [apply A5; intros X; apply full_inj in X; contradiction|].
      rewrite A6 by (intros X; apply full_inj in X; contradiction). rewrite OT; [apply HR; apply in_or_app; right; cbn; auto|].
      intros s I X. apply full_inj in X. subst s. destruct I as [<- |I]; [contradiction|]. apply N3. rewrite map_app. apply in_or_app. now left. }
    destruct (A7 D3) as [E1 E2].
    exists (gs ++ [(q, g)]), t2, t3, [(b, [t; t2; t3])]. split.
    2: { rewrite map_app, concat_app. cbn. now rewrite app_nil_r. }
    split; [exact A1|]. split; [exact A2|]. split; [exact A3|]. split.
    { exists (R ++ [t; t2]). split; [now rewrite <- app_assoc|]. destruct (str_eqb_spec t3 t2) as [E|N]; [now left|right]. split; [exact N|]. exists (R ++ [t]). now rewrite <- app_assoc. }
    split; [constructor; [cbn; auto|constructor]|]. split; [cbn; now rewrite app_nil_r|].
    split; [|split; [rewrite map_app; now apply NoDup_snoc'|split; [exact N2|]]].
    + intros s gg I. split.
      { change [t; t2; t3] with ([t] ++ [t2; t3]). rewrite app_assoc. apply passed_more, PG. now apply (in_map fst) in I. }
      assert (S3 : full c s <> full c t3) by (intros X; apply full_inj in X; subst s; apply N3; now apply (in_map fst) in I).
      apply in_app_or in I as [I|[I|[]]].
      * destruct (OLD s gg I) as (B1 & B2 & B3). split; [|exact B3]. rewrite E2 by exact S3. rewrite A6; [exact B2| |].
        -- intros X. apply full_inj in X. subst s. apply NI. now apply (in_map fst) in I.
        -- intros X. apply full_inj in X. subst s. apply NQ. now apply (in_map fst) in I.
      * injection I as <- <-. split; [rewrite E2 by exact S3; exact A4|]. eapply Forall_impl; [|exact GQ]. cbn. tauto.
    + intros n N. rewrite E2 by (apply N; now left).
      assert (NQn : n <> full c q) by (apply N; right; rewrite map_app; apply in_or_app; right; now left).
      destruct (str_eqb_spec n (full c s')) as [-> |NS].
      * rewrite A5 by exact NQn. symmetry. apply HR. apply in_or_app. left. rewrite ER. apply in_or_app. right. now left.
      * rewrite A6 by assumption. apply OT. intros s [<- |I]; [exact NS|]. apply N. right. rewrite map_app. apply in_or_app. now left.
Qed.
Lemma by_name_timed d0 f w rs f' w' : timed P c smooth f w rs f' w' -> forall R gs q s' g, by_name d0 R gs q s' g w (f_dir f) ->
  (forall s, In s (R ++ flat_map snd rs) -> s <> [] /\ d0 (full c s) = None) -> never_returns (R ++ flat_map snd rs) ->
  exists gs' q1 s1 g1, by_name d0 (R ++ flat_map snd rs) gs' q1 s1 g1 w' (f_dir f') /\ concat (map snd gs') ++ g1 = (concat (map snd gs) ++ g) ++ rs.
Proof.
  induction 1 as [f w|f w b tr f1 w1 k err rs f2 w2 RN G TI IH]; intros R gs q s' g B HR NR; cbn [flat_map snd] in *.
  - exists gs, q, s', g. rewrite !app_nil_r. auto.
  - rewrite app_assoc in HR, NR. destruct (by_name_write d0 R gs q s' g w f b tr f1 w1 k err B RN G) as (gs1 & q1 & s1 & g1 & B1 & E1);
      [intros s I; apply HR; apply in_or_app; now left|exact (never_prefix _ _ NR)|].
    destruct (IH _ _ _ _ _ B1 HR NR) as (gs2 & q2 & s2 & g2 & B2 & E2). exists gs2, q2, s2, g2. split; [now rewrite app_assoc|].
    rewrite E2, E1, <- app_assoc. reflexivity.
Qed.
(** Between two processes. *)
Definition at_rest (d0 : dir) (R : list str) (gs : list group) (s' : str) (g : list (str * list str)) (d : dir) : Prop :=
  (exists R1, R = R1 ++ [s']) /\ Forall (fun r => In s' (snd r)) g /\ d (full c s') = Some (Reg (concat (map fst g))) /\
  (forall s gg, In (s, gg) gs -> passed s R /\ d (full c s) = Some (Reg (concat (map fst gg))) /\ Forall (fun r => In s (snd r)) gg) /\
  NoDup (map fst gs) /\ (forall n, (forall s, In s (s' :: map fst gs) -> n <> full c s) -> d n = d0 n).
Lemma by_name_rest d0 R gs q s' g w d : by_name d0 R gs q s' g w d -> at_rest d0 R gs s' g d.
Proof.
  intros (_ & _ & _ & (R1 & ER & _) & GQ & D & OLD & ND & _ & OT). split; [eauto|]. split; [eapply Forall_impl; [|exact GQ]; cbn; tauto|]. auto.
Qed.
Lemma rest_first d0 R gs s' g f b tr f' w' k e t : at_rest d0 R gs s' g (f_dir f) -> runs (rw_Write P c w_new b) f tr f' (w', (k, e)) -> Forall smooth tr ->
  Forall (eq t) (times tr) ->
  (forall s, In s (R ++ times tr) -> s <> [] /\ d0 (full c s) = None) -> never_returns (R ++ times tr) ->
  exists gs' q1 s1 g1, by_name d0 (R ++ times tr) gs' q1 s1 g1 w' (f_dir f') /\ concat (map snd gs') ++ g1 = (concat (map snd gs) ++ g) ++ [(b, times tr)].
Proof.
  intros ((R1 & ER) & GQ & D & OLD & ND & OT) H G TT HR NR.
  destruct (first_runs b f tr f' w' k e H G) as (t1 & t2 & T & A1 & A2 & A3 & A4 & A4'). rewrite T in *.
  assert (EQ : t1 = t /\ t2 = t) by (inversion TT as [|? ? E1 TT1]; inversion TT1; auto). destruct EQ as [-> ->]. clear TT. subst R.
  assert (NP : forall s, In s (map fst gs) -> passed s (R1 ++ [s'])) by (intros s I; apply in_map_iff in I as ([x gg] & <- & I); now apply (OLD x gg)).
  assert (NI : ~ In s' (map fst gs)) by (intros I; apply (passed_fresh s' R1); [exact (never_prefix _ _ NR)|now apply NP]).
  destruct (str_eqb_spec t s') as [-> |N].
  - destruct (A4' _ D) as [B1 B2]. exists gs, s', s', (g ++ [(b, [s'; s'])]). split; [|now rewrite app_assoc].
    split; [exact A1|]. split; [exact A2|]. split; [exact A3|]. split.
    { exists ((R1 ++ [s']) ++ [s']). split; [now rewrite <- !app_assoc|]. now left. }
    split; [apply Forall_app; split; [eapply Forall_impl; [|exact GQ]; cbn; tauto|]; constructor; [cbn; auto|constructor]|].
    split; [rewrite map_app, concat_app; cbn; now rewrite app_nil_r|]. split; [|split; [exact ND|split; [exact NI|]]].
    + intros s gg I. destruct (OLD s gg I) as (C1 & C2 & C3). split; [now apply passed_more|]. split; [|exact C3].
      rewrite B2; [exact C2|]. intros X. apply full_inj in X. subst s. apply NI. now apply (in_map fst) in I.
    + intros n Hn. rewrite B2; [now apply OT|]. apply Hn. now left.
  - assert (N3 : ~ In t (map fst (gs ++ [(s', g)]))).
    { rewrite map_app. intros I. apply in_app_or in I as [I|[I|[]]]; [|now apply N].
      apply (passed_back t (R1 ++ [s']) [t]); [now apply NP|exact NR]. }
    assert (D3 : f_dir f (full c t) = None).
    { rewrite OT; [apply HR; apply in_or_app; right; cbn; auto|]. intros s I X. apply full_inj in X. subst s. destruct I as [I|I]; [now apply N|].
      apply N3. rewrite map_app. apply in_or_app. now left. }
    destruct (A4 D3) as [B1 B2]. exists (gs ++ [(s', g)]), t, t, [(b, [t; t])]. split.
    2: { rewrite map_app, concat_app. cbn. now rewrite app_nil_r. }
    split; [exact A1|]. split; [exact A2|]. split; [auto|]. split.
    { exists ((R1 ++ [s']) ++ [t]). split; [now rewrite <- !app_assoc|]. now left. }
    split; [constructor; [cbn; auto|constructor]|]. split; [cbn; now rewrite app_nil_r|].
    split; [|split; [rewrite map_app; now apply NoDup_snoc'|split; [exact N3|]]].
    + intros s gg I.
      assert (S3 : full c s <> full c t) by (intros X; apply full_inj in X; subst s; apply N3; now apply (in_map fst) in I).
      apply in_app_or in I as [I|[I|[]]].
      * destruct (OLD s gg I) as (C1 & C2 & C3). split; [now apply passed_more|]. split; [|exact C3]. now rewrite B2.
      * injection I as <- <-. split; [now apply passed_now|]. split; [now rewrite B2|exact GQ].
    + intros n Hn. rewrite B2 by (apply Hn; now left). apply OT. intros s [<- |I]; apply Hn; right; rewrite map_app; apply in_or_app; [right; now left|now left].
Qed.
End Full.

(** One process, no faults, a clock that does not come back, no files of these periods yet: every file holds the records of
    its period: the files hold all records, in order, each whole and in a file named by a reading of the clock that its own
    write made; other files stay. *)
Theorem C88_own_period_partial : forall P c p f rs f' w', rc_kind c = ByTime p -> rc_fullName c = true -> rc_maxRolls c <= 0 ->
  timed P c smooth f w_new rs f' w' -> (forall s n, In s (flat_map snd rs) -> s <> [] /\ (backup_name c s n -> f_dir f n = None)) -> never_returns (flat_map snd rs) ->
  exists gs : list (str * list (str * list str)), concat (map snd gs) = rs /\ NoDup (map fst gs) /\
    (forall s g n, In (s, g) gs -> backup_name c s n -> f_dir f' n = Some (Reg (concat (map fst g)))) /\
    (forall s g r, In (s, g) gs -> In r g -> In s (snd r)) /\
    forall n, (forall s, In s (flat_map snd rs) -> ~ backup_name c s n) -> f_dir f' n = f_dir f n.
Proof.
  intros P c p f rs f' w' K FN MR TI HR NR. inversion TI as [|? ? b tr f1 w1 k err rs' ? ? RN G TI1]; subst.
  { exists []. split; [reflexivity|]. split; [constructor|]. split; [intros ? ? ? []|]. split; [intros ? ? ? []|reflexivity]. }
  cbn [flat_map snd] in *.
  destruct (first_runs P c p K FN b f tr f1 w1 k err RN G) as (t & t2 & T & A1 & A2 & A3 & A4 & _). rewrite T in *.
  assert (HR' : forall s, In s ([t; t2] ++ flat_map snd rs') -> s <> [] /\ f_dir f (full c s) = None).
  { intros s I. destruct (HR s (full c s) I) as [X Y]. split; [exact X|]. apply Y. now apply backup_name_full. }
  destruct A4 as [A4 A5]; [apply HR'; cbn; auto|].
  assert (B : by_name c (f_dir f) [t; t2] [] t t2 [(b, [t; t2])] w1 (f_dir f1)).
  { split; [exact A1|]. split; [exact A2|]. split; [exact A3|]. split.
    { exists [t]. split; [reflexivity|]. destruct (str_eqb_spec t2 t) as [E|N]; [now left|right]. split; [exact N|]. now exists []. }
    split; [constructor; [cbn; auto|constructor]|]. split; [cbn; now rewrite app_nil_r|]. split; [intros ? ? []|]. split; [constructor|]. split; [intros []|].
    intros n N. apply A5. apply N. now left. }
  destruct (by_name_timed P c p K FN MR (f_dir f) f1 w1 rs' f' w' TI1 [t; t2] [] t t2 [(b, [t; t2])] B HR' NR) as (gs & q & s' & g & (_ & _ & _ & (R1 & ER & _) & GQ & D & OLD & ND & _ & OT) & E).
  exists (gs ++ [(s', g)]). split; [rewrite map_app, concat_app; cbn; rewrite app_nil_r; exact E|]. rewrite map_app. cbn [map fst].
  assert (NI : ~ In s' (map fst gs)).
  { intros I. apply in_map_iff in I as ([s gg] & <- & I). destruct (OLD s gg I) as [X _]. cbn [fst] in *. rewrite ER in X. apply (passed_fresh s R1); [|exact X]. rewrite <- ER. exact NR. }
  split; [now apply NoDup_snoc'|]. split; [|split].
  - intros s gg n I BN. apply backup_name_full in BN. subst n. apply in_app_or in I as [I|[I|[]]]; [now apply (OLD s gg)|injection I as <- <-; exact D].
  - intros s gg r I J. apply in_app_or in I as [I|[I|[]]].
    + destruct (OLD s gg I) as (_ & _ & F). rewrite Forall_forall in F. now apply F.
    + injection I as <- <-. rewrite Forall_forall in GQ. now apply GQ.
  - intros n N. apply OT. intros s I X. apply (N s); [|apply backup_name_full; exact X]. change (In s ([t; t2] ++ flat_map snd rs')). destruct I as [<- |I].
    + rewrite ER. apply in_or_app. right. now left.
    + apply in_map_iff in I as ([x gg] & <- & I). apply passed_in. now apply (OLD x gg).
Qed.
Print Assumptions C88_own_period_partial.

(** Several processes, one after the other: the same if none of them starts at the very end of a period. *)
Definition so_far (c : roll_conf) (d0 : dir) (R : list str) (all : list (str * list str)) (d : dir) : Prop :=
  (R = [] /\ all = [] /\ d = d0) \/ exists gs s' g, at_rest c d0 R gs s' g d /\ concat (map snd gs) ++ g = all.
Lemma so_far_turns P c p d0 f rss f' : rc_kind c = ByTime p -> rc_fullName c = true -> rc_maxRolls c <= 0 -> turns P c smooth f rss f' ->
  Forall starts_in_one rss -> forall R all, so_far c d0 R all (f_dir f) ->
  (forall s, In s (R ++ flat_map snd (concat rss)) -> s <> [] /\ d0 (full c s) = None) -> never_returns (R ++ flat_map snd (concat rss)) ->
  so_far c d0 (R ++ flat_map snd (concat rss)) (all ++ concat rss) (f_dir f').
Proof.
  intros K FN MR TU. induction TU as [f|f rs f1 w1 rss f2 TI TU IH]; intros SO R all SF HR NR; cbn [concat flat_map] in *; [now rewrite !app_nil_r|].
  inversion SO as [|? ? S1 S2]; subst. rewrite flat_map_app, app_assoc in *. rewrite app_assoc.
  assert (HR1 : forall s, In s (R ++ flat_map snd rs) -> s <> [] /\ d0 (full c s) = None) by (intros s I; apply HR; apply in_or_app; now left).
  pose proof (never_prefix _ _ NR) as NR1.
  apply IH; auto. clear IH HR NR S2 SO. inversion TI as [|? ? b tr g1 v1 k err rs' ? ? RN G TI1]; subst; [cbn; now rewrite !app_nil_r|].
  destruct (S1 _ _ eq_refl) as (t & TT). cbn [flat_map snd] in *. rewrite app_assoc in HR1, NR1 |- *.
  assert (B : exists gs' q1 s1 gg, by_name c d0 (R ++ times tr) gs' q1 s1 gg v1 (f_dir g1) /\ concat (map snd gs') ++ gg = all ++ [(b, times tr)]).
  { destruct SF as [(-> & -> & D0)|(gs & s' & g & AR & <-)].
    - destruct (first_runs P c p K FN b f tr g1 v1 k err RN G) as (t1 & t2 & T & A1 & A2 & A3 & A4 & _). rewrite T in *. cbn [app] in *.
      destruct A4 as [A4 A5]; [rewrite D0; apply HR1; cbn; auto|]. exists [], t1, t2, [(b, [t1; t2])]. split; [|reflexivity].
      split; [exact A1|]. split; [exact A2|]. split; [exact A3|]. split.
      { exists [t1]. split; [reflexivity|]. destruct (str_eqb_spec t2 t1) as [E|N]; [now left|right]. split; [exact N|]. now exists []. }
      split; [constructor; [cbn; auto|constructor]|]. split; [cbn; now rewrite app_nil_r|]. split; [intros ? ? []|]. split; [constructor|]. split; [intros []|].
      intros n N. rewrite <- D0. apply A5. apply N. now left.
    - apply (rest_first P c p K FN d0 R gs s' g f b tr g1 v1 k err t AR RN G TT); [intros s I; apply HR1; apply in_or_app; now left|exact (never_prefix _ _ NR1)]. }
  destruct B as (gs & q & s' & g & B & E).
  destruct (by_name_timed P c p K FN MR d0 g1 v1 rs' f1 w1 TI1 _ gs q s' g B HR1 NR1) as (gs2 & q2 & s2 & g2 & B2 & E2).
  right. exists gs2, s2, g2. split; [exact (by_name_rest c _ _ _ _ _ _ _ _ B2)|]. rewrite E2, E, <- app_assoc. reflexivity.
Qed.
Theorem C88_restarts_partial : forall P c p f rss f', rc_kind c = ByTime p -> rc_fullName c = true -> rc_maxRolls c <= 0 ->
  turns P c smooth f rss f' -> Forall starts_in_one rss ->
  (forall s n, In s (flat_map snd (concat rss)) -> s <> [] /\ (backup_name c s n -> f_dir f n = None)) -> never_returns (flat_map snd (concat rss)) ->
  exists gs : list (str * list (str * list str)), concat (map snd gs) = concat rss /\ NoDup (map fst gs) /\
    (forall s g n, In (s, g) gs -> backup_name c s n -> f_dir f' n = Some (Reg (concat (map fst g)))) /\
    (forall s g r, In (s, g) gs -> In r g -> In s (snd r)) /\
    forall n, (forall s, In s (flat_map snd (concat rss)) -> ~ backup_name c s n) -> f_dir f' n = f_dir f n.
Proof.
  intros P c p f rss f' K FN MR TU SO HR NR.
  assert (HR' : forall s, In s ([] ++ flat_map snd (concat rss)) -> s <> [] /\ f_dir f (full c s) = None).
  { intros s I. destruct (HR s (full c s) I) as [X Y]. split; [exact X|]. apply Y. now apply backup_name_full. }
  destruct (so_far_turns P c p (f_dir f) f rss f' K FN MR TU SO [] [] (or_introl (conj eq_refl (conj eq_refl eq_refl))) HR' NR) as [(_ & E & D)|(gs & s' & g & ((R1 & ER) & GQ & D & OLD & ND & OT) & E)]; cbn [app] in *.
  { rewrite E, D. exists []. split; [reflexivity|]. split; [constructor|]. split; [intros ? ? ? []|]. split; [intros ? ? ? []|reflexivity]. }
  exists (gs ++ [(s', g)]). split; [rewrite map_app, concat_app; cbn; rewrite app_nil_r; exact E|]. rewrite map_app. cbn [map fst].
  assert (NI : ~ In s' (map fst gs)).
  { intros I. apply in_map_iff in I as ([s gg] & <- & I). destruct (OLD s gg I) as [X _]. cbn [fst] in *. rewrite ER in X. apply (passed_fresh s R1); [|exact X]. rewrite <- ER. exact NR. }
  split; [now apply NoDup_snoc'|]. split; [|split].
  - intros s gg n I BN. apply backup_name_full in BN. subst n. apply in_app_or in I as [I|[I|[]]]; [now apply (OLD s gg)|injection I as <- <-; exact D].
  - intros s gg r I J. apply in_app_or in I as [I|[I|[]]].
    + destruct (OLD s gg I) as (_ & _ & F). rewrite Forall_forall in F. now apply F.
    + injection I as <- <-. rewrite Forall_forall in GQ. now apply GQ.
  - intros n N. apply OT. intros s I X. apply (N s); [|apply backup_name_full; exact X]. destruct I as [<- |I].
    + rewrite ER. apply in_or_app. right. now left.
    + apply in_map_iff in I as ([x gg] & <- & I). apply passed_in. now apply (OLD x gg).
Qed.
Print Assumptions C88_restarts_partial.

(** Hours of a day, with full names. *)
Definition named (mr : Z) : roll_conf := {|
  rc_kind := ByTime ($"15"); rc_dir := $"logs/"; rc_file := $"a"; rc_archive := ArchiveNone; rc_archivePath := $"logs/"; rc_archiveExploded := false;
  rc_fullName := true; rc_maxRolls := mr; rc_nameMode := Postfix;
  rc_dirPerm := defaultDirectoryPermissions; rc_filePerm := defaultFilePermissions; rc_backPerm := defaultBackupPermissions |}.
(** The hour changes while the second file is being made: it is first a.03 and then gets the name a.02. *)
Example C88_ex : exists f' w' rs, timed hourP (named 0) smooth (fs_of (sim_of [($"x", Dir)] ADir [] [$"01"; $"01"; $"01"; $"02"; $"02"; $"03"; $"03"; $"03"; $"03"])) w_new rs f' w' /\
  rs = [($"u;", [$"01"; $"01"]); ($"v;", [$"01"]); ($"w;", [$"02"; $"02"; $"03"]); ($"x;", [$"03"; $"03"; $"03"])] /\
  map (f_dir f') [$"a"; $"a.01"; $"a.02"; $"a.03"] = [None; Some (Reg ($"u;v;")); Some (Reg ($"w;")); Some (Reg ($"x;"))] /\
  never_returns (flat_map snd rs).
Proof.
  destruct (tshow_timed hourP (named 0) [$"u;"; $"v;"; $"w;"; $"x;"]
    (sim_of [($"x", Dir)] ADir [] [$"01"; $"01"; $"01"; $"02"; $"02"; $"03"; $"03"; $"03"; $"03"]) [$"a"; $"a.01"; $"a.02"; $"a.03"]
    [($"u;", [$"01"; $"01"]); ($"v;", [$"01"]); ($"w;", [$"02"; $"02"; $"03"]); ($"x;", [$"03"; $"03"; $"03"])]
    [None; Some (Reg ($"u;v;")); Some (Reg ($"w;")); Some (Reg ($"x;"))]) as (f' & w' & D & E).
  - apply sim_finite. repeat constructor; intros [].
  - vm_compute. reflexivity.
  - exists f', w'. eexists. split; [exact D|]. split; [reflexivity|]. split; [exact E|]. apply hours_in_order.
    + vm_compute. repeat constructor; discriminate.
    + repeat constructor; cbn; tauto.
Qed.
(** Two processes in the same hour: the second adds to the file of the first. *)
Fixpoint tuexecs (P : tparse) (c : roll_conf) (ps : list (list str)) (s : sim) : option (list (list (str * list str)) * sim * list (fsop * fsres)) :=
  match ps with
  | [] => Some ([], s, [])
  | bs :: ps' =>
    match texecs P c w_new bs s with
    | None => None
    | Some (l, _, s1, tr) => match tuexecs P c ps' s1 with None => None | Some (ls, s2, tr2) => Some (l :: ls, s2, tr ++ tr2) end
    end
  end.
Lemma texecs_finite P c bs : forall w s l w' s' tr, finite (s_dir s) (s_names s) -> texecs P c w bs s = Some (l, w', s', tr) -> finite (s_dir s') (s_names s').
Proof.
  induction bs as [|b bs IH]; cbn; intros w s l w' s' tr F H; [now inversion H; subst|].
  destruct (exec (rw_Write P c w b) s) as [[[[w1 [k e]] tr1] s1]|] eqn:E; [|discriminate].
  destruct (texecs P c w1 bs s1) as [[[[l2 w2] s2] tr2]|] eqn:E2; [|discriminate]. inversion H; subst.
  apply exec_sound in E as [R F1]; [|exact F]. exact (IH _ _ _ _ _ _ F1 E2).
Qed.
Lemma tuexecs_sound P c ps : forall s ls s' tr, finite (s_dir s) (s_names s) -> tuexecs P c ps s = Some (ls, s', tr) -> Forall smooth tr ->
  turns P c smooth (fs_of s) ls (fs_of s').
Proof.
  induction ps as [|bs ps IH]; cbn; intros s ls s' tr F H G; [inversion H; subst; constructor|].
  destruct (texecs P c w_new bs s) as [[[[l w1] s1] tr1]|] eqn:E; [|discriminate].
  destruct (tuexecs P c ps s1) as [[[ls2 s2] tr2]|] eqn:E2; [|discriminate]. inversion H; subst. apply Forall_app in G as [G1 G2].
  apply (tu_one _ _ _ _ _ (fs_of s1) w1); [exact (texecs_sound P c _ _ _ _ _ _ _ _ F E G1)|].
  exact (IH _ _ _ _ (texecs_finite _ _ _ _ _ _ _ _ _ F E) E2 G2).
Qed.
Definition tushow (P : tparse) (c : roll_conf) (ps : list (list str)) (s : sim) (names : list str) :=
  match tuexecs P c ps s with Some (ls, s', tr) => Some (ls, forallb smoothb tr, map (s_dir s') names) | None => None end.
Lemma tushow_turns P c ps s names ls es : finite (s_dir s) (s_names s) -> tushow P c ps s names = Some (ls, true, es) ->
  exists f', turns P c smooth (fs_of s) ls f' /\ map (f_dir f') names = es.
Proof.
  intros F H. unfold tushow in H. destruct (tuexecs P c ps s) as [[[l' s'] tr]|] eqn:E; [|discriminate].
  injection H as <- S <-. exists (fs_of s'). split; [|reflexivity]. apply (tuexecs_sound P c _ _ _ _ _ F E). now apply smoothb_ok.
Qed.
Example C88_restarts_ex : exists f' rss, turns hourP (named 0) smooth (fs_of (sim_of [] ADir [] [$"01"; $"01"; $"01"; $"01"; $"01"; $"02"; $"02"; $"02"])) rss f' /\
  rss = [[($"u;", [$"01"; $"01"]); ($"v;", [$"01"])]; [($"w;", [$"01"; $"01"]); ($"x;", [$"02"; $"02"; $"02"])]] /\ Forall starts_in_one rss /\
  map (f_dir f') [$"a"; $"a.01"; $"a.02"] = [None; Some (Reg ($"u;v;w;")); Some (Reg ($"x;"))] /\ never_returns (flat_map snd (concat rss)).
Proof.
  destruct (tushow_turns hourP (named 0) [[$"u;"; $"v;"]; [$"w;"; $"x;"]] (sim_of [] ADir [] [$"01"; $"01"; $"01"; $"01"; $"01"; $"02"; $"02"; $"02"]) [$"a"; $"a.01"; $"a.02"]
    [[($"u;", [$"01"; $"01"]); ($"v;", [$"01"])]; [($"w;", [$"01"; $"01"]); ($"x;", [$"02"; $"02"; $"02"])]]
    [None; Some (Reg ($"u;v;w;")); Some (Reg ($"x;"))]) as (f' & D & E).
  - exact (sim_finite [] (NoDup_nil _)).
  - vm_compute. reflexivity.
  - exists f'. eexists. split; [exact D|]. split; [reflexivity|]. split.
    { repeat constructor; intros r0 rest X; injection X as <- _; exists ($"01"); repeat constructor. }
    split; [exact E|]. apply hours_in_order; [vm_compute; repeat constructor; discriminate|repeat constructor; cbn; tauto].
Qed.
(** A second process loses what the first has written in the hour: it starts in that hour, opens its file in the next, and
    gives this file the name of the hour in which it started. *)
Theorem C88_restart_loses_refuted : exists P c p f hs R f' w', rc_kind c = ByTime p /\ rc_fullName c = true /\ rc_maxRolls c <= 0 /\ rc_archive c = ArchiveNone /\
  (forall n, f_dir f n = None) /\ dated P c smooth f w_new hs R f' w' /\ never_returns R /\ (forall s, In s R -> s <> []) /\
  hs = [HWrite ($"u;") 2 false; HRestart; HWrite ($"v;") 2 false; HWrite ($"w;") 2 false] /\ R = [$"01"; $"01"; $"01"; $"02"; $"02"; $"02"; $"02"] /\
  map (f_dir f') [$"a"; $"a.01"; $"a.02"] = [None; Some (Reg ($"v;")); Some (Reg ($"w;"))].
Proof.
  destruct (dshow_dated hourP (named 0) [SWrite ($"u;"); SRestart; SWrite ($"v;"); SWrite ($"w;")]
    (sim_of [] ADir [] [$"01"; $"01"; $"01"; $"02"; $"02"; $"02"; $"02"]) [$"a"; $"a.01"; $"a.02"]
    [HWrite ($"u;") 2 false; HRestart; HWrite ($"v;") 2 false; HWrite ($"w;") 2 false] [$"01"; $"01"; $"01"; $"02"; $"02"; $"02"; $"02"]
    [None; Some (Reg ($"v;")); Some (Reg ($"w;"))]) as (f' & w' & D & E).
  - exact (sim_finite [] (NoDup_nil _)).
  - vm_compute. reflexivity.
  - exists hourP, (named 0), ($"15"), (fs_of (sim_of [] ADir [] [$"01"; $"01"; $"01"; $"02"; $"02"; $"02"; $"02"])). eexists. eexists. exists f', w'.
    do 4 (split; [reflexivity || (cbn; lia)|]). split; [reflexivity|]. split; [exact D|]. split.
    + apply hours_in_order; [vm_compute; repeat constructor; discriminate|repeat constructor; cbn; tauto].
    + split; [|auto]. intros s I. cbn in I. intuition (subst; discriminate).
Qed.
Print Assumptions C88_restart_loses_refuted.
(** One backup may be kept, none is: the log file is itself one of the files listed, so the new backup counts twice. *)
Theorem C88_retention_refuted : exists P c p f rs f' w', rc_kind c = ByTime p /\ rc_fullName c = true /\ rc_maxRolls c = 1 /\ rc_archive c = ArchiveNone /\
  (forall n, f_dir f n = None) /\ timed P c smooth f w_new rs f' w' /\ never_returns (flat_map snd rs) /\
  rs = [($"u;", [$"01"; $"01"]); ($"v;", [$"02"; $"02"; $"02"])] /\ map (f_dir f') [$"a"; $"a.01"; $"a.02"] = [None; None; Some (Reg ($"v;"))].
Proof.
  destruct (tshow_timed hourP (named 1) [$"u;"; $"v;"]
    (sim_of [] ADir [] [$"01"; $"01"; $"02"; $"02"; $"02"]) [$"a"; $"a.01"; $"a.02"]
    [($"u;", [$"01"; $"01"]); ($"v;", [$"02"; $"02"; $"02"])] [None; None; Some (Reg ($"v;"))]) as (f' & w' & D & E).
  - exact (sim_finite [] (NoDup_nil _)).
  - vm_compute. reflexivity.
  - exists hourP, (named 1), ($"15"), (fs_of (sim_of [] ADir [] [$"01"; $"01"; $"02"; $"02"; $"02"])). eexists. exists f', w'.
    do 4 (split; [reflexivity|]). split; [reflexivity|]. split; [exact D|]. split; [|auto].
    apply hours_in_order; [vm_compute; repeat constructor; discriminate|repeat constructor; cbn; tauto].
Qed.
Print Assumptions C88_retention_refuted.

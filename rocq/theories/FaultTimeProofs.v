(** Proofs about files rolled by time when file operations fail (C85). *)
From Verif Require Import GoStr Strconv StrconvProofs ConfModel RollModel RollSpec RollProofs RollSizeProofs RollRunProofs RollDirProofs RollTimeProofs AsyncSpec FaultSpec.
Local Open Scope Z_scope.

Definition shut (w : wst) : Prop := forall n, w_file w <> Some (n, true).
Lemma hist_times P c f tr f' h : runs (getSortedLogHistory P c) f tr f' h -> times tr = [].
Proof.
  intros R. apply no_now_times. refine (uses_runs (fun o => match o with ONow _ => False | _ => True end) _ _ _ _ _ _ R). unfold getSortedLogHistory, getDirFilePaths.
  repeat first [apply uses_bind; [|let x := fresh "a" in intros x]
    | apply uses_op; exact I
    | apply us_done
    | match goal with |- uses _ (match ?x with _ => _ end) => destruct x end ].
Qed.
Lemma roll_fails P c p w f tr f' w' : rc_kind c = ByTime p -> runs (roll P c w) f tr f' (w', true) ->
  shut w' /\ ((w_period w' = w_period w /\ times tr = []) \/ (times tr = [w_period w'] /\ exists n, w_file w = Some (n, true))).
Proof.
  intros K H. unfold roll in H. destruct (w_file w) as [[n [|]]|] eqn:WF.
  2: { apply runs_goes, goes_done in H as (-> & -> & [X|X]); inversion X; subst. split; [intros m; congruence|]. now left. }
  2: { apply runs_goes, goes_done in H as (-> & -> & [X|X]); inversion X; subst. split; [intros m; congruence|]. now left. }
  apply runs_bind in H as (tr1 & f1 & r & tr2 & -> & H1 & H). apply runs_op in H1 as [-> E1].
  assert (CL : forall g t w1, runs (Done (set_file w (Some (n, false)), true)) g t f' (w1, true) ->
    shut w1 /\ w_period w1 = w_period w /\ times t = []).
  { intros g t w1 D. apply runs_goes, goes_done in D as (-> & -> & [X|X]); inversion X; subst. split; [intros m; cbn; congruence|]. split; reflexivity. }
  destruct r; try (apply CL in H as (A & B & D); rewrite times_app, D; split; [exact A|left; auto]).
  apply runs_bind in H as (tr3 & f2 & h & tr4 & -> & H2 & H). apply hist_times in H2.
  destruct h as [h|].
  2: { apply runs_goes, goes_done in H as (-> & -> & [X|X]); inversion X; subst. rewrite !times_app, H2. split; [intros m; cbn; congruence|]. left. split; reflexivity. }
  unfold getNewHistoryRollFileName, now in H. rewrite K in H.
  apply runs_bind in H as (tr5 & f3 & [w1 rn] & tr6 & -> & H3 & H).
  apply runs_bind in H3 as (tr7 & f4 & s & tr8 & -> & H3 & H4). apply runs_goes, goes_done in H4 as (-> & -> & [X|X]); inversion X; subst.
  apply runs_bind in H3 as (tr9 & f5 & r & tr10 & -> & H3 & H5). apply runs_op in H3 as [-> E3].
  apply runs_goes, goes_done in H5 as (-> & -> & [X'|X']); inversion X'; subst. clear X X'.
  apply runs_bind in H as (tr11 & f6 & r2 & tr12 & -> & H6 & H). apply runs_op in H6 as [-> E6].
  inversion E3; subst.
  assert (DN : forall g t, runs (Done (set_period (set_file w None) s, true)) g t f' (w', true) -> shut w' /\ times t = [] /\ w_period w' = s).
  { intros g t D. apply runs_goes, goes_done in D as (-> & -> & [Y|Y]); inversion Y; subst. split; [intros m; cbn; congruence|]. split; reflexivity. }
  destruct r2; try (apply DN in H as (A & B & D); split; [exact A|]; right; split; [rewrite !times_app, H2, B, D; reflexivity|eauto]).
  apply runs_bind in H as (tr13 & f7 & r3 & tr14 & -> & _ & H). apply runs_bind in H as (tr15 & f8 & u & tr16 & -> & _ & H).
  apply runs_goes, goes_done in H as (_ & _ & [Y|Y]); inversion Y.
Qed.
(** One write, any faults. *)
Lemma time_write P c p w b f tr f' w' k e : rc_kind c = ByTime p -> rc_fullName c = false -> w_ok c w ->
  runs (rw_Write P c w b) f tr f' (w', (k, e)) ->
  exists s ts, times tr = s :: ts /\ w_ok c w' /\
   (((w_period w = [] \/ s = w_period w) /\ ts = [] /\ w_period w' = s /\ (forall n, n <> rc_file c -> f_dir f' n = f_dir f n) /\
       grown b k (f_dir f (rc_file c)) (f_dir f' (rc_file c))) \/
    (w_period w <> [] /\ s <> w_period w /\ f' = f /\ k = 0%nat /\ shut w' /\
       ((ts = [] /\ w_period w' = w_period w) \/ (ts = [w_period w'] /\ w_file w = Some (rc_file c, true)))) \/
    (w_period w <> [] /\ s <> w_period w /\ w_file w = Some (rc_file c, true) /\ ts = [w_period w'] /\ exists h e0 f1,
       f_dir f (rc_file c) = Some e0 /\
       swept c (old_rolls c (map (full c) (h ++ [w_period w]))) (moved (f_dir f) (rc_file c) (full c (w_period w)) e0) (f_dir f1) /\
       (forall n, n <> rc_file c -> f_dir f' n = f_dir f1 n) /\ grown b k (f_dir f1 (rc_file c)) (f_dir f' (rc_file c)))).
Proof.
  intros K FN OK H. assert (PL : plain c) by now left. rewrite write_eq in H.
  apply runs_bind in H as (tr0 & f0 & [w0 need] & tr1 & -> & H0 & H). apply runs_goes, needs_goes in H0 as (-> & [X|(w0' & need' & X & NE)]); [discriminate|].
  injection X as <- <-. pose proof (needs_ok _ _ _ _ _ NE OK) as OK0. destruct NE as (N1 & N2 & N3 & NE). rewrite K in NE. destruct NE as (s & TS & _ & NE).
  assert (FIN : forall w1 g t, w_ok c w1 -> runs (finish c w1 b) g t f' (w', (k, e)) -> w_ok c w' /\ times t = [] /\ w_period w' = w_period w1 /\
      (forall n, n <> rc_file c -> f_dir f' n = f_dir g n) /\ grown b k (f_dir g (rc_file c)) (f_dir f' (rc_file c))).
  { intros w1 g t OK1 R. pose proof (finish_times _ _ _ _ _ _ _ PL R) as T. apply runs_goes, finish_goes in R as (A & (k' & G & W) & [X|(w2 & k2 & e2 & X & OK2 & WP & _)]); auto; [discriminate|].
    rewrite (W _ _ _ eq_refl). injection X as -> -> ->. auto 10. }
  apply runs_bind in H as (tr2 & f1 & [w1 err] & tr3 & -> & H1 & H). rewrite !times_app, TS. cbn [app].
  exists s, (times tr2 ++ times tr3). split; [reflexivity|].
  destruct need.
  - destruct NE as [(_ & _ & X)|(NP & -> & ND)]; [discriminate|]. assert (NS : s <> w_period w) by (intros ->; now rewrite str_eqb_refl in ND).
    pose proof H1 as H1'. apply runs_goes, roll_goes in H1 as [[-> HX]|(h & rname & e0 & A1 & A2 & A3 & A4 & A5 & A6 & A7 & A8)]; [| |exact OK].
    + destruct HX as [HX|(w2 & HX & OK2 & _)]; [discriminate|]. injection HX as -> ->.
      apply runs_goes, goes_done in H as (-> & -> & [X|X]); inversion X; subst. split; [exact OK2|]. right; left.
      destruct (roll_fails P c p w f tr2 f w2 K H1') as [SH Q]. cbn [times]. rewrite app_nil_r.
      split; [exact NP|]. split; [exact NS|]. split; [reflexivity|]. split; [reflexivity|]. split; [exact SH|].
      destruct Q as [[Q1 Q2]|[Q1 (n & Q2)]]; [left; auto|right]. split; [exact Q1|]. rewrite Q2. f_equal. f_equal. exact (proj1 (OK _ _ Q2)).
    + destruct A8 as [A8|(w2 & A8 & B1 & B2 & B3)]; [discriminate|]. injection A8 as -> ->. rewrite K in B3.
      destruct (FIN _ _ _ (w_ok_none c w2 B1) H) as (OK' & T & WP & A & G). split; [exact OK'|]. right; right. rewrite T, B3, WP, app_nil_r.
      split; [exact NP|]. split; [exact NS|]. split; [exact A1|]. split; [reflexivity|]. unfold new_name in A3. rewrite K in A3. subst rname.
      exists h, e0, f1. auto.
  - apply runs_goes, goes_done in H1 as (-> & -> & [X|X]); inversion X; subst.
    destruct (FIN _ _ _ OK0 H) as (OK' & T & WP & A & G). split; [exact OK'|]. left. rewrite T. cbn.
    destruct NE as [(A1 & A2 & _)|(A1 & -> & A3)].
    + split; [now left|]. split; [reflexivity|]. split; [congruence|]. auto.
    + destruct (str_eqb_spec s (w_period w)) as [-> |Y]; [|discriminate]. split; [now right|]. split; [reflexivity|]. split; [congruence|]. auto.
Qed.

(** * Many writes *)
Lemma sublist_last {A} (a b : list A) q : sublist a (b ++ [q]) -> ~ In q a -> sublist a b.
Proof.
  revert a. induction b as [|x b IH]; cbn; intros a H N.
  - inversion H as [| |? ? ? H2]; subst; [constructor| |].
    + exfalso. apply N. now left.
    + inversion H2; subst; constructor.
  - inversion H as [|? ? ? H2|? ? ? H2]; subst; [constructor| |].
    + constructor. apply IH; [exact H2|]. intros I. apply N. now right.
    + constructor. now apply IH.
Qed.
Lemma sublist_more {A} (a b d : list A) : sublist a b -> sublist a (b ++ d).
Proof. induction 1; cbn; now constructor. Qed.
Lemma sublist_snoc {A} (a b : list A) q : sublist a b -> sublist (a ++ [q]) (b ++ [q]).
Proof.
  induction 1 as [b| |]; cbn; [|now constructor|now constructor].
  induction b as [|x b IH]; cbn; [repeat constructor|]. now constructor.
Qed.
Lemma sublist_in {A} (a b : list A) x : sublist a b -> In x a -> In x b.
Proof. induction 1; cbn; [tauto| |]; intuition. Qed.
Lemma never_back l1 q l2 s l3 t : never_returns (l1 ++ q :: l2 ++ s :: l3 ++ [t]) -> s <> q -> t <> q.
Proof.
  intros N D ->. specialize (N l1 q (l2 ++ s :: l3) []). rewrite <- app_assoc in N. cbn [app] in N. specialize (N eq_refl).
  apply Forall_app in N as [_ N]. inversion N; subst. contradiction.
Qed.
Lemma NoDup_snoc' {A} (l : list A) q : NoDup l -> ~ In q l -> NoDup (l ++ [q]).
Proof.
  induction 1 as [|x l NI ND IH]; cbn; intros N; [repeat constructor; intros []|].
  constructor; [|apply IH; tauto]. intros I. apply in_app_or in I as [I|[I|[]]]; [contradiction|]. subst. apply N. now left.
Qed.

(** Another reading came after this one. *)
Definition passed (t : str) (R : list str) : Prop := exists R1 R2 s R3, R = R1 ++ t :: R2 ++ s :: R3 /\ s <> t.
Lemma passed_more t R R' : passed t R -> passed t (R ++ R').
Proof. intros (R1 & R2 & s & R3 & -> & N). exists R1, R2, s, (R3 ++ R'). split; [|exact N]. cbn. rewrite <- !app_assoc. cbn. now rewrite <- !app_assoc. Qed.
Lemma passed_now R q s R' : s <> q -> passed q ((R ++ [q]) ++ s :: R').
Proof. intros N. exists R, [], s, R'. split; [|exact N]. now rewrite <- app_assoc. Qed.
Lemma passed_back t R R' : passed t R -> never_returns (R ++ t :: R') -> False.
Proof.
  intros (R1 & R2 & s & R3 & -> & N) NR. apply (never_back R1 t R2 s R3 t); [|exact N|reflexivity].
  apply (never_prefix _ R'). cbn in *. repeat (rewrite <- app_assoc in *; cbn [app] in *). exact NR.
Qed.
Lemma passed_last t R : passed t (R ++ [t]) -> passed t R.
Proof.
  intros (R1 & R2 & s & R3 & E & N). destruct R3 as [|a R3 _] using rev_ind.
  - replace (R1 ++ t :: R2 ++ [s]) with ((R1 ++ t :: R2) ++ [s]) in E by (now rewrite <- app_assoc). apply app_inj_tail in E as [_ E]. now symmetry in E.
  - replace (R1 ++ t :: R2 ++ s :: R3 ++ [a]) with ((R1 ++ t :: R2 ++ s :: R3) ++ [a]) in E by (repeat (rewrite <- app_assoc; cbn); reflexivity).
    apply app_inj_tail in E as [-> _]. now exists R1, R2, s, R3.
Qed.
Lemma passed_fresh t R : never_returns (R ++ [t]) -> ~ passed t (R ++ [t]).
Proof. intros NR X. apply passed_last in X. exact (passed_back _ _ _ X NR). Qed.

(** A write says no more than it had, and all of it if there was no error. *)
Lemma said P c w b f tr f' w' k e : rc_fullName c = false -> w_ok c w -> runs (rw_Write P c w b) f tr f' (w', (k, e)) ->
  (k <= length b)%nat /\ (e = false -> k = length b).
Proof.
  intros FN OK R. assert (PL : plain c) by now left. apply runs_goes, write_goes in R as [[_ X]|(tr0 & tr1 & w0 & need & -> & N & G)]; [discriminate| |exact OK].
  pose proof (needs_ok _ _ _ _ _ N OK) as OK0.
  assert (FIN : forall w1 g t, w_ok c w1 -> goes (finish c w1 b) g t f' (Some (w', (k, e))) -> (k <= length b)%nat /\ (e = false -> k = length b)).
  { intros w1 g t OK1 G1. apply finish_goes in G1 as (_ & (k' & (KL & _) & W) & [X|(w2 & k2 & e2 & X & _ & _ & _ & F)]); auto; [discriminate|].
    rewrite (W _ _ _ eq_refl) in *. injection X as -> -> ->. split; [exact KL|]. intros E. now apply F. }
  destruct G as [[-> G]|[-> [[-> G]|(s & rname & e0 & [[_ X]|(f1 & w1 & tr2 & tr3 & -> & _ & _ & W1 & _ & _ & G)])]]].
  - exact (FIN _ _ _ OK0 G).
  - destruct G as [X|(w2 & X & _)]; [discriminate|]. injection X as -> -> ->. split; [lia|discriminate].
  - discriminate.
  - exact (FIN _ _ _ (w_ok_none c w1 W1) G).
Qed.

Section Time.
Variables (P : tparse) (c : roll_conf) (p : str).
Hypothesis K : rc_kind c = ByTime p.
Hypothesis FN : rc_fullName c = false.
(** [R]: the readings so far; [bs]: the backups made, with their periods; [cur]: the log file. A writer is new, or at the
    latest reading, or (after a failed close or listing) behind it with no open file. *)
Definition at_time (R : list str) (w : wst) : Prop :=
  w_ok c w /\ (w_period w = [] \/ (exists R', R = R' ++ [w_period w]) \/ (passed (w_period w) R /\ shut w)).
Definition kept_by_time (R : list str) (bs : list (str * str)) (cur : option str) (d : dir) : Prop :=
  d (rc_file c) = option_map Reg cur /\ sublist (map fst bs) R /\ NoDup (map fst bs) /\
  forall s y, In (s, y) bs -> passed s R /\ (d (full c s) = Some (Reg y) \/ (0 < rc_maxRolls c /\ d (full c s) = None)).
Lemma kept_same R R' bs cur cur' d d' : kept_by_time R bs cur d -> (forall n, n <> rc_file c -> d' n = d n) -> d' (rc_file c) = option_map Reg cur' ->
  kept_by_time (R ++ R') bs cur' d'.
Proof.
  intros (_ & SL & ND & BK) OT D. split; [exact D|]. split; [now apply sublist_more|]. split; [exact ND|].
  intros s y I. destruct (BK s y I) as [A B]. split; [now apply passed_more|]. rewrite OT by apply full_not_file. exact B.
Qed.
Lemma grown_reg b k o d : grown b k (option_map Reg o) d -> (k <= length b)%nat /\ exists o', d = option_map Reg o' /\ bytes o' = bytes o ++ firstn k b.
Proof.
  intros [KL [[-> [-> |X]]|[[X ->]|(s & X & ->)]]]; (split; [exact KL|]).
  - exists o. split; [reflexivity|]. cbn. now rewrite app_nil_r.
  - destruct o; discriminate.
  - destruct o; [discriminate|]. now exists (Some (firstn k b)).
  - destruct o; [|discriminate]. injection X as ->. now exists (Some (s ++ firstn k b)).
Qed.
Lemma kept_roll R' s ts bs y0 d h d1 per :
  kept_by_time (R' ++ [per]) bs (Some y0) d -> s <> per ->
  rc_file c <> tmp_name \/ rc_archive c = ArchiveNone ->
  (forall t, In t ((R' ++ [per]) ++ s :: ts) -> t <> [] /\ (rc_archive c = ArchiveNone \/ full c t <> tmp_name)) ->
  never_returns ((R' ++ [per]) ++ s :: ts) ->
  swept c (old_rolls c (map (full c) (h ++ [per]))) (moved d (rc_file c) (full c per) (Reg y0)) d1 ->
  kept_by_time ((R' ++ [per]) ++ s :: ts) (bs ++ [(per, y0)]) None d1.
Proof.
  intros (CUR & SL & ND & BK) SN TF NE NR SW.
  assert (NI : ~ In per (map fst bs)).
  { intros I. apply in_map_iff in I as ([t y] & <- & I). destruct (BK t y I) as [PA _]. apply (passed_fresh t R'); [|exact PA]. exact (never_prefix _ _ NR). }
  pose proof (sublist_last _ _ _ SL NI) as SL'.
  split.
  { destruct (SW (rc_file c)) as [X|[[_ X]|(NA & X & _)]].
    - rewrite X. unfold moved. rewrite dput_other by (intros Y; now apply (full_not_file c per)). apply dput_same.
    - exact X.
    - destruct TF; contradiction. }
  rewrite map_app. cbn [map fst]. split; [apply sublist_more; now apply sublist_snoc|]. split; [now apply NoDup_snoc'|].
  intros t y I. split.
  { apply in_app_or in I as [I|[I|[]]]; [apply passed_more; now apply (BK t y)|injection I as <- <-; now apply passed_now]. }
  assert (MV : moved d (rc_file c) (full c per) (Reg y0) (full c t) = Some (Reg y) \/
               (0 < rc_maxRolls c /\ moved d (rc_file c) (full c per) (Reg y0) (full c t) = None)).
  { unfold moved. apply in_app_or in I as [I|[I|[]]].
    - rewrite !dput_other; [now apply BK|apply full_not_file|]. intros X. apply full_inj in X. subst t. apply NI. now apply (in_map fst) in I.
    - injection I as <- <-. left. apply dput_same. }
  assert (IT : In t (R' ++ [per])) by (apply in_app_or in I as [I|[I|[]]]; [apply (in_map fst) in I; apply in_or_app; left; exact (sublist_in _ _ _ SL' I)|injection I as <- _; apply in_or_app; right; now left]).
  destruct (SW (full c t)) as [X|[[J X]|(NA & X & _)]].
  - rewrite X. exact MV.
  - right. split; [|exact X]. unfold old_rolls in J. destruct (Z.leb_spec (rc_maxRolls c) 0); [destruct J|lia].
  - exfalso. destruct (NE t) as [_ [Y|Y]]; [apply in_or_app; now left|contradiction|contradiction].
Qed.
Lemma kept_write R bs cur f w b tr f' w' k e : at_time R w -> kept_by_time R bs cur (f_dir f) -> runs (rw_Write P c w b) f tr f' (w', (k, e)) ->
  rc_file c <> tmp_name \/ rc_archive c = ArchiveNone ->
  (forall s, In s (R ++ times tr) -> s <> [] /\ (rc_archive c = ArchiveNone \/ full c s <> tmp_name)) ->
  never_returns (R ++ times tr) ->
  exists bs' cur', at_time (R ++ times tr) w' /\ kept_by_time (R ++ times tr) (bs ++ bs') cur' (f_dir f') /\
    concat (map snd bs') ++ bytes cur' = bytes cur ++ firstn k b.
Proof.
  intros [OK ST] KT RN TF NE NR. pose proof (proj1 KT) as CUR.
  destruct (time_write P c p w b f tr f' w' k e K FN OK RN) as (s & ts & ET & OK' & CASES). rewrite ET in *.
  destruct CASES as [(WP & -> & WP' & OT & G)|[(WPN & SN & -> & -> & SH & Q)|(WPN & SN & WF & -> & h & e0 & f1 & E0 & SW & OT & G)]].
  - rewrite CUR in G. apply grown_reg in G as (KL & cur' & D & B). exists [], cur'. rewrite app_nil_r. split; [|split; [|exact B]].
    + split; [exact OK'|]. right; left. exists R. now rewrite WP'.
    + exact (kept_same _ _ _ _ _ _ _ KT OT D).
  - exists [], cur. rewrite app_nil_r. split; [|split; [|cbn; now rewrite app_nil_r]].
    2: { now apply (kept_same _ _ _ _ _ _ _ KT). }
    split; [exact OK'|]. destruct ST as [X|[(R' & ->)|[PA SH0]]]; [contradiction| |].
    + destruct Q as [(-> & EP)|(-> & WF)].
      * right; right. split; [|exact SH]. rewrite EP. now apply passed_now.
      * right; left. exists ((R' ++ [w_period w]) ++ [s]). now rewrite <- !app_assoc.
    + destruct Q as [(-> & EP)|(_ & WF)]; [|exfalso; now apply (SH0 (rc_file c))].
      right; right. split; [|exact SH]. rewrite EP. now apply passed_more.
  - destruct ST as [X|[(R' & ->)|[PA SH0]]]; [contradiction| |exfalso; now apply (SH0 (rc_file c))].
    rewrite CUR in E0. destruct cur as [y0|]; [|discriminate]. injection E0 as <-.
    pose proof (kept_roll R' s _ bs y0 (f_dir f) h (f_dir f1) (w_period w) KT SN TF NE NR SW) as KT1.
    rewrite (proj1 KT1) in G. apply (grown_reg b k None) in G as (KL & cur' & D & B). exists [(w_period w, y0)], cur'. split; [|split].
    + split; [exact OK'|]. right; left. exists ((R' ++ [w_period w]) ++ [s]). now rewrite <- !app_assoc.
    + rewrite <- (app_nil_r ((R' ++ _) ++ _)). exact (kept_same _ _ _ _ _ _ _ KT1 OT D).
    + cbn. rewrite app_nil_r, B. reflexivity.
Qed.
(** A write in which the process dies. *)
Lemma kept_crash R bs cur f w b tr f' : at_time R w -> kept_by_time R bs cur (f_dir f) -> partly (rw_Write P c w b) f tr f' ->
  rc_file c <> tmp_name \/ rc_archive c = ArchiveNone ->
  (forall s, In s (R ++ times tr) -> s <> [] /\ (rc_archive c = ArchiveNone \/ full c s <> tmp_name)) ->
  never_returns (R ++ times tr) ->
  exists bs' cur' k, (k <= length b)%nat /\ kept_by_time (R ++ times tr) (bs ++ bs') cur' (f_dir f') /\
    concat (map snd bs') ++ bytes cur' = bytes cur ++ firstn k b.
Proof.
  intros [OK ST] KT G TF NE NR. pose proof (proj1 KT) as CUR. apply partly_goes in G. assert (PL : plain c) by now left.
  assert (SAME : exists bs' cur' k, (k <= length b)%nat /\ kept_by_time (R ++ times tr) (bs ++ bs') cur' (f_dir f) /\
    concat (map snd bs') ++ bytes cur' = bytes cur ++ firstn k b).
  { exists [], cur, 0%nat. rewrite app_nil_r. split; [lia|]. split; [|cbn; now rewrite app_nil_r]. now apply (kept_same _ _ _ _ _ _ _ KT). }
  apply write_goes in G as [[-> _]|(tr0 & tr1 & w0 & need & -> & N & G)]; [exact SAME| |exact OK].
  pose proof (needs_ok _ _ _ _ _ N OK) as OK0. destruct N as (N1 & N2 & N3 & N4). rewrite K in N4. destruct N4 as (s & TS & _ & N4).
  destruct G as [[-> G]|[-> G]].
  - apply finish_goes in G as (OT & (k & G & _) & _); auto. rewrite CUR in G. apply grown_reg in G as (KL & cur' & D & B).
    exists [], cur', k. rewrite app_nil_r. split; [exact KL|]. split; [|exact B]. exact (kept_same _ _ _ _ _ _ _ KT OT D).
  - destruct N4 as [(_ & _ & X)|(WPN & -> & ND)]; [discriminate|]. assert (SN : s <> w_period w) by (intros ->; now rewrite str_eqb_refl in ND).
    destruct G as [[-> G]|(h & rname & e0 & RO)]; [exact SAME|].
    assert (ROLL : forall f1, rolled P c w f h rname e0 f1 -> exists y0, cur = Some y0 /\ kept_by_time (R ++ times (tr0 ++ tr1)) (bs ++ [(w_period w, y0)]) None (f_dir f1)).
    { intros f1 (WF & _ & NN & E0 & _ & SW). unfold new_name in NN. rewrite K in NN. subst rname.
      destruct ST as [X|[(R' & ->)|[PA SH0]]]; [contradiction| |exfalso; now apply (SH0 (rc_file c))].
      rewrite CUR in E0. destruct cur as [y0|]; [|discriminate]. injection E0 as <-. exists y0. split; [reflexivity|].
      rewrite times_app, TS in *. cbn [app] in *. exact (kept_roll R' s _ bs y0 (f_dir f) h (f_dir f1) (w_period w) KT SN TF NE NR SW). }
    destruct RO as [[RO _]|(f1 & w1 & tr2 & tr3 & E1 & RO & _ & W1 & _ & _ & G)]; destruct (ROLL _ RO) as (y0 & -> & KT1).
    + exists [(w_period w, y0)], None, 0%nat. split; [lia|]. split; [exact KT1|]. cbn. now rewrite !app_nil_r.
    + apply finish_goes in G as (OT & (k & G & _) & _); auto using w_ok_none. rewrite (proj1 KT1) in G. apply (grown_reg b k None) in G as (KL & cur' & D & B).
      exists [(w_period w, y0)], cur', k. split; [exact KL|]. split.
      * rewrite <- (app_nil_r (R ++ _)). exact (kept_same _ _ _ _ _ _ _ KT1 OT D).
      * cbn. rewrite app_nil_r, B. reflexivity.
Qed.
Lemma kept_history good f w hs R' f' w' : dated P c good f w hs R' f' w' -> forall R bs cur, at_time R w -> kept_by_time R bs cur (f_dir f) ->
  rc_file c <> tmp_name \/ rc_archive c = ArchiveNone ->
  (forall s, In s (R ++ R') -> s <> [] /\ (rc_archive c = ArchiveNone \/ full c s <> tmp_name)) ->
  never_returns (R ++ R') ->
  exists bs' cur' ps, at_time (R ++ R') w' /\ kept_by_time (R ++ R') (bs ++ bs') cur' (f_dir f') /\ parts hs ps /\
    concat (map snd bs') ++ bytes cur' = bytes cur ++ concat ps.
Proof.
  induction 1 as [f w|f w b tr f1 w1 k err hs R1 f2 w2 RN G DT IH|f w b tr f1 hs R1 f2 w2 RN G DT IH|f w hs R1 f2 w2 DT IH]; intros R bs cur AT KT TF NE NR.
  - exists [], cur, []. rewrite !app_nil_r. split; [exact AT|]. split; [exact KT|]. split; [constructor|]. cbn. now rewrite ?app_nil_r.
  - rewrite app_assoc in NE, NR.
    destruct (kept_write R bs cur f w b tr f1 w1 k err AT KT RN TF) as (b1 & c1 & AT1 & KT1 & E1); [intros s Is; apply NE; apply in_or_app; now left|exact (never_prefix _ _ NR)|].
    destruct (IH _ _ _ AT1 KT1 TF NE NR) as (b2 & c2 & ps & AT2 & KT2 & PA & E2). exists (b1 ++ b2), c2, (firstn k b :: ps). rewrite !app_assoc. split; [exact AT2|]. split; [exact KT2|].
    destruct (said P c w b f tr f1 w1 k err FN (proj1 AT) RN) as [KL KE].
    split; [now constructor|]. rewrite map_app, concat_app, <- app_assoc, E2, app_assoc, E1. cbn. now rewrite !app_assoc.
  - rewrite app_assoc in NE, NR.
    destruct (kept_crash R bs cur f w b tr f1 AT KT RN TF) as (b1 & c1 & k & KL & KT1 & E1); [intros s Is; apply NE; apply in_or_app; now left|exact (never_prefix _ _ NR)|].
    destruct (IH _ _ _ (conj (w_ok_none c w_new eq_refl) (or_introl eq_refl)) KT1 TF NE NR) as (b2 & c2 & ps & AT2 & KT2 & PA & E2).
    exists (b1 ++ b2), c2, (firstn k b :: ps). rewrite !app_assoc. split; [exact AT2|]. split; [exact KT2|].
    split; [now constructor|]. rewrite map_app, concat_app, <- app_assoc, E2, app_assoc, E1. cbn. now rewrite !app_assoc.
  - destruct (IH _ _ _ (conj (w_ok_none c w_new eq_refl) (or_introl eq_refl)) KT TF NE NR) as (b2 & c2 & ps & AT2 & KT2 & PA & E2).
    exists b2, c2, ([] :: ps). split; [exact AT2|]. split; [exact KT2|]. split; [now constructor|]. exact E2.
Qed.
End Time.

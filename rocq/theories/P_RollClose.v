(** Property C60: closing the file writer. *)
From Verif Require Import GoStr Strconv ConfModel RollModel RollSpec RollProofs RollExec RollDirProofs RollCloseSpec P_RollSize.
Local Open Scope Z_scope.

Lemma close_runs w f tr f' w' e : runs (rw_Close w) f tr f' (w', e) -> f' = f /\
  ((w_file w = None /\ tr = [] /\ w' = w /\ e = false) \/
   (exists n, w_file w = Some (n, false) /\ w' = w /\ e = true) \/
   (exists n, w_file w = Some (n, true) /\ w' = set_file w None /\ e = false) \/
   (exists n, w_file w = Some (n, true) /\ w' = set_file w (Some (n, false)) /\ e = true)).
Proof.
  unfold rw_Close. destruct (w_file w) as [[n [|]]|] eqn:WF; intros H.
  - apply runs_bind in H as (tr1 & f1 & r & tr2 & -> & H1 & H2). apply runs_op in H1 as [-> E].
    assert (f1 = f) as -> by (inversion E; reflexivity).
    destruct r; apply runs_done in H2 as (-> & -> & X); injection X as -> ->; (split; [reflexivity|]); right; right; solve [left; eauto|right; eauto].
  - apply runs_done in H as (-> & -> & X). injection X as -> ->. split; [reflexivity|]. right; left. eauto.
  - apply runs_done in H as (-> & -> & X). injection X as -> ->. split; [reflexivity|]. auto.
Qed.

(** Closing changes nothing on disk. *)
Theorem C60_files_kept : forall w f tr f' w' e, runs (rw_Close w) f tr f' (w', e) -> f' = f.
Proof. intros w f tr f' w' e H. now apply close_runs in H as [H _]. Qed.
Print Assumptions C60_files_kept.
(** After a close without error there is no open file, and closing again does nothing. *)
Theorem C60_again : forall w f tr f' w', runs (rw_Close w) f tr f' (w', false) ->
  w_file w' = None /\ forall f1 tr1 f2 r, runs (rw_Close w') f1 tr1 f2 r -> tr1 = [] /\ f2 = f1 /\ r = (w', false).
Proof.
  intros w f tr f' w' H. apply close_runs in H as [_ H].
  assert (N : w_file w' = None) by (destruct H as [(N & _ & -> & _)|[(n & _ & _ & X)|[(n & _ & -> & _)|(n & _ & _ & X)]]]; congruence || reflexivity).
  split; [exact N|]. intros f1 tr1 f2 [w2 e2] G. apply close_runs in G as [-> [(_ & -> & -> & ->)|[(n & X & _)|[(n & X & _)|(n & X & _)]]]]; try congruence. auto.
Qed.
Print Assumptions C60_again.

Section Size.
Variables (P : tparse) (c : roll_conf) (m : Z).
Hypothesis K : rc_kind c = BySize m.
(** Writers that go on alike: the same, or both without a file and with no roll due. *)
Definition same (w v : wst) : Prop :=
  w = v \/ (w_file w = None /\ w_file v = None /\ w_size w < m /\ w_size v < m /\ w_period w = w_period v).
Definition rel2 (x y : wst * (nat * bool)) : Prop := same (fst x) (fst y) /\ snd x = snd y.
(** Programs making the same operations, with related results. *)
Inductive alike {A} (R : A -> A -> Prop) : prog A -> prog A -> Prop :=
| al_done a b : R a b -> alike R (Done a) (Done b)
| al_op o k g : (forall r, alike R (k r) (g r)) -> alike R (Op o k) (Op o g).
Lemma alike_runs {A} (R : A -> A -> Prop) p q : alike R p q -> forall f tr f' a, runs p f tr f' a -> exists b, runs q f tr f' b /\ R a b.
Proof.
  induction 1 as [a b H|o k g H IH]; intros f tr f' x X; inversion X; subst.
  - exists b. split; [constructor|exact H].
  - match goal with G : runs (k _) _ _ _ _ |- _ => apply IH in G as (y & G & RY) end. exists y. split; [econstructor; eassumption|exact RY].
Qed.
Lemma alike_refl {A} (R : A -> A -> Prop) p : (forall a, R a a) -> alike R p p.
Proof. intros H. induction p; constructor; auto. Qed.
Lemma write_alike w v b : same w v -> alike rel2 (rw_Write P c w b) (rw_Write P c v b).
Proof.
  intros [->|(W1 & W2 & W3 & W4 & W5)]; [apply alike_refl; intros [a r]; split; [now left|reflexivity]|].
  unfold rw_Write, needsToRoll. rewrite K. cbn [pbind].
  destruct (Z.leb_spec m (w_size w)); [lia|]. destruct (Z.leb_spec m (w_size v)); [lia|]. cbn [pbind]. rewrite W1, W2.
  unfold createFile, getCurrentFileName, op. rewrite K. cbn [pbind].
  assert (Q : forall n, same (set_file (set_name w n) None) (set_file (set_name v n) None)) by (intros n; right; cbn; auto).
  assert (Q0 : same w v) by (right; auto).
  constructor. intros r. destruct r; cbn [pbind]; try (constructor; split; [exact Q0|reflexivity]).
  constructor. intros r. destruct r; cbn [pbind]; try (constructor; split; [apply Q|reflexivity]).
  constructor. intros r. destruct r; cbn [pbind]; try (constructor; intros r; constructor; split; [apply Q|reflexivity]).
  assert (E : forall n z, set_size (set_file (set_name w n) (Some (n, true))) z = set_size (set_file (set_name v n) (Some (n, true))) z)
    by (intros n y; unfold set_size, set_file, set_name; cbn; now rewrite W5).
  rewrite E. apply alike_refl. intros [a r]. split; [now left|reflexivity].
Qed.
Lemma write_period w b f tr f' w' r : runs (rw_Write P c w b) f tr f' (w', r) -> w_period w' = w_period w.
Proof.
  unfold rw_Write, needsToRoll. rewrite K. cbn [pbind]. intros H.
  apply runs_bind in H as (tr1 & f1 & [w1 e1] & tr2 & -> & H1 & H2).
  assert (P1 : w_period w1 = w_period w).
  { destruct (m <=? w_size w); [|apply runs_done in H1 as (_ & _ & X); now injection X as ->].
    unfold roll in H1. destruct (w_file w) as [[n [|]]|]; try (apply runs_done in H1 as (_ & _ & X); now injection X as -> _).
    apply runs_bind in H1 as (t3 & f3 & q & t4 & -> & _ & H1).
    destruct q; try (apply runs_done in H1 as (_ & _ & X); injection X as -> _; reflexivity).
    apply runs_bind in H1 as (t5 & f5 & h & t6 & -> & _ & H1).
    destruct h as [h|]; [|apply runs_done in H1 as (_ & _ & X); injection X as -> _; reflexivity].
    unfold getNewHistoryRollFileName in H1. rewrite K in H1. cbn [pbind] in H1.
    apply runs_bind in H1 as (t7 & f7 & q & t8 & -> & _ & H1).
    destruct q; try (apply runs_done in H1 as (_ & _ & X); injection X as -> _; reflexivity).
    apply runs_bind in H1 as (t9 & f9 & q & t10 & -> & _ & H1). apply runs_bind in H1 as (t11 & f11 & u & t12 & -> & _ & H1).
    apply runs_done in H1 as (_ & _ & X); injection X as -> _; reflexivity. }
  rewrite <- P1. clear P1. destruct e1; [apply runs_done in H2 as (_ & _ & X); now injection X as -> _|].
  apply runs_bind in H2 as (t3 & f3 & [w3 e3] & t4 & -> & H3 & H4).
  assert (P3 : w_period w3 = w_period w1).
  { destruct (w_file w1); [apply runs_done in H3 as (_ & _ & X); now injection X as ->|].
    unfold createFile, getCurrentFileName in H3. rewrite K in H3.
    apply runs_bind in H3 as (t5 & f5 & q & t6 & -> & _ & H3). destruct q; try (apply runs_done in H3 as (_ & _ & X); injection X as -> _; reflexivity).
    cbn [pbind] in H3. apply runs_bind in H3 as (t7 & f7 & q & t8 & -> & _ & H3). destruct q; try (apply runs_done in H3 as (_ & _ & X); injection X as -> _; reflexivity).
    apply runs_bind in H3 as (t9 & f9 & q & t10 & -> & _ & H3).
    destruct q; try (apply runs_done in H3 as (_ & _ & X); injection X as -> _; reflexivity);
    (apply runs_bind in H3 as (t11 & f11 & q & t12 & -> & _ & H3); apply runs_done in H3 as (_ & _ & X); injection X as -> _; reflexivity). }
  rewrite <- P3. clear P3 H3. destruct e3; [apply runs_done in H4 as (_ & _ & X); now injection X as -> _|].
  destruct (w_file w3) as [[n [|]]|]; try (apply runs_done in H4 as (_ & _ & X); now injection X as -> _).
  apply runs_bind in H4 as (t5 & f5 & q & t6 & -> & _ & H4). destruct q; apply runs_done in H4 as (_ & _ & X); injection X as -> _; reflexivity.
Qed.
Lemma uses_happens (good : fsop * fsres -> Prop) f w os f' w' : 0 < m -> uses P c good f w os f' w' -> w_period w = [] ->
  (forall z e, In (WClose z e) os -> z < m /\ e = false) ->
  forall v, same w v -> exists v', happens P c good f v (map as_restart os) f' v' /\ same w' v'.
Proof.
  intros MP. induction 1 as [f w|f w b tr f1 w1 k err os f2 w2 R G U IH|f w tr f1 w1 err os f2 w2 R G U IH]; intros WP LT v S; cbn [map as_restart].
  - exists v. split; [constructor|exact S].
  - pose proof (write_period _ _ _ _ _ _ _ R) as P1.
    destruct (alike_runs _ _ _ (write_alike w v b S) _ _ _ _ R) as ([v1 r1] & R1 & S1 & E). cbn in S1, E. subst r1.
    destruct (IH) with (v := v1) as (v' & H & S'); [congruence|intros z e I; apply LT; now right|exact S1|].
    exists v'. split; [econstructor; eassumption|exact S'].
  - destruct (LT _ _ (or_introl eq_refl)) as [L ->]. apply close_runs in R as [-> R].
    assert (Q : w_file w1 = None /\ w_size w1 = w_size w /\ w_period w1 = []).
    { destruct R as [(N & _ & -> & _)|[(n & _ & _ & X)|[(n & _ & -> & _)|(n & _ & _ & X)]]]; try discriminate; auto. }
    destruct Q as (Q1 & Q2 & Q3).
    destruct IH with (v := w_new) as (v' & H & S'); [exact Q3|intros z e I; apply LT; now right|right; cbn; repeat split; auto; lia|].
    exists v'. split; [constructor; exact H|exact S'].
Qed.
End Size.

(** A writer rolling by size that is closed only while no roll is due leaves what a process restarted
    at each close would leave; all that is proved about histories with restarts applies. *)
Theorem C60_goes_on_partial : forall P c m good f os f' w', rc_kind c = BySize m -> 0 < m -> uses P c good f w_new os f' w' ->
  (forall z e, In (WClose z e) os -> z < m /\ e = false) ->
  exists v', happens P c good f w_new (map as_restart os) f' v'.
Proof.
  intros P c m good f os f' w' K MP U L.
  destruct (uses_happens P c m K good f w_new os f' w' MP U eq_refl L w_new (or_introl eq_refl)) as (v' & H & _). eauto.
Qed.
Print Assumptions C60_goes_on_partial.

(** Rolling by time: a write after a close, in the period of the writer, is one of a new process. *)
Theorem C60_same_period_partial : forall P c p w f0 tr0 f w1 b tr f' w2 r, rc_kind c = ByTime p -> w_period w <> [] ->
  runs (rw_Close w) f0 tr0 f (w1, false) -> runs (rw_Write P c w1 b) f ((ONow p, RText (w_period w)) :: tr) f' (w2, r) ->
  exists v2, runs (rw_Write P c w_new b) f ((ONow p, RText (w_period w)) :: tr) f' (v2, r) /\
    w_file v2 = w_file w2 /\ w_period v2 = w_period w2 /\ (w_file w2 <> None -> v2 = w2).
Proof.
  intros P c p w f0 tr0 f w1 b tr f' w2 r K NP H0 H. destruct (C60_again _ _ _ _ _ H0) as [N _].
  assert (WP : w_period w1 = w_period w).
  { apply close_runs in H0 as [_ [(_ & _ & -> & _)|[(n & _ & _ & X)|[(n & _ & -> & _)|(n & _ & _ & X)]]]]; congruence || reflexivity. }
  unfold rw_Write, needsToRoll, now in *. rewrite K in *. cbn [pbind] in H. cbn [w_period w_new pbind].
  inversion H as [|o k q g g1 t g2 a EF H1]; subst. cbn [pbind] in H1. rewrite WP in H1.
  destruct (w_period w) as [|a0 per] eqn:PE; [contradiction|]. rewrite <- PE in *. cbn [pbind] in H1.
  assert (SE : str_eqb (w_period w) (w_period w) = true) by (destruct (str_eqb_spec (w_period w) (w_period w)); congruence).
  rewrite SE in H1. cbn [negb pbind] in H1. rewrite N in H1.
  set (R := fun x y : wst * (nat * bool) => snd x = snd y /\ w_file (fst y) = w_file (fst x) /\ w_period (fst y) = w_period (fst x) /\ (w_file (fst x) <> None -> fst y = fst x)).
  assert (AL : forall u v : wst, w_file u = None -> w_file v = None -> w_period v = w_period u ->
    alike R ('(w, err) <- createFile c u ;; if err : bool then Done (w, (0%nat, true)) else
       match w_file w with Some (n, true) => r <- op (OWrite n b) ;; match r with RWrote k ok => Done (set_size w (w_size w + Z.of_nat k), (k, negb ok)) | _ => Done (w, (0%nat, true)) end | _ => Done (w, (0%nat, true)) end)
     ('(w, err) <- createFile c v ;; if err : bool then Done (w, (0%nat, true)) else
       match w_file w with Some (n, true) => r <- op (OWrite n b) ;; match r with RWrote k ok => Done (set_size w (w_size w + Z.of_nat k), (k, negb ok)) | _ => Done (w, (0%nat, true)) end | _ => Done (w, (0%nat, true)) end)).
  { intros u v U V UV. unfold createFile, getCurrentFileName, now, op. rewrite K. cbn [pbind].
    constructor. intros q. destruct q; cbn [pbind]; try (constructor; split; [reflexivity|cbn; repeat split; try congruence; intros X; congruence]).
    assert (CONT : forall n, alike R
      ('(w, err) <- Op (OOpen n (rc_filePerm c)) (fun r => match r with ROk => Op (OStat n) (fun r => match r with RSize z => Done (set_size (set_file (set_name u n) (Some (n, true))) z, false)
         | _ => Op OClose (fun _ => Done (set_file (set_name u n) None, true)) end) | _ => Done (set_file (set_name u n) None, true) end) ;; if err : bool then Done (w, (0%nat, true)) else
       match w_file w with Some (n, true) => r <- op (OWrite n b) ;; match r with RWrote k ok => Done (set_size w (w_size w + Z.of_nat k), (k, negb ok)) | _ => Done (w, (0%nat, true)) end | _ => Done (w, (0%nat, true)) end)
      ('(w, err) <- Op (OOpen n (rc_filePerm c)) (fun r => match r with ROk => Op (OStat n) (fun r => match r with RSize z => Done (set_size (set_file (set_name v n) (Some (n, true))) z, false)
         | _ => Op OClose (fun _ => Done (set_file (set_name v n) None, true)) end) | _ => Done (set_file (set_name v n) None, true) end) ;; if err : bool then Done (w, (0%nat, true)) else
       match w_file w with Some (n, true) => r <- op (OWrite n b) ;; match r with RWrote k ok => Done (set_size w (w_size w + Z.of_nat k), (k, negb ok)) | _ => Done (w, (0%nat, true)) end | _ => Done (w, (0%nat, true)) end)).
    { intros n. cbn [pbind]. constructor. intros q. destruct q; cbn [pbind];
        try (constructor; split; [reflexivity|cbn; repeat split; try congruence; intros X; congruence]).
      constructor. intros q. destruct q; cbn [pbind];
        try (constructor; intros q; constructor; split; [reflexivity|cbn; repeat split; try congruence; intros X; congruence]).
      assert (E : forall z, set_size (set_file (set_name u n) (Some (n, true))) z = set_size (set_file (set_name v n) (Some (n, true))) z)
        by (intros y; unfold set_size, set_file, set_name; cbn; now rewrite UV).
      rewrite E. apply alike_refl. intros [a r']. repeat split; reflexivity. }
    destruct (rc_fullName c); cbn [pbind]; [constructor; intros q; cbn [pbind]|]; apply CONT. }
  destruct (alike_runs R _ _ (AL w1 (set_period w_new (w_period w)) N eq_refl (eq_sym WP)) _ _ _ _ H1) as ([v2 r2] & G & E & F1 & F2 & F3).
  cbn in E, F1, F2, F3. subst r2. exists v2. split; [|auto]. econstructor; [exact EF|]. exact G.
Qed.
Print Assumptions C60_same_period_partial.

(** When a roll is due, no write succeeds after a close: the roll wants to close the file first. *)
Theorem C60_due_stuck : forall P c m good f0 hs f w f1 tr w1, rc_kind c = BySize m -> happens P c good f0 w_new hs f w ->
  runs (rw_Close w) f tr f1 (w1, false) -> m <= w_size w -> stuck P c f1 w1.
Proof.
  intros P c m good f0 hs f w f1 tr w1 K H R L. assert (PL : plain c) by (right; eauto).
  assert (OK : w_ok c w) by (apply (happens_ok _ _ _ _ _ _ _ _ PL H); now apply w_ok_none).
  destruct (C60_again _ _ _ _ _ R) as [N _]. apply (dead_stuck P c m); [exact K|now apply w_ok_none|]. split; [|congruence].
  apply close_runs in R as [_ [(_ & _ & -> & _)|[(n & _ & _ & X)|[(n & _ & -> & _)|(n & _ & _ & X)]]]]; try discriminate; exact L.
Qed.
Print Assumptions C60_due_stuck.
(** Rolling by time, in a later period: the write fails, and so does every write until the period's text
    is shown by the clock again. *)
Theorem C60_next_period_fails : forall P c p w f0 tr0 f w1 b s tr f' w2 r, rc_kind c = ByTime p -> w_period w <> [] -> s <> w_period w ->
  runs (rw_Close w) f0 tr0 f (w1, false) -> runs (rw_Write P c w1 b) f ((ONow p, RText s) :: tr) f' (w2, r) ->
  f' = f /\ w2 = w1 /\ r = (0%nat, true).
Proof.
  intros P c p w f0 tr0 f w1 b s tr f' w2 r K NP NS H0 H. destruct (C60_again _ _ _ _ _ H0) as [N _].
  assert (WP : w_period w1 = w_period w).
  { apply close_runs in H0 as [_ [(_ & _ & -> & _)|[(n & _ & _ & X)|[(n & _ & -> & _)|(n & _ & _ & X)]]]]; congruence || reflexivity. }
  unfold rw_Write, needsToRoll, now in H. rewrite K in H. cbn [pbind] in H.
  inversion H as [|o k q g g1 t g2 a EF H1]; subst. cbn [pbind] in H1. rewrite WP in H1.
  destruct (w_period w) as [|a0 per] eqn:PE; [contradiction|]. rewrite <- PE in *. cbn [pbind] in H1.
  destruct (str_eqb_spec s (w_period w)) as [X|_]; [contradiction|]. cbn [negb] in H1. unfold roll in H1. rewrite N in H1. cbn [pbind] in H1.
  apply runs_done in H1 as (-> & _ & X). injection X as -> ->. inversion EF; subst. auto.
Qed.
Print Assumptions C60_next_period_fails.
(** A close that fails leaves the writer unable to write, too. *)
Theorem C60_failed_stuck : forall P c m f0 tr0 f w w1, rc_kind c = BySize m ->
  runs (rw_Close w) f0 tr0 f (w1, true) -> stuck P c f w1.
Proof.
  intros P c m f0 tr0 f w w1 K R hs f' w' H.
  assert (N : exists n, w_file w1 = Some (n, false)).
  { apply close_runs in R as [_ [(_ & _ & _ & X)|[(n & X & -> & _)|[(n & _ & _ & X)|(n & _ & -> & _)]]]]; try discriminate; eauto. exists n. reflexivity. }
  clear R. induction H as [f w1|f w1 b tr f1 w2 k err hs f2 w3 R S HS IH|f w1 b tr f1 hs f2 w3 R S HS IH|f w1 hs f2 w3 HS IH]; intros HW.
  - split; [reflexivity|]. intros b k e [].
  - destruct N as (n & N). assert (X : f1 = f /\ w2 = w1 /\ k = 0%nat /\ err = true).
    { unfold rw_Write, needsToRoll, roll in R. rewrite K in R. cbn [pbind] in R. rewrite N in R.
      destruct (m <=? w_size w1); cbn [pbind] in R; rewrite ?N in R; cbn [pbind] in R; rewrite ?N in R; apply runs_done in R as (-> & _ & X); injection X as -> -> ->; auto. }
    destruct X as (-> & -> & -> & ->). destruct IH as [-> Q]; [eauto|intros h I; apply HW; now right|]. split; [reflexivity|].
    intros b' k' e' [X|I]; [injection X as <- <- <-; auto|eauto].
  - destruct (HW (HCrash b) (or_introl eq_refl)) as (x & k & e & X). discriminate.
  - destruct (HW HRestart (or_introl eq_refl)) as (x & k & e & X). discriminate.
Qed.
Print Assumptions C60_failed_stuck.

(** It is not so that writes go on after a close whatever the size: the file is full, is closed without
    a fault, and no write succeeds any more. *)
Theorem C60_full_refuted : exists P c m f os f1 w1 b, rc_kind c = BySize m /\ 0 < m /\
  uses P c smooth f w_new os f1 w1 /\ os = [WWrite b (length b) false; WClose (Z.of_nat (length b)) false] /\ stuck P c f1 w1.
Proof.
  set (c := exc (BySize 3) 0 Postfix ArchiveNone).
  assert (E : match execs noP c w_new [SWrite ($"abc")] (sim_of [] ADir [] []) with
    | Some (l, w1, s1, tr0) => match exec (rw_Close w1) s1 with
      | Some ((w2, e), tr, s2) => l = [HWrite ($"abc") 3 false] /\ forallb smoothb tr0 = true /\ w_size w1 = 3 /\ e = false /\ forallb smoothb tr = true
      | None => False end
    | None => False end) by (vm_compute; auto 10).
  destruct (execs noP c w_new [SWrite ($"abc")] (sim_of [] ADir [] [])) as [[[[l w1] s1] tr0]|] eqn:E1; [|destruct E].
  destruct (exec (rw_Close w1) s1) as [[[[w2 e] tr] s2]|] eqn:E2; [|destruct E]. destruct E as (-> & S0 & WS & -> & S1).
  assert (F0 : finite (s_dir (sim_of [] ADir [] [])) (s_names (sim_of [] ADir [] []))) by (apply sim_finite; constructor).
  destruct (execs_sound noP c smooth _ _ _ _ _ _ _ F0 E1 (smoothb_ok _ S0)) as [H1 F1].
  destruct (exec_sound _ _ _ _ _ F1 E2) as [R2 F2].
  exists noP, c, 3, (fs_of (sim_of [] ADir [] [])), [WWrite ($"abc") 3 false; WClose (w_size w1) false], (fs_of s2), w2, ($"abc").
  split; [reflexivity|]. split; [lia|]. split; [|split; [rewrite WS; reflexivity|]].
  - inversion H1 as [|f w b t f1 w1' k err hs f2 w2' R G HS| |]; subst. inversion HS; subst.
    econstructor; [exact R|exact G|]. econstructor; [exact R2|exact (smoothb_ok _ S1)|constructor].
  - eapply (C60_due_stuck noP c 3); [reflexivity|exact H1|exact R2|lia].
Qed.
Print Assumptions C60_full_refuted.
(** Example: the file is closed after two of its five bytes; the log goes on in the same file. *)
Example C60_ex : exists f1 w1, uses noP (exc (BySize 5) 0 Postfix ArchiveNone) smooth (fs_of (sim_of [] ADir [] [])) w_new
    [WWrite ($"ab") 2 false; WClose 2 false; WClose 2 false; WWrite ($"cde") 3 false; WWrite ($"f") 1 false] f1 w1 /\
  map (f_dir f1) [$"a.1"; $"a"] = [Some (Reg ($"abcde")); Some (Reg ($"f"))].
Proof.
  set (c := exc (BySize 5) 0 Postfix ArchiveNone).
  assert (E : match execs noP c w_new [SWrite ($"ab")] (sim_of [] ADir [] []) with
    | Some (l, w1, s1, tr0) => match exec (rw_Close w1) s1 with
      | Some ((w2, e), tr, s2) => match exec (rw_Close w2) s2 with
        | Some ((w3, e3), tr3, s3) => match execs noP c w3 [SWrite ($"cde"); SWrite ($"f")] s3 with
          | Some (l4, w4, s4, tr4) => l = [HWrite ($"ab") 2 false] /\ forallb smoothb (tr0 ++ tr ++ tr3 ++ tr4) = true /\ w_size w1 = 2 /\ w_size w2 = 2 /\ e = false /\ e3 = false /\
             l4 = [HWrite ($"cde") 3 false; HWrite ($"f") 1 false] /\ map (s_dir s4) [$"a.1"; $"a"] = [Some (Reg ($"abcde")); Some (Reg ($"f"))]
          | None => False end
        | None => False end
      | None => False end
    | None => False end) by (vm_compute; auto 12).
  destruct (execs noP c w_new [SWrite ($"ab")] (sim_of [] ADir [] [])) as [[[[l w1] s1] tr0]|] eqn:E1; [|destruct E].
  destruct (exec (rw_Close w1) s1) as [[[[w2 e] tr] s2]|] eqn:E2; [|destruct E].
  destruct (exec (rw_Close w2) s2) as [[[[w3 e3] tr3] s3]|] eqn:E3; [|destruct E].
  destruct (execs noP c w3 [SWrite ($"cde"); SWrite ($"f")] s3) as [[[[l4 w4] s4] tr4]|] eqn:E4; [|destruct E].
  destruct E as (-> & S0 & WS & WS2 & -> & -> & -> & D).
  rewrite !forallb_app in S0. apply andb_true_iff in S0 as [S0 S1]. apply andb_true_iff in S1 as [S1 S2]. apply andb_true_iff in S2 as [S2 S3].
  assert (F0 : finite (s_dir (sim_of [] ADir [] [])) (s_names (sim_of [] ADir [] []))) by (apply sim_finite; constructor).
  destruct (execs_sound noP c smooth _ _ _ _ _ _ _ F0 E1 (smoothb_ok _ S0)) as [H1 F1].
  destruct (exec_sound _ _ _ _ _ F1 E2) as [R2 F2]. destruct (exec_sound _ _ _ _ _ F2 E3) as [R3 F3].
  destruct (execs_sound noP c smooth _ _ _ _ _ _ _ F3 E4 (smoothb_ok _ S3)) as [H4 F4].
  exists (fs_of s4), w4. split; [|exact D].
  inversion H1 as [|f w b t f1 w1' k err hs f2 w2' R G HS| |]; subst. inversion HS; subst.
  econstructor; [exact R|exact G|]. rewrite <- WS at 1. econstructor; [exact R2|exact (smoothb_ok _ S1)|].
  rewrite <- WS2. econstructor; [exact R3|exact (smoothb_ok _ S2)|]. clear - H4.
  inversion H4 as [|f w b t f1 w1' k err hs f2 w2' R G HS| |]; subst. econstructor; [exact R|exact G|]. clear - HS.
  inversion HS as [|f w b t f1' w1'' k err hs f2 w2' R G HS2| |]; subst. econstructor; [exact R|exact G|]. clear - HS2.
  inversion HS2; subst. constructor.
Qed.

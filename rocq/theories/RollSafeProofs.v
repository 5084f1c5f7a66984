(** A write never waits for ever: every operation it comes to has some answer, and it comes to an end. *)
From Verif Require Import GoStr Strconv ConfModel RollModel RollSpec RollProofs RollExec.
From Coq Require Import Permutation Sorted.
Local Open Scope Z_scope.

Inductive safe {A} (R : A -> fs -> Prop) : prog A -> fs -> Prop :=
| sf_done a f : R a f -> safe R (Done a) f
| sf_op o k f : (exists r f', eff o r f f') -> (forall r f', eff o r f f' -> safe R (k r) f') -> safe R (Op o k) f.
Lemma safe_bind {A B} (R : A -> fs -> Prop) (R' : B -> fs -> Prop) p k f :
  safe R p f -> (forall a f', R a f' -> safe R' (k a) f') -> safe R' (pbind p k) f.
Proof. induction 1; cbn; intros H'; [auto|]. constructor; eauto. Qed.
Lemma safe_op' o (R : fsres -> fs -> Prop) f : (exists r f', eff o r f f') -> (forall r f', eff o r f f' -> R r f') -> safe R (op o) f.
Proof. intros E H. constructor; [exact E|]. intros r f' X. constructor. eauto. Qed.
Lemma safe_weaken {A} (R R' : A -> fs -> Prop) p f : safe R p f -> (forall a f, R a f -> R' a f) -> safe R' p f.
Proof. induction 1; intros W; constructor; auto. Qed.
Definition writes (o : fsop) : bool := match o with OWrite _ _ => true | _ => false end.
Lemma answered o f : writes o = false -> exists r f', eff o r f f'.
Proof.
  destruct o; intros W; try discriminate W; try (exists RErr, f; constructor; fail).
  - exists (RNames (isort key l)), f. constructor; [apply isort_perm|apply isort_sorted].
  - exists (RText []), f. now constructor.
Qed.
Inductive quiet {A} : prog A -> Prop :=
| q_done a : quiet (Done a)
| q_op o k : writes o = false -> (forall r, quiet (k r)) -> quiet (Op o k).
Lemma quiet_bind {A B} (p : prog A) (k : A -> prog B) : quiet p -> (forall a, quiet (k a)) -> quiet (pbind p k).
Proof. induction 1; cbn; auto. intros. constructor; auto. Qed.
Lemma quiet_op o : writes o = false -> quiet (op o).
Proof. intros W. constructor; [exact W|]. intros r. constructor. Qed.
Lemma quiet_safe {A} (p : prog A) : quiet p -> forall f, safe (fun _ _ => True) p f.
Proof. induction 1; intros f; constructor; auto. now apply answered. Qed.
(** Result and quietness together, for programs that change no open file. *)
Lemma quiet_result {A} (p : prog A) (R : A -> Prop) f : quiet p -> (forall tr f' a, runs p f tr f' a -> R a) -> safe (fun a _ => R a) p f.
Proof.
  intros Q. revert f. induction Q as [a|o k W Q IH]; intros f H.
  - constructor. apply (H [] f a). constructor.
  - constructor; [now apply answered|]. intros r f' E. apply IH. intros tr f2 a RU. eapply H. econstructor; eassumption.
Qed.
Lemma arc_quiet {A} (p : prog A) : arc_only p -> quiet p.
Proof. induction 1 as [|o k I]; constructor; auto. destruct o; auto; discriminate I. Qed.
Ltac quiet := repeat first [apply quiet_bind; [|intros ?] | apply quiet_op; reflexivity | match goal with |- quiet (match ?x with _ => _ end) => destruct x end | constructor].
Lemma removeAll_quiet l : quiet (removeAll l).
Proof. induction l; cbn [removeAll]; [constructor|]. apply quiet_bind; [now apply quiet_op|auto]. Qed.
Lemma delete_quiet c h : quiet (deleteOldRolls c h).
Proof.
  unfold deleteOldRolls. destruct (_ <=? _); [constructor|]. cbv zeta. destruct (_ <=? _); [constructor|].
  apply quiet_bind; [|intros _; apply removeAll_quiet]. destruct (rc_archive c); [constructor| |]; (apply quiet_bind; [now apply quiet_op|intros _; apply arc_quiet, archive_arc]).
Qed.
Lemma history_quiet P c : quiet (getSortedLogHistory P c).
Proof. unfold getSortedLogHistory, getDirFilePaths. quiet. Qed.
Lemma now_quiet p : quiet (now p).
Proof. unfold now. quiet. Qed.

(** An open file is there. *)
Definition open_ok (w : wst) (f : fs) : Prop := forall n, w_file w = Some (n, true) -> exists x, f_dir f n = Some x /\ x <> Dir.
Lemma needs_safe c w f : open_ok w f -> safe (fun x f' => open_ok (fst x) f') (needsToRoll c w) f.
Proof.
  intros O. unfold needsToRoll. destruct (rc_kind c); [now constructor|]. unfold now.
  apply (safe_bind (fun _ f' => f' = f)).
  - apply (safe_bind (fun _ f' => f' = f)); [|intros; now constructor]. apply safe_op'; [now apply answered|]. intros r f' E. now apply eff_now in E as [-> _].
  - intros s f' ->. destruct (w_period w); constructor; exact O.
Qed.
Definition no_file (x : wst * bool) : Prop := forall n, w_file (fst x) <> Some (n, true).
Lemma roll_safe P c w f : safe (fun x _ => no_file x) (roll P c w) f.
Proof.
  apply quiet_result.
  - unfold roll. destruct (w_file w) as [[n []]|]; [|constructor|constructor].
    apply quiet_bind; [now apply quiet_op|]. intros r. destruct r; try (constructor; fail).
    apply quiet_bind; [apply history_quiet|]. intros [h|]; [|constructor].
    apply quiet_bind; [unfold getNewHistoryRollFileName; destruct (rc_kind c); [constructor|apply quiet_bind; [apply now_quiet|constructor]]|].
    intros [w1 rname]. cbv zeta. apply quiet_bind; [now apply quiet_op|]. intros r. destruct r; try (constructor; fail).
    apply quiet_bind; [now apply quiet_op|]. intros _. apply quiet_bind; [|constructor]. destruct (_ <? _); [apply delete_quiet|constructor].
  - intros tr f' [w' e] R. unfold roll in R. destruct (w_file w) as [[n []]|] eqn:F; [|apply runs_done in R as (_ & _ & X); injection X as -> ->; unfold no_file; cbn; congruence..].
    apply runs_bind in R as (tr1 & f1 & r & tr2 & _ & _ & R).
    destruct r; try (apply runs_done in R as (_ & _ & X); injection X as -> ->; unfold no_file; cbn; congruence).
    apply runs_bind in R as (tr3 & f2 & h & tr4 & _ & _ & R). destruct h as [h|]; [|apply runs_done in R as (_ & _ & X); injection X as -> ->; unfold no_file; cbn; congruence].
    apply runs_bind in R as (tr5 & f3 & [w1 rname] & tr6 & _ & N & R). cbv zeta in R.
    assert (W1 : w_file w1 = None).
    { unfold getNewHistoryRollFileName in N. destruct (rc_kind c).
      - apply runs_done in N as (_ & _ & X). injection X as -> _. reflexivity.
      - apply runs_bind in N as (? & ? & s & ? & _ & _ & N). apply runs_done in N as (_ & _ & X). injection X as -> _. reflexivity. }
    apply runs_bind in R as (tr7 & f4 & r & tr8 & _ & _ & R).
    destruct r; try (apply runs_done in R as (_ & _ & X); injection X as -> ->; unfold no_file; cbn; congruence).
    apply runs_bind in R as (? & ? & ? & ? & _ & _ & R). apply runs_bind in R as (? & ? & ? & ? & _ & _ & R).
    apply runs_done in R as (_ & _ & X); injection X as -> ->; unfold no_file; cbn; congruence.
Qed.
Lemma create_safe c w f : safe (fun x f' => open_ok (fst x) f') (createFile c w) f \/ w_file w <> None.
Proof.
  destruct (w_file w) as [[n o]|] eqn:F; [right; discriminate|left]. unfold createFile.
  apply (safe_bind (fun _ _ => True)); [apply safe_op'; [now apply answered|auto]|]. intros r f1 _.
  destruct r; try (constructor; intros ?; cbn; congruence).
  apply (safe_bind (fun _ _ => True)).
  { apply quiet_safe. unfold getCurrentFileName. destruct (rc_kind c); [constructor|]. destruct (rc_fullName c); [|constructor]. apply quiet_bind; [apply now_quiet|constructor]. }
  intros n f2 _. cbv zeta. apply (safe_bind (fun r f' => r = ROk -> exists x, f_dir f' n = Some x /\ x <> Dir)).
  { apply safe_op'; [now apply answered|]. intros r f' E ->. apply eff_open in E as [[X _]|[(_ & A & ->)|(_ & X & ->)]]; [discriminate| |exact X]. cbn. exists (Reg []). rewrite dput_same. split; [reflexivity|discriminate]. }
  intros r f3 RO. destruct r; try (constructor; intros ?; cbn; congruence). specialize (RO eq_refl).
  apply (safe_bind (fun _ f' => f' = f3)).
  { apply safe_op'; [now apply answered|]. intros r f' E. now apply eff_stat in E as [-> _]. }
  intros r f4 ->. destruct r; try (apply (safe_bind (fun _ _ => True)); [apply safe_op'; [now apply answered|auto]|]; intros ? ? _; constructor; intros m; cbn; congruence).
  constructor. intros m. cbn. intros X. injection X as <-. exact RO.
Qed.
Lemma finish_safe c w b f : open_ok w f -> safe (fun x f' => open_ok (fst x) f') (finish c w b) f.
Proof.
  intros O. unfold finish. apply (safe_bind (fun x f' => open_ok (fst x) f')).
  - destruct (w_file w) eqn:F; [now constructor|]. destruct (create_safe c w f); [assumption|contradiction].
  - intros [w1 err] f1 O1. cbn in O1. destruct err; [now constructor|]. destruct (w_file w1) as [[n []]|] eqn:F; [|constructor; exact O1..].
    destruct (O1 n F) as (x & D & ND).
    assert (ST : forall r f', eff (OWrite n b) r f1 f' -> open_ok w1 f').
    { intros r f' E. intros m FM. rewrite F in FM. injection FM as <-. apply eff_write in E as (k & ok & _ & _ & _ & E).
      destruct E as [(s & A & ->)|(A & ->)]; [|eauto]. exists (Reg (s ++ firstn k b)). cbn. rewrite dput_same. split; [reflexivity|discriminate]. }
    apply (safe_bind (fun _ f' => open_ok w1 f')).
    + apply safe_op'; [|exact ST]. destruct f1 as [d ar]. cbn in D. destruct x; [|now elim ND|].
      * eexists. eexists. apply (e_write n b (length b) true content d ar); auto.
      * eexists. eexists. apply (e_write_special n b (length b) true); auto.
    + intros r f' OW. destruct r; constructor; exact OW.
Qed.
Lemma write_safe P c w b f : open_ok w f -> safe (fun x f' => open_ok (fst x) f') (rw_Write P c w b) f.
Proof.
  intros O. rewrite write_eq. apply (safe_bind _ _ _ _ _ (needs_safe c w f O)). intros [w1 need] f1 O1. cbn in O1.
  apply (safe_bind (fun x f' => open_ok (fst x) f')).
  - destruct need; [|now constructor]. eapply safe_weaken; [apply roll_safe|]. intros x f' N n F. destruct (N n F).
  - intros [w2 err] f2 O2. cbn in O2. destruct err; [constructor; exact O2|]. now apply finish_safe.
Qed.
Lemma safe_runs {A} (R : A -> fs -> Prop) p f : safe R p f -> (forall tr f' a, runs p f tr f' a -> R a f') /\ exists tr f' a, runs p f tr f' a.
Proof.
  induction 1 as [a f H|o k f (r & f1 & E) S IH].
  - split; [|exists [], f, a; constructor]. intros tr f' a' RU. apply runs_done in RU as (-> & _ & ->). exact H.
  - split.
    + intros tr f' a RU. inversion RU; subst. match goal with X : eff _ _ _ _ |- _ => destruct (IH _ _ X) as [Y _]; eapply Y; eassumption end.
    + destruct (IH r f1 E) as [_ (tr & f' & a & RU)]. exists ((o, r) :: tr), f', a. econstructor; eassumption.
Qed.
Lemma safe_partly {A} (R : A -> fs -> Prop) p f tr f' : safe R p f -> partly p f tr f' -> exists tr' f2 a, runs p f (tr ++ tr') f2 a.
Proof.
  intros S H. revert S. induction H as [p f|o k r f f1 tr f2 E H IH]; intros S.
  - destruct (safe_runs _ _ _ S) as [_ X]. exact X.
  - inversion S as [|? ? ? _ S1]; subst. destruct (IH (S1 _ _ E)) as (tr' & f3 & a & RU). exists tr', f3, a. cbn. econstructor; eassumption.
Qed.
Lemma happens_open P c good f w hs f' w' : happens P c good f w hs f' w' -> open_ok w f -> open_ok w' f'.
Proof.
  induction 1 as [|f w b tr f1 w1 k err hs f2 w2 R G H IH|f w b tr f1 hs f2 w2 R G H IH|f w hs f2 w2 H IH]; intros O; auto.
  - apply IH. destruct (safe_runs _ _ _ (write_safe P c w b f O)) as [X _]. apply (X _ _ _ R).
  - apply IH. intros n X. discriminate.
  - apply IH. intros n X. discriminate.
Qed.

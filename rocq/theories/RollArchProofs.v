(** Proofs about archiving in retention. *)
From Verif Require Import GoStr Strconv StrconvProofs ConfModel RollModel RollSpec RollProofs RollSizeProofs RollRunProofs RollDirProofs.
From Coq Require Import Permutation Sorted.
Local Open Scope Z_scope.

(** Runs with operations of some kind: results and final states. *)
Section Hoare.
Variable (G : fsop * fsres -> Prop).
Inductive ok {A} (R : A -> fs -> Prop) : prog A -> fs -> Prop :=
| ok_done a f : R a f -> ok R (Done a) f
| ok_op o k f : (forall r f', eff o r f f' -> G (o, r) -> ok R (k r) f') -> ok R (Op o k) f.
Lemma ok_bind {A B} (R : A -> fs -> Prop) (R' : B -> fs -> Prop) p k f :
  ok R p f -> (forall a f', R a f' -> ok R' (k a) f') -> ok R' (pbind p k) f.
Proof. induction 1; cbn; intros H'; [auto|]. constructor. eauto. Qed.
Lemma ok_op' o (R : fsres -> fs -> Prop) f : (forall r f', eff o r f f' -> G (o, r) -> R r f') -> ok R (op o) f.
Proof. intros H. constructor. intros r f' E GR. constructor. eauto. Qed.
Lemma ok_runs {A} (R : A -> fs -> Prop) p f tr f' a : ok R p f -> runs p f tr f' a -> Forall G tr -> R a f'.
Proof.
  intros S H. revert S. induction H as [a f|o k r f f1 tr f2 a E H IH]; intros S T.
  - now inversion S; subst.
  - inversion S as [|? ? ? S1]; subst. inversion T as [|? ? T1 T2]; subst. apply IH; [|exact T2]. eapply S1; eassumption.
Qed.
Lemma runs_ok {A} (R : A -> fs -> Prop) p f : (forall tr f' a, runs p f tr f' a -> Forall G tr -> R a f') -> ok R p f.
Proof.
  revert f. induction p as [a|o k IH]; intros f H.
  - constructor. apply (H [] f a); constructor.
  - constructor. intros r f' E GR. apply IH. intros tr f2 a RU T. apply (H ((o, r) :: tr) f2 a); [econstructor; eassumption|]. now constructor.
Qed.
End Hoare.

Section Arch.
Variables (c : roll_conf) (f0 : fs).
Definition kept (f : fs) : Prop :=
  f_arch f <> ADir /\ incl (archived f0) (archived f) /\
  forall n y, n <> rc_file c -> f_dir f0 n = Some (Reg y) -> f_dir f n = Some (Reg y) \/ In (n, y) (archived f).
Local Notation ok' := (ok unfailing).
Lemma kept_same f f' : kept f -> f_arch f' = f_arch f ->
  (forall n y, n <> rc_file c -> f_dir f n = Some (Reg y) -> f_dir f' n = Some (Reg y)) -> kept f'.
Proof.
  intros (A & B & C) EA ED. unfold kept, archived in *. rewrite EA. split; [exact A|]. split; [exact B|].
  intros n y N D. destruct (C n y N D) as [X|X]; [left|now right]. auto.
Qed.
Lemma kept_dput f d n x : kept f -> d = f_dir f -> (n = rc_file c \/ forall y, f_dir f n <> Some (Reg y)) -> kept (mkFs (dput d n x) (f_arch f)).
Proof.
  intros KP -> NX. apply (kept_same f); auto. cbn. intros m y NM D. rewrite dput_other; [exact D|].
  intros ->. destruct NX as [-> |NX]; [contradiction|]. now apply (NX y).
Qed.
(** Operations that concern no backups. *)
Lemma kept_eff o r f f' : eff o r f f' -> kept f ->
  match o with ORename _ _ | ORemove _ | OArcRename _ => False | OWrite n _ | OOpen n _ => n = rc_file c | _ => True end -> kept f'.
Proof.
  intros E KP HO. destruct E; try exact KP; try contradiction.
  - subst. now apply (kept_dput (mkFs d ar)); auto.
  - subst. now apply (kept_dput (mkFs d ar)); auto.
  - destruct KP as (A & _). now elim A.
Qed.
Lemma kept_op (R : fsres -> fs -> Prop) o f : kept f ->
  match o with ORename _ _ | ORemove _ | OArcRename _ => False | OWrite n _ | OOpen n _ => n = rc_file c | _ => True end ->
  (forall r f', eff o r f f' -> unfailing (o, r) -> kept f' -> R r f') -> ok' R (op o) f.
Proof. intros KP HO H. apply ok_op'. intros r f' E GR. apply H; auto. eapply kept_eff; eassumption. Qed.

Definition stored (old : list str) (f : fs) : Prop := kept f /\ forall n y, In n old -> f_dir f n = Some (Reg y) -> In (n, y) (archived f).
Lemma add_ok rolls es f : ok' (fun x f' => f' = f /\ exists es', x = Some es' /\ incl es es' /\
    forall n y, In n rolls -> f_dir f n = Some (Reg y) -> In (n, y) es') (addRolls es rolls) f.
Proof.
  revert es. induction rolls as [|m rolls IH]; intros es; cbn [addRolls].
  - constructor. split; [reflexivity|]. exists es. split; [reflexivity|]. split; [apply incl_refl|]. intros n y [].
  - apply (ok_bind _ (fun r f' => f' = f /\ exists y, f_dir f m = Some (Reg y) /\ r = RBytes y)).
    + apply ok_op'. intros r f' E [_ NE]. inversion E; subst; [eauto|]. now elim NE.
    + intros r f' (-> & y & D & ->). specialize (IH (es ++ [(m, y)])).
      apply runs_ok. intros tr f' x R T. destruct (ok_runs _ _ _ _ _ _ _ IH R T) as (-> & es' & -> & I1 & I2).
      split; [reflexivity|]. exists es'. split; [reflexivity|]. split.
      * intros q Q. apply I1. apply in_or_app. now left.
      * intros n y' [<- |I] D'; [|now apply I2]. rewrite D in D'. injection D' as <-. apply I1. apply in_or_app. right. now left.
Qed.
Lemma archive_ok old f : kept f -> ok' (fun _ f' => stored old f') (archiveUnexploded c old) f.
Proof.
  intros KP. unfold archiveUnexploded.
  apply (ok_bind _ (fun r f' => r = ROk /\ kept f')).
  { apply kept_op; auto. intros r f' E [_ NE] KP'. split; [|exact KP']. inversion E; subst; auto. now elim NE. }
  intros r f1 [-> KP1].
  apply (ok_bind _ (fun r f' => r = ROk /\ kept f')).
  { apply kept_op; auto. intros r f' E [_ NE] KP'. split; [|exact KP']. inversion E; subst; auto. now elim NE. }
  intros r f2 [-> KP2].
  apply (ok_bind _ (fun r f' => f' = f2 /\ (r = ROk \/ (r = RAbsent /\ archived f2 = [])))).
  { apply ok_op'. intros r f' E [_ NE]. inversion E; subst; [auto| |now elim NE]. split; [reflexivity|].
    right. split; [reflexivity|]. unfold archived. match goal with X : f_arch _ = AAbsent |- _ => now rewrite X end. }
  intros r f3 (-> & HR).
  apply (ok_bind _ (fun x f' => f' = f2 /\ exists es', x = Some es' /\ incl (archived f2) es' /\
    forall n y, In n old -> f_dir f2 n = Some (Reg y) -> In (n, y) es')).
  { destruct HR as [-> |[-> HE]].
    - apply (ok_bind _ (fun r f' => f' = f2 /\ r = REntries (archived f2))).
      + apply ok_op'. intros r f' E [_ NE]. inversion E; subst; [|now elim NE]. split; [reflexivity|].
        unfold archived. match goal with X : f_arch _ = AFile _ |- _ => now rewrite X end.
      + intros r f' (-> & ->). apply add_ok.
    - rewrite HE. apply add_ok. }
  clear r HR. intros x f3 (-> & es' & -> & I1 & I2).
  apply (ok_bind _ (fun r f' => f' = f2 /\ r = ROk)).
  { apply ok_op'. intros r f' E [_ NE]. inversion E; subst; [auto|]. now elim NE. }
  intros r f3 (-> & ->).
  apply (ok_bind _ (fun r f' => stored old f')); [|intros r f' S; constructor; exact S].
  apply ok_op'. intros r f' E [_ NE]. inversion E; subst; [|now elim NE].
  destruct KP2 as (A & B & C). split; [split; [discriminate|split]|].
  - intros q Q. apply I1. now apply B.
  - intros n y N D. destruct (C n y N D) as [X|X]; [left; exact X|right; now apply I1].
  - intros n y I D. exact (I2 n y I D).
Qed.
Lemma remove_ok l old f : incl l old -> stored old f -> ok' (fun _ f' => stored old f') (removeAll l) f.
Proof.
  revert f. induction l as [|m l IH]; intros f IN S; cbn [removeAll]; [constructor; exact S|].
  apply (ok_bind _ (fun _ f' => stored old f')).
  - apply ok_op'. intros r f' E _. apply eff_remove in E as [[_ ->]|(_ & _ & ->)]; [exact S|].
    destruct S as [(A & B & C) D].
    assert (NM : forall n y, dput (f_dir f) m None n = Some (Reg y) -> f_dir f n = Some (Reg y)).
    { intros n y. destruct (str_dec n m) as [-> |X]; [rewrite dput_same; discriminate|now rewrite dput_other]. }
    split; [split; [exact A|split; [exact B|]]|].
    + intros n y N D0. destruct (C n y N D0) as [X|X]; [|now right]. cbn.
      destruct (str_dec n m) as [-> |Y]; [|left; now rewrite dput_other]. right. apply D; [apply IN; now left|exact X].
    + cbn. intros n y I X. apply NM in X. now apply D.
  - intros _ f' S'. apply IH; [|exact S']. intros q Q. apply IN. now right.
Qed.
Lemma delete_ok h f : rc_archive c <> ArchiveNone -> kept f -> ok' (fun _ f' => kept f') (deleteOldRolls c h) f.
Proof.
  intros NA KP. unfold deleteOldRolls. destruct (_ <=? 0); [constructor; exact KP|]. destruct (_ <=? 0); [constructor; exact KP|].
  set (old := firstn _ _). apply (ok_bind _ (fun _ f' => stored old f')).
  - assert (X : ok' (fun _ f' => stored old f') (_ <- op (OArcMkdir (rc_dirPerm c)) ;; archiveUnexploded c old) f).
    { apply (ok_bind _ (fun _ f' => kept f')); [apply kept_op; auto|]. intros r f' KP'. now apply archive_ok. }
    destruct (rc_archive c); [contradiction|exact X|exact X].
  - intros _ f' S. apply runs_ok. intros tr f2 u R T.
    exact (proj1 (ok_runs _ _ _ _ _ _ _ (remove_ok old old f' (incl_refl _) S) R T)).
Qed.
End Arch.

(** One write. *)
Lemma write_kept P c w b f tr f' x : plain c -> w_ok c w -> rc_archive c <> ArchiveNone -> f_arch f <> ADir ->
  (forall s rname y, sorted_hist P c (f_dir f) s -> new_name c w s rname -> f_dir f (full c rname) <> Some (Reg y)) ->
  runs (rw_Write P c w b) f tr f' x -> Forall unfailing tr -> kept c f f'.
Proof.
  intros PL OK NA AD FR R T.
  assert (K0 : kept c f f) by (split; [exact AD|]; split; [apply incl_refl|auto]).
  rewrite write_eq in R.
  refine (ok_runs unfailing (fun _ f' => kept c f f') _ f tr f' x _ R T). clear R T tr f' x.
  assert (FIN : forall w1 f1, w_ok c w1 -> kept c f f1 -> ok unfailing (fun _ f' => kept c f f') (finish c w1 b) f1).
  { clear w OK FR K0. intros w f1 OK KP. unfold finish.
    apply (ok_bind _ (fun x f' => w_ok c (fst x) /\ kept c f f')).
    - destruct (w_file w) eqn:WF; [constructor; auto|]. unfold createFile.
      apply (ok_bind _ (fun _ f' => kept c f f')); [apply kept_op with (c := c) (f0 := f); auto|]. intros r f2 KP2.
      destruct r; try (constructor; split; [now apply w_ok_none|exact KP2]).
      rewrite (current_plain c PL). cbn [pbind].
      apply (ok_bind _ (fun _ f' => kept c f f')); [apply kept_op with (c := c) (f0 := f); auto|]. intros r f3 KP3.
      destruct r; try (constructor; split; [now apply w_ok_none|exact KP3]).
      apply (ok_bind _ (fun _ f' => kept c f f')); [apply kept_op with (c := c) (f0 := f); auto|]. intros r f4 KP4.
      destruct r; try (apply (ok_bind _ (fun _ f' => kept c f f')); [apply kept_op with (c := c) (f0 := f); auto|];
        intros r f5 KP5; constructor; split; [now apply w_ok_none|exact KP5]).
      constructor. split; [|exact KP4]. intros n o. cbn. intros [= <- <-]. auto.
    - intros [w2 err] f2 [OK2 KP2]. cbn [fst] in OK2. destruct err; [constructor; exact KP2|].
      destruct (w_file w2) as [[n [|]]|] eqn:WF; try (constructor; exact KP2).
      destruct (OK2 _ _ WF) as [-> _].
      apply (ok_bind _ (fun _ f' => kept c f f')); [apply kept_op with (c := c) (f0 := f); auto|]. intros r f3 KP3.
      destruct r; constructor; exact KP3. }
  apply (ok_bind _ (fun x f' => f' = f /\ w_file (fst x) = w_file w /\ w_name (fst x) = w_name w /\ (snd x = true -> fst x = w))).
  { apply runs_ok. intros tr f1 [w1 need] R _. apply runs_goes, needs_goes in R as (-> & [X|(w' & n' & X & NE)]); [discriminate|].
    injection X as <- <-. cbn [fst snd]. split; [reflexivity|]. pose proof NE as (N1 & N2 & _). split; [exact N1|]. split; [exact N2|].
    intros ->. now apply needs_due in NE. }
  intros [w1 need] f1 (-> & W1 & W2 & W3). cbn [fst snd] in *.
  assert (OK1 : w_ok c w1) by (intros n o; rewrite W1, W2; apply OK).
  apply (ok_bind _ (fun x f' => kept c f f' /\ (snd x = false -> w_ok c (fst x)))).
  2: { intros [w2 err] f2 [KP2 OK2]. cbn [fst snd] in OK2. destruct err; [constructor; exact KP2|]. apply FIN; auto. }
  destruct need; [|constructor; auto]. rewrite (W3 eq_refl) in *. unfold roll.
  destruct (w_file w) as [[n [|]]|] eqn:WF; try (constructor; split; [exact K0|discriminate]).
  destruct (OK _ _ WF) as [-> WN].
  apply (ok_bind _ (fun _ f' => f' = f)).
  { apply ok_op'. intros r f' E _. now apply eff_close in E. }
  intros r f2 ->. destruct r; try (constructor; split; [exact K0|discriminate]).
  apply (ok_bind _ (fun h f' => f' = f /\ (h = None \/ exists s, h = Some (map (full c) s) /\ sorted_hist P c (f_dir f) s))).
  { apply runs_ok. intros tr f1' h R _. apply runs_goes, history_goes in R as (-> & [X|[X|(s & X & SH)]] & _); [discriminate| |];
      injection X as ->; split; eauto. }
  intros h f2 (-> & [-> |(s & -> & SH)]); [constructor; split; [exact K0|discriminate]|].
  apply (ok_bind _ (fun x f' => f' = f /\ new_name c w s (snd x) /\ w_file (fst x) = None /\ w_name (fst x) = rc_file c)).
  { apply runs_ok. intros tr f1' [w2 rname] R _. apply runs_goes, newname_goes in R as (-> & [X|(w' & r & X & NN & A1 & A2 & _)]); [discriminate|].
    injection X as <- <-. cbn [fst snd]. split; [reflexivity|]. split; [exact NN|]. split; [exact A1|]. now rewrite A2. }
  intros [w2 rname] f2 (-> & NN & F2 & N2). cbn [fst snd] in *. rewrite N2.
  apply (ok_bind _ (fun _ f' => kept c f f')).
  { apply ok_op'. intros r f' E _. apply eff_rename in E as [[_ ->]|(_ & e & _ & _ & ->)]; [exact K0|].
    apply (kept_dput c f (mkFs (dput (f_dir f) (rc_file c) None) (f_arch f))); [|reflexivity|].
    - apply kept_dput; auto.
    - right. intros y. cbn. rewrite dput_other by apply full_not_file. now apply (FR s rname). }
  intros r f2 KP2. destruct r; try (constructor; split; [exact KP2|discriminate]).
  apply (ok_bind _ (fun _ f' => kept c f f')); [apply kept_op with (c := c) (f0 := f); auto|]. intros r f3 KP3.
  apply (ok_bind _ (fun _ f' => kept c f f')).
  { destruct (_ <? _); [now apply delete_ok|constructor; exact KP3]. }
  intros _ f4 KP4. constructor. split; [exact KP4|]. intros _. now apply w_ok_none.
Qed.

(** A path that is a directory stays one: nothing is ever archived. *)
Lemma eff_adir o r f f' : eff o r f f' -> f_arch f = ADir -> f_arch f' = ADir.
Proof. intros E A. destruct E; cbn in *; auto. now elim H. Qed.
Lemma goes_adir {A} (p : prog A) f tr f' x : goes p f tr f' x -> f_arch f = ADir -> f_arch f' = ADir.
Proof. induction 1; intros A0; auto. apply IHgoes. eapply eff_adir; eassumption. Qed.
Lemma happens_adir P c good f w hs f' w' : happens P c good f w hs f' w' -> f_arch f = ADir -> f_arch f' = ADir.
Proof.
  induction 1 as [f w|f w b tr f1 w1 k err hs f2 w2 R S HS IH|f w b tr f1 hs f2 w2 R S HS IH|f w hs f2 w2 HS IH]; intros A0; auto; apply IH.
  - apply runs_goes in R. eapply goes_adir; eassumption.
  - apply partly_goes in R. eapply goes_adir; eassumption.
Qed.

(** Histories. *)
Lemma kept_trans c f f1 f2 : kept c f f1 -> kept c f1 f2 -> kept c f f2.
Proof.
  intros (A & B & C) (A' & B' & C'). split; [exact A'|]. split; [intros q Q; auto|].
  intros n y N D. destruct (C n y N D) as [X|X]; [now apply C'|right; now apply B'].
Qed.
Lemma kept_refl c f : f_arch f <> ADir -> kept c f f.
Proof. intros A. split; [exact A|]. split; [apply incl_refl|auto]. Qed.
Lemma smooth_unfailing tr : Forall unfailing tr -> Forall smooth tr.
Proof. apply Forall_impl. now intros x []. Qed.
Lemma size_kept P c m w b f tr f' x : rc_kind c = BySize m -> w_ok c w -> roomy P c (f_dir f) -> rc_archive c <> ArchiveNone -> f_arch f <> ADir ->
  runs (rw_Write P c w b) f tr f' x -> Forall unfailing tr -> kept c f f'.
Proof.
  intros K OK RM NA AD R T. assert (PL : plain c) by (right; eauto).
  apply (write_kept P c w b f tr f' x PL OK NA AD); auto. intros s rname y SH NN D.
  destruct (new_number P c m K _ _ _ _ SH RM NN) as (z & NU & FA).
  assert (B : backup P c (full c rname) z) by (exists rname; split; [apply full_backup|now rewrite K]).
  destruct (hist_all _ _ _ _ _ _ _ SH B D) as (r & X & I & KZ). apply full_inj in X. subst r.
  rewrite Forall_forall in FA. specialize (FA _ I). lia.
Qed.
Lemma holds_roomy P c m d l : rc_kind c = BySize m -> holds c d l -> room (l_backups l) 1 -> roomy P c d.
Proof.
  intros K (_ & _ & _ & H) [RM _] n z y (r & BN & NU) D. rewrite K in NU.
  destruct (H r n z BN NU) as (_ & x & I); [rewrite D; discriminate|]. rewrite Forall_forall in RM. specialize (RM _ I). cbn in RM. lia.
Qed.
Lemma history_kept P c m f w hs f' w' : rc_kind c = BySize m -> 0 < m -> tmp_ok c -> rc_archive c <> ArchiveNone ->
  happens P c unfailing f w hs f' w' -> (forall b, ~ In (HCrash b) hs) ->
  forall l o, winv c w l o -> holds c (f_dir f) l -> room (l_backups l) (length hs) -> f_arch f <> ADir -> kept c f f'.
Proof.
  intros K MP TO NA H. induction H as [f w|f w b tr f1 w1 k err hs f2 w2 R S HS IH|f w b tr f1 hs f2 w2 R S HS IH|f w hs f2 w2 HS IH];
    intros NC l o WI HO RM AD; cbn [length] in RM.
  - now apply kept_refl.
  - assert (R1 : room (l_backups l) 1) by (apply (room_le _ _ _) with (2 := RM); lia).
    assert (KP : kept c f f1).
    { apply (size_kept P c m w b f tr f1 (w1, (k, err)) K); auto; [exact (proj1 WI)|]. now apply (holds_roomy P c m _ l K). }
    apply (kept_trans c f f1 f2 KP).
    apply (smooth_one P c m K) with (l := l) (o := o) in R as (l1 & ST & H1 & W1); auto; [|now apply smooth_unfailing].
    apply (IH ltac:(intros b0 I; apply (NC b0); now right) l1 true W1 H1 (log_step_room _ _ _ _ _ _ ST RM)). exact (proj1 KP).
  - destruct (NC b). now left.
  - apply (IH ltac:(intros b0 I; apply (NC b0); now right) l false); auto; [apply winv_new|].
    apply (room_le _ _ _) with (2 := RM). lia.
Qed.
Lemma happens_app P c good hs1 hs2 f w f' w' : happens P c good f w (hs1 ++ hs2) f' w' ->
  exists f1 w1, happens P c good f w hs1 f1 w1 /\ happens P c good f1 w1 hs2 f' w'.
Proof.
  revert f w. induction hs1 as [|h hs1 IH]; intros f w H; [exists f, w; split; [constructor|exact H]|].
  cbn in H. inversion H; subst; match goal with X : happens _ _ _ _ _ (hs1 ++ hs2) _ _ |- _ => apply IH in X as (f3 & w3 & X1 & X2) end;
    exists f3, w3; (split; [econstructor; eassumption|exact X2]).
Qed.
Lemma happens_weaken P c (good good' : fsop * fsres -> Prop) f w hs f' w' : (forall x, good x -> good' x) ->
  happens P c good f w hs f' w' -> happens P c good' f w hs f' w'.
Proof. intros W H. induction H; econstructor; eauto using Forall_impl. Qed.

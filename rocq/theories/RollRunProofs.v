(** Writes without faults exist: on a finite directory every operation of a write can succeed. *)
From Verif Require Import GoStr Strconv StrconvProofs ConfModel RollModel RollSpec RollProofs RollSizeProofs RollExec.
From Coq Require Import Permutation Sorted.
Local Open Scope Z_scope.

Definition fin (f : fs) : Prop := exists names, finite (f_dir f) names.
Lemma fin_put f d n x ar : fin f -> d = f_dir f -> fin (mkFs (dput d n x) ar).
Proof. intros [ns F] ->. exists (addn n ns). now apply finite_dput. Qed.
Lemma eff_fin o r f f' : eff o r f f' -> fin f -> fin f'.
Proof.
  intros E [ns F]. destruct E; cbn [f_dir] in *; try (exists ns; exact F); try (eexists; apply finite_dput; exact F).
  exists (addn b (addn a ns)). now apply finite_dput, finite_dput.
Qed.
Lemma runs_fin {A} (p : prog A) f tr f' a : runs p f tr f' a -> fin f -> fin f'.
Proof. induction 1; intros F; [exact F|]. apply IHruns. eapply eff_fin; eassumption. Qed.

Definition goes_well {A} (p : prog A) (f : fs) (a : A) (f' : fs) : Prop := exists tr, runs p f tr f' a /\ Forall smooth tr.
Lemma gw_done {A} (a : A) f : goes_well (Done a) f a f.
Proof. exists []. split; constructor. Qed.
Lemma gw_op o r f f' : eff o r f f' -> smooth (o, r) -> goes_well (op o) f r f'.
Proof. intros E S. exists [(o, r)]. split; [now apply op_runs|]. constructor; [exact S|constructor]. Qed.
Lemma gw_bind {A B} (p : prog A) (k : A -> prog B) f a f1 b f2 : goes_well p f a f1 -> goes_well (k a) f1 b f2 -> goes_well (pbind p k) f b f2.
Proof.
  intros (t1 & R1 & S1) (t2 & R2 & S2). exists (t1 ++ t2). split; [eapply bind_runs; eassumption|]. apply Forall_app. auto.
Qed.

Lemma arc_well {A} (p : prog A) f : arc_only p -> exists a, goes_well p f a f.
Proof.
  induction 1 as [a|o k I H IH]; [exists a; apply gw_done|]. destruct (IH RErr) as (a & tr & R & S).
  exists a, ((o, RErr) :: tr). split.
  - econstructor; [|exact R]. destruct o; try discriminate I; constructor.
  - constructor; [|exact S]. destruct o; try discriminate I; exact Logic.I.
Qed.
Lemma history_well P c f : fin f -> exists s, goes_well (getSortedLogHistory P c) f (Some (map (full c) s)) f /\ sorted_hist P c (f_dir f) s.
Proof.
  intros [ns F].
  assert (G : exists x, goes_well (getSortedLogHistory P c) f x f).
  { unfold getSortedLogHistory, getDirFilePaths. eexists. eapply gw_bind.
    - eapply gw_bind; [|apply gw_done]. apply gw_op.
      + apply (e_read f [listing (f_dir f) ns]). cbn [concat]. rewrite app_nil_r. now apply listing_lists.
      + cbn. intros [X|[X|[]]]; discriminate.
    - cbv beta iota. rewrite dir_loop_ok. cbv beta iota zeta. eapply gw_bind; [|apply gw_done].
      apply gw_op; [constructor; [apply isort_perm|apply isort_sorted]|exact Logic.I]. }
  destruct G as (x & tr & R & S). pose proof R as R'. apply runs_goes, history_goes in R' as (_ & HH & HS).
  destruct HH as [HH|[HH|(s & HH & SH)]]; [discriminate|destruct (HS S); congruence|]. injection HH as ->.
  exists s. split; [|exact SH]. exists tr. auto.
Qed.
Lemma remove_well l f : NoDup l -> (forall n, In n l -> f_dir f n <> None) -> exists f', goes_well (removeAll l) f tt f'.
Proof.
  revert f. induction l as [|n l IH]; intros f N H; cbn [removeAll]; [exists f; apply gw_done|].
  inversion N as [|? ? N1 N2]; subst. destruct (f_dir f n) as [x|] eqn:E; [|destruct (H n (or_introl eq_refl) E)].
  destruct f as [d ar]. cbn in E.
  destruct (IH (mkFs (dput d n None) ar) N2) as (f' & G).
  { intros m I. cbn. rewrite dput_other; [apply H; now right|]. intros ->. contradiction. }
  exists f'. eapply gw_bind; [apply gw_op; [eapply e_remove; exact E|exact Logic.I]|exact G].
Qed.
Lemma NoDup_firstn {A} k (l : list A) : NoDup l -> NoDup (firstn k l).
Proof.
  revert k. induction l as [|x l IH]; intros [|k] N; cbn; try constructor; inversion N as [|? ? N1 N2]; subst; auto.
  intros I. apply N1. rewrite <- (firstn_skipn k l). apply in_or_app. now left.
Qed.
Lemma delete_well c h f : NoDup h -> (forall n, In n h -> f_dir f n <> None) -> exists f', goes_well (deleteOldRolls c h) f tt f'.
Proof.
  intros N H. unfold deleteOldRolls. destruct (rc_maxRolls c <=? 0); [exists f; apply gw_done|].
  destruct (_ <=? 0); [exists f; apply gw_done|].
  set (old := firstn _ h).
  assert (ON : NoDup old /\ forall n, In n old -> In n h).
  { unfold old. split; [now apply NoDup_firstn|]. intros n I.
    rewrite <- (firstn_skipn (Z.to_nat (Z.of_nat (length h) - rc_maxRolls c)) h). apply in_or_app. now left. }
  destruct (remove_well old f) as (f' & G); [apply ON|intros n I; apply H; now apply ON|].
  exists f'. destruct (rc_archive c).
  - eapply gw_bind; [apply gw_done|exact G].
  - destruct (arc_well (_ <- op (OArcMkdir (rc_dirPerm c)) ;; archiveUnexploded c old) f) as (u & G1).
    { apply arc_only_bind; [now apply arc_only_op|]. intros _. apply archive_arc. }
    eapply gw_bind; [exact G1|exact G].
  - destruct (arc_well (_ <- op (OArcMkdir (rc_dirPerm c)) ;; archiveUnexploded c old) f) as (u & G1).
    { apply arc_only_bind; [now apply arc_only_op|]. intros _. apply archive_arc. }
    eapply gw_bind; [exact G1|exact G].
Qed.
Lemma finish_well c w b f : plain c ->
  (w_file w = None /\ (f_dir f (rc_file c) = None \/ exists x, f_dir f (rc_file c) = Some (Reg x))) \/
  (w_file w = Some (rc_file c, true) /\ exists x, f_dir f (rc_file c) = Some (Reg x)) ->
  exists y f', goes_well (finish c w b) f y f'.
Proof.
  intros PL H.
  assert (WR : forall g x, f_dir g (rc_file c) = Some (Reg x) -> exists g', eff (OWrite (rc_file c) b) (RWrote (length b) true) g g').
  { intros [d ar] x E. eexists. eapply e_write; [exact E|lia|auto]. }
  unfold finish. destruct H as [[WF H]|[WF [x H]]].
  - rewrite WF.
    assert (exists g x, eff (OOpen (rc_file c) (rc_filePerm c)) ROk f g /\ f_dir g (rc_file c) = Some (Reg x)) as (g & x & E1 & E2).
    { destruct H as [H|[x H]].
      - destruct f as [d ar]. eexists _, _. split; [now apply e_open_new|]. cbn. apply dput_same.
      - exists f, x. split; [|exact H]. eapply e_open_old; [exact H|discriminate]. }
    destruct (WR g x E2) as (g' & E3).
    eexists _, g'. eapply gw_bind.
    + unfold createFile. eapply gw_bind; [apply gw_op; [apply e_mkdir|exact Logic.I]|]. cbv beta iota.
      rewrite (current_plain c PL). cbn [pbind].
      eapply gw_bind; [apply gw_op; [exact E1|exact Logic.I]|]. cbv beta iota.
      eapply gw_bind; [apply gw_op; [eapply e_stat; exact E2|exact Logic.I]|]. cbv beta iota. apply gw_done.
    + cbv beta iota. cbn [w_file set_file set_size set_name].
      eapply gw_bind; [apply gw_op; [exact E3|reflexivity]|]. cbv beta iota. apply gw_done.
  - rewrite WF. destruct (WR f x H) as (g' & E3). eexists _, g'. cbn [pbind]. rewrite WF.
    eapply gw_bind; [apply gw_op; [exact E3|reflexivity]|]. cbv beta iota. apply gw_done.
Qed.

Lemma ordered_nodup bs : ordered bs -> NoDup (map num bs).
Proof.
  intros [O1 O2]. induction O1 as [|p bs S IH F]; [constructor|]. inversion O2 as [|? ? R1 R2]; subst. cbn. constructor; [|auto].
  intros I. apply in_map_iff in I as (q & E & I). rewrite Forall_forall in F, R2. specialize (F q I). specialize (R2 q I).
  unfold num in E. apply num_inj in E; auto. lia.
Qed.
Lemma map_full_nodup c l : NoDup l -> NoDup (map (full c) l).
Proof.
  induction 1 as [|x l N H IH]; [constructor|]. cbn. constructor; [|exact IH]. intros I.
  apply in_map_iff in I as (y & E & I). apply full_inj in E. now subst.
Qed.

Lemma write_well P c m w l o b f : rc_kind c = BySize m -> 0 < m -> tmp_ok c -> winv c w l o -> holds c (f_dir f) l ->
  room (l_backups l) 1 -> fin f ->
  exists w' k e f', goes_well (rw_Write P c w b) f (w', (k, e)) f'.
Proof.
  intros K MP TO [OK WI] H RM F.
  assert (PL : plain c) by (right; eauto).
  assert (CUR : f_dir f (rc_file c) = None \/ exists x, f_dir f (rc_file c) = Some (Reg x)).
  { destruct H as (_ & HF & _). rewrite HF. destruct (l_current l); eauto. }
  assert (X : exists y f', goes_well (rw_Write P c w b) f y f').
  2: { destruct X as ([w' [k e]] & f' & G). eauto. }
  rewrite write_eq. unfold needsToRoll. rewrite K. cbn [pbind].
  destruct (Z.leb_spec m (w_size w)) as [GE|LT].
  - destruct WI as [[_ [W _]]|[WF [-> (x & XC & WS)]]]; [lia|].
    destruct l as [bs cur]. cbn [l_current l_backups] in *. subst cur.
    destruct (history_well P c f F) as (s & GH & SH).
    pose proof (hist_holds P c m K _ _ _ H SH) as ->. cbn [l_backups] in *.
    pose proof H as (O & HF & H3 & H4). cbn [l_current l_backups] in *.
    assert (NM : exists rname, getNewHistoryRollFileName c (set_file w None) (map (full c) (map num bs)) = Done (set_file w None, rname)).
    { unfold getNewHistoryRollFileName. rewrite K. eauto. }
    destruct NM as (rname & NM).
    assert (NN : new_name c (set_file w None) (map num bs) rname).
    { assert (G : goes (getNewHistoryRollFileName c (set_file w None) (map (full c) (map num bs))) f [] f (Some (set_file w None, rname))) by (rewrite NM; constructor).
      apply newname_goes in G as (_ & [G|(w2 & r2 & G & NN & _)]); [discriminate|]. injection G as <- <-. exact NN. }
    destruct (new_name_next c m K _ _ _ O RM NN) as (n & NX & ->).
    pose proof (holds_moved c _ _ _ _ H RM NX) as HM.
    destruct (next_number_ok _ _ O RM NX) as [NR NF].
    assert (FR : f_dir f (full c (Itoa n)) <> Some Dir).
    { intros D. destruct (H4 (Itoa n) _ n (full_backup c _) (numeral_Itoa n NR)) as (_ & y & I); [congruence|].
      rewrite Forall_forall in NF. specialize (NF _ I). cbn in NF. lia. }
    destruct (OK _ _ WF) as [_ WN].
    set (d1 := moved (f_dir f) (rc_file c) (full c (Itoa n)) (Reg x)) in *.
    assert (RE : eff (ORename (w_name (set_file w None)) (full c (Itoa n))) ROk f (mkFs d1 (f_arch f))).
    { cbn [w_name set_file]. rewrite WN. destruct f as [d ar]. now constructor. }
    assert (HE : map (full c) (map num bs) ++ [full c (Itoa n)] = map (full c) (map num (bs ++ [(n, x)]))) by now rewrite !map_app.
    assert (DEL : exists f2, goes_well (if rc_maxRolls c <? Z.of_nat (length (map (full c) (map num (bs ++ [(n, x)])))) then deleteOldRolls c (map (full c) (map num (bs ++ [(n, x)]))) else Done tt) (mkFs d1 (f_arch f)) tt f2).
    { destruct (_ <? _); [|eexists; apply gw_done]. apply delete_well.
      - apply map_full_nodup, ordered_nodup. apply HM.
      - intros q I. apply in_map_iff in I as (r & <- & I). apply in_map_iff in I as ([z y] & <- & I).
        destruct HM as (_ & _ & HM3 & _). destruct (HM3 z y I) as (q & B & D). apply backup_name_full in B. subst q.
        cbn [f_dir]. unfold num; cbn [fst]. congruence. }
    destruct DEL as (f2 & DEL).
    assert (RW : goes_well (roll P c w) f (set_file w None, false) f2).
    { unfold roll. rewrite WF. eapply gw_bind; [apply gw_op; [apply e_close|exact Logic.I]|]. cbv beta iota.
      eapply gw_bind; [exact GH|]. cbv beta iota. rewrite NM. cbn [pbind]. cbv beta iota zeta.
      eapply gw_bind; [apply gw_op; [exact RE|exact Logic.I]|]. cbv beta iota.
      eapply gw_bind; [apply gw_op; [apply e_chmod|exact Logic.I]|].
      rewrite HE. eapply gw_bind; [exact DEL|]. apply gw_done. }
    assert (F2 : f_dir f2 (rc_file c) = None).
    { pose proof RW as (tr & R & S). apply runs_goes, roll_goes in R as [[_ R]|(s2 & r2 & e2 & _ & SH2 & NN2 & E2 & _ & SW & _ & _)]; [| |exact OK].
      - destruct R as [R|(w2 & R & _)]; discriminate.
      - destruct (SW (rc_file c)) as [E|[[_ E]|(NA & T & _)]]; [|exact E|destruct TO; contradiction].
        rewrite E. unfold moved. rewrite dput_other by (apply not_eq_sym, full_not_file). apply dput_same. }
    destruct (finish_well c (set_file w None) b f2 PL) as (y & f3 & GF); [left; auto|].
    exists y, f3. eapply gw_bind; [exact RW|]. exact GF.
  - cbn [pbind]. apply finish_well; [exact PL|]. destruct WI as [[WF _]|[WF [_ (x & XC & _)]]]; [left; auto|right].
    split; [exact WF|]. destruct H as (_ & HF & _). rewrite HF, XC. eauto.
Qed.
(** Hence histories. *)
Lemma history_exists P c m w l o f ws : rc_kind c = BySize m -> 0 < m -> tmp_ok c -> winv c w l o -> holds c (f_dir f) l ->
  room (l_backups l) (length ws) -> fin f ->
  exists f' w', happens P c smooth f w (map (fun x => match x with Some b => HWrite b (length b) false | None => HRestart end) ws) f' w'.
Proof.
  intros K MP TO. revert w l o f. induction ws as [|[b|] ws IH]; intros w l o f WI H RM F; cbn [map length] in *.
  - exists f, w. constructor.
  - destruct (write_well P c m w l o b f) as (w1 & k & e & f1 & tr & R & S); auto; [apply (room_le _ _ _) with (2 := RM); lia|].
    destruct (smooth_one P c m K _ _ _ _ _ _ _ _ _ _ MP TO WI H ltac:(apply (room_le _ _ _) with (2 := RM); lia) R S) as (l1 & ST & H1 & W1).
    destruct (IH w1 l1 true f1 W1 H1) as (f2 & w2 & HH).
    + apply (log_step_room _ _ _ _ _ _ ST RM).
    + eapply runs_fin; eassumption.
    + exists f2, w2. assert (k = length b /\ e = false) as [-> ->] by (inversion ST; auto). econstructor; eassumption.
  - destruct (IH w_new l false f (winv_new c l) H) as (f2 & w2 & HH); auto; [apply (room_le _ _ _) with (2 := RM); lia|].
    exists f2, w2. now constructor.
Qed.

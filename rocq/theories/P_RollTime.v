(** Properties C43 to C45: files rolled by time, and archiving. *)
From Verif Require Import GoStr Strconv StrconvProofs LevelModel ConfModel ConfProofs RollModel RollSpec RollProofs RollSizeProofs
  RollExec RollRunProofs RollDirProofs RollTimeProofs RollArchProofs P_RollSize.
From Coq Require Import Permutation Sorted.
Local Open Scope Z_scope.

(** Examples: writes with the readings they made, whether all went well, what is there under some names. *)
Fixpoint texecs (P : tparse) (c : roll_conf) (w : wst) (bs : list str) (s : sim) : option (list (str * list str) * wst * sim * list (fsop * fsres)) :=
  match bs with
  | [] => Some ([], w, s, [])
  | b :: bs' =>
    match exec (rw_Write P c w b) s with
    | None => None
    | Some ((w1, (k, e)), tr, s1) =>
      match texecs P c w1 bs' s1 with None => None | Some (l, w2, s2, tr2) => Some ((b, times tr) :: l, w2, s2, tr ++ tr2) end
    end
  end.
Lemma texecs_sound P c good w bs s l w' s' tr : finite (s_dir s) (s_names s) -> texecs P c w bs s = Some (l, w', s', tr) ->
  Forall good tr -> timed P c good (fs_of s) w l (fs_of s') w'.
Proof.
  revert w s l tr. induction bs as [|b bs IH]; cbn; intros w s l tr F H G.
  - inversion H; subst. constructor.
  - destruct (exec (rw_Write P c w b) s) as [[[[w1 [k e]] tr1] s1]|] eqn:E; [|discriminate].
    destruct (texecs P c w1 bs s1) as [[[[l2 w2] s2] tr2]|] eqn:E2; [|discriminate]. inversion H; subst.
    apply Forall_app in G as [G1 G2]. apply exec_sound in E as [R F1]; [|exact F]. econstructor; eauto.
Qed.
Definition tshow (P : tparse) (c : roll_conf) (bs : list str) (s : sim) (names : list str) : option (list (str * list str) * bool * list (option entry)) :=
  match texecs P c w_new bs s with
  | Some (l, _, s', tr) => Some (l, forallb smoothb tr, map (s_dir s') names)
  | None => None
  end.
Lemma tshow_timed P c bs s names l es : finite (s_dir s) (s_names s) -> tshow P c bs s names = Some (l, true, es) ->
  exists f' w', timed P c smooth (fs_of s) w_new l f' w' /\ map (f_dir f') names = es.
Proof.
  intros F H. unfold tshow in H. destruct (texecs P c w_new bs s) as [[[[l' w'] s'] tr]|] eqn:E; [|discriminate].
  injection H as <- S <-. exists (fs_of s'), w'. split; [|reflexivity].
  apply (texecs_sound P c _ _ _ _ _ _ _ _ F E). now apply smoothb_ok.
Qed.
(** Hours of a day (pattern 15). *)
Definition hourP : tparse := fun _ s => if str_eqb s ($"01") then Some 1 else if str_eqb s ($"02") then Some 2 else if str_eqb s ($"03") then Some 3 else None.
Definition hours (mr : Z) : roll_conf := exc (ByTime ($"15")) mr Postfix ArchiveNone.

(** ** C43 *)
(** A clock that does not come back to an earlier period, no faults: each period's backup has what was
    written in that period, and the log file what was written in the latest. What was in the log file
    before counts as written at the beginning of the first period. A backup may be missing only if
    maxRolls is positive. *)
Theorem C43_each_period_its_file : forall P c p x0 f h hs f' w', rc_kind c = ByTime p -> rc_fullName c = false ->
  timed P c smooth f w_new (h :: hs) f' w' ->
  (f_dir f (rc_file c) = None /\ x0 = []) \/ f_dir f (rc_file c) = Some (Reg x0) ->
  (rc_archive c = ArchiveNone \/ (rc_file c <> $".log4g_tmp" /\ forall s, In s (flat_map snd (h :: hs)) -> ~ backup_name c s ($".log4g_tmp"))) ->
  (forall s, In s (flat_map snd (h :: hs)) -> s <> []) ->
  never_returns (flat_map snd (h :: hs)) ->
  let all := (x0, snd h) :: h :: hs in
  let now := period (last (h :: hs) h) in
  f_dir f' (rc_file c) = Some (Reg (written_in now all)) /\
  forall s n, In s (map period (h :: hs)) -> s <> now -> backup_name c s n ->
    f_dir f' n = Some (Reg (written_in s all)) \/ (0 < rc_maxRolls c /\ f_dir f' n = None).
Proof.
  intros P c p x0 f h hs f' w' K FN H F0 TM NE NR all now.
  assert (RD : forall f w hs f' w', timed P c smooth f w hs f' w' -> w_ok c w -> Forall (fun h => snd h <> []) hs).
  { clear - K FN. intros f w hs f' w' H. induction H as [f w|f w b tr f1 w1 k err hs f2 w2 R S HS IH]; intros OK; constructor.
    - cbn. apply runs_goes in R. apply write_goes in R as [[_ X]|(tr0 & tr1 & w0 & need & -> & N & _)]; [discriminate| |exact OK].
      destruct N as (_ & _ & _ & N). rewrite K in N. destruct N as (s & TS & _). rewrite times_app, TS. discriminate.
    - apply IH. apply runs_goes in R. eapply write_ok; [now left|exact OK|exact R]. }
  specialize (RD _ _ _ _ _ H (w_ok_none c w_new eq_refl)).
  inversion H as [|? ? b tr f1 w1 k err ? ? ? R S HS]; subst. cbn [flat_map snd] in *.
  destruct (first_write P c p K FN x0 f b tr f1 w1 k err R S F0) as [TI _].
  { intros s I. apply NE. apply in_or_app. now left. }
  assert (TM' : forall s, In s (times tr ++ flat_map snd hs) -> rc_archive c = ArchiveNone \/ full c s <> tmp_name).
  { intros s I. destruct TM as [TM|[_ TM]]; [now left|]. right. intros X. apply (TM s I).
    pose proof (full_backup c s) as FB. unfold tmp_name in X. rewrite X in FB. exact FB. }
  pose proof (timed_inv P c p K FN hs f1 w1 f' w' HS _ _ TI) as TI2.
  specialize (TI2 ltac:(tauto) ltac:(intros s I; split; auto) NR).
  destruct TI2 as (_ & _ & _ & (R' & ER) & CUR & _ & BK).
  assert (NOW : now = w_period w').
  { unfold now, period. destruct hs as [|h2 hs] using rev_ind.
    - cbn [last snd flat_map] in *. rewrite app_nil_r in ER. rewrite ER. apply last_last.
    - clear IHhs. rewrite app_comm_cons, last_last. apply Forall_inv_tail in RD. apply Forall_app in RD as [_ RD]. apply Forall_inv in RD.
      destruct (exists_last RD) as (l1 & a & EL). rewrite EL, last_last.
      rewrite flat_map_app in ER. cbn [flat_map] in ER. rewrite app_nil_r, EL, !app_assoc in ER. apply app_inj_tail in ER as [_ ER]. exact ER. }
  rewrite NOW. split; [exact CUR|]. intros s n I NS BN.
  assert (EN : n = full c s) by (now apply backup_name_full). subst n.
  apply BK; [|exact NS]. cbn. right. exact I.
Qed.
Print Assumptions C43_each_period_its_file.
(** Readings in order of time whose periods have different names do not come back. *)
Theorem C43_monotone_clock : forall (key : str -> Z) l, Sorted (fun a b => key a <= key b) l ->
  (forall a b, In a l -> In b l -> key a = key b -> a = b) -> never_returns l.
Proof.
  intros key l S INJ l1 a l2 l3 ->. apply Sorted_StronglySorted in S; [|intros x y z ? ?; lia].
  rewrite Forall_forall. intros x I.
  assert (A1 : key a <= key x).
  { apply (strong_app (fun a b => key a <= key b) (l1 ++ [a]) (l2 ++ a :: l3)).
    - rewrite <- app_assoc. exact S.
    - apply in_or_app. right. now left.
    - apply in_or_app. now left. }
  assert (A2 : key x <= key a).
  { apply (strong_app (fun a b => key a <= key b) (l1 ++ a :: l2) (a :: l3)).
    - rewrite <- app_assoc. exact S.
    - apply in_or_app. right. now right.
    - now left. }
  apply INJ; [| |lia].
  - apply in_or_app. right. now left.
  - apply in_or_app. right. right. apply in_or_app. now left.
Qed.
Print Assumptions C43_monotone_clock.
(** What was written before a restart ends up in the first period after it (x0). *)
Example C43_ex : exists f' w' hs, timed hourP (hours 0) smooth (fs_of (sim_of [($"a", Reg ($"old;"))] ADir [] [$"01"; $"01"; $"02"; $"02"; $"02"; $"03"; $"03"; $"03"])) w_new hs f' w' /\
  hs = [($"u;", [$"01"]); ($"v;", [$"01"]); ($"w;", [$"02"; $"02"]); ($"x;", [$"02"]); ($"y;", [$"03"; $"03"]); ($"z;", [$"03"])] /\
  map (f_dir f') [$"a.01"; $"a.02"; $"a"] = [Some (Reg ($"old;u;v;")); Some (Reg ($"w;x;")); Some (Reg ($"y;z;"))] /\
  never_returns (flat_map snd hs).
Proof.
  destruct (tshow_timed hourP (hours 0) [$"u;"; $"v;"; $"w;"; $"x;"; $"y;"; $"z;"]
    (sim_of [($"a", Reg ($"old;"))] ADir [] [$"01"; $"01"; $"02"; $"02"; $"02"; $"03"; $"03"; $"03"]) [$"a.01"; $"a.02"; $"a"]
    [($"u;", [$"01"]); ($"v;", [$"01"]); ($"w;", [$"02"; $"02"]); ($"x;", [$"02"]); ($"y;", [$"03"; $"03"]); ($"z;", [$"03"])]
    [Some (Reg ($"old;u;v;")); Some (Reg ($"w;x;")); Some (Reg ($"y;z;"))]) as (f' & w' & T & E).
  - apply sim_finite. repeat constructor; cbn; intuition discriminate.
  - vm_compute. reflexivity.
  - exists f', w', [($"u;", [$"01"]); ($"v;", [$"01"]); ($"w;", [$"02"; $"02"]); ($"x;", [$"02"]); ($"y;", [$"03"; $"03"]); ($"z;", [$"03"])].
    split; [exact T|]. split; [reflexivity|]. split; [exact E|].
    apply (C43_monotone_clock (fun s => match hourP [] s with Some z => z | None => 0 end)).
    + vm_compute. repeat constructor; discriminate.
    + intros a b Ia Ib. cbn in Ia, Ib.
      destruct Ia as [<- |[<- |[<- |[<- |[<- |[<- |[<- |[<- |[]]]]]]]]], Ib as [<- |[<- |[<- |[<- |[<- |[<- |[<- |[<- |[]]]]]]]]]; vm_compute; congruence.
Qed.

(** ** C44 *)
(** One write after others: what was there before and after it, and the renames it made. *)
Definition renames (tr : list (fsop * fsres)) : list (str * str) :=
  flat_map (fun x => match x with (ORename a b, ROk) => [(a, b)] | _ => [] end) tr.
Definition show1 (P : tparse) (c : roll_conf) (hs : list shop) (b : str) (s : sim) (names : list str) :=
  match execs P c w_new hs s with
  | Some (l, w1, s1, tr1) =>
    match exec (rw_Write P c w1 b) s1 with
    | Some ((w2, (k, e)), tr2, s2) =>
      Some (l, forallb smoothb tr1, forallb smoothb tr2, (k, e), map (s_dir s1) names, map (s_dir s2) names, renames tr2)
    | None => None
    end
  | None => None
  end.
Lemma show1_runs P c hs b s names l k e es1 es2 rn : finite (s_dir s) (s_names s) ->
  show1 P c hs b s names = Some (l, true, true, (k, e), es1, es2, rn) ->
  exists f1 w1 tr f2 w2, happens P c smooth (fs_of s) w_new l f1 w1 /\ runs (rw_Write P c w1 b) f1 tr f2 (w2, (k, e)) /\
    Forall smooth tr /\ map (f_dir f1) names = es1 /\ map (f_dir f2) names = es2 /\
    forall x y, In (x, y) rn -> In (ORename x y, ROk) tr.
Proof.
  intros F H. unfold show1 in H. destruct (execs P c w_new hs s) as [[[[l' w1] s1] tr1]|] eqn:E; [|discriminate].
  destruct (exec (rw_Write P c w1 b) s1) as [[[[w2 [k' e']] tr2] s2]|] eqn:E2; [|discriminate].
  assert (S1 : forallb smoothb tr1 = true) by congruence. assert (S2 : forallb smoothb tr2 = true) by congruence.
  assert (X1 : l' = l) by congruence. assert (X2 : k' = k) by congruence. assert (X3 : e' = e) by congruence.
  assert (X4 : map (s_dir s1) names = es1) by congruence. assert (X5 : map (s_dir s2) names = es2) by congruence.
  assert (X6 : renames tr2 = rn) by congruence. clear H. subst.
  destruct (execs_sound P c smooth _ _ _ _ _ _ _ F E) as [H F1]; [now apply smoothb_ok|].
  destruct (exec_sound _ _ _ _ _ F1 E2) as [R _].
  exists (fs_of s1), w1, tr2, (fs_of s2), w2. split; [exact H|]. split; [exact R|]. split; [now apply smoothb_ok|].
  split; [reflexivity|]. split; [reflexivity|].
  intros x y I. unfold renames in I. apply in_flat_map in I as ([o r] & J & I).
  destruct o; cbn in I; try contradiction. destruct r; cbn in I; try contradiction. destruct I as [I|[]]. now injection I as <- <-.
Qed.
(** The clock shows an hour of the day again: the backup of the day before is overwritten, without
    retention. *)
Theorem C44_overwrites_refuted : exists P c p f hs f1 w1 b tr f2 w2 n z y y', rc_kind c = ByTime p /\ rc_maxRolls c = 0 /\
  (forall n, f_dir f n = None) /\ happens P c smooth f w_new hs f1 w1 /\
  runs (rw_Write P c w1 b) f1 tr f2 (w2, (length b, false)) /\ Forall smooth tr /\
  backup P c n z /\ f_dir f1 n = Some (Reg y) /\ f_dir f2 n = Some (Reg y') /\ y <> y'.
Proof.
  destruct (show1_runs hourP (hours 0) [SWrite ($"1"); SWrite ($"2"); SWrite ($"3")] ($"4")
    (sim_of [] ADir [] [$"01"; $"02"; $"02"; $"01"; $"01"; $"02"; $"02"]) [$"a.01"]
    [HWrite ($"1") 1 false; HWrite ($"2") 1 false; HWrite ($"3") 1 false] 1 false [Some (Reg ($"1"))] [Some (Reg ($"3"))] [($"a", $"a.01")])
    as (f1 & w1 & tr & f2 & w2 & H & R & S & E1 & E2 & _).
  - apply sim_finite. constructor.
  - vm_compute. reflexivity.
  - exists hourP, (hours 0), ($"15"), (fs_of (sim_of [] ADir [] [$"01"; $"02"; $"02"; $"01"; $"01"; $"02"; $"02"])),
      [HWrite ($"1") 1 false; HWrite ($"2") 1 false; HWrite ($"3") 1 false], f1, w1, ($"4"), tr, f2, w2, ($"a.01"), 1, ($"1"), ($"3").
    split; [reflexivity|]. split; [reflexivity|]. split; [reflexivity|]. split; [exact H|]. split; [exact R|]. split; [exact S|].
    split; [exists ($"01"); split; [reflexivity|split; [discriminate|reflexivity]]|].
    split; [now injection E1|]. split; [now injection E2|discriminate].
Qed.
Print Assumptions C44_overwrites_refuted.
(** With retention the backup just made is then removed: it takes the place of the oldest. *)
Theorem C44_deletes_new_backup_refuted : exists P c p f hs f1 w1 b tr f2 w2 n, rc_kind c = ByTime p /\ 0 < rc_maxRolls c /\
  (forall n, f_dir f n = None) /\ happens P c smooth f w_new hs f1 w1 /\
  runs (rw_Write P c w1 b) f1 tr f2 (w2, (length b, false)) /\ Forall smooth tr /\
  In (ORename (rc_file c) n, ROk) tr /\ f_dir f2 n = None.
Proof.
  destruct (show1_runs hourP (hours 2) [SWrite ($"1"); SWrite ($"2"); SWrite ($"3")] ($"4")
    (sim_of [] ADir [] [$"01"; $"02"; $"02"; $"01"; $"01"; $"02"; $"02"]) [$"a.01"]
    [HWrite ($"1") 1 false; HWrite ($"2") 1 false; HWrite ($"3") 1 false] 1 false [Some (Reg ($"1"))] [None] [($"a", $"a.01")])
    as (f1 & w1 & tr & f2 & w2 & H & R & S & E1 & E2 & RN).
  - apply sim_finite. constructor.
  - vm_compute. reflexivity.
  - exists hourP, (hours 2), ($"15"), (fs_of (sim_of [] ADir [] [$"01"; $"02"; $"02"; $"01"; $"01"; $"02"; $"02"])),
      [HWrite ($"1") 1 false; HWrite ($"2") 1 false; HWrite ($"3") 1 false], f1, w1, ($"4"), tr, f2, w2, ($"a.01").
    split; [reflexivity|]. split; [reflexivity|]. split; [reflexivity|]. split; [exact H|]. split; [exact R|]. split; [exact S|].
    split; [apply RN; now left|now injection E2].
Qed.
Print Assumptions C44_deletes_new_backup_refuted.
(** What holds, for every clock, whatever is in the directory and whatever fails, crashes included: an
    entry other than the log file and the period's backup stays, unless it is a backup removed by retention.
    Missing: the period's backup itself, if there already is one. *)
Theorem C44_others_kept_partial : forall P c p f0 hs f w b tr f' n e, rc_kind c = ByTime p -> rc_fullName c = false ->
  happens P c any f0 w_new hs f w -> partly (rw_Write P c w b) f tr f' ->
  n <> rc_file c -> (rc_archive c = ArchiveNone \/ n <> $".log4g_tmp") -> ~ backup_name c (w_period w) n -> f_dir f n = Some e ->
  f_dir f' n = Some e \/ (f_dir f' n = None /\ 0 < rc_maxRolls c /\ (exists z, backup P c n z) /\ exists y, e = Reg y).
Proof.
  intros P c p f0 hs f w b tr f' n e K FN H G NF NT NB D.
  apply partly_goes in G. apply happens_ok in H; [|now left|now apply w_ok_none].
  destruct (time_dir P c p w b f tr f' _ K FN H G) as [X|(e' & _ & X)]; [left; now rewrite X|].
  destruct (X n NF NT) as [Q|(Q & MR & z & y & B & DY)].
  - left. rewrite Q. destruct (str_eqb_spec n (full c (w_period w))) as [E|]; [|exact D]. elim NB. now apply backup_name_full.
  - right. split; [exact Q|]. split; [exact MR|]. split; [eauto|]. rewrite D in DY. injection DY as ->. eauto.
Qed.
Print Assumptions C44_others_kept_partial.
(** The backup of a period that had none is made and not removed: after a write that succeeded in a new
    period it has the contents of the log file. *)
Theorem C44_new_backup_kept_partial : forall P c p f0 hs f w b tr f' w' k n s ts, rc_kind c = ByTime p -> rc_fullName c = false ->
  happens P c any f0 w_new hs f w -> runs (rw_Write P c w b) f tr f' (w', (k, false)) ->
  times tr = s :: ts -> w_period w <> [] -> s <> w_period w -> backup_name c (w_period w) n ->
  (rc_archive c = ArchiveNone \/ n <> $".log4g_tmp") -> f_dir f n = None ->
  exists e, f_dir f (rc_file c) = Some e /\ f_dir f' n = Some e.
Proof.
  intros P c p f0 hs f w b tr f' w' k n s ts K FN H R TT WP SN BN NT D.
  apply backup_name_full in BN. subst n. assert (NF : full c (w_period w) <> rc_file c) by apply full_not_file.
  apply happens_ok in H; [|now left|now apply w_ok_none].
  apply runs_goes in R. pose proof R as R0.
  apply write_goes in R as [[_ X]|(tr0 & tr1 & w0 & need & -> & N & G)]; [discriminate| |exact H].
  pose proof N as (_ & _ & _ & N4). rewrite K in N4. destruct N4 as (s' & TS & _ & [(X & _)|(_ & -> & ND)]); [contradiction|].
  rewrite times_app, TS in TT. injection TT as -> _.
  destruct G as [[-> _]|[-> [[_ [X|(w1 & X & _)]]|(s1 & rname & e & [[_ X]|(f1 & w1 & tr2 & tr3 & -> & RO & _ & W1 & _ & _ & G)])]]]; try discriminate.
  { symmetry in ND. destruct (str_eqb_spec s (w_period w)); [contradiction|discriminate]. }
  destruct RO as (_ & SH & NN & E & _ & SW). exists e. split; [exact E|]. unfold new_name in NN. rewrite K in NN. subst rname.
  apply finish_goes in G as (F1 & _); auto using w_ok_none; [|now left]. rewrite (F1 _ NF).
  destruct (time_swept P c (w_period w) s1 e (f_dir f) (full c (w_period w)) _ SH NF NT (SW _)) as [Q|(_ & _ & z & y & _ & DY)]; [|congruence].
  rewrite Q. now rewrite str_eqb_refl.
Qed.
Print Assumptions C44_new_backup_kept_partial.
Example C44_ex : show1 hourP (hours 1) [SWrite ($"1"); SWrite ($"2")] ($"3")
    (sim_of [($"a.x", Reg ($"x")); ($"a.03", Reg ($"y"))] ADir [] [$"01"; $"02"; $"02"; $"03"; $"03"]) [$"a.01"; $"a.02"; $"a.03"; $"a.x"; $"a"] =
  Some ([HWrite ($"1") 1 false; HWrite ($"2") 1 false], true, true, (1%nat, false),
    [Some (Reg ($"1")); None; None; Some (Reg ($"x")); Some (Reg ($"2"))],
    [None; Some (Reg ($"2")); None; Some (Reg ($"x")); Some (Reg ($"3"))], [($"a", $"a.02")]).
Proof. vm_compute. reflexivity. Qed.

(** ** C45 *)
(** The archive of a configured output is the directory of the log files itself. *)
Theorem C45_configured : forall up cfg o c, NewRollingOutput up cfg = Created o -> os_sink o = SinkRolling c ->
  rc_archivePath c = rc_dir c /\ rc_archiveExploded c = false.
Proof.
  intros up cfg o c H S. unfold NewRollingOutput in H.
  destruct (str_eqb (cfg_Type cfg) _); [|destruct (str_eqb (cfg_Type cfg) _); [|discriminate]];
    injection H as <-; cbn in S; injection S as <-; cbn; auto.
Qed.
Print Assumptions C45_configured.
(** Then nothing is ever archived, whatever happens. *)
Theorem C45_directory_is_no_archive : forall P c good f w hs f' w', happens P c good f w hs f' w' -> f_arch f = ADir -> archived f' = [].
Proof. intros P c good f w hs f' w' H A. apply happens_adir in H; [|exact A]. unfold archived. now rewrite H. Qed.
Print Assumptions C45_directory_is_no_archive.
(** And backups are removed all the same. *)
Theorem C45_lost_refuted : exists up cfg o P c f hs f1 w1 b tr f2 w2 n z y,
  NewRollingOutput up cfg = Created o /\ os_sink o = SinkRolling c /\ rc_archive c = ArchiveZip /\ f_arch f = ADir /\
  happens P c smooth f w_new hs f1 w1 /\ runs (rw_Write P c w1 b) f1 tr f2 (w2, (length b, false)) /\ Forall smooth tr /\
  backup P c n z /\ f_dir f1 n = Some (Reg y) /\ f_dir f2 n = None /\ archived f2 = [].
Proof.
  set (cfg := Some [($"type", $"size_rolling_file"); ($"file", $"logs/a"); ($"size", $"1"); ($"backups", $"1"); ($"archive", $"zip")] : cfgmap).
  destruct (NewRollingOutput (fun r => r) cfg) as [o| |] eqn:N; try discriminate.
  destruct (show1_runs noP (exc (BySize 1) 1 Postfix ArchiveZip) [SWrite ($"u"); SWrite ($"v")] ($"w") (sim_of [] ADir [] []) [$"a.1"]
    [HWrite ($"u") 1 false; HWrite ($"v") 1 false] 1 false [Some (Reg ($"u"))] [None] [($"a", $"a.2")]) as (f1 & w1 & tr & f2 & w2 & H & R & S & E1 & E2 & _).
  - apply sim_finite. constructor.
  - vm_compute. reflexivity.
  - exists (fun r => r), cfg, o, noP, (exc (BySize 1) 1 Postfix ArchiveZip), (fs_of (sim_of [] ADir [] [])),
      [HWrite ($"u") 1 false; HWrite ($"v") 1 false], f1, w1, ($"w"), tr, f2, w2, ($"a.1"), 1, ($"u").
    split; [exact N|]. split; [vm_compute in N; injection N as <-; reflexivity|]. split; [reflexivity|]. split; [reflexivity|].
    split; [exact H|]. split; [exact R|]. split; [exact S|].
    split; [exists ($"1"); split; [reflexivity|apply (numeral_Itoa 1); lia]|].
    split; [now injection E1|]. split; [now injection E2|].
    apply happens_adir in H; [|reflexivity]. apply runs_goes, goes_adir in R; [|exact H]. unfold archived. now rewrite R.
Qed.
Print Assumptions C45_lost_refuted.
(** With an archive path that is no directory (no configuration sets one) and no faults, rolling by size
    loses nothing: every regular file but the log file stays as it is, or is in the archive, and what was in
    the archive stays there. Missing: faults; archive paths of configured outputs. *)
Theorem C45_size_partial : forall P c m f0 hs f w b tr f' x, rc_kind c = BySize m -> rc_archive c <> ArchiveNone -> f_arch f <> ADir ->
  happens P c any f0 w_new hs f w -> roomy P c (f_dir f) -> runs (rw_Write P c w b) f tr f' x -> Forall unfailing tr ->
  incl (archived f) (archived f') /\
  forall n y, n <> rc_file c -> f_dir f n = Some (Reg y) -> f_dir f' n = Some (Reg y) \/ In (n, y) (archived f').
Proof.
  intros P c m f0 hs f w b tr f' x K NA AD H RM R T.
  apply happens_ok in H; [|right; eauto|now apply w_ok_none].
  exact (proj2 (size_kept P c m w b f tr f' x K H RM NA AD R T)).
Qed.
Print Assumptions C45_size_partial.
(** By time likewise, as long as the period has no backup yet (C44). *)
Theorem C45_time_partial : forall P c p f0 hs f w b tr f' x, rc_kind c = ByTime p -> rc_fullName c = false ->
  rc_archive c <> ArchiveNone -> f_arch f <> ADir ->
  happens P c any f0 w_new hs f w -> (forall n y, backup_name c (w_period w) n -> f_dir f n <> Some (Reg y)) ->
  runs (rw_Write P c w b) f tr f' x -> Forall unfailing tr ->
  incl (archived f) (archived f') /\
  forall n y, n <> rc_file c -> f_dir f n = Some (Reg y) -> f_dir f' n = Some (Reg y) \/ In (n, y) (archived f').
Proof.
  intros P c p f0 hs f w b tr f' x K FN NA AD H FR R T.
  apply happens_ok in H; [|now left|now apply w_ok_none].
  assert (PL : plain c) by now left.
  refine (proj2 (write_kept P c w b f tr f' x PL H NA AD _ R T)).
  intros s rname y _ NN. unfold new_name in NN. rewrite K in NN. subst rname. apply FR. apply full_backup.
Qed.
Print Assumptions C45_time_partial.
(** From no log files, rolling by size: all files closed so far are backups or in the archive. *)
Theorem C45_size_history_partial : forall P c m f hs f' w', rc_kind c = BySize m -> 0 < m -> tmp_ok c -> rc_archive c <> ArchiveNone ->
  f_arch f <> ADir -> happens P c unfailing f w_new hs f' w' -> (forall h, In h hs -> exists b k e, h = HWrite b k e) ->
  holds c (f_dir f) (mkLog [] None) -> Z.of_nat (length hs) < 2 ^ 63 ->
  exists files cur, segments m (flat_map chunk_of hs) files cur /\
    f_dir f' (rc_file c) = match hs with [] => None | _ => Some (Reg (concat cur)) end /\
    forall z x, In (z, x) (numbered files) -> exists n, backup_name c (Itoa z) n /\ (f_dir f' n = Some (Reg x) \/ In (n, x) (archived f')).
Proof.
  intros P c m f hs f' w' K MP TO NA AD H HW HO RM. revert f' w' H HW RM.
  induction hs as [|h hs IH] using rev_ind; intros f' w' H HW RM.
  - inversion H; subst. exists [], []. split; [constructor|]. split; [destruct HO as (_ & HO & _); exact HO|]. intros z x [].
  - rewrite app_length in RM. cbn [length] in RM.
    assert (HW1 : forall h, In h hs -> exists b k e, h = HWrite b k e) by (intros h0 I; apply HW; apply in_or_app; now left).
    pose proof H as H0. apply happens_app in H as (f1 & w1 & H1 & H2).
    destruct (IH f1 w1 H1 HW1 ltac:(lia)) as (files & cur & SG & _ & ALL). clear IH.
    assert (NC : forall b, ~ In (HCrash b) (hs ++ [h])). { intros b I. destruct (HW _ I) as (x & k & e & X). discriminate. }
    destruct (smooth_history P c m K _ _ _ _ _ (mkLog [] None) false MP TO (happens_weaken P c unfailing smooth _ _ _ _ _ ltac:(now intros x []) H1))
      as (l1 & o1 & S1 & HO1 & W1); [intros b I; apply (NC b); apply in_or_app; now left|apply winv_new|exact HO|split; [constructor|lia]|].
    assert (RM1 : room (l_backups l1) 1).
    { enough (X : forall s hs s', steps (log_step m (rc_maxRolls c)) s hs s' -> room (l_backups (fst s)) (length hs + 1) -> room (l_backups (fst s')) 1).
      { apply (X _ _ _ S1). split; [constructor|lia]. }
      clear. intros s hs s' H. induction H as [|? ? ? ? ? ST ? IH]; intros RM; [exact RM|]. apply IH. eapply log_step_room; eassumption. }
    assert (KP0 : kept c f f1).
    { apply (history_kept P c m f w_new hs f1 w1 K MP TO NA H1) with (l := mkLog [] None) (o := false); auto; [|apply winv_new|split; [constructor|lia]].
      intros b I. apply (NC b). apply in_or_app. now left. }
    assert (KP : kept c f1 f').
    { apply (history_kept P c m f1 w1 [h] f' w' K MP TO NA H2) with (l := l1) (o := o1); auto; [|exact (proj1 KP0)].
      intros b I. apply (NC b). apply in_or_app. now right. }
    destruct (smooth_history P c m K _ _ _ _ _ (mkLog [] None) false MP TO (happens_weaken P c unfailing smooth _ _ _ _ _ ltac:(now intros x []) H0) NC)
      as (l2 & o2 & S2 & HO2 & W2); [apply winv_new|exact HO|split; [constructor|rewrite app_length; cbn; lia]|].
    apply log_segments in S2 as (files2 & cur2 & SG2 & B2 & C2 & CN); [|exact MP|].
    2: { intros h0 I ->. destruct (HW _ I) as (x & k & e & X). discriminate. }
    exists files2, cur2. split; [exact SG2|]. split.
    { destruct HO2 as (_ & X & _). rewrite X. destruct CN as [CN|CN]; [destruct hs; discriminate|].
      destruct (hs ++ [h]) eqn:E; [destruct hs; discriminate|]. destruct (l_current l2); [cbn in C2; now rewrite C2|contradiction]. }
    assert (OLD : forall z x, In (z, x) (numbered files) -> exists n, backup_name c (Itoa z) n /\ (f_dir f' n = Some (Reg x) \/ In (n, x) (archived f'))).
    { intros z x I. destruct (ALL z x I) as (n & BN & D). exists n. split; [exact BN|]. destruct KP as (_ & KI & KD).
      destruct D as [D|D]; [|right; now apply KI]. apply KD; [|exact D]. apply backup_name_full in BN. subst n. apply full_not_file. }
    destruct (HW h) as (b & k & e & ->); [apply in_or_app; right; now left|].
    rewrite flat_map_app in SG2. cbn [flat_map chunk_of app] in SG2.
    inversion SG2 as [X|cs fs c0 b0 SG3 LT EQ X1 X2|cs fs c0 b0 SG3 GE EQ X1 X2].
    + destruct (flat_map chunk_of hs); discriminate.
    + apply app_inj_tail in EQ as [-> ->]. subst fs. destruct (C36_segments_unique _ _ _ _ _ _ SG SG3) as [-> _]. exact OLD.
    + apply app_inj_tail in EQ as [-> ->]. subst files2. destruct (C36_segments_unique _ _ _ _ _ _ SG SG3) as [-> ->].
      intros z x I. rewrite numbered_snoc in I. apply in_app_or in I as [I|[I|[]]]; [now apply OLD|].
      destruct HO2 as (_ & _ & HB & _). destruct (HB z x) as (n & BN & D); [|eauto].
      rewrite B2, numbered_snoc, I. unfold newest, cut. destruct (Z.leb_spec (rc_maxRolls c) 0) as [L|L].
      * apply in_or_app. right. now left.
      * rewrite skipn_app. apply in_or_app. right. rewrite app_length. cbn [length].
        match goal with |- In _ (skipn ?q _) => replace q with 0%nat by lia end. now left.
Qed.
Print Assumptions C45_size_history_partial.
(** What replaces the archive is complete: the entries of the archive that was there and of every roll added since,
    each read without an error, in a file closed without an error. *)
Fixpoint seals {A} (a : option (bool * list (str * str))) (p : prog A) : Prop :=
  match p with
  | Done _ => True
  | Op o k => (forall es, o = OArcRename es -> a = Some (true, es)) /\ forall r, seals (temp_next a (o, r)) (k r)
  end.
Fixpoint no_rename {A} (p : prog A) : Prop :=
  match p with Done _ => True | Op o k => (forall es, o <> OArcRename es) /\ forall r, no_rename (k r) end.
Lemma seals_none {A} (p : prog A) : forall a, no_rename p -> seals a p.
Proof. induction p as [x|o k IH]; intros a; cbn; [auto|]. intros [N H]. split; [intros es E; now elim (N es)|]. intros r. apply IH, H. Qed.
Lemma seals_bind {A B} (p : prog A) (k : A -> prog B) : forall a, seals a p -> (forall x a', seals a' (k x)) -> seals a (pbind p k).
Proof. induction p as [x|o g IH]; intros a; cbn; [auto|]. intros [N H] K. split; [exact N|]. intros r. apply IH; auto. Qed.
Lemma no_rename_bind {A B} (p : prog A) (k : A -> prog B) : no_rename p -> (forall x, no_rename (k x)) -> no_rename (pbind p k).
Proof. induction p as [x|o g IH]; cbn; [auto|]. intros [N H] K. auto. Qed.
Lemma no_rename_op o : (forall es, o <> OArcRename es) -> no_rename (op o).
Proof. intros H. split; [exact H|]. intros r. exact I. Qed.
Lemma seals_goes {A} (p : prog A) : forall a f tr f' x, seals a p -> goes p f tr f' x -> sealed a tr.
Proof.
  induction p as [y|o k IH]; intros a f tr f' x S G; inversion G; subst; cbn; auto.
  destruct S as [S1 S2]. split; [exact S1|]. eapply IH; [apply S2|eassumption].
Qed.
Lemma seals_add {B} (k : option (list (str * str)) -> prog B) l : forall es,
  (forall es', seals (Some (false, es')) (k (Some es'))) -> (forall a, seals a (k None)) ->
  seals (Some (false, es)) (pbind (addRolls es l) k).
Proof.
  induction l as [|n l IH]; intros es H1 H2; cbn; [apply H1|]. split; [discriminate|]. intros r. destruct r; cbn; try apply H2. now apply IH.
Qed.
Lemma seals_unexploded c rolls a : seals a (archiveUnexploded c rolls).
Proof.
  unfold archiveUnexploded. cbn [pbind op]. split; [discriminate|]. intros r. destruct r; try exact I.
  cbn [pbind op]. split; [discriminate|]. intros r. destruct r; try exact I.
  cbn [pbind op]. split; [discriminate|]. intros r.
  set (k := fun es : option (list (str * str)) => _).
  assert (K1 : forall es, seals (Some (false, es)) (k (Some es))).
  { intros es. unfold k. cbn [pbind op]. split; [discriminate|]. intros q.
    destruct q; cbn [pbind op]; (split; [try discriminate; now intros es' [= <-]|]); intros q2; exact I. }
  assert (K2 : forall b, seals b (k None)).
  { intros b. unfold k. cbn [pbind op]. split; [discriminate|]. intros q. destruct q; cbn [pbind op]; (split; [discriminate|]); intros q2; exact I. }
  destruct r; cbn [pbind op temp_next]; try apply K2.
  - split; [discriminate|]. intros q. destruct q; cbn [pbind temp_next]; try apply K2. now apply seals_add.
  - now apply seals_add.
Qed.
Ltac nr_step := repeat first
  [ exact I
  | apply no_rename_bind; [|let x := fresh "a" in intros x]
  | apply no_rename_op; discriminate
  | match goal with |- no_rename (match ?x with _ => _ end) => destruct x end
  | match goal with |- no_rename (if ?x then _ else _) => destruct x end ].
Lemma nr_remove l : no_rename (removeAll l).
Proof. induction l as [|n l IH]; cbn; [exact I|]. split; [discriminate|auto]. Qed.
Lemma seals_delete c l a : seals a (deleteOldRolls c l).
Proof.
  unfold deleteOldRolls. destruct (_ <=? _); [exact I|]. cbv zeta. destruct (_ <=? _); [exact I|].
  apply seals_bind; [|intros; apply seals_none, nr_remove].
  destruct (rc_archive c); try exact I; cbn [pbind op]; (split; [discriminate|]); intros r; apply seals_unexploded.
Qed.
Lemma seals_roll P c w a : seals a (roll P c w).
Proof.
  unfold roll. destruct (w_file w) as [[n [|]]|]; try exact I.
  apply seals_bind; [apply seals_none; nr_step|]. intros r a1. destruct r; try exact I. cbv zeta.
  apply seals_bind; [apply seals_none; unfold getSortedLogHistory, getDirFilePaths; nr_step|]. intros [h|] a2; [|exact I].
  apply seals_bind; [apply seals_none; unfold getNewHistoryRollFileName, RollModel.now; nr_step|]. intros [w1 rn] a3.
  apply seals_bind; [apply seals_none; nr_step|]. intros r a4. destruct r; try exact I.
  apply seals_bind; [apply seals_none; nr_step|]. intros r a5.
  apply seals_bind; [destruct (_ <? _); [apply seals_delete|exact I]|]. intros; exact I.
Qed.
Lemma seals_write P c w b a : seals a (rw_Write P c w b).
Proof.
  unfold rw_Write. apply seals_bind; [apply seals_none; unfold needsToRoll, RollModel.now; nr_step|]. intros [w1 need] a1.
  apply seals_bind; [destruct need; [apply seals_roll|exact I]|]. intros [w2 err] a2. apply seals_none.
  unfold createFile, getCurrentFileName, RollModel.now. nr_step.
Qed.
Theorem C45_sealed : forall P c w b f tr f' x, RollModel.runs (rw_Write P c w b) f tr f' x -> sealed None tr.
Proof. intros P c w b f tr f' x R. apply runs_goes in R. eapply seals_goes; [apply seals_write|exact R]. Qed.
Print Assumptions C45_sealed.
(** Also when the process dies. *)
Theorem C45_sealed_interrupted : forall P c w b f tr f', partly (rw_Write P c w b) f tr f' -> sealed None tr.
Proof. intros P c w b f tr f' R. apply partly_goes in R. eapply seals_goes; [apply seals_write|exact R]. Qed.
Print Assumptions C45_sealed_interrupted.
(** Two backups leave the window of one and are in the archive, beside an earlier entry. *)
Example C45_ex : match execs noP (exc (BySize 1) 1 Postfix ArchiveZip) w_new (map SWrite [$"u"; $"v"; $"w"; $"x"]) (sim_of [] (AFile [($"q", $"z")]) [] []) with
  | Some (l, _, s', tr) => (l, map (s_dir s') [$"a.1"; $"a.2"; $"a.3"; $"a"], s_arch s',
      forallb smoothb tr && forallb (fun x => match snd x with RErr => false | _ => true end) tr)
  | None => ([], [], ADir, false)
  end = ([HWrite ($"u") 1 false; HWrite ($"v") 1 false; HWrite ($"w") 1 false; HWrite ($"x") 1 false],
    [None; None; Some (Reg ($"w")); Some (Reg ($"x"))], AFile [($"q", $"z"); ($"a.1", $"u"); ($"a.2", $"v")], true).
Proof. vm_compute. reflexivity. Qed.

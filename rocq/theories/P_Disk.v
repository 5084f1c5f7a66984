(** Property C84: how much disk a log uses. *)
From Verif Require Import GoStr Strconv Utf8 LevelModel EventModel LayoutModel LayoutSpec LayoutProofs FormatSpec ConfModel ConfProofs OutputModel OutputSpec OutputProofs
  WorldModel WorldSpec WorldBase WorldInv WorldProofs LogProofs P_Conf P_Hier P_Log EndModel EndSpec EndProofs.
From Verif Require Import RollModel RollSpec RollExec RollProofs RollSizeProofs RollArchProofs RollDirProofs RollRunProofs P_Output P_RollSize P_RollTime P_End.
From Verif Require Import AsyncModel AsyncSpec AsyncProofs P_Async AsyncEndModel AsyncEndSpec AsyncEndProofs P_AsyncEnd DiskSpec.
Local Open Scope Z_scope.

Lemma total_uses P c d files each ns : uses_at_most P c d files each -> 0 <= each -> NoDup (map fst ns) ->
  (forall n x, In (n, x) ns -> log_file P c d n x) -> total ns <= files * each.
Proof.
  intros U E ND L. destruct (U ns ND L) as [LN FA].
  enough (total ns <= Z.of_nat (length ns) * each) by nia. clear - FA E. unfold total.
  induction FA as [|[n x] ns H FA IH]; cbn [map concat length snd] in *; [cbn; lia|]. rewrite app_length. lia.
Qed.
Definition small (B : Z) (l : log) : Prop := Forall (fun p => Z.of_nat (length (snd p)) <= B) (l_backups l) /\ Z.of_nat (length (bytes (l_current l))) <= B.
Lemma holds_uses P c m d l mr B : rc_kind c = BySize m -> holds c d l -> Z.of_nat (length (l_backups l)) <= mr -> small B l ->
  uses_at_most P c d (mr + 1) B.
Proof.
  intros K (OR & CU & BK & ALL) LN [SB SC] ns ND LF.
  assert (X : forall n x, In (n, x) ns -> (n = rc_file c /\ x = bytes (l_current l)) \/ exists z, n = full c (Itoa z) /\ In (z, x) (l_backups l)).
  { intros n x I. destruct (LF n x I) as [D [->|(z & r & BN & NU)]].
    - left. split; [reflexivity|]. rewrite CU in D. destruct (l_current l); [now injection D as <-|discriminate].
    - rewrite K in NU. destruct (ALL r n z BN NU) as (-> & y & IY); [congruence|]. right. exists z. apply backup_name_full in BN. subst n.
      split; [reflexivity|]. destruct (BK z y IY) as (n' & BN' & D'). apply backup_name_full in BN'. subst n'. rewrite D in D'. now injection D' as ->. }
  split.
  - assert (I : incl (map fst ns) (rc_file c :: map (fun p => full c (Itoa (fst p))) (l_backups l))).
    { intros n I. apply in_map_iff in I as ([n' x] & <- & I). destruct (X _ _ I) as [[-> _]|(z & -> & IZ)]; [now left|right].
      apply in_map_iff. exists (z, x). auto. }
    apply NoDup_incl_length in I; [|exact ND]. cbn [length] in I. rewrite !map_length in I. lia.
  - apply Forall_forall. intros [n x] I. cbn. destruct (X _ _ I) as [[_ ->]|(z & _ & IZ)]; [exact SC|].
    rewrite Forall_forall in SB. exact (SB _ IZ).
Qed.
Lemma newest_length {A} mr (l : list A) : 0 < mr -> Z.of_nat (length (newest mr l)) <= mr.
Proof. intros H. unfold newest, cut. destruct (Z.leb_spec mr 0); [lia|]. rewrite skipn_length. lia. Qed.
Lemma newest_incl {A} mr (l : list A) : incl (newest mr l) l.
Proof. intros x I. unfold newest in I. rewrite <- (firstn_skipn (cut mr l) l). apply in_or_app. now right. Qed.

Lemma restarts_pos hs : 0 <= restarts hs.
Proof. induction hs as [|[] hs IH]; cbn [restarts]; lia. Qed.
(** One start of the writer lets the files grow by one write. *)
Definition grows (X L k : Z) (s : log * bool) : Prop :=
  Forall (fun p => Z.of_nat (length (snd p)) <= X + L * k) (l_backups (fst s)) /\
  Z.of_nat (length (bytes (l_current (fst s)))) <= X + L * k - (if snd s then 0 else L).
Lemma grows_steps m mr X L : 0 < m -> 0 < mr -> m - 1 <= X -> 0 <= L -> forall s hs s', steps (log_step m mr) s hs s' -> writes_up_to L hs ->
  forall k, 1 <= k -> grows X L k s -> Z.of_nat (length (l_backups (fst s))) <= mr ->
  grows X L (k + restarts hs) s' /\ Z.of_nat (length (l_backups (fst s'))) <= mr.
Proof.
  intros MP RP MX LP s hs s' H. induction H as [s|s h s1 hs s2 ST H IH]; intros WU k K1 G LN; [cbn; rewrite Z.add_0_r; auto|].
  assert (WU' : writes_up_to L hs) by (intros b k' e I; apply (WU b k' e); now right).
  destruct G as [GB GC]. inversion ST; subst; cbn [fst snd l_backups l_current bytes restarts] in *.
  - apply IH; auto. split; cbn; [exact GB|]. rewrite app_length. specialize (WU b (length b) false (or_introl eq_refl)).
    destruct o; [specialize (H0 eq_refl); nia|lia].
  - apply IH; auto.
    + split; cbn.
      * apply Forall_forall. intros p I. apply newest_incl in I. rewrite Forall_forall in GB. apply in_app_or in I as [I|[<-|[]]]; [auto|cbn; lia].
      * specialize (WU b (length b) false (or_introl eq_refl)). nia.
    + cbn. now apply newest_length.
  - replace (k + (1 + restarts hs)) with ((k + 1) + restarts hs) by lia. apply IH; auto; [lia|]. split; cbn.
    + apply Forall_impl with (2 := GB). intros p. lia.
    + destruct o; lia.
Qed.

(** Rolling by size, without faults, from a directory whose log has no more than maxRolls backups and no
    file longer than [X], itself at least size - 1: between any two writes there are never more than
    maxRolls + 1 files, none longer than [X] and one write for each time the writer was started. *)
Theorem C84_bounded : forall P c m X L f hs f' w' l, rc_kind c = BySize m -> 0 < m -> 0 < rc_maxRolls c -> tmp_ok c ->
  happens P c smooth f w_new hs f' w' -> (forall b, ~ In (HCrash b) hs) -> writes_up_to L hs -> 0 <= L ->
  holds c (f_dir f) l -> room (l_backups l) (length hs) ->
  Z.of_nat (length (l_backups l)) <= rc_maxRolls c -> m - 1 <= X ->
  (forall z x, In (z, x) (l_backups l) -> Z.of_nat (length x) <= X) -> Z.of_nat (length (bytes (l_current l))) <= X ->
  uses_at_most P c (f_dir f') (rc_maxRolls c + 1) (X + L * (1 + restarts hs)).
Proof.
  intros P c m X L f hs f' w' l K MP RP TO H NC WU LP HO RM LN MX SB SC.
  destruct (C36_as_specified P c m f hs f' w' l K MP TO H NC HO RM) as (l' & o' & ST & HO').
  pose proof (restarts_pos hs) as R0.
  destruct (grows_steps m (rc_maxRolls c) X L MP RP MX LP _ _ _ ST WU 1) as [[GB GC] LN']; [lia| |exact LN|].
  { split; cbn; [|lia]. apply Forall_forall. intros [z x] I. specialize (SB z x I). cbn. lia. }
  cbn [fst snd] in *. apply (holds_uses P c m _ l'); auto. split; [exact GB|]. destruct o'; lia.
Qed.
Print Assumptions C84_bounded.
(** One process that finds no log: no file is longer than size - 1 and one write. *)
Theorem C84_one_process : forall P c m L f hs f' w', rc_kind c = BySize m -> 0 < m -> 0 < rc_maxRolls c -> tmp_ok c ->
  happens P c smooth f w_new hs f' w' -> (forall h, In h hs -> exists b k e, h = HWrite b k e) -> writes_up_to L hs -> 0 <= L ->
  holds c (f_dir f) (mkLog [] None) -> Z.of_nat (length hs) < 2 ^ 63 ->
  uses_at_most P c (f_dir f') (rc_maxRolls c + 1) (m - 1 + L) /\
  forall ns, NoDup (map fst ns) -> (forall n x, In (n, x) ns -> log_file P c (f_dir f') n x) -> total ns <= (rc_maxRolls c + 1) * (m - 1 + L).
Proof.
  intros P c m L f hs f' w' K MP RP TO H HW WU LP HO RM.
  assert (U : uses_at_most P c (f_dir f') (rc_maxRolls c + 1) (m - 1 + L)).
  { replace (m - 1 + L) with (m - 1 + L * (1 + restarts hs)).
    - apply (C84_bounded P c m (m - 1) L f hs f' w' (mkLog [] None)); auto; cbn; try lia; try contradiction; [|split; [constructor|exact RM]].
      intros b I. destruct (HW _ I) as (? & ? & ? & ?). discriminate.
    - replace (restarts hs) with 0; [lia|]. clear - HW. induction hs as [|h hs IH]; [reflexivity|].
      destruct (HW h (or_introl eq_refl)) as (b & k & e & ->). cbn. apply IH. intros h I. apply HW. now right. }
  split; [exact U|]. intros ns ND LF. eapply total_uses; try eassumption. lia.
Qed.
Print Assumptions C84_one_process.

(** The processes that write once are the ones that matter: if no process but the last does, no file is
    longer than size - 1 and two writes, however many processes there are. *)
Definition absent (hs : list hop) : Prop := forall h1 b k e h2, hs <> h1 ++ HRestart :: HWrite b k e :: HRestart :: h2.
Lemma absent_tail h hs : absent (h :: hs) -> absent hs.
Proof. intros N h1 b k e h2 E. apply (N (h :: h1) b k e h2). now rewrite E. Qed.
(** How often this process has written: not yet, once, more often. *)
Inductive stage (m L : Z) : list hop -> log * bool -> Prop :=
| sg0 l o : Z.of_nat (length (bytes (l_current l))) <= m - 1 + L -> stage m L [HRestart] (l, o)
| sg1 b k e l : Z.of_nat (length (bytes (l_current l))) <= m - 1 + 2 * L -> stage m L [HRestart; HWrite b k e] (l, true)
| sg2 l : Z.of_nat (length (bytes (l_current l))) <= m - 1 + L -> stage m L [] (l, true).
Lemma stage_steps m mr L : 0 < m -> 0 < mr -> 0 <= L -> forall s hs s', steps (log_step m mr) s hs s' -> writes_up_to L hs ->
  forall pre, stage m L pre s -> absent (pre ++ hs) -> Forall (fun p => Z.of_nat (length (snd p)) <= m - 1 + 2 * L) (l_backups (fst s)) ->
  Z.of_nat (length (l_backups (fst s))) <= mr ->
  small (m - 1 + 2 * L) (fst s') /\ Z.of_nat (length (l_backups (fst s'))) <= mr.
Proof.
  intros MP RP LP s hs s' H. induction H as [s|s h s1 hs s2 ST H IH]; intros WU pre SG AB SB LN.
  - split; [|exact LN]. split; [exact SB|]. inversion SG; subst; cbn [fst]; lia.
  - assert (WU' : writes_up_to L hs) by (intros b k' e I; apply (WU b k' e); now right).
    assert (LS : forall b k e, h = HWrite b k e -> Z.of_nat (length b) <= L) by (intros b k e ->; apply (WU b k e); now left).
    inversion ST as [bs cur o b LT|bs cur b n GE NN|l o]; subst; cbn [fst l_backups l_current bytes] in *.
    + specialize (LS _ _ _ eq_refl). inversion SG as [l o' CU|b' k' e' l CU|l CU]; subst; cbn [l_current bytes] in *.
      * apply (IH WU' [HRestart; HWrite b (length b) false]); auto. constructor. cbn [l_current bytes]. rewrite app_length. lia.
      * apply (IH WU' []); auto; [|do 3 apply absent_tail in AB; exact AB]. constructor. cbn [l_current bytes]. rewrite app_length. specialize (LT eq_refl). lia.
      * apply (IH WU' []); auto; [|apply absent_tail in AB; exact AB]. constructor. cbn [l_current bytes]. rewrite app_length. specialize (LT eq_refl). lia.
    + specialize (LS _ _ _ eq_refl).
      assert (CB : Z.of_nat (length cur) <= m - 1 + 2 * L) by (inversion SG; subst; cbn [l_current bytes] in *; lia).
      assert (SB' : Forall (fun p => Z.of_nat (length (snd p)) <= m - 1 + 2 * L) (newest mr (bs ++ [(n, cur)]))).
      { apply Forall_forall. intros p I. apply newest_incl in I. rewrite Forall_forall in SB. apply in_app_or in I as [I|[<-|[]]]; [auto|cbn [snd]; lia]. }
      pose proof (newest_length mr (bs ++ [(n, cur)]) RP) as LN'.
      inversion SG as [l o' CU|b' k' e' l CU|l CU]; subst; cbn [l_current bytes] in *.
      * apply (IH WU' [HRestart; HWrite b (length b) false]); auto. constructor. cbn [l_current bytes]. lia.
      * apply (IH WU' []); auto; [|do 3 apply absent_tail in AB; exact AB]. constructor. cbn [l_current bytes]. lia.
      * apply (IH WU' []); auto; [|apply absent_tail in AB; exact AB]. constructor. cbn [l_current bytes]. lia.
    + inversion SG as [l' o' CU|b' k' e' l' CU|l' CU]; subst; cbn [l_current bytes] in *.
      * apply (IH WU' [HRestart]); auto; [now constructor|]. apply absent_tail in AB. exact AB.
      * exfalso. exact (AB [] b' k' e' hs eq_refl).
      * apply (IH WU' [HRestart]); auto. now constructor.
Qed.
Theorem C84_many_processes : forall P c m L f hs f' w' l, rc_kind c = BySize m -> 0 < m -> 0 < rc_maxRolls c -> tmp_ok c ->
  happens P c smooth f w_new hs f' w' -> (forall b, ~ In (HCrash b) hs) -> writes_up_to L hs -> 0 <= L -> never_once hs ->
  holds c (f_dir f) l -> room (l_backups l) (length hs) ->
  Z.of_nat (length (l_backups l)) <= rc_maxRolls c ->
  (forall z x, In (z, x) (l_backups l) -> Z.of_nat (length x) <= m - 1 + 2 * L) -> Z.of_nat (length (bytes (l_current l))) <= m - 1 + L ->
  uses_at_most P c (f_dir f') (rc_maxRolls c + 1) (m - 1 + 2 * L).
Proof.
  intros P c m L f hs f' w' l K MP RP TO H NC WU LP NO HO RM LN SB SC.
  destruct (C36_as_specified P c m f hs f' w' l K MP TO H NC HO RM) as (l' & o' & ST & HO').
  destruct (stage_steps m (rc_maxRolls c) L MP RP LP _ _ _ ST WU [HRestart]) as [SM LN']; cbn [fst]; auto.
  - now constructor.
  - apply Forall_forall. intros [z x] I. exact (SB z x I).
  - now apply (holds_uses P c m _ l').
Qed.
Print Assumptions C84_many_processes.

(** Processes that write once each never roll: the limit is looked at before the file is. *)
Definition once_each (bs : list str) : list hop := flat_map (fun b => [HWrite b (length b) false; HRestart]) bs.
Theorem C84_once_never_rolls : forall P c m f bs f' w' l, rc_kind c = BySize m -> 0 < m -> tmp_ok c ->
  happens P c smooth f w_new (once_each bs) f' w' -> holds c (f_dir f) l -> room (l_backups l) (length (once_each bs)) -> bs <> [] ->
  holds c (f_dir f') (mkLog (l_backups l) (Some (bytes (l_current l) ++ concat bs))).
Proof.
  intros P c m f bs f' w' l K MP TO H HO RM NE.
  destruct (C36_as_specified P c m f _ f' w' l K MP TO H) as (l' & o' & ST & HO'); auto.
  { intros b I. apply in_flat_map in I as (x & _ & [X|[X|[]]]); discriminate. }
  clear - ST HO' NE.
  assert (E : l' = mkLog (l_backups l) (match bs with [] => l_current l | _ => Some (bytes (l_current l) ++ concat bs) end)).
  { clear - ST. revert l ST. induction bs as [|b bs IH]; intros l ST.
    - inversion ST; subst. now destruct l'.
    - cbn [once_each flat_map app] in ST. inversion ST as [|? ? s1 ? ? S1 ST1]; subst. inversion ST1 as [|? ? s2 ? ? S2 ST2]; subst.
      inversion S1; subst. inversion S2; subst. fold (once_each bs) in ST2. rewrite (IH _ ST2). cbn [l_backups l_current bytes concat].
      destruct bs; cbn [concat]; rewrite ?app_nil_r, ?app_assoc; reflexivity. }
  destruct bs; [contradiction|]. now rewrite <- E.
Qed.
Print Assumptions C84_once_never_rolls.
(** So the log file of such processes has no bound: the limit is one byte, one backup is to be kept, every
    write is one byte. *)
Theorem C84_restarts_refuted : exists c m, rc_kind c = BySize m /\ m = 1 /\ rc_maxRolls c = 1 /\ rc_archive c = ArchiveNone /\
  forall N, 0 <= N < 2 ^ 60 -> exists P f hs f' w' x, holds c (f_dir f) (mkLog [] None) /\ happens P c smooth f w_new hs f' w' /\ writes_up_to 1 hs /\
    f_dir f' (rc_file c) = Some (Reg x) /\ N <= Z.of_nat (length x) /\ forall n z, backup P c n z -> f_dir f' n = None.
Proof.
  exists (exc (BySize 1) 1 Postfix ArchiveNone), 1. split; [reflexivity|]. split; [reflexivity|]. split; [reflexivity|]. split; [reflexivity|].
  intros N HN. set (c := exc (BySize 1) 1 Postfix ArchiveNone). set (bs := repeat ($"x") (S (Z.to_nat N))).
  set (f := fs_of (sim_of [] ADir [] [])).
  assert (HO : holds c (f_dir f) (mkLog [] None)).
  { split; [split; constructor|]. split; [reflexivity|]. split; [intros z x []|]. intros r n z BN NU D. now destruct D. }
  assert (LB : length (once_each bs) = (2 * S (Z.to_nat N))%nat).
  { unfold bs, once_each. generalize (S (Z.to_nat N)). intros k. induction k as [|k IH]; [reflexivity|]. cbn [repeat flat_map app length]. rewrite IH. lia. }
  assert (RM : room (l_backups (mkLog [] None)) (length (once_each bs))).
  { split; [constructor|]. rewrite LB. lia. }
  destruct (history_exists noP c 1 w_new (mkLog [] None) false f (flat_map (fun b => [Some b; None]) bs)) as (f' & w' & H); auto; try reflexivity.
  { now left. }
  { apply winv_new. }
  { replace (length (flat_map (fun b => [Some b; None]) bs)) with (length (once_each bs)); [exact RM|].
    clear. unfold once_each. induction bs as [|b bs IH]; [reflexivity|]. cbn. now rewrite IH. }
  { exists []. apply sim_finite. constructor. }
  replace (map _ _) with (once_each bs) in H.
  2:{ clear. unfold once_each. induction bs as [|b bs IH]; [reflexivity|]. cbn. now rewrite IH. }
  pose proof (C84_once_never_rolls noP c 1 f bs f' w' _ eq_refl ltac:(lia) (or_introl eq_refl) H HO RM ltac:(discriminate)) as (_ & CU & _ & ALL).
  cbn [l_current l_backups bytes app] in CU, ALL.
  exists noP, f, (once_each bs), f', w', (concat bs). split; [exact HO|]. split; [exact H|]. split.
  { intros b k e I. apply in_flat_map in I as (y & IY & [X|[X|[]]]); [|discriminate]. injection X as <- _ _.
    apply repeat_spec in IY. subst y. cbn. lia. }
  split; [exact CU|]. split.
  { assert (LC : forall k, length (concat (repeat ($"x") k)) = k) by (induction k as [|k IH]; [reflexivity|cbn in *; now rewrite IH]).
    unfold bs. rewrite LC. lia. }
  intros n z (r & BN & NU). destruct (f_dir f' n) as [e|] eqn:D; [|reflexivity].
  destruct (ALL r n z BN NU) as (_ & x & []). congruence.
Qed.
Print Assumptions C84_restarts_refuted.

(** ** Outputs *)
(** A configured output keeps between 1 and 20 backups and flushes after at most 500 events. *)
Theorem C84_configured : forall up cfg o c, NewRollingOutput up cfg = Created o -> os_sink o = SinkRolling c ->
  1 <= rc_maxRolls c <= 20 /\ (forall q b, os_async o = Some (q, b) -> 1 <= b <= 500) /\
  (forall m, rc_kind c = BySize m -> (length (cget ($"size") cfg) <= 20)%nat -> 0 < m).
Proof.
  intros up cfg o c H S. split; [|split; [|exact (proj2 (proj2 (C36_configured _ _ _ _ H S)))]].
  - unfold NewRollingOutput in H.
    destruct (str_eqb (cfg_Type cfg) _); [|destruct (str_eqb (cfg_Type cfg) _); [|discriminate]];
      injection H as <-; cbn in S; injection S as <-; apply rolls_range.
  - intros q b A. unfold NewRollingOutput in H.
    destruct (str_eqb (cfg_Type cfg) _); [|destruct (str_eqb (cfg_Type cfg) _); [|discriminate]];
      injection H as <-; cbn [os_async] in A; unfold async_of in A; clear S; destruct (str_eqb (cget ($"async") cfg) ($"true")); try discriminate A; injection A as <- <-; apply batch_range.
Qed.
Print Assumptions C84_configured.
(** A synchronous output, whatever calls are made, if no text it writes is longer than [L]. *)
Theorem C84_sync : forall P T c m L i x x' h W f os W' f' w',
  reach P W -> nth_error (w_heap W) i = Some x -> os_sink (o_spec x) = SinkRolling c -> os_async (o_spec x) = None ->
  built h (o_fmt x) -> rc_kind c = BySize m -> 0 < m -> 0 < rc_maxRolls c -> tmp_ok c -> holds c (f_dir f) (mkLog [] None) ->
  session P T c smooth i W f w_new os W' f' w' ->
  nth_error (w_heap W') i = Some x' -> Z.of_nat (length (o_writes x')) < 2 ^ 63 -> 0 <= L ->
  (forall t, In t (o_writes x') -> Z.of_nat (length t) <= L) ->
  uses_at_most T c (f_dir f') (rc_maxRolls c + 1) (m - 1 + L).
Proof.
  intros P T c m L i x x' h W f os W' f' w' R Hx S A B K MP RP TO HO HS Hx' RM LP LW.
  destruct (session_runs _ _ _ _ _ _ _ _ _ _ _ _ HS x h R Hx (rolling_sync _ _ S A) B)
    as (evs & ws & hs & x2 & D & WR & PU & HA & _ & Hx2 & E & _ & _).
  rewrite Hx' in Hx2. injection Hx2 as <-. destruct (put_chunks _ _ PU) as (CH & LN & HW).
  refine (proj1 (C84_one_process T c m L f hs f' w' K MP RP TO HA HW _ LP HO _)).
  - intros b k e I. apply LW. rewrite E. apply in_or_app. right. rewrite <- CH. apply in_flat_map. exists (HWrite b k e). split; [exact I|now left].
  - rewrite LN. rewrite E, app_length in RM. lia.
Qed.
Print Assumptions C84_sync.
(** What the worker writes at once is made of at most batch_num texts of accepted events. *)
Lemma groups_bounded C progs tr s : 1 <= ac_batch C -> areach C progs tr s ->
  exists groups held, a_out s = map (@concat _) groups /\ a_buf s = concat held /\ a_num s = Z.of_nat (length held) /\ a_num s < ac_batch C /\
    Forall (fun g => Z.of_nat (length g) <= ac_batch C) groups /\
    Forall (fun t => exists e, In e (accf tr) /\ ac_fmt C e = Ok t) (concat groups ++ held).
Proof.
  intros B1 R. induction R as [|tr s ch l s' R IH H].
  { exists [], []. cbn. repeat split; auto; lia. }
  destruct IH as (gs & held & O & B & N & LT & FG & FT).
  assert (MONO : Forall (fun t => exists e, In e (accf (tr ++ [l])) /\ ac_fmt C e = Ok t) (concat gs ++ held)).
  { apply Forall_impl with (2 := FT). intros t (e & I & X). exists e. split; [|exact X]. rewrite accf_app. apply in_or_app. now left. }
  assert (QA : forall e, In (Some e) (a_queue s) -> In e (accf tr)).
  { intros e I. destruct (areach_cont _ _ _ _ R) as (tk & hd & segs & hl & A & _). rewrite A. apply in_or_app. right. apply in_or_app. right.
    unfold qevs. apply in_flat_map. exists (Some e). split; [exact I|now left]. }
  assert (FLUSH : forall X : astate, a_out X = a_out s ++ [a_buf s] -> a_buf X = [] -> a_num X = 0 ->
    exists groups held, a_out X = map (@concat _) groups /\ a_buf X = concat held /\ a_num X = Z.of_nat (length held) /\ a_num X < ac_batch C /\
      Forall (fun g => Z.of_nat (length g) <= ac_batch C) groups /\
      Forall (fun t => exists e, In e (accf (tr ++ [l])) /\ ac_fmt C e = Ok t) (concat groups ++ held)).
  { intros X X1 X2 X3. exists (gs ++ [held]), []. rewrite X1, X2, X3, O, B, map_app. repeat split; try lia.
    - apply Forall_app. split; [exact FG|]. constructor; [lia|constructor].
    - rewrite concat_app. cbn [concat]. rewrite !app_nil_r. exact MONO. }
  apply anext_step in H as [CR [(i & -> & H)|H]].
  - exists gs, held. inversion H; subst; cbn; repeat split; auto.
  - inversion H; subst; cbn [a_out a_buf a_num flush set_work set_buf set_queue set_crashed];
      try (exists gs, held; cbn; repeat split; auto; fail); try (exact (FLUSH (flush s) eq_refl eq_refl eq_refl)).
    + assert (IE : In e (accf (tr ++ [Tau]))) by (rewrite accf_app; apply in_or_app; left; apply QA; rewrite H1; now left).
      exists gs, (held ++ [b]). rewrite B, N, concat_app, app_length. cbn [concat length]. rewrite app_nil_r. repeat split; auto; try lia.
      rewrite app_assoc. apply Forall_app. split; [exact MONO|]. constructor; [eauto|constructor].
    + assert (IE : In e (accf (tr ++ [Wrote ByBatch (a_buf s ++ b)]))) by (rewrite accf_app; apply in_or_app; left; apply QA; rewrite H1; now left).
      exists (gs ++ [held ++ [b]]), []. rewrite B in IE, MONO. rewrite O, B, map_app. cbn [map]. rewrite concat_app. cbn [concat]. rewrite app_nil_r. repeat split; auto; try lia.
      * apply Forall_app. split; [exact FG|]. constructor; [|constructor]. rewrite app_length. cbn [length]. lia.
      * rewrite concat_app. cbn [concat]. rewrite !app_nil_r, app_assoc. apply Forall_app. split; [exact MONO|]. constructor; [eauto|constructor].
Qed.
(** An asynchronous output, at any moment of any execution with any goroutines, if no text of an
    accepted event is longer than [L]. *)
Theorem C84_async : forall C T c m L progs f tr s f' w', rc_kind c = BySize m -> 0 < m -> 0 < rc_maxRolls c -> tmp_ok c ->
  holds c (f_dir f) (mkLog [] None) -> stores C T c smooth progs f tr s f' w' -> Z.of_nat (length (a_out s)) < 2 ^ 63 ->
  1 <= ac_batch C -> 0 <= L ->
  (forall es e b, accepted tr es -> In e es -> ac_fmt C e = Ok b -> Z.of_nat (length b) <= L) ->
  uses_at_most T c (f_dir f') (rc_maxRolls c + 1) (m - 1 + ac_batch C * L).
Proof.
  intros C T c m L progs f tr s f' w' K MP RP TO HO ST RM B1 LP LE.
  destruct (stores_happens _ _ _ _ _ _ _ _ _ _ ST) as (hs & PU & HA). destruct (put_chunks _ _ PU) as (CH & LN & HW).
  destruct (groups_bounded _ _ _ _ B1 (stores_reach _ _ _ _ _ _ _ _ _ _ ST)) as (gs & held & O & _ & _ & _ & FG & FT).
  refine (proj1 (C84_one_process T c m (ac_batch C * L) f hs f' w' K MP RP TO HA HW _ ltac:(nia) HO _)); [|now rewrite LN].
  intros b k e I. assert (IB : In b (a_out s)) by (rewrite <- CH; apply in_flat_map; exists (HWrite b k e); split; [exact I|now left]).
  rewrite O in IB. apply in_map_iff in IB as (g & <- & IG). rewrite Forall_forall in FG. specialize (FG g IG).
  assert (FL : Forall (fun t => Z.of_nat (length t) <= L) g).
  { apply Forall_forall. intros t IT. apply Forall_app in FT as [FT _]. rewrite Forall_forall in FT.
    destruct (FT t) as (e0 & IE & FE); [apply in_concat; eauto|]. exact (LE _ _ _ (accf_spec tr) IE FE). }
  enough (Z.of_nat (length (concat g)) <= Z.of_nat (length g) * L) by nia.
  clear - FL. induction FL as [|t g H FL IH]; cbn [concat length]; [cbn; lia|]. rewrite app_length. lia.
Qed.
Print Assumptions C84_async.

(** ** Rolling by time *)
(** Processes that write once each, with their readings of the clock. *)
Inductive lives (P : tparse) (c : roll_conf) : fs -> list (str * str) -> fs -> Prop :=
| lv_nil f : lives P c f [] f
| lv_one f b s f1 w1 ps f2 : timed P c smooth f w_new [(b, [s])] f1 w1 -> lives P c f1 ps f2 -> lives P c f ((b, s) :: ps) f2.
(** They never roll, whatever the periods: the first write of a process takes the period to be its own. *)
Theorem C84_time_once_never_rolls : forall P c p f ps f' x0, rc_kind c = ByTime p -> rc_fullName c = false -> rc_archive c = ArchiveNone ->
  (forall b s, In (b, s) ps -> s <> []) -> lives P c f ps f' -> f_dir f (rc_file c) = Some (Reg x0) ->
  f_dir f' (rc_file c) = Some (Reg (x0 ++ concat (map fst ps))).
Proof.
  intros P c p f ps f' x0 K FN AR NE H. revert x0 NE. induction H as [f|f b s f1 w1 ps f2 TI H IH]; intros x0 NE D.
  - cbn. now rewrite app_nil_r.
  - assert (NS : s <> []) by (apply (NE b s); now left).
    destruct (C43_each_period_its_file P c p x0 f (b, [s]) [] f1 w1 K FN TI (or_intror D) (or_introl AR)) as [G _].
    + cbn. intros t [<-|[]]. exact NS.
    + cbn. intros l1 a l2 l3 E. destruct l1 as [|? [|? ?]]; try discriminate. destruct l2; discriminate.
    + cbn [last period snd] in G. unfold written_in in G. cbn [filter] in G. unfold period in G. cbn [snd last] in G. rewrite str_eqb_refl in G.
      cbn [map concat fst] in G. rewrite app_nil_r in G. rewrite (IH (x0 ++ b)); [|intros b' s' I; apply (NE b' s'); now right|exact G].
      cbn [map fst concat]. now rewrite app_assoc.
Qed.
Print Assumptions C84_time_once_never_rolls.
Fixpoint lived (P : tparse) (c : roll_conf) (bs : list str) (s : sim) : option (list (str * str) * bool * sim) :=
  match bs with
  | [] => Some ([], true, s)
  | b :: bs' =>
    match exec (rw_Write P c w_new b) s with
    | Some (_, tr, s1) =>
      match times tr, lived P c bs' s1 with [t], Some (ps, ok, s2) => Some ((b, t) :: ps, forallb smoothb tr && ok, s2) | _, _ => None end
    | None => None
    end
  end.
Lemma lived_lives P c bs : forall s ps s', finite (s_dir s) (s_names s) -> lived P c bs s = Some (ps, true, s') -> lives P c (fs_of s) ps (fs_of s').
Proof.
  induction bs as [|b bs IH]; intros s ps s' F H; cbn in H.
  - injection H as <- <-. constructor.
  - destruct (exec (rw_Write P c w_new b) s) as [[[[w1 [k e]] tr] s1]|] eqn:E; [|discriminate].
    destruct (times tr) as [|t [|? ?]] eqn:T; try discriminate. destruct (lived P c bs s1) as [[[ps1 ok] s2]|] eqn:E1; [|discriminate].
    injection H as <- G <-. apply andb_true_iff in G as [G ->]. apply exec_sound in E as [R F1]; [|exact F].
    apply (lv_one P c _ b t (fs_of s1) w1); [|now apply IH]. rewrite <- T. econstructor; [exact R|now apply smoothb_ok|constructor].
Qed.
(** So the log file holds all hours, and there are no backups: three processes. *)
Theorem C84_time_refuted : exists P c p f f', rc_kind c = ByTime p /\ lives P c f [($"u;", $"01"); ($"v;", $"02"); ($"w;", $"03")] f' /\
  map (f_dir f) [$"a"; $"a.01"; $"a.02"; $"a.03"] = [None; None; None; None] /\
  map (f_dir f') [$"a"; $"a.01"; $"a.02"; $"a.03"] = [Some (Reg ($"u;v;w;")); None; None; None].
Proof.
  set (s := sim_of [] ADir [] [$"01"; $"02"; $"03"]).
  destruct (lived hourP (hours 0) [$"u;"; $"v;"; $"w;"] s) as [[[ps ok] s']|] eqn:E.
  - assert (X : option_map (fun r => (fst r, map (s_dir (snd r)) [$"a"; $"a.01"; $"a.02"; $"a.03"])) (lived hourP (hours 0) [$"u;"; $"v;"; $"w;"] s) =
      Some ([($"u;", $"01"); ($"v;", $"02"); ($"w;", $"03")], true, [Some (Reg ($"u;v;w;")); None; None; None])) by (vm_compute; reflexivity).
    rewrite E in X. cbn [option_map fst snd] in X. assert (D : map (f_dir (fs_of s')) [$"a"; $"a.01"; $"a.02"; $"a.03"] = [Some (Reg ($"u;v;w;")); None; None; None])
      by (exact (f_equal (fun r => match r with Some (_, y) => y | None => [] end) X)).
    injection X as -> -> _.
    exists hourP, (hours 0), ($"15"), (fs_of s), (fs_of s'). split; [reflexivity|]. split.
    + apply (lived_lives hourP (hours 0) [$"u;"; $"v;"; $"w;"] s); [apply sim_finite; constructor|exact E].
    + split; [reflexivity|exact D].
  - exfalso. assert (X : match lived hourP (hours 0) [$"u;"; $"v;"; $"w;"] s with Some _ => true | None => false end = true) by (vm_compute; reflexivity).
    rewrite E in X. discriminate.
Qed.
Print Assumptions C84_time_refuted.

(** Example: size 3, two backups, writes of up to three bytes, three processes; no process but the last writes
    once. The bound for the files is 8, and 6 is reached. *)
Definition disk_ops : list hop :=
  [HWrite ($"ab") 2 false; HWrite ($"cde") 3 false; HRestart; HWrite ($"f") 1 false; HWrite ($"gh") 2 false; HWrite ($"ijk") 3 false; HRestart; HWrite ($"l") 1 false].
Example C84_ex : exists f' w', happens noP (exc (BySize 3) 2 Postfix ArchiveNone) smooth (fs_of (sim_of [] ADir [] [])) w_new disk_ops f' w' /\
  writes_up_to 3 disk_ops /\ never_once disk_ops /\ restarts disk_ops = 2 /\ holds (exc (BySize 3) 2 Postfix ArchiveNone) (f_dir (fs_of (sim_of [] ADir [] []))) (mkLog [] None) /\
  map (f_dir f') [$"a.1"; $"a.2"; $"a"] = [Some (Reg ($"abcdef")); None; Some (Reg ($"ghijkl"))].
Proof.
  assert (H : show noP (exc (BySize 3) 2 Postfix ArchiveNone) [SWrite ($"ab"); SWrite ($"cde"); SRestart; SWrite ($"f"); SWrite ($"gh"); SWrite ($"ijk"); SRestart; SWrite ($"l")]
      (sim_of [] ADir [] []) [$"a.1"; $"a.2"; $"a"] =
    Some (disk_ops, true, [Some (Reg ($"abcdef")); None; Some (Reg ($"ghijkl"))])) by (vm_compute; reflexivity).
  apply show_happens in H as (f' & w' & H & D); [|apply sim_finite; constructor].
  exists f', w'. split; [exact H|]. split.
  { intros b k e I. cbn in I. repeat (destruct I as [I|I]; [try discriminate I; injection I as <- _ _; cbn; lia|]). destruct I. }
  split; [|split; [reflexivity|split; [|exact D]]].
  - intros h1 b k e h2 E. unfold disk_ops in E.
    do 9 (destruct h1 as [|? h1]; cbn [app] in E; [discriminate E|injection E as _ E]). destruct h1; discriminate E.
  - split; [split; constructor|]. split; [reflexivity|]. split; [intros z x []|]. intros r n z BN NU X. now destruct X.
Qed.

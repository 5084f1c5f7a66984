(** Property C85: what a failing disk costs. *)
From Verif Require Import GoStr Strconv Utf8 LevelModel EventModel LayoutModel LayoutSpec LayoutProofs FormatSpec ConfModel ConfProofs OutputModel OutputSpec OutputProofs
  WorldModel WorldSpec WorldBase WorldInv WorldProofs LogProofs P_Conf P_Hier P_Log EndModel EndSpec EndProofs.
From Verif Require Import RollModel RollSpec RollExec RollProofs RollSizeProofs RollArchProofs RollDirProofs RollRunProofs P_Output P_RollSize P_RollTime P_End.
From Verif Require Import AsyncModel AsyncSpec AsyncProofs P_Async AsyncEndModel AsyncEndSpec AsyncEndProofs P_AsyncEnd P_AsyncTime RollTimeProofs FaultSpec FaultTimeProofs.
Local Open Scope Z_scope.

Lemma smooth_dec x : smooth x \/ ~ smooth x.
Proof.
  destruct x as [o r]. destruct o, r; cbn; auto; try (destruct ok; auto; right; discriminate).
  all: match goal with |- context[In RdErr ?l] => assert (D : {In RdErr l} + {~ In RdErr l}) by (apply in_dec; decide equality; apply list_eq_dec; decide equality; [apply Bool.bool_dec|apply list_eq_dec, ascii_dec]); destruct D; tauto end.
Qed.
Lemma failures_some tr : exists n, failures tr n.
Proof.
  induction tr as [|x tr [n IH]]; [exists 0%nat; constructor|]. destruct (smooth_dec x); [exists n|exists (S n)]; now constructor.
Qed.
Lemma failures_none tr : failures tr 0 <-> Forall smooth tr.
Proof.
  split.
  - intros H. remember 0%nat as n eqn:E. induction H; [constructor|constructor; auto|discriminate].
  - induction 1; now constructor.
Qed.
(** Histories of writes are attempts. *)
Definition tells (h : hop) (a : attempt) : Prop := exists e, h = HWrite (t_text a) (t_wrote a) e.
Lemma happens_attempts P c (good : fsop * fsres -> Prop) f w hs f' w' : happens P c good f w hs f' w' -> forall ws, Forall2 put_of ws hs ->
  exists l, attempts P c good f w l f' w' /\ map t_text l = ws /\ Forall2 tells hs l.
Proof.
  induction 1 as [f w|f w b tr f1 w1 k err hs f2 w2 R G HS IH|f w b tr f1 hs f2 w2 R G HS IH|f w hs f2 w2 HS IH]; intros ws PU; inversion PU as [|b' h' ws' hs' (k' & e' & X) PU']; subst; try discriminate.
  - exists []. repeat constructor.
  - injection X as -> -> ->. destruct (IH _ PU') as (l & A & B & D). destruct (failures_some tr) as [n N].
    exists (mkAt b' n k' :: l). split; [econstructor; eassumption|]. split; [cbn; now rewrite B|]. constructor; [exists e'; reflexivity|exact D].
Qed.
Lemma attempts_happens P c (good : fsop * fsres -> Prop) f w l f' w' : attempts P c good f w l f' w' ->
  exists hs, happens P c good f w hs f' w' /\ Forall2 put_of (map t_text l) hs /\ Forall2 tells hs l.
Proof.
  induction 1 as [f w|f w b n k e tr f1 w1 rest f2 w2 R G N _ (hs & A & B & D)].
  - exists []. repeat constructor.
  - exists (HWrite b k e :: hs). split; [econstructor; eassumption|]. split; cbn; constructor; auto; [exists k, e; reflexivity|exists e; reflexivity].
Qed.
Lemma tells_parts hs l : Forall2 tells hs l -> forall ps, parts hs ps -> ps = map remains l.
Proof.
  induction 1 as [|h a hs l (e & ->) H IH]; intros ps PA; inversion PA; subst; [reflexivity|]. cbn. f_equal. auto.
Qed.

(** ** The files *)
(** With retention: files that were removed are gone as a whole; the others hold the stream. *)
Lemma sublist_filter {A} (p : A -> bool) l : sublist (filter p l) l.
Proof. induction l as [|x l IH]; cbn; [constructor|]. destruct (p x); now constructor. Qed.
Lemma sublist_refl {A} (l : list A) : sublist l l.
Proof. induction l; now constructor. Qed.
Lemma sublist_app {A} (a b a' b' : list A) : sublist a b -> sublist a' b' -> sublist (a ++ a') (b ++ b').
Proof.
  intros H H'. induction H as [b|x a b H IH|x a b H IH]; cbn; [|now constructor|now constructor].
  induction b; cbn; [exact H'|now constructor].
Qed.
Lemma sublist_map {A B} (f : A -> B) a b : sublist a b -> sublist (map f a) (map f b).
Proof. induction 1; cbn; now constructor. Qed.
Lemma sublist_trans {A} (a b d : list A) : sublist a b -> sublist b d -> sublist a d.
Proof.
  intros H H'. revert a H. induction H' as [|x b d H' IH|x b d H' IH]; intros a H.
  - inversion H; constructor.
  - inversion H; subst; constructor; auto.
  - constructor. auto.
Qed.
Lemma put_files m b k l l' : put m b k l l' -> forall fs, sublist (map snd (l_backups l)) fs ->
  exists fs', sublist (map snd (l_backups l')) fs' /\ concat fs' ++ bytes (l_current l') = concat fs ++ bytes (l_current l) ++ firstn k b.
Proof.
  destruct 1 as [l K|bs cur KL|bs cur n keep new NX KL NW]; intros fs H; cbn [l_backups l_current] in *.
  - exists fs. subst k. cbn. rewrite app_nil_r. auto.
  - exists fs. cbn. auto.
  - exists (fs ++ [cur]). split.
    + apply (sublist_trans _ (map snd (bs ++ [(n, cur)]))).
      * apply sublist_map. rewrite <- (split_old m (bs ++ [(n, cur)])) at 3. apply sublist_app; [apply sublist_filter|apply sublist_refl].
      * rewrite map_app. apply sublist_app; [exact H|apply sublist_refl].
    + rewrite concat_app. cbn. rewrite app_nil_r, <- app_assoc. do 2 f_equal. destruct NW as [[-> ->]| ->]; reflexivity.
Qed.
Lemma steps_files m l hs l' : steps (fault_step m) l hs l' -> forall fs, sublist (map snd (l_backups l)) fs ->
  exists fs' ps, sublist (map snd (l_backups l')) fs' /\ parts hs ps /\ concat fs' ++ bytes (l_current l') = concat fs ++ bytes (l_current l) ++ concat ps.
Proof.
  intros H. induction H as [s|s h s1 hs s2 ST HS IH]; intros fs SL.
  - exists fs, []. split; [exact SL|]. split; [constructor|]. cbn. now rewrite app_nil_r.
  - assert (X : exists fs1 p, sublist (map snd (l_backups s1)) fs1 /\ concat fs1 ++ bytes (l_current s1) = concat fs ++ bytes (l_current s) ++ p /\
        (forall ps, parts hs ps -> parts (h :: hs) (p :: ps))).
    { destruct ST as [b k err l l1 PT ER|b k l l1 PT|l].
      - assert (KL : (k <= length b)%nat) by (destruct PT; subst; lia). destruct (put_files _ _ _ _ _ PT _ SL) as (fs1 & A & B). exists fs1, (firstn k b). split; [exact A|]. split; [exact B|]. intros ps PA. now constructor.
      - assert (KL : (k <= length b)%nat) by (destruct PT; subst; lia). destruct (put_files _ _ _ _ _ PT _ SL) as (fs1 & A & B). exists fs1, (firstn k b). split; [exact A|]. split; [exact B|]. intros ps PA. now constructor.
      - exists fs, []. split; [exact SL|]. split; [now rewrite app_nil_r|]. intros ps PA. now constructor. }
    destruct X as (fs1 & p & A & B & D). destruct (IH _ A) as (fs2 & ps & A2 & B2 & D2).
    exists fs2, (p :: ps). split; [exact A2|]. split; [now apply D|]. rewrite D2. cbn. rewrite !app_assoc. f_equal. rewrite B. now rewrite !app_assoc.
Qed.
(** Whatever fails, whenever: the stream on disk is that of the writes, in order, each as far as it said; retention and
    failed removals take or leave whole files. *)
Theorem C85_files : forall P c m good f ws f' w' l, rc_kind c = BySize m -> tmp_ok c ->
  attempts P c good f w_new ws f' w' -> holds c (f_dir f) l -> room (l_backups l) (length ws) ->
  exists l' fs, holds c (f_dir f') l' /\ sublist (map snd (l_backups l')) fs /\
    concat fs ++ bytes (l_current l') = on_disk l ++ concat (map remains ws) /\ (rc_maxRolls c <= 0 -> on_disk l' = on_disk l ++ concat (map remains ws)).
Proof.
  intros P c m good f ws f' w' l K TO AT HO RM. destruct (attempts_happens _ _ _ _ _ _ _ _ AT) as (hs & HA & PU & TE).
  destruct (put_chunks _ _ PU) as (_ & LN & _). rewrite map_length in LN.
  destruct (C40_any_faults P c m good f hs f' w' l K TO HA HO) as (l' & ST & HO'); [now rewrite LN|].
  destruct (steps_files _ _ _ _ ST _ (sublist_refl _)) as (fs & ps & SL & PA & E). rewrite (tells_parts _ _ TE _ PA) in E.
  exists l', fs. split; [exact HO'|]. split; [exact SL|]. unfold on_disk. split; [now rewrite <- app_assoc|].
  intros MR. destruct (steps_disk _ _ _ _ MR ST) as (ps' & PA' & E'). rewrite (tells_parts _ _ TE _ PA') in E'. exact E'.
Qed.
Print Assumptions C85_files.
(** Faults in writing, changing modes, removing and archiving: a text is whole unless something failed in its own write.
    Rolling by size or by time. *)
Lemma safe_smooth {A} (R : A -> Prop) p : safe harmless R p -> safe smooth R p.
Proof.
  induction 1 as [a Ra|o k H IH]; constructor; [exact Ra|]. intros r f f' E S. apply (IH r f f' E). unfold harmless. cbn [fst]. destruct o; auto.
Qed.
Lemma whole_safe P c w b : plain c -> alive c w -> safe smooth (fun x => snd x = (length b, false)) (rw_Write P c w b).
Proof.
  intros PL AL. unfold rw_Write.
  apply (safe_bind _ (fun x => opened c (fst x) \/ (w_file (fst x) = None /\ snd x = false))).
  { unfold needsToRoll. unfold alive in AL. destruct (rc_kind c) as [m|p].
    - constructor. cbn. destruct AL as [AL|[AL L]]; [auto|]. right. split; [exact AL|]. apply Z.leb_gt. exact L.
    - apply (safe_bind _ (fun _ => True)); [apply safe_any|]. intros s _.
      destruct AL as [AL|[AL L]].
      + destruct (w_period w); constructor; left; exact AL.
      + rewrite L. constructor. right. auto. }
  intros [w1 need] W1. cbn [fst snd] in W1.
  apply (safe_bind _ (fun x => (opened c (fst x) \/ w_file (fst x) = None) /\ snd x = false)).
  { destruct need; [|constructor; tauto]. destruct W1 as [W1|[_ X]]; [|discriminate].
    apply (safe_weaken _ _ _ _ (safe_smooth _ _ (live_roll P c w1 W1))). tauto. }
  intros [w2 err] [W2 X]. cbn [fst snd] in W2, X. subst err.
  apply (safe_bind _ (fun x => opened c (fst x) /\ snd x = false)).
  { destruct (w_file w2) eqn:E; [constructor|apply safe_smooth; now apply live_create]. destruct W2 as [W2|W2]; [auto|discriminate]. }
  intros [w3 err] [W3 X]. cbn [fst snd] in W3, X. subst err. destruct W3 as [W3 N3]. rewrite W3.
  apply (safe_bind _ (fun r => r = RWrote (length b) true)).
  - apply safe_op'. intros r f f' E S. apply eff_write in E as (k & ok & -> & _ & Q & _). cbn in S. subst ok. now rewrite Q.
  - intros r ->. constructor. reflexivity.
Qed.
Lemma own_faults P c f w ws f' w' : plain c -> match rc_kind c with BySize m => 0 < m | ByTime _ => True end -> alive c w ->
  attempts P c harmless f w ws f' w' -> own_faults_only ws.
Proof.
  intros PL MP AL AT. revert AL. induction AT as [f w|f w b n k e tr f1 w1 rest f2 w2 R G N AT IH]; intros AL; [constructor|].
  assert (H1 : happens P c harmless f w [HWrite b k e] f1 w1) by (econstructor; [exact R|exact G|constructor]).
  assert (AL1 : alive c w1) by exact (alive_history P c PL _ _ _ _ _ MP H1 AL).
  constructor; [|now apply IH]. cbn. intros ->. apply failures_none in N. unfold whole. cbn.
  pose proof (safe_runs _ _ _ _ _ _ _ (whole_safe P c w b PL AL) R N) as Q. cbn in Q. congruence.
Qed.
Theorem C85_own_faults_partial : forall P c f ws f' w', match rc_kind c with BySize m => 0 < m | ByTime _ => rc_fullName c = false end ->
  attempts P c harmless f w_new ws f' w' -> own_faults_only ws.
Proof.
  intros P c f ws f' w' K AT.
  assert (PL : plain c) by (unfold plain; destruct (rc_kind c); eauto).
  assert (MP : match rc_kind c with BySize m => 0 < m | ByTime _ => True end) by (destruct (rc_kind c); auto).
  apply (own_faults P c f w_new ws f' w' PL MP); [|exact AT]. apply alive_new. exact MP.
Qed.
Print Assumptions C85_own_faults_partial.
Lemma attempts_weaken P c (g1 g2 : fsop * fsres -> Prop) f w ws f' w' : (forall x, g1 x -> g2 x) -> attempts P c g1 f w ws f' w' -> attempts P c g2 f w ws f' w'.
Proof. intros G. induction 1; econstructor; eauto using Forall_impl. Qed.

(** ** From the log calls to the files *)
(** A synchronous output: the texts of the events delivered, each as far as its write said, in the order of the calls. *)
Theorem C85_sync : forall P T c m good i x x' h W f os W' f' w' l,
  reach P W -> nth_error (w_heap W) i = Some x -> os_sink (o_spec x) = SinkRolling c -> os_async (o_spec x) = None ->
  built h (o_fmt x) -> rc_kind c = BySize m -> 0 < m -> tmp_ok c -> holds c (f_dir f) l ->
  session P T c good i W f w_new os W' f' w' ->
  nth_error (w_heap W') i = Some x' -> room (l_backups l) (length (o_writes x') - length (o_writes x)) ->
  exists evs ws l' fs, deliveries P i W os evs /\ written (p_env P) h (os_threshold (o_spec x)) evs (map t_text ws) /\
    attempts T c good f w_new ws f' w' /\ holds c (f_dir f') l' /\ sublist (map snd (l_backups l')) fs /\
    concat fs ++ bytes (l_current l') = on_disk l ++ concat (map remains ws) /\
    (rc_maxRolls c <= 0 -> on_disk l' = on_disk l ++ concat (map remains ws)) /\
    ((forall y, good y -> harmless y) -> own_faults_only ws).
Proof.
  intros P T c m good i x x' h W f os W' f' w' l R Hx S A B K MP TO HO HS Hx' RM.
  destruct (session_runs _ _ _ _ _ _ _ _ _ _ _ _ HS x h R Hx (rolling_sync _ _ S A) B)
    as (evs & ts & hs & x2 & D & WR & PU & HA & _ & Hx2 & E & _ & _).
  rewrite Hx' in Hx2. injection Hx2 as <-.
  destruct (happens_attempts _ _ _ _ _ _ _ _ HA _ PU) as (ws & AT & MT & _). subst ts.
  destruct (C85_files T c m good f ws f' w' l K TO AT HO) as (l' & fs & HO' & SL & E1 & E2).
  { rewrite E, app_length, map_length in RM. replace (length ws) with (length (o_writes x) + length ws - length (o_writes x))%nat by lia. exact RM. }
  exists evs, ws, l', fs. split; [exact D|]. split; [exact WR|]. split; [exact AT|]. split; [exact HO'|]. split; [exact SL|]. split; [exact E1|]. split; [exact E2|].
  intros G. apply (C85_own_faults_partial T c f ws f' w'); [now rewrite K|exact (attempts_weaken _ _ _ _ _ _ _ _ _ G AT)].
Qed.
Print Assumptions C85_sync.
(** An asynchronous output, any goroutines and any schedule: the same for the groups that the worker writes at once. *)
Theorem C85_async : forall C T c m good progs f tr s f' w' l, rc_kind c = BySize m -> 0 < m -> tmp_ok c ->
  holds c (f_dir f) l -> stores C T c good progs f tr s f' w' -> a_crashed s = false -> room (l_backups l) (length (a_out s)) ->
  exists taken waiting groups held ws l' fs, accepted tr (taken ++ waiting) /\ queued (a_queue s) waiting /\
    texts C taken (concat groups ++ held) /\ a_buf s = concat held /\ map t_text ws = map (@concat _) groups /\
    attempts T c good f w_new ws f' w' /\ holds c (f_dir f') l' /\ sublist (map snd (l_backups l')) fs /\
    concat fs ++ bytes (l_current l') = on_disk l ++ concat (map remains ws) /\
    (rc_maxRolls c <= 0 -> on_disk l' = on_disk l ++ concat (map remains ws)) /\
    ((forall y, good y -> harmless y) -> own_faults_only ws).
Proof.
  intros C T c m good progs f tr s f' w' l K MP TO HO ST CR RM.
  destruct (areach_cont _ _ _ _ (stores_reach _ _ _ _ _ _ _ _ _ _ ST)) as (tk & hd & segs & held & A & X & O & OL & B & N & HD & LT & WK).
  rewrite CR in HD. subst hd. cbn [app] in A.
  destruct (stores_happens _ _ _ _ _ _ _ _ _ _ ST) as (hs & PU & HA).
  destruct (happens_attempts _ _ _ _ _ _ _ _ HA _ PU) as (ws & AT & MT & _).
  destruct (C85_files T c m good f ws f' w' l K TO AT HO) as (l' & fs & HO' & SL & E1 & E2).
  { rewrite <- MT, map_length in RM. exact RM. }
  exists tk, (qevs (a_queue s)), segs, held, ws, l', fs. rewrite <- A, MT, <- O.
  split; [apply accf_spec|]. split; [apply qevs_spec|]. split; [exact X|]. split; [exact B|]. split; [reflexivity|]. split; [exact AT|].
  split; [exact HO'|]. split; [exact SL|]. split; [exact E1|]. split; [exact E2|].
  intros G. apply (C85_own_faults_partial T c f ws f' w'); [now rewrite K|exact (attempts_weaken _ _ _ _ _ _ _ _ _ G AT)].
Qed.
Print Assumptions C85_async.
(** ** Rolling by time *)
Lemma clocked_attempts P c good f w ws R f' w' : clocked P c good f w ws R f' w' -> attempts P c good f w ws f' w'.
Proof. induction 1; econstructor; eassumption. Qed.
Lemma attempts_clocked P c good f w ws f' w' : attempts P c good f w ws f' w' -> exists R, clocked P c good f w ws R f' w'.
Proof. induction 1 as [f w|f w b n k e tr f1 w1 rest f2 w2 R G N _ (R' & IH)]; [exists []; constructor|]. exists (times tr ++ R'). econstructor; eassumption. Qed.
Lemma clocked_dated P c good f w ws R f' w' : clocked P c good f w ws R f' w' -> exists hs, dated P c good f w hs R f' w' /\ Forall2 tells hs ws.
Proof.
  induction 1 as [f w|f w b n k e tr f1 w1 rest R f2 w2 RN G N _ (hs & D & T)]; [exists []; repeat constructor|].
  exists (HWrite b k e :: hs). split; [econstructor; eassumption|]. constructor; [now exists e|exact T].
Qed.
(** Any faults, a clock that does not come back: the backups made, in the order of their periods, and the log file hold the
    stream of the writes, each as far as it said, after what the log file held before. *)
Theorem C85_files_time : forall P c p good f x0 ws R f' w', rc_kind c = ByTime p -> rc_fullName c = false ->
  clocked P c good f w_new ws R f' w' -> f_dir f (rc_file c) = option_map Reg x0 ->
  (rc_archive c = ArchiveNone \/ (rc_file c <> $".log4g_tmp" /\ forall s, In s R -> ~ backup_name c s ($".log4g_tmp"))) ->
  (forall s, In s R -> s <> []) -> never_returns R ->
  exists bs cur, f_dir f' (rc_file c) = option_map Reg cur /\ sublist (map fst bs) R /\ NoDup (map fst bs) /\
    concat (map snd bs) ++ bytes cur = bytes x0 ++ concat (map remains ws) /\
    forall s y n, In (s, y) bs -> backup_name c s n -> f_dir f' n = Some (Reg y) \/ (0 < rc_maxRolls c /\ f_dir f' n = None).
Proof.
  intros P c p good f x0 ws R f' w' K FN CK F0 TM NE NR.
  destruct (clocked_dated _ _ _ _ _ _ _ _ _ CK) as (hs & DT & TE).
  destruct (kept_history P c p K FN good f w_new hs R f' w' DT [] [] x0) as (bs & cur & ps & _ & (CUR & SL & ND & BK) & PA & E).
  - split; [now apply w_ok_none|now left].
  - split; [exact F0|]. split; [constructor|]. split; [constructor|intros s y []].
  - destruct TM as [TM|[TM _]]; auto.
  - intros s I. split; [now apply NE|]. destruct TM as [TM|[_ TM]]; [now left|]. right. intros X. apply (TM s I).
    pose proof (full_backup c s) as FB. unfold tmp_name in X. rewrite X in FB. exact FB.
  - exact NR.
  - exists bs, cur. cbn [app] in *. rewrite (tells_parts _ _ TE _ PA) in E. repeat (split; [assumption|]).
    intros s y n I BN. assert (EN : n = full c s) by (now apply backup_name_full). subst n. now apply BK.
Qed.
Print Assumptions C85_files_time.
(** From the log calls: a synchronous output. *)
Theorem C85_sync_time : forall P T c p good i x h W f os W' f' w' x0,
  reach P W -> nth_error (w_heap W) i = Some x -> os_sink (o_spec x) = SinkRolling c -> os_async (o_spec x) = None ->
  built h (o_fmt x) -> rc_kind c = ByTime p -> rc_fullName c = false -> f_dir f (rc_file c) = option_map Reg x0 ->
  session P T c good i W f w_new os W' f' w' ->
  exists evs ws R, deliveries P i W os evs /\ written (p_env P) h (os_threshold (o_spec x)) evs (map t_text ws) /\
    clocked T c good f w_new ws R f' w' /\ ((forall y, good y -> harmless y) -> own_faults_only ws) /\
    ((rc_archive c = ArchiveNone \/ (rc_file c <> $".log4g_tmp" /\ forall s, In s R -> ~ backup_name c s ($".log4g_tmp"))) ->
     (forall s, In s R -> s <> []) -> never_returns R ->
     exists bs cur, f_dir f' (rc_file c) = option_map Reg cur /\ sublist (map fst bs) R /\ NoDup (map fst bs) /\
       concat (map snd bs) ++ bytes cur = bytes x0 ++ concat (map remains ws) /\
       forall s y n, In (s, y) bs -> backup_name c s n -> f_dir f' n = Some (Reg y) \/ (0 < rc_maxRolls c /\ f_dir f' n = None)).
Proof.
  intros P T c p good i x h W f os W' f' w' x0 RC Hx S A B K FN F0 HS.
  destruct (session_runs _ _ _ _ _ _ _ _ _ _ _ _ HS x h RC Hx (rolling_sync _ _ S A) B)
    as (evs & ts & hs & x2 & D & WR & PU & HA & _).
  destruct (happens_attempts _ _ _ _ _ _ _ _ HA _ PU) as (ws & AT & MT & _). subst ts. destruct (attempts_clocked _ _ _ _ _ _ _ _ AT) as (R & CK).
  exists evs, ws, R. split; [exact D|]. split; [exact WR|]. split; [exact CK|]. split.
  - intros G. apply (C85_own_faults_partial T c f ws f' w'); [now rewrite K|exact (attempts_weaken _ _ _ _ _ _ _ _ _ G AT)].
  - intros TM NE NR. exact (C85_files_time T c p good f x0 ws R f' w' K FN CK F0 TM NE NR).
Qed.
Print Assumptions C85_sync_time.
(** An asynchronous output. *)
Theorem C85_async_time : forall C T c p good progs f tr s f' w' x0, rc_kind c = ByTime p -> rc_fullName c = false ->
  f_dir f (rc_file c) = option_map Reg x0 -> stores C T c good progs f tr s f' w' -> a_crashed s = false ->
  exists taken waiting groups held ws R, accepted tr (taken ++ waiting) /\ queued (a_queue s) waiting /\
    texts C taken (concat groups ++ held) /\ a_buf s = concat held /\ map t_text ws = map (@concat _) groups /\
    clocked T c good f w_new ws R f' w' /\ ((forall y, good y -> harmless y) -> own_faults_only ws) /\
    ((rc_archive c = ArchiveNone \/ (rc_file c <> $".log4g_tmp" /\ forall s, In s R -> ~ backup_name c s ($".log4g_tmp"))) ->
     (forall s, In s R -> s <> []) -> never_returns R ->
     exists bs cur, f_dir f' (rc_file c) = option_map Reg cur /\ sublist (map fst bs) R /\ NoDup (map fst bs) /\
       concat (map snd bs) ++ bytes cur = bytes x0 ++ concat (map remains ws) /\
       forall s y n, In (s, y) bs -> backup_name c s n -> f_dir f' n = Some (Reg y) \/ (0 < rc_maxRolls c /\ f_dir f' n = None)).
Proof.
  intros C T c p good progs f tr s f' w' x0 K FN F0 ST CR.
  destruct (areach_cont _ _ _ _ (stores_reach _ _ _ _ _ _ _ _ _ _ ST)) as (tk & hd & segs & held & A & X & O & OL & B & N & HD & LT & WK).
  rewrite CR in HD. subst hd. cbn [app] in A.
  destruct (stores_happens _ _ _ _ _ _ _ _ _ _ ST) as (hs & PU & HA).
  destruct (happens_attempts _ _ _ _ _ _ _ _ HA _ PU) as (ws & AT & MT & _). destruct (attempts_clocked _ _ _ _ _ _ _ _ AT) as (R & CK).
  exists tk, (qevs (a_queue s)), segs, held, ws, R. rewrite <- A, MT, <- O.
  split; [apply accf_spec|]. split; [apply qevs_spec|]. split; [exact X|]. split; [exact B|]. split; [reflexivity|]. split; [exact CK|]. split.
  - intros G. apply (C85_own_faults_partial T c f ws f' w'); [now rewrite K|exact (attempts_weaken _ _ _ _ _ _ _ _ _ G AT)].
  - intros TM NE NR. exact (C85_files_time T c p good f x0 ws R f' w' K FN CK F0 TM NE NR).
Qed.
Print Assumptions C85_async_time.
(** Nobody is told: the calls answer the same and leave the same loggers, whatever the disk does. *)
Theorem C85_nobody_is_told : forall P T T' c c' good good' i W f w os W1 f1 w1 f2 w2 W2 f3 w3,
  session P T c good i W f w os W1 f1 w1 -> session P T' c' good' i W f2 w2 os W2 f3 w3 -> W2 = W1.
Proof.
  intros P T T' c c' good good' i W f w os W1 f1 w1 f2 w2 W2 f3 w3 H. revert f2 w2 W2 f3 w3.
  induction H as [W f w|W f w o W1 r ws hs f1 w1 os W2 f2 w2 OK F X WR HP HA HS IH]; intros g v W3 g3 v3 H'; inversion H'; subst; [reflexivity|].
  match goal with Y : WorldModel.exec P W o = Ok (?V, ?q) |- _ => rewrite X in Y; injection Y as <- <- end. eauto.
Qed.
Print Assumptions C85_nobody_is_told.

(** ** One fault *)
Lemma goes_session_any P T c (good : fsop * fsres -> Prop) i W os W' : EndModel.goes P i W os W' ->
  forall x h, reach P W -> nth_error (w_heap W) i = Some x -> sync_base x -> built h (o_fmt x) ->
  exists x' ws, nth_error (w_heap W') i = Some x' /\ o_writes x' = o_writes x ++ ws /\
    forall f w f' w' hs, Forall2 put_of ws hs -> happens T c good f w hs f' w' -> session P T c good i W f w os W' f' w'.
Proof.
  induction 1 as [W|W o W1 r os W2 OK F X G IH]; intros x h R Hx SB B.
  - exists x, []. rewrite app_nil_r. split; [exact Hx|]. split; [reflexivity|]. intros f w f' w' hs PU H. inversion PU; subst. inversion H; subst. constructor.
  - assert (R1 : reach P W1) by (econstructor; eassumption).
    assert (S : exists x1 ws, nth_error (w_heap W1) i = Some x1 /\ o_writes x1 = o_writes x ++ ws /\ o_spec x1 = o_spec x /\ o_fmt x1 = o_fmt x).
    { assert (LD : logs o \/ ~ logs o) by (destruct o; cbn; auto). destruct LD as [L|NL].
      - destruct o as [| | | |id cx v lvl fmt args now ustk| | | | | | | | | ]; try contradiction.
        assert (HN : exists n, has_name W n id).
        { cbn [WorldModel.exec] in X. unfold Printf in X. destruct (nth_error (w_loggers W) id) as [l|] eqn:E; [|discriminate].
          exists (l_name l), l. auto. }
        destruct HN as [n HN].
        destruct (log_keeps _ _ _ _ _ _ _ _ _ _ _ _ _ _ _ _ R HN F X Hx SB B) as (outs & evs & ws' & x1 & _ & _ & _ & _ & A5 & A6 & A7 & A8). eauto 6.
      - destruct (exec_keeps _ _ _ _ _ _ _ X (reach_inv _ _ R) NL F Hx) as (x1 & E1 & C). injection C as C1 C2 C3.
        exists x1, []. rewrite app_nil_r. auto. }
    destruct S as (x1 & ws & E1 & E2 & E3 & E4).
    assert (SB1 : sync_base x1) by (unfold sync_base; rewrite E3; exact SB).
    destruct (IH x1 h R1 E1 SB1) as (x2 & ws2 & F1 & F2 & F3); [now rewrite E4|].
    exists x2, (ws ++ ws2). split; [exact F1|]. split; [rewrite F2, E2; now rewrite app_assoc|].
    intros f w f' w' hs PU H. apply Forall2_app_inv_l in PU as (h1 & h2 & PU1 & PU2 & ->). apply happens_app in H as (f1 & w1 & H1 & H2).
    econstructor; [exact OK|exact F|exact X|exists x, x1; eauto|exact PU1|exact H1|eapply F3; eassumption].
Qed.
(** One close or one listing of the directory fails. *)
Lemma one_fault P c m f l t1 t2 rest o : rc_kind c = BySize m -> 0 < m -> tmp_ok c -> holds c (f_dir f) l -> room (l_backups l) 1 ->
  (exists ns, lists (f_dir f) ns) -> m <= Z.of_nat (length (bytes (l_current l) ++ t1)) -> o = RollModel.OClose \/ o = OReadDir ->
  exists f' w', attempts P c (only o) f w_new (mkAt t1 0 (length t1) :: mkAt t2 1 0 :: map (fun t => mkAt t 0 0) rest) f' w' /\
    holds c (f_dir f') (mkLog (l_backups l) (Some (bytes (l_current l) ++ t1))).
Proof.
  intros K MP TO HO RM LS LE OO.
  destruct (C36_writes_can_succeed P c m f l [t1] K MP TO HO RM LS) as (f1 & w1 & H1).
  assert (NC : forall b, ~ In (HCrash b) (map (fun b => HWrite b (length b) false) [t1])) by (intros b [X|[]]; discriminate).
  destruct (smooth_history P c m K _ _ _ _ _ l false MP TO H1 NC (winv_new c l) HO RM) as (l1 & o1 & ST & HO1 & WI).
  cbn [map] in ST, H1. inversion ST as [|s h s1 hs s2 S1 S2]; subst. inversion S2; subst. clear ST S2.
  inversion S1 as [bs cur oo b L Q|bs cur b n L NX Q|]; subst. cbn [l_backups l_current] in *.
  destruct WI as [OK1 [(X & _ & Y)|(WF & _ & y & Y & WS)]]; [discriminate|]. cbn [l_current] in Y. injection Y as <-.
  assert (R1 : exists tr, runs (rw_Write P c w_new t1) f tr f1 (w1, (length t1, false)) /\ Forall smooth tr).
  { clear - H1. inversion H1 as [|g v b tr g1 v1 k err hs g2 v2 R1 G1 HN| |]; subst. inversion HN; subst. eauto. }
  destruct R1 as (tr1 & R1 & G1).
  assert (DD : forall w, m <= w_size w -> w_file w <> Some (rc_file c, true) -> w_ok c w -> forall rest g,
    attempts P c (only o) g w (map (fun t => mkAt t 0 0) rest) g w).
  { clear - K. intros w D1 D2 OK. induction rest as [|t rest IH]; intros g; cbn [map]; [constructor|].
    eapply (at_write P c (only o) g w t 0 0 true [] g w); [|constructor|constructor|apply IH].
    unfold rw_Write, needsToRoll. rewrite K. cbn [pbind]. destruct (Z.leb_spec m (w_size w)) as [_|]; [|lia].
    assert (RL : roll P c w = Done (w, true)).
    { unfold roll. destruct (w_file w) as [[n [|]]|] eqn:WF; auto. destruct (OK _ _ WF) as [-> _]. contradiction. }
    rewrite RL. constructor. }
  assert (S0 : forall p, smooth p -> only o p) by (intros p Q; now left).
  set (w2 := match o with RollModel.OClose => set_file w1 (Some (rc_file c, false)) | _ => set_file w1 None end).
  exists f1, w2. split; [|exact HO1].
  econstructor; [exact R1|exact (Forall_impl _ S0 G1)|now apply failures_none|].
  assert (R2 : exists tr, runs (rw_Write P c w1 t2) f1 tr f1 (w2, (0%nat, true)) /\ Forall (only o) tr /\ failures tr 1).
  { unfold rw_Write, needsToRoll. rewrite K. cbn [pbind]. rewrite WS. destruct (Z.leb_spec m (Z.of_nat (length (bytes cur ++ t1)))) as [_|]; [|lia].
    unfold roll. rewrite WF. cbn [pbind RollModel.op].
    destruct OO as [-> | ->].
    - exists [(RollModel.OClose, RErr)]. split; [|split; [apply Forall_cons; [now right|constructor]|apply fl_bad; [cbn; tauto|constructor]]].
      apply r_op with (f1 := f1); [constructor|]. cbn [pbind]. constructor.
    - exists [(RollModel.OClose, ROk); (OReadDir, RErr)]. split; [|split; [apply Forall_cons; [left; exact Logic.I|apply Forall_cons; [now right|constructor]]|apply fl_ok; [exact Logic.I|apply fl_bad; [cbn; tauto|constructor]]]].
      apply r_op with (f1 := f1); [constructor|]. cbn [pbind]. unfold getSortedLogHistory, getDirFilePaths. cbn [pbind RollModel.op].
      apply r_op with (f1 := f1); [constructor|]. cbn [pbind]. constructor. }
  destruct R2 as (tr2 & R2 & G2 & N2). econstructor; [exact R2|exact G2|exact N2|].
  apply DD.
  - subst w2. destruct OO as [-> | ->]; cbn; rewrite WS; exact LE.
  - subst w2. destruct OO as [-> | ->]; cbn; congruence.
  - subst w2. destruct OO as [-> | ->]; [|now apply w_ok_none]. intros n b E. cbn in E. injection E as <- <-. exact (OK1 _ _ WF).
Qed.
(** Rolling is due and one close or one listing fails: the record of that write is lost, and every later one, although
    nothing else fails and every call returns. Any configuration by size, any calls that make at least two records. *)
Theorem C85_one_fault : forall P T c m i x x' h W f os W' l t1 t2 rest o,
  reach P W -> nth_error (w_heap W) i = Some x -> os_sink (o_spec x) = SinkRolling c -> os_async (o_spec x) = None ->
  built h (o_fmt x) -> rc_kind c = BySize m -> 0 < m -> tmp_ok c -> holds c (f_dir f) l -> room (l_backups l) 1 -> (exists ns, lists (f_dir f) ns) ->
  EndModel.goes P i W os W' -> nth_error (w_heap W') i = Some x' -> o_writes x' = o_writes x ++ t1 :: t2 :: rest ->
  m <= Z.of_nat (length (bytes (l_current l) ++ t1)) -> o = RollModel.OClose \/ o = OReadDir ->
  exists f' w', session P T c (only o) i W f w_new os W' f' w' /\
    attempts T c (only o) f w_new (mkAt t1 0 (length t1) :: mkAt t2 1 0 :: map (fun t => mkAt t 0 0) rest) f' w' /\
    holds c (f_dir f') (mkLog (l_backups l) (Some (bytes (l_current l) ++ t1))).
Proof.
  intros P T c m i x x' h W f os W' l t1 t2 rest o R Hx S A B K MP TO HO RM LS G Hx' E LE OO.
  destruct (goes_session_any P T c (only o) i W os W' G x h R Hx (rolling_sync _ _ S A) B) as (x2 & ws & Hx2 & E2 & SE).
  rewrite Hx' in Hx2. injection Hx2 as <-. rewrite E in E2. apply app_inv_head in E2. subst ws.
  destruct (one_fault T c m f l t1 t2 rest o K MP TO HO RM LS LE OO) as (f' & w' & AT & HO').
  destruct (attempts_happens _ _ _ _ _ _ _ _ AT) as (hs & HA & PU & _).
  exists f', w'. split; [|split; [exact AT|exact HO']]. apply (SE _ _ _ _ hs); [|exact HA].
  cbn [map t_text] in PU. rewrite map_map in PU. cbn [t_text] in PU. rewrite map_id in PU. exact PU.
Qed.
Print Assumptions C85_one_fault.
(** The same for an asynchronous output: of all that the worker writes, only the first group reaches the disk. *)
Theorem C85_one_fault_async : forall C T c m progs f tr s l g1 g2 rest o, rc_kind c = BySize m -> 0 < m -> tmp_ok c ->
  holds c (f_dir f) l -> room (l_backups l) 1 -> (exists ns, lists (f_dir f) ns) -> areach C progs tr s -> a_out s = g1 :: g2 :: rest ->
  m <= Z.of_nat (length (bytes (l_current l) ++ g1)) -> o = RollModel.OClose \/ o = OReadDir ->
  exists f' w', stores C T c (only o) progs f tr s f' w' /\
    attempts T c (only o) f w_new (mkAt g1 0 (length g1) :: mkAt g2 1 0 :: map (fun t => mkAt t 0 0) rest) f' w' /\
    holds c (f_dir f') (mkLog (l_backups l) (Some (bytes (l_current l) ++ g1))).
Proof.
  intros C T c m progs f tr s l g1 g2 rest o K MP TO HO RM LS AR E LE OO.
  destruct (one_fault T c m f l g1 g2 rest o K MP TO HO RM LS LE OO) as (f' & w' & AT & HO').
  destruct (attempts_happens _ _ _ _ _ _ _ _ AT) as (hs & HA & PU & _).
  exists f', w'. split; [|split; [exact AT|exact HO']]. apply (reach_stores_any C T c (only o) progs f tr s AR hs); [|exact HA].
  rewrite E. cbn [map t_text] in PU. rewrite map_map in PU. cbn [t_text] in PU. rewrite map_id in PU. exact PU.
Qed.
Print Assumptions C85_one_fault_async.

(** Rolling by time: a first record in one period; in the next one close or the listing fails, once. Nothing is written any more, however
    long the program goes on. *)
Definition in_two (o : fsop) (s1 s2 : str) (x : fsop * fsres) : Prop := only o x /\ forall q s, x = (ONow q, RText s) -> s = s1 \/ s = s2.
Theorem C85_one_fault_time : forall P c p f x0 t1 t2 rest s1 s2 o, rc_kind c = ByTime p -> p <> [] -> rc_fullName c = false ->
  s1 <> [] -> s2 <> s1 -> f_dir f (rc_file c) = option_map Reg x0 -> o = RollModel.OClose \/ o = OReadDir ->
  exists f' w', attempts P c (in_two o s1 s2) f w_new (mkAt t1 0 (length t1) :: mkAt t2 1 0 :: map (fun t => mkAt t 0 0) rest) f' w' /\
    f_dir f' (rc_file c) = Some (Reg (bytes x0 ++ t1)) /\ forall n, n <> rc_file c -> f_dir f' n = f_dir f n.
Proof.
  intros P c p [d ar] x0 t1 t2 rest s1 s2 o K NP FN N1 N2 D OO. cbn [f_dir] in D.
  set (d1 := dput d (rc_file c) (Some (Reg (bytes x0)))).
  set (d2 := dput (match x0 with None => d1 | Some _ => d end) (rc_file c) (Some (Reg (bytes x0 ++ firstn (length t1) t1)))).
  set (w1 := mkW (Some (rc_file c, true)) (rc_file c) (Z.of_nat (length (bytes x0)) + Z.of_nat (length t1)) s1).
  set (w2 := set_file w1 (match o with OReadDir => None | _ => Some (rc_file c, false) end)).
  exists (mkFs d2 ar), w2. split; [|split].
  - assert (OK : forall x, smooth x -> (forall q s, x = (ONow q, RText s) -> s = s1 \/ s = s2) -> in_two o s1 s2 x) by (intros x S Q; split; [now left|exact Q]).
    assert (G0 : (match x0 with None => d1 | Some _ => d end) (rc_file c) = Some (Reg (bytes x0))).
    { destruct x0; cbn in D; [exact D|]. unfold d1, dput. now rewrite str_eqb_refl. }
    set (tr1 := [(ONow p, RText s1); (OMkdir (rc_dirPerm c), ROk); (OOpen (rc_file c) (rc_filePerm c), ROk);
      (OStat (rc_file c), RSize (Z.of_nat (length (bytes x0)))); (OWrite (rc_file c) t1, RWrote (length t1) true)]).
    apply (at_write P c (in_two o s1 s2) _ _ t1 0 (length t1) false tr1 (mkFs d2 ar) w1).
    + unfold rw_Write, needsToRoll. rewrite K. cbn [pbind now RollModel.op w_period w_new].
      eapply r_op; [constructor; contradiction|]. cbn [pbind w_file set_period w_new].
      unfold createFile. cbn [pbind RollModel.op]. eapply r_op; [constructor|]. cbn [pbind]. unfold getCurrentFileName. rewrite K, FN. cbn [pbind].
      eapply r_op with (f1 := mkFs (match x0 with None => d1 | Some _ => d end) ar).
      { destruct x0 as [y|]; cbn in D; [eapply e_open_old; [exact D|discriminate]|now constructor]. }
      cbn [pbind RollModel.op]. eapply r_op; [apply e_stat; cbn [f_dir]; exact G0|]. cbn [pbind set_size set_file set_name w_file w_name w_size w_period w_new].
      eapply r_op; [apply e_write; [exact G0|lia|auto]|]. cbn [pbind]. constructor.
    + unfold tr1. repeat apply Forall_cons; try apply Forall_nil; apply OK; try exact Logic.I; try reflexivity; intros q s Q; try discriminate Q.
      left. congruence.
    + apply failures_none. unfold tr1. repeat apply Forall_cons; try apply Forall_nil; exact Logic.I || reflexivity.
    + assert (ROLL : forall w b, w_period w = s1 -> rw_Write P c w b = Op (ONow p) (fun r => pbind (pbind (Done (match r with RText s => s | _ => [] end)) (fun s => Done (w, negb (str_eqb s s1))))
          (fun '(w, need) => pbind (if need : bool then roll P c w else Done (w, false)) (fun '(w, err) => if err : bool then Done (w, (0%nat, true)) else
            pbind (match w_file w with None => createFile c w | Some _ => Done (w, false) end) (fun '(w, err) => if err : bool then Done (w, (0%nat, true)) else
              match w_file w with Some (n, true) => Op (OWrite n b) (fun r => match r with RWrote k ok => Done (set_size w (w_size w + Z.of_nat k), (k, negb ok)) | _ => Done (w, (0%nat, true)) end)
              | _ => Done (w, (0%nat, true)) end))))).
      { intros w b E. unfold rw_Write, needsToRoll. rewrite K. cbn [pbind now RollModel.op]. rewrite E. destruct s1 as [|a s1']; [contradiction|]. reflexivity. }
      assert (NE : str_eqb s2 s1 = false) by (destruct (str_eqb_spec s2 s1); [contradiction|reflexivity]).
      apply (at_write P c (in_two o s1 s2) _ _ t2 1 0 true ((ONow p, RText s2) :: match o with OReadDir => [(RollModel.OClose, ROk); (OReadDir, RErr)] | _ => [(RollModel.OClose, RErr)] end) (mkFs d2 ar) w2).
      * rewrite (ROLL w1 t2 eq_refl). eapply r_op; [constructor; contradiction|]. cbn [pbind]. rewrite NE. cbn [negb pbind].
        unfold roll. cbn [w_file w1 pbind RollModel.op]. unfold w2. destruct OO as [-> | ->].
        -- eapply r_op; [constructor|]. cbn [pbind]. constructor.
        -- eapply r_op; [apply e_close|]. cbn [pbind]. unfold getSortedLogHistory, getDirFilePaths. cbn [pbind RollModel.op]. eapply r_op; [apply e_readE0|]. cbn. constructor.
      * apply Forall_cons; [apply OK; [exact Logic.I|]; intros q s Q; right; congruence|]. destruct OO as [-> | ->].
        -- apply Forall_cons; [|apply Forall_nil]. split; [now right|]. intros q s Q. discriminate Q.
        -- apply Forall_cons; [|apply Forall_cons; [|apply Forall_nil]]; (split; [|intros q s Q; discriminate Q]); [left; exact Logic.I|now right].
      * apply fl_ok; [exact Logic.I|]. destruct OO as [-> | ->]; [|apply fl_ok; [exact Logic.I|]]; (apply fl_bad; [cbn; tauto|constructor]).
      * induction rest as [|t rest IH]; cbn [map]; [constructor|].
        apply (at_write P c (in_two o s1 s2) _ _ t 0 0 true [(ONow p, RText s2)] (mkFs d2 ar) w2); [| | |exact IH].
        -- rewrite (ROLL w2 t eq_refl). eapply r_op; [constructor; contradiction|]. cbn [pbind]. rewrite NE. cbn [negb pbind]. unfold roll, w2. destruct OO as [-> | ->]; cbn; constructor.
        -- apply Forall_cons; [|apply Forall_nil]. apply OK; [exact Logic.I|]. intros q s Q. right. congruence.
        -- apply failures_none. apply Forall_cons; [exact Logic.I|apply Forall_nil].
  - cbn [f_dir]. unfold d2, dput. now rewrite str_eqb_refl, firstn_all.
  - intros n N. cbn [f_dir]. assert (E : str_eqb n (rc_file c) = false) by (destruct (str_eqb_spec n (rc_file c)); [contradiction|reflexivity]).
    unfold d2, d1, dput. rewrite E. destruct x0; [reflexivity|]. now rewrite E.
Qed.
Print Assumptions C85_one_fault_time.

(** Example: C50's program, rolling at 19 bytes; the first record has 19. *)
Definition fault_conf : roll_conf := exc (BySize 19) 0 Postfix ArchiveNone.
Definition fault_out : out_spec := {| os_sink := SinkRolling fault_conf; os_async := None; os_threshold := Info |}.
Definition fault_W : world := ran ex_P [OGetLogger ($"a/b"); ONewOutput fault_out None; OSetOutputs 1 [1%nat]].
Definition fault_W' : world := match run ex_P fault_W end_os with Ok W => W | Panic => fault_W end.
Lemma fault_goes : EndModel.goes ex_P 1 fault_W end_os fault_W'.
Proof.
  unfold fault_W'. destruct (run ex_P fault_W end_os) as [W|] eqn:E.
  - apply run_goes; [vm_compute; reflexivity|exact E].
  - exfalso. assert (H : match run ex_P fault_W end_os with Ok _ => true | Panic => false end = true) by (vm_compute; reflexivity).
    rewrite E in H. discriminate.
Qed.
Lemma fault_cell : nth_error (w_heap fault_W) 1 = Some (mkOut fault_out None [] [] 0).
Proof. vm_compute. reflexivity. Qed.
Lemma fault_reach : reach ex_P fault_W.
Proof. apply ran_reach. vm_compute. reflexivity. Qed.
Lemma fault_written : option_map o_writes (nth_error (w_heap fault_W') 1) = Some end_texts.
Proof. vm_compute. reflexivity. Qed.
Lemma fault_holds : holds fault_conf (f_dir (fs_of end_sim)) (mkLog [] None).
Proof. exact (proj2 C50_ex_hypotheses). Qed.
Lemma fault_lists : exists ns, lists (f_dir (fs_of end_sim)) ns.
Proof.
  eexists. apply (listing_lists _ (s_names end_sim)). unfold end_sim. apply sim_finite. repeat constructor; intros [].
Qed.
(** Five records; one listing of the directory fails, during the second; the last three, whose writes are not disturbed,
    are lost too. *)
Theorem C85_own_faults_refuted : exists P T c m i x W f os W' f' w' ws l',
  reach P W /\ nth_error (w_heap W) i = Some x /\ os_sink (o_spec x) = SinkRolling c /\ os_async (o_spec x) = None /\
  rc_kind c = BySize m /\ 0 < m /\ rc_maxRolls c <= 0 /\ tmp_ok c /\ holds c (f_dir f) (mkLog [] None) /\
  session P T c (only OReadDir) i W f w_new os W' f' w' /\ attempts T c (only OReadDir) f w_new ws f' w' /\
  map t_text ws = end_texts /\ map t_failed ws = [0; 1; 0; 0; 0]%nat /\ holds c (f_dir f') l' /\ on_disk l' = $"WARN  [T] a/b: one" ++ [nl] /\
  ~ own_faults_only ws.
Proof.
  pose proof fault_written as EW. destruct (nth_error (w_heap fault_W') 1) as [x'|] eqn:Hx'; [|discriminate]. cbn [option_map] in EW. injection EW as EW.
  destruct (C85_one_fault ex_P noP fault_conf 19 1 (mkOut fault_out None [] [] 0) x' ByDefault fault_W (fs_of end_sim) end_os fault_W' (mkLog [] None)
    (nth 0 end_texts []) (nth 1 end_texts []) (skipn 2 end_texts) OReadDir fault_reach fault_cell eq_refl eq_refl b_default eq_refl ltac:(lia)
    (or_introl eq_refl) fault_holds) as (f' & w' & SE & AT & HO); auto using fault_goes, fault_lists.
  - split; [constructor|reflexivity].
  - vm_compute. discriminate.
  - exists ex_P, noP, fault_conf, 19, 1%nat, (mkOut fault_out None [] [] 0), fault_W, (fs_of end_sim), end_os, fault_W', f', w'.
    eexists. eexists. split; [exact fault_reach|]. split; [exact fault_cell|]. split; [reflexivity|]. split; [reflexivity|]. split; [reflexivity|].
    split; [lia|]. split; [cbn; lia|]. split; [now left|]. split; [exact fault_holds|]. split; [exact SE|]. split; [exact AT|].
    split; [reflexivity|]. split; [reflexivity|]. split; [exact HO|]. split; [vm_compute; reflexivity|].
    intros OF. apply Forall_inv_tail, Forall_inv_tail, Forall_inv in OF. specialize (OF eq_refl). vm_compute in OF. discriminate.
Qed.
Print Assumptions C85_own_faults_refuted.

(** Example for C85_own_faults_partial: the second of three writes fails (disk full). *)
Lemma smoothb_bad x : smoothb x = false -> ~ smooth x.
Proof.
  destruct x as [o r]. unfold smoothb. cbn [fst snd]. destruct o, r; cbn; try discriminate; try tauto.
  all: try (intros -> E; discriminate E).
  all: intros E H; apply Bool.negb_false_iff, existsb_exists in E as ([] & I & Q); try discriminate; auto.
Qed.
Fixpoint tries (P : tparse) (c : roll_conf) (w : wst) (bs : list str) (s : sim) : option (list attempt * list (fsop * fsres) * wst * sim) :=
  match bs with
  | [] => Some ([], [], w, s)
  | b :: bs' =>
    match exec (rw_Write P c w b) s with
    | Some ((w1, (k, e)), tr, s1) =>
      match tries P c w1 bs' s1 with
      | Some (l, tr', w2, s2) => Some (mkAt b (length (filter (fun x => negb (smoothb x)) tr)) k :: l, tr ++ tr', w2, s2)
      | None => None
      end
    | None => None
    end
  end.
Lemma count_failures tr : failures tr (length (filter (fun x => negb (smoothb x)) tr)).
Proof.
  induction tr as [|x tr IH]; cbn; [constructor|]. destruct (smoothb x) eqn:E; cbn; [apply fl_ok|apply fl_bad; [now apply smoothb_bad|]]; auto.
  assert (S : Forall smooth [x]) by (apply smoothb_ok; cbn; now rewrite E). now inversion S.
Qed.
Lemma tries_clocked P c (good : fsop * fsres -> Prop) bs : forall w s l tr w' s', finite (s_dir s) (s_names s) -> tries P c w bs s = Some (l, tr, w', s') ->
  Forall good tr -> clocked P c good (fs_of s) w l (times tr) (fs_of s') w'.
Proof.
  induction bs as [|b bs IH]; intros w s l tr w' s' F H G; cbn [tries] in H; [injection H as <- <- <- <-; constructor|].
  destruct (exec (rw_Write P c w b) s) as [[[[w1 [k e]] tr1] s1]|] eqn:E; [|discriminate].
  destruct (tries P c w1 bs s1) as [[[[l2 tr2] w2] s2]|] eqn:E2; [|discriminate]. injection H as <- <- <- <-.
  apply Forall_app in G as [G1 G2]. destruct (exec_sound _ _ _ _ _ F E) as [R F1].
  rewrite times_app. econstructor; [exact R|exact G1|apply count_failures|eapply IH; eassumption].
Qed.
Definition full_sim : sim := sim_of [] ADir [true; true; true; true; false] [].
Definition shown (x : option (list attempt * list (fsop * fsres) * wst * sim)) (ns : list str) :=
  match x with Some (l, tr, _, s) => Some (l, forallb (fun y => match fst y with OWrite _ _ => true | _ => smoothb y end) tr, map (s_dir s) ns) | None => None end.
Example C85_ex : exists f' w', attempts noP (exc (BySize 9) 0 Postfix ArchiveNone) harmless (fs_of full_sim) w_new
    [mkAt ($"u") 0 1; mkAt ($"v") 1 0; mkAt ($"w") 0 1] f' w' /\ f_dir f' ($"a") = Some (Reg ($"uw")).
Proof.
  assert (H : shown (tries noP (exc (BySize 9) 0 Postfix ArchiveNone) w_new [$"u"; $"v"; $"w"] full_sim) [$"a"] =
    Some ([mkAt ($"u") 0 1; mkAt ($"v") 1 0; mkAt ($"w") 0 1], true, [Some (Reg ($"uw"))])) by (vm_compute; reflexivity).
  destruct (tries noP (exc (BySize 9) 0 Postfix ArchiveNone) w_new [$"u"; $"v"; $"w"] full_sim) as [[[[l tr] w'] s']|] eqn:E; [|discriminate].
  cbn [shown map] in H. injection H as -> G D.
  exists (fs_of s'), w'. split; [|exact D]. eapply clocked_attempts, tries_clocked; [exact (sim_finite [] (NoDup_nil _))|exact E|].
  apply Forall_forall. intros [o r] I. pose proof (proj1 (forallb_forall _ _) G _ I) as Q. cbn [fst] in Q.
  assert (S : smoothb (o, r) = true -> smooth (o, r)) by (intros Q'; assert (S : Forall smooth [(o, r)]) by (apply smoothb_ok; cbn [forallb]; now rewrite Q'); now inversion S).
  unfold harmless. cbn [fst]. destruct o; auto.
Qed.
(** "Each period its file" (C43) does not survive a fault: one rename fails, its record is lost, and the next one of the new
    period goes behind those of the old, in the backup named after the new. *)
Definition rename_or (y : fsop * fsres) : bool :=
  smoothb y || match y with (ORename a b, RErr) => str_eqb a ($"a") && str_eqb b ($"a.01") | _ => false end.
Definition hour_sim : sim := sim_of [] ADir [true; true; true; true; true; true; false] [$"01"; $"02"; $"02"; $"02"; $"03"; $"03"].
Definition seen (x : option (list attempt * list (fsop * fsres) * wst * sim)) (ns : list str) :=
  match x with Some (l, tr, _, s) => Some (l, times tr, forallb rename_or tr, map (s_dir s) ns) | None => None end.
Theorem C85_rename_mixes_refuted : exists P c p a b f ws R f' w', rc_kind c = ByTime p /\ rc_fullName c = false /\ rc_maxRolls c <= 0 /\ rc_archive c = ArchiveNone /\
  f_dir f (rc_file c) = option_map Reg None /\ clocked P c (only (ORename a b)) f w_new ws R f' w' /\ never_returns R /\ (forall s, In s R -> s <> []) /\
  ws = [mkAt ($"u;") 0 2; mkAt ($"v;") 1 0; mkAt ($"w;") 0 2; mkAt ($"x;") 0 2] /\ R = [$"01"; $"02"; $"02"; $"02"; $"03"; $"03"] /\
  map (f_dir f') [$"a.01"; $"a.02"; $"a"] = [None; Some (Reg ($"u;w;")); Some (Reg ($"x;"))].
Proof.
  assert (H : seen (tries hourP (hours 0) w_new [$"u;"; $"v;"; $"w;"; $"x;"] hour_sim) [$"a.01"; $"a.02"; $"a"] =
    Some ([mkAt ($"u;") 0 2; mkAt ($"v;") 1 0; mkAt ($"w;") 0 2; mkAt ($"x;") 0 2], [$"01"; $"02"; $"02"; $"02"; $"03"; $"03"], true,
      [None; Some (Reg ($"u;w;")); Some (Reg ($"x;"))])) by (vm_compute; reflexivity).
  destruct (tries hourP (hours 0) w_new [$"u;"; $"v;"; $"w;"; $"x;"] hour_sim) as [[[[l tr] w'] s']|] eqn:E; [|discriminate].
  cbn [seen map] in H. injection H as EL ER G D1 D2 D3.
  exists hourP, (hours 0), ($"15"), ($"a"), ($"a.01"), (fs_of hour_sim), l, (times tr), (fs_of s'), w'.
  do 5 (split; [reflexivity || (cbn; lia)|]). split.
  { eapply tries_clocked; [exact (sim_finite [] (NoDup_nil _))|exact E|]. apply Forall_forall. intros y I.
    pose proof (proj1 (forallb_forall _ _) G _ I) as Q. apply Bool.orb_true_iff in Q as [Q|Q].
    - left. assert (X : Forall smooth [y]) by (apply smoothb_ok; cbn [forallb]; now rewrite Q). now inversion X.
    - right. destruct y as [o r]. destruct o; try discriminate. destruct r; try discriminate. apply Bool.andb_true_iff in Q as [Q1 Q2].
      destruct (str_eqb_spec from ($"a")) as [-> |]; [|discriminate]. destruct (str_eqb_spec to ($"a.01")) as [-> |]; [reflexivity|discriminate]. }
  rewrite ER, EL. split; [|split; [|split; [reflexivity|split; [reflexivity|]]]].
  - apply (C43_monotone_clock (fun s => match hourP [] s with Some z => z | None => 0 end)).
    + vm_compute. repeat constructor; discriminate.
    + intros a b Ia Ib. cbn in Ia, Ib.
      destruct Ia as [<- |[<- |[<- |[<- |[<- |[<- |[]]]]]]], Ib as [<- |[<- |[<- |[<- |[<- |[<- |[]]]]]]]; vm_compute; congruence.
  - intros s I. cbn in I. destruct I as [<- |[<- |[<- |[<- |[<- |[<- |[]]]]]]]; discriminate.
  - exact (f_equal2 cons D1 (f_equal2 cons D2 (f_equal2 cons D3 eq_refl))).
Qed.
Print Assumptions C85_rename_mixes_refuted.

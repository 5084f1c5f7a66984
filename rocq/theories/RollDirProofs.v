(** Proofs about one write on any directory: retention, foreign files, dead writers. *)
From Verif Require Import GoStr Strconv StrconvProofs ConfModel RollModel RollSpec RollProofs RollSizeProofs RollRunProofs.
From Coq Require Import Permutation Sorted.
Local Open Scope Z_scope.

Lemma write_ok P c w b f tr f' w' r : plain c -> w_ok c w -> goes (rw_Write P c w b) f tr f' (Some (w', r)) -> w_ok c w'.
Proof.
  intros PL OK G. apply write_goes in G as [[_ X]|(tr0 & tr1 & w0 & need & -> & NE & G)]; [discriminate| |exact OK].
  pose proof (needs_ok _ _ _ _ _ NE OK) as OK0.
  destruct G as [[-> G]|[-> [[-> G]|(s & rname & e & [[R X]|(f1 & w1 & tr2 & tr3 & -> & R & _ & W1 & _ & _ & G)])]]].
  - apply finish_goes in G as (_ & _ & [X|(w2 & k2 & e2 & X & OK2 & _)]); auto; [discriminate|]. injection X as <- _. exact OK2.
  - destruct G as [X|(w2 & X & OK2 & _)]; [discriminate|]. injection X as <- _. exact OK2.
  - discriminate.
  - apply finish_goes in G as (_ & _ & [X|(w2 & k2 & e2 & X & OK2 & _)]); auto using w_ok_none; [discriminate|]. injection X as <- _. exact OK2.
Qed.
Lemma happens_ok P c good f w hs f' w' : plain c -> happens P c good f w hs f' w' -> w_ok c w -> w_ok c w'.
Proof.
  intros PL H. induction H as [f w|f w b tr f1 w1 k err hs f2 w2 R S HS IH|f w b tr f1 hs f2 w2 R S HS IH|f w hs f2 w2 HS IH]; intros OK; auto.
  - apply IH. apply runs_goes in R. eapply write_ok; eassumption.
  - apply IH. now apply w_ok_none.
  - apply IH. now apply w_ok_none.
Qed.

(** Other entries than the log file, after a write. *)
Definition due (c : roll_conf) (w : wst) : Prop :=
  match rc_kind c with BySize m => m <= w_size w | ByTime p => w_period w <> [] end.
Lemma needs_due c w ts w0 : needs c w ts w0 true -> w0 = w /\ due c w.
Proof.
  intros (_ & _ & _ & N). unfold due. destruct (rc_kind c) as [m|p].
  - destruct N as (-> & N & _). split; [reflexivity|]. symmetry in N. now apply Z.leb_le in N.
  - destruct N as (s & _ & _ & [(_ & _ & N)|(N1 & -> & _)]); [discriminate|]. auto.
Qed.
Lemma write_dir P c w b f tr f' x : plain c -> w_ok c w -> goes (rw_Write P c w b) f tr f' x ->
  (forall n, n <> rc_file c -> f_dir f' n = f_dir f n) \/
  exists s rname e, due c w /\ sorted_hist P c (f_dir f) s /\ new_name c w s rname /\
    f_dir f (rc_file c) = Some e /\ f_dir f (full c rname) <> Some Dir /\
    forall n, n <> rc_file c ->
      f_dir f' n = moved (f_dir f) (rc_file c) (full c rname) e n \/
      (In n (old_rolls c (map (full c) (s ++ [rname]))) /\ f_dir f' n = None) \/
      (rc_archive c <> ArchiveNone /\ n = tmp_name /\ moved (f_dir f) (rc_file c) (full c rname) e n = None /\ f_dir f' n = Some Dir).
Proof.
  intros PL OK G. apply write_goes in G as [[-> ->]|(tr0 & tr1 & w0 & need & -> & NE & G)]; [now left| |exact OK].
  pose proof (needs_ok _ _ _ _ _ NE OK) as OK0.
  destruct G as [[-> G]|[-> G]].
  { apply finish_goes in G as (F1 & _); auto. }
  apply needs_due in NE as [-> DU].
  destruct G as [[-> G]|(s & rname & e & [[R X]|(f1 & w1 & tr2 & tr3 & -> & R & _ & W1 & _ & _ & G)])].
  - now left.
  - right. destruct R as (_ & SH & NN & E & ED & SW). exists s, rname, e.
    split; [exact DU|]. split; [exact SH|split; [exact NN|split; [exact E|split; [exact ED|intros n _; apply SW]]]].
  - right. destruct R as (_ & SH & NN & E & ED & SW). exists s, rname, e.
    split; [exact DU|]. split; [exact SH|split; [exact NN|split; [exact E|split; [exact ED|intros n Hn]]]].
    apply finish_goes in G as (F1 & _); auto using w_ok_none. rewrite (F1 n Hn). apply SW.
Qed.

(** * Sorted histories *)
Lemma hist_in P c d s r : sorted_hist P c d s -> In r s -> exists z y, backup P c (full c r) z /\ sort_key P c r = z /\ d (full c r) = Some (Reg y).
Proof.
  intros (_ & _ & E) I. apply E in I as (V & y & D). apply valid_backup in V as [z B]. exists z, y.
  split; [exact B|]. split; [|exact D]. now apply backup_key in B.
Qed.
Lemma hist_all P c d s n z y : sorted_hist P c d s -> backup P c n z -> d n = Some (Reg y) ->
  exists r, n = full c r /\ In r s /\ sort_key P c r = z.
Proof.
  intros (_ & _ & E) B D. destruct (backup_full _ _ _ _ B) as (r & ->). exists r. split; [reflexivity|].
  destruct (backup_key _ _ _ _ B) as [KE V]. split; [|exact KE]. apply E. eauto.
Qed.
Lemma strong_app {A} (R : A -> A -> Prop) l1 l2 : StronglySorted R (l1 ++ l2) -> forall a b, In a l1 -> In b l2 -> R a b.
Proof.
  induction l1 as [|x l1 IH]; cbn; intros S a b I J; [destruct I|]. inversion S as [|? ? S1 S2]; subst. rewrite Forall_forall in S2.
  destruct I as [-> |I]; [|now apply IH]. apply S2. apply in_or_app. now right.
Qed.

Section Dir.
Variables (P : tparse) (c : roll_conf) (m : Z).
Hypothesis K : rc_kind c = BySize m.
Lemma new_number w d s rname : sorted_hist P c d s -> roomy P c d -> new_name c w s rname ->
  exists z, numeral rname z /\ Forall (fun r => sort_key P c r < z) s.
Proof.
  intros SH RM NN. unfold new_name in NN. rewrite K in NN. pose proof SH as (N & S & E). apply Sorted_strong in S.
  destruct s as [|r0 s0] eqn:ES.
  - exists 1. cbn in NN. subst rname. split; [apply (numeral_Itoa 1); lia|constructor].
  - destruct (exists_last (l := r0 :: s0)) as (s' & r & EL); [discriminate|]. rewrite <- ES in *. clear ES.
    assert (I : In r s) by (rewrite EL; apply in_or_app; right; now left).
    destruct (hist_in _ _ _ _ _ SH I) as (z & y & B & KE & D). pose proof (RM _ _ _ B D) as LT.
    assert (R : - 2 ^ 63 <= z < 2 ^ 63).
    { destruct B as (r' & BN & NU). rewrite K in NU. eapply numeral_range; exact NU. }
    assert (NE : rname = Itoa (z + 1)).
    { rewrite NN. destruct s as [|q t]; [destruct I|]. rewrite EL, last_last. rewrite <- KE. unfold sort_key in *. rewrite K in *.
      rewrite wrap64_id; [reflexivity|unfold min_int64, max_int64; lia]. }
    exists (z + 1). rewrite NE. clear NN NE. split; [apply numeral_Itoa; lia|]. apply Forall_forall. intros q J.
    rewrite EL in J, S. apply in_app_or in J as [J|[<- |[]]]; [|lia].
    pose proof (strong_app _ _ _ S q r J ltac:(now left)) as Q. cbn in Q. lia.
Qed.
Lemma size_key_num r z : numeral r z -> sort_key P c r = z.
Proof. intros N. unfold sort_key. rewrite K. now apply numeral_iff in N. Qed.
Lemma hist_strong w d s rname : sorted_hist P c d s -> roomy P c d -> new_name c w s rname ->
  StronglySorted (fun a b => sort_key P c a <= sort_key P c b) (s ++ [rname]) /\ NoDup (s ++ [rname]) /\
  forall r, In r (s ++ [rname]) -> exists z, backup P c (full c r) z /\ sort_key P c r = z.
Proof.
  intros SH RM NN. destruct (new_number _ _ _ _ SH RM NN) as (z & NU & FA). pose proof SH as (N & S & E). apply Sorted_strong in S.
  pose proof (size_key_num _ _ NU) as KZ. split; [|split].
  - clear SH NN E N. induction S as [|a s S IH F]; cbn; [constructor; constructor|]. inversion FA as [|? ? F1 F2]; subst. constructor; [auto|].
    apply Forall_app. split; [exact F|]. constructor; [lia|constructor].
  - rewrite Forall_forall in FA. assert (NI : ~ In rname s) by (intros I; specialize (FA _ I); lia).
    clear -N NI. induction N as [|a s N1 N2 IH]; cbn; [constructor; [intros []|constructor]|]. constructor.
    + intros I. apply in_app_or in I as [I|[<- |[]]]; [contradiction|]. apply NI. now left.
    + apply IH. intros I. apply NI. now right.
  - intros r I. apply in_app_or in I as [I|[<- |[]]].
    + destruct (hist_in _ _ _ _ _ SH I) as (z' & y & B & KE & _). eauto.
    + exists z. split; [|exact KZ]. exists rname. split; [apply full_backup|]. now rewrite K.
Qed.
Definition keep_from (l : list str) : list str := skipn (cut (rc_maxRolls c) l) l.
Lemma old_keep l : old_rolls c (map (full c) l) = map (full c) (firstn (cut (rc_maxRolls c) l) l).
Proof. unfold old_rolls, cut. rewrite map_length. destruct (rc_maxRolls c <=? 0); [reflexivity|]. now rewrite firstn_map. Qed.
Lemma NoDup_split {A} k (l : list A) x : NoDup l -> In x (firstn k l) -> ~ In x (skipn k l).
Proof.
  revert k. induction l as [|a l IH]; intros [|k] N I J; cbn in *; try contradiction. inversion N as [|? ? N1 N2]; subst.
  destruct I as [-> |I]; [|now apply (IH k)]. apply N1. rewrite <- (firstn_skipn k l). apply in_or_app. now right.
Qed.
Lemma NoDup_skipn {A} k (l : list A) : NoDup l -> NoDup (skipn k l).
Proof. revert k. induction l as [|x l IH]; intros [|k] N; cbn; auto. inversion N; auto. Qed.

(** After a write, whatever went wrong: what is removed, and what the others are. *)
Lemma size_dir w b f tr f' x n z y : w_ok c w -> roomy P c (f_dir f) -> goes (rw_Write P c w b) f tr f' x ->
  backup P c n z -> f_dir f n = Some (Reg y) ->
  f_dir f' n = Some (Reg y) \/
  (f_dir f' n = None /\ m <= w_size w /\ 0 < rc_maxRolls c /\
   exists l, NoDup l /\ Z.of_nat (length l) = rc_maxRolls c /\
     forall n', In n' l -> exists z', backup P c n' z' /\ z <= z' /\ n' <> n /\
       (f_dir f' n' = f_dir f n' \/ f_dir f' n' = f_dir f (rc_file c)) /\ f_dir f' n' <> None).
Proof.
  intros OK RM G B D. assert (PL : plain c) by (right; eauto).
  apply write_dir in G as [G|(s & rname & e & DU & SH & NN & E & ED & G)]; auto.
  { left. rewrite G; [exact D|]. destruct (backup_full _ _ _ _ B) as (r & ->). apply full_not_file. }
  destruct (hist_strong _ _ _ _ SH RM NN) as (SS & ND & BK).
  destruct (new_number _ _ _ _ SH RM NN) as (zn & NU & FA).
  destruct (hist_all _ _ _ _ _ _ _ SH B D) as (r & -> & I & KZ).
  assert (NR : r <> rname). { intros ->. rewrite Forall_forall in FA. specialize (FA _ I). rewrite (size_key_num _ _ NU) in FA. lia. }
  rewrite old_keep in G. set (k := cut (rc_maxRolls c) (s ++ [rname])) in *.
  assert (MV : forall q, q <> rname -> moved (f_dir f) (rc_file c) (full c rname) e (full c q) = f_dir f (full c q)).
  { intros q Q. unfold moved. rewrite dput_other by (intros X; apply full_inj in X; contradiction). rewrite dput_other by apply full_not_file. reflexivity. }
  assert (TMP : forall q, In q (s ++ [rname]) -> full c q <> tmp_name).
  { intros q Q. destruct (BK q Q) as (zq & (r' & BN & Nq) & _). rewrite K in Nq. apply backup_name_full, full_inj in BN. subst r'.
    eapply tmp_not_number; eassumption. }
  destruct (G (full c r) (full_not_file c r)) as [Q|[[J Q]|(_ & T & _)]].
  - left. rewrite Q, MV by exact NR. exact D.
  - right. apply in_map_iff in J as (r' & X & J). apply full_inj in X. subst r'.
    unfold due in DU. rewrite K in DU.
    assert (MR : 0 < rc_maxRolls c). { unfold k, cut in J. destruct (Z.leb_spec (rc_maxRolls c) 0); [destruct J|lia]. }
    split; [exact Q|]. split; [exact DU|]. split; [exact MR|].
    assert (KP : (k > 0)%nat) by (destruct k; [destruct J|lia]).
    assert (KE : k = (length (s ++ [rname]) - Z.to_nat (rc_maxRolls c))%nat).
    { unfold k, cut in *. destruct (Z.leb_spec (rc_maxRolls c) 0); [lia|reflexivity]. }
    exists (map (full c) (skipn k (s ++ [rname]))). split; [|split].
    + apply map_full_nodup. now apply NoDup_skipn.
    + rewrite map_length, skipn_length. lia.
    + intros n' I'. apply in_map_iff in I' as (q & <- & I').
      assert (IQ : In q (s ++ [rname])) by (rewrite <- (firstn_skipn k (s ++ [rname])); apply in_or_app; now right).
      destruct (BK q IQ) as (zq & Bq & Kq). exists zq. split; [exact Bq|].
      rewrite <- (firstn_skipn k (s ++ [rname])) in SS.
      pose proof (strong_app _ _ _ SS r q J I') as LE. cbn in LE.
      split; [lia|]. split.
      { intros X. apply full_inj in X. subst q. exact (NoDup_split _ _ _ ND J I'). }
      assert (NQ : f_dir f' (full c q) = moved (f_dir f) (rc_file c) (full c rname) e (full c q)).
      { destruct (G (full c q) (full_not_file c q)) as [X|[[X _]|(_ & T & _)]]; [exact X| |now apply TMP in T].
        exfalso. apply in_map_iff in X as (q' & X & J'). apply full_inj in X. subst q'. exact (NoDup_split _ _ _ ND J' I'). }
      destruct (str_dec q rname) as [-> |QN].
      * rewrite NQ. unfold moved. rewrite dput_same. rewrite E. split; [now right|discriminate].
      * rewrite NQ, MV by exact QN. split; [now left|]. apply in_app_or in IQ as [IQ|[IQ|[]]]; [|congruence].
        destruct (hist_in _ _ _ _ _ SH IQ) as (_ & yq & _ & _ & Dq). congruence.
  - exfalso. apply TMP in T; [contradiction|]. apply in_or_app. now left.
Qed.

(** After a roll without faults, at most [maxRolls] backups are left. *)
Lemma size_bound w b f tr f' w' k l : w_ok c w -> roomy P c (f_dir f) -> runs (rw_Write P c w b) f tr f' (w', (k, false)) -> Forall smooth tr ->
  m <= w_size w -> 0 < rc_maxRolls c ->
  NoDup l -> (forall n, In n l -> exists z y, backup P c n z /\ f_dir f' n = Some (Reg y)) -> Z.of_nat (length l) <= rc_maxRolls c.
Proof.
  intros OK RM G S DU MR NL HL. assert (PL : plain c) by (right; eauto). apply runs_goes in G.
  apply write_goes in G as [[_ X]|(tr0 & tr1 & w0 & need & -> & NE & G)]; [discriminate| |exact OK].
  pose proof NE as (_ & _ & _ & NK). rewrite K in NK. destruct NK as (-> & NK & _).
  apply Forall_app in S as [S0 S1].
  destruct G as [[-> G]|[-> [[-> G]|(s & rname & e0 & [[R X]|(f1 & w1 & tr2 & tr3 & -> & R & GO & W1 & _ & _ & G)])]]].
  - symmetry in NK. apply Z.leb_gt in NK. lia.
  - destruct G as [X|(w2 & X & _)]; discriminate.
  - discriminate.
  - apply Forall_app in S1 as [S2 S3]. specialize (GO S2). destruct R as (_ & SH & NN & E & _ & SW).
    destruct (hist_strong _ _ _ _ SH RM NN) as (SS & ND & BK).
    apply finish_goes in G as (F1 & _); auto using w_ok_none.
    rewrite old_keep in *. set (kk := cut (rc_maxRolls c) (s ++ [rname])) in *.
    assert (IN : incl l (map (full c) (skipn kk (s ++ [rname])))).
    { intros n I. destruct (HL n I) as (z & y & B & D). destruct (backup_full _ _ _ _ B) as (r & ->).
      rewrite F1 in D by apply full_not_file.
      assert (IR : In r (s ++ [rname])).
      { destruct (str_dec r rname) as [-> |NR]; [apply in_or_app; right; now left|]. apply in_or_app. left.
        destruct SH as (_ & _ & EQ). apply EQ. destruct (backup_key _ _ _ _ B) as [_ V]. split; [exact V|].
        destruct (SW (full c r)) as [X|[[_ X]|(_ & _ & _ & X)]]; [|congruence|congruence].
        unfold moved in X. rewrite dput_other, dput_other in X; [rewrite <- X; eauto|apply full_not_file|].
        intros Y. apply full_inj in Y. contradiction. }
      rewrite <- (firstn_skipn kk (s ++ [rname])) in IR. apply in_app_or in IR as [IR|IR]; [|now apply in_map].
      exfalso. rewrite (GO (full c r)) in D; [discriminate|]. now apply in_map. }
    pose proof (NoDup_incl_length NL IN) as LE. rewrite map_length, skipn_length in LE.
    unfold kk, cut in LE. destruct (Z.leb_spec (rc_maxRolls c) 0); lia.
Qed.

(** Where a roll goes. *)
Lemma size_roll w b f tr f' x : w_ok c w -> roomy P c (f_dir f) -> goes (rw_Write P c w b) f tr f' x ->
  (forall n, n <> rc_file c -> f_dir f' n = f_dir f n) \/
  exists n z e, backup P c n z /\ (forall n' z' y, backup P c n' z' -> f_dir f n' = Some (Reg y) -> z' < z) /\
    f_dir f (rc_file c) = Some e /\ f_dir f' n = Some e /\ m <= w_size w.
Proof.
  intros OK RM G. assert (PL : plain c) by (right; eauto).
  apply write_dir in G as [G|(s & rname & e & DU & SH & NN & E & ED & G)]; auto. right.
  destruct (hist_strong _ _ _ _ SH RM NN) as (SS & ND & BK).
  destruct (new_number _ _ _ _ SH RM NN) as (zn & NU & FA).
  exists (full c rname), zn, e. unfold due in DU. rewrite K in DU.
  split; [exists rname; split; [apply full_backup|now rewrite K]|]. split; [|split; [exact E|split; [|exact DU]]].
  - intros n' z' y B D. destruct (hist_all _ _ _ _ _ _ _ SH B D) as (r & -> & I & KZ).
    rewrite Forall_forall in FA. specialize (FA _ I). lia.
  - destruct (G (full c rname) (full_not_file c rname)) as [Q|[[J Q]|(_ & T & _)]].
    + rewrite Q. unfold moved. apply dput_same.
    + exfalso. rewrite old_keep in J. apply in_map_iff in J as (r' & X & J). apply full_inj in X. subst r'.
      unfold cut in J. destruct (Z.leb_spec (rc_maxRolls c) 0) as [L|L]; [destruct J|].
      rewrite app_length in J. cbn [length] in J. rewrite firstn_app in J.
      replace (length s + 1 - Z.to_nat (rc_maxRolls c) - length s)%nat with 0%nat in J by lia.
      cbn [firstn] in J. rewrite app_nil_r in J.
      assert (I : In rname s) by (rewrite <- (firstn_skipn (length s + 1 - Z.to_nat (rc_maxRolls c)) s); apply in_or_app; now left).
      rewrite Forall_forall in FA. specialize (FA _ I). rewrite (size_key_num _ _ NU) in FA. lia.
    + exfalso. now apply tmp_not_number with (z := zn) in T.
Qed.

(** Entries stay what they are or are removed by retention. *)
Lemma size_keep w b f tr f' x n e : w_ok c w -> roomy P c (f_dir f) -> goes (rw_Write P c w b) f tr f' x ->
  n <> rc_file c -> f_dir f n = Some e -> e <> Special ->
  f_dir f' n = Some e \/ (f_dir f' n = None /\ 0 < rc_maxRolls c /\ (exists z, backup P c n z) /\ exists y, e = Reg y).
Proof.
  intros OK RM G NF D NS. assert (PL : plain c) by (right; eauto).
  apply write_dir in G as [G|(s & rname & e0 & DU & SH & NN & E & ED & G)]; auto.
  { left. now rewrite G. }
  assert (ND : n <> full c rname).
  { intros ->. destruct e as [y| |]; [|contradiction|contradiction].
    destruct (new_number _ _ _ _ SH RM NN) as (zn & NU & FA).
    assert (B : backup P c (full c rname) zn) by (exists rname; split; [apply full_backup|now rewrite K]).
    destruct (hist_all _ _ _ _ _ _ _ SH B D) as (r & X & I & KZ). apply full_inj in X. subst r.
    rewrite Forall_forall in FA. specialize (FA _ I). lia. }
  destruct (G n NF) as [Q|[[J Q]|(_ & _ & Q & _)]].
  - left. rewrite Q. unfold moved. now rewrite !dput_other.
  - right. split; [exact Q|]. rewrite old_keep in J. apply in_map_iff in J as (r & <- & J).
    unfold cut in J. destruct (Z.leb_spec (rc_maxRolls c) 0) as [L|L]; [destruct J|]. split; [lia|].
    assert (I : In r (s ++ [rname])) by (rewrite <- (firstn_skipn (length (s ++ [rname]) - Z.to_nat (rc_maxRolls c)) (s ++ [rname])); apply in_or_app; now left).
    apply in_app_or in I as [I|[<- |[]]]; [|congruence].
    destruct (hist_in _ _ _ _ _ SH I) as (z & y & B & _ & D'). split; [eauto|]. exists y. congruence.
  - exfalso. unfold moved in Q. rewrite !dput_other in Q by auto. congruence.
Qed.

(** A writer that cannot write any more. *)
Definition dead (w : wst) : Prop := m <= w_size w /\ w_file w <> Some (rc_file c, true).
Lemma dead_write w b f tr f' w' k e : w_ok c w -> dead w -> runs (rw_Write P c w b) f tr f' (w', (k, e)) ->
  w_ok c w' /\ dead w' /\ k = 0%nat /\ e = true /\ f' = f.
Proof.
  intros OK [D1 D2] G. unfold rw_Write, needsToRoll in G. rewrite K in G. cbn [pbind] in G.
  destruct (Z.leb_spec m (w_size w)) as [_|]; [|lia].
  assert (RL : roll P c w = Done (w, true)).
  { unfold roll. destruct (w_file w) as [[n [|]]|] eqn:WF; auto. destruct (OK _ _ WF) as [-> _]. contradiction. }
  rewrite RL in G. cbn [pbind] in G. apply runs_done in G as (-> & -> & G). injection G as -> -> ->.
  repeat split; auto. apply (OK _ _ H). apply (OK _ _ H).
Qed.
End Dir.

(** Closed files: only in dead writers. *)
Lemma finish_file c w b f tr f' w' r : plain c -> w_ok c w -> goes (finish c w b) f tr f' (Some (w', r)) ->
  w' = w \/ w_file w' = None \/ w_file w' = Some (rc_file c, true).
Proof.
  intros PL OK H. unfold finish in H.
  destruct (w_file w) as [[n o]|] eqn:WF.
  - cbn [pbind] in H. rewrite WF in H. destruct o.
    2: { apply goes_done in H as (_ & _ & [X|X]); [|discriminate]. injection X as -> _. auto. }
    apply goes_bind in H as [[X _]|(tr1 & f1 & q & tr2 & -> & H1 & H)]; [discriminate|].
    destruct (OK _ _ WF) as [-> _].
    destruct q; apply goes_done in H as (_ & _ & [X|X]); try discriminate; injection X as -> _; cbn; rewrite ?WF; auto.
  - apply goes_bind in H as [[X _]|(tr1 & f1 & [w1 err] & tr2 & -> & H1 & H)]; [discriminate|].
    apply create_goes in H1 as (_ & _ & C3); auto.
    destruct C3 as [C3|[(NS & w2 & C3 & WF' & _)|(w2 & C3 & WF' & _)]]; [discriminate| |]; injection C3 as -> ->.
    + apply goes_done in H as (_ & _ & [X|X]); [|discriminate]. injection X as -> _. auto.
    + rewrite WF' in H. apply goes_bind in H as [[X _]|(tr3 & f3 & q & tr4 & -> & H1 & H)]; [discriminate|].
      destruct q; apply goes_done in H as (_ & _ & [X|X]); try discriminate; injection X as -> _; cbn; auto.
Qed.
Lemma live_or_dead P c m good f hs f' w' : rc_kind c = BySize m -> happens P c good f w_new hs f' w' -> 0 < m ->
  (w_file w' = Some (rc_file c, true) \/ (w_file w' = None /\ w_size w' < m)) \/ dead c m w'.
Proof.
  intros K H MP. assert (PL : plain c) by (right; eauto).
  assert (INV : forall f w hs f' w', happens P c good f w hs f' w' -> w_ok c w ->
    (forall n, w_file w = Some (n, false) -> m <= w_size w) -> w_ok c w' /\ forall n, w_file w' = Some (n, false) -> m <= w_size w').
  { clear -K PL. intros f w hs f' w' H. induction H as [f w|f w b tr f1 w1 k err hs f2 w2 R S HS IH|f w b tr f1 hs f2 w2 R S HS IH|f w hs f2 w2 HS IH]; intros OK CI; auto.
    - apply runs_goes in R. pose proof (write_ok _ _ _ _ _ _ _ _ _ PL OK R) as OK1. apply IH; [exact OK1|].
      apply write_goes in R as [[_ X]|(tr0 & tr1 & w0 & need & -> & NE & G)]; [discriminate| |exact OK].
      pose proof NE as (_ & _ & _ & NK). rewrite K in NK. destruct NK as (-> & NK & _).
      destruct G as [[-> G]|[-> [[-> G]|(s & rname & e0 & [[Q X]|(f3 & w3 & tr2 & tr3 & -> & Q & GO & W1 & _ & _ & G)])]]].
      + apply finish_file in G as [-> |[G|G]]; auto; intros n X; congruence.
      + destruct G as [X|(w4 & X & _ & WS & _)]; [discriminate|]. injection X as -> _ _. intros n _. rewrite WS.
        symmetry in NK. now apply Z.leb_le in NK.
      + discriminate.
      + apply finish_file in G as [-> |[G|G]]; auto using w_ok_none; intros n X; congruence.
    - apply IH; [now apply w_ok_none|]. intros n X; discriminate.
    - apply IH; [now apply w_ok_none|]. intros n X; discriminate. }
  destruct (INV _ _ _ _ _ H (w_ok_none c w_new eq_refl)) as [OK CI]. { intros n X; discriminate. }
  destruct (w_file w') as [[n o]|] eqn:WF.
  - destruct (OK _ _ WF) as [-> _]. destruct o; [auto|]. right. split; [apply (CI _ eq_refl)|]. rewrite WF. discriminate.
  - destruct (Z.lt_ge_cases (w_size w') m) as [L|L]; [auto|]. right. split; [exact L|]. rewrite WF. discriminate.
Qed.
Lemma live_write P c m w b f tr f' w' k e : rc_kind c = BySize m -> w_ok c w ->
  (w_file w = Some (rc_file c, true) \/ (w_file w = None /\ w_size w < m)) ->
  runs (rw_Write P c w b) f tr f' (w', (k, e)) -> Forall smooth tr -> k = length b /\ e = false.
Proof.
  intros K OK LV G S. assert (PL : plain c) by (right; eauto). apply runs_goes in G.
  apply write_goes in G as [[_ X]|(tr0 & tr1 & w0 & need & -> & NE & G)]; [discriminate| |exact OK].
  pose proof NE as (_ & _ & _ & NK). rewrite K in NK. destruct NK as (-> & NK & _).
  pose proof S as SA. apply Forall_app in S as [S0 S1].
  destruct G as [[-> G]|[-> [[-> G]|(s & rname & e0 & [[R X]|(f1 & w1 & tr2 & tr3 & -> & R & GO & W1 & _ & _ & G)])]]].
  - apply finish_goes in G as (_ & _ & [X|(w2 & k2 & e2 & X & _ & _ & F2 & _)]); auto; [discriminate|]. injection X as -> -> ->.
    destruct (F2 S1) as (-> & -> & _); [|auto]. destruct LV as [L|[L _]]; auto.
  - exfalso. destruct G as [X|(w2 & _ & _ & _ & NS)]; [discriminate|]. destruct LV as [L|[_ L]]; [now apply NS|].
    symmetry in NK. apply Z.leb_le in NK. lia.
  - discriminate.
  - apply Forall_app in S1 as [S2 S3].
    apply finish_goes in G as (_ & _ & [X|(w2 & k2 & e2 & X & _ & _ & F2 & _)]); auto using w_ok_none; [discriminate|]. injection X as -> -> ->.
    destruct (F2 S3) as (-> & -> & _); auto.
Qed.

(** Segments. *)
Lemma newest_snoc {A} k (l : list A) x : newest k (newest k l ++ [x]) = newest k (l ++ [x]).
Proof.
  unfold newest, cut. destruct (Z.leb_spec k 0) as [L|L]; [reflexivity|].
  set (j := Z.to_nat k). assert (J : (0 < j)%nat) by (unfold j; lia).
  rewrite !app_length, skipn_length. cbn [length].
  destruct (Nat.le_gt_cases (length l) j) as [Q|Q].
  - replace (length l - j)%nat with 0%nat by lia. cbn [skipn]. f_equal. lia.
  - replace (length l - (length l - j) + 1 - j)%nat with 1%nat by lia.
    rewrite !skipn_app. replace (length l + 1 - j - length l)%nat with 0%nat by lia.
    rewrite skipn_length. replace (1 - (length l - (length l - j)))%nat with 0%nat by lia. cbn [skipn]. f_equal.
    replace (length l + 1 - j)%nat with (S (length l - j)) by lia.
    generalize (length l - j)%nat. clear. intros n. revert l. induction n as [|n IH]; intros [|y l]; cbn [skipn]; auto.
    apply IH.
Qed.
Lemma numbered_snoc fs cur : numbered (fs ++ [cur]) = numbered fs ++ [(Z.of_nat (S (length fs)), concat cur)].
Proof.
  unfold numbered. rewrite app_length, seq_app, !map_app. cbn [length seq map].
  assert (C : forall (A B : Type) (a : list A) (b : list B) x y, length a = length b -> combine (a ++ [x]) (b ++ [y]) = combine a b ++ [(x, y)]).
  { intros A B a. induction a as [|u a IH]; intros [|v b] x y L; try discriminate; cbn; [reflexivity|]. f_equal. apply IH. now injection L. }
  rewrite C by now rewrite !map_length, seq_length. reflexivity.
Qed.
Lemma newest_last {A} k (l : list A) bs x : newest k l = bs ++ [x] -> exists l', l = l' ++ [x].
Proof.
  intros E. rewrite <- (split_old k l), E. exists (oldest k l ++ bs). now rewrite app_assoc.
Qed.
Lemma newest_nil {A} k (l : list A) : newest k l = [] -> l = [].
Proof.
  unfold newest, cut. destruct (Z.leb_spec k 0); [auto|]. intros E. apply (f_equal (@length _)) in E. rewrite skipn_length in E.
  cbn in E. destruct l; [reflexivity|]. cbn [length] in E. lia.
Qed.
Lemma segments_length limit cs fs cur : segments limit cs fs cur -> (cs = [] /\ fs = [] /\ cur = []) \/ cur <> [].
Proof. induction 1; [auto| |]; right; [destruct cur; discriminate|discriminate]. Qed.

Lemma log_segments limit mr hs l o : 0 < limit -> steps (log_step limit mr) (mkLog [] None, false) hs (l, o) ->
  (forall h, In h hs -> h <> HRestart) ->
  exists files cur, segments limit (flat_map chunk_of hs) files cur /\
    l_backups l = newest mr (numbered files) /\ bytes (l_current l) = concat cur /\
    (hs = [] \/ l_current l <> None).
Proof.
  intros LP H NR.
  assert (G : forall s hs s', steps (log_step limit mr) s hs s' -> (forall h, In h hs -> h <> HRestart) ->
    forall cs files cur, segments limit cs files cur -> l_backups (fst s) = newest mr (numbered files) ->
      bytes (l_current (fst s)) = concat cur -> (snd s = false -> cs = []) ->
      exists files' cur', segments limit (cs ++ flat_map chunk_of hs) files' cur' /\
        l_backups (fst s') = newest mr (numbered files') /\ bytes (l_current (fst s')) = concat cur' /\
        (hs = [] \/ l_current (fst s') <> None)).
  { clear -LP. intros s hs s' H. induction H as [s|s h s1 hs s2 ST HS IH]; intros NR cs files cur SG BK CU OP.
    - exists files, cur. rewrite app_nil_r. auto.
    - assert (X : exists files1 cur1, segments limit (cs ++ chunk_of h) files1 cur1 /\ l_backups (fst s1) = newest mr (numbered files1) /\
                 bytes (l_current (fst s1)) = concat cur1 /\ (snd s1 = false -> cs ++ chunk_of h = []) /\ l_current (fst s1) <> None).
      { destruct ST as [bs cu o b LT|bs cu b n GE NX|l o]; cbn [fst snd l_backups l_current chunk_of bytes] in *.
        - exists files, (cur ++ [b]). repeat split; auto; try discriminate.
          + apply sg_more; [exact SG|]. unfold size. rewrite <- CU. destruct o; [now apply LT|].
            rewrite (OP eq_refl) in SG. destruct (segments_length _ _ _ _ SG) as [(_ & _ & ->)|Q].
            * rewrite CU. cbn. lia.
            * exfalso. inversion SG; subst; [congruence| |]; match goal with X : _ ++ [_] = [] |- _ => destruct (app_eq_nil _ _ X); discriminate end.
          + rewrite CU, concat_app. cbn. now rewrite app_nil_r.
        - exists (files ++ [cur]), [b]. repeat split; auto; try discriminate.
          + apply sg_roll; [exact SG|]. unfold size. now rewrite <- CU.
          + assert (NE : n = Z.of_nat (S (length files))); [|rewrite numbered_snoc, NE, CU, BK; apply newest_snoc].
            destruct NX as [[-> ->]|(bs' & z & x & -> & ->)].
            * symmetry in BK. apply newest_nil in BK. destruct files; [reflexivity|discriminate BK].
            * symmetry in BK. apply newest_last in BK as [l' BK].
              destruct (@exists_last _ files) as (fs' & c' & E); [intros ->; destruct l'; discriminate BK|].
              rewrite E, numbered_snoc in BK. apply app_inj_tail in BK as [_ BK]. injection BK as <- _.
              rewrite E, app_length. cbn [length]. lia.
          + cbn. now rewrite app_nil_r.
        - destruct (NR HRestart); [now left|reflexivity]. }
      destruct X as (files1 & cur1 & SG1 & BK1 & CU1 & OP1 & NN1).
      destruct (IH (fun h' I => NR h' (or_intror I)) _ _ _ SG1 BK1 CU1 OP1) as (f2 & c2 & A & B & C & D).
      exists f2, c2. cbn [flat_map]. rewrite app_assoc. repeat split; auto. right. destruct D as [-> |D]; [|exact D].
      inversion HS; subst. exact NN1. }
  destruct (G _ _ _ H NR [] [] [] ltac:(constructor)) as (files & cur & A & B & C & D); auto.
  { unfold newest, cut, numbered. cbn. now destruct (mr <=? 0). }
  exists files, cur. auto.
Qed.
Lemma segments_facts limit cs files cur : 0 < limit -> segments limit cs files cur ->
  concat files ++ cur = cs /\
  Forall (fun f => limit <= size f /\ size (removelast f) < limit) files /\ size (removelast cur) < limit.
Proof.
  intros LP. induction 1 as [|cs fs cur b SG (A & B & C) LT|cs fs cur b SG (A & B & C) GE].
  - cbn. repeat split; auto.
  - split; [now rewrite app_assoc, A|]. split; [exact B|]. now rewrite removelast_last.
  - split; [rewrite concat_app, <- A; cbn; now rewrite app_nil_r|]. split; [|cbn; lia].
    apply Forall_app. split; [exact B|]. constructor; [auto|constructor].
Qed.

(** Fault steps. *)
Definition asc (bs : list (Z * str)) : Prop := StronglySorted (fun a b => fst a < fst b) bs.
Lemma next_above bs n : asc bs -> next_number bs n -> Forall (fun p => fst p < n) bs.
Proof.
  intros O1 [[-> ->]|(bs' & z & x & -> & ->)]; [constructor|]. apply Forall_forall.
  intros p I. apply in_app_or in I as [I|[<- |[]]]; cbn; [|lia].
  assert (fst p < z); [|lia]. clear -O1 I. induction bs' as [|q bs' IH]; [destruct I|].
  inversion O1 as [|? ? O2 O3]; subst. destruct I as [-> |I]; [|now apply IH].
  rewrite Forall_forall in O3. apply (O3 (z, x)). apply in_or_app. right. now left.
Qed.
Lemma asc_snoc bs n x : asc bs -> Forall (fun p => fst p < n) bs -> asc (bs ++ [(n, x)]).
Proof.
  intros O F. induction bs as [|p bs IH]; cbn; [constructor; [constructor|constructor]|].
  inversion O as [|? ? O2 O3]; inversion F as [|? ? F1 F2]; subst. constructor; [now apply IH|].
  apply Forall_app. split; [exact O3|]. constructor; [exact F1|constructor].
Qed.
Lemma asc_filter (keep : Z * str -> bool) k bs : asc bs -> asc (filter keep (oldest k bs) ++ newest k bs).
Proof.
  intros O. rewrite <- (split_old k bs) in O. revert O. generalize (oldest k bs) (newest k bs). intros a b O.
  induction a as [|p a IH]; cbn in *; [exact O|]. inversion O as [|? ? O1 O2]; subst. destruct (keep p); [|auto]. cbn. constructor; [exact (IH O1)|].
  apply Forall_forall. rewrite Forall_forall in O2. intros q I. apply O2. apply in_app_or in I as [I|I]; apply in_or_app; [left|now right].
  now apply filter_In in I.
Qed.
Definition above (bs0 : list (Z * str)) (bs : list (Z * str)) : Prop :=
  asc bs /\ (forall q, In q bs0 -> exists p, In p bs /\ fst q <= fst p) /\
  (forall p, In p bs -> In p bs0 \/ forall q, In q bs0 -> fst q < fst p).
Lemma put_above bs0 m b k l l' : put m b k l l' -> above bs0 (l_backups l) -> above bs0 (l_backups l').
Proof.
  intros PT AB. destruct PT as [l E|bs cur KL|bs cur n keep new NX KL NW]; cbn [l_backups] in *; auto.
  destruct AB as (A & B & C). pose proof (next_above _ _ A NX) as NA. rewrite Forall_forall in NA.
  assert (AS : asc (bs ++ [(n, cur)])) by (apply asc_snoc; [exact A|now apply Forall_forall]).
  split; [now apply asc_filter|]. split.
  - intros q I. destruct (B q I) as (p & J & LE). exists (n, cur). split.
    + apply in_or_app. right.
      assert (X : newest m (bs ++ [(n, cur)]) = newest m (newest m bs ++ [(n, cur)])) by now rewrite newest_snoc.
      destruct (newest m (bs ++ [(n, cur)])) as [|y t] eqn:E; [apply newest_nil in E; destruct bs; discriminate|].
      destruct (@exists_last _ (y :: t)) as (t' & y' & E'); [discriminate|]. rewrite E' in E |- *.
      apply newest_last in E as [l' E]. apply app_inj_tail in E as [_ <-]. apply in_or_app. right. now left.
    + specialize (NA _ J). cbn. lia.
  - intros p I.
    assert (J : In p (bs ++ [(n, cur)])).
    { rewrite <- (split_old m (bs ++ [(n, cur)])). apply in_or_app. apply in_app_or in I as [I|I]; [left|now right]. now apply filter_In in I. }
    apply in_app_or in J as [J|[<- |[]]]; [now apply C|]. right. intros q Q. destruct (B q Q) as (p & P1 & P2).
    specialize (NA _ P1). cbn. lia.
Qed.
Lemma steps_above m l hs l' : steps (fault_step m) l hs l' -> forall bs0, above bs0 (l_backups l) -> above bs0 (l_backups l').
Proof.
  intros H. induction H as [s|s h s1 hs s2 ST HS IH]; intros bs0 A; [exact A|]. apply IH.
  destruct ST; [eapply put_above; eassumption|eapply put_above; eassumption|exact A].
Qed.
Lemma put_disk m b k l l' : m <= 0 -> put m b k l l' -> on_disk l' = on_disk l ++ firstn k b /\ (k <= length b)%nat.
Proof.
  intros M PT. unfold on_disk. destruct PT as [l E|bs cur KL|bs cur n keep new NX KL NW]; cbn [l_backups l_current bytes].
  - subst k. cbn. rewrite app_nil_r. split; [reflexivity|lia].
  - now rewrite app_assoc.
  - unfold oldest, newest, cut. destruct (Z.leb_spec m 0); [|lia]. cbn [firstn skipn filter app].
    rewrite map_app, concat_app. cbn. rewrite app_nil_r.
    destruct NW as [[-> ->]| ->]; cbn [bytes]; split; auto; cbn; now rewrite !app_nil_r.
Qed.
Lemma steps_disk m l hs l' : m <= 0 -> steps (fault_step m) l hs l' -> exists ps, parts hs ps /\ on_disk l' = on_disk l ++ concat ps.
Proof.
  intros M H. induction H as [s|s h s1 hs s2 ST HS (ps & PA & D)].
  - exists []. split; [constructor|]. cbn. now rewrite app_nil_r.
  - destruct ST as [b k err l l1 PT ER|b k l l1 PT|l].
    + apply put_disk in PT as [E KL]; [|exact M]. exists (firstn k b :: ps). split; [now constructor|]. cbn. now rewrite D, E, app_assoc.
    + apply put_disk in PT as [E KL]; [|exact M]. exists (firstn k b :: ps). split; [now constructor|]. cbn. now rewrite D, E, app_assoc.
    + exists ([] :: ps). split; [now constructor|]. exact D.
Qed.

(** * Results of runs in which all operations are of some kind *)
Section Safe.
Variable (G : fsop * fsres -> Prop).
Inductive safe {A} (R : A -> Prop) : prog A -> Prop :=
| sf_done a : R a -> safe R (Done a)
| sf_op o k : (forall r f f', eff o r f f' -> G (o, r) -> safe R (k r)) -> safe R (Op o k).
Lemma safe_bind {A B} (R : A -> Prop) (R' : B -> Prop) p k : safe R p -> (forall a, R a -> safe R' (k a)) -> safe R' (pbind p k).
Proof. induction 1; cbn; intros H'; [auto|]. constructor. eauto. Qed.
Lemma safe_weaken {A} (R R' : A -> Prop) p : safe R p -> (forall a, R a -> R' a) -> safe R' p.
Proof. induction 1; intros W; constructor; auto. intros r f f' E GR. eauto. Qed.
Lemma safe_any {A} (p : prog A) : safe (fun _ => True) p.
Proof. induction p; constructor; auto. Qed.
Lemma safe_op' o (R : fsres -> Prop) : (forall r f f', eff o r f f' -> G (o, r) -> R r) -> safe R (op o).
Proof. intros H. constructor. intros r f f' E GR. constructor. eauto. Qed.
Lemma safe_runs {A} (R : A -> Prop) p f tr f' a : safe R p -> runs p f tr f' a -> Forall G tr -> R a.
Proof.
  intros S H. revert S. induction H as [a f|o k r f f1 tr f2 a E H IH]; intros S T.
  - now inversion S; subst.
  - inversion S as [|? ? S1]; subst. inversion T as [|? ? T1 T2]; subst. apply IH; [|exact T2]. eapply S1; eassumption.
Qed.
End Safe.

(** ** Operations used *)
Section Uses.
Variable (O : fsop -> Prop).
Inductive uses {A} : prog A -> Prop :=
| us_done a : uses (Done a)
| us_op o k : O o -> (forall r, uses (k r)) -> uses (Op o k).
Lemma uses_bind {A B} (p : prog A) (k : A -> prog B) : uses p -> (forall a, uses (k a)) -> uses (pbind p k).
Proof. induction 1; cbn; intros H'; [auto|]. constructor; auto. Qed.
Lemma uses_op o : O o -> uses (op o).
Proof. intros H. constructor; [exact H|]. intros r. constructor. Qed.
Lemma uses_runs {A} (p : prog A) f tr f' a : uses p -> runs p f tr f' a -> Forall (fun x => O (fst x)) tr.
Proof.
  intros U H. revert U. induction H; intros U; [constructor|]. inversion U; subst. constructor; auto.
Qed.
End Uses.
Lemma finish_uses c w b : uses (fun o => match o with ORename _ _ => False | _ => True end) (finish c w b).
Proof.
  unfold finish, createFile, getCurrentFileName, now.
  repeat first [apply uses_bind; [|let x := fresh "a" in intros x]
    | apply uses_op; exact I
    | apply us_done
    | match goal with |- uses _ (match ?x with _ => _ end) => destruct x end
    | match goal with |- uses _ (if ?x then _ else _) => destruct x end ].
Qed.
Lemma no_roll_no_rename P c m (K : rc_kind c = BySize m) w b f tr f' x : w_size w < m -> runs (rw_Write P c w b) f tr f' x ->
  forall from to, ~ In (ORename from to, ROk) tr.
Proof.
  intros L R from to I. rewrite write_eq in R. unfold needsToRoll in R. rewrite K in R. cbn [pbind] in R.
  destruct (Z.leb_spec m (w_size w)); [lia|]. cbn [pbind] in R.
  pose proof (uses_runs _ _ _ _ _ _ (finish_uses c w b) R) as F. rewrite Forall_forall in F. exact (F _ I).
Qed.
Lemma partly_bind {A B} (p : prog A) (k : A -> prog B) f tr f' a : runs p f tr f' a -> partly (pbind p k) f tr f'.
Proof. induction 1; cbn; econstructor; eassumption. Qed.

(** ** Periods come from the clock *)
Section Period.
Variable (Q : str -> Prop).
Definition timely (x : fsop * fsres) : Prop := forall p s, x = (ONow p, RText s) -> Q s.
Definition per (w : wst) : Prop := Q (w_period w).
Local Notation safe' := (safe timely).
Lemma safe_now p : Q [] -> safe' Q (now p).
Proof.
  intros Q0. unfold now, op. cbn. constructor. intros r f f' E T. constructor. destruct r; auto. now apply (T p s).
Qed.
Lemma safe_create c w : per w -> safe' (fun x => per (fst x)) (createFile c w).
Proof.
  intros PW. unfold createFile.
  apply (safe_bind _ (fun _ => True)); [apply safe_any|]. intros r _. destruct r; try (constructor; exact PW).
  apply (safe_bind _ (fun _ => True)); [apply safe_any|]. intros n _.
  apply (safe_bind _ (fun _ => True)); [apply safe_any|]. intros r _. destruct r; try (constructor; exact PW).
  apply (safe_bind _ (fun _ => True)); [apply safe_any|]. intros r _.
  destruct r; try (apply (safe_bind _ (fun _ => True)); [apply safe_any|]; intros r _); constructor; exact PW.
Qed.
Lemma safe_roll P c w : Q [] -> per w -> safe' (fun x => per (fst x)) (roll P c w).
Proof.
  intros Q0 PW. unfold roll. destruct (w_file w) as [[n [|]]|]; try (constructor; exact PW).
  apply (safe_bind _ (fun _ => True)); [apply safe_any|]. intros r _. destruct r; try (constructor; exact PW).
  apply (safe_bind _ (fun _ => True)); [apply safe_any|]. intros [h|] _; try (constructor; exact PW).
  apply (safe_bind _ (fun x => per (fst x))).
  { unfold getNewHistoryRollFileName. destruct (rc_kind c) as [m|p]; [constructor; exact PW|].
    apply (safe_bind _ Q); [now apply safe_now|]. intros s S. constructor. exact S. }
  intros [w1 rname] P1. cbn [fst] in P1.
  apply (safe_bind _ (fun _ => True)); [apply safe_any|]. intros r _. destruct r; try (constructor; exact P1).
  apply (safe_bind _ (fun _ => True)); [apply safe_any|]. intros r _.
  apply (safe_bind _ (fun _ => True)); [apply safe_any|]. intros _ _. constructor. exact P1.
Qed.
Lemma safe_write P c w b : Q [] -> per w -> safe' (fun x => per (fst x)) (rw_Write P c w b).
Proof.
  intros Q0 PW. unfold rw_Write. apply (safe_bind _ (fun x => per (fst x))).
  { unfold needsToRoll. destruct (rc_kind c) as [m|p]; [constructor; exact PW|].
    apply (safe_bind _ Q); [now apply safe_now|]. intros s S. destruct (w_period w) eqn:E; constructor; [exact S|exact PW]. }
  intros [w1 need] P1. cbn [fst] in P1. apply (safe_bind _ (fun x => per (fst x))).
  { destruct need; [now apply safe_roll|constructor; exact P1]. }
  intros [w2 err] P2. cbn [fst] in P2. destruct err; [constructor; exact P2|].
  apply (safe_bind _ (fun x => per (fst x))).
  { destruct (w_file w2); [constructor; exact P2|now apply safe_create]. }
  intros [w3 err] P3. cbn [fst] in P3. destruct err; [constructor; exact P3|].
  destruct (w_file w3) as [[n [|]]|]; try (constructor; exact P3).
  apply (safe_bind _ (fun _ => True)); [apply safe_any|]. intros r _. destruct r; constructor; exact P3.
Qed.
End Period.

(** ** Faults that do not stop the writer *)
Section Live.
Variables (P : tparse) (c : roll_conf).
Hypothesis PL : plain c.
Local Notation safe' := (safe harmless).
Definition opened (w : wst) : Prop := w_file w = Some (rc_file c, true) /\ w_name w = rc_file c.
Lemma harmless_smooth o r : match o with OWrite _ _ | ORemove _ | OChmod _ _ => False | _ => True end -> harmless (o, r) -> smooth (o, r).
Proof. destruct o; cbn; auto; contradiction. Qed.
Lemma live_create w : w_file w = None -> safe' (fun x => opened (fst x) /\ snd x = false) (createFile c w).
Proof.
  intros WF. unfold createFile.
  apply (safe_bind _ (fun r => r = ROk)).
  { apply safe_op'. intros r f f' E H. apply harmless_smooth in H; [|exact I]. apply eff_mkdir in E as [_ [-> | ->]]; [reflexivity|contradiction]. }
  intros r ->. rewrite (current_plain c PL). cbn [pbind].
  apply (safe_bind _ (fun r => r = ROk)).
  { apply safe_op'. intros r f f' E H. apply harmless_smooth in H; [|exact I]. apply eff_open in E as [[-> _]|[[-> _]|[-> _]]]; [contradiction|reflexivity|reflexivity]. }
  intros r ->.
  apply (safe_bind _ (fun r => exists z, r = RSize z)).
  { apply safe_op'. intros r f f' E H. apply harmless_smooth in H; [|exact I].
    apply eff_stat in E as [_ [-> |[(? & _ & ->)|(? & _ & -> & _)]]]; [contradiction|eauto|eauto]. }
  intros r [z ->]. constructor. split; [split; reflexivity|reflexivity].
Qed.
Lemma live_roll w : opened w -> safe' (fun x => w_file (fst x) = None /\ snd x = false) (roll P c w).
Proof.
  intros [WF WN]. unfold roll. rewrite WF.
  apply (safe_bind _ (fun r => r = ROk)).
  { apply safe_op'. intros r f f' E H. apply harmless_smooth in H; [|exact I]. apply eff_close in E as [_ [-> | ->]]; [reflexivity|contradiction]. }
  intros r ->. apply (safe_bind _ (fun h => h <> None)).
  { unfold getSortedLogHistory. apply (safe_bind _ (fun h => h <> None)).
    - unfold getDirFilePaths. apply (safe_bind _ (fun r => exists cs, r = RDir (map RdSome cs ++ [RdEOF]))).
      + apply safe_op'. intros r f f' E H. apply harmless_smooth in H; [|exact I].
        apply eff_readdir in E as [_ [(cs & -> & _)|[(cs & ->)| ->]]]; [eauto| |contradiction].
        exfalso. apply H. apply in_or_app. right. now left.
      + intros r [cs ->]. constructor. rewrite dir_loop_ok. discriminate.
    - intros [l|] X; [|contradiction]. apply (safe_bind _ (fun r => exists l', r = RNames l')).
      + apply safe_op'. intros r f f' E H. apply eff_sort in E as (_ & l' & -> & _). eauto.
      + intros r [l' ->]. constructor. discriminate. }
  intros [h|] X; [|contradiction].
  apply (safe_bind _ (fun x => w_file (fst x) = None)).
  { unfold getNewHistoryRollFileName. destruct (rc_kind c); [constructor; reflexivity|].
    apply (safe_bind _ (fun _ => True)); [apply safe_any|]. intros s _. constructor. reflexivity. }
  intros [w1 rname] W1. cbn [fst] in W1.
  apply (safe_bind _ (fun r => r = ROk)).
  { apply safe_op'. intros r f f' E H. apply harmless_smooth in H; [|exact I]. apply eff_rename in E as [[-> _]|[-> _]]; [contradiction|reflexivity]. }
  intros r ->.
  apply (safe_bind _ (fun _ => True)); [apply safe_any|]. intros r _.
  apply (safe_bind _ (fun _ => True)); [apply safe_any|]. intros _ _. constructor. auto.
Qed.
Definition alive (w : wst) : Prop :=
  opened w \/ (w_file w = None /\ match rc_kind c with BySize m => w_size w < m | ByTime _ => w_period w = [] end).
Lemma live_safe w b : alive w -> safe' (fun x => opened (fst x)) (rw_Write P c w b).
Proof.
  intros AL. unfold rw_Write.
  apply (safe_bind _ (fun x => opened (fst x) \/ (w_file (fst x) = None /\ snd x = false))).
  { unfold needsToRoll. unfold alive in AL. destruct (rc_kind c) as [m|p].
    - constructor. cbn. destruct AL as [AL|[AL L]]; [auto|]. right. split; [exact AL|]. apply Z.leb_gt. exact L.
    - apply (safe_bind _ (fun _ => True)); [apply safe_any|]. intros s _.
      destruct AL as [AL|[AL L]].
      + destruct (w_period w); constructor; left; exact AL.
      + rewrite L. constructor. right. auto. }
  intros [w1 need] W1. cbn [fst snd] in W1.
  apply (safe_bind _ (fun x => (opened (fst x) \/ w_file (fst x) = None) /\ snd x = false)).
  { destruct need; [|constructor; tauto]. destruct W1 as [W1|[_ X]]; [|discriminate].
    apply (safe_weaken _ _ _ _ (live_roll w1 W1)). tauto. }
  intros [w2 err] [W2 X]. cbn [fst snd] in W2, X. subst err.
  apply (safe_bind _ (fun x => opened (fst x) /\ snd x = false)).
  { destruct (w_file w2) eqn:E; [constructor|now apply live_create]. destruct W2 as [W2|W2]; [auto|discriminate]. }
  intros [w3 err] [W3 X]. cbn [fst snd] in W3, X. subst err. destruct W3 as [W3 N3]. rewrite W3.
  apply (safe_bind _ (fun _ => True)); [apply safe_any|]. intros r _. destruct r; constructor; split; assumption.
Qed.
Lemma alive_new : match rc_kind c with BySize m => 0 < m | ByTime _ => True end -> alive w_new.
Proof. intros MP. right. split; [reflexivity|]. destruct (rc_kind c); [exact MP|reflexivity]. Qed.
Lemma alive_history f w hs f' w' : match rc_kind c with BySize m => 0 < m | ByTime _ => True end ->
  happens P c harmless f w hs f' w' -> alive w -> alive w'.
Proof.
  intros MP H.
  induction H as [f w|f w b tr f1 w1 k err hs f2 w2 R S HS IH|f w b tr f1 hs f2 w2 R S HS IH|f w hs f2 w2 HS IH]; intros AL; auto using alive_new.
  apply IH. left. exact (safe_runs _ _ _ _ _ _ _ (live_safe w b AL) R S).
Qed.
End Live.

(** Other names than backups, any kind. *)
Lemma foreign P c w b f tr f' x n : plain c -> w_ok c w ->
  (forall p, rc_kind c = ByTime p -> w_period w = [] \/ exists t, P p (w_period w) = Some t) ->
  goes (rw_Write P c w b) f tr f' x ->
  n <> rc_file c -> (forall z, ~ backup P c n z) -> (rc_archive c = ArchiveNone \/ n <> tmp_name) -> f_dir f' n = f_dir f n.
Proof.
  intros PL OK PW G NF NB NT.
  apply write_dir in G as [G|(s & rname & e & DU & SH & NN & E & ED & G)]; auto.
  assert (ND : n <> full c rname).
  { intros ->. unfold new_name in NN. unfold due in DU. destruct (rc_kind c) as [m|p] eqn:K.
    - assert (X : exists z, numeral rname z).
      { subst rname. eexists. apply numeral_Itoa.
        match goal with |- - 2 ^ 63 <= wrap64 ?v < 2 ^ 63 => pose proof (wrap64_bounds v) as WB; unfold min_int64, max_int64 in WB; lia end. }
      destruct X as [z NU]. apply (NB z). exists rname. split; [apply full_backup|]. now rewrite K.
    - destruct (PW p eq_refl) as [X|[t X]]; [contradiction|]. subst rname. apply (NB t). exists (w_period w).
      split; [apply full_backup|]. rewrite K. auto. }
  destruct (G n NF) as [Q|[[J Q]|(NA & T & _)]].
  - rewrite Q. unfold moved. now rewrite dput_other, dput_other.
  - exfalso. rewrite old_keep in J. apply in_map_iff in J as (r & <- & J).
    assert (I : In r (s ++ [rname])) by (rewrite <- (firstn_skipn (cut (rc_maxRolls c) (s ++ [rname])) (s ++ [rname])); apply in_or_app; now left).
    apply in_app_or in I as [I|[<- |[]]]; [|congruence].
    destruct (hist_in _ _ _ _ _ SH I) as (z & _ & B & _). exact (NB z B).
  - destruct NT; contradiction.
Qed.
Lemma foreign_history P c (good : fsop * fsres -> Prop) f w hs f' w' n : plain c -> (forall x, good x -> clock_parses P c x) ->
  happens P c good f w hs f' w' -> w_ok c w -> (forall p, rc_kind c = ByTime p -> w_period w = [] \/ P p (w_period w) <> None) ->
  n <> rc_file c -> (forall z, ~ backup P c n z) -> (rc_archive c = ArchiveNone \/ n <> tmp_name) -> f_dir f' n = f_dir f n.
Proof.
  intros PL GC H. induction H as [f w|f w b tr f1 w1 k err hs f2 w2 R S HS IH|f w b tr f1 hs f2 w2 R S HS IH|f w hs f2 w2 HS IH];
    intros OK PW NF NB NT; auto.
  - rewrite IH; auto.
    + apply runs_goes in R. eapply foreign; try eassumption.
      intros p K. destruct (PW p K) as [X|X]; [auto|]. destruct (P p (w_period w)); [eauto|contradiction].
    + apply runs_goes in R. eapply write_ok; eassumption.
    + intros p K. set (Q := fun s => s = [] \/ P p s <> None).
      refine (safe_runs _ _ _ _ _ _ _ (safe_write Q P c w b (or_introl eq_refl) (PW p K)) R _).
      rewrite Forall_forall in *. intros x I q s ->. unfold Q. eapply (GC _ (S _ I)); eauto.
  - rewrite IH; auto.
    + apply partly_goes in R. eapply foreign; try eassumption.
      intros p K. destruct (PW p K) as [X|X]; [auto|]. destruct (P p (w_period w)); [eauto|contradiction].
    + now apply w_ok_none.
  - apply IH; auto. now apply w_ok_none.
Qed.

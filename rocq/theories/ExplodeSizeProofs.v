(** Exploded archives when rolling by size: nothing is lost. *)
From Verif Require Import GoStr Strconv StrconvProofs ConfModel RollModel RollSpec RollProofs RollSizeProofs RollDirProofs ExplodeModel ExplodeSpec ExplodeProofs.
From Coq Require Import Permutation Sorted.
Local Open Scope Z_scope.

Definition in_archives (c : roll_conf) (old : list (Z * str)) (a : str -> option aent) : Prop :=
  forall z y, In (z, y) old -> a (arc c (full c (Itoa z))) = Some (Archive (full c (Itoa z)) y).

Lemma oldest_snoc {A} k (l : list A) x : oldest k (l ++ [x]) = oldest k l ++ oldest k (newest k l ++ [x]).
Proof.
  apply (app_inv_tail (newest k (l ++ [x]))). rewrite split_old, <- app_assoc, <- (newest_snoc k l x), split_old, app_assoc, split_old. reflexivity.
Qed.
Lemma next_newest k (all : list (Z * str)) n : next_number (newest k all) n -> next_number all n.
Proof.
  intros [[E ->]|(bs' & z & x & E & ->)].
  - left. split; [exact (newest_nil _ _ E)|reflexivity].
  - right. apply newest_last in E as [l' ->]. eauto.
Qed.
Lemma next_det bs n n' : next_number bs n -> next_number bs n' -> n = n'.
Proof.
  intros [[-> ->]|(a & z & x & -> & ->)] [[E ->]|(b & z' & x' & E & ->)]; try reflexivity.
  - destruct b; discriminate.
  - destruct a; discriminate.
  - apply app_inj_tail in E as [_ E]. injection E as -> ->. reflexivity.
Qed.
Lemma last_newest {A} k (l : list A) x : In x (newest k (l ++ [x])).
Proof.
  unfold newest, cut. destruct (Z.leb_spec k 0); [apply in_or_app; right; now left|].
  rewrite app_length. cbn [length]. rewrite skipn_app. apply in_or_app. right.
  replace (length l + 1 - Z.to_nat k - length l)%nat with 0%nat by lia. now left.
Qed.
Lemma ordered_split a b : ordered (a ++ b) -> forall p q, In p a -> In q b -> fst p < fst q.
Proof.
  intros [O _]. induction a as [|r a IH]; intros p q I J; [destruct I|].
  inversion O as [|? ? O1 O2]; subst. destruct I as [<- |I]; [|now apply IH].
  rewrite Forall_forall in O2. apply O2. apply in_or_app. now right.
Qed.
Lemma ordered_range a p : ordered a -> In p a -> - 2 ^ 63 <= fst p < 2 ^ 63.
Proof. intros [_ O] I. rewrite Forall_forall in O. now apply O. Qed.

Section Step.
Variables (P : tparse) (c : roll_conf) (m : Z).
Hypothesis K : rc_kind c = BySize m.
Hypothesis MP : 0 < m.
Hypothesis NA : rc_archive c <> ArchiveNone.
Local Notation mr := (rc_maxRolls c).

Lemma archived_one x l o w b tr x' w' k e all :
  winv c w l o -> holds c (f_dir (x_fs x)) l -> l_backups l = newest mr all -> ordered all -> room all 1 -> in_archives c (oldest mr all) (x_arcs x) ->
  xruns (rw_WriteX P c w b) x tr x' (w', (k, e)) -> Forall well tr ->
  exists l' all', log_step m mr (l, o) (HWrite b k e) (l', true) /\ holds c (f_dir (x_fs x')) l' /\ winv c w' l' true /\
    l_backups l' = newest mr all' /\ in_archives c (oldest mr all') (x_arcs x') /\
    (all' = all /\ l_current l' = Some (bytes (l_current l) ++ b) \/
     exists n cur, l_current l = Some cur /\ next_number all n /\ all' = all ++ [(n, cur)] /\ l_current l' = Some b).
Proof.
  intros WI HO BK OR RM IA R W. apply xruns_goes in R.
  assert (PL : plain c) by (right; eauto).
  assert (RB : room (l_backups l) 1) by (rewrite BK; apply (room_incl all); [intros p; apply newest_incl|exact RM]).
  assert (OK : w_ok c w) by now destruct WI.
  destruct (smooth_one P (unarchived c) m K (x_fs x) l o w b (proj tr) (x_fs x') w' k e MP (or_introl eq_refl) WI HO RB
    (goes_runs _ _ _ _ _ (sim_goes _ _ (write_sim P c w b) _ _ _ _ R)) (well_proj _ W)) as (l' & ST & HO' & WI').
  change (holds c (f_dir (x_fs x')) l') in HO'. change (winv c w' l' true) in WI'. change (log_step m mr (l, o) (HWrite b k e) (l', true)) in ST.
  apply (writeX_goes P c w b x tr x' _ PL OK) in R.
  destruct R as [(EA & ED & _)|(s & rname & en & RL)].
  - assert (Q : exists bs cur1, l = mkLog bs cur1 /\ l' = mkLog bs (Some (bytes cur1 ++ b))).
    { inversion ST as [bs cur o' b' LT|bs cur b' n GE NX|]; subst; [eauto|exfalso].
      cbn [l_backups] in *. destruct HO' as (_ & _ & H3 & _). cbn [l_backups] in H3.
      destruct (H3 n cur (last_newest _ _ _)) as (n0 & B0 & D0). apply backup_name_full in B0. subst n0.
      rewrite ED in D0 by apply full_not_file.
      destruct HO as (O & _ & _ & H4). cbn [l_backups] in *.
      assert (RN : - 2 ^ 63 <= n < 2 ^ 63 /\ Forall (fun p => fst p < n) (newest mr all)) by (apply next_number_ok; rewrite <- ?BK; auto).
      destruct RN as [RN LT]. destruct (H4 (Itoa n) (full c (Itoa n)) n) as (_ & y & I); [apply full_backup|now apply numeral_Itoa|congruence|].
      rewrite Forall_forall in LT. rewrite BK in I. specialize (LT _ I). cbn in LT. lia. }
    destruct Q as (bs & cur1 & -> & ->). eexists _, all. cbn [l_backups] in *.
    split; [exact ST|]. split; [exact HO'|]. split; [exact WI'|]. split; [exact BK|]. split; [now rewrite EA|]. left. auto.
  - destruct RL as (WF & SH & NN & EN & _ & _ & PK & _ & AP). cbv zeta in *.
    pose proof (hist_holds P c m K _ _ _ HO SH) as ->.
    destruct l as [bs cur0]. cbn [l_backups l_current] in *. pose proof HO as (O & HF & _). cbn [l_backups l_current] in *.
    destruct (new_name_next c m K w bs rname O RB NN) as (n & NX & ->).
    rewrite HF in EN. destruct cur0 as [cur|]; [|discriminate]. injection EN as <-.
    pose proof (holds_moved c _ _ _ _ HO RB NX) as HM.
    change [Itoa n] with (map num [(n, cur)]) in *. rewrite <- map_app, old_rolls_names in *.
    assert (NXA : next_number all n) by (apply (next_newest mr); now rewrite <- BK).
    destruct (next_number_ok _ _ OR RM NXA) as [RN LT].
    pose proof (ordered_snoc all n cur OR RN LT) as OS.
    assert (OO : in_archives c (oldest mr all) (x_arcs x')).
    { intros z y I. destruct (PK (arc c (full c (Itoa z)))) as [Q|(q & y' & J & _ & Q & _)]; [rewrite Q; now apply IA|exfalso].
      apply arc_inj in Q. subst q. rewrite map_map in J. apply in_map_iff in J as ([z' y''] & EQ & J). apply full_inj in EQ. unfold num in EQ. cbn [fst] in EQ.
      apply oldest_incl in J. rewrite BK in J.
      assert (ZZ : z < z').
      { apply (ordered_split (oldest mr all) (newest mr all ++ [(n, cur)])) with (p := (z, y)) (q := (z', y'')); auto.
        now rewrite app_assoc, split_old. }
      assert (E' : z' = z); [|lia]. apply num_inj; [| |exact EQ].
      - apply (ordered_range (all ++ [(n, cur)]) (z', y'') OS). apply in_app_or in J as [J|J]; apply in_or_app; [left; now apply newest_incl in J|now right].
      - apply (ordered_range all (z, y) OR). now apply oldest_incl in I. }
    inversion ST as [bs' cur' o' b' LT'|bs' cur' b' n' GE NX'|]; subst.
    + eexists _, all. split; [exact ST|]. split; [exact HO'|]. split; [exact WI'|]. split; [reflexivity|]. split; [exact OO|]. left. auto.
    + pose proof (next_det _ _ _ NX NX') as <-.
      eexists _, (all ++ [(n, cur)]). split; [exact ST|]. split; [exact HO'|]. split; [exact WI'|]. cbn [l_backups].
      split; [apply newest_snoc|]. split; [|right; exists n, cur; auto].
      rewrite oldest_snoc. intros z y I. apply in_app_or in I as [I|I]; [now apply OO|].
      destruct (AP W eq_refl NA (full c (Itoa z))) as (y' & D & A).
      { rewrite map_map. apply in_map_iff. exists (z, y). split; [reflexivity|exact I]. }
      rewrite A. destruct HM as (_ & _ & H3 & _). cbn [l_backups] in H3. apply oldest_incl in I.
      destruct (H3 z y I) as (q & B & D'). apply backup_name_full in B. subst q. cbn [map num fst] in D. rewrite D in D'. now injection D' as ->.
Qed.
Lemma archived_history x w hs x' w' l o all : xhappens P c well x w hs x' w' -> (forall b, ~ In (HCrash b) hs) ->
  winv c w l o -> holds c (f_dir (x_fs x)) l -> l_backups l = newest mr all -> ordered all -> room all (length hs) -> in_archives c (oldest mr all) (x_arcs x) ->
  exists l' all', holds c (f_dir (x_fs x')) l' /\ l_backups l' = newest mr (all ++ all') /\ ordered (all ++ all') /\
    in_archives c (oldest mr (all ++ all')) (x_arcs x') /\
    concat (map snd all') ++ bytes (l_current l') = bytes (l_current l) ++ concat (flat_map chunk_of hs).
Proof.
  intros H. revert l o all.
  induction H as [x w|x w b tr x1 w1 k err hs x2 w2 R S HS IH|x w b tr x1 hs x2 w2 R S HS IH|x w hs x2 w2 HS IH];
    intros l o all NC WI HO BK OR RM IA; cbn [length] in RM.
  - exists l, []. rewrite app_nil_r. cbn. rewrite app_nil_r. auto.
  - destruct (archived_one _ _ _ _ _ _ _ _ _ _ _ WI HO BK OR (room_le _ _ _ (le_n_S _ _ (Nat.le_0_l _)) RM) IA R S) as (l1 & all1 & ST & HO1 & WI1 & BK1 & IA1 & C).
    assert (NC1 : forall b, ~ In (HCrash b) hs) by (intros b' I; apply (NC b'); now right).
    destruct C as [(-> & CU)|(n & cur & CU & NX & -> & CU1)].
    + destruct (IH _ _ _ NC1 WI1 HO1 BK1 OR (room_le _ _ _ (Nat.le_succ_diag_r _) RM) IA1) as (l2 & all2 & A & B & C & D & E).
      exists l2, all2. rewrite CU in E. cbn [bytes] in E. cbn [flat_map chunk_of concat app]. rewrite E. rewrite app_assoc. auto.
    + destruct (next_number_ok _ _ OR (room_le _ _ _ (le_n_S _ _ (Nat.le_0_l _)) RM) NX) as [RN LT].
      destruct (IH _ _ _ NC1 WI1 HO1 BK1 (ordered_snoc _ _ _ OR RN LT) (room_next _ _ _ _ RM NX) IA1) as (l2 & all2 & A & B & C & D & E).
      exists l2, ((n, cur) :: all2). rewrite <- !app_assoc in *. cbn [app] in *. split; [exact A|]. split; [exact B|]. split; [exact C|]. split; [exact D|].
      rewrite CU1 in E. rewrite CU. cbn [bytes map snd concat flat_map chunk_of app] in *. rewrite <- app_assoc, E. reflexivity.
  - destruct (NC b). now left.
  - assert (NC1 : forall b, ~ In (HCrash b) hs) by (intros b' I; apply (NC b'); now right).
    exact (IH _ _ _ NC1 (winv_new c l) HO BK OR (room_le _ _ _ (Nat.le_succ_diag_r _) RM) IA).
Qed.
End Step.

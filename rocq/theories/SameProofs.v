(** Proofs about writers that share a log file. *)
From Verif Require Import GoStr Strconv StrconvProofs ConfModel RollModel RollSpec RollProofs RollSizeProofs SameModel SameSpec.
From Coq Require Import Permutation Sorted.
Local Open Scope Z_scope.

(** * Running programs *)
Lemma by_done i A (a b : A) F F' : goes_by i (Done a) F F' b -> F' = F /\ b = a.
Proof. inversion 1; subst; auto. Qed.
Lemma by_op i A o (k : fsres -> prog A) F F' a : goes_by i (Op o k) F F' a ->
  exists r F1, does i o r F F1 /\ goes_by i (k r) F1 F' a.
Proof. inversion 1; subst; eauto. Qed.
Lemma by_bind i A B (p : prog A) (k : A -> prog B) F F' b : goes_by i (pbind p k) F F' b ->
  exists F1 a, goes_by i p F F1 a /\ goes_by i (k a) F1 F' b.
Proof.
  revert F. induction p as [a|o k0 IH]; cbn; intros F H.
  - exists F, a. split; [constructor|exact H].
  - apply by_op in H as (r & F1 & D & H). apply IH in H as (F2 & a & H1 & H2). exists F2, a. split; [econstructor; eauto|exact H2].
Qed.
Lemma bind_by i A B (p : prog A) (k : A -> prog B) F F1 F' a b : goes_by i p F F1 a -> goes_by i (k a) F1 F' b ->
  goes_by i (pbind p k) F F' b.
Proof. induction 1; cbn; intros H2; [exact H2|]. econstructor; eauto. Qed.

(** * The directory scan is RollModel's *)
Definition view (F : ifs) : fs := mkFs (fun n => option_map Reg (content F n)) AAbsent.
Lemma view_some F n : f_dir (view F) n <> None <-> i_dir F n <> None.
Proof. cbn. unfold content. destruct (i_dir F n); cbn; split; congruence. Qed.
Inductive scans {A} : prog A -> Prop :=
| sc_done a : scans (Done a)
| sc_dir k : (forall r, scans (k r)) -> scans (Op OReadDir k)
| sc_sort key l k : (forall r, scans (k r)) -> scans (Op (OSort key l) k).
Lemma scan_runs i A (p : prog A) F F' a : scans p -> goes_by i p F F' a ->
  F' = F /\ exists tr, runs p (view F) tr (view F) a /\ Forall smooth tr.
Proof.
  intros S. revert F. induction S as [x|k S IH|key l k S IH]; intros F H.
  - apply by_done in H as [-> ->]. split; [reflexivity|]. exists []. split; constructor.
  - apply by_op in H as (r & F1 & D & H). inversion D as [| |? cs ND L| | | | | | | | | | | | | | |]; subst.
    apply IH in H as [-> (tr & R & SM)]. split; [reflexivity|]. eexists. split.
    + econstructor; [|exact R]. constructor. split; [exact ND|]. intros n b. rewrite L. cbn. unfold content.
      destruct (i_dir F1 n) as [x|]; cbn; split.
      * intros [_ ->]. eauto.
      * intros (y & [= <-] & <-). split; [discriminate|reflexivity].
      * intros [X _]. now destruct X.
      * intros (y & X & _). discriminate.
    + constructor; [|exact SM]. cbn. intros I. apply in_app_or in I as [I|[I|[]]]; [|discriminate].
      apply in_map_iff in I as (? & ? & _). discriminate.
  - apply by_op in H as (r & F1 & D & H). inversion D; subst.
    apply IH in H as [-> (tr & R & SM)]. split; [reflexivity|]. eexists. split.
    + econstructor; [|exact R]. now constructor.
    + constructor; [exact I|exact SM].
Qed.
Lemma scans_bind A B (p : prog A) (k : A -> prog B) : scans p -> (forall a, scans (k a)) -> scans (pbind p k).
Proof. induction 1; cbn; intros; [auto| |]; constructor; auto. Qed.
Lemma history_scans P c : scans (getSortedLogHistory P c).
Proof.
  unfold getSortedLogHistory, getDirFilePaths, op. cbn [pbind]. constructor. intros r. cbn [pbind].
  destruct (match r with RDir rs => dir_loop [] rs | _ => None end); constructor. intros r'. constructor.
Qed.
Lemma history_by P c i F F' h : goes_by i (getSortedLogHistory P c) F F' h ->
  F' = F /\ exists s, h = Some (map (full c) s) /\ sorted_hist P c (f_dir (view F)) s.
Proof.
  intros H. apply scan_runs in H as [-> (tr & R & SM)]; [|apply history_scans]. split; [reflexivity|].
  apply runs_goes in R. apply history_goes in R as (_ & [X|[X|(s & X & SH)]] & N); [discriminate| |].
  - injection X as ->. now destruct (N SM).
  - injection X as ->. eauto.
Qed.

(** * Lists *)
Lemma append_length A (l : list (list A)) n b : length (append_at l n b) = length l.
Proof. revert n. induction l as [|x l IH]; intros [|n]; cbn; auto. Qed.
Lemma append_same A (l : list (list A)) n b : (n < length l)%nat -> nth n (append_at l n b) [] = nth n l [] ++ b.
Proof. revert n. induction l as [|x l IH]; intros [|n] H; cbn in *; try lia; [reflexivity|]. apply IH. lia. Qed.
Lemma append_other A (l : list (list A)) n m b : m <> n -> nth m (append_at l n b) [] = nth m l [].
Proof. revert n m. induction l as [|x l IH]; intros [|n] [|m] H; cbn; auto; congruence. Qed.
Lemma append_app A (l l' : list (list A)) n b : append_at (l ++ l') (length l + n) b = l ++ append_at l' n b.
Proof. induction l as [|x l IH]; cbn; [reflexivity|]. now rewrite IH. Qed.
Lemma append_map A B (g : list A -> list B) (l : list (list A)) n b b' :
  (forall x, g (x ++ b) = g x ++ b') -> map g (append_at l n b) = append_at (map g l) n b'.
Proof. intros E. revert n. induction l as [|x l IH]; intros [|n]; cbn; auto; now rewrite ?E, ?IH. Qed.
Lemma text_app a b : text_of (a ++ b) = text_of a ++ text_of b.
Proof. unfold text_of. now rewrite map_app, concat_app. Qed.
Lemma text_one i b : text_of [(i, b)] = b.
Proof. unfold text_of. cbn. apply app_nil_r. Qed.
Lemma hput_same A (h : nat -> A) i x : hput h i x i = x.
Proof. unfold hput. now rewrite Nat.eqb_refl. Qed.
Lemma hput_other A (h : nat -> A) i x j : j <> i -> hput h i x j = h j.
Proof. intros H. unfold hput. destruct (Nat.eqb_spec j i); congruence. Qed.
Lemma iput_same A (d : str -> A) n x : iput d n x n = x.
Proof. unfold iput. now rewrite str_eqb_refl. Qed.
Lemma iput_other A (d : str -> A) n x m : m <> n -> iput d n x m = d m.
Proof. intros H. unfold iput. destruct (str_eqb_spec m n); congruence. Qed.
Lemma nth_last A (l : list A) d : nth (length l - 1) l d = last l d.
Proof.
  induction l as [|x l IH]; [reflexivity|]. destruct l as [|y l]; [reflexivity|].
  replace (length (x :: y :: l) - 1)%nat with (S (length (y :: l) - 1)) by (cbn; lia). exact IH.
Qed.

(** * The invariant *)
Section Shared.
Variables (P : tparse) (c : roll_conf) (limit m : nat -> Z) (cs : nat -> roll_conf) (F0 : ifs).
Hypothesis AL : alike c limit m cs.
Notation k0 := (length (i_data F0)).
Notation name j := (full c (Itoa (Z.of_nat j + 1))).

Lemma full_same i r : full (cs i) r = full c r.
Proof. destruct (AL i) as (E & N & _). unfold createFullFileName. now rewrite E, N. Qed.
Lemma file_same i : rc_file (cs i) = rc_file c.
Proof. apply AL. Qed.

Record repr (F : ifs) (ws : nat -> wst) (g : slog) : Prop := {
  re_data : i_data F = i_data F0 ++ map text_of (g_files g);
  re_file : i_dir F (rc_file c) = match g_files g with [] => None | _ => Some (k0 + (length (g_files g) - 1))%nat end;
  re_back : forall j, (g_gone g <= j)%nat -> (S j < length (g_files g))%nat -> i_dir F (name j) = Some (k0 + j)%nat;
  re_only : forall r z, numeral r z -> i_dir F (full c r) <> None ->
    exists j, r = Itoa (Z.of_nat j + 1) /\ (g_gone g <= j)%nat /\ (S j < length (g_files g))%nat;
  re_rest : forall n, foreign c n -> i_dir F n = i_dir F0 n;
  re_gone : g_gone g = 0%nat \/ (S (g_gone g) < length (g_files g))%nat;
  re_open : forall i, i_open F i = option_map (fun j => k0 + j)%nat (g_at g i);
  re_wri : forall i, match g_at g i with
    | None => ws i = w_new
    | Some j => (j < length (g_files g))%nat /\ w_file (ws i) = Some (rc_file c, true) /\ w_name (ws i) = rc_file c /\
                w_size (ws i) = g_size g i
    end }.

Lemma repr_shows F ws g : repr F ws g -> shows c F g.
Proof.
  intros R. split; [|split].
  - unfold content. rewrite (re_file _ _ _ R). destruct (g_files g) as [|x l] eqn:E; [reflexivity|]. cbn [option_map]. f_equal.
    unfold data. rewrite (re_data _ _ _ R), E, app_nth2_plus. rewrite (nth_indep _ [] (text_of [])) by (rewrite map_length; cbn; lia).
    rewrite map_nth. now rewrite nth_last.
  - intros j n B G L. apply backup_name_full in B. subst n. unfold content. rewrite (re_back _ _ _ R j G L). cbn. f_equal.
    unfold data. rewrite (re_data _ _ _ R), app_nth2_plus.
    rewrite (nth_indep _ [] (text_of [])) by (rewrite map_length; lia). now rewrite map_nth.
  - intros r n z B N C. apply backup_name_full in B. subst n. apply (re_only _ _ _ R r z N). unfold content in C.
    destruct (i_dir F (full c r)); [discriminate|]. now destruct C.
Qed.

Definition bound (g : slog) : Prop := Z.of_nat (length (g_files g)) < 2 ^ 63.
(** The backups as RollSpec has them. *)
Definition backs (g : slog) : list (Z * str) :=
  map (fun j => (Z.of_nat j + 1, text_of (nth j (g_files g) []))) (seq (g_gone g) (length (g_files g) - 1 - g_gone g)).
Lemma seq_sorted a k : StronglySorted (fun x y => x < y)%nat (seq a k).
Proof.
  revert a. induction k as [|k IH]; intros a; cbn; constructor; auto. apply Forall_forall. intros x I. apply in_seq in I. lia.
Qed.
Lemma backs_ordered g : bound g -> ordered (backs g).
Proof.
  intros B. split.
  - unfold backs. pose proof (seq_sorted (g_gone g) (length (g_files g) - 1 - g_gone g)) as S.
    induction S as [|x l S IH F]; cbn; constructor; auto. rewrite Forall_forall in *. intros p I.
    apply in_map_iff in I as (y & <- & I). cbn. specialize (F y I). lia.
  - apply Forall_forall. intros p I. apply in_map_iff in I as (j & <- & I). apply in_seq in I. cbn. unfold bound in B. lia.
Qed.
Lemma repr_holds i F ws g : bound g -> repr F ws g ->
  holds (cs i) (f_dir (view F)) (mkLog (backs g) (match g_files g with [] => None | _ => Some (text_of (last (g_files g) [])) end)).
Proof.
  intros B R. pose proof (repr_shows _ _ _ R) as (S1 & S2 & S3). split; [now apply backs_ordered|]. cbn [l_backups l_current].
  rewrite file_same. split; [cbn; rewrite S1; now destruct (g_files g)|]. split.
  - intros z x I. apply in_map_iff in I as (j & [= <- <-] & I). apply in_seq in I. eexists. split; [apply full_backup|].
    cbn. rewrite full_same. rewrite (S2 j _ (full_backup c _)); [reflexivity|lia|lia].
  - intros r n z BN N D. apply backup_name_full in BN. subst n. rewrite full_same in D.
    destruct (S3 r (full c r) z (full_backup c r) N) as (j & -> & G & L).
    { cbn in D. intros X. rewrite X in D. now destruct D. }
    assert (Z.of_nat j + 1 = z) as <-.
    { assert (numeral (Itoa (Z.of_nat j + 1)) (Z.of_nat j + 1)) as N' by (apply numeral_Itoa; unfold bound in B; lia).
      apply numeral_iff in N as (_ & _ & N). apply numeral_iff in N' as (_ & _ & N'). congruence. }
    split; [reflexivity|]. eexists. apply in_map_iff. exists j. split; [reflexivity|]. apply in_seq. lia.
Qed.
Lemma history_is i F F' ws g h : bound g -> repr F ws g -> goes_by i (getSortedLogHistory P (cs i)) F F' h ->
  F' = F /\ h = Some (map (fun j => name j) (seq (g_gone g) (length (g_files g) - 1 - g_gone g))).
Proof.
  intros B R H. apply history_by in H as [-> (s & -> & SH)]. split; [reflexivity|].
  destruct (AL i) as (_ & _ & K & _). rewrite (hist_holds P (cs i) (limit i) K _ _ _ (repr_holds i F ws g B R) SH).
  cbn [l_backups]. unfold backs. rewrite !map_map. f_equal. apply map_ext. intros j. unfold num. cbn. apply full_same.
Qed.
Lemma name_inj j k : Z.of_nat j + 1 < 2 ^ 63 -> Z.of_nat k + 1 < 2 ^ 63 -> name j = name k -> j = k.
Proof. intros A B E. apply full_inj in E. apply num_inj in E; lia. Qed.

Lemma remove_by i l F F' u : goes_by i (removeAll l) F F' u ->
  i_data F' = i_data F /\ (forall j, i_open F' j = i_open F j) /\
  forall n, (In n l -> i_dir F' n = None) /\ (~ In n l -> i_dir F' n = i_dir F n).
Proof.
  revert F. induction l as [|x l IH]; cbn [removeAll]; intros F H.
  - apply by_done in H as [-> _]. repeat split; auto. intros [].
  - unfold op in H. cbn [pbind] in H. apply by_op in H as (r & F1 & D & H). apply IH in H as (A & B & C).
    inversion D as [| | | | | | | |? ? N|? ? N| | | | | | | |]; subst; cbn [i_data i_open i_dir] in *.
    + repeat split; auto.
      * intros [-> |I]; [|now apply C]. destruct (in_dec str_dec n l) as [I|I]; [now apply C|].
        rewrite (proj2 (C n) I). apply iput_same.
      * intros I. rewrite (proj2 (C n)) by (intros J; apply I; now right). apply iput_other. intros ->. apply I. now left.
    + repeat split; auto.
      * intros [-> |I]; [|now apply C]. destruct (in_dec str_dec n l) as [I|I]; [now apply C|].
        now rewrite (proj2 (C n) I).
      * intros I. apply C. intros J. apply I. now right.
Qed.

(** Backups that go when writer [i] rolls. *)
Definition now_gone (i : nat) (g : slog) : nat := if m i <=? 0 then g_gone g else Nat.max (g_gone g) (length (g_files g) - Z.to_nat (m i)).
Lemma numeral_name j : Z.of_nat j + 1 < 2 ^ 63 -> numeral (Itoa (Z.of_nat j + 1)) (Z.of_nat j + 1).
Proof. intros H. apply numeral_Itoa. lia. Qed.
Lemma delete_by i h F F' u : goes_by i (deleteOldRolls (cs i) h) F F' u ->
  i_data F' = i_data F /\ (forall j, i_open F' j = i_open F j) /\
  forall n, (In n (oldest (m i) h) -> i_dir F' n = None) /\ (~ In n (oldest (m i) h) -> i_dir F' n = i_dir F n).
Proof.
  destruct (AL i) as (_ & _ & _ & _ & M & AR). unfold deleteOldRolls, oldest, cut. rewrite M, AR.
  destruct (Z.leb_spec (m i) 0) as [L|L].
  { intros H. apply by_done in H as [-> _]. cbn. repeat split; auto. now intros []. }
  destruct (Z.leb_spec (Z.of_nat (length h) - m i) 0) as [L'|L'].
  { intros H. apply by_done in H as [-> _]. replace (length h - Z.to_nat (m i))%nat with 0%nat by lia. cbn. repeat split; auto. now intros []. }
  cbn [pbind]. replace (Z.to_nat (Z.of_nat (length h) - m i)) with (length h - Z.to_nat (m i))%nat by lia. apply remove_by.
Qed.

Lemma roll_by i j F ws g F' w' e : repr F ws g -> bound g -> g_at g i = Some j ->
  goes_by i (roll P (cs i) (ws i)) F F' (w', e) ->
  e = false /\ w_file w' = None /\ i_data F' = i_data F /\ (forall k, i_open F' k = hput (i_open F) i None k) /\
  i_dir F' (rc_file c) = None /\
  (forall k, (now_gone i g <= k)%nat -> (k < length (g_files g))%nat -> i_dir F' (name k) = Some (k0 + k)%nat) /\
  (forall r z, numeral r z -> i_dir F' (full c r) <> None ->
     exists k, r = Itoa (Z.of_nat k + 1) /\ (now_gone i g <= k)%nat /\ (k < length (g_files g))%nat) /\
  (forall n, foreign c n -> i_dir F' n = i_dir F n).
Proof.
  intros R B AT H. pose proof (re_wri _ _ _ R i) as WI. rewrite AT in WI. destruct WI as (JL & WF & WN & WS).
  unfold roll in H. rewrite WF in H. unfold op in H. cbn [pbind] in H.
  apply by_op in H as (r & F1 & D & H). pose proof (re_open _ _ _ R i) as OP. rewrite AT in OP. cbn in OP.
  inversion D as [? x0 OX|? OX| | | | | | | | | | | | | | | |]; subst; [|congruence].
  set (F1 := mkI _ _ _) in *. apply by_bind in H as (F2 & h & HH & H).
  set (n := length (g_files g)) in *.
  assert (HI : F2 = F1 /\ h = Some (map (fun k => name k) (seq (g_gone g) (n - 1 - g_gone g)))).
  { apply history_by in HH as [-> (s & -> & SH)]. split; [reflexivity|].
    destruct (AL i) as (_ & _ & K & _).
    assert (HO : holds (cs i) (f_dir (view F1)) (mkLog (backs g) (match g_files g with [] => None | _ => Some (text_of (last (g_files g) [])) end)))
      by (pose proof (repr_holds i F ws g B R) as HO; exact HO).
    rewrite (hist_holds P (cs i) (limit i) K _ _ _ HO SH). cbn [l_backups]. unfold backs. rewrite !map_map. f_equal. apply map_ext.
    intros k. unfold num. cbn. apply full_same. }
  destruct HI as [-> ->]. destruct (AL i) as (EF & EN & K & LP & EM & EA).
  unfold getNewHistoryRollFileName in H. rewrite K in H. cbn [pbind] in H.
  set (hist := map (fun k => name k) (seq (g_gone g) (n - 1 - g_gone g))) in *.
  assert (NN : Itoa (wrap64 (match hist with [] => 0 | _ => atoi (getFileRollName (cs i) (last hist [])) end + 1)) = Itoa (Z.of_nat (n - 1) + 1)).
  { pose proof (re_gone _ _ _ R) as G. fold n in G. unfold bound in B. fold n in B.
    assert (V : match hist with [] => 0 | _ => atoi (getFileRollName (cs i) (last hist [])) end = Z.of_nat (n - 1)).
    { destruct (n - 1 - g_gone g)%nat as [|q] eqn:Q.
      - unfold hist. cbn. lia.
      - assert (hist <> []) as NE by (unfold hist; cbn; discriminate).
        assert (LH : last hist [] = name (n - 2)).
        { unfold hist. rewrite (last_map (fun k => name k) _ 0%nat) by discriminate.
          rewrite <- nth_last, seq_length, seq_nth by lia. do 4 f_equal. lia. }
        rewrite LH. destruct hist; [congruence|]. rewrite <- (full_same i), full_get.
        rewrite num_facts by lia. lia. }
    rewrite V, wrap64_id; [reflexivity|]. unfold min_int64, max_int64. lia. }
  cbn zeta in H.
  replace (createFullFileName (cs i) (rc_file (cs i)) (Itoa (wrap64 (match hist with [] => 0 | _ => atoi (getFileRollName (cs i) (last hist [])) end + 1))))
    with (name (n - 1)) in H by (rewrite NN; symmetry; apply full_same).
  cbn [w_name set_file] in H. rewrite WN in H.
  apply by_op in H as (r & F2 & D2 & H). pose proof (re_file _ _ _ R) as RF.
  assert (N0 : (0 < n)%nat) by lia.
  assert (RF' : i_dir F1 (rc_file c) = Some (k0 + (n - 1))%nat).
  { unfold n. cbn. rewrite RF. destruct (g_files g); [cbn in N0; lia|reflexivity]. }
  inversion D2 as [| | | |? ? y ? DX|? ? ? DX| | | | | | | | | | | |]; subst; rewrite RF' in DX; [|discriminate].
  injection DX as <-. clear D2. set (F2 := mkI (iput _ _ _) _ _) in *.
  apply by_op in H as (r3 & F3 & D3 & H).
  assert (F3 = F2) as -> by (inversion D3; reflexivity). clear D3.
  assert (HL : hist ++ [name (n - 1)] = map (fun k => name k) (seq (g_gone g) (n - g_gone g))).
  { pose proof (re_gone _ _ _ R) as G. fold n in G.
    replace (n - g_gone g)%nat with (n - 1 - g_gone g + 1)%nat by lia. rewrite seq_app, map_app. cbn. unfold hist. do 3 f_equal.
    do 3 f_equal. lia. }
  rewrite HL in H. clear HL NN.
  set (all := map (fun k => name k) (seq (g_gone g) (n - g_gone g))) in *.
  assert (AL' : length all = (n - g_gone g)%nat) by (unfold all; now rewrite map_length, seq_length).
  assert (OLD : forall x, In x (oldest (m i) all) <-> exists k, x = name k /\ (g_gone g <= k)%nat /\ (k < now_gone i g)%nat /\ (k < n)%nat).
  { intros x. unfold oldest, cut. rewrite AL'. unfold now_gone. fold n. destruct (Z.leb_spec (m i) 0) as [L|L].
    - cbn. split; [intros []|]. intros (k & _ & ? & ? & _). lia.
    - unfold all. rewrite firstn_map, in_map_iff.
      assert (FS : forall a k l, (k <= l)%nat -> firstn k (seq a l) = seq a k).
      { intros a k l KL. replace l with (k + (l - k))%nat by lia. rewrite seq_app, firstn_app, seq_length, Nat.sub_diag, app_nil_r.
        rewrite firstn_all2; [reflexivity|]. rewrite seq_length. lia. }
      rewrite FS by lia. split.
      + intros (k & <- & I). apply in_seq in I. exists k. repeat split; lia.
      + intros (k & -> & ? & ? & ?). exists k. split; [reflexivity|]. apply in_seq. lia. }
  assert (FIN : exists F4, F' = F4 /\ (w', e) = (set_file (ws i) None, false) /\
    i_data F4 = i_data F2 /\ (forall j, i_open F4 j = i_open F2 j) /\
    forall x, (In x (oldest (m i) all) -> i_dir F4 x = None) /\ (~ In x (oldest (m i) all) -> i_dir F4 x = i_dir F2 x)).
  { destruct (Z.ltb_spec (rc_maxRolls (cs i)) (Z.of_nat (length all))) as [LT|GE].
    - apply by_bind in H as (F4 & u & H1 & H2). apply delete_by in H1 as (A1 & A2 & A3). apply by_done in H2 as [-> E].
      exists F4. auto.
    - cbn [pbind] in H. apply by_done in H as [-> E]. exists F2. repeat split; auto.
      rewrite EM in GE. unfold oldest, cut. destruct (Z.leb_spec (m i) 0); cbn; [now intros []|].
      replace (length all - Z.to_nat (m i))%nat with 0%nat by lia. now intros []. }
  destruct FIN as (F4 & -> & [= -> ->] & A1 & A2 & A3). clear H.
  assert (NF : forall r, full c r <> rc_file c) by apply full_not_file.
  unfold bound in B. fold n in B.
  split; [reflexivity|]. split; [reflexivity|]. split; [rewrite A1; reflexivity|]. split; [intros k; rewrite A2; reflexivity|].
  split; [|split; [|split]].
  - destruct (in_dec str_dec (rc_file c) (oldest (m i) all)) as [I|I]; [now apply A3|]. rewrite (proj2 (A3 _) I).
    unfold F2. cbn [i_dir]. rewrite iput_other by (apply not_eq_sym, NF). apply iput_same.
  - intros k G L. rewrite (proj2 (A3 _)).
    + unfold F2. cbn [i_dir]. destruct (Nat.eq_dec k (n - 1)) as [-> |NE]; [apply iput_same|].
      rewrite iput_other by (intros X; apply name_inj in X; lia). rewrite iput_other by apply NF.
      apply (re_back _ _ _ R); [|fold n; lia]. unfold now_gone in G. destruct (m i <=? 0); lia.
    + intros I. apply OLD in I as (q & E & G1 & G2 & G3). apply name_inj in E; lia.
  - intros r z N D4. destruct (in_dec str_dec (full c r) (oldest (m i) all)) as [I|I]; [rewrite (proj1 (A3 _) I) in D4; now destruct D4|].
    rewrite (proj2 (A3 _) I) in D4. unfold F2 in D4. cbn [i_dir] in D4.
    assert (exists k, r = Itoa (Z.of_nat k + 1) /\ (g_gone g <= k)%nat /\ (k < n)%nat) as (k & -> & G & L).
    { destruct (str_dec (full c r) (name (n - 1))) as [E|NE].
      - apply full_inj in E. exists (n - 1)%nat. split; [exact E|]. pose proof (re_gone _ _ _ R) as RG. fold n in RG. lia.
      - rewrite iput_other in D4 by exact NE. rewrite iput_other in D4 by apply NF.
        destruct (re_only _ _ _ R r z N D4) as (k & E & G & L). fold n in L. exists k. repeat split; auto; lia. }
    exists k. split; [reflexivity|]. split; [|exact L]. destruct (le_lt_dec (now_gone i g) k) as [|LT]; [assumption|].
    destruct I. apply OLD. exists k. auto.
  - intros x [X1 X2]. rewrite (proj2 (A3 _)).
    + unfold F2. cbn [i_dir]. rewrite iput_other.
      * now rewrite iput_other.
      * intros ->. apply (X2 _ _ (numeral_name (n - 1) ltac:(lia))), full_backup.
    + intros I. apply OLD in I as (k & -> & _ & _ & L). apply (X2 _ _ (numeral_name k ltac:(lia))), full_backup.
Qed.

Lemma create_by i F F' w w' e : goes_by i (createFile (cs i) w) F F' (w', e) ->
  e = false /\ w_file w' = Some (rc_file c, true) /\ w_name w' = rc_file c /\ exists x,
  i_open F' = hput (i_open F) i (Some x) /\ w_size w' = Z.of_nat (length (data F' x)) /\
  ((i_dir F (rc_file c) = Some x /\ i_dir F' = i_dir F /\ i_data F' = i_data F) \/
   (i_dir F (rc_file c) = None /\ x = length (i_data F) /\ i_dir F' = iput (i_dir F) (rc_file c) (Some x) /\ i_data F' = i_data F ++ [[]])).
Proof.
  destruct (AL i) as (EF & EN & K & _). unfold createFile, getCurrentFileName, op. rewrite K, EF. cbn [pbind]. intros H.
  apply by_op in H as (r & F1 & D & H). inversion D; subst. apply by_op in H as (r & F2 & D2 & H).
  assert (E2 : r = ROk /\ exists x, i_open F2 = hput (i_open F1) i (Some x) /\
    ((i_dir F1 (rc_file c) = Some x /\ i_dir F2 = i_dir F1 /\ i_data F2 = i_data F1) \/
     (i_dir F1 (rc_file c) = None /\ x = length (i_data F1) /\ i_dir F2 = iput (i_dir F1) (rc_file c) (Some x) /\ i_data F2 = i_data F1 ++ [[]]))).
  { inversion D2; subst; cbn [i_dir i_data i_open]; (split; [reflexivity|]); eexists; (split; [reflexivity|]); auto 6. }
  destruct E2 as (-> & x & O2 & E2). apply by_op in H as (r & F3 & D3 & H).
  inversion D3 as [| | | | | | | | | | | | |? y ? OY|? ? OY| | |]; subst; rewrite O2, hput_same in OY; [|discriminate]. injection OY as <-.
  apply by_done in H as [-> [= -> ->]]. cbn. repeat split; auto. exists x. auto.
Qed.
(** The write itself. *)
Lemma put_by i A n b (k : fsres -> prog A) x F F' a : i_open F i = Some x -> goes_by i (Op (OWrite n b) k) F F' a ->
  exists F1, F1 = mkI (i_dir F) (append_at (i_data F) x b) (i_open F) /\ goes_by i (k (RWrote (length b) true)) F1 F' a.
Proof.
  intros O H. apply by_op in H as (r & F1 & D & H). inversion D as [| | | | | | | | | | | | | | |? ? y ? OY|? ? ? OY|]; subst; [|congruence].
  assert (y = x) as -> by congruence. eauto.
Qed.

Lemma data_put (l : list (list (nat * str))) j i b :
  append_at (i_data F0 ++ map text_of l) (k0 + j) b = i_data F0 ++ map text_of (append_at l j [(i, b)]).
Proof. rewrite append_app. f_equal. symmetry. apply append_map. intros x. now rewrite text_app, text_one. Qed.
Lemma data_at l j : (j < length l)%nat -> nth (k0 + j) (i_data F0 ++ map text_of l) [] = text_of (nth j l []).
Proof.
  intros L. rewrite app_nth2_plus. rewrite (nth_indep _ [] (text_of [])) by (rewrite map_length; lia). now rewrite map_nth.
Qed.

Lemma step_open g i b fs1 : g_at g i = None -> fs1 = opened (g_files g) ->
  slog_step limit m g i (Put b) (mkSlog (append_at fs1 (at_end fs1) [(i, b)]) (g_gone g) (hput (g_at g) i (Some (at_end fs1)))
        (hput (g_size g) i (size_of (last fs1 []) + Z.of_nat (length b)))).
Proof. destruct g. apply sl_open. Qed.
Lemma step_stay g i b j : g_at g i = Some j -> g_size g i < limit i ->
  slog_step limit m g i (Put b) (mkSlog (append_at (g_files g) j [(i, b)]) (g_gone g) (g_at g) (hput (g_size g) i (g_size g i + Z.of_nat (length b)))).
Proof. destruct g. apply sl_stay. Qed.
Lemma step_roll g i b j : g_at g i = Some j -> limit i <= g_size g i ->
  slog_step limit m g i (Put b) (mkSlog (g_files g ++ [[(i, b)]]) (now_gone i g)
        (hput (g_at g) i (Some (length (g_files g)))) (hput (g_size g) i (Z.of_nat (length b)))).
Proof. destruct g. apply sl_roll. Qed.

Lemma put_step i b F ws g F' w r : repr F ws g -> bound g -> goes_by i (rw_Write P (cs i) (ws i) b) F F' (w, r) ->
  r = (length b, false) /\ exists g', slog_step limit m g i (Put b) g' /\ repr F' (hput ws i w) g' /\
    (length (g_files g') <= S (length (g_files g)))%nat.
Proof.
  intros R B H. rewrite write_eq in H. unfold needsToRoll in H. destruct (AL i) as (EF & EN & K & LP & EM & EA). rewrite K in H.
  cbn [pbind] in H. pose proof (re_wri _ _ _ R i) as WI. pose proof (re_open _ _ _ R i) as OP.
  destruct (g_at g i) as [j|] eqn:AT; cbn in OP.
  - destruct WI as (JL & WF & WN & WS). rewrite WS in H. destruct (Z.leb_spec (limit i) (g_size g i)) as [RO|ST].
    + (* roll *)
      apply by_bind in H as (F1 & (w1 & e1) & H1 & H). destruct (roll_by i j F ws g F1 w1 e1 R B AT H1) as (-> & WF1 & A1 & A2 & A3 & A4 & A5 & A6).
      unfold finish in H. rewrite WF1 in H. apply by_bind in H as (F2 & (w2 & e2) & H2 & H).
      apply create_by in H2 as (-> & WF2 & WN2 & x & O2 & SZ2 & [(X & _)|(X & XL & D2 & E2)]); [congruence|].
      rewrite WF2 in H. unfold op in H. cbn [pbind] in H.
      assert (OX : i_open F2 i = Some x) by (rewrite O2; apply hput_same).
      apply (put_by i _ _ _ _ x) in H as (F3 & -> & H); [|exact OX].
      apply by_done in H as [-> [= -> ->]]. split; [reflexivity|].
      set (n := length (g_files g)) in *.
      assert (XK : x = (k0 + n)%nat) by (rewrite XL, A1, (re_data _ _ _ R), app_length, map_length; reflexivity).
      assert (S0 : w_size w2 = 0).
      { rewrite SZ2. unfold data. rewrite E2, XL, app_nth2 by lia. rewrite Nat.sub_diag. reflexivity. }
      eexists. split; [exact (step_roll g i b j AT RO)|]. cbn [g_files].
      split; [|rewrite app_length; cbn; fold n; lia].
      assert (LN : length (g_files g ++ [[(i, b)]]) = S n) by (rewrite app_length; cbn; fold n; lia).
      assert (N0 : (0 < n)%nat) by (fold n in JL; lia).
      constructor; cbn [i_data i_dir i_open g_files g_gone g_at g_size].
      * rewrite E2, A1, (re_data _ _ _ R), <- app_assoc, XK.
        change (map text_of (g_files g) ++ [[]]) with (map text_of (g_files g) ++ map text_of [[]]). rewrite <- map_app.
        rewrite (data_put _ n i). do 2 f_equal. replace n with (length (g_files g) + 0)%nat by (fold n; lia). rewrite append_app. reflexivity.
      * rewrite D2, iput_same, LN, XK. destruct (g_files g) eqn:EG; [cbn in n; lia|]. cbn [app]. f_equal; lia.
      * rewrite LN, D2. intros k G L. rewrite iput_other by apply full_not_file. apply A4; [|lia].
        exact G.
      * rewrite LN, D2. intros q z N D4. rewrite iput_other in D4 by apply full_not_file.
        destruct (A5 q z N D4) as (k & E & G & L). exists k. split; [exact E|]. split; [exact G|lia].
      * rewrite D2. intros q FO. rewrite iput_other by apply FO. rewrite (A6 _ FO). apply (re_rest _ _ _ R _ FO).
      * rewrite LN. pose proof (re_gone _ _ _ R) as G. fold n in G. unfold now_gone. fold n. destruct (Z.leb_spec (m i) 0); lia.
      * intros k. rewrite O2. destruct (Nat.eq_dec k i) as [-> |NE]; [rewrite !hput_same; now rewrite XK|].
        rewrite !hput_other by exact NE. rewrite A2, hput_other by exact NE. apply (re_open _ _ _ R).
      * intros k. rewrite LN. destruct (Nat.eq_dec k i) as [-> |NE].
        -- rewrite !hput_same. cbn [w_file w_name w_size set_size]. repeat split; auto. rewrite S0. lia.
        -- rewrite !hput_other by exact NE. pose proof (re_wri _ _ _ R k) as W. destruct (g_at g k); [|exact W].
           destruct W as (W1 & W2). fold n in W1. split; [lia|exact W2].
    + (* stay *)
      cbn [pbind] in H. unfold finish in H. rewrite WF in H. cbn [pbind] in H. rewrite WF in H. unfold op in H. cbn [pbind] in H.
      apply (put_by i _ _ _ _ _) with (1 := OP) in H as (F3 & -> & H). apply by_done in H as [-> [= -> ->]]. split; [reflexivity|].
      eexists. split; [exact (step_stay g i b j AT ST)|]. cbn [g_files].
      split; [|rewrite append_length; lia].
      constructor; cbn [i_data i_dir i_open g_files g_gone g_at g_size]; rewrite ?append_length; try apply R.
      * rewrite (re_data _ _ _ R). apply data_put.
      * rewrite (re_file _ _ _ R). destruct (g_files g) as [|x l]; [reflexivity|]. destruct j; reflexivity.
      * intros k. destruct (Nat.eq_dec k i) as [-> |NE].
        -- rewrite AT, !hput_same. cbn [w_file w_name w_size set_size]. repeat split; auto. now rewrite WS.
        -- rewrite !hput_other by exact NE. apply (re_wri _ _ _ R).
  - (* open *)
    rewrite WI in H. cbn [w_size w_new] in H. destruct (Z.leb_spec (limit i) 0); [lia|]. cbn [pbind] in H. unfold finish in H. cbn [w_file w_new] in H.
    apply by_bind in H as (F2 & (w2 & e2) & H2 & H). apply create_by in H2 as (-> & WF2 & WN2 & x & O2 & SZ2 & E2).
    rewrite WF2 in H. unfold op in H. cbn [pbind] in H.
    assert (OX : i_open F2 i = Some x) by (rewrite O2; apply hput_same).
    apply (put_by i _ _ _ _ x) in H as (F3 & -> & H); [|exact OX]. apply by_done in H as [-> [= -> ->]]. split; [reflexivity|].
    eexists. split; [exact (step_open g i b _ AT eq_refl)|]. cbn [g_files].
    set (n := length (g_files g)) in *.
    assert (LN : length (opened (g_files g)) = Nat.max 1 n) by (unfold n, opened; destruct (g_files g); reflexivity).
    split; [|rewrite append_length, LN; lia].
    assert (E3 : x = (k0 + at_end (opened (g_files g)))%nat /\ i_data F2 = i_data F0 ++ map text_of (opened (g_files g)) /\
      i_dir F2 (rc_file c) = Some x /\ forall q, q <> rc_file c -> i_dir F2 q = i_dir F q).
    { unfold at_end. rewrite LN. rewrite (re_file _ _ _ R) in E2. unfold opened in *. destruct (g_files g) as [|y l] eqn:EG.
      - destruct E2 as [(X & _)|(_ & XL & D2 & E2)]; [discriminate|]. rewrite E2, D2, XL, (re_data _ _ _ R), EG. cbn [map].
        rewrite app_nil_r. rewrite iput_same. repeat split; [|intros q NE; now apply iput_other]. unfold n; cbn. lia.
      - destruct E2 as [(X & D2 & E2)|(X & _)]; [|discriminate]. injection X as <-. rewrite E2, D2, (re_data _ _ _ R), EG.
        rewrite (re_file _ _ _ R), EG. repeat split; try (f_equal; unfold n; cbn; lia); unfold n; cbn; lia. }
    destruct E3 as (XK & DA & DF & DO). clear E2.
    constructor; cbn [i_data i_dir i_open g_files g_gone g_at g_size]; rewrite ?append_length, ?LN.
    * rewrite DA, XK. apply data_put.
    * rewrite DF, XK. unfold at_end. rewrite LN. destruct (append_at (opened (g_files g)) _ _) eqn:EA2; [|reflexivity].
      apply (f_equal (@length _)) in EA2. rewrite append_length, LN in EA2. cbn [length] in EA2. lia.
    * intros k G L. rewrite DO by apply full_not_file. apply (re_back _ _ _ R); [exact G|]. fold n. lia.
    * intros q z N D4. rewrite DO in D4 by apply full_not_file. destruct (re_only _ _ _ R q z N D4) as (k & E & G & L). exists k. repeat split; auto. fold n in L. lia.
    * intros q FO. rewrite DO by apply FO. apply (re_rest _ _ _ R _ FO).
    * pose proof (re_gone _ _ _ R) as G. fold n in G. lia.
    * intros k. rewrite O2. destruct (Nat.eq_dec k i) as [-> |NE]; [rewrite !hput_same; now rewrite XK|].
      rewrite !hput_other by exact NE. apply (re_open _ _ _ R).
    * intros k. destruct (Nat.eq_dec k i) as [-> |NE].
      -- rewrite !hput_same. cbn [w_file w_name w_size set_size]. unfold at_end. rewrite LN. repeat split; auto; [lia|].
         rewrite SZ2. unfold data. rewrite DA, XK, data_at by (unfold at_end; rewrite LN; lia). unfold at_end. now rewrite nth_last.
      -- rewrite !hput_other by exact NE. pose proof (re_wri _ _ _ R k) as W. destruct (g_at g k); [|exact W].
         destruct W as (W1 & W2). fold n in W1. split; [lia|exact W2].
Qed.
Lemma renew_step i F ws g F' w e : repr F ws g -> goes_by i (rw_Close (ws i)) F F' (w, e) ->
  exists g', slog_step limit m g i Renew g' /\ repr F' (hput ws i w_new) g' /\ g_files g' = g_files g.
Proof.
  intros R H. exists (mkSlog (g_files g) (g_gone g) (hput (g_at g) i None) (g_size g)).
  split; [destruct g; constructor|]. split; [|reflexivity].
  assert (E : i_dir F' = i_dir F /\ i_data F' = i_data F /\ forall k, i_open F' k = hput (i_open F) i None k).
  { pose proof (re_wri _ _ _ R i) as WI. pose proof (re_open _ _ _ R i) as OP. unfold rw_Close in H.
    destruct (g_at g i) as [j|]; cbn in OP.
    - destruct WI as (_ & WF & _). rewrite WF in H. unfold op in H. cbn [pbind] in H. apply by_op in H as (r & F1 & D & H).
      inversion D as [? x OX|? OX| | | | | | | | | | | | | | | |]; subst; [|congruence]. apply by_done in H as [-> _]. auto.
    - rewrite WI in H. cbn in H. apply by_done in H as [-> _]. repeat split; auto. intros k.
      destruct (Nat.eq_dec k i) as [-> |NE]; [now rewrite hput_same|now rewrite hput_other]. }
  destruct E as (E1 & E2 & E3).
  constructor; cbn [g_files g_gone g_at g_size]; rewrite ?E1, ?E2; try apply R.
  - intros k. rewrite E3. destruct (Nat.eq_dec k i) as [-> |NE]; [now rewrite !hput_same|]. rewrite !hput_other by exact NE. apply (re_open _ _ _ R).
  - intros k. destruct (Nat.eq_dec k i) as [-> |NE]; [now rewrite !hput_same|]. rewrite !hput_other by exact NE. apply (re_wri _ _ _ R).
Qed.
Lemma before_repr ws : before c (mkSh F0 ws) -> repr F0 ws slog_none.
Proof.
  intros (B1 & B2 & B3). cbn in *. constructor; cbn.
  - now rewrite app_nil_r.
  - destruct (i_dir F0 (rc_file c)) eqn:E; [|reflexivity]. destruct (B2 (rc_file c)) as [X _]; congruence.
  - intros; lia.
  - intros r z N D. destruct (B2 _ D) as [_ X]. destruct (X r z N). apply full_backup.
  - auto.
  - now left.
  - apply B3.
  - intros i. apply B3.
Qed.

Lemma turns_repr ws hs rs s : before c (mkSh F0 ws) -> Z.of_nat (length hs) < 2 ^ 63 -> turns P cs (mkSh F0 ws) hs rs s ->
  exists g, slog_steps limit m slog_none hs g /\ repr (s_fs s) (s_w s) g /\ (length (g_files g) <= length hs)%nat /\
  Forall2 (fun h r => r = match snd h with Put b => Some (length b, false) | Renew => None end) hs rs.
Proof.
  intros BE L T. remember (mkSh F0 ws) as s0. revert L. induction T as [s0|s0 hs rs s1 i a r s2 T IH T2]; intros L; subst.
  - exists slog_none. split; [constructor|]. split; [now apply before_repr|]. split; [cbn; lia|constructor].
  - rewrite app_length in L. cbn [length] in L. destruct IH as (g & G1 & G2 & G3 & G4); [reflexivity|exact BE|lia|].
    assert (B : bound g) by (unfold bound; lia). rewrite app_length. cbn [length].
    inversion T2 as [F ws1 i0 b F' w r0 H|F ws1 i0 F' w e H]; subst; cbn [s_fs s_w] in *.
    + destruct (put_step _ _ _ _ _ _ _ _ G2 B H) as (-> & g' & S & R & LE). exists g'. split; [econstructor; eauto|].
      split; [exact R|]. split; [lia|]. apply Forall2_app; [exact G4|]. repeat constructor.
    + destruct (renew_step _ _ _ _ _ _ _ G2 H) as (g' & S & R & E). exists g'. split; [econstructor; eauto|].
      split; [exact R|]. split; [rewrite E; lia|]. apply Forall2_app; [exact G4|]. repeat constructor.
Qed.
End Shared.

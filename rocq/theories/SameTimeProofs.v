(** Proofs about time-rolling writers that share a log file. *)
From Verif Require Import GoStr Strconv ConfModel RollModel RollSpec RollProofs SameModel SameSpec SameProofs SameLogProofs SameTimeModel SameTimeSpec.
From Coq Require Import Permutation Sorted.
Local Open Scope Z_scope.

Lemma in_by t i A (p : prog A) F F' a : goes_in t i p F F' a -> goes_by i p F F' a.
Proof. induction 1; econstructor; eauto. Qed.
Lemma in_done t i A (a b : A) F F' : goes_in t i (Done a) F F' b -> F' = F /\ b = a.
Proof. inversion 1; subst; auto. Qed.
Lemma in_op t i A o (k : fsres -> prog A) F F' a : goes_in t i (Op o k) F F' a ->
  exists r F1, does i o r F F1 /\ (forall p, o = ONow p -> r = RText t) /\ goes_in t i (k r) F1 F' a.
Proof. inversion 1; subst; eauto 6. Qed.
Lemma in_bind t i A B (p : prog A) (k : A -> prog B) F F' b : goes_in t i (pbind p k) F F' b ->
  exists F1 a, goes_in t i p F F1 a /\ goes_in t i (k a) F1 F' b.
Proof.
  revert F. induction p as [a|o k0 IH]; cbn; intros F H.
  - exists F, a. split; [constructor|exact H].
  - apply in_op in H as (r & F1 & D & N & H). apply IH in H as (F2 & a & H1 & H2). exists F2, a. split; [econstructor; eauto|exact H2].
Qed.

Section Shared.
Variables (P : tparse) (c : roll_conf) (pat : str) (m : nat -> Z) (cs : nat -> roll_conf) (F0 : ifs).
Hypothesis AL : same_time c pat m cs.
Notation k0 := (length (i_data F0)).

Lemma tfull_same i r : full (cs i) r = full c r.
Proof. destruct (AL i) as (E & N & _). unfold createFullFileName. now rewrite E, N. Qed.

Record trepr (F : ifs) (ws : nat -> wst) (g : dlog) : Prop := {
  tr_data : i_data F = i_data F0 ++ map text_of (d_files g);
  tr_file : i_dir F (rc_file c) = match d_files g with [] => None | _ => Some (k0 + at_end (d_files g))%nat end;
  tr_back : forall p, i_dir F (full c p) = option_map (fun j => k0 + j)%nat (d_back g p);
  tr_rest : forall n, stranger c n -> i_dir F n = i_dir F0 n;
  tr_less : forall p j, d_back g p = Some j -> (S j < length (d_files g))%nat;
  tr_open : forall i, i_open F i = option_map (fun x => k0 + fst x)%nat (d_at g i);
  tr_wri : forall i, match d_at g i with
    | None => ws i = w_new
    | Some (j, p) => (j < length (d_files g))%nat /\ w_file (ws i) = Some (rc_file c, true) /\ w_name (ws i) = rc_file c /\
                     w_period (ws i) = p /\ p <> []
    end }.

Lemma tdata_at F ws g j : trepr F ws g -> (j < length (d_files g))%nat -> data F (k0 + j) = text_of (nth j (d_files g) []).
Proof. intros R L. unfold data. rewrite (tr_data _ _ _ R). now apply data_at. Qed.
Lemma trepr_shows F ws g : trepr F ws g -> shows_in c F g.
Proof.
  intros R. split.
  - unfold content. rewrite (tr_file _ _ _ R). destruct (d_files g) as [|x l] eqn:E; [reflexivity|]. cbn [option_map].
    rewrite (tdata_at _ _ _ _ R) by (rewrite E; unfold at_end; cbn; lia). rewrite E. unfold at_end. now rewrite nth_last.
  - intros p n B. apply backup_name_full in B. subst n. unfold content. rewrite (tr_back _ _ _ R).
    destruct (d_back g p) as [j|] eqn:E; [|reflexivity]. cbn [option_map]. rewrite (tdata_at _ _ _ _ R); [reflexivity|].
    pose proof (tr_less _ _ _ R p j E). lia.
Qed.

Lemma tcreate t i F F' w w' e : goes_in t i (createFile (cs i) w) F F' (w', e) ->
  e = false /\ w_file w' = Some (rc_file c, true) /\ w_name w' = rc_file c /\ w_period w' = w_period w /\ exists x,
  i_open F' = hput (i_open F) i (Some x) /\
  ((i_dir F (rc_file c) = Some x /\ i_dir F' = i_dir F /\ i_data F' = i_data F) \/
   (i_dir F (rc_file c) = None /\ x = length (i_data F) /\ i_dir F' = iput (i_dir F) (rc_file c) (Some x) /\ i_data F' = i_data F ++ [[]])).
Proof.
  destruct (AL i) as (EF & EN & K & FN & _). unfold createFile, getCurrentFileName, op. rewrite K, EF, FN. cbn [pbind]. intros H.
  apply in_op in H as (r & F1 & D & _ & H). inversion D; subst. apply in_op in H as (r & F2 & D2 & _ & H).
  assert (E2 : r = ROk /\ exists x, i_open F2 = hput (i_open F1) i (Some x) /\
    ((i_dir F1 (rc_file c) = Some x /\ i_dir F2 = i_dir F1 /\ i_data F2 = i_data F1) \/
     (i_dir F1 (rc_file c) = None /\ x = length (i_data F1) /\ i_dir F2 = iput (i_dir F1) (rc_file c) (Some x) /\ i_data F2 = i_data F1 ++ [[]]))).
  { inversion D2; subst; cbn [i_dir i_data i_open]; (split; [reflexivity|]); eexists; (split; [reflexivity|]); auto 6. }
  destruct E2 as (-> & x & O2 & E2). apply in_op in H as (r & F3 & D3 & _ & H).
  inversion D3 as [| | | | | | | | | | | | |? y ? OY|? ? OY| | |]; subst; rewrite O2, hput_same in OY; [|discriminate]. injection OY as <-.
  apply in_done in H as [-> [= -> ->]]. cbn. repeat split; auto. exists x. auto.
Qed.
Lemma tput t i A n b (k : fsres -> prog A) x F F' a : i_open F i = Some x -> goes_in t i (Op (OWrite n b) k) F F' a ->
  goes_in t i (k (RWrote (length b) true)) (mkI (i_dir F) (append_at (i_data F) x b) (i_open F)) F' a.
Proof.
  intros O H. apply in_op in H as (r & F1 & D & _ & H). inversion D as [| | | | | | | | | | | | | | |? ? y ? OY|? ? ? OY|]; subst; [|congruence].
  assert (y = x) as -> by congruence. exact H.
Qed.
Lemma tnow t i A p (k : str -> prog A) F F' a : goes_in t i (pbind (now p) k) F F' a -> goes_in t i (k t) F F' a.
Proof.
  unfold now, op. cbn [pbind]. intros H. apply in_op in H as (r & F1 & D & N & H). rewrite (N p eq_refl) in *. inversion D; subst. exact H.
Qed.
Lemma tdelete_by i h F F' u : goes_by i (deleteOldRolls (cs i) h) F F' u ->
  i_data F' = i_data F /\ (forall j, i_open F' j = i_open F j) /\
  forall n, (In n (beyond (m i) h) -> i_dir F' n = None) /\ (~ In n (beyond (m i) h) -> i_dir F' n = i_dir F n).
Proof.
  destruct (AL i) as (_ & _ & _ & _ & M & AR). unfold deleteOldRolls, beyond. rewrite M, AR.
  destruct (Z.leb_spec (m i) 0) as [L|L].
  { intros H. apply by_done in H as [-> _]. cbn. repeat split; auto. now intros []. }
  destruct (Z.leb_spec (Z.of_nat (length h) - m i) 0) as [L'|L'].
  { intros H. apply by_done in H as [-> _]. replace (length h - Z.to_nat (m i))%nat with 0%nat by lia. cbn. repeat split; auto. now intros []. }
  cbn [pbind]. replace (Z.to_nat (Z.of_nat (length h) - m i)) with (length h - Z.to_nat (m i))%nat by lia. apply remove_by.
Qed.
Lemma troll t i j p F ws g F' w' e : trepr F ws g -> d_at g i = Some (j, p) -> goes_in t i (roll P (cs i) (ws i)) F F' (w', e) ->
  e = false /\ w_file w' = None /\ w_period w' = t /\ i_data F' = i_data F /\ (forall k, i_open F' k = hput (i_open F) i None k) /\
  exists h, backups P pat (d_back g) h /\ forall n, i_dir F' n =
    if in_dec str_dec n (map (full c) (beyond (m i) (h ++ [p]))) then None
    else iput (iput (i_dir F) (rc_file c) None) (full c p) (Some (k0 + at_end (d_files g))%nat) n.
Proof.
  intros R AT H. pose proof (tr_wri _ _ _ R i) as WI. rewrite AT in WI. destruct WI as (JL & WF & WN & WP & PN).
  unfold roll in H. rewrite WF in H. unfold op in H. cbn [pbind] in H.
  apply in_op in H as (r & F1 & D & _ & H). pose proof (tr_open _ _ _ R i) as OP. rewrite AT in OP. cbn in OP.
  inversion D as [? x0 OX|? OX| | | | | | | | | | | | | | | |]; subst; [|congruence]. clear D.
  apply in_bind in H as (F2 & h & HH & H). apply in_by, history_by in HH as [-> (s & -> & SH)].
  destruct (AL i) as (EF & EN & K & FN & EM & EA). unfold getNewHistoryRollFileName in H. rewrite K in H.
  apply in_bind in H as (F2 & (w1 & rn) & H1 & H). apply tnow in H1. apply in_done in H1 as [-> [= -> ->]].
  cbn [w_name set_file set_period w_period] in H. rewrite WN in H. apply in_op in H as (r & F2 & D2 & _ & H).
  assert (RF : i_dir F (rc_file c) = Some (k0 + at_end (d_files g))%nat).
  { rewrite (tr_file _ _ _ R). destruct (d_files g); [cbn in JL; lia|reflexivity]. }
  inversion D2 as [| | | |? ? y ? DX|? ? ? DX| | | | | | | | | | | |]; subst; cbn [i_dir] in DX; rewrite RF in DX; [|discriminate].
  injection DX as <-. clear D2. apply in_op in H as (r3 & F3 & D3 & _ & H).
  match type of D3 with does _ _ _ ?X _ => assert (F3 = X) as -> by (inversion D3; reflexivity) end. clear D3.
  assert (BK : backups P pat (d_back g) s).
  { destruct SH as (N1 & N2 & N3). split; [exact N1|]. split.
    - clear -N2 K. unfold sort_key in N2. rewrite K in N2. exact N2.
    - intros q. rewrite N3. unfold valid, isFileRollNameValid, dated. rewrite K, tfull_same. cbn [view f_dir i_dir].
      pose proof (tr_back _ _ _ R q) as B. unfold content. cbn [i_dir]. rewrite B. destruct (d_back g q) as [y|]; cbn [option_map].
      + split.
        * intros [X _]. split; [discriminate|]. destruct q; [discriminate|]. split; [discriminate|]. destruct (P pat (a :: q)); [discriminate|congruence].
        * intros [_ [X Y]]. destruct q; [congruence|]. split; [|eauto]. destruct (P pat (a :: q)); [reflexivity|congruence].
      + split; [intros [_ [? X]]; discriminate|]. intros [X _]. congruence. }
  match type of H with goes_in _ _ (pbind ?q _) _ _ _ => assert (DQ : q = deleteOldRolls (cs i) (map (full (cs i)) s ++ [full (cs i) (w_period (ws i))])) end.
  { destruct (Z.ltb_spec (rc_maxRolls (cs i)) (Z.of_nat (length (map (full (cs i)) s ++ [full (cs i) (w_period (ws i))])))) as [L|L]; [reflexivity|].
    unfold deleteOldRolls. destruct (rc_maxRolls (cs i) <=? 0); [reflexivity|].
    match goal with |- _ = if ?b then _ else _ => replace b with true by (symmetry; apply Z.leb_le; lia) end. reflexivity. }
  rewrite DQ in H. clear DQ. apply in_bind in H as (F4 & u & H4 & H). apply in_done in H as [-> [= -> ->]].
  apply in_by, tdelete_by in H4 as (A1 & A2 & A3). cbn [i_data i_open i_dir w_file w_period set_file set_period] in *.
  repeat split; auto. exists s. split; [exact BK|]. intros n. 
  assert (EL : map (full (cs i)) s ++ [full (cs i) (w_period (ws i))] = map (full c) (s ++ [w_period (ws i)])).
  { rewrite map_app. cbn. rewrite tfull_same. f_equal. apply map_ext. intros q. apply tfull_same. }
  rewrite EL in A3. assert (EB : beyond (m i) (map (full c) (s ++ [w_period (ws i)])) = map (full c) (beyond (m i) (s ++ [w_period (ws i)]))).
  { unfold beyond. destruct (m i <=? 0); [reflexivity|]. now rewrite map_length, firstn_map. }
  rewrite EB in A3. destruct (in_dec str_dec n (map (full c) (beyond (m i) (s ++ [w_period (ws i)])))) as [I|I]; [apply (proj1 (A3 n) I)|].
  rewrite (proj2 (A3 n) I). now rewrite tfull_same.
Qed.

Lemma tput_step t i b F ws g F' w r : t <> [] -> trepr F ws g -> goes_in t i (rw_Write P (cs i) (ws i) b) F F' (w, r) ->
  r = (length b, false) /\ exists g', dlog_step P pat m g t i (Put b) g' /\ trepr F' (hput ws i w) g'.
Proof.
  intros TN R H. rewrite write_eq in H. unfold needsToRoll in H. destruct (AL i) as (EF & EN & K & FN & EM & EA). rewrite K in H.
  apply in_bind in H as (F1 & (w1 & need) & H1 & H). apply tnow in H1.
  pose proof (tr_wri _ _ _ R i) as WI. pose proof (tr_open _ _ _ R i) as OP.
  destruct g as [fs back at_]. cbn [d_files d_back d_at] in *.
  destruct (at_ i) as [[j p]|] eqn:AT; cbn in OP.
  - destruct WI as (JL & WF & WN & WP & PN).
    assert (E1 : F1 = F /\ w1 = ws i /\ need = negb (str_eqb t p)).
    { rewrite WP in H1. destruct p as [|x p']; [congruence|]. apply in_done in H1 as [-> [= -> ->]]. auto. }
    destruct E1 as (-> & -> & ->). clear H1. destruct (str_eqb_spec t p) as [TP|NT]; cbn [negb] in H; [rewrite <- TP in AT, WP, PN|].
    + (* stay *)
      cbn [pbind] in H. unfold finish in H. rewrite WF in H. cbn [pbind] in H. rewrite WF in H. unfold op in H. cbn [pbind] in H.
      apply tput with (1 := OP) in H. apply in_done in H as [-> [= -> ->]]. split; [reflexivity|].
      eexists. split; [exact (dl_stay P pat m fs back at_ t i b j AT)|].
      constructor; cbn [i_data i_dir i_open d_files d_back d_at]; rewrite ?append_length; try apply R.
      * rewrite (tr_data _ _ _ R). apply data_put.
      * rewrite (tr_file _ _ _ R). cbn [d_files]. unfold at_end. rewrite append_length. destruct fs as [|x l]; [reflexivity|]. destruct j; reflexivity.
      * intros k. destruct (Nat.eq_dec k i) as [-> |NE].
        -- rewrite AT, hput_same. cbn [w_file w_name w_period set_size]. auto.
        -- rewrite hput_other by exact NE. apply (tr_wri _ _ _ R).
    + (* roll *)
      apply in_bind in H as (F1 & (w1 & e1) & H1 & H). destruct (troll _ _ _ _ _ _ _ _ _ _ R AT H1) as (-> & WF1 & WP1 & A1 & A2 & h & BK & A3).
      cbn [d_files d_back] in A3, BK. unfold finish in H. rewrite WF1 in H. apply in_bind in H as (F2 & (w2 & e2) & H2 & H).
      assert (NF : forall q, full c q <> rc_file c) by apply full_not_file.
      assert (A5 : forall n l, (forall q, full c q <> n) -> ~ In n (map (full c) l)).
      { intros n l NQ I. apply in_map_iff in I as (q & E & _). now apply (NQ q). }
      assert (A4 : i_dir F1 (rc_file c) = None).
      { rewrite A3. destruct (in_dec _ _ _) as [_|_]; [reflexivity|]. rewrite iput_other by (apply not_eq_sym, NF). apply iput_same. }
      apply tcreate in H2 as (-> & WF2 & WN2 & WP2 & x & O2 & [(X & _)|(X & XL & D2 & E2)]); [congruence|].
      rewrite WF2 in H. unfold op in H. cbn [pbind] in H.
      assert (OX : i_open F2 i = Some x) by (rewrite O2; apply hput_same).
      apply tput with (1 := OX) in H. apply in_done in H as [-> [= -> ->]]. split; [reflexivity|].
      set (n := length fs) in *.
      assert (XK : x = (k0 + n)%nat) by (rewrite XL, A1, (tr_data _ _ _ R), app_length, map_length; reflexivity).
      eexists. split; [exact (dl_roll P pat m fs back at_ t i b j p h AT (not_eq_sym NT) BK)|].
      assert (LN : length (fs ++ [[(i, b)]]) = S n) by (rewrite app_length; cbn; fold n; lia).
      constructor; cbn [i_data i_dir i_open d_files d_back d_at].
      * rewrite E2, A1, (tr_data _ _ _ R), <- app_assoc, XK. cbn [d_files].
        change (map text_of fs ++ [[]]) with (map text_of fs ++ map text_of [[]]). rewrite <- map_app.
        rewrite (data_put _ _ n i). do 2 f_equal. apply append_end.
      * rewrite D2, iput_same, XK. unfold at_end. rewrite LN. destruct (fs ++ [[(i, b)]]); [discriminate|]. f_equal. lia.
      * intros q. rewrite D2, iput_other by apply NF. rewrite A3. unfold without.
        assert (IQ : In (full c q) (map (full c) (beyond (m i) (h ++ [p]))) <-> In q (beyond (m i) (h ++ [p]))).
        { split; [|apply in_map]. intros I. apply in_map_iff in I as (q' & E & I). apply full_inj in E. now subst q'. }
        destruct (in_dec _ (full c q) _) as [I|I], (in_dec _ q _) as [I2|I2]; try tauto.
        destruct (str_dec q p) as [-> |NE].
        -- rewrite !iput_same. reflexivity.
        -- rewrite !iput_other; [apply (tr_back _ _ _ R)|exact NE|apply NF|]. intros X1. apply full_inj in X1. congruence.
      * intros q [Q1 Q2]. rewrite D2, iput_other by exact Q1. rewrite A3.
        destruct (in_dec _ _ _) as [I|_]; [exfalso; revert I; apply A5; intros r <-; apply (Q2 r), full_backup|].
        rewrite iput_other by (intros ->; apply (Q2 p), full_backup).
        rewrite iput_other by exact Q1. apply (tr_rest _ _ _ R). split; assumption.
      * intros q k. rewrite LN. unfold without. destruct (in_dec _ _ _) as [_|_]; [discriminate|]. destruct (str_dec q p) as [-> |NE].
        -- rewrite iput_same. intros [= <-]. unfold at_end. fold n. lia.
        -- rewrite iput_other by exact NE. intros B. apply (tr_less _ _ _ R) in B. cbn in B. fold n in B. lia.
      * intros k. rewrite O2. destruct (Nat.eq_dec k i) as [-> |NE]; [rewrite !hput_same; now rewrite XK|].
        rewrite !hput_other by exact NE. rewrite A2, hput_other by exact NE. apply (tr_open _ _ _ R).
      * intros k. rewrite LN. destruct (Nat.eq_dec k i) as [-> |NE].
        -- rewrite !hput_same. cbn [w_file w_name w_period set_size]. rewrite WP2, WP1. repeat split; auto.
        -- rewrite !hput_other by exact NE. pose proof (tr_wri _ _ _ R k) as W. cbn [d_at d_files] in W. destruct (at_ k) as [[j' p']|]; [|exact W].
           destruct W as (W1 & W2). fold n in W1. split; [lia|exact W2].
  - (* open *)
    assert (E1 : F1 = F /\ w1 = set_period w_new t /\ need = false).
    { rewrite WI in H1. cbn in H1. apply in_done in H1 as [-> [= -> ->]]. auto. }
    destruct E1 as (-> & -> & ->). clear H1. cbn [pbind] in H. unfold finish in H. cbn [w_file w_new set_period] in H.
    apply in_bind in H as (F2 & (w2 & e2) & H2 & H). apply tcreate in H2 as (-> & WF2 & WN2 & WP2 & x & O2 & E2).
    cbn [w_period set_period] in WP2. rewrite WF2 in H. unfold op in H. cbn [pbind] in H.
    assert (OX : i_open F2 i = Some x) by (rewrite O2; apply hput_same).
    apply tput with (1 := OX) in H. apply in_done in H as [-> [= -> ->]]. split; [reflexivity|].
    eexists. split; [exact (dl_open P pat m fs back at_ t i b _ AT eq_refl)|].
    set (n := length fs) in *.
    assert (LN : length (opened fs) = Nat.max 1 n) by (unfold n, opened; destruct fs; reflexivity).
    assert (E3 : x = (k0 + at_end (opened fs))%nat /\ i_data F2 = i_data F0 ++ map text_of (opened fs) /\
      i_dir F2 (rc_file c) = Some x /\ forall q, q <> rc_file c -> i_dir F2 q = i_dir F q).
    { unfold at_end. rewrite LN. rewrite (tr_file _ _ _ R) in E2. cbn [d_files] in E2. pose proof (tr_data _ _ _ R) as DA. cbn [d_files] in DA.
      unfold opened in *. destruct fs as [|y l] eqn:EG.
      - destruct E2 as [(X & _)|(_ & XL & D2 & E2)]; [discriminate|]. rewrite E2, D2, XL, DA. cbn [map].
        rewrite app_nil_r. rewrite iput_same. repeat split; [|intros q NE; now apply iput_other]. unfold n; cbn. lia.
      - destruct E2 as [(X & D2 & E2)|(X & _)]; [|discriminate]. injection X as <-. rewrite E2, D2, DA.
        rewrite (tr_file _ _ _ R). cbn [d_files]. unfold at_end. repeat split; try (f_equal; unfold n; cbn; lia); unfold n; cbn; lia. }
    destruct E3 as (XK & DA & DF & DO). clear E2.
    constructor; cbn [i_data i_dir i_open d_files d_back d_at]; rewrite ?append_length, ?LN.
    * rewrite DA, XK. apply data_put.
    * rewrite DF, XK. unfold at_end. rewrite append_length, LN. destruct (append_at (opened fs) _ _) eqn:EA2; [|reflexivity].
      apply (f_equal (@length _)) in EA2. rewrite append_length, LN in EA2. cbn [length] in EA2. lia.
    * intros q. rewrite DO by apply full_not_file. apply (tr_back _ _ _ R).
    * intros q FO. rewrite DO by apply FO. apply (tr_rest _ _ _ R _ FO).
    * intros q k B. apply (tr_less _ _ _ R) in B. cbn in B. fold n in B. lia.
    * intros k. rewrite O2. destruct (Nat.eq_dec k i) as [-> |NE]; [rewrite !hput_same; now rewrite XK|].
      rewrite !hput_other by exact NE. apply (tr_open _ _ _ R).
    * intros k. destruct (Nat.eq_dec k i) as [-> |NE].
      -- rewrite !hput_same. cbn [w_file w_name w_period set_size]. unfold at_end. rewrite LN. repeat split; auto. lia.
      -- rewrite !hput_other by exact NE. pose proof (tr_wri _ _ _ R k) as W. cbn [d_at d_files] in W. destruct (at_ k) as [[j' p']|]; [|exact W].
         destruct W as (W1 & W2). fold n in W1. split; [lia|exact W2].
Qed.
Lemma trenew_step t i F ws g F' w e : trepr F ws g -> goes_in t i (rw_Close (ws i)) F F' (w, e) ->
  exists g', dlog_step P pat m g t i Renew g' /\ trepr F' (hput ws i w_new) g'.
Proof.
  intros R H. exists (mkD (d_files g) (d_back g) (hput (d_at g) i None)).
  split; [destruct g; constructor|].
  assert (E : i_dir F' = i_dir F /\ i_data F' = i_data F /\ forall k, i_open F' k = hput (i_open F) i None k).
  { pose proof (tr_wri _ _ _ R i) as WI. pose proof (tr_open _ _ _ R i) as OP. unfold rw_Close in H.
    destruct (d_at g i) as [[j p]|]; cbn in OP.
    - destruct WI as (_ & WF & _). rewrite WF in H. unfold op in H. cbn [pbind] in H. apply in_op in H as (r & F1 & D & _ & H).
      inversion D as [? x OX|? OX| | | | | | | | | | | | | | | |]; subst; [|congruence]. apply in_done in H as [-> _]. auto.
    - rewrite WI in H. cbn in H. apply in_done in H as [-> _]. repeat split; auto. intros k.
      destruct (Nat.eq_dec k i) as [-> |NE]; [now rewrite hput_same|now rewrite hput_other]. }
  destruct E as (E1 & E2 & E3).
  constructor; cbn [d_files d_back d_at]; rewrite ?E1, ?E2; try apply R.
  - intros k. rewrite E3. destruct (Nat.eq_dec k i) as [-> |NE]; [now rewrite !hput_same|]. rewrite !hput_other by exact NE. apply (tr_open _ _ _ R).
  - intros k. destruct (Nat.eq_dec k i) as [-> |NE]; [now rewrite !hput_same|]. rewrite !hput_other by exact NE. apply (tr_wri _ _ _ R).
Qed.
Lemma tbefore_repr ws : before_in c (mkSh F0 ws) -> trepr F0 ws dlog_none.
Proof.
  intros (B1 & B2 & B3). cbn in *. constructor; cbn.
  - now rewrite app_nil_r.
  - destruct (i_dir F0 (rc_file c)) eqn:E; [|reflexivity]. destruct (B2 (rc_file c)) as [X _]; congruence.
  - intros p. destruct (i_dir F0 (full c p)) eqn:E; [|reflexivity]. destruct (B2 (full c p)) as [_ X]; [congruence|]. destruct (X p). apply full_backup.
  - auto.
  - discriminate.
  - apply B3.
  - intros i. apply B3.
Qed.
Lemma tturns_repr ws hs rs s : before_in c (mkSh F0 ws) -> (forall h, In h hs -> fst h <> []) -> turns_in P cs (mkSh F0 ws) hs rs s ->
  exists g, dlog_steps P pat m dlog_none hs g /\ trepr (s_fs s) (s_w s) g /\
  Forall2 (fun h r => r = match snd (snd h) with Put b => Some (length b, false) | Renew => None end) hs rs.
Proof.
  intros BE NE T. remember (mkSh F0 ws) as s0. induction T as [s0|s0 hs rs s1 t i a r s2 T IH T2]; subst.
  - exists dlog_none. split; [constructor|]. split; [now apply tbefore_repr|constructor].
  - destruct IH as (g & G1 & G2 & G3); [reflexivity|exact BE| |].
    { intros h I. apply NE, in_or_app. now left. }
    assert (TN : t <> []) by (apply (NE (t, (i, a))), in_or_app; right; now left).
    inversion T2 as [F ws1 i0 b F' w r0 H|F ws1 i0 F' w e H]; subst; cbn [s_fs s_w] in *.
    + destruct (tput_step _ _ _ _ _ _ _ _ _ TN G2 H) as (-> & g' & S & R). exists g'. split; [econstructor; eauto|].
      split; [exact R|]. apply Forall2_app; [exact G3|]. repeat constructor.
    + destruct (trenew_step _ _ _ _ _ _ _ _ G2 H) as (g' & S & R). exists g'. split; [econstructor; eauto|].
      split; [exact R|]. apply Forall2_app; [exact G3|]. repeat constructor.
Qed.
End Shared.

(** Proofs about rolling by size: the directory follows the logs of RollSpec. *)
From Verif Require Import GoStr Strconv StrconvProofs ConfModel RollModel RollSpec RollProofs.
From Coq Require Import Permutation Sorted.
Local Open Scope Z_scope.

Lemma sorted_unique {A} (key : A -> Z) (l l' : list A) :
  StronglySorted (fun a b => key a <= key b) l -> StronglySorted (fun a b => key a < key b) l' -> NoDup l ->
  (forall x, In x l <-> In x l') -> l = l'.
Proof.
  revert l'. induction l as [|a t IH]; intros l' S S' N E.
  - destruct l' as [|b t']; [reflexivity|]. destruct (proj2 (E b) (or_introl eq_refl)).
  - destruct l' as [|b t']; [destruct (proj1 (E a) (or_introl eq_refl))|].
    inversion S as [|? ? S1 S2]; inversion S' as [|? ? S3 S4]; inversion N as [|? ? N1 N2]; subst.
    rewrite Forall_forall in S2, S4.
    assert (a = b) as ->.
    { destruct (proj1 (E a) (or_introl eq_refl)) as [-> |I]; [reflexivity|].
      destruct (proj2 (E b) (or_introl eq_refl)) as [-> |J]; [reflexivity|].
      specialize (S4 _ I). specialize (S2 _ J). lia. }
    f_equal. apply IH; auto. intros x. split; intros I.
    + destruct (proj1 (E x) (or_intror I)) as [-> |J]; [contradiction|exact J].
    + destruct (proj2 (E x) (or_intror I)) as [-> |J]; [|exact J]. specialize (S4 _ I). lia.
Qed.
Lemma Sorted_strong {A} (key : A -> Z) (l : list A) :
  Sorted (fun a b => key a <= key b) l -> StronglySorted (fun a b => key a <= key b) l.
Proof. apply Sorted_StronglySorted. intros x y z. lia. Qed.

Definition num (p : Z * str) : str := Itoa (fst p).
Lemma num_facts z : - 2 ^ 63 <= z < 2 ^ 63 -> atoi (Itoa z) = z.
Proof. intros H. apply atoi_Itoa. unfold min_int64, max_int64. lia. Qed.
Lemma num_inj a b : - 2 ^ 63 <= a < 2 ^ 63 -> - 2 ^ 63 <= b < 2 ^ 63 -> Itoa a = Itoa b -> a = b.
Proof. intros A B E. rewrite <- (num_facts a A), <- (num_facts b B). now rewrite E. Qed.

Section Size.
Variables (P : tparse) (c : roll_conf) (m : Z).
Hypothesis K : rc_kind c = BySize m.

Lemma size_valid r : valid P c r <-> exists z, numeral r z.
Proof.
  unfold valid, isFileRollNameValid. rewrite K. split.
  - intros H. exists (atoi r). apply numeral_iff. destruct r; [discriminate|]. repeat split; [discriminate|exact H].
  - intros [z N]. apply numeral_iff in N as (N & A & _). destruct r; [congruence|exact A].
Qed.
Lemma size_key r : sort_key P c r = atoi r.
Proof. unfold sort_key. now rewrite K. Qed.

(** The history of a directory that holds a log. *)
Lemma hist_holds d l s : holds c d l -> sorted_hist P c d s -> s = map num (l_backups l).
Proof.
  intros ((O1 & O2) & _ & H3 & H4) (N & S & E). rewrite Forall_forall in O2.
  apply (sorted_unique atoi).
  - apply Sorted_strong. clear -S K. induction S as [|a l S IH H]; constructor; auto.
    destruct H; constructor. now rewrite !size_key in *.
  - clear -O1 O2. induction O1 as [|[z x] bs S IH F]; cbn; [constructor|].
    constructor; [apply IH; intros q I; apply O2; now right|]. rewrite Forall_forall in F |- *. intros r I.
    apply in_map_iff in I as ([z' x'] & <- & I). pose proof (O2 _ (or_introl eq_refl)) as R1. pose proof (O2 _ (or_intror I)) as R2.
    cbn in *. unfold num; cbn. rewrite !num_facts by assumption. apply (F _ I).
  - exact N.
  - intros r. rewrite E. split.
    + intros [V (b & D)]. apply size_valid in V as [z V].
      destruct (H4 r (full c r) z (full_backup c r) V) as (-> & x & I); [congruence|].
      apply in_map_iff. exists (z, x). auto.
    + intros I. apply in_map_iff in I as ([z x] & <- & I). unfold num; cbn. split.
      * apply size_valid. exists z. apply numeral_Itoa. apply (O2 _ I).
      * destruct (H3 z x I) as (n & B & D). apply backup_name_full in B. subst n. eauto.
Qed.

Lemma tmp_not_number r z : numeral r z -> full c r <> tmp_name.
Proof.
  intros N E. assert (A : exists r', r = r' /\ all_digits (match r with c0 :: t => if Ascii.eqb c0 "+" then t else if Ascii.eqb c0 "-" then t else r | [] => [] end) /\ (match r with c0 :: t => if Ascii.eqb c0 "+" then t else if Ascii.eqb c0 "-" then t else r | [] => [] end) <> []).
  { exists r. split; [reflexivity|]. apply numeral_Atoi, Atoi_ok_iff in N as (neg & ds & SS & N1 & N2 & _).
    destruct r as [|c0 t]; cbn in SS; [inversion SS; subst; contradiction|].
    destruct (Ascii.eqb c0 "+"); [inversion SS; subst; auto|]. destruct (Ascii.eqb c0 "-"); [inversion SS; subst; auto|].
    inversion SS; subst. auto. }
  destruct A as (_ & _ & A & B).
  unfold createFullFileName, delim, tmp_name in E. destruct (rc_nameMode c).
  - apply (f_equal (@rev _)) in E. rewrite !rev_app_distr in E. rewrite <- app_assoc in E.
    assert (exists y q, rev r = y :: q /\ is_digit y = true) as (y & q & R & D).
    { assert (exists ds pre, r = pre ++ ds /\ all_digits ds /\ ds <> []) as (ds & pre & -> & A' & B').
      { destruct r as [|c0 t]; [contradiction|]. destruct (Ascii.eqb c0 "+"); [exists t, [c0]; auto|].
        destruct (Ascii.eqb c0 "-"); [exists t, [c0]; auto|]. exists (c0 :: t), []. auto. }
      rewrite rev_app_distr. destruct (rev ds) as [|y q] eqn:R; [destruct B'; now rewrite <- (rev_involutive ds), R|].
      exists y, (q ++ rev pre). split; [reflexivity|]. unfold all_digits in A'. rewrite Forall_forall in A'. apply A'.
      apply in_rev. rewrite R. now left. }
    rewrite R in E. cbn in E. injection E as -> _. discriminate D.
  - destruct r as [|c0 t]; [contradiction|]. cbn in E. injection E as -> _. cbn in A.
    inversion A as [|? ? A1 _]. discriminate A1.
Qed.

(** The steps of a roll. *)
Lemma next_number_ok bs n : ordered bs -> room bs 1 -> next_number bs n ->
  - 2 ^ 63 <= n < 2 ^ 63 /\ Forall (fun p => fst p < n) bs.
Proof.
  intros [O1 O2] [R1 R2] [[-> ->]|(bs' & z & x & -> & ->)]; [split; [lia|constructor]|].
  rewrite Forall_forall in *. specialize (O2 (z, x) ltac:(apply in_or_app; right; now left)).
  specialize (R1 (z, x) ltac:(apply in_or_app; right; now left)). cbn in *. split; [lia|].
  intros p I. apply in_app_or in I as [I|[<- |[]]]; cbn; [|lia].
  assert (fst p < z); [|lia]. clear -O1 I. induction bs' as [|q bs' IH]; [destruct I|].
  inversion O1 as [|? ? O2 O3]; subst. destruct I as [-> |I]; [|now apply IH].
  rewrite Forall_forall in O3. apply (O3 (z, x)). apply in_or_app. right. now left.
Qed.
Lemma ordered_snoc bs n x : ordered bs -> - 2 ^ 63 <= n < 2 ^ 63 -> Forall (fun p => fst p < n) bs -> ordered (bs ++ [(n, x)]).
Proof.
  intros [O1 O2] R F. split.
  - clear O2. induction bs as [|p bs IH]; cbn; [constructor; [constructor|constructor]|].
    inversion O1 as [|? ? O2 O3]; inversion F as [|? ? F1 F2]; subst. constructor; [auto|].
    apply Forall_app. split; [exact O3|]. constructor; [exact F1|constructor].
  - apply Forall_app. split; [exact O2|]. constructor; [exact R|constructor].
Qed.
Lemma new_name_next w bs rname : ordered bs -> room bs 1 -> new_name c w (map num bs) rname ->
  exists n, next_number bs n /\ rname = Itoa n.
Proof.
  unfold new_name. rewrite K. intros [O1 O2] [R1 R2] ->.
  destruct bs as [|p0 bs0] eqn:EB.
  - exists 1. split; [left; auto|reflexivity].
  - destruct (exists_last (l := p0 :: bs0)) as (bs' & [z x] & E); [discriminate|].
    exists (z + 1). split; [right; eauto|]. rewrite <- EB in *. clear EB.
    assert (I : In (z, x) bs) by (rewrite E; apply in_or_app; right; now left).
    rewrite Forall_forall in O2, R1. specialize (O2 _ I). specialize (R1 _ I). cbn in O2, R1.
    assert (L : map num bs <> []) by (rewrite E; destruct bs'; discriminate).
    replace (match map num bs with [] => 0 | _ :: _ => atoi (last (map num bs) []) end) with (atoi (last (map num bs) []))
      by (destruct (map num bs); [contradiction|reflexivity]).
    rewrite E, map_app. cbn [map]. rewrite last_last. unfold num; cbn [fst]. rewrite num_facts by lia.
    rewrite wrap64_id; [reflexivity|unfold min_int64, max_int64; lia].
Qed.

Lemma holds_moved d bs cur n : holds c d (mkLog bs (Some cur)) -> room bs 1 -> next_number bs n ->
  holds c (moved d (rc_file c) (full c (Itoa n)) (Reg cur)) (mkLog (bs ++ [(n, cur)]) None).
Proof.
  intros (O & HF & H3 & H4) RM NN. cbn [l_backups l_current] in *.
  destruct (next_number_ok _ _ O RM NN) as [NR NF].
  unfold moved. split; [|split; [|split]]; cbn [l_backups l_current].
  - now apply ordered_snoc.
  - rewrite dput_other by (apply not_eq_sym, full_not_file). apply dput_same.
  - intros z x I. exists (full c (Itoa z)). split; [apply full_backup|]. apply in_app_or in I as [I|[I|[]]].
    + destruct (H3 z x I) as (n' & B & D). apply backup_name_full in B. subst n'.
      rewrite dput_other, dput_other; [exact D|apply full_not_file|].
      intros X. apply full_inj in X. destruct O as [_ O]. rewrite Forall_forall in O, NF.
      apply num_inj in X; [|apply (O _ I)|exact NR]. specialize (NF _ I). cbn in NF. lia.
    + injection I as <- <-. apply dput_same.
  - intros r n' z B N D. apply backup_name_full in B. subst n'.
    destruct (str_dec (full c r) (full c (Itoa n))) as [E|NE].
    + apply full_inj in E. subst r. apply numeral_iff in N as (_ & _ & N). rewrite num_facts in N by exact NR. subst z.
      split; [reflexivity|]. exists cur. apply in_or_app. right. now left.
    + rewrite dput_other, dput_other in D; [|apply full_not_file|exact NE].
      destruct (H4 _ _ _ (full_backup c r) N D) as (E & x & I). split; [exact E|]. exists x. apply in_or_app. now left.
Qed.

Lemma old_rolls_names bs1 : old_rolls c (map (full c) (map num bs1)) = map (full c) (map num (oldest (rc_maxRolls c) bs1)).
Proof.
  unfold old_rolls, oldest, cut. rewrite !map_length. destruct (rc_maxRolls c <=? 0); [reflexivity|].
  now rewrite !firstn_map.
Qed.
Lemma sub_ordered (keep : Z * str -> bool) bs : ordered bs -> ordered (filter keep bs).
Proof.
  intros [O1 O2]. split.
  - clear O2. induction O1 as [|p bs S IH F]; cbn; [constructor|]. destruct (keep p); [|exact IH]. constructor; [exact IH|].
    rewrite Forall_forall in *. intros q I. apply filter_In in I as [I _]. auto.
  - rewrite Forall_forall in *. intros q I. apply filter_In in I as [I _]. auto.
Qed.
Definition present (d : dir) (p : Z * str) : bool := match d (full c (num p)) with Some _ => true | None => false end.
Lemma filter_all {A} (g : A -> bool) l : (forall x, In x l -> g x = true) -> filter g l = l.
Proof.
  induction l as [|x l IH]; intros H; cbn; [reflexivity|]. rewrite (H x (or_introl eq_refl)). f_equal. apply IH. intros y I. apply H. now right.
Qed.
Lemma filter_none {A} (g : A -> bool) l : (forall x, In x l -> g x = false) -> filter g l = [].
Proof.
  induction l as [|x l IH]; intros H; cbn; [reflexivity|]. rewrite (H x (or_introl eq_refl)). apply IH. intros y I. apply H. now right.
Qed.
Lemma split_old {A} k (l : list A) : oldest k l ++ newest k l = l.
Proof. unfold oldest, newest. apply firstn_skipn. Qed.

Lemma holds_swept d d' bs1 : tmp_ok c -> holds c d (mkLog bs1 None) ->
  swept c (map (full c) (map num (oldest (rc_maxRolls c) bs1))) d d' ->
  holds c d' (mkLog (filter (present d') (oldest (rc_maxRolls c) bs1) ++ newest (rc_maxRolls c) bs1) None).
Proof.
  intros TO (O & HF & H3 & H4) SW. cbn [l_backups l_current] in *.
  set (mr := rc_maxRolls c) in *.
  assert (NW : forall p, In p (newest mr bs1) -> d' (full c (num p)) = d (full c (num p))).
  { intros p I. destruct (SW (full c (num p))) as [E|[[J E]|(NA & T & _)]]; [exact E| |].
    - exfalso. apply in_map_iff in J as (r & E1 & J). apply full_inj in E1. subst r.
      apply in_map_iff in J as (q & E1 & J). unfold num in E1.
      assert (I1 : In p bs1) by (rewrite <- (split_old mr bs1); apply in_or_app; now right).
      assert (J1 : In q bs1) by (rewrite <- (split_old mr bs1); apply in_or_app; now left).
      destruct O as [O1 O2]. rewrite Forall_forall in O2.
      apply num_inj in E1; [|apply (O2 _ J1)|apply (O2 _ I1)].
      rewrite <- (split_old mr bs1) in O1. clear -O1 J I E1.
      induction (oldest mr bs1) as [|x t IH]; [destruct J|]. cbn in O1. inversion O1 as [|? ? A B]; subst.
      destruct J as [-> |J]; [|now apply IH]. rewrite Forall_forall in B. specialize (B p ltac:(apply in_or_app; now right)). lia.
    - exfalso. assert (I1 : In p bs1) by (rewrite <- (split_old mr bs1); apply in_or_app; now right).
      destruct O as [_ O2]. rewrite Forall_forall in O2. specialize (O2 _ I1).
      now apply (tmp_not_number (num p) (fst p)) in T; [|apply numeral_Itoa]. }
  assert (PR : filter (present d') bs1 = filter (present d') (oldest mr bs1) ++ newest mr bs1).
  { rewrite <- (split_old mr bs1) at 1. rewrite filter_app. f_equal. apply filter_all. intros p I. unfold present.
    rewrite (NW p I). destruct p as [z x]. assert (I1 : In (z, x) bs1) by (rewrite <- (split_old mr bs1); apply in_or_app; now right).
    destruct (H3 z x I1) as (n & B & D). apply backup_name_full in B. subst n. unfold num; cbn. now rewrite D. }
  rewrite <- PR.
  assert (ST : forall p, In p bs1 -> d' (full c (num p)) = d (full c (num p)) \/ d' (full c (num p)) = None).
  { intros p I. destruct (SW (full c (num p))) as [E|[[J E]|(NA & T & _)]]; auto.
    exfalso. destruct O as [_ O2]. rewrite Forall_forall in O2. specialize (O2 _ I).
    now apply (tmp_not_number (num p) (fst p)) in T; [|apply numeral_Itoa]. }
  split; [|split; [|split]]; cbn [l_backups l_current].
  - now apply sub_ordered.
  - destruct (SW (rc_file c)) as [E|[[J E]|(NA & T & _)]]; [congruence|exact E|]. destruct TO; contradiction.
  - intros z x I. apply filter_In in I as [I Q]. exists (full c (Itoa z)). split; [apply full_backup|].
    destruct (H3 z x I) as (n & B & D). apply backup_name_full in B. subst n.
    destruct (ST _ I) as [E|E]; [unfold num in E; cbn in E; congruence|]. unfold present in Q. rewrite E in Q. discriminate.
  - intros r n z B N D. apply backup_name_full in B. subst n.
    destruct (SW (full c r)) as [E|[[J E]|(NA & T & _)]]; [|contradiction|now apply tmp_not_number with (z := z) in T].
    rewrite E in D. destruct (H4 r _ z (full_backup c r) N D) as (-> & x & I). split; [reflexivity|]. exists x.
    apply filter_In. split; [exact I|]. unfold present, num; cbn. rewrite E. now destruct (d (full c (Itoa z))).
Qed.

Lemma holds_file d d' bs cur cur' : holds c d (mkLog bs cur) -> (forall n, n <> rc_file c -> d' n = d n) ->
  d' (rc_file c) = match cur' with Some x => Some (Reg x) | None => None end -> holds c d' (mkLog bs cur').
Proof.
  intros (O & HF & H3 & H4) SM E. cbn [l_backups l_current] in *.
  split; [exact O|]. split; [exact E|]. split; cbn [l_backups].
  - intros z x I. destruct (H3 z x I) as (n & B & D). exists n. split; [exact B|]. apply backup_name_full in B. subst n.
    rewrite SM; [exact D|apply full_not_file].
  - intros r n z B N D. apply (H4 r n z B N). apply backup_name_full in B. subst n. rewrite <- SM; [exact D|apply full_not_file].
Qed.

Lemma grown_current b k bs cur d d' : holds c d (mkLog bs cur) -> (forall n, n <> rc_file c -> d' n = d n) ->
  grown b k (d (rc_file c)) (d' (rc_file c)) ->
  (k <= length b)%nat /\ exists cur', holds c d' (mkLog bs cur') /\ ((k = 0%nat /\ cur' = cur) \/ cur' = Some (bytes cur ++ firstn k b)).
Proof.
  intros H SM (KL & G). split; [exact KL|]. pose proof H as (_ & HF & _ & _). cbn [l_current] in HF.
  destruct G as [[E [-> | SP]]|[[E E']|(s & E & E')]].
  - exists cur. split; [|auto]. eapply holds_file; eauto. congruence.
  - rewrite HF in SP. destruct cur; discriminate.
  - exists (Some (bytes cur ++ firstn k b)). split; [|auto]. eapply holds_file; eauto. rewrite HF in E. destruct cur; [discriminate|]. exact E'.
  - exists (Some (bytes cur ++ firstn k b)). split; [|auto]. eapply holds_file; eauto. rewrite HF in E. destruct cur; [|discriminate].
    injection E as ->. exact E'.
Qed.

Lemma rolled_holds w f s rname e f1 l : tmp_ok c -> holds c (f_dir f) l -> room (l_backups l) 1 -> rolled P c w f s rname e f1 ->
  exists bs cur n, l = mkLog bs (Some cur) /\ next_number bs n /\ rname = Itoa n /\ s = map num bs /\
    holds c (f_dir f1) (mkLog (filter (present (f_dir f1)) (oldest (rc_maxRolls c) (bs ++ [(n, cur)])) ++ newest (rc_maxRolls c) (bs ++ [(n, cur)])) None).
Proof.
  intros TO H RM (WF & SH & NN & E & _ & SW). pose proof (hist_holds _ _ _ H SH) as ->.
  destruct l as [bs cur]. cbn [l_backups] in *. pose proof H as (O & HF & _ & _). cbn [l_current l_backups] in *.
  destruct (new_name_next _ _ _ O RM NN) as (n & NX & ->).
  destruct cur as [cur|]; [|congruence]. rewrite HF in E. injection E as <-.
  exists bs, cur, n. split; [reflexivity|]. split; [exact NX|]. split; [reflexivity|]. split; [reflexivity|].
  replace (map num bs ++ [Itoa n]) with (map num (bs ++ [(n, cur)])) in SW by (now rewrite map_app).
  rewrite old_rolls_names in SW.
  eapply holds_swept; [exact TO| |exact SW]. now apply holds_moved.
Qed.

(** One write, with any faults, perhaps not finished. *)
Lemma fault_one f l w b tr f' x : tmp_ok c -> w_ok c w -> holds c (f_dir f) l -> room (l_backups l) 1 ->
  goes (rw_Write P c w b) f tr f' x ->
  exists k l', put (rc_maxRolls c) b k l l' /\ holds c (f_dir f') l' /\ wrote x k /\
    forall w' n e, x = Some (w', (n, e)) -> w_ok c w' /\ (e = false -> n = length b).
Proof.
  intros TO OK H RM G.
  assert (PL : plain c) by (right; eauto).
  assert (FIN : forall w0 g tr g' bs cur, w_ok c w0 -> holds c (f_dir g) (mkLog bs cur) -> goes (finish c w0 b) g tr g' x ->
    exists k cur', (k <= length b)%nat /\ holds c (f_dir g') (mkLog bs cur') /\ ((k = 0%nat /\ cur' = cur) \/ cur' = Some (bytes cur ++ firstn k b)) /\
      wrote x k /\ forall w' n e, x = Some (w', (n, e)) -> w_ok c w' /\ (e = false -> n = length b)).
  { intros w0 g tr0 g' bs cur OK0 Hg Gg. apply finish_goes in Gg as (F1 & (k & F2 & F3) & F4); auto.
    destruct (grown_current _ _ _ _ _ _ Hg F1 F2) as (KL & cur' & H' & C'). exists k, cur'. split; [exact KL|]. split; [exact H'|]. split; [exact C'|]. split; [exact F3|].
    intros w2 n e X. destruct F4 as [-> |(w3 & k3 & e3 & -> & F5 & _ & _ & F6)]; [discriminate|]. injection X as <- <- <-.
    split; [exact F5|]. intros E. now apply F6. }
  apply write_goes in G as [[-> ->]|(tr0 & tr1 & w0 & need & -> & NE & G)]; [| |exact OK].
  { exists 0%nat, l. split; [now constructor|]. split; [exact H|]. split; [apply wrote_none|]. discriminate. }
  pose proof (needs_ok _ _ _ _ _ NE OK) as OK0.
  destruct G as [[-> G]|[-> [[-> G]|(s & rname & e & [[R ->]|(f1 & w1 & tr2 & tr3 & -> & R & _ & W1 & _ & _ & G)])]]].
  - destruct l as [bs cur]. apply (FIN _ _ _ _ _ _ OK0 H) in G as (k & cur' & KL & H' & C & WX & RX).
    exists k, (mkLog bs cur'). split; [|auto]. destruct C as [[-> ->]| ->]; constructor; auto.
  - exists 0%nat, l. split; [now constructor|]. split; [exact H|].
    destruct G as [-> |(w' & -> & OK' & _)]; [split; [apply wrote_none|discriminate]|]. split; [apply wrote_some|].
    intros w2 n e X. injection X as <- <- <-. split; [exact OK'|discriminate].
  - destruct (rolled_holds _ _ _ _ _ _ _ TO H RM R) as (bs & cur & n & -> & NX & -> & _ & H').
    exists 0%nat. eexists. split; [|split; [exact H'|split; [apply wrote_none|discriminate]]].
    apply pt_roll; [exact NX|lia|]. left. auto.
  - destruct (rolled_holds _ _ _ _ _ _ _ TO H RM R) as (bs & cur & n & -> & NX & -> & _ & H').
    apply (FIN _ _ _ _ _ _ (w_ok_none c w1 W1) H') in G as (k & cur' & KL & H2 & C & WX & RX).
    exists k. eexists. split; [|split; [exact H2|auto]].
    apply pt_roll; [exact NX|exact KL|]. destruct C as [[-> ->]| ->]; auto.
Qed.

Lemma newest_incl {A} k (l : list A) x : In x (newest k l) -> In x l.
Proof. intros I. rewrite <- (split_old k l). apply in_or_app. now right. Qed.
Lemma oldest_incl {A} k (l : list A) x : In x (oldest k l) -> In x l.
Proof. intros I. rewrite <- (split_old k l). apply in_or_app. now left. Qed.
Lemma room_le bs i j : (j <= i)%nat -> room bs i -> room bs j.
Proof. intros L [A B]. split; [|lia]. rewrite Forall_forall in *. intros p I. specialize (A p I). lia. Qed.
Lemma room_next bs n x i : room bs (S i) -> next_number bs n -> room (bs ++ [(n, x)]) i.
Proof.
  intros [A B] NX. split; [|lia]. apply Forall_app. split.
  - rewrite Forall_forall in *. intros p I. specialize (A p I). lia.
  - constructor; [|constructor]. cbn. destruct NX as [[_ ->]|(bs' & z & y & -> & ->)]; [lia|].
    rewrite Forall_forall in A. specialize (A (z, y) ltac:(apply in_or_app; right; now left)). cbn in A. lia.
Qed.
Lemma room_incl bs bs' i : (forall p, In p bs' -> In p bs) -> room bs i -> room bs' i.
Proof. intros I [A B]. split; [|exact B]. rewrite Forall_forall in *. auto. Qed.
Lemma put_room mr b k l l' i : put mr b k l l' -> room (l_backups l) (S i) -> room (l_backups l') i.
Proof.
  intros PT RM. destruct PT as [l E|bs cur KL|bs cur n keep new NX KL NW]; cbn [l_backups] in *.
  - apply (room_le _ (S i)); [lia|assumption].
  - apply (room_le _ (S i)); [lia|assumption].
  - apply (room_incl (bs ++ [(n, cur)])); [|now apply room_next]. intros p I. apply in_app_or in I as [I|I].
    + apply filter_In in I as [I _]. now apply oldest_incl in I.
    + now apply newest_incl in I.
Qed.

(** Histories with any faults and crashes. *)
Lemma fault_history good f w hs f' w' l : tmp_ok c -> happens P c good f w hs f' w' -> w_ok c w -> holds c (f_dir f) l ->
  room (l_backups l) (length hs) ->
  exists l', steps (fault_step (rc_maxRolls c)) l hs l' /\ holds c (f_dir f') l' /\ w_ok c w'.
Proof.
  intros TO H. revert l. induction H as [f w|f w b tr f1 w1 k err hs f2 w2 R _ HS IH|f w b tr f1 hs f2 w2 R _ HS IH|f w hs f2 w2 HS IH];
    intros l OK HO RM; cbn [length] in RM.
  - exists l. split; [constructor|auto].
  - apply runs_goes in R. apply fault_one with (l := l) in R as (k' & l1 & PT & H1 & WX & RX); auto; [|apply (room_le _ _ _) with (2 := RM); lia].
    rewrite <- (WX _ _ _ eq_refl) in PT. destruct (RX _ _ _ eq_refl) as [OK1 E1].
    destruct (IH l1 OK1 H1 (put_room _ _ _ _ _ _ PT RM)) as (l2 & S2 & H2 & OK2). exists l2. split; [|auto].
    econstructor; [|exact S2]. constructor; assumption.
  - apply partly_goes in R. apply fault_one with (l := l) in R as (k' & l1 & PT & H1 & _); auto; [|apply (room_le _ _ _) with (2 := RM); lia].
    destruct (IH l1 (w_ok_none c w_new eq_refl) H1 (put_room _ _ _ _ _ _ PT RM)) as (l2 & S2 & H2 & OK2). exists l2. split; [|auto].
    econstructor; [|exact S2]. econstructor; eassumption.
  - destruct (IH l (w_ok_none c w_new eq_refl) HO) as (l2 & S2 & H2 & OK2); [apply (room_le _ _ _) with (2 := RM); lia|].
    exists l2. split; [|auto]. econstructor; [|exact S2]. constructor.
Qed.

(** Without faults. *)
Definition winv (w : wst) (l : log) (o : bool) : Prop :=
  w_ok c w /\
  ((w_file w = None /\ w_size w = 0 /\ o = false) \/
   (w_file w = Some (rc_file c, true) /\ o = true /\ exists x, l_current l = Some x /\ w_size w = Z.of_nat (length x))).
Lemma winv_new l : winv w_new l false.
Proof. split; [now apply w_ok_none|]. left. auto. Qed.
Lemma text_current d l : holds c d l -> text (d (rc_file c)) = bytes (l_current l) /\ d (rc_file c) <> Some Special.
Proof. intros (_ & E & _). rewrite E. destruct (l_current l); split; try reflexivity; discriminate. Qed.

Lemma smooth_one f l o w b tr f' w' k e : 0 < m -> tmp_ok c -> winv w l o -> holds c (f_dir f) l -> room (l_backups l) 1 ->
  runs (rw_Write P c w b) f tr f' (w', (k, e)) -> Forall smooth tr ->
  exists l', log_step m (rc_maxRolls c) (l, o) (HWrite b k e) (l', true) /\ holds c (f_dir f') l' /\ winv w' l' true.
Proof.
  intros MP TO [OK WI] H RM G S. apply runs_goes in G.
  assert (PL : plain c) by (right; eauto).
  apply write_goes in G as [[_ X]|(tr0 & tr1 & w0 & need & -> & NE & G)]; [discriminate| |exact OK].
  pose proof NE as (_ & _ & _ & NK). rewrite K in NK. destruct NK as (-> & NK & _).
  apply Forall_app in S as [S0 S1].
  destruct G as [[-> G]|[-> [[-> G]|(s & rname & e0 & [[R X]|(f1 & w1 & tr2 & tr3 & -> & R & GO & W1 & _ & _ & G)])]]].
  - symmetry in NK. apply Z.leb_gt in NK.
    apply finish_goes in G as (F1 & _ & [X|(w2 & k2 & e2 & X & OK2 & _ & F2 & _)]); auto; [discriminate|]. injection X as <- <- <-.
    destruct l as [bs cur]. destruct (text_current _ _ H) as [TX NS].
    destruct (F2 S1) as (-> & -> & WF2 & F3). { destruct WI as [[W _]|[W _]]; auto. }
    destruct (F3 NS) as [D SZ]. rewrite TX in *. cbn [l_current] in *.
    exists (mkLog bs (Some (bytes cur ++ b))). split; [|split].
    + apply ls_append. intros ->. destruct WI as [[_ [_ X]]|[_ [_ (x & -> & WS)]]]; [discriminate|]. cbn. lia.
    + eapply holds_file; [exact H|exact F1|exact D].
    + split; [exact OK2|]. right. split; [exact WF2|]. split; [reflexivity|]. eexists. split; [reflexivity|].
      rewrite SZ, app_length. destruct WI as [[-> _]|[-> [_ (x & X & WS)]]]; [lia|]. cbn [l_current] in X. subst cur. cbn. lia.
  - exfalso. destruct G as [X|(w2 & _ & _ & _ & NS)]; [discriminate|]. symmetry in NK. apply Z.leb_le in NK.
    destruct WI as [[_ [W _]]|[W _]]; [lia|]. apply NS; [exact W|]. apply Forall_app. auto.
  - discriminate.
  - symmetry in NK. apply Z.leb_le in NK.
    destruct WI as [[_ [W _]]|[WF [-> (x & XC & WS)]]]; [lia|].
    apply Forall_app in S1 as [S2 S3]. specialize (GO S2).
    destruct (rolled_holds _ _ _ _ _ _ _ TO H RM R) as (bs & cur & n & -> & NX & -> & -> & H').
    cbn [l_current] in XC. injection XC as <-.
    replace (map num bs ++ [Itoa n]) with (map num (bs ++ [(n, cur)])) in GO by (now rewrite map_app).
    rewrite old_rolls_names in GO.
    rewrite filter_none in H'.
    2: { intros p I. unfold present. rewrite GO; [reflexivity|]. now apply in_map, in_map. }
    cbn [app] in H'.
    apply finish_goes in G as (F1 & _ & [X|(w2 & k2 & e2 & X & OK2 & _ & F2 & _)]); auto using w_ok_none; [discriminate|]. injection X as <- <- <-.
    destruct (text_current _ _ H') as [TX NS].
    destruct (F2 S3) as (-> & -> & WF2 & F3); [auto|].
    destruct (F3 NS) as [D SZ]. rewrite TX in *. cbn [l_current bytes app] in *.
    exists (mkLog (newest (rc_maxRolls c) (bs ++ [(n, cur)])) (Some b)). split; [|split].
    + apply ls_roll; [lia|exact NX].
    + eapply holds_file; [exact H'|exact F1|exact D].
    + split; [exact OK2|]. right. split; [exact WF2|]. split; [reflexivity|]. eexists. split; [reflexivity|].
      rewrite SZ, W1. cbn. lia.
Qed.
Lemma log_step_room limit mr s h s' i : log_step limit mr s h s' -> room (l_backups (fst s)) (S i) -> room (l_backups (fst s')) i.
Proof.
  intros ST RM. destruct ST as [bs cur o b LT|bs cur b n GE NX|l o]; cbn [l_backups fst] in *.
  - apply (room_le _ (S i)); [lia|assumption].
  - apply (room_incl (bs ++ [(n, cur)])); [|now apply room_next]. intros p. apply newest_incl.
  - apply (room_le _ (S i)); [lia|assumption].
Qed.
Lemma smooth_history f w hs f' w' l o : 0 < m -> tmp_ok c -> happens P c smooth f w hs f' w' -> (forall b, ~ In (HCrash b) hs) ->
  winv w l o -> holds c (f_dir f) l -> room (l_backups l) (length hs) ->
  exists l' o', steps (log_step m (rc_maxRolls c)) (l, o) hs (l', o') /\ holds c (f_dir f') l' /\ winv w' l' o'.
Proof.
  intros MP TO H. revert l o. induction H as [f w|f w b tr f1 w1 k err hs f2 w2 R S HS IH|f w b tr f1 hs f2 w2 R S HS IH|f w hs f2 w2 HS IH];
    intros l o NC WI HO RM; cbn [length] in RM.
  - exists l, o. split; [constructor|auto].
  - apply smooth_one with (l := l) (o := o) in R as (l1 & ST & H1 & W1); auto; [|apply (room_le _ _ _) with (2 := RM); lia].
    destruct (IH l1 true) as (l2 & o2 & S2 & H2 & W2); auto.
    { intros b0 I. apply (NC b0). right. exact I. }
    { apply (log_step_room _ _ _ _ _ _ ST RM). }
    exists l2, o2. split; [|auto]. econstructor; eassumption.
  - destruct (NC b). now left.
  - destruct (IH l false) as (l2 & o2 & S2 & H2 & W2); auto using winv_new.
    { intros b0 I. apply (NC b0). right. exact I. }
    { apply (room_le _ _ _) with (2 := RM); lia. }
    exists l2, o2. split; [|auto]. econstructor; [|exact S2]. constructor.
Qed.
End Size.

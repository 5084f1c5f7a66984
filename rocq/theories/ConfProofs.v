From Verif Require Import GoStr Utf8 LevelModel LevelSpec LevelProofs Strconv StrconvProofs ConfModel.
Local Open Scope Z_scope.

Ltac zcases := repeat match goal with
  | |- context [if ?a <=? ?b then _ else _] => destruct (Z.leb_spec a b)
  | |- context [if ?a <? ?b then _ else _] => destruct (Z.ltb_spec a b)
  end.

Lemma queue_range s : 1 <= GetQueueSize s <= 100000.
Proof. unfold GetQueueSize; zcases; lia. Qed.
Lemma batch_range s : 1 <= GetBatchNum s <= 500.
Proof. unfold GetBatchNum; zcases; lia. Qed.
Lemma rolls_range s : 1 <= getMaxRolls s <= 20.
Proof. unfold getMaxRolls; zcases; lia. Qed.
Lemma fileMode_range s d : getFileMode s d = d \/ 1 <= getFileMode s d <= 511.
Proof. unfold getFileMode; zcases; lia. Qed.

Lemma int64_of n a b : min_int64 <= a -> b <= max_int64 -> a <= n <= b -> min_int64 <= n <= max_int64.
Proof. lia. Qed.

Lemma queue_number n : 1 <= n <= 100000 -> GetQueueSize (Itoa n) = n.
Proof.
  intros H. unfold GetQueueSize. rewrite atoi_Itoa by (unfold min_int64, max_int64; lia).
  zcases; lia.
Qed.
Lemma batch_number n : 1 <= n <= 500 -> GetBatchNum (Itoa n) = n.
Proof.
  intros H. unfold GetBatchNum. rewrite atoi_Itoa by (unfold min_int64, max_int64; lia).
  zcases; lia.
Qed.
Lemma rolls_number n : 1 <= n <= 20 -> getMaxRolls (Itoa n) = n.
Proof.
  intros H. unfold getMaxRolls. rewrite atoi_Itoa by (unfold min_int64, max_int64; lia).
  zcases; lia.
Qed.
(** Above the upper bound the bound is used; zero, negative and malformed numbers give the default. *)
Lemma queue_above n : 100000 < n <= max_int64 -> GetQueueSize (Itoa n) = 100000.
Proof.
  intros H. unfold GetQueueSize. rewrite atoi_Itoa by (unfold min_int64, max_int64 in *; lia).
  zcases; lia.
Qed.

Definition octal_digit (d : Z) : Prop := 0 <= d <= 7.
Lemma fileMode_octal d1 d2 d3 dflt :
  octal_digit d1 -> octal_digit d2 -> octal_digit d3 -> 0 < d1 * 64 + d2 * 8 + d3 ->
  getFileMode ["0"%char; digit_char d1; digit_char d2; digit_char d3] dflt = d1 * 64 + d2 * 8 + d3.
Proof.
  unfold octal_digit. intros H1 H2 H3 Hpos.
  assert (E : forallb (fun x => forallb (fun y => forallb (fun z =>
     (fst (ParseInt ["0"%char; digit_char x; digit_char y; digit_char z] 0 32) =? x * 64 + y * 8 + z))
     [0;1;2;3;4;5;6;7]) [0;1;2;3;4;5;6;7]) [0;1;2;3;4;5;6;7] = true) by (vm_compute; reflexivity).
  assert (Hin : forall d, 0 <= d <= 7 -> In d [0;1;2;3;4;5;6;7]) by (intros; cbn; lia).
  rewrite forallb_forall in E. specialize (E d1 (Hin d1 H1)).
  rewrite forallb_forall in E. specialize (E d2 (Hin d2 H2)).
  rewrite forallb_forall in E. specialize (E d3 (Hin d3 H3)).
  apply Z.eqb_eq in E. unfold getFileMode. rewrite E. zcases; lia.
Qed.

(** ** getMaxSize *)
Lemma all_digits_no_suffix ds x : all_digits ds -> is_digit x = false -> has_suffix ds [x] = false.
Proof.
  intros Hd Hx. apply not_true_iff_false. rewrite has_suffix_iff. intros [t ->].
  apply Forall_app in Hd as [_ Hd]. inversion_clear Hd. congruence.
Qed.
Lemma Itoa_no_suffix n x : is_digit x = false -> has_suffix (Itoa n) [x] = false.
Proof.
  intros Hx. unfold Itoa. destruct (Z.ltb_spec n 0) as [H|H].
  - apply not_true_iff_false. rewrite has_suffix_iff. intros [t E].
    destruct (dec_nonneg_value (- n) ltac:(lia)) as (Hne & Hd & _).
    destruct t as [|c t].
    + injection E as E1 E2. congruence.
    + injection E as _ E2. rewrite E2 in Hd. apply Forall_app in Hd as [_ Hd]. inversion_clear Hd. congruence.
  - apply all_digits_no_suffix; [now apply dec_nonneg_value|assumption].
Qed.

Lemma maxSize_plain n : 1 <= n <= max_int64 -> getMaxSize (Itoa n) = n.
Proof.
  intros H. unfold getMaxSize. change ($"K") with ["K"%char]. change ($"M") with ["M"%char].
  change ($"G") with ["G"%char].
  rewrite !Itoa_no_suffix by reflexivity. rewrite atoi_Itoa by (unfold min_int64, max_int64 in *; lia).
  zcases; lia.
Qed.

(** A number followed by a letter is a syntax error unless the digits alone overflow uint64. *)
Lemma ploop_short s n k :
  0 <= n -> n < 10 ^ k -> 0 <= k -> k + Z.of_nat (length s) <= 19 ->
  snd (ploop n s) <> Some ErrRange.
Proof.
  revert n k; induction s as [|c s IH]; intros n k Hn Hlt Hk Hlen; cbn [ploop]; [discriminate|].
  destruct (is_digit c) eqn:Ec; [|discriminate].
  pose proof (digit_bounds c Ec) as Hd. cbn [length] in Hlen.
  assert (Hs : dstep n c < 10 ^ (k + 1)).
  { unfold dstep. rewrite Z.pow_add_r by lia. lia. }
  assert (Hle : 10 ^ (k + 1) <= 10 ^ 19) by (apply Z.pow_le_mono_r; lia).
  change (10 ^ 19) with 10000000000000000000 in Hle.
  destruct (Z.ltb_spec max_uint64 (dstep n c)) as [H1|H1]; [unfold max_uint64 in *; lia|].
  apply (IH (dstep n c) (k + 1)); try lia. unfold dstep; lia.
Qed.
Lemma ploop_nondigit s n x v : is_digit x = false -> ploop n (s ++ [x]) <> (v, None).
Proof.
  intros Hx; revert n; induction s as [|c s IH]; intros n; cbn [ploop app].
  - rewrite Hx; discriminate.
  - destruct (is_digit c); [|discriminate]. destruct (max_uint64 <? dstep n c); [discriminate|apply IH].
Qed.
Lemma ploop_snoc_range s n x : is_digit x = false ->
  snd (ploop n s) <> Some ErrRange -> snd (ploop n (s ++ [x])) = Some ErrSyntax.
Proof.
  intros Hx; revert n; induction s as [|c s IH]; intros n; cbn [ploop app].
  - rewrite Hx; reflexivity.
  - destruct (is_digit c); [|reflexivity]. destruct (max_uint64 <? dstep n c); [cbn; congruence|apply IH].
Qed.
Lemma ploop_snoc_syntax s n x v : is_digit x = false -> snd (ploop n (s ++ [x])) = Some v ->
  v = ErrSyntax \/ fst (ploop n (s ++ [x])) = max_uint64.
Proof.
  destruct v; [auto|]. intros _ H. right. destruct (ploop n (s ++ [x])) as [a b] eqn:E. cbn in *; subst b.
  eapply ploop_range; eassumption.
Qed.

Lemma split_sign_snoc s x : x <> "+"%char -> x <> "-"%char ->
  exists neg t, split_sign (s ++ [x]) = (neg, t ++ [x]) /\ (length t <= length s)%nat.
Proof.
  intros Hp Hm. destruct s as [|c s]; cbn [split_sign app].
  - destruct (Ascii.eqb_spec x "+"); [congruence|]. destruct (Ascii.eqb_spec x "-"); [congruence|].
    exists false, []. split; [reflexivity|cbn; lia].
  - destruct (Ascii.eqb c "+"); [exists false, s; split; [reflexivity|cbn; lia]|].
    destruct (Ascii.eqb c "-"); [exists true, s; split; [reflexivity|cbn; lia]|].
    exists false, (c :: s); split; [reflexivity|cbn; lia].
Qed.

Lemma Atoi_letter s x : is_digit x = false -> x <> "+"%char -> x <> "-"%char ->
  atoi (s ++ [x]) = 0 \/ atoi (s ++ [x]) = max_int64 \/ atoi (s ++ [x]) = min_int64.
Proof.
  intros Hx Hp Hm. unfold atoi. rewrite Atoi_unfold.
  destruct (split_sign_snoc s x Hp Hm) as (neg & t & -> & _).
  destruct (t ++ [x]) as [|a l] eqn:E; [destruct t; discriminate|]. rewrite <- E.
  destruct (ploop 0 (t ++ [x])) as [un e] eqn:Ep.
  destruct e as [[|]|].
  - auto.
  - apply ploop_range in Ep; subst un. destruct neg; cbn; auto.
  - exfalso. exact (ploop_nondigit _ _ _ _ Hx Ep).
Qed.
Lemma Atoi_letter_short s x : is_digit x = false -> x <> "+"%char -> x <> "-"%char ->
  (length s <= 19)%nat -> atoi (s ++ [x]) = 0.
Proof.
  intros Hx Hp Hm Hl. unfold atoi. rewrite Atoi_unfold.
  destruct (split_sign_snoc s x Hp Hm) as (neg & t & -> & Ht).
  destruct (t ++ [x]) as [|a l] eqn:E; [destruct t; discriminate|]. rewrite <- E.
  assert (Hs : snd (ploop 0 (t ++ [x])) = Some ErrSyntax).
  { apply ploop_snoc_range; [assumption|]. apply (ploop_short t 0 0); cbn; lia. }
  destruct (ploop 0 (t ++ [x])) as [un e]. cbn in Hs; subst e. reflexivity.
Qed.

Lemma suffix1 s x : has_suffix s [x] = true -> exists t, s = t ++ [x].
Proof. apply has_suffix_iff. Qed.
Lemma has_suffix_snoc t x y : has_suffix (t ++ [x]) [y] = Ascii.eqb x y.
Proof.
  destruct (Ascii.eqb_spec x y) as [->|Hn].
  - apply has_suffix_iff; eauto.
  - apply not_true_iff_false; rewrite has_suffix_iff; intros [u E].
    apply app_inj_tail in E as [_ E]; congruence.
Qed.

Lemma maxSize_letter_short t :
  (length t <= 19)%nat ->
  getMaxSize (t ++ $"K") = 10485760 /\ getMaxSize (t ++ $"M") = 10485760 /\
  getMaxSize (t ++ $"G") = 1073741824.
Proof.
  intros Hl. change ($"K") with ["K"%char]. change ($"M") with ["M"%char]. change ($"G") with ["G"%char].
  unfold getMaxSize. change ($"K") with ["K"%char]. change ($"M") with ["M"%char]. change ($"G") with ["G"%char].
  rewrite !has_suffix_snoc. cbn [Ascii.eqb Bool.eqb].
  rewrite !Atoi_letter_short by (reflexivity || discriminate || assumption).
  repeat split; reflexivity.
Qed.

Lemma maxSize_nosuffix_pos s :
  has_suffix s ($"K") = false -> has_suffix s ($"M") = false -> has_suffix s ($"G") = false ->
  0 < getMaxSize s.
Proof. unfold getMaxSize. intros -> -> ->. zcases; lia. Qed.

Lemma maxSize_short_pos s : (length s <= 20)%nat -> 0 < getMaxSize s.
Proof.
  intros Hl.
  destruct (has_suffix s ($"K")) eqn:EK.
  { apply suffix1 in EK as [t ->]. rewrite app_length in Hl; cbn in Hl.
    destruct (maxSize_letter_short t ltac:(lia)) as (H & _ & _).
    change ["K"%char] with ($"K"). rewrite H; lia. }
  destruct (has_suffix s ($"M")) eqn:EM.
  { apply suffix1 in EM as [t ->]. rewrite app_length in Hl; cbn in Hl.
    destruct (maxSize_letter_short t ltac:(lia)) as (_ & H & _).
    change ["M"%char] with ($"M"). rewrite H; lia. }
  destruct (has_suffix s ($"G")) eqn:EG.
  { apply suffix1 in EG as [t ->]. rewrite app_length in Hl; cbn in Hl.
    destruct (maxSize_letter_short t ltac:(lia)) as (_ & _ & H).
    change ["G"%char] with ($"G"). rewrite H; lia. }
  now apply maxSize_nosuffix_pos.
Qed.

(** The only values a size with a unit letter can resolve to. *)
Lemma maxSize_letter_values t :
  In (getMaxSize (t ++ $"K")) [10485760; -1024] /\
  In (getMaxSize (t ++ $"M")) [10485760; -1048576] /\
  In (getMaxSize (t ++ $"G")) [1073741824; -1073741824].
Proof.
  change ($"K") with ["K"%char]. change ($"M") with ["M"%char]. change ($"G") with ["G"%char].
  unfold getMaxSize. change ($"K") with ["K"%char]. change ($"M") with ["M"%char]. change ($"G") with ["G"%char].
  rewrite !has_suffix_snoc. cbn [Ascii.eqb Bool.eqb].
  repeat split.
  - destruct (Atoi_letter t "K") as [->|[->| ->]]; try reflexivity; try discriminate; cbn; auto.
  - destruct (Atoi_letter t "M") as [->|[->| ->]]; try reflexivity; try discriminate; cbn; auto.
  - destruct (Atoi_letter t "G") as [->|[->| ->]]; try reflexivity; try discriminate; cbn; auto.
Qed.

(** ** Threshold *)
Lemma threshold_named up s l n : named_level l n -> to_upper up s = n -> GetThresholdLvl up s = l.
Proof.
  intros Hn Hu. unfold GetThresholdLvl, LevelFrom.
  rewrite (proj2 (levelFrom_order up levelStrings s l (Permutation_refl _))) by (left; congruence).
  pose proof (named_level_nonzero _ _ Hn). unfold Uninitialized.
  destruct (Z.eqb_spec l 0); [congruence|reflexivity].
Qed.
Lemma threshold_unnamed up s : (forall k, ~ named_level k (to_upper up s)) -> GetThresholdLvl up s = 1.
Proof.
  intros H. unfold GetThresholdLvl, LevelFrom.
  rewrite (proj2 (levelFrom_order up levelStrings s 0 (Permutation_refl _))) by (right; auto).
  reflexivity.
Qed.

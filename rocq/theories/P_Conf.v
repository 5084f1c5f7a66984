(** Properties C28, C29, C30: settings. *)
From Verif Require Import GoStr Utf8 LevelModel LevelSpec LevelProofs Strconv StrconvProofs ConfModel ConfProofs.
Local Open Scope Z_scope.

(** ** C28 *)
Theorem C28_ranges : forall s,
  1 <= GetQueueSize s <= 100000 /\ 1 <= GetBatchNum s <= 500 /\ 1 <= getMaxRolls s <= 20 /\
  forall dflt, getFileMode s dflt = dflt \/ 1 <= getFileMode s dflt <= 511.
Proof.
  intros s. split; [apply queue_range|]. split; [apply batch_range|]. split; [apply rolls_range|].
  intros d. apply fileMode_range.
Qed.
Print Assumptions C28_ranges.
(** A number in range, written in decimal, resolves to itself. *)
Theorem C28_numbers : forall n,
  (1 <= n <= 100000 -> GetQueueSize (Itoa n) = n) /\
  (1 <= n <= 500 -> GetBatchNum (Itoa n) = n) /\
  (1 <= n <= 20 -> getMaxRolls (Itoa n) = n).
Proof. intros n. split; [apply queue_number|]. split; [apply batch_number|apply rolls_number]. Qed.
Print Assumptions C28_numbers.
(** Above the range: the upper bound. *)
Theorem C28_above : forall n, n <= max_int64 ->
  (100000 < n -> GetQueueSize (Itoa n) = 100000) /\
  (500 < n -> GetBatchNum (Itoa n) = 500) /\
  (20 < n -> getMaxRolls (Itoa n) = 20).
Proof.
  intros n Hn. split; [intros; apply queue_above; lia|].
  unfold GetBatchNum, getMaxRolls. split; intros H;
    (rewrite atoi_Itoa by (unfold min_int64, max_int64 in *; lia)); zcases; lia.
Qed.
Print Assumptions C28_above.
(** A permission written as an octal number with a leading zero resolves to it. *)
Theorem C28_permissions : forall d1 d2 d3 dflt,
  0 <= d1 <= 7 -> 0 <= d2 <= 7 -> 0 <= d3 <= 7 -> 0 < d1 * 64 + d2 * 8 + d3 ->
  getFileMode ["0"%char; digit_char d1; digit_char d2; digit_char d3] dflt = d1 * 64 + d2 * 8 + d3.
Proof. exact fileMode_octal. Qed.
Print Assumptions C28_permissions.
Example C28_example : GetQueueSize ($"12x") = 1000 /\ GetQueueSize ($"777") = 777 /\
  GetBatchNum ($"-4") = 20 /\ getMaxRolls ($"99999999999999999999") = 20 /\
  getFileMode ($"0640") 1 = 416 /\ getFileMode ($"01000") 1 = 1.
Proof. vm_compute. repeat split. Qed.

(** ** C29 *)
(** A plain number means itself. *)
Theorem C29_plain_number_partial : forall n, 1 <= n <= max_int64 -> getMaxSize (Itoa n) = n.
Proof. exact maxSize_plain. Qed.
Print Assumptions C29_plain_number_partial.
(** The resolved size is positive for every setting of at most 20 bytes. *)
Theorem C29_positive_partial : forall s, (length s <= 20)%nat -> 0 < getMaxSize s.
Proof. exact maxSize_short_pos. Qed.
Print Assumptions C29_positive_partial.
(** With a unit the number is ignored (Atoi is given the unit too and fails): of the meanings
    nK, nM and nG only 10240K, 10M and 1G come out right. *)
Theorem C29_unit_refuted : exists n, 1 <= n <= 100 /\
  getMaxSize (Itoa n ++ $"K") <> n * 1024 /\ getMaxSize (Itoa n ++ $"M") <> n * 1024 ^ 2 /\
  getMaxSize (Itoa n ++ $"G") <> n * 1024 ^ 3.
Proof. exists 5. vm_compute. repeat split; discriminate. Qed.
Print Assumptions C29_unit_refuted.
Theorem C29_positive_refuted : exists s, getMaxSize s < 0.
Proof. exists ($"20000000000000000000K"). vm_compute. reflexivity. Qed.
Print Assumptions C29_positive_refuted.
(** What a unit does mean, completely: the default of the unit, or a negative number when the digits
    overflow 64 bits. *)
Theorem C29_unit_values : forall t,
  In (getMaxSize (t ++ $"K")) [10485760; -1024] /\
  In (getMaxSize (t ++ $"M")) [10485760; -1048576] /\
  In (getMaxSize (t ++ $"G")) [1073741824; -1073741824].
Proof. exact maxSize_letter_values. Qed.
Print Assumptions C29_unit_values.
Theorem C29_unit_short : forall t, (length t <= 19)%nat ->
  getMaxSize (t ++ $"K") = 10485760 /\ getMaxSize (t ++ $"M") = 10485760 /\
  getMaxSize (t ++ $"G") = 1073741824.
Proof. exact maxSize_letter_short. Qed.
Print Assumptions C29_unit_short.
Example C29_example : getMaxSize ($"1048576") = 1048576 /\ getMaxSize ($"") = 10485760.
Proof. split; reflexivity. Qed.

(** ** C30 *)
Theorem C30_threshold_exact : forall up s l,
  GetThresholdLvl up s = l <->
  named_level l (to_upper up s) \/ (l = 1 /\ forall k, ~ named_level k (to_upper up s)).
Proof.
  intros up s l.
  destruct (level_named_dec (to_upper up s)) as [[k Hk]|Hno].
  - rewrite (threshold_named up s k _ Hk eq_refl). split.
    + intros <-. auto.
    + intros [H|[_ H]]; [|exfalso; exact (H _ Hk)]. exact (named_level_fun _ _ _ Hk H).
  - rewrite (threshold_unnamed up s Hno). split; [auto|]. intros [H|[-> _]]; [|reflexivity].
    exfalso. exact (Hno _ H).
Qed.
Print Assumptions C30_threshold_exact.
Theorem C30_never_uninitialized : forall up s, GetThresholdLvl up s <> 0.
Proof.
  intros up s H. apply C30_threshold_exact in H as [H|[H _]]; [|discriminate].
  now apply named_level_nonzero in H.
Qed.
Print Assumptions C30_never_uninitialized.
Example C30_example : GetThresholdLvl (fun r => r) ($"wArN") = 5 /\
  GetThresholdLvl (fun r => r) ($"warning") = 1.
Proof. split; reflexivity. Qed.

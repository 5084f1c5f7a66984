From Verif Require Import GoStr Strconv.
Local Open Scope Z_scope.

Definition all_digits (s : str) : Prop := Forall (fun c => is_digit c = true) s.
Definition dstep (a : Z) (c : ascii) : Z := a * 10 + (zcode c - 48).
(** Value of a string of decimal digits. *)
Definition dval (s : str) : Z := fold_left dstep s 0.

Lemma digit_bounds c : is_digit c = true -> 0 <= zcode c - 48 <= 9.
Proof. unfold is_digit, zcode; rewrite andb_true_iff, !N.leb_le; lia. Qed.

Lemma digit_val_digit c : is_digit c = true -> digit_val c = Some (zcode c - 48).
Proof. unfold digit_val; intros ->; reflexivity. Qed.
Lemma digit_val_other c : is_digit c = false ->
  digit_val c = None \/ exists d, digit_val c = Some d /\ 10 <= d.
Proof.
  unfold digit_val; intros ->.
  destruct ((97 <=? lower_code c) && (lower_code c <=? 122)) eqn:E; [|auto].
  right. eexists; split; [reflexivity|]. apply andb_true_iff in E as [E _]; apply Z.leb_le in E; lia.
Qed.

(** ParseUint's loop for base 10 and 64 bits, without the overflow arithmetic. *)
Fixpoint ploop (n : Z) (s : str) : Z * option num_err :=
  match s with
  | [] => (n, None)
  | c :: s' =>
    if is_digit c then
      if max_uint64 <? dstep n c then (max_uint64, Some ErrRange) else ploop (dstep n c) s'
    else (0, Some ErrSyntax)
  end.

Lemma parse_loop_ploop n us s :
  0 <= n <= max_uint64 ->
  parse_loop 10 (2 ^ 64 - 1) false n us s = (fst (ploop n s), snd (ploop n s), us).
Proof.
  revert n; induction s as [|c s IH]; intros n Hn; [reflexivity|].
  cbn [parse_loop ploop]. rewrite andb_false_r.
  destruct (is_digit c) eqn:Ed.
  - rewrite (digit_val_digit _ Ed). pose proof (digit_bounds _ Ed) as Hd. unfold dstep.
    replace (10 <=? zcode c - 48) with false by (symmetry; apply Z.leb_gt; lia).
    change (max_uint64 / 10 + 1) with 1844674407370955162.
    change (2 ^ 64 - 1) with max_uint64.
    unfold max_uint64 in *.
    destruct (Z.leb_spec 1844674407370955162 n) as [H1|H1].
    + destruct (Z.ltb_spec 18446744073709551615 (n * 10 + (zcode c - 48))); [reflexivity|lia].
    + destruct (Z.ltb_spec 18446744073709551615 (n * 10 + (zcode c - 48))) as [H2|H2].
      * assert (Hm : (n * 10 + (zcode c - 48)) mod 18446744073709551616 =
                     n * 10 + (zcode c - 48) - 18446744073709551616).
        { symmetry; apply (Z.mod_unique_pos _ _ 1); lia. }
        rewrite Hm.
        destruct (Z.ltb_spec (n * 10 + (zcode c - 48) - 18446744073709551616) (n * 10)) as [_|?]; [|lia].
        reflexivity.
      * rewrite Z.mod_small by lia.
        destruct (Z.ltb_spec (n * 10 + (zcode c - 48)) (n * 10)) as [?|_]; [lia|].
        destruct (Z.ltb_spec 18446744073709551615 (n * 10 + (zcode c - 48))) as [?|_]; [lia|].
        cbn [orb]. rewrite IH; [reflexivity|]. lia.
  - destruct (digit_val_other _ Ed) as [->|(d & -> & Hd)]; [reflexivity|].
    replace (10 <=? d) with true by (symmetry; apply Z.leb_le; lia). reflexivity.
Qed.

Lemma ParseUint_10_64 s :
  s <> [] -> ParseUint s 10 0 = ploop 0 s.
Proof.
  destruct s as [|c s]; [congruence|]; intros _.
  unfold ParseUint. cbn [Z.eqb]. change (0 =? 0) with true. change (10 =? 0) with false.
  cbv beta iota zeta.
  rewrite parse_loop_ploop by (unfold max_uint64; lia).
  destruct (ploop 0 (c :: s)) as [n [[|]|]] eqn:E; cbn [fst snd].
  - f_equal. revert E. generalize 0 at 1. generalize (c :: s).
    intros l; induction l as [|x l IH]; cbn [ploop]; intros z; [discriminate|].
    destruct (is_digit x); [|congruence]. destruct (max_uint64 <? dstep z x); [discriminate|]. apply IH.
  - reflexivity.
  - reflexivity.
Qed.

Lemma dstep_mono c a b : a <= b -> dstep a c <= dstep b c.
Proof. unfold dstep; lia. Qed.
Lemma dstep_ge n c : 0 <= n -> is_digit c = true -> n <= dstep n c.
Proof. intros Hn Hd; apply digit_bounds in Hd; unfold dstep; lia. Qed.
Lemma fold_dstep_ge s n : 0 <= n -> all_digits s -> n <= fold_left dstep s n.
Proof.
  revert n; induction s as [|c s IH]; intros n Hn Hs; cbn; [lia|].
  inversion_clear Hs as [|? ? Hc Hs']. pose proof (dstep_ge n c Hn Hc).
  specialize (IH (dstep n c) ltac:(lia) Hs'). lia.
Qed.
Lemma dval_nonneg s : all_digits s -> 0 <= dval s.
Proof. intros; apply fold_dstep_ge; [lia|assumption]. Qed.

Lemma ploop_digits s n :
  all_digits s -> 0 <= n ->
  ploop n s = if max_uint64 <? fold_left dstep s n
              then (match s with [] => n | _ => max_uint64 end, match s with [] => None | _ => Some ErrRange end)
              else (fold_left dstep s n, None).
Proof.
  revert n; induction s as [|c s IH]; intros n Hs Hn; cbn [ploop fold_left].
  - destruct (max_uint64 <? n); reflexivity.
  - inversion_clear Hs as [|? ? Hc Hs']. rewrite Hc.
    pose proof (dstep_ge n c Hn Hc) as Hge.
    pose proof (fold_dstep_ge s (dstep n c) ltac:(lia) Hs') as Hge2.
    destruct (Z.ltb_spec max_uint64 (dstep n c)) as [H1|H1].
    + destruct (Z.ltb_spec max_uint64 (fold_left dstep s (dstep n c))); [reflexivity|lia].
    + rewrite IH by (assumption || lia).
      destruct (Z.ltb_spec max_uint64 (fold_left dstep s (dstep n c))) as [H2|H2]; [|reflexivity].
      destruct s; [cbn in H2; lia|reflexivity].
Qed.

Lemma ploop_ok s n v : 0 <= n -> ploop n s = (v, None) ->
  all_digits s /\ v = fold_left dstep s n /\ (s = [] \/ v <= max_uint64).
Proof.
  revert n; induction s as [|c s IH]; intros n Hn; cbn [ploop fold_left].
  - intros [= <-]; repeat split; auto; constructor.
  - destruct (is_digit c) eqn:Ec; [|discriminate].
    destruct (Z.ltb_spec max_uint64 (dstep n c)) as [H1|H1]; [discriminate|].
    intros H. pose proof (dstep_ge n c Hn Ec). destruct (IH (dstep n c) ltac:(lia) H) as (Ha & Hv & Hle).
    split; [constructor; assumption|]. split; [assumption|]. right.
    destruct Hle as [->|Hle]; [cbn in Hv; lia|assumption].
Qed.
Lemma ploop_bounds s n : 0 <= n <= max_uint64 -> 0 <= fst (ploop n s) <= max_uint64.
Proof.
  revert n; induction s as [|c s IH]; intros n Hn; cbn [ploop]; [assumption|].
  destruct (is_digit c) eqn:Ec; [|cbn; unfold max_uint64; lia].
  destruct (Z.ltb_spec max_uint64 (dstep n c)) as [H1|H1]; [cbn; unfold max_uint64; lia|].
  apply IH. pose proof (dstep_ge n c ltac:(lia) Ec). lia.
Qed.
Lemma ploop_range s n v : ploop n s = (v, Some ErrRange) -> v = max_uint64.
Proof.
  revert n; induction s as [|c s IH]; intros n; cbn [ploop]; [discriminate|].
  destruct (is_digit c); [|discriminate].
  destruct (max_uint64 <? dstep n c); [congruence|apply IH].
Qed.

(** ** Sign handling *)
Definition split_sign (s : str) : bool * str :=
  match s with
  | [] => (false, [])
  | c :: s' => if Ascii.eqb c "+" then (false, s') else if Ascii.eqb c "-" then (true, s') else (false, s)
  end.

Lemma Atoi_unfold s :
  Atoi s = let (neg, rest) := split_sign s in
           match rest with
           | [] => (0, Some ErrSyntax)
           | _ => match ploop 0 rest with
                  | (_, Some ErrSyntax) => (0, Some ErrSyntax)
                  | (un, _) =>
                    if negb neg && (max_int64 <? un) then (max_int64, Some ErrRange)
                    else if neg && (max_int64 + 1 <? un) then (min_int64, Some ErrRange)
                    else ((if neg then - un else un), None)
                  end
           end.
Proof.
  unfold Atoi, ParseInt, split_sign. destruct s as [|c s]; [reflexivity|].
  assert (Hgen : forall neg rest,
    match ParseUint rest 10 0 with
    | (_, Some ErrSyntax) => (0, Some ErrSyntax)
    | (un, _) =>
      let bs := if 0 =? 0 then 64 else 0 in
      let cutoff := 2 ^ (bs - 1) in
      if negb neg && (cutoff <=? un) then (cutoff - 1, Some ErrRange)
      else if neg && (cutoff <? un) then (- cutoff, Some ErrRange)
      else ((if neg then - un else un), None)
    end =
    match rest with
    | [] => (0, Some ErrSyntax)
    | _ => match ploop 0 rest with
           | (_, Some ErrSyntax) => (0, Some ErrSyntax)
           | (un, _) =>
             if negb neg && (max_int64 <? un) then (max_int64, Some ErrRange)
             else if neg && (max_int64 + 1 <? un) then (min_int64, Some ErrRange)
             else ((if neg then - un else un), None)
           end
    end).
  { intros neg [|r rest]; [reflexivity|]. rewrite ParseUint_10_64 by discriminate.
    change (2 ^ ((if 0 =? 0 then 64 else 0) - 1)) with 9223372036854775808.
    cbv zeta.
    assert (Hc : forall un, (9223372036854775808 <=? un) = (max_int64 <? un)).
    { intros un; unfold max_int64. destruct (Z.leb_spec 9223372036854775808 un), (Z.ltb_spec 9223372036854775807 un); lia. }
    destruct (ploop 0 (r :: rest)) as [un [[|]|]]; rewrite ?Hc; reflexivity. }
  destruct (Ascii.eqb c "+"); [exact (Hgen false s)|].
  destruct (Ascii.eqb c "-"); [exact (Hgen true s)|exact (Hgen false (c :: s))].
Qed.

Lemma atoi_bounds s : min_int64 <= atoi s <= max_int64.
Proof.
  unfold atoi. rewrite Atoi_unfold. destruct (split_sign s) as [neg rest].
  destruct rest as [|c rest]; [cbn; unfold min_int64, max_int64; lia|].
  pose proof (ploop_bounds (c :: rest) 0 ltac:(unfold max_uint64; lia)) as Hb.
  destruct (ploop 0 (c :: rest)) as [un [[|]|]]; cbn [fst snd] in *;
    try (unfold min_int64, max_int64; lia);
    destruct neg; cbn [negb andb];
    repeat match goal with |- context [if ?a <? ?b then _ else _] => destruct (Z.ltb_spec a b) end;
    cbn [fst]; unfold min_int64, max_int64 in *; lia.
Qed.

(** Atoi succeeds exactly on an optional sign followed by decimal digits whose value fits. *)
Lemma Atoi_ok_iff s v :
  Atoi s = (v, None) <->
  exists neg ds, split_sign s = (neg, ds) /\ ds <> [] /\ all_digits ds /\
                 v = (if neg then - dval ds else dval ds) /\ min_int64 <= v <= max_int64.
Proof.
  rewrite Atoi_unfold. destruct (split_sign s) as [neg rest]. split.
  - destruct rest as [|c rest]; [discriminate|].
    destruct (ploop 0 (c :: rest)) as [un e] eqn:E. intros H.
    destruct e as [[|]|]; [discriminate| |].
    + apply ploop_range in E; subst un. exfalso. revert H.
      destruct neg; cbn; discriminate.
    + destruct (ploop_ok (c :: rest) 0 un ltac:(lia) E) as (Ha & Hv & _).
      exists neg, (c :: rest). split; [reflexivity|]. split; [discriminate|]. split; [assumption|].
      fold (dval (c :: rest)) in Hv. pose proof (dval_nonneg _ Ha) as Hnn.
      revert H. destruct neg; cbn [negb andb];
      repeat match goal with |- context [if ?a <? ?b then _ else _] => destruct (Z.ltb_spec a b) end;
      try discriminate; intros [= <-]; subst un; (split; [reflexivity|]);
      unfold min_int64, max_int64 in *; lia.
  - intros (neg' & ds & [= <- <-] & Hne & Hd & -> & Hb).
    destruct rest as [|c rest]; [congruence|].
    pose proof (dval_nonneg _ Hd) as Hnn.
    rewrite (ploop_digits (c :: rest) 0 Hd ltac:(lia)). fold (dval (c :: rest)).
    assert (Hle : dval (c :: rest) <= max_int64 + 1).
    { destruct neg; unfold min_int64, max_int64 in *; lia. }
    destruct (Z.ltb_spec max_uint64 (dval (c :: rest))) as [H|H].
    { unfold max_uint64, max_int64 in *; lia. }
    destruct neg; cbn [negb andb].
    + destruct (Z.ltb_spec (max_int64 + 1) (dval (c :: rest))); [lia|reflexivity].
    + destruct (Z.ltb_spec max_int64 (dval (c :: rest))); [lia|reflexivity].
Qed.

Lemma split_sign_digits ds : all_digits ds -> split_sign ds = (false, ds).
Proof.
  destruct ds as [|c ds]; [reflexivity|]. intros H; inversion_clear H as [|? ? Hc _].
  cbn. destruct (Ascii.eqb_spec c "+") as [->|_]; [discriminate|].
  destruct (Ascii.eqb_spec c "-") as [->|_]; [discriminate|]. reflexivity.
Qed.

(** A string of digits: its value if it fits, else the maximum (with a range error). *)
Lemma Atoi_digits ds : all_digits ds -> ds <> [] ->
  Atoi ds = if max_int64 <? dval ds then (max_int64, Some ErrRange) else (dval ds, None).
Proof.
  intros Hd Hne. rewrite Atoi_unfold, (split_sign_digits _ Hd).
  destruct ds as [|c ds]; [congruence|].
  rewrite (ploop_digits (c :: ds) 0 Hd ltac:(lia)). fold (dval (c :: ds)).
  cbn [negb andb].
  destruct (Z.ltb_spec max_uint64 (dval (c :: ds))) as [H1|H1].
  - destruct (Z.ltb_spec max_int64 max_uint64) as [_|H]; [|unfold max_int64, max_uint64 in *; lia].
    destruct (Z.ltb_spec max_int64 (dval (c :: ds))); [reflexivity|unfold max_int64, max_uint64 in *; lia].
  - reflexivity.
Qed.

(** ** Printing *)
Lemma digit_char_code d : 0 <= d <= 9 -> zcode (digit_char d) = 48 + d.
Proof.
  intros H. unfold zcode, digit_char, code. rewrite N_ascii_embedding; lia.
Qed.
Lemma digit_char_digit d : 0 <= d <= 9 -> is_digit (digit_char d) = true.
Proof.
  intros H. pose proof (digit_char_code d H) as Hc. unfold zcode in Hc.
  unfold is_digit. rewrite andb_true_iff, !N.leb_le. lia.
Qed.

Lemma dec_loop_spec f n acc :
  0 <= n < 10 ^ Z.of_nat f -> (0 < f)%nat ->
  exists ds, dec_loop f n acc = ds ++ acc /\ ds <> [] /\ all_digits ds /\ dval ds = n /\
             (1 <= length ds <= f)%nat.
Proof.
  revert n acc; induction f as [|f IH]; intros n acc Hn Hf; [lia|].
  cbn [dec_loop].
  assert (Hm : 0 <= n mod 10 <= 9) by (pose proof (Z.mod_pos_bound n 10); lia).
  destruct (Z.eqb_spec (n / 10) 0) as [H0|H0].
  - exists [digit_char (n mod 10)]. repeat split; try discriminate; cbn [length]; try lia.
    + constructor; [now apply digit_char_digit|constructor].
    + unfold dval; cbn. unfold dstep. rewrite digit_char_code by assumption.
      pose proof (Z.div_mod n 10). lia.
  - assert (Hq : 0 <= n / 10 < 10 ^ Z.of_nat f).
    { split; [apply Z.div_pos; lia|]. apply Z.div_lt_upper_bound; [lia|].
      rewrite Nat2Z.inj_succ, Z.pow_succ_r in Hn by lia. lia. }
    assert (Hf' : (0 < f)%nat).
    { destruct f; [|lia]. cbn in Hq. lia. }
    destruct (IH (n / 10) (digit_char (n mod 10) :: acc) Hq Hf') as (ds & E & Hne & Hd & Hv & Hl).
    exists (ds ++ [digit_char (n mod 10)]). rewrite E, <- app_assoc. repeat split.
    + destruct ds; discriminate.
    + apply Forall_app; split; [assumption|]. constructor; [now apply digit_char_digit|constructor].
    + unfold dval. rewrite fold_left_app. fold (dval ds). rewrite Hv. cbn. unfold dstep.
      rewrite digit_char_code by assumption. pose proof (Z.div_mod n 10). lia.
    + rewrite app_length; cbn; lia.
    + rewrite app_length; cbn; lia.
Qed.

Lemma dec_nonneg_value n : 0 <= n ->
  dec_nonneg n <> [] /\ all_digits (dec_nonneg n) /\ dval (dec_nonneg n) = n.
Proof.
  intros Hn. unfold dec_nonneg.
  destruct (dec_loop_spec (S (Z.to_nat (Z.log2 n))) n []) as (ds & -> & Hne & Hd & Hv & _).
  - split; [assumption|]. rewrite Nat2Z.inj_succ, Z2Nat.id by apply Z.log2_nonneg.
    destruct (Z.eq_dec n 0) as [->|Hp]; [cbn; lia|].
    pose proof (Z.log2_spec n ltac:(lia)) as [_ H].
    eapply Z.lt_le_trans; [exact H|]. apply Z.pow_le_mono_l. lia.
  - lia.
  - rewrite app_nil_r. auto.
Qed.

Lemma dec_nonneg_split n : 0 <= n -> split_sign (dec_nonneg n) = (false, dec_nonneg n).
Proof. intros Hn. apply split_sign_digits. now apply dec_nonneg_value. Qed.

(** Printing then parsing is the identity on int64. *)
Lemma Atoi_Itoa z : min_int64 <= z <= max_int64 -> Atoi (Itoa z) = (z, None).
Proof.
  intros Hz. apply Atoi_ok_iff. unfold Itoa. destruct (Z.ltb_spec z 0) as [Hneg|Hpos].
  - destruct (dec_nonneg_value (- z) ltac:(lia)) as (Hne & Hd & Hv).
    exists true, (dec_nonneg (- z)). repeat split; auto; lia.
  - destruct (dec_nonneg_value z Hpos) as (Hne & Hd & Hv).
    exists false, (dec_nonneg z). rewrite dec_nonneg_split by assumption. repeat split; auto; lia.
Qed.
Lemma atoi_Itoa z : min_int64 <= z <= max_int64 -> atoi (Itoa z) = z.
Proof. intros H; unfold atoi; now rewrite Atoi_Itoa. Qed.
Lemma atoi_ok_Itoa z : min_int64 <= z <= max_int64 -> atoi_ok (Itoa z) = true.
Proof. intros H; unfold atoi_ok; now rewrite Atoi_Itoa. Qed.
Lemma Itoa_nonempty z : Itoa z <> [].
Proof.
  unfold Itoa. destruct (Z.ltb_spec z 0); [discriminate|]. now apply dec_nonneg_value.
Qed.
Lemma Itoa_inj a b :
  min_int64 <= a <= max_int64 -> min_int64 <= b <= max_int64 -> Itoa a = Itoa b -> a = b.
Proof. intros Ha Hb H. rewrite <- (atoi_Itoa a Ha), <- (atoi_Itoa b Hb), H. reflexivity. Qed.

Lemma wrap64_id z : min_int64 <= z <= max_int64 -> wrap64 z = z.
Proof. unfold wrap64, min_int64, max_int64; intros H. rewrite Z.mod_small; lia. Qed.
Lemma wrap64_bounds z : min_int64 <= wrap64 z <= max_int64.
Proof.
  unfold wrap64, min_int64, max_int64.
  pose proof (Z.mod_pos_bound (z + 9223372036854775808) 18446744073709551616 ltac:(lia)). lia.
Qed.

(** Facts about letter case beyond ASCII. *)
From Verif Require Import GoStr Utf8 LevelModel LevelSpec LevelProofs.
Local Open Scope N_scope.

Lemma code_at n : n < 256 -> code (byte_of n) = n.
Proof. intros H. unfold code, byte_of. now apply N_ascii_embedding. Qed.
Lemma encode_high r : 128 <= r -> exists b l, encode_rune r = b :: l /\ 128 <= code b.
Proof.
  intros H. unfold encode_rune. destruct (N.ltb_spec r 128); [lia|]. destruct (N.ltb_spec r 2048).
  { eexists _, _. split; [reflexivity|]. assert (Hq : r / 64 < 32) by (apply N.div_lt_upper_bound; lia). revert Hq. generalize (r / 64). intros q Hq. rewrite code_at; lia. }
  destruct (((55296 <=? r) && (r <=? 57343)) || (1114111 <? r)) eqn:E.
  { eexists _, _. split; [reflexivity|]. rewrite code_at by lia; lia. }
  apply orb_false_iff in E as [_ E]. apply N.ltb_ge in E. destruct (N.ltb_spec r 65536).
  { eexists _, _. split; [reflexivity|]. assert (Hq : r / 4096 < 16) by (apply N.div_lt_upper_bound; lia). revert Hq. generalize (r / 4096). intros q Hq. rewrite code_at; lia. }
  eexists _, _. split; [reflexivity|]. assert (Hq : r / 262144 < 5) by (apply N.div_lt_upper_bound; lia). revert Hq. generalize (r / 262144). intros q Hq. rewrite code_at; lia.
Qed.
(** A string with a byte above ASCII has a rune above ASCII. *)
Lemma range_high f : forall i s, (length s <= f)%nat -> ~ ascii_only s -> exists p, In p (range_from f i s) /\ 128 <= snd p.
Proof.
  induction f as [|f IH]; intros i [|c s] Hl Hn; cbn [length] in Hl; try lia; try (exfalso; apply Hn; solve [constructor]).
  cbn [range_from]. destruct (decode_rune (c :: s)) as [r w] eqn:E. destruct (decode_ascii _ _ _ _ E) as [Hlo _].
  destruct (N.lt_ge_cases r 128) as [Hr|Hr]; [|exists (i, r); split; [now left|assumption]].
  destruct (Hlo Hr) as [-> ->]. cbn [skipn]. assert (Hs : ~ ascii_only s) by (intros Ha; apply Hn; constructor; [exact Hr|exact Ha]).
  destruct (IH (i + 1)%nat s ltac:(lia) Hs) as (p & Hp & H). exists p. split; [now right|assumption].
Qed.
Lemma not_ascii7 s : forallb is_ascii7 s = false <-> ~ ascii_only s.
Proof.
  assert (H : forallb is_ascii7 s = true <-> ascii_only s).
  { unfold ascii_only. rewrite forallb_forall, Forall_forall. split; intros H c Hc; specialize (H c Hc); [now apply N.ltb_lt|now apply N.ltb_lt in H || apply N.ltb_lt]. }
  destruct (forallb is_ascii7 s); split; intros X; try discriminate; [| |reflexivity].
  - exfalso. apply X. now apply H.
  - intros A. apply H in A. discriminate.
Qed.
Lemma same_letter_ascii a b : same_letter a b -> (N_of_ascii a < 128 <-> N_of_ascii b < 128).
Proof. intros [->|(k & Hk & [[A B]|[A B]])]; [tauto|lia|lia]. Qed.
Lemma same_fold_ascii s n : same_fold s n -> ascii_only n -> ascii_only s.
Proof.
  unfold same_fold, ascii_only. induction 1 as [|a b s n H Hs IH]; intros A; [constructor|]. inversion_clear A as [|? ? Hb Hn].
  constructor; [now apply (same_letter_ascii a b)|auto].
Qed.

(** ** Which bytes decode to the dotless i *)
Lemma decode_dotless c s w : decode_rune (c :: s) = (305, w) -> w = 2%nat /\ exists s', c = byte_of 196 /\ s = byte_of 177 :: s'.
Proof.
  unfold decode_rune, is_cont, low6. destruct (N.ltb_spec (code c) 128) as [Hc|Hc]; [intros [= E _]; lia|].
  destruct (in_range 194 223 c) eqn:E1.
  { destruct s as [|c1 s]; [discriminate|]. destruct (in_range 128 191 c1) eqn:E2; [|discriminate]. unfold in_range in *.
    rewrite andb_true_iff, !N.leb_le in *. intros H. injection H as H <-. split; [reflexivity|]. exists s.
    assert (A : code c = 196) by lia. assert (B : code c1 = 177) by lia. split; [|f_equal]; apply code_inj; rewrite code_at by lia; lia. }
  destruct (in_range 224 239 c) eqn:E2.
  { destruct s as [|c1 [|c2 s]]; try discriminate. match goal with |- context [if ?b then _ else _] => destruct b eqn:E3; [|discriminate] end.
    unfold in_range in *; rewrite ?andb_true_iff, ?N.leb_le in *. destruct (N.eqb_spec (code c) 224); destruct (N.eqb_spec (code c) 237);
      intros H; injection H as H _; lia. }
  destruct (in_range 240 244 c) eqn:E3; [|discriminate].
  destruct s as [|c1 [|c2 [|c3 s]]]; try discriminate. match goal with |- context [if ?b then _ else _] => destruct b eqn:E4; [|discriminate] end.
  unfold in_range in *; rewrite ?andb_true_iff, ?N.leb_le in *. destruct (N.eqb_spec (code c) 240); destruct (N.eqb_spec (code c) 244);
    intros H; injection H as H _; lia.
Qed.
Lemma dotless_decodes s : decode_rune (byte_of 196 :: byte_of 177 :: s) = (305, 2%nat).
Proof. reflexivity. Qed.

(** ** Upper case *)
Lemma upper_ascii_rune c : code c < 128 -> forall up, encode_rune (to_upper_rune up (code c)) = [upper_byte c].
Proof.
  intros H up. unfold to_upper_rune, upper_byte, is_lower. destruct (N.ltb_spec (code c) 128); [|lia].
  destruct ((97 <=? code c) && (code c <=? 122)) eqn:E.
  - apply andb_true_iff in E as [E1 E2]. apply N.leb_le in E1, E2. unfold encode_rune. destruct (N.ltb_spec (code c - 32) 128); [reflexivity|lia].
  - unfold encode_rune. destruct (N.ltb_spec (code c) 128); [|lia]. f_equal. apply code_inj. now rewrite code_at by lia.
Qed.
Definition plain_name (n : str) : Prop := ascii_only n /\ Forall (fun u => is_lower u = false) n /\ ~ In "S"%char n.
Lemma plain_tail b n : plain_name (b :: n) -> plain_name n.
Proof. intros (A & B & C). inversion A; inversion B; subst. repeat split; auto. intros H. apply C. now right. Qed.
Lemma upper_spells up f : upper_table up -> forall s i n, (length s <= f)%nat -> plain_name n ->
  (flat_map (fun ir => encode_rune (to_upper_rune up (snd ir))) (range_from f i s) = n <-> spells s n).
Proof.
  intros [Hup Htab]. induction f as [|f IH]; intros [|c s] i n Hl Hn; cbn [length] in Hl; try lia; cbn [range_from flat_map].
  1,2: split; [intros <-; constructor|intros H; now inversion H].
  destruct (decode_rune (c :: s)) as [r w] eqn:E. destruct (decode_ascii _ _ _ _ E) as [Hlo Hhi]. cbn [flat_map snd].
  destruct (N.lt_ge_cases r 128) as [Hr|Hr].
  - destruct (Hlo Hr) as [-> ->]. rewrite upper_ascii_rune by assumption. cbn [app skipn]. split.
    + destruct n as [|b n]; [discriminate|]. intros [= <- H]. constructor; [apply upper_byte_same; [|reflexivity]|].
      * destruct Hn as (_ & Hn & _). now inversion Hn.
      * apply (IH s (i + 1)%nat n); [lia|now apply plain_tail in Hn|assumption].
    + intros H. inversion H as [|a b s0 n0 Hs H0|s0 n0 H0]; subst.
      * f_equal; [apply upper_byte_same; [|assumption]; destruct Hn as (_ & Hn & _); now inversion Hn|].
        apply (IH s (i + 1)%nat n0); [lia|now apply plain_tail in Hn|assumption].
      * exfalso. clear - Hr. cbv in Hr. discriminate.
  - assert (Hc : 128 <= code c).
    { specialize (Hhi Hr). pose proof (decode_width_pos c s) as Hw. rewrite E in Hw. cbn [snd] in Hw. destruct w; [lia|]. cbn in Hhi. now inversion Hhi. }
    assert (Hsp : spells (c :: s) n -> exists s' n', c = byte_of 196 /\ s = byte_of 177 :: s' /\ n = "I"%char :: n' /\ spells s' n').
    { intros H. inversion H as [|a b s0 n0 Hs H0|s0 n0 H0]; subst.
      - exfalso. destruct Hn as (Hn & _). inversion_clear Hn as [|? ? Hb _]. apply same_letter_ascii in Hs. unfold code in Hc. lia.
      - exists s0, n0. auto. }
    unfold to_upper_rune. destruct (N.ltb_spec r 128); [lia|]. destruct (N.lt_ge_cases (up r) 128) as [Hu|Hu].
    + destruct (Htab r Hr Hu) as [[-> Er]|[-> Er]]; rewrite Er.
      * apply decode_dotless in E as [-> (s' & -> & ->)]. change (encode_rune 73) with ["I"%char]. cbn [app skipn]. cbn [length] in Hl. split.
        -- destruct n as [|b n]; [discriminate|]. intros [= <- H0]. apply sp_dotless.
           apply (IH s' (i + 2)%nat n); [lia|now apply plain_tail in Hn|assumption].
        -- intros H0. destruct (Hsp H0) as (s2 & n' & _ & [= <-] & -> & H1). f_equal. apply (IH s' (i + 2)%nat n'); [lia|now apply plain_tail in Hn|assumption].
      * change (encode_rune 83) with ["S"%char]. cbn [app]. split.
        -- intros <-. exfalso. destruct Hn as (_ & _ & Hn). apply Hn. now left.
        -- intros H0. destruct (Hsp H0) as (s2 & n' & -> & -> & -> & _). rewrite dotless_decodes in E. discriminate.
    + destruct (encode_high _ Hu) as (b & l & -> & Hb). cbn [app]. split.
      * intros <-. exfalso. destruct Hn as (Hn & _). inversion_clear Hn as [|? ? Hx _]. unfold code in Hb. lia.
      * intros H0. destruct (Hsp H0) as (s2 & n' & -> & -> & -> & _). rewrite dotless_decodes in E. injection E as <- _. lia.
Qed.
Lemma fold_spells s n : ascii_only s -> (spells s n <-> same_fold s n).
Proof.
  intros Ha. split.
  - induction 1 as [|a b s n H Hs IH|s n Hs IH]; [constructor|inversion_clear Ha; constructor; auto; now apply IH|].
    exfalso. inversion_clear Ha as [|? ? H _]. cbv in H. discriminate.
  - induction 1; constructor; auto. inversion_clear Ha. auto.
Qed.
Lemma named_plain l n : named_level l n -> plain_name n.
Proof.
  intros H. split; [now apply (named_ascii l)|]. split; [now apply (named_no_lower l)|].
  destruct H; cbn; intros H; repeat (destruct H as [H|H]; [discriminate|]); exact H.
Qed.
Lemma upper_named up s n : upper_table up -> plain_name n -> (to_upper up s = n <-> spells s n).
Proof.
  intros Hup Hn. unfold to_upper. destruct (forallb is_ascii7 s) eqn:E.
  - assert (Ha : ascii_only s). { unfold ascii_only. rewrite Forall_forall. rewrite forallb_forall in E. intros c Hc. now apply N.ltb_lt, E. }
    rewrite (fold_spells s n Ha). apply map_upper_fold, Hn.
  - now apply upper_spells.
Qed.
Lemma levelFrom_spells up ord s l : Permutation ord levelStrings -> upper_table up ->
  (levelFrom_loop up ord s = l <-> (exists n, named_level l n /\ spells s n) \/ (l = 0%Z /\ forall k n, named_level k n -> ~ spells s n)).
Proof.
  intros Hp Hup. rewrite (levelFrom_order up ord s l Hp). split.
  - intros [Hn|[-> Hno]].
    + left. exists (to_upper up s). split; [assumption|]. apply (upper_named up); [assumption|now apply (named_plain l)|reflexivity].
    + right. split; [reflexivity|]. intros k n Hk Hf. apply (Hno k). apply (upper_named up) in Hf; [|assumption|now apply (named_plain k)]. now rewrite Hf.
  - intros [(n & Hn & Hf)|[-> Hno]].
    + left. apply (upper_named up) in Hf; [|assumption|now apply (named_plain l)]. now rewrite Hf.
    + right. split; [reflexivity|]. intros k Hk. apply (Hno k _ Hk). apply (upper_named up); [assumption|now apply (named_plain k)|reflexivity].
Qed.

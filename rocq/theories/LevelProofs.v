From Verif Require Import GoStr Utf8 LevelModel LevelSpec.
Local Open Scope Z_scope.

Lemma in_levelStrings l n : In (l, n) levelStrings <-> named_level l n.
Proof.
  cbn [levelStrings In]. split.
  - intros H. repeat destruct H as [H|H]; try (injection H as <- <-; constructor). destruct H.
  - intros H; destruct H; intuition.
Qed.

Lemma named_level_nonzero l n : named_level l n -> l <> 0.
Proof. intros H; destruct H; lia. Qed.
Lemma named_level_fun l1 l2 n : named_level l1 n -> named_level l2 n -> l1 = l2.
Proof. intros H1 H2; destruct H1; inversion H2; reflexivity. Qed.
Lemma named_level_inj l n1 n2 : named_level l n1 -> named_level l n2 -> n1 = n2.
Proof. intros H1 H2; destruct H1; inversion H2; reflexivity. Qed.

Lemma levelFrom_loop_spec up ord s :
  (forall l1 l2 n, In (l1, n) ord -> In (l2, n) ord -> l1 = l2) ->
  (forall l, In (l, to_upper up s) ord -> levelFrom_loop up ord s = l) /\
  ((forall l, ~ In (l, to_upper up s) ord) -> levelFrom_loop up ord s = 0).
Proof.
  induction ord as [|[k v] ord IH]; intros Hfun; cbn [levelFrom_loop].
  - split; [intros l []|reflexivity].
  - destruct (str_eqb_spec (to_upper up s) v) as [Heq|Hne].
    + split.
      * intros l Hin. apply (Hfun k l (to_upper up s)); [left; congruence|assumption].
      * intros Hno. exfalso. apply (Hno k). left; congruence.
    + destruct IH as [IH1 IH2].
      { intros l1 l2 n H1 H2. apply (Hfun l1 l2 n); right; assumption. }
      split.
      * intros l [Heq|Hin]; [congruence|auto].
      * intros Hno. apply IH2. intros l Hl. apply (Hno l). right; assumption.
Qed.

Lemma levelFrom_order up ord s l :
  Permutation ord levelStrings ->
  (levelFrom_loop up ord s = l <->
   named_level l (to_upper up s) \/ (l = 0 /\ forall k, ~ named_level k (to_upper up s))).
Proof.
  intros Hp.
  assert (Hin : forall k n, In (k, n) ord <-> named_level k n).
  { intros k n. rewrite <- in_levelStrings. split; apply Permutation_in; auto using Permutation_sym. }
  destruct (levelFrom_loop_spec up ord s) as [H1 H2].
  { intros l1 l2 n Ha Hb; apply Hin in Ha, Hb. exact (named_level_fun _ _ _ Ha Hb). }
  split.
  - intros <-.
    destruct (existsb (fun p => str_eqb (snd p) (to_upper up s)) ord) eqn:E.
    + apply existsb_exists in E as ([k n] & Hk & Hn). apply str_eqb_eq in Hn; cbn in Hn; subst n.
      left. rewrite (H1 k Hk). now apply Hin.
    + right. assert (Hno : forall k, ~ named_level k (to_upper up s)).
      { intros k Hk. apply Hin in Hk. apply not_true_iff_false in E. apply E.
        apply existsb_exists. exists (k, to_upper up s); split; [assumption|apply str_eqb_refl]. }
      split; [|assumption]. apply H2. intros k Hk. apply (Hno k), Hin, Hk.
  - intros [Hl|[-> Hno]].
    + now apply H1, Hin.
    + apply H2. intros k Hk. apply (Hno k), Hin, Hk.
Qed.

Lemma level_String_named l n : named_level l n -> level_String l = n.
Proof. intros H; destruct H; reflexivity. Qed.
Lemma level_String_unnamed l : (forall n, ~ named_level l n) -> level_String l = [].
Proof.
  intros H. unfold level_String; cbn [zlookup levelStrings].
  repeat match goal with
  | |- (if ?a =? ?b then _ else _) = _ =>
    destruct (Z.eqb_spec a b) as [->|_];
    [exfalso; eapply H; constructor|]
  end. reflexivity.
Qed.

Lemma code_inj a b : code a = code b -> a = b.
Proof. intros H; rewrite <- (ascii_N_embedding a), <- (ascii_N_embedding b). unfold code in H; congruence. Qed.
Lemma code_byte_of n : (n < 256)%N -> code (byte_of n) = n.
Proof. intros; unfold code, byte_of; now apply N_ascii_embedding. Qed.
Lemma code_lt c : (code c < 256)%N.
Proof. apply N_ascii_bounded. Qed.

(** For every byte: upper-casing it gives an upper-case letter or non-letter [u] iff it is the
    same letter as [u]. *)
Lemma upper_byte_same c u :
  is_lower u = false -> (upper_byte c = u <-> same_letter c u).
Proof.
  intros Hu. unfold upper_byte, same_letter, is_lower in *.
  fold (code c); fold (code u).
  destruct ((97 <=? code c)%N && (code c <=? 122)%N) eqn:E.
  - apply andb_true_iff in E as [E1 E2]; rewrite N.leb_le in E1, E2.
    split.
    + intros <-. right. exists (code c - 97)%N. split; [lia|]. right.
      rewrite code_byte_of; lia.
    + intros [->|(k & Hk & [[H1 H2]|[H1 H2]])].
      * exfalso. apply andb_false_iff in Hu. rewrite !N.leb_gt in Hu. lia.
      * lia.
      * apply code_inj. rewrite code_byte_of; lia.
  - apply andb_false_iff in E; rewrite !N.leb_gt in E. split.
    + intros ->; left; reflexivity.
    + intros [->|(k & Hk & [[H1 H2]|[H1 H2]])]; [reflexivity| |lia].
      exfalso. apply andb_false_iff in Hu; rewrite !N.leb_gt in Hu. lia.
Qed.


Lemma map_upper_fold s n :
  Forall (fun u => is_lower u = false) n ->
  (map upper_byte s = n <-> same_fold s n).
Proof.
  revert n; induction s as [|c s IH]; intros n Hn; cbn.
  - split; [intros <-; constructor|]. intros H; inversion H; reflexivity.
  - destruct n as [|u n]; [split; [discriminate|intros H; inversion H]|].
    inversion_clear Hn as [|? ? Hu Hn']. split.
    + intros [= H1 H2]. constructor; [now apply upper_byte_same|now apply IH].
    + intros H; inversion_clear H as [|? ? ? ? H1 H2].
      f_equal; [now apply upper_byte_same|now apply IH].
Qed.

Lemma named_no_lower l n : named_level l n -> Forall (fun u => is_lower u = false) n.
Proof. intros H; destruct H; repeat constructor. Qed.

Lemma to_upper_ascii up s : ascii_only s -> to_upper up s = map upper_byte s.
Proof.
  intros H. unfold to_upper. replace (forallb is_ascii7 s) with true; [reflexivity|].
  symmetry. apply forallb_forall. unfold ascii_only in H; rewrite Forall_forall in H.
  intros c Hc. apply N.ltb_lt. now apply H.
Qed.

Lemma named_ascii l n : named_level l n -> ascii_only n.
Proof. intros H; destruct H; repeat constructor. Qed.

Lemma same_letter_refl c : same_letter c c.
Proof. left; reflexivity. Qed.
Lemma same_fold_refl s : same_fold s s.
Proof. induction s; constructor; auto using same_letter_refl. Qed.

Lemma levelFrom_ascii up ord s l :
  Permutation ord levelStrings -> ascii_only s ->
  (levelFrom_loop up ord s = l <->
   (exists n, named_level l n /\ same_fold s n) \/
   (l = 0 /\ forall k n, named_level k n -> ~ same_fold s n)).
Proof.
  intros Hp Ha. rewrite (levelFrom_order up ord s l Hp), (to_upper_ascii up s Ha). split.
  - intros [Hn|[-> Hno]].
    + left. exists (map upper_byte s). split; [assumption|].
      apply map_upper_fold; [now apply (named_no_lower l)|reflexivity].
    + right. split; [reflexivity|]. intros k n Hk Hf. apply (Hno k).
      apply map_upper_fold in Hf; [|now apply (named_no_lower k)]. now rewrite Hf.
  - intros [(n & Hn & Hf)|[-> Hno]].
    + left. apply map_upper_fold in Hf; [|now apply (named_no_lower l)]. now rewrite Hf.
    + right. split; [reflexivity|]. intros k Hk. apply (Hno k _ Hk).
      apply map_upper_fold; [now apply (named_no_lower k)|reflexivity].
Qed.

Lemma levelFrom_string up ord l n :
  Permutation ord levelStrings -> named_level l n -> levelFrom_loop up ord n = l.
Proof.
  intros Hp Hn. apply levelFrom_ascii; [assumption|now apply (named_ascii l)|].
  left. exists n. split; [assumption|apply same_fold_refl].
Qed.

Lemma level_named_dec s : (exists k, named_level k s) \/ (forall k, ~ named_level k s).
Proof.
  destruct (in_dec str_dec s (map snd levelStrings)) as [H|H].
  - left. apply in_map_iff in H as ([k n] & <- & Hin). exists k. now apply in_levelStrings.
  - right. intros k Hk. apply H. apply in_levelStrings in Hk. apply in_map_iff. now exists (k, s).
Qed.

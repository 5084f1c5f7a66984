(** What follows from the steps of a shared log that rolls by time. *)
From Verif Require Import GoStr ConfModel RollModel RollSpec SameModel SameSpec SameProofs SameLogProofs SameTimeModel SameTimeSpec.
From Coq Require Import Sorted.
Local Open Scope Z_scope.

Lemma map_snoc A B (f : A -> B) l x : map f (l ++ [x]) = map f l ++ [f x].
Proof. apply map_app. Qed.
Ltac cases S := inversion S as [fs back at_ t0 i0 b fs1 A E|fs back at_ t0 i0 b j A|fs back at_ t0 i0 b j p h A NP BK|fs back at_ t0 i0]; subst.

Section Steps.
Variables (P : tparse) (pat : str) (m : nat -> Z).
Notation steps := (dlog_steps P pat m).
Definition tplaced (g : dlog) : Prop := forall i j p, d_at g i = Some (j, p) -> (j < length (d_files g))%nat.
Lemma tplaced_steps hs g : steps dlog_none hs g -> tplaced g.
Proof.
  intros H. remember dlog_none as g0. induction H as [g|g hs g1 t i a g2 H IH S]; subst; [intros i j p; discriminate|].
  specialize (IH eq_refl). cases S; intros k q r H1; cbn [d_files d_back d_at] in *; rewrite ?append_length, ?app_length; cbn [length]; unfold hput in H1;
    try (destruct (Nat.eqb_spec k i) as [-> |NE]).
  - injection H1 as <- <-. unfold at_end. pose proof (opened_pos fs). lia.
  - specialize (IH k q r H1). cbn in IH. destruct fs; cbn in *; lia.
  - apply (IH i q r H1).
  - apply (IH k q r H1).
  - injection H1 as <- <-. lia.
  - specialize (IH k q r H1). cbn in IH. lia.
  - discriminate.
  - apply (IH k q r H1).
Qed.
Lemma tdealt_steps hs g : steps dlog_none hs g -> dealt (puts (map snd hs)) (d_files g).
Proof.
  intros H. remember dlog_none as g0. induction H as [g|g hs g1 t i a g2 H IH S]; subst; [constructor|].
  specialize (IH eq_refl). pose proof (tplaced_steps _ _ H) as PL. rewrite map_snoc. cbn [snd]. rewrite puts_snoc.
  cases S; cbn [d_files d_at] in *.
  - apply de_put; [|unfold at_end; pose proof (opened_pos fs); lia]. destruct fs; [|exact IH]. apply (de_new _ []), IH.
  - apply de_put; [exact IH|]. apply (PL _ _ _ A).
  - change [(i, b)] with ([] ++ [(i, b)]) at 2. rewrite <- (append_end _ fs []). apply de_put; [now apply de_new|]. rewrite app_length. cbn. lia.
  - now rewrite app_nil_r.
Qed.
Definition tbehind (g : dlog) : Prop := forall i j p k, d_at g i = Some (j, p) -> (j < k)%nat -> of_writer i (nth k (d_files g) []) = [].
Lemma tbehind_step g t i a g' : dlog_step P pat m g t i a g' -> tbehind g -> tbehind g'.
Proof.
  intros S BE. cases S; intros q j0 p0 k H LT; cbn [d_files d_back d_at] in *.
  - destruct (Nat.eq_dec q i) as [-> |NE].
    + rewrite hput_same in H. injection H as <- <-. apply nth_beyond. rewrite append_length. unfold at_end in LT. lia.
    + rewrite hput_other in H by exact NE. rewrite of_append_nth by (left; apply of_other; congruence). rewrite opened_nth. apply (BE q j0 p0 k H LT).
  - destruct (Nat.eq_dec q i) as [-> |NE].
    + assert (j0 = j) as -> by congruence. rewrite of_append_nth by (right; lia). apply (BE i j p0 k H LT).
    + rewrite of_append_nth by (left; apply of_other; congruence). apply (BE q j0 p0 k H LT).
  - destruct (Nat.eq_dec q i) as [-> |NE].
    + rewrite hput_same in H. injection H as <- <-. apply nth_beyond. rewrite app_length. cbn. lia.
    + rewrite hput_other in H by exact NE. destruct (le_lt_dec (length fs) k) as [G|G].
      * rewrite app_nth2 by exact G. destruct (k - length fs)%nat as [|[|?]]; cbn; [|reflexivity|reflexivity].
        destruct (Nat.eqb_spec i q); congruence.
      * rewrite app_nth1 by exact G. apply (BE q j0 p0 k H LT).
  - destruct (Nat.eq_dec q i) as [-> |NE]; [now rewrite hput_same in H|]. rewrite hput_other in H by exact NE. apply (BE q j0 p0 k H LT).
Qed.
Lemma torder_steps hs g : steps dlog_none hs g -> tbehind g /\ forall i, of_writer i (concat (d_files g)) = of_writer i (puts (map snd hs)).
Proof.
  intros H. remember dlog_none as g0. induction H as [g|g hs g1 t i a g2 H IH S]; subst.
  - split; [intros i j k p; discriminate|reflexivity].
  - destruct (IH eq_refl) as [BE OR]. pose proof (tplaced_steps _ _ H) as PL. split; [now apply (tbehind_step _ _ _ _ _ S)|].
    intros q. rewrite map_snoc. cbn [snd]. rewrite puts_snoc, of_app, <- OR. cases S; cbn [d_files d_at] in *.
    + rewrite <- (opened_concat fs). destruct (Nat.eq_dec q i) as [-> |NE].
      * rewrite of_one. apply of_append_same; [unfold at_end; pose proof (opened_pos fs); lia|].
        intros k K. apply nth_beyond. unfold at_end in K. lia.
      * rewrite of_append_other, (of_other q i b) by congruence. now rewrite app_nil_r.
    + destruct (Nat.eq_dec q i) as [-> |NE].
      * rewrite of_one. apply of_append_same; [apply (PL _ _ _ A)|]. intros k K. apply (BE i j t k A K).
      * rewrite of_append_other, (of_other q i b) by congruence. now rewrite app_nil_r.
    + rewrite concat_app, of_app. cbn [concat]. now rewrite app_nil_r.
    + cbn. now rewrite app_nil_r.
Qed.

(** The periods that writers find over. *)
Definition moved (now : nat -> option str) (h : str * (nat * act)) : nat -> option str :=
  match snd (snd h) with Put _ => hput now (fst (snd h)) (Some (fst h)) | Renew => hput now (fst (snd h)) None end.
Fixpoint after_all (now : nat -> option str) (hs : list (str * (nat * act))) : nat -> option str :=
  match hs with [] => now | h :: hs' => after_all (moved now h) hs' end.
Lemma ended_ext hs : forall now now', (forall i, now i = now' i) -> ended now hs = ended now' hs /\ forall i, after_all now hs i = after_all now' hs i.
Proof.
  induction hs as [|(t & i & a) hs IH]; intros now now' E; [split; [reflexivity|exact E]|].
  assert (EM : forall k, moved now (t, (i, a)) k = moved now' (t, (i, a)) k).
  { intros k. unfold moved. cbn. destruct a; unfold hput; destruct (Nat.eqb k i); auto. }
  destruct (IH _ _ EM) as [I1 I2]. split; [|exact I2].
  cbn [ended]. destruct a as [b|]; [|exact I1]. rewrite <- (E i). destruct (now i) as [p|]; [|exact I1].
  destruct (str_eqb p t); [apply (IH _ _ E)|]. f_equal. exact I1.
Qed.
Lemma ended_app hs : forall now hs', ended now (hs ++ hs') = ended now hs ++ ended (after_all now hs) hs' /\
  forall i, after_all now (hs ++ hs') i = after_all (after_all now hs) hs' i.
Proof.
  induction hs as [|(t & i & a) hs IH]; intros now hs'; [split; reflexivity|].
  cbn [app ended after_all]. destruct (IH (moved now (t, (i, a))) hs') as [I1 I2]. split; [|exact I2].
  destruct a as [b|]; [|exact I1]. unfold moved in *. cbn [fst snd] in *.
  destruct (now i) as [p|] eqn:N; [|exact I1]. destruct (str_eqb_spec p t) as [-> |NE]; [|cbn [app]; f_equal; exact I1].
  assert (EX : forall k, now k = hput now i (Some t) k).
  { intros k. unfold hput. destruct (Nat.eqb_spec k i) as [-> |]; auto. }
  rewrite (proj1 (ended_ext (hs ++ hs') _ _ EX)), (proj1 (ended_ext hs _ _ EX)). exact I1.
Qed.
Notation none := (fun _ : nat => @None str).
Lemma last_at A (l : list A) x : nth_error (l ++ [x]) (length l) = Some x.
Proof. rewrite nth_error_app2 by lia. now rewrite Nat.sub_diag. Qed.
Lemma last_beyond A (l : list A) x k : (length l < k)%nat -> nth_error (l ++ [x]) k = None.
Proof. intros L. apply nth_error_None. rewrite app_length. cbn. lia. Qed.
Record counted (hs : list (str * (nat * act))) (g : dlog) : Prop := {
  co_now : forall i, option_map snd (d_at g i) = after_all none hs i;
  co_len : length (d_files g) = match puts (map snd hs) with [] => 0%nat | _ => S (length (ended none hs)) end;
  co_back : forall p j, d_back g p = Some j -> nth_error (ended none hs) j = Some p /\ forall k, (j < k)%nat -> nth_error (ended none hs) k <> Some p;
  co_all : (forall i, m i <= 0) -> forall p j, nth_error (ended none hs) j = Some p -> (forall k, (j < k)%nat -> nth_error (ended none hs) k <> Some p) ->
    d_back g p = Some j }.
Lemma counted_steps hs g : steps dlog_none hs g -> counted hs g.
Proof.
  intros H. remember dlog_none as g0. induction H as [g|g hs g1 t i a g2 H IH ST]; subst.
  - constructor; cbn; auto; [discriminate|]. intros _ p j X. now destruct j.
  - specialize (IH eq_refl). destruct IH as [CN CL CB CA]. pose proof (tplaced_steps _ _ H) as PL.
    destruct (ended_app hs none [(t, (i, a))]) as [E1 E2].
    assert (PU : (puts (map snd hs) = [] /\ length (d_files g1) = 0%nat) \/ (puts (map snd hs) <> [] /\ length (d_files g1) = S (length (ended none hs)))).
    { destruct (puts (map snd hs)); [left|right]; split; auto; discriminate. }
    assert (PA : forall b, a = Put b -> match puts (map snd (hs ++ [(t, (i, a))])) with [] => 0%nat | _ => S (length (ended none (hs ++ [(t, (i, a))]))) end = S (length (ended none (hs ++ [(t, (i, a))])))).
    { intros b ->. rewrite map_snoc. cbn [snd]. rewrite puts_snoc. destruct (puts (map snd hs)); reflexivity. }
    cases ST; cbn [d_files d_back d_at] in *.
    + assert (EN : ended none (hs ++ [(t, (i, Put b))]) = ended none hs).
      { rewrite E1. cbn [ended]. rewrite <- CN, A. cbn. apply app_nil_r. }
      constructor; cbn [d_files d_back d_at].
      * intros k. rewrite E2. cbn [after_all]. unfold moved. cbn [fst snd]. unfold hput. destruct (Nat.eqb k i); [reflexivity|apply CN].
      * rewrite (PA b eq_refl), EN, append_length. destruct PU as [[X Y]|[_ Y]].
        -- destruct fs; [|discriminate]. cbn.
           destruct (ended none hs) as [|p l] eqn:EE; [reflexivity|]. exfalso.
           (* nothing was written, so nothing has ended *)
           assert (Z0 : ended none hs = []).
           { clear -X. assert (G : forall now, (forall i, now i = None) -> ended now hs = []).
             { induction hs as [|(t & i & a) hs IH]; intros now NN; [reflexivity|]. cbn in *. destruct a; [discriminate|]. apply IH; [exact X|].
               intros k. unfold hput. destruct (Nat.eqb k i); auto. }
             apply G. reflexivity. }
           congruence.
        -- destruct fs; [discriminate|]. exact Y.
      * rewrite EN. exact CB.
      * rewrite EN. exact CA.
    + assert (EN : ended none (hs ++ [(t, (i, Put b))]) = ended none hs).
      { rewrite E1. cbn [ended]. rewrite <- CN, A. cbn. rewrite str_eqb_refl. apply app_nil_r. }
      constructor; cbn [d_files d_back d_at].
      * intros k. rewrite E2. cbn [after_all]. unfold moved. cbn [fst snd]. unfold hput. destruct (Nat.eqb_spec k i) as [-> |]; [|apply CN]. now rewrite A.
      * rewrite (PA b eq_refl), EN, append_length. destruct PU as [[_ Y]|[_ Y]]; [|exact Y]. specialize (PL _ _ _ A). cbn in PL. lia.
      * rewrite EN. exact CB.
      * rewrite EN. exact CA.
    + assert (EN : ended none (hs ++ [(t, (i, Put b))]) = ended none hs ++ [p]).
      { rewrite E1. cbn [ended]. rewrite <- CN, A. cbn. destruct (str_eqb_spec p t); [congruence|reflexivity]. }
      assert (LF : length fs = S (length (ended none hs))).
      { destruct PU as [[_ Y]|[_ Y]]; [|exact Y]. specialize (PL _ _ _ A). cbn in PL. lia. }
      constructor; cbn [d_files d_back d_at].
      * intros k. rewrite E2. cbn [after_all]. unfold moved. cbn [fst snd]. unfold hput. destruct (Nat.eqb k i); [reflexivity|apply CN].
      * rewrite (PA b eq_refl), EN, !app_length, LF. cbn. lia.
      * rewrite EN. intros q k BQ. unfold without in BQ. destruct (in_dec _ _ _) as [_|_] in BQ; [discriminate|].
        unfold at_end in BQ. rewrite LF in BQ. cbn [Nat.sub] in BQ. rewrite Nat.sub_0_r in BQ.
        destruct (str_dec q p) as [-> |NE].
        -- rewrite iput_same in BQ. injection BQ as <-. split; [apply last_at|]. intros m0 M. rewrite last_beyond by exact M. discriminate.
        -- rewrite iput_other in BQ by exact NE. apply CB in BQ as [X1 X2].
           assert (k < length (ended none hs))%nat by (apply nth_error_Some; congruence). rewrite nth_error_app1 by assumption. split; [exact X1|].
           intros m0 M. destruct (lt_eq_lt_dec (length (ended none hs)) m0) as [[L|L]|L]; [rewrite last_beyond by exact L; discriminate|subst m0; rewrite last_at; congruence|].
           rewrite nth_error_app1 by exact L. now apply X2.
      * rewrite EN. intros MZ q k X1 X2. unfold without, beyond. replace (m i <=? 0) with true by (symmetry; apply Z.leb_le, MZ). destruct (in_dec _ _ _) as [[]|_].
        unfold at_end. rewrite LF. cbn [Nat.sub]. rewrite Nat.sub_0_r. destruct (str_dec q p) as [-> |NE].
        -- rewrite iput_same. f_equal. destruct (lt_eq_lt_dec (length (ended none hs)) k) as [[L|L]|L]; [|exact L|].
           ++ rewrite last_beyond in X1 by exact L. discriminate.
           ++ destruct (X2 _ L). apply last_at.
        -- rewrite iput_other by exact NE.
           destruct (lt_eq_lt_dec (length (ended none hs)) k) as [[L|L]|L]; [rewrite last_beyond in X1 by exact L; discriminate|subst k; rewrite last_at in X1; congruence|].
           rewrite nth_error_app1 in X1 by exact L. apply (CA MZ); [exact X1|]. intros m0 M X.
           assert (m0 < length (ended none hs))%nat by (apply nth_error_Some; congruence). apply (X2 m0 M). now rewrite nth_error_app1.
    + assert (EN : ended none (hs ++ [(t, (i, Renew))]) = ended none hs) by (rewrite E1; cbn [ended]; apply app_nil_r).
      constructor; cbn [d_files d_back d_at].
      * intros k. rewrite E2. cbn [after_all]. unfold moved. cbn [fst snd]. unfold hput. destruct (Nat.eqb k i); [reflexivity|apply CN].
      * rewrite EN, map_snoc. cbn [snd]. rewrite puts_snoc, app_nil_r. exact CL.
      * rewrite EN. exact CB.
      * rewrite EN. exact CA.
Qed.

(** One period. *)
Lemma one_steps t hs g : (forall h, In h hs -> fst h = t) -> steps dlog_none hs g ->
  (forall p, d_back g p = None) /\ (d_files g = [] /\ puts (map snd hs) = [] \/ d_files g = [puts (map snd hs)]) /\
  (forall i j p, d_at g i = Some (j, p) -> j = 0%nat /\ p = t).
Proof.
  intros ON H. remember dlog_none as g0. induction H as [g|g hs g1 t' i a g2 H IH S]; subst.
  - cbn. repeat split; auto; discriminate.
  - assert (t' = t) as -> by (apply (ON (t', (i, a))), in_or_app; right; now left).
    destruct IH as (I1 & I2 & I3); [intros h I; apply ON, in_or_app; now left|reflexivity|].
    pose proof (tplaced_steps _ _ H) as PL. rewrite map_snoc. cbn [snd]. rewrite puts_snoc. cases S; cbn [d_files d_back d_at] in *.
    + assert (E : opened fs = [puts (map snd hs)]) by (destruct I2 as [[-> ->]| ->]; reflexivity). rewrite E.
      split; [exact I1|]. split; [now right|]. intros k j p. unfold hput. destruct (Nat.eqb k i); [intros [= <- <-]; auto|]. apply I3.
    + destruct (I3 _ _ _ A) as [-> _]. split; [exact I1|]. split; [|exact I3]. right. destruct I2 as [[-> _]| ->]; [|reflexivity].
      specialize (PL _ _ _ A). cbn in PL. lia.
    + destruct (I3 _ _ _ A) as [_ ->]. congruence.
    + rewrite app_nil_r. split; [exact I1|]. split; [exact I2|]. intros k j p. unfold hput. destruct (Nat.eqb k i); [discriminate|]. apply I3.
Qed.

Lemma nth_skipn A (l : list A) n k : nth_error (skipn n l) k = nth_error l (n + k).
Proof. revert l. induction n as [|n IH]; intros [|x l]; cbn; auto. now destruct k. Qed.
Lemma NoDup_skipn A (l : list A) n : NoDup l -> NoDup (skipn n l).
Proof. revert l. induction n as [|n IH]; intros [|x l] H; cbn; auto. inversion H; auto. Qed.
Lemma NoDup_app_intro A (l l' : list A) : NoDup l -> NoDup l' -> (forall x, In x l -> ~ In x l') -> NoDup (l ++ l').
Proof.
  induction l as [|x l IH]; cbn; intros H H' D; [exact H'|]. inversion H; subst. constructor.
  - intros I. apply in_app_or in I as [I|I]; [contradiction|]. apply (D x); auto.
  - apply IH; auto.
Qed.
Notation by_date := (fun a b => date P pat a <= date P pat b).
Lemma sorted_strong l : Sorted by_date l -> StronglySorted by_date l.
Proof. apply Sorted_StronglySorted. intros a b d. lia. Qed.
Lemma sorted_snoc l x : Sorted by_date l -> (forall y, In y l -> date P pat y <= date P pat x) -> Sorted by_date (l ++ [x]).
Proof.
  intros H L. apply StronglySorted_Sorted. apply sorted_strong in H. induction H as [|y l H IH F]; cbn; [repeat constructor|].
  constructor; [apply IH; intros z I; apply L; now right|]. apply Forall_app. split; [exact F|]. repeat constructor. apply L. now left.
Qed.
Lemma sorted_nth l j k a b : Sorted by_date l -> (j <= k)%nat -> nth_error l j = Some a -> nth_error l k = Some b -> date P pat a <= date P pat b.
Proof.
  intros H. apply sorted_strong in H. revert j k. induction H as [|y l H IH F]; intros [|j] [|k] L A B; cbn in *; try discriminate; try lia.
  - injection A as ->. injection B as ->. lia.
  - injection A as ->. rewrite Forall_forall in F. apply F. now apply nth_error_In in B.
  - apply (IH j k); auto. lia.
Qed.
(** The newest backups. *)
Lemma rising_snoc l x : rising P pat (l ++ [x]) -> rising P pat l.
Proof.
  intros R j k a b L A B. apply (R j k a b L); rewrite nth_error_app1; auto; apply nth_error_Some; congruence.
Qed.
Lemma rising_nodup l : rising P pat l -> NoDup l.
Proof.
  intros R. apply NoDup_nth_error. intros j k J E. destruct (lt_eq_lt_dec j k) as [[L|L]|L]; [|exact L|].
  - destruct (nth_error l j) as [a|] eqn:A; [|apply nth_error_None in A; lia]. symmetry in E. specialize (R j k a a L A E). lia.
  - destruct (nth_error l j) as [a|] eqn:A; [|apply nth_error_None in A; lia]. symmetry in E. specialize (R k j a a L E A). lia.
Qed.
Lemma newest_steps q hs g : (forall i, m i <= 0 \/ Z.of_nat q <= m i) -> steps dlog_none hs g -> rising P pat (ended none hs) ->
  (forall p, In p (ended none hs) -> dated P pat p) ->
  forall j p, nth_error (ended none hs) j = Some p -> (length (ended none hs) <= j + q)%nat -> d_back g p = Some j.
Proof.
  intros MQ H. remember dlog_none as g0. induction H as [g|g hs g1 t i a g2 H IH ST]; subst; intros RI DA j0 p0 J L.
  - now destruct j0.
  - destruct (counted_steps _ _ H) as [CN CL CB _]. specialize (IH eq_refl). pose proof (tplaced_steps _ _ H) as PL.
    destruct (ended_app hs none [(t, (i, a))]) as [E1 _].
    assert (SAME : d_back g2 = d_back g1 -> ended none (hs ++ [(t, (i, a))]) = ended none hs -> d_back g2 p0 = Some j0).
    { intros X Y. rewrite Y in *. rewrite X. now apply IH. }
    cases ST; cbn [d_files d_back d_at] in *.
    + apply SAME; [reflexivity|]. rewrite E1. cbn [ended]. rewrite <- CN, A. cbn. apply app_nil_r.
    + apply SAME; [reflexivity|]. rewrite E1. cbn [ended]. rewrite <- CN, A. cbn. rewrite str_eqb_refl. apply app_nil_r.
    + assert (EN : ended none (hs ++ [(t, (i, Put b))]) = ended none hs ++ [p]).
      { rewrite E1. cbn [ended]. rewrite <- CN, A. cbn. destruct (str_eqb_spec p t); [congruence|reflexivity]. }
      rewrite EN in *. set (e := ended none hs) in *. specialize (IH (rising_snoc _ _ RI)).
      assert (LF : length fs = S (length e)).
      { specialize (PL _ _ _ A). cbn in PL. destruct (puts (map snd hs)); [lia|]. exact CL. }
      pose proof (rising_nodup _ RI) as ND.
      assert (NPE : ~ In p e) by (apply NoDup_remove_2 in ND; now rewrite app_nil_r in ND).
      assert (BI : iput back p (Some (at_end fs)) p0 = Some j0).
      { destruct (str_dec p0 p) as [-> |NE0].
        - rewrite iput_same. f_equal. unfold at_end. rewrite LF. cbn. rewrite Nat.sub_0_r. apply (proj1 (NoDup_nth_error _) ND); [rewrite app_length; cbn; lia|].
          rewrite J. apply last_at.
        - rewrite iput_other by exact NE0. rewrite app_length in L. cbn in L.
          assert (j0 < length e)%nat.
          { destruct (lt_eq_lt_dec (length e) j0) as [[X|X]|X]; [rewrite last_beyond in J by exact X; discriminate|subst j0; rewrite last_at in J; congruence|exact X]. }
          rewrite nth_error_app1 in J by assumption. apply IH; [|exact J|lia]. intros r I. apply DA, in_or_app. now left. }
      unfold without. destruct (in_dec str_dec p0 (beyond (m i) (h ++ [p]))) as [I|_]; [exfalso|exact BI].
      unfold beyond in I. destruct (Z.leb_spec (m i) 0) as [X|X]; [destruct I|]. destruct (MQ i) as [Y|Y]; [lia|].
      destruct BK as (BK1 & BK2 & BK3).
      assert (HE : forall r, In r h -> In r e).
      { intros r I0. apply BK3 in I0 as [B0 _]. destruct (back r) as [y|] eqn:EB; [|congruence]. apply CB in EB as [EB _]. now apply nth_error_In in EB. }
      assert (NH : NoDup (h ++ [p])).
      { apply NoDup_app_intro; [exact BK1|repeat constructor; auto|]. intros r I0 [<- |[]]. apply NPE, HE, I0. }
      apply In_nth_error in I as [k K].
      assert (KL : (k < length (h ++ [p]) - Z.to_nat (m i))%nat).
      { assert (k < length (firstn (length (h ++ [p]) - Z.to_nat (m i)) (h ++ [p])))%nat by (apply nth_error_Some; congruence). rewrite firstn_length in H0. lia. }
      assert (KP : nth_error (h ++ [p]) k = Some p0).
      { rewrite <- (firstn_skipn (length (h ++ [p]) - Z.to_nat (m i)) (h ++ [p])). rewrite nth_error_app1; [exact K|]. apply nth_error_Some. congruence. }
      (* all those behind it in the list of backups are behind it among the periods *)
      assert (INC : incl (skipn (S k) (h ++ [p])) (skipn (S j0) (e ++ [p]))).
      { intros r I0. apply In_nth_error in I0 as [u U]. rewrite nth_skipn in U.
        assert (RE : In r (e ++ [p])).
        { apply nth_error_In in U. apply in_app_or in U as [U|U]; apply in_or_app; [left; now apply HE|now right]. }
        apply In_nth_error in RE as [v V].
        assert (LE : date P pat p0 <= date P pat r).
        { apply (sorted_nth (h ++ [p]) k (S k + u)%nat p0 r); [|lia|exact KP|exact U].
          apply sorted_snoc; [exact BK2|]. intros y YI. apply HE, In_nth_error in YI as [w W].
          assert (w < length e)%nat by (apply nth_error_Some; congruence).
          apply Z.lt_le_incl, (RI w (length e)); [assumption|now rewrite nth_error_app1|apply last_at]. }
        assert (NE0 : r <> p0).
        { intros ->. rewrite <- KP in U. apply (proj1 (NoDup_nth_error _) NH) in U; [lia|]. apply nth_error_Some. rewrite U, KP. discriminate. }
        destruct (lt_eq_lt_dec v j0) as [[Q|Q]|Q].
        - specialize (RI v j0 r p0 Q V J). lia.
        - subst v. congruence.
        - apply (nth_error_In _ (v - S j0)). rewrite nth_skipn. rewrite <- V. f_equal. lia. }
      apply NoDup_incl_length in INC; [|apply NoDup_skipn, NH]. rewrite !skipn_length in INC. rewrite !app_length in *. cbn in *. lia.
    + apply SAME; [reflexivity|]. rewrite E1. cbn [ended]. apply app_nil_r.
Qed.
End Steps.

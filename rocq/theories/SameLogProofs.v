(** What follows from the steps of a shared log. *)
From Verif Require Import GoStr Strconv ConfModel RollModel RollSpec SameModel SameSpec SameProofs.
Local Open Scope Z_scope.

Section Log.
Variables (limit m : nat -> Z).

Lemma puts_snoc hs i a : puts (hs ++ [(i, a)]) = puts hs ++ match a with Put b => [(i, b)] | Renew => [] end.
Proof. induction hs as [|[k [b|]] hs IH]; cbn; [now destruct a| |]; now rewrite IH. Qed.
Lemma opened_last fs : fs <> [] -> opened fs = fs.
Proof. now destruct fs. Qed.
Lemma opened_pos fs : (0 < length (opened fs))%nat.
Proof. destruct fs; cbn; lia. Qed.
Lemma append_end A (l : list (list A)) x b : append_at (l ++ [x]) (length l) b = l ++ [x ++ b].
Proof. replace (length l) with (length l + 0)%nat by lia. rewrite append_app. reflexivity. Qed.

(** Where writers are. *)
Definition placed (g : slog) : Prop := forall i j, g_at g i = Some j -> (j < length (g_files g))%nat.
Lemma placed_step g i a g' : slog_step limit m g i a g' -> placed g -> placed g'.
Proof.
  intros S PL. inversion S as [fs gone at_ sz i0 b fs1 A E|fs gone at_ sz i0 b j A L|fs gone at_ sz i0 b j A L|fs gone at_ sz i0]; subst;
    intros k q H; cbn in *; rewrite ?append_length, ?app_length; cbn [length]; unfold hput in H; destruct (Nat.eqb_spec k i) as [-> |NE]; cbn in *.
  - injection H as <-. unfold at_end. pose proof (opened_pos fs). lia.
  - specialize (PL k q H). cbn in PL. destruct fs; cbn in *; lia.
  - apply (PL i q H).
  - apply (PL k q H).
  - injection H as <-. lia.
  - specialize (PL k q H). cbn in PL. lia.
  - discriminate.
  - apply (PL k q H).
Qed.
Lemma placed_steps hs g : slog_steps limit m slog_none hs g -> placed g.
Proof.
  intros H. remember slog_none as g0. induction H as [g|g hs g1 i a g2 H IH S]; [subst; intros i j; discriminate|].
  apply (placed_step _ _ _ _ S), IH. assumption.
Qed.

(** Every chunk is in one file. *)
Lemma dealt_step l g i a g' : slog_step limit m g i a g' -> placed g -> dealt l (g_files g) ->
  dealt (l ++ match a with Put b => [(i, b)] | Renew => [] end) (g_files g').
Proof.
  intros S PL D. inversion S as [fs gone at_ sz i0 b fs1 A E|fs gone at_ sz i0 b j A L|fs gone at_ sz i0 b j A L|fs gone at_ sz i0]; subst; cbn in *.
  - apply de_put; [|unfold at_end; pose proof (opened_pos fs); lia]. destruct fs; [|exact D]. apply (de_new _ []), D.
  - apply de_put; [exact D|]. apply (PL _ _ A).
  - change [(i, b)] with ([] ++ [(i, b)]) at 2. rewrite <- (append_end _ fs []). apply de_put; [now apply de_new|]. rewrite app_length. cbn. lia.
  - now rewrite app_nil_r.
Qed.
Lemma dealt_steps hs g : slog_steps limit m slog_none hs g -> dealt (puts hs) (g_files g).
Proof.
  intros H. remember slog_none as g0. induction H as [g|g hs g1 i a g2 H IH S]; subst; [constructor|].
  rewrite puts_snoc. apply (dealt_step _ _ _ _ _ S); [|now apply IH]. now apply (placed_steps hs).
Qed.

(** Every writer's chunks are in order. *)
Lemma of_app i l l' : of_writer i (l ++ l') = of_writer i l ++ of_writer i l'.
Proof. apply filter_app. Qed.
Lemma of_one i b : of_writer i [(i, b)] = [(i, b)].
Proof. unfold of_writer. cbn. now rewrite Nat.eqb_refl. Qed.
Lemma of_other i k b : k <> i -> of_writer i [(k, b)] = [].
Proof. intros H. unfold of_writer. cbn. destruct (Nat.eqb_spec k i); congruence. Qed.
Definition behind (g : slog) : Prop := forall i j k, g_at g i = Some j -> (j < k)%nat -> of_writer i (nth k (g_files g) []) = [].
Lemma of_append_other i k b (fs : list (list (nat * str))) j : k <> i ->
  of_writer i (concat (append_at fs j [(k, b)])) = of_writer i (concat fs).
Proof.
  intros NE. revert j. induction fs as [|x fs IH]; intros [|j]; cbn [append_at concat]; auto; rewrite !of_app.
  - rewrite (of_other i k b NE). now rewrite app_nil_r.
  - now rewrite IH.
Qed.
Lemma of_none i (fs : list (list (nat * str))) : (forall k, of_writer i (nth k fs []) = []) -> of_writer i (concat fs) = [].
Proof.
  induction fs as [|x fs IH]; intros H; [reflexivity|]. cbn [concat]. rewrite of_app, (H 0%nat : of_writer i x = []), IH; [reflexivity|]. intros k. apply (H (S k)).
Qed.
Lemma of_append_same i b (fs : list (list (nat * str))) j : (j < length fs)%nat ->
  (forall k, (j < k)%nat -> of_writer i (nth k fs []) = []) ->
  of_writer i (concat (append_at fs j [(i, b)])) = of_writer i (concat fs) ++ [(i, b)].
Proof.
  revert j. induction fs as [|x fs IH]; intros [|j] L H; cbn [append_at concat length] in *; try lia; rewrite !of_app.
  - rewrite of_one, (of_none i fs); [now rewrite !app_nil_r|]. intros k. apply (H (S k)). lia.
  - rewrite IH; [now rewrite app_assoc|lia|]. intros k K. apply (H (S k)). lia.
Qed.
Lemma nth_beyond (fs : list (list (nat * str))) i k : (length fs <= k)%nat -> of_writer i (nth k fs []) = [].
Proof. intros L. now rewrite nth_overflow. Qed.
Lemma of_append_nth i x (fs : list (list (nat * str))) j k : of_writer i [x] = [] \/ k <> j ->
  of_writer i (nth k (append_at fs j [x]) []) = of_writer i (nth k fs []).
Proof.
  intros [E|NE]; [|now rewrite append_other]. destruct (Nat.eq_dec k j) as [-> |NE]; [|now rewrite append_other].
  destruct (le_lt_dec (length fs) j) as [L|L]; [rewrite !nth_overflow; auto; now rewrite append_length|].
  rewrite append_same by exact L. now rewrite of_app, E, app_nil_r.
Qed.
Lemma opened_nth fs k : nth k (opened fs) [] = nth k fs [].
Proof. destruct fs; [|reflexivity]. destruct k as [|[|k]]; reflexivity. Qed.
Lemma opened_concat fs : concat (opened fs) = concat fs.
Proof. now destruct fs. Qed.
Lemma behind_step g i a g' : slog_step limit m g i a g' -> placed g -> behind g -> behind g'.
Proof.
  intros S PL BE. inversion S as [fs gone at_ sz i0 b fs1 A E|fs gone at_ sz i0 b j A L|fs gone at_ sz i0 b j A L|fs gone at_ sz i0]; subst;
    intros q j0 k H LT; cbn [g_files g_gone g_at g_size] in *.
  - destruct (Nat.eq_dec q i) as [-> |NE].
    + rewrite hput_same in H. injection H as <-. apply nth_beyond. rewrite append_length. unfold at_end in LT. lia.
    + rewrite hput_other in H by exact NE. rewrite of_append_nth by (left; apply of_other; congruence). rewrite opened_nth. apply (BE q j0 k H LT).
  - destruct (Nat.eq_dec q i) as [-> |NE].
    + assert (j0 = j) as -> by congruence. rewrite of_append_nth by (right; lia). apply (BE i j k H LT).
    + rewrite of_append_nth by (left; apply of_other; congruence). apply (BE q j0 k H LT).
  - destruct (Nat.eq_dec q i) as [-> |NE].
    + rewrite hput_same in H. injection H as <-. apply nth_beyond. rewrite app_length. cbn. lia.
    + rewrite hput_other in H by exact NE. destruct (le_lt_dec (length fs) k) as [G|G].
      * rewrite app_nth2 by exact G. destruct (k - length fs)%nat as [|[|?]]; cbn; [|reflexivity|reflexivity].
        destruct (Nat.eqb_spec i q); congruence.
      * rewrite app_nth1 by exact G. apply (BE q j0 k H LT).
  - destruct (Nat.eq_dec q i) as [-> |NE]; [now rewrite hput_same in H|]. rewrite hput_other in H by exact NE. apply (BE q j0 k H LT).
Qed.
Lemma order_steps hs g : slog_steps limit m slog_none hs g -> behind g /\ forall i, of_writer i (concat (g_files g)) = of_writer i (puts hs).
Proof.
  intros H. remember slog_none as g0. induction H as [g|g hs g1 i a g2 H IH S]; subst.
  - split; [intros i j k; discriminate|reflexivity].
  - destruct (IH eq_refl) as [BE OR]. pose proof (placed_steps _ _ H) as PL. split; [now apply (behind_step _ _ _ _ S)|].
    intros q. rewrite puts_snoc, of_app, <- OR.
    inversion S as [fs gone at_ sz i0 b fs1 A E|fs gone at_ sz i0 b j A L|fs gone at_ sz i0 b j A L|fs gone at_ sz i0]; subst; cbn [g_files] in *.
    + rewrite <- (opened_concat fs). destruct (Nat.eq_dec q i) as [-> |NE].
      * rewrite of_one. apply of_append_same; [unfold at_end; pose proof (opened_pos fs); lia|].
        intros k K. apply nth_beyond. unfold at_end in K. lia.
      * rewrite of_append_other, (of_other q i b) by congruence. now rewrite app_nil_r.
    + destruct (Nat.eq_dec q i) as [-> |NE].
      * rewrite of_one. apply of_append_same; [apply (PL _ _ A)|]. intros k K. apply (BE i j k A K).
      * rewrite of_append_other, (of_other q i b) by congruence. now rewrite app_nil_r.
    + rewrite concat_app, of_app. cbn [concat]. now rewrite app_nil_r.
    + cbn. now rewrite app_nil_r.
Qed.

(** What retention leaves. *)
Lemma gone_steps q hs g : (forall i, m i <= 0 \/ Z.of_nat q <= m i) -> slog_steps limit m slog_none hs g ->
  g_gone g = 0%nat \/ (g_gone g + q < length (g_files g))%nat.
Proof.
  intros M H. remember slog_none as g0. induction H as [g|g hs g1 i a g2 H IH S]; subst; [now left|]. specialize (IH eq_refl).
  inversion S as [fs gone at_ sz i0 b fs1 A E|fs gone at_ sz i0 b j A L|fs gone at_ sz i0 b j A L|fs gone at_ sz i0]; subst; cbn [g_gone g_files] in *;
    rewrite ?append_length, ?app_length; cbn [length]; try assumption.
  - destruct fs; cbn in *; lia.
  - destruct (Z.leb_spec (m i) 0); [lia|]. destruct (M i); lia.
Qed.
Lemma kept_steps hs g : (forall i, m i <= 0) -> slog_steps limit m slog_none hs g -> g_gone g = 0%nat.
Proof.
  intros M H. remember slog_none as g0. induction H as [g|g hs g1 i a g2 H IH S]; subst; [reflexivity|]. specialize (IH eq_refl).
  inversion S; subst; cbn [g_gone g_files] in *; auto. destruct (Z.leb_spec (m i) 0); [exact IH|]. specialize (M i). lia.
Qed.

(** No roll below the limits. *)
Lemma text_size l x : size_of (l ++ x) = size_of l + size_of x.
Proof. unfold size_of. rewrite text_app, app_length. lia. Qed.
Lemma size_nonneg l : 0 <= size_of l.
Proof. unfold size_of. lia. Qed.
Lemma small_steps hs g : slog_steps limit m slog_none hs g -> (forall i, size_of (puts hs) < limit i) ->
  g_gone g = 0%nat /\ (g_files g = [] /\ puts hs = [] \/ g_files g = [puts hs]) /\ forall i, g_at g i <> None -> g_size g i <= size_of (puts hs).
Proof.
  intros H. remember slog_none as g0. induction H as [g|g hs g1 i a g2 H IH S]; subst; intros LI.
  - cbn. repeat split; auto. congruence.
  - rewrite puts_snoc in *. assert (LI1 : forall k, size_of (puts hs) < limit k).
    { intros k. specialize (LI k). rewrite text_size in LI. pose proof (size_nonneg (match a with Put b => [(i, b)] | Renew => [] end)). lia. }
    destruct (IH eq_refl LI1) as (G & FI & SZ). pose proof (placed_steps _ _ H) as PL.
    assert (S1 : forall b, size_of [(i, b)] = Z.of_nat (length b)) by (intros b; unfold size_of; now rewrite text_one).
    inversion S as [fs gone at_ sz i0 b fs1 A E|fs gone at_ sz i0 b j A L|fs gone at_ sz i0 b j A L|fs gone at_ sz i0]; subst; cbn [g_files g_gone g_at g_size] in *; try (split; [exact G|]).
    + rewrite text_size, S1. assert (E : opened fs = [puts hs]) by (destruct FI as [[-> ->]| ->]; reflexivity). rewrite E. split; [right; reflexivity|].
      intros k N. destruct (Nat.eq_dec k i) as [-> |NE]; [rewrite hput_same; cbn; lia|]. rewrite hput_other in N |- * by exact NE. specialize (SZ k N). lia.
    + rewrite text_size, S1. destruct FI as [[-> _]| ->]; [specialize (PL _ _ A); cbn in PL; lia|].
      assert (j = 0%nat) as -> by (specialize (PL _ _ A); cbn in PL; lia). split; [right; reflexivity|].
      intros k N. specialize (SZ k N). destruct (Nat.eq_dec k i) as [-> |NE]; [rewrite hput_same; lia|]. rewrite hput_other by exact NE. lia.
    + exfalso. specialize (SZ i ltac:(congruence)). specialize (LI1 i). lia.
    + rewrite app_nil_r. split; [exact FI|]. intros k N. apply SZ. destruct (Nat.eq_dec k i) as [-> |NE]; [now rewrite hput_same in N|].
      now rewrite hput_other in N.
Qed.

(** A single writer makes segments. *)
Lemma alone_steps i hs g : 0 < limit i -> (forall k a, In (k, a) hs -> k = i /\ a <> Renew) -> slog_steps limit m slog_none hs g ->
  hs = [] /\ g = slog_none \/
  exists fs cur, g_files g = fs ++ [cur] /\ segments (limit i) (map snd (puts hs)) (map (map snd) fs) (map snd cur) /\
    g_at g i = Some (length fs) /\ g_size g i = size_of cur.
Proof.
  intros PO ON H. remember slog_none as g0. induction H as [g|g hs g1 k a g2 H IH S]; subst; [now left|]. right.
  destruct (ON k a ltac:(apply in_or_app; right; now left)) as [-> NR].
  assert (ON' : forall k a, In (k, a) hs -> k = i /\ a <> Renew) by (intros k a' I; apply ON, in_or_app; now left).
  rewrite puts_snoc, map_app. assert (S1 : forall b, size_of [(i, b)] = Z.of_nat (length b)) by (intros b; unfold size_of; now rewrite text_one).
  assert (SS : forall l, size (map snd l) = size_of l) by reflexivity.
  destruct (IH ON' eq_refl) as [[-> ->]|(fs0 & cur & EF & SG & AT & SZ)].
  - inversion S as [fs gone at_ sz i0 b fs1 A E|fs gone at_ sz i0 b j A L|fs gone at_ sz i0 b j A L|fs gone at_ sz i0]; subst; try discriminate; [|congruence].
    exists [], [(i, b)]. cbn. rewrite !hput_same. split; [reflexivity|]. split; [|split; [reflexivity|rewrite S1; reflexivity]].
    apply (sg_more (limit i) [] [] [] b); [constructor|exact PO].
  - destruct g1 as [fs gone at_ sz]. cbn in EF, AT, SZ. subst fs.
    inversion S as [fs gone' at' sz' i0 b fs1 A E|fs gone' at' sz' i0 b j A L|fs gone' at' sz' i0 b j A L|fs gone' at' sz' i0]; subst; [congruence| | |congruence].
    + assert (j = length fs0) as -> by congruence. exists fs0, (cur ++ [(i, b)]). cbn. rewrite append_end, hput_same, map_app, text_size, S1, <- SZ.
      split; [reflexivity|]. split; [|auto]. apply sg_more; [exact SG|]. rewrite SS. lia.
    + exists (fs0 ++ [cur]), [(i, b)]. cbn. rewrite !hput_same, S1. split; [reflexivity|]. split; [|auto].
      rewrite map_app. apply sg_roll; [exact SG|]. rewrite SS. lia.
Qed.

(** How much of one writer is in one file. *)
Definition modest (g : slog) : Prop :=
  (forall k i l x, of_writer i (nth k (g_files g) []) = l ++ [x] -> size_of l < limit i) /\
  (forall i, match g_at g i with
             | None => forall k, of_writer i (nth k (g_files g) []) = []
             | Some j => size_of (of_writer i (nth j (g_files g) [])) <= g_size g i
             end).
Lemma size_one i b : size_of [(i, b)] = Z.of_nat (length b).
Proof. unfold size_of. now rewrite text_one. Qed.
Lemma snoc_nil A (x y : A) l : [x] = l ++ [y] -> l = [] /\ y = x.
Proof. destruct l as [|z [|? ?]]; cbn; intros E; inversion E; auto. Qed.
Lemma modest_step g i a g' : (forall k, 0 < limit k) -> a <> Renew -> slog_step limit m g i a g' -> placed g -> behind g -> modest g -> modest g'.
Proof.
  intros PO NR S PL BE [M1 M2].
  assert (APP : forall fs j b, (j < length fs)%nat -> (forall k, nth k fs [] = nth k (g_files g) []) ->
    size_of (of_writer i (nth j (g_files g) [])) < limit i ->
    forall k q l x, of_writer q (nth k (append_at fs j [(i, b)]) []) = l ++ [x] -> size_of l < limit q).
  { intros fs j b L E SZ k q l x H. destruct (Nat.eq_dec q i) as [-> |NE].
    - destruct (Nat.eq_dec k j) as [-> |NK].
      + rewrite append_same in H by exact L. rewrite of_app, of_one in H. apply app_inj_tail in H as [<- _]. now rewrite E.
      + rewrite append_other in H by exact NK. rewrite E in H. apply (M1 _ _ _ _ H).
    - rewrite of_append_nth, E in H by (left; apply of_other; congruence). apply (M1 _ _ _ _ H). }
  inversion S as [fs gone at_ sz i0 b fs1 A E|fs gone at_ sz i0 b j A L|fs gone at_ sz i0 b j A L|fs gone at_ sz i0]; subst; [| | |congruence];
    cbn [g_files g_gone g_at g_size] in *.
  - pose proof (M2 i) as MI. rewrite A in MI. assert (LE : (at_end (opened fs) < length (opened fs))%nat) by (unfold at_end; pose proof (opened_pos fs); lia).
    split; cbn [g_files g_gone g_at g_size].
    + apply APP; [exact LE|apply opened_nth|]. rewrite MI. apply PO.
    + intros q. destruct (Nat.eq_dec q i) as [-> |NE].
      * rewrite !hput_same. rewrite append_same by exact LE. rewrite of_app, of_one, opened_nth, MI. cbn [app]. rewrite size_one.
        pose proof (size_nonneg (last (opened fs) [])). lia.
      * rewrite !hput_other by exact NE. specialize (M2 q). destruct (at_ q) as [j|].
        -- rewrite of_append_nth, opened_nth by (left; apply of_other; congruence). exact M2.
        -- intros k. rewrite of_append_nth, opened_nth by (left; apply of_other; congruence). apply M2.
  - pose proof (M2 i) as MI. rewrite A in MI. pose proof (PL _ _ A) as LE. cbn in LE. split; cbn [g_files g_gone g_at g_size].
    + apply APP; [exact LE|reflexivity|]. lia.
    + intros q. destruct (Nat.eq_dec q i) as [-> |NE].
      * rewrite A, hput_same. rewrite append_same by exact LE. rewrite of_app, of_one, text_size, size_one. lia.
      * rewrite hput_other by exact NE. specialize (M2 q). destruct (at_ q) as [j0|].
        -- rewrite of_append_nth by (left; apply of_other; congruence). exact M2.
        -- intros k. rewrite of_append_nth by (left; apply of_other; congruence). apply M2.
  - assert (NX : forall q k, of_writer q (nth k (fs ++ [[(i, b)]]) []) = of_writer q (nth k fs []) \/ k = length fs /\ q = i /\ of_writer q (nth k (fs ++ [[(i, b)]]) []) = [(i, b)]).
    { intros q k. destruct (le_lt_dec (length fs) k) as [G|G]; [|left; now rewrite app_nth1].
      rewrite app_nth2 by exact G. destruct (k - length fs)%nat as [|[|d]] eqn:D; cbn [nth]; [|left; now rewrite nth_overflow..].
      destruct (Nat.eq_dec q i) as [-> |NE]; [right; repeat split; [lia|apply of_one]|]. left.
      rewrite nth_overflow by exact G. now rewrite of_other by congruence. }
    split; cbn [g_files g_gone g_at g_size].
    + intros k q l x H. destruct (NX q k) as [E|(_ & -> & E)]; rewrite E in H; [apply (M1 _ _ _ _ H)|].
      apply snoc_nil in H as [-> _]. apply PO.
    + intros q. destruct (Nat.eq_dec q i) as [-> |NE].
      * rewrite !hput_same. destruct (NX i (length fs)) as [E|(_ & _ & E)]; rewrite E; [|rewrite size_one; lia].
        rewrite nth_overflow by lia. cbn. lia.
      * rewrite !hput_other by exact NE. specialize (M2 q). destruct (at_ q) as [j0|].
        -- destruct (NX q j0) as [E|(_ & X & _)]; [now rewrite E|congruence].
        -- intros k. destruct (NX q k) as [E|(_ & X & _)]; [now rewrite E|congruence].
Qed.
Lemma modest_steps hs g : (forall k, 0 < limit k) -> (forall k, ~ In (k, Renew) hs) -> slog_steps limit m slog_none hs g -> modest g.
Proof.
  intros PO NR H. remember slog_none as g0. induction H as [g|g hs g1 i a g2 H IH S]; subst.
  - split; cbn.
    + intros k i l x E. destruct k; cbn in E; destruct l; discriminate.
    + intros i k. now destruct k.
  - destruct (order_steps _ _ H) as [BE _]. apply (modest_step _ _ _ _ PO) with (2 := S).
    + intros ->. apply (NR i). apply in_or_app. right. now left.
    + now apply (placed_steps hs).
    + exact BE.
    + apply IH; [|reflexivity]. intros k I. apply (NR k). apply in_or_app. now left.
Qed.
(** So a file is not much larger than all limits together. *)
Lemma sum_size n (f : list (nat * str)) : (forall i b, In (i, b) f -> (i < n)%nat) -> size_of f = sum_to n (fun i => size_of (of_writer i f)).
Proof.
  intros H. assert (Z0 : forall k, sum_to k (fun i => size_of (of_writer i [])) = 0) by (intros k; induction k; cbn in *; lia).
  induction f as [|[i b] f IH] using rev_ind; [now rewrite Z0|].
  rewrite text_size, size_one, IH by (intros k b' I; apply (H k b'), in_or_app; now left).
  specialize (H i b ltac:(apply in_or_app; right; now left)). clear IH Z0.
  assert (LO : forall k, (k <= i)%nat -> sum_to k (fun q => size_of (of_writer q (f ++ [(i, b)]))) = sum_to k (fun q => size_of (of_writer q f))).
  { intros k. induction k as [|k IHk]; cbn [sum_to]; intros L; [reflexivity|]. rewrite IHk by lia. rewrite of_app, of_other by lia. now rewrite app_nil_r. }
  induction n as [|n IHn]; [lia|]. cbn [sum_to]. destruct (Nat.eq_dec n i) as [-> |NE].
  - rewrite LO by lia. rewrite of_app, of_one, text_size, size_one. lia.
  - rewrite of_app, (of_other n i b) by congruence. rewrite app_nil_r. rewrite <- IHn by lia. lia.
Qed.
Lemma sum_le n g h : (forall i, (i < n)%nat -> g i <= h i) -> sum_to n g <= sum_to n h.
Proof. intros H. induction n as [|n IH]; cbn; [lia|]. specialize (H n ltac:(lia)) as H1. assert (sum_to n g <= sum_to n h) by (apply IH; intros i L; apply H; lia). lia. Qed.
Lemma modest_file n k g : modest g -> (forall i, 0 < limit i) -> (forall f i b, In f (g_files g) -> In (i, b) f -> (i < n)%nat /\ Z.of_nat (length b) <= k) ->
  0 <= k -> forall f, In f (g_files g) -> size_of f <= sum_to n (fun i => limit i + k).
Proof.
  intros [M1 _] PO H K0 f I. rewrite (sum_size n f) by (intros i b J; apply (H f i b I J)). apply sum_le. intros i L.
  destruct (In_nth _ _ [] I) as (q & _ & E). specialize (M1 q i). rewrite E in M1.
  destruct (of_writer i f) as [|x l] eqn:O using rev_ind; [cbn; specialize (PO i); lia|]. clear IHl.
  specialize (M1 l x eq_refl). rewrite text_size. assert (In x f) as J.
  { assert (In x (of_writer i f)) as J by (rewrite O; apply in_or_app; right; now left). apply filter_In in J. apply J. }
  destruct x as [i' b]. destruct (H f i' b I J). rewrite size_one. lia.
Qed.
End Log.

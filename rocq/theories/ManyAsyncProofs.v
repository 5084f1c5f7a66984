(** Several goroutines and the channel of an asynchronous output: when all have logged, one closes it. *)
From Verif Require Import GoStr EventModel LayoutModel WorldModel WorldBase AsyncModel AsyncSpec AsyncProofs AsyncEndProofs ManySpec ManyProofs.
Local Open Scope Z_scope.

(** The calls of a goroutine, begun and to come. *)
Definition call_of (i : nat) (l : label) : list call := match l with Call j c => if Nat.eqb i j then [c] else [] | _ => [] end.
Definition callf i := flat_map (call_of i).
Lemma begun C progs tr s : areach C progs tr s -> forall i p todo, nth_error (a_threads s) i = Some (mkTh p todo) ->
  nth_error progs i = Some (callf i tr ++ todo).
Proof.
  induction 1 as [|tr s c l s' R IH H]; intros i p todo N.
  - cbn in N. rewrite nth_error_map in N. destruct (nth_error progs i) as [cs|]; [|discriminate]. injection N as <- <-. reflexivity.
  - unfold callf. rewrite flat_map_app. cbn. rewrite app_nil_r. apply anext_step in H as [_ [(k & -> & H)|H]].
    + destruct (Nat.eq_dec i k) as [->|D].
      * destruct (tstep_at _ _ _ _ _ H) as (p0 & todo0 & p1 & todo1 & N0 & N1). rewrite N in N1. injection N1 as <- <-.
        specialize (IH _ _ _ N0). rewrite IH. f_equal. unfold callf. rewrite <- app_assoc. f_equal.
        clear IH. inversion H; subst; (rewrite th_set with (1 := H0) in N || (cbn in N; rewrite nth_upd_eq with (1 := H0) in N));
          rewrite ?Nat.eqb_refl in N; rewrite H0 in N0; injection N0 as <- <-; injection N as <- <-; cbn; rewrite ?Nat.eqb_refl; reflexivity.
      * rewrite (tstep_other _ _ _ _ _ _ H D) in N. rewrite (IH _ _ _ N). f_equal. unfold callf. f_equal.
        inversion H; subst; cbn; try (rewrite (proj2 (Nat.eqb_neq i k) D)); now rewrite app_nil_r.
    + rewrite (wstep_threads _ _ _ _ H) in N. rewrite (IH _ _ _ N). inversion H; subst; cbn; now rewrite app_nil_r.
Qed.
Lemma sub_length {A} (a b : list A) : sublist a b -> (length a <= length b)%nat.
Proof. induction 1; cbn; lia. Qed.
Lemma sub_all {A} (a b : list A) : sublist a b -> length a = length b -> a = b.
Proof.
  induction 1 as [b|x a b S IH|x a b S IH]; cbn; intros L.
  - destruct b; [reflexivity|discriminate].
  - f_equal. apply IH. lia.
  - apply sub_length in S. lia.
Qed.
Lemma callf_sends i tr : forall es, callf i tr = map CSend es -> forall j, j = i -> ~ In (Call j CClose) tr.
Proof.
  intros es E j -> I. assert (X : In CClose (callf i tr)).
  { unfold callf. apply in_flat_map. exists (Call i CClose). split; [exact I|]. cbn. rewrite Nat.eqb_refl. now left. }
  rewrite E in X. apply in_map_iff in X as (e & X & _). discriminate.
Qed.
Lemma sendsf_map es : sendsf (map CSend es) = es.
Proof. induction es as [|e es IH]; [reflexivity|]. cbn. now f_equal. Qed.
Lemma sendsf_app a b : sendsf (a ++ b) = sendsf a ++ sendsf b.
Proof. apply flat_map_app. Qed.

(** The goroutines: all log; the last one closes when all have finished. *)
Definition progs_of (others : list (list event)) (main : list event) : list (list call) :=
  map (map CSend) others ++ [map CSend main ++ [CClose]].
Lemma progs_nth others main k cs : nth_error (progs_of others main) k = Some cs ->
  exists es, nth_error (others ++ [main]) k = Some es /\ sendsf cs = es /\
    ((k < length others)%nat /\ cs = map CSend es \/ k = length others /\ cs = map CSend es ++ [CClose]).
Proof.
  unfold progs_of. intros N. destruct (Nat.lt_ge_cases k (length others)) as [L|L].
  - rewrite nth_error_app1 in N by (now rewrite map_length). rewrite nth_error_app1 by exact L.
    rewrite nth_error_map in N. destruct (nth_error others k) as [es|]; [|discriminate]. injection N as <-.
    exists es. split; [reflexivity|]. split; [apply sendsf_map|auto].
  - rewrite nth_error_app2 in N by (now rewrite map_length). rewrite nth_error_app2 by exact L. rewrite map_length in N.
    destruct (k - length others)%nat as [|j] eqn:J; [|destruct j; discriminate]. injection N as <-. exists main.
    split; [reflexivity|]. split; [rewrite sendsf_app, sendsf_map; cbn; apply app_nil_r|]. right. split; [lia|reflexivity].
Qed.
Lemma nothing_left C others main tr1 s1 : areach C (progs_of others main) tr1 s1 ->
  (forall j, ~ In (Call j CClose) tr1) -> (forall k es, nth_error (others ++ [main]) k = Some es -> returned k tr1 es) ->
  forall k p todo, nth_error (a_threads s1) k = Some (mkTh p todo) ->
  p = Idle /\ todo = (if Nat.eqb k (length others) then [CClose] else []) /\ exists es, nth_error (others ++ [main]) k = Some es /\ fromf k tr1 = es.
Proof.
  intros R NC RT k p todo N. pose proof (begun _ _ _ _ R _ _ _ N) as B.
  destruct (progs_nth _ _ _ _ B) as (es & NE & SE & CS).
  pose proof (returned_det _ _ _ _ (RT _ _ NE) (retf_spec k tr1)) as E1.
  pose proof (returned_accepted _ _ _ _ R NC _ _ _ N) as E2. rewrite <- E1 in E2.
  destruct (own_order _ _ _ _ R _ _ _ N) as (cs & dn & N' & E & SL). rewrite B in N'. injection N' as <-.
  rewrite SE in E. pose proof (sub_length _ _ SL) as LN. apply (f_equal (@length _)) in E as LE. rewrite !app_length in LE.
  rewrite E2, app_length in LN.
  assert (PE : (length (match p with SRet e => [e] | _ => [] end) = 0)%nat /\ length (pend p) = 0%nat /\ length (sendsf todo) = 0%nat) by lia.
  destruct PE as (Z1 & Z2 & Z3). destruct (before_close _ _ _ _ R NC) as (_ & CA & _). pose proof (CA _ _ _ N) as CP.
  assert (PI : p = Idle) by (destruct p; cbn in *; try discriminate; try contradiction; reflexivity).
  split; [exact PI|]. split.
  - subst p. apply length_zero_iff_nil in Z3.
    assert (TD : todo = [] \/ exists t, todo = CClose :: t).
    { destruct todo as [|[e|] t]; [auto|discriminate|eauto]. }
    destruct CS as [[L X]|[-> X]].
    + rewrite (proj2 (Nat.eqb_neq _ _)) by lia. destruct TD as [->|(t & ->)]; [reflexivity|exfalso].
      assert (I : In CClose (callf k tr1 ++ CClose :: t)) by (apply in_or_app; right; now left).
      rewrite X in I. apply in_map_iff in I as (e & I & _). discriminate.
    + rewrite Nat.eqb_refl. destruct TD as [->|(t & ->)].
      * exfalso. rewrite app_nil_r in X.
        assert (I : In CClose (callf (length others) tr1)) by (rewrite X; apply in_or_app; right; now left).
        unfold callf in I. apply in_flat_map in I as (l & I & J). destruct l as [j c| | | | | | |]; cbn in J; try contradiction.
        destruct (Nat.eqb (length others) j); [|contradiction]. destruct J as [->|[]]. exact (NC _ I).
      * f_equal. destruct t as [|c t]; [reflexivity|exfalso].
        destruct c as [e|]; [discriminate|]. 
        apply (f_equal (fun l => length (filter (fun c => match c with CClose => true | _ => false end) l))) in X.
        rewrite !filter_app, !app_length in X. cbn in X.
        assert (F0 : forall l, length (filter (fun c => match c with CClose => true | _ => false end) (map CSend l)) = 0%nat) by (induction l; auto).
        rewrite F0 in X. cbn in X. lia.
  - exists es. split; [exact NE|]. rewrite E2. subst p. now rewrite app_nil_r.
Qed.
(** Nobody has anything left to begin. *)
Definition all_begun (s : astate) : Prop := forall k p todo, nth_error (a_threads s) k = Some (mkTh p todo) -> todo = [].
Lemma all_begun_steps C progs s tr2 s2 : asteps C s tr2 s2 -> forall tr1, oreach C progs tr1 s -> all_begun s -> oreach C progs (tr1 ++ tr2) s2.
Proof.
  induction 1 as [s|s c l s1 tr s2 H S IH]; intros tr1 O AB; [now rewrite app_nil_r|].
  replace (tr1 ++ l :: tr) with ((tr1 ++ [l]) ++ tr) by now rewrite <- app_assoc. apply IH.
  - econstructor; [exact O| |exact H]. apply anext_step in H as [_ [(k & -> & H)|H]].
    + inversion H; subst; cbn; try exact Logic.I; match goal with N : nth_error _ _ = Some _ |- _ => apply AB in N; discriminate N end.
    + inversion H; exact Logic.I.
  - intros k p todo N. apply anext_step in H as [_ [(j & -> & H)|H]].
    + destruct (Nat.eq_dec k j) as [->|D]; [|rewrite (tstep_other _ _ _ _ _ _ H D) in N; eapply AB; eassumption].
      inversion H; subst; match goal with M : nth_error (a_threads s) j = Some _ |- _ => 
        pose proof (AB _ _ _ M) as Z; cbn in N; erewrite nth_upd_eq in N by exact M; injection N; intros; subst; auto; discriminate end.
    + rewrite (wstep_threads _ _ _ _ H) in N. eapply AB; eassumption.
Qed.
Lemma no_close_orderly C progs tr s : areach C progs tr s -> (forall j, ~ In (Call j CClose) tr) -> oreach C progs tr s.
Proof.
  induction 1 as [|tr s c l s' R IH H]; intros NC; [constructor|].
  assert (NC1 : no_close tr) by (intros j I; apply (NC j), in_or_app; now left).
  econstructor; [exact (IH NC1)| |exact H].
  destruct (before_close _ _ _ _ R NC1) as (_ & CA & _).
  destruct l as [i [e|]| | | | | | |]; cbn; try exact Logic.I.
  - intros (k & p & todo & N & I). apply CA in N. destruct p; cbn in *; intuition discriminate.
  - exfalso. apply (NC i), in_or_app. right. now left.
Qed.
Lemma closed_orderly C others main tr1 tr2 s : areach C (progs_of others main) (tr1 ++ Call (length others) CClose :: tr2) s ->
  (forall k es, nth_error (others ++ [main]) k = Some es -> returned k tr1 es) ->
  oreach C (progs_of others main) (tr1 ++ Call (length others) CClose :: tr2) s /\
  forall k, fromf k tr1 = nth k (others ++ [main]) [].
Proof.
  intros R RT. destruct (areach_cut _ _ _ _ R _ _ eq_refl) as (s1 & R1 & S).
  inversion S as [|s0 c l s2 tr0 s3 H S2]; subst.
  assert (N0 : exists todo, nth_error (a_threads s1) (length others) = Some (mkTh Idle (CClose :: todo)) /\
      s2 = set_th s1 (length others) KLoad todo).
  { apply anext_step in H as [_ [(k & -> & H)|H]]; [|inversion H]. inversion H; subst. eauto. }
  destruct N0 as (todo & N0 & E2).
  assert (NC : forall j, ~ In (Call j CClose) tr1).
  { intros j I. pose proof (begun _ _ _ _ R1) as B.
    assert (X : In CClose (callf j tr1)).
    { unfold callf. apply in_flat_map. exists (Call j CClose). split; [exact I|]. cbn. rewrite Nat.eqb_refl. now left. }
    destruct (nth_error (a_threads s1) j) as [[p td]|] eqn:N.
    - specialize (B _ _ _ N). destruct (progs_nth _ _ _ _ B) as (es & _ & _ & [[_ E]|[-> E]]).
      + assert (Y : In CClose (callf j tr1 ++ td)) by (apply in_or_app; now left). rewrite E in Y.
        apply in_map_iff in Y as (e & Y & _). discriminate.
      + rewrite N0 in N. injection N as <- <-. 
        apply (f_equal (fun l => length (filter (fun c => match c with CClose => true | _ => false end) l))) in E.
        rewrite !filter_app, !app_length in E. cbn in E.
        assert (F0 : forall l, length (filter (fun c => match c with CClose => true | _ => false end) (map CSend l)) = 0%nat) by (induction l; auto).
        rewrite F0 in E. cbn in E. apply in_split in X as (a & b & X). rewrite X in E. rewrite filter_app, app_length in E. cbn in E. lia.
    - assert (Z : forall tr sx, areach C (progs_of others main) tr sx -> nth_error (a_threads sx) j = None -> ~ In (Call j CClose) tr).
      { clear. induction 1 as [|tr s c l s' R IH H]; intros N; [intros []|].
        intros I. apply in_app_or in I as [I|[->|[]]].
        - apply IH; [|exact I]. apply nth_error_None. apply nth_error_None in N.
          rewrite (threads_length _ _ _ _ R). rewrite (threads_length _ _ _ _ (ar_step _ _ _ _ _ _ _ R H)) in N. exact N.
        - apply anext_step in H as [_ [(k & -> & H)|H]]; [|inversion H].
          destruct (tstep_at _ _ _ _ _ H) as (? & ? & ? & ? & _ & N1). inversion H; subst. congruence. }
      exact (Z _ _ R1 N I). }
  pose proof (nothing_left _ _ _ _ _ R1 NC RT) as NL.
  assert (T0 : todo = []). { destruct (NL _ _ _ N0) as (_ & E & _). rewrite Nat.eqb_refl in E. now injection E. }
  subst todo s2. split.
  - replace (tr1 ++ Call (length others) CClose :: tr2) with ((tr1 ++ [Call (length others) CClose]) ++ tr2) by now rewrite <- app_assoc.
    eapply all_begun_steps; [exact S2| |].
    + econstructor; [apply no_close_orderly; eassumption| |exact H]. intros (k & p & td & N & NI & _). apply NL in N as (-> & _). now apply NI.
    + intros k p td N. rewrite (th_set _ _ _ _ _ _ N0) in N. destruct (Nat.eqb k (length others)) eqn:E; [now injection N|].
      destruct (NL _ _ _ N) as (_ & Z & _). rewrite E in Z. exact Z.
  - intros k. destruct (nth_error (a_threads s1) k) as [[p td]|] eqn:N.
    + destruct (NL _ _ _ N) as (_ & _ & es & NE & ->). symmetry. now apply nth_error_nth.
    + assert (L : (length (progs_of others main) <= k)%nat). { rewrite <- (threads_length _ _ _ _ R1). now apply nth_error_None. }
      rewrite nth_overflow; [|unfold progs_of in L; rewrite app_length, map_length in L; rewrite app_length; exact L].
      clear - R1 L. induction R1 as [|tr s c l s' R IH H]; [reflexivity|]. unfold fromf. rewrite flat_map_app. fold (fromf k tr). rewrite IH. cbn.
      apply anext_step in H as [_ [(j & -> & H)|H]]; [|inversion H; reflexivity].
      destruct (tstep_at _ _ _ _ _ H) as (? & ? & ? & ? & N0 & _).
      assert (D : k <> j). { intros ->. assert (nth_error (a_threads s) j <> None) by congruence. apply nth_error_Some in H0. rewrite (threads_length _ _ _ _ R) in H0. lia. }
      inversion H; subst; cbn; try reflexivity. now rewrite (proj2 (Nat.eqb_neq _ _) D).
Qed.
(** After the Close nothing is accepted any more. *)
Definition tag_of (l : label) : list (nat * event) := match l with Push i (Some e) => [(i, e)] | _ => [] end.
Definition tagf := flat_map tag_of.
Lemma tagf_accf tr : map snd (tagf tr) = accf tr.
Proof. induction tr as [|l tr IH]; [reflexivity|]. cbn. rewrite map_app. f_equal; [|exact IH]. now destruct l as [| j [e|] | | | | | |]. Qed.
Lemma tagf_fromf k tr : of_tag k (tagf tr) = fromf k tr.
Proof.
  induction tr as [|l tr IH]; [reflexivity|]. unfold of_tag in *. cbn. rewrite filter_app, map_app. f_equal; [|exact IH].
  destruct l as [| j [e|] | | | | | |]; try reflexivity. cbn. rewrite Nat.eqb_sym. now destruct (Nat.eqb k j).
Qed.
Lemma accepted_interleave C others main tr1 tr2 s : areach C (progs_of others main) (tr1 ++ Call (length others) CClose :: tr2) s ->
  (forall k es, nth_error (others ++ [main]) k = Some es -> returned k tr1 es) ->
  interleave (others ++ [main]) (accf (tr1 ++ Call (length others) CClose :: tr2)).
Proof.
  intros R RT. destruct (closed_orderly _ _ _ _ _ _ R RT) as [_ F1].
  rewrite <- tagf_accf. apply tagged_interleave. intros k. rewrite tagf_fromf.
  set (tr := tr1 ++ _). assert (E : exists x, fromf k tr = nth k (others ++ [main]) [] ++ x).
  { unfold tr, fromf. rewrite flat_map_app. fold (fromf k tr1). rewrite F1. eauto. }
  destruct E as (x & E). rewrite E.
  destruct (nth_error (a_threads s) k) as [[p td]|] eqn:N.
  - destruct (own_order _ _ _ _ R _ _ _ N) as (cs & dn & N' & E' & SL). fold tr in SL.
    destruct (progs_nth _ _ _ _ N') as (es & NE & SE & _). rewrite (nth_error_nth _ _ [] NE) in *. rewrite E in SL.
    apply sub_length in SL. rewrite SE in E'. apply (f_equal (@length _)) in E'. rewrite !app_length in *.
    assert (x = []) as -> by (apply length_zero_iff_nil; lia). now rewrite app_nil_r.
  - assert (Z : fromf k tr = []).
    { unfold tr. clear - R N. assert (L : (length (progs_of others main) <= k)%nat). { rewrite <- (threads_length _ _ _ _ R). now apply nth_error_None. }
      clear N. induction R as [|tr s c l s' R IH H]; [reflexivity|]. unfold fromf. rewrite flat_map_app. fold (fromf k tr). rewrite IH. cbn.
      apply anext_step in H as [_ [(j & -> & H)|H]]; [|inversion H; reflexivity].
      destruct (tstep_at _ _ _ _ _ H) as (? & ? & ? & ? & N0 & _).
      assert (D : k <> j). { intros ->. assert (nth_error (a_threads s) j <> None) by congruence. apply nth_error_Some in H0. rewrite (threads_length _ _ _ _ R) in H0. lia. }
      inversion H; subst; cbn; try reflexivity. now rewrite (proj2 (Nat.eqb_neq _ _) D). }
    rewrite E in Z. apply app_eq_nil in Z as [-> ->]. reflexivity.
Qed.

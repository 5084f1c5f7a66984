(** The invariant for C63, and its preservation. *)
From Verif Require Import GoStr Utf8 LevelModel EventModel LayoutModel ConfModel OutputModel WorldModel PanicModel WorldBase WorldInv LockModel LockSpec AtomSpec AtomProofs.

Lemma fpost_inv b F M p F' r : fpost b F M p F' r ->
  match p with
  | LAct Fac f k e => b = false /\
      ((exists F1 a, (forall M', ext M M' -> f (join F M') = Done (join F1 M') a) /\ f_root F1 = f_root F /\ fpost false F1 M (k a) F' r) \/
       ((forall M', ext M M' -> f (join F M') = Raised (join F M')) /\ fpost false F M e F' r))
  | LUnlock Man q => b = true /\ fpost false F M q F' r
  | LUnlock Fac q => b = false /\ q = LRet r /\ F' = F
  | _ => False
  end.
Proof. destruct 1; eauto 10. Qed.
Lemma fpre_inv b F M p : fpre b F M p ->
  match p with
  | LAct Fac f k e => b = false /\ exists F1 a, (forall M', f (join F M') = Done (join F1 M') a) /\ f_root F1 = f_root F /\
      (fpre false F1 M (k a) \/ exists F' r, forall M', fpost false F1 M' (k a) F' r)
  | LAct Man f k e => b = true /\
      forall M', outs_valid M' -> match f (join F M') with
                | Done W1 a => exists M1, W1 = join F M1 /\ ext M' M1 /\ exists F' r, fpost true F M1 (k a) F' r
                | Raised W1 => exists M1, W1 = join F M1 /\ ext M' M1 /\ exists F' r, fpost true F M1 e F' r
                end
  | LLock Man k => b = false /\ fpre true F M k
  | _ => False
  end.
Proof. destruct 1; eauto 10. Qed.
Lemma mrun_inv M p M' r : mrun M p M' r ->
  match p with
  | LAct Man f k e =>
      (exists M1 a, (forall F, f (join F M) = Done (join F M1) a) /\ ext M M1 /\ mrun M1 (k a) M' r) \/
      (exists M1, (forall F, f (join F M) = Raised (join F M1)) /\ ext M M1 /\ mrun M1 e M' r)
  | KLoad _ p q => mrun M p M' r /\ mrun M q M' r
  | KPush _ p | KWait _ p | KStore _ p => mrun M p M' r
  | LUnlock Man q => q = LRet r /\ M' = M
  | LRet x => x = r /\ M' = M
  | _ => False
  end.
Proof. destruct 1; eauto 10. Qed.
Lemma mrun_man M p M' r : mrun M p M' r -> mrun (man M) p (man M') r.
Proof.
  induction 1; try (constructor; assumption).
  - apply (mr_act (man M) A f k e (man M1) a); [exact H|exact H0|assumption].
  - apply (mr_panic (man M) A f k e (man M1)); [exact H|exact H0|assumption].
Qed.
Lemma fpost_man b F M p F' r : fpost b F M p F' r -> fpost b F (man M) p F' r.
Proof. intros H. exact (fpost_ext _ _ _ _ _ _ H (man M) (ext_refl M)). Qed.

Ltac four := split; [auto|split; [auto|split; [auto|auto using ext_refl]]].
Section Run.
Context (P : params) (boom : nat -> bool).
Inductive status := SIdle | SReady | SPre (b : bool) | SPost (b : bool) | SMan | SFin.
Definition fhold (x : status) : bool := match x with SPre _ | SPost _ => true | _ => false end.
Definition mhold (x : status) : bool := match x with SPre b | SPost b => b | SMan => true | _ => false end.
Definition tv (s : lstate) (V : world) (i : nat) (t : thread) (x : status) (o : list (call * option ret)) : Prop :=
  (fhold x = true -> l_fac s = Some i) /\ (mhold x = true -> l_man s = Some i) /\
  match x with
  | SIdle => t_now t = None /\ o = t_done t
  | SReady => exists c m k, t_now t = Some (c, p_call P boom c) /\ quiet P c /\ p_call P boom c = LLock m k /\ o = t_done t
  | SPre b => exists c p, t_now t = Some (c, p) /\ fpre b (fac (l_w s)) (man (l_w s)) p /\
      (forall M', alone p (join (fac (l_w s)) M') = alone (p_call P boom c) (join (fac V) M')) /\ o = t_done t
  | SPost b => exists c p r, t_now t = Some (c, p) /\ fpost b (fac (l_w s)) (man (l_w s)) p (fac V) r /\ o = t_done t ++ [(c, r)]
  | SMan => exists c p r, t_now t = Some (c, p) /\ mrun (man (l_w s)) p (man V) r /\ o = t_done t ++ [(c, r)]
  | SFin => exists c r, t_now t = Some (c, LRet r) /\ o = t_done t ++ [(c, r)]
  end.
Record ainv (s : lstate) (V : world) (h : list (nat * (call * option ret))) (st : nat -> status) : Prop := {
  ai_tv : forall i t, nth_error (l_threads s) i = Some t -> tv s V i t (st i) (only i h) /\ Forall (quiet P) (t_todo t);
  ai_out : forall i, nth_error (l_threads s) i = None -> st i = SIdle;
  ai_fac : (forall i, fhold (st i) = false) -> fac V = fac (l_w s);
  ai_man : (forall i, st i <> SMan) -> man V = man (l_w s);
  ai_root : f_root (fac (l_w s)) <> None;
  ai_valid : outs_valid (l_w s);
  ai_in : Forall (fun x => fst x < length (l_threads s)) h
}.
Lemma ai_fh s V h st j : ainv s V h st -> fhold (st j) = true -> l_fac s = Some j.
Proof.
  intros I H. destruct (nth_error (l_threads s) j) as [t|] eqn:E.
  - exact (proj1 (proj1 (ai_tv _ _ _ _ I j t E)) H).
  - rewrite (ai_out _ _ _ _ I j E) in H. discriminate.
Qed.
Lemma ai_mh s V h st j : ainv s V h st -> mhold (st j) = true -> l_man s = Some j.
Proof.
  intros I H. destruct (nth_error (l_threads s) j) as [t|] eqn:E.
  - exact (proj1 (proj2 (proj1 (ai_tv _ _ _ _ I j t E))) H).
  - rewrite (ai_out _ _ _ _ I j E) in H. discriminate.
Qed.
(** The manager's half of the state explained is never behind. *)
Lemma ai_ext s V h st : ainv s V h st -> ext (l_w s) V.
Proof.
  intros I. destruct (l_man s) as [i|] eqn:El.
  - destruct (st i) eqn:Es.
    5:{ destruct (nth_error (l_threads s) i) as [t|] eqn:E; [|rewrite (ai_out _ _ _ _ I i E) in Es; discriminate].
        pose proof (proj1 (ai_tv _ _ _ _ I i t E)) as T. rewrite Es in T. destruct T as (_ & _ & c & p & r & _ & T & _).
        exact (mrun_ext _ _ _ _ T). }
    all: assert (D : forall j, st j <> SMan) by (intros j Ej; assert (l_man s = Some j) by (eapply ai_mh; [exact I|now rewrite Ej]); congruence);
      pose proof (ai_man _ _ _ _ I D) as E; change (ext (man (l_w s)) (man V)); rewrite E; apply ext_refl.
  - assert (D : forall j, st j <> SMan) by (intros j Ej; assert (l_man s = Some j) by (eapply ai_mh; [exact I|now rewrite Ej]); congruence).
    pose proof (ai_man _ _ _ _ I D) as E. change (ext (man (l_w s)) (man V)). rewrite E. apply ext_refl.
Qed.
Lemma tv_frame s V s' V' j t x o : tv s V j t x o ->
  (fhold x = true -> l_fac s' = l_fac s /\ fac (l_w s') = fac (l_w s) /\ fac V' = fac V /\ ext (l_w s) (l_w s')) ->
  (mhold x = true -> l_man s' = l_man s) ->
  (x = SMan -> man (l_w s') = man (l_w s) /\ man V' = man V) -> tv s' V' j t x o.
Proof.
  intros (Hf & Hm & T) A B C. split; [|split].
  - intros H. destruct (A H) as (-> & _). auto.
  - intros H. rewrite (B H). auto.
  - destruct x; auto.
    + destruct (A eq_refl) as (_ & E1 & E2 & Hx). destruct T as (c & p & Hn & T1 & T2 & T3). exists c, p. rewrite E1, E2.
      split; [assumption|]. split; [exact (fpre_any _ _ _ _ T1 _)|]. auto.
    + destruct (A eq_refl) as (_ & E1 & E2 & Hx). destruct T as (c & p & r & Hn & T1 & T3). exists c, p, r. rewrite E1, E2.
      split; [assumption|]. split; [exact (fpost_ext _ _ _ _ _ _ T1 (man (l_w s')) Hx)|assumption].
    + destruct (C eq_refl) as (E1 & E2). rewrite E1, E2. exact T.
Qed.
Definition st_set (st : nat -> status) (i : nat) (x : status) (j : nat) : status := if j =? i then x else st j.
Lemma only_app i h e : only i (h ++ e) = only i h ++ only i e.
Proof. unfold only. now rewrite filter_app, map_app. Qed.
Lemma only_one i x : only i [(i, x)] = [x].
Proof. unfold only. cbn. now rewrite Nat.eqb_refl. Qed.
Lemma only_other i j x : j <> i -> only j [(i, x)] = [].
Proof. intros H. unfold only. cbn. destruct (Nat.eqb_spec i j); [congruence|reflexivity]. Qed.
(** One goroutine has moved, to a state [s1] but for itself. *)
Lemma moved s V h st i t x s1 V' e t' :
  ainv s V h st -> nth_error (l_threads s) i = Some t -> l_threads s1 = l_threads s -> t_todo t' = t_todo t \/ (exists c, t_todo t = c :: t_todo t') ->
  e = [] \/ (exists y, e = [(i, y)]) ->
  tv s1 V' i t' x (only i (h ++ e)) ->
  (forall j, j <> i -> fhold (st j) = true -> l_fac s1 = l_fac s /\ fac (l_w s1) = fac (l_w s) /\ fac V' = fac V /\ ext (l_w s) (l_w s1)) ->
  (forall j, j <> i -> mhold (st j) = true -> l_man s1 = l_man s) ->
  (forall j, j <> i -> st j = SMan -> man (l_w s1) = man (l_w s) /\ man V' = man V) ->
  ((forall j, j <> i -> fhold (st j) = false) -> fhold x = false -> fac V' = fac (l_w s1)) ->
  ((forall j, j <> i -> st j <> SMan) -> x <> SMan -> man V' = man (l_w s1)) ->
  f_root (fac (l_w s1)) <> None -> outs_valid (l_w s1) ->
  ainv (put s1 i t') V' (h ++ e) (st_set st i x).
Proof.
  intros I Hi Ht Htd He T A B C D E R Va.
  assert (Hlen : i < length (l_threads s)) by (apply nth_error_Some; congruence).
  assert (Tw : forall j u y o, tv s1 V' j u y o -> tv (put s1 i t') V' j u y o) by (intros j u y o; destruct y; exact (fun z => z)).
  constructor.
  - intros j u Hj. cbn [put l_threads] in Hj. rewrite Ht in Hj. unfold st_set. destruct (Nat.eqb_spec j i) as [->|Hne].
    + rewrite (nth_upd_eq _ _ _ _ Hi) in Hj. injection Hj as <-. split; [now apply Tw|].
      pose proof (proj2 (ai_tv _ _ _ _ I i t Hi)) as Q. destruct Htd as [->|[c Ec]]; [assumption|].
      rewrite Ec in Q. now apply Forall_inv_tail in Q.
    + rewrite (nth_upd_ne _ _ _ _ Hne) in Hj. destruct (ai_tv _ _ _ _ I j u Hj) as [Tj Qj]. split; [|assumption].
      replace (only j (h ++ e)) with (only j h).
      2:{ rewrite only_app. destruct He as [->|[y ->]]; [now rewrite app_nil_r|]. now rewrite (only_other _ _ _ Hne), app_nil_r. }
      apply Tw. eapply tv_frame; [exact Tj|apply A; assumption|apply B; assumption|apply C; assumption].
  - intros j Hj. cbn [put l_threads] in Hj. rewrite Ht in Hj. unfold st_set. destruct (Nat.eqb_spec j i) as [->|Hne].
    + exfalso. apply nth_error_None in Hj. rewrite upd_length in Hj. lia.
    + rewrite (nth_upd_ne _ _ _ _ Hne) in Hj. now apply (ai_out _ _ _ _ I).
  - intros Hj. apply D.
    + intros j Hne. specialize (Hj j). unfold st_set in Hj. now destruct (Nat.eqb_spec j i).
    + specialize (Hj i). unfold st_set in Hj. now rewrite Nat.eqb_refl in Hj.
  - intros Hj. apply E.
    + intros j Hne. specialize (Hj j). unfold st_set in Hj. now destruct (Nat.eqb_spec j i).
    + specialize (Hj i). unfold st_set in Hj. now rewrite Nat.eqb_refl in Hj.
  - exact R.
  - exact Va.
  - cbn [put l_threads]. rewrite upd_length, Ht. apply Forall_app. split; [apply I|].
    destruct He as [->|[y ->]]; [constructor|]. constructor; [exact Hlen|constructor].
Qed.
(** What a step adds to the calls explained. *)
Definition adds (V : world) (i : nat) (e : list (nat * (call * option ret))) (V' : world) : Prop :=
  (e = [] /\ V' = V) \/ exists c r, e = [(i, (c, r))] /\ alone (p_call P boom c) V = (V', r).
Lemma adds_form V i e V' : adds V i e V' -> e = [] \/ exists y, e = [(i, y)].
Proof. intros [[-> _]|(c & r & -> & _)]; [now left|right; eauto]. Qed.

Lemma call_step s V h st i d c cs : ainv s V h st -> nth_error (l_threads s) i = Some (mkT d None (c :: cs)) ->
  exists V' e st', adds V i e V' /\ ainv (put s i (mkT d (Some (c, p_call P boom c)) cs)) V' (h ++ e) st'.
Proof.
  intros I Hi. destruct (ai_tv _ _ _ _ I i _ Hi) as [T Q]. cbn in Q. pose proof (Forall_inv Q) as Qc.
  assert (Ei : st i = SIdle /\ only i h = d).
  { destruct T as (_ & _ & T). destruct (st i); cbn in T; [now split| | | | |].
    - destruct T as (? & ? & ? & T & _). discriminate.
    - destruct T as (? & ? & T & _). discriminate.
    - destruct T as (? & ? & ? & T & _). discriminate.
    - destruct T as (? & ? & ? & T & _). discriminate.
    - destruct T as (? & ? & T & _). discriminate. }
  destruct Ei as [Ei Eo].
  assert (Fr : forall m k, p_call P boom c = LLock m k -> exists V' e st', adds V i e V' /\ ainv (put s i (mkT d (Some (c, p_call P boom c)) cs)) V' (h ++ e) st').
  { intros m k Ek. exists V, [], (st_set st i SReady). split; [now left|]. eapply moved; try exact I; try eassumption; auto.
    - cbn. right. eauto.
    - split; [discriminate|]. split; [discriminate|]. exists c, m, k. rewrite app_nil_r. auto.
    - intros j Hne Hj. four.
    - intros Hj _. apply (ai_fac _ _ _ _ I). intros j. destruct (Nat.eq_dec j i) as [->|Hne]; [now rewrite Ei|auto].
    - intros Hj _. apply (ai_man _ _ _ _ I). intros j. destruct (Nat.eq_dec j i) as [->|Hne]; [now rewrite Ei|auto].
    - apply (ai_root _ _ _ _ I).
    - apply (ai_valid _ _ _ _ I). }
  destruct (quiet_forms P boom c Qc) as [(n & k & _ & Ek)|[(k & Ek)|(r & Ek)]]; [eauto|eauto|].
  exists V, [(i, (c, r))], (st_set st i SFin). split; [right; exists c, r; rewrite Ek; auto|].
  eapply moved; try exact I; try eassumption; auto.
  - cbn. right. eauto.
  - right. eauto.
  - split; [discriminate|]. split; [discriminate|]. exists c, r. rewrite Ek. split; [reflexivity|]. now rewrite only_app, only_one, Eo.
  - intros j Hne Hj. four.
  - intros Hj _. apply (ai_fac _ _ _ _ I). intros j. destruct (Nat.eq_dec j i) as [->|Hne]; [now rewrite Ei|auto].
  - intros Hj _. apply (ai_man _ _ _ _ I). intros j. destruct (Nat.eq_dec j i) as [->|Hne]; [now rewrite Ei|auto].
  - apply (ai_root _ _ _ _ I).
  - apply (ai_valid _ _ _ _ I).
Qed.
Lemma return_step s V h st i d c r cs : ainv s V h st -> nth_error (l_threads s) i = Some (mkT d (Some (c, LRet r)) cs) ->
  exists st', ainv (put s i (mkT (d ++ [(c, r)]) None cs)) V h st'.
Proof.
  intros I Hi. destruct (ai_tv _ _ _ _ I i _ Hi) as [T Q]. 
  assert (Ei : only i h = d ++ [(c, r)] /\ fhold (st i) = false /\ (st i = SMan -> man V = man (l_w s))).
  { destruct T as (_ & _ & T). destruct (st i); cbn in T.
    - destruct T as [T _]. discriminate.
    - destruct T as (c0 & m & k & T & _ & T2 & _). injection T as <- T. rewrite <- T in T2. discriminate.
    - destruct T as (c0 & p & T & T2 & _). injection T as <- <-. apply fpre_inv in T2. contradiction.
    - destruct T as (c0 & p & r0 & T & T2 & _). injection T as <- <-. apply fpost_inv in T2. contradiction.
    - destruct T as (c0 & p & r0 & T & T2 & To). injection T as <- <-. apply mrun_inv in T2 as [-> T2]. auto.
    - destruct T as (c0 & r0 & T & To). injection T as <- <-. split; [assumption|]. split; [reflexivity|discriminate]. }
  destruct Ei as (Eo & Ef & Em). exists (st_set st i SIdle). rewrite <- (app_nil_r h).
  eapply moved; try exact I; try eassumption; auto.
  - split; [discriminate|]. split; [discriminate|]. rewrite app_nil_r. cbn. auto.
  - intros j Hne Hj. four.
  - intros Hj _. apply (ai_fac _ _ _ _ I). intros j. destruct (Nat.eq_dec j i) as [->|Hne]; auto.
  - intros Hj _. destruct (st i) eqn:Es; try (apply (ai_man _ _ _ _ I); intros j; destruct (Nat.eq_dec j i) as [->|Hne]; [now rewrite Es|auto]).
    now apply Em.
  - apply (ai_root _ _ _ _ I).
  - apply (ai_valid _ _ _ _ I).
Qed.
Lemma act_step s V h st i d c p cs s' p' : ainv s V h st -> nth_error (l_threads s) i = Some (mkT d (Some (c, p)) cs) ->
  act s i p = Some (s', p') ->
  exists V' e st', adds V i e V' /\ ainv (put s' i (mkT d (Some (c, p')) cs)) V' (h ++ e) st'.
Proof.
  intros I Hi Ha. destruct (ai_tv _ _ _ _ I i _ Hi) as [T _]. cbn in T. destruct T as (Hf & Hm & T).
  pose proof (ai_root _ _ _ _ I) as R. pose proof (ai_valid _ _ _ _ I) as Va.
  assert (NF : forall j, l_fac s = Some i \/ l_fac s = None -> j <> i -> fhold (st j) = false).
  { intros j HL Hne. destruct (fhold (st j)) eqn:E; [|reflexivity]. apply (ai_fh _ _ _ _ _ I) in E. destruct HL; congruence. }
  assert (NM : forall j, l_man s = Some i \/ l_man s = None -> j <> i -> mhold (st j) = false).
  { intros j HL Hne. destruct (mhold (st j)) eqn:E; [|reflexivity]. apply (ai_mh _ _ _ _ _ I) in E. destruct HL; congruence. }
  assert (NS : forall j, mhold (st j) = false -> st j <> SMan) by (intros j E1 E2; rewrite E2 in E1; discriminate).
  destruct (st i) as [| |b|b| |] eqn:Es.
  - destruct T as [T _]. discriminate.
  - (* at the start: the lock *)
    destruct T as (c0 & m & k & T & Q & Ek & Eo). injection T as <- ->. rewrite Ek in *. cbn [act] in Ha.
    destruct (owner s m) eqn:Ew; [discriminate|]. injection Ha as <- <-. destruct m; cbn [owner] in Ew.
    + destruct (quiet_forms P boom c Q) as [(n & k0 & -> & Ek')|[(k0 & Ek')|(r & Ek')]]; [|congruence|congruence].
      pose proof (get_pre P (fac (l_w s)) (man (l_w s)) n k R Ek) as Hp.
      assert (EF : fac V = fac (l_w s)).
      { apply (ai_fac _ _ _ _ I). intros j. destruct (Nat.eq_dec j i) as [->|Hne]; [now rewrite Es|apply NF; auto]. }
      exists V, [], (st_set st i (SPre false)). split; [now left|].
      eapply moved; try exact I; try eassumption; auto.
      * split; [reflexivity|]. split; [discriminate|]. rewrite app_nil_r. exists (CGetLogger n), k. split; [reflexivity|]. split; [exact Hp|].
        split; [|exact Eo]. intros M'. change (fac (l_w (set_owner s Fac (Some i)))) with (fac (l_w s)). now rewrite EF, Ek.
      * intros j Hne Hj. rewrite (NF j (or_intror Ew) Hne) in Hj. discriminate.
      * intros Hj _. apply (ai_man _ _ _ _ I). intros j. destruct (Nat.eq_dec j i) as [->|Hne]; [now rewrite Es|auto].
    + destruct (man_run P boom c k Ek Q (man (l_w s)) Va) as (M' & r & Rn).
      assert (EM : man V = man (l_w s)).
      { apply (ai_man _ _ _ _ I). intros j. destruct (Nat.eq_dec j i) as [->|Hne]; [now rewrite Es|]. apply NS, NM; auto. }
      exists (join (fac V) M'), [(i, (c, r))], (st_set st i SMan). split.
      { right. exists c, r. split; [reflexivity|]. rewrite Ek. cbn [alone]. rewrite <- (join_id V) at 1. rewrite EM. exact (mrun_alone _ _ _ _ Rn (fac V)). }
      eapply moved; try exact I; try eassumption; auto.
      * right. eauto.
      * split; [discriminate|]. split; [reflexivity|]. exists c, k, r. split; [reflexivity|]. rewrite only_app, only_one, Eo.
        split; [|reflexivity]. rewrite man_join. exact (mrun_man _ _ _ _ Rn).
      * intros j Hne Hj. rewrite fac_join. four.
      * intros j Hne Hj. rewrite (NM j (or_intror Ew) Hne) in Hj. discriminate.
      * intros j Hne Hj. exfalso. revert Hj. apply NS, NM; auto.
      * intros Hj _. rewrite fac_join. apply (ai_fac _ _ _ _ I). intros j. destruct (Nat.eq_dec j i) as [->|Hne]; [now rewrite Es|auto].
      * intros _ Hj. now destruct Hj.
  - (* the factory is locked, the call not yet explained *)
    destruct T as (c0 & p0 & T & Hp & Hal & Eo). injection T as <- <-. specialize (Hf eq_refl). pose proof (fpre_inv _ _ _ _ Hp) as Hv.
    destruct p as [r0|m k|m k|m A f k e|o k1 k2|o k|o k|o k]; try contradiction.
    + destruct m; [contradiction|]. destruct Hv as [-> Hv]. cbn [act] in Ha. destruct (owner s Man) eqn:Ew; [discriminate|]. injection Ha as <- <-.
      exists V, [], (st_set st i (SPre true)). split; [now left|]. cbn [owner] in Ew.
      eapply moved; try exact I; try eassumption; auto.
      * split; [auto|]. split; [reflexivity|]. rewrite app_nil_r. exists c, k. split; [reflexivity|]. split; [exact Hv|]. split; [exact Hal|exact Eo].
      * intros j Hne Hj. four.
      * intros j Hne Hj. rewrite (NM j (or_intror Ew) Hne) in Hj. discriminate.
      * intros _ Hx0. discriminate Hx0.
      * intros Hj _. apply (ai_man _ _ _ _ I). intros j. destruct (Nat.eq_dec j i) as [->|Hne]; [now rewrite Es|auto].
    + destruct m.
      * destruct Hv as (-> & F1 & a & Hact & HR & Hn). cbn [act] in Ha.
        assert (Ef : f (l_w s) = Done (join F1 (man (l_w s))) a) by (rewrite <- (join_id (l_w s)) at 1; apply Hact).
        rewrite Ef in Ha. injection Ha as <- <-.
        assert (Hal' : forall M', alone (k a) (join F1 M') = alone (p_call P boom c) (join (fac V) M')).
        { intros M'. rewrite <- Hal. cbn [alone]. now rewrite Hact. }
        destruct Hn as [Hn|(F' & r & Hn)].
        -- exists V, [], (st_set st i (SPre false)). split; [now left|].
           eapply moved; try exact I; try eassumption; auto.
           ++ split; [auto|]. split; [discriminate|]. rewrite app_nil_r. exists c, (k a). split; [reflexivity|].
              cbn [l_w set_world]. rewrite fac_join, man_join. split; [exact Hn|]. split; [exact Hal'|exact Eo].
           ++ intros j Hne Hj. rewrite (NF j (or_introl Hf) Hne) in Hj. discriminate.
           ++ intros _ Hx0. discriminate Hx0.
           ++ intros Hj _. cbn [l_w set_world]. rewrite man_join. apply (ai_man _ _ _ _ I). intros j. destruct (Nat.eq_dec j i) as [->|Hne]; [now rewrite Es|auto].
           ++ cbn [l_w set_world]. rewrite fac_join. congruence.
        -- exists (join F' (man V)), [(i, (c, r))], (st_set st i (SPost false)). split.
           { right. exists c, r. split; [reflexivity|]. rewrite <- (join_id V) at 1. rewrite <- Hal'. exact (fpost_alone _ _ _ _ _ _ (Hn (man V))). }
           eapply moved; try exact I; try eassumption; auto.
           ++ right. eauto.
           ++ split; [auto|]. split; [discriminate|]. exists c, (k a), r. split; [reflexivity|].
              cbn [l_w set_world]. rewrite !fac_join. split; [apply Hn|]. now rewrite only_app, only_one, Eo.
           ++ intros j Hne Hj. rewrite (NF j (or_introl Hf) Hne) in Hj. discriminate.
           ++ intros _ Hx0. discriminate Hx0.
           ++ intros Hj _. cbn [l_w set_world]. rewrite !man_join. apply (ai_man _ _ _ _ I). intros j. destruct (Nat.eq_dec j i) as [->|Hne]; [now rewrite Es|auto].
           ++ cbn [l_w set_world]. rewrite fac_join. congruence.
      * destruct Hv as (-> & Hact). specialize (Hm eq_refl). cbn [act] in Ha.
        assert (EM : man V = man (l_w s)).
        { apply (ai_man _ _ _ _ I). intros j. destruct (Nat.eq_dec j i) as [->|Hne]; [now rewrite Es|]. apply NS, NM; auto. }
        specialize (Hact (man (l_w s)) Va). rewrite join_id in Hact. pose proof (Hal (man V)) as HV. rewrite join_id in HV.
        rewrite EM, join_id in HV. cbn [alone] in HV.
        destruct (f (l_w s)) as [W1 a|W1] eqn:Ef; injection Ha as <- <-.
        -- destruct Hact as (M1 & -> & Hx & F' & r & Hn).
           exists (join F' M1), [(i, (c, r))], (st_set st i (SPost true)). split.
           { right. exists c, r. split; [reflexivity|]. rewrite <- HV. exact (fpost_alone _ _ _ _ _ _ Hn). }
           eapply moved; try exact I; try eassumption; auto.
           ++ right. eauto.
           ++ split; [auto|]. split; [auto|]. exists c, (k a), r. split; [reflexivity|].
              cbn [l_w set_world]. rewrite !fac_join. split; [exact (fpost_man _ _ _ _ _ _ Hn)|]. now rewrite only_app, only_one, Eo.
           ++ intros j Hne Hj. rewrite (NF j (or_introl Hf) Hne) in Hj. discriminate.
           ++ intros j Hne Hj. exfalso. revert Hj. apply NS, NM; auto.
           ++ intros _ Hx0. discriminate Hx0.
           ++ cbn [l_w set_world]. exact (proj2 Hx Va).
        -- destruct Hact as (M1 & -> & Hx & F' & r & Hn).
           exists (join F' M1), [(i, (c, r))], (st_set st i (SPost true)). split.
           { right. exists c, r. split; [reflexivity|]. rewrite <- HV. exact (fpost_alone _ _ _ _ _ _ Hn). }
           eapply moved; try exact I; try eassumption; auto.
           ++ right. eauto.
           ++ split; [auto|]. split; [auto|]. exists c, e, r. split; [reflexivity|].
              cbn [l_w set_world]. rewrite !fac_join. split; [exact (fpost_man _ _ _ _ _ _ Hn)|]. now rewrite only_app, only_one, Eo.
           ++ intros j Hne Hj. rewrite (NF j (or_introl Hf) Hne) in Hj. discriminate.
           ++ intros j Hne Hj. exfalso. revert Hj. apply NS, NM; auto.
           ++ intros _ Hx0. discriminate Hx0.
           ++ cbn [l_w set_world]. exact (proj2 Hx Va).
  - (* the factory is locked, the call is explained *)
    destruct T as (c0 & p0 & r & T & Hp & Eo). injection T as <- <-. specialize (Hf eq_refl). pose proof (fpost_inv _ _ _ _ _ _ Hp) as Hv.
    destruct p as [r0|m k|m k|m A f k e|o k1 k2|o k|o k|o k]; try contradiction.
    + destruct m.
      * destruct Hv as (-> & -> & EF). cbn [act] in Ha. injection Ha as <- <-.
        exists V, [], (st_set st i SFin). split; [now left|].
        eapply moved; try exact I; try eassumption; auto.
        -- split; [discriminate|]. split; [discriminate|]. rewrite app_nil_r. exists c, r. auto.
        -- intros j Hne Hj. rewrite (NF j (or_introl Hf) Hne) in Hj. discriminate.
        -- intros Hj _. apply (ai_man _ _ _ _ I). intros j. destruct (Nat.eq_dec j i) as [->|Hne]; [now rewrite Es|auto].
      * destruct Hv as (-> & Hn). specialize (Hm eq_refl). cbn [act] in Ha. injection Ha as <- <-.
        exists V, [], (st_set st i (SPost false)). split; [now left|].
        eapply moved; try exact I; try eassumption; auto.
        -- split; [auto|]. split; [discriminate|]. rewrite app_nil_r. exists c, k, r. auto.
        -- intros j Hne Hj. rewrite (NF j (or_introl Hf) Hne) in Hj. discriminate.
        -- intros j Hne Hj. rewrite (NM j (or_introl Hm) Hne) in Hj. discriminate.
        -- intros _ Hx0. discriminate Hx0.
        -- intros Hj _. apply (ai_man _ _ _ _ I). intros j. destruct (Nat.eq_dec j i) as [->|Hne]; [now rewrite Es|auto].
    + destruct m; [|contradiction]. destruct Hv as (-> & Hv). cbn [act] in Ha.
      assert (Fin : forall F1 k', fpost false F1 (man (l_w s)) k' (fac V) r -> f_root F1 = f_root (fac (l_w s)) ->
        forall s1, l_threads s1 = l_threads s -> l_fac s1 = l_fac s -> l_man s1 = l_man s -> l_w s1 = join F1 (l_w s) ->
        exists V' e st', adds V i e V' /\ ainv (put s1 i (mkT d (Some (c, k')) cs)) V' (h ++ e) st').
      { intros F1 k' Hn HR s1 E1 E2 E3 E4. exists V, [], (st_set st i (SPost false)). split; [now left|].
        eapply moved; try exact I; try eassumption; auto.
        - split; [congruence|]. split; [discriminate|]. rewrite app_nil_r. exists c, k', r. split; [reflexivity|].
          rewrite E4, fac_join, man_join. auto.
        - intros j Hne Hj. rewrite (NF j (or_introl Hf) Hne) in Hj. discriminate.
        - intros j Hne Hj. rewrite E4, man_join. auto.
        - intros _ Hx0. discriminate Hx0.
        - intros Hj _. rewrite E4, man_join. apply (ai_man _ _ _ _ I). intros j. destruct (Nat.eq_dec j i) as [->|Hne]; [now rewrite Es|auto].
        - rewrite E4, fac_join. congruence.
        - rewrite E4. exact Va. }
      destruct Hv as [(F1 & a & Hact & HR & Hn)|[Hact Hn]].
      * assert (Ef : f (l_w s) = Done (join F1 (man (l_w s))) a) by (rewrite <- (join_id (l_w s)) at 1; apply Hact, ext_refl).
        rewrite Ef in Ha. injection Ha as <- <-. apply (Fin F1 (k a) Hn HR); auto.
      * assert (Ef : f (l_w s) = Raised (join (fac (l_w s)) (man (l_w s)))) by (rewrite <- (join_id (l_w s)) at 1; apply Hact, ext_refl).
        rewrite Ef in Ha. injection Ha as <- <-. apply (Fin (fac (l_w s)) e Hn eq_refl); auto.
  - (* only the manager is locked, the call is explained *)
    destruct T as (c0 & p0 & r & T & Hp & Eo). injection T as <- <-. specialize (Hm eq_refl). pose proof (mrun_inv _ _ _ _ Hp) as Hv.
    assert (Go : forall s1 k' M1, l_threads s1 = l_threads s -> l_fac s1 = l_fac s -> l_man s1 = l_man s -> l_w s1 = join (fac (l_w s)) M1 ->
        ext (l_w s) M1 -> mrun M1 k' (man V) r ->
        exists V' e st', adds V i e V' /\ ainv (put s1 i (mkT d (Some (c, k')) cs)) V' (h ++ e) st').
    { intros s1 k' M1 E1 E2 E3 E4 Hx Hn. exists V, [], (st_set st i SMan). split; [now left|].
      eapply moved; try exact I; try eassumption; auto.
      - split; [discriminate|]. split; [congruence|]. rewrite app_nil_r. exists c, k', r. split; [reflexivity|].
        rewrite E4, man_join. split; [exact (mrun_man _ _ _ _ Hn)|exact Eo].
      - intros j Hne Hj. rewrite E4, fac_join. four.
      - intros j Hne Hj. exfalso. revert Hj. apply NS, NM; auto.
      - intros Hj _. rewrite E4, fac_join. apply (ai_fac _ _ _ _ I). intros j. destruct (Nat.eq_dec j i) as [->|Hne]; [now rewrite Es|auto].
      - intros _ Hj. now destruct Hj.
      - rewrite E4, fac_join. exact R.
      - rewrite E4. exact (proj2 Hx Va). }
    assert (Stay : forall s1 k', l_threads s1 = l_threads s -> l_fac s1 = l_fac s -> l_man s1 = l_man s -> l_w s1 = l_w s -> mrun (man (l_w s)) k' (man V) r ->
        exists V' e st', adds V i e V' /\ ainv (put s1 i (mkT d (Some (c, k')) cs)) V' (h ++ e) st').
    { intros s1 k' E1 E2 E3 E4 Hn. apply (Go s1 k' (man (l_w s))); auto using ext_refl. now rewrite join_id. exact (ext_refl (l_w s)). }
    destruct p as [r0|m k|m k|m A f k e|o k1 k2|o k|o k|o k]; try contradiction.
    + discriminate.
    + destruct m; [contradiction|]. destruct Hv as [-> EM]. cbn [act] in Ha. injection Ha as <- <-.
      exists V, [], (st_set st i SFin). split; [now left|].
      eapply moved; try exact I; try eassumption; auto.
      * split; [discriminate|]. split; [discriminate|]. rewrite app_nil_r. exists c, r. auto.
      * intros j Hne Hj. four.
      * intros j Hne Hj. rewrite (NM j (or_introl Hm) Hne) in Hj. discriminate.
      * intros Hj _. apply (ai_fac _ _ _ _ I). intros j. destruct (Nat.eq_dec j i) as [->|Hne]; [now rewrite Es|auto].
    + destruct m; [contradiction|]. cbn [act] in Ha. destruct Hv as [(M1 & a & Hact & Hx & Hn)|(M1 & Hact & Hx & Hn)].
      * assert (Ef : f (l_w s) = Done (join (fac (l_w s)) M1) a) by (rewrite <- (join_id (l_w s)) at 1; apply Hact).
        rewrite Ef in Ha. injection Ha as <- <-. apply (Go (set_world s (join (fac (l_w s)) M1)) (k a) M1); auto.
      * assert (Ef : f (l_w s) = Raised (join (fac (l_w s)) M1)) by (rewrite <- (join_id (l_w s)) at 1; apply Hact).
        rewrite Ef in Ha. injection Ha as <- <-. apply (Go (set_world s (join (fac (l_w s)) M1)) e M1); auto.
    + cbn [act] in Ha. destruct Hv as [H1 H2]. injection Ha as <- <-. apply Stay; auto. destruct (queue s o) as [q|]; [destruct (q_flag q)|]; assumption.
    + cbn [act] in Ha. destruct (queue s o) as [q|]; [|discriminate]. destruct (_ <? _)%nat; [|discriminate]. injection Ha as <- <-. now apply Stay.
    + cbn [act] in Ha. destruct (queue s o) as [q|]; [|discriminate]. destruct (_ && _); [discriminate|]. injection Ha as <- <-. now apply Stay.
    + cbn [act] in Ha. destruct (queue s o) as [q|]; [|discriminate]. injection Ha as <- <-. now apply Stay.
  - destruct T as (c0 & r & T & _). injection T as <- ->. discriminate.
Qed.
(** Events and workers do not touch what the locks guard. *)
Lemma same_ainv s V h st s' : ainv s V h st -> l_threads s' = l_threads s -> l_fac s' = l_fac s -> l_man s' = l_man s -> l_w s' = l_w s ->
  ainv s' V h st.
Proof.
  intros I E1 E2 E3 E4. constructor; rewrite ?E1, ?E4; try apply I.
  intros i t Hi. destruct (ai_tv _ _ _ _ I i t Hi) as [T Q]. split; [|assumption].
  eapply tv_frame; [exact T| | |]; rewrite ?E4; auto using ext_refl.
Qed.
Lemma work_same s o s' : work s o = Some s' -> l_threads s' = l_threads s /\ l_fac s' = l_fac s /\ l_man s' = l_man s /\ l_w s' = l_w s.
Proof.
  unfold work. destruct (queue s o) as [q|]; [|discriminate]. destruct (negb (q_started q)); [intros [= <-]; auto|].
  destruct (q_gone q); [discriminate|]. destruct (q_items q) as [|x items]; [discriminate|]. intros [= <-]. auto.
Qed.
Lemma lstep_ainv s V h st a s' : ainv s V h st -> lstep P boom s a s' -> exists V' e i st', adds V i e V' /\ ainv s' V' (h ++ e) st'.
Proof.
  intros I St. destruct St as [s i d c cs Hi|s i d c p cs s' p' Hi Ha|s i d c r cs Hi|s o s' Hw|s o q Hq Hl].
  - destruct (call_step _ _ _ _ _ _ _ _ I Hi) as (V' & e & st' & H). eauto.
  - destruct (act_step _ _ _ _ _ _ _ _ _ _ _ I Hi Ha) as (V' & e & st' & H). eauto.
  - destruct (return_step _ _ _ _ _ _ _ _ _ I Hi) as (st' & H). exists V, [], 0, st'. rewrite app_nil_r. split; [now left|assumption].
  - destruct (work_same _ _ _ Hw) as (E1 & E2 & E3 & E4). exists V, [], 0, st. rewrite app_nil_r. split; [now left|].
    eapply same_ainv; eassumption.
  - exists V, [], 0, st. rewrite app_nil_r. split; [now left|]. eapply same_ainv; try eassumption; reflexivity.
Qed.
Lemma adds_seq W h V i e V' : seq P boom W h V -> adds V i e V' -> seq P boom W (h ++ e) V'.
Proof. intros S [[-> ->]|(c & r & -> & E)]; [now rewrite app_nil_r|]. econstructor; eassumption. Qed.
Lemma lsteps_ainv W s V h st l s' : seq P boom W h V -> ainv s V h st -> lsteps P boom s l s' ->
  exists V' e st', seq P boom W (h ++ e) V' /\ ainv s' V' (h ++ e) st'.
Proof.
  intros S I H. revert S I. induction H as [s|s l s1 a s2 H IH St]; intros S I.
  - exists V, [], st. rewrite app_nil_r. auto.
  - destruct (IH S I) as (V1 & e1 & st1 & S1 & I1). destruct (lstep_ainv _ _ _ _ _ _ I1 St) as (V2 & e2 & i & st2 & A & I2).
    exists V2, (e1 ++ e2), st2. rewrite app_assoc. split; [eapply adds_seq; eassumption|assumption].
Qed.
Lemma start_ainv W q todo : w_root W <> None -> outs_valid W -> Forall (Forall (quiet P)) todo -> ainv (l_start W q todo) W [] (fun _ => SIdle).
Proof.
  intros R V Q. constructor; auto.
  - intros i t Hi. cbn in Hi. apply nth_error_In, in_map_iff in Hi as (cs & <- & Hin). split.
    + split; [discriminate|]. split; [discriminate|]. auto.
    + cbn. rewrite Forall_forall in Q. auto.
Qed.
Lemma ainv_explains W s V h st : seq P boom W h V -> ainv s V h st -> explains P boom W h s.
Proof.
  intros S I. exists V. split; [assumption|]. split; [|split].
  - intros i t Hi. destruct (ai_tv _ _ _ _ I i t Hi) as [(_ & _ & T) _]. destruct (st i).
    + destruct T as [-> T]. assumption.
    + destruct T as (c & m & k & -> & _ & _ & T). auto.
    + destruct T as (c & p & -> & _ & _ & T). auto.
    + destruct T as (c & p & r & -> & _ & T). eauto.
    + destruct T as (c & p & r & -> & _ & T). eauto.
    + destruct T as (c & r & -> & T). eauto.
  - apply I.
  - intros Hn. assert (A : forall i, st i = SIdle).
    { intros i. destruct (nth_error (l_threads s) i) as [t|] eqn:E; [|now apply (ai_out _ _ _ _ I)].
      destruct (ai_tv _ _ _ _ I i t E) as [(_ & _ & T) _]. rewrite (Hn i t E) in T.
      destruct (st i); [reflexivity| | | | |]; exfalso; destruct T as (x & y & T); try discriminate; destruct T as (z & T);
        try discriminate; destruct T as [T _]; discriminate. }
    rewrite <- (join_id (l_w s)), <- (join_id V).
    rewrite (ai_fac _ _ _ _ I), (ai_man _ _ _ _ I); [reflexivity| |]; intros i; now rewrite A.
Qed.

(** ** GetLogger alone: one call after the other from lock to unlock *)
Inductive gform : lprog -> Prop :=
| gf_act m A (f : world -> pres A) k e : (forall a, gform (k a)) -> gform e -> gform (LAct m f k e)
| gf_lock k : gform k -> gform (LLock Man k)
| gf_unlock k : gform k -> gform (LUnlock Man k)
| gf_end r : gform (LUnlock Fac (LRet r)).
Lemma gform_inv p : gform p ->
  match p with
  | LAct m f k e => (forall a, gform (k a)) /\ gform e
  | LLock Man k => gform k
  | LUnlock Man k => gform k
  | LUnlock Fac q => exists r, q = LRet r
  | _ => False
  end.
Proof. destruct 1; eauto. Qed.
Lemma get_gform n k : p_GetLogger P n = LLock Fac k -> gform k.
Proof.
  unfold p_GetLogger. intros [= <-].
  assert (Rt : forall k0, (forall r, gform (k0 r)) -> gform (p_root P k0 fac_panic)).
  { intros k0 Hk. unfold p_root. constructor; [|constructor]. intros [r|id]; [apply Hk|].
    unfold p_outputs. constructor. constructor; [|constructor; constructor]. intros g. constructor. constructor; [assumption|constructor]. }
  destruct (_ || _).
  - apply Rt. intros r. constructor.
  - constructor; [|constructor]. intros [id|]; [constructor|]. apply Rt. intros r. constructor; [|constructor].
    intros id. unfold p_outputs. constructor. constructor; [|constructor; constructor]. intros g. constructor. constructor; [intros _; constructor|constructor].
Qed.
Inductive gstatus := GIdle | GReady | GRun | GFin.
Definition gv (s : lstate) (V : world) (i : nat) (t : thread) (x : gstatus) (o : list (call * option ret)) : Prop :=
  match x with
  | GIdle => t_now t = None /\ o = t_done t
  | GReady => exists n, t_now t = Some (CGetLogger n, p_GetLogger P n) /\ o = t_done t
  | GRun => exists c p r, l_fac s = Some i /\ t_now t = Some (c, p) /\ gform p /\ alone p (l_w s) = (V, r) /\ o = t_done t ++ [(c, r)]
  | GFin => exists c r, t_now t = Some (c, LRet r) /\ o = t_done t ++ [(c, r)]
  end.
Record ginv (s : lstate) (V : world) (h : list (nat * (call * option ret))) (st : nat -> gstatus) : Prop := {
  gi_gv : forall i t, nth_error (l_threads s) i = Some t -> gv s V i t (st i) (only i h) /\ Forall gets (t_todo t);
  gi_out : forall i, nth_error (l_threads s) i = None -> st i = GIdle;
  gi_free : (forall i, st i <> GRun) -> V = l_w s;
  gi_in : Forall (fun x => fst x < length (l_threads s)) h
}.
Lemma gi_run s V h st j : ginv s V h st -> st j = GRun -> l_fac s = Some j.
Proof.
  intros I H. destruct (nth_error (l_threads s) j) as [t|] eqn:E.
  - pose proof (proj1 (gi_gv _ _ _ _ I j t E)) as T. rewrite H in T. destruct T as (c & p & r & T & _). exact T.
  - rewrite (gi_out _ _ _ _ I j E) in H. discriminate.
Qed.
Definition gt_set (st : nat -> gstatus) (i : nat) (x : gstatus) (j : nat) : gstatus := if j =? i then x else st j.
Lemma gmoved s V h st i t x s1 V' e t' :
  ginv s V h st -> nth_error (l_threads s) i = Some t -> l_threads s1 = l_threads s -> t_todo t' = t_todo t \/ (exists c, t_todo t = c :: t_todo t') ->
  e = [] \/ (exists y, e = [(i, y)]) ->
  gv s1 V' i t' x (only i (h ++ e)) ->
  (forall j, j <> i -> st j = GRun -> l_fac s1 = l_fac s /\ l_w s1 = l_w s /\ V' = V) ->
  ((forall j, j <> i -> st j <> GRun) -> x <> GRun -> V' = l_w s1) ->
  ginv (put s1 i t') V' (h ++ e) (gt_set st i x).
Proof.
  intros I Hi Ht Htd He T A D.
  assert (Hlen : i < length (l_threads s)) by (apply nth_error_Some; congruence).
  assert (Tw : forall j u y o, gv s1 V' j u y o -> gv (put s1 i t') V' j u y o) by (intros j u y o; destruct y; exact (fun z => z)).
  constructor.
  - intros j u Hj. cbn [put l_threads] in Hj. rewrite Ht in Hj. unfold gt_set. destruct (Nat.eqb_spec j i) as [->|Hne].
    + rewrite (nth_upd_eq _ _ _ _ Hi) in Hj. injection Hj as <-. split; [now apply Tw|].
      pose proof (proj2 (gi_gv _ _ _ _ I i t Hi)) as Q. destruct Htd as [->|[c Ec]]; [assumption|].
      rewrite Ec in Q. now apply Forall_inv_tail in Q.
    + rewrite (nth_upd_ne _ _ _ _ Hne) in Hj. destruct (gi_gv _ _ _ _ I j u Hj) as [Tj Qj]. split; [|assumption].
      replace (only j (h ++ e)) with (only j h).
      2:{ rewrite only_app. destruct He as [->|[y ->]]; [now rewrite app_nil_r|]. now rewrite (only_other _ _ _ Hne), app_nil_r. }
      apply Tw. pose proof (A j Hne) as Aj. destruct (st j); try exact Tj. destruct (Aj eq_refl) as (E1 & E2 & ->).
      unfold gv in *. now rewrite E1, E2.
  - intros j Hj. cbn [put l_threads] in Hj. rewrite Ht in Hj. unfold gt_set. destruct (Nat.eqb_spec j i) as [->|Hne].
    + exfalso. apply nth_error_None in Hj. rewrite upd_length in Hj. lia.
    + rewrite (nth_upd_ne _ _ _ _ Hne) in Hj. now apply (gi_out _ _ _ _ I).
  - intros Hj. apply D.
    + intros j Hne. specialize (Hj j). unfold gt_set in Hj. now destruct (Nat.eqb_spec j i).
    + specialize (Hj i). unfold gt_set in Hj. now rewrite Nat.eqb_refl in Hj.
  - cbn [put l_threads]. rewrite upd_length, Ht. apply Forall_app. split; [apply I|].
    destruct He as [->|[y ->]]; [constructor|]. constructor; [exact Hlen|constructor].
Qed.
Lemma lstep_ginv s V h st a s' : ginv s V h st -> lstep P boom s a s' -> exists V' e i st', adds V i e V' /\ ginv s' V' (h ++ e) st'.
Proof.
  intros I St. destruct St as [s i d c cs Hi|s i d c p cs s' p' Hi Ha|s i d c r cs Hi|s o s' Hw|s o q Hq Hl].
  - destruct (gi_gv _ _ _ _ I i _ Hi) as [T Q]. cbn in Q. pose proof (Forall_inv Q) as Qc. destruct c as [n| | | | | | |]; try contradiction.
    assert (Ei : st i = GIdle /\ only i h = d).
    { destruct (st i); cbn in T; [now split| | |].
      - destruct T as (? & T & _). discriminate.
      - destruct T as (? & ? & ? & _ & T & _). discriminate.
      - destruct T as (? & ? & T & _). discriminate. }
    destruct Ei as [Ei Eo]. exists V, [], i, (gt_set st i GReady). split; [now left|]. eapply gmoved; try exact I; try eassumption; auto.
    + cbn. right. eauto.
    + exists n. rewrite app_nil_r. auto.
    + intros Hj _. apply (gi_free _ _ _ _ I). intros j. destruct (Nat.eq_dec j i) as [->|Hne]; [now rewrite Ei|auto].
  - destruct (gi_gv _ _ _ _ I i _ Hi) as [T _]. cbn in T. destruct (st i) eqn:Es.
    + destruct T as [T _]. discriminate.
    + destruct T as (n & T & Eo). injection T as -> ->. assert (exists k, p_GetLogger P n = LLock Fac k) as [k Ek] by (unfold p_GetLogger; eauto).
      rewrite Ek in Ha. cbn [act owner] in Ha. destruct (l_fac s) eqn:Ew; [discriminate|]. injection Ha as <- <-.
      assert (NR : forall j, st j <> GRun) by (intros j Ej; apply (gi_run _ _ _ _ _ I) in Ej; congruence).
      pose proof (gi_free _ _ _ _ I NR) as EV. destruct (alone k V) as [V' r] eqn:Eal.
      exists V', [(i, (CGetLogger n, r))], i, (gt_set st i GRun). split; [right; exists (CGetLogger n), r; cbn [p_call]; rewrite Ek; auto|].
      eapply gmoved; try exact I; try eassumption; auto.
      * right. eauto.
      * exists (CGetLogger n), k, r. split; [reflexivity|]. split; [reflexivity|]. split; [exact (get_gform n k Ek)|].
        split; [cbn; now rewrite <- EV|]. now rewrite only_app, only_one, Eo.
      * intros j _ Ej. now destruct (NR j).
      * intros _ Hx. now destruct Hx.
    + destruct T as (c0 & p0 & r & Hf & T & G & Eal & Eo). injection T as <- <-.
      assert (NR : forall j, j <> i -> st j <> GRun) by (intros j Hne Ej; apply (gi_run _ _ _ _ _ I) in Ej; congruence).
      assert (Go : forall s1 k', l_threads s1 = l_threads s -> l_fac s1 = l_fac s -> gform k' -> alone k' (l_w s1) = (V, r) ->
        exists V' e i0 st', adds V i0 e V' /\ ginv (put s1 i (mkT d (Some (c, k')) cs)) V' (h ++ e) st').
      { intros s1 k' E1 E2 G' E3. exists V, [], i, (gt_set st i GRun). split; [now left|]. eapply gmoved; try exact I; try eassumption; auto.
        - rewrite app_nil_r. exists c, k', r. rewrite E2. auto.
        - intros j Hne Ej. now destruct (NR j Hne).
        - intros _ Hx. now destruct Hx. }
      pose proof (gform_inv _ G) as Gv.
      destruct p as [r0|m k|m k|m A f k e|o k1 k2|o k|o k|o k]; try contradiction; cbn [act] in Ha; cbn [alone] in Eal.
      * destruct m; [contradiction|]. destruct (owner s Man); [discriminate|]. injection Ha as <- <-. now apply Go.
      * injection Ha as <- <-. destruct m.
        -- destruct Gv as [r0 ->]. cbn in Eal. injection Eal as EV ->.
           exists V, [], i, (gt_set st i GFin). split; [now left|]. eapply gmoved; try exact I; try eassumption; auto.
           ++ rewrite app_nil_r. exists c, r. auto.
           ++ intros j Hne Ej. now destruct (NR j Hne).
        -- now apply Go.
      * destruct Gv as [G1 G2]. destruct (f (l_w s)) as [[W1 a0]|]; injection Ha as <- <-; now apply Go.
    + destruct T as (c0 & r & T & _). injection T as <- ->. discriminate.
  - destruct (gi_gv _ _ _ _ I i _ Hi) as [T _]. cbn in T.
    assert (Ei : only i h = d ++ [(c, r)] /\ st i <> GRun).
    { destruct (st i).
      - destruct T as [T _]. discriminate.
      - destruct T as (n & T & _). injection T as _ T. discriminate.
      - destruct T as (c0 & p & r0 & _ & T & G & _). injection T as <- <-. apply gform_inv in G. contradiction.
      - destruct T as (c0 & r0 & T & To). injection T as <- <-. split; [assumption|discriminate]. }
    destruct Ei as [Eo Er]. exists V, [], i, (gt_set st i GIdle). split; [now left|]. eapply gmoved; try exact I; try eassumption; auto.
    + rewrite app_nil_r. cbn. auto.
    + intros Hj _. apply (gi_free _ _ _ _ I). intros j. destruct (Nat.eq_dec j i) as [->|Hne]; auto.
  - destruct (work_same _ _ _ Hw) as (E1 & E2 & E3 & E4). exists V, [], 0, st. rewrite app_nil_r. split; [now left|].
    constructor; rewrite ?E1, ?E4; try apply I. intros i t Hi. destruct (gi_gv _ _ _ _ I i t Hi) as [T Q]. split; [|assumption].
    unfold gv in *. now rewrite E2, E4.
  - exists V, [], 0, st. rewrite app_nil_r. split; [now left|]. constructor; apply I.
Qed.
Lemma lsteps_ginv W s V h st l s' : seq P boom W h V -> ginv s V h st -> lsteps P boom s l s' ->
  exists V' e st', seq P boom W (h ++ e) V' /\ ginv s' V' (h ++ e) st'.
Proof.
  intros S I H. revert S I. induction H as [s|s l s1 a s2 H IH St]; intros S I.
  - exists V, [], st. rewrite app_nil_r. auto.
  - destruct (IH S I) as (V1 & e1 & st1 & S1 & I1). destruct (lstep_ginv _ _ _ _ _ _ I1 St) as (V2 & e2 & i & st2 & A & I2).
    exists V2, (e1 ++ e2), st2. rewrite app_assoc. split; [eapply adds_seq; eassumption|assumption].
Qed.
Lemma start_ginv W q todo : Forall (Forall gets) todo -> ginv (l_start W q todo) W [] (fun _ => GIdle).
Proof.
  intros Q. constructor; auto. intros i t Hi. cbn in Hi. apply nth_error_In, in_map_iff in Hi as (cs & <- & Hin). split.
  - cbn. auto.
  - cbn. rewrite Forall_forall in Q. auto.
Qed.
Lemma ginv_explains W s V h st : seq P boom W h V -> ginv s V h st -> explains P boom W h s.
Proof.
  intros S I. exists V. split; [assumption|]. split; [|split].
  - intros i t Hi. destruct (gi_gv _ _ _ _ I i t Hi) as [T _]. destruct (st i).
    + destruct T as [-> T]. assumption.
    + destruct T as (n & -> & T). auto.
    + destruct T as (c & p & r & _ & -> & _ & _ & T). eauto.
    + destruct T as (c & r & -> & T). eauto.
  - apply I.
  - intros Hn. symmetry. apply (gi_free _ _ _ _ I). intros i Ei.
    destruct (nth_error (l_threads s) i) as [t|] eqn:E; [|rewrite (gi_out _ _ _ _ I i E) in Ei; discriminate].
    destruct (gi_gv _ _ _ _ I i t E) as [T _]. rewrite Ei in T. destruct T as (c & p & r & _ & T & _). rewrite (Hn i t E) in T. discriminate.
Qed.
End Run.

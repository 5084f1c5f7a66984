(** Proofs about concurrent writes. *)
From Verif Require Import GoStr Strconv ConfModel RollModel RollSpec RollProofs RollExec RollSafeProofs RollConcModel RollConcSpec.
From Coq Require Import Permutation Sorted.
Local Open Scope Z_scope.

(** * Running alone *)

(** A program without locks as one that passes the fields along. *)
Inductive lockfree {A} : mprog A -> Prop :=
| lf_done a : lockfree (MDone a)
| lf_get k : (forall w, lockfree (k w)) -> lockfree (MGet k)
| lf_upd g k : lockfree k -> lockfree (MUpd g k)
| lf_op o k : (forall r, lockfree (k r)) -> lockfree (MOp o k).
Fixpoint solo {A} (p : mprog A) (w : wst) : prog (wst * A) :=
  match p with
  | MDone a => Done (w, a)
  | MLock k | MUnlock k => solo k w
  | MGet k => solo (k w) w
  | MUpd g k => solo k (g w)
  | MOp o k => Op o (fun r => solo (k r) w)
  end.
Inductive peq {A} : prog A -> prog A -> Prop :=
| pe_done a : peq (Done a) (Done a)
| pe_op o k k' : (forall r, peq (k r) (k' r)) -> peq (Op o k) (Op o k').
Lemma peq_refl {A} (p : prog A) : peq p p.
Proof. induction p; constructor; auto. Qed.
Lemma peq_runs {A} (p q : prog A) f tr f' a : peq p q -> runs p f tr f' a -> runs q f tr f' a.
Proof.
  intros E H. revert q E. induction H as [a f|o k r f f1 tr f2 a E H IH]; intros q Q; inversion Q; subst; [constructor|econstructor; eauto].
Qed.
Lemma peq_bind {A B} (p q : prog A) (f g : A -> prog B) : peq p q -> (forall a, peq (f a) (g a)) -> peq (pbind p f) (pbind q g).
Proof. intros E H. induction E; cbn; [apply H|now constructor]. Qed.
Lemma peq_trans {A} (p q r : prog A) : peq p q -> peq q r -> peq p r.
Proof. intros E. revert r. induction E; intros r0 E2; inversion E2; subst; constructor; auto. Qed.
Lemma solo_bind {A B} (p : mprog A) (f : A -> mprog B) : forall w, peq (solo (mbind p f) w) (pbind (solo p w) (fun x => solo (f (snd x)) (fst x))).
Proof.
  induction p as [a|k IH|k IH|k IH|g k IH|o k IH]; intros w; cbn; auto; [apply peq_refl|]. constructor. auto.
Qed.
Lemma solo_lift {A} (p : prog A) w : peq (solo (lift p) w) (pbind p (fun a => Done (w, a))).
Proof. induction p; cbn; [apply peq_refl|]. constructor. auto. Qed.
Lemma lf_bind {A B} (p : mprog A) (f : A -> mprog B) : lockfree p -> (forall a, lockfree (f a)) -> lockfree (mbind p f).
Proof. intros L H. induction L; cbn; [apply H|..]; constructor; auto. Qed.
Lemma lf_lift {A} (p : prog A) : lockfree (lift p).
Proof. induction p; cbn; constructor; auto. Qed.
Lemma pbind_assoc {A B C} (p : prog A) (f : A -> prog B) (g : B -> prog C) : peq (pbind (pbind p f) g) (pbind p (fun a => pbind (f a) g)).
Proof. induction p; cbn; [apply peq_refl|]. constructor. auto. Qed.

(** Sequencing with [solo] step by step. *)
Lemma solo_seq {A B} (p : mprog A) (q : prog (wst * A)) (f : A -> mprog B) (g : wst * A -> prog (wst * B)) w :
  peq (solo p w) q -> (forall w a, peq (solo (f a) w) (g (w, a))) -> peq (solo (mbind p f) w) (pbind q g).
Proof. intros E H. eapply peq_trans; [apply solo_bind|]. apply peq_bind; [exact E|]. intros [w' a]. apply H. Qed.
Lemma solo_lift_seq {A B} (p : prog A) (f : A -> mprog B) (g : A -> prog (wst * B)) w :
  (forall a, peq (solo (f a) w) (g a)) -> peq (solo (mbind (lift p) f) w) (pbind p g).
Proof. intros H. induction p; cbn; [apply H|]. constructor. auto. Qed.

Section Conf.
Variables (P : tparse) (c : roll_conf).
Lemma solo_needs w : peq (solo (c_needsToRoll c) w) (needsToRoll c w).
Proof.
  unfold c_needsToRoll, needsToRoll. destruct (rc_kind c) as [m|p]; cbn [get mbind solo]; [apply peq_refl|].
  apply solo_lift_seq. intros s. cbn. destruct (w_period w) eqn:E; cbn; rewrite <- ?E; apply peq_refl.
Qed.
Lemma solo_newName h w : peq (solo (c_newName c h) w) (getNewHistoryRollFileName c w h).
Proof.
  unfold c_newName, getNewHistoryRollFileName. destruct (rc_kind c) as [m|p]; [apply peq_refl|].
  cbn [get mbind solo]. apply solo_lift_seq. intros s. cbn. apply peq_refl.
Qed.
Lemma solo_create w : peq (solo (c_createFile c) w) (createFile c w).
Proof.
  unfold c_createFile, createFile. cbn. constructor. intros r. destruct r; cbn; try apply peq_refl.
  apply solo_lift_seq. intros n. cbn. constructor. intros r. destruct r; cbn; try apply peq_refl.
  constructor. intros r. destruct r; cbn; try (constructor; intros r0; cbn; apply peq_refl).
Qed.
Lemma solo_roll w : peq (solo (c_roll P c) w) (roll P c w).
Proof.
  unfold c_roll, roll. generalize (getSortedLogHistory P c). intros hp. cbn. destruct (w_file w) as [[n []]|]; cbn; try apply peq_refl.
  constructor. intros r. destruct r; cbn; try apply peq_refl.
  apply solo_lift_seq. intros [history|]; cbn; [|apply peq_refl].
  apply solo_seq; [apply solo_newName|]. intros w1 rname. cbn. constructor. intros r. destruct r; cbn; try apply peq_refl.
  constructor. intros r. apply solo_lift_seq. intros u. cbn. apply peq_refl.
Qed.
Lemma solo_body b w : peq (solo (c_body P c b) w) (rw_Write P c w b).
Proof.
  unfold c_body, rw_Write. apply solo_seq; [apply solo_needs|]. intros w1 need.
  apply solo_seq; [destruct need; [apply solo_roll|apply peq_refl]|]. intros w2 err. destruct err; [apply peq_refl|].
  cbn [get mbind solo]. apply solo_seq; [destruct (w_file w2); [apply peq_refl|apply solo_create]|]. intros w3 err. destruct err; [apply peq_refl|].
  cbn. destruct (w_file w3) as [[n []]|]; cbn; try apply peq_refl. constructor. intros r. destruct r; cbn; apply peq_refl.
Qed.
Ltac lf := repeat first [apply lf_bind; [|intros ?] | apply lf_lift | match goal with |- lockfree (match ?x with _ => _ end) => destruct x end | constructor; intros].
Lemma body_lockfree b : lockfree (c_body P c b).
Proof. unfold c_body, c_needsToRoll, c_roll, c_newName, c_createFile. lf. Qed.

(** How far a lock-free program has got. *)
Inductive reach {A} : mprog A -> wst -> fs -> list (fsop * fsres) -> mprog A -> wst -> fs -> Prop :=
| re_nil p w f : reach p w f [] p w f
| re_get p w f tr k w1 f1 : reach p w f tr (MGet k) w1 f1 -> reach p w f tr (k w1) w1 f1
| re_upd p w f tr g k w1 f1 : reach p w f tr (MUpd g k) w1 f1 -> reach p w f tr k (g w1) f1
| re_op p w f tr o k r w1 f1 f2 : reach p w f tr (MOp o k) w1 f1 -> eff o r f1 f2 -> reach p w f (tr ++ [(o, r)]) (k r) w1 f2.
Lemma reach_lf {A} (p : mprog A) w f tr q w1 f1 : reach p w f tr q w1 f1 -> lockfree p -> lockfree q.
Proof. intros H L. induction H; auto; specialize (IHreach L); inversion IHreach; subst; auto. Qed.
Lemma reach_solo {A} (p : mprog A) w f tr q w1 f1 : reach p w f tr q w1 f1 -> forall tr' f' x, runs (solo q w1) f1 tr' f' x -> runs (solo p w) f (tr ++ tr') f' x.
Proof.
  induction 1; intros tr' f' x H'; auto. rewrite <- app_assoc. cbn. apply IHreach. cbn. econstructor; eassumption.
Qed.
Lemma reach_done b w f tr r w1 f1 : reach (c_body P c b) w f tr (MDone r) w1 f1 -> runs (rw_Write P c w b) f tr f1 (w1, r).
Proof.
  intros H. eapply peq_runs; [apply solo_body|]. rewrite <- (app_nil_r tr). eapply reach_solo; [exact H|]. constructor.
Qed.
Lemma solo_partly {A} (p : mprog A) w f tr q w1 f1 : reach p w f tr q w1 f1 -> forall tr' f', partly (solo q w1) f1 tr' f' -> partly (solo p w) f (tr ++ tr') f'.
Proof.
  induction 1; intros tr' f' H'; auto. rewrite <- app_assoc. cbn. apply IHreach. cbn. econstructor; eassumption.
Qed.
Lemma peq_partly {A} (p q : prog A) f tr f' : peq p q -> partly p f tr f' -> partly q f tr f'.
Proof. intros E H. revert q E. induction H; intros q Q; [constructor|]. inversion Q; subst. econstructor; eauto. Qed.
Lemma reach_partly b w f tr q w1 f1 : reach (c_body P c b) w f tr q w1 f1 -> partly (rw_Write P c w b) f tr f1.
Proof.
  intros H. eapply peq_partly; [apply solo_body|]. rewrite <- (app_nil_r tr). eapply solo_partly; [exact H|]. constructor.
Qed.

(** * The invariant *)

(** The part of a write still to come. *)
Definition rest_of (p : mprog (nat * bool)) : mprog (nat * bool) := r <-- p ;; MUnlock (MDone r).
(** Not between Lock and Unlock; [x] is the write whose result has not been returned yet. *)
Definition outside (t : thread) (x : list (str * (nat * bool))) : Prop :=
  match t_now t with
  | None => x = []
  | Some (b, p) => (p = c_Write P c b /\ x = []) \/ exists r, p = MDone r /\ x = [(b, r)]
  end.
Definition inv (f0 : fs) (w0 : wst) (tr : list (nat * (fsop * fsres))) (s : cstate) : Prop :=
  exists l tr0 f w, serial P c f0 w0 l tr0 f w /\
    match c_lock s with
    | None => tr = tr0 /\ c_fs s = f /\ c_w s = w /\ forall i, exists x, outside (c_threads s i) x /\ t_done (c_threads s i) ++ x = mine i l
    | Some j => (exists b p tr1, at_ s j b (rest_of p) /\ reach (c_body P c b) w f tr1 p (c_w s) (c_fs s) /\ tr = tr0 ++ own j tr1) /\
        t_done (c_threads s j) = mine j l /\
        forall i, i <> j -> exists x, outside (c_threads s i) x /\ t_done (c_threads s i) ++ x = mine i l
    end.
Lemma mine_app i l l' : mine i (l ++ l') = mine i l ++ mine i l'.
Proof. unfold mine. now rewrite filter_app, map_app. Qed.
Lemma own_app i a b : own i (a ++ b) = own i a ++ own i b.
Proof. apply map_app. Qed.
Lemma set_same s i t : set_thread s i t i = t.
Proof. unfold set_thread. now rewrite Nat.eqb_refl. Qed.
Lemma set_other s i t j : j <> i -> set_thread s i t j = c_threads s j.
Proof. unfold set_thread. intros H. destruct (Nat.eqb_spec j i); [contradiction|reflexivity]. Qed.
(** What a step of [rest_of p] is. *)
Lemma rest_shape p : lockfree p -> match rest_of p with
  | MUnlock k => exists r, p = MDone r /\ k = MDone r
  | MGet k => exists k', p = MGet k' /\ forall w, k w = rest_of (k' w)
  | MUpd g k => exists k', p = MUpd g k' /\ k = rest_of k'
  | MOp o k => exists k', p = MOp o k' /\ forall r, k r = rest_of (k' r)
  | MLock _ | MDone _ => False
  end.
Proof. intros L. destruct L; cbn; eauto. Qed.

Lemma outside_rest b p t x : t_now t = Some (b, p) -> outside t x -> (p = c_Write P c b /\ x = []) \/ exists r, p = MDone r /\ x = [(b, r)].
Proof. unfold outside. now intros ->. Qed.
Lemma step_inv f0 w0 tr s tr1 s1 : inv f0 w0 tr s -> cstep P c s tr1 s1 -> inv f0 w0 (tr ++ tr1) s1.
Proof.
  intros (l & tr0 & f & w & SE & I) ST.
  (* the goroutine holding the lock *)
  assert (HOLD : forall j i, c_lock s = Some j -> (exists x, outside (c_threads s i) x /\ t_done (c_threads s i) ++ x = mine i l) \/ i = j).
  { intros j i L. rewrite L in I. destruct I as (_ & _ & O). destruct (Nat.eq_dec i j); [now right|]. left. auto. }
  (* a goroutine outside moves, the lock and everything shared being as before *)
  assert (OUT : forall i t, tr1 = [] -> (exists x, outside t x /\ t_done t ++ x = mine i l) ->
    (c_lock s <> Some i) -> s1 = mkC (c_lock s) (c_w s) (c_fs s) (set_thread s i t) -> inv f0 w0 (tr ++ tr1) s1).
  { intros i t -> OX NL ->. rewrite app_nil_r. exists l, tr0, f, w. split; [exact SE|]. cbn [c_lock c_threads c_fs c_w]. destruct (c_lock s) as [j|].
    - destruct I as ((b & p & tr2 & A & R & T) & D & O). assert (j <> i) by congruence. split; [|split].
      + exists b, p, tr2. unfold at_ in *. cbn [c_threads c_fs c_w]. rewrite set_other by assumption. auto.
      + now rewrite set_other.
      + intros i' NE. destruct (Nat.eq_dec i' i) as [-> |N]; [now rewrite set_same|]. rewrite set_other by assumption. auto.
    - destruct I as (T & F & W & O). repeat (split; [assumption|]). intros i'.
      destruct (Nat.eq_dec i' i) as [-> |N]; [now rewrite set_same|]. rewrite set_other by assumption. auto. }
  (* what a goroutine about to do something is *)
  assert (WHO : forall i b p, at_ s i b p ->
    (c_lock s = Some i /\ exists p' tr2, p = rest_of p' /\ lockfree p' /\ reach (c_body P c b) w f tr2 p' (c_w s) (c_fs s) /\ tr = tr0 ++ own i tr2) \/
    (c_lock s <> Some i /\ exists x, ((p = c_Write P c b /\ x = []) \/ exists r, p = MDone r /\ x = [(b, r)]) /\ t_done (c_threads s i) ++ x = mine i l)).
  { intros i b p A. destruct (c_lock s) as [j|].
    - destruct (Nat.eq_dec i j) as [<- |N].
      + left. split; [reflexivity|]. destruct I as ((b' & p' & tr2 & A' & R & T) & D & O). unfold at_ in *. rewrite A' in A. injection A as -> <-.
        exists p', tr2. repeat (split; [auto|]); auto. exact (reach_lf _ _ _ _ _ _ _ R (body_lockfree b)).
      + right. split; [congruence|]. destruct I as (_ & _ & O). destruct (O i N) as (x & X & Y). exists x. split; [now apply (outside_rest b p) in X|exact Y].
    - right. split; [discriminate|]. destruct I as (_ & _ & _ & O). destruct (O i) as (x & X & Y). exists x. split; [now apply (outside_rest b p) in X|exact Y]. }
  (* the goroutine inside moves *)
  assert (IN : forall i b p' tr2 w' f', c_lock s = Some i -> reach (c_body P c b) w f tr2 p' w' f' -> s1 = mkC (c_lock s) w' f' (goto s i b (rest_of p')) ->
    tr ++ tr1 = tr0 ++ own i tr2 -> inv f0 w0 (tr ++ tr1) s1).
  { intros i b p' tr2 w' f' L R -> T. exists l, tr0, f, w. split; [exact SE|]. cbn [c_lock c_threads c_fs c_w]. rewrite L in *. destruct I as (_ & D & O).
    split; [|split].
    - exists b, p', tr2. unfold at_. cbn [c_threads c_fs c_w]. unfold goto. rewrite set_same. auto.
    - unfold goto. now rewrite set_same.
    - intros i' N. unfold goto. rewrite set_other by assumption. auto. }
  inversion ST as [? i d b bs T|? i b k A L|? i b k A|? i b k A|? i b g k A|? i b o k r f' A E|? i b r A]; subst.
  - (* call *)
    assert (NL : c_lock s <> Some i).
    { intros L. rewrite L in I. destruct I as ((b' & p' & tr2 & A & _) & _). unfold at_ in A. rewrite T in A. discriminate. }
    eapply OUT; [reflexivity| |exact NL|reflexivity]. cbn. exists []. split; [now left|].
    assert (X : exists x, outside (c_threads s i) x /\ t_done (c_threads s i) ++ x = mine i l).
    { destruct (c_lock s) as [j|] eqn:L; [destruct (HOLD j i eq_refl); [assumption|congruence]|]. destruct I as (_ & _ & _ & O). apply O. }
    destruct X as (x & X & Y). rewrite T in *. cbn in *. subst x. exact Y.
  - (* acquire *)
    destruct (WHO _ _ _ A) as [[X _]|[_ (x & [[Q ->]|(r & Q & _)] & D)]]; [congruence| |discriminate]. injection Q as ->.
    rewrite L in I. destruct I as (-> & F & W & O). rewrite app_nil_r in D. rewrite app_nil_r. exists l, tr0, f, w. split; [exact SE|]. cbn [c_lock c_threads c_fs c_w].
    split; [|split].
    + exists b, (c_body P c b), []. unfold at_. cbn [c_threads c_fs c_w]. unfold goto. rewrite set_same, F, W. split; [reflexivity|]. split; [constructor|]. cbn. now rewrite app_nil_r.
    + unfold goto. now rewrite set_same.
    + intros i' N. unfold goto. rewrite set_other by assumption. auto.
  - (* release *)
    destruct (WHO _ _ _ A) as [[L (p' & tr2 & Q & LF & R & T)]|[_ (x & [[Q _]|(r & Q & _)] & D)]]; [|discriminate|discriminate].
    pose proof (rest_shape p' LF) as S. rewrite <- Q in S. destruct S as (r & -> & ->). apply reach_done in R. rewrite L in I. destruct I as (_ & D & O).
    rewrite app_nil_r. exists (l ++ [(i, (b, r))]), (tr0 ++ own i tr2), (c_fs s), (c_w s). split; [econstructor; eassumption|]. cbn [c_lock c_threads c_fs c_w].
    repeat (split; [assumption || reflexivity|]). intros i'. rewrite mine_app. unfold goto. destruct (Nat.eq_dec i' i) as [-> |N].
    + rewrite set_same. exists [(b, r)]. unfold outside, mine. cbn. rewrite Nat.eqb_refl. cbn. split; [right; eauto|]. now rewrite D.
    + rewrite set_other by assumption. unfold mine at 2. cbn. destruct (Nat.eqb_spec i i') as [E|_]; [congruence|]. cbn. rewrite app_nil_r. auto.
  - (* get *)
    destruct (WHO _ _ _ A) as [[L (p' & tr2 & Q & LF & R & T)]|[_ (x & [[Q _]|(r & Q & _)] & D)]]; [|discriminate|discriminate].
    pose proof (rest_shape p' LF) as S. rewrite <- Q in S. destruct S as (k' & -> & S). eapply IN; [exact L|apply re_get; exact R| |rewrite T; apply app_nil_r]. now rewrite S.
  - (* upd *)
    destruct (WHO _ _ _ A) as [[L (p' & tr2 & Q & LF & R & T)]|[_ (x & [[Q _]|(r & Q & _)] & D)]]; [|discriminate|discriminate].
    pose proof (rest_shape p' LF) as S. rewrite <- Q in S. destruct S as (k' & -> & ->). eapply IN; [exact L|apply re_upd; exact R|reflexivity|rewrite T; apply app_nil_r].
  - (* op *)
    destruct (WHO _ _ _ A) as [[L (p' & tr2 & Q & LF & R & T)]|[_ (x & [[Q _]|(r' & Q & _)] & D)]]; [|discriminate|discriminate].
    pose proof (rest_shape p' LF) as S. rewrite <- Q in S. destruct S as (k' & -> & S). eapply IN; [exact L|eapply re_op; eassumption|now rewrite S|].
    rewrite own_app, T, <- app_assoc. reflexivity.
  - (* return *)
    destruct (WHO _ _ _ A) as [[L (p' & tr2 & Q & LF & R & T)]|[NL (x & [[Q _]|(r' & Q & ->)] & D)]].
    + pose proof (rest_shape p' LF) as S. rewrite <- Q in S. destruct S.
    + discriminate.
    + injection Q as <-. eapply OUT; [reflexivity| |exact NL|reflexivity]. cbn. exists []. split; [reflexivity|]. now rewrite app_nil_r.
Qed.
Lemma steps_inv f w todo tr s : csteps P c (c_start f w todo) tr s -> inv f w tr s.
Proof.
  intros H. remember (c_start f w todo) as s0 eqn:E. induction H as [s|s tr s1 tr1 s2 H IH ST]; [subst|].
  - exists [], [], f, w. split; [constructor|]. cbn. repeat (split; [reflexivity|]). intros i. exists []. auto.
  - eapply step_inv; [apply IH; exact E|exact ST].
Qed.
Lemma serial_happens f w l tr f' w' : serial P c f w l tr f' w' -> forall good, Forall (fun x => good (snd x)) tr -> happens P c good f w (map hop_of l) f' w'.
Proof.
  intros H good. induction H as [f w|f w l tr f1 w1 i b tr1 f2 w2 [k e] S IH R]; intros G; [constructor|].
  apply Forall_app in G as [G1 G2]. specialize (IH G1). rewrite map_app. cbn.
  assert (G3 : Forall good tr1).
  { clear - G2. unfold own in G2. induction tr1; [constructor|]. inversion G2; subst. constructor; auto. }
  clear - IH R G3. induction IH; cbn; try (econstructor; eauto; fail). econstructor; [exact R|exact G3|constructor].
Qed.

(** * Each goroutine's calls, in its order *)
Definition calls (t : thread) : list str := map fst (t_done t) ++ match t_now t with Some (b, _) => [b] | None => [] end ++ t_todo t.
Lemma calls_inv f w todo tr s : csteps P c (c_start f w todo) tr s -> forall i, calls (c_threads s i) = todo i.
Proof.
  intros H. remember (c_start f w todo) as s0 eqn:E. induction H as [s|s tr s1 tr1 s2 H IH ST]; [subst; reflexivity|]. specialize (IH E). clear H E.
  assert (G : forall j b p k i, at_ s1 j b p -> calls (goto s1 j b k i) = todo i).
  { intros j b p k i A. rewrite <- IH. unfold goto. destruct (Nat.eq_dec i j) as [-> |N]; [|now rewrite set_other]. rewrite set_same. unfold calls. rewrite A. reflexivity. }
  intros i. inversion ST as [? j d b bs T|? j b k A L|? j b k A|? j b k A|? j b g k A|? j b o k r f' A EF|? j b r A]; subst; cbn [c_threads]; try (eapply G; exact A).
  - destruct (Nat.eq_dec i j) as [-> |N]; [|now rewrite set_other]. rewrite set_same, <- IH, T. reflexivity.
  - destruct (Nat.eq_dec i j) as [-> |N]; [|now rewrite set_other]. rewrite set_same, <- IH. unfold calls. rewrite A. cbn. rewrite map_app, <- app_assoc. reflexivity.
Qed.
(** * Somebody can go on *)
Lemma safe_reach {A} (p : mprog A) w f tr q w1 f1 (R : wst * A -> fs -> Prop) : reach p w f tr q w1 f1 -> safe R (solo p w) f -> safe R (solo q w1) f1.
Proof. intros H S. induction H; auto. specialize (IHreach S). cbn in IHreach. inversion IHreach; subst. auto. Qed.
Lemma safe_peq {A} (R : A -> fs -> Prop) p q f : safe R p f -> peq p q -> safe R q f.
Proof. intros S. revert q. induction S; intros q Q; inversion Q; subst; constructor; eauto. Qed.
Lemma peq_sym {A} (p q : prog A) : peq p q -> peq q p.
Proof. induction 1; constructor; auto. Qed.
Lemma serial_open f w l tr f' w' : serial P c f w l tr f' w' -> open_ok w f -> open_ok w' f'.
Proof.
  intros S O. induction S as [|f w l tr f1 w1 i b tr1 f2 w2 r S IH R]; auto.
  destruct (safe_runs _ _ _ (write_safe P c w1 b f1 (IH O))) as [X _]. apply (X _ _ _ R).
Qed.
Lemma progress f w todo tr s i : open_ok w f -> csteps P c (c_start f w todo) tr s ->
  (t_now (c_threads s i) <> None \/ t_todo (c_threads s i) <> []) -> exists tr' s', cstep P c s tr' s'.
Proof.
  intros O H NF. destruct (steps_inv _ _ _ _ _ H) as (l & tr0 & f1 & w1 & SE & I).
  destruct (c_lock s) as [j|] eqn:L.
  - destruct I as ((b & p & tr1 & A & R & _) & _ & _).
    pose proof (reach_lf _ _ _ _ _ _ _ R (body_lockfree b)) as LF.
    pose proof (safe_reach _ _ _ _ _ _ _ _ R (safe_peq _ _ _ _ (write_safe P c w1 b f1 (serial_open _ _ _ _ _ _ SE O)) (peq_sym _ _ (solo_body b w1)))) as S.
    destruct LF as [r|k LF|g k LF|o k LF]; unfold rest_of in A; cbn in A.
    + eexists _, _. eapply c_release. exact A.
    + eexists _, _. eapply c_get. exact A.
    + eexists _, _. eapply c_upd. exact A.
    + cbn in S. inversion S as [|? ? ? (r & f' & E) _]; subst. eexists _, _. eapply c_op; [exact A|exact E].
  - destruct I as (_ & _ & _ & OUT). destruct (OUT i) as (x & X & _). unfold outside in X.
    destruct (t_now (c_threads s i)) as [[b p]|] eqn:N.
    + destruct X as [[-> _]|(r & -> & _)].
      * eexists _, _. eapply c_acquire; [exact N|exact L].
      * eexists _, _. eapply c_return. exact N.
    + destruct NF as [NF|NF]; [now elim NF|]. destruct (c_threads s i) as [d n [|b bs]] eqn:T; [now elim NF|]. cbn in N. subst n. eexists _, _. eapply c_call. exact T.
Qed.
End Conf.

(** * Running a schedule, for examples *)
Record csim := mkCS { cs_lock : option nat; cs_w : wst; cs_sim : sim; cs_threads : nat -> thread }.
Definition cstate_of (s : csim) : cstate := mkC (cs_lock s) (cs_w s) (fs_of (cs_sim s)) (cs_threads s).
Definition move (s : csim) (i : nat) (t : thread) : nat -> thread := fun j => if Nat.eqb j i then t else cs_threads s j.
(** One step of goroutine [i]; none if it is blocked or has finished. *)
Definition cexec1 (P : tparse) (c : roll_conf) (s : csim) (i : nat) : option (list (nat * (fsop * fsres)) * csim) :=
  let t := cs_threads s i in
  match t_now t with
  | None =>
    match t_todo t with
    | [] => None
    | b :: bs => Some ([], mkCS (cs_lock s) (cs_w s) (cs_sim s) (move s i (mkT (t_done t) (Some (b, c_Write P c b)) bs)))
    end
  | Some (b, p) =>
    let to p := move s i (mkT (t_done t) (Some (b, p)) (t_todo t)) in
    match p with
    | MDone r => Some ([], mkCS (cs_lock s) (cs_w s) (cs_sim s) (move s i (mkT (t_done t ++ [(b, r)]) None (t_todo t))))
    | MLock k => match cs_lock s with None => Some ([], mkCS (Some i) (cs_w s) (cs_sim s) (to k)) | Some _ => None end
    | MUnlock k => Some ([], mkCS None (cs_w s) (cs_sim s) (to k))
    | MGet k => Some ([], mkCS (cs_lock s) (cs_w s) (cs_sim s) (to (k (cs_w s))))
    | MUpd g k => Some ([], mkCS (cs_lock s) (g (cs_w s)) (cs_sim s) (to k))
    | MOp o k => match do_op (cs_sim s) o with Some (r, s') => Some ([(i, (o, r))], mkCS (cs_lock s) (cs_w s) s' (to (k r))) | None => None end
    end
  end.
(** Goroutines that cannot move are passed over. *)
Fixpoint cexec (P : tparse) (c : roll_conf) (sched : list nat) (s : csim) : list (nat * (fsop * fsres)) * csim :=
  match sched with
  | [] => ([], s)
  | i :: rest =>
    match cexec1 P c s i with
    | None => cexec P c rest s
    | Some (tr, s1) => let '(tr2, s2) := cexec P c rest s1 in (tr ++ tr2, s2)
    end
  end.
Lemma cexec1_sound P c s i tr s' : finite (s_dir (cs_sim s)) (s_names (cs_sim s)) -> cexec1 P c s i = Some (tr, s') ->
  cstep P c (cstate_of s) tr (cstate_of s') /\ finite (s_dir (cs_sim s')) (s_names (cs_sim s')).
Proof.
  intros F H. unfold cexec1 in H. destruct (cs_threads s i) as [d n td] eqn:T. cbn [t_now t_todo t_done] in H.
  assert (G : forall b p, set_thread (cstate_of s) i (mkT (t_done (c_threads (cstate_of s) i)) (Some (b, p)) (t_todo (c_threads (cstate_of s) i))) = move s i (mkT d (Some (b, p)) td)).
  { intros b p. unfold set_thread, move. cbn. now rewrite T. }
  destruct n as [[b p]|].
  - assert (A : at_ (cstate_of s) i b p) by (unfold at_; cbn; now rewrite T).
    destruct p as [r|k|k|k|g k|o k].
    + injection H as <- <-. split; [|exact F]. pose proof (c_return P c _ _ _ _ A) as X. unfold set_thread in X. cbn in X. rewrite T in X. exact X.
    + destruct (cs_lock s) eqn:L; [discriminate|]. injection H as <- <-. split; [|exact F]. pose proof (c_acquire P c _ _ _ _ A L) as X. unfold goto in X. rewrite G in X. exact X.
    + injection H as <- <-. split; [|exact F]. pose proof (c_release P c _ _ _ _ A) as X. unfold goto in X. rewrite G in X. exact X.
    + injection H as <- <-. split; [|exact F]. pose proof (c_get P c _ _ _ _ A) as X. unfold goto in X. rewrite G in X. exact X.
    + injection H as <- <-. split; [|exact F]. pose proof (c_upd P c _ _ _ _ _ A) as X. unfold goto in X. rewrite G in X. exact X.
    + destruct (do_op (cs_sim s) o) as [[r sm]|] eqn:D; [|discriminate]. injection H as <- <-. apply do_sound in D as [D F2]; [|exact F]. split; [|exact F2].
      pose proof (c_op P c _ _ _ _ _ _ _ A D) as X. unfold goto in X. rewrite G in X. exact X.
  - destruct td as [|b bs]; [discriminate|]. injection H as <- <-. split; [|exact F].
    pose proof (c_call P c (cstate_of s) i d b bs) as X. cbn in X. exact (X T).
Qed.
Lemma csteps_app P c s tr s1 tr1 s2 : csteps P c s tr s1 -> csteps P c s1 tr1 s2 -> csteps P c s (tr ++ tr1) s2.
Proof. intros H H2. induction H2; [now rewrite app_nil_r|]. rewrite app_assoc. econstructor; eauto. Qed.
Lemma cexec_sound P c sched : forall s tr s', finite (s_dir (cs_sim s)) (s_names (cs_sim s)) -> cexec P c sched s = (tr, s') ->
  csteps P c (cstate_of s) tr (cstate_of s').
Proof.
  induction sched as [|i sched IH]; intros s tr s' F H; cbn in H.
  - injection H as <- <-. constructor.
  - destruct (cexec1 P c s i) as [[tr1 s1]|] eqn:E; [|eauto]. apply cexec1_sound in E as [ST F1]; [|exact F].
    destruct (cexec P c sched s1) as [tr2 s2] eqn:E2. injection H as <- <-. eapply csteps_app; [|eapply IH; eassumption].
    change tr1 with ([] ++ tr1). econstructor; [constructor|exact ST].
Qed.

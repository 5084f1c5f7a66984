(** Proofs about an output's formatter under unsynchronised access. *)
From Verif Require Import GoStr WorldModel WorldBase IfaceModel IfaceSpec.
From Coq Require Import Lia.
Import ListNotations.

Lemma put_at st c i t t0 : nth_error (f_threads st) i = Some t0 -> nth_error (f_threads (put st c i t)) i = Some t.
Proof. intros E. cbn. exact (nth_upd_eq i (fun _ => t) _ _ E). Qed.
Lemma put_other st c i t j : j <> i -> nth_error (f_threads (put st c i t)) j = nth_error (f_threads st) j.
Proof. intros N. cbn. now apply nth_upd_ne. Qed.
(** The thread [j] of the new state: the one that made the step, or as before. *)
Lemma put_case st c i t t0 j tj : nth_error (f_threads st) i = Some t0 -> nth_error (f_threads (put st c i t)) j = Some tj ->
  (j = i /\ tj = t) \/ (j <> i /\ nth_error (f_threads st) j = Some tj).
Proof.
  intros E H. destruct (Nat.eq_dec j i) as [->|N]; [left|right].
  - rewrite (put_at _ _ _ _ _ E) in H. injection H as <-. auto.
  - rewrite put_other in H by exact N. auto.
Qed.

(** One step of a call: what is seen, the formatter, and what remains. *)
Inductive pstep (i : nat) (k : look) : prog -> iface -> label -> iface -> prog -> Prop :=
| ps_type q c : pstep i k (GetType q) c Tau c (q (i_type c))
| ps_data q c : pstep i k (GetData q) c Tau c (q (i_data c))
| ps_settype t q c : pstep i k (SetType t q) c Tau (mkI t (i_data c)) q
| ps_setdata d q c : pstep i k (SetData d q) c Tau (mkI (i_type c) d) q
| ps_use f q c : pstep i k (Use f q) c (Got i (RUsed f)) c q
| ps_default q c : pstep i k (Default q) c (Got i RDefault) c q
| ps_crash c : pstep i k Crash c (Got i (RPanic k)) c Dead.
Inductive fcase (st : fstate) (i : nat) : label -> fstate -> Prop :=
| fc_began c cs : nth_error (f_threads st) i = Some (mkT None (c :: cs)) -> fcase st i (Began i c) (put st (f_cell st) i (mkT (Some (c, p_call c)) cs))
| fc_ended c cs : nth_error (f_threads st) i = Some (mkT (Some (c, Ret)) cs) -> fcase st i (Ended i c) (put st (f_cell st) i (mkT None cs))
| fc_step c p cs l c' q : nth_error (f_threads st) i = Some (mkT (Some (c, p)) cs) -> pstep i (look_of c) p (f_cell st) l c' q ->
    fcase st i l (put st c' i (mkT (Some (c, q)) cs)).
Lemma fnext_case st i l st' : fnext st i = Some (l, st') -> fcase st i l st'.
Proof.
  unfold fnext. destruct (nth_error (f_threads st) i) as [[[[c p]|] cs]|] eqn:E; [| |discriminate].
  - destruct p; intros H; try discriminate H; injection H as <- <-; first [now apply fc_ended|eapply fc_step; [exact E|constructor]].
  - destruct cs as [|c cs]; [discriminate|]. intros [= <- <-]. now apply fc_began.
Qed.

(** * Words that are in order *)
Section Words.
Context (okT : option nat -> Prop) (okD : nat -> Prop).
Definition ok (f : iface) : Prop := okT (i_type f) /\ okD (i_data f).
Inductive stores_ok : prog -> Prop :=
| so_ret : stores_ok Ret
| so_dead : stores_ok Dead
| so_type q : (forall t, stores_ok (q t)) -> stores_ok (GetType q)
| so_data q : (forall d, stores_ok (q d)) -> stores_ok (GetData q)
| so_settype t q : okT t -> stores_ok q -> stores_ok (SetType t q)
| so_setdata d q : okD d -> stores_ok q -> stores_ok (SetData d q)
| so_use f q : stores_ok q -> stores_ok (Use f q)
| so_default q : stores_ok q -> stores_ok (Default q)
| so_crash : stores_ok Crash.
Definition rok (r : result) : Prop :=
  match r with
  | RUsed f => ok f /\ i_type f <> None
  | RDefault => okT None
  | RPanic k => okT None /\ (k = Unchecked \/ exists t, okT (Some t))
  end.
Inductive good (k : look) : prog -> Prop :=
| go_ret : good k Ret
| go_dead : good k Dead
| go_type q : (forall t, okT t -> good k (q t)) -> good k (GetType q)
| go_data q : (forall d, okD d -> good k (q d)) -> good k (GetData q)
| go_settype t q : good k q -> good k (SetType t q)
| go_setdata d q : good k q -> good k (SetData d q)
| go_use f q : rok (RUsed f) -> good k q -> good k (Use f q)
| go_default q : rok RDefault -> good k q -> good k (Default q)
| go_crash : rok (RPanic k) -> good k Crash.
Lemma stores_call c : (forall tf f, c = CSet tf f -> ok f) -> stores_ok (p_call c).
Proof.
  intros H. assert (M : forall t d, stores_ok (p_method t d)) by (intros [t|] d; repeat constructor).
  assert (L : forall tf, stores_ok (p_load tf)) by (intros []; constructor; intros ?; constructor; intros ?; apply M).
  destruct c as [tf f|k tf]; cbn.
  - destruct (H _ _ eq_refl) as [T D]. destruct tf; repeat constructor; assumption.
  - destruct k as [[]|]; cbn; [| |apply L]; constructor; intros [t|]; [apply L|repeat constructor| |repeat constructor].
    constructor. intros d. exact (M (Some t) d).
Qed.
Lemma good_call c : good (look_of c) (p_call c).
Proof.
  assert (M : forall k t d, (k = Unchecked \/ exists t, okT (Some t)) -> okT t -> okD d -> good k (p_method t d)).
  { intros k [t|] d K T D; cbn; constructor; [|constructor|].
    - split; [split; assumption|discriminate].
    - split; assumption. }
  assert (L : forall k tf, (k = Unchecked \/ exists t, okT (Some t)) -> good k (p_load tf)).
  { intros k [] K; cbn; constructor; intros ? ?; constructor; intros ? ?; auto. }
  destruct c as [tf f|k tf]; cbn.
  - destruct tf; repeat constructor.
  - destruct k as [[]|]; cbn; [| |apply L; now left].
    + constructor. intros [t|] T; [apply L; right; eauto|]. constructor; [exact T|constructor].
    + constructor. intros [t|] T; [|constructor; [exact T|constructor]]. constructor. intros d D. apply M; eauto.
Qed.
Record inv (i : nat) (st : fstate) : Prop := {
  iv_cell : ok (f_cell st);
  iv_all : forall j t c p, nth_error (f_threads st) j = Some t -> t_now t = Some (c, p) -> stores_ok p;
  iv_mine : forall t c p, nth_error (f_threads st) i = Some t -> t_now t = Some (c, p) -> good (look_of c) p
}.
Lemma inv_step i st j l st' : inv i st -> fnext st j = Some (l, st') -> (forall j tf f, l = Began j (CSet tf f) -> ok f) ->
  inv i st' /\ (forall r, l = Got i r -> rok r).
Proof.
  intros [C A M] H B. destruct (fnext_case _ _ _ _ H) as [c cs E|c cs E|c p cs l c' q E S]; clear H.
  - split; [|discriminate]. constructor; [exact C| |].
    + intros j' t c0 p Et Tn. destruct (put_case _ _ _ _ _ _ _ E Et) as [[-> ->]|[N Et']]; [|eauto].
      cbn in Tn. injection Tn as <- <-. apply stores_call. intros tf f ->. eapply B; reflexivity.
    + intros t c0 p Et Tn. destruct (put_case _ _ _ _ _ _ _ E Et) as [[-> ->]|[N Et']]; [|eauto].
      cbn in Tn. injection Tn as <- <-. apply good_call.
  - split; [|discriminate]. constructor; [exact C| |].
    + intros j' t c0 p Et Tn. destruct (put_case _ _ _ _ _ _ _ E Et) as [[-> ->]|[N Et']]; [discriminate|eauto].
    + intros t c0 p Et Tn. destruct (put_case _ _ _ _ _ _ _ E Et) as [[-> ->]|[N Et']]; [discriminate|eauto].
  - pose proof (A _ _ _ _ E eq_refl) as So.
    assert (X : ok c' /\ stores_ok q /\ (j = i -> good (look_of c) q) /\ (forall r, l = Got i r -> rok r)).
    { assert (G : j = i -> good (look_of c) p) by (intros ->; exact (M _ _ _ E eq_refl)).
      destruct C as [CT CD]. destruct S; inversion So; subst; (split; [split; assumption|]); (split; [first [solve [auto]|constructor]|]);
        (split; [intros J; specialize (G J); inversion G; subst; auto; constructor|]); try discriminate;
        intros r R; injection R as J <-; subst j; specialize (G eq_refl); inversion G; subst; assumption. }
    destruct X as (X1 & X2 & X3 & X4). split; [|exact X4]. constructor; [exact X1| |].
    + intros j' t c0 p0 Et Tn. destruct (put_case _ _ _ _ _ _ _ E Et) as [[-> ->]|[N Et']]; [|eauto]. cbn in Tn. injection Tn as <- <-. exact X2.
    + intros t c0 p0 Et Tn. destruct (put_case _ _ _ _ _ _ _ E Et) as [[J ->]|[N Et']]; [|eauto]. cbn in Tn. injection Tn as <- <-. auto.
Qed.
Lemma results_app i tr tr' : results i (tr ++ tr') = results i tr ++ results i tr'.
Proof. induction tr as [|[] tr IH]; cbn; auto. destruct (i =? i0); cbn; congruence. Qed.
Lemma inv_steps i st0 tr st : fsteps st0 tr st -> inv i st0 -> (forall j tf f, In (Began j (CSet tf f)) tr -> ok f) -> inv i st /\ Forall rok (results i tr).
Proof.
  intros H I. induction H as [|tr st j l st' H IH E]; intros B; [split; [exact I|constructor]|].
  destruct IH as [IH R]; [intros; eapply B, in_or_app; left; eassumption|].
  destruct (inv_step _ _ _ _ _ IH E) as [I' R'].
  { intros j' tf f ->. eapply B, in_or_app. right. now left. }
  split; [exact I'|]. rewrite results_app. apply Forall_app. split; [exact R|]. cbn. destruct l as [| |j' r|]; try constructor.
  destruct (Nat.eqb_spec i j') as [<-|]; constructor; auto.
Qed.
End Words.

(** * How many results there are *)
Inductive owes : prog -> Prop :=
| ow_type q : (forall t, owes (q t)) -> owes (GetType q)
| ow_data q : (forall d, owes (q d)) -> owes (GetData q)
| ow_use f : owes (Use f Ret)
| ow_default : owes (Default Ret)
| ow_crash : owes Crash.
Inductive silent : prog -> Prop :=
| si_ret : silent Ret
| si_dead : silent Dead
| si_settype t q : silent q -> silent (SetType t q)
| si_setdata d q : silent q -> silent (SetData d q).
Lemma owes_use k tf : owes (p_use k tf).
Proof.
  assert (M : forall t d, owes (p_method t d)) by (intros [t|] d; constructor).
  assert (L : forall tf, owes (p_load tf)) by (intros []; constructor; intros ?; constructor; intros ?; apply M).
  destruct k as [[]|]; cbn; [| |apply L]; constructor; intros [t|]; [apply L|constructor| |constructor]. constructor. intros d. exact (M (Some t) d).
Qed.
Lemma silent_set tf f : silent (p_set tf f).
Proof. destruct tf; repeat constructor. Qed.
(** [n]: whether a result is still to come. *)
Definition due (st : fstate) (i : nat) (n : nat) : Prop :=
  forall t, nth_error (f_threads st) i = Some t ->
    match t_now t with None => n = 0 | Some (_, p) => (owes p /\ n = 1) \/ (silent p /\ n = 0) end.
Lemma uses_app i tr tr' : uses i (tr ++ tr') = uses i tr + uses i tr'.
Proof. induction tr as [|[? []| | |] tr IH]; cbn; auto. destruct (i =? i0); cbn; congruence. Qed.
Lemma count_steps i st0 tr st : fsteps st0 tr st -> idle st0 i -> exists n, due st i n /\ n <= 1 /\ uses i tr = length (results i tr) + n.
Proof.
  intros H I. induction H as [|tr st j l st' H IH E].
  - exists 0. split; [|split; [lia|reflexivity]]. destruct I as [cs I]. intros t Et. rewrite I in Et. injection Et as <-. reflexivity.
  - destruct IH as (n & D & N1 & C). rewrite uses_app, results_app, app_length.
    destruct (Nat.eq_dec j i) as [->|N].
    + destruct (fnext_case _ _ _ _ E) as [c cs E1|c cs E1|c p cs l c' q E1 S]; specialize (D _ E1); cbn in D.
      * subst n. cbn. rewrite Nat.eqb_refl. destruct c as [tf f|k tf].
        { exists 0. split; [|cbn; lia]. intros t Et. rewrite (put_at _ _ _ _ _ E1) in Et. injection Et as <-. cbn. right. split; [apply silent_set|reflexivity]. }
        { exists 1. split; [|cbn; lia]. intros t Et. rewrite (put_at _ _ _ _ _ E1) in Et. injection Et as <-. cbn. left. split; [apply owes_use|reflexivity]. }
      * exists 0. destruct D as [[D _]|[_ ->]]; [inversion D|]. split; [|cbn; lia]. intros t Et. rewrite (put_at _ _ _ _ _ E1) in Et. injection Et as <-. reflexivity.
      * assert (P : forall m, ((owes q /\ m = 1) \/ (silent q /\ m = 0)) -> due (put st c' i (mkT (Some (c, q)) cs)) i m).
        { intros m X t Et. rewrite (put_at _ _ _ _ _ E1) in Et. injection Et as <-. exact X. }
        destruct D as [[D ->]|[D ->]]; destruct S; inversion D; subst; cbn; rewrite ?Nat.eqb_refl; cbn.
        1, 2: exists 1; split; [apply P; left; auto|cbn; lia].
        1, 2, 3: exists 0; split; [apply P; right; split; [constructor|reflexivity]|cbn; lia].
        all: exists 0; split; [apply P; right; auto|cbn; lia].
    + exists n. assert (X : due st' i n /\ uses i [l] = 0 /\ results i [l] = []); [|destruct X as (X1 & -> & ->); split; [exact X1|cbn; lia]].
      destruct (fnext_case _ _ _ _ E) as [c cs E1|c cs E1|c p cs l c' q E1 S].
      * split; [intros t Et; rewrite put_other in Et by auto; exact (D t Et)|]. cbn. destruct (Nat.eqb_spec i j); [congruence|]. destruct c; auto.
      * split; [intros t Et; rewrite put_other in Et by auto; exact (D t Et)|]. auto.
      * split; [intros t Et; rewrite put_other in Et by auto; exact (D t Et)|]. destruct S; cbn; auto; destruct (Nat.eqb_spec i j); auto; congruence.
Qed.

(** * Setters in turn *)
Fixpoint solo (p : prog) (c : iface) : iface :=
  match p with
  | Ret | Dead | Crash => c
  | GetType q => solo (q (i_type c)) c
  | GetData q => solo (q (i_data c)) c
  | SetType t q => solo q (mkI t (i_data c))
  | SetData d q => solo q (mkI (i_type c) d)
  | Use _ q | Default q => solo q c
  end.
Lemma solo_step i k p c l c' q : pstep i k p c l c' q -> solo q c' = solo p c.
Proof. now destruct 1. Qed.
Notation nostore := (stores_ok (fun _ => False) (fun _ => False)).
Lemma nostore_step i k p c l c' q : pstep i k p c l c' q -> nostore p -> c' = c /\ nostore q.
Proof. destruct 1; intros N; inversion N; subst; try contradiction; split; auto; constructor. Qed.
Lemma nostore_use k tf : nostore (p_use k tf).
Proof. apply (stores_call _ _ (CUse k tf)). discriminate. Qed.
Definition readers (st : fstate) : Prop := forall j t c p, nth_error (f_threads st) j = Some t -> t_now t = Some (c, p) -> is_set c = false -> nostore p.
Lemma readers_step st j l st' : readers st -> fnext st j = Some (l, st') -> readers st'.
Proof.
  intros R H. destruct (fnext_case _ _ _ _ H) as [c cs E|c cs E|c p cs l c' q E S]; intros j' t c0 p0 Et Tn Is;
    destruct (put_case _ _ _ _ _ _ _ E Et) as [[-> ->]|[N Et']]; try (eapply R; eassumption); cbn in Tn.
  - injection Tn as <- <-. destruct c; [discriminate|]. apply nostore_use.
  - discriminate.
  - injection Tn as <- <-. eapply nostore_step; [exact S|]. eapply R; [exact E|reflexivity|exact Is].
Qed.
Lemma readers_init c progs : readers (f_init c progs).
Proof. intros j t c0 p E T. cbn in E. rewrite nth_error_map in E. destruct (nth_error progs j); [|discriminate]. injection E as <-. discriminate. Qed.
Lemma readers_steps st0 tr st : fsteps st0 tr st -> readers st0 -> readers st.
Proof. intros H R. induction H; [exact R|]. eapply readers_step; eassumption. Qed.
Lemma serial_steps c progs tr st : sreach c progs tr st -> fsteps (f_init c progs) tr st.
Proof. induction 1; econstructor; eassumption. Qed.
Lemma last_app tr : forall f l, last_set f (tr ++ [l]) = match l with Ended _ (CSet _ f') => f' | _ => last_set f tr end.
Proof. induction tr as [|x tr IH]; intros f l; cbn; [destruct l as [| |? ?|]; try reflexivity; now destruct c|]. destruct x as [|? []| |]; apply IH. Qed.
(** Either nobody sets, or one goroutine does, and the rest of its program makes its formatter the one. *)
Definition settled (c : iface) (tr : list label) (st : fstate) : Prop :=
  (~ setting st /\ f_cell st = last_set c tr) \/
  (exists i t tf f p, nth_error (f_threads st) i = Some t /\ t_now t = Some (CSet tf f, p) /\ solo p (f_cell st) = f /\
    forall j t' c' p', j <> i -> nth_error (f_threads st) j = Some t' -> t_now t' = Some (c', p') -> is_set c' = false).
Lemma serial_settled c progs tr st : sreach c progs tr st -> settled c tr st.
Proof.
  intros H. induction H as [|tr st i l st' H IH E B].
  - left. split; [|reflexivity]. intros (i & t & c0 & p & E & T & _). cbn in E. rewrite nth_error_map in E.
    destruct (nth_error progs i); [|discriminate]. injection E as <-. discriminate.
  - pose proof (readers_steps _ _ _ (serial_steps _ _ _ _ H) (readers_init c progs)) as R.
    unfold settled. rewrite last_app. destruct (fnext_case _ _ _ _ E) as [k cs E1|k cs E1|k p cs l c' q E1 S].
    + destruct k as [tf f|k tf].
      * assert (NS : ~ setting st) by (eapply B; reflexivity). right. exists i, (mkT (Some (CSet tf f, p_set tf f)) cs), tf, f, (p_set tf f).
        split; [eapply put_at; exact E1|]. split; [reflexivity|]. split; [destruct f, tf; reflexivity|].
        intros j t' c' p' N Et Tn. rewrite put_other in Et by exact N. destruct (is_set c') eqn:Is; [|reflexivity]. destruct NS. exists j, t', c', p'. auto.
      * destruct IH as [[NS C]|(j & t & tf' & f & p & Ej & Tj & So & O)].
        { left. split; [|exact C]. intros (j & t & c0 & p & Et & Tn & Is). destruct (put_case _ _ _ _ _ _ _ E1 Et) as [[-> ->]|[N Et']].
          - injection Tn as <- <-. discriminate.
          - apply NS. exists j, t, c0, p. auto. }
        { assert (N : j <> i) by (intros ->; rewrite E1 in Ej; injection Ej as <-; discriminate).
          right. exists j, t, tf', f, p. split; [rewrite put_other by exact N; exact Ej|]. split; [exact Tj|]. split; [exact So|].
          intros j' t' c' p' N' Et Tn. destruct (put_case _ _ _ _ _ _ _ E1 Et) as [[-> ->]|[N2 Et']]; [injection Tn as <- <-; reflexivity|eauto]. }
    + destruct IH as [[NS C]|(j & t & tf' & f & p & Ej & Tj & So & O)].
      * assert (Is : is_set k = false). { destruct (is_set k) eqn:Is; [|reflexivity]. destruct NS. exists i, (mkT (Some (k, Ret)) cs), k, Ret. auto. }
        left. split; [|destruct k; [discriminate|exact C]]. intros (j & t & c0 & p & Et & Tn & Is'). destruct (put_case _ _ _ _ _ _ _ E1 Et) as [[-> ->]|[N Et']]; [discriminate|].
        apply NS. exists j, t, c0, p. auto.
      * destruct (Nat.eq_dec j i) as [->|N].
        { rewrite E1 in Ej. injection Ej as <-. injection Tj as -> <-. cbn in So. left. split; [|exact So].
          intros (j & t & c0 & p & Et & Tn & Is). destruct (put_case _ _ _ _ _ _ _ E1 Et) as [[-> ->]|[N Et']]; [discriminate|].
          rewrite (O _ _ _ _ N Et' Tn) in Is. discriminate. }
        { assert (Is : is_set k = false) by (eapply O; [|exact E1|reflexivity]; congruence).
          right. exists j, t, tf', f, p. split; [rewrite put_other by exact N; exact Ej|]. split; [exact Tj|]. split; [exact So|].
          intros j' t' c' p' N' Et Tn. destruct (put_case _ _ _ _ _ _ _ E1 Et) as [[-> ->]|[N2 Et']]; [discriminate|eauto]. }
    + assert (L : match l with Ended _ (CSet _ f') => f' | _ => last_set c tr end = last_set c tr) by (destruct S; reflexivity). rewrite L.
      destruct IH as [[NS C]|(j & t & tf' & f & p0 & Ej & Tj & So & O)].
      * assert (Is : is_set k = false). { destruct (is_set k) eqn:Is; [|reflexivity]. destruct NS. exists i, (mkT (Some (k, p)) cs), k, p. auto. }
        destruct (nostore_step _ _ _ _ _ _ _ S (R _ _ _ _ E1 eq_refl Is)) as [-> _].
        left. split; [|exact C]. intros (j & t & c0 & p' & Et & Tn & Is'). destruct (put_case _ _ _ _ _ _ _ E1 Et) as [[-> ->]|[N Et']].
        { injection Tn as <- <-. congruence. }
        { apply NS. exists j, t, c0, p'. auto. }
      * destruct (Nat.eq_dec j i) as [->|N].
        { rewrite E1 in Ej. injection Ej as <-. injection Tj as -> ->. right. exists i, (mkT (Some (CSet tf' f, q)) cs), tf', f, q.
          split; [eapply put_at; exact E1|]. split; [reflexivity|]. split; [cbn; rewrite (solo_step _ _ _ _ _ _ _ S); exact So|].
          intros j' t' c2 p' N' Et Tn. rewrite put_other in Et by exact N'. eauto. }
        { assert (Is : is_set k = false) by (eapply O; [|exact E1|reflexivity]; congruence).
          destruct (nostore_step _ _ _ _ _ _ _ S (R _ _ _ _ E1 eq_refl Is)) as [-> _].
          right. exists j, t, tf', f, p0. split; [rewrite put_other by exact N; exact Ej|]. split; [exact Tj|]. split; [exact So|].
          intros j' t' c2 p' N' Et Tn. destruct (put_case _ _ _ _ _ _ _ E1 Et) as [[-> ->]|[N2 Et']]; [injection Tn as <- <-; exact Is|eauto]. }
Qed.
(** Schedules. *)
Lemma frun_steps sc : forall st0 tr0 st tr st', fsteps st0 tr0 st -> frun st sc = Some (tr, st') -> fsteps st0 (tr0 ++ tr) st'.
Proof.
  induction sc as [|i sc IH]; intros st0 tr0 st tr st' H R; cbn in R; [injection R as <- <-; now rewrite app_nil_r|].
  destruct (fnext st i) as [[l st1]|] eqn:E; [|discriminate]. destruct (frun st1 sc) as [[ls st2]|] eqn:E2; [|discriminate]. injection R as <- <-.
  change (l :: ls) with ([l] ++ ls). rewrite app_assoc. eapply IH; [|exact E2]. econstructor; eassumption.
Qed.
Definition settingb (st : fstate) : bool := existsb (fun t => match t_now t with Some (k, _) => is_set k | None => false end) (f_threads st).
Lemma settingb_ok st : settingb st = false -> ~ setting st.
Proof.
  intros B (i & t & c & p & E & N & F). assert (settingb st = true); [|congruence].
  apply existsb_exists. exists t. split; [eapply nth_error_In; exact E|]. rewrite N. exact F.
Qed.
Fixpoint serialb (st : fstate) (sc : list nat) : bool :=
  match sc with
  | [] => true
  | i :: sc' => match fnext st i with
                | None => true
                | Some (l, st1) => match l with Began _ (CSet _ _) => negb (settingb st) | _ => true end && serialb st1 sc'
                end
  end.
Lemma frun_serial c progs : forall sc st ls st', frun st sc = Some (ls, st') -> serialb st sc = true ->
  forall tr, sreach c progs tr st -> sreach c progs (tr ++ ls) st'.
Proof.
  induction sc as [|i sc IH]; intros st ls st' E B tr R; cbn [frun serialb] in E, B; [injection E as <- <-; rewrite app_nil_r; exact R|].
  destruct (fnext st i) as [[l st1]|] eqn:W; [|discriminate]. destruct (frun st1 sc) as [[ls' st2]|] eqn:W2; [|discriminate]. injection E as <- <-.
  apply andb_prop in B. destruct B as [B1 B2].
  change (l :: ls') with ([l] ++ ls'). rewrite app_assoc. eapply IH; [exact W2|exact B2|]. econstructor; [exact R|exact W|].
  intros j k -> F. destruct k; [|discriminate F]. apply settingb_ok. destruct (settingb st); [discriminate B1|reflexivity].
Qed.
